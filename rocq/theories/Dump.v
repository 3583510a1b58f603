(** * Serialization: append_escaped_string, dump_to, format_to.

    The C++ functions append to an output string [out]; the model returns the
    text appended. [out.append] never fails here (unbounded memory). *)
From Verif Require Import Base Value.

(** hex_digit, utils.hpp:389-392 *)
Definition hex_digit (n : N) : N := if n <? 10 then 48 + n else 97 + n - 10.
(** The switch of append_escaped_string, utils.hpp:403-427 *)
Definition escape_letter (ch : N) : option N :=
  if ch =? 34 then Some 34
  else if ch =? 92 then Some 92
  else if ch =? 8 then Some 98
  else if ch =? 12 then Some 102
  else if ch =? 10 then Some 110
  else if ch =? 13 then Some 114
  else if ch =? 9 then Some 116
  else None.
(** append_escaped_string, utils.hpp:394-444 *)
Fixpoint escape_loop (cur beg result : bytes) : bytes :=
  match cur with
  | [] => result ++ slice beg cur
  | ch :: r =>
      match escape_letter ch with
      | Some e => escape_loop r r (result ++ slice beg cur ++ [92; e])
      | None =>
          if ch <? 32 then
            escape_loop r r
              (result ++ slice beg cur
                 ++ [92; 117; 48; 48; hex_digit (N.shiftr ch 4); hex_digit (N.land ch 15)])
          else escape_loop r beg result
      end
  end.
(** escape_string, utils.hpp:446-453 *)
Definition escape_string (s : bytes) : bytes := escape_loop s s [].

(** [out.append(n, ' ')] with [n] of type size_t (64 bits): products wrap around. *)
Definition size_mod : N := 2 ^ 64.
Definition spaces (n : N) : bytes := repeat 32 (N.to_nat (n mod size_mod)).

Section Bodies.
  Context (f : value -> res bytes).
  (** the loop of array::dump_to, array_impl.hpp:205-210 *)
  Fixpoint dump_elems (l : array) : res bytes :=
    match l with
    | [] => Ok []
    | v :: r =>
        do t <- f v;
        do ts <- dump_elems r;
        Ok (t ++ (match r with [] => [] | _ => [44] end) ++ ts)
    end.
  (** array::dump_to, array_impl.hpp:202-212 *)
  Definition dump_array_with (l : array) : res bytes :=
    do body <- dump_elems l; Ok ([91] ++ body ++ [93]).
  (** the loop of object::dump_to, object_impl.hpp:131-141 *)
  Fixpoint dump_members (l : object) : res bytes :=
    match l with
    | [] => Ok []
    | (k, v) :: r =>
        do t <- f v;
        do ts <- dump_members r;
        Ok ([34] ++ escape_string k ++ [34; 58] ++ t
              ++ (match r with [] => [] | _ => [44] end) ++ ts)
    end.
  (** object::dump_to, object_impl.hpp:128-143 *)
  Definition dump_object_with (l : object) : res bytes :=
    do body <- dump_members l; Ok ([123] ++ body ++ [125]).
  (** the loop of array::format_to, array_impl.hpp:225-232; [f] formats a nested value *)
  Fixpoint format_elems (indent times : N) (l : array) : res bytes :=
    match l with
    | [] => Ok []
    | v :: r =>
        do t <- f v;
        do ts <- format_elems indent times r;
        Ok (spaces (indent * (times + 1)) ++ t
              ++ (match r with [] => [] | _ => [44] end) ++ [10] ++ ts)
    end.
  (** array::format_to, array_impl.hpp:221-235 *)
  Definition format_array_with (indent times : N) (l : array) : res bytes :=
    do body <- format_elems indent times l;
    Ok ([91; 10] ++ body ++ spaces (indent * times) ++ [93]).
  (** the loop of object::format_to, object_impl.hpp:156-169 *)
  Fixpoint format_members (indent times : N) (l : object) : res bytes :=
    match l with
    | [] => Ok []
    | (k, v) :: r =>
        do t <- f v;
        do ts <- format_members indent times r;
        Ok (spaces (indent * (times + 1)) ++ [34] ++ escape_string k ++ [34; 58; 32] ++ t
              ++ (match r with [] => [] | _ => [44] end) ++ [10] ++ ts)
    end.
  (** object::format_to, object_impl.hpp:152-172 *)
  Definition format_object_with (indent times : N) (l : object) : res bytes :=
    do body <- format_members indent times l;
    Ok ([123; 10] ++ body ++ spaces (indent * times) ++ [125]).
End Bodies.

(** value::dump_to, value_impl.hpp:769-793. as_basic_type_str (value_impl.hpp:731-739)
    and the const as_array/as_object (622-638) call std::get, which throws
    bad_variant_access when another alternative is active; a null pointer is
    dereferenced ([Ub]). *)
Fixpoint dump (v : value) : res bytes :=
  match v with
  | VStr t s =>
      match t with
      | Tnull => Ok null_string
      | Tboolean | Tnumber => Ok s
      | Tstring => Ok ([34] ++ escape_string s ++ [34])
      | Tarray | Tobject => Throw BadVariant
      | Tinvalid => Throw JsonException
      end
  | VArr t p =>
      match t with
      | Tnull => Ok null_string
      | Tarray => match p with Some l => dump_array_with dump l | None => Ub end
      | Tboolean | Tnumber | Tstring | Tobject => Throw BadVariant
      | Tinvalid => Throw JsonException
      end
  | VObj t p =>
      match t with
      | Tnull => Ok null_string
      | Tobject => match p with Some l => dump_object_with dump l | None => Ub end
      | Tboolean | Tnumber | Tstring | Tarray => Throw BadVariant
      | Tinvalid => Throw JsonException
      end
  end.

(** value::format_to, value_impl.hpp:802-820 *)
Fixpoint format_to (indent times : N) (v : value) : res bytes :=
  match v with
  | VStr t s =>
      match t with
      | Tarray | Tobject => Throw BadVariant
      | _ => dump v
      end
  | VArr t p =>
      match t with
      | Tarray =>
          match p with
          | Some l => format_array_with (format_to indent (times + 1)) indent times l
          | None => Ub
          end
      | Tobject => Throw BadVariant
      | _ => dump v
      end
  | VObj t p =>
      match t with
      | Tobject =>
          match p with
          | Some l => format_object_with (format_to indent (times + 1)) indent times l
          | None => Ub
          end
      | Tarray => Throw BadVariant
      | _ => dump v
      end
  end.

(** value::dumps(optional<size_t>), value::to_string, value::format(size_t),
    value_impl.hpp:762-767, 822-831 *)
Definition dumps (indent : option N) (v : value) : res bytes :=
  match indent with
  | Some n => format_to n 0 v
  | None => dump v
  end.
(** array::dumps, array_impl.hpp:195-200, 237-245 and object::dumps, object_impl.hpp:121-126, 174-182 *)
Definition array_dumps (indent : option N) (l : array) : res bytes :=
  match indent with
  | Some n => format_array_with (format_to n 1) n 0 l
  | None => dump_array_with dump l
  end.
Definition object_dumps (indent : option N) (l : object) : res bytes :=
  match indent with
  | Some n => format_object_with (format_to n 1) n 0 l
  | None => dump_object_with dump l
  end.
