(** * Serialization with the output string and a step counter: the functions of Dump.v, line by line, each
    also counting the work it does.

    The functions append to [out]. Charged as in Cost.v: one unit for every byte read, every byte appended, every
    call and every turn of a loop; growing a std::string is amortised constant per byte. A
    traversal of a std::map of m members follows 2 m edges of its tree, two per member.
    Model only; that the counter and [out] change nothing else is [dumps_time] in DumpCostProofs.v. *)
From Verif Require Import Base Value Dump Cost.

(** append_escaped_string, utils.hpp:394-444 *)
Fixpoint escape_c (cur beg out : bytes) : cost bytes :=
  match cur with
  | [] => tick 1 (append_c out (slice beg cur))
  | ch :: r =>
      tick 3
      (match escape_letter ch with
       | Some e =>
           tdo out <- append_c out (slice beg cur);
           tdo out <- append_c out [92];
           tdo out <- append_c out [e];
           escape_c r r out
       | None =>
           if ch <? 32 then
             tdo out <- append_c out (slice beg cur);
             tdo out <- append_c out [92; 117; 48; 48];
             tdo out <- append_c out [hex_digit (N.shiftr ch 4)];
             tdo out <- append_c out [hex_digit (N.land ch 15)];
             escape_c r r out
           else escape_c r beg out
       end)
  end.
(** the two quotes and the text between them, value_impl.hpp:780-782, object_impl.hpp:133-135, 159-161 *)
Definition quoted_c (s out : bytes) : cost bytes :=
  tdo out <- append_c out [34];
  tdo out <- escape_c s s out;
  append_c out [34].
Definition comma_c {A} (r : list A) (out : bytes) : cost bytes :=
  match r with [] => tick 1 (ret out) | _ => append_c out [44] end.

Section Bodies.
  Context (f : value -> bytes -> cost bytes).
  (** array_impl.hpp:202-212 *)
  Fixpoint dump_elems_c (l : array) (out : bytes) : cost bytes :=
    tick 2
    match l with
    | [] => ret out
    | v :: r =>
        tdo out <- f v out;
        tdo out <- comma_c r out;
        dump_elems_c r out
    end.
  Definition dump_array_c (l : array) (out : bytes) : cost bytes :=
    tdo out <- append_c out [91];
    tdo out <- dump_elems_c l out;
    append_c out [93].
  (** object_impl.hpp:128-143 *)
  Fixpoint dump_members_c (l : object) (out : bytes) : cost bytes :=
    tick 4
    match l with
    | [] => ret out
    | (k, v) :: r =>
        tdo out <- quoted_c k out;
        tdo out <- append_c out [58];
        tdo out <- f v out;
        tdo out <- comma_c r out;
        dump_members_c r out
    end.
  Definition dump_object_c (l : object) (out : bytes) : cost bytes :=
    tdo out <- append_c out [123];
    tdo out <- dump_members_c l out;
    append_c out [125].
  (** array_impl.hpp:221-235 *)
  Fixpoint format_elems_c (indent times : N) (l : array) (out : bytes) : cost bytes :=
    tick 2
    match l with
    | [] => ret out
    | v :: r =>
        tdo out <- append_c out (spaces (indent * (times + 1)));
        tdo out <- f v out;
        tdo out <- comma_c r out;
        tdo out <- append_c out [10];
        format_elems_c indent times r out
    end.
  Definition format_array_c (indent times : N) (l : array) (out : bytes) : cost bytes :=
    tdo out <- append_c out [91];
    tdo out <- append_c out [10];
    tdo out <- format_elems_c indent times l out;
    tdo out <- append_c out (spaces (indent * times));
    append_c out [93].
  (** object_impl.hpp:152-172 *)
  Fixpoint format_members_c (indent times : N) (l : object) (out : bytes) : cost bytes :=
    tick 4
    match l with
    | [] => ret out
    | (k, v) :: r =>
        tdo out <- append_c out (spaces (indent * (times + 1)));
        tdo out <- quoted_c k out;
        tdo out <- append_c out [58];
        tdo out <- append_c out [32];
        tdo out <- f v out;
        tdo out <- comma_c r out;
        tdo out <- append_c out [10];
        format_members_c indent times r out
    end.
  Definition format_object_c (indent times : N) (l : object) (out : bytes) : cost bytes :=
    tdo out <- append_c out [123];
    tdo out <- append_c out [10];
    tdo out <- format_members_c indent times l out;
    tdo out <- append_c out (spaces (indent * times));
    append_c out [125].
End Bodies.

(** value::dump_to, value_impl.hpp:769-793 *)
Fixpoint dump_c (v : value) (out : bytes) : cost bytes :=
  tick 2
  match v with
  | VStr t s =>
      match t with
      | Tnull => append_c out null_string
      | Tboolean | Tnumber => append_c out s
      | Tstring => quoted_c s out
      | Tarray | Tobject => stop (Throw BadVariant)
      | Tinvalid => stop (Throw JsonException)
      end
  | VArr t p =>
      match t with
      | Tnull => append_c out null_string
      | Tarray => match p with Some l => dump_array_c dump_c l out | None => stop Ub end
      | Tboolean | Tnumber | Tstring | Tobject => stop (Throw BadVariant)
      | Tinvalid => stop (Throw JsonException)
      end
  | VObj t p =>
      match t with
      | Tnull => append_c out null_string
      | Tobject => match p with Some l => dump_object_c dump_c l out | None => stop Ub end
      | Tboolean | Tnumber | Tstring | Tarray => stop (Throw BadVariant)
      | Tinvalid => stop (Throw JsonException)
      end
  end.
(** value::format_to, value_impl.hpp:802-820 *)
Fixpoint format_c (indent times : N) (v : value) (out : bytes) : cost bytes :=
  tick 2
  match v with
  | VStr t s =>
      match t with
      | Tarray | Tobject => stop (Throw BadVariant)
      | _ => dump_c v out
      end
  | VArr t p =>
      match t with
      | Tarray => match p with Some l => format_array_c (format_c indent (times + 1)) indent times l out | None => stop Ub end
      | Tobject => stop (Throw BadVariant)
      | _ => dump_c v out
      end
  | VObj t p =>
      match t with
      | Tobject => match p with Some l => format_object_c (format_c indent (times + 1)) indent times l out | None => stop Ub end
      | Tarray => stop (Throw BadVariant)
      | _ => dump_c v out
      end
  end.
(** value::to_string, format, dumps, value_impl.hpp:762-767, 795-800, 822-831: [out] is a new string *)
Definition dumps_c (indent : option N) (v : value) : cost bytes :=
  tick 2 (match indent with
          | Some n => format_c n 0 v []
          | None => dump_c v []
          end).
