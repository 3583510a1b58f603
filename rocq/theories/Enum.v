(** * Enum reflection: include/common/enum_reflection.hpp. Model only. *)
From Verif Require Import Base Value Containers Num.

(** ** Names out of the text of the template instance *)
Definition bytes_index (c : N) : bytes -> option nat :=
  fix go s := match s with
  | [] => None
  | x :: r => if x =? c then Some O else match go r with Some n => Some (S n) | None => None end
  end.
(** string_view::find_last_of for one character *)
Definition bytes_last_index (c : N) (s : bytes) : option nat :=
  match bytes_index c (rev s) with Some n => Some (length s - 1 - n)%nat | None => None end.
Fixpoint starts_with (p s : bytes) : bool :=
  match p, s with
  | [], _ => true
  | a :: p', b :: s' => (a =? b) && starts_with p' s'
  | _, _ => false
  end.
(** string_view::find for a string *)
Fixpoint find_str (p s : bytes) : option nat :=
  if starts_with p s then Some O
  else match s with [] => None | _ :: r => match find_str p r with Some n => Some (S n) | None => None end end.
(** substr(start, end - start); when end < start the unsigned difference is larger than any text *)
Definition cut (s : bytes) (start end_ : nat) : bytes :=
  if Nat.ltb end_ start then skipn start s else firstn (end_ - start) (skipn start s).
(** the part after the last colon, 42-45 and 67-70 *)
Definition after_colon (t : bytes) : bytes :=
  match bytes_last_index 58 t with Some n => skipn (n + 1) t | None => t end.
(** name<E, V>(), 27-46 (GCC and Clang), as a function of __PRETTY_FUNCTION__ *)
Definition name_of_pretty (pretty : bytes) : bytes :=
  match find_str (of_string "V = ") pretty with
  | None => []
  | Some start =>
      match bytes_last_index 93 pretty with       (* find_last_of(']') *)
      | None => []
      | Some e =>
          let t := cut pretty (start + 4) e in
          let t := match bytes_index 59 t with Some n => firstn n t | None => t end in   (* ';' *)
          after_colon t
      end
  end.
(** the loop over spaces, 56-58 *)
Fixpoint skip_spaces (s : bytes) : nat :=
  match s with c :: r => if c =? 32 then S (skip_spaces r) else O | [] => O end.
(** name<E, V>(), 50-71 (MSVC), as a function of __FUNCSIG__ *)
Definition name_of_funcsig (sig : bytes) : bytes :=
  match bytes_index 44 sig with                   (* find(',') *)
  | None => []
  | Some n =>
      let start := (n + 1)%nat in
      let start := (start + skip_spaces (skipn start sig))%nat in
      match bytes_last_index 62 sig with          (* find_last_of('>') *)
      | None => []
      | Some e => after_colon (cut sig start e)
      end
  end.
Definition is_alpha_ (c : N) : bool := ((97 <=? c) && (c <=? 122)) || ((65 <=? c) && (c <=? 90)) || (c =? 95).
Definition is_alnum_ (c : N) : bool := is_alpha_ c || ((48 <=? c) && (c <=? 57)).
(** is_valid<E, V>(), 80-111, on name<E, V>() (the last test, for brackets, can not fail
    after the others) *)
Definition name_is_valid (n : bytes) : bool :=
  match n with
  | [] => false
  | c :: r => is_alpha_ c && forallb is_alnum_ r
  end.

(** ** An enumeration *)
Inductive compiler := GCC | Clang | MSVC.
Record enum : Type := EnumOf {
  (* underlying type: [None] is bool, otherwise signedness and width *)
  e_underlying : option (bool * N);
  (* the values of an enumeration without fixed underlying type ([dcl.enum]); [None]: fixed *)
  e_values : option (Z * Z);
  (* the enumerators in order of declaration *)
  e_decl : list (bytes * Z);
  (* enum_range<E>, 157-162: _MEOJSON_ENUM_MIN/MAX or -128..128 *)
  e_lo : Z;
  e_hi : Z;
  (* the compiler, how it prints the type, and what it prints before an enumerator's name *)
  e_cc : compiler;
  e_type : bytes;
  e_scope : bytes;
}.
(** static_cast to an integer type: two's complement truncation *)
Definition wrap (sg : bool) (w : N) (z : Z) : Z :=
  let m := (2 ^ Z.of_N w)%Z in
  if sg then let h := (2 ^ (Z.of_N w - 1))%Z in ((z + h) mod m - h)%Z else (z mod m)%Z.
(** static_cast<E>(int): conversion to the underlying type *)
Definition e_cast (e : enum) (z : Z) : Z :=
  match e_underlying e with
  | None => if (z =? 0)%Z then 0%Z else 1%Z
  | Some (sg, w) => wrap sg w z
  end.
Fixpoint first_name (z : Z) (d : list (bytes * Z)) : option bytes :=
  match d with
  | [] => None
  | (n, z') :: r => if (z =? z')%Z then Some n else first_name z r
  end.
(** How compilers print the template argument V: the first enumerator declared with the value, or a
    cast expression if there is none (MSVC prints the number in base 16). *)
Definition value_text (e : enum) (z : Z) : bytes :=
  match first_name z (e_decl e) with
  | Some n => e_scope e ++ n
  | None => of_string "(" ++ e_type e ++ of_string ")" ++ to_string_Z z
  end.
(** __PRETTY_FUNCTION__ or __FUNCSIG__ of name<E, V>() *)
Definition instance_text (e : enum) (z : Z) : bytes :=
  match e_cc e with
  | GCC => of_string "constexpr std::string_view json::_reflection::name() [with E = " ++ e_type e ++
           of_string "; E V = " ++ value_text e z ++ of_string "; std::string_view = std::basic_string_view<char>]"
  | Clang => of_string "std::string_view json::_reflection::name() [E = " ++ e_type e ++
             of_string ", V = " ++ value_text e z ++ of_string "]"
  | MSVC => of_string "class std::basic_string_view<char,struct std::char_traits<char> > __cdecl json::_reflection::name<enum " ++
            e_type e ++ of_string "," ++ value_text e z ++ of_string ">(void) noexcept"
  end.
(** name<E, V>(), 22-78 *)
Definition e_name (e : enum) (z : Z) : bytes :=
  match e_cc e with MSVC => name_of_funcsig (instance_text e z) | _ => name_of_pretty (instance_text e z) end.
(** an element of enum_name_storage<E>::names, 164-180: the name for static_cast<E>([i]) *)
Definition name_at (e : enum) (i : Z) : bytes :=
  let n := e_name e (e_cast e i) in if name_is_valid n then n else [].
Definition e_range (e : enum) : Z := (e_hi e - e_lo e + 1)%Z.
(** static_cast<int>(val) *)
Definition to_int (z : Z) : Z := wrap true 32 z.
(** enum_to_string, 182-196; the subtraction is on int *)
Definition enum_to_string (e : enum) (z : Z) : res bytes :=
  let idx := (to_int z - e_lo e)%Z in
  if negb (in_int true 32 idx) then Ub
  else if (0 <=? idx)%Z && (idx <? e_range e)%Z then Ok (name_at e (idx + e_lo e)%Z) else Ok [].
(** iequals, 198-217 *)
Definition lower (c : N) : N := if (65 <=? c) && (c <=? 90) then c + 32 else c.
Fixpoint iequals_loop (a b : bytes) : bool :=
  match a, b with
  | x :: a', y :: b' => if lower x =? lower y then iequals_loop a' b' else false
  | _, _ => true
  end.
Definition iequals (a b : bytes) : bool :=
  if Nat.eqb (length a) (length b) then iequals_loop a b else false.
(** string_to_enum, 219-235 *)
Fixpoint string_to_enum_loop (e : enum) (s : bytes) (z : Z) (n : nat) : option Z :=
  match n with
  | O => None
  | S n' =>
      if negb (is_nil (name_at e z)) && iequals (name_at e z) s then Some (e_cast e z)
      else string_to_enum_loop e s (z + 1)%Z n'
  end.
Definition string_to_enum (e : enum) (s : bytes) : option Z :=
  string_to_enum_loop e s (e_lo e) (Z.to_nat (e_range e)).

(** value(enum_t), value.hpp:82-95; [num]: MEOJSON_ENUM_AS_NUMBER *)
Definition v_enum (num : bool) (e : enum) (z : Z) : res value :=
  if num then
    Ok (match e_underlying e with None => v_bool (negb (z =? 0)%Z) | Some _ => v_int z end)
  else
    do s <- enum_to_string e z;
    if is_nil s then Throw JsonException else Ok (v_string s).
(** static_cast<enum_t>(number) *)
Definition to_enum (e : enum) (z : Z) : res Z :=
  match e_values e with
  | Some (lo, hi) => if (lo <=? z)%Z && (z <=? hi)%Z then Ok z else Ub
  | None => Ok z
  end.
(** operator enum_t() const, value.hpp:483-500 *)
Definition as_enum (e : enum) (v : value) : res Z :=
  if is_string v then
    do s <- get_str v;
    match string_to_enum e s with Some z => Ok z | None => type_error v end
  else if is_number v then
    match e_underlying e with
    | Some (sg, w) => do z <- as_int sg w v; to_enum e z
    | None => do b <- as_boolean v; to_enum e (if b then 1 else 0)
    end
  else type_error v.
(** is<enum_t>(), value_impl.hpp:283-288 *)
Definition is_enum (e : enum) (v : value) : res bool :=
  if is_string v then
    do s <- get_str v; Ok (match string_to_enum e s with Some _ => true | None => false end)
  else match e_underlying e with
  | None => Ok (is_boolean v)
  | Some (sg, w) =>
      if negb (is_number v) then Ok false
      else do s <- get_str v; Ok (match try_parse_integer sg w s with Some _ => true | None => false end)
  end.
