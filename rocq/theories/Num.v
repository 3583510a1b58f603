(** * Integers as text: std::from_chars, std::to_string and their users.

    An integer type is its signedness and its width in bits, so that every data model
    (LP64, LLP64, ...) is covered. Model only. *)
From Verif Require Import Base Value Containers.

Definition int_min (sg : bool) (w : N) : Z := if sg then (- 2 ^ (Z.of_N w - 1))%Z else 0%Z.
Definition int_max (sg : bool) (w : N) : Z := if sg then (2 ^ (Z.of_N w - 1) - 1)%Z else (2 ^ Z.of_N w - 1)%Z.
Definition in_int (sg : bool) (w : N) (z : Z) : bool := (int_min sg w <=? z)%Z && (z <=? int_max sg w)%Z.

(** value of a run of decimal digits *)
Definition dec_value (ds : bytes) : N := fold_left (fun a c => 10 * a + (c - 48)) ds 0.
(** the longest prefix of decimal digits, and the rest *)
Fixpoint span_digits (s : bytes) : bytes * bytes :=
  match s with
  | c :: r => if isdigit c then let '(a, b) := span_digits r in (c :: a, b) else ([], s)
  | [] => ([], [])
  end.
(** std::from_chars(first, last, result), base 10: a minus sign is only part of the pattern
    for signed types; [None]: ec is not errc(). Otherwise the value and the bytes after ptr. *)
Definition from_chars (sg : bool) (w : N) (s : bytes) : option (Z * bytes) :=
  let '(neg, t) := match s with c :: r => if sg && (c =? 45) then (true, r) else (false, s) | [] => (false, s) end in
  let '(ds, rest) := span_digits t in
  if is_nil ds then None
  else
    let z := if neg then (- Z.of_N (dec_value ds))%Z else Z.of_N (dec_value ds) in
    if in_int sg w z then Some (z, rest) else None.
(** try_parse_integer, value_impl.hpp:9-17 *)
Definition try_parse_integer (sg : bool) (w : N) (s : bytes) : option Z :=
  match from_chars sg w s with
  | Some (z, []) => Some z
  | _ => None
  end.
(** parse_integer, value_impl.hpp:19-28 *)
Definition parse_integer (sg : bool) (w : N) (s : bytes) : res Z :=
  match try_parse_integer sg w s with Some z => Ok z | None => Throw JsonException end.
(** as_integer ... as_unsigned_long_long, value_impl.hpp:512-570 *)
Definition as_int (sg : bool) (w : N) (v : value) : res Z :=
  if is_number v then do s <- get_str v; parse_integer sg w s else type_error v.

(** std::to_string for integers *)
Fixpoint dec_digits (fuel : nat) (n : N) : bytes :=
  match fuel with
  | O => []
  | S f => if n <? 10 then [48 + n] else dec_digits f (n / 10) ++ [48 + n mod 10]
  end.
Definition to_string_N (n : N) : bytes := dec_digits (S (N.size_nat n)) n.
Definition to_string_Z (z : Z) : bytes :=
  if (z <? 0)%Z then 45 :: to_string_N (Z.to_N (- z)) else to_string_N (Z.to_N z).
(** value(int) ... value(unsigned long long), value_impl.hpp:96-136 with to_basic_string,
    utils.hpp:477-491 *)
Definition v_int (z : Z) : value := v_number (to_string_Z z).
