(** * Floating-point numbers as text: std::to_string, operator<<, std::stof/stod/stold and
    their users. Model only.

    Round to nearest, ties to even, throughout: the default rounding mode, and the decimal
    conversions of the C library correctly rounded. *)
From Verif Require Import Base Value Containers Num Enum Conv.

(** ** Formats *)
(** [prec] bits of precision; a finite number is [m * 2^e] with [emin <= e <= emax] *)
Record fmt : Type := Fmt { prec : N; emin : Z; emax : Z }.
Inductive flt : Type :=
| Fin (s : bool) (m : N) (e : Z)       (* s: negative *)
| Inf (s : bool)
| Nan (s : bool).
(** width of the exponent field: float, double, or a 15-bit exponent for long double (x87 or
    binary128) *)
Definition exp_bits (p : N) : N := if p =? 24 then 8 else if p =? 53 then 11 else 15.
Definition fmt_of (p : N) : fmt :=
  let bias := (2 ^ Z.of_N (exp_bits p - 1) - 1)%Z in
  Fmt p (2 - bias - Z.of_N p)%Z (bias - Z.of_N p + 1)%Z.
(** the number denoted by a bit pattern (IEEE 754 interchange; the explicit integer bit of the
    x87 format is determined by the exponent and left out) *)
Definition decode (p x : N) : flt :=
  let w := exp_bits p in
  let frac := x mod 2 ^ (p - 1) in
  let ex := (x / 2 ^ (p - 1)) mod 2 ^ w in
  let s := N.odd (x / 2 ^ (p - 1 + w)) in
  if ex =? 2 ^ w - 1 then (if frac =? 0 then Inf s else Nan s)
  else if ex =? 0 then Fin s frac (emin (fmt_of p))
  else Fin s (2 ^ (p - 1) + frac) (emin (fmt_of p) + Z.of_N ex - 1)%Z.
Definition encode (p : N) (f : flt) : N :=
  let w := exp_bits p in
  let sign s := if (s : bool) then 2 ^ (p - 1 + w) else 0 in
  match f with
  | Fin s m e =>
      if m <? 2 ^ (p - 1) then sign s + m
      else sign s + Z.to_N (e - emin (fmt_of p) + 1) * 2 ^ (p - 1) + (m - 2 ^ (p - 1))
  | Inf s => sign s + (2 ^ w - 1) * 2 ^ (p - 1)
  | Nan s => sign s + (2 ^ w - 1) * 2 ^ (p - 1) + 2 ^ (p - 2)
  end.

(** ** Arithmetic *)
(** [m * 2^e * 10^k] as a fraction *)
Definition pow_up (b : N) (e : Z) : N := b ^ Z.to_N e.
Definition numer (m : N) (e k : Z) : N := m * pow_up 2 e * pow_up 10 k.
Definition denom (e k : Z) : N := pow_up 2 (- e) * pow_up 10 (- k).
(** [a / b] rounded to an integer, ties to even *)
Definition round_div (a b : N) : N :=
  let q := a / b in
  let r := a mod b in
  if 2 * r <? b then q else if b <? 2 * r then q + 1 else if N.even q then q else q + 1.

(** ** Printing *)
(** [k] decimal digits *)
Fixpoint pad_digits (k : nat) (n : N) : bytes :=
  match k with O => [] | S k' => pad_digits k' (n / 10) ++ [48 + n mod 10] end.
Definition sign_text (s : bool) : bytes := if s then [45] else [].
(** printf("%f"): six digits after the decimal point *)
Definition text_f (point : N) (f : flt) : bytes :=
  match f with
  | Fin s m e =>
      let n := round_div (numer m e 6) (denom e 6) in
      sign_text s ++ to_string_N (n / 1000000) ++ point :: pad_digits 6 (n mod 1000000)
  | Inf s => sign_text s ++ of_string "inf"
  | Nan s => sign_text s ++ of_string "nan"
  end.
(** the largest x with 10^x * b <= a, for 0 < b <= a *)
Fixpoint log10_up (fuel : nat) (a b : N) : N :=
  match fuel with
  | O => 0
  | S f => if 10 * b <=? a then 1 + log10_up f a (10 * b) else 0
  end.
(** the least x with b <= a * 10^x, for 0 < a *)
Fixpoint log10_down (fuel : nat) (a b : N) : N :=
  match fuel with
  | O => 0
  | S f => if b <=? a then 0 else 1 + log10_down f (10 * a) b
  end.
Definition dec_exp (a b : N) : Z :=
  if b <=? a then Z.of_N (log10_up (N.size_nat a) a b)
  else (- Z.of_N (log10_down (N.size_nat b) a b))%Z.
(** [P] significant digits as an integer below 10^P, and the decimal exponent of the first *)
Definition significant (P m : N) (e : Z) : N * Z :=
  let x := dec_exp (numer m e 0) (denom e 0) in
  let k := (Z.of_N P - 1 - x)%Z in
  let n := round_div (numer m e k) (denom e k) in
  if n =? 10 ^ P then (10 ^ (P - 1), (x + 1)%Z) else (n, x).
(** remove trailing zeros *)
Fixpoint strip_zeros (l : bytes) : bytes :=
  match l with
  | [] => []
  | c :: r => let r' := strip_zeros r in if (c =? 48) && is_nil r' then [] else c :: r'
  end.
Definition fraction_text (point : N) (l : bytes) : bytes := if is_nil l then [] else point :: l.
Definition exponent_text (x : Z) : bytes :=
  let n := Z.to_N (Z.abs x) in
  101 :: (if (x <? 0)%Z then 45 else 43) :: (if n <? 10 then [48; 48 + n] else to_string_N n).
(** Separators between the digits of the integer part, numpunct::grouping: sizes of the groups from
    the right, the last one repeated; 0 or CHAR_MAX: no more groups. [ds] is reversed. *)
Fixpoint group_rev (fuel : nat) (sep : N) (gs : list N) (ds : bytes) : bytes :=
  match fuel, gs with
  | S n, g :: r =>
      if (g =? 0) || (127 <=? g) || (size ds <=? g) then ds
      else firstn (N.to_nat g) ds ++ sep :: group_rev n sep (if is_nil r then gs else r) (skipn (N.to_nat g) ds)
  | _, _ => ds
  end.
Definition group_digits (sep : N) (gs : list N) (ds : bytes) : bytes :=
  if is_nil gs then ds else rev (group_rev (length ds) sep gs (rev ds)).
(** printf("%.Pg"), which is operator<< after setprecision(P) up to the separators: num_put puts
    them in the integer part unless the notation is scientific *)
Definition text_g (group : bytes -> bytes) (point P : N) (f : flt) : bytes :=
  match f with
  | Fin s m e =>
      sign_text s ++
      (if m =? 0 then [48]
       else
         let '(n, x) := significant P m e in
         let ds := pad_digits (N.to_nat P) n in
         if (-4 <=? x)%Z && (x <? Z.of_N P)%Z then
           if (0 <=? x)%Z then
             let i := Z.to_nat (x + 1) in
             group (firstn i ds) ++ fraction_text point (strip_zeros (skipn i ds))
           else 48 :: point :: repeat 48 (Z.to_nat (- x - 1)) ++ strip_zeros ds
         else
           firstn 1 ds ++ fraction_text point (strip_zeros (skipn 1 ds)) ++ exponent_text x)
  | Inf s => sign_text s ++ of_string "inf"
  | Nan s => sign_text s ++ of_string "nan"
  end.
(** numeric_limits<T>::max_digits10 *)
Definition max_digits10 (p : N) : N := 2 + p * 30103 / 100000.
(** The build and the locales: MEOJSON_KEEP_FLOATING_PRECISION, the decimal point of the C
    locale (LC_NUMERIC); decimal point, separator and grouping of the global C++ locale. *)
Record config : Type := Config { keep : bool; c_point : N; s_point : N; s_sep : N; s_group : list N }.
(** to_basic_string for floating-point numbers, utils.hpp:477-491 *)
Definition float_to_string (c : config) (p : N) (f : flt) : bytes :=
  if keep c then text_g (group_digits (s_sep c) (s_group c)) (s_point c) (max_digits10 p) f else text_f (c_point c) f.

(** ** Reading *)
Definition isspace (c : N) : bool := (c =? 32) || ((9 <=? c) && (c <=? 13)).
Fixpoint skip_space (s : bytes) : bytes :=
  match s with c :: r => if isspace c then skip_space r else s | [] => [] end.
Definition read_sign (s : bytes) : bool * bytes :=
  match s with
  | c :: r => if c =? 45 then (true, r) else if c =? 43 then (false, r) else (false, s)
  | [] => (false, s)
  end.
Fixpoint span (f : N -> bool) (s : bytes) : bytes * bytes :=
  match s with
  | c :: r => if f c then let '(a, b) := span f r in (c :: a, b) else ([], s)
  | [] => ([], [])
  end.
(** digits, and digits after the decimal point *)
Definition read_mantissa (dig : N -> bool) (point : N) (s : bytes) : bytes * bytes * bytes :=
  let '(i, s) := span dig s in
  match s with
  | c :: r => if c =? point then let '(f, s) := span dig r in (i, f, s) else (i, [], s)
  | [] => (i, [], s)
  end.
(** an optional exponent up to the end of the text; [None]: something else is there *)
Definition read_exponent (letter : N) (s : bytes) : option Z :=
  match s with
  | [] => Some 0%Z
  | c :: r =>
      if lower c =? letter then
        let '(neg, r) := read_sign r in
        if is_nil r then None
        else if forallb isdigit r then Some (if neg then (- Z.of_N (dec_value r))%Z else Z.of_N (dec_value r))
        else None
      else None
  end.
Definition hex_digit_value (c : N) : N := if isdigit c then c - 48 else lower c - 87.
Definition hex_digits_value (ds : bytes) : N := fold_left (fun a c => 16 * a + hex_digit_value c) ds 0.
(** What strtod reads when it reads the whole text: the sign and infinity, a NaN, or a fraction.
    [None]: some of the text is not part of the number. *)
Inductive number_read : Type := RInf (s : bool) | RNan (s : bool) | RNum (s : bool) (a b : N).
Definition read_number (point : N) (s : bytes) : option number_read :=
  let '(neg, s) := read_sign (skip_space s) in
  let low := map lower s in
  if bytes_eqb low (of_string "inf") || bytes_eqb low (of_string "infinity") then Some (RInf neg)
  else if bytes_eqb low (of_string "nan") then Some (RNan neg)
  else if starts_with (of_string "nan(") low then
    if forallb is_alnum_ (removelast (skipn 4 s)) && (last s 0 =? 41) && negb (is_nil (skipn 4 s)) then Some (RNan neg)
    else None
  else
    let decimal :=
      let '(i, f, r) := read_mantissa isdigit point s in
      if is_nil i && is_nil f then None
      else match read_exponent 101 r with
      | Some x =>
          let k := (x - Z.of_N (size f))%Z in
          Some (RNum neg (numer (dec_value (i ++ f)) 0 k) (denom 0 k))
      | None => None
      end in
    match low with
    | c0 :: c1 :: _ =>
        if (c0 =? 48) && (c1 =? 120) then
          let '(i, f, r) := read_mantissa isxdigit point (skipn 2 s) in
          if is_nil i && is_nil f then None
          else match read_exponent 112 r with
          | Some x =>
              let k := (x - 4 * Z.of_N (size f))%Z in
              Some (RNum neg (numer (hex_digits_value (i ++ f)) k 0) (denom k 0))
          | None => None
          end
        else decimal
    | _ => decimal
    end.
(** floor (log2 (a / b)), for positive a and b *)
Definition log2_frac (a b : N) : Z :=
  let k := (Z.of_N (N.log2 a) - Z.of_N (N.log2 b))%Z in
  if b * pow_up 2 k <=? a * pow_up 2 (- k) then k else (k - 1)%Z.
(** [a / b] rounded to [p] bits, with no exponent below [lo] if that is given *)
Definition round_frac (p : N) (lo : option Z) (a b : N) : N * Z :=
  let e0 := (log2_frac a b - Z.of_N p + 1)%Z in
  let e := match lo with Some l => Z.max e0 l | None => e0 end in
  let m := round_div (a * pow_up 2 (- e)) (b * pow_up 2 e) in
  if m =? 2 ^ p then (2 ^ (p - 1), (e + 1)%Z) else (m, e).
(** strtof, strtod, strtold on a text they read as a whole. [None]: errno is ERANGE, which
    std::stod turns into an exception: overflow, or a result that is tiny (below the normal
    range after rounding to [p] bits) and not exact. *)
Definition to_flt (F : fmt) (r : number_read) : option flt :=
  match r with
  | RInf s => Some (Inf s)
  | RNan s => Some (Nan s)
  | RNum s a b =>
      if a =? 0 then Some (Fin s 0 (emin F))
      else
        let '(m, e) := round_frac (prec F) (Some (emin F)) a b in
        if (emax F <? e)%Z then None
        else
          let tiny := (snd (round_frac (prec F) None a b) <? emin F)%Z in
          if tiny && negb (a * pow_up 2 (- e) =? m * pow_up 2 e * b) then None
          else Some (Fin s m e)
  end.
(** parse_floating, can_parse_floating, value_impl.hpp:30-75; [None]: exception, false *)
Definition parse_floating (c : config) (p : N) (s : bytes) : option flt :=
  match read_number (c_point c) s with Some r => to_flt (fmt_of p) r | None => None end.

(** ** Users *)
(** value(float), value(double), value(long double), value_impl.hpp:138-152 *)
Definition v_float (c : config) (p : N) (f : flt) : value := v_number (float_to_string c p f).
(** as_float, as_double, as_long_double, value_impl.hpp:572-600 *)
Definition as_float (c : config) (p : N) (v : value) : res flt :=
  if is_number v then
    do s <- get_str v;
    match parse_floating c p s with Some f => Ok f | None => Throw JsonException end
  else type_error v.
(** the environment of the conversions *)
Definition std_env (num : bool) (c : config) : env :=
  Env num (fun p x => float_to_string c p (decode p x))
      (fun p s => match parse_floating c p s with Some f => Some (encode p f) | None => None end).
