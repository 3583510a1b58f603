(** * Vocabulary for the properties of floating-point numbers: the rationals they and their
    texts denote. *)
From Coq Require Export QArith Qabs.
From Verif Require Import Base Value Conv Float Spec SpecConv.
Open Scope N_scope.

Definition qn (n : N) : Q := inject_Z (Z.of_N n).
Definition sgn (s : bool) : Q := if s then (-1)%Q else 1%Q.
(** the number a finite floating-point number is *)
Definition flt_value (f : flt) : Q :=
  match f with Fin s m e => (sgn s * (qn m * 2 ^ e))%Q | _ => 0%Q end.
Inductive normal (F : fmt) : flt -> Prop :=
| normal_intro s m e : 2 ^ (prec F - 1) <= m < 2 ^ prec F -> (emin F <= e <= emax F)%Z ->
    normal F (Fin s m e).
Inductive zero (F : fmt) : flt -> Prop :=
| zero_intro s : zero F (Fin s 0 (emin F)).
Inductive subnormal (F : fmt) : flt -> Prop :=
| subnormal_intro s m : 0 < m < 2 ^ (prec F - 1) -> subnormal F (Fin s m (emin F)).
Definition finite (F : fmt) (f : flt) : Prop := zero F f \/ subnormal F f \/ normal F f.
(** a number of the format: finite, an infinity or a NaN *)
Definition proper (F : fmt) (f : flt) : Prop := match f with Fin _ _ _ => finite F f | _ => True end.
(** float, double, x87 and binary128 long double *)
Definition precision (p : N) : Prop := p = 24 \/ p = 53 \/ p = 64 \/ p = 113.
(** bits of precision, bits of the exponent, its bias: IEEE 754 binary32, binary64, x87 extended, binary128 *)
Inductive layout : N -> N -> Z -> Prop :=
| lay_single : layout 24 8 127
| lay_double : layout 53 11 1023
| lay_extended : layout 64 15 16383
| lay_quadruple : layout 113 15 16383.
(** the C locale uses a decimal point; with MEOJSON_KEEP_FLOATING_PRECISION the global C++ locale
    does, too, and does not group digits *)
Definition classic (c : config) : Prop := c_point c = 46 /\ (keep c = true -> s_point c = 46 /\ s_group c = []).
(** the largest finite number plus half a unit in its last place: rounds to infinity *)
Definition too_large (F : fmt) (q : Q) : Prop := ((2 ^ Z.of_N (prec F) - (1 # 2)) * 2 ^ emax F <= Qabs q)%Q.
(** smaller than all normal numbers, but not zero *)
Definition below_normal (F : fmt) (q : Q) : Prop :=
  (0 < Qabs q /\ Qabs q < 2 ^ (Z.of_N (prec F) - 1 + emin F))%Q.

(** An RFC 8259 number, taken apart: sign, digits before and after the point, exponent. *)
Inductive exponent : bytes -> Z -> Prop :=
| ex_none : exponent [] 0
| ex_some l sg neg ds : (l = 101 \/ l = 69) -> (sg = [] /\ neg = false \/ sg = [43] /\ neg = false \/ sg = [45] /\ neg = true) ->
    ds <> [] -> Forall digit ds ->
    exponent (l :: sg ++ ds) (if (neg : bool) then - Z.of_N (decimal ds) else Z.of_N (decimal ds))%Z.
Inductive parts : bytes -> bool -> bytes -> bytes -> Z -> Prop :=
| parts_int s i ex x : gint i -> exponent ex x -> parts (sign_text s ++ i ++ ex) s i [] x
| parts_frac s i f ex x : gint i -> f <> [] -> Forall digit f -> exponent ex x ->
    parts (sign_text s ++ i ++ (46 :: f) ++ ex) s i f x.
(** the number it denotes *)
Definition denotes (t : bytes) (q : Q) : Prop :=
  exists s i f x, parts t s i f x /\ (q == sgn s * (qn (decimal (i ++ f)) * 10 ^ (x - Z.of_nat (length f))))%Q.

(** The text without its separators. *)
Definition without (sep : N) (t : bytes) : bytes := filter (fun c => negb (c =? sep)) t.
(** [grouped sep gs i g]: [g] is the digits [i] in groups, of which the last one has the first
    size of [gs], the one before it the second size and so on; the last size is used for all further
    groups; 0 and CHAR_MAX stand for all digits that are left. *)
Inductive grouped (sep : N) : list N -> bytes -> bytes -> Prop :=
| gr_one gs i : (forall g r, gs = g :: r -> 0 < g < 127 -> N.of_nat (length i) <= g) -> grouped sep gs i i
| gr_next g g' r i t a : 0 < g < 127 -> N.of_nat (length a) = g -> i <> [] -> grouped sep (g' :: r) i t ->
    grouped sep (g :: g' :: r) (i ++ a) (t ++ sep :: a)
| gr_again g i t a : 0 < g < 127 -> N.of_nat (length a) = g -> i <> [] -> grouped sep [g] i t ->
    grouped sep [g] (i ++ a) (t ++ sep :: a).
(** the same build and locales without grouping *)
Definition ungrouped (c : config) : config := Config (keep c) (c_point c) (s_point c) (s_sep c) [].
(** a separator that cannot be taken for a part of the number *)
Definition separator (c : config) : Prop :=
  ~ digit (s_sep c) /\ s_point c <> s_sep c /\ ~ In (s_sep c) [43; 45; 101].

(** ** What strtod reads as a whole (C17 7.22.1.3): white space, a sign, and an infinity, a NaN, a decimal or a
    hexadecimal number. [pt] is the decimal point of the C locale. *)
Definition white (c : N) : Prop := c = 32 \/ 9 <= c <= 13.
Definition alphanumeric (c : N) : Prop := digit c \/ 65 <= c <= 90 \/ 97 <= c <= 122.
(** not a part of anything else *)
Definition decimal_point (pt : N) : Prop := ~ alphanumeric pt /\ ~ white pt /\ pt <> 43 /\ pt <> 45.
Inductive sign_of : bytes -> bool -> Prop :=
| so_none : sign_of [] false | so_plus : sign_of [43] false | so_minus : sign_of [45] true.
Inductive hexadecimal : bytes -> N -> Prop :=
| hx_nil : hexadecimal [] 0
| hx_digit ds n c v : hexadecimal ds n -> hexdig c v -> hexadecimal (ds ++ [c]) (16 * n + v).
(** digits with at most one point among them, and at least one digit *)
Inductive mantissa (pt : N) (ds : N -> Prop) : bytes -> bytes -> bytes -> Prop :=
| mn_whole i : i <> [] -> Forall ds i -> mantissa pt ds i i []
| mn_point i f : i ++ f <> [] -> Forall ds i -> Forall ds f -> mantissa pt ds (i ++ pt :: f) i f.
(** an exponent after the letter e or p *)
Inductive scaled (l L : N) : bytes -> Z -> Prop :=
| sc_none : scaled l L [] 0
| sc_some c sg neg ds : c = l \/ c = L -> sign_of sg neg -> ds <> [] -> Forall digit ds ->
    scaled l L (c :: sg ++ ds) (if (neg : bool) then - Z.of_N (decimal ds) else Z.of_N (decimal ds))%Z.
Inductive reading : Type := ReadInf | ReadNan | ReadNum (d : Q).        (* without the sign *)
Inductive subject (pt : N) : bytes -> reading -> Prop :=
| su_inf t : same_name (of_string "inf") t \/ same_name (of_string "infinity") t -> subject pt t ReadInf
| su_nan t : same_name (of_string "nan") t -> subject pt t ReadNan
| su_nan_chars t a : same_name (of_string "nan") t -> Forall (fun c => alphanumeric c \/ c = 95) a ->
    subject pt (t ++ 40 :: a ++ [41]) ReadNan
| su_decimal m i f ex x : mantissa pt digit m i f -> scaled 101 69 ex x ->
    subject pt (m ++ ex) (ReadNum (qn (decimal (i ++ f)) * 10 ^ (x - Z.of_nat (length f))))
| su_hexadecimal c m i f n ex x : c = 120 \/ c = 88 -> mantissa pt (fun c => exists v, hexdig c v) m i f ->
    hexadecimal (i ++ f) n -> scaled 112 80 ex x ->
    subject pt (48 :: c :: m ++ ex) (ReadNum (qn n * 2 ^ (x - 4 * Z.of_nat (length f)))).
Inductive strtod_reads (pt : N) : bytes -> bool -> reading -> Prop :=
| st_reads w sg s t r : Forall white w -> sign_of sg s -> subject pt t r -> strtod_reads pt (w ++ sg ++ t) s r.
(** Rounding to nearest, ties to even. *)
Definition nearest_even (F : fmt) (q : Q) (s : bool) (m : N) (e : Z) : Prop :=
  finite F (Fin s m e) /\
  (forall g, finite F g -> (Qabs (flt_value (Fin s m e) - q) <= Qabs (flt_value g - q))%Q) /\
  (forall g, finite F g -> (Qabs (flt_value (Fin s m e) - q) == Qabs (flt_value g - q))%Q ->
     (flt_value g == flt_value (Fin s m e))%Q \/ N.even m = true).
(** Less than every normal number, even after rounding to the precision of [F]. *)
Definition tiny (F : fmt) (d : Q) : Prop := (0 < d /\ d < (2 ^ Z.of_N (prec F) - (1 # 2)) * 2 ^ (emin F - 1))%Q.
(** ERANGE: too large, or tiny and not exact *)
Definition out_of_range (F : fmt) (d : Q) : Prop :=
  too_large F d \/ tiny F d /\ forall g, finite F g -> ~ (flt_value g == d)%Q.
(** What comes of a reading: an infinity, a NaN, the nearest number; an exception if it is out of range. *)
Definition comes_to (F : fmt) (s : bool) (r : reading) (o : res flt) : Prop :=
  match r with
  | ReadInf => o = Ok (Inf s)
  | ReadNan => o = Ok (Nan s)
  | ReadNum d =>
      (out_of_range F d /\ o = Throw JsonException) \/
      (~ out_of_range F d /\ exists m e, o = Ok (Fin s m e) /\ nearest_even F (sgn s * d) s m e)
  end.
