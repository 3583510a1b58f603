(** * Properties of floating-point numbers: C41, C51, C52.
    Statements only; each is closed by a lemma of FloatTheorems.v or SamplesFloat.v. [c] is the
    build (MEOJSON_KEEP_FLOATING_PRECISION or not), the decimal points of the C and of the
    C++ locale, and the grouping of digits by the latter; [p] is the precision: 24, 53, 64 or 113 bits. *)
From Coq Require Import QArith Qabs.
From Verif Require Import Base Value Packed Parser Dump Containers Num Enum Conv Float Spec SpecConv SpecFloat BaseProofs NumProofs
  FaithfulProofs FloatProofs FloatTheorems FloatReading SamplesFloat.
Open Scope N_scope.

(** C41: zeros, subnormal and normal numbers, both builds, locales with a decimal point *)
Theorem C41_finite_is_number_partial : forall c p f, classic c -> precision p -> finite (fmt_of p) f -> wf (v_float c p f).
Proof. exact finite_wf. Qed.
Print Assumptions C41_finite_is_number_partial.
Theorem C41_bits_partial : forall num c p x v, classic c -> precision p -> to_value (std_env num c) (TFlt p) (DFlt x) = Ok v ->
  wf v \/ exists s, decode p x = Inf s \/ decode p x = Nan s.
Proof. exact bits_wf. Qed.
Print Assumptions C41_bits_partial.
(** infinities and NaNs never do *)
Theorem C41_exceptional_never : forall c p f, (exists s, f = Inf s \/ f = Nan s) -> ~ wf (v_float c p f).
Proof. exact exceptional_text. Qed.
Print Assumptions C41_exceptional_never.
Theorem C41_infinity_refuted : exists c p x v, classic c /\ precision p /\ to_value (std_env false c) (TFlt p) (DFlt x) = Ok v /\ ~ wf v.
Proof. exact infinity_text. Qed.
Print Assumptions C41_infinity_refuted.
(** a locale with a decimal comma *)
Theorem C41_locale_refuted : exists c p f, precision p /\ normal (fmt_of p) f /\ ~ wf (v_float c p f).
Proof. exact comma_text. Qed.
Print Assumptions C41_locale_refuted.
(** [1.5, 2] comes back as an array of three numbers *)
Theorem C41_locale_elements_refuted : exists c p f n t a b d, precision p /\ normal (fmt_of p) f /\ wf (v_number n) /\
  dumps None (v_array [v_float c p f; v_number n]) = Ok t /\
  forall be, parse false be t = Ok (Some (v_array [a; b; d])).
Proof. exact comma_elements. Qed.
Print Assumptions C41_locale_elements_refuted.
(** a locale with a decimal point that separates thousands by commas (en_US) as global C++ locale:
    [1234.5] comes back as an array of two numbers, and as_double() throws *)
Theorem C41_grouping_refuted : exists c p f t a b, keep c = true /\ c_point c = 46 /\ s_point c = 46 /\ precision p /\ normal (fmt_of p) f /\
  dumps None (v_array [v_float c p f]) = Ok t /\ (forall be, parse false be t = Ok (Some (v_array [a; b]))) /\
  as_float c p (v_float c p f) = Throw JsonException.
Proof. exact thousands_elements. Qed.
Print Assumptions C41_grouping_refuted.
(** what a grouping does: the digits of the integer part in groups of the sizes the locale gives,
    counted from the right, and nothing else *)
Theorem C41_groups : forall c p s m e, keep c = true -> precision p -> exists i g r,
  float_to_string (ungrouped c) p (Fin s m e) = sign_text s ++ i ++ r /\
  float_to_string c p (Fin s m e) = sign_text s ++ g ++ r /\ grouped (s_sep c) (s_group c) i g /\
  i <> [] /\ Forall digit i /\ (r = [] \/ exists d r', r = d :: r' /\ (d = s_point c \/ d = 101)).
Proof. exact text_grouped. Qed.
Print Assumptions C41_groups.
(** so that the text without its separators is a number *)
Theorem C41_without_separators : forall c p s m e, keep c = true -> precision p -> separator c -> s_point c = 46 ->
  without (s_sep c) (float_to_string c p (Fin s m e)) = float_to_string (ungrouped c) p (Fin s m e) /\
  gnumber (without (s_sep c) (float_to_string c p (Fin s m e))).
Proof. exact text_without_both. Qed.
Print Assumptions C41_without_separators.
Example C41_groups_case : keep cfg_thousands = true /\ precision 53 /\ separator cfg_thousands /\ s_point cfg_thousands = 46 /\
  float_to_string cfg_thousands 53 some_million = of_string "1,234,567" /\
  without (s_sep cfg_thousands) (of_string "1,234,567") = of_string "1234567".
Proof. exact thousands_separator. Qed.
Example C41_case : classic cfg_default /\ precision 53 /\ finite (fmt_of 53) one_half /\ finite (fmt_of 53) least.
Proof. exact (conj default_classic (conj double_precision (conj (or_intror (or_intror one_half_normal)) (or_intror (or_introl least_subnormal))))). Qed.

(** C51: with MEOJSON_KEEP_FLOATING_PRECISION, exactly *)
Theorem C51_exact_partial : forall c p f, keep c = true -> classic c -> precision p ->
  zero (fmt_of p) f \/ normal (fmt_of p) f -> as_float c p (v_float c p f) = Ok f.
Proof. exact float_round_trip. Qed.
Print Assumptions C51_exact_partial.
(** all numbers: the subnormal ones throw, every one of them; infinities and NaNs come back *)
Theorem C51_exactly : forall c p f, keep c = true -> classic c -> precision p -> proper (fmt_of p) f ->
  (as_float c p (v_float c p f) = Ok f <-> ~ subnormal (fmt_of p) f) /\
  (subnormal (fmt_of p) f -> as_float c p (v_float c p f) = Throw JsonException).
Proof. exact keep_round_trip_iff. Qed.
Print Assumptions C51_exactly.
(** ... so that floating-point numbers take part in the round trips of C32 *)
Theorem C51_faithful_partial : forall num c p x, keep c = true -> classic c -> precision p -> x < 2 ^ (p + exp_bits p) ->
  zero (fmt_of p) (decode p x) \/ normal (fmt_of p) (decode p x) -> faithful (std_env num c) (TFlt p) (DFlt x).
Proof. exact float_faithful. Qed.
Print Assumptions C51_faithful_partial.
(** in both builds and all locales an infinity and a NaN come back, with their sign *)
Theorem C51_exceptional : forall c p s,
  as_float c p (v_float c p (Inf s)) = Ok (Inf s) /\ as_float c p (v_float c p (Nan s)) = Ok (Nan s).
Proof. exact exceptional_round_trip. Qed.
Print Assumptions C51_exceptional.
Example C51_exceptional_case : v_float cfg_default 53 (Inf true) = v_number (of_string "-inf") /\
  v_float cfg_keep 53 (Nan false) = v_number (of_string "nan").
Proof. split; reflexivity. Qed.
(** the default build: up to 10^-6, never an exception *)
Theorem C51_default_partial : forall c p f, keep c = false -> classic c -> precision p -> finite (fmt_of p) f ->
  exists g, as_float c p (v_float c p f) = Ok g /\ finite (fmt_of p) g /\ (Qabs (flt_value g - flt_value f) <= 1 # 1000000)%Q.
Proof. exact fixed_round_trip. Qed.
Print Assumptions C51_default_partial.
(** 10^-7 becomes 0 *)
Theorem C51_default_refuted : exists c p f g, keep c = false /\ classic c /\ precision p /\ normal (fmt_of p) f /\
  as_float c p (v_float c p f) = Ok g /\ zero (fmt_of p) g.
Proof. exact fixed_loses. Qed.
Print Assumptions C51_default_refuted.
(** std::stod rejects its own output for the least positive double *)
Theorem C51_subnormal_refuted : exists c p f, keep c = true /\ classic c /\ precision p /\ subnormal (fmt_of p) f /\
  as_float c p (v_float c p f) = Throw JsonException.
Proof. exact least_lost. Qed.
Print Assumptions C51_subnormal_refuted.
(** a stream writes the comma of the C++ locale, std::stod expects the point of the C locale *)
Theorem C51_locale_refuted : exists c p f, keep c = true /\ c_point c = 46 /\ precision p /\ normal (fmt_of p) f /\
  as_float c p (v_float c p f) = Throw JsonException.
Proof. exact mixed_lost. Qed.
Print Assumptions C51_locale_refuted.
Example C51_case : keep cfg_keep = true /\ classic cfg_keep /\ precision 53 /\ 0x3FF8000000000000 < 2 ^ (53 + exp_bits 53) /\
  decode 53 0x3FF8000000000000 = one_half /\ normal (fmt_of 53) one_half.
Proof. exact (conj eq_refl (conj keep_classic (conj double_precision (conj (proj1 one_half_bits) (conj (proj2 one_half_bits) one_half_normal))))). Qed.

(** C52: the nearest number, or an exception for a number that is too large or that is below all
    normal numbers and not exactly representable *)
Theorem C52_nearest_partial : forall c p t, c_point c = 46 -> precision p -> gnumber t -> exists q, denotes t q /\
  ((exists f, as_float c p (VStr Tnumber t) = Ok f /\ finite (fmt_of p) f /\
     forall g, finite (fmt_of p) g -> (Qabs (flt_value f - q) <= Qabs (flt_value g - q))%Q)
   \/ (as_float c p (VStr Tnumber t) = Throw JsonException /\
       (too_large (fmt_of p) q \/
        below_normal (fmt_of p) q /\ forall g, finite (fmt_of p) g -> ~ (flt_value g == q)%Q))).
Proof. exact number_reads_nearest. Qed.
Print Assumptions C52_nearest_partial.
Theorem C52_nearest_denoted_partial : forall c p t q, c_point c = 46 -> precision p -> denotes t q ->
  (exists f, as_float c p (VStr Tnumber t) = Ok f /\ finite (fmt_of p) f /\
     forall g, finite (fmt_of p) g -> (Qabs (flt_value f - q) <= Qabs (flt_value g - q))%Q)
  \/ (as_float c p (VStr Tnumber t) = Throw JsonException /\
      (too_large (fmt_of p) q \/
       below_normal (fmt_of p) q /\ forall g, finite (fmt_of p) g -> ~ (flt_value g == q)%Q)).
Proof. exact reads_nearest. Qed.
Print Assumptions C52_nearest_denoted_partial.
Theorem C52_too_large_throws : forall c p t q, c_point c = 46 -> precision p -> denotes t q -> too_large (fmt_of p) q ->
  as_float c p (VStr Tnumber t) = Throw JsonException.
Proof. exact too_large_throws. Qed.
Print Assumptions C52_too_large_throws.
(** numbers in the subnormal range: 1e-310 *)
Theorem C52_subnormal_refuted : exists c p t q, classic c /\ precision p /\ denotes t q /\ below_normal (fmt_of p) q /\
  as_float c p (VStr Tnumber t) = Throw JsonException.
Proof. exact small_throws. Qed.
Print Assumptions C52_subnormal_refuted.
(** any text in a number, the number strtod defines for it, rounded to nearest, ties to even; an exception exactly if
    strtod does not read all of it or the number is out of range *)
Theorem C52_any_text : forall c p t, decimal_point (c_point c) -> precision p ->
  (forall s r, strtod_reads (c_point c) t s r -> comes_to (fmt_of p) s r (as_float c p (VStr Tnumber t))) /\
  ((forall s r, ~ strtod_reads (c_point c) t s r) -> as_float c p (VStr Tnumber t) = Throw JsonException).
Proof. exact any_text. Qed.
Print Assumptions C52_any_text.
(** as<T>() gives its bits *)
Theorem C52_bits : forall num c p t, precision p ->
  match as_float c p (VStr Tnumber t) with
  | Ok f => exists x, as_ (std_env num c) (TFlt p) (VStr Tnumber t) = Ok (DFlt x) /\ x < 2 ^ (p + exp_bits p) /\ decode p x = f
  | r => r = Throw JsonException /\ as_ (std_env num c) (TFlt p) (VStr Tnumber t) = Throw JsonException
  end.
Proof. exact read_bits. Qed.
Print Assumptions C52_bits.
(** where the sign, the exponent and the fraction are in these bits *)
Theorem C52_layout : forall p w bias z ex frac, layout p w bias -> z < 2 -> ex < 2 ^ w -> frac < 2 ^ (p - 1) ->
  decode p (z * 2 ^ (p - 1 + w) + ex * 2 ^ (p - 1) + frac) =
    (if ex =? 2 ^ w - 1 then (if frac =? 0 then Inf (z =? 1) else Nan (z =? 1))
     else if ex =? 0 then Fin (z =? 1) frac (2 - bias - Z.of_N p)%Z
     else Fin (z =? 1) (2 ^ (p - 1) + frac) (Z.of_N ex - bias - Z.of_N (p - 1))%Z).
Proof. exact format_fields. Qed.
Print Assumptions C52_layout.
Example C52_layout_case : layout 24 8 127 /\ decode 24 0xC0490FDB = Fin true 13176795 (-22).
Proof. split; [constructor|vm_compute; reflexivity]. Qed.
Example C52_any_text_case : decimal_point 46 /\ strtod_reads 46 (of_string " +0x1.8p1") false (ReadNum (qn 24 * 2 ^ (1 - 4))) /\
  strtod_reads 46 (of_string "-NaN(1)") true ReadNan /\
  as_float cfg_default 53 (VStr Tnumber (of_string " +0x1.8p1")) = Ok (Fin false 6755399441055744 (-51)) /\
  as_float cfg_default 53 (VStr Tnumber (of_string "-NaN(1)")) = Ok (Nan true) /\
  as_float cfg_default 53 (VStr Tnumber (of_string "1.5 ")) = Throw JsonException.
Proof. exact (conj (proj1 point_sample) (conj hex_reading (conj nan_reading stod_sample))). Qed.
(** 1.5 in a locale with a decimal comma *)
Theorem C52_locale_refuted : exists c p t q f, precision p /\ denotes t q /\ normal (fmt_of p) f /\ (flt_value f == q)%Q /\
  as_float c p (VStr Tnumber t) = Throw JsonException.
Proof. exact comma_read. Qed.
Print Assumptions C52_locale_refuted.
Example C52_case : denotes (of_string "-1.5e3") (-1500) /\ denotes (of_string "1e309") (10 ^ 309) /\ too_large (fmt_of 53) (10 ^ 309).
Proof. exact (conj denotes_sample large_sample). Qed.
