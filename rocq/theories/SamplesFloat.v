(** * Concrete floating-point numbers: cases for the properties and counterexamples. *)
From Coq Require Import QArith Qabs.
From Verif Require Import Base Value Packed Parser Dump Containers Num Enum Conv Float Spec SpecConv SpecFloat BaseProofs LexProofs NumProofs
  FaithfulProofs FloatProofs FloatTheorems FloatReading.
Open Scope N_scope.

(** the default build; MEOJSON_KEEP_FLOATING_PRECISION; a locale with a decimal comma *)
Definition cfg_default : config := Config false 46 46 44 [].
Definition cfg_keep : config := Config true 46 46 44 [].
Definition cfg_comma : config := Config false 44 44 46 [].
Lemma default_classic : classic cfg_default. Proof. split; [reflexivity|discriminate]. Qed.
Lemma keep_classic : classic cfg_keep. Proof. repeat split. Qed.
Lemma double_precision : precision 53. Proof. right. now left. Qed.

(** 1.5, the double nearest to 10^-7, 2^-1074 *)
Definition one_half : flt := Fin false 6755399441055744 (-52).
Definition tenth_micro : flt := Fin false 7555786372591432 (-76).
Definition least : flt := Fin false 1 (-1074).
Lemma one_half_normal : normal (fmt_of 53) one_half.
Proof. constructor; vm_compute; intuition congruence. Qed.
Lemma tenth_micro_normal : normal (fmt_of 53) tenth_micro.
Proof. constructor; vm_compute; intuition congruence. Qed.
Lemma least_subnormal : subnormal (fmt_of 53) least.
Proof. constructor. vm_compute; intuition congruence. Qed.
Lemma one_half_bits : 0x3FF8000000000000 < 2 ^ (53 + exp_bits 53) /\ decode 53 0x3FF8000000000000 = one_half.
Proof. split; vm_compute; reflexivity. Qed.

Lemma not_number t r v : parse_number (t ++ [32]) = Ok (v, r) -> r <> [32] -> ~ gnumber t.
Proof. intros E Hr H. rewrite (parse_number_ok t 32 [] H) in E; [congruence|]. unfold numstop, digit. lia. Qed.
Lemma exceptional_text c p f : (exists s, f = Inf s \/ f = Nan s) -> ~ wf (v_float c p f).
Proof.
  intros [s Hf] W. assert (G : gnumber (float_to_string c p f)) by now inversion W.
  assert (T : exists w, float_to_string c p f = sign_text s ++ w /\ (w = of_string "inf" \/ w = of_string "nan")).
  { unfold float_to_string. destruct (keep c), Hf as [->| ->]; eexists; split; reflexivity || (now left) || (now right). }
  destruct T as (w & T & Hw). rewrite T in G. revert G.
  destruct s, Hw as [->| ->]; (eapply not_number; [vm_compute; reflexivity|discriminate]).
Qed.

(** 1.5 in a locale with a decimal comma: 1,500000 *)
Lemma comma_text : exists c p f, precision p /\ normal (fmt_of p) f /\ ~ wf (v_float c p f).
Proof.
  exists cfg_comma, 53, one_half. split; [exact double_precision|]. split; [exact one_half_normal|].
  intros W. assert (G : gnumber (float_to_string cfg_comma 53 one_half)) by now inversion W.
  revert G. eapply not_number; [vm_compute; reflexivity|discriminate].
Qed.
(** the array [1.5, 2] written there is read as [1, 500000, 2] *)
Lemma comma_elements : exists c p f n t a b d, precision p /\ normal (fmt_of p) f /\ wf (v_number n) /\
  dumps None (v_array [v_float c p f; v_number n]) = Ok t /\
  forall be, parse false be t = Ok (Some (v_array [a; b; d])).
Proof.
  exists cfg_comma, 53, one_half, [50]. do 4 eexists. split; [exact double_precision|]. split; [exact one_half_normal|].
  split; [apply wf_num, (gnumber_intro [] [50] [] []); [now left|apply (gint_pos 50 []); [lia|constructor]|constructor|constructor]|].
  split; [vm_compute; reflexivity|]. intros be. destruct be as [|[]|[]| | | |]; vm_compute; reflexivity.
Qed.
(** and reading 1.5 there throws *)
Lemma comma_read : exists c p t q f, precision p /\ denotes t q /\ normal (fmt_of p) f /\ (flt_value f == q)%Q /\
  as_float c p (VStr Tnumber t) = Throw JsonException.
Proof.
  exists cfg_comma, 53, (of_string "1.5"), (3 # 2)%Q, one_half. split; [exact double_precision|].
  split; [exists false, [49], [53], 0%Z; split; [|vm_compute; reflexivity]|].
  { apply (parts_frac false [49] [53] [] 0%Z); [apply (gint_pos 49 []); [lia|constructor]|discriminate|repeat constructor; lia|constructor]. }
  split; [exact one_half_normal|]. split; [reflexivity|]. vm_compute. reflexivity.
Qed.
(** the default build turns 10^-7 into 0 *)
Lemma fixed_loses : exists c p f g, keep c = false /\ classic c /\ precision p /\ normal (fmt_of p) f /\
  as_float c p (v_float c p f) = Ok g /\ zero (fmt_of p) g.
Proof.
  exists cfg_default, 53, tenth_micro, (Fin false 0 (-1074)). split; [reflexivity|]. split; [exact default_classic|].
  split; [exact double_precision|]. split; [exact tenth_micro_normal|]. split; [vm_compute; reflexivity|constructor].
Qed.
(** reading back the least positive double throws *)
Lemma least_lost : exists c p f, keep c = true /\ classic c /\ precision p /\ subnormal (fmt_of p) f /\
  as_float c p (v_float c p f) = Throw JsonException.
Proof.
  exists cfg_keep, 53, least. split; [reflexivity|]. split; [exact keep_classic|].
  split; [exact double_precision|]. split; [exact least_subnormal|]. vm_compute. reflexivity.
Qed.
(** the same bits written with a comma by a stream and read with a point *)
Lemma mixed_lost : exists c p f, keep c = true /\ c_point c = 46 /\ precision p /\ normal (fmt_of p) f /\
  as_float c p (v_float c p f) = Throw JsonException.
Proof.
  exists (Config true 46 44 46 []), 53, one_half. split; [reflexivity|]. split; [reflexivity|].
  split; [exact double_precision|]. split; [exact one_half_normal|]. vm_compute. reflexivity.
Qed.
(** a locale that separates thousands by commas, as en_US does *)
Definition cfg_thousands : config := Config true 46 46 44 [3].
(** 1234.5, 1234567 *)
Definition some_thousand : flt := Fin false 5429388417957888 (-42).
Definition some_million : flt := Fin false 5302424889720832 (-32).
Lemma some_thousand_normal : normal (fmt_of 53) some_thousand.
Proof. constructor; vm_compute; intuition congruence. Qed.
Lemma thousands_text : float_to_string cfg_thousands 53 some_thousand = of_string "1,234.5" /\
  float_to_string cfg_thousands 53 some_million = of_string "1,234,567".
Proof. split; vm_compute; reflexivity. Qed.
Lemma thousands_separator : keep cfg_thousands = true /\ precision 53 /\ separator cfg_thousands /\ s_point cfg_thousands = 46 /\
  float_to_string cfg_thousands 53 some_million = of_string "1,234,567" /\
  without (s_sep cfg_thousands) (of_string "1,234,567") = of_string "1234567".
Proof.
  splits; auto; try exact double_precision. split; [unfold digit; cbn; lia|]. split; cbn; [discriminate|intuition discriminate].
Qed.
Lemma thousands_elements : exists c p f t a b, keep c = true /\ c_point c = 46 /\ s_point c = 46 /\ precision p /\ normal (fmt_of p) f /\
  dumps None (v_array [v_float c p f]) = Ok t /\ (forall be, parse false be t = Ok (Some (v_array [a; b]))) /\
  as_float c p (v_float c p f) = Throw JsonException.
Proof.
  exists cfg_thousands, 53, some_thousand. do 3 eexists. do 3 (split; [reflexivity|]). split; [exact double_precision|].
  split; [exact some_thousand_normal|]. split; [vm_compute; reflexivity|].
  split; [intros be; destruct be as [|[]|[]| | | |]; vm_compute; reflexivity|vm_compute; reflexivity].
Qed.
(** -1.5e3 *)
Lemma denotes_sample : denotes (of_string "-1.5e3") (-1500).
Proof.
  exists true, [49], [53], 3%Z. split; [|vm_compute; reflexivity].
  apply (parts_frac true [49] [53] (of_string "e3") 3%Z); [apply (gint_pos 49 []); [lia|constructor]|discriminate|repeat constructor; lia|].
  apply (ex_some 101 [] false [51]); [now left|now left|discriminate|repeat constructor; lia].
Qed.
Lemma large_sample : denotes (of_string "1e309") (10 ^ 309) /\ too_large (fmt_of 53) (10 ^ 309).
Proof.
  split.
  - exists false, [49], [], 309%Z. split; [|vm_compute; reflexivity].
    apply (parts_int false [49] (of_string "e309") 309%Z); [apply (gint_pos 49 []); [lia|constructor]|].
    apply (ex_some 101 [] false [51; 48; 57]); [now left|now left|discriminate|repeat constructor; lia].
  - unfold too_large. vm_compute. discriminate.
Qed.
(** a text no double is equal to, but too close to zero: 1e-310 *)
Lemma small_throws : exists c p t q, classic c /\ precision p /\ denotes t q /\ below_normal (fmt_of p) q /\
  as_float c p (VStr Tnumber t) = Throw JsonException.
Proof.
  exists cfg_default, 53, (of_string "1e-310"), (10 ^ (-310))%Q. split; [exact default_classic|]. split; [exact double_precision|].
  split; [exists false, [49], [], (-310)%Z; split; [|vm_compute; reflexivity]|].
  - apply (parts_int false [49] (of_string "e-310") (-310)%Z); [apply (gint_pos 49 []); [lia|constructor]|].
    apply (ex_some 101 [45] true [51; 49; 48]); [now left|now right; right|discriminate|repeat constructor; lia].
  - split; [split; vm_compute; reflexivity|]. vm_compute. reflexivity.
Qed.
Lemma infinity_text : exists c p x v, classic c /\ precision p /\ to_value (std_env false c) (TFlt p) (DFlt x) = Ok v /\ ~ wf v.
Proof.
  exists cfg_default, 53, 0x7FF0000000000000, (v_float cfg_default 53 (Inf false)). split; [exact default_classic|].
  split; [exact double_precision|]. split; [vm_compute; reflexivity|]. apply exceptional_text. eauto.
Qed.

(** what std::stod reads beside numbers: white space, a plus sign, hexadecimal numbers; words; garbage *)
Lemma point_sample : decimal_point 46 /\ decimal_point 44.
Proof. unfold decimal_point, alphanumeric, white, digit. lia. Qed.
Lemma hex_reading : strtod_reads 46 (of_string " +0x1.8p1") false (ReadNum (qn 24 * 2 ^ (1 - 4))).
Proof.
  apply (st_reads 46 [32] [43] false (of_string "0x1.8p1")); [repeat constructor|constructor|].
  apply (su_hexadecimal 46 120 [49; 46; 56] [49] [56] 24 [112; 49] 1).
  - now left.
  - apply (mn_point 46 _ [49] [56]); [discriminate| |]; (constructor; [|constructor]).
    + exists 1. apply (hex_dec 49). unfold digit. lia.
    + exists 8. apply (hex_dec 56). unfold digit. lia.
  - apply (hx_digit [49] 1 56 8); [apply (hx_digit [] 0 49 1); [constructor|]|];
      [apply (hex_dec 49)|apply (hex_dec 56)]; unfold digit; lia.
  - apply (sc_some 112 80 112 [] false [49]); [now left|constructor|discriminate|repeat constructor; unfold digit; lia].
Qed.
Lemma nan_reading : strtod_reads 46 (of_string "-NaN(1)") true ReadNan.
Proof.
  apply (st_reads 46 [] [45] true (of_string "NaN(1)")); [constructor|constructor|].
  apply (su_nan_chars 46 (of_string "NaN") [49]); [|constructor; [left; left; unfold digit; lia|constructor]].
  unfold same_name, same_letter. repeat (constructor; [cbn; lia|]). constructor.
Qed.
Lemma stod_sample : as_float cfg_default 53 (VStr Tnumber (of_string " +0x1.8p1")) = Ok (Fin false 6755399441055744 (-51)) /\
  as_float cfg_default 53 (VStr Tnumber (of_string "-NaN(1)")) = Ok (Nan true) /\
  as_float cfg_default 53 (VStr Tnumber (of_string "1.5 ")) = Throw JsonException.
Proof. splits; vm_compute; reflexivity. Qed.
