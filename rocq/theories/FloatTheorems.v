(** * The floating-point properties, from the lemmas of FloatProofs.v. *)
From Coq Require Import QArith Qabs Qpower Lqa.
From Verif Require Import Base Value Containers Num Enum Conv Float Spec SpecConv SpecFloat BaseProofs NumProofs FloatProofs.
Open Scope N_scope.
Ltac Zify.zify_post_hook ::= Z.div_mod_to_equations.

(** ** In the form of the properties *)
Lemma qmult_sgn s x y : (Qabs (sgn s * x - sgn s * y) == Qabs (x - y))%Q.
Proof. destruct s; cbn [sgn]; qabs; lra. Qed.
Lemma fmt_ok p : precision p -> (emin (fmt_of p) <= emax (fmt_of p))%Z.
Proof. intros [->|[->|[->| ->]]]; vm_compute; discriminate. Qed.
Lemma finite_shape F g : (emin F <= emax F)%Z -> 1 <= prec F -> finite F g ->
  exists s m e, g = Fin s m e /\ m < 2 ^ prec F /\ (emin F <= e)%Z.
Proof.
  intros HF Hp H. pose proof (pow_split _ Hp). pose proof (pow_gt0 2 (prec F - 1) ltac:(lia)).
  destruct H as [[s]|[[s m Hm]|[s m e Hm He]]]; do 3 eexists; splits; try reflexivity; lia.
Qed.
Lemma as_float_number c p t : as_float c p (VStr Tnumber t) =
  match parse_floating c p t with Some f => Ok f | None => Throw JsonException end.
Proof. reflexivity. Qed.
Theorem float_text_number c p s m e : classic c -> precision p -> gnumber (float_to_string c p (Fin s m e)).
Proof.
  intros [C1 C] Hp. unfold float_to_string. rewrite C1. destruct (keep c).
  - destruct (C eq_refl) as [C2 C3]. rewrite C2, C3. change (group_digits (s_sep c) []) with (fun l : bytes => l). destruct (N.eq_dec m 0) as [->|].
    + cbn [text_g]. rewrite N.eqb_refl. apply (parts_gnumber _ s [48] [] 0). apply (parts_int s [48] [] 0%Z); constructor.
    + destruct (digits_enough p Hp) as (_ & D & _).
      destruct (text_g_parts (max_digits10 p) s m e D ltac:(lia)) as (i & f & x & H & _). eapply parts_gnumber; eauto.
  - destruct (text_f_parts s m e) as (i & f & H & _). eapply parts_gnumber; eauto.
Qed.
Theorem float_wf c p s m e : classic c -> precision p -> wf (v_float c p (Fin s m e)).
Proof. intros. apply wf_num. now apply float_text_number. Qed.
Theorem float_round_trip c p f : keep c = true -> classic c -> precision p ->
  zero (fmt_of p) f \/ normal (fmt_of p) f -> as_float c p (v_float c p f) = Ok f.
Proof. intros. unfold v_float, v_number. rewrite as_float_number, keep_round_trip; auto. Qed.
Theorem fixed_text_close c p s m e : keep c = false -> classic c ->
  exists q, denotes (float_to_string c p (Fin s m e)) q /\ (Qabs (q - flt_value (Fin s m e)) <= 1 # 2000000)%Q.
Proof.
  intros K [C1 _]. unfold float_to_string. rewrite K, C1. destruct (text_f_parts s m e) as (i & f & H & L & E1 & E2).
  exists (sgn s * (qn (decimal (i ++ f)) * 10 ^ (-6)))%Q. split.
  - exists s, i, f, 0%Z. split; auto. rewrite L. reflexivity.
  - cbn [flt_value]. rewrite qmult_sgn. qabs; lra.
Qed.
Theorem shortest_text_close c p s m e : keep c = true -> classic c -> precision p ->
  exists q, denotes (float_to_string c p (Fin s m e)) q /\
  (Qabs (q - flt_value (Fin s m e)) <= (1 # 2) * Qabs (flt_value (Fin s m e)) * 10 ^ (1 - Z.of_N (max_digits10 p)))%Q.
Proof.
  intros K [C1 C] Hp. destruct (C K) as [C2 C3]. unfold float_to_string. rewrite K, C2, C3. change (group_digits (s_sep c) []) with (fun l : bytes => l).
  assert (A : (Qabs (flt_value (Fin s m e)) == qn m * 2 ^ e)%Q).
  { cbn [flt_value]. assert (0 <= qn m * 2 ^ e)%Q by (pose proof (qn_nonneg m); pose proof (p2_pos e); nra).
    destruct s; cbn [sgn]; qabs; lra. }
  destruct (N.eq_dec m 0) as [->|].
  - exists 0%Q. split.
    + exists s, [48], [], 0%Z. split; [|destruct s; reflexivity].
      cbn [text_g]. rewrite N.eqb_refl. apply (parts_int s [48] [] 0%Z); constructor.
    + rewrite A. cbn [flt_value]. change (qn 0) with 0%Q. setoid_replace (0 - sgn s * (0 * 2 ^ e))%Q with 0%Q by ring.
      setoid_replace ((1 # 2) * (0 * 2 ^ e) * 10 ^ (1 - Z.of_N (max_digits10 p)))%Q with 0%Q by ring. apply Qle_refl.
  - destruct (digits_enough p Hp) as (_ & D & _).
    destruct (text_g_parts (max_digits10 p) s m e D ltac:(lia)) as (i & f & x & H & E1 & E2).
    exists (sgn s * (qn (decimal (i ++ f)) * 10 ^ (x - Z.of_nat (length f))))%Q. split.
    + exists s, i, f, x. split; auto. reflexivity.
    + rewrite A. cbn [flt_value]. rewrite qmult_sgn. qabs; lra.
Qed.
Theorem reads_nearest c p t q : c_point c = 46 -> precision p -> denotes t q ->
  (exists f, as_float c p (VStr Tnumber t) = Ok f /\ finite (fmt_of p) f /\
     forall g, finite (fmt_of p) g -> (Qabs (flt_value f - q) <= Qabs (flt_value g - q))%Q)
  \/ (as_float c p (VStr Tnumber t) = Throw JsonException /\
      (too_large (fmt_of p) q \/
       below_normal (fmt_of p) q /\ forall g, finite (fmt_of p) g -> ~ (flt_value g == q)%Q)).
Proof.
  intros C Hp (s & i & f & x & Hparts & Hq). rewrite as_float_number. unfold parse_floating. rewrite C, (read_parts _ _ _ _ _ Hparts).
  set (D := decimal (i ++ f)) in *. set (k := (x - Z.of_nat (length f))%Z) in *.
  pose proof (numer_denom10 D k) as Hd. set (d := (qn D * 10 ^ k)%Q) in *.
  destruct (digits_enough p Hp) as (_ & _ & P1). pose proof (fmt_ok p Hp) as HF. set (F := fmt_of p) in *.
  assert (PF : 1 <= prec F) by exact P1. unfold to_flt.
  destruct (N.eqb_spec (numer D 0 k) 0) as [E0|E0].
  - left. eexists; split; [reflexivity|]. split; [left; constructor|]. intros g _.
    assert (Z0 : (q == 0)%Q).
    { assert (D = 0) by (destruct (N.eq_dec D 0); auto; pose proof (numer_pos D 0 k); lia).
      rewrite Hq. unfold d. rewrite H. change (qn 0) with 0%Q. ring. }
    cbn [flt_value]. rewrite Z0. change (qn 0) with 0%Q. setoid_replace (sgn s * (0 * 2 ^ emin F) - 0)%Q with 0%Q by ring.
    apply Qabs_nonneg.
  - assert (A0 : 0 < numer D 0 k) by lia. pose proof (denom_pos 0 k) as B0.
    assert (D0 : (0 < d)%Q).
    { unfold d. pose proof (p10_pos k). assert (0 < qn D)%Q; [|nra]. apply qn_pos. destruct (N.eq_dec D 0) as [E|]; [|lia].
      rewrite E in E0. unfold numer in E0. lia. }
    assert (AQ : (Qabs q == d)%Q) by (rewrite Hq; destruct s; cbn [sgn]; qabs; lra).
    assert (TL : too_large F q <-> too_large F d) by (unfold too_large; rewrite AQ, (Qabs_pos d) by lra; reflexivity).
    assert (BN : below_normal F q <-> below_normal F d) by (unfold below_normal; rewrite AQ, (Qabs_pos d) by lra; reflexivity).
    destruct (round_frac (prec F) (Some (emin F)) (numer D 0 k) (denom 0 k)) as [m e] eqn:R.
    assert (Near : forall g, finite F g -> (Qabs (flt_value (Fin s m e) - q) <= Qabs (flt_value g - q))%Q).
    { intros g Hg. destruct (finite_shape F g HF PF Hg) as (s' & m' & e' & -> & Hm' & He'). cbn [flt_value]. rewrite Hq at 1. rewrite qmult_sgn.
      pose proof (rounded_nearest F PF _ _ d A0 B0 Hd m e m' e' R Hm' He') as N1.
      pose proof (rounded_nearest F PF _ _ d A0 B0 Hd m e 0 (emin F) R ltac:(apply pow_gt0; lia) ltac:(lia)) as N2.
      change (qn 0) with 0%Q in N2. setoid_replace (0 * 2 ^ emin F - d)%Q with (- d)%Q in N2 by ring.
      destruct (Bool.bool_dec s' s) as [->|Hs]; [rewrite Hq, qmult_sgn; exact N1|].
      eapply Qle_trans; [exact N2|]. rewrite Hq.
      assert (V : (0 <= qn m' * 2 ^ e')%Q) by (pose proof (qn_nonneg m'); pose proof (p2_pos e'); nra).
      destruct s, s'; try congruence; cbn [sgn]; qabs; lra. }
    pose proof (rounded_overflow F PF HF _ _ d A0 B0 Hd m e R) as OV.
    destruct (Z.ltb_spec (emax F) e) as [O|O].
    + right. split; [reflexivity|]. left. apply TL. now apply OV.
    + destruct (Z.ltb_spec (snd (round_frac (prec F) None (numer D 0 k) (denom 0 k))) (emin F)) as [T|T]; cbn [andb].
      * destruct (N.eqb_spec (numer D 0 k * pow_up 2 (- e)) (m * pow_up 2 e * denom 0 k)) as [X|X]; cbn [negb].
        -- left. eexists; split; [reflexivity|]. split; [now apply (rounded_finite F PF _ _ d A0 B0 Hd s m e)|exact Near].
        -- right. split; [reflexivity|]. right. split; [apply BN; now apply (tiny_below F PF _ _ d A0 B0 Hd)|].
           intros g Hg Eg. apply X. apply qn_inj. specialize (Near g Hg). rewrite Eg in Near.
           assert (Z0 : (flt_value (Fin s m e) == q)%Q).
           { setoid_replace (q - q)%Q with 0%Q in Near by ring. change (Qabs 0) with 0%Q in Near. qabs; lra. }
           cbn [flt_value] in Z0. rewrite Hq in Z0. assert (Z1 : (qn m * 2 ^ e == d)%Q) by (destruct s; cbn [sgn] in Z0; lra).
           rewrite !qn_mul, Hd, <- Z1. pose proof (pow_ratio 2 e ltac:(lia)) as Rt. change (qn 2) with 2%Q in Rt. rewrite Rt. ring.
      * left. eexists; split; [reflexivity|]. split; [now apply (rounded_finite F PF _ _ d A0 B0 Hd s m e)|exact Near].
Qed.
Theorem too_large_throws c p t q : c_point c = 46 -> precision p -> denotes t q -> too_large (fmt_of p) q ->
  as_float c p (VStr Tnumber t) = Throw JsonException.
Proof.
  intros C Hp (s & i & f & x & Hparts & Hq) H. rewrite as_float_number. unfold parse_floating. rewrite C, (read_parts _ _ _ _ _ Hparts).
  set (D := decimal (i ++ f)) in *. set (k := (x - Z.of_nat (length f))%Z) in *.
  pose proof (numer_denom10 D k) as Hd. set (d := (qn D * 10 ^ k)%Q) in *.
  destruct (digits_enough p Hp) as (_ & _ & P1). pose proof (fmt_ok p Hp) as HF. set (F := fmt_of p) in *.
  assert (PF : 1 <= prec F) by exact P1. unfold to_flt.
  assert (S1 : (1 <= qn (2 ^ prec F))%Q) by (apply qn_one_le, pow_gt0; lia).
  destruct (N.eqb_spec (numer D 0 k) 0) as [E0|E0].
  - exfalso. assert (D = 0) by (destruct (N.eq_dec D 0); auto; pose proof (numer_pos D 0 k); lia).
    assert (Z0 : (q == 0)%Q) by (rewrite Hq; unfold d; rewrite H0; change (qn 0) with 0%Q; ring).
    unfold too_large in H. rewrite Z0 in H. change (Qabs 0) with 0%Q in H. rewrite p2_nat in H. pose proof (p2_pos (emax F)). nra.
  - assert (A0 : 0 < numer D 0 k) by lia. pose proof (denom_pos 0 k) as B0.
    assert (D0 : (0 < d)%Q).
    { unfold d. pose proof (p10_pos k). assert (0 < qn D)%Q; [|nra]. apply qn_pos. destruct (N.eq_dec D 0) as [E|]; [|lia].
      rewrite E in E0. unfold numer in E0. lia. }
    assert (AQ : (Qabs q == d)%Q) by (rewrite Hq; destruct s; cbn [sgn]; qabs; lra).
    assert (TL : too_large F d) by (unfold too_large in *; rewrite AQ in H; rewrite (Qabs_pos d) by lra; exact H).
    destruct (round_frac (prec F) (Some (emin F)) (numer D 0 k) (denom 0 k)) as [m e] eqn:R.
    apply (rounded_overflow F PF HF _ _ d A0 B0 Hd m e R) in TL.
    destruct (Z.ltb_spec (emax F) e) as [O|O]; [reflexivity|lia].
Qed.

(** ** Bit patterns *)
Lemma decode_shape p x : precision p ->
  match decode p x with Fin _ _ _ => finite (fmt_of p) (decode p x) | _ => True end.
Proof.
  intros Hp. unfold decode. set (w := exp_bits p). set (B := 2 ^ (p - 1)).
  pose proof (N.mod_lt x B ltac:(apply N.pow_nonzero; lia)) as L1. set (frac := x mod B) in *.
  pose proof (N.mod_lt (x / B) (2 ^ w) ltac:(apply N.pow_nonzero; lia)) as L2. set (ex := (x / B) mod 2 ^ w) in *. clearbody frac ex.
  destruct (N.eqb_spec ex (2 ^ w - 1)); [destruct (frac =? 0); exact I|].
  destruct (N.eqb_spec ex 0).
  - destruct (N.eq_dec frac 0) as [->|]; [left; constructor|right; left; constructor; rewrite fmt_prec; fold B; lia].
  - right; right. constructor.
    + rewrite fmt_prec. fold B. destruct (digits_enough p Hp) as (_ & _ & P1). rewrite (pow_split p P1). fold B. lia.
    + destruct Hp as [->|[->|[->| ->]]]; vm_compute in w; subst w; vm_compute emin; vm_compute emax; vm_compute (2 ^ _) in *; lia.
Qed.
Lemma sign_bit z n : z < 2 -> (if N.odd z then n else 0) = z * n.
Proof.
  intros H. assert (O : z = 0 \/ z = 1) by lia. clear H. destruct O as [-> | ->].
  - reflexivity.
  - change (N.odd 1) with true. lia.
Qed.
Lemma encode_decode p x : precision p -> x < 2 ^ (p + exp_bits p) ->
  match decode p x with Nan _ => True | f => encode p f = x end.
Proof.
  intros Hp Hx. destruct (digits_enough p Hp) as (_ & _ & P1). unfold decode. set (w := exp_bits p) in *. set (B := 2 ^ (p - 1)) in *.
  pose proof (pow_gt0 2 (p - 1) ltac:(lia)) as GB. fold B in GB. pose proof (pow_gt0 2 w ltac:(lia)) as GW.
  pose proof (N.mod_lt x B ltac:(lia)) as L1. pose proof (N.div_mod x B ltac:(lia)) as E1. set (frac := x mod B) in *.
  set (y := x / B) in *. pose proof (N.mod_lt y (2 ^ w) ltac:(lia)) as L2. pose proof (N.div_mod y (2 ^ w) ltac:(lia)) as E2.
  set (ex := y mod 2 ^ w) in *.
  assert (S : x / 2 ^ (p - 1 + w) = y / 2 ^ w) by (unfold y; rewrite N.pow_add_r; fold B; now rewrite N.div_div by lia).
  rewrite S. set (z := y / 2 ^ w) in *.
  assert (HX : 2 ^ (p + w) = 2 * B * 2 ^ w) by (rewrite N.pow_add_r, (pow_split p P1); fold B; lia).
  assert (Z1 : z < 2).
  { apply N.div_lt_upper_bound; [lia|]. apply N.div_lt_upper_bound; [lia|]. rewrite HX in Hx. lia. }
  assert (SG : (if N.odd z then 2 ^ (p - 1 + w) else 0) = z * (B * 2 ^ w)).
  { rewrite sign_bit by exact Z1. rewrite N.pow_add_r. reflexivity. }
  clearbody frac ex z y.
  destruct (N.eqb_spec ex (2 ^ w - 1)) as [Ex|Ex].
  - destruct (N.eqb_spec frac 0); [|exact I]. unfold encode. fold w B. rewrite SG. nia.
  - destruct (N.eqb_spec ex 0).
    + unfold encode. fold w B. rewrite SG. destruct (N.ltb_spec frac B); [|lia]. nia.
    + unfold encode. fold w B. rewrite SG. destruct (N.ltb_spec (B + frac) B); [lia|].
      replace (Z.to_N (emin (fmt_of p) + Z.of_N ex - 1 - emin (fmt_of p) + 1)) with ex by lia. nia.
Qed.
Theorem float_faithful num c p x : keep c = true -> classic c -> precision p -> x < 2 ^ (p + exp_bits p) ->
  zero (fmt_of p) (decode p x) \/ normal (fmt_of p) (decode p x) -> faithful (std_env num c) (TFlt p) (DFlt x).
Proof.
  intros K C Hp Hx H. pose proof (encode_decode p x Hp Hx) as E.
  assert (S : exists s m e, decode p x = Fin s m e) by (destruct H as [H|H]; inversion H; subst; eauto).
  destruct S as (s & m & e & S). constructor; cbn [float_text float_parse std_env].
  - rewrite S. now apply float_text_number.
  - rewrite keep_round_trip; auto. rewrite S in *. now rewrite E.
Qed.

(** ** The default build: six digits after the point *)
Lemma fmt_wide p : precision p -> (0 <= emax (fmt_of p))%Z /\ (Z.of_N (prec (fmt_of p)) - 1 + emin (fmt_of p) <= -20)%Z.
Proof. intros [->|[->|[->| ->]]]; vm_compute; split; discriminate. Qed.
Lemma finite_bound F f : 1 <= prec F -> (emin F <= emax F)%Z -> finite F f ->
  (Qabs (flt_value f) <= (qn (2 ^ prec F) - 1) * 2 ^ emax F)%Q.
Proof.
  intros Hp HF H. pose proof (pow_split _ Hp) as Sp. pose proof (pow_gt0 2 (prec F - 1) ltac:(lia)).
  assert (G : exists s m e, f = Fin s m e /\ m + 1 <= 2 ^ prec F /\ (e <= emax F)%Z).
  { destruct H as [[s]|[[s m Hm]|[s m e Hm He]]]; do 3 eexists; (split; [reflexivity|]); lia. }
  destruct G as (s & m & e & -> & Hm & He). cbn [flt_value]. apply qn_le in Hm. rewrite qn_add in Hm. change (qn 1) with 1%Q in Hm.
  apply p2_le in He. pose proof (qn_nonneg m). pose proof (p2_pos e).
  assert (0 <= qn m * 2 ^ e)%Q by nra. assert (qn m * 2 ^ e <= (qn (2 ^ prec F) - 1) * 2 ^ emax F)%Q by nra.
  destruct s; cbn [sgn]; qabs; lra.
Qed.
Theorem fixed_round_trip c p f : keep c = false -> classic c -> precision p -> finite (fmt_of p) f ->
  exists g, as_float c p (v_float c p f) = Ok g /\ finite (fmt_of p) g /\ (Qabs (flt_value g - flt_value f) <= 1 # 1000000)%Q.
Proof.
  intros K C Hp Hf. pose proof (fmt_ok p Hp) as HF. destruct (digits_enough p Hp) as (_ & _ & P1).
  assert (PF : 1 <= prec (fmt_of p)) by exact P1.
  pose proof (finite_bound _ _ PF HF Hf) as Bd.
  destruct (finite_shape _ _ HF PF Hf) as (s & m & e & -> & _).
  unfold v_float, v_number. unfold float_to_string at 1. rewrite K. destruct C as [C1 _]. rewrite C1.
  destruct (text_f_parts s m e) as (i & fr & H & L & E1 & E2). cbv zeta in E1, E2.
  set (n := decimal (i ++ fr)) in *. set (q := (sgn s * (qn n * 10 ^ (-6)))%Q).
  assert (Dn : denotes (text_f 46 (Fin s m e)) q) by (exists s, i, fr, 0%Z; split; auto; rewrite L; reflexivity).
  assert (Cl : (Qabs (flt_value (Fin s m e) - q) <= 1 # 2000000)%Q) by (cbn [flt_value]; unfold q; rewrite qmult_sgn; qabs; lra).
  destruct (fmt_wide p Hp) as [W1 W2].
  destruct (reads_nearest c p _ q C1 Hp Dn) as [(g & R & Fg & Ng)|[_ [T|[[T1 T2] _]]]].
  - exists g. split; auto. split; auto. specialize (Ng _ Hf). qabs; lra.
  - exfalso. unfold too_large in T. rewrite p2_nat in T. apply p2_le in W1. change (2 ^ 0)%Q with 1%Q in W1.
    set (A := qn _) in *. assert ((A - (1 # 2)) * 2 ^ emax (fmt_of p) <= (A - 1) * 2 ^ emax (fmt_of p) + (1 # 2000000))%Q by (qabs; lra).
    lra.
  - exfalso. apply p2_le in W2. change (2 ^ (-20))%Q with (1 # 1048576)%Q in W2.
    assert (Aq : (Qabs q == qn n * 10 ^ (-6))%Q).
    { unfold q. pose proof (qn_nonneg n). change (10 ^ (-6))%Q with (1 # 1000000)%Q. destruct s; cbn [sgn]; qabs; lra. }
    rewrite Aq in *. change (10 ^ (-6))%Q with (1 # 1000000)%Q in *.
    destruct (N.eq_dec n 0) as [E0|]; [rewrite E0 in T1; change (qn 0) with 0%Q in T1; lra|].
    assert (1 <= qn n)%Q by (apply qn_one_le; lia). lra.
Qed.
Theorem bits_wf num c p x v : classic c -> precision p -> to_value (std_env num c) (TFlt p) (DFlt x) = Ok v ->
  wf v \/ exists s, decode p x = Inf s \/ decode p x = Nan s.
Proof.
  intros C Hp [= <-]. destruct (decode p x) as [s m e|s|s] eqn:D; [left|right; eauto|right; eauto].
  apply wf_num. now apply float_text_number.
Qed.
Theorem finite_wf c p f : classic c -> precision p -> finite (fmt_of p) f -> wf (v_float c p f).
Proof.
  intros C Hp Hf. assert (S : exists s m e, f = Fin s m e) by (destruct Hf as [[]|[[]|[]]]; eauto).
  destruct S as (s & m & e & ->). now apply float_wf.
Qed.
Theorem bits_finite p x : precision p -> finite (fmt_of p) (decode p x) \/ exists s, decode p x = Inf s \/ decode p x = Nan s.
Proof. intros Hp. pose proof (decode_shape p x Hp). destruct (decode p x) eqn:E; eauto. Qed.
Theorem number_reads_nearest c p t : c_point c = 46 -> precision p -> gnumber t -> exists q, denotes t q /\
  ((exists f, as_float c p (VStr Tnumber t) = Ok f /\ finite (fmt_of p) f /\
     forall g, finite (fmt_of p) g -> (Qabs (flt_value f - q) <= Qabs (flt_value g - q))%Q)
   \/ (as_float c p (VStr Tnumber t) = Throw JsonException /\
       (too_large (fmt_of p) q \/
        below_normal (fmt_of p) q /\ forall g, finite (fmt_of p) g -> ~ (flt_value g == q)%Q))).
Proof. intros C Hp (q & Hq)%gnumber_denotes. exists q. split; auto. now apply reads_nearest. Qed.

(** ** Digits in groups *)
Lemma group_rev_grouped sep n : forall gs ds, (length ds <= n)%nat -> gs <> [] ->
  grouped sep gs (rev ds) (rev (group_rev n sep gs ds)).
Proof.
  induction n as [|n IH]; intros gs ds L Hg.
  - destruct ds; [|cbn in L; lia]. cbn. apply gr_one. intros. cbn. lia.
  - destruct gs as [|g r]; [congruence|]. cbn [group_rev].
    destruct ((g =? 0) || (127 <=? g) || (size ds <=? g)) eqn:E.
    + apply gr_one. intros g0 r0 [= <- <-] B. unfold size in *. rewrite rev_length. lia.
    + assert (B : 0 < g < 127 /\ g < size ds) by lia. destruct B as [B1 B2].
      assert (S1 : (length (firstn (N.to_nat g) ds) = N.to_nat g)%nat) by (rewrite firstn_length; unfold size in *; lia).
      assert (S2 : (length (skipn (N.to_nat g) ds) = length ds - N.to_nat g)%nat) by apply skipn_length.
      rewrite rev_app_distr. cbn [rev]. rewrite <- app_assoc. cbn [app].
      rewrite <- (firstn_skipn (N.to_nat g) ds) at 1. rewrite rev_app_distr.
      assert (A : N.of_nat (length (rev (firstn (N.to_nat g) ds))) = g) by (rewrite rev_length; lia).
      assert (NE : rev (skipn (N.to_nat g) ds) <> []).
      { intros H. apply (f_equal (@length N)) in H. rewrite rev_length in H. unfold size in *. cbn in H. lia. }
      destruct r as [|g' r]; cbn [is_nil].
      * apply gr_again; auto. apply IH; [|discriminate]. unfold size in *. lia.
      * apply gr_next; auto. apply IH; [|discriminate]. unfold size in *. lia.
Qed.
Lemma group_digits_grouped sep gs ds : grouped sep gs ds (group_digits sep gs ds).
Proof.
  unfold group_digits. destruct gs as [|g r]; cbn [is_nil].
  - apply gr_one. discriminate.
  - rewrite <- (rev_involutive ds) at 1. apply group_rev_grouped; [now rewrite rev_length|discriminate].
Qed.
Lemma without_same sep l : Forall (fun c => c <> sep) l -> without sep l = l.
Proof. induction 1 as [|c l H _ IH]; cbn; auto. destruct (N.eqb_spec c sep); [contradiction|]. cbn. fold (without sep l). now rewrite IH. Qed.
Lemma without_app sep a b : without sep (a ++ b) = without sep a ++ without sep b.
Proof. apply filter_app. Qed.
Lemma grouped_without sep gs i g : grouped sep gs i g -> Forall (fun c => c <> sep) i -> without sep g = i.
Proof.
  induction 1 as [gs i H|g g' r i t a Hg Ha Hi _ IH|g i t a Hg Ha Hi _ IH]; intros F.
  - now apply without_same.
  - apply Forall_app in F as [F1 F2]. rewrite without_app. cbn. rewrite N.eqb_refl. cbn. fold (without sep a). now rewrite IH, (without_same _ _ F2).
  - apply Forall_app in F as [F1 F2]. rewrite without_app. cbn. rewrite N.eqb_refl. cbn. fold (without sep a). now rewrite IH, (without_same _ _ F2).
Qed.
Lemma grouped_short sep gs d : grouped sep gs [d] [d].
Proof. apply gr_one. intros. cbn. lia. Qed.
Theorem text_grouped c p s m e : keep c = true -> precision p -> exists i g r,
  float_to_string (ungrouped c) p (Fin s m e) = sign_text s ++ i ++ r /\
  float_to_string c p (Fin s m e) = sign_text s ++ g ++ r /\ grouped (s_sep c) (s_group c) i g /\
  i <> [] /\ Forall digit i /\ (r = [] \/ exists d r', r = d :: r' /\ (d = s_point c \/ d = 101)).
Proof.
  intros K Hp. destruct (digits_enough p Hp) as (_ & D & _). unfold float_to_string. cbn [ungrouped keep s_sep s_group s_point]. rewrite K.
  change (group_digits (s_sep c) []) with (fun l : bytes => l). cbn [text_g].
  destruct (N.eqb_spec m 0) as [->|Hm].
  { exists [48], [48], []. splits; auto using grouped_short; try discriminate. repeat constructor; unfold digit; lia. }
  destruct (significant (max_digits10 p) m e) as [n x] eqn:E.
  destruct (pad_digits_spec (N.to_nat (max_digits10 p)) n) as (A & B & _). set (ds := pad_digits _ n) in *.
  assert (T : forall l, fraction_text (s_point c) l = [] \/ exists r', fraction_text (s_point c) l = s_point c :: r').
  { intros l. unfold fraction_text. destruct (is_nil l); eauto. }
  assert (Fd : forall k, Forall digit (firstn k ds)).
  { intros k. rewrite <- (firstn_skipn k ds) in B. now apply Forall_app in B as [B _]. }
  assert (NE : forall k, (1 <= k)%nat -> firstn k ds <> []).
  { intros k Hk H. apply (f_equal (@length N)) in H. rewrite firstn_length in H. cbn in H. lia. }
  destruct ((-4 <=? x)%Z && (x <? Z.of_N (max_digits10 p))%Z) eqn:R.
  - destruct (0 <=? x)%Z eqn:X.
    + exists (firstn (Z.to_nat (x + 1)) ds), (group_digits (s_sep c) (s_group c) (firstn (Z.to_nat (x + 1)) ds)),
        (fraction_text (s_point c) (strip_zeros (skipn (Z.to_nat (x + 1)) ds))).
      splits; auto using group_digits_grouped. apply NE; lia.
      destruct (T (strip_zeros (skipn (Z.to_nat (x + 1)) ds))) as [H|[r' H]]; rewrite H; eauto 6.
    + exists [48], [48], (s_point c :: repeat 48 (Z.to_nat (- x - 1)) ++ strip_zeros ds).
      splits; auto using grouped_short; try discriminate; [repeat constructor; unfold digit; lia|eauto 6].
  - exists (firstn 1 ds), (firstn 1 ds), (fraction_text (s_point c) (strip_zeros (skipn 1 ds)) ++ exponent_text x).
    splits; auto.
    + clearbody ds. destruct ds as [|d ds]; [cbn [length] in A; lia|]. apply grouped_short.
    + right. destruct (T (strip_zeros (skipn 1 ds))) as [H|[r' H]]; rewrite H; cbn [app]; [unfold exponent_text|]; eauto 6.
Qed.
(** what separators are not: digits, the decimal point, signs, the letters of a number *)
Theorem text_without_separators c p s m e : keep c = true -> precision p -> separator c ->
  without (s_sep c) (float_to_string c p (Fin s m e)) = float_to_string (ungrouped c) p (Fin s m e).
Proof.
  intros K Hp (S1 & S2 & S3).
  destruct (text_grouped c p s m e K Hp) as (i & g & r & E1 & E2 & G & NE & Fi & _).
  assert (Plain : Forall (fun ch => ch <> s_sep c) (float_to_string (ungrouped c) p (Fin s m e))).
  { clear i g r E1 E2 G NE Fi. unfold float_to_string. cbn [ungrouped keep s_sep s_group s_point]. rewrite K.
    change (group_digits (s_sep c) []) with (fun l : bytes => l). cbn [text_g].
    assert (Dg : forall l, Forall digit l -> Forall (fun ch => ch <> s_sep c) l).
    { intros l. apply Forall_impl. intros a Ha ->. auto. }
    assert (D48 : 48 <> s_sep c) by (intros H; apply S1; rewrite <- H; unfold digit; lia).
    assert (Hf : forall l, Forall digit l -> Forall (fun ch => ch <> s_sep c) (fraction_text (s_point c) l)).
    { intros l Hl. unfold fraction_text. destruct (is_nil l); [constructor|constructor; auto]. }
    assert (Hz : forall l, Forall digit l -> Forall digit (strip_zeros l)).
    { induction 1 as [|a l Ha _ IH]; cbn; [constructor|]. destruct ((a =? 48) && is_nil (strip_zeros l)); constructor; auto. }
    assert (Hs : Forall (fun ch => ch <> s_sep c) (sign_text s)).
    { destruct s; constructor; [|constructor]. intros H. apply S3. cbn. auto. }
    apply Forall_app; split; [exact Hs|].
    destruct (N.eqb_spec m 0) as [->|Hm]; [auto|].
    destruct (significant (max_digits10 p) m e) as [n x].
    destruct (pad_digits_spec (N.to_nat (max_digits10 p)) n) as (_ & B & _). set (ds := pad_digits _ n) in *.
    assert (Fd : forall k, Forall digit (firstn k ds) /\ Forall digit (skipn k ds)).
    { intros k. rewrite <- (firstn_skipn k ds) in B. now apply Forall_app in B. }
    destruct ((-4 <=? x)%Z && (x <? Z.of_N (max_digits10 p))%Z); [destruct (0 <=? x)%Z|].
    - apply Forall_app; split; [apply Dg, Fd|apply Hf, Hz, Fd].
    - constructor; auto. constructor; auto. apply Forall_app; split; [|apply Dg, Hz, B].
      apply Forall_forall. intros a Ha. apply repeat_spec in Ha. now subst.
    - apply Forall_app; split; [apply Dg, Fd|]. apply Forall_app; split; [apply Hf, Hz, Fd|].
      unfold exponent_text. constructor; [intros H; apply S3; cbn; auto|]. constructor.
      + destruct (x <? 0)%Z; intros H; apply S3; cbn; auto.
      + apply Dg. destruct (Z.to_N (Z.abs x) <? 10) eqn:L; [repeat constructor; unfold digit; lia|apply to_string_N_spec]. }
  rewrite E1 in *. rewrite E2. apply Forall_app in Plain as [P1 P2]. apply Forall_app in P2 as [P2 P3].
  rewrite !without_app, (without_same _ _ P1), (without_same _ _ P3), (grouped_without _ _ _ _ G P2). reflexivity.
Qed.
Theorem text_without_number c p s m e : keep c = true -> precision p -> separator c -> s_point c = 46 ->
  gnumber (without (s_sep c) (float_to_string c p (Fin s m e))).
Proof.
  intros K Hp S P. rewrite text_without_separators by auto.
  replace (float_to_string (ungrouped c) p (Fin s m e)) with (float_to_string (Config true 46 46 (s_sep c) []) p (Fin s m e)).
  - apply float_text_number; auto. split; auto.
  - unfold float_to_string, ungrouped. cbn [keep s_sep s_group s_point]. now rewrite K, P.
Qed.
Theorem text_without_both c p s m e : keep c = true -> precision p -> separator c -> s_point c = 46 ->
  without (s_sep c) (float_to_string c p (Fin s m e)) = float_to_string (ungrouped c) p (Fin s m e) /\
  gnumber (without (s_sep c) (float_to_string c p (Fin s m e))).
Proof. intros. split; [now apply text_without_separators|now apply text_without_number]. Qed.
