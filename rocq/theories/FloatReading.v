(** * Reading floating-point numbers from any text. *)
From Coq Require Import QArith Qabs Qpower Lqa Znumtheory Zpow_facts.
From Verif Require Import Base Value Containers Num Enum Conv Float Spec SpecConv SpecFloat BaseProofs NumProofs EnumProofs FloatProofs FloatTheorems.
Open Scope N_scope.
Ltac Zify.zify_post_hook ::= Z.div_mod_to_equations.

(** ** Rounding *)
Lemma far_multiple (u t : Q) m j : (0 < u)%Q -> (qn m - (1 # 2) <= t)%Q -> (t <= qn m + (1 # 2))%Q -> j <> m ->
  (Qabs (qn m * u - t * u) == Qabs (qn j * u - t * u))%Q -> (t == qn m + (1 # 2) \/ t + (1 # 2) == qn m)%Q.
Proof.
  intros Hu H1 H2 Hj HE. destruct (N.lt_trichotomy j m) as [L|[->|G]]; [|congruence|].
  - right. assert (qn j + 1 <= qn m)%Q by (change 1%Q with (qn 1); rewrite <- qn_add; apply qn_le; lia).
    assert (X : (qn m * u - t * u <= (1 # 2) * u)%Q) by nra.
    assert (Y : (t * u - qn j * u >= (1 # 2) * u)%Q) by nra.
    assert (Z : (t * u + (1 # 2) * u == qn m * u)%Q) by (qabs; nra).
    assert (Z' : ((t + (1 # 2)) * u == qn m * u)%Q) by (rewrite <- Z; ring).
    apply Qmult_inj_r in Z'; [exact Z'|lra].
  - left. assert (qn m + 1 <= qn j)%Q by (change 1%Q with (qn 1); rewrite <- qn_add; apply qn_le; lia).
    assert (Z : (t * u == qn m * u + (1 # 2) * u)%Q) by (qabs; nra).
    assert (Z' : (t * u == (qn m + (1 # 2)) * u)%Q) by (rewrite Z; ring).
    apply Qmult_inj_r in Z'; [exact Z'|lra].
Qed.
Section Ties.
  Context (F : fmt) (Hp : 2 <= prec F) (HF : (emin F <= emax F)%Z).
  Context (a b : N) (d : Q) (Ha : 0 < a) (Hb : 0 < b) (Hd : (qn a == d * qn b)%Q).
  Let p := prec F.
  Let k := log2_frac a b.
  Let e0 := Z.max (k - Z.of_N p + 1) (emin F).
  Let m0 := round_div (a * pow_up 2 (- e0)) (b * pow_up 2 e0).
  Let t := (d * 2 ^ (- e0))%Q.
  Let Hp1 : 1 <= prec F. Proof. lia. Qed.
  Lemma tie_even n : (t == qn n + (1 # 2))%Q -> N.even m0 = true.
  Proof.
    intros Et. apply round_div_tie with (n := n); [pose proof (pow_up_gt0 2 e0); nia|].
    apply qn_inj. rewrite !qn_mul, !qn_add, !qn_mul. pose proof (scale_div a b d e0 Hd) as S. rewrite !qn_mul in S. rewrite S.
    fold t. change (qn 2) with 2%Q. change (qn 1) with 1%Q. rewrite Et. ring.
  Qed.
  Lemma rounded_tie m e m' e' : rounded F a b = (m, e) -> m' < 2 ^ p -> (emin F <= e')%Z ->
    (Qabs (qn m * 2 ^ e - d) == Qabs (qn m' * 2 ^ e' - d))%Q -> (qn m' * 2 ^ e' == qn m * 2 ^ e)%Q \/ N.even m = true.
  Proof.
    intros R Hm' He' HE. pose proof (rounded_value F Hp1 a b m e R) as RV. fold p k e0 m0 in RV.
    assert (EV : N.even m0 = true -> N.even m = true).
    { pose proof (rounded_eq F a b) as RE. fold p k e0 m0 in RE. rewrite RE in R.
      destruct (N.eqb_spec m0 (2 ^ p)) as [E|E]; injection R as <- <-; auto. intros _.
      rewrite (pow_split (p - 1)) by (unfold p; lia). rewrite N.even_mul. reflexivity. }
    destruct (m0_near F Hp1 a b d Ha Hb Hd) as [N1 N2]. fold p k e0 m0 t in N1, N2.
    pose proof (t_spec F a b d) as TS. fold p k e0 t in TS.
    pose proof (p2_pos e0) as P0. rewrite RV in HE. rewrite <- TS in HE.
    destruct (Z.le_gt_cases e0 e') as [G|L].
    - assert (E : (qn m' * 2 ^ e' == qn (m' * 2 ^ Z.to_N (e' - e0)) * 2 ^ e0)%Q).
      { rewrite qn_mul, <- p2_nat. replace e' with (Z.of_N (Z.to_N (e' - e0)) + e0)%Z at 1 by lia. rewrite p2_add. ring. }
      rewrite E in *. set (j := m' * 2 ^ Z.to_N (e' - e0)) in *. destruct (N.eq_dec j m0) as [->|Hj].
      + left. symmetry. exact RV.
      + right. apply EV. destruct (far_multiple (2 ^ e0) t m0 j P0 N1 N2 Hj HE) as [X|X]; [exact (tie_even m0 X)|].
        apply (tie_even (m0 - 1)). assert (H0 : 0 < m0).
        { destruct (N.eq_dec m0 0) as [E0|]; [|lia]. exfalso. rewrite E0 in X. change (qn 0) with 0%Q in X.
          assert (0 < t)%Q; [|lra]. destruct (k_spec a b d Ha Hb Hd) as [K _]. fold k in K. pose proof (p2_pos k).
          unfold t. pose proof (p2_pos (- e0)). nra. }
        assert (E1 : (qn m0 == qn (m0 - 1) + 1)%Q) by (change 1%Q with (qn 1); rewrite <- qn_add; replace (m0 - 1 + 1) with m0 by lia; reflexivity).
        rewrite E1 in X. lra.
    - exfalso. assert (E0 : e0 = (k - Z.of_N p + 1)%Z) by (unfold e0 in *; lia).
      destruct (k_spec a b d Ha Hb Hd) as [K _]. fold k in K.
      assert (Y : (qn m' * 2 ^ e' < qn (2 ^ (p - 1)) * 2 ^ e0)%Q).
      { rewrite <- p2_nat, <- p2_add. apply Qlt_le_trans with (qn (2 ^ p) * 2 ^ e')%Q.
        - apply Qmult_lt_compat_r; [apply p2_pos|]. apply qn_lt. exact Hm'.
        - rewrite <- p2_nat, <- p2_add. apply p2_le. unfold p in *. lia. }
      assert (T : (qn (2 ^ (p - 1)) * 2 ^ e0 <= t * 2 ^ e0)%Q).
      { rewrite TS, <- p2_nat, <- p2_add. replace (Z.of_N (p - 1) + e0)%Z with k by (rewrite E0; unfold p in *; lia). exact K. }
      pose proof (nearest_multiple (2 ^ e0) t m0 (2 ^ (p - 1)) P0 N1 N2). qabs; lra.
  Qed.
  (** the test for tininess *)
  Lemma tiny_spec : (snd (round_frac p None a b) < emin F)%Z <-> tiny F d.
  Proof.
    unfold tiny. fold p. destruct (k_spec a b d Ha Hb Hd) as [K1 K2]. fold k in K1, K2.
    assert (D0 : (0 < d)%Q) by (pose proof (p2_pos k); lra).
    unfold round_frac. fold k. set (e1 := (k - Z.of_N p + 1)%Z). set (m1 := round_div (a * pow_up 2 (- e1)) (b * pow_up 2 e1)).
    set (t1 := (d * 2 ^ (- e1))%Q).
    assert (TS : (t1 * 2 ^ e1 == d)%Q) by apply mul_unit.
    assert (M : (qn m1 - (1 # 2) <= t1)%Q /\ (t1 <= qn m1 + (1 # 2))%Q).
    { apply round_div_near; [pose proof (pow_up_gt0 2 e1); nia|]. now apply scale_div. }
    destruct M as [N1 N2]. pose proof (p2_pos e1) as P1. rewrite p2_nat.
    assert (Lo : (qn (2 ^ (p - 1)) <= t1)%Q).
    { apply Qmult_lt_0_le_reg_r with (z := (2 ^ e1)%Q); [exact P1|]. rewrite TS, <- p2_nat, <- p2_add.
      replace (Z.of_N (p - 1) + e1)%Z with k by (unfold e1, p in *; lia). exact K1. }
    assert (Hi : (t1 < qn (2 ^ p))%Q).
    { apply Qmult_lt_r with (z := (2 ^ e1)%Q); [exact P1|]. rewrite TS, <- p2_nat, <- p2_add.
      replace (Z.of_N p + e1)%Z with (k + 1)%Z by (unfold e1, p in *; lia). exact K2. }
    assert (S1 : (2 <= qn (2 ^ p))%Q).
    { change 2%Q with (qn 2). apply qn_le. rewrite (pow_split p) by (unfold p; lia). pose proof (pow_gt0 2 (p - 1) ltac:(lia)). lia. }
    assert (Sp : (qn (2 ^ p) == 2 * qn (2 ^ (p - 1)))%Q) by (rewrite (pow_split p) by (unfold p; lia); rewrite qn_mul; reflexivity).
    assert (ML : m1 <= 2 ^ p).
    { assert (qn m1 < qn (2 ^ p + 1))%Q by (rewrite qn_add; change (qn 1) with 1%Q; lra). apply qn_lt in H. lia. }
    assert (Low : (e1 <= emin F - 2)%Z -> (d < (qn (2 ^ p) - (1 # 2)) * 2 ^ (emin F - 1))%Q).
    { intros He. apply p2_le in He. replace (emin F - 2)%Z with ((emin F - 1) - 1)%Z in He by lia.
      pose proof (p2_half (emin F - 1)). pose proof (p2_pos (emin F - 1)). rewrite <- TS. nra. }
    split.
    - intros H. split; [exact D0|].
      destruct (N.eqb_spec m1 (2 ^ p)) as [E|E]; cbn [snd] in H; [apply Low; lia|].
      destruct (Z.eq_dec e1 (emin F - 1)) as [Ee|]; [|apply Low; lia].
      rewrite <- TS, <- Ee. apply Qmult_lt_compat_r; [exact P1|].
      assert (ML' : m1 + 1 <= 2 ^ p) by lia. apply qn_le in ML'. rewrite qn_add in ML'. change (qn 1) with 1%Q in ML'.
      destruct (Qlt_le_dec t1 (qn (2 ^ p) - (1 # 2))) as [|X]; [assumption|exfalso].
      assert (Et : (t1 == qn m1 + (1 # 2))%Q) by lra. assert (Em : m1 + 1 = 2 ^ p) by (apply qn_inj; rewrite qn_add; change (qn 1) with 1%Q; lra).
      assert (Ev : N.even m1 = true).
      { apply round_div_tie with (n := m1); [pose proof (pow_up_gt0 2 e1); nia|].
        apply qn_inj. rewrite !qn_mul, !qn_add, !qn_mul. pose proof (scale_div a b d e1 Hd) as S. rewrite !qn_mul in S. rewrite S.
        fold t1. change (qn 2) with 2%Q. change (qn 1) with 1%Q. rewrite Et. ring. }
      pose proof (N.even_add m1 1) as EA. rewrite Em, Ev in EA. cbn in EA.
      rewrite (pow_split p) in EA by (unfold p; lia). rewrite N.even_mul in EA. discriminate.
    - intros [_ H]. destruct (Z.lt_ge_cases e1 (emin F - 1)) as [L|G].
      + destruct (m1 =? 2 ^ p); cbn [snd]; lia.
      + destruct (Z.eq_dec e1 (emin F - 1)) as [Ee|Ne].
        * destruct (N.eqb_spec m1 (2 ^ p)) as [E|E]; cbn [snd]; [exfalso|lia].
          rewrite <- TS, <- Ee in H. apply Qmult_lt_r in H; [|exact P1]. rewrite E in N1. lra.
        * exfalso. assert (P : (2 ^ (emin F) <= 2 ^ e1)%Q) by (apply p2_le; lia). rewrite (p2_half (emin F)) in P.
          pose proof (p2_pos (emin F - 1)). rewrite <- TS in H. nra.
  Qed.
End Ties.
Lemma precision_two p : precision p -> 2 <= prec (fmt_of p).
Proof. intros [->|[->|[->| ->]]]; vm_compute; discriminate. Qed.
Definition outcome (o : option flt) : res flt := match o with Some f => Ok f | None => Throw JsonException end.
Lemma to_flt_spec p s a b d : precision p -> 0 < b -> (qn a == d * qn b)%Q ->
  comes_to (fmt_of p) s (ReadNum d) (outcome (to_flt (fmt_of p) (RNum s a b))).
Proof.
  intros Hpr Hb Hd. pose proof (precision_two p Hpr) as P2. pose proof (fmt_ok p Hpr) as HF. set (F := fmt_of p) in *. clearbody F.
  assert (P1 : 1 <= prec F) by lia. cbn [comes_to]. unfold to_flt. pose proof (qn_pos b Hb) as QB.
  destruct (N.eqb_spec a 0) as [E0|E0].
  - right. assert (D0 : (d == 0)%Q).
    { rewrite E0 in Hd. change (qn 0) with 0%Q in Hd. symmetry in Hd. apply Qmult_integral in Hd as [?|?]; [assumption|lra]. }
    split.
    + intros [H|[[H _] _]]; [|lra]. unfold too_large in H. rewrite D0 in H. change (Qabs 0) with 0%Q in H. rewrite p2_nat in H.
      assert (S1 : (1 <= qn (2 ^ prec F))%Q) by (apply qn_one_le, pow_gt0; lia). pose proof (p2_pos (emax F)). nra.
    + exists 0, (emin F). cbn [outcome]. split; [reflexivity|]. split; [left; constructor|]. split; [|auto]. intros g _.
      cbn [flt_value]. rewrite D0. change (qn 0) with 0%Q.
      setoid_replace (sgn s * (0 * 2 ^ emin F) - sgn s * 0)%Q with 0%Q by ring. apply Qabs_nonneg.
  - assert (A0 : 0 < a) by lia. pose proof (qn_pos a A0) as QA.
    assert (D0 : (0 < d)%Q) by (destruct (Qlt_le_dec 0 d); [assumption|nra]).
    destruct (round_frac (prec F) (Some (emin F)) a b) as [m e] eqn:R.
    pose proof (rounded_overflow F P1 HF _ _ d A0 Hb Hd m e R) as OV.
    pose proof (tiny_spec F P2 a b d A0 Hb Hd) as TI.
    assert (NF : finite F (Fin s m e) -> nearest_even F (sgn s * d) s m e).
    { intros Hf. split; [exact Hf|].
      assert (Near : forall g, finite F g -> (Qabs (flt_value (Fin s m e) - sgn s * d) <= Qabs (flt_value g - sgn s * d))%Q /\
        ((Qabs (flt_value (Fin s m e) - sgn s * d) == Qabs (flt_value g - sgn s * d))%Q -> (flt_value g == flt_value (Fin s m e))%Q \/ N.even m = true)).
      { intros g Hg. destruct (finite_shape F g HF P1 Hg) as (s' & m' & e' & -> & Hm' & He'). cbn [flt_value]. rewrite qmult_sgn.
        pose proof (rounded_nearest F P1 _ _ d A0 Hb Hd m e m' e' R Hm' He') as N1.
        assert (Z2 : 0 < 2 ^ prec F) by (apply pow_gt0; lia).
        pose proof (rounded_nearest F P1 _ _ d A0 Hb Hd m e 0 (emin F) R Z2 ltac:(lia)) as N2.
        change (qn 0) with 0%Q in N2. setoid_replace (0 * 2 ^ emin F - d)%Q with (- d)%Q in N2 by ring.
        assert (V : (0 <= qn m' * 2 ^ e')%Q) by (pose proof (qn_nonneg m'); pose proof (p2_pos e'); nra).
        destruct (Bool.bool_dec s' s) as [->|Hs].
        - rewrite qmult_sgn. split; [exact N1|]. intros E.
          destruct (rounded_tie F P2 a b d A0 Hb Hd m e m' e' R Hm' He' E) as [X|X]; [left; now rewrite X|now right].
        - assert (Le : (Qabs (- d) <= Qabs (sgn s' * (qn m' * 2 ^ e') - sgn s * d))%Q)
            by (destruct s, s'; try congruence; cbn [sgn]; qabs; lra).
          split; [eapply Qle_trans; [exact N2|exact Le]|]. intros E.
          assert (Z0 : (qn m' * 2 ^ e' == 0)%Q) by (destruct s, s'; try congruence; cbn [sgn] in E; qabs; lra).
          assert (E' : (Qabs (qn m * 2 ^ e - d) == Qabs (qn m' * 2 ^ e' - d))%Q).
          { rewrite Z0 in *. rewrite E. destruct s, s'; try congruence; cbn [sgn]; qabs; lra. }
          destruct (rounded_tie F P2 a b d A0 Hb Hd m e m' e' R Hm' He' E') as [X|X]; [left|now right].
          rewrite <- X, Z0. ring. }
      split; intros g Hg; apply (Near g Hg). }
    destruct (Z.ltb_spec (emax F) e) as [O|O].
    + left. split; [left; now apply OV|reflexivity].
    + assert (NT : ~ too_large F d) by (intros X; apply OV in X; lia).
      assert (Hf : finite F (Fin s m e)) by now apply (rounded_finite F P1 _ _ d A0 Hb Hd s m e).
      destruct (Z.ltb_spec (snd (round_frac (prec F) None a b)) (emin F)) as [T|T]; cbn [andb].
      * destruct (N.eqb_spec (a * pow_up 2 (- e)) (m * pow_up 2 e * b)) as [X|X]; cbn [negb outcome].
        -- right. split; [|exists m, e; split; [reflexivity|now apply NF]].
           intros [H|[_ H]]; [contradiction|]. apply (H (Fin false m e)); [now apply (rounded_finite F P1 _ _ d A0 Hb Hd false m e)|].
           cbn [flt_value sgn]. pose proof (scale_div a b d e Hd) as S. rewrite !qn_mul in S.
           assert (X' : (qn a * qn (pow_up 2 (- e)) == qn m * qn (pow_up 2 e) * qn b)%Q) by (rewrite <- !qn_mul, X; reflexivity).
           rewrite S in X'. pose proof (pow_up_gt0 2 e ltac:(lia)) as PU. apply qn_pos in PU.
           assert (Y : (d * 2 ^ (- e) == qn m)%Q).
           { apply (Qmult_inj_r _ _ (qn b * qn (pow_up 2 e))); [nra|]. rewrite X'. ring. }
           rewrite <- Y. pose proof (mul_unit d e). lra.
        -- left. split; [|reflexivity]. right. split; [now apply TI|]. intros g Hg Eg. apply X. apply qn_inj.
           destruct (NF Hf) as (_ & Near & _).
           assert (Hg' : exists g', finite F g' /\ (flt_value g' == sgn s * d)%Q).
           { destruct (finite_shape F g HF P1 Hg) as (s' & m' & e' & -> & Hm' & He').
             exists (Fin (if s then negb s' else s') m' e'). split.
             - inversion Hg as [H|[H|H]]; inversion H; subst; [left|right; left|right; right]; now constructor.
             - cbn [flt_value] in *. rewrite <- Eg. destruct s, s'; cbn [sgn negb]; ring. }
           destruct Hg' as (g' & Hg' & Eg'). specialize (Near g' Hg'). rewrite Eg' in Near.
           setoid_replace (sgn s * d - sgn s * d)%Q with 0%Q in Near by ring. change (Qabs 0) with 0%Q in Near.
           assert (Z0 : (flt_value (Fin s m e) == sgn s * d)%Q) by (qabs; lra).
           cbn [flt_value] in Z0. assert (Z1 : (qn m * 2 ^ e == d)%Q) by (destruct s; cbn [sgn] in Z0; lra).
           rewrite !qn_mul, Hd, <- Z1. pose proof (pow_ratio 2 e ltac:(lia)) as Rt. change (qn 2) with 2%Q in Rt. rewrite Rt. ring.
      * right. split; [|exists m, e; split; [reflexivity|now apply NF]].
        intros [H|[H _]]; [contradiction|]. apply TI in H. lia.
Qed.

(** ** Words *)
Definition small (x : bytes) : Prop := Forall (fun c => 97 <= c <= 122) x.
Lemma lower_word x s : small x -> (map lower s = x <-> same_name x s).
Proof.
  intros Hx. split.
  - intros <-. induction s as [|c s IH]; [constructor|]. inversion Hx; subst. constructor; [|now apply IH].
    unfold same_letter, lower in *. destruct ((65 <=? c) && (c <=? 90)) eqn:E; lia.
  - induction 1 as [|a b x s H _ IH]; [reflexivity|]. inversion Hx; subst. cbn [map]. rewrite IH by auto. f_equal.
    unfold same_letter, lower in *. destruct ((65 <=? b) && (b <=? 90)) eqn:E; lia.
Qed.
Lemma small_inf : small (of_string "inf"). Proof. unfold small. vm_compute. repeat constructor; discriminate. Qed.
Lemma small_infinity : small (of_string "infinity"). Proof. unfold small. vm_compute. repeat constructor; discriminate. Qed.
Lemma small_nan : small (of_string "nan"). Proof. unfold small. vm_compute. repeat constructor; discriminate. Qed.
Lemma word_eqb x s : small x -> bytes_eqb (map lower s) x = true <-> same_name x s.
Proof. intros Hx. rewrite bytes_eqb_eq. now apply lower_word. Qed.

(** ** Parts of the text *)
Lemma skip_space_spec t : exists w, t = w ++ skip_space t /\ Forall white w.
Proof.
  induction t as [|c t (w & E & H)]; cbn [skip_space]; [exists []; auto|].
  destruct (isspace c) eqn:S; [|exists []; auto]. exists (c :: w). cbn [app]. rewrite <- E. split; auto. constructor; auto.
  unfold isspace, white in *. lia.
Qed.
Lemma skip_space_app w s : Forall white w -> (match s with c :: _ => ~ white c | [] => True end) -> skip_space (w ++ s) = s.
Proof.
  induction 1 as [|c w H _ IH]; intros Hs; cbn [app].
  - destruct s as [|c s]; [reflexivity|]. cbn [skip_space]. destruct (isspace c) eqn:S; [|reflexivity]. exfalso. apply Hs. unfold isspace, white in *. lia.
  - cbn [skip_space]. replace (isspace c) with true by (unfold isspace, white in *; lia). auto.
Qed.
Lemma read_sign_spec s : exists sg, s = sg ++ snd (read_sign s) /\ sign_of sg (fst (read_sign s)).
Proof.
  destruct s as [|c s]; [exists []; split; constructor|]. cbn [read_sign].
  destruct (N.eqb_spec c 45) as [->|]; [exists [45]; split; constructor|].
  destruct (N.eqb_spec c 43) as [->|]; [exists [43]; split; constructor|]. exists []; split; constructor.
Qed.
Lemma read_sign_app sg s t : sign_of sg s -> (match t with c :: _ => c <> 43 /\ c <> 45 | [] => True end) -> read_sign (sg ++ t) = (s, t).
Proof.
  intros [] H; try reflexivity. cbn [app]. destruct t as [|c t]; [reflexivity|]. cbn [read_sign].
  destruct (N.eqb_spec c 45); [lia|]. destruct (N.eqb_spec c 43); [lia|]. reflexivity.
Qed.
Lemma span_spec f s : let '(a, b) := span f s in
  s = a ++ b /\ Forall (fun c => f c = true) a /\ match b with c :: _ => f c = false | [] => True end.
Proof.
  induction s as [|c s IH]; cbn [span]; [repeat split; constructor|].
  destruct (f c) eqn:E; [|repeat split; auto]. destruct (span f s) as [a b]. destruct IH as (-> & H & Hb). repeat split; auto.
Qed.
Section Mantissa.
  Context (pt : N) (Hpt : decimal_point pt) (dig : N -> bool) (D : N -> Prop) (HD : forall c, dig c = true <-> D c)
    (DA : forall c, D c -> alphanumeric c).
  Lemma pt_not_digit : dig pt = false.
  Proof. destruct (dig pt) eqn:E; auto. apply HD, DA in E. now destruct Hpt. Qed.
  Lemma all_digits l : Forall (fun c => dig c = true) l <-> Forall D l.
  Proof. split; apply Forall_impl; intros c; apply HD. Qed.
  Lemma read_mantissa_sound s i f r : read_mantissa dig pt s = (i, f, r) -> i ++ f <> [] ->
    exists m, s = m ++ r /\ mantissa pt D m i f.
  Proof.
    unfold read_mantissa. pose proof (span_spec dig s) as S. destruct (span dig s) as [i' s']. destruct S as (-> & Hi & Hs).
    destruct s' as [|c s'].
    - intros [= <- <- <-] Hn. rewrite app_nil_r in *. exists i'. rewrite app_nil_r. split; auto. constructor; [exact Hn|now apply all_digits].
    - destruct (N.eqb_spec c pt) as [->|Hc].
      + pose proof (span_spec dig s') as S. destruct (span dig s') as [f' s'']. destruct S as (-> & Hf & _).
        intros [= <- <- <-] Hn. exists (i' ++ pt :: f'). rewrite <- app_assoc. split; auto. constructor; [exact Hn| |]; now apply all_digits.
      + intros [= <- <- <-] Hn. rewrite app_nil_r in Hn. exists i'. split; auto. constructor; [exact Hn|now apply all_digits].
  Qed.
  Lemma read_mantissa_complete m i f r : mantissa pt D m i f -> (match r with c :: _ => ~ D c /\ c <> pt | [] => True end) ->
    read_mantissa dig pt (m ++ r) = (i, f, r).
  Proof.
    intros H Hr. assert (Hr' : match r with c :: _ => dig c = false | [] => True end).
    { destruct r as [|c r]; auto. destruct (dig c) eqn:E; auto. apply HD in E. tauto. }
    unfold read_mantissa. destruct H as [i Hn Hi|i f Hn Hi Hf].
    - rewrite span_app; [|now apply all_digits|exact Hr']. destruct r as [|c r]; [reflexivity|].
      destruct (N.eqb_spec c pt); [tauto|reflexivity].
    - rewrite <- app_assoc. cbn [app]. rewrite span_app; [|now apply all_digits|exact pt_not_digit].
      rewrite N.eqb_refl. rewrite span_app; [reflexivity|now apply all_digits|exact Hr'].
  Qed.
  Lemma mantissa_some m i f : mantissa pt D m i f -> is_nil i && is_nil f = false.
  Proof. intros [i' H _|i' f' H _ _]; [destruct i'; [congruence|reflexivity]|]. destruct i'; [destruct f'; [now cbn in H|reflexivity]|reflexivity]. Qed.
  Lemma mantissa_head m i f : mantissa pt D m i f -> exists c r, m = c :: r /\ (D c \/ c = pt).
  Proof.
    intros [i' H Hi|i' f' H Hi _].
    - destruct Hi as [|c l Hc _]; [congruence|]. eauto.
    - destruct Hi as [|c l Hc _]; cbn [app]; eauto 6.
  Qed.
  Lemma mantissa_chars m i f : mantissa pt D m i f -> Forall (fun c => D c \/ c = pt) m.
  Proof.
    intros [i' _ Hi|i' f' _ Hi Hf]; [|apply Forall_app; split; [|constructor; auto]].
    - eapply Forall_impl; [|exact Hi]. auto.
    - eapply Forall_impl; [|exact Hi]. auto.
    - eapply Forall_impl; [|exact Hf]. auto.
  Qed.
End Mantissa.
Lemma isdigit_digit c : isdigit c = true <-> digit c.
Proof. apply isdigit_spec. Qed.
Lemma digit_alphanumeric c : digit c -> alphanumeric c.
Proof. intros. now left. Qed.
Lemma isxdigit_hexdig c : isxdigit c = true <-> exists v, hexdig c v.
Proof.
  unfold isxdigit, isdigit. split.
  - intros H. assert (A : 48 <= c <= 57 \/ 97 <= c <= 102 \/ 65 <= c <= 70) by lia.
    destruct A as [A|[A|A]]; eexists; [apply hex_dec|apply hex_low|apply hex_up]; exact A.
  - intros [v H]. inversion H; subst; lia.
Qed.
Lemma hexdig_alphanumeric c : (exists v, hexdig c v) -> alphanumeric c.
Proof. intros [v H]. unfold alphanumeric, digit. inversion H; subst; lia. Qed.
Lemma hex_digit_value_spec c v : hexdig c v -> hex_digit_value c = v.
Proof.
  unfold hex_digit_value, isdigit, lower. intros H. inversion H; subst.
  - replace ((48 <=? c) && (c <=? 57)) with true by lia. reflexivity.
  - replace ((48 <=? c) && (c <=? 57)) with false by lia. replace ((65 <=? c) && (c <=? 90)) with false by lia. reflexivity.
  - replace ((48 <=? c) && (c <=? 57)) with false by lia. replace ((65 <=? c) && (c <=? 90)) with true by lia. lia.
Qed.
Lemma hex_digits_value_snoc l c : hex_digits_value (l ++ [c]) = 16 * hex_digits_value l + hex_digit_value c.
Proof. unfold hex_digits_value. rewrite fold_left_app. reflexivity. Qed.
Lemma hexadecimal_value l n : hexadecimal l n -> hex_digits_value l = n.
Proof. induction 1 as [|l n c v _ IH Hc]; [reflexivity|]. rewrite hex_digits_value_snoc, IH, (hex_digit_value_spec c v Hc). reflexivity. Qed.
Lemma hexadecimal_all l : Forall (fun c => exists v, hexdig c v) l -> hexadecimal l (hex_digits_value l).
Proof.
  induction l as [|c l IH] using rev_ind; [constructor|]. intros H. apply Forall_app in H as [H1 H2]. inversion H2 as [|? ? [v Hv] _]; subst.
  rewrite hex_digits_value_snoc, (hex_digit_value_spec c v Hv). constructor; auto.
Qed.
Lemma mantissa_digits pt D m i f : mantissa pt D m i f -> Forall D (i ++ f).
Proof. intros []; [now rewrite app_nil_r|]. now apply Forall_app. Qed.
Lemma read_exponent_sound l s x : (forall c, lower c = l -> c = l \/ c = l - 32) -> read_exponent l s = Some x -> scaled l (l - 32) s x.
Proof.
  intros Hl. unfold read_exponent. destruct s as [|c s]; [intros [= <-]; constructor|].
  destruct (N.eqb_spec (lower c) l) as [E|]; [|discriminate]. destruct (read_sign_spec s) as (sg & Es & Hs).
  destruct (read_sign s) as [neg r]. cbn [fst snd] in *. destruct r as [|d r]; cbn [is_nil]; [discriminate|].
  destruct (forallb isdigit (d :: r)) eqn:Ed; [|discriminate]. intros [= <-]. rewrite Es. rewrite dec_value_decimal. apply sc_some; auto; [discriminate|].
  rewrite forallb_forall in Ed. apply Forall_forall. intros k Hk. apply isdigit_spec. auto.
Qed.
Lemma read_exponent_complete l L s x : lower l = l -> lower L = l -> scaled l L s x -> read_exponent l s = Some x.
Proof.
  intros H1 H2 [|c sg neg ds Hc Hs Hn Hd]; [reflexivity|]. unfold read_exponent.
  replace (lower c =? l) with true by (destruct Hc as [->| ->]; symmetry; apply N.eqb_eq; auto).
  rewrite (read_sign_app sg neg ds Hs).
  - destruct ds as [|d ds]; [congruence|]. cbn [is_nil]. rewrite digits_forallb by auto. now rewrite dec_value_decimal.
  - destruct ds as [|d ds]; auto. pose proof (Forall_inv Hd) as X. unfold digit in X. lia.
Qed.

(** ** The whole text *)
Definition agrees (R : number_read) (s : bool) (r : reading) : Prop :=
  match R, r with
  | RInf s', ReadInf => s' = s
  | RNan s', ReadNan => s' = s
  | RNum s' a b, ReadNum d => s' = s /\ 0 < b /\ (qn a == d * qn b)%Q
  | _, _ => False
  end.
Definition decimal_body (pt : N) (neg : bool) (s : bytes) : option number_read :=
  let '(i, f, r) := read_mantissa isdigit pt s in
  if is_nil i && is_nil f then None
  else match read_exponent 101 r with
  | Some x =>
      let k := (x - Z.of_N (size f))%Z in
      Some (RNum neg (numer (dec_value (i ++ f)) 0 k) (denom 0 k))
  | None => None
  end.
Definition hex_body (pt : N) (neg : bool) (s : bytes) : option number_read :=
  let '(i, f, r) := read_mantissa isxdigit pt (skipn 2 s) in
  if is_nil i && is_nil f then None
  else match read_exponent 112 r with
  | Some x =>
      let k := (x - 4 * Z.of_N (size f))%Z in
      Some (RNum neg (numer (hex_digits_value (i ++ f)) k 0) (denom k 0))
  | None => None
  end.
Definition body (pt : N) (neg : bool) (s : bytes) : option number_read :=
  let low := map lower s in
  if bytes_eqb low (of_string "inf") || bytes_eqb low (of_string "infinity") then Some (RInf neg)
  else if bytes_eqb low (of_string "nan") then Some (RNan neg)
  else if starts_with (of_string "nan(") low then
    if forallb is_alnum_ (removelast (skipn 4 s)) && (last s 0 =? 41) && negb (is_nil (skipn 4 s)) then Some (RNan neg)
    else None
  else match low with
    | c0 :: c1 :: _ => if (c0 =? 48) && (c1 =? 120) then hex_body pt neg s else decimal_body pt neg s
    | _ => decimal_body pt neg s
    end.
Lemma read_number_body pt t : read_number pt t = let '(neg, s) := read_sign (skip_space t) in body pt neg s.
Proof. reflexivity. Qed.
Lemma is_alnum_spec c : is_alnum_ c = true <-> alphanumeric c \/ c = 95.
Proof. unfold is_alnum_, is_alpha_, alphanumeric, digit. lia. Qed.
Lemma numer_denom2 d k : (qn (numer d k 0) == qn d * 2 ^ k * qn (denom k 0))%Q.
Proof. rewrite numer_denom. change (10 ^ 0)%Q with 1%Q. ring. Qed.
Lemma size_length (l : bytes) : Z.of_N (size l) = Z.of_nat (length l).
Proof. unfold size. lia. Qed.
Lemma nil_both (i f : bytes) : is_nil i && is_nil f = false -> i ++ f <> [].
Proof. destruct i, f; cbn; congruence. Qed.
Lemma decimal_body_sound pt neg s R : decimal_point pt -> decimal_body pt neg s = Some R -> exists r, subject pt s r /\ agrees R neg r.
Proof.
  intros Hpt. unfold decimal_body. destruct (read_mantissa isdigit pt s) as [[i f] r] eqn:M.
  destruct (is_nil i && is_nil f) eqn:N; [discriminate|]. destruct (read_exponent 101 r) as [x|] eqn:X; [|discriminate]. intros [= <-].
  destruct (read_mantissa_sound pt isdigit digit isdigit_digit s i f r M (nil_both _ _ N)) as (m & -> & Hm).
  eexists. split.
  - eapply su_decimal; [exact Hm|]. change 69 with (101 - 32). apply read_exponent_sound; [|exact X]. intros c. unfold lower. destruct ((65 <=? c) && (c <=? 90)) eqn:E; intros; lia.
  - cbn [agrees]. split; [reflexivity|]. split; [apply denom_pos|]. rewrite numer_denom10, dec_value_decimal, size_length. reflexivity.
Qed.
Lemma hex_body_sound pt neg c s R : decimal_point pt -> c = 120 \/ c = 88 -> hex_body pt neg (48 :: c :: s) = Some R ->
  exists r, subject pt (48 :: c :: s) r /\ agrees R neg r.
Proof.
  intros Hpt Hc. unfold hex_body. cbn [skipn]. destruct (read_mantissa isxdigit pt s) as [[i f] r] eqn:M.
  destruct (is_nil i && is_nil f) eqn:N; [discriminate|]. destruct (read_exponent 112 r) as [x|] eqn:X; [|discriminate]. intros [= <-].
  destruct (read_mantissa_sound pt isxdigit _ isxdigit_hexdig s i f r M (nil_both _ _ N)) as (m & -> & Hm).
  eexists. split.
  - eapply su_hexadecimal; [exact Hc|exact Hm|apply hexadecimal_all; eapply mantissa_digits; exact Hm|].
    change 80 with (112 - 32). apply read_exponent_sound; [|exact X]. intros d. unfold lower. destruct ((65 <=? d) && (d <=? 90)) eqn:E; intros; lia.
  - cbn [agrees]. split; [reflexivity|]. split; [apply denom_pos|]. rewrite numer_denom2, size_length. reflexivity.
Qed.
Lemma body_sound pt neg s R : decimal_point pt -> body pt neg s = Some R -> exists r, subject pt s r /\ agrees R neg r.
Proof.
  intros Hpt. unfold body. cbv zeta.
  destruct (bytes_eqb (map lower s) (of_string "inf") || bytes_eqb (map lower s) (of_string "infinity")) eqn:B1.
  - intros [= <-]. exists ReadInf. split; [|reflexivity]. apply su_inf. apply orb_true_iff in B1 as [B|B]; apply word_eqb in B; auto using small_inf, small_infinity.
  - destruct (bytes_eqb (map lower s) (of_string "nan")) eqn:B2.
    + intros [= <-]. exists ReadNan. split; [|reflexivity]. apply su_nan. apply word_eqb; auto using small_nan.
    + destruct (starts_with (of_string "nan(") (map lower s)) eqn:B3.
      * destruct (forallb is_alnum_ (removelast (skipn 4 s)) && (last s 0 =? 41) && negb (is_nil (skipn 4 s))) eqn:B4; [|discriminate].
        intros [= <-]. exists ReadNan. split; [|reflexivity].
        apply andb_true_iff in B4 as [B4 Bn]. apply andb_true_iff in B4 as [B4 Bl].
        destruct s as [|c1 [|c2 [|c3 [|c4 s]]]]; try discriminate Bn. cbn [skipn] in *.
        change (of_string "nan(") with [110; 97; 110; 40] in B3. cbn [map starts_with] in B3.
        rewrite !andb_true_iff, !N.eqb_eq in B3. destruct B3 as (E1 & E2 & E3 & E4 & _).
        assert (c4 = 40) as -> by (unfold lower in E4; destruct ((65 <=? c4) && (c4 <=? 90)) eqn:E; lia).
        assert (Hs : s <> []) by (destruct s; [discriminate Bn|discriminate]).
        rewrite (app_removelast_last 0 Hs). change (c1 :: c2 :: c3 :: 40 :: removelast s ++ [last s 0]) with ([c1; c2; c3] ++ 40 :: removelast s ++ [last s 0]).
        replace (last s 0) with 41; [|symmetry; apply N.eqb_eq; destruct s; [congruence|exact Bl]].
        apply su_nan_chars.
        -- apply lower_word; [exact small_nan|]. cbn [map]. rewrite <- E1, <- E2, <- E3. reflexivity.
        -- apply Forall_forall. intros c Hc. apply is_alnum_spec. rewrite forallb_forall in B4. auto.
      * destruct s as [|c0 [|c1 s]]; cbn [map]; try (apply decimal_body_sound; exact Hpt).
        destruct ((lower c0 =? 48) && (lower c1 =? 120)) eqn:B4; [|apply decimal_body_sound; exact Hpt].
        apply andb_true_iff in B4 as [X0 X1]. apply N.eqb_eq in X0, X1.
        assert (c0 = 48) as -> by (unfold lower in X0; destruct ((65 <=? c0) && (c0 <=? 90)) eqn:E; lia).
        apply hex_body_sound; auto. unfold lower in X1. destruct ((65 <=? c1) && (c1 <=? 90)) eqn:E; lia.
Qed.
Lemma scaled_head l L ex x : scaled l L ex x -> ex = [] \/ exists c r, ex = c :: r /\ (c = l \/ c = L).
Proof. intros []; eauto 6. Qed.
Lemma body_other pt neg c s : lower c <> 105 -> lower c <> 110 ->
  body pt neg (c :: s) = match s with c1 :: _ => if (lower c =? 48) && (lower c1 =? 120) then hex_body pt neg (c :: s) else decimal_body pt neg (c :: s)
                         | [] => decimal_body pt neg (c :: s) end.
Proof.
  intros H1 H2. unfold body. cbv zeta. cbn [map].
  assert (B1 : bytes_eqb (lower c :: map lower s) (of_string "inf") = false) by (apply beq_head; exact H1).
  assert (B2 : bytes_eqb (lower c :: map lower s) (of_string "infinity") = false) by (apply beq_head; exact H1).
  assert (B3 : bytes_eqb (lower c :: map lower s) (of_string "nan") = false) by (apply beq_head; exact H2).
  assert (B4 : starts_with (of_string "nan(") (lower c :: map lower s) = false) by (apply starts_head; intros E; apply H2; symmetry; exact E).
  rewrite B1, B2, B3, B4. destruct s; reflexivity.
Qed.
Lemma lower_not c l : 97 <= l <= 122 -> ~ alphanumeric c \/ digit c -> lower c <> l.
Proof. unfold alphanumeric, digit, lower. intros H1 H2. destruct ((65 <=? c) && (c <=? 90)) eqn:E; lia. Qed.
Lemma body_complete pt neg s r : decimal_point pt -> subject pt s r -> exists R, body pt neg s = Some R /\ agrees R neg r.
Proof.
  intros Hpt H. pose proof Hpt as (Pa & Pw & P43 & P45). destruct H as [t H|t H|t a H Ha|m i f ex x Hm Hx|c m i f n ex x Hc Hm Hh Hx].
  - exists (RInf neg). split; [|reflexivity]. unfold body. cbv zeta.
    replace (bytes_eqb (map lower t) (of_string "inf") || bytes_eqb (map lower t) (of_string "infinity")) with true; [reflexivity|].
    symmetry. apply orb_true_iff. destruct H as [H|H]; [left|right]; apply word_eqb; auto using small_inf, small_infinity.
  - exists (RNan neg). split; [|reflexivity]. unfold body. cbv zeta. apply lower_word in H; [|exact small_nan]. rewrite H. reflexivity.
  - exists (RNan neg). split; [|reflexivity]. unfold body. cbv zeta.
    apply lower_word in H; [|exact small_nan]. assert (HL : length (map lower t) = 3%nat) by (rewrite H; reflexivity). rewrite map_app, H.
    destruct t as [|c1 [|c2 [|c3 [|c4 t]]]]; try discriminate HL. cbn [app map skipn].
    change (of_string "nan") with [110; 97; 110]. cbn [app]. change (lower 40) with 40.
    change (of_string "nan(") with [110; 97; 110; 40]. change (of_string "inf") with [105; 110; 102]. change (of_string "infinity") with [105; 110; 102; 105; 110; 105; 116; 121].
    replace (bytes_eqb (110 :: 97 :: 110 :: 40 :: map lower (a ++ [41])) [105; 110; 102]) with false by (symmetry; now apply beq_head).
    replace (bytes_eqb (110 :: 97 :: 110 :: 40 :: map lower (a ++ [41])) [105; 110; 102; 105; 110; 105; 116; 121]) with false by (symmetry; now apply beq_head).
    replace (bytes_eqb (110 :: 97 :: 110 :: 40 :: map lower (a ++ [41])) [110; 97; 110]) with false by reflexivity.
    replace (starts_with [110; 97; 110; 40] (110 :: 97 :: 110 :: 40 :: map lower (a ++ [41]))) with true by reflexivity.
    cbn [orb]. rewrite removelast_last.
    replace (forallb is_alnum_ a) with true; [|symmetry; apply forallb_forall; intros c Hc; apply is_alnum_spec; rewrite Forall_forall in Ha; auto].
    replace (last (c1 :: c2 :: c3 :: 40 :: a ++ [41]) 0) with 41; [|symmetry; exact (last_last (c1 :: c2 :: c3 :: 40 :: a) 41 0)].
    destruct a; reflexivity.
  - assert (Hex : match ex with c :: _ => ~ digit c /\ c <> pt | [] => True end).
    { destruct (scaled_head _ _ _ _ Hx) as [->|(c & r' & -> & Hc)]; auto. unfold digit. split; [lia|]. intros <-. apply Pa. unfold alphanumeric. lia. }
    assert (DB : exists R, decimal_body pt neg (m ++ ex) = Some R /\ agrees R neg (ReadNum (qn (decimal (i ++ f)) * 10 ^ (x - Z.of_nat (length f))))).
    { unfold decimal_body. rewrite (read_mantissa_complete pt Hpt isdigit digit isdigit_digit digit_alphanumeric m i f ex Hm Hex).
      rewrite (mantissa_some pt digit m i f Hm). rewrite (read_exponent_complete 101 69 ex x eq_refl eq_refl Hx).
      eexists. split; [reflexivity|]. cbn [agrees]. split; [reflexivity|]. split; [apply denom_pos|]. rewrite numer_denom10, dec_value_decimal, size_length. reflexivity. }
    destruct (mantissa_head pt digit m i f Hm) as (c & r' & Em & Hc). pose proof (mantissa_chars pt digit m i f Hm) as HC.
    rewrite Em in *. cbn [app] in *.
    assert (Hc' : ~ alphanumeric c \/ digit c) by (destruct Hc as [| ->]; auto).
    rewrite body_other by (apply lower_not; auto; lia).
    destruct (r' ++ ex) as [|c1 q] eqn:E; [exact DB|].
    replace (lower c1 =? 120) with false; [rewrite andb_false_r; exact DB|]. symmetry. apply N.eqb_neq.
    destruct r' as [|c1' r']; cbn [app] in E.
    + destruct (scaled_head _ _ _ _ Hx) as [->|(e & r'' & -> & He)]; [discriminate|]. injection E as <- _. destruct He as [->| ->]; discriminate.
    + injection E as -> _. inversion HC as [|? ? _ HC']; subst. inversion HC' as [|? ? Hc1 _]; subst.
      apply lower_not; [lia|]. destruct Hc1 as [| ->]; auto.
  - set (D := fun c => exists v, hexdig c v) in *.
    assert (Hex : match ex with c :: _ => ~ D c /\ c <> pt | [] => True end).
    { destruct (scaled_head _ _ _ _ Hx) as [->|(d & r' & -> & Hd)]; auto. split.
      - intros X. apply isxdigit_hexdig in X. unfold isxdigit, isdigit in X. lia.
      - intros <-. apply Pa. unfold alphanumeric. lia. }
    rewrite body_other by (vm_compute; discriminate). change (lower 48 =? 48) with true. cbn [andb].
    replace (lower c =? 120) with true by (destruct Hc as [->| ->]; reflexivity).
    unfold hex_body. cbn [skipn]. rewrite (read_mantissa_complete pt Hpt isxdigit D isxdigit_hexdig hexdig_alphanumeric m i f ex Hm Hex).
    rewrite (mantissa_some pt D m i f Hm). rewrite (read_exponent_complete 112 80 ex x eq_refl eq_refl Hx).
    eexists. split; [reflexivity|]. cbn [agrees]. split; [reflexivity|]. split; [apply denom_pos|].
    rewrite numer_denom2, size_length, (hexadecimal_value _ _ Hh). reflexivity.
Qed.
Lemma subject_head pt s r : decimal_point pt -> subject pt s r -> exists c t, s = c :: t /\ ~ white c /\ c <> 43 /\ c <> 45.
Proof.
  intros (Pa & Pw & P43 & P45) H.
  assert (W : forall x t l, same_name (l :: x) t -> 97 <= l <= 122 -> exists c t', t = c :: t' /\ ~ white c /\ c <> 43 /\ c <> 45).
  { intros x t l E Hl. inversion E; subst. do 2 eexists. split; [reflexivity|]. unfold same_letter, white in *. lia. }
  destruct H as [t H|t H|t a H Ha|m i f ex x Hm Hx|c m i f n ex x Hc Hm Hh Hx].
  - destruct H as [H|H]; apply W in H; auto; vm_compute; split; discriminate.
  - apply W in H; auto; vm_compute; split; discriminate.
  - apply W in H as (c & t' & -> & H); [|vm_compute; split; discriminate]. cbn [app]. eauto.
  - destruct (mantissa_head pt digit m i f Hm) as (c & r' & -> & Hc). cbn [app]. exists c, (r' ++ ex). split; [reflexivity|].
    destruct Hc as [Hc| ->]; [unfold digit, white in *; lia|auto].
  - exists 48, (c :: m ++ ex). split; [reflexivity|]. unfold white. lia.
Qed.
Theorem read_number_sound pt t R : decimal_point pt -> read_number pt t = Some R -> exists s r, strtod_reads pt t s r /\ agrees R s r.
Proof.
  intros Hpt. rewrite read_number_body. destruct (skip_space_spec t) as (w & Et & Hw). destruct (read_sign_spec (skip_space t)) as (sg & Es & Hs).
  destruct (read_sign (skip_space t)) as [s u]. cbn [fst snd] in *. intros H. destruct (body_sound pt s u R Hpt H) as (r & Hr & A).
  exists s, r. split; auto. rewrite Et, Es. now constructor.
Qed.
Theorem read_number_complete pt t s r : decimal_point pt -> strtod_reads pt t s r -> exists R, read_number pt t = Some R /\ agrees R s r.
Proof.
  intros Hpt [w sg s' u r' Hw Hs Hu]. destruct (subject_head pt u r' Hpt Hu) as (c & u' & E & Hc1 & Hc2).
  rewrite read_number_body, skip_space_app, (read_sign_app sg s' u Hs).
  - now apply body_complete.
  - rewrite E. exact Hc2.
  - exact Hw.
  - destruct Hs; cbn [app]; [rewrite E; exact Hc1| |]; unfold white; lia.
Qed.
Theorem any_text c p t : decimal_point (c_point c) -> precision p ->
  (forall s r, strtod_reads (c_point c) t s r -> comes_to (fmt_of p) s r (as_float c p (VStr Tnumber t))) /\
  ((forall s r, ~ strtod_reads (c_point c) t s r) -> as_float c p (VStr Tnumber t) = Throw JsonException).
Proof.
  intros Hpt Hp. rewrite as_float_number. unfold parse_floating. split.
  - intros s r H. destruct (read_number_complete _ _ _ _ Hpt H) as (R & -> & A).
    destruct R as [s'|s'|s' a b], r as [| |d]; cbn [agrees] in A; try contradiction; try (subst; reflexivity).
    destruct A as (-> & Hb & Hq). exact (to_flt_spec p s a b d Hp Hb Hq).
  - intros H. destruct (read_number (c_point c) t) as [R|] eqn:E; [|reflexivity].
    destruct (read_number_sound _ _ _ Hpt E) as (s & r & Hr & _). destruct (H s r Hr).
Qed.

(** ** Bit patterns *)
Lemma decode_fields p z ex frac : z < 2 -> ex < 2 ^ exp_bits p -> frac < 2 ^ (p - 1) ->
  decode p (z * 2 ^ (p - 1 + exp_bits p) + ex * 2 ^ (p - 1) + frac) =
  let s := N.odd z in
  if ex =? 2 ^ exp_bits p - 1 then (if frac =? 0 then Inf s else Nan s)
  else if ex =? 0 then Fin s frac (emin (fmt_of p))
  else Fin s (2 ^ (p - 1) + frac) (emin (fmt_of p) + Z.of_N ex - 1)%Z.
Proof.
  intros Hz He Hf. unfold decode. set (w := exp_bits p) in *. rewrite N.pow_add_r. set (B := 2 ^ (p - 1)) in *. set (W := 2 ^ w) in *.
  assert (B0 : B <> 0) by (apply N.pow_nonzero; lia). assert (W0 : W <> 0) by (apply N.pow_nonzero; lia). clearbody B W.
  assert (E : z * (B * W) + ex * B + frac = (z * W + ex) * B + frac) by nia. rewrite E.
  assert (D1 : ((z * W + ex) * B + frac) / B = z * W + ex) by (rewrite N.div_add_l by exact B0; rewrite (N.div_small frac B Hf); lia).
  assert (M1 : ((z * W + ex) * B + frac) mod B = frac) by (rewrite N.add_comm, N.mod_add by exact B0; now apply N.mod_small).
  assert (D2 : ((z * W + ex) * B + frac) / (B * W) = z).
  { rewrite <- N.div_div by assumption. rewrite D1, N.div_add_l by exact W0. rewrite (N.div_small ex W He). lia. }
  assert (M2 : (z * W + ex) mod W = ex) by (rewrite N.add_comm, N.mod_add by exact W0; now apply N.mod_small).
  rewrite D1, D2, M1, M2. reflexivity.
Qed.
Lemma decode_encode p f : precision p -> proper (fmt_of p) f -> encode p f < 2 ^ (p + exp_bits p) /\ decode p (encode p f) = f.
Proof.
  intros Hp Hf. destruct (digits_enough p Hp) as (_ & _ & P1). pose proof (precision_two p Hp) as P2. rewrite fmt_prec in P2.
  assert (SP : 2 ^ (p + exp_bits p) = 2 * 2 ^ (p - 1 + exp_bits p)) by (replace (p + exp_bits p) with (1 + (p - 1 + exp_bits p)) by lia; now rewrite N.pow_add_r).
  assert (SW : 2 ^ (p - 1 + exp_bits p) = 2 ^ (p - 1) * 2 ^ exp_bits p) by apply N.pow_add_r.
  pose proof (pow_gt0 2 (p - 1) ltac:(lia)) as B0. pose proof (pow_split p P1) as B2.
  assert (W2 : 4 <= 2 ^ exp_bits p) by (destruct Hp as [->|[->|[->| ->]]]; vm_compute; discriminate).
  assert (SG : forall s : bool, (if s then 2 ^ (p - 1 + exp_bits p) else 0) = (if s then 1 else 0) * 2 ^ (p - 1 + exp_bits p)) by (intros []; lia).
  assert (main : forall (s : bool) ex frac, ex < 2 ^ exp_bits p -> frac < 2 ^ (p - 1) ->
    (if s then 2 ^ (p - 1 + exp_bits p) else 0) + ex * 2 ^ (p - 1) + frac < 2 ^ (p + exp_bits p) /\
    decode p ((if s then 2 ^ (p - 1 + exp_bits p) else 0) + ex * 2 ^ (p - 1) + frac) =
      (if ex =? 2 ^ exp_bits p - 1 then (if frac =? 0 then Inf s else Nan s)
       else if ex =? 0 then Fin s frac (emin (fmt_of p))
       else Fin s (2 ^ (p - 1) + frac) (emin (fmt_of p) + Z.of_N ex - 1)%Z)).
  { intros s ex frac He Hfr. rewrite SG. split.
    - rewrite SP. clear -He Hfr SW B0. rewrite SW. set (B := 2 ^ (p - 1)) in *. set (W := 2 ^ exp_bits p) in *. clearbody B W. destruct s; nia.
    - rewrite decode_fields by (auto; destruct s; lia). destruct s; reflexivity. }
  destruct f as [s m e|s|s]; cbn [proper encode] in *.
  - destruct (N.ltb_spec m (2 ^ (p - 1))) as [Hm|Hm].
    + assert (e = emin (fmt_of p)) as ->.
      { destruct Hf as [H|[H|H]]; inversion H; subst; auto. rewrite fmt_prec in *. lia. }
      destruct (main s 0 m ltac:(lia) Hm) as [M1 M2]. rewrite N.mul_0_l, N.add_0_r in M1, M2. split; [exact M1|]. rewrite M2.
      destruct (N.eqb_spec 0 (2 ^ exp_bits p - 1)); [lia|]. reflexivity.
    + assert (H : 2 ^ (p - 1) <= m < 2 ^ p /\ (emin (fmt_of p) <= e <= emax (fmt_of p))%Z).
      { destruct Hf as [H|[H|H]]; inversion H; subst; rewrite ?fmt_prec in *; [lia|lia|auto]. }
      destruct H as [Hm' He].
      assert (HE : Z.to_N (e - emin (fmt_of p) + 1) < 2 ^ exp_bits p - 1).
      { destruct Hp as [->|[->|[->| ->]]]; vm_compute emin in *; vm_compute emax in *; vm_compute (2 ^ exp_bits _); lia. }
      destruct (main s (Z.to_N (e - emin (fmt_of p) + 1)) (m - 2 ^ (p - 1)) ltac:(lia) ltac:(lia)) as [M1 M2]. split; [exact M1|]. rewrite M2.
      destruct (N.eqb_spec (Z.to_N (e - emin (fmt_of p) + 1)) (2 ^ exp_bits p - 1)); [lia|].
      destruct (N.eqb_spec (Z.to_N (e - emin (fmt_of p) + 1)) 0); [lia|]. f_equal; lia.
  - destruct (main s (2 ^ exp_bits p - 1) 0 ltac:(lia) ltac:(lia)) as [M1 M2]. rewrite N.add_0_r in M1, M2. split; [exact M1|]. rewrite M2.
    rewrite N.eqb_refl. reflexivity.
  - assert (HQ : 0 < 2 ^ (p - 2) < 2 ^ (p - 1)).
    { split; [apply pow_gt0; lia|apply N.pow_lt_mono_r; lia]. }
    destruct (main s (2 ^ exp_bits p - 1) (2 ^ (p - 2)) ltac:(lia) ltac:(lia)) as [M1 M2]. split; [exact M1|]. rewrite M2.
    rewrite N.eqb_refl. destruct (N.eqb_spec (2 ^ (p - 2)) 0); [lia|]. reflexivity.
Qed.
Lemma read_number_denom pt t s a b : read_number pt t = Some (RNum s a b) -> 0 < b.
Proof.
  rewrite read_number_body. destruct (read_sign (skip_space t)) as [neg u]. unfold body. cbv zeta.
  assert (DD : decimal_body pt neg u = Some (RNum s a b) -> 0 < b).
  { unfold decimal_body. destruct (read_mantissa isdigit pt u) as [[i f] r]. destruct (is_nil i && is_nil f); [discriminate|].
    destruct (read_exponent 101 r); [|discriminate]. cbv zeta. intros [= _ _ <-]. apply denom_pos. }
  assert (DH : hex_body pt neg u = Some (RNum s a b) -> 0 < b).
  { unfold hex_body. destruct (read_mantissa isxdigit pt (skipn 2 u)) as [[i f] r]. destruct (is_nil i && is_nil f); [discriminate|].
    destruct (read_exponent 112 r); [|discriminate]. cbv zeta. intros [= _ _ <-]. apply denom_pos. }
  destruct (_ || _); [discriminate|]. destruct (bytes_eqb _ _); [discriminate|].
  destruct (starts_with _ _); [destruct (_ && _ && _); discriminate|].
  destruct (map lower u) as [|c0 [|c1 l]]; auto. destruct (_ && _); auto.
Qed.
Lemma parse_proper c p t f : precision p -> parse_floating c p t = Some f -> proper (fmt_of p) f.
Proof.
  intros Hp. unfold parse_floating. destruct (read_number (c_point c) t) as [[s|s|s a b]|] eqn:R; try discriminate; try (intros [= <-]; exact I).
  intros H. pose proof (read_number_denom _ _ _ _ _ R) as Hb.
  assert (Hq : (qn a == (qn a / qn b) * qn b)%Q) by (pose proof (qn_pos b Hb); field; lra).
  pose proof (to_flt_spec p s a b _ Hp Hb Hq) as X. rewrite H in X. cbn [comes_to outcome] in X.
  destruct X as [[_ X]|(_ & m & e & X & Y & _)]; [discriminate|]. injection X as ->. exact Y.
Qed.
(** the conversions of Conv.v work on bit patterns *)
Theorem read_bits num c p t : precision p ->
  match as_float c p (VStr Tnumber t) with
  | Ok f => exists x, as_ (std_env num c) (TFlt p) (VStr Tnumber t) = Ok (DFlt x) /\ x < 2 ^ (p + exp_bits p) /\ decode p x = f
  | r => r = Throw JsonException /\ as_ (std_env num c) (TFlt p) (VStr Tnumber t) = Throw JsonException
  end.
Proof.
  intros Hp. rewrite as_float_number. cbn [as_ std_env]. destruct (parse_floating c p t) as [f|] eqn:E.
  - exists (encode p f). destruct (decode_encode p f Hp (parse_proper c p t f Hp E)) as [H1 H2]. split; [|split; assumption].
    unfold std_env. cbn. now rewrite E.
  - unfold std_env. cbn. rewrite E. split; reflexivity.
Qed.

(** ** Subnormal numbers *)
Lemma text_g_digits P s m e : 1 <= P -> 0 < m ->
  exists i f x n K, parts (text_g (fun l => l) 46 P (Fin s m e)) s i f x /\ n < 10 ^ P /\
  (let y := qn (decimal (i ++ f)) * 10 ^ (x - Z.of_nat (length f)) in
   let err := (1 # 2) * (qn m * 2 ^ e) * 10 ^ (1 - Z.of_N P) in
   y == qn n * 10 ^ K /\ y - qn m * 2 ^ e <= err /\ qn m * 2 ^ e - y <= err)%Q.
Proof.
  intros HP Hm. cbn [text_g]. destruct (N.eqb_spec m 0); [lia|].
  destruct (significant P m e) as [n' X] eqn:Es. destruct (significant_spec P m e n' X HP Hm Es) as [B Err].
  destruct (digits_text P n' X HP B) as (i & f & ex & x & Et & Hi & Hf & Hx & Hv).
  cbv zeta in Et. rewrite Et. exists i, f, x, n', (X - Z.of_N P + 1)%Z. split; [now apply parts_text|]. split; [apply B|].
  cbv zeta in *. rewrite Hv. split; [reflexivity|exact Err].
Qed.
Lemma five_divides j E n M : n * 2 ^ E = M * 10 ^ j -> (5 ^ Z.of_N j | Z.of_N n)%Z.
Proof.
  intros H. apply (Znumtheory.Gauss _ (2 ^ Z.of_N E)).
  - exists (Z.of_N M * 2 ^ Z.of_N j)%Z. apply (f_equal Z.of_N) in H. rewrite !N2Z.inj_mul, !N2Z.inj_pow in H.
    change (Z.of_N 10) with (2 * 5)%Z in H. change (Z.of_N 2) with 2%Z in H. rewrite Z.pow_mul_l in H. nia.
  - apply Zpow_facts.rel_prime_Zpower; try lia. apply Znumtheory.Zgcd_1_rel_prime. reflexivity.
Qed.
Lemma p10_le a b : (a <= b)%Z -> (10 ^ a <= 10 ^ b)%Q.
Proof.
  intros H. replace b with (a + Z.of_N (Z.to_N (b - a)))%Z by lia. rewrite p10_add, p10_nat. pose proof (p10_pos a).
  pose proof (qn_one_le (10 ^ Z.to_N (b - a)) (pow_gt0 10 _ ltac:(lia))). nra.
Qed.
Lemma long_expansion p : precision p ->
  let P := max_digits10 p in let F := fmt_of p in
  (emin F < 0)%Z /\ 10 ^ (2 * P) <= 2 ^ Z.to_N (- (Z.of_N p - 1 + emin F)) /\ (Z.of_N p - 1 + emin F < 0)%Z.
Proof. intros [->|[->|[->| ->]]]; vm_compute; splits; auto; discriminate. Qed.
(** a number with P significant digits is not a multiple of the least subnormal number, if it is below the normal numbers *)
Lemma not_exact p n K M : precision p -> 0 < n -> n < 10 ^ max_digits10 p ->
  (qn n * 10 ^ K < 2 ^ (Z.of_N p - 1 + emin (fmt_of p)))%Q -> ~ (qn n * 10 ^ K == qn M * 2 ^ emin (fmt_of p))%Q.
Proof.
  intros Hp Hn Hn' Hlt Heq. destruct (long_expansion p Hp) as (E1 & E2 & E3). set (P := max_digits10 p) in *. set (F := fmt_of p) in *.
  assert (HK : (K < - Z.of_N (2 * P))%Z).
  { destruct (Z.lt_ge_cases K (- Z.of_N (2 * P))) as [|G]; [assumption|exfalso].
    apply p10_le in G. pose proof (qn_one_le n Hn) as N1. pose proof (p10_pos K).
    set (T := (Z.of_N p - 1 + emin F)%Z) in *. apply qn_le in E2. rewrite <- p10_nat, <- p2_nat in E2.
    replace (Z.of_N (Z.to_N (- T))) with (- T)%Z in E2 by lia.
    assert (X : (10 ^ (- Z.of_N (2 * P)) * 10 ^ Z.of_N (2 * P) == 1)%Q) by (rewrite <- p10_add, Z.add_opp_diag_l; reflexivity).
    assert (Y : (2 ^ T * 2 ^ (- T) == 1)%Q) by (rewrite <- p2_add, Z.add_opp_diag_r; reflexivity).
    pose proof (p10_pos (- Z.of_N (2 * P))). pose proof (p2_pos T). pose proof (p2_pos (- T)). pose proof (p10_pos (Z.of_N (2 * P))).
    assert (L : (10 ^ (- Z.of_N (2 * P)) < 2 ^ T)%Q) by nra.
    assert (L2 : (10 ^ (- Z.of_N (2 * P)) * 10 ^ Z.of_N (2 * P) < 2 ^ T * 10 ^ Z.of_N (2 * P))%Q) by (apply Qmult_lt_compat_r; assumption).
    assert (L3 : (2 ^ T * 10 ^ Z.of_N (2 * P) <= 2 ^ T * 2 ^ (- T))%Q) by (apply Qmult_le_l; assumption). lra. }
  set (j := Z.to_N (- K)). assert (EQ : n * 2 ^ Z.to_N (- emin F) = M * 10 ^ j).
  { apply qn_inj. rewrite !qn_mul, <- p2_nat, <- p10_nat. unfold j. replace (Z.of_N (Z.to_N (- emin F))) with (- emin F)%Z by lia.
    replace (Z.of_N (Z.to_N (- K))) with (- K)%Z by lia.
    assert (X : (10 ^ K * 10 ^ (- K) == 1)%Q) by (rewrite <- p10_add, Z.add_opp_diag_r; reflexivity).
    assert (Y : (2 ^ emin F * 2 ^ (- emin F) == 1)%Q) by (rewrite <- p2_add, Z.add_opp_diag_r; reflexivity).
    setoid_replace (qn n * 2 ^ (- emin F))%Q with ((qn n * 10 ^ K) * 10 ^ (- K) * 2 ^ (- emin F))%Q
      by (setoid_replace (qn n * 10 ^ K * 10 ^ (- K))%Q with (qn n * (10 ^ K * 10 ^ (- K)))%Q by ring; rewrite X; ring).
    rewrite Heq. setoid_replace (qn M * 2 ^ emin F * 10 ^ (- K) * 2 ^ (- emin F))%Q with (qn M * 10 ^ (- K) * (2 ^ emin F * 2 ^ (- emin F)))%Q by ring.
    rewrite Y. ring. }
  apply five_divides in EQ. apply Z.divide_pos_le in EQ; [|lia].
  assert (A : (5 ^ Z.of_N (2 * P) <= 5 ^ Z.of_N j)%Z) by (apply Z.pow_le_mono_r; lia).
  assert (B : (10 ^ Z.of_N P <= 5 ^ Z.of_N (2 * P))%Z).
  { replace (Z.of_N (2 * P)) with (2 * Z.of_N P)%Z by lia. rewrite Z.pow_mul_r by lia. change (5 ^ 2)%Z with 25%Z. apply Z.pow_le_mono_l. lia. }
  assert (C : (Z.of_N n < 10 ^ Z.of_N P)%Z) by (change 10%Z with (Z.of_N 10); rewrite <- N2Z.inj_pow; lia). lia.
Qed.
Theorem subnormal_throws c p f : keep c = true -> classic c -> precision p -> subnormal (fmt_of p) f ->
  as_float c p (v_float c p f) = Throw JsonException.
Proof.
  intros K [C1 C] Hp Hf. destruct (C K) as [C2 C3]. destruct (digits_enough p Hp) as (D1 & D2 & D3).
  unfold v_float, v_number. rewrite as_float_number. unfold parse_floating, float_to_string. rewrite K, C1, C2, C3.
  change (group_digits (s_sep c) []) with (fun l : bytes => l). destruct Hf as [s m Hm]. rewrite fmt_prec in Hm.
  set (F := fmt_of p) in *. set (e := emin F) in *.
  destruct (text_g_digits (max_digits10 p) s m e D2 ltac:(lia)) as (i & g & x & n & X & Hparts & Hn & Hy & Err1 & Err2).
  rewrite (read_parts _ _ _ _ _ Hparts). set (d := decimal (i ++ g)) in *. set (k := (x - Z.of_nat (length g))%Z) in *.
  pose proof (to_flt_spec p s _ _ _ Hp (denom_pos 0 k) (numer_denom10 d k)) as CT. fold F in CT. cbn [comes_to] in CT.
  set (y := (qn d * 10 ^ k)%Q) in *. cbv zeta in Hy, Err1, Err2.
  destruct (to_flt F (RNum s (numer d 0 k) (denom 0 k))) as [r|]; [|reflexivity]. exfalso.
  destruct CT as [[_ CT]|[CT _]]; [discriminate CT|]. apply CT. clear CT r.
  set (v := (qn m * 2 ^ e)%Q) in *. pose proof (p2_pos e) as Pe. pose proof (qn_one_le m ltac:(lia)) as M1.
  assert (V0 : (0 < v)%Q) by (unfold v; nra).
  assert (T : (10 ^ (1 - Z.of_N (max_digits10 p)) < 2 ^ (- Z.of_N p))%Q).
  { apply qn_lt in D1. rewrite <- p2_nat, <- p10_nat in D1.
    replace (Z.of_N (max_digits10 p - 1)) with (- (1 - Z.of_N (max_digits10 p)))%Z in D1 by lia.
    set (u := (1 - Z.of_N (max_digits10 p))%Z) in *.
    assert (E1 : (10 ^ u * 10 ^ (- u) == 1)%Q) by (rewrite <- p10_add; now rewrite Z.add_opp_diag_r).
    assert (E2 : (2 ^ Z.of_N p * 2 ^ (- Z.of_N p) == 1)%Q) by (rewrite <- p2_add; now rewrite Z.add_opp_diag_r).
    pose proof (p10_pos u). pose proof (p10_pos (- u)). pose proof (p2_pos (Z.of_N p)). pose proof (p2_pos (- Z.of_N p)).
    apply Qmult_lt_r with (z := (2 ^ Z.of_N p * 10 ^ (- u))%Q); [nra|].
    setoid_replace (10 ^ u * (2 ^ Z.of_N p * 10 ^ (- u)))%Q with (2 ^ Z.of_N p)%Q by (rewrite (Qmult_comm (2 ^ Z.of_N p)), Qmult_assoc, E1; ring).
    setoid_replace (2 ^ (- Z.of_N p) * (2 ^ Z.of_N p * 10 ^ (- u)))%Q with (10 ^ (- u))%Q by (rewrite Qmult_assoc, (Qmult_comm (2 ^ (- Z.of_N p))), E2; ring).
    exact D1. }
  assert (Unit : (qn (2 ^ p) * 2 ^ (- Z.of_N p) == 1)%Q) by (rewrite <- p2_nat, <- p2_add; now rewrite Z.add_opp_diag_r).
  pose proof (pow_split p D3) as Sp. assert (Sp' : (qn (2 ^ p) == 2 * qn (2 ^ (p - 1)))%Q) by (rewrite Sp, qn_mul; reflexivity).
  assert (M2 : (qn m + 1 <= qn (2 ^ (p - 1)))%Q) by (change 1%Q with (qn 1); rewrite <- qn_add; apply qn_le; lia).
  pose proof (p2_pos (- Z.of_N p)) as Pm.
  assert (U1 : (qn m * 2 ^ (- Z.of_N p) < 1 # 2)%Q) by nra.
  assert (Small : ((1 # 2) * v * 10 ^ (1 - Z.of_N (max_digits10 p)) < (1 # 4) * 2 ^ e)%Q).
  { apply Qlt_trans with ((1 # 2) * v * 2 ^ (- Z.of_N p))%Q; [nra|].
    setoid_replace ((1 # 2) * v * 2 ^ (- Z.of_N p))%Q with ((1 # 2) * 2 ^ e * (qn m * 2 ^ (- Z.of_N p)))%Q by (unfold v; ring). nra. }
  assert (Y0 : (0 < y)%Q) by (unfold v in *; nra).
  assert (Y1 : (y < (qn (2 ^ (p - 1)) - (3 # 4)) * 2 ^ e)%Q) by (unfold v in *; nra).
  right. split.
  - split; [exact Y0|]. change (prec F) with p. fold e. rewrite p2_nat. pose proof (p2_half e). pose proof (p2_pos (e - 1)). nra.
  - intros gf Hg Eg. pose proof (precision_two p Hp) as P2. destruct (finite_shape F gf (fmt_ok p Hp) ltac:(fold F in P2; lia) Hg) as (s' & m' & e' & -> & Hm' & He').
    cbn [flt_value] in Eg. assert (s' = false) as ->.
    { destruct s'; auto. exfalso. cbn [sgn] in Eg. pose proof (qn_nonneg m'). pose proof (p2_pos e'). nra. }
    cbn [sgn] in Eg. fold e in He'.
    assert (EM : (y == qn (m' * 2 ^ Z.to_N (e' - e)) * 2 ^ e)%Q).
    { rewrite <- Eg, qn_mul, <- p2_nat. replace e' with (Z.of_N (Z.to_N (e' - e)) + e)%Z at 1 by lia. rewrite p2_add. ring. }
    apply (not_exact p n X (m' * 2 ^ Z.to_N (e' - e)) Hp).
    + destruct (N.eq_dec n 0) as [E0|]; [|lia]. exfalso. rewrite E0 in Hy. change (qn 0) with 0%Q in Hy. lra.
    + exact Hn.
    + rewrite <- Hy, p2_add. fold F e. replace (Z.of_N p - 1)%Z with (Z.of_N (p - 1)) by lia. rewrite p2_nat. nra.
    + rewrite <- Hy. exact EM.
Qed.
Theorem exceptional_round_trip c p s :
  as_float c p (v_float c p (Inf s)) = Ok (Inf s) /\ as_float c p (v_float c p (Nan s)) = Ok (Nan s).
Proof.
  unfold v_float, v_number. rewrite !as_float_number. unfold parse_floating, float_to_string.
  destruct (keep c), s; split; reflexivity.
Qed.
(** MEOJSON_KEEP_FLOATING_PRECISION: every number but the subnormal ones *)
Theorem keep_round_trip_iff c p f : keep c = true -> classic c -> precision p -> proper (fmt_of p) f ->
  (as_float c p (v_float c p f) = Ok f <-> ~ subnormal (fmt_of p) f) /\
  (subnormal (fmt_of p) f -> as_float c p (v_float c p f) = Throw JsonException).
Proof.
  intros K C Hp Hf. split; [|intros; now apply subnormal_throws]. split.
  - intros E S. rewrite subnormal_throws in E by assumption. discriminate E.
  - intros NS. destruct f as [s m e|s|s]; [|exact (proj1 (exceptional_round_trip c p s))|exact (proj2 (exceptional_round_trip c p s))].
    destruct Hf as [Z|[Z|Z]]; [|contradiction|]; apply float_round_trip; auto.
Qed.

(** ** The formats *)
Lemma format_fields p w bias z ex frac : layout p w bias -> z < 2 -> ex < 2 ^ w -> frac < 2 ^ (p - 1) ->
  decode p (z * 2 ^ (p - 1 + w) + ex * 2 ^ (p - 1) + frac) =
    (if ex =? 2 ^ w - 1 then (if frac =? 0 then Inf (z =? 1) else Nan (z =? 1))
     else if ex =? 0 then Fin (z =? 1) frac (2 - bias - Z.of_N p)%Z
     else Fin (z =? 1) (2 ^ (p - 1) + frac) (Z.of_N ex - bias - Z.of_N (p - 1))%Z).
Proof.
  intros L Hz He Hf. assert (W : w = exp_bits p /\ emin (fmt_of p) = (2 - bias - Z.of_N p)%Z /\ 1 <= p)
    by (destruct L; repeat split; vm_compute; congruence).
  destruct W as (-> & Em & P1). rewrite (decode_fields p z ex frac Hz He Hf), Em. cbv zeta.
  assert (O : N.odd z = (z =? 1)) by (destruct z as [|[| |]]; [reflexivity|lia|lia|reflexivity]). rewrite O.
  destruct (ex =? _); [reflexivity|]. destruct (ex =? 0); [reflexivity|]. f_equal. lia.
Qed.
