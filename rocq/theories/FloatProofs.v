(** * Proofs about floating-point numbers and their texts. *)
From Coq Require Import QArith Qabs Qpower Lqa.
From Verif Require Import Base Value Containers Num Enum Conv Float Spec SpecConv SpecFloat BaseProofs NumProofs.
Open Scope N_scope.
Ltac Zify.zify_post_hook ::= Z.div_mod_to_equations.

(** ** Rationals *)
Lemma qn_add a b : (qn (a + b) == qn a + qn b)%Q.
Proof. unfold qn. rewrite N2Z.inj_add, inject_Z_plus. reflexivity. Qed.
Lemma qn_mul a b : (qn (a * b) == qn a * qn b)%Q.
Proof. unfold qn. rewrite N2Z.inj_mul, inject_Z_mult. reflexivity. Qed.
Lemma qn_le a b : a <= b <-> (qn a <= qn b)%Q.
Proof. unfold qn. rewrite <- Zle_Qle. lia. Qed.
Lemma qn_lt a b : a < b <-> (qn a < qn b)%Q.
Proof. unfold qn. rewrite <- Zlt_Qlt. lia. Qed.
Lemma qn_inj a b : (qn a == qn b)%Q -> a = b.
Proof. intros H. assert (a <= b) by (apply qn_le; rewrite H; apply Qle_refl). assert (b <= a) by (apply qn_le; rewrite H; apply Qle_refl). lia. Qed.
Lemma qn_nonneg a : (0 <= qn a)%Q.
Proof. change 0%Q with (qn 0). apply qn_le. lia. Qed.
Lemma qn_pos a : 0 < a -> (0 < qn a)%Q.
Proof. intros. change 0%Q with (qn 0). now apply qn_lt. Qed.
Lemma qn_one_le a : 0 < a -> (1 <= qn a)%Q.
Proof. intros. change 1%Q with (qn 1). apply qn_le. lia. Qed.

Lemma qpow_pos b e : (0 < b)%Q -> (0 < b ^ e)%Q.
Proof. intros. now apply Qpower_0_lt. Qed.
Lemma p2_pos e : (0 < 2 ^ e)%Q. Proof. now apply qpow_pos. Qed.
Lemma p10_pos e : (0 < 10 ^ e)%Q. Proof. now apply qpow_pos. Qed.
Lemma p2_add a b : (2 ^ (a + b) == 2 ^ a * 2 ^ b)%Q.
Proof. apply Qpower_plus. lra. Qed.
Lemma p10_add a b : (10 ^ (a + b) == 10 ^ a * 10 ^ b)%Q.
Proof. apply Qpower_plus. lra. Qed.
Lemma qn_pow b n : (qn (b ^ n) == qn b ^ Z.of_N n)%Q.
Proof. unfold qn. rewrite N2Z.inj_pow. apply Zpower_Qpower. lia. Qed.
Lemma p2_nat n : (2 ^ Z.of_N n == qn (2 ^ n))%Q. Proof. symmetry. apply (qn_pow 2). Qed.
Lemma p10_nat n : (10 ^ Z.of_N n == qn (10 ^ n))%Q. Proof. symmetry. apply (qn_pow 10). Qed.

Lemma pow_up_gt0 b e : 0 < b -> 0 < pow_up b e.
Proof. intros. unfold pow_up. assert (b ^ Z.to_N e <> 0) by (apply N.pow_nonzero; lia). lia. Qed.
Lemma pow_ratio b e : 0 < b -> (qn (pow_up b e) == qn b ^ e * qn (pow_up b (- e)))%Q.
Proof.
  intros Hb. unfold pow_up. destruct (Z.le_ge_cases 0 e) as [H|H].
  - replace (Z.to_N (- e)) with 0 by lia. rewrite qn_pow. replace (Z.of_N (Z.to_N e)) with e by lia.
    change (qn (b ^ 0)) with 1%Q. ring.
  - replace (Z.to_N e) with 0 by lia. change (qn (b ^ 0)) with 1%Q.
    rewrite qn_pow. replace (Z.of_N (Z.to_N (- e))) with (- e)%Z by lia.
    rewrite <- Qpower_plus by (pose proof (qn_pos b Hb); lra). now rewrite Z.add_opp_diag_r.
Qed.
Lemma denom_pos e k : 0 < denom e k.
Proof. unfold denom. pose proof (pow_up_gt0 2 (- e)). pose proof (pow_up_gt0 10 (- k)). nia. Qed.
Lemma numer_denom m e k : (qn (numer m e k) == qn m * 2 ^ e * 10 ^ k * qn (denom e k))%Q.
Proof.
  unfold numer, denom. rewrite !qn_mul, (pow_ratio 2 e), (pow_ratio 10 k) by lia.
  change (qn 2) with 2%Q. change (qn 10) with 10%Q. ring.
Qed.

(** ** round_div *)
Lemma round_div_bounds a b : 0 < b ->
  2 * (round_div a b * b) <= 2 * a + b /\ 2 * a <= 2 * (round_div a b * b) + b.
Proof.
  intros Hb. unfold round_div. pose proof (N.div_mod a b ltac:(lia)) as E.
  pose proof (N.mod_lt a b ltac:(lia)) as L. set (q := a / b) in *. set (r := a mod b) in *. clearbody q r.
  destruct (N.ltb_spec (2 * r) b); [nia|]. destruct (N.ltb_spec b (2 * r)); [nia|].
  destruct (N.even q); nia.
Qed.
Lemma round_div_near a b x : 0 < b -> (qn a == x * qn b)%Q ->
  (qn (round_div a b) - (1 # 2) <= x)%Q /\ (x <= qn (round_div a b) + (1 # 2))%Q.
Proof.
  intros Hb Hx. destruct (round_div_bounds a b Hb) as [H1 H2].
  apply qn_le in H1, H2. rewrite !qn_add, !qn_mul, Hx in *. pose proof (qn_pos b Hb).
  change (qn 2) with 2%Q in *.
  split; apply Qmult_lt_0_le_reg_r with (z := qn b); auto; lra.
Qed.
Lemma round_div_unique a b x n : 0 < b -> (qn a == x * qn b)%Q ->
  (qn n - (1 # 2) < x)%Q -> (x < qn n + (1 # 2))%Q -> round_div a b = n.
Proof.
  intros Hb Hx H1 H2. destruct (round_div_near a b x Hb Hx) as [H3 H4].
  assert (A : (qn n < qn (round_div a b + 1))%Q) by (rewrite qn_add; change (qn 1) with 1%Q; lra).
  assert (B : (qn (round_div a b) < qn (n + 1))%Q) by (rewrite qn_add; change (qn 1) with 1%Q; lra).
  apply qn_lt in A, B. lia.
Qed.

(** ** Logarithms *)
Lemma log2_frac_spec a b x : 0 < a -> 0 < b -> (qn a == x * qn b)%Q ->
  (2 ^ log2_frac a b <= x)%Q /\ (x < 2 ^ (log2_frac a b + 1))%Q.
Proof.
  intros Ha Hb Hx. unfold log2_frac.
  destruct (N.log2_spec a Ha) as [A1 A2]. destruct (N.log2_spec b Hb) as [B1 B2].
  set (la := N.log2 a) in *. set (lb := N.log2 b) in *. clearbody la lb.
  set (k := (Z.of_N la - Z.of_N lb)%Z).
  apply qn_le in A1, B1. apply qn_lt in A2, B2. rewrite <- p2_nat in A1, A2, B1, B2.
  rewrite N2Z.inj_succ in A2, B2. unfold Z.succ in *. rewrite p2_add in A2, B2. change (2 ^ 1)%Q with 2%Q in *.
  assert (Ek : (2 ^ Z.of_N la == 2 ^ k * 2 ^ Z.of_N lb)%Q) by (rewrite <- p2_add; unfold k; now replace (Z.of_N la - Z.of_N lb + Z.of_N lb)%Z with (Z.of_N la) by lia).
  pose proof (qn_pos b Hb). pose proof (p2_pos k). pose proof (p2_pos (Z.of_N lb)).
  pose proof (pow_ratio 2 k ltac:(lia)) as R. change (qn 2) with 2%Q in R.
  assert (P : (0 < qn (pow_up 2 (- k)))%Q) by (apply qn_pos, pow_up_gt0; lia).
  rewrite Ek in A1, A2. rewrite Hx in A1, A2.
  assert (U : (x < 2 ^ (k + 1))%Q).
  { rewrite p2_add. change (2 ^ 1)%Q with 2%Q.
    apply Qmult_lt_r with (z := qn b); auto. nra. }
  assert (L : (2 ^ (k - 1) < x)%Q).
  { assert (E : (2 ^ k == 2 ^ (k - 1) * 2)%Q) by (change 2%Q with (2 ^ 1)%Q at 3; rewrite <- p2_add; now replace (k - 1 + 1)%Z with k by lia).
    apply Qmult_lt_r with (z := qn b); auto. pose proof (p2_pos (k - 1)). rewrite E in A1. nra. }
  destruct (N.leb_spec (b * pow_up 2 k) (a * pow_up 2 (- k))) as [G|G].
  - split; auto. apply qn_le in G. rewrite !qn_mul, Hx, R in G.
    apply Qmult_lt_0_le_reg_r with (z := (qn b * qn (pow_up 2 (- k)))%Q); nra.
  - split; [lra|]. replace (k - 1 + 1)%Z with k by lia. apply qn_lt in G. rewrite !qn_mul, Hx, R in G.
    apply Qmult_lt_r with (z := (qn b * qn (pow_up 2 (- k)))%Q); nra.
Qed.
Lemma size_nat_pow n : n < 2 ^ N.of_nat (N.size_nat n).
Proof. destruct n as [|p]; [reflexivity|]. pose proof (N.size_gt (Npos p)) as H.
  replace (N.of_nat (N.size_nat (Npos p))) with (N.size (Npos p)); auto.
  cbn. clear. induction p; cbn; lia. Qed.
Lemma log10_up_spec f : forall a b, 0 < b -> b <= a -> a < b * 10 ^ N.of_nat f ->
  10 ^ log10_up f a b * b <= a /\ a < 10 ^ (log10_up f a b + 1) * b.
Proof.
  induction f as [|f IH]; intros a b Hb H1 H2; cbn [log10_up].
  - cbn in H2. lia.
  - destruct (N.leb_spec (10 * b) a).
    + destruct (IH a (10 * b)) as [A B]; try lia.
      { replace (N.of_nat (S f)) with (N.of_nat f + 1) in H2 by lia. rewrite N.pow_add_r in H2. change (10 ^ 1) with 10 in H2. lia. }
      replace (1 + log10_up f a (10 * b)) with (log10_up f a (10 * b) + 1) by lia.
      rewrite !N.pow_add_r in *. change (10 ^ 1) with 10 in *. set (y := 10 ^ log10_up f a (10 * b)) in *. clearbody y. clear IH H2. nia.
    + change (10 ^ 0) with 1. change (10 ^ (0 + 1)) with 10. lia.
Qed.
Lemma log10_down_spec f : forall a b, 0 < a -> b <= a * 10 ^ N.of_nat f ->
  b <= a * 10 ^ log10_down f a b /\ (0 < log10_down f a b -> a * 10 ^ (log10_down f a b - 1) < b).
Proof.
  induction f as [|f IH]; intros a b Ha H; cbn [log10_down].
  - cbn in H. lia.
  - destruct (N.leb_spec b a); [change (10 ^ 0) with 1; lia|].
    destruct (IH (10 * a) b) as [A B]; try lia.
    { replace (N.of_nat (S f)) with (N.of_nat f + 1) in H by lia. rewrite N.pow_add_r in H. change (10 ^ 1) with 10 in H. lia. }
    set (x := log10_down f (10 * a) b) in *. split.
    + rewrite N.pow_add_r. change (10 ^ 1) with 10. nia.
    + intros _. replace (1 + x - 1) with x by lia. destruct (N.eq_dec x 0) as [->|]; [change (10 ^ 0) with 1; lia|].
      specialize (B ltac:(lia)). replace x with (x - 1 + 1) by lia. rewrite N.pow_add_r. change (10 ^ 1) with 10. nia.
Qed.
Lemma pow_2_10 n : 2 ^ n <= 10 ^ n.
Proof. apply N.pow_le_mono_l. lia. Qed.
Lemma dec_exp_spec a b x : 0 < a -> 0 < b -> (qn a == x * qn b)%Q ->
  (10 ^ dec_exp a b <= x)%Q /\ (x < 10 ^ (dec_exp a b + 1))%Q.
Proof.
  intros Ha Hb Hx. unfold dec_exp. pose proof (qn_pos b Hb).
  destruct (N.leb_spec b a) as [H1|H1].
  - destruct (log10_up_spec (N.size_nat a) a b) as [A B]; auto.
    { pose proof (size_nat_pow a). pose proof (pow_2_10 (N.of_nat (N.size_nat a))). nia. }
    set (k := log10_up _ _ _) in *. apply qn_le in A. apply qn_lt in B. rewrite qn_mul, Hx in A, B.
    rewrite <- p10_nat in A, B. rewrite N2Z.inj_add in B.
    split; [apply Qmult_lt_0_le_reg_r with (z := qn b)|apply Qmult_lt_r with (z := qn b)]; auto.
  - destruct (log10_down_spec (N.size_nat b) a b) as [A B]; auto.
    { pose proof (size_nat_pow b). pose proof (pow_2_10 (N.of_nat (N.size_nat b))). nia. }
    set (k := log10_down _ _ _) in *. assert (K : 0 < k).
    { destruct (N.eq_dec k 0) as [E|]; [|lia]. rewrite E in A. cbn in A. lia. }
    specialize (B K). apply qn_le in A. apply qn_lt in B. rewrite qn_mul, Hx in A, B.
    rewrite <- p10_nat in A, B. replace (Z.of_N (k - 1)) with (Z.of_N k - 1)%Z in B by lia.
    pose proof (p10_pos (Z.of_N k)). pose proof (p10_pos (Z.of_N k - 1)).
    assert (E1 : (10 ^ (- Z.of_N k) * 10 ^ Z.of_N k == 1)%Q) by (rewrite <- p10_add; now rewrite Z.add_opp_diag_l).
    assert (E2 : (10 ^ (- Z.of_N k + 1) * 10 ^ (Z.of_N k - 1) == 1)%Q) by (rewrite <- p10_add; now replace (- Z.of_N k + 1 + (Z.of_N k - 1))%Z with 0%Z by lia).
    split.
    + apply Qmult_lt_0_le_reg_r with (z := (10 ^ Z.of_N k)%Q); auto. rewrite E1.
      apply Qmult_lt_0_le_reg_r with (z := qn b); auto. lra.
    + apply Qmult_lt_r with (z := (10 ^ (Z.of_N k - 1))%Q); auto. rewrite E2.
      apply Qmult_lt_r with (z := qn b); auto. lra.
Qed.

(** ** Rounding *)
Lemma p2_ge1 n : (0 <= n)%Z -> (1 <= 2 ^ n)%Q.
Proof.
  intros. replace n with (Z.of_N (Z.to_N n)) by lia. rewrite p2_nat. apply qn_one_le.
  assert (2 ^ Z.to_N n <> 0) by (apply N.pow_nonzero; lia). lia.
Qed.
Lemma p2_le a b : (a <= b)%Z -> (2 ^ a <= 2 ^ b)%Q.
Proof.
  intros. replace b with (a + (b - a))%Z by lia. rewrite p2_add.
  pose proof (p2_ge1 (b - a) ltac:(lia)). pose proof (p2_pos a). nra.
Qed.
Lemma p2_lt_inv a b : (2 ^ a < 2 ^ b)%Q -> (a < b)%Z.
Proof. intros. destruct (Z.lt_ge_cases a b) as [|G]; auto. apply p2_le in G. lra. Qed.
Lemma p2_half e : (2 ^ e == 2 * 2 ^ (e - 1))%Q.
Proof. change 2%Q with (2 ^ 1)%Q at 2. rewrite <- p2_add. now replace (1 + (e - 1))%Z with e by lia. Qed.
Lemma log2_unique d k j : (2 ^ k <= d)%Q -> (d < 2 ^ (k + 1))%Q -> (2 ^ j <= d)%Q -> (d < 2 ^ (j + 1))%Q -> k = j.
Proof.
  intros. assert ((k < j + 1)%Z) by (apply p2_lt_inv; lra). assert ((j < k + 1)%Z) by (apply p2_lt_inv; lra). lia.
Qed.
(** dividing by [2^e] *)
Lemma scale_div a b d e : (qn a == d * qn b)%Q ->
  (qn (a * pow_up 2 (- e)) == d * 2 ^ (- e) * qn (b * pow_up 2 e))%Q.
Proof.
  intros H. rewrite !qn_mul, H. pose proof (pow_ratio 2 e ltac:(lia)) as R. change (qn 2) with 2%Q in R. rewrite R.
  assert (E : (2 ^ (- e) * 2 ^ e == 1)%Q) by (rewrite <- p2_add; now rewrite Z.add_opp_diag_l).
  transitivity (d * qn b * qn (pow_up 2 (- e)) * (2 ^ (- e) * 2 ^ e))%Q; [rewrite E|]; ring.
Qed.
Lemma pow_split p : 1 <= p -> 2 ^ p = 2 * 2 ^ (p - 1).
Proof. intros. replace p with (1 + (p - 1)) at 1 by lia. rewrite N.pow_add_r. reflexivity. Qed.
Lemma pow_gt0 b p : 0 < b -> 0 < b ^ p.
Proof. intros. assert (b ^ p <> 0) by (apply N.pow_nonzero; lia). lia. Qed.
Lemma mul_unit d e : (d * 2 ^ (- e) * 2 ^ e == d)%Q.
Proof. rewrite <- Qmult_assoc, <- p2_add, Z.add_opp_diag_l. change (2 ^ 0)%Q with 1%Q. ring. Qed.

Section Round.
  Context (p : N) (Hp : 1 <= p) (lo : option Z) (a b m : N) (e : Z) (d : Q).
  Context (Ha : 0 < a) (Hb : 0 < b) (Hd : (qn a == d * qn b)%Q).
  Context (Hm : 2 ^ (p - 1) <= m < 2 ^ p) (He : match lo with Some l => (l <= e)%Z | None => True end).
  Context (H1 : (d < (qn m + (1 # 2)) * 2 ^ e)%Q) (H2 : ((qn m - (1 # 2)) * 2 ^ e < d)%Q).
  Context (H3 : m = 2 ^ (p - 1) -> ((qn m - (1 # 4)) * 2 ^ e < d)%Q).

  Lemma round_div_at : round_div (a * pow_up 2 (- e)) (b * pow_up 2 e) = m.
  Proof.
    apply round_div_unique with (x := (d * 2 ^ (- e))%Q).
    - pose proof (pow_up_gt0 2 e). nia.
    - now apply scale_div.
    - apply Qmult_lt_r with (z := (2 ^ e)%Q); [apply p2_pos|]. now rewrite mul_unit.
    - apply Qmult_lt_r with (z := (2 ^ e)%Q); [apply p2_pos|]. now rewrite mul_unit.
  Qed.
  Lemma round_frac_near : round_frac p lo a b = (m, e).
  Proof.
    pose proof round_div_at as RD. unfold round_frac. destruct (log2_frac_spec a b d Ha Hb Hd) as [K1 K2].
    set (k := log2_frac a b) in *. clearbody k.
    pose proof (p2_pos e) as Pe. pose proof (pow_split p Hp) as Sp.
    assert (Hm1 : (qn (2 ^ (p - 1)) <= qn m)%Q) by (apply qn_le; lia).
    assert (Hm2 : (qn m + 1 <= qn (2 ^ p))%Q) by (change 1%Q with (qn 1); rewrite <- qn_add; apply qn_le; lia).
    assert (T0 : (2 ^ (Z.of_N p - 1 + e) == qn (2 ^ (p - 1)) * 2 ^ e)%Q)
      by (rewrite p2_add; replace (Z.of_N p - 1)%Z with (Z.of_N (p - 1)) by lia; now rewrite p2_nat).
    assert (T1 : (2 ^ (Z.of_N p - 1 + e + 1) == qn (2 ^ p) * 2 ^ e)%Q)
      by (replace (Z.of_N p - 1 + e + 1)%Z with (Z.of_N p + e)%Z by lia; now rewrite p2_add, p2_nat).
    destruct (Qlt_le_dec d (qn (2 ^ (p - 1)) * 2 ^ e)) as [L|G].
    - (* just below a power of two *)
      assert (Em : m = 2 ^ (p - 1)).
      { assert (qn m < qn (2 ^ (p - 1) + 1))%Q.
        { rewrite qn_add. change (qn 1) with 1%Q. apply Qmult_lt_r with (z := (2 ^ e)%Q); auto. nra. }
        apply qn_lt in H. lia. }
      specialize (H3 Em). rewrite Em in *. pose proof (pow_gt0 2 (p - 1) ltac:(lia)) as G0. apply qn_one_le in G0.
      assert (T2 : (2 ^ (Z.of_N p - 2 + e) == (1 # 2) * (qn (2 ^ (p - 1)) * 2 ^ e))%Q).
      { rewrite <- T0, (p2_half (Z.of_N p - 1 + e)). replace (Z.of_N p - 1 + e - 1)%Z with (Z.of_N p - 2 + e)%Z by lia. ring. }
      assert (Ek : k = (Z.of_N p - 2 + e)%Z).
      { apply log2_unique with d; auto; [rewrite T2; nra|].
        replace (Z.of_N p - 2 + e + 1)%Z with (Z.of_N p - 1 + e)%Z by lia. rewrite T0. exact L. }
      subst k. replace (Z.of_N p - 2 + e - Z.of_N p + 1)%Z with (e - 1)%Z by lia.
      assert (R1 : round_div (a * pow_up 2 (- (e - 1))) (b * pow_up 2 (e - 1)) = 2 ^ p).
      { apply round_div_unique with (x := (d * 2 ^ (- (e - 1)))%Q).
        - pose proof (pow_up_gt0 2 (e - 1)). nia.
        - now apply scale_div.
        - apply Qmult_lt_r with (z := (2 ^ (e - 1))%Q); [apply p2_pos|]. rewrite mul_unit, Sp, qn_mul.
          change (qn 2) with 2%Q. rewrite (p2_half e) in H3. nra.
        - apply Qmult_lt_r with (z := (2 ^ (e - 1))%Q); [apply p2_pos|]. rewrite mul_unit, Sp, qn_mul.
          change (qn 2) with 2%Q. rewrite (p2_half e) in L. pose proof (p2_pos (e - 1)). nra. }
      assert (Up : (if round_div (a * pow_up 2 (- (e - 1))) (b * pow_up 2 (e - 1)) =? 2 ^ p
              then (2 ^ (p - 1), (e - 1 + 1)%Z) else (round_div (a * pow_up 2 (- (e - 1))) (b * pow_up 2 (e - 1)), (e - 1)%Z))
              = (2 ^ (p - 1), e)).
      { rewrite R1, N.eqb_refl. f_equal. lia. }
      destruct lo as [l|]; [|exact Up].
      destruct (Z.max_spec (e - 1) l) as [[X ->]|[X ->]]; [|exact Up].
      replace l with e in * by lia. rewrite RD.
      destruct (N.eqb_spec (2 ^ (p - 1)) (2 ^ p)) as [E|E]; [lia|reflexivity].
    - assert (Ek : k = (Z.of_N p - 1 + e)%Z).
      { apply log2_unique with d; auto; [now rewrite T0|]. rewrite T1. nra. }
      subst k. replace (Z.of_N p - 1 + e - Z.of_N p + 1)%Z with e by lia.
      replace (match lo with Some l => Z.max e l | None => e end) with e by (destruct lo; lia).
      rewrite RD. destruct (N.eqb_spec m (2 ^ p)) as [E|E]; [lia|reflexivity].
  Qed.
End Round.

(** ** Significant digits *)
Lemma significant_spec P m e n X : 1 <= P -> 0 < m -> significant P m e = (n, X) ->
  10 ^ (P - 1) <= n < 10 ^ P /\
  (let err := (1 # 2) * (qn m * 2 ^ e) * 10 ^ (1 - Z.of_N P) in
   qn n * 10 ^ (X - Z.of_N P + 1) - qn m * 2 ^ e <= err /\
   qn m * 2 ^ e - qn n * 10 ^ (X - Z.of_N P + 1) <= err)%Q.
Proof.
  intros HP Hm. unfold significant. set (x := (qn m * 2 ^ e)%Q).
  pose proof (numer_denom m e 0) as E0. change (10 ^ 0)%Q with 1%Q in E0.
  destruct (dec_exp_spec (numer m e 0) (denom e 0) x) as [L U].
  { unfold numer. pose proof (pow_up_gt0 2 e). pose proof (pow_up_gt0 10 0). nia. }
  { apply denom_pos. } { rewrite E0. unfold x. ring. }
  set (x0 := dec_exp _ _) in *. clearbody x0. set (k := (Z.of_N P - 1 - x0)%Z).
  assert (D0 : 0 < denom e k) by apply denom_pos.
  assert (N0 : (qn (numer m e k) == x * 10 ^ k * qn (denom e k))%Q) by (rewrite numer_denom; unfold x; ring).
  destruct (round_div_near _ _ _ D0 N0) as [R1 R2].
  set (n0 := round_div _ _) in *. clearbody n0.
  pose proof (p10_pos k) as Pk. pose proof (p10_pos (- k)) as Pk'.
  assert (Ek : (10 ^ k * 10 ^ (- k) == 1)%Q) by (rewrite <- p10_add; now rewrite Z.add_opp_diag_r).
  assert (B1 : (qn (10 ^ (P - 1)) <= x * 10 ^ k)%Q).
  { rewrite <- p10_nat. replace (Z.of_N (P - 1)) with (x0 + k)%Z by lia. rewrite p10_add. nra. }
  assert (B2 : (x * 10 ^ k < qn (10 ^ P))%Q).
  { rewrite <- p10_nat. replace (Z.of_N P) with (x0 + 1 + k)%Z by lia. rewrite p10_add. nra. }
  assert (Q1 : 10 ^ (P - 1) <= n0).
  { assert (qn (10 ^ (P - 1)) < qn (n0 + 1))%Q by (rewrite qn_add; change (qn 1) with 1%Q; lra). apply qn_lt in H. lia. }
  assert (Q2 : n0 <= 10 ^ P).
  { assert (qn n0 < qn (10 ^ P + 1))%Q by (rewrite qn_add; change (qn 1) with 1%Q; lra). apply qn_lt in H. lia. }
  assert (Err : (qn n0 * 10 ^ (- k) - x <= (1 # 2) * x * 10 ^ (1 - Z.of_N P) /\
                 x - qn n0 * 10 ^ (- k) <= (1 # 2) * x * 10 ^ (1 - Z.of_N P))%Q).
  { assert (K : (10 ^ (- k) <= x * 10 ^ (1 - Z.of_N P))%Q).
    { replace (- k)%Z with (x0 + (1 - Z.of_N P))%Z by lia. rewrite p10_add. pose proof (p10_pos (1 - Z.of_N P)). nra. }
    assert (XX : (x == x * 10 ^ k * 10 ^ (- k))%Q) by (rewrite <- Qmult_assoc, Ek; ring).
    split; rewrite XX at 1; nra. }
  assert (P10 : 10 ^ P = 10 * 10 ^ (P - 1)).
  { replace P with (1 + (P - 1)) at 1 by lia. rewrite N.pow_add_r. reflexivity. }
  pose proof (pow_gt0 10 (P - 1) ltac:(lia)).
  destruct (N.eqb_spec n0 (10 ^ P)) as [E|E]; intros [= <- <-].
  - split; [lia|]. cbv zeta.
    assert (Y : (qn (10 ^ (P - 1)) * 10 ^ (x0 + 1 - Z.of_N P + 1) == qn n0 * 10 ^ (- k))%Q).
    { rewrite E, P10, qn_mul. replace (x0 + 1 - Z.of_N P + 1)%Z with (1 + - k)%Z by lia. rewrite p10_add.
      change (10 ^ 1)%Q with 10%Q. change (qn 10) with 10%Q. ring. }
    rewrite Y. exact Err.
  - split; [lia|]. cbv zeta. replace (x0 - Z.of_N P + 1)%Z with (- k)%Z by lia. exact Err.
Qed.

(** ** Digits *)
Lemma decimal_lt ds : Forall digit ds -> decimal ds < 10 ^ N.of_nat (length ds).
Proof.
  induction 1 as [|c ds H _ IH]; cbn [decimal length]; [cbn; lia|].
  replace (N.of_nat (S (length ds))) with (1 + N.of_nat (length ds)) by lia. rewrite N.pow_add_r. change (10 ^ 1) with 10.
  unfold digit in H. set (y := 10 ^ N.of_nat (length ds)) in *. clearbody y. nia.
Qed.
Lemma decimal_zeros l j : decimal (l ++ repeat 48 j) = decimal l * 10 ^ N.of_nat j.
Proof.
  rewrite decimal_app, repeat_length. assert (E : decimal (repeat 48 j) = 0) by (induction j as [|j IH]; cbn; auto; rewrite IH; lia).
  rewrite E. lia.
Qed.
Lemma pad_digits_spec k : forall n, length (pad_digits k n) = k /\ Forall digit (pad_digits k n) /\
  decimal (pad_digits k n) = n mod 10 ^ N.of_nat k.
Proof.
  induction k as [|k IH]; intros n; cbn [pad_digits].
  - splits; auto. cbn. now rewrite N.mod_1_r.
  - destruct (IH (n / 10)) as (A & B & C). splits.
    + rewrite app_length, A. cbn. lia.
    + apply Forall_app. split; auto. constructor; auto. unfold digit. pose proof (N.mod_lt n 10). lia.
    + rewrite decimal_app, C. cbn [length decimal]. change (10 ^ N.of_nat 1) with 10. change (N.of_nat 0) with 0. change (10 ^ 0) with 1.
      replace (N.of_nat (S k)) with (1 + N.of_nat k) by lia. rewrite N.pow_add_r. change (10 ^ 1) with 10.
      rewrite N.mod_mul_r by (try lia; apply N.pow_nonzero; lia). pose proof (N.mod_lt n 10). lia.
Qed.
Lemma strip_zeros_spec l : exists j, l = strip_zeros l ++ repeat 48 j.
Proof.
  induction l as [|c l [j IH]]; cbn [strip_zeros]; [now exists O|].
  destruct (c =? 48) eqn:E1; cbn [andb].
  - destruct (strip_zeros l) as [|y r] eqn:E2; cbn [is_nil].
    + exists (S j). cbn in IH. cbn. f_equal; [now apply N.eqb_eq|exact IH].
    + exists j. rewrite IH. reflexivity.
  - exists j. rewrite IH at 1. reflexivity.
Qed.
Lemma strip_zeros_digits l : Forall digit l -> Forall digit (strip_zeros l).
Proof. intros H. destruct (strip_zeros_spec l) as [j E]. rewrite E in H. now apply Forall_app in H. Qed.
(** trailing zeros of a fraction do not count *)
Lemma value_strip i l x :
  (qn (decimal (i ++ strip_zeros l)) * 10 ^ (x - Z.of_nat (length (strip_zeros l))) ==
   qn (decimal (i ++ l)) * 10 ^ (x - Z.of_nat (length l)))%Q.
Proof.
  destruct (strip_zeros_spec l) as [j E]. set (l' := strip_zeros l) in *. clearbody l'. subst l.
  rewrite app_assoc, decimal_zeros, qn_mul, app_length, repeat_length, <- p10_nat.
  replace (x - Z.of_nat (length l'))%Z with (Z.of_N (N.of_nat j) + (x - Z.of_nat (length l' + j)))%Z by lia.
  rewrite p10_add. ring.
Qed.
Lemma leading_digit k n : (0 < k)%nat -> 10 ^ (N.of_nat k - 1) <= n < 10 ^ N.of_nat k ->
  exists c r, pad_digits k n = c :: r /\ 49 <= c <= 57 /\ Forall digit r.
Proof.
  intros Hk Hn. destruct (pad_digits_spec k n) as (A & B & C).
  destruct (pad_digits k n) as [|c r] eqn:E; [cbn in A; lia|].
  pose proof (Forall_inv B) as Hc. pose proof (Forall_inv_tail B) as Hr. exists c, r. splits; auto; unfold digit in Hc; try lia.
  destruct (N.eq_dec c 48) as [->|]; [|lia].
  rewrite N.mod_small in C by lia. cbn [decimal] in C. pose proof (decimal_lt r Hr).
  cbn in A. replace (N.of_nat k - 1) with (N.of_nat (length r)) in Hn by lia. lia.
Qed.

(** ** The texts *)
Lemma decimal_one c : decimal [c] = c - 48.
Proof. cbn [decimal length]. change (10 ^ N.of_nat 0) with 1. lia. Qed.
Lemma parts_text s i f ex x : gint i -> Forall digit f -> exponent ex x ->
  parts (sign_text s ++ i ++ fraction_text 46 f ++ ex) s i f x.
Proof.
  intros Hi Hf He. destruct f as [|c f].
  - apply parts_int; auto.
  - apply (parts_frac s i (c :: f) ex x); auto. discriminate.
Qed.
Lemma gint_digits s : gint s -> Forall digit s.
Proof. intros [|c ds H1 H2]; constructor; auto; unfold digit; lia. Qed.
Lemma exponent_text_spec x : exponent (exponent_text x) x.
Proof.
  unfold exponent_text. set (n := Z.to_N (Z.abs x)).
  set (ds := if n <? 10 then [48; 48 + n] else to_string_N n).
  assert (D : ds <> [] /\ Forall digit ds /\ decimal ds = n).
  { unfold ds. destruct (N.ltb_spec n 10).
    - splits; [discriminate|repeat constructor; unfold digit; lia|].
      change [48; 48 + n] with ([48] ++ [48 + n]). rewrite decimal_app, !decimal_one. change (48 - 48) with 0. lia.
    - destruct (to_string_N_spec n) as (A & B & C). splits; auto. now apply gint_ne. }
  destruct D as (D1 & D2 & D3). clearbody ds.
  destruct (Z.ltb_spec x 0).
  - replace x with (if true then - Z.of_N (decimal ds) else Z.of_N (decimal ds))%Z at 1 by lia.
    apply (ex_some 101 [45] true ds); auto.
  - replace x with (if false then - Z.of_N (decimal ds) else Z.of_N (decimal ds))%Z at 1 by lia.
    apply (ex_some 101 [43] false ds); auto.
Qed.
Lemma gint_of c r : 49 <= c <= 57 -> Forall digit r -> gint (c :: r).
Proof. intros. now constructor. Qed.
Lemma Forall_firstn {A} (Q : A -> Prop) n l : Forall Q l -> Forall Q (firstn n l).
Proof. intros H. rewrite <- (firstn_skipn n l) in H. now apply Forall_app in H. Qed.
Lemma Forall_skipn {A} (Q : A -> Prop) n l : Forall Q l -> Forall Q (skipn n l).
Proof. intros H. rewrite <- (firstn_skipn n l) in H. now apply Forall_app in H. Qed.
Lemma digits_text P n X : 1 <= P -> 10 ^ (P - 1) <= n < 10 ^ P ->
  exists i f ex x,
    (let ds := pad_digits (N.to_nat P) n in
     if (-4 <=? X)%Z && (X <? Z.of_N P)%Z then
       if (0 <=? X)%Z then
         let i := Z.to_nat (X + 1) in
         firstn i ds ++ fraction_text 46 (strip_zeros (skipn i ds))
       else 48 :: 46 :: repeat 48 (Z.to_nat (- X - 1)) ++ strip_zeros ds
     else
       firstn 1 ds ++ fraction_text 46 (strip_zeros (skipn 1 ds)) ++ exponent_text X)
    = i ++ fraction_text 46 f ++ ex /\
    gint i /\ Forall digit f /\ exponent ex x /\
    (qn (decimal (i ++ f)) * 10 ^ (x - Z.of_nat (length f)) == qn n * 10 ^ (X - Z.of_N P + 1))%Q.
Proof.
  intros HP Hn. destruct (pad_digits_spec (N.to_nat P) n) as (A & B & C).
  rewrite N2Nat.id, N.mod_small in C by lia.
  destruct (leading_digit (N.to_nat P) n) as (c & r & E & Hc & Hr); [lia|now rewrite N2Nat.id|].
  cbv zeta. rewrite E in *. cbn [length] in A.
  destruct (Z.leb_spec (-4) X); [destruct (Z.ltb_spec X (Z.of_N P))|]; cbn [andb].
  - destruct (Z.leb_spec 0 X).
    + set (j := Z.to_nat (X + 1)).
      exists (firstn j (c :: r)), (strip_zeros (skipn j (c :: r))), [], 0%Z. splits.
      * now rewrite app_nil_r.
      * destruct j as [|j'] eqn:Ej; [lia|]. cbn [firstn]. apply gint_of; auto. now apply Forall_firstn.
      * apply strip_zeros_digits. now apply Forall_skipn.
      * constructor.
      * rewrite value_strip, firstn_skipn, C, skipn_length. cbn [length].
        now replace (0 - Z.of_nat (S (length r) - j))%Z with (X - Z.of_N P + 1)%Z by lia.
    + set (z := repeat 48 (Z.to_nat (- X - 1))).
      exists [48], (z ++ strip_zeros (c :: r)), [], 0%Z. splits.
      * rewrite app_nil_r. unfold fraction_text.
        destruct (is_nil (z ++ strip_zeros (c :: r))) eqn:En; [|reflexivity].
        exfalso. destruct z; [|discriminate]. cbn [app strip_zeros] in En.
        destruct ((c =? 48) && is_nil (strip_zeros r)) eqn:E48; [|discriminate].
        apply andb_true_iff in E48 as [E48 _]. apply N.eqb_eq in E48. lia.
      * constructor.
      * apply Forall_app. split; [|now apply strip_zeros_digits].
        unfold z. apply Forall_forall. intros y Hy. apply repeat_spec in Hy. subst. unfold digit; lia.
      * constructor.
      * rewrite app_assoc, app_length.
        replace (0 - Z.of_nat (length z + length (strip_zeros (c :: r))))%Z
          with (X + 1 - Z.of_nat (length (strip_zeros (c :: r))))%Z by (unfold z; rewrite repeat_length; lia).
        rewrite value_strip. cbn [length].
        replace (decimal (([48] ++ z) ++ c :: r)) with n.
        2:{ rewrite decimal_app, C. replace (decimal ([48] ++ z)) with 0; [lia|].
            rewrite decimal_app, decimal_one. unfold z. clear. induction (Z.to_nat (- X - 1)) as [|u IH]; cbn [repeat decimal]; lia. }
        now replace (X + 1 - Z.of_nat (S (length r)))%Z with (X - Z.of_N P + 1)%Z by lia.
  - exists [c], (strip_zeros r), (exponent_text X), X. splits; try reflexivity.
    + apply gint_of; auto. + now apply strip_zeros_digits. + apply exponent_text_spec.
    + rewrite value_strip. change ([c] ++ r) with (c :: r). rewrite C.
      now replace (X - Z.of_nat (length r))%Z with (X - Z.of_N P + 1)%Z by lia.
  - exists [c], (strip_zeros r), (exponent_text X), X. splits; try reflexivity.
    + apply gint_of; auto. + now apply strip_zeros_digits. + apply exponent_text_spec.
    + rewrite value_strip. change ([c] ++ r) with (c :: r). rewrite C.
      now replace (X - Z.of_nat (length r))%Z with (X - Z.of_N P + 1)%Z by lia.
Qed.
Lemma text_g_parts P s m e : 1 <= P -> 0 < m ->
  exists i f x, parts (text_g (fun l => l) 46 P (Fin s m e)) s i f x /\
  (let y := qn (decimal (i ++ f)) * 10 ^ (x - Z.of_nat (length f)) in
   let err := (1 # 2) * (qn m * 2 ^ e) * 10 ^ (1 - Z.of_N P) in
   y - qn m * 2 ^ e <= err /\ qn m * 2 ^ e - y <= err)%Q.
Proof.
  intros HP Hm. cbn [text_g]. destruct (N.eqb_spec m 0); [lia|].
  destruct (significant P m e) as [n' X] eqn:Es. destruct (significant_spec P m e n' X HP Hm Es) as [B Err].
  destruct (digits_text P n' X HP B) as (i & f & ex & x & Et & Hi & Hf & Hx & Hv).
  cbv zeta in Et. rewrite Et. exists i, f, x. split; [now apply parts_text|].
  cbv zeta in *. rewrite Hv. exact Err.
Qed.
Lemma text_f_parts s m e :
  exists i f, parts (text_f 46 (Fin s m e)) s i f 0 /\ length f = 6%nat /\
  (let y := qn (decimal (i ++ f)) * 10 ^ (-6) in
   y - qn m * 2 ^ e <= (1 # 2000000) /\ qn m * 2 ^ e - y <= (1 # 2000000))%Q.
Proof.
  cbn [text_f]. set (n := round_div _ _).
  destruct (to_string_N_spec (n / 1000000)) as (_ & B & A).
  destruct (pad_digits_spec 6 (n mod 1000000)) as (C & D & E).
  exists (to_string_N (n / 1000000)), (pad_digits 6 (n mod 1000000)). split; [|split; [exact C|]].
  - replace (46 :: pad_digits 6 (n mod 1000000)) with (fraction_text 46 (pad_digits 6 (n mod 1000000)) ++ []).
    + apply parts_text; auto. constructor.
    + rewrite app_nil_r. unfold fraction_text. destruct (pad_digits 6 (n mod 1000000)) eqn:Z6; [cbn in C; lia|reflexivity].
  - rewrite decimal_app, C, E. change (10 ^ N.of_nat 6) with 1000000.
    rewrite N.mod_mod by lia. replace (decimal (to_string_N (n / 1000000)) * 1000000 + n mod 1000000) with n by (rewrite B; lia).
    pose proof (numer_denom m e 6) as Nd. destruct (round_div_near _ _ (qn m * 2 ^ e * 10 ^ 6) (denom_pos e 6) Nd) as [R1 R2].
    fold n in R1, R2. change (10 ^ 6)%Q with 1000000%Q in *. change (10 ^ (-6))%Q with (1 # 1000000)%Q. split; lra.
Qed.
(** parts of a text give a number of the grammar, and the other way round *)
Lemma exponent_gexp ex x : exponent ex x -> gexp ex.
Proof.
  intros [|l sg neg ds Hl Hs Hd HD]; [constructor|]. destruct ds as [|c ds]; [congruence|].
  inversion HD; subst. constructor; auto. intuition.
Qed.
Lemma parts_gnumber t s i f x : parts t s i f x -> gnumber t.
Proof.
  assert (M : forall s, sign_text s = [] \/ sign_text s = [45]) by (intros []; auto).
  intros [s' i' ex x' Hi He|s' i' f' ex x' Hi Hf HF He].
  - replace (sign_text s' ++ i' ++ ex) with (sign_text s' ++ i' ++ [] ++ ex) by reflexivity.
    constructor; auto; [constructor|]. eapply exponent_gexp; eauto.
  - destruct f' as [|c f']; [congruence|]. inversion HF; subst.
    constructor; auto; [now constructor|]. eapply exponent_gexp; eauto.
Qed.
Lemma gnumber_denotes t : gnumber t -> exists q, denotes t q.
Proof.
  intros [m i f ex Hm Hi Hf Hx].
  assert (exists s, m = sign_text s) as [s ->] by (destruct Hm as [->| ->]; [now exists false|now exists true]).
  assert (exists x, exponent ex x) as [x He].
  { destruct Hx as [|e sg c ds H1 H2 H3 H4]; [exists 0%Z; constructor|].
    destruct H2 as [->|[->| ->]]; eexists;
      [apply (ex_some e [] false (c :: ds))|apply (ex_some e [43] false (c :: ds))|apply (ex_some e [45] true (c :: ds))];
      auto; discriminate. }
  destruct Hf as [|c ds H1 H2]; eexists; exists s, i.
  - exists [], x. split; [now apply parts_int|]. reflexivity.
  - exists (c :: ds), x. split; [apply (parts_frac s i (c :: ds) ex x); auto; discriminate|]. reflexivity.
Qed.

(** ** Reading *)
Lemma span_app f a b : Forall (fun c => f c = true) a -> (match b with c :: _ => f c = false | [] => True end) ->
  span f (a ++ b) = (a, b).
Proof.
  induction 1 as [|c a H _ IH]; cbn [app span]; intros Hb.
  - destruct b as [|c b]; cbn [span]; [reflexivity|]. now rewrite Hb.
  - rewrite H, IH; auto.
Qed.
Lemma digits_isdigit l : Forall digit l -> Forall (fun c => isdigit c = true) l.
Proof. apply Forall_impl. intros. now apply isdigit_spec. Qed.
Lemma digits_forallb l : Forall digit l -> forallb isdigit l = true.
Proof. intros H. apply forallb_forall. intros c Hc. apply isdigit_spec. rewrite Forall_forall in H. auto. Qed.
Lemma read_sign_digit c r : digit c -> read_sign (c :: r) = (false, c :: r).
Proof. unfold digit, read_sign. intros. destruct (N.eqb_spec c 45); [lia|]. destruct (N.eqb_spec c 43); [lia|]. reflexivity. Qed.
Lemma read_exponent_spec ex x : exponent ex x -> read_exponent 101 ex = Some x /\
  (ex = [] \/ exists l r, ex = l :: r /\ (l = 101 \/ l = 69)).
Proof.
  intros [|l sg neg ds Hl Hs Hd HD]; [split; auto|]. split; [|right; eauto].
  unfold read_exponent. replace (lower l =? 101) with true by (destruct Hl as [->| ->]; reflexivity).
  destruct ds as [|c ds]; [congruence|]. pose proof (Forall_inv HD) as Hc.
  assert (R : read_sign (sg ++ c :: ds) = (neg, c :: ds)).
  { destruct Hs as [[-> ->]|[[-> ->]|[-> ->]]]; cbn [app]; [now apply read_sign_digit|reflexivity|reflexivity]. }
  rewrite R, digits_forallb by auto. cbn [is_nil]. now rewrite dec_value_decimal.
Qed.
Lemma beq_head c d a b : c <> d -> bytes_eqb (c :: a) (d :: b) = false.
Proof. intros H. destruct (bytes_eqb (c :: a) (d :: b)) eqn:E; auto. apply bytes_eqb_eq in E. congruence. Qed.
Lemma starts_head c d a b : c <> d -> starts_with (c :: a) (d :: b) = false.
Proof. intros H. cbn [starts_with]. destruct (N.eqb_spec c d); [contradiction|reflexivity]. Qed.
Lemma read_body s c r mid :
  digit c ->
  let body := (c :: r) ++ mid in
  (c = 48 -> match r ++ mid with c1 :: _ => lower c1 <> 120 | [] => True end) ->
  read_number 46 (sign_text s ++ body) =
    (let '(i, f, r) := read_mantissa isdigit 46 body in
      if is_nil i && is_nil f then None
      else match read_exponent 101 r with
      | Some x =>
          let k := (x - Z.of_N (size f))%Z in
          Some (RNum s (numer (dec_value (i ++ f)) 0 k) (denom 0 k))
      | None => None
      end).
Proof.
  intros Hc body Hx. unfold read_number.
  assert (S : skip_space (sign_text s ++ body) = sign_text s ++ body).
  { destruct s; cbn [sign_text app]; [reflexivity|]. unfold body. cbn [app skip_space].
    replace (isspace c) with false; [reflexivity|]. unfold isspace, digit in *. lia. }
  rewrite S. assert (R : read_sign (sign_text s ++ body) = (s, body)).
  { destruct s; cbn [sign_text app]; [reflexivity|]. unfold body. cbn [app]. now apply read_sign_digit. }
  rewrite R. cbv zeta.
  assert (L : lower c = c). { unfold lower, digit in *. destruct (N.leb_spec 65 c); [lia|reflexivity]. }
  assert (LB : map lower body = c :: map lower (r ++ mid)) by (unfold body; cbn [app map]; now rewrite L).
  rewrite LB. clearbody body.
  assert (Binf : bytes_eqb (c :: map lower (r ++ mid)) (of_string "inf") = false) by (apply beq_head; intros E; vm_compute in E; unfold digit in *; lia).
  assert (Binfinity : bytes_eqb (c :: map lower (r ++ mid)) (of_string "infinity") = false) by (apply beq_head; intros E; vm_compute in E; unfold digit in *; lia).
  assert (Bnan : bytes_eqb (c :: map lower (r ++ mid)) (of_string "nan") = false) by (apply beq_head; intros E; vm_compute in E; unfold digit in *; lia).
  assert (Bs : starts_with (of_string "nan(") (c :: map lower (r ++ mid)) = false) by (apply starts_head; intros E; vm_compute in E; unfold digit in *; lia).
  rewrite Binf, Binfinity, Bnan, Bs.
  cbn [orb]. destruct (r ++ mid) as [|c1 tl] eqn:E; cbn [map]; [reflexivity|].
  destruct (N.eqb_spec c 48) as [E48|E48]; cbn [andb]; [|reflexivity].
  specialize (Hx E48). destruct (N.eqb_spec (lower c1) 120); [contradiction|reflexivity].
Qed.
Lemma gint_head i : gint i -> exists c r, i = c :: r /\ digit c /\ (c = 48 -> r = []).
Proof. intros [|c ds H1 H2]; [exists 48, []|exists c, ds]; splits; auto; unfold digit; try lia. Qed.
Lemma read_parts t s i f x : parts t s i f x ->
  read_number 46 t = Some (RNum s (numer (decimal (i ++ f)) 0 (x - Z.of_nat (length f)))
                                  (denom 0 (x - Z.of_nat (length f)))).
Proof.
  assert (SZ : forall l : bytes, Z.of_N (size l) = Z.of_nat (length l)) by (intros; unfold size; lia).
  intros [s' i' ex x' Hi He|s' i' f' ex x' Hi Hf HF He]; destruct (read_exponent_spec _ _ He) as [Re Hex];
    destruct (gint_head _ Hi) as (c & r & Ei & Hc & H48); pose proof (gint_digits _ Hi) as Di.
  - rewrite Ei. rewrite read_body; auto.
    + rewrite <- Ei. unfold read_mantissa. rewrite span_app by (auto using digits_isdigit; destruct Hex as [->|(l & q & -> & [->| ->])]; auto).
      destruct Hex as [->|(l & q & -> & [->| ->])];
        [|change (101 =? 46) with false|change (69 =? 46) with false]; cbv iota beta;
        rewrite Ei at 1; cbn [is_nil andb]; rewrite Re, SZ, dec_value_decimal; reflexivity.
    + intros E. rewrite (H48 E). cbn [app]. destruct Hex as [->|(l & q & -> & [->| ->])]; auto; discriminate.
  - rewrite Ei. rewrite read_body; auto.
    + rewrite <- Ei. unfold read_mantissa. rewrite span_app; [|now apply digits_isdigit|reflexivity].
      cbn [app]. rewrite N.eqb_refl. rewrite span_app by (auto using digits_isdigit; destruct Hex as [->|(l & q & -> & [->| ->])]; auto).
      rewrite Ei at 1. cbn [is_nil andb]. rewrite Re, SZ, dec_value_decimal. reflexivity.
    + intros E. rewrite (H48 E). cbn [app]. discriminate.
Qed.
Lemma numer_denom10 d k : (qn (numer d 0 k) == qn d * 10 ^ k * qn (denom 0 k))%Q.
Proof. rewrite numer_denom. change (2 ^ 0)%Q with 1%Q. ring. Qed.
Lemma numer_pos m e k : 0 < m -> 0 < numer m e k.
Proof. intros. unfold numer. pose proof (pow_up_gt0 2 e). pose proof (pow_up_gt0 10 k). nia. Qed.

(** ** Round trip *)
Lemma digits_enough p : precision p -> 2 ^ p < 10 ^ (max_digits10 p - 1) /\ 1 <= max_digits10 p /\ 1 <= p.
Proof. intros [->|[->|[->| ->]]]; vm_compute; splits; auto; discriminate. Qed.
Lemma fmt_prec p : prec (fmt_of p) = p.
Proof. reflexivity. Qed.
Lemma keep_round_trip c p f : keep c = true -> classic c -> precision p ->
  zero (fmt_of p) f \/ normal (fmt_of p) f -> parse_floating c p (float_to_string c p f) = Some f.
Proof.
  intros K [C1 C] Hp Hf. destruct (C K) as [C2 C3]. destruct (digits_enough p Hp) as (D1 & D2 & D3).
  unfold parse_floating, float_to_string. rewrite K, C1, C2, C3. change (group_digits (s_sep c) []) with (fun l : bytes => l).
  destruct Hf as [[s]|[s m e Hm He]].
  - assert (E : parts (text_g (fun l => l) 46 (max_digits10 p) (Fin s 0 (emin (fmt_of p)))) s [48] [] 0).
    { cbn [text_g]. rewrite N.eqb_refl. apply (parts_int s [48] [] 0%Z); constructor. }
    rewrite (read_parts _ _ _ _ _ E). reflexivity.
  - rewrite fmt_prec in Hm. pose proof (pow_gt0 2 (p - 1) ltac:(lia)) as G0.
    destruct (text_g_parts (max_digits10 p) s m e D2 ltac:(lia)) as (i & g & x & Hparts & Err1 & Err2).
    rewrite (read_parts _ _ _ _ _ Hparts).
    set (d := decimal (i ++ g)) in *. set (k := (x - Z.of_nat (length g))%Z) in *.
    set (y := (qn d * 10 ^ k)%Q) in *. set (v := (qn m * 2 ^ e)%Q) in *.
    pose proof (numer_denom10 d k) as Hy. fold y in Hy.
    pose proof (p2_pos e) as Pe.
    assert (Hm1 : (1 <= qn m)%Q) by (apply qn_one_le; lia).
    assert (Small : ((1 # 2) * v * 10 ^ (1 - Z.of_N (max_digits10 p)) < (1 # 2) * v * 2 ^ (- Z.of_N p))%Q).
    { assert (V : (0 < v)%Q) by (unfold v; nra).
      assert (T : (10 ^ (1 - Z.of_N (max_digits10 p)) < 2 ^ (- Z.of_N p))%Q).
      { apply qn_lt in D1. rewrite <- p2_nat, <- p10_nat in D1.
        replace (Z.of_N (max_digits10 p - 1)) with (- (1 - Z.of_N (max_digits10 p)))%Z in D1 by lia.
        set (u := (1 - Z.of_N (max_digits10 p))%Z) in *.
        assert (E1 : (10 ^ u * 10 ^ (- u) == 1)%Q) by (rewrite <- p10_add; now rewrite Z.add_opp_diag_r).
        assert (E2 : (2 ^ Z.of_N p * 2 ^ (- Z.of_N p) == 1)%Q) by (rewrite <- p2_add; now rewrite Z.add_opp_diag_r).
        pose proof (p10_pos u). pose proof (p10_pos (- u)). pose proof (p2_pos (Z.of_N p)). pose proof (p2_pos (- Z.of_N p)).
        apply Qmult_lt_r with (z := (2 ^ Z.of_N p * 10 ^ (- u))%Q); [nra|].
        setoid_replace (10 ^ u * (2 ^ Z.of_N p * 10 ^ (- u)))%Q with (2 ^ Z.of_N p)%Q by (rewrite (Qmult_comm (2 ^ Z.of_N p)), Qmult_assoc, E1; ring).
        setoid_replace (2 ^ (- Z.of_N p) * (2 ^ Z.of_N p * 10 ^ (- u)))%Q with (10 ^ (- u))%Q by (rewrite Qmult_assoc, (Qmult_comm (2 ^ (- Z.of_N p))), E2; ring).
        exact D1. }
      nra. }
    assert (Unit : (qn (2 ^ p) * 2 ^ (- Z.of_N p) == 1)%Q) by (rewrite <- p2_nat, <- p2_add; now rewrite Z.add_opp_diag_r).
    pose proof (pow_split p D3) as Sp. assert (Sp' : (qn (2 ^ p) == 2 * qn (2 ^ (p - 1)))%Q) by (rewrite Sp, qn_mul; reflexivity).
    pose proof (p2_pos (- Z.of_N p)) as Pm.
    assert (Hm2 : (qn m < qn (2 ^ p))%Q) by (apply qn_lt; lia).
    assert (V1 : ((1 # 2) * v * 2 ^ (- Z.of_N p) < (1 # 2) * 2 ^ e)%Q).
    { unfold v. assert (qn m * 2 ^ (- Z.of_N p) < 1)%Q by nra. nra. }
    assert (V2 : m = 2 ^ (p - 1) -> ((1 # 2) * v * 2 ^ (- Z.of_N p) == (1 # 4) * 2 ^ e)%Q).
    { intros ->. unfold v. assert (qn (2 ^ (p - 1)) * 2 ^ (- Z.of_N p) == (1 # 2))%Q by nra.
      setoid_replace ((1 # 2) * (qn (2 ^ (p - 1)) * 2 ^ e) * 2 ^ (- Z.of_N p))%Q with ((1 # 2) * 2 ^ e * (qn (2 ^ (p - 1)) * 2 ^ (- Z.of_N p)))%Q by ring.
      rewrite H. ring. }
    assert (Dpos : 0 < d).
    { destruct (N.eq_dec d 0) as [E0|]; [|lia]. exfalso. unfold y in Err2. rewrite E0 in Err2. change (qn 0) with 0%Q in Err2.
      unfold v in *. nra. }
    assert (RF : forall lo, match lo with Some l => (l <= e)%Z | None => True end ->
               round_frac p lo (numer d 0 k) (denom 0 k) = (m, e)).
    { intros lo Hlo. apply round_frac_near with (d := y); auto.
      - now apply numer_pos. - apply denom_pos.
      - unfold v in *. nra. - unfold v in *. nra.
      - intros E. specialize (V2 E). unfold v in *. nra. }
    unfold to_flt. rewrite fmt_prec.
    pose proof (numer_pos d 0 k Dpos) as Np. destruct (N.eqb_spec (numer d 0 k) 0) as [E0|_]; [rewrite E0 in Np; discriminate|].
    rewrite (RF (Some (emin (fmt_of p))) (proj1 He)), (RF None I). cbn [snd].
    destruct (Z.ltb_spec (emax (fmt_of p)) e); [lia|]. destruct (Z.ltb_spec e (emin (fmt_of p))); [lia|]. reflexivity.
Qed.

(** ** Reading gives the nearest number *)
Lemma round_div_tie a b n : 0 < b -> 2 * a = (2 * n + 1) * b -> N.even (round_div a b) = true.
Proof.
  intros Hb H. unfold round_div. pose proof (N.div_mod a b ltac:(lia)) as E.
  pose proof (N.mod_lt a b ltac:(lia)) as L. set (q := a / b) in *. set (r := a mod b) in *. clearbody q r.
  assert (q = n) by nia. assert (2 * r = b) by nia. subst q.
  destruct (N.ltb_spec (2 * r) b); [lia|]. destruct (N.ltb_spec b (2 * r)); [lia|].
  destruct (N.even n) eqn:En; auto. rewrite N.even_add, En. reflexivity.
Qed.
Lemma qabs_cases x : (0 <= x /\ Qabs x == x)%Q \/ (x <= 0 /\ Qabs x == - x)%Q.
Proof. destruct (Qlt_le_dec x 0); [right|left]; split; try lra; [apply Qabs_neg; lra|now apply Qabs_pos]. Qed.
Ltac qabs := repeat match goal with
  | |- context [Qabs ?x] => let A := fresh in let B := fresh in destruct (qabs_cases x) as [[A B]|[A B]]; rewrite B in *; clear B
  | H : context [Qabs ?x] |- _ => let A := fresh in let B := fresh in destruct (qabs_cases x) as [[A B]|[A B]]; rewrite B in *; clear B
  end.
(** an integer multiple of [u] at most half a unit away is the nearest *)
Lemma nearest_multiple (u t : Q) m j : (0 < u)%Q -> (qn m - (1 # 2) <= t)%Q -> (t <= qn m + (1 # 2))%Q ->
  (Qabs (qn m * u - t * u) <= Qabs (qn j * u - t * u))%Q.
Proof.
  intros Hu H1 H2. destruct (N.lt_trichotomy j m) as [L|[->|G]]; [|apply Qle_refl|].
  - assert (qn j + 1 <= qn m)%Q by (change 1%Q with (qn 1); rewrite <- qn_add; apply qn_le; lia). qabs; nra.
  - assert (qn m + 1 <= qn j)%Q by (change 1%Q with (qn 1); rewrite <- qn_add; apply qn_le; lia). qabs; nra.
Qed.
Section Nearest.
  Context (F : fmt) (Hp : 1 <= prec F) (HF : (emin F <= emax F)%Z).
  Context (a b : N) (d : Q) (Ha : 0 < a) (Hb : 0 < b) (Hd : (qn a == d * qn b)%Q).
  Let p := prec F.
  Let k := log2_frac a b.
  Let e0 := Z.max (k - Z.of_N p + 1) (emin F).
  Let m0 := round_div (a * pow_up 2 (- e0)) (b * pow_up 2 e0).
  Let t := (d * 2 ^ (- e0))%Q.

  Lemma k_spec : (2 ^ k <= d)%Q /\ (d < 2 ^ (k + 1))%Q.
  Proof. now apply log2_frac_spec. Qed.
  Lemma t_spec : (t * 2 ^ e0 == d)%Q.
  Proof. apply mul_unit. Qed.
  Lemma m0_near : (qn m0 - (1 # 2) <= t)%Q /\ (t <= qn m0 + (1 # 2))%Q.
  Proof. apply round_div_near; [pose proof (pow_up_gt0 2 e0); nia|]. now apply scale_div. Qed.
  Lemma t_lt : (t < qn (2 ^ p))%Q.
  Proof.
    apply Qmult_lt_r with (z := (2 ^ e0)%Q); [apply p2_pos|]. rewrite t_spec. destruct k_spec as [_ K].
    rewrite <- p2_nat, <- p2_add. eapply Qlt_le_trans; [exact K|]. apply p2_le. unfold e0. lia.
  Qed.
  Lemma m0_le : m0 <= 2 ^ p.
  Proof.
    destruct m0_near as [N1 _]. pose proof t_lt.
    assert (qn m0 < qn (2 ^ p + 1))%Q by (rewrite qn_add; change (qn 1) with 1%Q; lra). apply qn_lt in H0. lia.
  Qed.
  Lemma m0_ge : e0 <> emin F -> 2 ^ (p - 1) <= m0.
  Proof.
    intros E. destruct m0_near as [_ N2]. destruct k_spec as [K _].
    assert (E0 : e0 = (k - Z.of_N p + 1)%Z) by (unfold e0 in *; lia).
    assert (T : (qn (2 ^ (p - 1)) <= t)%Q).
    { apply Qmult_lt_0_le_reg_r with (z := (2 ^ e0)%Q); [apply p2_pos|]. rewrite t_spec, <- p2_nat, <- p2_add.
      replace (Z.of_N (p - 1) + e0)%Z with k by (rewrite E0; unfold p in *; lia). exact K. }
    assert (qn (2 ^ (p - 1)) < qn (m0 + 1))%Q by (rewrite qn_add; change (qn 1) with 1%Q; lra). apply qn_lt in H. lia.
  Qed.
  Definition rounded : N * Z := round_frac p (Some (emin F)) a b.
  Lemma rounded_eq : rounded = if m0 =? 2 ^ p then (2 ^ (p - 1), (e0 + 1)%Z) else (m0, e0).
  Proof. reflexivity. Qed.
  Lemma rounded_value m e : rounded = (m, e) -> (qn m * 2 ^ e == qn m0 * 2 ^ e0)%Q.
  Proof.
    rewrite rounded_eq. destruct (N.eqb_spec m0 (2 ^ p)) as [E|_]; intros [= <- <-]; [|reflexivity].
    rewrite E, (pow_split p Hp), qn_mul, p2_add. change (2 ^ 1)%Q with 2%Q. change (qn 2) with 2%Q. ring.
  Qed.
  Lemma rounded_nearest m e m' e' : rounded = (m, e) -> m' < 2 ^ p -> (emin F <= e')%Z ->
    (Qabs (qn m * 2 ^ e - d) <= Qabs (qn m' * 2 ^ e' - d))%Q.
  Proof.
    intros R Hm' He'. rewrite (rounded_value _ _ R), <- t_spec. destruct m0_near as [N1 N2].
    pose proof (p2_pos e0) as P0.
    destruct (Z.le_gt_cases e0 e') as [G|L].
    - assert (E : (qn m' * 2 ^ e' == qn (m' * 2 ^ Z.to_N (e' - e0)) * 2 ^ e0)%Q).
      { rewrite qn_mul, <- p2_nat. replace e' with (Z.of_N (Z.to_N (e' - e0)) + e0)%Z at 1 by lia. rewrite p2_add. ring. }
      rewrite E. apply nearest_multiple; auto.
    - assert (E0 : e0 = (k - Z.of_N p + 1)%Z) by (unfold e0 in *; lia).
      assert (Y : (qn m' * 2 ^ e' <= qn (2 ^ (p - 1)) * 2 ^ e0)%Q).
      { rewrite <- p2_nat, <- p2_add. apply Qle_trans with (qn (2 ^ p) * 2 ^ e')%Q.
        - apply Qmult_le_compat_r; [apply qn_le; lia|]. pose proof (p2_pos e'). lra.
        - rewrite <- p2_nat, <- p2_add. apply p2_le. unfold p in *. lia. }
      assert (T : (qn (2 ^ (p - 1)) * 2 ^ e0 <= t * 2 ^ e0)%Q).
      { rewrite t_spec, <- p2_nat, <- p2_add. replace (Z.of_N (p - 1) + e0)%Z with k by (rewrite E0; unfold p in *; lia). apply k_spec. }
      pose proof (nearest_multiple (2 ^ e0) t m0 (2 ^ (p - 1)) P0 N1 N2).
      qabs; lra.
  Qed.
  Lemma rounded_finite s m e : rounded = (m, e) -> (e <= emax F)%Z -> finite F (Fin s m e).
  Proof.
    rewrite rounded_eq. pose proof m0_le as L. pose proof (pow_split p Hp) as Sp. pose proof (pow_gt0 2 (p - 1) ltac:(lia)).
    destruct (N.eqb_spec m0 (2 ^ p)) as [E|E]; intros [= <- <-] He.
    - right; right. constructor; fold p; [lia|unfold e0 in *; lia].
    - destruct (N.ltb_spec m0 (2 ^ (p - 1))) as [S|S].
      + destruct (Z.eq_dec e0 (emin F)) as [Ee|Ee]; [|pose proof (m0_ge Ee); lia]. rewrite Ee.
        destruct (N.eq_dec m0 0) as [->|]; [left; constructor|right; left; constructor; fold p; lia].
      + right; right. constructor; fold p; [lia|]. split; auto. unfold e0. lia.
  Qed.
  Lemma half_top : (qn (2 ^ p) - (1 # 2) == 2 ^ Z.of_N p - (1 # 2))%Q.
  Proof. now rewrite p2_nat. Qed.
  Lemma rounded_overflow m e : rounded = (m, e) -> (emax F < e)%Z <-> too_large F d.
  Proof.
    intros R. rewrite rounded_eq in R. unfold too_large. fold p. destruct k_spec as [K1 K2].
    assert (D0 : (0 < d)%Q) by (pose proof (p2_pos k); lra). rewrite (Qabs_pos d) by lra. rewrite <- half_top.
    pose proof (p2_pos e0) as P0. destruct m0_near as [N1 N2]. pose proof t_spec as T.
    assert (S1 : (1 <= qn (2 ^ p))%Q) by (apply qn_one_le, pow_gt0; lia).
    split.
    - intros He. assert (B : (2 ^ emax F <= 2 ^ e0)%Q /\ (qn (2 ^ p) - (1 # 2) <= t \/ (2 ^ (emax F + 1) <= 2 ^ e0 /\ qn (2 ^ (p - 1)) <= t))%Q).
      { destruct (N.eqb_spec m0 (2 ^ p)) as [E|E]; injection R as <- <-.
        - split; [apply p2_le; lia|]. left. rewrite E in N1. lra.
        - split; [apply p2_le; lia|]. right. split; [apply p2_le; lia|].
          apply Qmult_lt_0_le_reg_r with (z := (2 ^ e0)%Q); auto. rewrite T, <- p2_nat, <- p2_add.
          replace (Z.of_N (p - 1) + e0)%Z with k; [auto|]. unfold e0 in *. unfold p in *. lia. }
      destruct B as [B1 [B2|[B2 B3]]]; rewrite <- T.
      + pose proof (p2_pos (emax F)). nra.
      + rewrite p2_add in B2. change (2 ^ 1)%Q with 2%Q in B2. rewrite (pow_split p Hp), qn_mul in *. change (qn 2) with 2%Q in *.
        pose proof (p2_pos (emax F)). nra.
    - intros H. destruct (Z.lt_ge_cases (emax F) e) as [|G]; auto. exfalso.
      assert (Ee : e0 = emax F).
      { assert (emax F < e0 + 1)%Z.
        { assert (2 ^ (Z.of_N p - 1 + emax F) <= d)%Q.
          { eapply Qle_trans; [|exact H]. rewrite p2_add. replace (Z.of_N p - 1)%Z with (Z.of_N (p - 1)) by (unfold p in *; lia).
            rewrite p2_nat, (pow_split p Hp), qn_mul. change (qn 2) with 2%Q. pose proof (p2_pos (emax F)).
            pose proof (pow_gt0 2 (p - 1) ltac:(lia)) as X. apply qn_one_le in X. nra. }
          assert ((Z.of_N p - 1 + emax F < k + 1)%Z) by (apply p2_lt_inv; lra). unfold e0. lia. }
        destruct (m0 =? 2 ^ p); injection R as <- <-; lia. }
      assert (H' : (qn (2 ^ p) - (1 # 2) <= t)%Q) by (apply Qmult_lt_0_le_reg_r with (z := (2 ^ e0)%Q); auto; rewrite T, Ee; exact H).
      destruct (N.eqb_spec m0 (2 ^ p)) as [E|E]; injection R as <- Re; [lia|].
      pose proof m0_le as ML. assert (ML' : m0 + 1 <= 2 ^ p) by lia. apply qn_le in ML'. rewrite qn_add in ML'. change (qn 1) with 1%Q in ML'.
      assert (Et : (t == qn m0 + (1 # 2))%Q) by lra. assert (Em : m0 + 1 = 2 ^ p) by (apply qn_inj; rewrite qn_add; change (qn 1) with 1%Q; lra).
      assert (Ev : N.even m0 = true).
      { apply round_div_tie with (n := m0); [pose proof (pow_up_gt0 2 e0); nia|].
        apply qn_inj. rewrite !qn_mul, !qn_add, !qn_mul. pose proof (scale_div a b d e0 Hd) as S. rewrite !qn_mul in S. rewrite S.
        fold t. change (qn 2) with 2%Q. change (qn 1) with 1%Q. rewrite Et. ring. }
      pose proof (N.even_add m0 1) as EA. rewrite Em, Ev in EA. cbn in EA.
      rewrite (pow_split p Hp), N.even_mul in EA. discriminate.
  Qed.
  Lemma tiny_below : (snd (round_frac p None a b) < emin F)%Z -> below_normal F d.
  Proof.
    destruct k_spec as [K1 K2]. assert (D0 : (0 < d)%Q) by (pose proof (p2_pos k); lra).
    intros H. unfold below_normal. rewrite (Qabs_pos d) by lra. split; auto.
    unfold round_frac in H. fold k in H. set (e1 := (k - Z.of_N p + 1)%Z) in *.
    assert (e1 < emin F)%Z by (destruct (_ =? 2 ^ p) in H; cbn [snd] in H; lia).
    eapply Qlt_le_trans; [exact K2|]. apply p2_le. fold p. lia.
  Qed.
End Nearest.
