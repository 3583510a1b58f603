(** * Proofs about integers as text. *)
From Verif Require Import Base Value Containers Num Spec BaseProofs Enum Conv SpecConv.
Ltac Zify.zify_post_hook ::= Z.div_mod_to_equations.

Lemma isdigit_spec c : isdigit c = true <-> digit c.
Proof. unfold isdigit, digit. lia. Qed.

Lemma fold_decimal ds : forall a,
  fold_left (fun a c => 10 * a + (c - 48)) ds a = a * 10 ^ N.of_nat (length ds) + decimal ds.
Proof.
  induction ds as [|c r IH]; intros a; cbn [fold_left decimal length].
  - change (10 ^ N.of_nat 0) with 1. lia.
  - rewrite IH. rewrite Nnat.Nat2N.inj_succ, N.pow_succ_r by lia. nia.
Qed.
Lemma dec_value_decimal ds : dec_value ds = decimal ds.
Proof. unfold dec_value. rewrite fold_decimal. lia. Qed.

Lemma span_digits_spec s : forall ds rest, span_digits s = (ds, rest) ->
  s = ds ++ rest /\ Forall digit ds /\ match rest with [] => True | c :: _ => isdigit c = false end.
Proof.
  induction s as [|c r IH]; intros ds rest H; cbn in H.
  - injection H as <- <-. splits; auto.
  - destruct (isdigit c) eqn:E.
    + destruct (span_digits r) as [a b] eqn:Er. injection H as <- <-.
      destruct (IH a b eq_refl) as (-> & Hd & Hr). splits; auto. constructor; auto. now apply isdigit_spec.
    + injection H as <- <-. splits; auto.
Qed.
Lemma span_digits_all ds : Forall digit ds -> span_digits ds = (ds, []).
Proof.
  induction 1 as [|c r Hc _ IH]; cbn; auto. apply isdigit_spec in Hc. rewrite Hc, IH. reflexivity.
Qed.

Lemma in_int_fits sg w z : in_int sg w z = true <-> fits sg w z.
Proof.
  unfold in_int, int_min, int_max, fits.
  destruct sg; rewrite andb_true_iff, Z.leb_le, Z.leb_le; lia.
Qed.

Lemma try_parse_spec sg w s z :
  try_parse_integer sg w s = Some z <-> spells sg s z /\ fits sg w z.
Proof.
  unfold try_parse_integer, from_chars. split.
  - intros H.
    assert (G : forall neg t, (neg = false \/ sg = true) ->
      (let '(ds, rest) := span_digits t in
       if is_nil ds then None
       else let z := if neg : bool then (- Z.of_N (dec_value ds))%Z else Z.of_N (dec_value ds) in
            if in_int sg w z then Some (z, rest) else None) = Some (z, []) ->
      spells sg (if neg then 45 :: t else t) z /\ fits sg w z).
    { intros neg t Hn G. destruct (span_digits t) as [ds rest] eqn:Es.
      apply span_digits_spec in Es as (-> & Hd & _).
      destruct (is_nil ds) eqn:En; [discriminate|].
      cbv zeta in G. destruct (in_int _ _ _) eqn:Ei in G; [|discriminate].
      injection G as <- ->. rewrite app_nil_r. rewrite dec_value_decimal in *.
      apply in_int_fits in Ei. split; auto.
      assert (ds <> []) by (destruct ds; discriminate).
      destruct neg; [destruct Hn; [discriminate|]|]; constructor; auto. }
    assert (X : forall o : option (Z * bytes), match o with Some (z, []) => Some z | _ => None end = Some z -> o = Some (z, [])).
    { intros [[z' [|]]|] X; try discriminate. now injection X as <-. }
    destruct s as [|c r].
    + discriminate.
    + destruct (sg && (c =? 45)) eqn:Ec.
      * apply andb_true_iff in Ec as [-> Ec]. apply N.eqb_eq in Ec as ->.
        apply (G true); auto.
      * apply (G false); auto.
  - intros [Hs Hf]. apply in_int_fits in Hf. destruct Hs as [ds Hne Hd|ds Hsg Hne Hd].
    + assert (E : (let '(neg, t) := match ds with c :: r => if sg && (c =? 45) then (true, r) else (false, ds) | [] => (false, ds) end in (neg, t)) = (false, ds)).
      { destruct ds as [|c r]; auto. inversion Hd; subst. unfold digit in *. replace (c =? 45) with false by lia. now rewrite andb_false_r. }
      destruct ds as [|c r]; [congruence|].
      destruct (sg && (c =? 45)) eqn:Ec; [discriminate|].
      rewrite span_digits_all by auto. cbn [is_nil]. rewrite dec_value_decimal. cbv zeta. rewrite Hf. reflexivity.
    + subst sg. cbn [andb]. rewrite N.eqb_refl. rewrite span_digits_all by auto.
      destruct ds as [|c r]; [congruence|]. cbn [is_nil]. rewrite dec_value_decimal. cbv zeta. rewrite Hf. reflexivity.
Qed.

Lemma as_int_spec sg w s z :
  as_int sg w (VStr Tnumber s) = Ok z <-> spells sg s z /\ fits sg w z.
Proof.
  rewrite <- try_parse_spec. unfold as_int, parse_integer. cbn [is_number type_of vtype_eqb get_str bind].
  destruct (try_parse_integer sg w s); split; congruence.
Qed.
Lemma as_int_throw sg w s :
  (forall z, ~ (spells sg s z /\ fits sg w z)) -> as_int sg w (VStr Tnumber s) = Throw JsonException.
Proof.
  intros H. unfold as_int, parse_integer. cbn [is_number type_of vtype_eqb get_str bind].
  destruct (try_parse_integer sg w s) eqn:E; auto. apply try_parse_spec in E. now apply H in E.
Qed.
Lemma spells_fun sg s z z' : spells sg s z -> spells sg s z' -> z = z'.
Proof.
  destruct 1 as [ds Hne Hd|ds Hsg Hne Hd]; inversion 1; subst; auto.
  - inversion Hd; subst. unfold digit in *. lia.
  - match goal with D : Forall digit (45 :: _) |- _ => inversion D; subst end. unfold digit in *. lia.
Qed.

(** ** to_string *)
Lemma decimal_app a b : decimal (a ++ b) = decimal a * 10 ^ N.of_nat (length b) + decimal b.
Proof.
  induction a as [|c r IH]; cbn [app decimal]; [lia|].
  rewrite IH, app_length, Nnat.Nat2N.inj_add, N.pow_add_r. lia.
Qed.
Lemma size_div10 n : 10 <= n -> (N.size_nat (n / 10) < N.size_nat n)%nat.
Proof.
  intros H. assert (L : N.size (n / 10) < N.size n).
  { rewrite !N.size_log2 by (try lia; pose proof (N.div_str_pos n 10); lia).
    assert (N.log2 (n / 10) < N.log2 n); [|lia].
    apply N.lt_le_trans with (N.succ (N.log2 (n / 10))); [lia|].
    rewrite <- N.log2_double by (apply N.div_str_pos; lia).
    apply N.log2_le_mono. lia. }
  assert (S : forall x, N.size x = N.of_nat (N.size_nat x)).
  { intros [|p]; auto. cbn. induction p; cbn [Pos.size Pos.size_nat]; auto; lia. }
  rewrite !S in L. lia.
Qed.
Lemma dec_digits_spec f : forall n, (N.size_nat n < f)%nat ->
  Forall digit (dec_digits f n) /\ decimal (dec_digits f n) = n /\ gint (dec_digits f n).
Proof.
  induction f as [|f IH]; intros n H; [lia|]. cbn [dec_digits].
  destruct (n <? 10) eqn:E.
  - splits.
    + constructor; [unfold digit; lia|constructor].
    + cbn [decimal length N.of_nat]. change (10 ^ 0) with 1. lia.
    + destruct (N.eq_dec n 0) as [->|]; [constructor|]. apply gint_pos; [lia|constructor].
  - pose proof (size_div10 n ltac:(lia)).
    destruct (IH (n / 10)) as (Hd & Hv & Hg); [lia|].
    assert (Hdig : digit (48 + n mod 10)) by (unfold digit; lia).
    splits.
    + apply Forall_app. split; auto.
    + rewrite decimal_app, Hv. cbn [decimal length]. change (10 ^ N.of_nat 1) with 10. change (10 ^ N.of_nat 0) with 1. lia.
    + inversion Hg as [E0|c ds Hc Hds E0].
      * rewrite <- E0 in Hv. cbn in Hv. lia.
      * cbn [app]. apply gint_pos; auto. apply Forall_app. split; auto.
Qed.
Lemma to_string_N_spec n :
  Forall digit (to_string_N n) /\ decimal (to_string_N n) = n /\ gint (to_string_N n).
Proof. apply dec_digits_spec. lia. Qed.
Lemma to_string_Z_gnumber z : gnumber (to_string_Z z).
Proof.
  unfold to_string_Z. destruct (z <? 0)%Z.
  - pose proof (to_string_N_spec (Z.to_N (- z))) as (_ & _ & G).
    rewrite <- (app_nil_r (to_string_N _)).
    apply (gnumber_intro [45] _ [] []); auto; constructor.
  - pose proof (to_string_N_spec (Z.to_N z)) as (_ & _ & G).
    rewrite <- (app_nil_r (to_string_N _)).
    apply (gnumber_intro [] _ [] []); auto; constructor.
Qed.
Lemma gint_ne s : gint s -> s <> [].
Proof. destruct 1; discriminate. Qed.
Lemma to_string_Z_spells sg w z : fits sg w z -> spells sg (to_string_Z z) z.
Proof.
  intros H. unfold to_string_Z. destruct (z <? 0)%Z eqn:E.
  - pose proof (to_string_N_spec (Z.to_N (- z))) as (D & V & G).
    replace z with (- Z.of_N (decimal (to_string_N (Z.to_N (- z)))))%Z at 2 by (rewrite V; lia).
    constructor; auto; [destruct sg; auto; unfold fits in H; lia|now apply gint_ne].
  - pose proof (to_string_N_spec (Z.to_N z)) as (D & V & G).
    replace z with (Z.of_N (decimal (to_string_N (Z.to_N z)))) at 2 by (rewrite V; lia).
    constructor; auto. now apply gint_ne.
Qed.
Lemma int_round_trip sg w z : fits sg w z -> as_int sg w (v_int z) = Ok z.
Proof.
  intros H. apply as_int_spec. split; auto. eapply to_string_Z_spells; eauto.
Qed.
Lemma v_int_wf z : wf (v_int z).
Proof. constructor. apply to_string_Z_gnumber. Qed.
Lemma try_parse_to_string sg w z : fits sg w z -> try_parse_integer sg w (to_string_Z z) = Some z.
Proof. intros H. apply try_parse_spec. split; auto. eapply to_string_Z_spells; eauto. Qed.
