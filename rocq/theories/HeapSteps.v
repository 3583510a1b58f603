(** * The elementary operations on the heap and the trees they act on. *)
From Verif Require Import Base Value Containers Dump Api SpecApi BaseProofs ContainerProofs ApiProofs Heap SpecHeap HeapBase.
From Coq Require Import Permutation.

Lemma resolve_ext R ex h fl fl' l : (slot l < length R)%nat -> resolve (HS (R ++ ex) h fl) l = resolve (HS R h fl') l.
Proof. intros H. unfold resolve. cbn. now rewrite nth_error_app1. Qed.
Lemma resolve_fails R h fl fl' l : resolve (HS R h fl) l = resolve (HS R h fl') l.
Proof. reflexivity. Qed.
Lemma read_slot st l v : read st l = Some v -> (slot l < length st)%nat.
Proof. unfold read. destruct (nth_error st (slot l)) eqn:E; [|discriminate]. intros _. apply nth_error_Some. congruence. Qed.
Lemma read_app st ex l : (slot l < length st)%nat -> read (st ++ ex) l = read st l.
Proof. intros H. unfold read. now rewrite nth_error_app1. Qed.
Lemma write_app st ex l v : (slot l < length st)%nat -> write (st ++ ex) l v = write st l v ++ ex.
Proof. intros H. unfold write. now rewrite upd_nth_app_l. Qed.
Lemma write_length st l v : length (write st l v) = length st.
Proof. apply upd_nth_length. Qed.

(** [pl] holds [y] *)
Definition content (pl : place) (R : list hval) (h : heap) (y : hval) : Prop :=
  (exists i, pl = Root i /\ nth_error R i = Some y) \/
  (exists a s n, pl = kid a s /\ nth_error h a = Some (Some n) /\ kid_of s n = Some y).
(** [h2], [R2]: after storing [y] at [pl], as far as the addresses [F] go *)
Definition stored (pl : place) (y : hval) (F : list addr) (R : list hval) (h : heap) (R2 : list hval) (h2 : heap) : Prop :=
  (exists i, pl = Root i /\ R2 = upd_nth (fun _ => y) i R /\ agree h h2 F) \/
  (exists a s n, pl = kid a s /\ nth_error h a = Some (Some n) /\ R2 = R /\ nth_error h2 a = Some (Some (set_kid s y n)) /\
     agree h h2 (remove Nat.eq_dec a F)).

Lemma kid_inj a s a' s' : kid a s = kid a' s' -> a = a' /\ s = s'.
Proof. destruct s, s'; cbn; intros [= -> ->]; auto. Qed.
Lemma kid_root a s i : kid a s <> Root i.
Proof. destruct s; discriminate. Qed.

Lemma focus h R st fp l w fl : holds_all h R st fp -> NoDup fp -> read st l = Some w ->
  exists pl y F1 fy F2, resolve (HS R h fl) l = Some (pl, y) /\ fp = F1 ++ fy ++ F2 /\ holds h y w fy /\ content pl R h y /\
  (forall a s, pl = kid a s -> In a F1) /\
  forall R2 h2 y' w' fy' fl2, stored pl y' (F1 ++ F2) R h R2 h2 -> holds h2 y' w' fy' ->
    holds_all h2 R2 (write st l w') (F1 ++ fy' ++ F2) /\ resolve (HS R2 h2 fl2) l = Some (pl, y') /\
    forall l' r, within l l' = false -> resolve (HS R h fl) l' = Some r -> resolve (HS R2 h2 fl2) l' = Some r.
Proof.
  intros H D E. unfold read in E. destruct (nth_error st (slot l)) as [v|] eqn:Ev; [|discriminate].
  destruct (holds_nth _ _ _ _ _ _ H Ev) as (x & f1 & fx & f2 & Ex & -> & Hx & Hu & Ho).
  apply nodup_app in D as (D1 & D2 & D3). apply nodup_app in D2 as (D2 & D4 & D5).
  destruct (focus_steps (steps l) h x v fx (Root (slot l)) w Hx D2 E) as (pl & y & F1 & fy & F2 & W & -> & Hy & C).
  exists pl, y, (f1 ++ F1), fy, (F2 ++ f2). unfold resolve. cbn [roots hp]. rewrite Ex. splits; auto.
  - now rewrite <- !app_assoc.
  - destruct C as [(E0 & -> & -> & _ & _)|(a & s & n & _ & -> & _ & Hn & Hk & _)]; [left; eauto|right; eauto 6].
  - intros a s ->. destruct C as [(E0 & C & _)|(a' & s' & n & _ & C & Hin & _)].
    + destruct (kid_root _ _ _ C).
    + apply kid_inj in C as [<- <-]. apply in_or_app. now right.
  - intros R2 h2 y' w' fy' fl2 S Hy'. destruct C as [(E0 & -> & -> & -> & ->)|(a & s & n & Hp & -> & Hin & Hn & Hk & U)].
    + destruct S as [(i & Ei & -> & G)|(a & s & n & Es & _)]; [|symmetry in Es; destruct (kid_root _ _ _ Es)].
      injection Ei as <-. cbn in *. rewrite app_nil_r in *.
      rewrite (nth_upd_same (fun _ => y') R), Ex. cbn. unfold write. rewrite E0 in *. cbn. splits; [apply (Hu h2 y' w' fy'); auto|].
      { intros l' r Hw. unfold within in Hw. rewrite E0 in Hw. cbn in Hw. rewrite andb_true_r in Hw. apply Nat.eqb_neq in Hw.
        rewrite nth_upd_other by auto. destruct (nth_error R (slot l')) as [z|] eqn:Ez; auto.
        destruct (Ho (slot l') z) as (u & fz & Hz & I); auto. intros Hr. rewrite <- Hr. eapply walk_frame; [exact Hz|].
        eapply agree_incl; [exact G|exact I]. }
    + destruct S as [(i & Ei & _)|(a' & s' & n' & Es & Hn' & -> & Ha2 & G)]; [destruct (kid_root _ _ _ Ei)|].
      apply kid_inj in Es as [<- <-]. rewrite Hn in Hn'. injection Hn' as <-.
      assert (Nf : ~ In a (f1 ++ f2)).
      { rewrite in_app_iff. intros [Hb|Hb]; [eapply D3; [exact Hb|]|eapply D5; [|exact Hb]]; rewrite !in_app_iff; tauto. }
      assert (G12 : agree h h2 (f1 ++ f2)).
      { intros b Hb. apply G. apply in_in_remove; [intros ->; tauto|]. rewrite !in_app_iff in *. tauto. }
      assert (GF : agree h h2 (remove Nat.eq_dec a (F1 ++ F2))).
      { intros b Hb. apply in_remove in Hb as [Hb Hn']. apply G. apply in_in_remove; auto. rewrite !in_app_iff in *. tauto. }
      destruct (U h2 y' w' fy' GF Ha2 Hy') as (U1 & U2 & U3). splits.
      * pose proof (Hu h2 x _ _ G12 U1) as X. rewrite (upd_nth_same x R (slot l) Ex) in X.
        unfold write. rewrite (upd_nth_const _ _ _ _ Ev). rewrite <- !app_assoc in *. exact X.
      * now rewrite Ex.
      * intros l' r Hw. destruct (nth_error R (slot l')) as [z|] eqn:Ez; auto. intros Hr.
        unfold within in Hw. destruct (Nat.eqb_spec (slot l) (slot l')) as [Es|Es]; cbn in Hw.
        -- rewrite <- Es in *. rewrite Ex in Ez. injection Ez as <-. now apply U3.
        -- destruct (Ho (slot l') z) as (u & fz & Hz & I); auto. rewrite <- Hr. eapply walk_frame; [exact Hz|exact (agree_incl _ _ _ _ G12 I)].
Qed.
Lemma resolve_read h R st fp l r fl : holds_all h R st fp -> resolve (HS R h fl) l = Some r -> exists w, read st l = Some w.
Proof.
  unfold resolve, read. cbn. intros H E. destruct (nth_error R (slot l)) as [x|] eqn:Ex; [|discriminate].
  destruct (nth_error st (slot l)) as [v|] eqn:Ev.
  2:{ apply nth_error_None in Ev. rewrite <- (holds_all_length _ _ _ _ H) in Ev. apply nth_error_None in Ev. congruence. }
  destruct (holds_nth _ _ _ _ _ _ H Ev) as (x' & f1 & fx & f2 & Ex' & _ & Hx & _). rewrite Ex in Ex'. injection Ex' as <-. clear - Hx E.
  revert E Hx. generalize (Root (slot l)). generalize (steps l). intros p. revert x v fx. induction p as [|s p IH]; intros x v fx pl E Hx; [cbn; eauto|].
  rewrite get_at_cons. cbn [walk snd] in E. destruct (get_at [s] v) as [w|] eqn:Ew.
  - destruct (step_view _ _ _ _ _ _ Hx Ew) as (a & n & y & g1 & fy & g2 & Ha & Hn & Hl & Hk & _ & Hy & _).
    rewrite (child_spec h s x a n), Hk in E; auto. eapply IH; eauto.
  - rewrite (child_get _ _ _ _ _ Hx Ew) in E. discriminate.
Qed.

(** ** get_pl, put_pl *)
Lemma get_pl_ok pl hs y : content pl (roots hs) (hp hs) y -> get_pl pl hs = HDone hs (Ok y).
Proof.
  intros [(i & -> & E)|(a & s & n & -> & Hn & Hk)]; cbn; [now rewrite E|].
  destruct s as [k|i], n as [l|m]; cbn in Hk; try discriminate; cbn; unfold obj_node, arr_node, node_at, hbind; rewrite Hn; cbn; now rewrite Hk.
Qed.
Lemma put_pl_ok pl hs y x : content pl (roots hs) (hp hs) y -> exists R2 h2, put_pl pl x hs = HDone (HS R2 h2 (fails hs)) (Ok tt) /\
  ((exists i, pl = Root i /\ R2 = upd_nth (fun _ => x) i (roots hs) /\ h2 = hp hs) \/
   (exists a s n, pl = kid a s /\ nth_error (hp hs) a = Some (Some n) /\ R2 = roots hs /\ h2 = upd_nth (fun _ => Some (set_kid s x n)) a (hp hs))).
Proof.
  intros C. unfold put_pl. unfold hbind at 1. rewrite (get_pl_ok _ _ _ C).
  destruct C as [(i & -> & E)|(a & s & n & -> & Hn & Hk)].
  - eexists _, _. split; [reflexivity|]. left. eauto.
  - eexists _, _. split; [|right; exists a, s, n; splits; auto].
    destruct s as [k|i], n as [l|m]; cbn in Hk; try discriminate; cbn; unfold obj_node, arr_node, node_at, set_node, hbind; rewrite Hn; cbn; now rewrite Hn.
Qed.

(** ** The relation of Properties_Heap.v with an explicit footprint *)
Definition simf (hs : hstate) (st : store) (fp : list addr) : Prop :=
  holds_all (hp hs) (roots hs) st fp /\ NoDup fp /\ forall a, live (hp hs) a -> In a fp.
Lemma sim_simf hs st : sim hs st <-> exists fp, simf hs st fp.
Proof. reflexivity. Qed.
Lemma sim_length hs st : sim hs st -> length (roots hs) = length st.
Proof. intros (fp & H & _). eapply holds_all_length; eauto. Qed.
Definition vref (hs : hstate) (l : loc) (pl : place) : Prop := exists y, resolve hs l = Some (pl, y).
(** the references that survive from [hs] to [hs']: [P]: locations whose inside was replaced, [W]: replaced locations *)
Definition keeps (n : nat) (P W : list loc) (hs hs' : hstate) : Prop :=
  (forall l pl, (slot l < n)%nat -> Forall (fun w => ~ strictly_inside w l) P -> vref hs l pl -> vref hs' l pl) /\
  (forall l r, (slot l < n)%nat -> Forall (fun w => within w l = false) W -> resolve hs l = Some r -> resolve hs' l = Some r).
Definition quiet (hs hs' : hstate) : Prop := fails hs = [] -> fails hs' = [].
Lemma keeps_refl n P W hs : keeps n P W hs hs.
Proof. split; auto. Qed.
Lemma keeps_trans n P W P' W' hs hs1 hs2 : keeps n P W hs hs1 -> keeps n P' W' hs1 hs2 -> keeps n (P ++ P') (W ++ W') hs hs2.
Proof.
  intros [A1 A2] [B1 B2]. split.
  - intros l pl L F V. apply Forall_app in F as [F1 F2]. auto.
  - intros l r L F V. apply Forall_app in F as [F1 F2]. auto.
Qed.
Lemma keeps_mono n n' P W P' W' hs hs' : keeps n P W hs hs' -> (n' <= n)%nat -> incl P P' -> incl W W' -> keeps n' P' W' hs hs'.
Proof.
  intros [A1 A2] L I J. split; intros l r Hl F; [apply A1|apply A2]; try lia;
    rewrite Forall_forall in *; intros w Hw; apply F; auto.
Qed.
Lemma keeps_all n P W hs hs' : (forall l, (slot l < n)%nat -> resolve hs' l = resolve hs l) -> keeps n P W hs hs'.
Proof. intros H. split; [intros l pl L _ (y & E); exists y; now rewrite H|intros l r L _ E; now rewrite H]. Qed.

Lemma live_upd h a n b : live h a -> live (upd_nth (fun _ => Some n) a h) b <-> live h b.
Proof.
  intros (m & E). unfold live. destruct (Nat.eq_dec a b) as [->|Hab].
  - rewrite nth_upd_same, E. cbn. split; intros _; eauto.
  - now rewrite nth_upd_other.
Qed.

(** what writing at a location does, possibly with more temporaries and another heap around *)
Lemma store_at h R st fp l w fl : holds_all h R st fp -> NoDup fp -> read st l = Some w ->
  exists pl y F1 fy F2, resolve (HS R h fl) l = Some (pl, y) /\ fp = F1 ++ fy ++ F2 /\ holds h y w fy /\
  (forall ex h1 fl1, agree h h1 (F1 ++ F2) -> get_pl pl (HS (R ++ ex) h1 fl1) = HDone (HS (R ++ ex) h1 fl1) (Ok y)) /\
  forall ex h1 fl1 x v fx, agree h h1 (F1 ++ F2) -> holds h1 x v fx -> (forall a, In a F1 -> In a fx -> False) ->
    exists R2 h2, put_pl pl x (HS (R ++ ex) h1 fl1) = HDone (HS (R2 ++ ex) h2 fl1) (Ok tt) /\
      holds_all h2 R2 (write st l v) (F1 ++ fx ++ F2) /\ holds h2 x v fx /\
      (forall a, ~ In a F1 -> nth_error h2 a = nth_error h1 a) /\ (forall a, live h2 a <-> live h1 a) /\
      (forall ex2 fl2, resolve (HS (R2 ++ ex2) h2 fl2) l = Some (pl, x) /\
         forall ex0 l' r, (slot l' < length st)%nat -> within l l' = false -> resolve (HS (R ++ ex0) h fl) l' = Some r -> resolve (HS (R2 ++ ex2) h2 fl2) l' = Some r).
Proof.
  intros H D E. destruct (focus h R st fp l w fl H D E) as (pl & y & F1 & fy & F2 & Er & -> & Hy & C & Hin & U).
  exists pl, y, F1, fy, F2. splits; auto.
  - intros ex h1 fl1 G. apply get_pl_ok. cbn. destruct C as [(i & -> & Ei)|(a & s & n & -> & Hn & Hk)].
    + left. exists i. split; auto. rewrite nth_error_app1; auto. apply nth_error_Some. congruence.
    + right. exists a, s, n. splits; auto. rewrite G; auto. apply in_or_app. left. eauto.
  - intros ex h1 fl1 x v fx G Hx Hd.
    assert (C1 : content pl (roots (HS (R ++ ex) h1 fl1)) (hp (HS (R ++ ex) h1 fl1)) y).
    { cbn. destruct C as [(i & -> & Ei)|(a & s & n & -> & Hn & Hk)].
      + left. exists i. split; auto. rewrite nth_error_app1; auto. apply nth_error_Some. congruence.
      + right. exists a, s, n. splits; auto. rewrite G; auto. apply in_or_app. left. eauto. }
    destruct (put_pl_ok _ _ _ x C1) as (R2' & h2 & Ep & S). cbn [roots hp fails] in *.
    assert (K : exists R2, R2' = R2 ++ ex /\ stored pl x (F1 ++ F2) R h R2 h2 /\ (forall a, ~ In a F1 -> nth_error h2 a = nth_error h1 a) /\
                (forall a, live h2 a <-> live h1 a) /\ holds h2 x v fx).
    { destruct S as [(i & -> & -> & ->)|(a & s & n & -> & Hn & -> & ->)].
      - destruct C as [(i' & [= <-] & Ei)|(a & s & n & Es & _)]; [|symmetry in Es; destruct (kid_root _ _ _ Es)].
        assert (Li : (i < length R)%nat) by (apply nth_error_Some; congruence).
        exists (upd_nth (fun _ => x) i R). splits; auto; try tauto; [now apply upd_nth_app_l|]. left. eauto.
      - assert (Ha : In a F1) by eauto. exists R. assert (Hla : live h1 a) by (eexists; eauto).
        splits; auto.
        + right. exists a, s, n. splits; auto.
          * rewrite <- G; [exact Hn|apply in_or_app; now left].
          * now rewrite nth_upd_same, Hn.
          * intros b Hb. apply in_remove in Hb as [Hb Hne]. rewrite nth_upd_other by auto. apply G, Hb.
        + intros b Hb. apply nth_upd_other. intros ->. tauto.
        + intros b. now apply live_upd.
        + eapply holds_frame; eauto. intros b Hb. apply nth_upd_other. intros ->. eauto. }
    destruct K as (R2 & -> & S' & K2 & K3 & K4).
    destruct (U R2 h2 x v fx [] S' K4) as (U1 & _ & _).
    exists R2, h2. splits; auto.
    intros ex2 fl2. pose proof (holds_all_length _ _ _ _ U1) as L1. rewrite write_length in L1. pose proof (holds_all_length _ _ _ _ H) as L.
    destruct (U R2 h2 x v fx fl2 S' K4) as (_ & U2 & U3). split.
    + rewrite (resolve_ext R2 ex2 h2 fl2 fl2); auto. apply read_slot in E. lia.
    + intros ex0 l' r Hl Hw Hr. rewrite (resolve_ext R2 ex2 h2 fl2 fl2) by lia. apply U3; auto. rewrite <- Hr. symmetry. apply resolve_ext. lia.
Qed.
