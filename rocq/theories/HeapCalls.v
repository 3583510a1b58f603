(** * Assignment, as_array, as_object on the heap: the same outcome as on trees. *)
From Verif Require Import Base Value Containers Dump Api SpecApi BaseProofs ContainerProofs ApiProofs StoreProofs Heap SpecHeap HeapBase HeapSteps HeapOps HeapMoves HeapNodes.
From Coq Require Import Permutation.

Lemma retag_upto hs st v t : sim hs (st ++ [v]) -> exists hs', retag_top t hs = HDone hs' (Ok tt) /\ upto (length st) [] [] hs hs' (st ++ [set_tag t v]).
Proof.
  intros (f & S). destruct (simf_split _ _ _ _ S) as (R & xs & f1 & f2 & E & -> & A & B & D & L).
  pose proof (holds_all_length _ _ _ _ B) as Lb. destruct xs as [|x []]; try discriminate. apply holds_all_one in B.
  destruct hs as [R' h fl]. cbn in *. subst R'. eexists. split; [unfold retag_top, hbind; rewrite pop_ok; reflexivity|].
  split; [|split; [|intros Hq; exact Hq]].
  - exists (f1 ++ f2). split; cbn; auto. apply holds_all_app; auto. apply holds_all_one. now apply holds_tag.
  - apply keeps_all. intros l Hl. cbn. pose proof (holds_all_length _ _ _ _ A). rewrite !(resolve_ext R _ h fl fl) by lia. reflexivity.
Qed.
Lemma upto_sim n P W hs hs' st : upto n P W hs hs' st -> sim hs' st.
Proof. now intros []. Qed.
Lemma upto_vref n P W hs hs' st l pl : upto n P W hs hs' st -> (slot l < n)%nat -> Forall (fun w => ~ strictly_inside w l) P -> vref hs l pl -> vref hs' l pl.
Proof. intros (_ & [K _] & _). apply K. Qed.
Lemma upto_res n P W hs hs' st l r : upto n P W hs hs' st -> (slot l < n)%nat -> Forall (fun w => within w l = false) W -> resolve hs l = Some r -> resolve hs' l = Some r.
Proof. intros (_ & [_ K] & _). apply K. Qed.
Lemma not_inside_self l : ~ strictly_inside l l.
Proof. intros H. apply strictly_inside_spec in H as [_ H]. auto. Qed.
Lemma upto_vref_self n P W hs hs' st l pl : upto n P W hs hs' st -> (slot l < n)%nat -> incl P [l] -> vref hs l pl -> vref hs' l pl.
Proof. intros U L I V. eapply upto_vref; eauto. apply Forall_forall. intros w Hw. apply I in Hw as [<-|[]]. apply not_inside_self. Qed.
Ltac incls := repeat first [apply incl_refl | apply incl_nil_l | apply incl_app | apply incl_cons; [cbn; tauto|] | (intros ?x ?Hx; cbn in *; tauto)].
Lemma oom_quiet hs hs' e : quiet hs hs' -> oom hs' e -> oom hs e.
Proof. intros Q [-> O]. split; auto. Qed.

(** *dst = temporary; *)
Lemma assign_tmp_ok hs st v l w pl : sim hs (st ++ [v]) -> read st l = Some w -> vref hs l pl ->
  exists hs', (swap_in pl ;; drop) hs = HDone hs' (Ok tt) /\ upto (length st) [l] [l] hs hs' (write st l v).
Proof.
  intros S E V. destruct (swap_upto hs st v l w pl S E V) as (hs1 & E1 & U1).
  destruct (drop_upto hs1 (write st l v) w (upto_sim _ _ _ _ _ _ U1)) as (hs2 & E2 & U2). rewrite write_length in U2.
  exists hs2. split; [unfold hbind; now rewrite E1|]. exact (upto_trans _ _ _ _ _ _ _ _ _ _ U1 U2).
Qed.

Lemma copy_elems_two l : Forall (fun v => copy v = Ok v \/ copy v = Ub) l -> copy_elems copy l = Ok l \/ copy_elems copy l = Ub.
Proof. induction 1 as [|x l [Hx|Hx] _ [IH|IH]]; cbn; rewrite ?Hx; cbn; rewrite ?IH; auto. Qed.
Lemma copy_two v : copy v = Ok v \/ copy v = Ub.
Proof.
  induction v as [t s|t|t l IH|t|t m IH] using value_ind'; cbn; auto.
  - destruct (copy_elems_two l IH) as [-> | ->]; auto.
  - assert (H : copy_members copy m = Ok m \/ copy_members copy m = Ub); [|destruct H as [-> | ->]; auto].
    induction IH as [|(k, x) l Hx _ IHl]; cbn; auto. cbn in Hx. destruct Hx as [-> | ->]; cbn; auto. destruct IHl as [-> | ->]; auto.
Qed.
Lemma copy_fine v r : copy v = r -> r <> Ub -> r = Ok v /\ owned v.
Proof. intros <- H. destruct (copy_two v) as [E|E]; [|congruence]. split; auto. eapply copy_owned_inv; eauto. Qed.
Lemma copy_elems_fine l r : copy_elems copy l = r -> r <> Ub -> r = Ok l /\ Forall owned l.
Proof.
  intros <- H. destruct (copy_elems_two l) as [E|E]; [apply Forall_forall; intros; apply copy_two| |congruence]. split; auto. eapply copy_elems_owned_inv; eauto.
Qed.
Lemma copy_members_fine (m : object) r : copy_members copy m = r -> r <> Ub -> r = Ok m /\ Forall (fun kv => owned (snd kv)) m.
Proof.
  intros <- H. destruct (copy_two (v_object m)) as [E|E]; cbn in E; destruct (copy_members copy m) as [m'|e| | |] eqn:Em; try discriminate; try congruence.
  injection E as ->. split; auto. eapply copy_members_owned_inv; eauto.
Qed.

(** ** What an operation does when it returns, and when an allocation fails *)
Definition good (S : list nat) (P W : list loc) (hs : hstate) (st : store) (hs' : hstate) (st' : store) : Prop :=
  upto (length st) P W hs hs' st' /\ frame S st st'.
Definition failed (S : list nat) (hs : hstate) (st ex : store) (e : exn) (hs' : hstate) : Prop :=
  oom hs e /\ exists st', sim hs' (st' ++ ex) /\ frame S st st'.
Lemma failed_now S hs st e hs' : oom hs e -> sim hs' st -> failed S hs st [] e hs'.
Proof. intros O H. split; auto. exists st. rewrite app_nil_r. split; auto. apply frame_refl. Qed.
Lemma failed_at S hs st st' e hs' : oom hs e -> sim hs' st' -> frame S st st' -> failed S hs st [] e hs'.
Proof. intros O H F. split; auto. exists st'. rewrite app_nil_r. auto. Qed.
Ltac frames := repeat first [apply frame_refl | (apply frame_write; cbn; tauto) | (eapply frame_trans; [|apply frame_write; cbn; tauto])].

(** operator=(const value&) *)
Lemma copy_assign_at hs st d s pd ps st' r dv w : sim hs st -> vref hs d pd -> vref hs s ps -> read st d = Some dv -> read st s = Some w -> copy_assign d s st = Done st' r -> r <> Ub ->
  wp (h_copy_assign pd ps) hs (fun _ hs' => r = Ok tt /\ good [slot d] [d] [d] hs st hs' st') (fun e hs' => oom hs e /\ sim hs' (write st d (set_tag (type_of w) dv))).
Proof.
  intros S Vd Vs Rd Rs E Hr. unfold copy_assign, copy_from, rd, wr, mfail, mbind in E. rewrite Rd, Rs in E.
  set (st1 := write st d (set_tag (type_of w) dv)) in *.
  destruct (read st1 s) as [w1|] eqn:Rs1; [|discriminate].
  assert (Hc : copy w1 <> Ub) by (intros Ec; rewrite Ec in E; congruence).
  destruct (copy_fine w1 _ eq_refl Hc) as [Ec Ow]. rewrite Ec in E. injection E as <- <-. clear Hc Hr.
  destruct (sim_resolve _ _ _ _ S Rd) as (pd' & x & fx & Ed & Vd' & Hx & Gx & _). pose proof (vref_det _ _ _ _ Vd' Vd). subst pd. clear Vd'.
  destruct (sim_resolve _ _ _ _ S Rs) as (ps' & y & fy & Es & Vs' & Hy & Gy & _). pose proof (vref_det _ _ _ _ Vs' Vs). subst ps. clear Vs'.
  pose proof (read_slot _ _ _ Rd) as Ld. pose proof (read_slot _ _ _ Rs) as Ls.
  unfold h_copy_assign. eapply wp_step; [exact Gy|]. eapply wp_step; [exact Gx|]. rewrite (holds_tag_of _ _ _ _ Hy).
  destruct (tag_upto hs st d dv pd' x (type_of w) S Rd Ed) as (hs1 & E1 & U1 & _). eapply wp_step; [exact E1|]. fold st1 in U1.
  apply wp_bind. eapply wp_mono; [exact (copy_upto hs1 st1 s w1 ps' (upto_sim _ _ _ _ _ _ U1) Rs1 (upto_vref_self _ _ _ _ _ _ _ _ U1 Ls (incl_nil_l _) Vs) Ow)|..]; cbv beta.
  2:{ intros e hs2 [O S2]. split; auto. eapply oom_quiet; [apply U1|auto]. }
  intros ? hs2 U2. destruct (retag_upto hs2 st1 w1 (type_of w) (upto_sim _ _ _ _ _ _ U2)) as (hs3 & E3 & U3). eapply wp_step; [exact E3|].
  assert (L1 : length st1 = length st) by (unfold st1; apply write_length). rewrite L1 in *.
  pose proof (upto_trans _ _ _ _ _ _ _ _ _ _ U1 (upto_trans _ _ _ _ _ _ _ _ _ _ U2 U3)) as U. cbn [app] in U.
  assert (Rd1 : read st1 d = Some (set_tag (type_of w) dv)) by (unfold st1; now rewrite read_write_same, Rd).
  destruct (assign_tmp_ok hs3 st1 _ d _ pd' (upto_sim _ _ _ _ _ _ U) Rd1) as (hs4 & E4 & U4); [eapply upto_vref_self; [exact U|auto|incls|auto]|].
  eapply wp_run; [exact E4|]. split; auto. split; [|unfold st1; frames].
  rewrite L1 in U4. eapply upto_mono; [exact (upto_trans _ _ _ _ _ _ _ _ _ _ U U4)|lia|incls..].
Qed.
Lemma copy_assign_ok hs st d s pd ps st' r : sim hs st -> vref hs d pd -> vref hs s ps -> copy_assign d s st = Done st' r -> r <> Ub ->
  wp (h_copy_assign pd ps) hs (fun _ hs' => r = Ok tt /\ good [slot d] [d] [d] hs st hs' st') (failed [slot d] hs st []).
Proof.
  intros S Vd Vs E Hr. assert (R : exists dv w, read st d = Some dv /\ read st s = Some w).
  { unfold copy_assign, rd, mbind in E. destruct (read st d); [|discriminate]. destruct (read st s); [|discriminate]. eauto. }
  destruct R as (dv & w & Rd & Rs). eapply wp_mono; [exact (copy_assign_at hs st d s pd ps st' r dv w S Vd Vs Rd Rs E Hr)|..]; cbv beta; [intros ? hs' H; exact H|].
  intros e hs' [O S']. eapply failed_at; [exact O|exact S'|frames].
Qed.
Lemma alt_holds h x v fx y w fy : holds h x v fx -> holds h y w fy -> h_same_alternative x y = same_alternative v w.
Proof. intros H G. inversion H; inversion G; reflexivity. Qed.
Lemma not_inside a b : within a b = false -> ~ strictly_inside a b.
Proof. intros H G. apply strictly_inside_spec in G as [G _]. congruence. Qed.
Lemma upto_chain n P W P' W' Q R hs hs1 hs2 st1 st2 : upto n P W hs hs1 st1 -> upto n P' W' hs1 hs2 st2 -> incl P Q -> incl P' Q -> incl W R -> incl W' R -> upto n Q R hs hs2 st2.
Proof. intros U V A B C D. eapply upto_mono; [exact (upto_trans _ _ _ _ _ _ _ _ _ _ U V)|lia|now apply incl_app..]. Qed.
(** take [s], put it at [d], destroy what was there *)
Lemma take_swap_ok hs st d s w x pd ps : sim hs st -> read st s = Some w -> read (write st s (moved w)) d = Some x -> vref hs d pd -> vref hs s ps -> ~ strictly_inside s d ->
  exists hs', (take_pl ps ;; swap_in pd ;; drop) hs = HDone hs' (Ok tt) /\ upto (length st) [d; s] [d; s] hs hs' (write (write st s (moved w)) d w).
Proof.
  intros S Es Ed Vd Vs Hn. destruct (take_upto hs st s w ps S Es Vs) as (hs1 & E1 & U1).
  assert (Ld : (slot d < length st)%nat) by (apply read_slot in Ed; now rewrite write_length in Ed).
  assert (Vd1 : vref hs1 d pd) by (eapply upto_vref; [exact U1|auto|auto|auto]).
  destruct (assign_tmp_ok hs1 (write st s (moved w)) w d x pd (upto_sim _ _ _ _ _ _ U1) Ed Vd1) as (hs2 & E2 & U2). rewrite write_length in U2.
  exists hs2. split; [unfold hbind at 1; now rewrite E1|]. eapply upto_chain; [exact U1|exact U2|incls..].
Qed.
(** operator=(value&&) *)
Lemma move_assign_ok hs st d s pd ps st' r : sim hs st -> vref hs d pd -> vref hs s ps -> ~ strictly_inside s d -> move_assign d s st = Done st' r -> r <> Ub ->
  wp (h_move_assign pd ps) hs (fun _ hs' => r = Ok tt /\ good [slot d; slot s] [d; s] [d; s] hs st hs' st') (fun _ _ => False).
Proof.
  intros S Vd Vs Hn E Hr. unfold move_assign, rd, wr, mfail, mbind in E.
  destruct (read st d) as [dv|] eqn:Rd; [|discriminate]. destruct (read st s) as [w|] eqn:Rs; [|discriminate].
  destruct (sim_resolve _ _ _ _ S Rd) as (pd' & x & fx & Ed & Vd' & Hx & Gx & _). pose proof (vref_det _ _ _ _ Vd' Vd). subst pd. clear Vd'.
  destruct (sim_resolve _ _ _ _ S Rs) as (ps' & y & fy & Es & Vs' & Hy & Gy & _). pose proof (vref_det _ _ _ _ Vs' Vs). subst ps. clear Vs'.
  pose proof (read_slot _ _ _ Rd) as Ld. pose proof (read_slot _ _ _ Rs) as Ls.
  unfold h_move_assign. eapply wp_step; [exact Gy|]. eapply wp_step; [exact Gx|]. rewrite (alt_holds _ _ _ _ _ _ _ Hx Hy).
  destruct (tag_upto hs st d dv pd' x (h_tag y) S Rd Ed) as (hs1 & E1 & U1 & Ed1). eapply wp_step; [exact E1|].
  rewrite (holds_tag_of _ _ _ _ Hy) in U1. set (st1 := write st d (set_tag (type_of w) dv)) in *.
  assert (L1 : length st1 = length st) by (unfold st1; apply write_length).
  assert (Vs1 : vref hs1 s ps') by (exact (upto_vref_self _ _ _ _ _ _ _ _ U1 Ls (incl_nil_l _) Vs)).
  assert (Vd1 : vref hs1 d pd') by (exact (upto_vref_self _ _ _ _ _ _ _ _ U1 Ld (incl_nil_l _) Vd)).
  assert (Rd1 : read st1 d = Some (set_tag (type_of w) dv)) by (unfold st1; now rewrite read_write_same, Rd).
  destruct (same d s) eqn:Same.
  { (* onto itself *)
    apply same_spec in Same as <-. injection E as <- <-. rewrite Rd in Rs. injection Rs as <-. rewrite Ed in Es. injection Es as <- <-.
    assert (same_alternative dv dv = true) as -> by (destruct dv; reflexivity).
    assert (E1st : st1 = st) by (unfold st1; rewrite set_tag_same; now apply write_same). rewrite E1st in *. clear E1st st1.
    rewrite set_tag_same in Rd1. assert (Ht : h_set_tag (h_tag x) x = x) by (destruct x; reflexivity). rewrite Ht in Ed1.
    inversion Hx as [t txt Ex Ev Ef| | | |]; subst.
    - destruct (put_upto hs1 st d (VStr t txt) pd' (HStr t txt) (HStr t txt) (VStr t txt) (upto_sim _ _ _ _ _ _ U1) Rd Ed1) as (hs2 & E2 & U2 & Ed2 & _); [auto|].
      rewrite (write_same _ _ _ Rd) in U2. eapply wp_step; [exact E2|].
      destruct (put_upto hs2 st d (VStr t txt) pd' (HStr t txt) (HStr t []) (VStr t []) (upto_sim _ _ _ _ _ _ U2) Rd Ed2) as (hs3 & E3 & U3 & _).
      { intros h fy' Hf. inversion Hf; subst. constructor. }
      eapply wp_run; [exact E3|]. split; auto. split; [|frames].
      eapply upto_chain; [exact U1|eapply (upto_chain _ _ _ _ _ [d; d] [d; d]); [exact U2|exact U3|incls..]|incls..].
    - destruct (take_swap_ok hs1 st d d (VArr t None) _ pd' pd' (upto_sim _ _ _ _ _ _ U1) Rd (ltac:(rewrite read_write_same, Rd; reflexivity)) Vd1 Vd1 (not_inside_self d)) as (hs2 & E2 & U2).
      eapply wp_run; [exact E2|]. split; auto. split; [|frames]. rewrite write_write in U2. eapply upto_chain; [exact U1|exact U2|incls..].
    - destruct (take_swap_ok hs1 st d d (VObj t None) _ pd' pd' (upto_sim _ _ _ _ _ _ U1) Rd (ltac:(rewrite read_write_same, Rd; reflexivity)) Vd1 Vd1 (not_inside_self d)) as (hs2 & E2 & U2).
      eapply wp_run; [exact E2|]. split; auto. split; [|frames]. rewrite write_write in U2. eapply upto_chain; [exact U1|exact U2|incls..].
    - destruct (take_swap_ok hs1 st d d (VArr t (Some vs)) _ pd' pd' (upto_sim _ _ _ _ _ _ U1) Rd (ltac:(rewrite read_write_same, Rd; reflexivity)) Vd1 Vd1 (not_inside_self d)) as (hs2 & E2 & U2).
      eapply wp_run; [exact E2|]. split; auto. split; [|frames]. rewrite write_write in U2. eapply upto_chain; [exact U1|exact U2|incls..].
    - destruct (take_swap_ok hs1 st d d (VObj t (Some ms)) _ pd' pd' (upto_sim _ _ _ _ _ _ U1) Rd (ltac:(rewrite read_write_same, Rd; reflexivity)) Vd1 Vd1 (not_inside_self d)) as (hs2 & E2 & U2).
      eapply wp_run; [exact E2|]. split; auto. split; [|frames]. rewrite write_write in U2. eapply upto_chain; [exact U1|exact U2|incls..]. }
  assert (Nsd : within s d = false).
  { destruct (within s d) eqn:W; auto. exfalso. apply Hn, strictly_inside_spec. split; auto. intros ->. rewrite (proj2 (same_spec d d) eq_refl) in Same. discriminate. }
  rewrite Nsd in E.
  destruct (within d s) eqn:Wds.
  { (* from a part of the target *)
    destruct (same_alternative dv w) eqn:Alt; [|congruence]. injection E as <- <-.
    assert (SI : strictly_inside d s). { apply strictly_inside_spec. split; auto. intros ->. rewrite (proj2 (same_spec s s) eq_refl) in Same. discriminate. }
    assert (Rs1 : read st1 s = Some w) by (unfold st1; now rewrite (read_tag _ _ _ _ _ Rd SI)).
    destruct (read_write_above st1 d s (moved w) Wds) as (q & _ & Rd2). rewrite Rd1 in Rd2.
    destruct (take_swap_ok hs1 st1 d s w _ pd' ps' (upto_sim _ _ _ _ _ _ U1) Rs1 Rd2 Vd1 Vs1 Hn) as (hs2 & E2 & U2).
    rewrite write_above in U2 by auto. unfold st1 in U2 at 2. rewrite write_write, L1 in U2.
    destruct y as [t txt|t p|t p].
    - exfalso. inversion Hy; subst. destruct dv as [t' s'| |]; try discriminate. destruct SI as (Esl & a & q' & Eq).
      unfold read in Rs. rewrite Esl, Eq in Rs. unfold read in Rd. destruct (nth_error st (slot d)); [|discriminate]. rewrite get_at_app, Rd in Rs. destruct a; discriminate.
    - eapply wp_run; [exact E2|]. split; auto. split; [|frames]. eapply upto_chain; [exact U1|exact U2|incls..].
    - eapply wp_run; [exact E2|]. split; auto. split; [|frames]. eapply upto_chain; [exact U1|exact U2|incls..]. }
  injection E as <- <-.
  assert (Rs1 : read st1 s = Some w) by (unfold st1; now rewrite read_write_disjoint).
  assert (Rd2 : read (write st1 s (moved w)) d = Some (set_tag (type_of w) dv)) by (now rewrite read_write_disjoint).
  assert (Fin : forall v, write (write (write st d v) s (moved w)) d w = write (write st s (moved w)) d w) by (intros v; rewrite (write_comm st d s) by auto; apply write_write).
  assert (Es1 : resolve hs1 s = Some (ps', y)) by (eapply upto_res; [exact U1|auto|constructor; auto|auto]).
  destruct (same_alternative dv w) eqn:Alt.
  - destruct (take_swap_ok hs1 st1 d s w _ pd' ps' (upto_sim _ _ _ _ _ _ U1) Rs1 Rd2 Vd1 Vs1 Hn) as (hs2 & E2 & U2). unfold st1 in U2 at 2. rewrite Fin, L1 in U2.
    destruct y as [t txt|t p|t p]; [clear hs2 E2 U2|..].
    + inversion Hy; subst. destruct dv as [t' s'| |]; try discriminate. cbn [set_tag type_of] in *. inversion Hx; subst. cbn in Ed1.
      destruct (put_upto hs1 st1 d (VStr t s') pd' (HStr t s') (HStr t txt) (VStr t txt) (upto_sim _ _ _ _ _ _ U1) Rd1 Ed1) as (hs2 & E2 & U2 & Ed2 & _).
      { intros h fy' Hf. inversion Hf; subst. constructor. }
      eapply wp_step; [exact E2|]. unfold st1 in U2 at 2. rewrite write_write, L1 in U2.
      destruct (put_upto hs2 (write st d (VStr t txt)) s (VStr t txt) ps' (HStr t txt) (HStr t []) (VStr t []) (upto_sim _ _ _ _ _ _ U2)) as (hs3 & E3 & U3 & _).
      { now rewrite read_write_disjoint. }
      { eapply upto_res; [exact U2|auto|constructor; auto|auto]. }
      { intros h fy' Hf. inversion Hf; subst. constructor. }
      rewrite write_length, write_comm in U3 by auto. eapply wp_run; [exact E3|]. split; auto. split; [|frames].
      eapply upto_chain; [exact U1|eapply (upto_chain _ _ _ _ _ [d; s] [d; s]); [exact U2|exact U3|incls..]|incls..].
    + eapply wp_run; [exact E2|]. split; auto. split; [|frames]. eapply upto_chain; [exact U1|exact U2|incls..].
    + eapply wp_run; [exact E2|]. split; auto. split; [|frames]. eapply upto_chain; [exact U1|exact U2|incls..].
  - destruct (push_upto hs1 st1 (HStr (h_tag y) []) (VStr (h_tag y) []) (upto_sim _ _ _ _ _ _ U1)) as (hs2 & E2 & U2); [constructor|].
    eapply wp_step; [exact E2|]. rewrite L1 in U2. pose proof (upto_chain _ _ _ _ _ [d] [d] _ _ _ _ _ U1 U2 ltac:(incls) ltac:(incls) ltac:(incls) ltac:(incls)) as U12.
    destruct (assign_tmp_ok hs2 st1 _ d _ pd' (upto_sim _ _ _ _ _ _ U12) Rd1) as (hs3 & E3 & U3); [eapply upto_vref_self; [exact U12|auto|incls|auto]|].
    unfold st1 in U3 at 2. rewrite write_write, L1 in U3.
    pose proof (upto_chain _ _ _ _ _ [d] [d] _ _ _ _ _ U12 U3 ltac:(incls) ltac:(incls) ltac:(incls) ltac:(incls)) as U13.
    set (st3 := write st d (VStr (h_tag y) [])) in *.
    destruct (take_swap_ok hs3 st3 d s w (VStr (h_tag y) []) pd' ps' (upto_sim _ _ _ _ _ _ U13)) as (hs4 & E4 & U4); auto.
    + unfold st3. now rewrite read_write_disjoint.
    + unfold st3. rewrite read_write_disjoint by auto. now rewrite read_write_same, Rd.
    + eapply upto_vref_self; [exact U13|auto|incls|auto].
    + eapply upto_vref; [exact U13|auto|constructor; [now apply not_inside|constructor]|auto].
    + unfold hbind at 1 in E3. unfold hbind at 1. unfold st3 in U4 at 2. rewrite Fin in U4. unfold st3 in U4. rewrite write_length in U4.
      apply wp_run with (hs' := hs4) (a := tt).
      * unfold hbind at 1. destruct (swap_in pd' hs2) as [|hq [a|e| | |]]; try discriminate. unfold hbind at 1. rewrite E3. exact E4.
      * split; auto. split; [|frames]. eapply upto_chain; [exact U13|exact U4|incls..].
Qed.

(** ** as_array(), as_object() *)
Lemma is_nil_len {A B} (l : list A) (l' : list B) : length l = length l' -> is_nil l = is_nil l'.
Proof. destruct l, l'; cbn; congruence. Qed.
Lemma h_empty_ok hs y w fy : holds (hp hs) y w fy -> h_empty y hs = HDone hs (v_empty w).
Proof.
  intros H. unfold h_empty, v_empty. rewrite (holds_tag_of _ _ _ _ H). destruct (type_of w) eqn:T; auto; inversion H as [| | |t a l vs fps Hn Hl|t a m ms fps Hn Hk Hl]; subst; auto; cbn [get_arr get_obj].
  - unfold hbind. rewrite (arr_node_ok _ _ _ Hn). unfold hret. cbn [bind]. do 2 f_equal. unfold arr_empty. apply is_nil_len. eapply holds_all_length; eauto.
  - unfold hbind. rewrite (obj_node_ok _ _ _ Hn). unfold hret. cbn [bind]. do 2 f_equal. unfold obj_empty. apply is_nil_len. apply holds_all_length in Hl. now rewrite !map_length in Hl.
Qed.
Lemma alloc_push_ok hs st n mk v : sim hs st -> (forall h b, nth_error h b = Some (Some n) -> holds h (mk b) v [b]) ->
  exists hs1 b hs2, alloc n hs = HDone hs1 (Ok b) /\ push (mk b) hs1 = HDone hs2 (Ok tt) /\ upto (length st) [] [] hs hs2 (st ++ [v]).
Proof.
  intros (fp & S) Hn. pose proof S as S0. destruct hs as [R h fl]. destruct S as (H & D & L). cbn in *.
  destruct (make_node R [] h fl st [] fp [] n (mk (length h)) v H) as (f & Sf & A); rewrite ?app_nil_r; auto; [constructor| |].
  { intros h' _ E. exists []. split; auto. }
  eexists _, _, _. split; [apply alloc_ok|]. split; [reflexivity|]. cbn. split; [eexists; exact Sf|]. split; [|intros Hq; exact Hq].
  eapply keeps_agree; [exact S0|reflexivity|exact A].
Qed.
Lemma coerce_ok hs st l v pl t n mk fr v1 r : sim hs st -> read st l = Some v -> vref hs l pl ->
  (forall h b, nth_error h b = Some (Some n) -> holds h (mk b) fr [b]) -> coerce fr v = (v1, r) -> r <> Ub ->
  wp (h_coerce t n mk pl) hs (fun _ hs' => r = Ok tt /\ upto (length st) [l] [l] hs hs' (write st l v1) /\ (v_empty v = Ok false -> hs' = hs /\ v1 = v))
    (fun e hs' => (r = Throw e /\ v1 = v /\ hs' = hs) \/ (oom hs e /\ v_empty v = Ok true /\ sim hs' (write st l (set_tag t v)))).
Proof.
  intros S E V Hn C Hr. destruct (sim_resolve _ _ _ _ S E) as (pl' & y & fy & Er & V' & Hy & Gy & _). pose proof (vref_det _ _ _ _ V' V). subst pl. clear V'.
  pose proof (read_slot _ _ _ E) as Ls.
  unfold h_coerce. eapply wp_step; [exact Gy|]. unfold coerce in C. unfold wp at 1, hbind at 1. rewrite (h_empty_ok _ _ _ _ Hy).
  destruct (v_empty v) as [[]|e| | |] eqn:Ev; cbn in C; injection C as <- <-; try congruence.
  - change (wp (put_pl pl' (h_set_tag t y) ;; tick ;; let! a := alloc n in push (mk a) ;; swap_in pl' ;; drop) hs
      (fun _ hs' => Ok tt = Ok tt /\ upto (length st) [l] [l] hs hs' (write st l fr) /\ (Ok true = Ok false -> hs' = hs /\ fr = v))
      (fun e hs' => (Ok tt = Throw e /\ fr = v /\ hs' = hs) \/ (oom hs e /\ Ok true = Ok true /\ sim hs' (write st l (set_tag t v))))).
    destruct (tag_upto hs st l v pl' y t S E Er) as (hs1 & E1 & U1 & _). eapply wp_step; [exact E1|].
    set (st1 := write st l (set_tag t v)) in *. assert (L1 : length st1 = length st) by apply write_length.
    apply wp_bind. eapply wp_mono; [exact (tick_upto hs1 st1 (length st) [] [] (upto_sim _ _ _ _ _ _ U1))|..]; cbv beta.
    2:{ intros e hs2 [O S2]. right. splits; auto. eapply oom_quiet; [apply U1|auto]. }
    intros ? hs2 U2. destruct (alloc_push_ok hs2 st1 n mk fr (upto_sim _ _ _ _ _ _ U2) Hn) as (hs3 & b & hs4 & E3 & E4 & U4). rewrite L1 in U4.
    eapply wp_step; [exact E3|]. eapply wp_step; [exact E4|].
    pose proof (upto_chain _ _ _ _ _ [] [l] _ _ _ _ _ (upto_chain _ _ _ _ _ [] [l] _ _ _ _ _ U1 U2 ltac:(incls) ltac:(incls) ltac:(incls) ltac:(incls)) U4 ltac:(incls) ltac:(incls) ltac:(incls) ltac:(incls)) as U.
    destruct (assign_tmp_ok hs4 st1 fr l (set_tag t v) pl' (upto_sim _ _ _ _ _ _ U)) as (hs5 & E5 & U5).
    { unfold st1. now rewrite read_write_same, E. }
    { eapply upto_vref_self; [exact U|auto|incls|auto]. }
    unfold st1 in U5 at 2. rewrite write_write, L1 in U5. eapply wp_run; [exact E5|]. splits; auto; [|discriminate].
    eapply upto_chain; [exact U|exact U5|incls..].
  - change (wp (hret tt) hs (fun _ hs' => Ok tt = Ok tt /\ upto (length st) [l] [l] hs hs' (write st l v) /\ (Ok false = Ok false -> hs' = hs /\ v = v))
      (fun e hs' => (Ok tt = Throw e /\ v = v /\ hs' = hs) \/ (oom hs e /\ Ok false = Ok true /\ sim hs' (write st l (set_tag t v))))).
    eapply wp_run; [reflexivity|]. splits; auto. rewrite write_same by auto. now apply upto_refl.
  - left. auto.
  - exfalso. revert Ev. unfold v_empty. destruct (type_of v), v as [|? []|? []]; discriminate.
  - exfalso. revert Ev. unfold v_empty. destruct (type_of v), v as [|? []|? []]; discriminate.
Qed.
Lemma h_type_error_ok {A B} hs y v fy (Q : A -> hstate -> Prop) (E : exn -> hstate -> Prop) : holds (hp hs) y v fy -> @type_error B v <> Ub ->
  (@type_error B v = Throw JsonException -> E JsonException hs) -> wp (h_type_error y) hs Q E.
Proof. intros H N HE. inversion H as [| t|t |t a l vs fps Hn Hl|t a m ms fps Hn Hk Hl]; subst; cbn in *; auto; destruct t; cbn in *; auto; congruence. Qed.
Lemma coerce_false x v v1 : coerce x v = (v1, Ok tt) -> v1 <> x -> v_empty v = Ok false.
Proof. unfold coerce. destruct (v_empty v) as [[]| | | |]; intros [= <-]; congruence. Qed.
Lemma as_array_run hs st l v pl v1 r : sim hs st -> read st l = Some v -> vref hs l pl -> as_array_m v = (v1, r) -> r <> Ub ->
  wp (h_as_array pl) hs (fun a hs' => exists xs, r = Ok xs /\ upto (length st) [l] [l] hs hs' (write st l v1) /\ v1 = VArr Tarray (Some xs) /\
      resolve hs' l = Some (pl, HArr Tarray (Some a)) /\ (v_empty v = Ok false -> hs' = hs /\ v1 = v))
    (fun e hs' => (r = Throw e /\ write st l v1 = st /\ hs' = hs) \/ (oom hs e /\ sim hs' (write st l (set_tag Tarray v)))).
Proof.
  intros S E V A Hr. assert (Thr : forall e, r = Throw e -> v1 = v) by (intros e ->; eapply as_array_throw; eauto).
  unfold as_array_m in A. destruct (coerce (v_array []) v) as [w r0] eqn:C. injection A as -> <-.
  assert (Hr0 : r0 <> Ub) by (intros ->; now apply Hr). unfold h_as_array. apply wp_bind. unfold coerce_array.
  eapply wp_mono; [eapply (coerce_ok hs st l v pl Tarray (NArr []) (fun a => HArr Tarray (Some a)) (v_array []) v1 r0); auto|..]; cbv beta.
  - intros h b Hb. eapply ho_arr; [exact Hb|constructor].
  - intros ? hs1 (-> & U & Z). cbn [bind] in *. assert (R1 : read (write st l v1) l = Some v1) by (now rewrite read_write_same, E).
    assert (V1 : vref hs1 l pl) by (eapply upto_vref_self; [exact U|eapply read_slot; eauto|incls|auto]).
    destruct (sim_resolve _ _ _ _ (upto_sim _ _ _ _ _ _ U) R1) as (pl' & y & fy & Er & V' & Hy & Gy & _). pose proof (vref_det _ _ _ _ V' V1). subst pl. clear V'.
    assert (Old : forall e, (if is_array v1 then get_arr v1 else type_error v1) = Throw e -> write st l v1 = st /\ hs1 = hs).
    { intros e He. destruct (Z (coerce_false _ _ _ C ltac:(intros ->; discriminate))) as [-> Hv]. split; auto. rewrite Hv. now apply write_same. }
    eapply wp_step; [exact Gy|]. rewrite (holds_tag_of _ _ _ _ Hy). fold (is_array v1). destruct (is_array v1) eqn:Ta.
    + inversion Hy as [| t Ey| |t b l0 vs fps Hn Hl Ey|]; subst; cbn in Hr; try congruence; unfold wp; cbn [hret hfail].
      * left. split; auto. eapply Old; reflexivity.
      * left. split; auto. eapply Old; reflexivity.
      * assert (t = Tarray) as -> by (destruct t; cbn in Ta; congruence). exists vs. splits; auto.
      * left. split; auto. eapply Old; reflexivity.
    + eapply h_type_error_ok; [exact Hy|exact Hr|]. intros He. left. split; auto. eapply Old; eauto.
  - intros e hs1 [(-> & -> & ->)|(O & _ & S1)]; [left|right; auto]. splits; auto. now apply write_same.
Qed.
Lemma as_object_run hs st l v pl v1 r : sim hs st -> read st l = Some v -> vref hs l pl -> as_object_m v = (v1, r) -> r <> Ub ->
  wp (h_as_object pl) hs (fun a hs' => exists xs, r = Ok xs /\ upto (length st) [l] [l] hs hs' (write st l v1) /\ v1 = VObj Tobject (Some xs) /\
      resolve hs' l = Some (pl, HObj Tobject (Some a)) /\ (v_empty v = Ok false -> hs' = hs /\ v1 = v))
    (fun e hs' => (r = Throw e /\ write st l v1 = st /\ hs' = hs) \/ (oom hs e /\ sim hs' (write st l (set_tag Tobject v)))).
Proof.
  intros S E V A Hr. assert (Thr : forall e, r = Throw e -> v1 = v) by (intros e ->; eapply as_object_throw; eauto).
  unfold as_object_m in A. destruct (coerce (v_object []) v) as [w r0] eqn:C. injection A as -> <-.
  assert (Hr0 : r0 <> Ub) by (intros ->; now apply Hr). unfold h_as_object. apply wp_bind. unfold coerce_object.
  eapply wp_mono; [eapply (coerce_ok hs st l v pl Tobject (NObj []) (fun a => HObj Tobject (Some a)) (v_object []) v1 r0); auto|..]; cbv beta.
  - intros h b Hb. eapply ho_obj; [exact Hb|reflexivity|constructor].
  - intros ? hs1 (-> & U & Z). cbn [bind] in *. assert (R1 : read (write st l v1) l = Some v1) by (now rewrite read_write_same, E).
    assert (V1 : vref hs1 l pl) by (eapply upto_vref_self; [exact U|eapply read_slot; eauto|incls|auto]).
    destruct (sim_resolve _ _ _ _ (upto_sim _ _ _ _ _ _ U) R1) as (pl' & y & fy & Er & V' & Hy & Gy & _). pose proof (vref_det _ _ _ _ V' V1). subst pl. clear V'.
    assert (Old : forall e, (if is_object v1 then get_obj v1 else type_error v1) = Throw e -> write st l v1 = st /\ hs1 = hs).
    { intros e He. destruct (Z (coerce_false _ _ _ C ltac:(intros ->; discriminate))) as [-> Hv]. split; auto. rewrite Hv. now apply write_same. }
    eapply wp_step; [exact Gy|]. rewrite (holds_tag_of _ _ _ _ Hy). fold (is_object v1). destruct (is_object v1) eqn:Ta.
    + inversion Hy as [|? Ey|t Ey|?|t b l0 vs fps Hn Hk Hl Ey]; subst; cbn in Hr; try congruence; unfold wp; cbn [hret hfail].
      * left. split; auto. eapply Old; reflexivity.
      * left. split; auto. eapply Old; reflexivity.
      * left. split; auto. eapply Old; reflexivity.
      * assert (t = Tobject) as -> by (destruct t; cbn in Ta; congruence). exists vs. splits; auto.
    + eapply h_type_error_ok; [exact Hy|exact Hr|]. intros He. left. split; auto. eapply Old; eauto.
  - intros e hs1 [(-> & -> & ->)|(O & _ & S1)]; [left|right; auto]. splits; auto. now apply write_same.
Qed.

(** ** Arguments *)
Inductive harg_for (hs : hstate) : arg -> option value -> harg -> list value -> Prop :=
| hf_tmp e v : harg_for hs (Tmp e) (Some v) HTmp [v]
| hf_ref l t p : vref hs l p -> harg_for hs (CRef l) t (HRef p) []
| hf_move l t p : vref hs l p -> harg_for hs (MRef l) t (HMove p) [].
Definition taken (a : arg) : list loc := match a with MRef l => [l] | _ => [] end.
Lemma harg_keep n P W hs hs' st a t x ex : harg_for hs a t x ex -> upto n P W hs hs' st ->
  (forall l, a = CRef l \/ a = MRef l -> (slot l < n)%nat /\ Forall (fun w => ~ strictly_inside w l) P) -> harg_for hs' a t x ex.
Proof.
  intros H U F. destruct H; constructor; destruct (F l); auto; eapply upto_vref; eauto.
Qed.
(** construct a value from the argument *)
Lemma construct_ok hs st a t x ex st' r : sim hs (st ++ ex) -> harg_for hs a t x ex -> construct a t st = Done st' r -> r <> Ub ->
  wp (h_construct x) hs (fun _ hs' => exists v, r = Ok v /\ upto (length st) (taken a) (taken a) hs hs' (st' ++ [v]) /\
      st' = match a with MRef l => write st l (moved v) | _ => st end /\ frame (map slot (taken a)) st st')
    (fun e hs' => oom hs e /\ sim hs' (st ++ ex)).
Proof.
  intros S H E Hr. destruct H as [e v|l t p V|l t p V]; cbn [construct] in E.
  - injection E as <- <-. eapply wp_run; [reflexivity|]. exists v. splits; auto; [|apply frame_refl]. now apply upto_refl.
  - unfold copy_from, rd, mfail, mbind in E. destruct (read st l) as [w|] eqn:Er; [|discriminate]. injection E as <- <-.
    destruct (copy_fine w _ eq_refl Hr) as [Ec Ow]. rewrite app_nil_r in *.
    eapply wp_mono; [exact (copy_upto hs st l w p S Er V Ow)|..]; cbv beta; auto.
    intros ? hs' U. exists w. splits; auto. apply frame_refl.
  - unfold take, rd, wr, mret, mbind in E. destruct (read st l) as [w|] eqn:Er; [|discriminate]. injection E as <- <-. rewrite app_nil_r in *.
    destruct (take_upto hs st l w p S Er V) as (hs' & E & U). eapply wp_run; [exact E|]. exists w. splits; auto. frames.
Qed.
Lemma assign_ok hs st d a t x ex pd st' r : sim hs (st ++ ex) -> harg_for hs a t x ex -> vref hs d pd -> (forall s, a = MRef s -> ~ strictly_inside s d) ->
  assign d a t st = Done st' r -> r <> Ub ->
  wp (h_assign pd x) hs (fun _ hs' => r = Ok tt /\ good (map slot (d :: taken a)) (d :: taken a) (d :: taken a) hs st hs' st') (failed (map slot (d :: taken a)) hs st ex).
Proof.
  intros S H V Hn E Hr. destruct H as [e v|l t p Vl|l t p Vl]; cbn [assign taken map] in *.
  - unfold rd, wr, mbind in E. destruct (read st d) as [w|] eqn:Er; [|discriminate]. injection E as <- <-.
    destruct (assign_tmp_ok hs st v d w pd S Er V) as (hs' & E & U). eapply wp_run; [exact E|]. split; auto. split; auto. frames.
  - rewrite app_nil_r in S. exact (copy_assign_ok hs st d l pd p st' r S V Vl E Hr).
  - rewrite app_nil_r in S. eapply wp_mono; [exact (move_assign_ok hs st d l pd p st' r S V Vl (Hn l eq_refl) E Hr)|auto|intros ? ? []].
Qed.
Lemma as_array_m_id l : as_array_m (VArr Tarray (Some l)) = (VArr Tarray (Some l), Ok l).
Proof. destruct l; reflexivity. Qed.
Lemma as_object_m_id l : as_object_m (VObj Tobject (Some l)) = (VObj Tobject (Some l), Ok l).
Proof. destruct l; reflexivity. Qed.
Lemma as_array_cases v v1 xs : as_array_m v = (v1, Ok xs) -> v_empty v = Ok false \/ v1 = v_array [].
Proof.
  unfold as_array_m, coerce. destruct (v_empty v) as [[]| | | |]; intros [= <- H]; auto; discriminate.
Qed.
Lemma as_object_cases v v1 xs : as_object_m v = (v1, Ok xs) -> v_empty v = Ok false \/ v1 = v_object [].
Proof.
  unfold as_object_m, coerce. destruct (v_empty v) as [[]| | | |]; intros [= <- H]; auto; discriminate.
Qed.
Lemma read_inside_leaf st d v l : (v = v_array [] \/ v = v_object []) -> strictly_inside d l -> read (write st d v) l = None.
Proof.
  intros Hv (Es & s & q & Eq). destruct l as [i p]. cbn in *. subst. rewrite read_write_below. destruct (read st d); auto.
  destruct Hv as [-> | ->]; destruct s as [k|[|n]]; reflexivity.
Qed.
(** a reference given as an argument survives as_array(), as_object() on the target, or dangles *)
Lemma harg_coerced hs hs' st d v v1 a t x ex w : harg_for hs a t x ex -> upto (length (st ++ ex)) [d] [d] hs hs' (w ++ ex) ->
  (v_empty v = Ok false /\ hs' = hs \/ v1 = v_array [] \/ v1 = v_object []) -> (slot d < length st)%nat ->
  (forall l, a = CRef l \/ a = MRef l -> exists u, read (write st d v1) l = Some u) -> harg_for hs' a t x ex.
Proof.
  intros H U [(_ & ->)|C] L R; auto. eapply harg_keep; [exact H|exact U|]. intros l Hl. destruct (R l Hl) as (u & Ru).
  pose proof (read_slot _ _ _ Ru) as Lu. rewrite write_length in Lu. split; [rewrite app_length; lia|].
  constructor; auto. intros SI. rewrite (read_inside_leaf _ _ _ _ C SI) in Ru. discriminate.
Qed.
Lemma construct_reads a t st st' r : construct a t st = Done st' r -> forall l, a = CRef l \/ a = MRef l -> exists u, read st l = Some u.
Proof.
  intros E l [-> | ->]; cbn in E; unfold copy_from, take, rd, mbind in E; destruct (read st l); eauto; discriminate.
Qed.
Lemma failed_ex S hs st ex e hs' st' : oom hs e -> sim hs' (st' ++ ex) -> frame S st st' -> failed S hs st ex e hs'.
Proof. intros O H F. split; eauto. Qed.
Definition thrown {A} (S : list nat) (P : loc -> Prop) (hs : hstate) (st ex : store) (st' : store) (r : res A) (e : exn) (hs' : hstate) : Prop :=
  (r = Throw e /\ sim hs' (st' ++ ex) /\ frame S st st' /\ quiet hs hs' /\ (Forall tag_ok st -> stays P (length st) hs hs')) \/ failed S hs st ex e hs'.
Lemma frame_in S st l v : In (slot l) S -> frame S st (write st l v).
Proof. apply frame_write. Qed.
(** ** Values whose tag matches the payload: as_array() and as_object() replace nothing that has parts *)
Lemma tag_upd v q x : tag_ok v -> tag_ok x -> tag_ok (upd_at q (fun _ => x) v).
Proof.
  intros Hv Hx. revert v Hv. induction q as [|s q IH]; intros v Hv; [exact Hx|]. destruct Hv as [t s0 A B|l Hl| |m Hm|]; destruct s as [k|n]; cbn; try (constructor; auto; fail).
  - constructor. revert n. induction Hl as [|v l Hv Hl IHl]; intros [|n]; cbn; constructor; auto.
  - constructor. induction Hm as [|[k' v] m Hv Hm IHm]; cbn; [constructor|]. destruct (bytes_eqb k k'); constructor; cbn in *; auto.
Qed.
Lemma tag_write st l x : Forall tag_ok st -> tag_ok x -> Forall tag_ok (write st l x).
Proof.
  intros Hs Hx. unfold write. generalize (slot l). induction Hs as [|v st Hv Hs IH]; intros [|n]; cbn; constructor; auto. now apply tag_upd.
Qed.
Lemma tag_get v q w : tag_ok v -> get_at q v = Some w -> tag_ok w.
Proof.
  revert v. induction q as [|s q IH]; intros v Hv; cbn; [now intros [= <-]|]. destruct Hv as [t s0 A B|l Hl| |m Hm|]; destruct s as [k|n]; try discriminate.
  - destruct (nth_error l n) as [x|] eqn:E; [|discriminate]. apply IH. eapply Forall_forall; [exact Hl|]. eapply nth_error_In; eauto.
  - destruct (map_find k m) as [x|] eqn:E; [|discriminate]. apply IH. induction Hm as [|[k' v] m Hv Hm IHm]; cbn in E; [discriminate|]. destruct (bytes_eqb k k'); [now injection E as <-|auto].
Qed.
Lemma tag_read st l w : Forall tag_ok st -> read st l = Some w -> tag_ok w.
Proof.
  intros Hs. unfold read. destruct (nth_error st (slot l)) as [v|] eqn:E; [|discriminate]. apply tag_get. eapply Forall_forall; [exact Hs|]. eapply nth_error_In; eauto.
Qed.
Lemma tag_moved v : tag_ok v -> tag_ok (moved v).
Proof. intros [ ]; constructor; auto. Qed.
Lemma empty_has_no_part st l v l' w : read st l = Some v -> tag_ok v -> v_empty v = Ok true -> strictly_inside l l' -> read st l' = Some w -> False.
Proof.
  intros E T V (Es & s & q & Eq) E'. unfold read in E, E'. rewrite Es, Eq in E'. destruct (nth_error st (slot l)) as [u|]; [|discriminate]. rewrite get_at_app, E in E'.
  destruct T as [t s0 A B|xs Hl| |m Hm|]; destruct s as [k|n]; cbn in E'; try discriminate.
  - destruct xs; [destruct n; discriminate|discriminate].
  - destruct m; [discriminate|discriminate].
Qed.
Definition nowhere (l : loc) : Prop := False.
Lemma empty_stays hs hs' st ex st' l v : sim hs (st ++ ex) -> read st l = Some v -> tag_ok v -> v_empty v = Ok true \/ hs' = hs -> upto (length (st ++ ex)) [l] [l] hs hs' st' ->
  stays nowhere (length st) hs hs'.
Proof.
  intros S E T [V| ->] (_ & [K _] & _); [|apply stays_refl]. intros l' pl' L _ V'. apply K; [rewrite app_length; lia| |exact V']. apply Forall_cons; [intros SI|constructor].
  destruct V' as (y & Ry). pose proof S as (fp & H & _). destruct hs as [R h fl]. cbn in H. destruct (resolve_read _ _ _ _ _ _ fl H Ry) as (w & Rw).
  rewrite read_app in Rw by auto. exact (empty_has_no_part _ _ _ _ _ E T V SI Rw).
Qed.
Lemma as_array_empty v v1 xs : as_array_m v = (v1, Ok xs) -> v_empty v = Ok false \/ v_empty v = Ok true.
Proof. unfold as_array_m, coerce. destruct (v_empty v) as [[]| | | |]; intros [= <- H]; auto; discriminate. Qed.
Lemma as_object_empty v v1 xs : as_object_m v = (v1, Ok xs) -> v_empty v = Ok false \/ v_empty v = Ok true.
Proof. unfold as_object_m, coerce. destruct (v_empty v) as [[]| | | |]; intros [= <- H]; auto; discriminate. Qed.
Definition inside (P : list loc) (l : loc) : Prop := exists w, In w P /\ strictly_inside w l.
Lemma emplace_ok hs st d a t x ex pd st' r : sim hs (st ++ ex) -> harg_for hs a t x ex -> vref hs d pd -> (forall s, a = MRef s -> within s d = false) ->
  emplace_back d a t st = Done st' r -> r <> Ub ->
  wp (h_emplace pd x) hs (fun _ hs' => r = Ok tt /\ good (map slot (d :: taken a)) (d :: taken a) (d :: taken a) hs st hs' st' /\ (Forall tag_ok st -> stays (inside (taken a)) (length st) hs hs'))
    (thrown (map slot (d :: taken a)) nowhere hs st ex st' r).
Proof.
  intros S H V Hn E Hr. unfold emplace_back in E. unfold mbind at 1, call at 1 in E.
  destruct (read st d) as [v|] eqn:Rd; [|discriminate]. destruct (as_array_m v) as [v1 r1] eqn:A.
  pose proof (read_slot _ _ _ Rd) as Ld. assert (Rdx : read (st ++ ex) d = Some v) by (now rewrite read_app).
  assert (H1 : r1 <> Ub) by (intros ->; congruence).
  unfold h_emplace. apply wp_bind. eapply wp_mono; [exact (as_array_run hs (st ++ ex) d v pd v1 r1 S Rdx V A H1)|..]; cbv beta.
  2:{ intros e hs' [(-> & Ew & ->)|[O S']].
      - injection E as <- <-. left. rewrite write_app in Ew by auto. apply app_inv_tail in Ew. rewrite Ew. splits; auto; [apply frame_refl|intros Hq; auto|intros _; apply stays_refl].
      - right. rewrite write_app in S' by auto. eapply failed_ex; eauto. apply frame_in. now left. }
  intros b hs1 (xs & -> & U1 & -> & Ed & Z). rewrite write_app in U1 by auto. set (st1 := write st d (VArr Tarray (Some xs))) in *.
  assert (L1 : length st1 = length st) by apply write_length.
  destruct (construct a t st1) as [|st2 r2] eqn:C; [unfold mbind in E; rewrite C in E; discriminate|].
  assert (H2 : harg_for hs1 a t x ex).
  { eapply (harg_coerced hs hs1 st d v (VArr Tarray (Some xs))); [exact H|exact U1| |exact Ld|exact (construct_reads _ _ _ _ _ C)].
    destruct (as_array_cases _ _ _ A) as [F|F]; [left; split; auto; now apply Z|auto]. }
  apply wp_bind. eapply wp_mono; [exact (tick_upto hs1 (st1 ++ ex) (length (st1 ++ ex)) [] [] (upto_sim _ _ _ _ _ _ U1))|..]; cbv beta.
  2:{ intros e hs' [O S']. right. eapply failed_ex; [eapply oom_quiet; [apply U1|exact O]|exact S'|]. apply frame_in. now left. }
  intros ? hs2 U2. unfold mbind in E. rewrite C in E.
  assert (Hr2 : r2 <> Ub) by (intros ->; congruence).
  assert (H3 : harg_for hs2 a t x ex).
  { eapply harg_keep; [exact H2|exact U2|]. intros l Hl. destruct (construct_reads _ _ _ _ _ C l Hl) as (u & Ru). apply read_slot in Ru. split; [rewrite app_length; lia|constructor]. }
  assert (Ed2 : resolve hs2 d = Some (pd, HArr Tarray (Some b))).
  { eapply upto_res; [exact U2|rewrite app_length; lia|constructor|exact Ed]. }
  apply wp_bind. eapply wp_mono; [exact (construct_ok hs2 st1 a t x ex st2 r2 (upto_sim _ _ _ _ _ _ U2) H3 C Hr2)|..]; cbv beta.
  2:{ intros e hs' [O S']. right. eapply failed_ex; [eapply oom_quiet; [apply U1|eapply oom_quiet; [apply U2|exact O]]|exact S'|]. apply frame_in. now left. }
  intros ? hs3 (u & -> & U3 & E2 & F2).
  assert (R2 : exists ys, read st2 d = Some (VArr Tarray (Some ys))).
  { assert (R1 : read st1 d = Some (VArr Tarray (Some xs))) by (unfold st1; now rewrite read_write_same, Rd).
    destruct a as [e|l|l]; subst st2; eauto. eapply read_write_arr; eauto. }
  destruct R2 as (ys & R2).
  assert (Ed3 : resolve hs3 d = Some (pd, HArr Tarray (Some b))).
  { eapply upto_res; [exact U3|lia| |exact Ed2]. destruct a as [e|l|l]; cbn; constructor; auto. }
  assert (E3 : st' = write st2 d (VArr Tarray (Some (ys ++ [u]))) /\ r = Ok tt).
  { assert (Hc : call d (fun d0 => on_array (fun l => (arr_emplace_back u l, Ok tt)) d0) st2 = Done st' r).
    { destruct a as [e|l|l]; auto. now rewrite (Hn l eq_refl) in E. }
    unfold call in Hc. rewrite R2 in Hc. unfold on_array in Hc. rewrite as_array_m_id in Hc. injection Hc as <- <-. auto. }
  destruct E3 as [-> ->].
  destruct (append_upto hs3 st2 [u] 1 d Tarray ys pd Tarray b eq_refl (upto_sim _ _ _ _ _ _ U3) R2 Ed3) as (hs4 & E4 & U4).
  eapply wp_run; [exact E4|]. split; auto.
  assert (L2 : length st2 = length st) by (destruct F2; congruence). rewrite L1 in U3. rewrite L2 in U4.
  split; [split|].
  - assert (U12 : upto (length st) [d] [d] hs hs2 (st1 ++ ex)) by (eapply upto_chain; [eapply upto_mono; [exact U1|rewrite app_length; lia|apply incl_refl..]|eapply upto_mono; [exact U2|rewrite app_length; lia|apply incl_refl..]|incls..]).
    eapply upto_chain; [exact U12|eapply (upto_chain _ _ _ _ _ (taken a) (taken a)); [exact U3|exact U4|incls..]|incls..].
  - eapply frame_trans; [apply (frame_in _ st d (VArr Tarray (Some xs))); now left|]. eapply frame_trans; [eapply frame_mono; [exact F2|intros i Hi; now right]|]. apply frame_in. now left.
  - intros Ts. assert (K1 : stays nowhere (length st) hs hs1).
    { eapply (empty_stays hs hs1 st ex); [exact S|exact Rd|exact (tag_read _ _ _ Ts Rd)| |exact U1]. destruct (as_array_empty _ _ _ A) as [F|F]; [right; now apply Z|auto]. }
    eapply stays_trans; [eapply stays_mono; [exact K1|lia|intros l []]|].
    eapply stays_trans; [eapply upto_stays; [exact U2|rewrite app_length; lia|intros w l []]|].
    eapply stays_trans; [eapply upto_stays; [exact U3|lia|intros w l Hw Hi; exists w; auto]|]. eapply upto_stays; [exact U4|lia|intros w l []].
Qed.
Lemma obj_at_loc hs st d pd t t' ms b : sim hs st -> read st d = Some (VObj t (Some ms)) -> resolve hs d = Some (pd, HObj t' (Some b)) ->
  exists m, nth_error (hp hs) b = Some (Some (NObj m)) /\ map fst m = map fst ms.
Proof.
  intros S E R. destruct (sim_resolve _ _ _ _ S E) as (pl & y & fy & Er & _ & Hy & _). rewrite R in Er. injection Er as <- <-. inversion Hy; subst; eauto.
Qed.
Lemma arr_at_loc hs st d pd t t' xs b : sim hs st -> read st d = Some (VArr t (Some xs)) -> resolve hs d = Some (pd, HArr t' (Some b)) ->
  exists l fl, nth_error (hp hs) b = Some (Some (NArr l)) /\ holds_all (hp hs) l xs fl /\ (length fl <= length (hp hs))%nat.
Proof.
  intros S E R. destruct (sim_resolve _ _ _ _ S E) as (pl & y & fy & Er & _ & Hy & _ & Ln). rewrite R in Er. injection Er as <- <-. inversion Hy; subst.
  eexists _, _. splits; eauto. cbn in Ln. lia.
Qed.
Lemma find_some_keys {A B} k (m : list (bytes * A)) (m' : list (bytes * B)) x : map fst m = map fst m' -> map_find k m' = Some x -> exists y, map_find k m = Some y.
Proof. intros E H. destruct (map_find k m) eqn:F; eauto. rewrite (find_none_keys _ _ _ E F) in H. discriminate. Qed.
Lemma resolve_member hs d pd t b m k y : resolve hs d = Some (pd, HObj t (Some b)) -> nth_error (hp hs) b = Some (Some (NObj m)) -> map_find k m = Some y ->
  resolve hs (sub d (Key k)) = Some (Mem b k, y).
Proof. intros R N F. rewrite (resolve_below hs d (sub d (Key k)) [Key k] _ eq_refl eq_refl R). cbn. now rewrite N, F. Qed.
Lemma inside_of_sub s d x : strictly_inside s (sub d x) -> within s d = true.
Proof.
  intros (Es & a & q & Eq). cbn in *. apply within_spec. split; auto. destruct (list_eq_dec (fun a b : step => ltac:(decide equality; [apply (list_eq_dec N.eq_dec)|apply Nat.eq_dec])) q []) as [->|Hq].
  - apply app_inj_tail in Eq as [-> _]. exists []. now rewrite app_nil_r.
  - destruct (exists_last Hq) as (q' & z & ->). rewrite app_comm_cons, app_assoc in Eq. apply app_inj_tail in Eq as [-> _]. eauto.
Qed.
Lemma within_sub l x : within l (sub l x) = true.
Proof. apply within_spec. split; auto. exists [x]. reflexivity. Qed.
Lemma not_within_sub l x : within (sub l x) l = false.
Proof.
  destruct (within (sub l x) l) eqn:E; auto. exfalso. apply within_spec in E as (_ & r & E). cbn in E. rewrite <- app_assoc in E.
  apply (f_equal (@length _)) in E. rewrite !app_length in E. cbn in E. lia.
Qed.
Definition insert_at (d : loc) (k : bytes) (a : arg) (t : option value) (ms : object) : M unit :=
  if obj_contains k ms then assign (sub d (Key k)) a t
  else
    run v <- construct a t;
    match a with
    | MRef src => if within src d then mret tt
                  else call d (fun d => on_object (fun m => (map_assign k v m, Ok tt)) d)
    | _ => call d (fun d => on_object (fun m => (map_assign k v m, Ok tt)) d)
    end.
Lemma insert_ok hs st d k a t x ex pd b ms st' r : sim hs (st ++ ex) -> harg_for hs a t x ex -> resolve hs d = Some (pd, HObj Tobject (Some b)) ->
  read st d = Some (VObj Tobject (Some ms)) -> (forall s, a = MRef s -> within s d = false) -> insert_at d k a t ms st = Done st' r -> r <> Ub ->
  wp (h_insert b k x) hs (fun _ hs' => r = Ok tt /\ good (map slot (d :: taken a)) (sub d (Key k) :: taken a) (sub d (Key k) :: taken a) hs st hs' st')
    (failed (map slot (d :: taken a)) hs st ex).
Proof.
  intros S H Ed Rd Hn E Hr. pose proof (read_slot _ _ _ Rd) as Ld. assert (Rdx : read (st ++ ex) d = Some (VObj Tobject (Some ms))) by (now rewrite read_app).
  destruct (obj_at_loc _ _ _ _ _ _ _ _ S Rdx Ed) as (m & Nb & Km). unfold h_insert. eapply wp_step; [apply obj_node_ok; exact Nb|].
  unfold insert_at, obj_contains in E. destruct (map_find k ms) as [w|] eqn:Fk.
  - destruct (find_some_keys _ _ _ _ Km Fk) as (y & Fy). rewrite Fy.
    assert (Vk : vref hs (sub d (Key k)) (Mem b k)) by (eexists; eapply resolve_member; eauto).
    assert (Hk : forall s, a = MRef s -> ~ strictly_inside s (sub d (Key k))).
    { intros s Hs SI. apply inside_of_sub in SI. rewrite (Hn s Hs) in SI. discriminate. }
    eapply wp_mono; [exact (assign_ok hs st (sub d (Key k)) a t x ex (Mem b k) st' r S H Vk Hk E Hr)|..]; auto.
  - destruct (map_find k m) as [y|] eqn:Fm. { rewrite (find_none_keys k ms m (eq_sym Km) Fk) in Fm. discriminate. }
    destruct (construct a t st) as [|st2 r2] eqn:C; [unfold mbind in E; rewrite C in E; discriminate|].
    assert (Hr2 : r2 <> Ub) by (intros ->; unfold mbind in E; rewrite C in E; congruence).
    assert (Keep : forall hs' n, upto n [] [] hs hs' (st ++ ex) -> n = length (st ++ ex) -> harg_for hs' a t x ex /\ resolve hs' d = Some (pd, HObj Tobject (Some b))).
    { intros hs' n U ->. split.
      - eapply harg_keep; [exact H|exact U|]. intros l Hl. destruct (construct_reads _ _ _ _ _ C l Hl) as (u & Ru). apply read_slot in Ru. split; [rewrite app_length; lia|constructor].
      - eapply upto_res; [exact U|rewrite app_length; lia|constructor|exact Ed]. }
    apply wp_bind. eapply wp_mono; [exact (tick_upto hs (st ++ ex) (length (st ++ ex)) [] [] S)|..]; cbv beta.
    2:{ intros e hs' [O S']. eapply failed_ex; [exact O|exact S'|apply frame_refl]. }
    intros ? hs1 U1. apply wp_bind. eapply wp_mono; [exact (tick_upto hs1 (st ++ ex) (length (st ++ ex)) [] [] (upto_sim _ _ _ _ _ _ U1))|..]; cbv beta.
    2:{ intros e hs' [O S']. eapply failed_ex; [eapply oom_quiet; [apply U1|exact O]|exact S'|apply frame_refl]. }
    intros ? hs2 U2. pose proof (upto_chain _ _ _ _ _ [] [] _ _ _ _ _ U1 U2 ltac:(incls) ltac:(incls) ltac:(incls) ltac:(incls)) as U12. destruct (Keep hs2 _ U12 eq_refl) as [H2 Ed2].
    apply wp_bind. eapply wp_mono; [exact (construct_ok hs2 st a t x ex st2 r2 (upto_sim _ _ _ _ _ _ U2) H2 C Hr2)|..]; cbv beta.
    2:{ intros e hs' [O S']. eapply failed_ex; [eapply oom_quiet; [apply U12|exact O]|exact S'|apply frame_refl]. }
    intros ? hs3 (u & -> & U3 & E2 & F2). unfold mbind in E. rewrite C in E.
    assert (R2 : exists ms', read st2 d = Some (VObj Tobject (Some ms')) /\ map fst ms' = map fst ms).
    { destruct a as [e|l|l]; subst st2; eauto. eapply read_write_obj; eauto. }
    destruct R2 as (ms' & R2 & K2).
    assert (Ed3 : resolve hs3 d = Some (pd, HObj Tobject (Some b))).
    { eapply upto_res; [exact U3|lia| |exact Ed2]. destruct a as [e|l|l]; cbn; constructor; auto. }
    assert (E3 : st' = write st2 d (VObj Tobject (Some (map_assign k u ms'))) /\ r = Ok tt).
    { assert (Hc : call d (fun d0 => on_object (fun l => (map_assign k u l, Ok tt)) d0) st2 = Done st' r).
      { destruct a as [e|l|l]; auto. now rewrite (Hn l eq_refl) in E. }
      unfold call in Hc. rewrite R2 in Hc. unfold on_object in Hc. rewrite as_object_m_id in Hc. injection Hc as <- <-. auto. }
    destruct E3 as [-> ->].
    destruct (insert_upto hs3 st2 u d Tobject ms' pd Tobject b k (upto_sim _ _ _ _ _ _ U3) R2 Ed3 (find_none_keys _ _ _ (eq_sym K2) Fk)) as (hs4 & E4 & U4).
    eapply wp_run; [exact E4|]. split; auto. assert (L2 : length st2 = length st) by (destruct F2; congruence). rewrite L2 in U4.
    split.
    + eapply upto_chain; [eapply upto_mono; [exact U12|rewrite app_length; lia|apply incl_refl..]|eapply (upto_chain _ _ _ _ _ (taken a) (taken a)); [exact U3|exact U4|incls..]|incls..].
    + eapply frame_trans; [eapply frame_mono; [exact F2|intros i Hi; now right]|]. apply frame_in. now left.
Qed.
