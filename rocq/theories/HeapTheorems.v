(** * Properties of the heap model: copies, assignment from a part, allocation failure, leaks. *)
From Verif Require Import Base Value Spec Containers Dump Api SpecApi BaseProofs ContainerProofs ApiProofs StoreProofs Heap SpecHeap HeapBase HeapSteps HeapOps HeapMoves HeapNodes HeapCalls HeapMerge HeapEval HeapProofs.
From Coq Require Import Permutation.

Lemma sim_det hs st st' : sim hs st -> sim hs st' -> st' = st.
Proof. intros (f & A & _) (f' & B & _). now destruct (holds_all_det _ _ _ _ _ _ A B). Qed.
Lemma unchanged_trans W W' st st1 st2 : unchanged W st st1 -> unchanged W' st1 st2 -> unchanged (W ++ W') st st2.
Proof. intros [L A] [L' B]. split; [lia|]. intros i v E N. apply B; [apply A; auto|]; intros H; apply N, in_app_iff; auto. Qed.

(** ** Programs *)
Lemma legal_sim hs c st : sim hs st -> legal hs c -> refs_valid st c /\ ~ moves_into_part c /\ exists st' r, exec c st = Done st' r /\ r <> Ub.
Proof. intros S (st0 & st' & r & S0 & A & B & C & D). rewrite (sim_det _ _ _ S0 S). eauto 6. Qed.
Lemma legal_defined hs c : legal hs c -> exists hs' r, hexec c hs = HDone hs' r /\ r <> Ub.
Proof.
  intros (st & st' & r & S & A & B & C & D). destruct (hexec_refines c hs st st' r S A B C D) as (hs' & r' & E & [(-> & _)|(-> & _)]); eexists _, _; (split; [exact E|auto]). discriminate.
Qed.
Lemma legal_run_keeps cs : forall hs st hs', sim hs st -> legal_run hs cs hs' -> exists st', sim hs' st' /\ unchanged (flat_map writes cs) st st'.
Proof.
  induction cs as [|c cs IH]; intros hs st hs' S R; inversion R as [|? ? hs1 r1 ? ? L E1 R1]; subst.
  - exists st. split; auto. split; auto.
  - destruct (legal_sim _ _ _ S L) as (A & B & st' & r & C & D). destruct (hexec_refines c hs st st' r S A B C D) as (hs2 & r2 & E & H). rewrite E in E1. injection E1 as <- <-.
    destruct H as [(_ & S1 & U1 & _)|(_ & _ & st1 & S1 & _ & U1)]; destruct (IH _ _ _ S1 R1) as (st2 & S2 & U2); exists st2; (split; [exact S2|cbn; eapply unchanged_trans; eauto]).
Qed.
Lemma legal_run_tree cs : forall hs st hs', sim hs st -> fails hs = [] -> legal_run hs cs hs' -> exists st', sim hs' st' /\ sound_history st cs st' /\ fails hs' = [].
Proof.
  induction cs as [|c cs IH]; intros hs st hs' S F R; inversion R as [|? ? hs1 r1 ? ? L E1 R1]; subst.
  - exists st. splits; auto. constructor.
  - destruct (legal_sim _ _ _ S L) as (A & B & st' & r & C & D). destruct (hexec_refines c hs st st' r S A B C D) as (hs2 & r2 & E & H). rewrite E in E1. injection E1 as <- <-.
    destruct H as [(_ & S1 & U1 & Q1)|(_ & N & _)]; [|congruence]. destruct (IH _ _ _ S1 (Q1 F) R1) as (st2 & S2 & H2 & F2). exists st2. splits; auto. econstructor; eauto.
Qed.
Lemma heap_follows cs : forall hs st st', sim hs st -> fails hs = [] -> sound_history st cs st' -> exists hs', hhistory hs cs hs' /\ sim hs' st' /\ fails hs' = [].
Proof.
  induction cs as [|c cs IH]; intros hs st st' S F R; inversion R as [|? ? st1 r ? ? A B C D R1]; subst.
  - exists hs. splits; auto. constructor.
  - destruct (hexec_refines c hs st st1 r S A B C D) as (hs1 & r1 & E & [(-> & S1 & U1 & Q1)|(_ & N & _)]); [|congruence].
    destruct (IH _ _ _ S1 (Q1 F) R1) as (hs2 & H2 & S2 & F2). exists hs2. splits; auto. econstructor; eauto.
Qed.
(** the end of the program: every variable is destroyed *)
Lemma destroy_all hs st : sim hs st -> exists hs', drop_n (length st) hs = HDone hs' (Ok tt) /\ roots hs' = [] /\ forall a, ~ live (hp hs') a.
Proof.
  intros S. destruct (drop_n_upto hs [] st _ eq_refl S) as (hs' & E & U). exists hs'. split; [exact E|]. destruct U as ((f & H & _ & L) & _ & _).
  inversion H; subst. split; auto.
Qed.

(** ** Copies *)
Lemma copy_new hs st l v : sim hs st -> read st l = Some v -> owned v -> fails hs = [] -> exists hs', hexec (CNew (ECopy l)) hs = HDone hs' (Ok tt) /\ sim hs' (st ++ [v]).
Proof.
  intros S R O F. assert (E : exec (CNew (ECopy l)) st = Done (st ++ [v]) (Ok tt)).
  { cbn. unfold mbind, copy_from, rd, mbind, mfail. rewrite R. destruct (copy_two v) as [->|X]; auto. now rewrite (copy_owned v) in X. }
  destruct (hexec_refines (CNew (ECopy l)) hs st _ _ S (Forall_nil _) (fun x => x) E) as (hs' & r' & Eh & [(-> & S1 & _)|(_ & N & _)]); [discriminate|eauto|congruence].
Qed.
Lemma copy_assign_value st dst src d w : read st dst = Some d -> read st src = Some w -> owned w -> ~ strictly_inside src dst -> exec (CAssign dst (CRef src)) st = Done (write st dst w) (Ok tt).
Proof.
  intros Rd Rs O N. cbn. unfold mbind, mret, assign, copy_assign, copy_from, mbind, rd, wr, mfail. rewrite Rd, Rs. set (st1 := write st dst (set_tag (type_of w) d)).
  assert (Rs1 : read st1 src = Some w).
  { destruct (within dst src) eqn:W1.
    - apply within_spec in W1 as (Es & q & Eq). destruct q as [|x q].
      + assert (dst = src) as -> by (destruct dst, src; cbn in *; subst; now rewrite app_nil_r). unfold st1. rewrite Rd in Rs. injection Rs as ->. rewrite set_tag_same. now rewrite (write_same _ _ _ Rd).
      + unfold st1. destruct src as [i p]. cbn in Es, Eq. subst i p. rewrite read_write_below, Rd. unfold read in Rd, Rs. cbn in Rs.
        destruct (nth_error st (slot dst)) as [r|]; [|discriminate]. rewrite get_at_app, Rd in Rs. destruct d; exact Rs.
    - destruct (within src dst) eqn:W2.
      + destruct N. apply strictly_inside_spec. split; auto. intros ->. unfold within in W1, W2. congruence.
      + unfold st1. rewrite read_write_disjoint; auto. }
  rewrite Rs1, (copy_owned _ O), set_tag_same. unfold st1. now rewrite write_write.
Qed.
Lemma copy_assign_copies hs st dst src d w : sim hs st -> read st dst = Some d -> read st src = Some w -> owned w -> ~ strictly_inside src dst -> fails hs = [] ->
  exists hs', hexec (CAssign dst (CRef src)) hs = HDone hs' (Ok tt) /\ sim hs' (write st dst w).
Proof.
  intros S Rd Rs O N F. pose proof (copy_assign_value st dst src d w Rd Rs O N) as E.
  assert (V : refs_valid st (CAssign dst (CRef src))) by (repeat constructor; congruence).
  destruct (hexec_refines (CAssign dst (CRef src)) hs st _ _ S V (fun x => x) E) as (hs' & r' & Eh & [(-> & S1 & _)|(_ & X & _)]); [discriminate|eauto|congruence].
Qed.
(** ** Assignment from a part *)
Lemma inside_not a b : strictly_inside a b -> ~ strictly_inside b a.
Proof. intros (E & s & p & H) (E' & s' & p' & H'). rewrite H' in H. apply (f_equal (@length _)) in H. rewrite !app_length in H. cbn in H. lia. Qed.
Lemma inside_within a b : strictly_inside a b -> within a b = true /\ same a b = false /\ within b a = false.
Proof.
  intros I. pose proof (proj1 (strictly_inside_spec a b) I) as [W N]. split; auto. assert (W' : within b a = false).
  { destruct (within b a) eqn:E; auto. apply within_spec in E as (E1 & q & E2). apply within_spec in W as (E3 & q' & E4). rewrite E4 in E2.
    exfalso. apply N. destruct a, b; cbn in *. subst. rewrite <- app_assoc in E2. rewrite <- (app_nil_r steps) in E2 at 1. apply app_inv_head in E2. symmetry in E2. apply app_eq_nil in E2 as [-> ->]. now rewrite app_nil_r. }
  split; auto. unfold same. now rewrite W, W'.
Qed.
Lemma move_from_part hs st dst src d w : sim hs st -> read st dst = Some d -> read st src = Some w -> strictly_inside dst src -> same_alternative d w = true ->
  exists hs', hexec (CAssign dst (MRef src)) hs = HDone hs' (Ok tt) /\ sim hs' (write st dst w).
Proof.
  intros S Rd Rs I A. destruct (inside_within _ _ I) as (W1 & W2 & W3).
  assert (E : exec (CAssign dst (MRef src)) st = Done (write st dst w) (Ok tt)) by (cbn; unfold mbind, mret, assign, move_assign, mbind, rd, wr; now rewrite Rd, Rs, W2, W1, A).
  assert (V : refs_valid st (CAssign dst (MRef src))) by (repeat constructor; congruence).
  assert (Hp : plain (CAssign dst (MRef src))) by exact Logic.I.
  destruct (at_loc_ok hs st [] dst d ltac:(now rewrite app_nil_r) Rd) as (pd & Ed & Vd). destruct (at_loc_ok hs st [] src w ltac:(now rewrite app_nil_r) Rs) as (ps & Es & Vs).
  cbn [hexec with_arg]. unfold hbind at 1. rewrite Es. unfold hbind at 1. rewrite Ed. cbn [h_assign].
  assert (Em : move_assign dst src st = Done (write st dst w) (Ok tt)) by (unfold move_assign, mbind, rd, wr; now rewrite Rd, Rs, W2, W1, A).
  destruct (wp_inv _ _ _ (move_assign_ok hs st dst src pd ps _ _ S Vd Vs (inside_not _ _ I) Em ltac:(discriminate))) as (hs' & [] & Eh & _ & G).
  exists hs'. split; [exact Eh|]. apply G.
Qed.

(** ** Allocation failure *)
Lemma failure_contained hs st c hs' : sim hs st -> legal hs c -> hexec c hs = HDone hs' (Throw BadAlloc) -> exists st', sim hs' st' /\ unchanged (writes c) st st'.
Proof.
  intros S L E. destruct (legal_sim _ _ _ S L) as (A & B & st' & r & C & D). destruct (hexec_refines c hs st st' r S A B C D) as (hs2 & r2 & E2 & H). rewrite E in E2. injection E2 as <- <-.
  destruct H as [(_ & S1 & U1 & _)|(_ & _ & st1 & S1 & L1 & U1)]; eauto.
Qed.
Lemma frame_nil st st' : frame [] st st' -> st' = st.
Proof.
  revert st'. induction st as [|x st IH]; intros [|y st'] [L U]; try discriminate; auto. pose proof (U 0%nat (fun H => H)) as H. cbn in H. injection H as ->. f_equal.
  apply IH. split; [now injection L|]. intros i N. exact (U (Datatypes.S i) N).
Qed.
Lemma new_fails hs st e hs' ex : sim hs st -> legal hs (CNew e) -> expr_moves e = [] -> hexec (CNew e) hs = HDone hs' (Throw ex) -> ex = BadAlloc /\ sim hs' st.
Proof.
  intros S L M E. destruct (legal_sim _ _ _ S L) as (_ & _ & st' & r & C & D). cbn in C, E. unfold mbind in C. destruct (eval e st) as [|st1 r1] eqn:E1; [discriminate|].
  assert (N1 : r1 <> Ub). { intros ->. injection C as _ C. now apply D. }
  assert (S' : sim hs (st ++ [])) by (now rewrite app_nil_r). pose proof (eval_ok e hs st [] st1 r1 S' E1 N1) as W. unfold wp in W. rewrite E, M in W.
  destruct W as ([-> _] & st2 & S2 & F2). rewrite app_nil_r in S2. now rewrite (frame_nil _ _ F2) in S2.
Qed.
Lemma copy_assign_fails hs st dst src d w hs' ex : sim hs st -> read st dst = Some d -> read st src = Some w -> owned w -> ~ strictly_inside src dst ->
  hexec (CAssign dst (CRef src)) hs = HDone hs' (Throw ex) -> ex = BadAlloc /\ sim hs' (write st dst (set_tag (type_of w) d)).
Proof.
  intros S Rd Rs O N E. pose proof (copy_assign_value st dst src d w Rd Rs O N) as E0. cbn in E0. unfold mbind, mret, assign in E0.
  destruct (at_loc_ok hs st [] dst d ltac:(now rewrite app_nil_r) Rd) as (pd & Ed & Vd). destruct (at_loc_ok hs st [] src w ltac:(now rewrite app_nil_r) Rs) as (ps & Es & Vs).
  cbn [hexec with_arg] in E. unfold hbind at 1 in E. rewrite Es in E. unfold hbind at 1 in E. rewrite Ed in E. cbn [h_assign] in E.
  destruct (wp_out _ _ _ _ (copy_assign_at hs st dst src pd ps _ _ d w S Vd Vs Rd Rs E0 ltac:(discriminate))) as [(hs1 & [] & E1 & _)|(hs1 & e & E1 & [-> _] & S1)]; rewrite E1 in E; [discriminate|]. injection E as <- <-. auto.
Qed.
Lemma no_bad_alloc v : (forall v' r, as_array_m v = (v', r) -> r <> Throw BadAlloc) /\ (forall v' r, as_object_m v = (v', r) -> r <> Throw BadAlloc).
Proof.
  assert (X : v_empty v <> Throw BadAlloc) by (unfold v_empty; destruct v as [[] ?|[] []|[] []]; discriminate).
  unfold as_array_m, as_object_m, coerce.
  split; intros v' r; destruct (v_empty v) as [[]| | | |] eqn:Ev; cbn; intros [= <- <-]; try congruence; destruct v as [[] ?|[] []|[] []]; cbn; discriminate.
Qed.
Lemma as_array_fails hs st l v hs' : sim hs st -> read st l = Some v -> legal hs (CInvoke l MAsArray) -> hexec (CInvoke l MAsArray) hs = HDone hs' (Throw BadAlloc) ->
  sim hs' (write st l (set_tag Tarray v)).
Proof.
  intros S R L E. destruct (legal_sim _ _ _ S L) as (_ & _ & st' & r & C & D). cbn in C. unfold call in C. rewrite R in C. destruct (as_array_m v) as [v1 r1] eqn:A. injection C as <- <-.
  assert (N1 : r1 <> Ub) by (intros ->; apply D; rewrite A; reflexivity).
  destruct (at_loc_ok hs st [] l v ltac:(now rewrite app_nil_r) R) as (pl & El & Vl). cbn [hexec h_invoke] in E. unfold hbind at 1 in E. rewrite El in E.
  destruct (wp_out _ _ _ _ (as_array_run hs st l v pl v1 r1 S R Vl A N1)) as [(hs1 & a & E1 & _)|(hs1 & e & E1 & [(-> & _)|(_ & S1)])]; unfold hbind in E; rewrite E1 in E; try discriminate; injection E as -> ->; auto.
  destruct (proj1 (no_bad_alloc v) _ _ A eq_refl).
Qed.
Lemma as_object_fails hs st l v hs' : sim hs st -> read st l = Some v -> legal hs (CInvoke l MAsObject) -> hexec (CInvoke l MAsObject) hs = HDone hs' (Throw BadAlloc) ->
  sim hs' (write st l (set_tag Tobject v)).
Proof.
  intros S R L E. destruct (legal_sim _ _ _ S L) as (_ & _ & st' & r & C & D). cbn in C. unfold call in C. rewrite R in C. destruct (as_object_m v) as [v1 r1] eqn:A. injection C as <- <-.
  assert (N1 : r1 <> Ub) by (intros ->; apply D; rewrite A; reflexivity).
  destruct (at_loc_ok hs st [] l v ltac:(now rewrite app_nil_r) R) as (pl & El & Vl). cbn [hexec h_invoke] in E. unfold hbind at 1 in E. rewrite El in E.
  destruct (wp_out _ _ _ _ (as_object_run hs st l v pl v1 r1 S R Vl A N1)) as [(hs1 & a & E1 & _)|(hs1 & e & E1 & [(-> & _)|(_ & S1)])]; unfold hbind in E; rewrite E1 in E; try discriminate; injection E as -> ->; auto.
  destruct (proj2 (no_bad_alloc v) _ _ A eq_refl).
Qed.

(** ** Values that are no part of each other *)
Definition leaves {A} (W : list loc) (m : M A) : Prop := forall st st' r, m st = Done st' r -> forall l v, Forall (apart l) W -> read st l = Some v -> read st' l = Some v.
Lemma l_ret {A} W (a : A) : leaves W (mret a).
Proof. intros st st' r [= <- _]. auto. Qed.
Lemma l_fail {A} W (a : res A) : leaves W (mfail a).
Proof. intros st st' r [= <- _]. auto. Qed.
Lemma l_rd W l : leaves W (rd l).
Proof. intros st st' r. unfold rd. destruct (read st l); intros [= <- _]. auto. Qed.
Lemma l_bind {A B} W (m : M A) (f : A -> M B) : leaves W m -> (forall a, leaves W (f a)) -> leaves W (mbind m f).
Proof.
  intros Hm Hf st st' r E l v Ap R. unfold mbind in E. destruct (m st) as [|st1 r1] eqn:E1; [discriminate|]. pose proof (Hm _ _ _ E1 l v Ap R) as R1.
  destruct r1 as [a|e| | |]; [exact (Hf a _ _ _ E l v Ap R1)|..]; injection E as <- _; exact R1.
Qed.
Lemma apart_below l w x : apart l w -> within w x = true -> apart l x.
Proof.
  intros [A B] H. apply within_spec in H as (Es & q & Eq). split.
  - destruct (within l x) eqn:E; auto. apply within_spec in E as (E1 & q' & E2). rewrite Eq in E2.
    assert (C : (exists z, steps w = steps l ++ z) \/ (exists z, steps l = steps w ++ z)). { clear - E2. revert E2. generalize (steps l). generalize (steps w). induction p as [|a p IH]; intros [|b p0] H; cbn in *; eauto. injection H as -> H. destruct (IH _ H) as [[z ->]|[z ->]]; [left|right]; exists z; reflexivity. }
    destruct C as [[z Z]|[z Z]].
    + assert (within l w = true); [|congruence]. apply within_spec. split; [congruence|eauto].
    + assert (within w l = true); [|congruence]. apply within_spec. split; [congruence|eauto].
  - destruct (within x l) eqn:E; auto. apply within_spec in E as (E1 & q' & E2). assert (within w l = true); [|congruence]. apply within_spec. split; [congruence|]. exists (q ++ q'). rewrite E2, Eq. now rewrite app_assoc.
Qed.
Lemma write_apart W st x u l v : (exists w, In w W /\ within w x = true) -> Forall (apart l) W -> read st l = Some v -> read (write st x u) l = Some v.
Proof. intros (w & Iw & Ww) Ap R. rewrite Forall_forall in Ap. destruct (apart_below _ _ _ (Ap w Iw) Ww) as [A B]. now rewrite read_write_disjoint. Qed.
Lemma within_refl l : within l l = true.
Proof. apply within_spec. split; auto. exists []. now rewrite app_nil_r. Qed.
Lemma l_wr W x u : (exists w, In w W /\ within w x = true) -> leaves W (wr x u).
Proof. intros Hw st st' r [= <- _] l v Ap R. eapply write_apart; eauto. Qed.
Lemma l_call {A} W x (f : value -> value * res A) : (exists w, In w W /\ within w x = true) -> leaves W (call x f).
Proof. intros Hw st st' r E l v Ap R. unfold call in E. destruct (read st x); [|discriminate]. destruct (f v0). injection E as <- _. eapply write_apart; eauto. Qed.
Lemma l_mono {A} W W' (m : M A) : leaves W m -> incl W W' -> leaves W' m.
Proof. intros H I st st' r E l v Ap R. apply (H _ _ _ E l v); auto. rewrite Forall_forall in *. auto. Qed.
Ltac own := first [(eexists; split; [cbn; eauto|apply within_refl]) | (eexists; split; [cbn; eauto|apply within_sub])].
Ltac leave := repeat first [apply l_ret | apply l_fail | apply l_rd | (apply l_bind; [|intros ?]) | (apply l_wr; own) | (apply l_call; own)].
Lemma l_eval e : leaves (expr_takes e) (eval e).
Proof.
  assert (Each : forall es, Forall (fun e => leaves (expr_takes e) (eval e)) es -> leaves (flat_map expr_takes es) (eval_list eval es)).
  { induction 1 as [|e0 es He _ IH]; cbn [eval_list flat_map]; [apply l_ret|]. apply l_bind; [eapply l_mono; [exact He|apply incl_appl, incl_refl]|intros ?].
    apply l_bind; [eapply l_mono; [exact IH|apply incl_appr, incl_refl]|intros ?; apply l_ret]. }
  induction e as [|b|s|s|t s|l|l|es IH|ms IH] using expr_ind'; cbn [eval expr_takes]; try (unfold copy_from, take; leave; fail).
  - apply l_bind; [now apply Each|intros ?; leave].
  - apply l_bind; [|intros ?; leave]. assert (Em : flat_map (fun ke => expr_takes (snd ke)) ms = flat_map expr_takes (map snd ms)). { clear. induction ms as [|x ms IH]; cbn; [reflexivity|now rewrite IH]. }
    rewrite Em. assert (IH' : Forall (fun e => leaves (expr_takes e) (eval e)) (map snd ms)) by (now apply Forall_map). pose proof (Each _ IH') as H.
    intros st st' r E. rewrite eval_members_list in E. destruct (eval_list eval (map snd ms) st) as [|st1 r1] eqn:E1; [discriminate|]. injection E as <- _. exact (H _ _ _ E1).
Qed.
Definition arg_own (a : arg) : list loc := match a with MRef l => [l] | _ => [] end.
Lemma l_construct a t : leaves (arg_own a) (construct a t).
Proof. destruct a, t; cbn; unfold copy_from, take; leave. Qed.
Lemma l_assign W d a t : (exists w, In w W /\ within w d = true) -> (forall l, a = MRef l -> exists w, In w W /\ within w l = true) -> leaves W (assign d a t).
Proof.
  intros Hd Ha. destruct a as [e|l|l], t as [v|]; cbn; unfold copy_assign, move_assign, copy_from;
  repeat first [apply l_ret | apply l_fail | apply l_rd | (apply l_bind; [|intros ?]) | (apply l_wr; exact Hd) | (apply l_wr; apply Ha; reflexivity) |
    match goal with |- leaves _ (if ?b then _ else _) => destruct b end].
Qed.
Lemma l_construct_in W a t : (forall l, a = MRef l -> exists w, In w W /\ within w l = true) -> leaves W (construct a t).
Proof. intros Ha. destruct a, t; cbn; unfold copy_from, take; repeat first [apply l_ret | apply l_fail | apply l_rd | (apply l_bind; [|intros ?]) | (apply l_wr; apply Ha; reflexivity)]. Qed.
Lemma l_emplace W d a t : (exists w, In w W /\ within w d = true) -> (forall l, a = MRef l -> exists w, In w W /\ within w l = true) -> leaves W (emplace_back d a t).
Proof.
  intros Hd Ha. unfold emplace_back. apply l_bind; [now apply l_call|intros ?]. apply l_bind; [now apply l_construct_in|intros ?].
  destruct a as [e|l|l]; [now apply l_call..|]. destruct (within l d); [apply l_ret|now apply l_call].
Qed.
Lemma l_insert W d k a t : (exists w, In w W /\ within w d = true) -> (forall l, a = MRef l -> exists w, In w W /\ within w l = true) -> leaves W (insert_or_assign d k a t).
Proof.
  intros Hd Ha. unfold insert_or_assign. apply l_bind; [now apply l_call|intros m]. destruct (obj_contains k m).
  - apply l_assign; auto. destruct Hd as (w & Iw & Ww). exists w. split; auto. apply within_spec in Ww as (E & q & Eq). apply within_spec. split; auto. exists (q ++ [Key k]). cbn. rewrite Eq. now rewrite app_assoc.
  - apply l_bind; [now apply l_construct_in|intros ?]. destruct a as [e|l|l]; [now apply l_call..|]. destruct (within l d); [apply l_ret|now apply l_call].
Qed.
Lemma l_merge d s mv ks : leaves [d; s] (merge_loop d s mv ks).
Proof.
  induction ks as [|k ks IH]; cbn [merge_loop]; [apply l_ret|]. apply l_bind; [apply l_rd|intros w]. destruct (negb (same d s) && within (sub d (Key k)) s); [apply l_fail|].
  assert (Hs : exists w, In w [d; s] /\ within w (sub s (Key k)) = true) by (exists s; split; [cbn; tauto|apply within_sub]).
  assert (Hd : exists w, In w [d; s] /\ within w d = true) by (exists d; split; [cbn; tauto|apply within_refl]).
  assert (A : leaves [d; s] (mbind (insert_or_assign d k (if mv then MRef (sub s (Key k)) else CRef (sub s (Key k))) None) (fun _ => merge_loop d s mv ks))).
  { apply l_bind; [|intros ?; exact IH]. apply l_insert; auto. destruct mv; intros l [= <-]; exact Hs. }
  assert (B : leaves [d; s] (mbind (take (sub s (Key k))) (fun _ => merge_loop d s mv ks))).
  { apply l_bind; [|intros ?; exact IH]. unfold take. apply l_bind; [apply l_rd|intros ?]. apply l_bind; [now apply l_wr|intros ?; apply l_ret]. }
  intros st st' r E. destruct (read st d); [exact (A _ _ _ E)|]. destruct mv; [exact (B _ _ _ E)|discriminate].
Qed.
Lemma l_push W v : leaves W (push_value v).
Proof. intros st st' r [= <- _] l w _ R. rewrite read_app; auto. eapply read_slot; eauto. Qed.
Lemma l_or d s mv : leaves [d; s] (or_assign d s mv).
Proof.
  assert (Hs : exists w, In w [d; s] /\ within w s = true) by (exists s; split; [cbn; tauto|apply within_refl]).
  assert (Hd : exists w, In w [d; s] /\ within w d = true) by (exists d; split; [cbn; tauto|apply within_refl]).
  assert (H1 : exists w, In w [s] /\ within w s = true) by (exists s; split; [cbn; tauto|apply within_refl]).
  unfold or_assign. apply l_bind; [now apply l_call|intros m0]. destruct (same d s && is_nil m0); [apply l_fail|].
  apply l_bind; [apply l_call; assumption|intros ?]. apply l_bind; [apply l_bind; [apply l_rd|intros ?; apply l_fail]|intros m]. apply l_merge.
Qed.
Lemma l_plus d s mv : leaves [d; s] (plus_assign d s mv).
Proof.
  assert (Hs : exists w, In w [d; s] /\ within w s = true) by (exists s; split; [cbn; tauto|apply within_refl]).
  assert (Hd : exists w, In w [d; s] /\ within w d = true) by (exists d; split; [cbn; tauto|apply within_refl]).
  assert (H1 : exists w, In w [s] /\ within w s = true) by (exists s; split; [cbn; tauto|apply within_refl]).
  unfold plus_assign. apply l_bind; [now apply l_call|intros ?]. apply l_bind; [apply l_call; assumption|intros ?]. destruct (same d s); [apply l_fail|].
  apply l_bind; [apply l_bind; [apply l_rd|intros ?; apply l_fail]|intros l]. destruct mv.
  - apply l_bind; [now apply l_wr|intros ?]. destruct (within s d); [apply l_ret|apply l_call; assumption].
  - apply l_bind; [apply l_fail|intros ?]. apply l_call; assumption.
Qed.
Lemma l_or_new (d s : loc) (ml mr : bool) : leaves (if ml then [d; s] else [s]) (or_new d s ml mr).
Proof.
  assert (Hs : exists w, In w [d; s] /\ within w s = true) by (exists s; split; [cbn; tauto|apply within_refl]).
  assert (Hd : exists w, In w [d; s] /\ within w d = true) by (exists d; split; [cbn; tauto|apply within_refl]).
  assert (H1 : exists w, In w [s] /\ within w s = true) by (exists s; split; [cbn; tauto|apply within_refl]).
  unfold or_new. destruct ml.
  - destruct (mr && within s d && negb (same d s)); repeat first [apply l_push | apply l_fail | apply l_rd | apply l_or | (apply l_bind; [|intros ?]) | (apply l_wr; assumption) | (apply l_call; assumption)].
  - apply l_bind; [apply l_call; assumption|intros ?]. apply l_bind; [apply l_bind; [apply l_rd|intros ?; apply l_fail]|intros m]. apply l_bind; [apply l_fail|intros m'].
    intros st st' r E l v Ap R. pose proof (read_slot _ _ _ R) as Ll.
    assert (L : leaves [Loc (length st) []; s] (run _ <- push_value (v_object m'); run r0 <- (run w <- rd s; mfail (as_object_c w)); merge_loop (Loc (length st) []) s mr (map fst r0))).
    { apply l_bind; [apply l_push|intros ?]. apply l_bind; [apply l_bind; [apply l_rd|intros ?; apply l_fail]|intros r0]. apply l_merge. }
    apply (L _ _ _ E l v); auto. constructor; auto. split; apply not_true_is_false; intros W; apply within_spec in W as [W _]; cbn in W; lia.
Qed.
Lemma l_plus_new (d s : loc) (ml mr : bool) : leaves (if ml then [d; s] else [s]) (plus_new d s ml mr).
Proof.
  assert (Hs : exists w, In w [d; s] /\ within w s = true) by (exists s; split; [cbn; tauto|apply within_refl]).
  assert (Hd : exists w, In w [d; s] /\ within w d = true) by (exists d; split; [cbn; tauto|apply within_refl]).
  assert (H1 : exists w, In w [s] /\ within w s = true) by (exists s; split; [cbn; tauto|apply within_refl]).
  unfold plus_new. destruct ml.
  - destruct (mr && within s d && negb (same d s)); repeat first [apply l_push | apply l_fail | apply l_rd | apply l_plus | (apply l_bind; [|intros ?]) | (apply l_wr; assumption) | (apply l_call; assumption)].
  - destruct mr; repeat first [apply l_push | apply l_fail | apply l_rd | (apply l_bind; [|intros ?]) | (apply l_wr; assumption) | (apply l_call; assumption)].
Qed.
Lemma l_exec c : leaves (targets c) (exec c).
Proof.
  assert (Hd : forall d W, exists w, In w (d :: W) /\ within w d = true) by (intros d W; exists d; split; [now left|apply within_refl]).
  assert (Ha : forall d a l, a = MRef l -> exists w, In w (d :: arg_takes a) /\ within w l = true) by (intros d a l ->; exists l; split; [cbn; tauto|apply within_refl]).
  assert (Hp : forall d a, leaves (d :: arg_takes a) (prepare a)).
  { intros d [e|l|l]; cbn; [|apply l_ret..]. apply l_bind; [|intros ?; apply l_ret]. eapply l_mono; [apply l_eval|apply incl_tl, incl_refl]. }
  destruct c as [e|d a|d a|d k a|d s mv|d s mv|d s ml mr|d s ml mr|l m|l q|x y]; cbn [targets exec].
  - apply l_bind; [apply l_eval|]. intros v st st' r [= <- _] l w _ R. rewrite read_app; auto. eapply read_slot; eauto.
  - apply l_bind; [apply Hp|intros t]. apply l_assign; auto.
  - apply l_bind; [apply Hp|intros t]. apply l_emplace; auto.
  - apply l_bind; [apply Hp|intros t]. apply l_insert; auto.
  - apply l_or.
  - apply l_plus.
  - apply l_or_new.
  - apply l_plus_new.
  - apply l_call; apply Hd.
  - apply l_bind; [apply l_rd|intros ?; apply l_fail].
  - apply l_bind; [apply l_rd|intros ?]. apply l_bind; [apply l_rd|intros ?]. apply l_bind; [apply l_fail|intros ?; apply l_ret].
Qed.
(** at any depth, over any program *)
Lemma apart_kept cs : forall hs st hs' l v, sim hs st -> fails hs = [] -> legal_run hs cs hs' -> Forall (fun c => Forall (apart l) (targets c)) cs -> read st l = Some v ->
  exists st', sim hs' st' /\ read st' l = Some v.
Proof.
  induction cs as [|c cs IH]; intros hs st hs' l v S F R Ap Rl; inversion R as [|? ? hs1 r1 ? ? L E1 R1]; subst; [eauto|].
  destruct (legal_sim _ _ _ S L) as (A & B & st' & r & C & D). destruct (hexec_refines c hs st st' r S A B C D) as (hs2 & r2 & E & H). rewrite E in E1. injection E1 as <- <-.
  destruct H as [(_ & S1 & U1 & Q1)|(_ & N & _)]; [|congruence]. inversion Ap; subst. apply (IH _ _ _ _ _ S1 (Q1 F) R1); auto. apply (l_exec c _ _ _ C); auto.
Qed.
Lemma sound_legal cs : forall hs st st', sim hs st -> fails hs = [] -> sound_history st cs st' -> exists hs', legal_run hs cs hs' /\ sim hs' st'.
Proof.
  induction cs as [|c cs IH]; intros hs st st' S F R; inversion R as [|? ? st1 r ? ? A B C D R1]; subst.
  - exists hs. split; auto. constructor.
  - destruct (hexec_refines c hs st st1 r S A B C D) as (hs1 & r1 & E & [(-> & S1 & U1 & Q1)|(_ & N & _)]); [|congruence].
    destruct (IH _ _ _ S1 (Q1 F) R1) as (hs2 & H2 & S2). exists hs2. split; auto. econstructor; eauto. exists st, st1, r. auto.
Qed.
Lemma sim_empty fl : sim (HS [] [] fl) [].
Proof. exists []. splits; [constructor..|]. intros a (n & H). destruct a; discriminate. Qed.
Lemma copy_from_part hs st dst src d w : sim hs st -> read st dst = Some d -> read st src = Some w -> owned w -> strictly_inside dst src -> fails hs = [] ->
  exists hs', hexec (CAssign dst (CRef src)) hs = HDone hs' (Ok tt) /\ sim hs' (write st dst w).
Proof. intros S Rd Rs O I F. apply (copy_assign_copies hs st dst src d w S Rd Rs O (inside_not _ _ I) F). Qed.
Lemma run_frees cs fl hs : legal_run (HS [] [] fl) cs hs ->
  exists st hs', sim hs st /\ drop_n (length st) hs = HDone hs' (Ok tt) /\ roots hs' = [] /\ forall a, ~ live (hp hs') a.
Proof.
  intros R. destruct (legal_run_keeps cs _ [] _ (sim_empty fl) R) as (st & S & _). destruct (destroy_all hs st S) as (hs' & A). exists st, hs'. auto.
Qed.
