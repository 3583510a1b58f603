(** * Programs that move nothing: every step is defined, on the trees and on the heap. *)
From Verif Require Import Base Value Spec Containers Dump Api SpecApi BaseProofs ContainerProofs ApiProofs Heap SpecHeap StoreProofs HeapBase HeapProofs HeapTheorems.
From Verif Require HeapSteps HeapCalls.

Lemma okv_of v : tag_ok v -> owned v -> keys_ok v -> okv ApiProofs.plain False v.
Proof.
  induction v as [t s|t|t l IH|t|t m IH] using value_ind'; intros Ht Ho Hk; inversion Ht; inversion Ho; inversion Hk; subst.
  - constructor. split; auto.
  - constructor. rewrite Forall_forall in *. auto.
  - constructor; auto. rewrite Forall_forall in *. auto.
Qed.
Lemma sound_okv v : sound v <-> okv ApiProofs.plain False v.
Proof.
  split; [intros (A & B & C); now apply okv_of|]. intros H. destruct (okv_tag_ok _ _ H) as [A B]. split; [auto|split; auto]. eapply okv_owned; eauto.
Qed.
Lemma sound_sok st : Forall sound st <-> sok ApiProofs.plain False st.
Proof. unfold sok. split; apply Forall_impl; intros v; apply sound_okv. Qed.

(** ** Evaluating a temporary does not change the store *)
Lemma eval_list_pure ev es st : Forall (fun e => exists r, ev e st = Done st r) es -> exists r, eval_list ev es st = Done st r.
Proof.
  induction 1 as [|e es (r & E) _ (r' & IH)]; cbn; [eexists; reflexivity|]. unfold mbind. rewrite E. destruct r; eauto. rewrite IH. destruct r'; eexists; reflexivity.
Qed.
Lemma eval_members_pure ev es st : Forall (fun ke => exists r, ev (snd ke) st = Done st r) es -> exists r, eval_members ev es st = Done st r.
Proof.
  induction 1 as [|(k, e) es (r & E) _ (r' & IH)]; cbn; [eexists; reflexivity|]. unfold mbind. cbn in E. rewrite E. destruct r; eauto. rewrite IH. destruct r'; eexists; reflexivity.
Qed.
Lemma eval_pure e st : no_move e -> Forall (fun l => read st l <> None) (expr_copies e) -> exists r, eval e st = Done st r.
Proof.
  induction e as [|b|s|s|t s|l|l|es IH|ms IH] using expr_ind'; intros Hm Hr; inversion Hm as [| | | | | |? Hf|? Hf]; subst; cbn [eval expr_copies] in *; try (eexists; reflexivity).
  - inversion_clear Hr as [|? ? R _]. unfold copy_from, mbind, rd, mfail. destruct (read st l); [eauto|tauto].
  - destruct (eval_list_pure eval es st) as (r & E).
    + rewrite Forall_forall in *. intros e He. apply IH; auto. rewrite Forall_forall. intros l Hl. apply Hr. apply in_flat_map. eauto.
    + unfold mbind. rewrite E. destruct r; eauto. unfold mfail. destruct (copy_elems copy a); eexists; reflexivity.
  - destruct (eval_members_pure eval ms st) as (r & E).
    + rewrite Forall_forall in *. intros e He. apply IH; auto. rewrite Forall_forall. intros l Hl. apply Hr. apply in_flat_map. eauto.
    + unfold mbind. rewrite E. destruct r; eauto. unfold mfail. destruct (copy_members copy a); eexists; reflexivity.
Qed.
Lemma prepare_pure a st : arg_all no_move False a -> Forall (fun l => read st l <> None) (arg_copies a) -> exists r, prepare a st = Done st r.
Proof.
  destruct a as [e|l|l]; cbn; intros H R; try (eexists; reflexivity). destruct (eval_pure e st H R) as (r & E). unfold mbind. rewrite E. destruct r; eexists; reflexivity.
Qed.

(** ** References survive as_array() and as_object() *)
Lemma empty_no_parts v s p : sound v -> v_empty v = Ok true -> get_at (s :: p) v = None.
Proof.
  intros H%sound_okv E. destruct H as [t x A|l A|[]|m A S|[]]; destruct s; try reflexivity.
  - destruct l; [|discriminate]. destruct n; reflexivity.
  - destruct m; [|discriminate]. reflexivity.
Qed.
Lemma as_array_parts v s p : sound v -> get_at (s :: p) v <> None -> get_at (s :: p) (fst (as_array_m v)) = get_at (s :: p) v.
Proof.
  intros H G. unfold as_array_m, coerce. destruct (v_empty v) as [[]|e| | |] eqn:E; cbn; auto.
  exfalso. now apply G, empty_no_parts.
Qed.
Lemma as_object_parts v s p : sound v -> get_at (s :: p) v <> None -> get_at (s :: p) (fst (as_object_m v)) = get_at (s :: p) v.
Proof.
  intros H G. unfold as_object_m, coerce. destruct (v_empty v) as [[]|e| | |] eqn:E; cbn; auto.
  exfalso. now apply G, empty_no_parts.
Qed.
Lemma write_keeps st a v v' b : read st a = Some v -> (forall s p, get_at (s :: p) v <> None -> get_at (s :: p) v' <> None) ->
  read st b <> None -> read (write st a v') b <> None.
Proof.
  intros Ha Hk Hb. destruct (within a b) eqn:W1.
  - apply within_spec in W1. destruct W1 as (E & r & Er). destruct b as [j q]. cbn in E, Er. subst j q. rewrite read_write_below, Ha.
    unfold read in Ha, Hb. cbn in Hb. destruct (nth_error st (slot a)); [|discriminate]. rewrite get_at_app, Ha in Hb. destruct r as [|s r]; [discriminate|auto].
  - destruct (within b a) eqn:W2.
    + destruct (read_write_above st b a v' W2) as (q & _ & ->). destruct (read st b); [discriminate|tauto].
    + now rewrite read_write_disjoint.
Qed.
Lemma call_array st a v b : sok ApiProofs.plain False st -> read st a = Some v -> exists st' r, call a as_array_m st = Done st' r /\ sok ApiProofs.plain False st' /\
  (read st b <> None -> read st' b <> None) /\ (forall l, r = Ok l -> read st' a = Some (VArr Tarray (Some l))).
Proof.
  intros Hs Ha. destruct plain_facts as (P1 & P2 & P3 & P4 & P5). pose proof (read_ok _ _ _ _ _ Hs Ha) as Hv.
  pose proof (as_array_mok ApiProofs.plain False (P4 False) P5 v Hv) as M. unfold call. rewrite Ha. pose proof (as_array_parts v) as K. destruct (as_array_m v) as [v' r] eqn:E. cbn [fst snd] in *.
  eexists _, _. split; [reflexivity|]. split; [|split].
  - apply write_ok; auto. destruct M as [M1 M2]. cbn [fst snd] in *. apply M1. intros ->. exact M2.
  - intros Hb. apply (write_keeps st a v); auto. intros s p G. rewrite K; auto. now apply sound_okv.
  - intros l ->. rewrite read_write_same, Ha. f_equal. destruct M as [_ M]. cbn in M. apply M.
Qed.
Lemma call_object st a v b : sok ApiProofs.plain False st -> read st a = Some v -> exists st' r, call a as_object_m st = Done st' r /\ sok ApiProofs.plain False st' /\
  (read st b <> None -> read st' b <> None) /\ (forall m, r = Ok m -> read st' a = Some (VObj Tobject (Some m))).
Proof.
  intros Hs Ha. destruct plain_facts as (P1 & P2 & P3 & P4 & P5). pose proof (read_ok _ _ _ _ _ Hs Ha) as Hv.
  pose proof (as_object_mok ApiProofs.plain False (P4 False) P5 v Hv) as M. unfold call. rewrite Ha. pose proof (as_object_parts v) as K. destruct (as_object_m v) as [v' r] eqn:E. cbn [fst snd] in *.
  eexists _, _. split; [reflexivity|]. split; [|split].
  - apply write_ok; auto. destruct M as [M1 M2]. cbn [fst snd] in *. apply M1. intros ->. exact M2.
  - intros Hb. apply (write_keeps st a v); auto. intros s p G. rewrite K; auto. now apply sound_okv.
  - intros l ->. rewrite read_write_same, Ha. f_equal. destruct M as [_ M]. cbn in M. apply M.
Qed.

(** ** Progress *)
Lemma copy_assign_done st dst src d w : read st dst = Some d -> read st src = Some w -> ~ strictly_inside src dst -> exists st' r, copy_assign dst src st = Done st' r.
Proof.
  intros Hd Hw Hn. unfold copy_assign, mbind, rd, wr, copy_from, mbind, rd, mfail. rewrite Hd, Hw, (reread st dst src d w Hd Hw Hn). destruct (copy w); eexists _, _; reflexivity.
Qed.
Lemma assign_done st dst a t : read st dst <> None -> Forall (fun l => read st l <> None) (arg_refs a) -> arg_all no_move False a ->
  (forall l, a = CRef l -> ~ strictly_inside l dst) -> exists st' r, assign dst a t st = Done st' r.
Proof.
  intros Hd Ha Hm Hn. destruct (read st dst) as [d|] eqn:Ed; [|tauto]. destruct a as [e|l|l]; cbn in *.
  - destruct t; [|eexists _, _; reflexivity]. unfold mbind, rd, wr. rewrite Ed. eexists _, _; reflexivity.
  - inversion_clear Ha as [|? ? R _]. destruct (read st l) as [w|] eqn:Ew; [|tauto]. destruct t; eapply copy_assign_done; eauto.
  - tauto.
Qed.
Lemma construct_done st a t : Forall (fun l => read st l <> None) (arg_refs a) -> arg_all no_move False a -> exists r, construct a t st = Done st r.
Proof.
  intros Ha Hm. destruct a as [e|l|l]; cbn in *; [destruct t; eexists; reflexivity| |tauto].
  inversion_clear Ha as [|? ? R _]. unfold copy_from, mbind, rd, mfail. destruct (read st l); [|tauto]. destruct t; eexists; reflexivity.
Qed.
Lemma call_done {B} st l (f : value -> value * res B) : read st l <> None -> exists st' r, call l f st = Done st' r.
Proof. intros H. unfold call. destruct (read st l) as [v|]; [|tauto]. destruct (f v). eexists _, _; reflexivity. Qed.
Lemma refs_kept st st' a : (forall b, read st b <> None -> read st' b <> None) -> Forall (fun l => read st l <> None) (arg_refs a) -> Forall (fun l => read st' l <> None) (arg_refs a).
Proof. intros H. apply Forall_impl. intros b. apply H. Qed.
Lemma call_array_all st a v : sok ApiProofs.plain False st -> read st a = Some v -> exists st' r, call a as_array_m st = Done st' r /\ sok ApiProofs.plain False st' /\
  (forall b, read st b <> None -> read st' b <> None) /\ (forall l, r = Ok l -> read st' a = Some (VArr Tarray (Some l))).
Proof.
  intros Hs Ha. destruct (call_array st a v a Hs Ha) as (st' & r & E & S & _ & R). exists st', r. repeat split; auto.
  intros b. destruct (call_array st a v b Hs Ha) as (st2 & r2 & E2 & _ & K & _). rewrite E in E2. injection E2 as <- <-. exact K.
Qed.
Lemma call_object_all st a v : sok ApiProofs.plain False st -> read st a = Some v -> exists st' r, call a as_object_m st = Done st' r /\ sok ApiProofs.plain False st' /\
  (forall b, read st b <> None -> read st' b <> None) /\ (forall m, r = Ok m -> read st' a = Some (VObj Tobject (Some m))).
Proof.
  intros Hs Ha. destruct (call_object st a v a Hs Ha) as (st' & r & E & S & _ & R). exists st', r. repeat split; auto.
  intros b. destruct (call_object st a v b Hs Ha) as (st2 & r2 & E2 & _ & K & _). rewrite E in E2. injection E2 as <- <-. exact K.
Qed.
Lemma emplace_done st dst a t : sok ApiProofs.plain False st -> read st dst <> None -> Forall (fun l => read st l <> None) (arg_refs a) -> arg_all no_move False a ->
  exists st' r, emplace_back dst a t st = Done st' r.
Proof.
  intros Hs Hd Ha Hm. destruct (read st dst) as [d|] eqn:Ed; [|tauto]. destruct (call_array_all st dst d Hs Ed) as (st1 & r1 & E1 & S1 & K1 & R1).
  unfold emplace_back, mbind. rewrite E1. destruct r1 as [l|e| | |]; try (eexists _, _; reflexivity).
  destruct (construct_done st1 a t) as (r2 & E2); [now apply (refs_kept st)|auto|]. rewrite E2. destruct r2; try (eexists _, _; reflexivity).
  assert (Hd1 : read st1 dst <> None) by (rewrite (R1 l eq_refl); discriminate).
  destruct a; [now apply call_done|now apply call_done|cbn in Hm; tauto].
Qed.
Lemma insert_done st dst k a t : sok ApiProofs.plain False st -> read st dst <> None -> Forall (fun l => read st l <> None) (arg_refs a) -> arg_all no_move False a ->
  (forall l, a = CRef l -> ~ strictly_inside l (sub dst (Key k))) -> exists st' r, insert_or_assign dst k a t st = Done st' r.
Proof.
  intros Hs Hd Ha Hm Hn. destruct (read st dst) as [d|] eqn:Ed; [|tauto]. destruct (call_object_all st dst d Hs Ed) as (st1 & r1 & E1 & S1 & K1 & R1).
  unfold insert_or_assign, mbind. rewrite E1. destruct r1 as [m|e| | |]; try (eexists _, _; reflexivity). specialize (R1 m eq_refl).
  destruct (obj_contains k m) eqn:C.
  - apply assign_done; auto; [|now apply (refs_kept st)]. unfold read in R1 |- *. cbn. destruct (nth_error st1 (slot dst)); [|discriminate].
    rewrite get_at_app, R1. cbn. unfold obj_contains in C. destruct (map_find k m); discriminate.
  - destruct (construct_done st1 a t) as (r2 & E2); [now apply (refs_kept st)|auto|]. rewrite E2. destruct r2; try (eexists _, _; reflexivity).
    assert (Hd1 : read st1 dst <> None) by (rewrite R1; discriminate).
    destruct a; [now apply call_done|now apply call_done|cbn in Hm; tauto].
Qed.
(** what an insertion into [dst] leaves alone *)
Lemma copy_assign_frame dst src st st' r b : copy_assign dst src st = Done st' r -> within dst b = false -> within b dst = false -> read st' b = read st b.
Proof.
  unfold copy_assign, mbind, rd, wr, copy_from, mbind, rd, mfail. intros E W1 W2. destruct (read st dst); [|discriminate]. destruct (read st src); [|discriminate].
  destruct (read _ src) in E; [|discriminate]. destruct (copy v1); injection E as <- _; rewrite !read_write_disjoint; auto.
Qed.
Lemma call_frame {B} l (f : value -> value * res B) st st' r b : call l f st = Done st' r -> within l b = false -> within b l = false -> read st' b = read st b.
Proof.
  unfold call. intros E W1 W2. destruct (read st l); [|discriminate]. destruct (f v). injection E as <- _. now apply read_write_disjoint.
Qed.
Lemma sub_apart dst k b : within dst b = false -> within b dst = false -> within (sub dst (Key k)) b = false /\ within b (sub dst (Key k)) = false.
Proof.
  intros W1 W2. split; apply not_true_is_false; intros H; apply within_spec in H as (E & q & Eq); cbn in *.
  - rewrite <- app_assoc in Eq. assert (within dst b = true) by (apply within_spec; eauto). congruence.
  - destruct q as [|x0 q0].
    + rewrite app_nil_r in Eq. assert (within dst b = true) by (apply within_spec; split; auto; exists [Key k]; auto). congruence.
    + destruct (exists_last (l := x0 :: q0)) as (q' & x & Eq'); [discriminate|]. rewrite Eq' in Eq. rewrite app_assoc in Eq. apply app_inj_tail in Eq as [Eq _].
      assert (within b dst = true) by (apply within_spec; eauto). congruence.
Qed.
Lemma insert_frame dst k src st st' r b : insert_or_assign dst k (CRef src) None st = Done st' r -> within dst b = false -> within b dst = false -> read st' b = read st b.
Proof.
  intros E W1 W2. unfold insert_or_assign, mbind in E. destruct (call dst as_object_m st) as [|st1 r1] eqn:C; [discriminate|].
  pose proof (call_frame _ _ _ _ _ _ C W1 W2) as F1. destruct r1 as [m|e| | |]; try (injection E as <- _; exact F1).
  destruct (obj_contains k m).
  - cbn [assign] in E. destruct (sub_apart dst k b W1 W2). rewrite <- F1. eapply copy_assign_frame; eauto.
  - cbn [construct] in E. unfold copy_from, mbind, rd, mfail in E. destruct (read st1 src); [|discriminate]. destruct (copy v) in E; try (injection E as <- _; exact F1).
    rewrite <- F1. eapply call_frame; eauto.
Qed.
Lemma insert_object dst k src st st' : sok ApiProofs.plain False st -> ~ strictly_inside src (sub dst (Key k)) -> within dst src = false -> within src dst = false ->
  insert_or_assign dst k (CRef src) None st = Done st' (Ok tt) -> read st' dst <> None.
Proof.
  intros Hs Hn W1 W2 E. unfold insert_or_assign, mbind in E. destruct (call dst as_object_m st) as [|st1 r1] eqn:C; [discriminate|].
  assert (Hd : read st dst <> None). { unfold call in C. destruct (read st dst); discriminate. }
  destruct (read st dst) as [d|] eqn:Ed; [|tauto]. destruct (call_object_all st dst d Hs Ed) as (st2 & r2 & E2 & S2 & K2 & R2). rewrite C in E2. injection E2 as <- <-.
  destruct r1 as [m|e| | |]; try discriminate. specialize (R2 m eq_refl). destruct (obj_contains k m) eqn:O.
  - cbn [assign] in E. unfold copy_assign, mbind, rd, wr, copy_from, mbind, rd, mfail in E. destruct (read st1 (sub dst (Key k))); [|discriminate]. destruct (read st1 src); [|discriminate].
    destruct (read _ src) in E; [|discriminate]. destruct (copy v1) in E; try discriminate. injection E as <-.
    assert (W : within dst (sub dst (Key k)) = true) by (apply within_spec; split; auto; exists [Key k]; auto).
    destruct (read_write_above (write st1 (sub dst (Key k)) (set_tag (type_of v0) v)) dst (sub dst (Key k)) (set_tag (type_of v0) a) W) as (q & _ & ->).
    destruct (read_write_above st1 dst (sub dst (Key k)) (set_tag (type_of v0) v) W) as (q' & _ & ->). rewrite R2. discriminate.
  - cbn [construct] in E. unfold copy_from, mbind, rd, mfail in E. destruct (read st1 src); [|discriminate]. destruct (copy v) in E; try discriminate.
    unfold call in E. rewrite R2 in E. destruct (on_object _ _) in E. injection E as <- _. rewrite read_write_same, R2. discriminate.
Qed.
Lemma merge_done dst src ks : within dst src = false -> within src dst = false -> forall st m, sok ApiProofs.plain False st -> read st dst <> None ->
  read st src = Some (VObj Tobject (Some m)) -> (forall k, In k ks -> map_find k m <> None) -> exists st' r, merge_loop dst src false ks st = Done st' r /\ (r = Ok tt -> read st' dst <> None).
Proof.
  intros W1 W2. induction ks as [|k ks IH]; intros st m Hs Hd Hm Hk; cbn [merge_loop]; [eexists _, _; split; [reflexivity|auto]|].
  assert (R : read st (sub src (Key k)) <> None).
  { unfold read in Hm |- *. cbn. destruct (nth_error st (slot src)); [|discriminate]. rewrite get_at_app, Hm. cbn. specialize (Hk k (or_introl eq_refl)). destruct (map_find k m); [discriminate|tauto]. }
  unfold mbind at 1. unfold rd at 1. destruct (read st (sub src (Key k))) as [w|] eqn:Ew; [|tauto].
  destruct (sub_apart dst k src W1 W2) as [V1 V2]. rewrite V1, andb_false_r. destruct (read st dst) as [d|] eqn:Ed; [|tauto].
  assert (Hn : ~ strictly_inside (sub src (Key k)) (sub dst (Key k))).
  { intros H. apply inside_sub in H. apply strictly_inside_spec in H. destruct H. congruence. }
  destruct (sub_apart src k dst W2 W1) as [U1 U2].
  destruct (insert_done st dst k (CRef (sub src (Key k))) None) as (st1 & r1 & E1).
  - auto.
  - congruence.
  - constructor; [congruence|constructor].
  - exact I.
  - intros l [= <-]. exact Hn.
  - unfold mbind. rewrite E1. destruct r1 as [[]|e| | |]; try (eexists _, _; split; [reflexivity|discriminate]). apply (IH st1 m).
    + destruct plain_facts as (P1 & P2 & P3 & P4 & P5).
      assert (T : triple ApiProofs.plain False False (fun _ : unit => True) (insert_or_assign dst k (CRef (sub src (Key k))) None)).
      { apply t_insert; auto; cbn; auto. intros l [= <-]. exact Hn. }
      specialize (T st Hs). rewrite E1 in T. apply T. discriminate.
    + eapply insert_object; [exact Hs| | | |exact E1]; auto.
    + now rewrite (insert_frame _ _ _ _ _ _ _ E1 W1 W2).
    + intros k' H'. apply Hk. now right.
Qed.
(** merging an object with itself changes nothing *)
Lemma merge_self_done l m ks : forall st, sok ApiProofs.plain False st -> read st l = Some (VObj Tobject (Some m)) -> m <> [] ->
  (forall k, In k ks -> map_find k m <> None) -> exists r, merge_loop l l false ks st = Done st r.
Proof.
  induction ks as [|k ks IH]; intros st Hs Hm Hne Hk; cbn [merge_loop]; [eexists; reflexivity|].
  assert (R : read st (sub l (Key k)) = map_find k m).
  { unfold read in Hm |- *. cbn. destruct (nth_error st (slot l)); [|discriminate]. rewrite get_at_app, Hm. cbn. destruct (map_find k m); reflexivity. }
  pose proof (Hk k (or_introl eq_refl)) as F. destruct (map_find k m) as [x|] eqn:Fx; [|tauto].
  unfold mbind at 1. unfold rd at 1. rewrite R. assert (S : same l l = true) by now apply same_spec. rewrite S. cbn [negb andb]. rewrite Hm.
  assert (E : insert_or_assign l k (CRef (sub l (Key k))) None st = Done st (Ok tt)).
  { unfold insert_or_assign, mbind, call. rewrite Hm. assert (O : as_object_m (VObj Tobject (Some m)) = (VObj Tobject (Some m), Ok m)) by (destruct m; [tauto|reflexivity]).
    rewrite O, (write_same _ _ _ Hm). assert (C : obj_contains k m = true) by (unfold obj_contains; now rewrite Fx). rewrite C. cbn [assign].
    unfold copy_assign, mbind, rd, wr, copy_from, mbind, rd, mfail. rewrite R; cbv beta iota; rewrite R; cbv beta iota; rewrite set_tag_same, (write_same _ _ _ R), R.
    pose proof (read_ok _ _ _ _ _ Hs R) as Hx. destruct plain_facts as (P1 & P2 & P3 & P4 & P5). pose proof (copy_rok ApiProofs.plain False x Hx) as Cx.
    destruct (copy x) as [c|e| | |] eqn:Ec; cbn in Cx; try tauto.
    - subst c. rewrite set_tag_same, (write_same _ _ _ R). reflexivity.
    - exfalso. eapply copy_no_throw; eauto. }
  unfold mbind. rewrite E. apply IH; auto. intros k' H'. apply Hk. now right.
Qed.
Lemma not_inside_cases a b : ~ strictly_inside a b -> ~ strictly_inside b a -> a = b \/ (within a b = false /\ within b a = false).
Proof.
  intros H G. destruct (within a b) eqn:W1.
  - left. destruct (same a b) eqn:S; [now apply same_spec|]. exfalso. apply H, strictly_inside_spec. split; auto. intros E. apply same_spec in E. congruence.
  - destruct (within b a) eqn:W2; auto. exfalso. apply G, strictly_inside_spec. split; auto. intros ->. congruence.
Qed.
Lemma or_done st dst src : sok ApiProofs.plain False st -> read st dst <> None -> read st src <> None -> ~ strictly_inside src dst -> ~ strictly_inside dst src ->
  exists st' r, or_assign dst src false st = Done st' r /\ (r = Ok tt -> read st' dst <> None).
Proof.
  intros Hs Rd Rs Hn Hin.
  destruct (read st src) as [w|] eqn:Ew; [|tauto]. destruct (call_object_all st src w Hs Ew) as (st1 & r1 & E1 & S1 & K1 & R1). unfold or_assign. unfold mbind at 1. rewrite E1.
  destruct r1 as [m0|e| | |]; try (eexists _, _; split; [reflexivity|discriminate]). specialize (R1 m0 eq_refl).
  destruct (same dst src && is_nil m0) eqn:Z; [eexists _, _; split; [reflexivity|discriminate]|].
  assert (Hd1 : read st1 dst <> None) by auto. destruct (read st1 dst) as [d|] eqn:Ed; [|tauto]. destruct (call_object_all st1 dst d S1 Ed) as (st2 & r2 & E2 & S2 & K2 & R2).
  unfold mbind at 1. rewrite E2. destruct r2 as [m1|e| | |]; try (eexists _, _; split; [reflexivity|discriminate]). specialize (R2 m1 eq_refl).
  destruct (not_inside_cases dst src Hin Hn) as [->|[W1 W2]].
  - assert (S : same src src = true) by now apply same_spec. rewrite S in Z. cbn in Z. rewrite R1 in Ed. injection Ed as <-.
    assert (O : as_object_m (VObj Tobject (Some m0)) = (VObj Tobject (Some m0), Ok m0)) by (destruct m0; [discriminate|reflexivity]).
    unfold call in E2. rewrite R1, O, (write_same _ _ _ R1) in E2. injection E2 as <- <-.
    unfold mbind, rd, mfail. rewrite R1. cbn. destruct (merge_self_done src m0 (map fst m0) st1) as (r & E); eauto.
    + intros ->. discriminate.
    + intros k Hk E. apply map_find_none in E. tauto.
  - unfold mbind, rd, mfail. pose proof (call_frame _ _ _ _ _ src E2 W1 W2) as F. rewrite F, R1. cbn.
    assert (Hd2 : read st2 dst <> None) by (rewrite R2; discriminate). rewrite R1 in F.
    apply (merge_done dst src (map fst m0) W1 W2 st2 m0); auto.
    intros k Hk E. apply map_find_none in E. tauto.
Qed.
Lemma plus_done st dst src : sok ApiProofs.plain False st -> read st dst <> None -> read st src <> None ->
  exists st' r, plus_assign dst src false st = Done st' r /\ (r = Ok tt -> read st' dst <> None).
Proof.
  intros Hs Rd Rs.
  destruct (read st src) as [w|] eqn:Ew; [|tauto]. destruct (call_array_all st src w Hs Ew) as (st1 & r1 & E1 & S1 & K1 & R1). unfold plus_assign. unfold mbind at 1. rewrite E1.
  destruct r1 as [l0|e| | |]; try (eexists _, _; split; [reflexivity|discriminate]). specialize (R1 l0 eq_refl).
  assert (Hd1 : read st1 dst <> None) by auto. destruct (read st1 dst) as [d|] eqn:Ed; [|tauto]. destruct (call_array_all st1 dst d S1 Ed) as (st2 & r2 & E2 & S2 & K2 & R2).
  unfold mbind at 1. rewrite E2. destruct r2 as [l1|e| | |]; try (eexists _, _; split; [reflexivity|discriminate]). specialize (R2 l1 eq_refl).
  destruct (same dst src); [eexists _, _; split; [reflexivity|discriminate]|].
  assert (Rs2 : read st2 src <> None) by (apply K2; rewrite R1; discriminate). unfold mbind, rd, mfail. destruct (read st2 src) as [w2|]; [|tauto].
  destruct (as_array_c w2); try (eexists _, _; split; [reflexivity|discriminate]). destruct (copy_elems copy a); try (eexists _, _; split; [reflexivity|discriminate]).
  unfold call. rewrite R2. destruct (on_array _ _) as [v' r]. eexists _, _. split; [reflexivity|]. intros _. rewrite read_write_same, R2. discriminate.
Qed.
Lemma or_new_done st lhs src ml : sok ApiProofs.plain False st -> read st lhs <> None -> read st src <> None -> (ml = true -> ~ strictly_inside src lhs) -> (ml = true -> ~ strictly_inside lhs src) ->
  exists st' r, or_new lhs src ml false st = Done st' r.
Proof.
  intros Hs Rd Rs Hn Hin. unfold or_new. destruct ml; cbn [andb].
  - destruct (or_done st lhs src Hs Rd Rs (Hn eq_refl) (Hin eq_refl)) as (st1 & r1 & E1 & K1). unfold mbind at 1. rewrite E1. destruct r1 as [[]|e| | |]; try (eexists _, _; reflexivity).
    unfold mbind, rd, mfail, wr, push_value. specialize (K1 eq_refl). destruct (read st1 lhs) as [w|]; [|tauto]. destruct (as_object_c w); eexists _, _; reflexivity.
  - destruct (read st src) as [w|] eqn:Ew; [|tauto]. destruct (call_object_all st src w Hs Ew) as (st1 & r1 & E1 & S1 & K1 & R1). unfold mbind at 1. rewrite E1.
    destruct r1 as [m0|e| | |]; try (eexists _, _; reflexivity). specialize (R1 m0 eq_refl). unfold mbind, rd, mfail.
    assert (Hd1 : read st1 lhs <> None) by auto. destruct (read st1 lhs) as [d|] eqn:Ed; [|tauto]. pose proof (read_ok _ _ _ _ _ S1 Ed) as Hv.
    destruct (as_object_c d) as [m|e| | |] eqn:Ec; try (eexists _, _; reflexivity).
    destruct (copy_members copy m) as [m'|e| | |] eqn:Em; try (eexists _, _; reflexivity). destruct (HeapCalls.copy_members_fine m _ Em) as [Y _]; [discriminate|]. injection Y as ->.
    assert (Ev : d = VObj Tobject (Some m)).
    { destruct plain_facts as (P1 & P2 & P3 & P4 & P5). pose proof (as_object_c_rok ApiProofs.plain False P5 d Hv) as X. rewrite Ec in X. apply X. }
    unfold push_value. pose proof (HeapSteps.read_slot _ _ _ R1) as Ls. rewrite HeapSteps.read_app, R1 by auto. cbn [as_object_c is_object type_of vtype_eqb get_obj].
    assert (A1 : within (Loc (length st1) []) src = false) by (apply not_true_is_false; intros W; apply within_spec in W as [W _]; cbn in W; lia).
    assert (A2 : within src (Loc (length st1) []) = false) by (apply not_true_is_false; intros W; apply within_spec in W as [W _]; cbn in W; lia).
    destruct (merge_done (Loc (length st1) []) src (map fst m0) A1 A2 (st1 ++ [v_object m]) m0) as (st' & r & E & _); eauto.
    + unfold sok. apply Forall_app. split; [exact S1|]. constructor; [|constructor]. rewrite Ev in Hv. exact Hv.
    + unfold read. cbn. rewrite nth_error_app2, Nat.sub_diag by lia. discriminate.
    + now rewrite HeapSteps.read_app by auto.
    + intros k Hk E. apply map_find_none in E. tauto.
Qed.
Lemma plus_new_done st lhs src ml : sok ApiProofs.plain False st -> read st lhs <> None -> read st src <> None ->
  exists st' r, plus_new lhs src ml false st = Done st' r.
Proof.
  intros Hs Rd Rs. unfold plus_new. destruct ml; cbn [andb].
  - destruct (plus_done st lhs src Hs Rd Rs) as (st1 & r1 & E1 & K1). unfold mbind at 1. rewrite E1. destruct r1 as [[]|e| | |]; try (eexists _, _; reflexivity).
    unfold mbind, rd, mfail, wr, push_value. specialize (K1 eq_refl). destruct (read st1 lhs) as [w|]; [|tauto]. destruct (as_array_c w); eexists _, _; reflexivity.
  - destruct (read st src) as [w|] eqn:Ew; [|tauto]. destruct (call_array_all st src w Hs Ew) as (st1 & r1 & E1 & S1 & K1 & R1). unfold mbind at 1. rewrite E1.
    destruct r1 as [m0|e| | |]; try (eexists _, _; reflexivity). specialize (R1 m0 eq_refl). unfold mbind, rd, mfail.
    assert (Hd1 : read st1 lhs <> None) by auto. destruct (read st1 lhs) as [d|] eqn:Ed; [|tauto].
    destruct (as_array_c d) as [m|e| | |] eqn:Ec; try (eexists _, _; reflexivity).
    destruct (copy_elems copy m) as [m'|e| | |]; try (eexists _, _; reflexivity). rewrite R1. cbn [as_array_c is_array type_of vtype_eqb get_arr].
    destruct (append_array m' m0); eexists _, _; reflexivity.
Qed.
Lemma exec_done c st : sok ApiProofs.plain False st -> cmd_no_move c -> ~ copies_into_part c -> names_exist st c -> ~ misuse st c -> exists st' r, exec c st = Done st' r.
Proof.
  intros Hs Hm Hn Hr Hu. unfold names_exist in Hr. apply Forall_app in Hr as [Hr Hc].
  destruct c as [e|dst a|dst a|dst k a|dst src mv|dst src mv|lhs src ml mr|lhs src ml mr|l m|l q|a b]; cbn [exec refs cmd_copies copies_into_part misuse] in *; unfold cmd_no_move in Hm; cbn in Hm.
  - destruct (eval_pure e st Hm Hc) as (r & E). unfold mbind. rewrite E. destruct r; eexists _, _; reflexivity.
  - inversion_clear Hr as [|? ? Rd Ra]. destruct (prepare_pure a st Hm Hc) as (r & E). unfold mbind. rewrite E. destruct r; try (eexists _, _; reflexivity). apply assign_done; auto. intros l ->. exact Hn.
  - inversion_clear Hr as [|? ? Rd Ra]. destruct (prepare_pure a st Hm Hc) as (r & E). unfold mbind. rewrite E. destruct r; try (eexists _, _; reflexivity). now apply emplace_done.
  - inversion_clear Hr as [|? ? Rd Ra]. destruct (prepare_pure a st Hm Hc) as (r & E). unfold mbind. rewrite E. destruct r; try (eexists _, _; reflexivity). apply insert_done; auto. intros l ->. exact Hn.
  - destruct mv; [tauto|]. inversion_clear Hr as [|? ? Rd Ra]. inversion_clear Ra as [|? ? Rs _]. destruct (or_done st dst src) as (st' & r & E & _); eauto; tauto.
  - destruct mv; [tauto|]. inversion_clear Hr as [|? ? Rd Ra]. inversion_clear Ra as [|? ? Rs _]. destruct (plus_done st dst src) as (st' & r & E & _); eauto.
  - destruct mr; [tauto|]. inversion_clear Hr as [|? ? Rd Ra]. inversion_clear Ra as [|? ? Rs _]. apply or_new_done; auto; intros ->; tauto.
  - destruct mr; [tauto|]. inversion_clear Hr as [|? ? Rd Ra]. inversion_clear Ra as [|? ? Rs _]. apply plus_new_done; auto.
  - inversion_clear Hr. now apply call_done.
  - inversion_clear Hr as [|? ? R _]. unfold mbind, rd, mfail. destruct (read st l); [eexists _, _; reflexivity|tauto].
  - inversion_clear Hr as [|? ? R Ra]. inversion_clear Ra as [|? ? Rb _]. unfold mbind, rd, mfail. destruct (read st a) as [x|]; [|tauto]. destruct (read st b) as [y|]; [|tauto].
    destruct (v_eq x y); eexists _, _; reflexivity.
Qed.
Lemma no_move_not_into c : cmd_no_move c -> ~ moves_into_part c.
Proof. destruct c as [e|dst [e|l|l]|dst [e|l|l]|dst k [e|l|l]|dst src []|dst src []|lhs src [] []|lhs src [] []|l m|l q|a b]; cbn; tauto. Qed.
Lemma safe_step hs st c : sim hs st -> Forall sound st -> cmd_literals (fun t _ => t <> Tarray /\ t <> Tobject) c -> cmd_no_move c -> ~ copies_into_part c ->
  names_exist st c -> ~ misuse st c ->
  exists hs' r, hexec c hs = HDone hs' r /\ r <> Ub /\ r <> Throw BadVariant /\
    (fails hs = [] -> fails hs' = [] /\ exists st', sim hs' st' /\ Forall sound st' /\ exec c st = Done st' r).
Proof.
  intros S Hs%sound_sok Hl Hm Hn He Hu. destruct (exec_done c st Hs Hm Hn He Hu) as (st' & r & E). destruct plain_facts as (P1 & P2 & P3 & P4 & P5).
  pose proof (exec_ok ApiProofs.plain False P1 P2 P3 (P4 False) P5 c st (cmd_ok_no_moves _ _ Hl Hm) Hn Hs) as X. rewrite E in X. destruct X as [X1 X2].
  assert (NU : r <> Ub). { intros ->. cbn in X2. tauto. }
  assert (Hr : refs_valid st c). { unfold names_exist in He. apply Forall_app in He. apply He. }
  destruct (hexec_refines c hs st st' r S Hr (no_move_not_into c Hm) E NU) as (hs' & r' & H & [(-> & S' & U & F)|(-> & F & _)]).
  - exists hs', r. split; auto. split; auto. split; [intros ->; cbn in X2; congruence|]. intros F0. split; auto.
    exists st'. split; auto. split; auto. apply sound_sok. auto.
  - exists hs', (Throw BadAlloc). split; auto. split; [discriminate|]. split; [discriminate|]. intros F0. tauto.
Qed.
Lemma clean_run_sound cs : forall hs st hs', Forall moves_nothing cs -> sim hs st -> Forall sound st -> fails hs = [] -> clean_run hs cs hs' ->
  exists st', sim hs' st' /\ Forall sound st' /\ fails hs' = [].
Proof.
  induction cs as [|c cs IH]; intros hs st hs' Hc S So F R; inversion R as [|? st0 ? hs1 r ? ? S0 Hn Hu E R1]; subst; [eauto|].
  inversion_clear Hc as [|? ? (H1 & H2 & H3) H4]. assert (st0 = st) as -> by (first [exact (sim_det _ _ _ S0 S)|exact (eq_sym (sim_det _ _ _ S0 S))]).
  destruct (safe_step hs st c S So H1 H2 H3 Hn Hu) as (hs2 & r2 & E2 & _ & _ & G). rewrite E in E2. injection E2 as <- <-.
  destruct (G F) as (F1 & st1 & S1 & So1 & _). eapply IH; eauto.
Qed.
Lemma program_safe cs hs st c : Forall moves_nothing (cs ++ [c]) -> clean_run (HS [] [] []) cs hs -> sim hs st -> names_exist st c -> ~ misuse st c ->
  Forall sound st /\ exists hs' r st', hexec c hs = HDone hs' r /\ r <> Ub /\ r <> Throw BadVariant /\ exec c st = Done st' r /\ sim hs' st'.
Proof.
  intros Hc R S Hn Hu. apply Forall_app in Hc as [Hc Hc']. inversion_clear Hc' as [|? ? (H1 & H2 & H3) _].
  destruct (clean_run_sound cs _ [] _ Hc (sim_empty []) (Forall_nil _) eq_refl R) as (st1 & S1 & So & F). assert (st1 = st) as -> by (first [exact (sim_det _ _ _ S1 S)|exact (eq_sym (sim_det _ _ _ S1 S))]). split; auto.
  destruct (safe_step hs st c S So H1 H2 H3 Hn Hu) as (hs2 & r2 & E2 & A & B & G). destruct (G F) as (_ & st' & S' & _ & X). exists hs2, r2, st'. auto.
Qed.
Lemma program_frees cs hs : Forall moves_nothing cs -> clean_run (HS [] [] []) cs hs ->
  exists hs', drop_n (length (roots hs)) hs = HDone hs' (Ok tt) /\ roots hs' = [] /\ forall a, ~ live (hp hs') a.
Proof.
  intros Hc R. destruct (clean_run_sound cs _ [] _ Hc (sim_empty []) (Forall_nil _) eq_refl R) as (st & S & _ & _).
  destruct (destroy_all hs st S) as (hs' & D & A & B). exists hs'. split; auto.
  replace (length (roots hs)) with (length st); auto. destruct S as (fp & H & _). clear -H. revert fp H. generalize (hp hs) as h. intros h.
  generalize (roots hs) as l. induction st as [|v st IH]; intros l fp H; inversion H; subst; cbn; f_equal; eauto.
Qed.
