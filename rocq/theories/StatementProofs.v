(** * What the statements do. *)
From Verif Require Import Base Value DumpProofs Containers Dump Api Spec SpecApi SpecEffects SpecHeap BaseProofs ContainerProofs ApiProofs StoreProofs EffectProofs.

Lemma set_tag_self v : set_tag (type_of v) v = v.
Proof. now destruct v. Qed.
Lemma loc_cases a b : a = b \/ strictly_inside a b \/ strictly_inside b a \/ (within a b = false /\ within b a = false).
Proof.
  destruct (within a b) eqn:W.
  - destruct (same a b) eqn:S; [apply same_spec in S; auto|]. right. left. apply strictly_inside_spec. split; auto. intros H. apply same_spec in H. congruence.
  - destruct (within b a) eqn:W'; [|tauto]. right. right. left. apply strictly_inside_spec. split; auto. intros <-. congruence.
Qed.
Lemma inside_within a b : strictly_inside a b -> within a b = true.
Proof. intros H. now apply strictly_inside_spec in H. Qed.
Lemma inside_not_within a b : strictly_inside a b -> within b a = false.
Proof.
  intros H. destruct (within b a) eqn:W; auto. exfalso. apply strictly_inside_spec in H as [H1 H2]. apply H2. apply same_spec. unfold same. now rewrite H1, W.
Qed.
Lemma call_read {A} (f : value -> value * res A) st l v : read st l = Some v -> call l f st = Done (write st l (fst (f v))) (snd (f v)).
Proof. intros R. unfold call. rewrite R. now destruct (f v). Qed.

(** ** Assignment *)
Lemma copy_assign_effect st dst src d x : read st dst = Some d -> read st src = Some x -> owned x -> ~ strictly_inside src dst ->
  copy_assign dst src st = Done (write st dst x) (Ok tt).
Proof.
  intros Rd Rs O N. unfold copy_assign, copy_from, mbind, rd, wr, mfail. rewrite Rd. cbv beta iota. rewrite Rs. cbv beta iota.
  assert (R2 : read (write st dst (set_tag (type_of x) d)) src = Some x).
  { destruct (loc_cases dst src) as [<-|[H|[H|[H1 H2]]]].
    - assert (d = x) as -> by congruence. rewrite set_tag_self, write_same; auto.
    - now rewrite (read_tag st dst src _ d Rd H).
    - tauto.
    - now rewrite read_write_disjoint. }
  rewrite R2. cbv beta iota. rewrite copy_owned by auto. rewrite set_tag_self, write_write. reflexivity.
Qed.
Lemma move_assign_effect st dst src d x : read st dst = Some d -> read st src = Some x -> within dst src = false -> within src dst = false ->
  move_assign dst src st = Done (write (write st src (moved x)) dst x) (Ok tt).
Proof.
  intros Rd Rs W1 W2. unfold move_assign, mbind, rd, wr. rewrite Rd. cbv beta iota. rewrite Rs. cbv beta iota. unfold same. rewrite W1, W2. reflexivity.
Qed.
Lemma assign_copied st dst src x : read st dst <> None -> read st src = Some x -> owned x -> ~ strictly_inside src dst ->
  exists st', exec (CAssign dst (CRef src)) st = Done st' (Ok tt) /\ puts st dst x st'.
Proof.
  intros Rd Rs O N. destruct (read st dst) as [d|] eqn:E; [|tauto]. exists (write st dst x). split; [|eapply puts_intro; eauto].
  cbn [exec prepare assign]. unfold mbind, mret. eapply copy_assign_effect; eauto.
Qed.
Lemma assign_moved st dst src x y st1 : read st dst <> None -> read st src = Some x -> apart dst src -> emptied x y -> puts st src y st1 ->
  exists st', exec (CAssign dst (MRef src)) st = Done st' (Ok tt) /\ puts st1 dst x st'.
Proof.
  intros Rd Rs [W1 W2] E P. destruct (read st dst) as [d|] eqn:Ed; [|tauto]. apply emptied_moved in E as ->. apply puts_write in P as [_ ->].
  eexists. split; [cbn [exec prepare assign]; unfold mbind, mret; eapply move_assign_effect; eauto|]. apply puts_write. split; auto. rewrite read_write_disjoint by auto. congruence.
Qed.
Lemma assign_moved_part st dst src d x : read st dst = Some d -> read st src = Some x -> strictly_inside dst src ->
  (match d, x with VStr _ _, VStr _ _ | VArr _ _, VArr _ _ | VObj _ _, VObj _ _ => True | _, _ => False end) ->
  exists st', exec (CAssign dst (MRef src)) st = Done st' (Ok tt) /\ puts st dst x st'.
Proof.
  intros Rd Rs I A. exists (write st dst x). split; [|eapply puts_intro; eauto].
  cbn [exec prepare assign]. unfold mbind, mret, move_assign, mbind, rd, wr. rewrite Rd. cbv beta iota. rewrite Rs. cbv beta iota.
  unfold same. rewrite (inside_within _ _ I), (inside_not_within _ _ I). cbn [andb]. destruct d, x; cbn in A; try tauto; reflexivity.
Qed.
Lemma assign_moved_self st l x : read st l = Some x ->
  exists st', exec (CAssign l (MRef l)) st = Done st' (Ok tt) /\
    match x with VStr t _ => puts st l (VStr t []) st' | _ => st' = st end.
Proof.
  intros R. cbn [exec prepare assign]. unfold mbind, mret, move_assign, mbind, rd, wr. rewrite R. cbv beta iota. rewrite R. cbv beta iota. replace (same l l) with true by (symmetry; now apply same_spec).
  eexists. split; [reflexivity|]. destruct x; [eapply puts_intro; eauto|now apply write_same..].
Qed.
Lemma assign_temporary st dst e x st1 st' : yields st e x st1 -> puts st1 dst x st' -> exec (CAssign dst (Tmp e)) st = Done st' (Ok tt).
Proof.
  intros Y P. apply yields_eval in Y. apply puts_write in P as [R ->]. cbn [exec prepare]. rewrite (mbind_ok _ _ st st1 (Some x)).
  - cbn [assign]. unfold mbind, rd, wr. now destruct (read st1 dst).
  - unfold mbind. now rewrite Y.
Qed.
Lemma new_effect st e x st1 : yields st e x st1 -> exec (CNew e) st = Done (st1 ++ [x]) (Ok tt).
Proof. intros Y. apply yields_eval in Y. cbn [exec]. unfold mbind. now rewrite Y. Qed.
Lemma new_inv st e st' : exec (CNew e) st = Done st' (Ok tt) -> exists x st1, yields st e x st1 /\ st' = st1 ++ [x].
Proof. intros E. cbn [exec] in E. apply mbind_inv in E as (st1 & x & E1 & E). injection E as <-. apply expression_value in E1. eauto. Qed.

(** ** Adding to a container *)
(** what is read at [dst] after something in it, or elsewhere, was moved away *)
Lemma steady st dst src x d1 : read st src = Some x -> within src dst = false -> read (write st src (moved x)) dst = Some d1 ->
  exists d, read st dst = Some d /\ ((within dst src = false /\ d = d1) \/ (strictly_inside dst src /\ exists s q, get_at (s :: q) d = Some x /\ d1 = upd_at (s :: q) (fun _ => moved x) d)).
Proof.
  intros Rs W R. destruct (within dst src) eqn:W2.
  - destruct (read_write_above st dst src (moved x) W2) as (q & Eq & E). rewrite E in R. destruct (read st dst) as [d|] eqn:Rd; [|discriminate]. injection R as <-.
    exists d. split; auto. right. destruct (loc_cases dst src) as [<-|[H|[H|[H _]]]]; [congruence| |apply inside_within in H; congruence|congruence].
    split; auto. destruct q as [|s q]; [exfalso; rewrite app_nil_r in Eq; destruct H as (_ & s & p & H); rewrite H in Eq; apply (f_equal (@length _)) in Eq; rewrite app_length in Eq; cbn in Eq; lia|].
    exists s, q. split; auto. unfold read in Rd, Rs. apply within_spec in W2 as (Es & _). rewrite <- Es in Rs. destruct (nth_error st (slot dst)) as [v|]; [|discriminate].
    rewrite Eq, get_at_app, Rd in Rs. exact Rs.
  - rewrite read_write_disjoint in R by auto. exists d1. auto.
Qed.

Lemma steady_elements st dst src x d1 l1 : read st src = Some x -> within src dst = false -> read (write st src (moved x)) dst = Some d1 -> elements_of d1 = Some l1 ->
  exists d l, read st dst = Some d /\ elements_of d = Some l /\ ((within dst src = false /\ d = d1) \/ d = VArr Tarray (Some l)).
Proof.
  intros Rs W R E. destruct (steady st dst src x d1 Rs W R) as (d & Rd & [[H ->]|(_ & s & q & G & ->)]); [exists d1, l1; splits; auto|].
  destruct s as [k|n], d as [|t [l|]|t [m|]]; try discriminate; cbn [get_at upd_at elements_of] in *.
  - exfalso. destruct t; try discriminate. destruct m as [|(k0, v0) m]; [discriminate|]. cbn in E. destruct (bytes_eqb k k0); discriminate.
  - destruct t; try discriminate. exists (VArr Tarray (Some l)), l. auto.
Qed.
Lemma steady_members st dst src x d1 l1 : read st src = Some x -> within src dst = false -> read (write st src (moved x)) dst = Some d1 -> members_of d1 = Some l1 ->
  exists d l, read st dst = Some d /\ members_of d = Some l /\ map fst l = map fst l1 /\ ((within dst src = false /\ d = d1) \/ d = VObj Tobject (Some l)).
Proof.
  intros Rs W R E. destruct (steady st dst src x d1 Rs W R) as (d & Rd & [[H ->]|(_ & s & q & G & ->)]); [exists d1, l1; splits; auto|].
  destruct s as [k|n], d as [|t [l|]|t [m|]]; try discriminate; cbn [get_at upd_at members_of] in *.
  - destruct t; try discriminate. injection E as <-. exists (VObj Tobject (Some m)), m. rewrite upd_key_keys. auto.
  - exfalso. destruct t; try discriminate. destruct l as [|v0 l]; destruct n; try discriminate.
Qed.
Lemma no_parts st dst src d x : read st dst = Some d -> read st src = Some x -> strictly_inside dst src ->
  match d with VArr _ (Some (_ :: _)) | VObj _ (Some (_ :: _)) => True | _ => False end.
Proof.
  intros Rd Rs (Es & s & q & Eq). unfold read in *. rewrite Es in Rs. destruct (nth_error st (slot dst)) as [v|]; [|discriminate]. rewrite Eq, get_at_app, Rd in Rs.
  destruct s as [k|n], d as [|t [[|]|]|t [[|]|]]; cbn in Rs; try discriminate; auto. destruct n; discriminate.
Qed.
(** reading another value after [dst] was made a container *)
Lemma read_coerced_arr st dst src d l x : read st dst = Some d -> elements_of d = Some l -> read st src = Some x ->
  d = VArr Tarray (Some l) \/ within src dst = false -> read (write st dst (VArr Tarray (Some l))) src = Some x.
Proof.
  intros Rd El Rs [->|W]; [now rewrite write_same|]. destruct (loc_cases dst src) as [<-|[H|[H|[H1 H2]]]].
  - rewrite within_refl in W. discriminate.
  - pose proof (no_parts _ _ _ _ _ Rd Rs H) as P. destruct d as [|t [[|]|]|t [[|]|]]; try tauto; destruct t; try discriminate. injection El as <-. now rewrite write_same.
  - apply inside_within in H. congruence.
  - now rewrite read_write_disjoint.
Qed.
Lemma read_coerced_obj st dst src d l x : read st dst = Some d -> members_of d = Some l -> read st src = Some x ->
  d = VObj Tobject (Some l) \/ within src dst = false -> read (write st dst (VObj Tobject (Some l))) src = Some x.
Proof.
  intros Rd El Rs [->|W]; [now rewrite write_same|]. destruct (loc_cases dst src) as [<-|[H|[H|[H1 H2]]]].
  - rewrite within_refl in W. discriminate.
  - pose proof (no_parts _ _ _ _ _ Rd Rs H) as P. destruct d as [|t [[|]|]|t [[|]|]]; try tauto; destruct t; try discriminate. injection El as <-. now rewrite write_same.
  - apply inside_within in H. congruence.
  - now rewrite read_write_disjoint.
Qed.
Lemma call_as_array st l v xs : read st l = Some v -> elements_of v = Some xs -> call l as_array_m st = Done (write st l (VArr Tarray (Some xs))) (Ok xs).
Proof. intros R E. rewrite (call_read _ _ _ _ R), (as_array_some v xs E). reflexivity. Qed.
Lemma call_as_object st l v m : read st l = Some v -> members_of v = Some m -> call l as_object_m st = Done (write st l (VObj Tobject (Some m))) (Ok m).
Proof. intros R E. rewrite (call_read _ _ _ _ R), (as_object_some v m E). reflexivity. Qed.
Lemma call_on_array {A} (f : array -> array * res A) st l t xs : read st l = Some (VArr Tarray (Some xs)) -> t = f xs ->
  call l (fun d => on_array f d) st = Done (write st l (VArr Tarray (Some (fst t)))) (snd t).
Proof. intros R ->. rewrite (call_read _ _ _ _ R), (on_array_some f _ xs); reflexivity. Qed.
Lemma call_on_object {A} (f : object -> object * res A) st l t m : read st l = Some (VObj Tobject (Some m)) -> t = f m ->
  call l (fun d => on_object f d) st = Done (write st l (VObj Tobject (Some (fst t)))) (snd t).
Proof. intros R ->. rewrite (call_read _ _ _ _ R), (on_object_some f _ m); reflexivity. Qed.
Lemma read_write_some st l v w : read st l = Some v -> read (write st l w) l = Some w.
Proof. intros R. rewrite read_write_same, R. reflexivity. Qed.

Lemma emplaced_temporary st dst e x st1 d l : yields st e x st1 -> read st1 dst = Some d -> elements_of d = Some l ->
  exists st', exec (CEmplace dst (Tmp e)) st = Done st' (Ok tt) /\ puts st1 dst (VArr Tarray (Some (l ++ [x]))) st'.
Proof.
  intros Y Rd El. apply yields_eval in Y. eexists. split; [|eapply puts_intro; eauto]. cbn [exec prepare]. rewrite (mbind_ok _ _ st st1 (Some x)) by (unfold mbind; now rewrite Y).
  unfold emplace_back. rewrite (mbind_ok _ _ _ _ _ (call_as_array _ _ _ _ Rd El)). cbn [construct]. unfold mbind, mret.
  rewrite (call_on_array _ _ _ _ l (read_write_some _ _ _ _ Rd) eq_refl). rewrite write_write. reflexivity.
Qed.
Lemma emplaced_copy st dst src x d l : read st dst = Some d -> elements_of d = Some l -> read st src = Some x -> owned x ->
  d = VArr Tarray (Some l) \/ within src dst = false ->
  exists st', exec (CEmplace dst (CRef src)) st = Done st' (Ok tt) /\ puts st dst (VArr Tarray (Some (l ++ [x]))) st'.
Proof.
  intros Rd El Rs O W. eexists. split; [|eapply puts_intro; eauto]. cbn [exec prepare]. unfold mbind at 1. cbn [mret].
  unfold emplace_back. rewrite (mbind_ok _ _ _ _ _ (call_as_array _ _ _ _ Rd El)). cbn [construct].
  pose proof (read_coerced_arr _ _ _ _ _ _ Rd El Rs W) as R2.
  rewrite (mbind_ok _ _ (write st dst (VArr Tarray (Some l))) (write st dst (VArr Tarray (Some l))) x).
  - rewrite (call_on_array _ _ _ _ l (read_write_some _ _ _ _ Rd) eq_refl). rewrite write_write. reflexivity.
  - unfold copy_from, mbind, rd, mfail. rewrite R2. cbv beta iota. now rewrite copy_owned.
Qed.
Lemma emplaced_moved st dst src x y st1 d1 l1 : read st src = Some x -> emptied x y -> puts st src y st1 -> within src dst = false ->
  read st1 dst = Some d1 -> elements_of d1 = Some l1 ->
  exists st', exec (CEmplace dst (MRef src)) st = Done st' (Ok tt) /\ puts st1 dst (VArr Tarray (Some (l1 ++ [x]))) st'.
Proof.
  intros Rs E P W Rd El. apply emptied_moved in E as ->. apply puts_write in P as [_ ->]. eexists. split; [|eapply puts_intro; eauto].
  destruct (steady_elements _ _ _ _ _ _ Rs W Rd El) as (d & l & Rd0 & El0 & C). cbn [exec prepare]. unfold mbind at 1. cbn [mret].
  unfold emplace_back. rewrite (mbind_ok _ _ _ _ _ (call_as_array _ _ _ _ Rd0 El0)). cbn [construct]. destruct C as [[W2 ->]| ->].
  - assert (l1 = l) as -> by congruence. rewrite (mbind_ok _ _ _ (write (write st dst (VArr Tarray (Some l))) src (moved x)) x).
    + rewrite W. rewrite (call_on_array _ _ _ _ l) by (try reflexivity; rewrite read_write_disjoint by auto; eapply read_write_some; eauto).
      cbn [fst snd]. rewrite (write_comm st dst src) by auto. rewrite write_write. reflexivity.
    + unfold take, mbind, rd, wr, mret. rewrite read_write_disjoint by auto. now rewrite Rs.
  - rewrite write_same by auto. rewrite (mbind_ok _ _ _ (write st src (moved x)) x).
    + rewrite W. destruct (read_write_arr st dst src (moved x) _ _ Rd0 W) as (l' & R'). assert (d1 = VArr Tarray (Some l')) as -> by congruence. injection El as ->.
      rewrite (call_on_array _ _ _ _ l1 R' eq_refl). reflexivity.
    + unfold take, mbind, rd, wr, mret. now rewrite Rs.
Qed.
(** ** Setting a member *)
Lemma upd_assign k x (m : object) : sorted_keys m -> map_find k m <> None -> upd_key (fun _ => x) k m = map_assign k x m.
Proof.
  intros S F. apply map_find_ext; [eapply sorted_keys_map; [apply upd_key_keys|auto]|now apply map_assign_sorted|]. intros k'. rewrite map_assign_find by auto.
  destruct (bytes_eqb_spec k' k) as [->|H]; [|apply find_upd_other; congruence]. rewrite find_upd_same. destruct (map_find k m); [reflexivity|tauto].
Qed.
Lemma assign_represents k x (m : object) : sorted_keys m -> represents (map_assign k x m) (f_set k (Some x) (pairs m)).
Proof. intros S. apply rep_represents. split; [now apply map_assign_sorted|]. intros k'. now rewrite map_assign_find, f_set_spec. Qed.
Lemma found k (m : object) : obj_contains k m = true <-> map_find k m <> None.
Proof. unfold obj_contains. destruct (map_find k m); split; congruence. Qed.
Lemma write_member st dst k x m : read st dst = Some (VObj Tobject (Some m)) -> sorted_keys m -> map_find k m <> None ->
  write st (sub dst (Key k)) x = write st dst (VObj Tobject (Some (map_assign k x m))).
Proof. intros R S F. rewrite (sub_write _ _ _ _ _ R). cbn [upd_at]. now rewrite upd_assign. Qed.
Lemma insert_copy st dst k src d m x : read st dst = Some d -> members_of d = Some m -> sorted_keys m -> read st src = Some x -> owned x ->
  within src dst = false \/ (d = VObj Tobject (Some m) /\ (map_find k m = None \/ ~ strictly_inside src (sub dst (Key k)))) ->
  insert_or_assign dst k (CRef src) None st = Done (write st dst (VObj Tobject (Some (map_assign k x m)))) (Ok tt).
Proof.
  intros Rd Em S Rs O W. unfold insert_or_assign. rewrite (mbind_ok _ _ _ _ _ (call_as_object _ _ _ _ Rd Em)).
  assert (R2 : read (write st dst (VObj Tobject (Some m))) src = Some x) by (eapply read_coerced_obj; eauto; tauto).
  pose proof (read_write_some _ _ _ (VObj Tobject (Some m)) Rd) as R1.
  destruct (obj_contains k m) eqn:C.
  - apply found in C. cbn [assign]. destruct (map_find k m) as [y|] eqn:F; [|tauto].
    rewrite (copy_assign_effect _ _ _ y x); auto.
    + rewrite (write_member _ _ _ _ m) by (auto; congruence). now rewrite write_write.
    + rewrite sub_read, R1. cbn [get_at]. now rewrite F.
    + destruct W as [W|[_ [H|H]]]; [|congruence|auto]. intros (E1 & s & p & E2). cbn [sub slot steps] in *.
      assert (within src dst = true); [|congruence]. apply within_spec. split; auto. destruct p as [|s' p] using rev_ind.
      * apply app_inj_tail in E2 as [-> _]. exists []. now rewrite app_nil_r.
      * clear IHp. change (s :: p ++ [s']) with ((s :: p) ++ [s']) in E2. rewrite app_assoc in E2. apply app_inj_tail in E2 as [-> _]. eauto.
  - cbn [construct]. rewrite (mbind_ok _ _ _ (write st dst (VObj Tobject (Some m))) x).
    + rewrite (call_on_object _ _ _ _ m R1 eq_refl). cbn [fst snd]. now rewrite write_write.
    + unfold copy_from, mbind, rd, mfail. rewrite R2. cbv beta iota. now rewrite copy_owned.
Qed.
Lemma within_sub a b s : within a b = false -> within (sub a s) b = false.
Proof.
  intros H. destruct (within (sub a s) b) eqn:W; auto. apply within_spec in W as (E & r & Er). cbn [sub slot steps] in *.
  assert (within a b = true); [|congruence]. apply within_spec. split; auto. rewrite Er, <- app_assoc. eauto.
Qed.
Lemma within_of_sub a b s : within a (sub b s) = true -> a = sub b s \/ within a b = true.
Proof.
  intros W. apply within_spec in W as (E & r & Er). cbn [sub slot steps] in *. destruct r as [|s' r _] using rev_ind.
  - left. rewrite app_nil_r in Er. destruct a as [i p]. cbn in *. subst. reflexivity.
  - right. rewrite app_assoc in Er. apply app_inj_tail in Er as [Er _]. apply within_spec. eauto.
Qed.
Lemma insert_move st dst k src x d1 m1 : read st src = Some x -> within src dst = false -> within (sub dst (Key k)) src = false ->
  read (write st src (moved x)) dst = Some d1 -> members_of d1 = Some m1 -> sorted_keys m1 ->
  insert_or_assign dst k (MRef src) None st = Done (write (write st src (moved x)) dst (VObj Tobject (Some (map_assign k x m1)))) (Ok tt).
Proof.
  intros Rs W W2 Rd1 Em1 S1. destruct (steady_members _ _ _ _ _ _ Rs W Rd1 Em1) as (d & m & Rd & Em & Ek & C).
  assert (Hs : sorted_keys m) by (eapply sorted_keys_map; eauto).
  assert (Hf : map_find k m <> None <-> map_find k m1 <> None).
  { pose proof (map_find_none k m) as H. pose proof (map_find_none k m1) as H1. rewrite Ek in H. destruct (map_find k m), (map_find k m1); split; try congruence; intuition congruence. }
  unfold insert_or_assign. rewrite (mbind_ok _ _ _ _ _ (call_as_object _ _ _ _ Rd Em)).
  assert (Q : read (write st dst (VObj Tobject (Some m))) src = Some x).
  { eapply read_coerced_obj; eauto. }
  pose proof (read_write_some _ _ _ (VObj Tobject (Some m)) Rd) as R1.
  (* moving away commutes with making [dst] an object *)
  assert (K : exists st2, st2 = write (write st dst (VObj Tobject (Some m))) src (moved x) /\ read st2 dst = Some (VObj Tobject (Some m1)) /\
    forall z, write st2 dst z = write (write st src (moved x)) dst z).
  { eexists. split; [reflexivity|]. destruct C as [[A ->]| ->].
    - assert (m1 = m) as -> by congruence. split; [rewrite read_write_disjoint by auto; exact R1|]. intros z. rewrite (write_comm st dst src) by auto. now rewrite write_write.
    - rewrite (write_same st dst) by auto. split; [|reflexivity]. destruct (read_write_obj st dst src (moved x) _ _ Rd W) as (m' & R' & _). rewrite R' in Rd1. injection Rd1 as <-. injection Em1 as ->. exact R'. }
  destruct K as (st2 & E2 & R2 & K).
  destruct (obj_contains k m) eqn:Cn.
  - apply found in Cn. cbn [assign]. destruct (map_find k m) as [y|] eqn:F; [|tauto].
    assert (W3 : within src (sub dst (Key k)) = false).
    { destruct (within src (sub dst (Key k))) eqn:W3; auto. apply within_of_sub in W3 as [->|]; [|congruence]. now rewrite within_refl in W2. }
    rewrite (move_assign_effect _ _ _ y x); auto; [|rewrite sub_read, R1; cbn [get_at]; now rewrite F].
    rewrite <- E2. rewrite (write_member _ _ _ _ m1); auto; [|tauto]. now rewrite K.
  - assert (Fn : map_find k m = None) by (unfold obj_contains in Cn; destruct (map_find k m); [discriminate|auto]). cbn [construct]. rewrite (mbind_ok _ _ _ st2 x).
    + rewrite W. rewrite (call_on_object _ _ _ _ m1 R2 eq_refl). cbn [fst snd]. now rewrite K.
    + unfold take, mbind, rd, wr, mret. rewrite Q. now rewrite E2.
Qed.
Lemma member_temporary st dst k e x st1 d m : yields st e x st1 -> read st1 dst = Some d -> members_of d = Some m -> sorted_keys m ->
  exists st' m', exec (CEmplaceKey dst k (Tmp e)) st = Done st' (Ok tt) /\ represents m' (f_set k (Some x) (pairs m)) /\ puts st1 dst (VObj Tobject (Some m')) st'.
Proof.
  intros Y Rd Em S. apply yields_eval in Y. eexists. exists (map_assign k x m). splits; [|now apply assign_represents|eapply puts_intro; eauto]. cbn [exec prepare]. rewrite (mbind_ok _ _ st st1 (Some x)) by (unfold mbind; now rewrite Y).
  unfold insert_or_assign. rewrite (mbind_ok _ _ _ _ _ (call_as_object _ _ _ _ Rd Em)). pose proof (read_write_some _ _ _ (VObj Tobject (Some m)) Rd) as R1.
  destruct (obj_contains k m) eqn:C.
  - apply found in C. cbn [assign]. destruct (map_find k m) as [y|] eqn:F; [|tauto]. unfold mbind, rd, wr. rewrite sub_read, R1. cbn [get_at]. rewrite F.
    rewrite (write_member _ _ _ _ m) by (auto; congruence). now rewrite write_write.
  - cbn [construct]. unfold mbind, mret. rewrite (call_on_object _ _ _ _ m R1 eq_refl). cbn [fst snd]. now rewrite write_write.
Qed.
Lemma member_copy st dst k src x d m : read st dst = Some d -> members_of d = Some m -> sorted_keys m -> read st src = Some x -> owned x ->
  within src dst = false \/ (d = VObj Tobject (Some m) /\ map_find k m = None) ->
  exists st' m', exec (CEmplaceKey dst k (CRef src)) st = Done st' (Ok tt) /\ represents m' (f_set k (Some x) (pairs m)) /\ puts st dst (VObj Tobject (Some m')) st'.
Proof.
  intros Rd Em S Rs O W. eexists. exists (map_assign k x m). splits; [|now apply assign_represents|eapply puts_intro; eauto]. cbn [exec prepare]. unfold mbind, mret.
  eapply insert_copy; eauto. tauto.
Qed.
Lemma member_moved st dst k src x y st1 d1 m1 : read st src = Some x -> emptied x y -> puts st src y st1 -> within src dst = false -> within (sub dst (Key k)) src = false ->
  read st1 dst = Some d1 -> members_of d1 = Some m1 -> sorted_keys m1 ->
  exists st' m', exec (CEmplaceKey dst k (MRef src)) st = Done st' (Ok tt) /\ represents m' (f_set k (Some x) (pairs m1)) /\ puts st1 dst (VObj Tobject (Some m')) st'.
Proof.
  intros Rs E P W W2 Rd Em S. apply emptied_moved in E as ->. apply puts_write in P as [_ ->]. eexists. exists (map_assign k x m1). splits; [|now apply assign_represents|eapply puts_intro; eauto].
  cbn [exec prepare]. unfold mbind, mret. eapply insert_move; eauto.
Qed.

(** ** Merging *)
Lemma apart_sub dst src k k' : within dst src = false -> within src dst = false -> within (sub dst k) (sub src k') = false.
Proof.
  intros H G. destruct (within (sub dst k) (sub src k')) eqn:W; auto. apply within_of_sub in W as [E|W].
  - exfalso. unfold sub in E. injection E as E1 E2. apply app_inj_tail in E2 as [E2 _]. assert (dst = src) as -> by (destruct dst, src; cbn in *; congruence). now rewrite within_refl in H.
  - rewrite within_sub in W by auto. discriminate.
Qed.
Lemma not_within_sub a b s : within a b = false -> within b a = false -> within (sub a s) b = false /\ within b (sub a s) = false.
Proof.
  intros H G. split; [now apply within_sub|]. destruct (within b (sub a s)) eqn:W; auto. apply within_of_sub in W as [->|]; [|congruence].
  exfalso. assert (within a (sub a s) = true); [|congruence]. apply within_spec. split; auto. cbn. eauto.
Qed.
Lemma merge_copy dst src : within dst src = false -> within src dst = false -> forall rs r m st,
  read st src = Some (VObj Tobject (Some r)) -> read st dst = Some (VObj Tobject (Some m)) -> sorted_keys m ->
  Forall (fun kv => map_find (fst kv) r = Some (snd kv) /\ owned (snd kv)) rs ->
  merge_loop dst src false (map fst rs) st = Done (write st dst (VObj Tobject (Some (merge_fold m rs)))) (Ok tt).
Proof.
  intros W1 W2. induction rs as [|(k, x) rs IH]; intros r m st Rs Rd S H.
  - cbn. unfold mret. now rewrite write_same.
  - inversion_clear H as [|? ? [F O] H']. cbn [fst snd] in *. cbn [map fst merge_loop]. 
    assert (Rk : read st (sub src (Key k)) = Some x) by (rewrite sub_read, Rs; cbn [get_at]; now rewrite F).
    unfold mbind at 1. unfold rd at 1. rewrite Rk. rewrite (within_sub dst src (Key k) W1), andb_false_r. rewrite Rd.
    destruct (not_within_sub src dst (Key k) W2 W1) as [W3 W4].
    rewrite (mbind_ok _ _ _ (write st dst (VObj Tobject (Some (map_assign k x m)))) tt).
    + rewrite (IH r (map_assign k x m)); auto.
      * rewrite write_write. reflexivity.
      * now rewrite read_write_disjoint.
      * eapply read_write_some; eauto.
      * now apply map_assign_sorted.
    + eapply insert_copy; eauto.
Qed.
Definition left_behind (m : object) : object := map (fun kv => (fst kv, moved (snd kv))) m.
Lemma merge_move dst src : within dst src = false -> within src dst = false -> forall rs done m st,
  read st src = Some (VObj Tobject (Some (left_behind done ++ rs))) -> read st dst = Some (VObj Tobject (Some m)) -> sorted_keys m -> NoDup (map fst (done ++ rs)) ->
  merge_loop dst src true (map fst rs) st =
  Done (write (write st src (VObj Tobject (Some (left_behind (done ++ rs))))) dst (VObj Tobject (Some (merge_fold m rs)))) (Ok tt).
Proof.
  intros W1 W2. induction rs as [|(k, x) rs IH]; intros done m st Rs Rd S Hn.
  - cbn. unfold mret. rewrite app_nil_r in *. rewrite (write_same st src) by auto. now rewrite write_same.
  - cbn [map fst merge_loop].
    assert (Kn : ~ In k (map fst (left_behind done))).
    { unfold left_behind. rewrite map_map. cbn [fst]. rewrite map_app in Hn. apply NoDup_remove_2 in Hn. intros H. apply Hn. apply in_or_app. now left. }
    assert (F : map_find k (left_behind done ++ (k, x) :: rs) = Some x) by (apply find_split; eauto).
    assert (Rk : read st (sub src (Key k)) = Some x) by (rewrite sub_read, Rs; cbn [get_at]; now rewrite F).
    unfold mbind at 1. unfold rd at 1. rewrite Rk. rewrite (within_sub dst src (Key k) W1), andb_false_r. rewrite Rd.
    destruct (not_within_sub src dst (Key k) W2 W1) as [W3 W4].
    assert (E1 : write st (sub src (Key k)) (moved x) = write st src (VObj Tobject (Some (left_behind (done ++ [(k, x)]) ++ rs)))).
    { rewrite (sub_write _ _ _ _ _ Rs). cbn [upd_at]. rewrite upd_key_mid by auto. unfold left_behind. rewrite map_app. cbn [map fst snd]. now rewrite <- app_assoc. }
    rewrite (mbind_ok _ _ _ (write (write st (sub src (Key k)) (moved x)) dst (VObj Tobject (Some (map_assign k x m)))) tt).
    + rewrite E1. rewrite (IH (done ++ [(k, x)]) (map_assign k x m)); auto.
      * rewrite <- app_assoc. cbn [app]. rewrite (write_comm _ dst src) by auto. rewrite write_write. rewrite write_write. reflexivity.
      * rewrite read_write_disjoint by auto. eapply read_write_some; eauto.
      * eapply read_write_some. rewrite read_write_disjoint by auto. exact Rd.
      * now apply map_assign_sorted.
      * rewrite <- app_assoc. exact Hn.
    + eapply insert_move; eauto.
      * now apply apart_sub.
      * rewrite read_write_disjoint by auto. exact Rd.
      * reflexivity.
Qed.
Lemma merge_effect dst src mv st d m s r : apart dst src -> read st dst = Some d -> members_of d = Some m -> sorted_keys m ->
  read st src = Some s -> members_of s = Some r -> sorted_keys r -> (mv = false -> Forall (fun kv => owned (snd kv)) r) ->
  exists st1 st' m' r', exec (COr dst src mv) st = Done st' (Ok tt) /\ puts st src (VObj Tobject (Some r')) st1 /\ puts st1 dst (VObj Tobject (Some m')) st' /\
    represents m' (f_over (pairs m) (pairs r)) /\
    if mv then Forall2 (fun a b => fst a = fst b /\ emptied (snd a) (snd b)) r r' else r' = r.
Proof.
  intros [W1 W2] Rd Em Sm Rs Er Sr O.
  assert (N : same dst src = false) by (unfold same; now rewrite W1).
  assert (Rd1 : read (write st src (VObj Tobject (Some r))) dst = Some d) by (now rewrite read_write_disjoint).
  assert (Rp : represents (merge_fold m r) (f_over (pairs m) (pairs r))).
  { apply rep_represents. split; [now apply merge_fold_sorted|]. intros k. rewrite merge_fold_find by auto using sorted_NoDup. reflexivity. }
  assert (L : forall K, K = merge_loop dst src mv (map fst r) -> exec (COr dst src mv) st = K (write (write st src (VObj Tobject (Some r))) dst (VObj Tobject (Some m)))).
  { intros K ->. cbn [exec]. unfold or_assign. rewrite (mbind_ok _ _ _ _ _ (call_as_object _ _ _ _ Rs Er)). rewrite N. cbn [andb].
    rewrite (mbind_ok _ _ _ _ _ (call_as_object _ _ _ _ Rd1 Em)).
    rewrite (mbind_ok _ _ _ (write (write st src (VObj Tobject (Some r))) dst (VObj Tobject (Some m))) r); [reflexivity|].
    unfold mbind, rd, mfail. rewrite read_write_disjoint by auto. rewrite (read_write_some _ _ _ _ Rs). reflexivity. }
  rewrite (L _ eq_refl). clear L. destruct mv.
  - exists (write st src (VObj Tobject (Some (left_behind r)))). eexists. exists (merge_fold m r), (left_behind r).
    rewrite (merge_move dst src W1 W2 r [] m).
    + rewrite (write_comm _ dst src) by auto. rewrite !write_write. splits; auto.
      * eapply puts_intro; eauto.
      * eapply puts_intro. rewrite read_write_disjoint by auto. exact Rd.
      * clear. unfold left_behind. induction r as [|(k, x) r IH]; cbn; constructor; auto. split; auto. now apply emptied_moved.
    + cbn. rewrite read_write_disjoint by auto. eapply read_write_some; eauto.
    + eapply read_write_some; eauto.
    + auto.
    + cbn. now apply sorted_NoDup.
  - exists (write st src (VObj Tobject (Some r))). eexists. exists (merge_fold m r), r.
    rewrite (merge_copy dst src W1 W2 r r m).
    + rewrite write_write. splits; auto.
      * eapply puts_intro; eauto.
      * eapply puts_intro; eauto.
    + rewrite read_write_disjoint by auto. eapply read_write_some; eauto.
    + eapply read_write_some; eauto.
    + auto.
    + specialize (O eq_refl). rewrite Forall_forall in *. intros (k, x) Hi. split; [|exact (O _ Hi)]. apply map_find_some; auto using sorted_NoDup.
Qed.
(** ** Appending *)
Lemma append_effect dst src mv st d l s r : apart dst src -> read st dst = Some d -> elements_of d = Some l ->
  read st src = Some s -> elements_of s = Some r -> (mv = false -> Forall owned r) ->
  exists st1 st' r', exec (CPlus dst src mv) st = Done st' (Ok tt) /\ puts st src (VArr Tarray (Some r')) st1 /\ puts st1 dst (VArr Tarray (Some (l ++ r))) st' /\
    if mv then Forall2 emptied r r' else r' = r.
Proof.
  intros [W1 W2] Rd El Rs Er O.
  assert (N : same dst src = false) by (unfold same; now rewrite W1).
  assert (Rd1 : forall z, read (write st src z) dst = Some d) by (intros z; now rewrite read_write_disjoint).
  assert (Rs1 : forall z, read (write (write st src (VArr Tarray (Some r))) dst z) src = Some (VArr Tarray (Some r))).
  { intros z. rewrite read_write_disjoint by auto. eapply read_write_some; eauto. }
  cbn [exec]. unfold plus_assign. rewrite (mbind_ok _ _ _ _ _ (call_as_array _ _ _ _ Rs Er)). rewrite (mbind_ok _ _ _ _ _ (call_as_array _ _ _ _ (Rd1 _) El)). rewrite N.
  rewrite (mbind_ok _ _ _ (write (write st src (VArr Tarray (Some r))) dst (VArr Tarray (Some l))) r) by (unfold mbind, rd, mfail; now rewrite Rs1).
  destruct mv.
  - exists (write st src (VArr Tarray (Some (map moved r)))). eexists. exists (map moved r). splits.
    + unfold mbind at 1. unfold wr. cbv beta iota. rewrite W2. rewrite (call_on_array _ _ _ (l ++ r, Ok tt) l).
      * reflexivity.
      * rewrite read_write_disjoint by auto. eapply read_write_some. apply Rd1.
      * reflexivity.
    + eapply puts_intro; eauto.
    + cbn [fst]. rewrite (write_comm _ dst src) by auto. unfold v_array. rewrite !write_write. eapply puts_intro. apply Rd1.
    + clear. induction r; cbn; constructor; auto. now apply emptied_moved.
  - exists (write st src (VArr Tarray (Some r))). eexists. exists r. splits.
    + rewrite (mbind_ok _ _ _ (write (write st src (VArr Tarray (Some r))) dst (VArr Tarray (Some l))) r) by (unfold mfail; now rewrite copy_elems_Ok by auto).
      rewrite (call_on_array _ _ _ (l ++ r, Ok tt) l); [reflexivity|eapply read_write_some; apply Rd1|reflexivity].
    + eapply puts_intro; eauto.
    + cbn [fst]. rewrite write_write. eapply puts_intro. apply Rd1.
Qed.
(** ** The operators that make a new value *)
Lemma append_slot st ex l : (slot l < length st)%nat -> read (st ++ ex) l = read st l.
Proof. intros H. unfold read. now rewrite nth_error_app1. Qed.
Lemma append_write st v w : write (st ++ [v]) (Loc (length st) []) w = st ++ [w].
Proof. unfold write. cbn. induction st; cbn; congruence. Qed.
Lemma write_before st ex l v : (slot l < length st)%nat -> write (st ++ ex) l v = write st l v ++ ex.
Proof.
  unfold write. generalize (slot l). induction st as [|x st IH]; intros n H; cbn in *; [lia|]. destruct n; cbn; [reflexivity|]. rewrite IH by lia. reflexivity.
Qed.
Lemma writes_length st l v : length (write st l v) = length st.
Proof. unfold write. generalize (slot l). induction st as [|x st IH]; intros n; destruct n; cbn; auto. Qed.
Lemma new_apart (st : store) l : (slot l < length st)%nat -> within (Loc (length st) []) l = false /\ within l (Loc (length st) []) = false.
Proof. intros H. split; apply not_true_is_false; intros W; apply within_spec in W as [W _]; cbn in W; lia. Qed.
Lemma read_new st v : read (st ++ [v]) (Loc (length st) []) = Some v.
Proof. unfold read. cbn. rewrite nth_error_app2, Nat.sub_diag by lia. reflexivity. Qed.
Lemma read_slots st l v : read st l = Some v -> (slot l < length st)%nat.
Proof. unfold read. intros H. apply nth_error_Some. destruct (nth_error st (slot l)); [discriminate|discriminate]. Qed.
Lemma or_new_copy lhs src mr st st1 m s r : read st src = Some s -> members_of s = Some r -> sorted_keys r -> puts st src (VObj Tobject (Some r)) st1 ->
  read st1 lhs = Some (VObj Tobject (Some m)) -> sorted_keys m -> Forall (fun kv => owned (snd kv)) m -> (mr = false -> Forall (fun kv => owned (snd kv)) r) ->
  exists st' m' r', exec (COrNew lhs src false mr) st = Done (st' ++ [VObj Tobject (Some m')]) (Ok tt) /\ puts st1 src (VObj Tobject (Some r')) st' /\
    represents m' (f_over (pairs m) (pairs r)) /\
    if mr then Forall2 (fun a b => fst a = fst b /\ emptied (snd a) (snd b)) r r' else r' = r.
Proof.
  intros Rs Er Sr P Rd Sm Om O. apply puts_write in P. destruct P as [_ ->]. set (st1 := write st src (VObj Tobject (Some r))) in *.
  assert (Rs1 : read st1 src = Some (VObj Tobject (Some r))) by (eapply read_write_some; eauto). pose proof (read_slots _ _ _ Rs1) as Ls. destruct (new_apart st1 src Ls) as [W1 W2].
  assert (Rp : represents (merge_fold m r) (f_over (pairs m) (pairs r))).
  { apply rep_represents. split; [now apply merge_fold_sorted|]. intros k. rewrite merge_fold_find by auto using sorted_NoDup. reflexivity. }
  assert (L : exec (COrNew lhs src false mr) st = merge_loop (Loc (length st1) []) src mr (map fst r) (st1 ++ [v_object m])).
  { cbn [exec]. unfold or_new. rewrite (mbind_ok _ _ _ _ _ (call_as_object _ _ _ _ Rs Er)). fold st1. unfold mbind, rd, mfail. rewrite Rd. cbn [as_object_c is_object type_of vtype_eqb get_obj].
    rewrite copy_members_Ok by auto. unfold push_value. rewrite append_slot, Rs1 by auto. reflexivity. }
  rewrite L. clear L. assert (Rs2 : read (st1 ++ [v_object m]) src = Some (VObj Tobject (Some r))) by (now rewrite append_slot). destruct mr.
  - exists (write st1 src (VObj Tobject (Some (left_behind r)))), (merge_fold m r), (left_behind r).
    rewrite (merge_move _ src W1 W2 r [] m); auto; [|apply read_new|cbn; now apply sorted_NoDup].
    rewrite write_before by auto. cbn [app left_behind map]. splits; auto.
    + rewrite <- (writes_length st1 src (VObj Tobject (Some (left_behind r)))). now rewrite append_write.
    + eapply puts_intro; eauto.
    + clear. unfold left_behind. induction r as [|(k, x) r IH]; cbn; constructor; auto. split; auto. now apply emptied_moved.
  - exists st1, (merge_fold m r), r. rewrite (merge_copy _ src W1 W2 r r m); auto; [|apply read_new|].
    + rewrite append_write. splits; auto. apply puts_write. split; [congruence|]. now rewrite write_same.
    + specialize (O eq_refl). rewrite Forall_forall in *. intros (k, x) Hi. split; [|exact (O _ Hi)]. apply map_find_some; auto using sorted_NoDup.
Qed.
Lemma or_new_move lhs src mr st d m s r : apart lhs src -> read st lhs = Some d -> members_of d = Some m -> sorted_keys m ->
  read st src = Some s -> members_of s = Some r -> sorted_keys r -> (mr = false -> Forall (fun kv => owned (snd kv)) r) ->
  exists st1 st' m' r', exec (COrNew lhs src true mr) st = Done (st' ++ [VObj Tobject (Some m')]) (Ok tt) /\ puts st src (VObj Tobject (Some r')) st1 /\ puts st1 lhs (VObj Tobject (Some [])) st' /\
    represents m' (f_over (pairs m) (pairs r)) /\
    if mr then Forall2 (fun a b => fst a = fst b /\ emptied (snd a) (snd b)) r r' else r' = r.
Proof.
  intros A Rd Em Sm Rs Er Sr O. destruct (merge_effect lhs src mr st d m s r A Rd Em Sm Rs Er Sr O) as (st1 & st2 & m' & r' & E & P1 & P2 & Rp & X).
  exists st1. apply puts_write in P2. destruct P2 as [N2 ->]. exists (write st1 lhs (VObj Tobject (Some []))), m', r'. splits; auto.
  - cbn [exec] in *. unfold or_new. destruct A as [W1 W2]. rewrite W2, andb_false_r. cbn [andb]. rewrite (mbind_ok _ _ _ _ _ E). destruct (read st1 lhs) as [y|] eqn:Ry; [|tauto].
    unfold mbind, rd, mfail, wr, push_value. rewrite (read_write_some _ _ _ _ Ry). cbn. now rewrite write_write.
  - destruct (read st1 lhs) as [y|] eqn:Ry; [|tauto]. eapply puts_intro; eauto.
Qed.
Lemma plus_new_copy lhs src mr st st1 l s r : read st src = Some s -> elements_of s = Some r -> puts st src (VArr Tarray (Some r)) st1 ->
  read st1 lhs = Some (VArr Tarray (Some l)) -> Forall owned l -> (mr = false -> Forall owned r) ->
  exists st' r', exec (CPlusNew lhs src false mr) st = Done (st' ++ [VArr Tarray (Some (l ++ r))]) (Ok tt) /\ puts st1 src (VArr Tarray (Some r')) st' /\
    if mr then Forall2 emptied r r' else r' = r.
Proof.
  intros Rs Er P Rd Ol O. apply puts_write in P. destruct P as [_ ->]. set (st1 := write st src (VArr Tarray (Some r))) in *.
  assert (Rs1 : read st1 src = Some (VArr Tarray (Some r))) by (eapply read_write_some; eauto).
  cbn [exec]. unfold plus_new. rewrite (mbind_ok _ _ _ _ _ (call_as_array _ _ _ _ Rs Er)). fold st1. unfold mbind, rd, mfail. rewrite Rd. cbn [as_array_c is_array type_of vtype_eqb get_arr].
  rewrite copy_elems_Ok by auto. rewrite Rs1. cbn [as_array_c is_array type_of vtype_eqb get_arr]. destruct mr.
  - exists (write st1 src (VArr Tarray (Some (map moved r)))), (map moved r). splits; [eapply puts_intro; eauto|]. clear. induction r; cbn; constructor; auto. now apply emptied_moved.
  - exists st1, r. unfold append_array, bind. rewrite copy_elems_Ok by auto. splits; auto. apply puts_write. split; [congruence|]. now rewrite write_same.
Qed.
Lemma plus_new_move lhs src mr st d l s r : apart lhs src -> read st lhs = Some d -> elements_of d = Some l ->
  read st src = Some s -> elements_of s = Some r -> (mr = false -> Forall owned r) ->
  exists st1 st' r', exec (CPlusNew lhs src true mr) st = Done (st' ++ [VArr Tarray (Some (l ++ r))]) (Ok tt) /\ puts st src (VArr Tarray (Some r')) st1 /\ puts st1 lhs (VArr Tarray (Some [])) st' /\
    if mr then Forall2 emptied r r' else r' = r.
Proof.
  intros A Rd Em Rs Er O. destruct (append_effect lhs src mr st d l s r A Rd Em Rs Er O) as (st1 & st2 & r' & E & P1 & P2 & X).
  exists st1. apply puts_write in P2. destruct P2 as [N2 ->]. exists (write st1 lhs (VArr Tarray (Some []))), r'. splits; auto.
  - cbn [exec] in *. unfold plus_new. destruct A as [W1 W2]. rewrite W2, andb_false_r. cbn [andb]. rewrite (mbind_ok _ _ _ _ _ E). destruct (read st1 lhs) as [y|] eqn:Ry; [|tauto].
    unfold mbind, rd, mfail, wr, push_value. rewrite (read_write_some _ _ _ _ Ry). cbn. now rewrite write_write.
  - destruct (read st1 lhs) as [y|] eqn:Ry; [|tauto]. eapply puts_intro; eauto.
Qed.
Lemma or_new_throws lhs src mr st st1 s r d : read st src = Some s -> members_of s = Some r -> puts st src (VObj Tobject (Some r)) st1 ->
  read st1 lhs = Some d -> owned d -> type_of d <> Tobject -> exec (COrNew lhs src false mr) st = Done st1 (Throw JsonException).
Proof.
  intros Rs Er P Rd Od N. apply puts_write in P. destruct P as [_ ->]. cbn [exec]. unfold or_new. rewrite (mbind_ok _ _ _ _ _ (call_as_object _ _ _ _ Rs Er)). unfold mbind, rd, mfail. rewrite Rd.
  unfold as_object_c, is_object, type_error. destruct d as [t x|t o|t o]; cbn [type_of] in *; destruct t; cbn; try congruence; auto; inversion Od; subst; auto.
Qed.
Lemma plus_new_throws lhs src mr st st1 s r d : read st src = Some s -> elements_of s = Some r -> puts st src (VArr Tarray (Some r)) st1 ->
  read st1 lhs = Some d -> owned d -> type_of d <> Tarray -> exec (CPlusNew lhs src false mr) st = Done st1 (Throw JsonException).
Proof.
  intros Rs Er P Rd Od N. apply puts_write in P. destruct P as [_ ->]. cbn [exec]. unfold plus_new. rewrite (mbind_ok _ _ _ _ _ (call_as_array _ _ _ _ Rs Er)). unfold mbind, rd, mfail. rewrite Rd.
  unfold as_array_c, is_array, type_error. destruct d as [t x|t o|t o]; cbn [type_of] in *; destruct t; cbn; try congruence; auto; inversion Od; subst; auto.
Qed.
(** ** Calls without an argument of type value; failing calls; queries *)
Lemma invoke_effect st l m v : read st l = Some v -> exists st', exec (CInvoke l m) st = Done st' (snd (invoke m v)) /\ puts st l (fst (invoke m v)) st'.
Proof. intros R. eexists. split; [cbn [exec]; exact (call_read _ _ _ _ R)|eapply puts_intro; eauto]. Qed.
Lemma query_effect st c st' r : exec c st = Done st' r -> match c with CAsk _ _ | CEq _ _ => st' = st | _ => True end.
Proof.
  destruct c; auto; cbn [exec]; unfold mbind, rd, mfail, mret.
  - destruct (read st l); [|discriminate]. congruence.
  - destruct (read st a) as [v|]; [|discriminate]. destruct (read st b) as [w|]; [|discriminate]. destruct (v_eq v w); congruence.
Qed.
Lemma emplace_throws st dst a st1 t d : prepare a st = Done st1 (Ok t) -> read st1 dst = Some d -> tag_ok d -> owned d ->
  (elements_of d = None -> exec (CEmplace dst a) st = Done st1 (Throw JsonException)) /\
  (members_of d = None -> forall k, exec (CEmplaceKey dst k a) st = Done st1 (Throw JsonException)).
Proof.
  intros P R T O. split; intros E; [|intros k]; cbn [exec]; rewrite (mbind_ok _ _ _ _ _ P).
  - unfold emplace_back, mbind. rewrite (call_read _ _ _ _ R), (as_array_none d T O E). cbn [fst snd]. now rewrite write_same.
  - unfold insert_or_assign, mbind. rewrite (call_read _ _ _ _ R), (as_object_none d T O E). cbn [fst snd]. now rewrite write_same.
Qed.
Lemma temporary_throws st dst e x st1 d : yields st e x st1 -> read st1 dst = Some d -> tag_ok d -> owned d ->
  (elements_of d = None -> exec (CEmplace dst (Tmp e)) st = Done st1 (Throw JsonException)) /\
  (members_of d = None -> forall k, exec (CEmplaceKey dst k (Tmp e)) st = Done st1 (Throw JsonException)).
Proof. intros Y. apply emplace_throws with (t := Some x). cbn [prepare]. apply yields_eval in Y. unfold mbind. now rewrite Y. Qed.
Lemma reference_throws st dst a d : (exists src, a = CRef src \/ a = MRef src) -> read st dst = Some d -> tag_ok d -> owned d ->
  (elements_of d = None -> exec (CEmplace dst a) st = Done st (Throw JsonException)) /\
  (members_of d = None -> forall k, exec (CEmplaceKey dst k a) st = Done st (Throw JsonException)).
Proof. intros (src & [-> | ->]); now apply emplace_throws with (t := None). Qed.
