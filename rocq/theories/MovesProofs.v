(** * Programs that do not touch what they have moved from: every step is defined. *)
From Verif Require Import Base Value Spec Containers Dump Api SpecApi BaseProofs ContainerProofs ApiProofs Heap SpecHeap StoreProofs SpecEffects EffectProofs StatementProofs SpecMoves.
From Verif Require HeapSafety.

Notation pl := ApiProofs.plain.
Definition fine {A} (m : M A) (st : store) : Prop := exists st' r, m st = Done st' r /\ r <> Ub.
Lemma fine_bind {A B} (m : M A) (f : A -> M B) st st1 r : m st = Done st1 r -> r <> Ub -> (forall a, r = Ok a -> fine (f a) st1) -> fine (mbind m f) st.
Proof.
  intros E N H. unfold fine, mbind. rewrite E. destruct r as [a|e| | |]; [now apply H| | | |]; try tauto; eexists _, _; (split; [reflexivity|discriminate]).
Qed.
Lemma fine_ok {A B} (m : M A) (f : A -> M B) st st1 a : m st = Done st1 (Ok a) -> fine (f a) st1 -> fine (mbind m f) st.
Proof. intros E H. eapply fine_bind; [exact E|discriminate|]. intros a' [= <-]. exact H. Qed.
Lemma fine_done {A} (m : M A) st st1 r : m st = Done st1 r -> r <> Ub -> fine m st.
Proof. intros E N. eexists _, _. eauto. Qed.

Definition not_null (v : value) : Prop := match v with VArr _ None | VObj _ None => False | _ => True end.
Lemma owned_not_null v : owned v -> not_null v.
Proof. intros H. destruct H; exact Logic.I. Qed.
Lemma whole_present st l : whole st l -> present st l.
Proof. intros (v & R & O). exists v. split; auto. now apply owned_not_null. Qed.
Lemma present_read st l : present st l -> read st l <> None.
Proof. intros (v & R & _). congruence. Qed.
Lemma whole_read st l : whole st l -> read st l <> None.
Proof. intros (v & R & _). congruence. Qed.

(** ** Writing elsewhere *)
Definition alike (v v' : value) : Prop :=
  match v, v' with
  | VStr t s, VStr t' s' => t = t' /\ s = s'
  | VArr t p, VArr t' p' => t = t' /\ (p <> None -> p' <> None)
  | VObj t p, VObj t' p' => t = t' /\ (p <> None -> p' <> None)
  | _, _ => False
  end.
Lemma alike_refl v : alike v v.
Proof. destruct v; cbn; auto. Qed.
Lemma upd_alike s q f v : alike v (upd_at (s :: q) f v).
Proof. destruct s, v as [t x|t [l|]|t [l|]]; cbn; auto; split; auto; discriminate. Qed.
Lemma write_alike st t x b v : within t b = false -> read st b = Some v -> exists v', read (write st t x) b = Some v' /\ alike v v'.
Proof.
  intros W R. destruct (within b t) eqn:W2.
  - destruct (read_write_above st b t x W2) as (q & Eq & ->). rewrite R. cbn. destruct q as [|s q].
    + rewrite app_nil_r in Eq. exfalso. apply within_spec in W2 as [E _]. destruct b, t; cbn in *; subst. rewrite within_refl in W. discriminate.
    + eexists. split; [reflexivity|]. apply upd_alike.
  - rewrite read_write_disjoint by auto. exists v. split; auto. apply alike_refl.
Qed.
Lemma alike_not_null v v' : alike v v' -> not_null v -> not_null v'.
Proof. destruct v as [t x|t [l|]|t [l|]], v' as [t' x'|t' [l'|]|t' [l'|]]; cbn; try tauto; intros [_ H] _; apply H; auto; discriminate. Qed.
Lemma write_present st t x b : within t b = false -> present st b -> present (write st t x) b.
Proof. intros W (v & R & H). destruct (write_alike st t x b v W R) as (v' & R' & A). exists v'. split; auto. now apply (alike_not_null v). Qed.
Lemma write_read st t x b : within t b = false -> read st b <> None -> read (write st t x) b <> None.
Proof. intros W R. destruct (read st b) as [v|] eqn:E; [|tauto]. destruct (write_alike st t x b v W E) as (v' & -> & _). discriminate. Qed.
Lemma write_whole st t x b : apart t b -> whole st b -> whole (write st t x) b.
Proof. intros [W1 W2] (v & R & O). exists v. split; auto. now rewrite read_write_disjoint. Qed.
Lemma upd_owned p : forall v x, owned v -> owned x -> owned (upd_at p (fun _ => x) v).
Proof.
  induction p as [|s p IH]; intros v x Hv Hx; cbn [upd_at]; auto. destruct s as [k|n]; inversion Hv as [|t l F|t m F]; subst; auto.
  - constructor. clear Hv. induction m as [|[k' y] m IHm]; cbn; auto. inversion_clear F as [|? ? F1 F2]. destruct (bytes_eqb k k'); constructor; cbn in *; auto.
  - constructor. clear Hv. revert n. induction l as [|y l IHl]; intros [|n]; cbn; auto; inversion_clear F as [|? ? F1 F2]; constructor; auto.
Qed.
Lemma write_whole_above st t x b : within b t = true -> owned x -> whole st b -> whole (write st t x) b.
Proof.
  intros W O (v & R & Ov). destruct (read_write_above st b t x W) as (q & _ & E). rewrite R in E. cbn in E. exists (upd_at q (fun _ => x) v). split; auto. now apply upd_owned.
Qed.
(** as_array() and as_object() replace a value that counts as empty, which has no parts *)
Lemma elements_cases d l : elements_of d = Some l -> d = VArr Tarray (Some l) \/ (l = [] /\ owned d /\ forall s p, get_at (s :: p) d = None).
Proof. destruct d as [[] [|]|[] [|]|[] [[|]|]]; cbn; intros [= <-]; auto; right; splits; auto; try (constructor; constructor); intros []; reflexivity. Qed.
Lemma members_cases d m : members_of d = Some m -> d = VObj Tobject (Some m) \/ (m = [] /\ owned d /\ forall s p, get_at (s :: p) d = None).
Proof. destruct d as [[] [|]|[] [[|]|]|[] [|]]; cbn; intros [= <-]; auto; right; splits; auto; try (constructor; constructor); intros [] ?; try reflexivity; destruct n; reflexivity. Qed.
Lemma coerced_keeps st dst d y : read st dst = Some d -> owned y -> (forall s p, get_at (s :: p) d = None) ->
  (forall l, whole st l -> whole (write st dst y) l) /\ (forall l, read st l <> None -> read (write st dst y) l <> None).
Proof.
  intros R Oy Np. assert (NI : forall l, read st l <> None -> ~ strictly_inside dst l).
  { intros l Rl (E & s & p & Es). apply Rl. destruct dst as [i a], l as [j b]. cbn in *. subst. unfold read in *. cbn in *. destruct (nth_error st i); auto. rewrite get_at_app, R. apply Np. }
  split; intros l H.
  - destruct (loc_cases dst l) as [<-|[I|[I|A]]].
    + exists y. split; auto. eapply read_write_some; eauto.
    + now apply NI in I; [|now apply whole_read].
    + apply write_whole_above; auto. now apply inside_within.
    + now apply write_whole.
  - destruct (loc_cases dst l) as [<-|[I|[I|[W1 W2]]]].
    + rewrite (read_write_some _ _ _ y R). discriminate.
    + now apply NI in I.
    + apply write_read; auto. now apply inside_not_within.
    + now rewrite read_write_disjoint.
Qed.
Lemma coerced_arr st dst d l : read st dst = Some d -> elements_of d = Some l ->
  (forall b, whole st b -> whole (write st dst (VArr Tarray (Some l))) b) /\ (forall b, read st b <> None -> read (write st dst (VArr Tarray (Some l))) b <> None).
Proof.
  intros R E. destruct (elements_cases d l E) as [->|(-> & O & N)]; [rewrite (write_same _ _ _ R); auto|]. apply (coerced_keeps st dst d); auto. constructor. constructor.
Qed.
Lemma coerced_obj st dst d m : read st dst = Some d -> members_of d = Some m ->
  (forall b, whole st b -> whole (write st dst (VObj Tobject (Some m))) b) /\ (forall b, read st b <> None -> read (write st dst (VObj Tobject (Some m))) b <> None).
Proof.
  intros R E. destruct (members_cases d m E) as [->|(-> & O & N)]; [rewrite (write_same _ _ _ R); auto|]. apply (coerced_keeps st dst d); auto. constructor. constructor.
Qed.
Lemma as_array_refused v : tag_ok v -> not_null v -> elements_of v = None -> as_array_m v = (v, Throw JsonException).
Proof.
  intros T N E. inversion T as [t s| | | |]; subst; cbn in N; try tauto; try (cbn in E; discriminate).
  - destruct t; try tauto; try discriminate; destruct s; try discriminate; reflexivity.
  - destruct m; try discriminate; reflexivity.
Qed.
Lemma as_object_refused v : tag_ok v -> not_null v -> members_of v = None -> as_object_m v = (v, Throw JsonException).
Proof.
  intros T N E. inversion T as [t s|l| | |]; subst; cbn in N; try tauto; try (cbn in E; discriminate).
  - destruct t; try tauto; try discriminate; destruct s; try discriminate; reflexivity.
  - destruct l; try discriminate; reflexivity.
Qed.
Lemma call_refused {A} (f : value -> value * res A) st l v : read st l = Some v -> f v = (v, Throw JsonException) -> call l f st = Done st (Throw JsonException).
Proof. intros R E. unfold call. rewrite R, E. now rewrite (write_same _ _ _ R). Qed.
Lemma fine_as_array {B} (f : array -> M B) st l v : read st l = Some v -> tag_ok v -> not_null v ->
  (forall xs, elements_of v = Some xs -> fine (f xs) (write st l (VArr Tarray (Some xs)))) -> fine (mbind (call l as_array_m) f) st.
Proof.
  intros R T N H. destruct (elements_of v) as [xs|] eqn:E.
  - eapply fine_ok; [eapply call_as_array; eauto|auto].
  - eapply fine_bind; [eapply call_refused; [exact R|now apply as_array_refused]|discriminate|discriminate].
Qed.
Lemma fine_as_object {B} (f : object -> M B) st l v : read st l = Some v -> tag_ok v -> not_null v ->
  (forall xs, members_of v = Some xs -> fine (f xs) (write st l (VObj Tobject (Some xs)))) -> fine (mbind (call l as_object_m) f) st.
Proof.
  intros R T N H. destruct (members_of v) as [xs|] eqn:E.
  - eapply fine_ok; [eapply call_as_object; eauto|auto].
  - eapply fine_bind; [eapply call_refused; [exact R|now apply as_object_refused]|discriminate|discriminate].
Qed.

Lemma obj_of_list_Forall (P : value -> Prop) l : Forall (fun kv => P (snd kv)) l -> Forall (fun kv => P (snd kv)) (obj_of_list l).
Proof.
  intros H. unfold obj_of_list. assert (G : Forall (fun kv => P (snd kv)) (@nil (bytes * value))) by constructor.
  revert G. generalize (@nil (bytes * value)) as m. induction H as [|(k, x) l Hx Hl IH]; cbn; intros m G; auto. apply IH. now apply map_emplace_Forall.
Qed.

(** ** Expressions *)
Lemma eval_list_keeps (P : store -> Prop) ev es : Forall (fun e => forall st st1 r, ev e st = Done st1 r -> P st -> P st1) es ->
  forall st st1 r, eval_list ev es st = Done st1 r -> P st -> P st1.
Proof.
  induction 1 as [|e es He _ IH]; cbn; intros st st1 r E H; [injection E as <- _; auto|]. unfold mbind in E. destruct (ev e st) as [|st2 r2] eqn:E2; [discriminate|].
  specialize (He _ _ _ E2 H). destruct r2; try (injection E as <- _; exact He). destruct (eval_list ev es st2) as [|st3 r3] eqn:E3; [discriminate|].
  specialize (IH _ _ _ E3 He). destruct r3; injection E as <- _; exact IH.
Qed.
(** a temporary modifies only what it moves from *)
Lemma eval_keeps (P : store -> Prop) e : forall st st1 r, (forall st t x, In t (expr_takes e) -> P st -> P (write st t x)) -> eval e st = Done st1 r -> P st -> P st1.
Proof.
  induction e as [|b|s|s|t s|l|l|es IH|ms IH] using expr_ind'; intros st st1 r C E H; cbn [eval expr_takes] in *; try (injection E as <- _; exact H).
  - unfold copy_from, mbind, rd, mfail in E. destruct (read st l); [|discriminate]. destruct (copy v); injection E as <- _; exact H.
  - unfold take, mbind, rd, wr, mret in E. destruct (read st l); [|discriminate]. injection E as <- _. apply C; auto. now left.
  - unfold mbind in E. destruct (eval_list eval es st) as [|st2 r2] eqn:E2; [discriminate|].
    assert (P st2).
    { revert E2 H. apply eval_list_keeps. rewrite Forall_forall in *. intros e He s1 s2 r' E1. apply (IH e He s1 s2 r'); auto. intros s3 t x Ht. apply C. apply in_flat_map. eauto. }
    destruct r2; try (injection E as <- _; auto). unfold mfail, mret in E. destruct (copy_elems copy a); injection E as <- _; auto.
  - unfold mbind in E. rewrite eval_members_list in E. destruct (eval_list eval (map snd ms) st) as [|st2 r2] eqn:E2; [discriminate|].
    assert (P st2).
    { revert E2 H. apply eval_list_keeps. rewrite Forall_forall in *. intros e He s1 s2 r' E1. apply in_map_iff in He as ((k & e') & <- & He). apply (IH (k, e') He s1 s2 r'); auto.
      intros s3 t x Ht. apply C. apply in_flat_map. eauto. }
    destruct r2; try (injection E as <- _; auto). cbn [bind] in E. unfold mfail, mret in E. destruct (copy_members copy (combine (map fst ms) a)); injection E as <- _; auto.
Qed.
Lemma takes_refs e : forall t, In t (expr_takes e) <-> In (t, true) (expr_refs e).
Proof.
  induction e as [|b|s|s|t s|l|l|es IH|ms IH] using expr_ind'; intros t'; cbn [expr_takes expr_refs]; try tauto.
  - cbn. split; [tauto|]. intros [[=]|[]].
  - cbn. split; [intros [->|[]]; auto|]. intros [[= ->]|[]]. auto.
  - rewrite !in_flat_map. rewrite Forall_forall in IH. split; intros (e & He & H); exists e; split; auto; now apply (IH e He).
  - rewrite !in_flat_map. rewrite Forall_forall in IH. split; intros (e & He & H); exists e; split; auto; now apply (IH e He).
Qed.
Lemma moved_once_app a b : moved_once (a ++ b) -> moved_once a /\ moved_once b /\
  forall x y, In x a -> In y b -> snd x = true \/ snd y = true -> apart (fst x) (fst y).
Proof.
  unfold moved_once. induction a as [|x a IH]; cbn; intros H.
  - splits; auto; [constructor|tauto].
  - inversion_clear H as [|? ? H1 H2]. apply Forall_app in H1 as [H1 H1']. destruct (IH H2) as (A & B & C). splits; auto; [constructor; auto|].
    intros u v [<-|Hu] Hv; [|now apply C]. rewrite Forall_forall in H1'. now apply H1'.
Qed.
Lemma eval_list_ready es : Forall (fun e => forall st, moved_once (expr_refs e) -> Forall (fun u => whole st (fst u)) (expr_refs e) -> exists st1 x, eval e st = Done st1 (Ok x) /\ owned x) es ->
  forall st, moved_once (flat_map expr_refs es) -> Forall (fun u => whole st (fst u)) (flat_map expr_refs es) -> exists st1 xs, eval_list eval es st = Done st1 (Ok xs) /\ Forall owned xs.
Proof.
  induction 1 as [|e es He _ IH]; intros st Hm Hw; cbn [flat_map] in *; [eexists _, _; split; [reflexivity|constructor]|].
  apply moved_once_app in Hm as (M1 & M2 & Ap). apply Forall_app in Hw as [W1 W2]. destruct (He st M1 W1) as (st1 & x & E & O).
  destruct (IH st1 M2) as (st2 & xs & E2 & Os).
  - rewrite Forall_forall in *. intros u Hu. refine (eval_keeps (fun s => whole s (fst u)) e st st1 _ _ E (W2 u Hu)).
    intros s t y Ht. apply write_whole. apply takes_refs in Ht. apply (Ap (t, true) u Ht Hu). now left.
  - exists st2, (x :: xs). cbn [eval_list]. unfold mbind. rewrite E, E2. split; auto.
Qed.
Lemma copies_owned xs : Forall owned xs -> copy_elems copy xs = Ok xs.
Proof.
  induction 1 as [|x xs O _ IH]; cbn [copy_elems]; auto. rewrite (copy_owned x O). cbn. now rewrite IH.
Qed.
Lemma eval_ready e : forall st, moved_once (expr_refs e) -> Forall (fun u => whole st (fst u)) (expr_refs e) -> exists st1 x, eval e st = Done st1 (Ok x) /\ owned x.
Proof.
  induction e as [|b|s|s|t s|l|l|es IH|ms IH] using expr_ind'; intros st Hm Hw; cbn [eval expr_refs] in *; try (eexists _, _; split; [reflexivity|constructor]).
  - inversion_clear Hw as [|? ? (v & R & O) _]. cbn in R. exists st, v. split; auto. unfold copy_from, mbind, rd, mfail. rewrite R. now rewrite (copy_owned v O).
  - inversion_clear Hw as [|? ? (v & R & O) _]. cbn in R. eexists _, v. split; auto. unfold take, mbind, rd, wr, mret. rewrite R. reflexivity.
  - destruct (eval_list_ready es IH st Hm Hw) as (st1 & xs & E & O). exists st1, (v_array xs). unfold mbind. rewrite E. unfold mfail, mret. rewrite (copies_owned xs O). split; auto. constructor. exact O.
  - assert (G : flat_map (fun ke => expr_refs (snd ke)) ms = flat_map expr_refs (map snd ms)). { clear. induction ms as [|[k e] ms IH]; cbn; auto. now rewrite IH. }
    rewrite G in Hm, Hw. destruct (eval_list_ready (map snd ms)) with (st := st) as (st1 & xs & E & O); auto.
    { rewrite Forall_forall in *. intros e He. apply in_map_iff in He as ((k & e') & <- & He). apply (IH (k, e') He). }
    assert (L : length (map fst ms) = length xs).
    { assert (Y : yields_all st (map snd ms) xs st1). { eapply eval_list_yields; [|exact E]. rewrite Forall_forall. intros e He s1 x s2. apply eval_yields. }
      apply yields_all_length in Y. rewrite map_length in *. auto. }
    exists st1, (v_object (obj_of_list (combine (map fst ms) xs))). unfold mbind. rewrite eval_members_list, E. cbn [bind]. unfold mfail, mret. rewrite (combine_copy _ _ L O). split; auto.
    constructor. apply obj_of_list_Forall. clear -O. revert xs O. induction (map fst ms) as [|k ks IH]; intros xs O; cbn; auto. destruct O; constructor; auto.
Qed.
Lemma expr_fine st e : expr_ready st e -> exists st1 x, eval e st = Done st1 (Ok x).
Proof.
  intros [M R]. destruct e as [|b|s|s|t s|l|l|es|ms]; try (destruct (eval_ready _ st M R) as (st1 & x & E & _); eauto; fail).
  cbn [eval]. unfold take, mbind, rd, wr, mret. destruct (read st l); [eauto|tauto].
Qed.
Lemma tmp_ready st dst e : expr_ready st e -> Forall (fun l => within l dst = false) (expr_takes e) -> exists st1 x, eval e st = Done st1 (Ok x) /\
  (read st dst <> None -> read st1 dst <> None) /\ (present st dst -> present st1 dst).
Proof.
  intros R W. destruct (expr_fine st e R) as (st1 & x & E). exists st1, x. rewrite Forall_forall in W. splits; auto.
  - eapply (eval_keeps (fun s => read s dst <> None)); [|exact E]. intros s t y Ht. apply write_read. auto.
  - eapply (eval_keeps (fun s => present s dst)); [|exact E]. intros s t y Ht. apply write_present. auto.
Qed.

(** ** Commands *)
Lemma tagged st l v : sok pl True st -> read st l = Some v -> tag_ok v /\ keys_ok v.
Proof. intros S R. apply (okv_tag_ok True). eapply read_ok; eauto. Qed.
Lemma arr_tagged st l v xs : sok pl True st -> read st l = Some v -> elements_of v = Some xs -> sok pl True (write st l (VArr Tarray (Some xs))).
Proof.
  intros S R E. apply write_ok; auto. destruct (elements_cases v xs E) as [->|(-> & _)]; [eapply read_ok; eauto|]. constructor. constructor.
Qed.
Lemma members_sorted v m : keys_ok v -> members_of v = Some m -> sorted_keys m.
Proof.
  intros K E. destruct (members_cases v m E) as [->|(-> & _)]; [|constructor]. inversion K; subst; auto.
Qed.
Lemma moved_assigned st dst src : read st dst <> None -> read st src <> None -> ~ strictly_inside src dst -> part_ready st dst (MRef src) -> fine (move_assign dst src) st.
Proof.
  intros Rd Rs N P. destruct (read st dst) as [d|] eqn:Ed; [|tauto]. destruct (read st src) as [w|] eqn:Ew; [|tauto]. unfold fine, move_assign, mbind, rd, wr. rewrite Ed. cbv beta iota. rewrite Ew. cbv beta iota.
  destruct (same dst src) eqn:S; [eexists _, _; split; [reflexivity|discriminate]|].
  destruct (within dst src) eqn:W.
  - destruct P as (d' & w' & E1 & E2 & A). { apply strictly_inside_spec. split; auto. intros E. apply same_spec in E. congruence. }
    rewrite Ed in E1. rewrite Ew in E2. injection E1 as <-. injection E2 as <-. rewrite A. eexists _, _; split; [reflexivity|discriminate].
  - destruct (within src dst); eexists _, _; split; try reflexivity; discriminate.
Qed.

Lemma fine_push st dst v xs : read st dst = Some (VArr Tarray (Some xs)) -> fine (call dst (fun d => on_array (fun l => (arr_emplace_back v l, Ok tt)) d)) st.
Proof. intros R. eapply fine_done; [eapply call_on_array; [exact R|reflexivity]|discriminate]. Qed.
Lemma fine_set st dst k v m : read st dst = Some (VObj Tobject (Some m)) -> fine (call dst (fun d => on_object (fun m => (map_assign k v m, Ok tt)) d)) st.
Proof. intros R. eapply fine_done; [eapply call_on_object; [exact R|reflexivity]|discriminate]. Qed.
Lemma alike_arr xs v : alike (VArr Tarray (Some xs)) v -> exists ys, v = VArr Tarray (Some ys).
Proof. destruct v as [t s|t [l|]|t [m|]]; cbn; try tauto; intros [<- H]; eauto. exfalso. apply H; auto. discriminate. Qed.
Lemma alike_obj xs v : alike (VObj Tobject (Some xs)) v -> exists ys, v = VObj Tobject (Some ys).
Proof. destruct v as [t s|t [l|]|t [m|]]; cbn; try tauto; intros [<- H]; eauto. exfalso. apply H; auto. discriminate. Qed.
Lemma fine_copy {B} (f : value -> M B) st src : whole st src -> (forall v, fine (f v) st) -> fine (mbind (copy_from src) f) st.
Proof. intros (v & R & O) H. apply (fine_ok _ _ st st v); auto. unfold copy_from, mbind, rd, mfail. now rewrite R, (copy_owned v O). Qed.
Lemma fine_take {B} (f : value -> M B) st src : read st src <> None -> (forall v, fine (f v) (write st src (moved v))) -> fine (mbind (take src) f) st.
Proof.
  intros N H. destruct (read st src) as [v|] eqn:R; [|tauto]. apply (fine_ok _ _ st (write st src (moved v)) v); auto. unfold take, mbind, rd, wr, mret. now rewrite R.
Qed.
Lemma moved_arr st src dst x xs : within src dst = false -> read st dst = Some (VArr Tarray (Some xs)) -> exists ys, read (write st src x) dst = Some (VArr Tarray (Some ys)).
Proof. intros W R. destruct (write_alike st src x dst _ W R) as (v & R' & A). destruct (alike_arr xs v A) as (ys & ->). eauto. Qed.
Lemma moved_obj st src dst x xs : within src dst = false -> read st dst = Some (VObj Tobject (Some xs)) -> exists ys, read (write st src x) dst = Some (VObj Tobject (Some ys)).
Proof. intros W R. destruct (write_alike st src x dst _ W R) as (v & R' & A). destruct (alike_obj xs v A) as (ys & ->). eauto. Qed.
Lemma fine_emplace_ref st dst a : sok pl True st -> present st dst -> (forall e, a <> Tmp e) -> arg_ready st dst a -> ~ moves_into_part (CEmplace dst a) ->
  fine (emplace_back dst a None) st.
Proof.
  intros S (d & R & N) T A W. destruct (tagged _ _ _ S R) as [Tg K]. unfold emplace_back. apply (fine_as_array _ st dst d R Tg N). intros xs E.
  pose proof (read_write_some _ _ _ (VArr Tarray (Some xs)) R) as R1. destruct (coerced_arr st dst d xs R E) as [C1 C2].
  destruct a as [e|l|l]; cbn [construct arg_ready moves_into_part] in *; [now elim (T e)| |].
  - apply fine_copy; auto. intros v. eapply fine_push; eauto.
  - assert (W' : within l dst = false) by (destruct (within l dst); auto; exfalso; apply W; reflexivity).
    apply fine_take; auto. intros v. rewrite W'.
    destruct (moved_arr _ l dst (moved v) xs W' R1) as (ys & R2). eapply fine_push; eauto.
Qed.
Lemma fine_tmp_emplace st dst e : sok pl True st -> literals pl e -> present st dst -> arg_ready st dst (Tmp e) -> fine (exec (CEmplace dst (Tmp e))) st.
Proof.
  intros S Hl P [A1 A2]. destruct (tmp_ready st dst e A1 A2) as (st1 & x & E & _ & P1). specialize (P1 P). cbn [exec prepare].
  destruct plain_facts as (F1 & F2 & F3 & F4 & F5).
  assert (S1 : sok pl True st1). { pose proof (t_eval pl True F1 F2 F3 (F4 True) True e (fun _ => Logic.I) Hl (or_intror Logic.I) st S) as T. rewrite E in T. apply T. discriminate. }
  apply (fine_ok _ _ st st1 (Some x)); [unfold mbind; now rewrite E|]. destruct P1 as (d & R & N). destruct (tagged _ _ _ S1 R) as [Tg K].
  unfold emplace_back. apply (fine_as_array _ st1 dst d R Tg N). intros xs Ex. cbn [construct]. apply (fine_ok _ _ _ (write st1 dst (VArr Tarray (Some xs))) x); [reflexivity|].
  eapply fine_push. eapply read_write_some; eauto.
Qed.
Lemma fine_insert_ref st dst k a : sok pl True st -> present st dst -> (forall e, a <> Tmp e) -> arg_ready st dst a -> part_ready st (sub dst (Key k)) a ->
  ~ moves_into_part (CEmplaceKey dst k a) -> ~ copies_into_part (CEmplaceKey dst k a) -> fine (insert_or_assign dst k a None) st.
Proof.
  intros S (d & R & N) T A Pr W Wc. destruct (tagged _ _ _ S R) as [Tg K]. unfold insert_or_assign. apply (fine_as_object _ st dst d R Tg N). intros m E.
  pose proof (read_write_some _ _ _ (VObj Tobject (Some m)) R) as R1. destruct (coerced_obj st dst d m R E) as [C1 C2].
  destruct a as [e|l|l]; cbn [construct assign arg_ready moves_into_part copies_into_part part_ready] in *; [now elim (T e)| |].
  - destruct (obj_contains k m) eqn:C.
    + apply found in C. destruct (map_find k m) as [y|] eqn:F; [|tauto]. destruct (C1 l A) as (x & Rx & Ox).
      eapply fine_done; [eapply copy_assign_effect with (x := x) (d := y); auto; rewrite sub_read, R1; cbn; now rewrite F|discriminate].
    + apply fine_copy; auto. intros v. eapply fine_set; eauto.
  - assert (W' : within l dst = false) by (destruct (within l dst); auto; exfalso; apply W; reflexivity).
    destruct (obj_contains k m) eqn:C.
    + apply found in C. destruct (map_find k m) as [y|] eqn:F; [|tauto]. apply moved_assigned; auto.
      * rewrite sub_read, R1. cbn. rewrite F. discriminate.
      * intros I. apply strictly_inside_spec in I as [I NE]. apply within_of_sub in I as [I|I]; congruence.
      * intros I. destruct (members_cases d m E) as [->|(-> & _)]; [|discriminate]. rewrite (write_same _ _ _ R). auto.
    + apply fine_take; auto. intros v. rewrite W'. destruct (moved_obj _ l dst (moved v) m W' R1) as (ys & R2). eapply fine_set; eauto.
Qed.
Lemma fine_tmp_insert st dst k e : sok pl True st -> literals pl e -> present st dst -> arg_ready st dst (Tmp e) -> fine (exec (CEmplaceKey dst k (Tmp e))) st.
Proof.
  intros S Hl P [A1 A2]. destruct (tmp_ready st dst e A1 A2) as (st1 & x & E & _ & P1). specialize (P1 P). cbn [exec prepare].
  destruct plain_facts as (F1 & F2 & F3 & F4 & F5).
  assert (S1 : sok pl True st1). { pose proof (t_eval pl True F1 F2 F3 (F4 True) True e (fun _ => Logic.I) Hl (or_intror Logic.I) st S) as T. rewrite E in T. apply T. discriminate. }
  apply (fine_ok _ _ st st1 (Some x)); [unfold mbind; now rewrite E|]. destruct P1 as (d & R & N). destruct (tagged _ _ _ S1 R) as [Tg K].
  unfold insert_or_assign. apply (fine_as_object _ st1 dst d R Tg N). intros m Em. pose proof (read_write_some _ _ _ (VObj Tobject (Some m)) R) as R1.
  destruct (obj_contains k m) eqn:C; cbn [assign construct].
  - apply found in C. destruct (map_find k m) as [y|] eqn:F; [|tauto]. unfold fine, mbind, rd, wr. rewrite sub_read, R1. cbn [get_at]. rewrite F. eexists _, _. split; [reflexivity|discriminate].
  - apply (fine_ok _ _ _ (write st1 dst (VObj Tobject (Some m))) x); [reflexivity|]. eapply fine_set; eauto.
Qed.
Definition okval (mv : bool) (v : value) : Prop := not_null v /\ (mv = false -> owned v).
Lemma src_val st src (mv : bool) : (if mv then present st src else whole st src) -> exists v, read st src = Some v /\ okval mv v.
Proof.
  destruct mv; intros (v & R & H); exists v; split; auto; split; auto; [discriminate|]. now apply owned_not_null.
Qed.
Lemma owned_elements v l : owned v -> elements_of v = Some l -> Forall owned l.
Proof. intros O E. destruct (elements_cases v l E) as [->|(-> & _)]; [|constructor]. now inversion O. Qed.
Lemma owned_members v m : owned v -> members_of v = Some m -> Forall (fun kv => owned (snd kv)) m.
Proof. intros O E. destruct (members_cases v m E) as [->|(-> & _)]; [|constructor]. now inversion O. Qed.
Lemma fine_or_apart st dst src (mv : bool) : sok pl True st -> apart dst src -> present st dst -> (if mv then present st src else whole st src) ->
  fine (or_assign dst src mv) st.
Proof.
  intros S Ap (d & Rd & Nd) Hs. destruct (src_val _ _ _ Hs) as (w & Rs & Nw & Ow). destruct (tagged _ _ _ S Rd) as [Td Kd]. destruct (tagged _ _ _ S Rs) as [Ts Ks].
  destruct (members_of w) as [r|] eqn:Er.
  - destruct (members_of d) as [m|] eqn:Em.
    + destruct (merge_effect dst src mv st d m w r Ap Rd Em (members_sorted _ _ Kd Em) Rs Er (members_sorted _ _ Ks Er)) as (st1 & st' & m' & r' & E & _).
      { intros ->. apply (owned_members w); auto. }
      eapply fine_done; [exact E|discriminate].
    + unfold or_assign. eapply fine_ok; [eapply call_as_object; eauto|]. destruct Ap as [W1 W2]. unfold same. rewrite W1. cbn [andb].
      apply (fine_as_object _ _ dst d); auto; [now rewrite read_write_disjoint|]. intros xs E. congruence.
  - unfold or_assign. apply (fine_as_object _ _ src w); auto. intros xs E. congruence.
Qed.
Lemma fine_plus_apart st dst src (mv : bool) : sok pl True st -> apart dst src -> present st dst -> (if mv then present st src else whole st src) ->
  fine (plus_assign dst src mv) st.
Proof.
  intros S Ap (d & Rd & Nd) Hs. destruct (src_val _ _ _ Hs) as (w & Rs & Nw & Ow). destruct (tagged _ _ _ S Rd) as [Td Kd]. destruct (tagged _ _ _ S Rs) as [Ts Ks].
  destruct (elements_of w) as [r|] eqn:Er.
  - destruct (elements_of d) as [m|] eqn:Em.
    + destruct (append_effect dst src mv st d m w r Ap Rd Em Rs Er) as (st1 & st' & r' & E & _).
      { intros ->. apply (owned_elements w); auto. }
      eapply fine_done; [exact E|discriminate].
    + unfold plus_assign. eapply fine_ok; [eapply call_as_array; eauto|]. destruct Ap as [W1 W2].
      apply (fine_as_array _ _ dst d); auto; [now rewrite read_write_disjoint|]. intros xs E. congruence.
  - unfold plus_assign. apply (fine_as_array _ _ src w); auto. intros xs E. congruence.
Qed.
Lemma fine_or_new_apart st lhs src (ml mr : bool) : sok pl True st -> (if ml then apart lhs src /\ present st lhs else whole st lhs) -> (if mr then present st src else whole st src) ->
  fine (or_new lhs src ml mr) st.
Proof.
  intros S Hl Hs. destruct (src_val _ _ _ Hs) as (w & Rs & Nw & Ow). destruct (tagged _ _ _ S Rs) as [Ts Ks]. destruct ml.
  - destruct Hl as [Ap (d & Rd & Nd)]. destruct (tagged _ _ _ S Rd) as [Td Kd]. destruct (members_of w) as [r|] eqn:Er.
    + destruct (members_of d) as [m|] eqn:Em.
      * destruct (or_new_move lhs src mr st d m w r Ap Rd Em (members_sorted _ _ Kd Em) Rs Er (members_sorted _ _ Ks Er)) as (st1 & st' & m' & r' & E & _).
        { intros ->. apply (owned_members w); auto. }
        eapply fine_done; [exact E|discriminate].
      * unfold or_new. destruct (fine_or_apart st lhs src mr S Ap (ex_intro _ d (conj Rd Nd)) Hs) as (st1 & r1 & E1 & N1).
        assert (E2 : r1 = Throw JsonException).
        { unfold or_assign in E1. rewrite (mbind_ok _ _ _ _ _ (call_as_object _ _ _ _ Rs Er)) in E1. destruct Ap as [W1 W2]. unfold same in E1. rewrite W1 in E1. cbn [andb] in E1. unfold mbind at 1 in E1.
          rewrite (call_refused as_object_m (write st src (VObj Tobject (Some r))) lhs d) in E1; [now injection E1 as _ <-|now rewrite read_write_disjoint|now apply as_object_refused]. }
        subst r1. destruct Ap as [W1 W2]. rewrite W2, andb_false_r. cbn [andb]. eapply fine_bind; [exact E1|discriminate|discriminate].
    + assert (E1 : or_assign lhs src mr st = Done st (Throw JsonException)).
      { unfold or_assign, mbind at 1. now rewrite (call_refused as_object_m st src w Rs (as_object_refused w Ts Nw Er)). }
      unfold or_new. destruct Ap as [W1 W2]. rewrite W2, andb_false_r. cbn [andb]. eapply fine_bind; [exact E1|discriminate|discriminate].
  - destruct (members_of w) as [r|] eqn:Er.
    + destruct (coerced_obj st src w r Rs Er) as [C1 C2]. destruct (C1 lhs Hl) as (d & Rd & Od).
      assert (S1 : sok pl True (write st src (VObj Tobject (Some r)))).
      { apply write_ok; auto. destruct (members_cases w r Er) as [->|(-> & _)]; [eapply read_ok; eauto|]. constructor; constructor. }
      destruct (tagged _ _ _ S1 Rd) as [Td Kd].
      destruct (vtype_eqb (type_of d) Tobject) eqn:Y.
      * destruct d as [t x|t o|t o]; cbn in Y; destruct t; try discriminate; [inversion Td; congruence|inversion Td|].
        inversion Od as [| |? m Om]; subst.
        destruct (or_new_copy lhs src mr st _ m w r Rs Er (members_sorted _ _ Ks Er) (puts_intro _ _ _ _ Rs) Rd (members_sorted _ _ Kd eq_refl) Om) as (st' & m' & r' & E & _).
        { intros ->. apply (owned_members w); auto. }
        eapply fine_done; [exact E|discriminate].
      * eapply fine_done; [eapply (or_new_throws lhs src mr st _ w r d); eauto; [eapply puts_intro; eauto|intros Z; rewrite Z in Y; discriminate]|discriminate].
    + unfold or_new. apply (fine_as_object _ _ src w); auto. intros xs E. congruence.
Qed.
Lemma fine_plus_new_apart st lhs src (ml mr : bool) : sok pl True st -> (if ml then apart lhs src /\ present st lhs else whole st lhs) -> (if mr then present st src else whole st src) ->
  fine (plus_new lhs src ml mr) st.
Proof.
  intros S Hl Hs. destruct (src_val _ _ _ Hs) as (w & Rs & Nw & Ow). destruct (tagged _ _ _ S Rs) as [Ts Ks]. destruct ml.
  - destruct Hl as [Ap (d & Rd & Nd)]. destruct (tagged _ _ _ S Rd) as [Td Kd]. destruct (elements_of w) as [r|] eqn:Er.
    + destruct (elements_of d) as [m|] eqn:Em.
      * destruct (plus_new_move lhs src mr st d m w r Ap Rd Em Rs Er) as (st1 & st' & r' & E & _).
        { intros ->. apply (owned_elements w); auto. }
        eapply fine_done; [exact E|discriminate].
      * assert (E1 : plus_assign lhs src mr st = Done (write st src (VArr Tarray (Some r))) (Throw JsonException)).
        { unfold plus_assign. rewrite (mbind_ok _ _ _ _ _ (call_as_array _ _ _ _ Rs Er)). destruct Ap as [W1 W2]. unfold mbind at 1.
          rewrite (call_refused as_array_m (write st src (VArr Tarray (Some r))) lhs d); [reflexivity|now rewrite read_write_disjoint|now apply as_array_refused]. }
        unfold plus_new. destruct Ap as [W1 W2]. rewrite W2, andb_false_r. cbn [andb]. eapply fine_bind; [exact E1|discriminate|discriminate].
    + assert (E1 : plus_assign lhs src mr st = Done st (Throw JsonException)).
      { unfold plus_assign, mbind at 1. now rewrite (call_refused as_array_m st src w Rs (as_array_refused w Ts Nw Er)). }
      unfold plus_new. destruct Ap as [W1 W2]. rewrite W2, andb_false_r. cbn [andb]. eapply fine_bind; [exact E1|discriminate|discriminate].
  - destruct (elements_of w) as [r|] eqn:Er.
    + destruct (coerced_arr st src w r Rs Er) as [C1 C2]. destruct (C1 lhs Hl) as (d & Rd & Od).
      pose proof (arr_tagged _ _ _ _ S Rs Er) as S1. destruct (tagged _ _ _ S1 Rd) as [Td Kd].
      destruct (vtype_eqb (type_of d) Tarray) eqn:Y.
      * destruct d as [t x|t o|t o]; cbn in Y; destruct t; try discriminate; [inversion Td; congruence| |inversion Td].
        inversion Od as [|? l Ol|]; subst.
        destruct (plus_new_copy lhs src mr st _ l w r Rs Er (puts_intro _ _ _ _ Rs) Rd Ol) as (st' & r' & E & _).
        { intros ->. apply (owned_elements w); auto. }
        eapply fine_done; [exact E|discriminate].
      * eapply fine_done; [eapply (plus_new_throws lhs src mr st _ w r d); eauto; [eapply puts_intro; eauto|intros Z; rewrite Z in Y; discriminate]|discriminate].
    + unfold plus_new. apply (fine_as_array _ _ src w); auto. intros xs E. congruence.
Qed.
(** ** Operands that overlap *)
Lemma sub_within l x : within l (sub l x) = true.
Proof. apply within_spec. split; auto. exists [x]. reflexivity. Qed.
Lemma sub_not_within l x : within (sub l x) l = false.
Proof.
  destruct (within (sub l x) l) eqn:W; [|reflexivity]. apply within_spec in W as (_ & r & E). cbn [sub steps] in E. apply (f_equal (@length step)) in E. rewrite !app_length in E. cbn in E. lia.
Qed.
Lemma key_present k (m : object) : In k (map fst m) -> map_find k m <> None.
Proof.
  induction m as [|[k' x] m IH]; cbn; [tauto|]. intros [E|H]; [subst k'; now rewrite bytes_eqb_refl|]. destruct (bytes_eqb _ _); [discriminate|auto].
Qed.
Lemma self_merge dst (mv : bool) ks : forall st m, read st dst = Some (VObj Tobject (Some m)) -> (mv = false -> whole st dst) ->
  (forall k, In k ks -> read st (sub dst (Key k)) <> None) ->
  exists st' m', merge_loop dst dst mv ks st = Done st' (Ok tt) /\ read st' dst = Some (VObj Tobject (Some m')).
Proof.
  induction ks as [|k ks IH]; intros st m R W Hk; [exists st, m; split; [reflexivity|exact R]|].
  assert (Sd : same dst dst = true) by (now apply same_spec).
  destruct (read st (sub dst (Key k))) as [x|] eqn:Rk; [|exfalso; apply (Hk k); [now left|exact Rk]].
  assert (F : map_find k m = Some x) by (rewrite sub_read, R in Rk; cbn in Rk; destruct (map_find k m); congruence).
  assert (C : obj_contains k m = true) by (unfold obj_contains; now rewrite F).
  assert (Hs : same (sub dst (Key k)) (sub dst (Key k)) = true) by (now apply same_spec).
  assert (G : exists y, assign (sub dst (Key k)) (if mv then MRef (sub dst (Key k)) else CRef (sub dst (Key k))) None st = Done (write st (sub dst (Key k)) y) (Ok tt) /\ (mv = false -> owned y)).
  { destruct mv; cbn [assign].
    - unfold move_assign, mbind, rd, wr. rewrite Rk. cbv beta iota. rewrite Rk. cbv beta iota. rewrite Hs. eexists. split; [reflexivity|discriminate].
    - destruct (W eq_refl) as (v & Rv & Ov). rewrite R in Rv. injection Rv as <-. assert (Ox : owned x).
      { inversion Ov as [| |? ? Om]; subst. rewrite Forall_forall in Om. apply map_find_in in F. exact (Om _ F). }
      exists x. split; [|auto]. apply (copy_assign_effect st _ _ x x); auto. intros I. apply strictly_inside_spec in I. tauto. }
  destruct G as (y & G & Oy).
  assert (E : insert_or_assign dst k (if mv then MRef (sub dst (Key k)) else CRef (sub dst (Key k))) None st = Done (write st (sub dst (Key k)) y) (Ok tt)).
  { unfold insert_or_assign, mbind at 1. rewrite (call_as_object st dst _ m R eq_refl), (write_same _ _ _ R), C. exact G. }
  destruct (moved_obj st (sub dst (Key k)) dst y m) as (ys & R1); [apply sub_not_within|exact R|].
  destruct (IH (write st (sub dst (Key k)) y) ys R1) as (st' & m' & E' & R').
  - intros Em. apply write_whole_above; auto. apply sub_within.
  - intros k' Hk'. destruct (bytes_eq_dec k k') as [<-|Q].
    + rewrite (read_write_some _ _ x); [discriminate|exact Rk].
    + apply write_read; [|apply Hk; now right]. destruct (within (sub dst (Key k)) (sub dst (Key k'))) eqn:Z; [|reflexivity]. exfalso.
      apply within_spec in Z as (_ & r & Er). cbn [sub steps] in Er. rewrite <- app_assoc in Er. apply app_inv_head in Er. cbn in Er. injection Er as Ek _. congruence.
  - exists st', m'. split; [|exact R']. cbn [merge_loop]. unfold mbind at 1, rd. rewrite Rk. cbv beta iota. rewrite Sd. cbn [negb andb]. rewrite R. cbv beta iota. unfold mbind at 1. rewrite E. exact E'.
Qed.
(** the outcome, and what the left operand holds after it *)
Definition left_obj (dst : loc) (c : M unit) (st : store) : Prop :=
  exists st' r, c st = Done st' r /\ r <> Ub /\ (r = Ok tt -> exists m, read st' dst = Some (VObj Tobject (Some m))).
Definition left_arr (dst : loc) (c : M unit) (st : store) : Prop :=
  exists st' r, c st = Done st' r /\ r <> Ub /\ (r = Ok tt -> exists l, read st' dst = Some (VArr Tarray (Some l))).
Lemma or_self st dst (mv : bool) : sok pl True st -> (if mv then present st dst else whole st dst) ->
  ~ (exists v, read st dst = Some v /\ v_empty v = Ok true) -> left_obj dst (or_assign dst dst mv) st.
Proof.
  intros S Hs Hn. destruct (src_val _ _ _ Hs) as (w & Rs & Nw & Ow). destruct (tagged _ _ _ S Rs) as [Ts Ks]. unfold left_obj.
  destruct (members_of w) as [r|] eqn:Er.
  - assert (Hr : exists kv r0, r = kv :: r0 /\ w = VObj Tobject (Some r)).
    { destruct (members_cases w r Er) as [->|(-> & _)].
      - destruct r as [|kv r0]; [exfalso; apply Hn; eexists; split; [exact Rs|reflexivity]|eauto].
      - exfalso. apply Hn. exists w. split; [exact Rs|]. destruct w as [[] [|]|[] [[|]|]|[] [[|]|]]; cbn in Er; try discriminate Er; reflexivity. }
    destruct Hr as (kv & r0 & -> & ->).
    destruct (self_merge dst mv (map fst (kv :: r0)) st (kv :: r0) Rs) as (st' & m' & E & R').
    + intros ->. exact Hs.
    + intros k Hk. rewrite sub_read, Rs. cbn [get_at]. pose proof (key_present k _ Hk) as P. destruct (map_find k (kv :: r0)); [discriminate|tauto].
    + exists st', (Ok tt). split; [|split; [discriminate|eauto]]. unfold or_assign, mbind at 1. rewrite (call_as_object st dst _ (kv :: r0) Rs eq_refl), (write_same _ _ _ Rs).
      replace (same dst dst) with true by (symmetry; now apply same_spec). cbn [andb is_nil]. unfold mbind at 1. rewrite (call_as_object st dst _ (kv :: r0) Rs eq_refl), (write_same _ _ _ Rs).
      unfold mbind, rd, mfail. rewrite Rs. exact E.
  - exists st, (Throw JsonException). split; [|split; discriminate]. unfold or_assign, mbind at 1. now rewrite (call_refused as_object_m st dst w Rs (as_object_refused w Ts Nw Er)).
Qed.
(** not apart, no misuse, and nothing is written into a part of its source: the same object *)
Lemma or_overlap dst src : ~ apart dst src -> ~ strictly_inside dst src -> ~ strictly_inside src dst -> dst = src.
Proof.
  intros A B C. unfold apart in A. destruct (same dst src) eqn:Q; [now apply same_spec|]. exfalso.
  assert (Ne : dst <> src) by (intros E; apply same_spec in E; congruence).
  destruct (within dst src) eqn:W1; [apply B; apply strictly_inside_spec; auto|]. destruct (within src dst) eqn:W2; [|tauto]. apply C. apply strictly_inside_spec. split; auto.
Qed.
Lemma apart_dec a b : apart a b \/ ~ apart a b.
Proof. unfold apart. destruct (within a b), (within b a); auto; right; intros [? ?]; discriminate. Qed.
Lemma fine_or st dst src (mv : bool) : sok pl True st -> present st dst -> (if mv then present st src else whole st src) ->
  ~ strictly_inside src dst -> ~ misuse st (COr dst src mv) -> fine (or_assign dst src mv) st.
Proof.
  intros S P Hs Hi Hu. cbn [misuse] in Hu. destruct (apart_dec dst src) as [A|A]; [now apply fine_or_apart|].
  assert (E : dst = src) by (apply or_overlap; auto). subst src.
  destruct (or_self st dst mv S Hs) as (st' & r & E & N & _); [tauto|]. exists st', r. auto.
Qed.
Lemma fine_or_new st lhs src (ml mr : bool) : sok pl True st -> (if ml then present st lhs else whole st lhs) -> (if mr then present st src else whole st src) ->
  (ml = true -> ~ strictly_inside src lhs) -> ~ misuse st (COrNew lhs src ml mr) -> fine (or_new lhs src ml mr) st.
Proof.
  intros S Hl Hs Hi Hu. destruct ml; [|now apply fine_or_new_apart]. destruct (apart_dec lhs src) as [A|A]; [now apply fine_or_new_apart|].
  cbn [misuse] in Hu. assert (E : lhs = src) by (apply or_overlap; auto). subst src.
  destruct (or_self st lhs mr S Hs) as (st' & r & E & N & R); [tauto|].
  unfold or_new. replace (same lhs lhs) with true by (symmetry; now apply same_spec). rewrite andb_false_r.
  eapply fine_bind; [exact E|exact N|]. intros [] ->. destruct (R eq_refl) as (m & Rm).
  unfold fine, mbind, rd, mfail, wr, push_value. rewrite Rm. cbn [as_object_c is_object type_of vtype_eqb get_obj]. eexists _, _. split; [reflexivity|discriminate].
Qed.
(** the right operand of += is part of the left one, or the left one part of the right one, which is copied *)
Lemma elements_parts w r b st src : read st src = Some w -> elements_of w = Some r -> strictly_inside src b -> read st b <> None -> w = VArr Tarray (Some r).
Proof.
  intros R E I Rb. destruct (elements_cases w r E) as [->|(-> & _ & N)]; [reflexivity|]. exfalso. destruct I as (Es & s & p & Ep).
  unfold read in R, Rb. rewrite Es, Ep in Rb. destruct (nth_error st (slot src)) as [x|]; [|discriminate].
  rewrite get_at_app, R in Rb. apply Rb. apply N.
Qed.
Lemma plus_above st dst src (mv : bool) : sok pl True st -> present st dst -> (if mv then present st src else whole st src) -> strictly_inside dst src ->
  left_arr dst (plus_assign dst src mv) st.
Proof.
  intros S (d & Rd & Nd) Hs I. destruct (src_val _ _ _ Hs) as (w & Rs & Nw & Ow). destruct (tagged _ _ _ S Rs) as [Ts Ks]. destruct (tagged _ _ _ S Rd) as [Td Kd]. unfold left_arr.
  pose proof (proj1 (strictly_inside_spec dst src) I) as [W Ne].
  assert (Sm : same dst src = false) by (destruct (same dst src) eqn:Q; [apply same_spec in Q; congruence|reflexivity]).
  assert (W2 : within src dst = false) by (unfold same in Sm; rewrite W in Sm; exact Sm).
  unfold plus_assign. destruct (elements_of w) as [r|] eqn:Er.
  2: { exists st, (Throw JsonException). split; [|split; discriminate]. unfold mbind at 1. now rewrite (call_refused as_array_m st src w Rs (as_array_refused w Ts Nw Er)). }
  rewrite (mbind_ok _ _ _ _ _ (call_as_array _ _ _ _ Rs Er)). set (st1 := write st src (VArr Tarray (Some r))).
  assert (S1 : sok pl True st1) by exact (arr_tagged _ _ _ _ S Rs Er).
  assert (R1 : read st1 src = Some (VArr Tarray (Some r))) by (apply (read_write_some _ _ w); exact Rs).
  destruct (write_present st src (VArr Tarray (Some r)) dst W2 (ex_intro _ d (conj Rd Nd))) as (d1 & Rd1 & Nd1). fold st1 in Rd1. destruct (tagged _ _ _ S1 Rd1) as [Td1 _].
  destruct (elements_of d1) as [m|] eqn:Em.
  2: { exists st1, (Throw JsonException). split; [|split; discriminate]. unfold mbind at 1. now rewrite (call_refused as_array_m st1 dst d1 Rd1 (as_array_refused d1 Td1 Nd1 Em)). }
  assert (d1 = VArr Tarray (Some m)) as -> by (eapply elements_parts; eauto; rewrite R1; discriminate).
  rewrite (mbind_ok _ _ _ _ _ (call_as_array _ _ _ _ Rd1 Em)), (write_same _ _ _ Rd1), Sm.
  assert (E2 : (run w <- rd src; mfail (as_array_c w)) st1 = Done st1 (Ok r)) by (unfold mbind, rd, mfail; rewrite R1; reflexivity).
  rewrite (mbind_ok _ _ _ _ _ E2). destruct mv.
  - destruct (moved_arr st1 src dst (v_array (map moved r)) m W2 Rd1) as (ys & R2).
    exists (write (write st1 src (v_array (map moved r))) dst (VArr Tarray (Some (ys ++ r)))), (Ok tt). split; [|split; [discriminate|]].
    + unfold mbind, wr. rewrite W2. rewrite (call_on_array _ _ _ (ys ++ r, Ok tt) ys R2 eq_refl). reflexivity.
    + intros _. exists (ys ++ r). apply (read_write_some _ _ _ _ R2).
  - assert (Or : Forall owned r) by (apply (owned_elements w); auto).
    exists (write st1 dst (VArr Tarray (Some (m ++ r)))), (Ok tt). split; [|split; [discriminate|]].
    + unfold mbind, mfail. rewrite (copies_owned r Or). rewrite (call_on_array _ _ _ (m ++ r, Ok tt) m Rd1 eq_refl). reflexivity.
    + intros _. exists (m ++ r). apply (read_write_some _ _ _ _ Rd1).
Qed.
Lemma plus_below st dst src : sok pl True st -> present st dst -> whole st src -> strictly_inside src dst -> left_arr dst (plus_assign dst src false) st.
Proof.
  intros S (d & Rd & Nd) (w & Rs & Ow) I. destruct (tagged _ _ _ S Rs) as [Ts Ks]. destruct (tagged _ _ _ S Rd) as [Td Kd]. unfold left_arr.
  pose proof (proj1 (strictly_inside_spec src dst) I) as [W Ne].
  assert (Sm : same dst src = false) by (destruct (same dst src) eqn:Q; [apply same_spec in Q; congruence|reflexivity]).
  unfold plus_assign. destruct (elements_of w) as [r|] eqn:Er.
  2: { exists st, (Throw JsonException). split; [|split; discriminate]. unfold mbind at 1. now rewrite (call_refused as_array_m st src w Rs (as_array_refused w Ts (owned_not_null w Ow) Er)). }
  assert (w = VArr Tarray (Some r)) as -> by (eapply elements_parts; eauto; rewrite Rd; discriminate).
  rewrite (mbind_ok _ _ _ _ _ (call_as_array _ _ _ _ Rs Er)), (write_same _ _ _ Rs).
  destruct (elements_of d) as [m|] eqn:Em.
  2: { exists st, (Throw JsonException). split; [|split; discriminate]. unfold mbind at 1. now rewrite (call_refused as_array_m st dst d Rd (as_array_refused d Td Nd Em)). }
  rewrite (mbind_ok _ _ _ _ _ (call_as_array _ _ _ _ Rd Em)), Sm. set (st1 := write st dst (VArr Tarray (Some m))).
  pose proof (read_write_some _ _ _ (VArr Tarray (Some m)) Rd) as Rd1. fold st1 in Rd1.
  destruct (proj1 (coerced_arr st dst d m Rd Em) src (ex_intro _ _ (conj Rs Ow))) as (w1 & R1 & O1). fold st1 in R1.
  assert (Wd : within dst src = false) by (unfold same in Sm; rewrite W, andb_true_r in Sm; exact Sm).
  destruct (moved_arr st dst src (VArr Tarray (Some m)) r Wd Rs) as (ys & R2). fold st1 in R2. rewrite R2 in R1. injection R1 as <-.
  assert (Or : Forall owned ys) by (now inversion O1).
  assert (E2 : (run w <- rd src; mfail (as_array_c w)) st1 = Done st1 (Ok ys)) by (unfold mbind, rd, mfail; rewrite R2; reflexivity).
  rewrite (mbind_ok _ _ _ _ _ E2).
  exists (write st1 dst (VArr Tarray (Some (m ++ ys)))), (Ok tt). split; [|split; [discriminate|]].
  - unfold mbind, mfail. rewrite (copies_owned ys Or). rewrite (call_on_array _ _ _ (m ++ ys, Ok tt) m Rd1 eq_refl). reflexivity.
  - intros _. exists (m ++ ys). apply (read_write_some _ _ _ _ Rd1).
Qed.
Lemma plus_overlap st dst src (mv : bool) : sok pl True st -> present st dst -> (if mv then present st src else whole st src) -> ~ apart dst src -> dst <> src ->
  (mv = true -> ~ strictly_inside src dst) -> left_arr dst (plus_assign dst src mv) st.
Proof.
  intros S P Hs A Ne Hi. destruct (within dst src) eqn:W1; [apply plus_above; auto; apply strictly_inside_spec; auto|].
  destruct (within src dst) eqn:W2; [|exfalso; apply A; split; assumption].
  assert (I : strictly_inside src dst) by (apply strictly_inside_spec; split; auto). destruct mv; [exfalso; exact (Hi eq_refl I)|now apply plus_below].
Qed.
Lemma fine_plus st dst src (mv : bool) : sok pl True st -> present st dst -> (if mv then present st src else whole st src) ->
  (mv = true -> ~ strictly_inside src dst) -> dst <> src -> fine (plus_assign dst src mv) st.
Proof.
  intros S P Hs Hi Ne. destruct (apart_dec dst src) as [A|A]; [now apply fine_plus_apart|].
  destruct (plus_overlap st dst src mv S P Hs A Ne Hi) as (st' & r & E & N & _). exists st', r. auto.
Qed.
Lemma fine_plus_new st lhs src (ml mr : bool) : sok pl True st -> (if ml then present st lhs else whole st lhs) -> (if mr then present st src else whole st src) ->
  (ml = true -> mr = true -> ~ strictly_inside src lhs) -> (ml = true -> lhs <> src) -> fine (plus_new lhs src ml mr) st.
Proof.
  intros S Hl Hs Hi Hu. destruct ml; [|now apply fine_plus_new_apart]. destruct (apart_dec lhs src) as [A|A]; [now apply fine_plus_new_apart|].
  destruct (plus_overlap st lhs src mr S Hl Hs A (Hu eq_refl) (Hi eq_refl)) as (st' & r & E & N & R).
  unfold plus_new. assert (B : mr && within src lhs && negb (same lhs src) = false).
  { destruct mr; [|reflexivity]. destruct (within src lhs) eqn:W; [|reflexivity]. destruct (same lhs src) eqn:Q; [reflexivity|]. exfalso. apply (Hi eq_refl eq_refl). apply strictly_inside_spec.
    split; auto. intros ->. apply (Hu eq_refl). reflexivity. }
  rewrite B. eapply fine_bind; [exact E|exact N|]. intros [] ->. destruct (R eq_refl) as (l & Rl).
  unfold fine, mbind, rd, mfail, wr, push_value. rewrite Rl. cbn [as_array_c is_array type_of vtype_eqb get_arr]. eexists _, _. split; [reflexivity|discriminate].
Qed.
Lemma not_null_invoke m v : tag_ok v -> not_null v \/ m = MClear ->
  (forall n, m = MIndexPos n -> exists l, v = VArr Tarray (Some l) /\ n < N.of_nat (length l)) ->
  (forall n, m = MArrEraseIter n -> n = 0 \/ exists l, v = VArr Tarray (Some l) /\ n <= N.of_nat (length l)) ->
  (forall k, m = MObjEraseIter (Some k) -> exists l, v = VObj Tobject (Some l) /\ map_find k l <> None) -> snd (invoke m v) <> Ub.
Proof.
  intros T N H1 H2 H3.
  assert (A : forall B (f : array -> array * res B), not_null v -> (forall xs, elements_of v = Some xs -> snd (f xs) <> Ub) -> snd (voidm (on_array f v)) <> Ub).
  { intros B f Nn F. destruct (elements_of v) as [xs|] eqn:E.
    - rewrite (on_array_some f v xs E). unfold voidm. cbn [snd fst]. specialize (F xs eq_refl). destruct (snd (f xs)); cbn; congruence.
    - unfold on_array. rewrite (as_array_refused v T Nn E). discriminate. }
  assert (O : forall B (f : object -> object * res B), not_null v -> (forall xs, members_of v = Some xs -> snd (f xs) <> Ub) -> snd (voidm (on_object f v)) <> Ub).
  { intros B f Nn F. destruct (members_of v) as [xs|] eqn:E.
    - rewrite (on_object_some f v xs E). unfold voidm. cbn [snd fst]. specialize (F xs eq_refl). destruct (snd (f xs)); cbn; congruence.
    - unfold on_object. rewrite (as_object_refused v T Nn E). discriminate. }
  destruct m as [| |n|k|n|k| | | |n|k]; cbn [invoke]; try (destruct N as [N|[=]]).
  - destruct (elements_of v) eqn:E; [rewrite (as_array_some v _ E)|rewrite (as_array_refused v T N E)]; discriminate.
  - destruct (members_of v) eqn:E; [rewrite (as_object_some v _ E)|rewrite (as_object_refused v T N E)]; discriminate.
  - apply A; auto. intros xs E. destruct (H1 n eq_refl) as (l & -> & L). cbn in E. injection E as <-. cbn. unfold arr_index. destruct (nthN l n) eqn:Z; [discriminate|].
    exfalso. revert Z. generalize (nth_error_Some l (N.to_nat n)). intros [_ G] Z. destruct (nth_error l (N.to_nat n)) as [y|] eqn:Y; [|apply G; auto; lia]. rewrite (nthN_some _ _ _ Y) in Z. discriminate.
  - unfold v_index_key. destruct (members_of v) as [m|] eqn:E.
    + unfold coerce. assert (Z : (fst (as_object_m v), snd (as_object_m v)) = (VObj Tobject (Some m), Ok m)) by (now rewrite (as_object_some v _ E)).
      unfold as_object_m, coerce in Z. destruct (v_empty v) as [[]|e| | |]; cbn in Z; try discriminate.
      * rewrite (on_object_some _ _ []) by reflexivity. unfold voidm. cbn [fst snd]. unfold obj_at, obj_index. destruct (map_find k _); discriminate.
      * injection Z as -> _. rewrite (on_object_some _ _ m) by reflexivity. unfold voidm. cbn [fst snd]. unfold obj_at, obj_index. destruct (map_find k _); discriminate.
    + assert (Z : as_object_m v = (v, Throw JsonException)) by (now apply as_object_refused). unfold as_object_m in Z.
      destruct (coerce (v_object []) v) as [v1 r] eqn:Cv. injection Z as -> Z. destruct r as [[]|e| | |]; cbn in Z; try discriminate.
      unfold on_object. rewrite (as_object_refused v T N E). discriminate.
  - apply A; auto. intros xs E. discriminate.
  - apply O; auto. intros xs E. discriminate.
  - discriminate.
  - discriminate.
  - apply A; auto. intros xs E. discriminate.
  - apply O; auto. intros xs E. discriminate.
  - apply A; auto. intros xs E. destruct (H2 n eq_refl) as [->|(l & -> & L)].
    + unfold size. destruct (N.ltb_spec (N.of_nat (length xs)) 0); [lia|discriminate].
    + cbn in E. injection E as <-. unfold size. destruct (N.ltb_spec (N.of_nat (length l)) n); [lia|discriminate].
  - apply O; auto. intros xs E. destruct k as [k|]; [|discriminate]. destruct (H3 k eq_refl) as (l & -> & L). cbn in E. injection E as <-. unfold obj_contains. destruct (map_find k l); [discriminate|tauto].
Qed.
Lemma not_null_ask q v : tag_ok v -> not_null v -> deep q = false -> ask q v <> Ub.
Proof.
  intros T N D. destruct q; try discriminate D; inversion T; subst; cbn in N; try tauto; try (cbn; discriminate);
    try (destruct t; try tauto; cbn; discriminate); cbn.
  - unfold obj_at. destruct (map_find k m); discriminate.
  - unfold arr_at. destruct (nthN l n); discriminate.
  - unfold as_boolean. destruct (is_boolean (VStr t s)); [|discriminate]. cbn [get_str bind]. destruct (bytes_eqb s true_string); [discriminate|]. destruct (bytes_eqb s false_string); discriminate.
Qed.

Lemma ready_fine st c : sok pl True st -> careful c -> ready st c -> ~ misuse st c -> fine (exec c) st.
Proof.
  intros S (Hl & Hc & Hm) R Hu. destruct c as [e|dst a|dst a|dst k a|dst src mv|dst src mv|lhs src ml mr|lhs src ml mr|l m|l q|a b]; cbn [ready exec] in *.
  - destruct (expr_fine st e R) as (st1 & x & E). eapply fine_ok; [exact E|]. eapply fine_done; [reflexivity|discriminate].
  - destruct R as (Rd & Ra & Rp). destruct a as [e|l|l]; cbn [prepare arg_ready] in *.
    + destruct Ra as [A1 A2]. destruct (tmp_ready st dst e A1 A2) as (st1 & x & E & P & _). specialize (P Rd). apply (fine_ok _ _ st st1 (Some x)); [unfold mbind; now rewrite E|]. cbn [assign].
      unfold fine, mbind, rd, wr. destruct (read st1 dst); [|tauto]. eexists _, _. split; [reflexivity|discriminate].
    + apply (fine_ok _ _ st st None); [reflexivity|]. cbn [assign]. destruct Ra as (x & Rx & Ox). destruct (read st dst) as [d|] eqn:Ed; [|tauto]. eapply fine_done; [eapply copy_assign_effect with (x := x) (d := d); auto|discriminate].
    + apply (fine_ok _ _ st st None); [reflexivity|]. cbn [assign]. apply moved_assigned; auto.
  - destruct R as (P & A). destruct a as [e|l|l]; [now apply fine_tmp_emplace| |]; (apply (fine_ok _ _ st st None); [reflexivity|]; apply fine_emplace_ref; auto; discriminate).
  - destruct R as (P & A & Pr). destruct a as [e|l|l]; [now apply fine_tmp_insert| |]; (apply (fine_ok _ _ st st None); [reflexivity|]; apply fine_insert_ref; auto; discriminate).
  - destruct R as (P & Q). apply fine_or; auto. destruct mv; [exact Hm|exact Hc].
  - destruct R as (P & Q). apply fine_plus; auto. intros ->. exact Hm.
  - destruct R as (P & Q). apply fine_or_new; auto. intros ->. destruct mr; [exact Hm|exact Hc].
  - destruct R as (P & Q). apply fine_plus_new; auto; [intros -> ->; exact Hm|intros ->; exact Hu].
  - assert (Rl : exists v, read st l = Some v /\ (not_null v \/ m = MClear)).
    { destruct m; try (destruct R as (v & R & N); exists v; auto; fail). destruct (read st l) as [v|]; [eauto|tauto]. }
    destruct Rl as (v & Rl & N). destruct (tagged _ _ _ S Rl) as [T K]. eapply fine_done; [eapply call_read; eauto|]. apply not_null_invoke; auto.
    + intros n ->. cbn in Hu. unfold no_element in Hu. destruct v as [t s|[] [a|]|t o]; try (exfalso; apply Hu; intros a' Ha; congruence).
      exists a. split; auto. destruct (N.lt_ge_cases n (N.of_nat (length a))); auto. exfalso. apply Hu. intros a' Ha. rewrite Rl in Ha. injection Ha as <-. auto.
    + intros n ->. cbn in Hu. destruct (N.eq_dec n 0) as [->|Nz]; [now left|right]. unfold no_element in Hu.
      destruct v as [t s|[] [a|]|t o]; try (exfalso; apply Hu; exists (n - 1); split; [lia|]; intros a' Ha; congruence).
      exists a. split; auto. destruct (N.le_gt_cases n (N.of_nat (length a))); auto. exfalso. apply Hu. exists (n - 1). split; [lia|]. intros a' Ha. rewrite Rl in Ha. injection Ha as <-. lia.
    + intros k ->. cbn in Hu. destruct v as [t s|t o|[] [a|]]; try (exfalso; apply Hu; intros a' Ha; congruence).
      exists a. split; auto. intros Z. apply Hu. intros a' Ha. rewrite Rl in Ha. injection Ha as <-. auto.
  - destruct plain_facts as (F1 & F2 & F3 & F4 & F5). destruct (deep q) eqn:D.
    + destruct R as (v & Rl & O). destruct (tagged _ _ _ S Rl) as [T K]. eapply fine_ok; [unfold rd; now rewrite Rl|]. eapply fine_done; [reflexivity|].
      assert (Ok : okv pl False v) by (now apply HeapSafety.okv_of). pose proof (ask_rok pl False F5 q v Ok) as X. intros Z. rewrite Z in X. exact X.
    + destruct R as (v & Rl & N). destruct (tagged _ _ _ S Rl) as [T K]. eapply fine_ok; [unfold rd; now rewrite Rl|]. eapply fine_done; [reflexivity|]. now apply not_null_ask.
  - destruct plain_facts as (F1 & F2 & F3 & F4 & F5). destruct R as [(v & Ra & Oa) (w & Rb & Ob)]. destruct (tagged _ _ _ S Ra) as [Ta Ka]. destruct (tagged _ _ _ S Rb) as [Tb Kb].
    eapply fine_ok; [unfold rd; now rewrite Ra|]. eapply fine_ok; [unfold rd; now rewrite Rb|].
    assert (Va : okv pl False v) by (now apply HeapSafety.okv_of). assert (Vb : okv pl False w) by (now apply HeapSafety.okv_of).
    pose proof (eq_rok pl False F5 v Va w Vb) as X. eapply fine_bind; [reflexivity| |].
    + intros Z. rewrite Z in X. exact X.
    + intros x _. eapply fine_done; [reflexivity|discriminate].
Qed.
Lemma sok_of st : Forall tag_ok st -> Forall keys_ok st -> sok pl True st.
Proof.
  intros T K. unfold sok. rewrite Forall_forall in *. intros v Hv. specialize (T v Hv). specialize (K v Hv). clear Hv.
  induction v as [t s|t|t l IH|t|t m IH] using value_ind'; inversion T; inversion K; subst; constructor; auto; try exact Logic.I; try (split; auto; fail); rewrite Forall_forall in *; auto.
Qed.
Lemma ready_step st c : Forall tag_ok st -> Forall keys_ok st -> careful c -> ready st c -> ~ misuse st c ->
  exists st' r, exec c st = Done st' r /\ r <> Ub /\ r <> Throw BadVariant /\ Forall tag_ok st' /\ Forall keys_ok st'.
Proof.
  intros T K C R Hu. pose proof (sok_of st T K) as S. destruct (ready_fine st c S C R Hu) as (st' & r & E & N). destruct C as (Hl & Hc & Hm). destruct plain_facts as (F1 & F2 & F3 & F4 & F5).
  pose proof (exec_ok pl True F1 F2 F3 (F4 True) F5 c st (cmd_ok_moves _ _ Hl) Hc S) as X. rewrite E in X. destruct X as [X1 X2]. specialize (X1 N). exists st', r. splits; auto.
  - intros ->. cbn in X2. congruence.
  - eapply Forall_impl; [|exact X1]. intros v Hv. apply (okv_tag_ok True v Hv).
  - eapply Forall_impl; [|exact X1]. intros v Hv. apply (okv_tag_ok True v Hv).
Qed.
