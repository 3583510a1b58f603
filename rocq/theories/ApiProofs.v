(** * Invariants of histories of public operations. *)
From Verif Require Import Base Value DumpProofs Containers Dump Api Spec SpecApi BaseProofs ContainerProofs.

(** ** Paths *)
Lemma step_eqb_eq a b : step_eqb a b = true <-> a = b.
Proof.
  destruct a, b; cbn; try (split; congruence).
  - rewrite bytes_eqb_eq. split; congruence.
  - rewrite Nat.eqb_eq. split; congruence.
Qed.
Lemma path_prefix_spec p : forall q, path_prefix p q = true <-> exists r, q = p ++ r.
Proof.
  induction p as [|a p IH]; intros q; cbn; [split; eauto|].
  destruct q as [|b q]; [split; [discriminate|intros (r & H); discriminate]|].
  rewrite andb_true_iff, step_eqb_eq, IH. split.
  - intros (-> & r & ->). eauto.
  - intros (r & H). injection H as -> ->. eauto.
Qed.
Lemma within_spec a b : within a b = true <-> slot a = slot b /\ exists r, steps b = steps a ++ r.
Proof. unfold within. rewrite andb_true_iff, Nat.eqb_eq, path_prefix_spec. reflexivity. Qed.
Lemma same_spec a b : same a b = true <-> a = b.
Proof.
  unfold same. rewrite andb_true_iff, !within_spec. destruct a as [i p], b as [j q]; cbn. split.
  - intros ((-> & r & ->) & _ & r' & H). rewrite <- app_assoc in H. rewrite <- (app_nil_r p) in H at 1.
    apply app_inv_head in H. symmetry in H. apply app_eq_nil in H as [-> _]. now rewrite app_nil_r.
  - intros [= -> ->]. splits; exists []; now rewrite app_nil_r.
Qed.
Lemma strictly_inside_spec a l : strictly_inside a l <-> within a l = true /\ a <> l.
Proof.
  unfold strictly_inside. rewrite within_spec. destruct a as [i p], l as [j q]; cbn. split.
  - intros (-> & s & r & ->). splits; eauto. intros [= H]. apply (f_equal (@length _)) in H. rewrite app_length in H. cbn in H. lia.
  - intros ((-> & r & ->) & H). split; auto. destruct r as [|s r]; eauto. rewrite app_nil_r in H. congruence.
Qed.

Lemma get_at_app p : forall q v, get_at (p ++ q) v = match get_at p v with Some x => get_at q x | None => None end.
Proof.
  induction p as [|[k|n] p IH]; intros q v; cbn; [reflexivity| |].
  - destruct v as [|? [|]|? [|]]; auto. destruct (map_find k l); auto.
  - destruct v as [|? [|]|? [|]]; auto. destruct (nth_error l n); auto.
Qed.
Lemma nth_upd_same {A} (f : A -> A) l : forall n, nth_error (upd_nth f n l) n = option_map f (nth_error l n).
Proof. induction l as [|x l IH]; intros [|n]; cbn; auto. Qed.
Lemma nth_upd_other {A} (f : A -> A) l : forall n i, n <> i -> nth_error (upd_nth f n l) i = nth_error l i.
Proof. induction l as [|x l IH]; intros [|n] [|i] H; cbn; auto; try congruence. Qed.
Lemma upd_nth_upd {A} (f g : A -> A) l : forall n, upd_nth f n (upd_nth g n l) = upd_nth (fun x => f (g x)) n l.
Proof. induction l as [|x l IH]; intros [|n]; cbn; auto. now rewrite IH. Qed.
Lemma upd_nth_ext {A} (f g : A -> A) l : forall n, (forall x, f x = g x) -> upd_nth f n l = upd_nth g n l.
Proof. induction l as [|x l IH]; intros [|n] H; cbn; auto; f_equal; auto. Qed.
Lemma find_upd_same {A} (f : A -> A) k m : map_find k (upd_key f k m) = option_map f (map_find k m).
Proof.
  induction m as [|(k0, x) m IH]; cbn; auto. destruct (bytes_eqb k k0) eqn:E; cbn; rewrite E; auto.
Qed.
Lemma find_upd_other {A} (f : A -> A) k k' m : k <> k' -> map_find k' (upd_key f k m) = map_find k' m.
Proof.
  intros H. induction m as [|(k0, x) m IH]; cbn; auto. destruct (bytes_eqb_spec k k0) as [->|]; cbn.
  - destruct (bytes_eqb_spec k' k0); congruence.
  - now rewrite IH.
Qed.
Lemma upd_key_upd {A} (f g : A -> A) k m : upd_key f k (upd_key g k m) = upd_key (fun x => f (g x)) k m.
Proof. induction m as [|(k0, x) m IH]; cbn; auto. destruct (bytes_eqb k k0) eqn:E; cbn; rewrite E; auto. now rewrite IH. Qed.
Lemma upd_key_ext {A} (f g : A -> A) k m : (forall x, f x = g x) -> upd_key f k m = upd_key g k m.
Proof. intros H. induction m as [|(k0, x) m IH]; cbn; auto. destruct (bytes_eqb k k0); f_equal; auto. now rewrite H. Qed.
Lemma upd_key_keys {A} (f : A -> A) k m : map fst (upd_key f k m) = map fst m.
Proof. induction m as [|(k0, x) m IH]; cbn; auto. destruct (bytes_eqb k k0); cbn; congruence. Qed.
Lemma sorted_keys_map {A} (m m' : list (bytes * A)) : map fst m' = map fst m -> sorted_keys m -> sorted_keys m'.
Proof.
  revert m'. induction m as [|(k, v) m IH]; intros [|(k', v') m'] H Hs; try discriminate; [constructor|].
  injection H as -> H. apply sorted_cons.
  - intros k' Hk. eapply sorted_lt; eauto. now rewrite <- H.
  - apply IH; auto. eapply sorted_cons_inv; eauto.
Qed.
Lemma get_upd_below p : forall f q v, get_at (p ++ q) (upd_at p f v) = match get_at p v with Some x => get_at q (f x) | None => None end.
Proof.
  induction p as [|[k|n] p IH]; intros f q v; cbn; [reflexivity| |].
  - destruct v as [|? [|]|? [l|]]; cbn; auto. rewrite find_upd_same. destruct (map_find k l); cbn; auto.
  - destruct v as [|? [l|]|? [|]]; cbn; auto. rewrite nth_upd_same. destruct (nth_error l n); cbn; auto.
Qed.
Lemma get_upd_disjoint p : forall f q v, path_prefix p q = false -> path_prefix q p = false -> get_at q (upd_at p f v) = get_at q v.
Proof.
  induction p as [|a p IH]; intros f [|b q] v; cbn [path_prefix]; try discriminate. intros H G.
  destruct a as [k|n], b as [k'|n']; cbn.
  - destruct v as [|? [|]|? [l|]]; auto. cbn in H, G. destruct (bytes_eqb_spec k k') as [->|Hk].
    + rewrite bytes_eqb_refl in G. cbn in *. rewrite find_upd_same. destruct (map_find k' l); cbn; auto.
    + now rewrite find_upd_other.
  - destruct v as [|? [|]|? [l|]]; auto.
  - destruct v as [|? [|]|? [l|]]; auto.
  - destruct v as [|? [l|]|? [|]]; auto. cbn in H, G. destruct (Nat.eqb_spec n n') as [->|Hk].
    + rewrite Nat.eqb_refl in G. cbn in *. rewrite nth_upd_same. destruct (nth_error l n'); cbn; auto.
    + now rewrite nth_upd_other.
Qed.
Lemma upd_upd p : forall f g v, upd_at p f (upd_at p g v) = upd_at p (fun x => f (g x)) v.
Proof.
  induction p as [|[k|n] p IH]; intros f g v; cbn; auto.
  - destruct v as [|? [|]|? [l|]]; auto. rewrite upd_key_upd. do 2 f_equal. now apply upd_key_ext.
  - destruct v as [|? [l|]|? [|]]; auto. rewrite upd_nth_upd. do 2 f_equal. now apply upd_nth_ext.
Qed.

Lemma read_write_below st l v r : read (write st l v) (Loc (slot l) (steps l ++ r)) =
  match read st l with Some _ => get_at r v | None => None end.
Proof.
  unfold read, write. cbn. rewrite nth_upd_same. destruct (nth_error st (slot l)); cbn; auto. apply get_upd_below.
Qed.
Lemma read_write_same st l v : read (write st l v) l = match read st l with Some _ => Some v | None => None end.
Proof.
  pose proof (read_write_below st l v []) as H. rewrite app_nil_r in H. destruct l; cbn in *. exact H.
Qed.
Lemma read_write_disjoint st l v l' : within l l' = false -> within l' l = false -> read (write st l v) l' = read st l'.
Proof.
  unfold within, read, write. destruct l as [i p], l' as [j q]; cbn. rewrite (Nat.eqb_sym j i).
  destruct (Nat.eqb_spec i j) as [->|H]; cbn.
  - intros H1 H2. rewrite nth_upd_same. destruct (nth_error st j); cbn; auto. now apply get_upd_disjoint.
  - intros _ _. now rewrite nth_upd_other.
Qed.
Lemma write_write st l v w : write (write st l v) l w = write st l w.
Proof. unfold write. rewrite upd_nth_upd. apply upd_nth_ext. intros x. now rewrite upd_upd. Qed.

(** ** Values all of whose parts are fine *)
Section Inv.
  Context (A : vtype -> bytes -> Prop) (Nl : Prop).
  Inductive okv : value -> Prop :=
  | okv_str t s : A t s -> okv (VStr t s)
  | okv_arr l : Forall okv l -> okv (VArr Tarray (Some l))
  | okv_arr_null : Nl -> okv (VArr Tarray None)
  | okv_obj m : Forall (fun kv => okv (snd kv)) m -> sorted_keys m -> okv (VObj Tobject (Some m))
  | okv_obj_null : Nl -> okv (VObj Tobject None).
  Context (A_null : A Tnull []) (A_bool : forall b : bool, A Tboolean (if b then true_string else false_string))
          (A_string : forall s, A Tstring s) (A_moved : Nl -> forall t s, A t s -> A t [])
          (A_tag : forall t s, A t s -> t <> Tarray /\ t <> Tobject).

  Lemma get_at_ok p : forall v w, okv v -> get_at p v = Some w -> okv w.
  Proof.
    induction p as [|[k|n] p IH]; intros v w Hv H; cbn in H; [congruence| |].
    - destruct Hv; try discriminate. destruct (map_find k m) eqn:F; [|discriminate]. eapply IH; [|exact H].
      rewrite Forall_forall in H0. apply map_find_in in F. exact (H0 _ F).
    - destruct Hv; try discriminate. destruct (nth_error l n) eqn:F; [|discriminate]. eapply IH; [|exact H].
      rewrite Forall_forall in H0. apply nth_error_In in F. exact (H0 _ F).
  Qed.
  Lemma upd_at_ok p : forall f v, (forall x, okv x -> okv (f x)) -> okv v -> okv (upd_at p f v).
  Proof.
    induction p as [|[k|n] p IH]; intros f v Hf Hv; cbn; auto.
    - destruct Hv as [t s H|l H|H|m H Hs|H]; [now apply okv_str|now apply okv_arr|now apply okv_arr_null| |now apply okv_obj_null].
      apply okv_obj; [|apply (sorted_keys_map m); [apply upd_key_keys|exact Hs]]. clear Hs. induction H as [|(k0, x) m Hx Hm IHm]; cbn; [constructor|]. destruct (bytes_eqb k k0); constructor; cbn in *; auto.
    - destruct Hv as [t s H|l H|H|m H Hs|H]; [now apply okv_str| |now apply okv_arr_null|now apply okv_obj|now apply okv_obj_null].
      apply okv_arr. revert n. induction H as [|x l Hx Hl IHl]; intros [|n]; cbn; constructor; auto.
  Qed.
  Definition sok (st : store) : Prop := Forall okv st.
  Lemma read_ok st l v : sok st -> read st l = Some v -> okv v.
  Proof.
    unfold read. intros Hs H. destruct (nth_error st (slot l)) eqn:E; [|discriminate].
    eapply get_at_ok; [|exact H]. apply nth_error_In in E. unfold sok in Hs. rewrite Forall_forall in Hs. auto.
  Qed.
  Lemma write_ok st l v : sok st -> okv v -> sok (write st l v).
  Proof.
    unfold sok, write. intros Hs Hv. generalize (slot l) as n. induction Hs as [|x st Hx Hs IH]; intros [|n]; cbn; constructor; auto.
    apply upd_at_ok; auto.
  Qed.
  Lemma moved_ok v : Nl -> okv v -> okv (moved v).
  Proof. intros HN H. destruct H; cbn; constructor; auto. eauto. Qed.

  (** outcome of a computation on a single value *)
  Definition rok {B} (U : Prop) (Q : B -> Prop) (r : res B) : Prop :=
    match r with
    | Ok b => Q b
    | Throw e => e <> BadVariant
    | Ub => U
    | Stack | Fuel => False
    end.
  Lemma rok_bind {B C} U (Q : B -> Prop) (R : C -> Prop) r f : rok U Q r -> (forall b, Q b -> rok U R (f b)) -> rok U R (do x <- r; f x).
  Proof. destruct r; cbn; auto. Qed.
  Lemma rok_mono {B} (U V : Prop) (Q R : B -> Prop) r : rok U Q r -> (U -> V) -> (forall b, Q b -> R b) -> rok V R r.
  Proof. destruct r; cbn; auto. Qed.
  Lemma copy_no_throw v : forall e, copy v = Throw e -> False.
  Proof.
    induction v as [t s|t|t l IH|t|t m IH] using value_ind'; cbn; intros e; try discriminate.
    - assert (H : forall e, copy_elems copy l = Throw e -> False).
      { clear e. induction IH as [|x l Hx Hl IHl]; cbn; [discriminate|]. intros e. destruct (copy x) as [c|e0| | |]; cbn; try discriminate.
        - destruct (copy_elems copy l) eqn:E; cbn; try discriminate. intros _. eapply IHl; eauto.
        - intros [= ->]. eauto. }
      destruct (copy_elems copy l) eqn:E; cbn; try discriminate. intros _. eapply H; eauto.
    - assert (H : forall e, copy_members copy m = Throw e -> False).
      { clear e. induction IH as [|(k, x) l Hx Hl IHl]; cbn; [discriminate|]. intros e. cbn in Hx. destruct (copy x) as [c|e0| | |]; cbn; try discriminate.
        - destruct (copy_members copy l) eqn:E; cbn; try discriminate. intros _. eapply IHl; eauto.
        - intros [= ->]. eauto. }
      destruct (copy_members copy m) eqn:E; cbn; try discriminate. intros _. eapply H; eauto.
  Qed.
  Lemma copy_elems_rok' l : Forall (fun v => rok Nl (eq v) (copy v)) l -> rok Nl (eq l) (copy_elems copy l).
  Proof.
    induction 1 as [|x l Hx Hl IH]; cbn; [reflexivity|].
    eapply rok_bind; [exact Hx|]. intros ? <-. eapply rok_bind; [exact IH|]. intros ? <-. reflexivity.
  Qed.
  Lemma copy_members_rok' m : Forall (fun kv => rok Nl (eq (snd kv)) (copy (snd kv))) m -> rok Nl (eq m) (copy_members copy m).
  Proof.
    induction 1 as [|(k, x) l Hx Hl IH]; cbn; [reflexivity|].
    eapply rok_bind; [exact Hx|]. intros ? <-. eapply rok_bind; [exact IH|]. intros ? <-. reflexivity.
  Qed.
  Lemma copy_rok v : okv v -> rok Nl (eq v) (copy v).
  Proof.
    induction v as [t s|t|t l IH|t|t m IH] using value_ind'; intros H; cbn; inversion H as [|? Hl| |? Hl Hs|]; subst; auto.
    - apply rok_bind with (Q := eq l); [|intros ? <-; reflexivity]. apply copy_elems_rok'. rewrite Forall_forall in *. auto.
    - apply rok_bind with (Q := eq m); [|intros ? <-; reflexivity]. apply copy_members_rok'. rewrite Forall_forall in *. auto.
  Qed.
  Lemma copy_elems_rok l : Forall okv l -> rok Nl (eq l) (copy_elems copy l).
  Proof. intros H. apply copy_elems_rok'. eapply Forall_impl; [|exact H]. apply copy_rok. Qed.
  Lemma copy_members_rok m : Forall (fun kv => okv (snd kv)) m -> rok Nl (eq m) (copy_members copy m).
  Proof. intros H. apply copy_members_rok'. eapply Forall_impl; [|exact H]. intros a. apply copy_rok. Qed.
  Lemma tagA t s : A t s -> vtype_eqb t Tarray = false /\ vtype_eqb t Tobject = false.
  Proof. intros H. apply A_tag in H. destruct H. destruct t; auto; congruence. Qed.
  Lemma empty_rok v : okv v -> rok Nl (fun _ => True) (v_empty v).
  Proof. destruct 1; cbn; auto. destruct (A_tag _ _ H). destruct t; cbn; auto; congruence. Qed.
  Lemma type_error_rok {B} v (Q : B -> Prop) : okv v -> rok Nl Q (type_error v).
  Proof. destruct 1; cbn; auto; try discriminate. Qed.
  Lemma get_arr_ok v : okv v -> is_array v = true -> rok Nl (fun l => v = VArr Tarray (Some l) /\ Forall okv l) (get_arr v).
  Proof.
    destruct 1; cbn; auto; try discriminate. destruct (tagA _ _ H) as [E _]. unfold is_array. cbn. congruence.
  Qed.
  Lemma get_obj_ok v : okv v -> is_object v = true -> rok Nl (fun m => v = VObj Tobject (Some m) /\ Forall (fun kv => okv (snd kv)) m /\ sorted_keys m) (get_obj v).
  Proof.
    destruct 1; cbn; auto; try discriminate. destruct (tagA _ _ H) as [_ E]. unfold is_object. cbn. congruence.
  Qed.
  Lemma as_array_c_rok v : okv v -> rok Nl (fun l => v = VArr Tarray (Some l) /\ Forall okv l) (as_array_c v).
  Proof. intros H. unfold as_array_c. destruct (is_array v) eqn:E; [now apply get_arr_ok|now apply type_error_rok]. Qed.
  Lemma as_object_c_rok v : okv v -> rok Nl (fun m => v = VObj Tobject (Some m) /\ Forall (fun kv => okv (snd kv)) m /\ sorted_keys m) (as_object_c v).
  Proof. intros H. unfold as_object_c. destruct (is_object v) eqn:E; [now apply get_obj_ok|now apply type_error_rok]. Qed.

  (** a member function: final value fine, and the outcome *)
  Definition mok {B} (U : Prop) (Q : B -> Prop) (p : value * res B) : Prop := (snd p <> Ub -> okv (fst p)) /\ rok U Q (snd p).
  Lemma coerce_mok x v : okv x -> okv v -> mok Nl (fun _ => True) (coerce x v).
  Proof.
    intros Hx Hv. pose proof (empty_rok v Hv) as H. unfold coerce, mok. destruct (v_empty v) as [[]| | | |]; cbn in *; auto.
  Qed.
  Lemma okv_nil_array : okv (v_array []). Proof. constructor. constructor. Qed.
  Lemma okv_nil_object : okv (v_object []). Proof. constructor; constructor. Qed.
  Lemma as_array_mok v : okv v -> mok Nl (fun l => Forall okv l /\ fst (as_array_m v) = VArr Tarray (Some l)) (as_array_m v).
  Proof.
    intros Hv. pose proof (coerce_mok (v_array []) v okv_nil_array Hv) as [H1 H2]. unfold as_array_m, mok.
    destruct (coerce (v_array []) v) as [v1 r]. cbn [fst snd] in *. destruct r as [[]| | | |]; cbn in H2; try tauto;
      try (split; cbn; [first [intros G; now elim G | intros _; apply H1; discriminate]|exact H2]; fail).
    specialize (H1 ltac:(discriminate)). split; [auto|]. cbn.
    destruct (is_array v1) eqn:E; [|now apply type_error_rok].
    eapply rok_mono; [apply get_arr_ok; eauto|auto|]. intros l [-> H]. auto.
  Qed.
  Lemma as_object_mok v : okv v -> mok Nl (fun m => Forall (fun kv => okv (snd kv)) m /\ sorted_keys m /\ fst (as_object_m v) = VObj Tobject (Some m)) (as_object_m v).
  Proof.
    intros Hv. pose proof (coerce_mok (v_object []) v okv_nil_object Hv) as [H1 H2]. unfold as_object_m, mok.
    destruct (coerce (v_object []) v) as [v1 r]. cbn [fst snd] in *. destruct r as [[]| | | |]; cbn in H2; try tauto;
      try (split; cbn; [first [intros G; now elim G | intros _; apply H1; discriminate]|exact H2]; fail).
    specialize (H1 ltac:(discriminate)). split; [auto|]. cbn.
    destruct (is_object v1) eqn:E; [|now apply type_error_rok].
    eapply rok_mono; [apply get_obj_ok; eauto|auto|]. intros l (-> & H & G). auto.
  Qed.
  Lemma on_array_mok {B} (U : Prop) (Q : B -> Prop) f v : okv v ->
    (Nl -> U) ->
    (forall l, Forall okv l -> snd (as_array_m v) = Ok l -> Forall okv (fst (f l)) /\ rok U Q (snd (f l))) -> mok U Q (on_array f v).
  Proof.
    intros Hv HU Hf. pose proof (as_array_mok v Hv) as [H1 H2]. unfold on_array, mok.
    destruct (as_array_m v) as [v1 r]. cbn [fst snd] in *. destruct r as [l|e| | |]; cbn in *; auto.
    - destruct H2 as [Hl _]. specialize (Hf l Hl eq_refl). destruct (f l) as [l' x]. cbn in *. destruct Hf. split; auto. constructor; auto.
    - split; auto. intros _. apply H1. discriminate.
  Qed.
  Lemma on_object_mok {B} (U : Prop) (Q : B -> Prop) f v : okv v ->
    (Nl -> U) ->
    (forall m, Forall (fun kv => okv (snd kv)) m -> sorted_keys m -> snd (as_object_m v) = Ok m ->
      Forall (fun kv => okv (snd kv)) (fst (f m)) /\ sorted_keys (fst (f m)) /\ rok U Q (snd (f m))) -> mok U Q (on_object f v).
  Proof.
    intros Hv HU Hf. pose proof (as_object_mok v Hv) as [H1 H2]. unfold on_object, mok.
    destruct (as_object_m v) as [v1 r]. cbn [fst snd] in *. destruct r as [l|e| | |]; cbn in *; auto.
    - destruct H2 as (Hl & Hs & _). specialize (Hf l Hl Hs eq_refl). destruct (f l) as [l' x]. cbn in *. destruct Hf as (? & ? & ?). split; auto. constructor; auto.
    - split; auto. intros _. apply H1. discriminate.
  Qed.
  Lemma mok_void {B} U (Q : B -> Prop) p : mok U Q p -> mok U (fun _ => True) (voidm p).
  Proof.
    unfold mok, voidm. destruct p as [v r]. cbn. intros [H1 H2]. destruct r; cbn in *; auto; split; auto; intros _; apply H1; discriminate.
  Qed.
  Lemma mok_mono {B} (U V : Prop) (Q R : B -> Prop) p : mok U Q p -> (U -> V) -> (forall b, Q b -> R b) -> mok V R p.
  Proof. intros [H1 H2] HU HQ. split; auto. eapply rok_mono; eauto. Qed.
  Lemma remove_nth_Forall {B} (P : B -> Prop) l : forall n, Forall P l -> Forall P (remove_nth l n).
  Proof. induction l as [|x l IH]; intros [|n] H; cbn; auto; inversion_clear H; auto. Qed.
  Lemma erase_Forall {B} (P : B -> Prop) k m : Forall (fun kv => P (snd kv)) m -> Forall (fun kv => P (snd kv)) (fst (map_erase k m)).
  Proof. rewrite !Forall_forall. intros H x Hx. apply H. eapply map_erase_incl; eauto. Qed.
  Lemma arr_erase_iter_ok p l : Forall okv l -> Forall okv (fst (arr_erase_iter p l)).
  Proof. intros H. unfold arr_erase_iter. destruct (p =? size l); cbn; auto using remove_nth_Forall. Qed.

  (** what makes a member function undefined *)
  Definition bad_call (m : method) (v : value) : Prop :=
    match m with
    | MIndexPos n => forall l, v = VArr Tarray (Some l) -> N.of_nat (length l) <= n
    | MArrEraseIter n => exists p, n = p + 1 /\ forall l, v = VArr Tarray (Some l) -> N.of_nat (length l) <= p
    | MObjEraseIter (Some k) => forall m, v = VObj Tobject (Some m) -> map_find k m = None
    | _ => False
    end.
  Lemma as_array_m_arr l : snd (as_array_m (VArr Tarray (Some l))) = Ok l.
  Proof. unfold as_array_m, coerce. destruct l; reflexivity. Qed.
  Lemma as_object_m_obj l : snd (as_object_m (VObj Tobject (Some l))) = Ok l.
  Proof. unfold as_object_m, coerce. destruct l; reflexivity. Qed.
  Lemma invoke_mok m v : okv v -> mok (Nl \/ bad_call m v) (fun _ => True) (invoke m v).
  Proof.
    intros Hv. destruct m as [| |n|k|n|k| | | |n|k]; cbn [invoke bad_call].
    - eapply mok_void, mok_mono; [apply as_array_mok; auto|auto|intros ? H; exact H].
    - eapply mok_void, mok_mono; [apply as_object_mok; auto|auto|intros ? H; exact H].
    - eapply mok_void, on_array_mok with (Q := fun _ => True); auto. intros l Hl E. cbn. split; auto.
      unfold arr_index, nthN. destruct (N.ltb_spec n (size l)) as [Hn|Hn].
      + destruct (nth_error l (N.to_nat n)) eqn:F; cbn; auto. apply nth_error_None in F. unfold size in Hn. lia.
      + cbn. right. intros l' ->. rewrite as_array_m_arr in E. injection E as ->. exact Hn.
    - unfold v_index_key. pose proof (coerce_mok (v_object []) v okv_nil_object Hv) as [H1 H2].
      destruct (coerce (v_object []) v) as [v1 r]. cbn [fst snd] in *. destruct r as [[]|e| | |]; cbn in H2.
      + eapply mok_void, on_object_mok with (Q := fun _ => True); auto. { apply H1; discriminate. }
        intros m Hm Hs _. cbn [fst snd]. splits.
        * apply map_emplace_Forall; auto. constructor. auto.
        * now apply map_emplace_sorted.
        * unfold obj_at, obj_index. rewrite map_emplace_find, bytes_eqb_refl by auto. exact I.
      + unfold mok. cbn. split; auto.
      + unfold mok. cbn. split; auto.
      + tauto.
      + tauto.
    - eapply mok_void, on_array_mok with (Q := fun _ => True); auto. intros l Hl _. rewrite arr_erase_spec. cbn. split; auto.
      destruct (n <? size l); auto using remove_nth_Forall.
    - eapply mok_void, on_object_mok with (Q := fun _ => True); auto. intros m Hm Hs _. cbn. unfold obj_erase. splits; auto; [now apply (erase_Forall okv)|now apply map_erase_sorted].
    - unfold mok. cbn. split; auto. intros _. constructor. auto.
    - eapply mok_void, on_array_mok with (Q := fun _ => True); auto. intros. cbn. unfold arr_clear. auto.
    - eapply mok_void, on_object_mok with (Q := fun _ => True); auto. intros. cbn. unfold obj_clear. splits; auto. constructor.
    - eapply mok_void, on_array_mok with (Q := fun _ => True); auto. intros l Hl E. destruct (N.ltb_spec (size l) n) as [Hn|Hn]; cbn.
      + split; auto. right. exists (n - 1). split; [lia|]. intros l' ->. rewrite as_array_m_arr in E. injection E as ->. unfold size in Hn. lia.
      + split; auto using arr_erase_iter_ok.
    - eapply mok_void, on_object_mok with (Q := fun _ => True); auto. intros m Hm Hs E. destruct k as [k|].
      + unfold obj_contains. destruct (map_find k m) eqn:F; cbn.
        * splits; auto; [now apply (erase_Forall okv)|now apply map_erase_sorted].
        * splits; auto. right. intros m' ->. rewrite as_object_m_obj in E. injection E as ->. exact F.
      + cbn. splits; auto.
  Qed.

  (** const member functions *)
  Lemma dump_elems_rok (f : value -> res bytes) l : Forall (fun v => rok Nl (fun _ => True) (f v)) l -> rok Nl (fun _ => True) (dump_elems f l).
  Proof. induction 1 as [|x l Hx Hl IH]; cbn; auto. eapply rok_bind; [exact Hx|]. intros. eapply rok_bind; [exact IH|]. cbn. auto. Qed.
  Lemma dump_members_rok (f : value -> res bytes) l : Forall (fun kv => rok Nl (fun _ => True) (f (snd kv))) l -> rok Nl (fun _ => True) (dump_members f l).
  Proof. induction 1 as [|(k, x) l Hx Hl IH]; cbn; auto. eapply rok_bind; [exact Hx|]. intros. eapply rok_bind; [exact IH|]. cbn. auto. Qed.
  Lemma format_elems_rok (f : value -> res bytes) i t l : Forall (fun v => rok Nl (fun _ => True) (f v)) l -> rok Nl (fun _ => True) (format_elems f i t l).
  Proof. induction 1 as [|x l Hx Hl IH]; cbn; auto. eapply rok_bind; [exact Hx|]. intros. eapply rok_bind; [exact IH|]. cbn. auto. Qed.
  Lemma format_members_rok (f : value -> res bytes) i t l : Forall (fun kv => rok Nl (fun _ => True) (f (snd kv))) l -> rok Nl (fun _ => True) (format_members f i t l).
  Proof. induction 1 as [|(k, x) l Hx Hl IH]; cbn; auto. eapply rok_bind; [exact Hx|]. intros. eapply rok_bind; [exact IH|]. cbn. auto. Qed.
  Lemma dump_rok v : okv v -> rok Nl (fun _ => True) (dump v).
  Proof.
    induction v as [t s|t|t l IH|t|t m IH] using value_ind'; intros H; inversion H as [? ? Ha|? Hl| |? Hl Hs|]; subst; cbn; auto.
    - apply A_tag in Ha. destruct t; cbn; auto; try tauto; discriminate.
    - eapply rok_bind with (Q := fun _ => True); [|cbn; auto]. apply dump_elems_rok. rewrite Forall_forall in *. auto.
    - eapply rok_bind with (Q := fun _ => True); [|cbn; auto]. apply dump_members_rok. rewrite Forall_forall in *. auto.
  Qed.
  Lemma format_rok i v : forall t, okv v -> rok Nl (fun _ => True) (format_to i t v).
  Proof.
    induction v as [t s|t|t l IH|t|t m IH] using value_ind'; intros tm H; inversion H as [? ? Ha|? Hl| |? Hl Hs|]; subst; cbn [format_to]; auto.
    - pose proof (dump_rok _ H) as D. apply A_tag in Ha. destruct t; auto; tauto.
    - eapply rok_bind with (Q := fun _ => True); [|cbn; auto]. apply format_elems_rok. rewrite Forall_forall in *. auto.
    - eapply rok_bind with (Q := fun _ => True); [|cbn; auto]. apply format_members_rok. rewrite Forall_forall in *. auto.
  Qed.
  Lemma rok_void {B} (Q : B -> Prop) r : rok Nl Q r -> rok Nl (fun _ => True) (do _ <- r; Ok tt).
  Proof. intros H. eapply rok_bind; [exact H|]. cbn. auto. Qed.
  Lemma ask_rok q v : okv v -> rok Nl (fun _ => True) (ask q v).
  Proof.
    intros Hv. destruct q as [|k|n|k|n|k|n| | | | | |i]; cbn [ask].
    - eapply rok_void, empty_rok; auto.
    - eapply rok_void with (Q := fun _ => True). unfold v_contains_key. destruct (is_object v); cbn; auto. eapply rok_bind; [apply as_object_c_rok; auto|cbn; auto].
    - eapply rok_void with (Q := fun _ => True). unfold v_contains_pos. destruct (is_array v); cbn; auto. eapply rok_bind; [apply as_array_c_rok; auto|cbn; auto].
    - eapply rok_void with (Q := fun _ => True). eapply rok_bind; [apply as_object_c_rok; auto|]. intros m _. unfold obj_at. destruct (map_find k m); cbn; auto. discriminate.
    - eapply rok_void with (Q := fun _ => True). eapply rok_bind; [apply as_array_c_rok; auto|]. intros m _. unfold arr_at. destruct (nthN m n); cbn; auto. discriminate.
    - eapply rok_void with (Q := fun _ => True). unfold v_find_value_key. destruct (is_object v); cbn; auto. eapply rok_bind; [apply as_object_c_rok; auto|cbn; auto].
    - eapply rok_void with (Q := fun _ => True). unfold v_find_value_pos. destruct (is_array v); cbn; auto. eapply rok_bind; [apply as_array_c_rok; auto|cbn; auto].
    - eapply rok_void with (Q := fun _ => True). unfold as_boolean. destruct (is_boolean v) eqn:E; [|now apply type_error_rok].
      destruct Hv; try discriminate. cbn [get_str bind]. destruct (bytes_eqb s true_string); cbn [rok]; auto. destruct (bytes_eqb s false_string); cbn [rok]; auto. discriminate.
    - eapply rok_void with (Q := fun _ => True). unfold as_string. destruct (is_string v) eqn:E; [|now apply type_error_rok].
      destruct Hv; try discriminate. cbn. auto.
    - eapply rok_void, as_array_c_rok; auto.
    - eapply rok_void, as_object_c_rok; auto.
    - eapply rok_void, copy_rok; auto.
    - eapply rok_void with (Q := fun _ => True). destruct i; [now apply format_rok|now apply dump_rok].
  Qed.
  Lemma eq_elems_rok l : Forall (fun v => forall w, okv w -> rok Nl (fun _ => True) (v_eq v w)) l -> forall r, Forall okv r -> rok Nl (fun _ => True) (eq_elems v_eq l r).
  Proof.
    induction 1 as [|x l Hx Hl IH]; intros [|y r] Hr; cbn; auto. inversion_clear Hr. eapply rok_bind; [now apply Hx|]. intros [] _; cbn; auto.
  Qed.
  Lemma eq_members_rok l : Forall (fun kv => forall w, okv w -> rok Nl (fun _ => True) (v_eq (snd kv) w)) l ->
    forall r, Forall (fun kv => okv (snd kv)) r -> rok Nl (fun _ => True) (eq_members v_eq l r).
  Proof.
    induction 1 as [|(k, x) l Hx Hl IH]; intros [|(k', y) r] Hr; cbn; auto. inversion_clear Hr. destruct (bytes_eqb k k'); cbn; auto.
    eapply rok_bind; [now apply Hx|]. intros [] _; cbn; auto.
  Qed.
  Lemma eq_rok v : okv v -> forall w, okv w -> rok Nl (fun _ => True) (v_eq v w).
  Proof.
    induction v as [t s|t|t l IH|t|t m IH] using value_ind'; intros H w Hw; inversion H as [? ? Ha|? Hl| |? Hl Hs|]; subst; cbn [v_eq type_of].
    - destruct (negb (vtype_eqb t (type_of w))); cbn; auto. apply A_tag in Ha. destruct t; cbn; auto; try tauto; discriminate.
    - destruct (negb (vtype_eqb Tarray (type_of w))); cbn; auto.
    - destruct (negb (vtype_eqb Tarray (type_of w))) eqn:E; cbn; auto.
      assert (Ew : is_array w = true). { unfold is_array. destruct (type_of w); auto; discriminate. }
      eapply rok_bind; [apply get_arr_ok; auto|]. intros r (-> & Hr). unfold eq_array. destruct (Nat.eqb (length l) (length r)); cbn; auto.
      apply eq_elems_rok; auto. rewrite Forall_forall in *. auto.
    - destruct (negb (vtype_eqb Tobject (type_of w))); cbn; auto.
    - destruct (negb (vtype_eqb Tobject (type_of w))) eqn:E; cbn; auto.
      assert (Ew : is_object w = true). { unfold is_object. destruct (type_of w); auto; discriminate. }
      eapply rok_bind; [apply get_obj_ok; auto|]. intros r (-> & Hr & _). unfold eq_object. destruct (Nat.eqb (length m) (length r)); cbn; auto.
      apply eq_members_rok; auto. rewrite Forall_forall in *. auto.
  Qed.

  (** ** Effects on the store *)
  Definition triple {B} (U : Prop) (Q : B -> Prop) (c : M B) : Prop :=
    forall st, sok st -> match c st with
                         | Stuck => True
                         | Done st' r => (r <> Ub -> sok st') /\ rok U Q r
                         end.
  Lemma t_bind {B C} (U : Prop) (Q : B -> Prop) (R : C -> Prop) c f :
    triple U Q c -> (forall b, Q b -> triple U R (f b)) -> triple U R (mbind c f).
  Proof.
    intros H G st Hs. specialize (H st Hs). unfold mbind. destruct (c st) as [|st' [b|e| | |]]; auto; cbn in H.
    - destruct H as [H1 H2]. apply (G b H2). apply H1. discriminate.
    - destruct H as [H1 H2]. split; [intros _; apply H1; discriminate|exact H2].
    - split; [congruence|]. apply H.
    - tauto.
    - tauto.
  Qed.
  Lemma t_ret {B} (U : Prop) (Q : B -> Prop) b : Q b -> triple U Q (mret b).
  Proof. intros H st Hs. cbn. auto. Qed.
  Lemma t_fail {B} (U : Prop) (Q : B -> Prop) r : rok U Q r -> triple U Q (mfail r).
  Proof. intros H st Hs. cbn. auto. Qed.
  Lemma t_rd (U : Prop) l : triple U okv (rd l).
  Proof. intros st Hs. unfold rd. destruct (read st l) eqn:E; cbn; auto. split; auto. eapply read_ok; eauto. Qed.
  Lemma t_wr (U : Prop) l v : okv v -> triple U (fun _ => True) (wr l v).
  Proof. intros H st Hs. cbn. split; auto. intros _. now apply write_ok. Qed.
  Lemma t_call {B} (U : Prop) (Q : B -> Prop) l f : (forall v, okv v -> mok U Q (f v)) -> triple U Q (call l f).
  Proof.
    intros H st Hs. unfold call. destruct (read st l) eqn:E; auto. specialize (H v (read_ok _ _ _ Hs E)). destruct (f v) as [v' r]. destruct H as [H1 H2]. cbn in *.
    split; auto. intros G. apply write_ok; auto.
  Qed.
  Lemma t_mono {B} (U V : Prop) (Q R : B -> Prop) c : triple U Q c -> (U -> V) -> (forall b, Q b -> R b) -> triple V R c.
  Proof. intros H HU HQ st Hs. specialize (H st Hs). destruct (c st); auto. destruct H as [H1 H2]. split; auto. eapply rok_mono; eauto. Qed.
  Lemma t_if {B} (U : Prop) (Q : B -> Prop) (b : bool) c d : triple U Q c -> triple U Q d -> triple U Q (if b then c else d).
  Proof. destruct b; auto. Qed.
  Lemma t_copy_from (U : Prop) l : (Nl -> U) -> triple U okv (copy_from l).
  Proof.
    intros HU. eapply t_bind; [apply t_rd|]. intros v Hv. apply t_fail. eapply rok_mono; [apply copy_rok; auto|auto|]. intros ? <-. auto.
  Qed.
  Lemma t_take (U : Prop) l : Nl -> triple U okv (take l).
  Proof.
    intros HN. eapply t_bind; [apply t_rd|]. intros v Hv. eapply t_bind; [apply t_wr, moved_ok; auto|]. intros _ _. now apply t_ret.
  Qed.
  Lemma set_tag_same v : set_tag (type_of v) v = v. Proof. destruct v; reflexivity. Qed.
  Lemma get_set_tag t v s p : get_at (s :: p) (set_tag t v) = get_at (s :: p) v.
  Proof. destruct s, v; reflexivity. Qed.
  (** a copy assignment whose source does not contain the target copies the source *)
  Lemma reread st dst src d w : read st dst = Some d -> read st src = Some w -> ~ strictly_inside src dst ->
    read (write st dst (set_tag (type_of w) d)) src = Some w.
  Proof.
    intros Hd Hw Hn. destruct (within src dst) eqn:W1.
    - destruct (same src dst) eqn:S.
      + apply same_spec in S. subst src. rewrite Hd in Hw. injection Hw as <-. rewrite read_write_same, Hd, set_tag_same. reflexivity.
      + exfalso. apply Hn, strictly_inside_spec. split; auto. intros E. apply same_spec in E. congruence.
    - destruct (within dst src) eqn:W2.
      + apply within_spec in W2. destruct W2 as (E & r & Er). destruct src as [j q]. cbn in E, Er. subst j q.
        rewrite read_write_below, Hd. unfold read in Hd, Hw. cbn in Hw. destruct (nth_error st (slot dst)); [|discriminate].
        rewrite get_at_app, Hd in Hw. destruct r as [|s r]; [|now rewrite get_set_tag].
        cbn in Hw. injection Hw as ->. cbn. now rewrite set_tag_same.
      + now rewrite read_write_disjoint.
  Qed.
  Lemma t_copy_assign (U : Prop) dst src : (Nl -> U) -> ~ strictly_inside src dst -> triple U (fun _ => True) (copy_assign dst src).
  Proof.
    intros HU Hn st Hs. unfold copy_assign, mbind, rd, wr, copy_from, mbind, rd, mfail.
    destruct (read st dst) as [d|] eqn:Hd; [|exact I]. destruct (read st src) as [w|] eqn:Hw; [|exact I].
    rewrite (reread st dst src d w Hd Hw Hn). pose proof (copy_rok w (read_ok _ _ _ Hs Hw)) as C.
    destruct (copy w) as [c|e| | |] eqn:E; cbn in C.
    - subst c. split; [|exact I]. intros _. rewrite write_write. apply write_ok; auto. rewrite set_tag_same. eapply read_ok; eauto.
    - exfalso. apply copy_no_throw in E. exact E.
    - split; [congruence|cbn; auto].
    - tauto.
    - tauto.
  Qed.

  Lemma t_move_assign (U : Prop) dst src : Nl -> U -> triple U (fun _ => True) (move_assign dst src).
  Proof.
    intros HN HU. eapply t_bind; [apply t_rd|]. intros d Hd. eapply t_bind; [apply t_rd|]. intros w Hw.
    apply t_if; [|apply t_if; [|apply t_if]].
    - apply t_wr. destruct Hw; try (constructor; auto; fail). constructor. eauto.
    - apply t_if; [now apply t_wr|]. apply t_fail. exact HU.
    - apply t_wr. now apply moved_ok.
    - eapply t_bind; [apply t_wr, moved_ok; auto|]. intros _ _. now apply t_wr.
  Qed.
  (** expressions *)
  Lemma expr_ind' (P : expr -> Prop) :
    P ENull -> (forall b, P (EBool b)) -> (forall s, P (ENum s)) -> (forall s, P (EStr s)) -> (forall t s, P (ERaw t s)) ->
    (forall l, P (ECopy l)) -> (forall l, P (EMove l)) -> (forall es, Forall P es -> P (EArr es)) ->
    (forall ms, Forall (fun ke => P (snd ke)) ms -> P (EObj ms)) -> forall e, P e.
  Proof.
    intros G0 G1 G2 G3 G4 G5 G6 G7 G8. fix IH 1. intros [|b|s|s|t s|l|l|es|ms]; [exact G0|apply G1|apply G2|apply G3|apply G4|apply G5|apply G6| |].
    - apply G7. induction es; constructor; [apply IH|assumption].
    - apply G8. induction ms as [|(k, e) ms IHm]; constructor; [apply IH|assumption].
  Qed.
  Lemma obj_of_list_ok l : Forall (fun kv => okv (snd kv)) l -> okv (v_object (obj_of_list l)).
  Proof.
    intros H. unfold obj_of_list.
    assert (G : Forall (fun kv => okv (snd kv)) (@nil (bytes * value)) /\ sorted_keys (@nil (bytes * value))) by (split; constructor).
    revert G. generalize (@nil (bytes * value)) as m. induction H as [|(k, x) l Hx Hl IH]; cbn; intros m [G1 G2]; [now constructor|].
    apply IH. split; [now apply map_emplace_Forall|now apply map_emplace_sorted].
  Qed.
  Lemma t_eval_list (U : Prop) ev es : Forall (fun e => triple U okv (ev e)) es -> triple U (Forall okv) (eval_list ev es).
  Proof.
    induction 1 as [|e es He Hs IH]; cbn; [apply t_ret; auto|]. eapply t_bind; [exact He|]. intros v Hv. eapply t_bind; [exact IH|]. intros vs Hvs. apply t_ret. auto.
  Qed.
  Lemma t_eval_members (U : Prop) ev es : Forall (fun ke => triple U okv (ev (snd ke))) es -> triple U (Forall (fun kv => okv (snd kv))) (eval_members ev es).
  Proof.
    induction 1 as [|(k, e) es He Hs IH]; cbn; [apply t_ret; auto|]. eapply t_bind; [exact He|]. intros v Hv. eapply t_bind; [exact IH|]. intros vs Hvs. apply t_ret. auto.
  Qed.
  Definition expr_ok (e : expr) : Prop := literals A e /\ (no_move e \/ Nl).
  Lemma t_eval (U : Prop) e : (Nl -> U) -> literals A e -> no_move e \/ Nl -> triple U okv (eval e).
  Proof.
    intros HU. induction e as [|b|s|s|t s|l|l|es IH|ms IH] using expr_ind'; intros Hl Hm; inversion Hl; subst; cbn [eval].
    - apply t_ret. constructor. auto.
    - apply t_ret. constructor. auto.
    - apply t_ret. constructor. auto.
    - apply t_ret. constructor. auto.
    - apply t_ret. constructor. auto.
    - now apply t_copy_from.
    - apply t_take. destruct Hm as [Hm|]; [inversion Hm|auto].
    - eapply t_bind.
      + apply t_eval_list. rewrite Forall_forall in *. intros e He. apply IH; auto. destruct Hm as [Hm|]; auto. left. inversion_clear Hm. rewrite Forall_forall in *. auto.
      + intros vs Hvs. eapply t_bind; [apply t_fail; eapply rok_mono; [apply copy_elems_rok; eauto|auto|intros ? <-; exact Hvs]|].
        intros vs' Hvs'. apply t_ret. now constructor.
    - eapply t_bind.
      + apply t_eval_members. rewrite Forall_forall in *. intros e He. apply IH; auto. destruct Hm as [Hm|]; auto. left. inversion_clear Hm. rewrite Forall_forall in *. auto.
      + intros vs Hvs. eapply t_bind; [apply t_fail; eapply rok_mono; [apply copy_members_rok; eauto|auto|intros ? <-; exact Hvs]|].
        intros vs' Hvs'. apply t_ret. now apply obj_of_list_ok.
  Qed.
  Definition arg_ok (a : arg) : Prop := arg_all (fun e => literals A e /\ (no_move e \/ Nl)) Nl a.
  Definition oko (o : option value) : Prop := match o with Some v => okv v | None => True end.
  Lemma t_prepare (U : Prop) a : (Nl -> U) -> arg_ok a -> triple U oko (prepare a).
  Proof.
    intros HU. destruct a as [e|l|l]; cbn; intros H; try (apply t_ret; exact I).
    eapply t_bind; [apply t_eval; tauto|]. intros v Hv. now apply t_ret.
  Qed.
  Lemma t_construct (U : Prop) a t : (Nl -> U) -> arg_ok a -> oko t -> triple U okv (construct a t).
  Proof.
    intros HU. destruct a as [e|l|l], t; cbn; intros Ha Ht; try (now apply t_copy_from); try (now apply t_take); try (now apply t_ret).
    apply t_ret. constructor. auto.
  Qed.
  Lemma t_assign (U : Prop) dst a t : (Nl -> U) -> arg_ok a -> oko t -> (forall l, a = CRef l -> ~ strictly_inside l dst) -> triple U (fun _ => True) (assign dst a t).
  Proof.
    intros HU. destruct a as [e|l|l], t; cbn; intros Ha Ht Hn; try (apply t_copy_assign; auto); try (apply t_move_assign; auto); try (now apply t_ret).
    eapply t_bind; [apply t_rd|]. intros _ _. now apply t_wr.
  Qed.
  Lemma t_push (U : Prop) dst v : (Nl -> U) -> okv v -> triple U (fun _ => True) (call dst (fun d => on_array (fun l => (arr_emplace_back v l, Ok tt)) d)).
  Proof.
    intros HU Hv. apply t_call. intros d Hd. apply on_array_mok; auto. intros l Hl _. cbn. split; auto. apply Forall_app. auto.
  Qed.
  Lemma t_app (U : Prop) dst r : (Nl -> U) -> Forall okv r -> triple U (fun _ => True) (call dst (fun d => on_array (fun l => (l ++ r, Ok tt)) d)).
  Proof.
    intros HU Hv. apply t_call. intros d Hd. apply on_array_mok; auto. intros l Hl _. cbn. split; auto. apply Forall_app. auto.
  Qed.
  Lemma t_set (U : Prop) dst k v : (Nl -> U) -> okv v -> triple U (fun _ => True) (call dst (fun d => on_object (fun m => (map_assign k v m, Ok tt)) d)).
  Proof.
    intros HU Hv. apply t_call. intros d Hd. apply on_object_mok; auto. intros m Hm Hs _. cbn. splits; auto; [now apply map_assign_Forall|now apply map_assign_sorted].
  Qed.
  Lemma t_as_array (U : Prop) dst : (Nl -> U) -> triple U (Forall okv) (call dst as_array_m).
  Proof. intros HU. apply t_call. intros v Hv. eapply mok_mono; [apply as_array_mok; auto|auto|]. intros l H; apply H. Qed.
  Lemma t_as_object (U : Prop) dst : (Nl -> U) -> triple U (fun m => Forall (fun kv => okv (snd kv)) m) (call dst as_object_m).
  Proof. intros HU. apply t_call. intros v Hv. eapply mok_mono; [apply as_object_mok; auto|auto|]. intros l H; apply H. Qed.
  Lemma t_emplace_back (U : Prop) dst a t : (Nl -> U) -> arg_ok a -> oko t -> triple U (fun _ => True) (emplace_back dst a t).
  Proof.
    intros HU Ha Ht. eapply t_bind; [now apply t_as_array|]. intros _ _. eapply t_bind; [now apply t_construct|]. intros v Hv.
    destruct a as [e|l|l]; try (now apply t_push). apply t_if; [now apply t_ret|now apply t_push].
  Qed.
  Lemma t_insert (U : Prop) dst k a t : (Nl -> U) -> arg_ok a -> oko t -> (forall l, a = CRef l -> ~ strictly_inside l (sub dst (Key k))) ->
    triple U (fun _ => True) (insert_or_assign dst k a t).
  Proof.
    intros HU Ha Ht Hn. eapply t_bind; [now apply t_as_object|]. intros m _. apply t_if; [now apply t_assign|].
    eapply t_bind; [now apply t_construct|]. intros v Hv.
    destruct a as [e|l|l]; try (now apply t_set). apply t_if; [now apply t_ret|now apply t_set].
  Qed.
  Lemma inside_sub src dst k : strictly_inside (sub src (Key k)) (sub dst (Key k)) -> strictly_inside src dst.
  Proof.
    unfold strictly_inside. destruct src as [i p], dst as [j q]; cbn. intros (-> & s & r & H).
    rewrite <- app_assoc in H. cbn in H.
    destruct (exists_last (l := s :: r)) as (r' & x & E); [discriminate|]. rewrite E in H.
    assert (H' : q ++ [Key k] = (p ++ Key k :: r') ++ [x]) by (rewrite <- app_assoc; exact H).
    apply app_inj_tail in H' as [-> _]. eauto.
  Qed.
  Lemma t_merge_loop (U : Prop) dst src mv ks : (Nl -> U) -> (mv = true -> Nl) -> (mv = false -> ~ strictly_inside src dst) ->
    (strictly_inside dst src -> U) -> triple U (fun _ => True) (merge_loop dst src mv ks).
  Proof.
    intros HU Hmv Hn Hd. induction ks as [|k ks IH]; cbn [merge_loop]; [now apply t_ret|].
    eapply t_bind; [apply t_rd|]. intros w Hw. destruct (negb (same dst src) && within (sub dst (Key k)) src) eqn:W.
    - apply t_fail. cbn. apply Hd. apply andb_prop in W as [W1 W2]. apply strictly_inside_spec. split.
      + apply within_spec in W2. apply within_spec. cbn in W2. destruct W2 as (E & r & Er). split; auto. rewrite Er, <- app_assoc. eauto.
      + intros E. apply same_spec in E. rewrite E in W1. discriminate.
    - intros st Hs. destruct (read st dst).
      + revert st Hs. change (triple U (fun _ => True) (run _ <- insert_or_assign dst k (if mv then MRef (sub src (Key k)) else CRef (sub src (Key k))) None; merge_loop dst src mv ks)).
        eapply t_bind; [|intros _ _; exact IH]. apply t_insert; auto.
        * destruct mv; cbn; auto.
        * exact I.
        * intros l. destruct mv; [discriminate|]. intros [= <-]. intros H. apply inside_sub in H. now apply Hn.
      + destruct mv.
        * revert st Hs. change (triple U (fun _ => True) (run _ <- take (sub src (Key k)); merge_loop dst src true ks)).
          eapply t_bind; [apply t_take; auto|intros _ _; exact IH].
        * exact I.
  Qed.
  Lemma as_object_m_nil v v' : as_object_m v = (v', Ok []) -> v_empty v = Ok true.
  Proof.
    unfold as_object_m, coerce. destruct (v_empty v) as [[]|e| | |] eqn:E; cbn; try (intros [= _ H]; discriminate H); auto.
    destruct (is_object v) eqn:O; [|unfold type_error; destruct v as [|[] []|[] []]; discriminate].
    destruct v as [t s|t p|t p]; try discriminate. destruct t; try discriminate O. destruct p as [m|]; [|discriminate]. intros [= _ ->]. discriminate E.
  Qed.
  Lemma t_or_assign (U : Prop) dst src mv st : (Nl -> U) -> (mv = true -> Nl) -> (mv = false -> ~ strictly_inside src dst) ->
    (strictly_inside dst src -> U) -> (forall v, dst = src -> read st src = Some v -> v_empty v = Ok true -> U) -> sok st ->
    match or_assign dst src mv st with Stuck => True | Done st' r => (r <> Ub -> sok st') /\ rok U (fun _ => True) r end.
  Proof.
    intros HU Hmv Hn Hd He Hs. pose proof (t_as_object U src HU st Hs) as T. unfold or_assign. unfold mbind at 1.
    destruct (call src as_object_m st) as [|st1 r] eqn:C; [exact I|]. destruct r as [m0|e| | |]; try (split; [intros _; apply T; discriminate|apply T]); try (split; [congruence|apply T]). destruct T as [T _].
    destruct (same dst src && is_nil m0) eqn:S.
    - cbn. split; [congruence|]. apply andb_prop in S as [S1 S2]. apply same_spec in S1. destruct m0; [|discriminate].
      unfold call in C. destruct (read st src) as [v|] eqn:R; [|discriminate]. destruct (as_object_m v) as [v' r] eqn:Ev. injection C as _ ->.
      exact (He v S1 eq_refl (as_object_m_nil v v' Ev)).
    - revert st1 T C. intros st1 T _. assert (Hs' : sok st1) by (apply T; discriminate). clear T. revert st1 Hs'.
      apply (t_bind U (fun m => Forall (fun kv => okv (snd kv)) m)); [now apply t_as_object|].
      intros _ _. eapply t_bind with (Q := fun _ => True).
      + eapply t_bind; [apply t_rd|]. intros w Hw. apply t_fail. eapply rok_mono; [apply as_object_c_rok; auto|auto|auto].
      + intros m _. now apply t_merge_loop.
  Qed.
  Lemma map_moved_ok l : Nl -> Forall okv l -> Forall okv (map moved l).
  Proof. intros HN. induction 1; cbn; constructor; auto using moved_ok. Qed.
  Lemma t_plus_assign (U : Prop) dst src mv : (Nl -> U) -> (mv = true -> Nl) -> (dst = src -> U) -> triple U (fun _ => True) (plus_assign dst src mv).
  Proof.
    intros HU Hmv Hd. eapply t_bind; [now apply t_as_array|]. intros _ _. eapply t_bind; [now apply t_as_array|]. intros _ _.
    destruct (same dst src) eqn:S; [apply t_fail; cbn; apply Hd; now apply same_spec|].
    eapply t_bind with (Q := Forall okv).
    - eapply t_bind; [apply t_rd|]. intros w Hw. apply t_fail. eapply rok_mono; [apply as_array_c_rok; auto|auto|]. intros l [_ H]. exact H.
    - intros l Hl. destruct mv.
      + eapply t_bind; [apply t_wr; constructor; apply map_moved_ok; auto|]. intros _ _. apply t_if; [now apply t_ret|now apply t_app].
      + eapply t_bind with (Q := Forall okv).
        * apply t_fail. eapply rok_mono; [apply copy_elems_rok; eauto|auto|]. intros ? <-. exact Hl.
        * intros l' Hl'. now apply t_app.
  Qed.
  Lemma t_at {B} (U : Prop) (Q : B -> Prop) c st : triple U Q c -> sok st -> match c st with Stuck => True | Done st' r => (r <> Ub -> sok st') /\ rok U Q r end.
  Proof. intros H Hs. exact (H st Hs). Qed.
  Definition okm (m : object) : Prop := Forall (fun kv => okv (snd kv)) m /\ sorted_keys m.
  Lemma t_object (U : Prop) l : (Nl -> U) -> triple U okm (call l as_object_m).
  Proof. intros HU. apply t_call. intros v Hv. eapply mok_mono; [apply as_object_mok; auto|auto|]. intros m (H1 & H2 & _). now split. Qed.
  Lemma t_rd_object (U : Prop) l : (Nl -> U) -> triple U okm (run w <- rd l; mfail (as_object_c w)).
  Proof. intros HU. eapply t_bind; [apply t_rd|]. intros w Hw. apply t_fail. eapply rok_mono; [apply as_object_c_rok; auto|auto|]. intros m (_ & H1 & H2). now split. Qed.
  Lemma t_rd_array (U : Prop) l : (Nl -> U) -> triple U (Forall okv) (run w <- rd l; mfail (as_array_c w)).
  Proof. intros HU. eapply t_bind; [apply t_rd|]. intros w Hw. apply t_fail. eapply rok_mono; [apply as_array_c_rok; auto|auto|]. intros m [_ H]. exact H. Qed.
  Lemma t_pushv (U : Prop) v : okv v -> triple U (fun _ => True) (push_value v).
  Proof. intros Hv st Hs. cbn. split; auto. intros _. apply Forall_app. split; auto. Qed.
  Lemma merge_move_ok m r : Nl -> okm m -> okm r -> okm (fst (merge_object_move m r)) /\ okm (snd (merge_object_move m r)).
  Proof.
    intros HN [Hm1 Hm2] [Hr1 Hr2]. unfold merge_object_move. cbn [fst snd]. split; [|split].
    - clear Hr2. revert m Hm1 Hm2. induction Hr1 as [|(k, v) r Hv _ IH]; cbn; intros m Hm1 Hm2; [now split|]. apply IH; [now apply map_assign_Forall|now apply map_assign_sorted].
    - apply Forall_map. eapply Forall_impl; [|exact Hr1]. intros [k v]. cbn. apply moved_ok. exact HN.
    - clear -Hr2. induction Hr2; cbn in *; constructor; auto.
  Qed.
  Lemma t_or_new (U : Prop) lhs src ml mr st : (Nl -> U) -> (mr = true -> Nl) -> (ml = true -> mr = false -> ~ strictly_inside src lhs) ->
    (ml = true -> strictly_inside lhs src -> U) -> (forall v, ml = true -> lhs = src -> read st src = Some v -> v_empty v = Ok true -> U) -> sok st ->
    match or_new lhs src ml mr st with Stuck => True | Done st' r => (r <> Ub -> sok st') /\ rok U (fun _ => True) r end.
  Proof.
    intros HU Hmr Hn Hd He Hs. unfold or_new. destruct ml; [destruct (mr && within src lhs && negb (same lhs src)) eqn:B|].
    - assert (mr = true) as -> by (destruct mr; auto). eapply t_at; [|exact Hs]. eapply t_bind; [now apply t_as_object|]. intros _ _.
      eapply t_bind; [now apply t_object|]. intros m Hm. eapply t_bind; [apply t_wr; constructor; constructor|]. intros _ _.
      eapply t_bind; [now apply t_rd_object|]. intros r Hr. destruct (merge_move_ok m r (Hmr eq_refl) Hm Hr) as [[H1 H2] [H3 H4]].
      eapply t_bind; [apply t_wr; now constructor|]. intros _ _. apply t_pushv. now constructor.
    - pose proof (t_or_assign U lhs src mr st HU Hmr (Hn eq_refl) (Hd eq_refl) (fun v => He v eq_refl) Hs) as T.
      unfold mbind at 1. destruct (or_assign lhs src mr st) as [|st1 [[]|e| | |]]; try tauto.
      + destruct T as [T _]. assert (Hs1 : sok st1) by (apply T; discriminate). revert st1 Hs1 T. intros st1 Hs1 _. revert st1 Hs1.
        eapply t_bind; [now apply t_rd_object|]. intros m [H1 H2]. eapply t_bind; [apply t_wr; constructor; constructor|]. intros _ _. apply t_pushv. now constructor.
    - pose proof (t_as_object U src HU st Hs) as T. unfold mbind at 1. unfold call in *. destruct (read st src) as [v|] eqn:R; [|exact I].
      destruct (as_object_m v) as [v1 r1]. destruct r1 as [m0|e| | |]; cbn in T |- *; try tauto; try (split; [intros _; apply T; discriminate|exact (proj2 T)]); try (split; [congruence|exact (proj2 T)]).
      assert (Hs1 : sok (write st src v1)) by (apply T; discriminate). clear T.
      assert (Ls : (slot src < length (write st src v1))%nat).
      { unfold read in R. destruct (nth_error st (slot src)) eqn:E; [|discriminate]. unfold write. clear -E. revert E. generalize (upd_at (steps src) (fun _ => v1)) as f. generalize (slot src) as n.
        induction st as [|x st IH]; intros [|n] f E; try discriminate; cbn; [lia|]. apply IH with (f := f) in E. lia. }
      generalize dependent (write st src v1). clear st Hs R. intros st Hs Ls.
      pose proof (t_rd_object U lhs HU st Hs) as T. unfold mbind at 1. destruct ((run w <- rd lhs; mfail (as_object_c w)) st) as [|st1 r1] eqn:E1; [exact I|].
      assert (st1 = st) as -> by (unfold mbind, rd, mfail in E1; destruct (read st lhs); [|discriminate]; destruct (as_object_c v); injection E1 as <- <-; reflexivity).
      destruct r1 as [m|e| | |]; try tauto; try (split; [intros _; apply T; discriminate|exact (proj2 T)]); try (split; [congruence|exact (proj2 T)]).
      destruct T as [_ [H1 H2]]. pose proof (copy_members_rok m H1) as C. unfold mbind at 1, mfail at 1. destruct (copy_members copy m) as [m'|e| | |]; cbn in C; try tauto; try (split; [auto|exact C]); try (split; [congruence|apply HU, C]). subst m'.
      refine ((_ : triple U (fun _ => True) (run _ <- push_value (v_object m); run r <- (run w <- rd src; mfail (as_object_c w)); merge_loop (Loc (length st) []) src mr (map fst r))) st Hs).
      eapply t_bind; [apply t_pushv; now constructor|]. intros _ _. eapply t_bind; [now apply t_rd_object|]. intros r _.
      apply t_merge_loop; auto.
      + intros _ [E _]. cbn in E. lia.
      + intros [E _]. cbn in E. lia.
  Qed.
  Lemma t_plus_new (U : Prop) lhs src ml mr : (Nl -> U) -> (mr = true -> Nl) -> (ml = true -> lhs = src -> U) -> triple U (fun _ => True) (plus_new lhs src ml mr).
  Proof.
    intros HU Hmr Hd. unfold plus_new. destruct ml; [destruct (mr && within src lhs && negb (same lhs src)) eqn:B|].
    - assert (mr = true) as -> by (destruct mr; auto). eapply t_bind; [now apply t_as_array|]. intros _ _. eapply t_bind; [now apply t_as_array|]. intros l Hl.
      eapply t_bind; [apply t_wr; constructor; constructor|]. intros _ _. eapply t_bind; [now apply t_rd_array|]. intros r Hr. cbn [append_array_move fst snd].
      eapply t_bind; [apply t_wr; constructor; now apply map_moved_ok; auto|]. intros _ _. apply t_pushv. constructor. apply Forall_app. now split.
    - eapply t_bind; [now apply t_plus_assign; auto|]. intros _ _. eapply t_bind; [now apply t_rd_array|]. intros r Hr.
      eapply t_bind; [apply t_wr; constructor; constructor|]. intros _ _. apply t_pushv. now constructor.
    - eapply t_bind; [now apply t_as_array|]. intros _ _. eapply t_bind; [now apply t_rd_array|]. intros l Hl.
      eapply t_bind with (Q := Forall okv). { apply t_fail. eapply rok_mono; [apply copy_elems_rok; eauto|auto|]. intros ? <-. exact Hl. }
      intros l' Hl'. eapply t_bind; [now apply t_rd_array|]. intros r Hr. destruct mr; cbn [append_array_move fst snd].
      + eapply t_bind; [apply t_wr; constructor; now apply map_moved_ok; auto|]. intros _ _. apply t_pushv. constructor. apply Forall_app. now split.
      + eapply t_bind with (Q := Forall okv). { apply t_fail. unfold append_array. eapply rok_bind; [eapply rok_mono; [apply copy_elems_rok; eauto|auto|]|].
          - intros ? H. exact H.
          - intros ? <-. cbn. apply Forall_app. now split. }
        intros x Hx. apply t_pushv. now constructor.
  Qed.
  Definition cmd_ok (c : cmd) : Prop := cmd_all (fun e => literals A e /\ (no_move e \/ Nl)) Nl c.
  Lemma exec_ok c st : cmd_ok c -> ~ copies_into_part c -> sok st ->
    match exec c st with
    | Stuck => True
    | Done st' r => (r <> Ub -> sok st') /\ rok (Nl \/ misuse st c) (fun _ => True) r
    end.
  Proof.
    intros Hc Hn Hs. destruct c as [e|dst a|dst a|dst k a|dst src mv|dst src mv|lhs src ml mr|lhs src ml mr|l m|l q|a b]; cbn [exec copies_into_part misuse] in *.
    - eapply t_at; [|exact Hs]. eapply t_bind; [apply t_eval; cbn in Hc; tauto|]. intros v Hv st' Hs'. cbn. split; auto. intros _. apply Forall_app. split; auto.
    - eapply t_at; [|exact Hs]. eapply t_bind; [apply t_prepare; auto|]. intros t Ht. apply t_assign; auto. intros l ->. exact Hn.
    - eapply t_at; [|exact Hs]. eapply t_bind; [apply t_prepare; auto|]. intros t Ht. apply t_emplace_back; auto.
    - eapply t_at; [|exact Hs]. eapply t_bind; [apply t_prepare; auto|]. intros t Ht. apply t_insert; auto. intros l ->. exact Hn.
    - apply t_or_assign; auto.
      + intros ->. exact Hc.
      + intros ->. exact Hn.
      + intros v -> E Ev. right. right. split; eauto.
    - eapply t_at; [|exact Hs]. apply t_plus_assign; auto. intros ->. exact Hc.
    - apply t_or_new; auto.
      + intros ->. exact Hc.
      + intros -> ->. exact Hn.
      + intros ->. right. now left.
      + intros v -> -> E Ev. right. right. split; eauto.
    - eapply t_at; [|exact Hs]. apply t_plus_new; auto.
      + intros ->. exact Hc.
      + intros -> ->. now right.
    - unfold call. destruct (read st l) as [v|] eqn:E; [|exact I].
      pose proof (read_ok _ _ _ Hs E) as Hv. pose proof (invoke_mok m v Hv) as [H1 H2]. destruct (invoke m v) as [v' r]. cbn [fst snd] in *.
      split; [intros G; apply write_ok; auto|]. eapply rok_mono; [exact H2| |auto]. intros [HN|HB]; auto. right.
      destruct m as [| |n|k|n|k| | | |n|[k|]]; cbn in HB; auto.
      + unfold no_element. rewrite E. intros a [= ->]. auto.
      + destruct HB as (p & -> & HB). exists p. split; auto. unfold no_element. rewrite E. intros a [= ->]. auto.
      + intros m [= ->]. auto.
    - eapply t_at; [|exact Hs]. eapply t_bind; [apply t_rd|]. intros v Hv. apply t_fail. eapply rok_mono; [apply ask_rok; auto|auto|auto].
    - eapply t_at; [|exact Hs]. eapply t_bind; [apply t_rd|]. intros v Hv. eapply t_bind; [apply t_rd|]. intros w Hw.
      eapply t_bind; [apply t_fail; eapply rok_mono; [apply eq_rok; auto|auto|]|].
      + intros ? H. exact H.
      + intros _ _. now apply t_ret.
  Qed.
  Lemma history_ok cs : forall st st', Forall cmd_ok cs -> Forall (fun c => ~ copies_into_part c) cs -> sok st -> history st cs st' -> sok st'.
  Proof.
    induction cs as [|c cs IH]; intros st st' Hc Hn Hs H; inversion H; subst; auto.
    inversion_clear Hc as [|? ? C1 C2]. inversion_clear Hn as [|? ? N1 N2].
    pose proof (exec_ok c st C1 N1 Hs) as E. match goal with X : exec c st = _ |- _ => rewrite X in E end. destruct E as [E _].
    eapply IH; [exact C2|exact N2|apply E; auto|eauto].
  Qed.
End Inv.

(** ** Instances *)
Definition plain (t : vtype) (s : bytes) : Prop := t <> Tarray /\ t <> Tobject.
Lemma okv_tag_ok N v : okv plain N v -> tag_ok v /\ keys_ok v.
Proof.
  induction v as [t s|t|t l IH|t|t m IH] using value_ind'; intros H; inversion H as [? ? Ha|? Hl| |? Hl Hs|]; subst; try (split; constructor; fail).
  - destruct Ha. split; constructor; auto.
  - split; constructor; rewrite Forall_forall in *; intros x Hx; apply IH; auto.
  - split; constructor; auto; rewrite Forall_forall in *; intros x Hx; apply IH; auto.
Qed.
Lemma okv_owned A v : okv A False v -> owned v.
Proof.
  induction v as [t s|t|t l IH|t|t m IH] using value_ind'; intros H; inversion H as [? ? Ha|? Hl| |? Hl Hs|]; subst; try (constructor; fail); try tauto.
  - constructor. rewrite Forall_forall in *. auto.
  - constructor. rewrite Forall_forall in *. auto.
Qed.
Lemma cmd_all_impl (E E' : expr -> Prop) (P P' : Prop) c : (forall e, E e -> E' e) -> (P -> P') -> cmd_all E P c -> cmd_all E' P' c.
Proof. intros HE HP. destruct c as [e|dst a|dst a|dst k a|dst src mv|dst src mv|lhs src ml mv|lhs src ml mv|l m|l q|a b]; cbn; auto; try (destruct a; cbn; auto); destruct mv; auto. Qed.
Lemma cmd_all_and (E E' : expr -> Prop) (P P' : Prop) c : cmd_all E P c -> cmd_all E' P' c -> cmd_all (fun e => E e /\ E' e) (P /\ P') c.
Proof. destruct c as [e|dst a|dst a|dst k a|dst src mv|dst src mv|lhs src ml mv|lhs src ml mv|l m|l q|a b]; cbn; auto; try (destruct a; cbn; auto); destruct mv; auto. Qed.
Lemma cmd_ok_moves A c : cmd_literals A c -> cmd_ok A True c.
Proof. unfold cmd_literals, cmd_ok. apply cmd_all_impl; auto. Qed.
Lemma cmd_ok_no_moves A c : cmd_literals A c -> cmd_no_move c -> cmd_ok A False c.
Proof.
  intros H G. pose proof (cmd_all_and _ _ _ _ c H G) as X. unfold cmd_ok. eapply cmd_all_impl; [| |exact X]; cbn; intuition.
Qed.
Lemma plain_facts : plain Tnull [] /\ (forall b : bool, plain Tboolean (if b then true_string else false_string)) /\ (forall s, plain Tstring s) /\
  (forall N : Prop, N -> forall t s, plain t s -> plain t []) /\ (forall t s, plain t s -> t <> Tarray /\ t <> Tobject).
Proof. unfold plain. splits; intros; try tauto; try (split; discriminate); try discriminate. Qed.

(** C26: tags, for histories with moves *)
Lemma tags_kept cs st : Forall (cmd_literals (fun t _ => t <> Tarray /\ t <> Tobject)) cs -> Forall (fun c => ~ copies_into_part c) cs ->
  history [] cs st -> Forall tag_ok st /\ Forall keys_ok st.
Proof.
  intros Hl Hn H. destruct plain_facts as (P1 & P2 & P3 & P4 & P5).
  assert (Hs : sok plain True st).
  { eapply (history_ok plain True P1 P2 P3 (P4 True) P5); [| exact Hn| |exact H].
    - eapply Forall_impl; [|exact Hl]. intros c. apply cmd_ok_moves.
    - constructor. }
  split; eapply Forall_impl; [intros v Hv; apply (okv_tag_ok True v Hv)|exact Hs|intros v Hv; apply (okv_tag_ok True v Hv)|exact Hs].
Qed.
(** an outcome that is neither undefined behaviour nor bad_variant_access *)
Lemma outcomes_with_moves cs st c st' r : Forall (cmd_literals (fun t _ => t <> Tarray /\ t <> Tobject)) (cs ++ [c]) ->
  Forall (fun c => ~ copies_into_part c) (cs ++ [c]) -> history [] cs st -> exec c st = Done st' r -> r <> Throw BadVariant.
Proof.
  intros Hl Hn H E. destruct plain_facts as (P1 & P2 & P3 & P4 & P5).
  apply Forall_app in Hl as [Hl Hl']. apply Forall_app in Hn as [Hn Hn']. inversion_clear Hl'. inversion_clear Hn'.
  assert (Hs : sok plain True st).
  { eapply (history_ok plain True P1 P2 P3 (P4 True) P5); [| exact Hn| |exact H].
    - eapply Forall_impl; [|exact Hl]. intros x. apply cmd_ok_moves.
    - constructor. }
  pose proof (exec_ok plain True P1 P2 P3 (P4 True) P5 c st) as X. rewrite E in X.
  destruct X as [_ X]; auto. { now apply cmd_ok_moves. } intros ->. cbn in X. congruence.
Qed.
Lemma no_moves_safe cs st c st' r : Forall (cmd_literals (fun t _ => t <> Tarray /\ t <> Tobject)) (cs ++ [c]) ->
  Forall (fun c => ~ copies_into_part c) (cs ++ [c]) -> Forall cmd_no_move (cs ++ [c]) ->
  history [] cs st -> exec c st = Done st' r -> Forall owned st /\ (r = Ub -> misuse st c).
Proof.
  intros Hl Hn Hm H E. destruct plain_facts as (P1 & P2 & P3 & P4 & P5).
  apply Forall_app in Hl as [Hl Hl']. apply Forall_app in Hn as [Hn Hn']. apply Forall_app in Hm as [Hm Hm']. inversion_clear Hl'. inversion_clear Hn'. inversion_clear Hm'.
  assert (Hs : sok plain False st).
  { eapply (history_ok plain False P1 P2 P3 (P4 False) P5); [| exact Hn| |exact H].
    - rewrite Forall_forall in *. intros x Hx. apply cmd_ok_no_moves; auto.
    - constructor. }
  split.
  - eapply Forall_impl; [|exact Hs]. intros v. apply okv_owned.
  - pose proof (exec_ok plain False P1 P2 P3 (P4 False) P5 c st) as X. rewrite E in X.
    destruct X as [_ X]; auto. { apply cmd_ok_no_moves; auto. } intros ->. cbn in X. tauto.
Qed.

(** C21: reachable values are well formed *)
Lemma okv_wf v : okv scalar_text False v -> wf v.
Proof.
  induction v as [t s|t|t l IH|t|t m IH] using value_ind'; intros H; inversion H as [? ? Ha|? Hl| |? Hl Hs|]; subst; try tauto.
  - destruct Ha as [[-> ->]|[[-> [->| ->]]|[[-> ?]| ->]]]; [constructor|apply (wf_bool true)|apply (wf_bool false)|now constructor|constructor].
  - constructor. rewrite Forall_forall in *. auto.
  - constructor; auto. rewrite Forall_forall in *. auto.
Qed.
Lemma wf_reachable cs st : Forall (cmd_literals scalar_text) cs -> Forall (fun c => ~ copies_into_part c) cs -> Forall cmd_no_move cs ->
  history [] cs st -> Forall wf st.
Proof.
  intros Hl Hn Hm H. assert (Hs : sok scalar_text False st).
  { eapply (history_ok scalar_text False); [..|exact Hn| |exact H].
    - left. auto.
    - intros []; right; left; auto.
    - intros s. right. right. right. auto.
    - tauto.
    - intros t s [[-> _]|[[-> _]|[[-> _]| ->]]]; split; discriminate.
    - rewrite Forall_forall in *. intros x Hx. apply cmd_ok_no_moves; auto.
    - constructor. }
  eapply Forall_impl; [|exact Hs]. intros v. apply okv_wf.
Qed.
Lemma reachable_is_json cs st : Forall (cmd_literals scalar_text) cs ->
  Forall (fun c => ~ copies_into_part c) cs -> Forall cmd_no_move cs -> history [] cs st ->
  forall v n, In v st -> exists t j, dumps n v = Ok t /\ gvalue ws gstring false t j /\
  distinct j /\ inject j = v /\ (root v -> rfc_document t j).
Proof.
  intros Hl Hn Hm H v n Hv. apply dumps_is_json. pose proof (wf_reachable cs st Hl Hn Hm H) as Hw. rewrite Forall_forall in Hw. auto.
Qed.
Ltac witness := repeat (first [apply h_nil | eapply h_ok; [vm_compute; reflexivity|discriminate|]]).
Lemma raw_not_json : exists cs st v t, history [] cs st /\ In v st /\ dumps None v = Ok t /\ ~ exists j, gvalue ws gstring false t j.
Proof.
  exists [CNew (ERaw Tnumber [])]. eexists. exists (VStr Tnumber []). exists []. splits; [witness|left; reflexivity|].
  intros (j & G). inversion G as [| | |? Hn|? ? Hs| | | |]; subst.
  - inversion Hn as [m i f e Hm Hi Hf He E]. apply app_eq_nil in E as [_ E]. apply app_eq_nil in E as [E _]. destruct Hi; discriminate.
  - destruct Hs as (x & E & _). discriminate.
Qed.
(** C26 witnesses; slot 0 is the value v *)
Definition self_assign : list cmd := [CNew (EObj [([97], ENull)]); CAssign (Loc 0 [Key [97]]) (CRef (Loc 0 []))].
Lemma tags_broken : exists cs st, Forall (cmd_literals (fun t _ => t <> Tarray /\ t <> Tobject)) cs /\ Forall cmd_no_move cs /\
  history [] cs st /\ ~ Forall tag_ok st.
Proof.
  exists self_assign. eexists. splits; [repeat constructor|repeat constructor|unfold self_assign; witness|].
  intros H. inversion_clear H as [|? ? H1 _]. inversion_clear H1 as [| | |? H2|]. inversion_clear H2 as [|? ? H3 _].
  inversion_clear H3 as [| | |? H4|]. inversion_clear H4 as [|? ? H5 _]. inversion H5. congruence.
Qed.
Lemma bad_variant_reached : exists cs st c st', Forall (cmd_literals (fun t _ => t <> Tarray /\ t <> Tobject)) cs /\ Forall cmd_no_move cs /\
  history [] cs st /\ exec c st = Done st' (Throw BadVariant).
Proof.
  exists self_assign. eexists. exists (CAsk (Loc 0 []) (QDumps None)). eexists.
  splits; [repeat constructor|repeat constructor|unfold self_assign; witness|vm_compute; reflexivity].
Qed.
Lemma merge_part_ub : exists cs st dst src st', Forall (cmd_literals (fun t _ => t <> Tarray /\ t <> Tobject)) cs /\ Forall cmd_no_move cs /\
  history [] cs st /\ exec (COr dst src false) st = Done st' Ub.
Proof.
  exists [CNew (EObj [([97], EObj [([97], ENull)])])]. eexists. exists (Loc 0 []), (Loc 0 [Key [97]]). eexists.
  splits; [repeat constructor|repeat constructor|witness|vm_compute; reflexivity].
Qed.
Lemma merge_empty_self_ub : exists cs st dst st', Forall (cmd_literals (fun t _ => t <> Tarray /\ t <> Tobject)) cs /\ Forall cmd_no_move cs /\
  history [] cs st /\ exec (COr dst dst false) st = Done st' Ub.
Proof.
  exists [CNew (EObj [])]. eexists. exists (Loc 0 []). eexists.
  splits; [repeat constructor|repeat constructor|witness|vm_compute; reflexivity].
Qed.
Lemma append_self_ub : exists cs st dst st', Forall (cmd_literals (fun t _ => t <> Tarray /\ t <> Tobject)) cs /\ Forall cmd_no_move cs /\
  history [] cs st /\ exec (CPlus dst dst false) st = Done st' Ub.
Proof.
  exists [CNew (EArr [ENull])]. eexists. exists (Loc 0 []). eexists.
  splits; [repeat constructor|repeat constructor|witness|vm_compute; reflexivity].
Qed.
