(** * Lemmas about containers: copying, maps, sequences, equality, lookups. *)
From Verif Require Import Base Value Containers Dump Api Spec SpecApi BaseProofs.
From Coq Require Import Permutation.

(** ** Copy *)
Lemma copy_elems_id l : Forall (fun v => forall w, copy v = Ok w -> w = v) l -> forall l', copy_elems copy l = Ok l' -> l' = l.
Proof.
  induction 1 as [|v l Hv _ IH]; cbn; intros l' H; [now injection H|].
  apply bind_ok in H as (w & Hw & H). apply bind_ok in H as (r & Hr & H). injection H as <-.
  f_equal; auto.
Qed.
Lemma copy_members_id m : Forall (fun kv => forall w, copy (snd kv) = Ok w -> w = snd kv) m -> forall m', copy_members copy m = Ok m' -> m' = m.
Proof.
  induction 1 as [|(k, v) l Hv _ IH]; cbn; intros l' H; [now injection H|].
  apply bind_ok in H as (w & Hw & H). apply bind_ok in H as (r & Hr & H). injection H as <-.
  cbn in Hv. f_equal; auto. f_equal; auto.
Qed.
Lemma copy_id v : forall w, copy v = Ok w -> w = v.
Proof.
  induction v as [t s|t|t l IH|t|t m IH] using value_ind'; cbn; intros w H; try discriminate; try (now injection H).
  - apply bind_ok in H as (l' & Hl & H). injection H as <-. apply copy_elems_id in Hl; subst; auto.
  - apply bind_ok in H as (l' & Hl & H). injection H as <-. apply copy_members_id in Hl; subst; auto.
Qed.
Lemma copy_elems_owned l : Forall (fun v => copy v = Ok v) l -> copy_elems copy l = Ok l.
Proof. induction 1 as [|v l Hv _ IH]; cbn; [reflexivity|]. now rewrite Hv, IH. Qed.
Lemma copy_members_owned m : Forall (fun kv => copy (snd kv) = Ok (snd kv)) m -> copy_members copy m = Ok m.
Proof. induction 1 as [|(k, v) l Hv _ IH]; cbn; [reflexivity|]. cbn in Hv. now rewrite Hv, IH. Qed.
Lemma copy_owned v : owned v -> copy v = Ok v.
Proof.
  induction v as [t s|t|t l IH|t|t m IH] using value_ind'; intros H; inversion_clear H; cbn; [reflexivity| |].
  - rewrite copy_elems_owned; [reflexivity|]. rewrite Forall_forall in *. auto.
  - rewrite copy_members_owned; [reflexivity|]. rewrite Forall_forall in *. auto.
Qed.
Lemma copy_elems_Ok l : Forall owned l -> copy_elems copy l = Ok l.
Proof. intros H. apply copy_elems_owned. eapply Forall_impl; [|exact H]. intros; now apply copy_owned. Qed.
Lemma copy_members_Ok (m : object) : Forall (fun kv => owned (snd kv)) m -> copy_members copy m = Ok m.
Proof. intros H. apply copy_members_owned. eapply Forall_impl; [|exact H]. intros; now apply copy_owned. Qed.
Lemma copy_elems_eq l l' : copy_elems copy l = Ok l' -> l' = l.
Proof. apply copy_elems_id. apply Forall_forall. intros; now apply copy_id. Qed.
Lemma copy_members_eq m m' : copy_members copy m = Ok m' -> m' = m.
Proof. apply copy_members_id. apply Forall_forall. intros; now apply copy_id. Qed.

(** ** Maps *)
Section Maps.
  Context {A : Type}.
  Implicit Types (m : list (bytes * A)).
  Lemma map_assign_find k v m k' : sorted_keys m ->
    map_find k' (map_assign k v m) = if bytes_eqb k' k then Some v else map_find k' m.
  Proof.
    induction m as [|(k0, v0) m IH]; cbn; intros Hs; [reflexivity|].
    destruct (bytes_ltb k k0) eqn:L; cbn.
    { reflexivity. }
    destruct (bytes_eqb_spec k k0) as [->|Hk]; cbn.
    - destruct (bytes_eqb_spec k' k0); reflexivity.
    - rewrite IH by (eapply sorted_cons_inv; eauto).
      destruct (bytes_eqb_spec k' k0) as [->|]; [|reflexivity].
      destruct (bytes_eqb_spec k0 k) as [->|]; [tauto|reflexivity].
  Qed.
  Lemma map_assign_keys k v m k' : In k' (map fst (map_assign k v m)) -> k' = k \/ In k' (map fst m).
  Proof.
    induction m as [|(k0, v0) m IH]; cbn; [intros [->|[]]; auto|].
    destruct (bytes_ltb k k0); cbn; [intros [->|[->|]]; auto|].
    destruct (bytes_eqb_spec k k0) as [->|]; cbn; [intros [->|]; auto|].
    intros [->|H]; auto. apply IH in H. tauto.
  Qed.
  Lemma map_assign_sorted k v m : sorted_keys m -> sorted_keys (map_assign k v m).
  Proof.
    induction m as [|(k0, v0) m IH]; cbn; intros Hs; [constructor|].
    destruct (bytes_ltb k k0) eqn:L.
    { constructor; auto. now apply bytes_ltb_blt. }
    destruct (bytes_eqb_spec k k0) as [->|Hk].
    - apply sorted_cons; [|eapply sorted_cons_inv; eauto]. intros k' H. eapply sorted_lt; eauto.
    - apply sorted_cons; [|apply IH; eapply sorted_cons_inv; eauto].
      intros k' H. apply map_assign_keys in H. destruct H as [->|H]; [|eapply sorted_lt; eauto].
      apply bytes_ltb_false in L. destruct L; [congruence|auto].
  Qed.
  Lemma map_assign_Forall (P : A -> Prop) k v m : P v -> Forall (fun kv => P (snd kv)) m ->
    Forall (fun kv => P (snd kv)) (map_assign k v m).
  Proof.
    intros Hv. induction 1 as [|(k0, v0) m H0 Hm IH]; cbn; [auto|].
    destruct (bytes_ltb k k0); [auto|]. destruct (bytes_eqb k k0); auto.
  Qed.
  Lemma map_emplace_assign k v m : sorted_keys m ->
    fst (map_emplace k v m) = match map_find k m with Some _ => m | None => map_assign k v m end.
  Proof.
    induction m as [|(k0, v0) m IH]; cbn; intros Hs; [reflexivity|].
    destruct (bytes_ltb k k0) eqn:L.
    - destruct (bytes_eqb_spec k k0) as [->|Hk]; [now rewrite bytes_ltb_irrefl in L|].
      destruct (map_find k m) eqn:F; [|reflexivity]. exfalso.
      apply map_find_in in F. apply (in_map fst) in F. cbn in F.
      eapply blt_irrefl, blt_trans; [apply bytes_ltb_blt; eauto|]. eapply sorted_lt; eauto.
    - destruct (bytes_eqb_spec k k0) as [->|Hk]; [reflexivity|].
      specialize (IH ltac:(eapply sorted_cons_inv; eauto)).
      destruct (map_emplace k v m) as [r b]; cbn in *. rewrite IH.
      destruct (map_find k m); reflexivity.
  Qed.
  Lemma map_emplace_snd k v m : sorted_keys m ->
    snd (map_emplace k v m) = match map_find k m with Some _ => false | None => true end.
  Proof.
    intros Hs. destruct (map_find k m) eqn:F.
    - rewrite map_emplace_old; auto. apply map_find_in in F. now apply (in_map fst) in F.
    - apply map_find_none in F. now rewrite map_emplace_new.
  Qed.
  Lemma map_erase_find k m k' : sorted_keys m ->
    map_find k' (fst (map_erase k m)) = if bytes_eqb k' k then None else map_find k' m.
  Proof.
    induction m as [|(k0, v0) m IH]; cbn; intros Hs; [now destruct (bytes_eqb k' k)|].
    assert (Hs' := Hs). apply sorted_cons_inv in Hs'.
    destruct (bytes_eqb_spec k k0) as [->|Hk]; cbn.
    - clear IH. destruct (bytes_eqb_spec k' k0) as [E|]; [subst k'|reflexivity].
      apply map_find_none. apply sorted_NoDup in Hs. now inversion Hs.
    - specialize (IH Hs'). destruct (map_erase k m) as [r b]; cbn in *. rewrite IH.
      destruct (bytes_eqb_spec k' k0) as [->|]; [|reflexivity].
      destruct (bytes_eqb_spec k0 k) as [->|]; [tauto|reflexivity].
  Qed.
  Lemma map_erase_snd k m : snd (map_erase k m) = match map_find k m with Some _ => true | None => false end.
  Proof.
    induction m as [|(k0, v0) m IH]; cbn; [reflexivity|].
    destruct (bytes_eqb k k0); [reflexivity|]. destruct (map_erase k m); cbn in *. auto.
  Qed.
  Lemma map_erase_incl k m x : In x (fst (map_erase k m)) -> In x m.
  Proof.
    induction m as [|(k0, v0) m IH]; cbn; [tauto|].
    destruct (bytes_eqb k k0); cbn; [auto|]. destruct (map_erase k m); cbn in *. intuition.
  Qed.
  Lemma map_erase_sorted k m : sorted_keys m -> sorted_keys (fst (map_erase k m)).
  Proof.
    induction m as [|(k0, v0) m IH]; cbn; intros Hs; [auto|].
    assert (Hs' := Hs). apply sorted_cons_inv in Hs'.
    destruct (bytes_eqb k k0); cbn; [auto|].
    pose proof (map_erase_incl k m) as Hi.
    destruct (map_erase k m) as [r b]; cbn in *. apply sorted_cons; auto.
    intros k' H. apply in_map_iff in H as ((k1, v1) & <- & H). eapply sorted_lt; eauto.
    change k1 with (fst (k1, v1)). apply in_map, Hi, H.
  Qed.
  Lemma map_erase_none k m : map_find k m = None -> map_erase k m = (m, false).
  Proof.
    induction m as [|(k0, v0) m IH]; cbn; [reflexivity|].
    destruct (bytes_eqb k k0); [discriminate|]. intros H. now rewrite IH.
  Qed.
  Lemma map_emplace_sorted k v m : sorted_keys m -> sorted_keys (fst (map_emplace k v m)).
  Proof. intros H. rewrite map_emplace_assign by auto. destruct (map_find k m); auto using map_assign_sorted. Qed.
  Lemma map_emplace_find k v m k' : sorted_keys m ->
    map_find k' (fst (map_emplace k v m)) =
    if bytes_eqb k' k then Some (match map_find k m with Some x => x | None => v end) else map_find k' m.
  Proof.
    intros H. rewrite map_emplace_assign by auto. destruct (map_find k m) eqn:F.
    - destruct (bytes_eqb_spec k' k) as [->|]; auto.
    - now apply map_assign_find.
  Qed.
  Lemma map_emplace_Forall (P : A -> Prop) k v m : P v -> Forall (fun kv => P (snd kv)) m ->
    Forall (fun kv => P (snd kv)) (fst (map_emplace k v m)).
  Proof.
    intros Hv. induction 1 as [|(k0, v0) m H0 Hm IH]; cbn; [auto|].
    destruct (bytes_ltb k k0); [cbn; auto|]. destruct (bytes_eqb k k0); [cbn; auto|].
    destruct (map_emplace k v m); cbn in *. auto.
  Qed.
  Lemma map_find_ext m : forall m', sorted_keys m -> sorted_keys m' -> (forall k, map_find k m = map_find k m') -> m = m'.
  Proof.
    intros m' Hs Hs' H. apply sorted_perm_eq; auto.
    apply Permutation.NoDup_Permutation.
    - eapply NoDup_map_inv, sorted_NoDup; eauto.
    - eapply NoDup_map_inv, sorted_NoDup; eauto.
    - intros (k, v). rewrite <- !map_find_some by (now apply sorted_NoDup). now rewrite H.
  Qed.
  (** folding insert_or_assign over the members of a map *)
  Definition merge_fold m m' := fold_left (fun a kv => map_assign (fst kv) (snd kv) a) m' m.
  Lemma merge_fold_sorted m' : forall m, sorted_keys m -> sorted_keys (merge_fold m m').
  Proof.
    induction m' as [|(k, v) m' IH]; cbn; intros m H; [auto|]. apply IH. now apply map_assign_sorted.
  Qed.
  Lemma merge_fold_find m' : forall m k, sorted_keys m -> NoDup (map fst m') ->
    map_find k (merge_fold m m') = match map_find k m' with Some v => Some v | None => map_find k m end.
  Proof.
    induction m' as [|(k0, v0) m' IH]; cbn; intros m k Hs Hn; [reflexivity|].
    inversion_clear Hn as [|? ? Hk Hn']. unfold merge_fold in IH.
    rewrite IH by auto using map_assign_sorted.
    rewrite map_assign_find by auto.
    destruct (bytes_eqb_spec k k0) as [->|]; [|reflexivity].
    destruct (map_find k0 m') eqn:F; [|reflexivity]. exfalso. apply Hk.
    apply map_find_in in F. now apply (in_map fst) in F.
  Qed.
End Maps.
Lemma merge_object_fold src : forall dst, Forall (fun kv => owned (snd kv)) src -> merge_object dst src = Ok (merge_fold dst src).
Proof.
  induction src as [|(k, v) src IH]; cbn; intros dst H; [reflexivity|].
  inversion_clear H as [|? ? Hv Hs]. cbn in Hv. rewrite copy_owned by auto. cbn. now rewrite IH.
Qed.

(** ** C18 *)
Lemma obj_emplace_fst k v m : fst (obj_emplace k v m) = map_assign k v m.
Proof. reflexivity. Qed.
Lemma emplace_fold l : forall m, fold_left (fun acc kv => fst (obj_emplace (fst kv) (snd kv) acc)) l m = merge_fold m l.
Proof. induction l as [|(k, v) l IH]; intros m; cbn [fold_left merge_fold]; [reflexivity|]. rewrite IH. reflexivity. Qed.
Lemma map_find_perm {A} (m m' : list (bytes * A)) k : NoDup (map fst m) -> Permutation m m' -> map_find k m = map_find k m'.
Proof.
  intros H P. assert (H' : NoDup (map fst m')) by (eapply Permutation_NoDup; [apply Permutation_map, P|exact H]).
  destruct (map_find k m) as [v|] eqn:E.
  - apply map_find_some in E; auto. symmetry. apply map_find_some; auto. eapply Permutation_in; eauto.
  - symmetry. destruct (map_find k m') as [v|] eqn:E'; auto. apply map_find_some in E'; auto.
    apply (Permutation_in _ (Permutation_sym P)) in E'. apply map_find_some in E'; auto. congruence.
Qed.
Lemma emplace_order_independent (m m' : list (bytes * value)) n : NoDup (map fst m) -> Permutation m m' ->
  object_dumps n (fold_left (fun acc kv => fst (obj_emplace (fst kv) (snd kv) acc)) m []) =
  object_dumps n (fold_left (fun acc kv => fst (obj_emplace (fst kv) (snd kv) acc)) m' []).
Proof.
  intros H P. rewrite !emplace_fold. f_equal. apply map_find_ext; try (apply merge_fold_sorted; constructor).
  intros k. assert (H' : NoDup (map fst m')) by (eapply Permutation_NoDup; [apply Permutation_map, P|exact H]).
  rewrite !merge_fold_find; auto; try constructor. now rewrite (map_find_perm m m' k H P).
Qed.

(** ** C23 *)
Lemma f_set_spec k x f k' : f_set k x f k' = if bytes_eqb k' k then x else f k'.
Proof.
  unfold f_set. destruct (list_eq_dec N.eq_dec k k') as [->|H]; [now rewrite bytes_eqb_refl|].
  destruct (bytes_eqb_spec k' k) as [->|]; [tauto|reflexivity].
Qed.
Definition rep (m : object) (f : fmap) : Prop := sorted_keys m /\ forall k, map_find k m = f k.
Lemma rep_represents m f : rep m f -> represents m f.
Proof.
  intros [Hs Hf]. unfold represents, obj_find_value, obj_contains, obj_exists, obj_contains, obj_at, has.
  assert (Hin : forall k v, In (k, v) m <-> f k = Some v).
  { intros k v. rewrite <- Hf. symmetry. apply map_find_some. now apply sorted_NoDup. }
  splits; auto; try (intros k; now rewrite Hf).
  - unfold obj_empty. split.
    + intros H k. destruct m; [|discriminate]. now rewrite <- Hf.
    + intros H. destruct m as [|(k, v) m]; [reflexivity|]. specialize (Hf k). cbn in Hf.
      rewrite bytes_eqb_refl, H in Hf. discriminate.
  - exists (map fst m). splits.
    + now apply sorted_NoDup.
    + intros k. rewrite <- Hf. pose proof (map_find_none k m) as H. destruct (map_find k m).
      * split; [discriminate|]. intros _. destruct (in_dec bytes_eq_dec k (map fst m)); auto.
        apply H in n. discriminate.
      * split; [intros G; now apply H in G|congruence].
    + unfold obj_size, size. now rewrite map_length.
Qed.
Lemma obj_do_rep o m f : obj_op_ok o -> rep m f ->
  exists m', obj_do o m = Ok (m', snd (f_do o f)) /\ rep m' (fst (f_do o f)).
Proof.
  intros Ho [Hs Hf]. destruct o as [k v|k|k|k| |r mv]; cbn [obj_do f_do fst snd].
  - unfold obj_emplace, obj_contains. rewrite Hf. eexists. split; [reflexivity|]. split.
    + now apply map_assign_sorted.
    + intros k'. rewrite map_assign_find, f_set_spec by auto. now rewrite Hf.
  - eexists. split; [reflexivity|]. unfold obj_index. split; [now apply map_emplace_sorted|].
    intros k'. rewrite map_emplace_find by auto. unfold has. rewrite <- (Hf k).
    destruct (map_find k m) eqn:F.
    + destruct (bytes_eqb_spec k' k) as [->|]; [now rewrite <- Hf|apply Hf].
    + rewrite f_set_spec. now rewrite Hf.
  - exists (fst (map_erase k m)). unfold obj_erase. split.
    + rewrite (surjective_pairing (map_erase k m)) at 1. rewrite map_erase_snd, Hf. reflexivity.
    + split; [now apply map_erase_sorted|]. intros k'. rewrite map_erase_find, f_set_spec by auto. now rewrite Hf.
  - unfold obj_erase_iter, obj_contains, has. rewrite Hf. destruct (f k) eqn:F.
    + exists (fst (map_erase k m)). split; [reflexivity|]. split; [now apply map_erase_sorted|].
      intros k'. rewrite map_erase_find, f_set_spec by auto. now rewrite Hf.
    + exists m. split; [reflexivity|]. split; [exact Hs|]. intros k'. rewrite f_set_spec, Hf.
      destruct (bytes_eqb_spec k' k) as [->|]; [exact F|reflexivity].
  - eexists. split; [reflexivity|]. split; [constructor|reflexivity].
  - destruct Ho as [Hr Ho]. exists (merge_fold m r). split.
    + destruct mv; [reflexivity|]. unfold obj_or_assign_c. rewrite merge_object_fold by auto. reflexivity.
    + split; [now apply merge_fold_sorted|]. intros k. unfold f_over, pairs.
      rewrite merge_fold_find by (auto using sorted_NoDup). now rewrite Hf.
Qed.
Lemma obj_run_rep os : forall m f, Forall obj_op_ok os -> rep m f ->
  exists m', obj_run os m = Ok (m', snd (f_run os f)) /\ rep m' (fst (f_run os f)).
Proof.
  induction os as [|o os IH]; intros m f Ho Hr; cbn [obj_run f_run]; [exists m; auto|].
  inversion_clear Ho as [|? ? H1 H2]. destruct (obj_do_rep o m f H1 Hr) as (m1 & E1 & R1).
  destruct (f_do o f) as [f1 b]. cbn [fst snd] in *. rewrite E1. cbn [bind].
  destruct (IH m1 f1 H2 R1) as (m2 & E2 & R2). rewrite E2. destruct (f_run os f1) as [f2 bs].
  cbn [fst snd bind] in *. eauto.
Qed.
Lemma object_refines os : Forall obj_op_ok os ->
  exists m, obj_run os [] = Ok (m, snd (f_run os f_empty)) /\ represents m (fst (f_run os f_empty)).
Proof.
  intros H. destruct (obj_run_rep os [] f_empty H) as (m & E & R).
  - split; [constructor|reflexivity].
  - exists m. split; [exact E|now apply rep_represents].
Qed.
Lemma object_refines_from m0 f0 os : represents m0 f0 -> Forall obj_op_ok os ->
  exists m, obj_run os m0 = Ok (m, snd (f_run os f0)) /\ represents m (fst (f_run os f0)).
Proof.
  intros R0 H. destruct (obj_run_rep os m0 f0 H) as (m & E & R).
  - destruct R0 as (F & _ & _ & _ & _ & _ & _ & K). split; [exact K|exact F].
  - exists m. split; [exact E|now apply rep_represents].
Qed.
Lemma object_of_list l : exists m, obj_of_list l = m /\ represents m (fold_left (fun f kv => if has f (fst kv) then f else f_set (fst kv) (Some (snd kv)) f) l f_empty).
Proof.
  eexists. split; [reflexivity|]. unfold obj_of_list. apply rep_represents.
  assert (H : rep (@nil (bytes * value)) f_empty) by (split; [constructor|reflexivity]).
  revert H. generalize (@nil (bytes * value)) as m. generalize f_empty as f. induction l as [|(k, v) l IH]; cbn; intros f m [Hs Hf]; [now split|].
  apply IH. split; [now apply map_emplace_sorted|]. intros k'. rewrite map_emplace_find by auto.
  unfold has. rewrite <- (Hf k). destruct (map_find k m) eqn:F.
  - destruct (bytes_eqb_spec k' k) as [->|]; [now rewrite <- Hf|apply Hf].
  - rewrite f_set_spec. now rewrite Hf.
Qed.

(** ** C24 *)
Definition arep (l : array) (a : aseq) : Prop := size l = len a /\ forall i, nth_error l (N.to_nat i) = elt a i.
Lemma arep_represents l a : arep l a -> arr_represents l a.
Proof.
  intros [Hl He]. unfold arr_represents, arr_size, arr_contains, arr_exists, arr_contains, arr_find_value, arr_contains, arr_at, arr_index, nthN.
  rewrite Hl. assert (Hn : forall p, (p <? len a) = false -> elt a p = None).
  { intros p Hp. rewrite <- He. apply nth_error_None. unfold size in Hl. lia. }
  splits; auto.
  - unfold arr_empty. split; [destruct l; [cbn in Hl; lia|discriminate]|]. intros H. destruct l; [auto|]. unfold size in Hl. cbn in Hl. lia.
  - intros p. rewrite He. destruct (p <? len a) eqn:E; [reflexivity|]. now rewrite Hn.
  - intros p. rewrite He. destruct (p <? len a) eqn:E; [reflexivity|]. now rewrite Hn.
  - intros p Hp. replace (p <? len a) with true by lia. rewrite He.
    destruct (elt a p) eqn:E; [eauto|]. rewrite <- He in E. apply nth_error_None in E. unfold size in Hl. lia.
  - intros n. rewrite <- He. f_equal. lia.
Qed.
Lemma nth_error_remove {A} (l : list A) : forall n i, nth_error (remove_nth l n) i = if (i <? n)%nat then nth_error l i else nth_error l (S i).
Proof.
  induction l as [|x l IH]; intros n i.
  - replace (remove_nth (@nil A) n) with (@nil A) by now destruct n.
    assert (H : forall k, nth_error (@nil A) k = None) by (intros []; reflexivity). rewrite !H. now destruct (i <? n)%nat.
  - destruct n as [|n]; [reflexivity|]. destruct i as [|i]; [reflexivity|]. cbn [remove_nth nth_error]. rewrite IH.
    destruct (Nat.ltb_spec i n), (Nat.ltb_spec (S i) (S n)); try lia; reflexivity.
Qed.
Lemma length_remove {A} (l : list A) : forall n, (n < length l)%nat -> length (remove_nth l n) = pred (length l).
Proof.
  induction l as [|x l IH]; intros [|n]; cbn; intros H; try lia. rewrite IH by lia. lia.
Qed.
Lemma arr_erase_spec p l : arr_erase p l = (if p <? size l then remove_nth l (N.to_nat p) else l, p <? size l).
Proof.
  unfold arr_erase, arr_erase_iter. destruct (N.leb_spec (size l) p), (N.ltb_spec p (size l)); try lia; [reflexivity|].
  destruct (N.eqb_spec p (size l)); [lia|reflexivity].
Qed.
Lemma arr_erase_iter_spec p l : p <= size l -> arr_erase_iter p l = (if p <? size l then remove_nth l (N.to_nat p) else l, p <? size l).
Proof.
  intros H. unfold arr_erase_iter. destruct (N.eqb_spec p (size l)), (N.ltb_spec p (size l)); try lia; reflexivity.
Qed.
Lemma arep_erase p l a : arep l a -> arep (if p <? size l then remove_nth l (N.to_nat p) else l) (s_erase p a).
Proof.
  intros [Hl He]. unfold s_erase. rewrite <- Hl. destruct (N.ltb_spec p (size l)) as [H|H]; [|now split].
  split; cbn [len elt].
  - unfold size in *. rewrite length_remove by lia. lia.
  - intros i. rewrite nth_error_remove. destruct (N.ltb_spec i p), (Nat.ltb_spec (N.to_nat i) (N.to_nat p)); try lia; [apply He|].
    rewrite <- He. f_equal. lia.
Qed.
Lemma arep_app l l' a : arep l a -> arep (l ++ l') (s_append a (seq_of l')).
Proof.
  intros [Hl He]. split; cbn [s_append len elt seq_of].
  - unfold size in *. rewrite app_length. lia.
  - intros i. destruct (N.ltb_spec i (len a)); unfold size in Hl.
    + rewrite nth_error_app1 by lia. apply He.
    + rewrite nth_error_app2 by lia. f_equal. lia.
Qed.
Lemma arr_do_rep o l a : arr_ops_ok [o] a -> arep l a ->
  exists l', arr_do o l = Ok (l', snd (s_do o a)) /\ arep l' (fst (s_do o a)).
Proof.
  intros [Ho _] Hr. assert (Hl := proj1 Hr). destruct o as [v|p|p| |r mv]; cbn [arr_do s_do fst snd].
  - eexists. split; [reflexivity|]. unfold arr_emplace_back.
    destruct (arep_app l [v] a Hr) as [H1 H2]. split; [exact H1|]. intros i. rewrite H2. cbn.
    destruct (N.ltb_spec i (len a)); [reflexivity|]. destruct (N.eqb_spec i (len a)) as [->|].
    + now rewrite N.sub_diag.
    + destruct (N.to_nat (i - len a)) as [|[|]] eqn:E; [lia|reflexivity|reflexivity].
  - rewrite arr_erase_spec, <- Hl. eexists. split; [reflexivity|]. now apply arep_erase.
  - rewrite Hl. replace (len a <? p) with false by lia. rewrite arr_erase_iter_spec, <- Hl by lia.
    eexists. split; [reflexivity|]. now apply arep_erase.
  - eexists. split; [reflexivity|]. split; [reflexivity|]. intros i. cbn. now destruct (N.to_nat i).
  - exists (l ++ r). split; [|now apply arep_app]. destruct mv; [reflexivity|].
    unfold arr_plus_assign_c, append_array. rewrite copy_elems_Ok by auto. reflexivity.
Qed.
Lemma arr_run_rep os : forall l a, arr_ops_ok os a -> arep l a ->
  exists l', arr_run os l = Ok (l', snd (s_run os a)) /\ arep l' (fst (s_run os a)).
Proof.
  induction os as [|o os IH]; intros m f Ho Hr; cbn [arr_run s_run]; [exists m; auto|].
  destruct Ho as [H1 H2]. destruct (arr_do_rep o m f (conj H1 I) Hr) as (m1 & E1 & R1).
  destruct (s_do o f) as [f1 b]. cbn [fst snd] in *. rewrite E1. cbn [bind].
  destruct (IH m1 f1 H2 R1) as (m2 & E2 & R2). rewrite E2. destruct (s_run os f1) as [f2 bs].
  cbn [fst snd bind] in *. eauto.
Qed.
Lemma array_refines os : arr_ops_ok os s_empty ->
  exists l, arr_run os [] = Ok (l, snd (s_run os s_empty)) /\ arr_represents l (fst (s_run os s_empty)).
Proof.
  intros H. destruct (arr_run_rep os [] s_empty H) as (m & E & R).
  - split; [reflexivity|]. intros i. cbn. now destruct (N.to_nat i).
  - exists m. split; [exact E|now apply arep_represents].
Qed.
Lemma array_refines_from l0 os : arr_ops_ok os (seq_of l0) ->
  exists l, arr_run os l0 = Ok (l, snd (s_run os (seq_of l0))) /\ arr_represents l (fst (s_run os (seq_of l0))).
Proof.
  intros H. destruct (arr_run_rep os l0 (seq_of l0) H) as (m & E & R).
  - split; [reflexivity|]. intros i. reflexivity.
  - exists m. split; [exact E|now apply arep_represents].
Qed.
Lemma array_of_size n : arr_represents (arr_of_size n) (Seq n (fun i => if i <? n then Some v_null else None)).
Proof.
  apply arep_represents. unfold arr_of_size. split; cbn [len elt].
  - unfold size. rewrite repeat_length. lia.
  - intros i. destruct (N.ltb_spec i n).
    + apply nth_error_repeat. lia.
    + apply nth_error_None. rewrite repeat_length. lia.
Qed.
Lemma erase_out_of_range p l : arr_size l <= p -> arr_erase p l = (l, false).
Proof. intros H. unfold arr_size in H. rewrite arr_erase_spec. now replace (p <? size l) with false by lia. Qed.

(** ** C25 *)
Lemma or_overloads a b : good_object a -> good_object b ->
  obj_or_cc a b = Ok (merge_fold a b) /\ obj_or_cm a b = Ok (merge_fold a b) /\ obj_or_mc a b = Ok (merge_fold a b) /\
  obj_or_mm a b = Ok (merge_fold a b) /\ obj_or_assign_c a b = Ok (merge_fold a b) /\ obj_or_assign_m a b = Ok (merge_fold a b).
Proof.
  intros [Sa Oa] [Sb Ob]. unfold obj_or_cc, obj_or_cm, obj_or_mc, obj_or_assign_c.
  rewrite copy_members_Ok by auto. cbn [bind]. rewrite !merge_object_fold by auto. splits.
Qed.
Lemma merge_fold_Forall {A} (P : A -> Prop) m' : forall m, Forall (fun kv => P (snd kv)) m -> Forall (fun kv => P (snd kv)) m' ->
  Forall (fun kv => P (snd kv)) (merge_fold m m').
Proof.
  induction m' as [|(k, v) m' IH]; cbn; intros m H H'; [auto|]. inversion_clear H' as [|? ? H1 H2].
  apply IH; auto. now apply map_assign_Forall.
Qed.
Lemma good_merge a b : good_object a -> good_object b -> good_object (merge_fold a b).
Proof. intros [] []. split; [now apply merge_fold_sorted|now apply merge_fold_Forall]. Qed.
Lemma merge_lookup a b : good_object a -> good_object b ->
  exists m, obj_or_cc a b = Ok m /\ good_object m /\
  forall k, obj_find_value k m = match obj_find_value k b with Some v => Some v | None => obj_find_value k a end.
Proof.
  intros Ha Hb. destruct (or_overloads a b Ha Hb) as (-> & _). eexists. split; [reflexivity|].
  split; [now apply good_merge|]. intros k. destruct Ha, Hb. apply merge_fold_find; auto using sorted_NoDup.
Qed.
Lemma merge_overloads_agree a b : good_object a -> good_object b ->
  obj_or_cm a b = obj_or_cc a b /\ obj_or_mc a b = obj_or_cc a b /\ obj_or_mm a b = obj_or_cc a b /\
  obj_or_assign_c a b = obj_or_cc a b /\ obj_or_assign_m a b = obj_or_cc a b.
Proof. intros Ha Hb. destruct (or_overloads a b Ha Hb) as (-> & -> & -> & -> & -> & ->). splits. Qed.
Lemma merge_assoc a b c : good_object a -> good_object b -> good_object c ->
  exists ab bc abc, obj_or_cc a b = Ok ab /\ obj_or_cc b c = Ok bc /\ obj_or_cc ab c = Ok abc /\ obj_or_cc a bc = Ok abc.
Proof.
  intros Ha Hb Hc. exists (merge_fold a b), (merge_fold b c), (merge_fold (merge_fold a b) c).
  destruct (or_overloads a b Ha Hb) as (-> & _). destruct (or_overloads b c Hb Hc) as (-> & _).
  assert (Hab := good_merge a b Ha Hb). assert (Hbc := good_merge b c Hb Hc).
  destruct (or_overloads _ c Hab Hc) as (-> & _). destruct (or_overloads a _ Ha Hbc) as (-> & _).
  splits. f_equal. destruct Ha, Hb, Hc. symmetry. apply map_find_ext; try (repeat apply merge_fold_sorted; auto; fail).
  intros k. rewrite !merge_fold_find; auto using sorted_NoDup, merge_fold_sorted. destruct (map_find k c); reflexivity.
Qed.
Lemma merge_unit a : good_object a -> obj_or_cc a [] = Ok a /\ obj_or_cc [] a = Ok a.
Proof.
  intros Ha. assert (He : good_object []) by (split; constructor).
  destruct (or_overloads a [] Ha He) as (-> & _). destruct (or_overloads [] a He Ha) as (-> & _). split; [reflexivity|].
  f_equal. destruct Ha. apply map_find_ext; auto.
  - apply merge_fold_sorted. constructor.
  - intros k. rewrite merge_fold_find; auto using sorted_NoDup; [|constructor]. cbn. now destruct (map_find k a).
Qed.
Lemma plus_overloads a b : Forall owned a -> Forall owned b ->
  arr_plus_cc a b = Ok (a ++ b) /\ arr_plus_cm a b = Ok (a ++ b) /\ arr_plus_mc a b = Ok (a ++ b) /\
  arr_plus_mm a b = Ok (a ++ b) /\ arr_plus_assign_c a b = Ok (a ++ b) /\ arr_plus_assign_m a b = Ok (a ++ b).
Proof.
  intros Ha Hb. unfold arr_plus_cc, arr_plus_cm, arr_plus_mc, arr_plus_mm, arr_plus_assign_c, arr_plus_assign_m, append_array.
  rewrite !copy_elems_Ok by auto. splits.
Qed.
Lemma value_overloads m m' : good_object m -> good_object m' ->
  exists r, obj_or_cc m m' = Ok r /\
  v_or_cc (v_object m) m' = Ok (v_object r) /\ v_or_cm (v_object m) m' = Ok (v_object r) /\
  v_or_mc (v_object m) m' = Ok (v_object r) /\ v_or_mm (v_object m) m' = Ok (v_object r) /\
  v_or_assign_c m' (v_object m) = (v_object r, Ok tt) /\ v_or_assign_m m' (v_object m) = (v_object r, Ok tt).
Proof.
  intros Ha Hb. exists (merge_fold m m'). destruct (or_overloads m m' Ha Hb) as (E1 & E2 & E3 & E4 & E5 & E6).
  unfold v_or_cc, v_or_cm, v_or_mc, v_or_mm, v_or_assign_c, v_or_assign_m, on_object, as_object_m, coerce.
  destruct m as [|kv m]; cbn [v_object v_empty type_of get_obj bind obj_empty is_nil is_object vtype_eqb as_object_c snd];
  rewrite ?E1, ?E2, ?E3, ?E4, ?E5, ?E6; splits.
Qed.
Lemma value_plus_overloads a b : Forall owned a -> Forall owned b ->
  v_plus_cc (v_array a) b = Ok (v_array (a ++ b)) /\ v_plus_cm (v_array a) b = Ok (v_array (a ++ b)) /\
  v_plus_mc (v_array a) b = Ok (v_array (a ++ b)) /\ v_plus_mm (v_array a) b = Ok (v_array (a ++ b)) /\
  v_plus_assign_c b (v_array a) = (v_array (a ++ b), Ok tt) /\ v_plus_assign_m b (v_array a) = (v_array (a ++ b), Ok tt).
Proof.
  intros Ha Hb. destruct (plus_overloads a b Ha Hb) as (E1 & E2 & E3 & E4 & E5 & E6).
  unfold v_plus_cc, v_plus_cm, v_plus_mc, v_plus_mm, v_plus_assign_c, v_plus_assign_m, on_array, as_array_m, coerce.
  destruct a as [|x a]; cbn [v_array v_empty type_of get_arr bind arr_empty is_nil is_array vtype_eqb as_array_c snd];
  rewrite ?E1, ?E2, ?E3, ?E4, ?E5, ?E6; splits.
Qed.
(** the rvalue overloads convert an empty left operand, the lvalue ones throw *)
Lemma value_overloads_differ : v_or_cc v_null [] = Throw JsonException /\ v_or_mc v_null [] = Ok (v_object []) /\
  v_plus_cc (v_string []) [] = Throw JsonException /\ v_plus_mc (v_string []) [] = Ok (v_array []).
Proof. splits. Qed.

(** ** C27 *)
Lemma lookup_key v : tag_ok v -> owned v -> keys_ok v -> forall k, exists r,
  v_find_value_key k v = Ok r /\
  (forall x, r = Some x <-> exists m, v = VObj Tobject (Some m) /\ In (k, x) m) /\
  v_contains_key k v = Ok (match r with Some _ => true | None => false end) /\
  v_exists_key k v = Ok (match r with Some _ => true | None => false end) /\
  v_at_key k v = match r with
                 | Some x => Ok x
                 | None => if is_object v then Throw OutOfRange else Throw JsonException
                 end.
Proof.
  intros Ht Ho Hk k. destruct Ht as [t s Ha Hb|l Hl| |m Hm| ]; [| |inversion Ho| |inversion Ho].
  - exists None. unfold v_find_value_key, v_exists_key, v_contains_key, v_at_key, as_object_c, is_object. cbn [type_of].
    assert (vtype_eqb t Tobject = false) as -> by (destruct t; try reflexivity; congruence). splits.
    intros x; split; [discriminate|intros (m & E & _); discriminate].
  - exists None. splits. intros x; split; [discriminate|intros (m & E & _); discriminate].
  - exists (map_find k m). inversion_clear Hk as [| | |? ? Hf Hs|]. splits.
    + intros x. rewrite map_find_some by (now apply sorted_NoDup). split; [eauto|]. intros (m' & [= <-] & H). exact H.
Qed.
Lemma lookup_pos v : tag_ok v -> owned v -> forall p, exists r,
  v_find_value_pos p v = Ok r /\
  (forall x, r = Some x <-> exists l, v = VArr Tarray (Some l) /\ nth_error l (N.to_nat p) = Some x) /\
  v_contains_pos p v = Ok (match r with Some _ => true | None => false end) /\
  v_exists_pos p v = Ok (match r with Some _ => true | None => false end) /\
  v_at_pos p v = match r with
                 | Some x => Ok x
                 | None => if is_array v then Throw OutOfRange else Throw JsonException
                 end /\
  (forall x, r = Some x -> v_index_c p v = Ok x).
Proof.
  intros Ht Ho p. destruct Ht as [t s Ha Hb|l Hl| |m Hm| ]; [| |inversion Ho| |inversion Ho].
  - exists None. unfold v_find_value_pos, v_exists_pos, v_contains_pos, v_at_pos, as_array_c, is_array. cbn [type_of].
    assert (vtype_eqb t Tarray = false) as -> by (destruct t; try reflexivity; congruence). splits; try discriminate.
    intros x; split; [discriminate|intros (m & E & _); discriminate].
  - exists (nthN l p).
    assert (Hp : nthN l p = nth_error l (N.to_nat p)).
    { unfold nthN. destruct (N.ltb_spec p (size l)); [reflexivity|]. symmetry. apply nth_error_None. unfold size in *. lia. }
    assert (Hc : arr_contains p l = match nthN l p with Some _ => true | None => false end).
    { unfold arr_contains. rewrite Hp. unfold size. destruct (nth_error l (N.to_nat p)) eqn:E.
      - assert (N.to_nat p < length l)%nat by (apply nth_error_Some; congruence). lia.
      - apply nth_error_None in E. lia. }
    splits.
    + cbn. unfold arr_find_value. rewrite Hc. now destruct (nthN l p).
    + intros x. rewrite Hp. split; [eauto|]. intros (m' & [= <-] & H). exact H.
    + cbn. now rewrite Hc.
    + unfold v_exists_pos. cbn. now rewrite Hc.
    + intros x Hx. cbn. unfold arr_index. now rewrite Hx.
  - exists None. splits; try discriminate. intros x; split; [discriminate|intros (m' & E & _); discriminate].
Qed.

(** ** C36 *)
Lemma same_value_refl v : comparable v -> same_value v v.
Proof.
  induction v as [t s|t|t l IH|t|t m IH] using value_ind'; intros H; inversion_clear H; constructor; auto.
  - match goal with H : Forall comparable _ |- _ => revert IH H end. clear. induction l; intros IH H; constructor; inversion_clear IH; inversion_clear H; auto.
  - match goal with H : Forall _ m |- _ => revert H end. revert IH. clear. induction m; intros IH H; constructor; inversion_clear IH; inversion_clear H; auto.
Qed.
Lemma same_value_sym v : forall w, same_value v w -> same_value w v.
Proof.
  induction v as [t s|t|t l IH|t|t m IH] using value_ind'; intros w H; inversion H; subst; constructor; auto.
  - match goal with H : Forall2 _ _ _ |- _ => revert IH H end. clear. intros IH H. induction H; constructor; inversion_clear IH; auto.
  - match goal with H : Forall2 _ _ _ |- _ => revert IH H end. clear. intros IH H. induction H as [|? ? ? ? [? ?]]; constructor; inversion_clear IH; auto.
Qed.
Lemma Forall2_trans {A} (R : A -> A -> Prop) a : Forall (fun x => forall y z, R x y -> R y z -> R x z) a ->
  forall b c, Forall2 R a b -> Forall2 R b c -> Forall2 R a c.
Proof.
  induction 1 as [|x a Hx _ IH]; intros b c H G; inversion H; subst; inversion G; subst; constructor; eauto.
Qed.
Lemma same_value_trans v : forall w x, same_value v w -> same_value w x -> same_value v x.
Proof.
  induction v as [t s|t|t l IH|t|t m IH] using value_ind'; intros w x H G; inversion H; subst; inversion G; subst; constructor; auto.
  - eapply Forall2_trans; eauto.
  - eapply Forall2_trans; eauto. eapply Forall_impl; [|exact IH]. intros a Ha y z [] []. split; [congruence|eauto].
Qed.
Lemma vtype_eqb_eq a b : vtype_eqb a b = true <-> a = b.
Proof. destruct a, b; cbn; split; congruence. Qed.
Lemma eq_elems_spec l : Forall (fun v => forall w, comparable w -> exists b, v_eq v w = Ok b /\ (b = true <-> same_value v w)) l ->
  forall r, Forall comparable r -> length l = length r -> exists b, eq_elems v_eq l r = Ok b /\ (b = true <-> Forall2 same_value l r).
Proof.
  induction 1 as [|v l Hv _ IH]; intros r Hr Hlen.
  - destruct r; [|discriminate]. exists true. cbn. splits. split; auto.
  - destruct r as [|w r]; [discriminate|]. inversion_clear Hr as [|? ? Hw Hr']. cbn.
    destruct (Hv w Hw) as (b & -> & Hb). cbn [bind]. destruct b.
    + destruct (IH r Hr' ltac:(now injection Hlen)) as (b & -> & Hb'). exists b. splits. rewrite Hb'.
      split; [intros; constructor; auto; now apply Hb|now inversion 1].
    + exists false. splits. split; [discriminate|]. inversion 1; subst. now apply Hb.
Qed.
Lemma eq_members_spec l : Forall (fun kv => forall w, comparable w -> exists b, v_eq (snd kv) w = Ok b /\ (b = true <-> same_value (snd kv) w)) l ->
  forall r : object, Forall (fun kv => comparable (snd kv)) r -> length l = length r ->
  exists b, eq_members v_eq l r = Ok b /\ (b = true <-> Forall2 (fun a b => fst a = fst b /\ same_value (snd a) (snd b)) l r).
Proof.
  induction 1 as [|(k, v) l Hv _ IH]; intros r Hr Hlen.
  - destruct r; [|discriminate]. exists true. cbn. splits. split; auto.
  - destruct r as [|(k', w) r]; [discriminate|]. inversion_clear Hr as [|? ? Hw Hr']. cbn.
    destruct (bytes_eqb_spec k k') as [->|Hk].
    + cbn in Hv, Hw. destruct (Hv w Hw) as (b & -> & Hb). cbn [bind]. destruct b.
      * destruct (IH r Hr' ltac:(now injection Hlen)) as (b & -> & Hb'). exists b. splits. rewrite Hb'.
        split; [intros; constructor; auto; split; auto; now apply Hb|now inversion 1].
      * exists false. splits. split; [discriminate|]. inversion 1 as [|? ? ? ? [? ?]]; subst. now apply Hb.
    + exists false. splits. split; [discriminate|]. inversion 1 as [|? ? ? ? [? ?]]; subst. tauto.
Qed.
Lemma Forall2_len {A B} (R : A -> B -> Prop) l l' : Forall2 R l l' -> length l = length l'.
Proof. induction 1; cbn; congruence. Qed.
Lemma v_eq_spec v : comparable v -> forall w, comparable w -> exists b, v_eq v w = Ok b /\ (b = true <-> same_value v w).
Proof.
  induction v as [t s|t|t l IH|t|t m IH] using value_ind'; intros Hv w Hw; inversion Hv; subst.
  - exists (vtype_eqb Tnull (type_of w)). inversion Hw; subst; cbn; splits; try (split; [discriminate|inversion 1; fail]); try (split; auto; constructor).
    all: match goal with H : _ \/ _ |- _ => destruct H as [->|[->| ->]] end; cbn; try reflexivity; split; try discriminate; inversion 1.
  - assert (E : v_eq (VStr t s) w = Ok (if vtype_eqb t (type_of w) then raw_eq (VStr t s) w else false)).
    { cbn. destruct (vtype_eqb t (type_of w)); [|reflexivity]. match goal with H : _ \/ _ |- _ => destruct H as [->|[->| ->]] end; reflexivity. }
    rewrite E. eexists. split; [reflexivity|]. destruct (vtype_eqb t (type_of w)) eqn:T.
    + apply vtype_eqb_eq in T. subst t. inversion Hw; subst; cbn in *; try (destruct H0 as [|[|]]; discriminate).
      rewrite bytes_eqb_eq. split; [intros ->; now constructor|]. inversion 1; subst; auto. destruct H0 as [|[|]]; discriminate.
    + split; [discriminate|]. inversion 1; subst; cbn in T; [destruct H0 as [|[|]]; discriminate|]. rewrite (proj2 (vtype_eqb_eq _ _) eq_refl) in T. discriminate.
  - cbn. inversion Hw; subst; cbn; try (exists false; splits; split; [discriminate|inversion 1]; fail).
    + match goal with H : _ \/ _ |- _ => destruct H as [->|[->| ->]] end; cbn; exists false; splits; split; try discriminate; inversion 1.
    + unfold eq_array. destruct (Nat.eqb_spec (length l) (length l0)).
      * destruct (eq_elems_spec l) with (r := l0) as (b & -> & Hb); auto.
        { rewrite Forall_forall in *. auto. }
        exists b. splits. rewrite Hb. split; [now constructor|now inversion 1].
      * exists false. splits. split; [discriminate|]. inversion 1; subst. exfalso. eauto using Forall2_len.
  - cbn. inversion Hw; subst; cbn; try (exists false; splits; split; [discriminate|inversion 1]; fail).
    + match goal with H : _ \/ _ |- _ => destruct H as [->|[->| ->]] end; cbn; exists false; splits; split; try discriminate; inversion 1.
    + unfold eq_object. destruct (Nat.eqb_spec (length m) (length m0)).
      * destruct (eq_members_spec m) with (r := m0) as (b & -> & Hb); auto.
        { rewrite Forall_forall in *. auto. }
        exists b. splits. rewrite Hb. split; [now constructor|now inversion 1].
      * exists false. splits. split; [discriminate|]. inversion 1; subst. exfalso. eauto using Forall2_len.
Qed.
Lemma v_neq_spec v w : comparable v -> comparable w -> exists b, v_eq v w = Ok b /\ v_neq v w = Ok (negb b).
Proof. intros Hv Hw. destruct (v_eq_spec v Hv w Hw) as (b & E & _). exists b. unfold v_neq. now rewrite E. Qed.
Lemma wf_comparable v : wf v -> comparable v.
Proof.
  induction v as [t s|t|t l IH|t|t m IH] using value_ind'; intros H; inversion H; subst; try (constructor; tauto).
  - constructor. rewrite Forall_forall in *. auto.
  - constructor. rewrite Forall_forall in *. auto.
Qed.
Lemma wf_same v : forall w, wf v -> wf w -> same_value v w -> v = w.
Proof.
  induction v as [t s|t|t l IH|t|t m IH] using value_ind'; intros w Hv Hw H; inversion H; subst; auto.
  - inversion Hv; inversion Hw; reflexivity.
  - inversion_clear Hv. inversion_clear Hw. do 2 f_equal.
    match goal with H : Forall2 _ _ _ |- _ => induction H; [reflexivity|] end.
    repeat match goal with H : Forall _ (_ :: _) |- _ => inversion_clear H end. f_equal; auto. apply IHForall2; auto. now constructor.
  - inversion Hv; subst. inversion Hw; subst. do 2 f_equal.
    assert (G : Forall (fun kv => wf (snd kv)) m) by auto. assert (G' : Forall (fun kv => wf (snd kv)) m') by auto.
    match goal with H : Forall2 _ _ _ |- _ => revert IH G G' H end. clear. intros IH G G' H.
    induction H as [|(k, x) (k', x') m m' [Hk Hx] _ IHH]; [reflexivity|].
    inversion_clear IH as [|? ? I1 I2]. inversion_clear G as [|? ? G1 G2]. inversion_clear G' as [|? ? G1' G2']. cbn in *. subst k'.
    f_equal; auto. f_equal; auto.
Qed.
Lemma equality_structural v w : wf v -> wf w -> exists b, v_eq v w = Ok b /\ (b = true <-> v = w).
Proof.
  intros Hv Hw. destruct (v_eq_spec v (wf_comparable v Hv) w (wf_comparable w Hw)) as (b & E & Hb).
  exists b. splits; auto. rewrite Hb. split; [now apply wf_same|]. intros ->. apply same_value_refl, wf_comparable, Hw.
Qed.

(** ** C45 *)
Lemma coerce_spec x v v1 r : coerce x v = (v1, r) ->
  (v_empty v = Ok true /\ v1 = x /\ r = Ok tt) \/ (v_empty v <> Ok true /\ v1 = v).
Proof.
  unfold coerce. destruct (v_empty v) as [[]| | | |]; intros [= <- <-]; auto; right; split; auto; discriminate.
Qed.
Lemma as_array_throw v v' e : as_array_m v = (v', Throw e) -> v' = v.
Proof.
  unfold as_array_m. destruct (coerce (v_array []) v) as [v1 r] eqn:C. apply coerce_spec in C.
  destruct C as [(_ & -> & ->)|(_ & ->)]; intros H; [discriminate|congruence].
Qed.
Lemma as_object_throw v v' e : as_object_m v = (v', Throw e) -> v' = v.
Proof.
  unfold as_object_m. destruct (coerce (v_object []) v) as [v1 r] eqn:C. apply coerce_spec in C.
  destruct C as [(_ & -> & ->)|(_ & ->)]; intros H; [discriminate|congruence].
Qed.
Lemma index_key_throw k v v' e : keys_ok v -> v_index_key k v = (v', Throw e) -> v' = v.
Proof.
  intros Hk. unfold v_index_key. destruct (coerce (v_object []) v) as [v1 r] eqn:C. apply coerce_spec in C.
  destruct C as [(_ & -> & ->)|(_ & ->)].
  - cbn. unfold obj_at. cbn. rewrite bytes_eqb_refl. discriminate.
  - destruct r; cbn; try congruence. unfold on_object.
    destruct (as_object_m v) as [v2 r2] eqn:A. destruct r2 as [m|x| | |]; cbn; try (intros [= -> ->]).
    + unfold obj_at, obj_index. intros H. exfalso. revert H.
      assert (Hs : sorted_keys m).
      { unfold as_object_m in A. destruct (coerce (v_object []) v) as [v3 r3] eqn:C. apply coerce_spec in C.
        destruct C as [(_ & -> & ->)|(_ & ->)]; cbn in A.
        - injection A as <- <-. constructor.
        - injection A as <- A. destruct r3; try discriminate. cbn in A. unfold type_error, get_obj in A. inversion Hk; subst; cbn in *;
            repeat match goal with H : (if ?c then _ else _) = _ |- _ => destruct c end; try discriminate; try congruence;
            destruct t; try discriminate; congruence. }
      rewrite map_emplace_find, bytes_eqb_refl by auto. discriminate.
    + now apply as_object_throw in A.
Qed.
Lemma on_array_throw {A} (f : array -> array * A) v v' e : on_array (fun l => ret (f l)) v = (v', Throw e) -> v' = v.
Proof.
  unfold on_array. destruct (as_array_m v) as [v1 r] eqn:E. destruct r as [a|e0| | |]; cbn; try discriminate; try congruence.
  intros [= -> ->]. now apply as_array_throw in E.
Qed.
Lemma on_object_throw {A} (f : object -> object * A) v v' e : on_object (fun l => ret (f l)) v = (v', Throw e) -> v' = v.
Proof.
  unfold on_object. destruct (as_object_m v) as [v1 r] eqn:E. destruct r as [a|e0| | |]; cbn; try discriminate; try congruence.
  intros [= -> ->]. now apply as_object_throw in E.
Qed.
Lemma index_pos_throw p v v' e : v_index_pos p v = (v', Throw e) -> v' = v.
Proof.
  unfold v_index_pos, on_array. destruct (as_array_m v) as [v1 r] eqn:E. destruct r as [a|e0| | |]; cbn; try discriminate; try congruence.
  - unfold arr_index. destruct (nthN a p); discriminate.
  - intros [= -> ->]. now apply as_array_throw in E.
Qed.
Lemma as_array_ok v v1 l : tag_ok v -> as_array_m v = (v1, Ok l) -> v1 = VArr Tarray (Some l) /\ (v1 = v \/ v_empty v = Ok true).
Proof.
  unfold as_array_m. intros Ht. destruct (coerce (v_array []) v) as [v2 r] eqn:C. apply coerce_spec in C.
  destruct C as [(He & -> & ->)|(He & ->)]; cbn; intros H.
  - injection H as <- <-. auto.
  - injection H as <- H. destruct r; try discriminate. cbn in H. unfold type_error in H. destruct Ht; cbn in *;
    repeat match goal with H : (if ?c then _ else _) = _ |- _ => destruct c end; try discriminate; try (injection H as ->; auto); destruct t; discriminate.
Qed.
Lemma as_object_ok v v1 l : tag_ok v -> as_object_m v = (v1, Ok l) -> v1 = VObj Tobject (Some l) /\ (v1 = v \/ v_empty v = Ok true).
Proof.
  unfold as_object_m. intros Ht. destruct (coerce (v_object []) v) as [v2 r] eqn:C. apply coerce_spec in C.
  destruct C as [(He & -> & ->)|(He & ->)]; cbn; intros H.
  - injection H as <- <-. auto.
  - injection H as <- H. destruct r; try discriminate. cbn in H. unfold type_error in H. destruct Ht; cbn in *;
    repeat match goal with H : (if ?c then _ else _) = _ |- _ => destruct c end; try discriminate; try (injection H as ->; auto); destruct t; discriminate.
Qed.
Lemma erase_pos_false p v v' : tag_ok v -> v_erase_pos p v = (v', Ok false) -> v' = v \/ (v_empty v = Ok true /\ v' = v_array []).
Proof.
  intros Ht. unfold v_erase_pos, on_array. destruct (as_array_m v) as [v1 r] eqn:E. destruct r as [a|e0| | |]; cbn; try discriminate.
  destruct (as_array_ok v v1 a Ht E) as [-> Hv]. rewrite arr_erase_spec. unfold ret. cbn. intros [= <- Hp]. rewrite Hp.
  destruct Hv as [->|Hv]; [auto|]. right. split; auto. unfold as_array_m, coerce in E. rewrite Hv in E. cbn in E. injection E as <-. reflexivity.
Qed.
Lemma erase_key_false k v v' : tag_ok v -> v_erase_key k v = (v', Ok false) -> v' = v \/ (v_empty v = Ok true /\ v' = v_object []).
Proof.
  intros Ht. unfold v_erase_key, on_object. destruct (as_object_m v) as [v1 r] eqn:E. destruct r as [a|e0| | |]; try discriminate.
  destruct (as_object_ok v v1 a Ht E) as [-> Hv]. unfold obj_erase, ret. pose proof (map_erase_snd k a) as Hq.
  pose proof (map_erase_none k a) as Hn. destruct (map_erase k a) as [m' b]. cbn [fst snd] in *. intros [= <- ->].
  destruct (map_find k a); [discriminate|]. specialize (Hn eq_refl). injection Hn as ->.
  destruct Hv as [->|Hv]; [auto|]. right. split; auto. unfold as_object_m, coerce in E. rewrite Hv in E. cbn in E. injection E as <-. reflexivity.
Qed.
Lemma value_overloads_differ_or : exists v m, v_or_cc v m <> v_or_mc v m.
Proof. exists v_null, []. vm_compute. discriminate. Qed.
Lemma value_overloads_differ_plus : exists v a, v_plus_cc v a <> v_plus_mc v a.
Proof. exists (v_string []), []. vm_compute. discriminate. Qed.
Lemma throw_keeps v v' e :
  (as_array_m v = (v', Throw e) -> v' = v) /\ (as_object_m v = (v', Throw e) -> v' = v) /\
  (forall p, v_index_pos p v = (v', Throw e) -> v' = v) /\
  (keys_ok v -> forall k, v_index_key k v = (v', Throw e) -> v' = v).
Proof.
  splits.
  - apply as_array_throw.
  - apply as_object_throw.
  - intros p. apply index_pos_throw.
  - intros H k. now apply index_key_throw.
Qed.
Lemma erase_throw_keeps v v' e :
  (forall p, v_erase_pos p v = (v', Throw e) -> v' = v) /\ (forall k, v_erase_key k v = (v', Throw e) -> v' = v).
Proof. split; intros x; [apply on_array_throw|apply on_object_throw]. Qed.
Lemma erase_false v v' : tag_ok v ->
  (forall p, v_erase_pos p v = (v', Ok false) -> v' = v \/ (v_empty v = Ok true /\ v' = v_array [])) /\
  (forall k, v_erase_key k v = (v', Ok false) -> v' = v \/ (v_empty v = Ok true /\ v' = v_object [])).
Proof. intros H. split; intros x; [now apply erase_pos_false|now apply erase_key_false]. Qed.
Lemma erase_empty v : v_empty v = Ok true -> (forall p, v_erase_pos p v = (v_array [], Ok false)) /\ (forall k, v_erase_key k v = (v_object [], Ok false)).
Proof.
  intros E. unfold v_erase_pos, v_erase_key, on_array, on_object, as_array_m, as_object_m, coerce. rewrite E. split; intros x; cbn; [|reflexivity].
  unfold ret. rewrite arr_erase_spec. cbn. destruct (N.to_nat x); cbn; destruct x; reflexivity.
Qed.
Lemma empty_kinds v : tag_ok v -> v_empty v = Ok true <-> type_of v = Tnull \/ v = v_string [] \/ v = v_array [] \/ v = v_object [].
Proof.
  intros T. split.
  - intros E. destruct T as [t s H1 H2|o H| |o H|]; cbn in *; unfold v_empty in E; cbn in E; try discriminate.
    + destruct t; try discriminate; try contradiction; auto. right. left. destruct s; [reflexivity|discriminate].
    + destruct o; try discriminate. auto.
    + destruct o; try discriminate. auto.
  - intros [E|[->|[->| ->]]]; try reflexivity. unfold v_empty. now rewrite E.
Qed.
Lemma erase_false_exactly v : tag_ok v ->
  (forall p, (exists v', v_erase_pos p v = (v', Ok false) /\ v' <> v) <-> type_of v = Tnull \/ v = v_string [] \/ v = v_object []) /\
  (forall k, (exists v', v_erase_key k v = (v', Ok false) /\ v' <> v) <-> type_of v = Tnull \/ v = v_string [] \/ v = v_array []).
Proof.
  intros T. pose proof (empty_kinds v T) as K. split; intros x; split.
  - intros (v' & E & N). destruct (erase_pos_false _ _ _ T E) as [->|[Em ->]]; [contradiction|]. apply K in Em as [Em|[Em|[Em|Em]]]; auto. congruence.
  - intros H. exists (v_array []). assert (Em : v_empty v = Ok true) by (apply K; intuition). split; [apply (erase_empty v Em)|].
    intros <-. destruct H as [H|[H|H]]; discriminate.
  - intros (v' & E & N). destruct (erase_key_false _ _ _ T E) as [->|[Em ->]]; [contradiction|]. apply K in Em as [Em|[Em|[Em|Em]]]; auto. congruence.
  - intros H. exists (v_object []). assert (Em : v_empty v = Ok true) by (apply K; intuition). split; [apply (erase_empty v Em)|].
    intros <-. destruct H as [H|[H|H]]; discriminate.
Qed.
Lemma erase_false_changes : exists k v v', tag_ok v /\ v_erase_key k v = (v', Ok false) /\ v' <> v.
Proof. exists [97], v_null, (v_object []). splits; [constructor; discriminate|discriminate]. Qed.
