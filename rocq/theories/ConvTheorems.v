(** * Proofs: defaults, value categories, variants, structs, sources of construction. *)
From Verif Require Import Base Value Packed Parser Dump Containers Num Enum Conv Spec SpecApi SpecConv BaseProofs ContainerProofs NumProofs EnumProofs ConvProofs FaithfulProofs DumpProofs.

(** ** Data of native types is faithful *)
Lemma native_faithful E t : native t -> forall d, has_type t d -> no_nullopt d -> faithful E t d.
Proof.
  induction t as [ | | | |sg w|p| | | | |t IH|t IH|t IH|lt t IH|n t IH|ts IH|ts IH|t IH|e|fs IH|x] using ty_ind'; intros Hn d Ht Hd; inversion Hn; subst; inversion Ht; subst; inversion Hd; subst.
  - constructor.
  - now constructor.
  - constructor.
  - constructor. auto.
  - constructor. rewrite Forall_forall in *. auto.
  - constructor; auto. rewrite Forall_forall in *. auto.
  - constructor. rewrite Forall_forall in *. auto.
  - constructor; auto.
    match goal with X : Forall2 _ ts l, Y : Forall native ts, Z : Forall no_nullopt l |- _ =>
      clear - IH X Y Z; induction X; constructor; inversion IH; inversion Y; inversion Z; subst; auto end.
  - constructor; auto. rewrite Forall_forall in *. auto.
Qed.

Section Env.
  Context (E : env).

  (** ** C28 *)
  Lemma child_find k v w : wf v -> child (KStr k) v w <-> exists m, v = VObj Tobject (Some m) /\ map_find k m = Some w.
  Proof.
    intros Hv. split.
    - intros H. inversion H; subst. eexists. split; [reflexivity|]. inversion Hv; subst. apply map_find_some; auto using sorted_NoDup.
    - intros (m & -> & H). constructor. now apply map_find_in.
  Qed.
  (** a negative number becomes a position no vector reaches *)
  Definition small (v : value) : Prop := forall l, v = VArr Tarray (Some l) -> (Z.of_nat (length l) < 2 ^ 63)%Z.
  Definition in_range (z : Z) (v : value) : Prop := (0 <= z < 2 ^ 64)%Z \/ ((- 2 ^ 63 <= z < 2 ^ 64)%Z /\ small v).
  Lemma arr_find_nth z l : in_range z (VArr Tarray (Some l)) ->
    arr_find_value (to_size_t z) l = if (z <? 0)%Z then None else nth_error l (Z.to_nat z).
  Proof.
    intros H. unfold arr_find_value, arr_contains, nthN, to_size_t. destruct (z <? 0)%Z eqn:Ez.
    - destruct H as [H|[H Hs]]; [lia|]. specialize (Hs l eq_refl).
      replace (z mod 2 ^ 64)%Z with (z + 2 ^ 64)%Z by (apply Z.mod_unique with (q := (-1)%Z); lia).
      unfold size. destruct (Z.to_N (z + 2 ^ 64) <? N.of_nat (length l)) eqn:El; auto. lia.
    - assert (Hz : (0 <= z < 2 ^ 64)%Z) by (destruct H as [H|[H _]]; lia).
      rewrite Z.mod_small by lia. unfold size. destruct (Z.to_N z <? N.of_nat (length l)) eqn:El.
      + now replace (N.to_nat (Z.to_N z)) with (Z.to_nat z) by lia.
      + symmetry. apply nth_error_None. lia.
  Qed.
  Lemma child_pos z v w : in_range z v -> child (KInt z) v w <-> exists l, v = VArr Tarray (Some l) /\ arr_find_value (to_size_t z) l = Some w.
  Proof.
    intros Hz. split.
    - intros H. inversion H; subst. eexists. split; [reflexivity|]. rewrite arr_find_nth by auto.
      destruct (z <? 0)%Z eqn:Ez; [lia|auto].
    - intros (l & -> & H). rewrite arr_find_nth in H by auto. destruct (z <? 0)%Z eqn:Ez; [discriminate|]. constructor; auto. lia.
  Qed.
  Lemma addressable_small v : addressable v -> small v.
  Proof. intros H l ->. apply (H [] l). constructor. Qed.
  Lemma addressable_child k v w : addressable v -> child k v w -> addressable w.
  Proof. intros H Hc p l Hp. apply (H (k :: p) l). econstructor; eauto. Qed.
  Lemma child_wf k v w : wf v -> child k v w -> wf w.
  Proof.
    intros Hv H. inversion H; subst; inversion Hv; subst; rewrite Forall_forall in *.
    - match goal with X : In _ m, F : forall x, In x m -> _ |- _ => exact (F _ X) end.
    - match goal with X : nth_error l _ = _ |- _ => apply nth_error_In in X end. auto.
  Qed.
  (** the value at the path converts, or the path leads nowhere useful *)
  Definition get_spec (t : ty) (d : data) (ks : list key) (v : value) (r : res data) : Prop :=
    (exists w d', at_path ks v w /\ is_ E t w = Ok true /\ as_ E t w = Ok d' /\ r = Ok d') \/
    ((forall w, at_path ks v w -> is_ E t w = Ok false) /\ r = Ok d).
  Lemma get_step t d k ks v w r : (forall w', child k v w' <-> w' = w) -> get_spec t d ks w r -> get_spec t d (k :: ks) v r.
  Proof.
    intros Hc [(x & d' & Hp & H)|[Hn ->]].
    - left. exists x, d'. split; auto. econstructor; [apply Hc; reflexivity|exact Hp].
    - right. split; auto. intros x Hx. inversion Hx; subst. apply Hn. match goal with X : child _ _ _ |- _ => apply Hc in X; subst end. auto.
  Qed.
  Lemma get_stop t d k ks v : (forall w', ~ child k v w') -> get_spec t d (k :: ks) v (Ok d).
  Proof. intros H. right. split; auto. intros x Hx. inversion Hx; subst. exfalso. eapply H; eauto. Qed.
  Lemma jvod_spec t d v : exact E t -> t <> TNullptr -> wf v -> get_spec t d [] v (json_value_or_default E t v d).
  Proof.
    intros Hx Hn Hv. unfold json_value_or_default, default_or_string.
    assert (R : as_ E (if returns_string t then TStr else t) v = as_ E t v) by (destruct t; try reflexivity; congruence).
    destruct (exact_decides E t Hx v Hv) as [[Hi [d' Ha]]|[Hi Ha]].
    - rewrite Hi, R, Ha. cbn. left. exists v, d'. splits; auto. constructor.
    - rewrite Hi. cbn. right. split; [|destruct t; auto; congruence]. intros w Hw. inversion Hw; subst. auto.
  Qed.
  Lemma dos_ok t d : t <> TNullptr -> default_or_string t d = Ok d.
  Proof. destruct t; auto; congruence. Qed.
  Lemma cont_ok t r : t <> TView -> conditional_container t r = r.
  Proof. destruct r; auto. destruct t; auto; congruence. Qed.
  Theorem v_get_spec t d ks : exact E t -> t <> TNullptr -> t <> TView -> ks <> [] -> Forall int_key ks ->
    forall v, wf v -> addressable v -> get_spec t d ks v (v_get E t d ks v).
  Proof.
    intros Hx Hn Hw Hks Hk. induction Hk as [|k ks Hk Hks' IH]; [congruence|]. intros v Hv Had. cbn [v_get].
    assert (Hd : conditional_default t d = Ok d) by (destruct t; auto; congruence).
    assert (Hin : forall w, wf w -> addressable w -> get_spec t d ks w (if is_nil ks then json_value_or_default E t w d else v_get E t d ks w)).
    { intros w Hw' Ha'. destruct ks; cbn [is_nil]; [now apply jvod_spec|]. apply IH; auto. discriminate. }
    destruct k as [k|z].
    - destruct (is_object v) eqn:Eo.
      + destruct Hv as [ | | | | |m Hm Hs]; try discriminate. assert (Hv : wf (VObj Tobject (Some m))) by now constructor.
        cbn [as_object_c is_object type_of vtype_eqb get_obj bind]. rewrite cont_ok by auto.
        destruct (map_find k m) as [w|] eqn:F.
        * eapply (get_step _ _ _ _ _ w).
          { intros w'. rewrite child_find by auto. split; [intros (m' & [= <-] & F'); congruence|intros ->; eauto]. }
          apply Hin.
          { rewrite Forall_forall in Hm. exact (Hm _ (map_find_in _ _ _ F)). }
          { apply (addressable_child _ _ _ Had (ch_key k m w (map_find_in _ _ _ F))). }
        * rewrite dos_ok by auto. apply get_stop. intros w' X. apply child_find in X as (m' & [= <-] & F'); auto. congruence.
      + rewrite Hd. apply get_stop. intros w' X. inversion X; subst. discriminate.
    - cbn in Hk. assert (Hr : in_range z v) by (right; split; [exact Hk|now apply addressable_small]). destruct (is_array v) eqn:Eo.
      + destruct Hv as [ | | | |l Hl| ]; try discriminate.
        cbn [as_array_c is_array type_of vtype_eqb get_arr bind]. rewrite cont_ok by auto.
        destruct (arr_find_value (to_size_t z) l) as [w|] eqn:F.
        * eapply (get_step _ _ _ _ _ w).
          { intros w'. rewrite child_pos by auto. split; [intros (m' & [= <-] & F'); congruence|intros ->; eauto]. }
          assert (Hc : child (KInt z) (VArr Tarray (Some l)) w) by (apply child_pos; eauto).
          apply Hin; [|exact (addressable_child _ _ _ Had Hc)]. apply (child_wf _ _ _ (wf_arr l Hl) Hc).
        * rewrite dos_ok by auto. apply get_stop. intros w' X. apply child_pos in X as (m' & [= <-] & F'); auto. congruence.
      + rewrite Hd. apply get_stop. intros w' X. inversion X; subst. discriminate.
  Qed.
  Lemma obj_get_spec t d k ks m : exact E t -> t <> TNullptr -> t <> TView \/ ks = [] -> Forall int_key ks -> wf (v_object m) -> addressable (v_object m) ->
    get_spec t d (KStr k :: ks) (v_object m) (obj_get E t d k ks m).
  Proof.
    intros Hx Hn Hw Hk Hv Had. unfold obj_get. destruct (map_find k m) as [w|] eqn:F.
    - eapply (get_step _ _ _ _ _ w).
      { intros w'. rewrite child_find by auto. split; [intros (m' & [= <-] & F'); congruence|intros ->; eexists; split; [reflexivity|auto]]. }
      assert (wf w) by (inversion Hv; subst; rewrite Forall_forall in *; match goal with X : forall x, In x m -> _ |- _ => exact (X _ (map_find_in _ _ _ F)) end).
      destruct ks; cbn [is_nil]; [now apply jvod_spec|]. destruct Hw as [Hw|]; [|discriminate]. apply v_get_spec; auto; [discriminate|].
      apply (addressable_child _ _ _ Had (ch_key k m w (map_find_in _ _ _ F))).
    - rewrite dos_ok by auto. apply get_stop. intros w' X. apply child_find in X as (m' & [= <-] & F'); auto. congruence.
  Qed.
  Lemma arr_get_spec t d z ks l : exact E t -> t <> TNullptr -> t <> TView \/ ks = [] -> int_key (KInt z) -> Forall int_key ks -> wf (v_array l) -> addressable (v_array l) ->
    get_spec t d (KInt z :: ks) (v_array l) (arr_get E t d z ks l).
  Proof.
    intros Hx Hn Hw Hz Hk Hv Had. assert (Hr : in_range z (v_array l)) by (right; split; [exact Hz|now apply addressable_small]). unfold arr_get. destruct (arr_find_value (to_size_t z) l) as [w|] eqn:F.
    - eapply (get_step _ _ _ _ _ w).
      { intros w'. rewrite child_pos by auto. split; [intros (m' & [= <-] & F'); congruence|intros ->; eexists; split; [reflexivity|auto]]. }
      assert (Hc : child (KInt z) (VArr Tarray (Some l)) w) by (apply child_pos; [exact Hr|eexists; split; [reflexivity|exact F]]).
      assert (wf w) by exact (child_wf _ _ _ Hv Hc).
      destruct ks; cbn [is_nil]; [now apply jvod_spec|]. destruct Hw as [Hw|]; [|discriminate]. apply v_get_spec; auto; [discriminate|].
      exact (addressable_child _ _ _ Had Hc).
    - rewrite dos_ok by auto. apply get_stop. intros w' X. apply child_pos in X as (m' & [= <-] & F'); auto. congruence.
  Qed.
  (** get(keys..., nullptr): a null at the path throws, since as_string() does; anything else is handed to std::string(nullptr) *)
  Definition nullptr_spec (ks : list key) (v : value) (r : res data) : Prop :=
    (at_path ks v v_null /\ r = Throw JsonException) \/ ((forall w, at_path ks v w -> w <> v_null) /\ r = Ub).
  Lemma nullptr_step k ks v w r : (forall w', child k v w' <-> w' = w) -> nullptr_spec ks w r -> nullptr_spec (k :: ks) v r.
  Proof.
    intros Hc [[Hp ->]|[Hn ->]].
    - left. split; auto. econstructor; [apply Hc; reflexivity|exact Hp].
    - right. split; auto. intros x Hx. inversion Hx; subst. apply Hn. match goal with X : child _ _ _ |- _ => apply Hc in X; subst end. auto.
  Qed.
  Lemma nullptr_stop k ks v : (forall w', ~ child k v w') -> nullptr_spec (k :: ks) v Ub.
  Proof. intros H. right. split; auto. intros x Hx. inversion Hx; subst. exfalso. eapply H; eauto. Qed.
  Lemma nullptr_here d v : wf v -> nullptr_spec [] v (json_value_or_default E TNullptr v d).
  Proof.
    intros Hv. destruct Hv; try (right; split; [intros w Hw X; inversion Hw; subst; discriminate|reflexivity]).
    left. split; [constructor|reflexivity].
  Qed.
  Theorem nullptr_get d ks : ks <> [] -> Forall int_key ks -> forall v, wf v -> addressable v -> nullptr_spec ks v (v_get E TNullptr d ks v).
  Proof.
    intros Hks Hk. induction Hk as [|k ks Hk Hks' IH]; [congruence|]. intros v Hv Had. cbn [v_get].
    assert (Hin : forall w, wf w -> addressable w -> nullptr_spec ks w (if is_nil ks then json_value_or_default E TNullptr w d else v_get E TNullptr d ks w)).
    { intros w Hw' Ha'. destruct ks; cbn [is_nil]; [now apply nullptr_here|]. apply IH; auto. discriminate. }
    destruct k as [k|z].
    - destruct (is_object v) eqn:Eo.
      + destruct Hv as [ | | | | |m Hm Hs]; try discriminate. assert (Hv : wf (VObj Tobject (Some m))) by now constructor.
        cbn [as_object_c is_object type_of vtype_eqb get_obj bind]. rewrite cont_ok by discriminate.
        destruct (map_find k m) as [w|] eqn:F.
        * eapply (nullptr_step _ _ _ w).
          { intros w'. rewrite child_find by auto. split; [intros (m' & [= <-] & F'); congruence|intros ->; eauto]. }
          apply Hin.
          { rewrite Forall_forall in Hm. exact (Hm _ (map_find_in _ _ _ F)). }
          { apply (addressable_child _ _ _ Had (ch_key k m w (map_find_in _ _ _ F))). }
        * apply nullptr_stop. intros w' X. apply child_find in X as (m' & [= <-] & F'); auto. congruence.
      + apply nullptr_stop. intros w' X. inversion X; subst. discriminate.
    - cbn in Hk. assert (Hr : in_range z v) by (right; split; [exact Hk|now apply addressable_small]). destruct (is_array v) eqn:Eo.
      + destruct Hv as [ | | | |l Hl| ]; try discriminate.
        cbn [as_array_c is_array type_of vtype_eqb get_arr bind]. rewrite cont_ok by discriminate.
        destruct (arr_find_value (to_size_t z) l) as [w|] eqn:F.
        * eapply (nullptr_step _ _ _ w).
          { intros w'. rewrite child_pos by auto. split; [intros (m' & [= <-] & F'); congruence|intros ->; eauto]. }
          assert (Hc : child (KInt z) (VArr Tarray (Some l)) w) by (apply child_pos; eauto).
          apply Hin; [|exact (addressable_child _ _ _ Had Hc)]. apply (child_wf _ _ _ (wf_arr l Hl) Hc).
        * apply nullptr_stop. intros w' X. apply child_pos in X as (m' & [= <-] & F'); auto. congruence.
      + apply nullptr_stop. intros w' X. inversion X; subst. discriminate.
  Qed.
  (** of an object or an array, the same *)
  Lemma nullptr_containers d k z ks : Forall int_key (k :: KInt z :: ks) ->
    (forall m key, k = KStr key -> wf (v_object m) -> addressable (v_object m) ->
       nullptr_spec (k :: ks) (v_object m) (obj_get E TNullptr d key ks m)) /\
    (forall l, wf (v_array l) -> addressable (v_array l) -> nullptr_spec (KInt z :: ks) (v_array l) (arr_get E TNullptr d z ks l)).
  Proof.
    intros Hk. inversion_clear Hk as [|? ? _ Hk']. inversion_clear Hk' as [|? ? Hz Hk]. split.
    - intros m key -> Hv Had. pose proof (nullptr_get d (KStr key :: ks) ltac:(discriminate) ltac:(constructor; [exact I|exact Hk]) _ Hv Had) as H.
      cbn [v_get] in H. cbn [v_object is_object type_of vtype_eqb as_object_c get_obj bind] in H. rewrite cont_ok in H by discriminate. exact H.
    - intros l Hv Had. pose proof (nullptr_get d (KInt z :: ks) ltac:(discriminate) ltac:(constructor; [exact Hz|exact Hk]) _ Hv Had) as H.
      cbn [v_get] in H. cbn [v_array is_array type_of vtype_eqb as_array_c get_arr bind] in H. rewrite cont_ok in H by discriminate. exact H.
  Qed.
  (** get(keys..., std::string_view) of a value: undefined if the first key fits the value, whatever is found *)
  Definition fits_key (k : key) (v : value) : Prop :=
    match k with KStr _ => exists m, v = v_object m | KInt _ => exists l, v = v_array l end.
  Theorem view_get d ks : ks <> [] -> forall v, wf v -> forall k ks', ks = k :: ks' ->
    (fits_key k v -> v_get E TView d ks v = Ub) /\ (~ fits_key k v -> v_get E TView d ks v = Ok d).
  Proof.
    induction ks as [|k0 ks IH]; [congruence|]. intros _ v Hv k ks' [= <- <-].
    assert (Hin : forall w, wf w -> exists r, (if is_nil ks then json_value_or_default E TView w d else v_get E TView d ks w) = r /\
      (r = Ub \/ exists x, r = Ok x)).
    { intros w Hw. destruct ks as [|k1 ks]; cbn [is_nil].
      - destruct (jvod_spec TView d w) as [(? & ? & _ & _ & _ & ->)|[_ ->]]; eauto; [constructor|discriminate].
      - destruct (IH ltac:(discriminate) w Hw k1 ks eq_refl) as [A B]. eexists. split; [reflexivity|].
        assert (D : fits_key k1 w \/ ~ fits_key k1 w).
        { destruct k1, Hw; cbn; try (left; eexists; reflexivity); right; intros [? [=]]. }
        destruct D as [D|D]; [rewrite (A D); auto|rewrite (B D); eauto]. }
    assert (Hc : forall r, (r = Ub \/ exists x, r = Ok x) -> conditional_container TView r = Ub) by (intros r [->|[x ->]]; reflexivity).
    cbn [v_get]. destruct k0 as [k|z]; cbn [fits_key].
    - destruct Hv as [ | | | | |m Hm Hs]; try (split; [intros [? [=]]|reflexivity]).
      split; [intros _|intros X; exfalso; apply X; eexists; reflexivity].
      cbn [is_object type_of vtype_eqb as_object_c get_obj bind]. apply Hc. destruct (map_find k m) as [w|] eqn:F; [|cbn; eauto].
      rewrite Forall_forall in Hm. destruct (Hin w (Hm _ (map_find_in _ _ _ F))) as (r & -> & Hr). exact Hr.
    - destruct Hv as [ | | | |l Hl| ]; try (split; [intros [? [=]]|reflexivity]).
      split; [intros _|intros X; exfalso; apply X; eexists; reflexivity].
      cbn [is_array type_of vtype_eqb as_array_c get_arr bind]. apply Hc. destruct (arr_find_value (to_size_t z) l) as [w|] eqn:F; [|cbn; eauto].
      assert (Hw : wf w). { unfold arr_find_value, nthN in F. destruct (arr_contains (to_size_t z) l); [|discriminate]. destruct (to_size_t z <? size l); [|discriminate]. apply nth_error_In in F. rewrite Forall_forall in Hl. auto. }
      destruct (Hin w Hw) as (r & -> & Hr). exact Hr.
  Qed.
  (** find: the converted value, or nothing *)
  Definition find_spec (t : ty) (k : key) (v : value) (r : res (option data)) : Prop :=
    (exists w d, child k v w /\ is_ E t w = Ok true /\ as_ E t w = Ok d /\ r = Ok (Some d)) \/
    ((forall w, child k v w -> is_ E t w = Ok false) /\ r = Ok None).
  Lemma found_spec t k v o : exact E t -> wf v -> (forall w, o = Some w <-> child k v w) -> find_spec t k v (found E t o).
  Proof.
    intros Hx Hv Ho. destruct o as [w|]; cbn [found].
    - assert (Hc : child k v w) by now apply Ho.
      destruct (exact_decides E t Hx w (child_wf _ _ _ Hv Hc)) as [[Hi [d Hd]]|[Hi _]]; rewrite Hi; cbn [bind].
      + rewrite Hd. left. exists w, d. auto.
      + right. split; auto. intros w' H'. apply Ho in H'. congruence.
    - right. split; auto. intros w' H'. apply Ho in H'. discriminate.
  Qed.
  Lemma v_find_spec t v : exact E t -> wf v ->
    (forall k, find_spec t (KStr k) v (v_find_key E t k v)) /\
    (forall n, n < 2 ^ 64 -> find_spec t (KInt (Z.of_N n)) v (v_find_pos E t n v)).
  Proof.
    intros Hx Hv. split.
    - intros k. unfold v_find_key, v_find_value_key. destruct (is_object v) eqn:Eo.
      + destruct Hv as [ | | | | |m Hm Hs]; try discriminate. assert (Hv : wf (VObj Tobject (Some m))) by now constructor.
        cbn [as_object_c is_object type_of vtype_eqb get_obj bind]. apply found_spec; auto. intros w. rewrite child_find by auto. unfold obj_find_value. split; [eauto|intros (m' & [= <-] & H); auto].
      + cbn [bind found]. right. split; auto. intros w X. inversion X; subst. discriminate.
    - intros n Hn. unfold v_find_pos, v_find_value_pos. destruct (is_array v) eqn:Eo.
      + destruct Hv as [ | | | |l Hl| ]; try discriminate.
        cbn [as_array_c is_array type_of vtype_eqb get_arr bind]. apply found_spec; auto; [now constructor|]. intros w. rewrite child_pos by (left; lia).
        replace (to_size_t (Z.of_N n)) with n by (unfold to_size_t; rewrite Z.mod_small; lia). split; [eauto|intros (m' & [= <-] & H); auto].
      + cbn [bind found]. right. split; auto. intros w X. inversion X; subst. discriminate.
  Qed.

  (** ** C43 *)
  Lemma as_rv_eq t v : lawful wf t -> wf v -> as_rv E t v = as_ E t v.
  Proof.
    intros Hl H. destruct t; auto; cbn [as_rv as_]; [now rewrite wf_copy|]. unfold ext_as.
    inversion Hl as [ | | | | | | | | | | | | | | | | | | | |x' _ Hf]; subst. destruct (x_move_from x) as [f|]; auto. now rewrite Hf.
  Qed.
  Lemma mapM_ext {A B} (f g : A -> res B) l : Forall (fun x => f x = g x) l -> mapM f l = mapM g l.
  Proof. induction 1 as [|x l Hx _ IH]; cbn; auto. now rewrite Hx, IH. Qed.
  Lemma mapM_members_ext {A B} (f g : A -> res B) (l : list (bytes * A)) : Forall (fun x => f (snd x) = g (snd x)) l -> mapM_members f l = mapM_members g l.
  Proof. induction 1 as [|[k x] l Hx _ IH]; cbn in *; auto. now rewrite Hx, IH. Qed.
  Lemma as_tuple_rv ts : Forall (lawful wf) ts -> forall l, Forall wf l -> as_tuple (as_rv E) ts l = as_tuple (as_ E) ts l.
  Proof. induction 1 as [|t ts Ht _ IH]; intros l Hl; cbn; auto. destruct Hl as [|v l Hv Hl]; auto. now rewrite as_rv_eq, IH. Qed.
  Lemma as_variant_rv ts v : Forall (lawful wf) ts -> forall n, wf v -> as_variant E (as_rv E) n ts v = as_variant E (as_ E) n ts v.
  Proof. induction 1 as [|t ts Ht _ IH]; intros n Hv; cbn; auto. now rewrite as_rv_eq, IH. Qed.
  Lemma array_m_c v : wf v -> v_empty v = Ok false \/ is_array v = true -> snd (as_array_m v) = as_array_c v.
  Proof.
    unfold as_array_m, coerce, as_array_c. intros Hv [->|H]; [reflexivity|]. destruct Hv; try discriminate.
    cbn. destruct l; reflexivity.
  Qed.
  Lemma object_m_c v : wf v -> v_empty v = Ok false \/ is_object v = true -> snd (as_object_m v) = as_object_c v.
  Proof.
    unfold as_object_m, coerce, as_object_c. intros Hv [->|H]; [reflexivity|]. destruct Hv; try discriminate.
    cbn. destruct m; reflexivity.
  Qed.
  Lemma as_array_c_ok v l : as_array_c v = Ok l -> is_array v = true.
  Proof. unfold as_array_c. destruct (is_array v); auto. unfold type_error. destruct v as [t s|[] [|]|[] [|]]; discriminate. Qed.
  Lemma as_object_c_ok v l : as_object_c v = Ok l -> is_object v = true.
  Proof. unfold as_object_c. destruct (is_object v); auto. unfold type_error. destruct v as [t s|[] [|]|[] [|]]; discriminate. Qed.
  Lemma as_array_c_wf v l : wf v -> as_array_c v = Ok l -> Forall wf l.
  Proof. destruct 1; try discriminate. now intros [= <-]. Qed.
  Lemma as_object_c_wf v m : wf v -> as_object_c v = Ok m -> Forall (fun kv => wf (snd kv)) m.
  Proof. destruct 1; try discriminate. now intros [= <-]. Qed.
  Lemma bind_ext {A B} (x : res A) (f g : A -> res B) : (forall a, x = Ok a -> f a = g a) -> bind x f = bind x g.
  Proof. destruct x; cbn; auto. Qed.
  Theorem category_irrelevant t : lawful wf t -> forall v, wf v -> (v_empty v = Ok false \/ exists d, as_ E t v = Ok d) -> cast_rv E t v = as_ E t v.
  Proof.
    induction t as [ | | | |sg w|p| | | | |t IH|t IH|t IH|lt t IH|n t IH|ts IH|ts IH|t IH|e|fs IH|x] using ty_ind'; intros Hlaw v Hv H; try reflexivity; cbn [cast_rv as_].
    - now rewrite wf_copy.
    - rewrite array_m_c; auto.
      + apply bind_ext. intros l Hl. apply as_array_c_wf in Hl; auto. now rewrite wf_copy_elems.
      + destruct H as [H|[d H]]; auto. right. cbn [as_] in H. apply bind_ok in H as (x & H & _). now apply as_array_c_ok in H.
    - rewrite object_m_c; auto.
      + apply bind_ext. intros l Hl. apply as_object_c_wf in Hl; auto. now rewrite wf_copy_members.
      + destruct H as [H|[d H]]; auto. right. cbn [as_] in H. apply bind_ok in H as (x & H & _). now apply as_object_c_ok in H.
    - inversion Hlaw; subst. rewrite IH; auto. destruct H as [H|[d H]]; auto. right. cbn [as_] in H. apply bind_ok in H as (x & H & _). eauto.
    - inversion Hlaw; subst. destruct (is_null v) eqn:En; auto. rewrite IH; auto. destruct H as [H|[d H]]; auto. right. cbn [as_] in H. rewrite En in H. apply bind_ok in H as (x & H & _). eauto.
    - inversion Hlaw; subst. rewrite array_m_c; auto.
      + apply bind_ext. intros l Hl. rewrite (mapM_ext (as_rv E t) (as_ E t)); auto.
        apply as_array_c_wf in Hl; auto. rewrite Forall_forall in *. intros x Hx. apply as_rv_eq; auto.
      + destruct H as [H|[d H]]; auto. right. cbn [as_] in H. apply bind_ok in H as (x & H & _). now apply as_array_c_ok in H.
    - inversion Hlaw; subst. rewrite array_m_c; auto.
      + apply bind_ext. intros l Hl. rewrite (mapM_ext (as_rv E t) (as_ E t)); auto.
        apply as_array_c_wf in Hl; auto. rewrite Forall_forall in *. intros x Hx. apply as_rv_eq; auto.
      + destruct H as [H|[d H]]; auto. right. cbn [as_] in H. apply bind_ok in H as (x & H & _). now apply as_array_c_ok in H.
    - inversion Hlaw; subst. rewrite array_m_c; auto.
      + apply bind_ext. intros l Hl. rewrite (mapM_ext (as_rv E t) (as_ E t)); auto.
        apply as_array_c_wf in Hl; auto. rewrite Forall_forall in *. intros x Hx. apply as_rv_eq; auto.
      + destruct H as [H|[d H]]; auto. right. cbn [as_] in H. apply bind_ok in H as (x & H & _). now apply as_array_c_ok in H.
    - assert (Hts : Forall (lawful wf) ts) by (inversion Hlaw; auto). clear Hlaw.
      assert (G : v_empty v = Ok false \/ (exists l, as_array_c v = Ok l) ->
        (do l <- snd (as_array_m v); if Nat.eqb (length l) (length ts) then do r <- as_tuple (as_rv E) ts l; Ok (DSeq r) else Throw JsonException)
        = (do l <- as_array_c v; if Nat.eqb (length l) (length ts) then do r <- as_tuple (as_ E) ts l; Ok (DSeq r) else Throw JsonException)).
      { intros G. rewrite array_m_c; auto.
        - apply bind_ext. intros l Hl. rewrite as_tuple_rv; auto. eapply as_array_c_wf; eauto.
        - destruct G as [G|[l G]]; auto. right. now apply as_array_c_ok in G. }
      destruct ts as [|t1 [|t2 ts]].
      + apply G. destruct H as [H|[d H]]; auto. right. cbn [as_] in H. apply bind_ok in H as (x & H & _). eauto.
      + inversion IH as [|? ? IH1 _]; subst. inversion Hts; subst. rewrite IH1; auto. destruct H as [H|[d H]]; auto. right. cbn [as_] in H. apply bind_ok in H as (x & H & _). eauto.
      + apply G. destruct H as [H|[d H]]; auto. right. cbn [as_] in H. apply bind_ok in H as (x & H & _). eauto.
    - assert (Hts : Forall (lawful wf) ts) by (inversion Hlaw; auto). clear Hlaw.
      cbn [as_] in H. destruct (chosen ts) as [n|] eqn:En; [|now apply as_variant_rv].
      apply chosen_implicit in En as (t & Hn & _). rewrite (as_alternative_nth _ _ _ _ _ Hn) in H. rewrite !(as_alternative_nth _ _ _ _ _ Hn).
      apply nth_error_In in Hn. rewrite Forall_forall in IH, Hts. rewrite IH; auto. destruct H as [H|[d H]]; auto.
      right. apply bind_ok in H as (x & H & _). eauto.
    - inversion Hlaw; subst. rewrite object_m_c; auto.
      + apply bind_ext. intros l Hl. rewrite (mapM_members_ext (as_rv E t) (as_ E t)); auto.
        apply as_object_c_wf in Hl; auto. rewrite Forall_forall in *. intros x Hx. now apply as_rv_eq; [|apply Hl].
      + destruct H as [H|[d H]]; auto. right. cbn [as_] in H. apply bind_ok in H as (x & H & _). now apply as_object_c_ok in H.
    - now apply as_rv_eq.
  Qed.

  (** ** C44 *)
  Theorem variant_first ts v : Forall (exact E) ts -> by_operator ts -> wf v ->
    (exists a t b d, ts = a ++ t :: b /\ Forall (fun t' => is_ E t' v = Ok false) a /\ is_ E t v = Ok true /\
       as_ E t v = Ok d /\ as_ E (TVar ts) v = Ok (DAlt (length a) d)) \/
    (Forall (fun t' => is_ E t' v = Ok false) ts /\ as_ E (TVar ts) v = Throw JsonException).
  Proof.
    intros Hx Hn Hv. cbn [as_]. rewrite by_operator_chosen by auto. clear Hn.
    assert (G : forall n, (exists a t b d, ts = a ++ t :: b /\ Forall (fun t' => is_ E t' v = Ok false) a /\ is_ E t v = Ok true /\
       as_ E t v = Ok d /\ as_variant E (as_ E) n ts v = Ok (DAlt (n + length a) d)) \/
      (Forall (fun t' => is_ E t' v = Ok false) ts /\ as_variant E (as_ E) n ts v = Throw JsonException)); [|exact (G O)].
    induction Hx as [|t ts Ht _ IH]; intros n; cbn.
    - right. split; auto. now apply wf_type_error.
    - destruct (exact_decides E t Ht v Hv) as [[Hi [d Hd]]|[Hi Hd]]; rewrite Hi; cbn [bind].
      + left. exists [], t, ts, d. rewrite Hd. cbn. splits; auto. do 2 f_equal. lia.
      + destruct (IH (S n)) as [(a & t' & b & d & -> & H1 & H2 & H3 & H4)|[H1 H2]].
        * left. exists (t :: a), t', b, d. splits; auto. rewrite H4. cbn. do 2 f_equal. lia.
        * right. auto.
  Qed.
  Lemma to_variant_split ts : forall i d t, nth_error ts i = Some t -> to_variant (to_value E) ts i d = to_value E t d.
  Proof. induction ts as [|t' ts IH]; intros [|i] d t H; try discriminate; cbn in *; [congruence|auto]. Qed.

  (** ** C33, C34 *)
  Lemma good_field_cases v f t : exact E t -> wf v ->
    match v_find_value_key (json_key f) v with
    | Ok (Some w) => member v (json_key f) w /\ decides (is_ E t w) (as_ E t w)
    | Ok None => forall w, ~ member v (json_key f) w
    | _ => False
    end.
  Proof.
    intros Hx Hv. destruct (wf_find v (json_key f) Hv) as (o & -> & Ho). destruct o as [w|].
    - assert (Hm : member v (json_key f) w) by now apply Ho. split; auto. apply exact_decides; auto. eapply wf_member; eauto.
    - intros w X. apply Ho in X. discriminate.
  Qed.
  Lemma member_fun v k w w' : wf v -> member v k w -> member v k w' -> w = w'.
  Proof.
    intros Hv (m & -> & H) (m' & [= <-] & H'). inversion Hv; subst.
    match goal with X : sorted_keys m |- _ => apply sorted_NoDup in X end.
    apply map_find_some in H; auto. apply map_find_some in H'; auto. congruence.
  Qed.
  Theorem load_spec v fs : wf v -> Forall (fun ft => exact E (snd ft)) fs -> forall cur, length cur = length fs ->
    exists a b cura curb new o,
      fs = a ++ b /\ cur = cura ++ curb /\ length cura = length a /\ length new = length a /\
      Forall (good_field E v) a /\
      (forall i ft x y, nth_error a i = Some ft -> nth_error cura i = Some x -> nth_error new i = Some y -> loaded E v ft x y) /\
      check_json E fs v = Ok o /\ from_json E fs v cur = (new ++ curb, Ok o) /\
      ((b = [] /\ o = None) \/
       (exists f t b' k, b = (f, t) :: b' /\ ~ good_field E v (f, t) /\ effective_key f k /\ o = Some k)).
  Proof.
    intros Hv. induction 1 as [|[f t] fs Hx Hfs IH]; intros cur Hc.
    - destruct cur; [|discriminate]. exists [], [], [], [], [], None. cbn. splits; auto. intros [|]; discriminate.
    - destruct cur as [|c cur]; [discriminate|]. cbn [snd] in Hx. cbn in Hc. injection Hc as Hc.
      unfold check_json, from_json in *. cbn [check_fields load_fields].
      pose proof (good_field_cases v f t Hx Hv) as G.
      destruct (v_find_value_key (json_key f) v) as [o| | | |]; try easy. cbn [bind].
      assert (Stop : forall (bad : ~ good_field E v (f, t)),
        exists a b cura curb new o, (f, t) :: fs = a ++ b /\ c :: cur = cura ++ curb /\ length cura = length a /\ length new = length a /\
          Forall (good_field E v) a /\
          (forall i ft x y, nth_error a i = Some ft -> nth_error cura i = Some x -> nth_error new i = Some y -> loaded E v ft x y) /\
          Ok (Some (json_key f)) = Ok o /\ (c :: cur, Ok (Some (json_key f))) = (new ++ curb, Ok o) /\
          ((b = [] /\ o = None) \/ (exists f t b' k, b = (f, t) :: b' /\ ~ good_field E v (f, t) /\ effective_key f k /\ o = Some k))).
      { intros bad. exists [], ((f, t) :: fs), [], (c :: cur), [], (Some (json_key f)). cbn. splits; auto.
        - intros [|]; discriminate.
        - right. exists f, t, fs, (json_key f). splits; auto. now apply effective_key_spec. }
      assert (Go : forall d, loaded E v (f, t) c d -> good_field E v (f, t) ->
        exists a b cura curb new o, (f, t) :: fs = a ++ b /\ c :: cur = cura ++ curb /\ length cura = length a /\ length new = length a /\
          Forall (good_field E v) a /\
          (forall i ft x y, nth_error a i = Some ft -> nth_error cura i = Some x -> nth_error new i = Some y -> loaded E v ft x y) /\
          check_fields (is_ E) fs v = Ok o /\ (let '(r, o) := load_fields E (as_ E) fs v cur in (d :: r, o)) = (new ++ curb, Ok o) /\
          ((b = [] /\ o = None) \/ (exists f t b' k, b = (f, t) :: b' /\ ~ good_field E v (f, t) /\ effective_key f k /\ o = Some k))).
      { intros d Hd Hg. destruct (IH cur Hc) as (a & b & cura & curb & new & o' & -> & -> & H1 & H2 & H3 & H4 & H5 & H6 & H7).
        exists ((f, t) :: a), b, (c :: cura), curb, (d :: new), o'. rewrite H6. cbn [app length]. splits; auto.
        intros [|i] ft x y Ha Hb Hc'; cbn in Ha, Hb, Hc'; [|eauto]. injection Ha as <-. injection Hb as <-. injection Hc' as <-. exact Hd. }
      destruct o as [w|].
      + destruct G as [Hm [[Hi [d Hd]]|[Hi Ha]]].
        * rewrite Hi, Hd. cbn [bind]. apply Go.
          { exists (json_key f). split; [now apply effective_key_spec|]. left. eauto. }
          { left. exists w, (json_key f). splits; eauto. now apply effective_key_spec. }
        * rewrite Hi. cbn [bind]. apply Stop. intros [(w' & k & Hk & Hm' & d & Hd)|(k & Hk & Hm' & _)]; apply effective_key_spec in Hk; cbn in Hk; subst k.
          { rewrite (member_fun v (json_key f) w' w) in Hd by auto. cbn in Hd. congruence. }
          { eapply Hm'; eauto. }
      + destruct (is_optional f) eqn:Ef.
        * apply Go.
          { exists (json_key f). split; [now apply effective_key_spec|]. right. auto. }
          { right. exists (json_key f). splits; auto; [now apply effective_key_spec|]. now apply is_optional_spec. }
        * apply Stop. intros [(w' & k & Hk & Hm' & d & Hd)|(k & Hk & Hm' & Ho)]; apply effective_key_spec in Hk; cbn in Hk; subst k.
          { eapply G; eauto. }
          { apply is_optional_spec in Ho. cbn in Ho. congruence. }
  Qed.
  Theorem struct_round_trip fs l : faithful E (TRec fs) (DRec l) ->
    exists v, to_json E fs l = Ok v /\ check_json E fs v = Ok None /\
      forall cur, length cur = length fs -> from_json E fs v cur = (l, Ok None).
  Proof.
    intros H. inversion H as [ | | | | | | | | | | | | | | | | | | | | | |fs' l' Hf Hk|]; subst.
    destruct (survives_rec E fs l Hk) as (o & Ho & _ & _ & _ & Hc & Hl).
    - clear - Hf. induction Hf; constructor; auto. now apply faithful_survives.
    - exists (v_object o). unfold to_json. cbn [to_value]. rewrite Ho. auto.
  Qed.
  Theorem struct_members fs l : faithful E (TRec fs) (DRec l) ->
    exists m, to_json E fs l = Ok (v_object m) /\ forall k w, In (k, w) m <->
      exists i f t d, nth_error fs i = Some (f, t) /\ nth_error l i = Some d /\ effective_key f k /\ to_value E t d = Ok w.
  Proof.
    intros H. inversion H as [ | | | | | | | | | | | | | | | | | | | | | |fs' l' Hf Hk|]; subst.
    destruct (survives_rec E fs l Hk) as (o & Ho & _ & _ & Hin & _).
    - clear - Hf. induction Hf; constructor; auto. now apply faithful_survives.
    - exists o. unfold to_json. cbn [to_value]. rewrite Ho. split; auto. intros k w. rewrite Hin.
      split; intros (i & f & t & d & H1 & H2 & H3 & H4); exists i, f, t, d; splits; auto; now apply effective_key_spec.
  Qed.
End Env.

(** ** C49 *)
Lemma after_seq (f : data -> data) l : (forall d, f d = d) -> map f l = l.
Proof. intros H. induction l; cbn; auto. now rewrite H, IHl. Qed.
Theorem source_kept t :
  (no_wrapper t -> forall d, after Lvalue t d = d /\ after Const t d = d) /\
  (const_safe t -> forall d, after Const t d = d).
Proof.
  assert (Tup : forall ts, Forall (fun t => (no_wrapper t -> forall d, after Lvalue t d = d /\ after Const t d = d) /\
      (const_safe t -> forall d, after Const t d = d)) ts -> Forall const_safe ts -> forall l, after_tuple (after Const) ts l = l).
  { induction 1 as [|t' ts [_ Ht] _ IH]; intros Hc l; [now destruct l|]. inversion Hc; subst. destruct l; cbn; auto. now rewrite Ht, IH. }
  assert (Var : forall ts, Forall (fun t => (no_wrapper t -> forall d, after Lvalue t d = d /\ after Const t d = d) /\
      (const_safe t -> forall d, after Const t d = d)) ts -> Forall const_safe ts -> forall i d, after_variant (after Const) ts i d = d).
  { induction 1 as [|t' ts [_ Ht] _ IH]; intros Hc i d; [now destruct i|]. inversion Hc; subst. destruct i; cbn; auto. }
  assert (Rec : forall fs : list (field * ty), Forall (fun ft => (no_wrapper (snd ft) -> forall d, after Lvalue (snd ft) d = d /\ after Const (snd ft) d = d) /\
      (const_safe (snd ft) -> forall d, after Const (snd ft) d = d)) fs -> Forall (fun ft => const_safe (snd ft)) fs -> forall l, after_fields (after Const) fs l = l).
  { induction 1 as [|[f t'] fs [_ Ht] _ IH]; intros Hc l; [now destruct l|]. inversion Hc; subst. destruct l; cbn in *; auto. now rewrite Ht, IH. }
  assert (NW : forall t, (no_wrapper t -> forall d, after Lvalue t d = d /\ after Const t d = d) ->
     (forall t', t = TOpt t' -> const_safe t' -> forall d, after Const t d = d) ->
     (forall t', t = TPtr t' -> no_wrapper t' -> forall d, after Const t d = d) ->
     (no_wrapper t -> forall d, after Lvalue t d = d /\ after Const t d = d) /\ (const_safe t -> forall d, after Const t d = d)).
  { intros t0 H1 H2 H3. split; auto. intros Hc d. inversion Hc; subst; [now apply H1|eapply H2; eauto|eapply H3; eauto]. }
  induction t as [ | | | |sg w|p| | | | |t IH|t IH|t IH|lt t IH|n t IH|ts IH|ts IH|t IH|e|fs IH|x] using ty_ind'; apply NW; try discriminate.
  all: try (intros Hn d; split; destruct d; reflexivity).
  - intros Hn. inversion Hn.
  - intros t' [= <-] Hc d. destruct d; try reflexivity. destruct d as [d|]; [|reflexivity]. cbn. now rewrite (proj2 IH).
  - intros Hn. inversion Hn.
  - intros t' [= <-] Hc d. destruct d; try reflexivity. destruct d as [d|]; [|reflexivity]. cbn. now rewrite (proj1 (proj1 IH Hc d)).
  - intros Hn d. inversion Hn; subst. destruct d; try (split; reflexivity). cbn. rewrite after_seq by (now apply IH). auto.
  - intros Hn d. inversion Hn; subst. destruct d; try (split; reflexivity). cbn. rewrite after_seq by (now apply IH). auto.
  - intros Hn d. inversion Hn; subst. destruct d; try (split; reflexivity). cbn. rewrite after_seq by (now apply IH). auto.
  - intros Hn d. inversion Hn; subst. destruct d; try (split; reflexivity). cbn. rewrite Tup by auto. auto.
  - intros Hn d. inversion Hn; subst. destruct d; try (split; reflexivity). cbn. rewrite Var by auto. auto.
  - intros Hn d. inversion Hn; subst. destruct d; try (split; reflexivity). cbn.
    assert (X : map (fun kd : bytes * data => (fst kd, after Const t (snd kd))) m = m).
    { clear - IH H0. induction m as [|[k d] m IHm]; cbn; auto. rewrite IHm. now rewrite (proj2 IH). }
    rewrite X. auto.
  - intros Hn d. inversion Hn; subst. destruct d; try (split; reflexivity). cbn. rewrite Rec by auto. auto.
Qed.

(** ** C31 *)
Theorem int_text_round_trip jsonc be sg w z : fits sg w z ->
  exists t v, dumps None (v_array [v_int z]) = Ok t /\ parse jsonc be t = Ok (Some v) /\
  exists x, arr_at 0 [v_int z] = Ok x /\ v = v_array [x] /\ as_int sg w x = Ok z.
Proof.
  intros Hf. assert (Hw : wf (v_array [v_int z])) by (constructor; constructor; [apply v_int_wf|constructor]).
  destruct (compact_round_trip jsonc be (v_array [v_int z]) Hw) as (t & Ht & Hp).
  - repeat constructor. discriminate.
  - left. eexists. reflexivity.
  - exists t, (v_array [v_int z]). splits; auto. exists (v_int z). splits; auto. now apply int_round_trip.
Qed.

(** ** C35, C50 *)
Section Enums.
  Context (e : enum) (Ho : ordinary e).
  Theorem enum_value_round_trip E n z : enum_as_number E = false -> distinct_enumerators e -> enumerator e n z -> in_reflection_range e z ->
    exists m, main_name e m z /\
    to_value E (TEnum e) (DInt z) = Ok (v_string m) /\ is_ E (TEnum e) (v_string m) = Ok true /\ as_ E (TEnum e) (v_string m) = Ok (DInt z).
  Proof.
    intros HE Hd Hn Hr. destruct (main_name_ex e z (ex_intro _ n Hn)) as [m Hm]. exists m.
    destruct (enum_round_trip e Ho m z Hd Hm Hr) as (H1 & H2 & H3).
    cbn [to_value is_ as_]. unfold v_enum, is_enum, as_enum. rewrite HE, H1. cbn [bind is_string type_of vtype_eqb v_string get_str].
    rewrite H2. destruct m; [congruence|auto].
  Qed.
  Theorem enum_lookup E s :
    (is_ E (TEnum e) (v_string s) = Ok true <-> exists n z, main_name e n z /\ reflected e z /\ same_name n s) /\
    (forall z, as_ E (TEnum e) (v_string s) = Ok (DInt z) -> exists n, main_name e n z /\ reflected e z /\ same_name n s).
  Proof.
    cbn [is_ as_]. unfold is_enum, as_enum. cbn [bind is_string type_of vtype_eqb v_string get_str].
    pose proof (string_to_enum_spec e Ho s) as H. destruct (string_to_enum e s) as [z0|].
    - destruct H as (Hr & (n & Hm & Hs)). split.
      + split; eauto.
      + intros z [= <-]. eauto.
    - split.
      + split; [discriminate|]. intros (n & z & Hn & Hr & Hs). exfalso. apply (H z Hr). exists n. split; auto.
      + discriminate.
  Qed.
  Theorem enum_first E s z : as_ E (TEnum e) (v_string s) = Ok (DInt z) ->
    exists i, converts e i z /\ in_reflection_range e i /\
    forall i' z' n, in_reflection_range e i' -> (i' < i)%Z -> converts e i' z' -> main_name e n z' -> ~ same_name n s.
  Proof.
    cbn [as_]. unfold as_enum. cbn [bind is_string type_of vtype_eqb v_string get_str].
    destruct (string_to_enum e s) as [z0|] eqn:E0; [|discriminate]. intros [= <-].
    destruct (string_to_enum_first e Ho s z0 E0) as (i & H1 & H2 & H3). exists i. splits; auto.
    intros i' z' n Hi Hlt Hc Hm Hs. apply (H3 i' z' Hi Hlt Hc). exists n. auto.
  Qed.
  Theorem enum_names z : (exists n, main_name e n z /\ e_name e z = n /\ name_is_valid n = true) \/
    ((forall n, ~ enumerator e n z) /\ name_is_valid (e_name e z) = false).
  Proof.
    destruct (enumerator_dec e z) as [H|H].
    - left. apply main_name_ex in H as [n H]. exists n. split; auto.
      pose proof (or_names e Ho _ _ (main_name_enumerator _ _ _ H)) as Hi. apply name_is_valid_spec in Hi.
      destruct H as (a & b & E & Hn). split; auto.
      apply (e_name_some e (or_text e Ho) (or_names e Ho) n). exact (first_name_some _ _ n a b E Hn).
    - right. split; auto. apply (e_name_none e (or_text e Ho) (or_names e Ho)). apply first_name_none. exact H.
  Qed.
  Theorem enum_safe E z : enum_as_number E = false -> has_type (TEnum e) (DInt z) -> fits true 32 z -> fits true 32 (z - e_lo e) ->
    (exists n, main_name e n z /\ to_value E (TEnum e) (DInt z) = Ok (v_string n)) \/
    ((forall n, ~ enumerator e n z) \/ ~ in_reflection_range e z) /\ to_value E (TEnum e) (DInt z) = Throw JsonException.
  Proof.
    intros HE Ht H1 H2. cbn [to_value]. unfold v_enum. rewrite HE.
    assert (Hi : to_int z = z) by (apply wrap_same; [lia|exact H1]).
    assert (Hc : e_cast e z = z).
    { apply e_cast_same; [exact (or_width e Ho)|]. unfold representable. inversion Ht; subst; match goal with X : e_underlying e = _ |- _ => rewrite X end; auto. }
    unfold enum_to_string. rewrite Hi. apply in_int_fits in H2. rewrite H2. cbn [negb].
    destruct ((0 <=? z - e_lo e)%Z && (z - e_lo e <? e_range e)%Z) eqn:Er.
    - replace (z - e_lo e + e_lo e)%Z with z by lia. cbn [bind].
      destruct (name_at_cases e Ho z) as [(n & Hm & -> & Hn)|[Hn ->]]; rewrite Hc in *.
      + left. exists n. split; auto. destruct n; [congruence|reflexivity].
      + right. split; auto.
    - right. split; [|reflexivity]. right. unfold in_reflection_range, e_range in *. lia.
  Qed.
End Enums.

(** ** In the form of the properties *)
Lemma get_value E t d ks v : exact E t -> t <> TNullptr -> t <> TView -> ks <> [] -> Forall int_key ks -> wf v -> addressable v ->
  get_spec E t d ks v (v_get E t d ks v).
Proof. intros. now apply v_get_spec. Qed.
Lemma find_key E t v k : exact E t -> wf v -> find_spec E t (KStr k) v (v_find_key E t k v).
Proof. intros Hx Hv. now apply v_find_spec. Qed.
Lemma find_pos E t v n : exact E t -> wf v -> n < 2 ^ 64 -> find_spec E t (KInt (Z.of_N n)) v (v_find_pos E t n v).
Proof. intros Hx Hv. now apply v_find_spec. Qed.
Lemma obj_find_spec E t m k : exact E t -> wf (v_object m) -> find_spec E t (KStr k) (v_object m) (obj_find E t k m).
Proof. intros X W. exact (find_key E t (v_object m) k X W). Qed.
Lemma arr_find_spec E t l n : exact E t -> wf (v_array l) -> n < 2 ^ 64 -> find_spec E t (KInt (Z.of_N n)) (v_array l) (arr_find E t n l).
Proof. intros X W L. exact (find_pos E t (v_array l) n X W L). Qed.
Lemma int_back sg w z : fits sg w z -> wf (v_int z) /\ as_int sg w (v_int z) = Ok z.
Proof. intros H. split; [apply v_int_wf|now apply int_round_trip]. Qed.
Lemma faithful_round_trip E t d : faithful E t d ->
  exists v, to_value E t d = Ok v /\ wf v /\ is_ E t v = Ok true /\ as_ E t v = Ok d.
Proof. intros H. destruct (faithful_survives E t d H) as (v & H1 & H2 & _ & H3 & H4). exists v. auto. Qed.
Lemma native_round_trip E t d : native t -> has_type t d -> no_nullopt d ->
  exists v, to_value E t d = Ok v /\ wf v /\ is_ E t v = Ok true /\ as_ E t v = Ok d.
Proof. intros H1 H2 H3. apply faithful_round_trip. now apply native_faithful. Qed.
Lemma checked_loads E v fs cur : wf v -> Forall (fun ft => exact E (snd ft)) fs -> length cur = length fs ->
  (check_json E fs v = Ok None <-> exists new, from_json E fs v cur = (new, Ok None)).
Proof.
  intros Hv Hf Hc. destruct (load_spec E v fs Hv Hf cur Hc) as (a & b & cura & curb & new & o & _ & _ & _ & _ & _ & _ & H1 & H2 & _).
  rewrite H1, H2. split; [intros [= ->]; eauto|intros (x & [= _ ->]); auto].
Qed.
Lemma first_field_bad E v f t fs cur : wf v -> Forall (fun ft => exact E (snd ft)) ((f, t) :: fs) ->
  length cur = length ((f, t) :: fs) -> ~ good_field E v (f, t) ->
  exists k, from_json E ((f, t) :: fs) v cur = (cur, Ok (Some k)).
Proof.
  intros Hv Hf Hc Hb. destruct (load_spec E v _ Hv Hf cur Hc) as (a & b & cura & curb & new & o & Ha & -> & La & Ln & Hg & _ & _ & H & Ho).
  destruct a as [|x a].
  - destruct cura; [|discriminate]. destruct new; [|discriminate]. rewrite H. cbn in *. destruct Ho as [[-> _]|(? & ? & ? & k & _ & _ & _ & ->)]; [discriminate|eauto].
  - exfalso. cbn in Ha. injection Ha as <- _. inversion Hg; auto.
Qed.
Lemma variant_round_trip E a t b d : faithful E t d -> by_operator (a ++ t :: b) ->
  (forall t' v, In t' a -> to_value E t d = Ok v -> is_ E t' v = Ok false) ->
  exists v, to_value E (TVar (a ++ t :: b)) (DAlt (length a) d) = Ok v /\
  as_ E (TVar (a ++ t :: b)) v = Ok (DAlt (length a) d).
Proof.
  intros H1 H2 H3. destruct (faithful_round_trip E (TVar (a ++ t :: b)) (DAlt (length a) d)) as (v & Hv & _ & _ & Ha); [|eauto].
  now constructor.
Qed.
Lemma source_kept_plain t : no_wrapper t -> forall d, after Lvalue t d = d /\ after Const t d = d.
Proof. apply source_kept. Qed.
Lemma source_kept_const t : const_safe t -> forall d, after Const t d = d.
Proof. apply source_kept. Qed.
(** MEOJSON_ENUM_AS_NUMBER: the number, which comes back; an enumeration with the underlying type bool becomes a boolean,
    which is<T>() accepts and as<T>() does not *)
Lemma enum_numbers E e z : enum_as_number E = true -> has_type (TEnum e) (DInt z) ->
  (forall lo hi, e_values e = Some (lo, hi) -> (lo <= z <= hi)%Z) ->
  (e_underlying e <> None /\ to_value E (TEnum e) (DInt z) = Ok (v_int z) /\
   is_ E (TEnum e) (v_int z) = Ok true /\ as_ E (TEnum e) (v_int z) = Ok (DInt z)) \/
  (e_underlying e = None /\ exists b, (b = true <-> z <> 0%Z) /\ to_value E (TEnum e) (DInt z) = Ok (v_bool b) /\
   is_ E (TEnum e) (v_bool b) = Ok true /\ as_ E (TEnum e) (v_bool b) = Throw JsonException).
Proof.
  intros Hn Ht Hr. cbn [to_value is_ as_]. unfold v_enum. rewrite Hn. inversion Ht; subst; match goal with X : e_underlying e = _ |- _ => rewrite X; pose proof X as Hu end.
  - right. split; auto. exists (negb (z =? 0)%Z). destruct (Z.eqb_spec z 0); cbn [negb]; splits; try (split; congruence);
    first [now unfold is_enum; rewrite Hu|now unfold as_enum; rewrite Hu].
  - left. split; [discriminate|]. unfold is_enum, as_enum. rewrite Hu. cbn [v_int v_number is_string is_number type_of vtype_eqb get_str bind negb].
    change (VStr Tnumber (to_string_Z z)) with (v_int z). rewrite try_parse_to_string, int_round_trip by auto. cbn [bind].
    splits; auto. unfold to_enum. destruct (e_values e) as [[lo hi]|]; auto. specialize (Hr lo hi eq_refl).
    destruct (lo <=? z)%Z eqn:A, (z <=? hi)%Z eqn:B; cbn; auto; lia.
Qed.
Lemma view_get_cons E d k ks v : wf v ->
  (fits_key k v -> v_get E TView d (k :: ks) v = Ub) /\ (~ fits_key k v -> v_get E TView d (k :: ks) v = Ok d).
Proof. intros Hv. exact (view_get E d (k :: ks) ltac:(discriminate) v Hv k ks eq_refl). Qed.
