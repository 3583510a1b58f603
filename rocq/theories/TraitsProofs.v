(** * Proofs about Traits.v. *)
From Verif Require Import Base Value Num Enum Conv Traits SpecTraits.
From Coq Require Import Lia.

(** ** The traits and what a class looks like *)
Lemma container_spec f : is_container f = true <->
  f_value_type f = true /\ f_range f = Some true /\ f_traits_type f <> Some true.
Proof.
  unfold is_container, is_string_t. destruct (f_value_type f), (f_range f) as [[]|], (f_traits_type f) as [[]|]; cbn;
    intuition (try congruence).
Qed.
Lemma map_spec f : is_map f = true <->
  is_container f = true /\ (exists k, f_key_type f = Some k) /\ f_mapped_type f = true.
Proof.
  unfold is_map. destruct (f_key_type f) as [k|], (f_mapped_type f), (is_container f); cbn; intuition (try congruence);
    try (eexists; reflexivity); match goal with H : exists _, _ |- _ => destruct H; discriminate end.
Qed.
Lemma fixed_spec f : is_fixed_array f = true <-> f_form f = FTypeSize.
Proof. unfold is_fixed_array. destruct (f_form f); intuition congruence. Qed.
Lemma looks_wrapper f : is_nullable f = true -> looks f GWrapper.
Proof. unfold is_nullable. destruct (f_bool f) eqn:B, (f_deref f) eqn:D; cbn; try discriminate. intros _. eapply lk_wrapper; eassumption. Qed.
Lemma looks_fixed f : is_fixed_array f = true -> looks f GFixed.
Proof. intros H. apply lk_fixed, fixed_spec, H. Qed.
Lemma looks_tuple f : is_tuple_like f = true -> looks f GTuple.
Proof.
  unfold is_tuple_like. destruct (f_form f) eqn:F; try discriminate. destruct (f_tuple_size f) eqn:S; try discriminate.
  intros E. apply Nat.eqb_eq in E. subst. eapply lk_tuple; eassumption.
Qed.
Lemma looks_map f : is_map f = true -> looks f GMap.
Proof.
  intros H. apply map_spec in H. destruct H as (C & (k & K) & M). apply container_spec in C.
  eapply lk_map; intuition eassumption.
Qed.
Lemma looks_sequence f : is_collection f = true -> looks f GSequence.
Proof.
  unfold is_collection. intros H. apply andb_prop in H. destruct H as [H F]. apply andb_prop in H. destruct H as [C M].
  pose proof (proj1 (container_spec f) C) as (C1 & C2 & C3). apply lk_sequence; auto.
  - destruct (f_key_type f) as [k|] eqn:K; auto. destruct (f_mapped_type f) eqn:Mp; auto. exfalso.
    assert (is_map f = true) as E by (apply map_spec; eauto). rewrite E in M. discriminate.
  - intros E. apply fixed_spec in E. rewrite E in F. discriminate.
Qed.
Lemma not_fixed_tuple f : is_fixed_array f = true -> is_tuple_like f = true -> False.
Proof. unfold is_fixed_array, is_tuple_like. destruct (f_form f); discriminate. Qed.

(** At most one of the traits holds. *)
Lemma one_face_traits f : one_face f ->
  let l := [is_nullable f; f_to_string f; is_fixed_array f; is_tuple_like f; is_collection f; is_map f] in
  l = [false; false; false; false; false; false] \/ l = [true; false; false; false; false; false] \/
  l = [false; true; false; false; false; false] \/ l = [false; false; true; false; false; false] \/
  l = [false; false; false; true; false; false] \/ l = [false; false; false; false; true; false] \/
  l = [false; false; false; false; false; true].
Proof.
  intros H.
  pose proof (looks_wrapper f) as L1. pose proof (lk_text f) as L2. pose proof (looks_fixed f) as L3.
  pose proof (looks_tuple f) as L4. pose proof (looks_sequence f) as L5. pose proof (looks_map f) as L6.
  destruct (is_nullable f), (f_to_string f), (is_fixed_array f), (is_tuple_like f), (is_collection f), (is_map f); cbn;
    tauto ||
    (exfalso; repeat match goal with L : true = true -> _ |- _ => specialize (L eq_refl) end;
     repeat match goal with L : looks f ?g, M : looks f ?h |- _ =>
       assert_fails (constr_eq g h); pose proof (H _ _ L M); discriminate end).
Qed.

(** ** Agreement *)
Definition standard (T : cpptype) : Prop :=
  (no_functions T /\ own_meaning T) \/ (customizable T /\ (member_functions T \/ extension_functions T)).
Ltac expose :=
  unfold construct, plain_candidates, template_candidates, is_branch, as_select, as_select_rv, convert, operators, has_to_json,
    has_from_json, to_member, to_ext, feat;
  cbn [c_identity c_ext c_user features_of is_value_t is_array_t is_object_t is_enum_t is_path_t is_variant_t e_to_json
    e_check_json e_from_json e_move_to_json e_move_from_json].
Ltac crush := vm_compute; intros; repeat match goal with
  | H : Chosen _ = Chosen _ |- _ => injection H as H; subst
  | H : Some _ = Some _ |- _ => injection H as H; subst
  | H : ?x = ?x -> _ |- _ => specialize (H eq_refl) end; try congruence.

Lemma construct_kind T c : standard T -> c <> ConstRvalue ->
  construct T c <> Ambiguous /\
  (forall k g b, construct T c = Chosen k -> ctor_kind k = Some g -> is_branch T = Some b -> branch_kind b = g).
Proof.
  intros S Hc. destruct T as [i x u]. destruct S as [[(E & T1 & T2 & T3) [O U]]|[C F]].
  - cbn [c_ext c_identity c_user feat] in *. subst x. destruct i as [s|us| | | | | | | | |it p|p|p|n|f].
    all: try (subst u).
    + destruct s, c; try contradiction; split; crush.
    + destruct c; split; crush.
    + contradiction.
    + destruct c; split; crush.
    + destruct c; split; crush.
    + destruct c; split; crush.
    + destruct c; split; crush.
    + destruct c; split; crush.
    + destruct c; split; crush.
    + destruct c; split; crush.
    + subst it. destruct p, c; split; crush.
    + destruct p, c; split; crush.
    + destruct p, c; split; crush.
    + destruct n, c; split; crush.
    + destruct O as [One Imp]. clear U. unfold feat in *. cbn [features_of c_identity] in *.
      assert (Hu : u = None \/ exists k, u = Some (Some k) /\ ctor_kind k = Some GText /\ looks f GText).
      { destruct u as [w|]; auto. right. destruct (Imp _ eq_refl) as [L (k & -> & K)]. eauto. }
      clear Imp. expose. rewrite T1, T2.
      pose proof (one_face_traits f One) as Cs. cbv zeta in Cs.
      assert (Ht : (exists k, u = Some (Some k)) -> f_to_string f = true).
      { intros [k ->]. destruct Hu as [|(k' & _ & _ & L)]; [discriminate|]. inversion L. assumption. }
      destruct Cs as [Cs|[Cs|[Cs|[Cs|[Cs|[Cs|Cs]]]]]]; injection Cs as E1 E2 E3 E4 E5 E6; rewrite E1, E2, E3, E4, E5, E6 in *;
        destruct Hu as [->|(k & -> & K & _)]; try (specialize (Ht (ex_intro _ _ eq_refl)); discriminate).
      all: destruct (pointee f), (string_key f), c; try contradiction; split; cbn; intros; try discriminate;
        repeat match goal with
        | H : Chosen _ = Chosen _ |- _ => injection H as H; subst
        | H : Some _ = Some _ |- _ => injection H as H; subst end; cbn in *; congruence.
  - destruct F as [(E & T1 & T2 & T3)|((mt & mf & E) & T1 & T2 & T3)]; cbn [c_ext] in E; subst x; unfold feat in *;
      cbn [c_identity] in *.
    + destruct i; try contradiction; try discriminate. cbn [features_of] in *. expose. rewrite T1, T2.
      destruct u as [[k|]|], c; try contradiction; split; cbn;
        repeat rewrite ?andb_false_r, ?andb_true_r; cbn; intros; try discriminate;
        try (injection H as <-; injection H0 as <-; injection H1 as <-; reflexivity).
    + assert (Hg : forall c', c' <> ConstRvalue -> exists k, construct (Cpp i (Extension true true true mt mf) u) c' = Chosen k /\
                      ctor_kind k = Some GUser).
      { intros c' Hc'. destruct i; try contradiction; expose; cbn [features_of] in *; rewrite ?T1, ?T2;
          destruct u as [[k|]|], c', mt; try contradiction; cbn;
          repeat rewrite ?andb_false_r, ?andb_true_r; cbn; eauto. }
      destruct (Hg c Hc) as (k & -> & K). split; [discriminate|]. intros k' g b Ek. injection Ek as <-.
      rewrite K. intros Eg. injection Eg as <-.
      destruct i; try contradiction; unfold is_branch, feat; cbn [c_identity c_ext e_check_json is_value_t features_of] in *;
        rewrite ?T2; cbn; intros Eb; injection Eb as <-; reflexivity.
Qed.

Ltac inj := repeat match goal with
  | H : Chosen _ = Chosen _ |- _ => injection H as H; subst
  | H : Some _ = Some _ |- _ => injection H as H; subst end.
(** a class without functions of the user *)
Lemma class_convert f u rv : one_face f -> f_check_json f = false -> f_from_json f = false ->
  convert (Cpp (IClass f) no_extension u) rv <> Ambiguous /\
  forall b o g, is_branch (Cpp (IClass f) no_extension u) = Some b -> convert (Cpp (IClass f) no_extension u) rv = Chosen o ->
    op_kind (Cpp (IClass f) no_extension u) o = Some g -> branch_kind b = g.
Proof.
  intros One T2 T3. expose. unfold op_kind, array_as, object_as, feat. cbn [c_identity features_of].
  rewrite T2, T3. pose proof (one_face_traits f One) as Cs. cbv zeta in Cs.
  destruct Cs as [Cs|[Cs|[Cs|[Cs|[Cs|[Cs|Cs]]]]]]; injection Cs as E1 E2 E3 E4 E5 E6; rewrite ?E1, ?E2, ?E3, ?E4, ?E5, ?E6;
    destruct (string_key f), rv; split; cbn; intros; try discriminate; inj; cbn in *; congruence.
Qed.
Lemma as_kind T : standard T ->
  forall b g, is_branch T = Some b -> choice_kind T (as_select T) = Some g -> branch_kind b = g.
Proof.
  intros S. destruct T as [i x u]. destruct S as [[(E & T1 & T2 & T3) [O U]]|[C F]].
  - cbn [c_ext c_identity c_user feat] in *. subst x. destruct i as [s|us| | | | | | | | |it p|p|p|n|f].
    all: try (subst u).
    1: destruct s; try contradiction; crush.
    1: destruct us; crush.
    1-8: crush.
    1: subst it; destruct p; crush.
    1-2: destruct p; crush.
    1: crush.
    destruct O as [One Imp]. unfold feat in *. cbn [features_of c_identity] in *. intros b g Eb.
    unfold as_select, feat. cbn [c_identity features_of is_value_t c_ext]. rewrite T3. cbn [no_extension e_from_json choice_kind].
    destruct (class_convert f u false One T2 T3) as [_ K].
    destruct (convert _ false) eqn:Ec; cbn [choice_kind]; try discriminate. intros Eg. exact (K _ _ _ Eb eq_refl Eg).
  - destruct F as [(E & T1 & T2 & T3)|((mt & mf & E) & T1 & T2 & T3)]; cbn [c_ext] in E; subst x; unfold feat in *;
      cbn [c_identity] in *; intros b g; unfold is_branch, as_select, feat; cbn [c_identity c_ext e_check_json e_from_json];
      rewrite T2, T3; destruct i; try contradiction; cbn; intros; inj; try reflexivity; try discriminate.
Qed.
Lemma as_kind_rv T : standard T ->
  (c_ext T = no_extension \/ e_move_from_json (c_ext T) = true \/ exists f, c_identity T = IClass f) ->
  forall b g, is_branch T = Some b -> choice_kind T (as_select_rv T) = Some g -> branch_kind b = g.
Proof.
  intros S X. destruct T as [i x u]. destruct S as [[(E & T1 & T2 & T3) [O U]]|[C F]].
  - intros b g Eb Eg. apply (as_kind (Cpp i x u)); auto.
    + left. repeat split; auto.
    + cbn in E. subst x. exact Eg.
  - destruct F as [(E & T1 & T2 & T3)|((mt & mf & E) & T1 & T2 & T3)]; cbn [c_ext] in E; subst x; unfold feat in *;
      cbn [c_identity] in *; intros b g; unfold is_branch, as_select_rv, feat; cbn [c_identity c_ext e_check_json e_move_from_json];
      rewrite T2, T3; destruct i; try contradiction; cbn [is_value_t]; cbn [no_extension e_check_json e_move_from_json c_ext] in *;
      intros Eb; inj; cbn [branch_kind]; try discriminate; try (cbn; intros; inj; congruence).
    all: destruct mf; [cbn; intros; inj; congruence|].
    all: try (exfalso; destruct X as [X|[X|[f' X]]]; discriminate).
    cbn [choice_kind features_of c_identity c_ext] in *. expose. rewrite T3.
    repeat rewrite ?andb_false_r; cbn. repeat rewrite ?andb_false_r; cbn. intros; inj; congruence.
Qed.
(** A cast of an lvalue is what as<T>() does, and is not ambiguous; so is a cast of an rvalue, except to array and object. *)
Lemma cast_clear T rv : no_functions T -> own_meaning T -> convert T rv <> Ambiguous.
Proof.
  intros (E & T1 & T2 & T3) [O U]. destruct T as [i x u]. cbn [c_ext c_identity c_user feat] in *. subst x.
  destruct i as [s|us| | | | | | | | |it p|p|p|n|f].
  1: destruct s, rv; try contradiction; crush.
  1: destruct us, rv; crush.
  1-8: destruct rv; crush.
  1: subst it; destruct p, rv; crush.
  1-2: destruct p, rv; crush.
  1: destruct n, rv; crush.
  unfold feat in *. cbn [features_of c_identity] in *. destruct O as [One _]. apply class_convert; auto.
Qed.
Lemma cast_rvalue_kind T : no_functions T -> own_meaning T -> c_identity T <> IArray -> c_identity T <> IObject ->
  forall b o g, is_branch T = Some b -> convert T true = Chosen o -> op_kind T o = Some g -> branch_kind b = g.
Proof.
  intros (E & T1 & T2 & T3) [O U] NA NO. destruct T as [i x u]. cbn [c_ext c_identity c_user feat] in *. subst x.
  destruct i as [s|us| | | | | | | | |it p|p|p|n|f].
  1: destruct s; try contradiction; crush.
  1: destruct us; crush.
    1-8: crush.
  1: subst it; destruct p; crush.
  1-2: destruct p; crush.
  1: destruct n; crush.
  unfold feat in *. cbn [features_of c_identity] in *. destruct O as [One _]. apply class_convert; auto.
Qed.
