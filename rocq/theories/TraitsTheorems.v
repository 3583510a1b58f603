(** * Conversions through array and object; the types of Conv.v. *)
From Verif Require Import Base Value Num Enum Conv Traits SpecTraits TraitsProofs.
From Coq Require Import Lia.

(** conversions through as_array() and as_object() meet no failing static_assert *)
Lemma op_in T rv o : convert T rv = Chosen o -> exists a, In a (operators T rv) /\ k_name a = o.
Proof.
  unfold convert. generalize (operators T rv). intros l.
  assert (G : forall before, op_best before l = Chosen o -> exists a, In a l /\ k_name a = o).
  { induction l as [|a r IH]; intros before; cbn [op_best]; [destruct before; discriminate|].
    destruct (op_beats_all a before && op_beats_all a r).
    - intros E. injection E as <-. exists a. split; [left|]; reflexivity.
    - intros E. destruct (IH _ E) as (b & Hb & <-). exists b. split; [right; assumption|reflexivity]. }
  apply G.
Qed.
Lemma in_when {A : Type} b (x y : A) : In y (when b x) -> b = true /\ y = x.
Proof. destruct b; cbn; [intros [<-|[]]; auto|tauto]. Qed.
Lemma plain_ops T (rv : bool) a : In a
  (match c_identity T with
  | IScalar s => when (converts_scalar s) (Cand (OScalar s) Exact (ByRef (if rv then 1 else 0)) PNone)
  | IString => [Cand OString Exact (ByRef (if rv then 1 else 0)) PNone]
  | IView => when (negb rv) (Cand OView Exact (ByRef (if rv then 1 else 0)) PNone)
  | IMonostate => [Cand OMonostate Exact (ByRef (if rv then 1 else 0)) PNone]
  | IArray => [Cand OArray Exact (ByRef (if rv then 1 else 0)) PNone]
  | IObject => [Cand OObject Exact (ByRef (if rv then 1 else 0)) PNone]
  | IPath => Cand OPath Exact (ByRef (if rv then 1 else 0)) PNone :: when rv (Cand OPath Exact (ByRef 0) PNone)
  | _ => []
  end) -> (forall m, k_name a <> OSequence m) /\ (forall m, k_name a <> OMapping m).
Proof.
  destruct (c_identity T); cbn; try tauto; try (intros [<-|[]]; split; discriminate).
  - intros H. apply in_when in H. destruct H as [_ ->]. split; discriminate.
  - intros H. apply in_when in H. destruct H as [_ ->]. split; discriminate.
  - intros [<-|H]; [split; discriminate|]. apply in_when in H. destruct H as [_ ->]. split; discriminate.
Qed.
Lemma sequence_as T rv mv : convert T rv = Chosen (OSequence mv) -> exists b, array_as T = Some b.
Proof.
  intros H. destruct (op_in _ _ _ H) as (a & Ha & Na). unfold operators in Ha.
  assert (Q : (is_collection (feat T) || is_fixed_array (feat T) || is_tuple_like (feat T)) = true).
  { repeat (apply in_app_iff in Ha; destruct Ha as [Ha|Ha]);
      try (apply plain_ops in Ha; destruct Ha as [Ha _]; exfalso; exact (Ha _ Na));
      apply in_when in Ha; destruct Ha as [Hb ->]; cbn in Na; try discriminate.
    - apply andb_prop in Hb. apply Hb.
    - apply andb_prop in Hb. destruct Hb as [Hb _]. apply andb_prop in Hb. apply Hb. }
  unfold array_as. destruct (is_fixed_array (feat T)); eauto. destruct (is_collection (feat T)); eauto.
  destruct (is_tuple_like (feat T)); eauto. discriminate.
Qed.
Lemma mapping_as T rv mv : convert T rv = Chosen (OMapping mv) -> object_as T = Some BMap.
Proof.
  intros H. destruct (op_in _ _ _ H) as (a & Ha & Na). unfold operators in Ha.
  assert (Q : (is_map (feat T) && string_key (feat T)) = true).
  { repeat (apply in_app_iff in Ha; destruct Ha as [Ha|Ha]);
      try (apply plain_ops in Ha; destruct Ha as [_ Ha]; exfalso; exact (Ha _ Na));
      apply in_when in Ha; destruct Ha as [Hb ->]; cbn in Na; try discriminate.
    - apply andb_prop in Hb. apply Hb.
    - apply andb_prop in Hb. destruct Hb as [Hb _]. apply andb_prop in Hb. apply Hb. }
  unfold object_as. rewrite Q. reflexivity.
Qed.

(** ** The types of Conv.v *)
Lemma bare_faces fm vs rg ky mp sz g : looks (bare fm vs rg ky mp sz) g ->
  (g = GFixed /\ fm = FTypeSize) \/ (g = GTuple /\ exists n, fm = FTypes n /\ sz = Some n) \/
  (g = GSequence /\ vs = true /\ rg = Some true /\ (ky = None \/ mp = false) /\ fm <> FTypeSize) \/
  (g = GMap /\ vs = true /\ rg = Some true /\ ky <> None /\ mp = true).
Proof.
  destruct 1; cbn in *; try discriminate.
  - left. auto.
  - right. left. eauto.
  - right. right. left. auto 10.
  - right. right. right. repeat split; auto. congruence.
Qed.
Lemma describes_standard T t : describes T t -> standard T /\ possible T.
Proof.
  assert (P : forall i x, possible (Cpp i x None)) by (intros i x k; discriminate).
  destruct 1 as [| | |  |s sg w H|s p H| | | | | | | |t n|lt t n k|m t|ts|ts H|t n|e us He| |x]; (split; [|apply P]).
  20: cbn in He; decompose [or] He; try contradiction; match goal with E : _ = _ |- _ => injection E as <- _ end;
    left; (split; [repeat split|split; [exact I|reflexivity]]).
  5-6: cbn in H; decompose [or] H; try contradiction; match goal with E : _ = _ |- _ => injection E as <- end;
    left; (split; [repeat split|split; [exact I|reflexivity]]).
  18: right; split; [exact I|left; repeat split].
  18: right; split; [exact I|right; split; [do 2 eexists; reflexivity|repeat split]].
  12-15, 17: left; (split; [repeat split|split; [|exact I]]); split; try (intros ? ?; discriminate);
    intros g g' L L'; apply bare_faces in L; apply bare_faces in L';
    destruct L as [(-> & L)|[(-> & n1 & L & L1)|[(-> & L)|(-> & L)]]];
    destruct L' as [(-> & L')|[(-> & n2 & L' & L1')|[(-> & L')|(-> & L')]]]; try reflexivity; intuition (try congruence).
  all: left; (split; [repeat split|split; [exact I || reflexivity|exact I || reflexivity]]).
Qed.
Lemma tuple_trait ts : Nat.eqb (length (ts : list ty)) (length ts) = true.
Proof. apply Nat.eqb_refl. Qed.
Lemma universe_construct T t c : describes T t -> c <> ConstRvalue ->
  exists k, construct T c = Chosen k /\ ctor_kind k = Some (clause t).
Proof.
  destruct 1 as [| | |  |s sg w H|s p H| | | | | | | |t n|lt t n k|m t|ts|ts H|t n|e us He| |x]; intros Hc.
  20: cbn in He; decompose [or] He; try contradiction; match goal with E : _ = _ |- _ => injection E as <- _ end;
    destruct c; try contradiction; eexists; split; reflexivity.
  5-6: cbn in H; decompose [or] H; try contradiction; match goal with E : _ = _ |- _ => injection E as <- <- end;
    destruct c; try contradiction; eexists; split; reflexivity.
  15: unfold construct, template_candidates, feat; cbn [c_identity features_of bare]; unfold is_tuple_like;
    cbn [f_form f_tuple_size bare]; rewrite tuple_trait; destruct c; try contradiction; eexists; split; reflexivity.
  15: destruct ts; [contradiction|].
  18: destruct (x_move_to x).
  all: destruct c; try contradiction; eexists; split; reflexivity.
Qed.
Lemma const_rvalue T t : describes T t ->
  exists k, construct T ConstRvalue = Chosen k /\ ctor_kind k = match t with TFix _ _ => Some GSequence | _ => Some (clause t) end /\
    match t with
    | TVec _ | TColl _ _ | TFix _ _ => k = KCollection true
    | TMap _ => k = KMap true
    | TOpt _ | TPtr _ => k = KWrapper true
    | TTup _ => k = KTuple false
    | TVar _ => k = KVariant false
    | TExt x => k = if x_move_to x then KExtMove else KExt
    | _ => True
    end.
Proof.
  destruct 1 as [| | |  |s sg w H|s p H| | | | | | | |t n|lt t n k|m t|ts|ts H|t n|e us He| |x].
  20: cbn in He; decompose [or] He; try contradiction; match goal with E : _ = _ |- _ => injection E as <- _ end; eexists; (split; [|split]); reflexivity.
  5-6: cbn in H; decompose [or] H; try contradiction; match goal with E : _ = _ |- _ => injection E as <- <- end; eexists; (split; [|split]); reflexivity.
  15: unfold construct, template_candidates, feat; cbn [c_identity features_of bare]; unfold is_tuple_like; cbn [f_form f_tuple_size bare]; rewrite tuple_trait; eexists; (split; [|split]); reflexivity.
  15: destruct ts; [contradiction|].
  18: destruct (x_move_to x) eqn:M; cbn [x_move_to]; rewrite ?M.
  all: eexists; (split; [|split]); reflexivity.
Qed.
Lemma universe_is T t : describes T t -> exists b, is_branch T = Some b /\ branch_kind b = clause t.
Proof.
  destruct 1 as [| | |  |s sg w H|s p H| | | | | | | |t n|lt t n k|m t|ts|ts H|t n|e us He| |x].
  20: cbn in He; decompose [or] He; try contradiction; match goal with E : _ = _ |- _ => injection E as <- _ end; eexists; split; reflexivity.
  5-6: cbn in H; decompose [or] H; try contradiction; match goal with E : _ = _ |- _ => injection E as <- <- end;
    eexists; split; reflexivity.
  15: unfold is_branch, feat; cbn [c_identity features_of bare]; unfold is_tuple_like;
    cbn [f_form f_tuple_size bare]; rewrite tuple_trait; eexists; split; reflexivity.
  all: eexists; split; reflexivity.
Qed.
Lemma universe_as T t : describes T t -> choice_kind T (as_select T) = Some (clause t).
Proof.
  destruct 1 as [| | |  |s sg w H|s p H| | | | | | | |t n|lt t n k|m t|ts|ts H|t n|e us He| |x].
  20: cbn in He; decompose [or] He; try contradiction; match goal with E : _ = _ |- _ => injection E as <- _ end; reflexivity.
  5-6: cbn in H; decompose [or] H; try contradiction; match goal with E : _ = _ |- _ => injection E as <- <- end; reflexivity.
  15: unfold as_select, convert, operators, feat; cbn [c_identity features_of bare]; unfold is_tuple_like;
    cbn [f_form f_tuple_size bare]; rewrite tuple_trait; cbn -[Nat.eqb]; unfold array_as, is_tuple_like, feat;
    cbn [f_form f_tuple_size bare c_identity features_of]; rewrite tuple_trait; reflexivity.
  all: reflexivity.
Qed.
Lemma universe_cast_rv T t : describes T t -> t <> TValue -> t <> TArr -> t <> TObj -> t <> TView ->
  exists o, convert T true = Chosen o /\ op_kind T o = Some (clause t).
Proof.
  destruct 1 as [| | |  |s sg w H|s p H| | | | | | | |t n|lt t n k|m t|ts|ts H|t n|e us He| |x]; intros N1 N2 N3 N4; try congruence.
  16: cbn in He; decompose [or] He; try contradiction; match goal with E : _ = _ |- _ => injection E as <- _ end; eexists; split; reflexivity.
  2-3: cbn in H; decompose [or] H; try contradiction; match goal with E : _ = _ |- _ => injection E as <- <- end;
    eexists; split; reflexivity.
  11: unfold convert, operators, feat; cbn [c_identity features_of bare]; unfold is_tuple_like;
    cbn [f_form f_tuple_size bare]; rewrite tuple_trait; exists (OSequence true); split; [reflexivity|];
    cbn [op_kind]; unfold array_as, is_tuple_like, feat;
    cbn [f_form f_tuple_size bare c_identity features_of]; rewrite tuple_trait; reflexivity.
  14: destruct (x_move_from x).
  all: eexists; split; reflexivity.
Qed.
Lemma universe_cast_containers T t : describes T t -> t = TArr \/ t = TObj ->
  convert T true = Chosen (if match t with TArr => true | _ => false end then OSequence true else OMapping true).
Proof. destruct 1; intros [E|E]; try discriminate; reflexivity. Qed.

(** the JSON type of each kind *)
Ltac doms := repeat match goal with
  | H : (do _ <- ?e; _) = Ok _ |- _ => destruct e eqn:?; cbn [bind] in H; try discriminate end.
Lemma made_type E t d v y : to_value E t d = Ok v -> json_type (clause t) = Some y -> type_of v = y.
Proof.
  destruct t; cbn [clause json_type]; intros H Ey; try discriminate; injection Ey as <-; destruct d; cbn [to_value] in H;
    try discriminate; doms; try (injection H as <-; reflexivity).
  destruct (Nat.eqb _ _); [|discriminate]. doms. injection H as <-. reflexivity.
Qed.
Lemma accepted_type E t v y : is_ E t v = Ok true -> json_type (clause t) = Some y -> type_of v = y.
Proof.
  destruct t; cbn [clause json_type]; intros H Ey; try discriminate; injection Ey as <-; cbn [is_] in H;
    match type of H with
    | Ok ?e = _ => injection H as H
    | (if ?e then _ else _) = _ => destruct e eqn:H'; [clear H; rename H' into H|discriminate] end;
    destruct v as [[]|[]|[]]; cbn in H |- *; congruence.
Qed.

(** ** Types that are taken for two things *)
Definition plain_class : features := no_features.
Definition all_ext : extension := Extension true true true false false.
(** an enumeration with a specialization of ext::jsonization *)
Lemma enum_extension : exists T, extension_functions T /\ is_branch T = Some BExt /\ as_select T = AExt /\
  forall c, construct T c = Ambiguous.
Proof.
  exists (Cpp (IEnum SInt) all_ext None). split; [split; [do 2 eexists; reflexivity|repeat split]|]. split; [reflexivity|].
  split; [reflexivity|]. intros []; reflexivity.
Qed.
(** std::optional with begin() *)
Lemma iterable_optional : exists T, no_functions T /\ is_branch T = Some BNullable /\ construct T Const = Ambiguous /\
  construct T Rvalue = Ambiguous /\ construct T Lvalue = Chosen (KWrapper true).
Proof. exists (Cpp (IOptional true true) no_extension None). repeat split. Qed.
(** pointers, C arrays, wide literals *)
Lemma pointer_is_true : exists T, c_identity T = IScalar SPointer /\
  forall c, construct T c = Chosen (KScalar SBool).
Proof. exists (Cpp (IScalar SPointer) no_extension None). split; [reflexivity|]. intros []; reflexivity. Qed.
(** a class template with value_type, begin() and std::tuple_size *)
Lemma tuple_and_sequence : exists T, no_functions T /\ (forall c, c <> ConstRvalue -> exists k, construct T c = Chosen k /\ ctor_kind k = Some GTuple) /\
  is_branch T = Some BCollection /\ choice_kind T (as_select T) = Some GSequence.
Proof.
  exists (Cpp (IClass (bare (FTypes 1) true (Some true) None false (Some 1%nat))) no_extension None).
  split; [repeat split|]. split; [|split; reflexivity]. intros [] H; try contradiction; eexists; split; reflexivity.
Qed.
(** a sequence that converts to std::string *)
Definition text_sequence : features := Features (FTypes 1) None true (Some true) None false false None None false false false true.
Lemma sequence_and_text : exists T, no_functions T /\ (forall c, exists k, construct T c = Chosen k /\ ctor_kind k = Some GSequence) /\
  is_branch T = Some BString /\ choice_kind T (as_select T) = Some GSequence.
Proof.
  exists (Cpp (IClass text_sequence) no_extension (Some (Some KString))).
  split; [repeat split|]. split; [|split; reflexivity]. intros []; eexists; split; reflexivity.
Qed.
(** a specialization of ext::jsonization for a wrapper, without move_from_json *)
Lemma wrapper_extension : exists T, extension_functions T /\ is_branch T = Some BExt /\ as_select T = AExt /\
  as_select_rv T = AConvert (Chosen (OOptional false)).
Proof.
  exists (Cpp (IOptional false true) all_ext None).
  split; [split; [do 2 eexists; reflexivity|repeat split]|]. repeat split.
Qed.
(** functions both as members and in a specialization *)
Lemma member_and_extension : exists T, is_branch T = Some BMember /\ as_select T = AMember /\
  forall c, construct T c = Ambiguous.
Proof. exists (Cpp (IClass member_class) all_ext None). repeat split. intros []; reflexivity. Qed.
(** json::array as an rvalue *)
Lemma array_rvalue : exists T, no_functions T /\ own_meaning T /\ is_branch T = Some BArray /\
  convert T false = Chosen OArray /\ convert T true = Chosen (OSequence true).
Proof. exists (Cpp IArray no_extension None). repeat split. Qed.
(** emplace of a pair of a key and a value on a value that is an object *)
Lemma pair_goes_to_array : exists T, no_functions T /\ own_meaning T /\ forall c, emplace_place T c true = InArray.
Proof.
  exists (Cpp (IClass (bare (FTypes 2) false None None false (Some 2%nat))) no_extension None).
  split; [repeat split|]. split.
  - destruct (describes_standard _ _ (d_tup [TStr; TValue])) as [[[_ O]|[_ [(_ & A & _)|((mt & mf & A) & _)]]] _];
      [exact O|discriminate|discriminate].
  - intros []; reflexivity.
Qed.

(** ** Fundamental types *)
Lemma scalar_construct : forall T s c, c_identity T = IScalar s -> no_functions T ->
  construct T c =
  match s with
  | SCharacter => Chosen KDeleted
  | SSmall => Chosen (KScalar SInt)
  | SExtended => Ambiguous
  | SPointer => Chosen (KScalar SBool)
  | _ => Chosen (KScalar s)
  end.
Proof.
  intros [i e u] s c Hi (He & _). cbn in Hi, He. subst i e. destruct s; destruct c; reflexivity.
Qed.
Lemma emplace_array : forall T c pair,
  emplace_place T c pair = InArray <-> exists k, k <> KDeleted /\ construct T c = Chosen k.
Proof.
  intros T c pair. unfold emplace_place. destruct (construct T c) as [k| |] eqn:E.
  - destruct k; destruct pair; split; intros H; try discriminate H; try reflexivity;
      try (eexists; split; [|reflexivity]; discriminate).
    all: destruct H as (k & Hk & H); injection H as <-; destruct (Hk eq_refl).
  - destruct pair; split; intros H; try discriminate H; destruct H as (k & _ & H); discriminate H.
  - destruct pair; split; intros H; try discriminate H; destruct H as (k & _ & H); discriminate H.
Qed.
Lemma emplace_object : forall T c pair,
  emplace_place T c pair = InObject <-> pair = true /\ forall k, construct T c = Chosen k -> k = KDeleted.
Proof.
  intros T c pair. unfold emplace_place. destruct (construct T c) as [k| |] eqn:E.
  - destruct k; destruct pair; split; intros H; try discriminate H; try reflexivity.
    all: try (destruct H as [H0 H]; first [discriminate H0|discriminate (H _ eq_refl)]).
    split; [reflexivity|]. intros k Hk. injection Hk as <-. reflexivity.
  - destruct pair; split; intros H; try discriminate H; try reflexivity; [split; [reflexivity|intros k Hk; discriminate Hk]|destruct H as [H _]; discriminate H].
  - destruct pair; split; intros H; try discriminate H; try reflexivity; [split; [reflexivity|intros k Hk; discriminate Hk]|destruct H as [H _]; discriminate H].
Qed.

(** ** Enumerations *)
Lemma enum_selected T u c : c_identity T = IEnum u -> no_functions T ->
  construct T c = Chosen KEnum /\ is_branch T = Some BEnum /\ as_select T = AConvert (Chosen OEnum).
Proof.
  intros E (X & _). destruct T as [i x us]. cbn in E, X. subst i x. destruct c; repeat split.
Qed.
Lemma enum_bodies u :
  (enum_operator_compiles (IEnum u) = true <-> ~ In u [SCharacter; SSmall; SExtended; SCString; SPointer]) /\
  (forall num, enum_constructor_compiles num (IEnum u) = true <-> (num = true -> ~ In u [SCharacter; SExtended])).
Proof.
  split; [|intros []].
  - destruct u; cbn; intuition (try discriminate).
  - destruct u; cbn; intuition (try discriminate).
  - split; [discriminate|reflexivity].
Qed.
Lemma enum_small : exists T, no_functions T /\ own_meaning T /\ (forall c, construct T c = Chosen KEnum) /\
  enum_constructor_compiles true (c_identity T) = true /\ is_branch T = Some BEnum /\ as_select T = AConvert (Chosen OEnum) /\
  choice_kind T (as_select T) = None.
Proof.
  exists (Cpp (IEnum SSmall) no_extension None). repeat split; try (destruct c; reflexivity).
Qed.

(** ** array(x), object(x) *)
Definition moving (c : category) : bool := match c with Rvalue | ConstRvalue => true | _ => false end.
(** a class with functions of the user *)
Lemma user_containers T c : customizable T ->
  (member_functions T -> construct_array T c = Chosen KMember /\ construct_object T c = Chosen KMember) /\
  (extension_functions T -> forall k, k = (if e_move_to_json (c_ext T) && moving c then KExtMove else KExt) ->
    construct_array T c = Chosen k /\ construct_object T c = Chosen k).
Proof.
  intros C. destruct T as [i x u]. unfold construct_array, construct_object, has_to_json, to_member, to_ext, feat. cbn [c_identity c_ext c_user].
  assert (A : is_array_t i = false /\ is_object_t i = false /\ match i with IArray | IObject | IValue | IScalar _ => False | _ => True end).
  { unfold customizable in C. cbn in C. destruct i; try contradiction; repeat split. }
  destruct A as (A1 & A2 & A3). rewrite A1, A2.
  assert (P1 : forall X Y Z W : list (candidate ctor),
    match i with IArray => X | IValue => Y | IScalar _ => Z | _ => W end = W) by (destruct i; tauto).
  assert (P2 : forall X Y W : list (candidate ctor),
    match i with IObject => X | IValue => Y | _ => W end = W) by (destruct i; tauto).
  split.
  - intros (E & F & _). unfold feat in F. cbn [c_identity c_ext] in E, F. rewrite E, F.
    cbn [orb negb andb e_to_json e_move_to_json no_extension]. rewrite !andb_false_r.
    destruct i; try tauto; split; reflexivity.
  - intros ((mt & mf & E) & F & _) k ->. unfold feat in F. cbn [c_identity c_ext] in E, F. rewrite E, F.
    cbn [orb negb andb e_to_json e_move_to_json]. rewrite !andb_false_r.
    destruct i; try tauto; destruct mt, c; split; reflexivity.
Qed.
(** without them: an object is made of objects, values and maps with strings as keys *)
Lemma native_object T c : no_functions T ->
  (c_identity T = IObject -> construct_object T c = Chosen (match c with Rvalue => KMove | _ => KCopy end)) /\
  (c_identity T = IValue -> construct_object T c = Chosen KMove) /\
  (c_identity T <> IObject -> c_identity T <> IValue ->
    (looks (feat T) GMap -> f_key_type (feat T) = Some true -> construct_object T c = Chosen (KMap (moving c))) /\
    (~ (looks (feat T) GMap /\ f_key_type (feat T) = Some true) -> construct_object T c = NotViable)).
Proof.
  intros (E & F & _). unfold construct_object, has_to_json, to_member, to_ext. rewrite E, F. cbn [orb negb andb e_to_json e_move_to_json no_extension].
  split; [intros I1; unfold feat; rewrite I1; destruct c; reflexivity|]. split; [intros I1; unfold feat; rewrite I1; destruct c; reflexivity|].
  intros N1 N2. assert (N3 : is_object_t (c_identity T) = false) by (destruct (c_identity T); auto; congruence).
  rewrite N3, !andb_false_r, !andb_true_r. cbn [when app].
  assert (M : is_map (feat T) && string_key (feat T) = true <-> looks (feat T) GMap /\ f_key_type (feat T) = Some true).
  { rewrite andb_true_iff. split.
    - intros [M1 M2]. split; [now apply looks_map|]. unfold string_key in M2. destruct (f_key_type (feat T)) as [[]|]; auto; discriminate.
    - intros [M1 M2]. unfold string_key. rewrite M2. split; auto. inversion M1; subst. apply map_spec. rewrite container_spec. repeat split; eauto. }
  destruct (c_identity T) eqn:Ei; try congruence; (destruct (is_map (feat T) && string_key (feat T)) eqn:Em;
    [split; [intros _ _; destruct c; reflexivity|intros X; exfalso; apply X, M; reflexivity]
    |split; [intros X Y; exfalso; pose proof (proj2 M (conj X Y)); discriminate|intros _; destruct c; reflexivity]]).
Qed.
(** an array of arrays, values, numbers - its length - and what looks like a sequence *)
Lemma native_array T c : no_functions T -> own_meaning T ->
  (c_identity T = IArray -> construct_array T c = Chosen (match c with Rvalue => KMove | _ => KCopy end)) /\
  (c_identity T = IValue -> construct_array T c = Chosen KMove) /\
  (forall s, c_identity T = IScalar s ->
    construct_array T c = match s with SNullptr | SCString => NotViable | _ => Chosen (KScalar SULong) end) /\
  (forall f, c_identity T = IClass f ->
    (looks f GFixed -> c <> ConstRvalue -> construct_array T c = Chosen (match c with Rvalue => KFixed true | _ => KFixed false end)) /\
    (looks f GTuple -> construct_array T c = Chosen (match c with Rvalue => KTuple true | _ => KTuple false end)) /\
    (looks f GSequence -> construct_array T c = Chosen (KCollection (moving c))) /\
    (~ looks f GFixed -> ~ looks f GTuple -> ~ looks f GSequence -> construct_array T c = NotViable)) /\
  (match c_identity T with IArray | IValue | IScalar _ | IClass _ => False | _ => True end -> construct_array T c = NotViable).
Proof.
  intros (E & F & _) [O _]. unfold construct_array, has_to_json, to_member, to_ext. rewrite E, F. cbn [orb negb andb e_to_json e_move_to_json no_extension].
  split; [intros I1; unfold feat; rewrite I1; destruct c; reflexivity|]. split; [intros I1; unfold feat; rewrite I1; destruct c; reflexivity|].
  split; [intros s I1; unfold feat; rewrite I1 in O |- *; destruct s; try contradiction; destruct c; reflexivity|]. split.
  - intros f I1. unfold feat. rewrite I1 in O |- *. destruct O as [O _]. cbn [features_of is_array_t].
    assert (LF : looks f GFixed <-> is_fixed_array f = true).
    { split; [intros L; inversion L; subst; now apply fixed_spec|apply looks_fixed]. }
    assert (LT : looks f GTuple <-> is_tuple_like f = true).
    { split; [intros L; inversion L as [| | |n L1 L2| |]; subst; unfold is_tuple_like; rewrite L1, L2; apply Nat.eqb_refl|apply looks_tuple]. }
    assert (LS : looks f GSequence <-> is_collection f = true).
    { split; [|apply looks_sequence]. intros L. inversion L as [| | | |L1 L2 L3 L4 L5|]; subst. unfold is_collection.
      assert (is_container f = true) as -> by (apply container_spec; auto).
      assert (is_fixed_array f = false) as -> by (apply not_true_is_false; rewrite fixed_spec; auto).
      assert (is_map f = false) as -> by (apply not_true_is_false; rewrite map_spec; intros (_ & (k & K) & M); destruct L4; congruence).
      reflexivity. }
    assert (LM : is_collection f = true -> is_container f && negb (is_map f) = true).
    { unfold is_collection. destruct (is_container f), (is_map f); auto; discriminate. }
    assert (LN : is_container f && negb (is_map f) = true -> is_collection f = true \/ is_fixed_array f = true).
    { unfold is_collection. destruct (is_container f), (is_map f), (is_fixed_array f); auto; discriminate. }
    rewrite LF, LT, LS.
    pose proof (fun a b => O _ _ (proj2 LF a) (proj2 LT b)) as O1. pose proof (fun a b => O _ _ (proj2 LF a) (proj2 LS b)) as O2.
    pose proof (fun a b => O _ _ (proj2 LT a) (proj2 LS b)) as O3. clear O LF LT LS.
    destruct (is_fixed_array f), (is_tuple_like f), (is_collection f);
      try (exfalso; first [specialize (O1 eq_refl eq_refl)|specialize (O2 eq_refl eq_refl)|specialize (O3 eq_refl eq_refl)]; discriminate);
      repeat split; try discriminate; try congruence; intros;
      destruct (is_container f && negb (is_map f)); try (specialize (LM eq_refl); discriminate);
      try (destruct (LN eq_refl); discriminate); destruct c; first [reflexivity|congruence].
  - unfold feat. destruct (c_identity T) as [s|us| | | | | | | | |it p|p|p|n|f]; try contradiction; intros _; try (destruct c; reflexivity).
    subst it. destruct c; reflexivity.
Qed.
Lemma scalar_casts T s rv : c_identity T = IScalar s -> no_functions T ->
  (In s [SBool; SInt; SUnsigned; SLong; SULong; SLLong; SULLong; SFloat; SDouble; SLDouble; SNullptr] ->
     convert T rv = Chosen (OScalar s)) /\
  (~ In s [SBool; SInt; SUnsigned; SLong; SULong; SLLong; SULLong; SFloat; SDouble; SLDouble; SNullptr] ->
     convert T rv = NotViable).
Proof.
  intros I1 (E & F & G & H). destruct T as [i x u]. unfold feat in *. cbn in I1, E, F, G, H. subst.
  destruct s, rv; (split; intros I; [first [reflexivity|exfalso; cbn in I; intuition discriminate]
    |first [reflexivity|exfalso; apply I; cbn; tauto]]).
Qed.
Lemma exactly_sample :
  let vec := Cpp (IClass (bare (FTypes 2) true (Some true) None false None)) no_extension None in
  let rec := Cpp (IClass member_class) no_extension None in
  let ch := Cpp (IScalar SCharacter) no_extension None in
  no_functions vec /\ own_meaning vec /\ looks (feat vec) GSequence /\ customizable rec /\ member_functions rec /\
  no_functions ch /\ own_meaning ch /\ construct_array ch Const = Chosen (KScalar SULong) /\ construct_object vec Const = NotViable.
Proof.
  cbv zeta. split; [repeat split|]. split.
  - split; [|exact I]. cbn [c_identity]. split; [|discriminate]. intros g g' L M. inversion L; subst; try discriminate; inversion M; subst; try discriminate; reflexivity.
  - split; [apply lk_sequence; cbn; auto; discriminate|]. repeat split.
Qed.

(** ** Paths *)
Lemma path_selected T : c_identity T = IPath -> no_functions T ->
  (forall c, construct T c = Chosen KPath) /\ is_branch T = Some BString /\ as_select T = AConvert (Chosen OPath) /\
  as_select_rv T = AConvert (Chosen OPath).
Proof.
  intros E (X & _). destruct T as [i x us]. cbn in E, X. subst i x. repeat split. intros []; reflexivity.
Qed.
