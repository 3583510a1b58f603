(** * Properties of the dispatch on types: C64, C65.
    Statements only; each is closed by a lemma of TraitsProofs.v, TraitsHanding.v or TraitsTheorems.v. *)
From Verif Require Import Base Value Num Enum Conv Traits SpecTraits TraitsProofs TraitsHanding TraitsTheorems.

(** C64: value(x), is<T>() and as<T>() take a type for the same thing. For classes that look like one thing; with all
    functions of the user or none. *)
Theorem C64_construct_partial : forall T c,
  (no_functions T /\ own_meaning T) \/ (customizable T /\ (member_functions T \/ extension_functions T)) -> c <> ConstRvalue ->
  construct T c <> Ambiguous /\
  (forall k g b, construct T c = Chosen k -> ctor_kind k = Some g -> is_branch T = Some b -> branch_kind b = g).
Proof. exact construct_kind. Qed.
Print Assumptions C64_construct_partial.
Theorem C64_as_partial : forall T,
  (no_functions T /\ own_meaning T) \/ (customizable T /\ (member_functions T \/ extension_functions T)) ->
  forall b g, is_branch T = Some b -> choice_kind T (as_select T) = Some g -> branch_kind b = g.
Proof. exact as_kind. Qed.
Print Assumptions C64_as_partial.
Theorem C64_as_rvalue_partial : forall T,
  (no_functions T /\ own_meaning T) \/ (customizable T /\ (member_functions T \/ extension_functions T)) ->
  (c_ext T = no_extension \/ e_move_from_json (c_ext T) = true \/ exists f, c_identity T = IClass f) ->
  forall b g, is_branch T = Some b -> choice_kind T (as_select_rv T) = Some g -> branch_kind b = g.
Proof. exact as_kind_rv. Qed.
Print Assumptions C64_as_rvalue_partial.
Theorem C64_cast_partial : forall T rv, no_functions T -> own_meaning T -> convert T rv <> Ambiguous.
Proof. exact cast_clear. Qed.
Print Assumptions C64_cast_partial.
Theorem C64_cast_rvalue_partial : forall T,
  no_functions T -> own_meaning T -> c_identity T <> IArray -> c_identity T <> IObject ->
  forall b o g, is_branch T = Some b -> convert T true = Chosen o -> op_kind T o = Some g -> branch_kind b = g.
Proof. exact cast_rvalue_kind. Qed.
Print Assumptions C64_cast_rvalue_partial.
(** the types of the model of conversions: each meets the conditions, and is taken for what the model says *)
Theorem C64_universe : forall T t, describes T t ->
  ((no_functions T /\ own_meaning T) \/ (customizable T /\ (member_functions T \/ extension_functions T))) /\ possible T.
Proof. exact describes_standard. Qed.
Print Assumptions C64_universe.
Theorem C64_universe_construct : forall T t c, describes T t -> c <> ConstRvalue ->
  exists k, construct T c = Chosen k /\ ctor_kind k = Some (clause t).
Proof. exact universe_construct. Qed.
Print Assumptions C64_universe_construct.
(** a const rvalue: a std::array is taken for a sequence, because the template argument is then a const type *)
Theorem C64_const_rvalue : forall T t, describes T t ->
  exists k, construct T ConstRvalue = Chosen k /\ ctor_kind k = match t with TFix _ _ => Some GSequence | _ => Some (clause t) end /\
    match t with
    | TVec _ | TColl _ _ | TFix _ _ => k = KCollection true
    | TMap _ => k = KMap true
    | TOpt _ | TPtr _ => k = KWrapper true
    | TTup _ => k = KTuple false
    | TVar _ => k = KVariant false
    | TExt x => k = if x_move_to x then KExtMove else KExt
    | _ => True
    end.
Proof. exact const_rvalue. Qed.
Print Assumptions C64_const_rvalue.
Theorem C64_universe_is : forall T t, describes T t -> exists b, is_branch T = Some b /\ branch_kind b = clause t.
Proof. exact universe_is. Qed.
Print Assumptions C64_universe_is.
Theorem C64_universe_as : forall T t, describes T t -> choice_kind T (as_select T) = Some (clause t).
Proof. exact universe_as. Qed.
Print Assumptions C64_universe_as.
Theorem C64_universe_cast_rvalue : forall T t,
  describes T t -> t <> TValue -> t <> TArr -> t <> TObj -> t <> TView ->
  exists o, convert T true = Chosen o /\ op_kind T o = Some (clause t).
Proof. exact universe_cast_rv. Qed.
Print Assumptions C64_universe_cast_rvalue.
(** what is made of such a type, and what is accepted for it, has the JSON type of its kind *)
Theorem C64_made_type : forall E t d v y, to_value E t d = Ok v -> json_type (clause t) = Some y -> type_of v = y.
Proof. exact made_type. Qed.
Print Assumptions C64_made_type.
Theorem C64_accepted_type : forall E t v y, is_ E t v = Ok true -> json_type (clause t) = Some y -> type_of v = y.
Proof. exact accepted_type. Qed.
Print Assumptions C64_accepted_type.
(** the fundamental types: characters are turned down, what is promoted is an int, other integers have no best match *)
Theorem C64_scalars : forall T s c, c_identity T = IScalar s -> no_functions T ->
  construct T c =
  match s with
  | SCharacter => Chosen KDeleted
  | SSmall => Chosen (KScalar SInt)
  | SExtended => Ambiguous
  | SPointer => Chosen (KScalar SBool)
  | _ => Chosen (KScalar s)
  end.
Proof. exact scalar_construct. Qed.
Print Assumptions C64_scalars.
(** and a cast to one of them compiles exactly if there is an operator to it *)
Theorem C64_scalar_casts : forall T s rv, c_identity T = IScalar s -> no_functions T ->
  (In s [SBool; SInt; SUnsigned; SLong; SULong; SLLong; SULLong; SFloat; SDouble; SLDouble; SNullptr] ->
     convert T rv = Chosen (OScalar s)) /\
  (~ In s [SBool; SInt; SUnsigned; SLong; SULong; SLLong; SULLong; SFloat; SDouble; SLDouble; SNullptr] ->
     convert T rv = NotViable).
Proof. exact scalar_casts. Qed.
Print Assumptions C64_scalar_casts.
(** enumerations: all three take them for one, but the conversion to them compiles only if there is an operator to their
    underlying type, and the constructor with MEOJSON_ENUM_AS_NUMBER only if a value can be made of it *)
Theorem C64_enumerations : forall T u c, c_identity T = IEnum u -> no_functions T ->
  construct T c = Chosen KEnum /\ is_branch T = Some BEnum /\ as_select T = AConvert (Chosen OEnum).
Proof. exact enum_selected. Qed.
Print Assumptions C64_enumerations.
Theorem C64_enumeration_bodies : forall u,
  (enum_operator_compiles (IEnum u) = true <-> ~ In u [SCharacter; SSmall; SExtended; SCString; SPointer]) /\
  (forall num, enum_constructor_compiles num (IEnum u) = true <-> (num = true -> ~ In u [SCharacter; SExtended])).
Proof. exact enum_bodies. Qed.
Print Assumptions C64_enumeration_bodies.
(** an enumeration over short or unsigned char is written, and is<T>() tells whether it can be read, but as<T>() does not
    compile *)
Theorem C64_enum_small_refuted : exists T, no_functions T /\ own_meaning T /\ (forall c, construct T c = Chosen KEnum) /\
  enum_constructor_compiles true (c_identity T) = true /\ is_branch T = Some BEnum /\ as_select T = AConvert (Chosen OEnum) /\
  choice_kind T (as_select T) = None.
Proof. exact enum_small. Qed.
Print Assumptions C64_enum_small_refuted.
Example C64_enum_case : no_functions (Cpp (IEnum SInt) no_extension None) /\ enum_operator_compiles (IEnum SInt) = true /\
  choice_kind (Cpp (IEnum SInt) no_extension None) (as_select (Cpp (IEnum SInt) no_extension None)) = Some GEnum.
Proof. repeat split. Qed.
(** std::filesystem::path has a constructor and a conversion of its own; is<T>() asks for a string before it asks for a path *)
Theorem C64_paths : forall T, c_identity T = IPath -> no_functions T ->
  (forall c, construct T c = Chosen KPath) /\ is_branch T = Some BString /\ as_select T = AConvert (Chosen OPath) /\
  as_select_rv T = AConvert (Chosen OPath).
Proof. exact path_selected. Qed.
Print Assumptions C64_paths.
Example C64_paths_case : no_functions (Cpp IPath no_extension None).
Proof. repeat split. Qed.
(** emplace: an element whenever a value can be made of it; a member only if not *)
Theorem C64_emplace_array : forall T c pair,
  emplace_place T c pair = InArray <-> exists k, k <> KDeleted /\ construct T c = Chosen k.
Proof. exact emplace_array. Qed.
Print Assumptions C64_emplace_array.
Theorem C64_emplace_object : forall T c pair,
  emplace_place T c pair = InObject <-> pair = true /\ forall k, construct T c = Chosen k -> k = KDeleted.
Proof. exact emplace_object. Qed.
Print Assumptions C64_emplace_object.
Example C64_emplace_case :
  let ch := Cpp (IScalar SCharacter) no_extension None in
  let i := Cpp (IScalar SInt) no_extension None in
  no_functions ch /\ emplace_place ch Lvalue false = Rejected /\ emplace_place i Lvalue false = InArray /\
  emplace_place (Cpp (IOptional true true) no_extension None) Const true = InObject.
Proof. cbv zeta. repeat split. Qed.
(** std::vector, std::array, std::tuple<int, std::string>, std::map<std::string, T>, std::unique_ptr *)
Example C64_case :
  let vec := Cpp (IClass (bare (FTypes 2) true (Some true) None false None)) no_extension None in
  let arr := Cpp (IClass (bare FTypeSize true (Some true) None false (Some 3%nat))) no_extension None in
  let tup := Cpp (IClass (bare (FTypes 2) false None None false (Some 2%nat))) no_extension None in
  let map := Cpp (IClass (bare (FTypes 4) true (Some true) (Some true) true None)) no_extension None in
  let uni := Cpp (IUnique true) no_extension None in
  describes vec (TVec TBool) /\ describes arr (TFix 3 TBool) /\ describes tup (TTup [TInt true 32; TStr]) /\
  describes map (TMap TBool) /\ describes uni (TPtr TBool) /\
  List.map (fun T => construct T Rvalue) [vec; arr; tup; map; uni] =
    [Chosen (KCollection true); Chosen (KFixed true); Chosen (KTuple true); Chosen (KMap true); Chosen (KWrapper true)] /\
  List.map is_branch [vec; arr; tup; map; uni] = [Some BCollection; Some BFixed; Some BTuple; Some BMap; Some BNullable] /\
  List.map (fun T => choice_kind T (as_select T)) [vec; arr; tup; map; uni] =
    [Some GSequence; Some GFixed; Some GTuple; Some GMap; Some GWrapper].
Proof.
  cbv zeta. split; [constructor|]. split; [constructor|]. split; [exact (d_tup [TInt true 32; TStr])|].
  split; [constructor|]. split; [constructor|]. repeat split.
Qed.
Theorem C64_enum_extension_refuted : exists T, extension_functions T /\ is_branch T = Some BExt /\ as_select T = AExt /\
  forall c, construct T c = Ambiguous.
Proof. exact enum_extension. Qed.
Print Assumptions C64_enum_extension_refuted.
Theorem C64_optional_refuted : exists T, no_functions T /\ is_branch T = Some BNullable /\ construct T Const = Ambiguous /\
  construct T Rvalue = Ambiguous /\ construct T Lvalue = Chosen (KWrapper true).
Proof. exact iterable_optional. Qed.
Print Assumptions C64_optional_refuted.
Theorem C64_pointer_refuted : exists T, c_identity T = IScalar SPointer /\ forall c, construct T c = Chosen (KScalar SBool).
Proof. exact pointer_is_true. Qed.
Print Assumptions C64_pointer_refuted.
Theorem C64_tuple_sequence_refuted : exists T, no_functions T /\
  (forall c, c <> ConstRvalue -> exists k, construct T c = Chosen k /\ ctor_kind k = Some GTuple) /\
  is_branch T = Some BCollection /\ choice_kind T (as_select T) = Some GSequence.
Proof. exact tuple_and_sequence. Qed.
Print Assumptions C64_tuple_sequence_refuted.
Theorem C64_text_sequence_refuted : exists T, no_functions T /\
  (forall c, exists k, construct T c = Chosen k /\ ctor_kind k = Some GSequence) /\
  is_branch T = Some BString /\ choice_kind T (as_select T) = Some GSequence.
Proof. exact sequence_and_text. Qed.
Print Assumptions C64_text_sequence_refuted.
Theorem C64_wrapper_extension_refuted : exists T, extension_functions T /\ is_branch T = Some BExt /\ as_select T = AExt /\
  as_select_rv T = AConvert (Chosen (OOptional false)).
Proof. exact wrapper_extension. Qed.
Print Assumptions C64_wrapper_extension_refuted.
Theorem C64_member_extension_refuted : exists T, is_branch T = Some BMember /\ as_select T = AMember /\
  forall c, construct T c = Ambiguous.
Proof. exact member_and_extension. Qed.
Print Assumptions C64_member_extension_refuted.
Theorem C64_cast_array_refuted : exists T, no_functions T /\ own_meaning T /\ is_branch T = Some BArray /\
  convert T false = Chosen OArray /\ convert T true = Chosen (OSequence true).
Proof. exact array_rvalue. Qed.
Print Assumptions C64_cast_array_refuted.
(** emplace of a pair on a value never reaches the object *)
Theorem C64_emplace_pair_refuted : exists T, no_functions T /\ own_meaning T /\ forall c, emplace_place T c true = InArray.
Proof. exact pair_goes_to_array. Qed.
Print Assumptions C64_emplace_pair_refuted.

(** C65: handing over to array and object *)
Theorem C65_array : forall T c k mv, possible T -> construct T c = Chosen k ->
  k = KFixed mv \/ k = KCollection mv \/ k = KTuple mv -> construct_array T (handed mv c) = Chosen k.
Proof. exact construct_delegates. Qed.
Print Assumptions C65_array.
Theorem C65_object : forall T c mv, possible T -> construct T c = Chosen (KMap mv) ->
  construct_object T (handed mv c) = Chosen (KMap mv).
Proof. exact construct_delegates_map. Qed.
Print Assumptions C65_object.
Theorem C65_from_array : forall T rv mv, convert T rv = Chosen (OSequence mv) -> exists b, array_as T = Some b.
Proof. exact sequence_as. Qed.
Print Assumptions C65_from_array.
Theorem C65_from_object : forall T rv mv, convert T rv = Chosen (OMapping mv) -> object_as T = Some BMap.
Proof. exact mapping_as. Qed.
Print Assumptions C65_from_object.
Example C65_case :
  let vec := Cpp (IClass (bare (FTypes 2) true (Some true) None false None)) no_extension None in
  let map := Cpp (IClass (bare (FTypes 4) true (Some true) (Some true) true None)) no_extension None in
  possible vec /\ possible map /\ construct vec Rvalue = Chosen (KCollection true) /\ construct vec Lvalue = Chosen (KCollection false) /\
  construct map ConstRvalue = Chosen (KMap true) /\
  convert vec true = Chosen (OSequence true) /\ convert map false = Chosen (OMapping false).
Proof. cbv zeta. repeat split; intros k; discriminate. Qed.
(** array(x) and object(x) themselves: the functions of the user *)
Theorem C65_user : forall T c, customizable T ->
  (member_functions T -> construct_array T c = Chosen KMember /\ construct_object T c = Chosen KMember) /\
  (extension_functions T ->
    forall k, k = (if e_move_to_json (c_ext T) && match c with Rvalue | ConstRvalue => true | _ => false end then KExtMove else KExt) ->
    construct_array T c = Chosen k /\ construct_object T c = Chosen k).
Proof. exact user_containers. Qed.
Print Assumptions C65_user.
(** objects are made of objects, values and maps with strings as keys, and of nothing else *)
Theorem C65_object_exactly : forall T c, no_functions T ->
  (c_identity T = IObject -> construct_object T c = Chosen (match c with Rvalue => KMove | _ => KCopy end)) /\
  (c_identity T = IValue -> construct_object T c = Chosen KMove) /\
  (c_identity T <> IObject -> c_identity T <> IValue ->
    (looks (feat T) GMap -> f_key_type (feat T) = Some true ->
       construct_object T c = Chosen (KMap match c with Rvalue | ConstRvalue => true | _ => false end)) /\
    (~ (looks (feat T) GMap /\ f_key_type (feat T) = Some true) -> construct_object T c = NotViable)).
Proof. exact native_object. Qed.
Print Assumptions C65_object_exactly.
(** arrays of arrays, values, what looks like a sequence, and of numbers, which give the length *)
Theorem C65_array_exactly : forall T c, no_functions T -> own_meaning T ->
  (c_identity T = IArray -> construct_array T c = Chosen (match c with Rvalue => KMove | _ => KCopy end)) /\
  (c_identity T = IValue -> construct_array T c = Chosen KMove) /\
  (forall s, c_identity T = IScalar s ->
    construct_array T c = match s with SNullptr | SCString => NotViable | _ => Chosen (KScalar SULong) end) /\
  (forall f, c_identity T = IClass f ->
    (looks f GFixed -> c <> ConstRvalue -> construct_array T c = Chosen (match c with Rvalue => KFixed true | _ => KFixed false end)) /\
    (looks f GTuple -> construct_array T c = Chosen (match c with Rvalue => KTuple true | _ => KTuple false end)) /\
    (looks f GSequence -> construct_array T c = Chosen (KCollection match c with Rvalue | ConstRvalue => true | _ => false end)) /\
    (~ looks f GFixed -> ~ looks f GTuple -> ~ looks f GSequence -> construct_array T c = NotViable)) /\
  (match c_identity T with IArray | IValue | IScalar _ | IClass _ => False | _ => True end -> construct_array T c = NotViable).
Proof. exact native_array. Qed.
Print Assumptions C65_array_exactly.
Example C65_exactly_case :
  let vec := Cpp (IClass (bare (FTypes 2) true (Some true) None false None)) no_extension None in
  let rec := Cpp (IClass member_class) no_extension None in
  let ch := Cpp (IScalar SCharacter) no_extension None in
  no_functions vec /\ own_meaning vec /\ looks (feat vec) GSequence /\ customizable rec /\ member_functions rec /\
  no_functions ch /\ own_meaning ch /\ construct_array ch Const = Chosen (KScalar SULong) /\ construct_object vec Const = NotViable.
Proof. exact exactly_sample. Qed.
