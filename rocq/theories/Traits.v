(** * Which constructor, which branch of is<T>() and which conversion a C++ type selects.
    Model only.

    A type is described by what the traits of utils.hpp and the overload sets of value, array and
    object look at. The traits, the conditions of the templates and the if-constexpr chains are
    those of the code; choosing among viable overloads follows the rules of the language for a call
    with one argument. *)
From Verif Require Import Base Value Num Enum Conv.

(** ** C++ types *)
(** fundamental types, pointers and arrays of C, as sources and targets of conversions *)
Inductive scalar : Type :=
| SBool
| SCharacter                           (* char, wchar_t, char16_t, char32_t *)
| SSmall                               (* the other types that are promoted to int: short, unsigned char, char8_t, ... *)
| SInt | SUnsigned | SLong | SULong | SLLong | SULLong
| SExtended                            (* other integers, like __int128 *)
| SFloat | SDouble | SLDouble
| SNullptr
| SCString                             (* const char*, char*, arrays of char *)
| SPointer.                            (* other pointers, arrays, functions, pointers to members *)

(** the template of which a class is an instance *)
Inductive form : Type :=
| FTypes (n : nat)                     (* template <typename...>, with n arguments *)
| FTypeSize                            (* template <typename, size_t> *)
| FOther.

(** members and operations of a class *)
Record features : Type := Features {
  f_form : form;
  f_traits_type : option bool;         (* T::traits_type; is it std::char_traits<T::value_type>? *)
  f_value_type : bool;                 (* T::value_type *)
  f_range : option bool;               (* begin(); do its elements have the type T::value_type? *)
  f_key_type : option bool;            (* T::key_type; is it std::string? *)
  f_mapped_type : bool;                (* T::mapped_type *)
  f_bool : bool;                       (* static_cast<bool>(x) *)
  f_deref : option bool;               (* *x; can a json::value be made from it? *)
  f_tuple_size : option nat;           (* std::tuple_size<T>::value *)
  f_to_json : bool; f_check_json : bool; f_from_json : bool;   (* member functions *)
  f_to_string : bool;                  (* std::is_constructible_v<std::string, T> *)
}.

Inductive identity : Type :=
| IScalar (s : scalar)
| IEnum (u : scalar)                   (* the underlying type *)
| IValueType                           (* json::value::value_type *)
| IValue | IArray | IObject
| IString | IView | IMonostate | IPath
| IOptional (iterable : bool)          (* std::optional; since C++26 it has begin() *)
     (pointee : bool)                  (* can a json::value be made from what it holds? *)
| IShared (pointee : bool) | IUnique (pointee : bool)
| IVariant (n : nat)                   (* n alternatives *)
| IClass (f : features).

(** the constructors of value *)
Inductive ctor : Type :=
| KCopy | KMove                        (* value *)
| KScalar (s : scalar)                 (* bool, int, ..., long double, const char*, nullptr_t *)
| KDeleted                             (* char, wchar_t, char16_t, char32_t *)
| KString | KView | KMonostate
| KArray | KObject
| KRaw                                 (* value_type, args... *)
| KEnum
| KMember | KExt | KExtMove            (* to_json, move_to_json *)
| KWrapper (mv : bool) | KVariant (mv : bool) | KFixed (mv : bool) | KCollection (mv : bool) | KTuple (mv : bool)
| KMap (mv : bool) | KPath.

(** functions of a specialization of ext::jsonization, utils.hpp:23-34 *)
Record extension : Type := Extension {
  e_to_json : bool; e_check_json : bool; e_from_json : bool; e_move_to_json : bool; e_move_from_json : bool }.
Record cpptype : Type := Cpp {
  c_identity : identity;
  c_ext : extension;
  c_user : option (option ctor);       (* user-defined implicit conversions of a class to parameters of the constructors
                                          that are not templates: there are none; or resolution among those constructors
                                          is ambiguous ([Some None]), or ends at this one *)
}.

Definition no_features : features :=
  Features FOther None false None None false false None None false false false false.
Definition wrapper_features (range : option bool) (pointee : bool) : features :=
  Features (FTypes 1) None (match range with Some _ => true | None => false end) range None false true (Some pointee) None
    false false false false.
(** the classes of the library and of json *)
Definition features_of (i : identity) : features :=
  match i with
  | IScalar SNullptr | IScalar SCString =>
      Features FOther None false None None false false None None false false false true
  | IScalar _ | IEnum _ | IValueType | IMonostate => no_features
  | IValue =>         (* value_type is an enumeration, value.hpp:31-42; explicit conversion to bool and to std::string *)
      Features FOther None true None None false true None None false false false true
  | IArray => Features FOther None true (Some true) None false false None None false false false false   (* array.hpp:24-29 *)
  | IObject =>                                                                  (* object.hpp:23-28 *)
      Features FOther None true (Some true) (Some true) true false None None false false false false
  | IString => Features (FTypes 3) (Some true) true (Some true) None false false None None false false false true
  | IView => Features (FTypes 2) (Some true) true (Some true) None false false None None false false false true
  | IPath =>          (* the elements of a path are paths, value_type is a character *)
      Features FOther None true (Some false) None false false None None false false false true
  | IOptional b p => wrapper_features (if b then Some true else None) p
  | IShared p => wrapper_features None p
  | IUnique p => Features (FTypes 2) None false None None false true (Some p) None false false false false
  | IVariant n => Features (FTypes n) None false None None false false None None false false false false
  | IClass f => f
  end.
Definition feat (T : cpptype) : features := features_of (c_identity T).

(** ** Traits *)
(** utils.hpp:45-49 *)
Definition is_string_t (f : features) : bool := match f_traits_type f with Some b => b | None => false end.
(** 51-55 *)
Definition is_container (f : features) : bool :=
  f_value_type f && match f_range f with Some b => b | None => false end && negb (is_string_t f).
(** 57-60 *)
Definition is_map (f : features) : bool :=
  match f_key_type f with Some _ => f_mapped_type f && is_container f | None => false end.
Definition string_key (f : features) : bool := match f_key_type f with Some b => b | None => false end.
(** 62-65. A specialization for arr_t<value_t, size> does not match its const version. *)
Definition is_fixed_array (f : features) : bool := match f_form f with FTypeSize => true | _ => false end.
(** 72-75 *)
Definition is_collection (f : features) : bool := is_container f && negb (is_map f) && negb (is_fixed_array f).
(** 77-85: native pointers are excluded; they are scalars here and have no features *)
Definition is_nullable (f : features) : bool := f_bool f && match f_deref f with Some _ => true | None => false end.
Definition pointee (f : features) : bool := match f_deref f with Some b => b | None => false end.
(** 90-93 *)
Definition is_variant_t (i : identity) : bool := match i with IVariant _ => true | _ => false end.
(** 105-109 *)
Definition is_tuple_like (f : features) : bool :=
  match f_form f, f_tuple_size f with FTypes n, Some m => Nat.eqb m n | _, _ => false end.
(** 173-217: has_to_json_in_member, has_to_json_in_templ_spec and friends *)
Definition to_member (T : cpptype) : bool := f_to_json (feat T).
Definition to_ext (T : cpptype) : bool := e_to_json (c_ext T).
Definition has_to_json (T : cpptype) : bool := to_member T || to_ext T.
Definition has_from_json (T : cpptype) : bool := f_from_json (feat T) || e_from_json (c_ext T).

(** ** Overload resolution for one argument *)
(** How an argument becomes the parameter, the best first: as it is; promotion; conversion; conversion of
    a pointer to bool; user-defined conversion. *)
Inductive step_rank : Type := Exact | Promotion | Conversion | ToBool | UserDefined.
Definition rank_no (r : step_rank) : nat :=
  match r with Exact => 0 | Promotion => 1 | Conversion => 2 | ToBool => 3 | UserDefined => 4 end.
(** the parameter: an object; a reference, with 0 for the better of the possible bindings and 1 for the other *)
Inductive binding : Type := ByValue | ByRef (worse : nat).
(** the pattern of the parameter of a template *)
Inductive pattern : Type :=
| PNone                                (* not a template *)
| PDependent                           (* X *)
| PConstRef                            (* const X& *)
| PForward                             (* X&& *)
| PInstance                            (* tuple_t<args_t...>, arr_t<value_t, size> *)
| PVariant                             (* std::variant<Ts...> *)
| PRaw.                                (* value_type type, args_t&&... args *)
Definition more_specialized (p q : pattern) : bool :=
  match p, q with
  | PRaw, PDependent => true
  | PConstRef, PForward => true
  | PInstance, (PConstRef | PForward) => true
  | PVariant, (PConstRef | PForward | PInstance) => true
  | _, _ => false
  end.
Section Overload.
  Context {C : Type}.
  Record candidate : Type := Cand { k_name : C; k_rank : step_rank; k_binding : binding; k_pattern : pattern }.
  Inductive chosen_overload : Type := Chosen (c : C) | Ambiguous | NotViable.
  Definition better_conversion (a b : candidate) : bool :=
    Nat.ltb (rank_no (k_rank a)) (rank_no (k_rank b)) ||
    (Nat.eqb (rank_no (k_rank a)) (rank_no (k_rank b)) &&
     match k_binding a, k_binding b with ByRef m, ByRef n => Nat.ltb m n | _, _ => false end).
  Definition is_template (a : candidate) : bool := match k_pattern a with PNone => false | _ => true end.
  (** a is a better overload than b *)
  Definition better (a b : candidate) : bool :=
    better_conversion a b ||
    (negb (better_conversion b a) &&
     ((negb (is_template a) && is_template b) || more_specialized (k_pattern a) (k_pattern b))).
  (** the one that is better than all others *)
  Fixpoint beats_all (a : candidate) (l : list candidate) : bool :=
    match l with [] => true | b :: r => better a b && beats_all a r end.
  Fixpoint best (before l : list candidate) : chosen_overload :=
    match l with
    | [] => match before with [] => NotViable | _ => Ambiguous end
    | a :: r => if beats_all a before && beats_all a r then Chosen (k_name a) else best (before ++ [a]) r
    end.
  Definition resolve (l : list candidate) : chosen_overload := best [] l.
End Overload.
Arguments candidate : clear implicits.
Arguments chosen_overload : clear implicits.

(** a reference to const *)
Definition to_const (c : category) : binding := ByRef (match c with Const => 0 | _ => 1 end).
Definition rvalue (c : category) : bool := match c with Rvalue => true | _ => false end.
Definition any_rvalue (c : category) : bool := match c with Rvalue | ConstRvalue => true | _ => false end.

(** ** Constructors of value *)
(** conversions between fundamental types *)
Definition arithmetic (s : scalar) : bool :=
  match s with SNullptr | SCString | SPointer => false | _ => true end.
Definition scalar_no (s : scalar) : nat :=
  match s with
  | SBool => 0 | SCharacter => 1 | SSmall => 2 | SInt => 3 | SUnsigned => 4 | SLong => 5 | SULong => 6 | SLLong => 7
  | SULLong => 8 | SExtended => 9 | SFloat => 10 | SDouble => 11 | SLDouble => 12 | SNullptr => 13 | SCString => 14
  | SPointer => 15
  end.
Definition same_scalar (s t : scalar) : bool := Nat.eqb (scalar_no s) (scalar_no t).
(** from an argument of type [s] to a parameter of type [t] *)
Definition scalar_rank (s t : scalar) : option step_rank :=
  if same_scalar s t then match s with SPointer => None | _ => Some Exact end
  else if arithmetic s && arithmetic t then
    match s, t with
    | (SBool | SSmall | SCharacter), SInt => Some Promotion
    | SFloat, SDouble => Some Promotion
    | _, _ => Some Conversion
    end
  else match s, t with
       | SNullptr, SCString => Some Conversion
       | (SNullptr | SCString | SPointer), SBool => Some ToBool
       | _, _ => None
       end.
(** the constructors with one parameter of fundamental type, value.hpp:50-64, 303-306 *)
Definition scalar_ctors : list scalar :=
  [SBool; SInt; SUnsigned; SLong; SULong; SLLong; SULLong; SFloat; SDouble; SLDouble; SCString; SNullptr].
Definition scalar_candidates (s : scalar) : list (candidate ctor) :=
  flat_map (fun t => match scalar_rank s t with Some r => [Cand (KScalar t) r ByValue PNone] | None => [] end) scalar_ctors ++
  match scalar_rank s SCharacter with
  | Some Exact => [Cand KDeleted Exact ByValue PNone]
  | Some r => [Cand KDeleted r ByValue PNone; Cand KDeleted r ByValue PNone;
               Cand KDeleted r ByValue PNone; Cand KDeleted r ByValue PNone]
  | None => []
  end ++
  match s with
  | SCString | SNullptr => [Cand KString UserDefined ByValue PNone; Cand KView UserDefined ByValue PNone]
  | _ => []
  end.
(** value.hpp:45-73; an object of a class with implicit conversions of its own *)
Definition plain_candidates (T : cpptype) (c : category) : list (candidate ctor) :=
  match c_identity T with
  | IScalar s => scalar_candidates s
  | IValue => Cand KCopy Exact (to_const c) PNone ::
              (if rvalue c then [Cand KMove Exact (ByRef 0) PNone] else [])
  | IArray => Cand KArray Exact (to_const c) PNone :: (if rvalue c then [Cand KArray Exact (ByRef 0) PNone] else [])
  | IObject => Cand KObject Exact (to_const c) PNone :: (if rvalue c then [Cand KObject Exact (ByRef 0) PNone] else [])
  | IString => [Cand KString Exact ByValue PNone; Cand KView UserDefined ByValue PNone]
  | IView => [Cand KView Exact ByValue PNone]
  | IMonostate => [Cand KMonostate Exact ByValue PNone]
  | IPath => [Cand KString UserDefined ByValue PNone]
  | IEnum _ | IValueType => []         (* promotion or conversion, for an unscoped enumeration: worse than the template *)
  | _ => match c_user T with
         | None => []
         | Some (Some k) => [Cand k UserDefined ByValue PNone]
         | Some None => [Cand KString UserDefined ByValue PNone; Cand KView UserDefined ByValue PNone]
         end
  end.
Definition is_value_t (i : identity) : bool := match i with IValue => true | _ => false end.
Definition is_array_t (i : identity) : bool := match i with IArray => true | _ => false end.
Definition is_object_t (i : identity) : bool := match i with IObject => true | _ => false end.
Definition is_enum_t (i : identity) : bool := match i with IEnum _ | IValueType => true | _ => false end.
Definition is_path_t (i : identity) : bool := match i with IPath => true | _ => false end.
Definition when {A : Type} (b : bool) (x : A) : list A := if b then [x] else [].
(** value.hpp:75-296. For a forwarding reference and an lvalue the template argument is a reference
    type, of which is_collection and is_map are false. For a const rvalue it is a const type, of
    which is_fixed_array is false. *)
Definition template_candidates (T : cpptype) (c : category) : list (candidate ctor) :=
  let i := c_identity T in
  let f := feat T in
  let native := negb (has_to_json T) in
  when (match i with IValueType => true | _ => false end) (Cand KRaw Exact ByValue PRaw) ++
  when (is_enum_t i) (Cand KEnum Exact ByValue PDependent) ++
  when (negb (is_value_t i) && to_member T) (Cand KMember Exact (to_const c) PConstRef) ++
  when (negb (is_value_t i) && to_ext T) (Cand KExt Exact (to_const c) PConstRef) ++
  when (negb (is_value_t i) && any_rvalue c && e_move_to_json (c_ext T)) (Cand KExtMove Exact (ByRef 0) PForward) ++
  when (is_nullable f && pointee f && native) (Cand (KWrapper false) Exact (to_const c) PConstRef) ++
  when (is_nullable f && pointee f && native) (Cand (KWrapper true) Exact (ByRef 0) PForward) ++
  when (match i with IVariant n => negb (Nat.eqb n 0) | _ => false end && native)
    (Cand (KVariant false) Exact (to_const c) PVariant) ++
  when (match i with IVariant n => negb (Nat.eqb n 0) | _ => false end && native && rvalue c)
    (Cand (KVariant true) Exact (ByRef 0) PVariant) ++
  when (is_fixed_array f && native) (Cand (KFixed false) Exact (to_const c) PInstance) ++
  when (is_fixed_array f && native && rvalue c) (Cand (KFixed true) Exact (ByRef 0) PInstance) ++
  when (is_collection f && negb (is_value_t i) && negb (is_array_t i) && native)
    (Cand (KCollection false) Exact (to_const c) PConstRef) ++
  when (match c with Rvalue => is_collection f | ConstRvalue => is_container f && negb (is_map f) | _ => false end
        && negb (is_value_t i) && negb (is_array_t i) && native)
    (Cand (KCollection true) Exact (ByRef 0) PForward) ++
  when (is_tuple_like f && native) (Cand (KTuple false) Exact (to_const c) PInstance) ++
  when (is_tuple_like f && native && rvalue c) (Cand (KTuple true) Exact (ByRef 0) PInstance) ++
  when (is_map f && string_key f && negb (is_value_t i) && negb (is_object_t i) && native)
    (Cand (KMap false) Exact (to_const c) PConstRef) ++
  when (is_map f && string_key f && negb (is_value_t i) && negb (is_object_t i) && native && any_rvalue c)
    (Cand (KMap true) Exact (ByRef 0) PForward) ++
  when (is_path_t i && native) (Cand KPath Exact (to_const c) PConstRef).
(** json::value(x) *)
Definition construct (T : cpptype) (c : category) : chosen_overload ctor :=
  resolve (plain_candidates T c ++ template_candidates T c).

(** ** Constructors of array and object *)
(** array.hpp:32-126. What else a class converts to is left out: it is worse than the templates. *)
Definition construct_array (T : cpptype) (c : category) : chosen_overload ctor :=
  let i := c_identity T in
  let f := feat T in
  let native := negb (has_to_json T) in
  resolve (
    match i with
    | IArray => Cand KCopy Exact (to_const c) PNone :: when (rvalue c) (Cand KMove Exact (ByRef 0) PNone)
    | IValue => [Cand KMove UserDefined (ByRef 0) PNone]              (* through operator array *)
    | IScalar s => when (arithmetic s) (Cand (KScalar SULong) (if same_scalar s SULong then Exact else Conversion) ByValue PNone)
    | _ => []
    end ++
    when (negb (is_array_t i) && to_member T) (Cand KMember Exact (to_const c) PConstRef) ++
    when (negb (is_array_t i) && to_ext T) (Cand KExt Exact (to_const c) PConstRef) ++
    when (negb (is_array_t i) && any_rvalue c && e_move_to_json (c_ext T)) (Cand KExtMove Exact (ByRef 0) PForward) ++
    when (is_fixed_array f && native) (Cand (KFixed false) Exact (to_const c) PInstance) ++
    when (is_fixed_array f && native && rvalue c) (Cand (KFixed true) Exact (ByRef 0) PInstance) ++
    when (is_collection f && negb (is_array_t i) && native) (Cand (KCollection false) Exact (to_const c) PConstRef) ++
    when (match c with Rvalue => is_collection f | ConstRvalue => is_container f && negb (is_map f) | _ => false end
          && negb (is_array_t i) && native) (Cand (KCollection true) Exact (ByRef 0) PForward) ++
    when (is_tuple_like f && native) (Cand (KTuple false) Exact (to_const c) PInstance) ++
    when (is_tuple_like f && native && rvalue c) (Cand (KTuple true) Exact (ByRef 0) PInstance)).
(** object.hpp:31-88 *)
Definition construct_object (T : cpptype) (c : category) : chosen_overload ctor :=
  let i := c_identity T in
  let f := feat T in
  let native := negb (has_to_json T) in
  resolve (
    match i with
    | IObject => Cand KCopy Exact (to_const c) PNone :: when (rvalue c) (Cand KMove Exact (ByRef 0) PNone)
    | IValue => [Cand KMove UserDefined (ByRef 0) PNone]              (* through operator object *)
    | _ => []
    end ++
    when (negb (is_object_t i) && to_member T) (Cand KMember Exact (to_const c) PConstRef) ++
    when (negb (is_object_t i) && to_ext T) (Cand KExt Exact (to_const c) PConstRef) ++
    when (negb (is_object_t i) && any_rvalue c && e_move_to_json (c_ext T)) (Cand KExtMove Exact (ByRef 0) PForward) ++
    when (is_map f && string_key f && negb (is_object_t i) && native) (Cand (KMap false) Exact (to_const c) PConstRef) ++
    when (is_map f && string_key f && negb (is_object_t i) && native && any_rvalue c)
      (Cand (KMap true) Exact (ByRef 0) PForward)).

(** ** The chains of if constexpr *)
Inductive branch : Type :=
| BValue | BMember | BExt | BBool | BMonostate | BNullptr | BNullable | BEnum | BArithmetic | BString | BPath | BArray
| BCollection | BFixed | BTuple | BVariant | BObject | BMap.
(** is<T>(), value_impl.hpp:258-340; [None]: static_assert fails *)
Definition is_branch (T : cpptype) : option branch :=
  let i := c_identity T in
  let f := feat T in
  if is_value_t i then Some BValue
  else if f_check_json f then Some BMember
  else if e_check_json (c_ext T) then Some BExt
  else if match i with IScalar SBool => true | _ => false end then Some BBool
  else if match i with IMonostate => true | _ => false end then Some BMonostate
  else if match i with IScalar SNullptr => true | _ => false end then Some BNullptr
  else if is_nullable f then Some BNullable
  else if is_enum_t i then Some BEnum
  else if match i with IScalar s => arithmetic s | _ => false end then Some BArithmetic
  else if f_to_string f then Some BString
  else if is_path_t i then Some BPath
  else if is_array_t i then Some BArray
  else if is_collection f then Some BCollection
  else if is_fixed_array f then Some BFixed
  else if is_tuple_like f then Some BTuple
  else if is_variant_t i then Some BVariant
  else if is_object_t i then Some BObject
  else if is_map f then Some BMap
  else None.

(** ** Conversion operators of value *)
Inductive op : Type :=
| OScalar (s : scalar)                 (* bool, int, ..., long double, nullptr_t *)
| OString | OView | OMonostate | OArray | OObject | OEnum
| OMember | OExt | OExtMove
| OOptional (mv : bool) | OShared (mv : bool) | OUnique (mv : bool) | OVariant (mv : bool) | OPath
| OSequence (mv : bool)                (* collections, fixed arrays, tuples: as_array().as<T>() *)
| OMapping (mv : bool).                (* maps: as_object().as<T>() *)
(** the operators to types that are not dependent, value.hpp:451-481 *)
Definition converts_scalar (s : scalar) : bool :=
  match s with SCharacter | SSmall | SExtended | SCString | SPointer => false | _ => true end.
(** (T)v for an lvalue or rvalue v, value.hpp:451-648. An explicit operator has to give T itself. The
    constructors of T that take a json::value are not considered. *)
Definition operators (T : cpptype) (rv : bool) : list (candidate op) :=
  let i := c_identity T in
  let f := feat T in
  let native := negb (has_from_json T) in
  let here := ByRef (if rv then 1 else 0) in             (* const or const&, binds an rvalue too *)
  let both (b : bool) (o : bool -> op) (p : pattern) :=
    when b (Cand (o false) Exact here p) ++ when (b && rv) (Cand (o true) Exact (ByRef 0) p) in
  match i with
  | IScalar s => when (converts_scalar s) (Cand (OScalar s) Exact here PNone)
  | IString => [Cand OString Exact here PNone]
  | IView => when (negb rv) (Cand OView Exact here PNone)            (* deleted for an rvalue *)
  | IMonostate => [Cand OMonostate Exact here PNone]
  | IArray => [Cand OArray Exact here PNone]
  | IObject => [Cand OObject Exact here PNone]
  | IPath => Cand OPath Exact here PNone :: when rv (Cand OPath Exact (ByRef 0) PNone)
  | _ => []
  end ++
  when (is_enum_t i) (Cand OEnum Exact here PDependent) ++
  when (f_from_json f) (Cand OMember Exact here PDependent) ++
  when (e_from_json (c_ext T)) (Cand OExt Exact here PDependent) ++
  when (e_move_from_json (c_ext T) && rv) (Cand OExtMove Exact (ByRef 0) PDependent) ++
  both (match i with IOptional _ _ => true | _ => false end) OOptional PVariant ++
  both (match i with IShared _ => true | _ => false end) OShared PVariant ++
  both (match i with IUnique _ => true | _ => false end) OUnique PVariant ++
  both (is_variant_t i) OVariant PVariant ++
  both ((is_collection f || is_fixed_array f || is_tuple_like f) && native) OSequence PDependent ++
  both (is_map f && string_key f && native) OMapping PDependent.
(** The body of operator enum_t() const, value.hpp:484-500, converts to the underlying type, which takes an operator to that
    type itself; the branch for text does not compile without the one for numbers. The underlying type of
    value_type is char, value.hpp:33. *)
Definition enum_operator_compiles (i : identity) : bool :=
  match i with IEnum u => converts_scalar u | _ => false end.
(** value(enum_t), value.hpp:82-96; [num]: MEOJSON_ENUM_AS_NUMBER *)
Definition enum_constructor_compiles (num : bool) (i : identity) : bool :=
  match i with
  | IEnum u =>
      if num then
        match construct (Cpp (IScalar u) (Extension false false false false false) None) Rvalue with
        | Chosen KDeleted | Ambiguous | NotViable => false
        | Chosen _ => true
        end
      else true
  | _ => negb num
  end.
(** In a conversion the pattern is that of the result: an instance of a template, or the parameter itself. *)
Definition op_better (a b : candidate op) : bool :=
  better_conversion a b ||
  (negb (better_conversion b a) &&
   ((negb (is_template a) && is_template b) ||
    match k_pattern a, k_pattern b with PVariant, PDependent => true | _, _ => false end)).
Fixpoint op_beats_all (a : candidate op) (l : list (candidate op)) : bool :=
  match l with [] => true | b :: r => op_better a b && op_beats_all a r end.
Fixpoint op_best (before l : list (candidate op)) : chosen_overload op :=
  match l with
  | [] => match before with [] => NotViable | _ => Ambiguous end
  | a :: r => if op_beats_all a before && op_beats_all a r then Chosen (k_name a) else op_best (before ++ [a]) r
  end.
Definition convert (T : cpptype) (rv : bool) : chosen_overload op := op_best [] (operators T rv).
(** as<T>(): the value itself, a function of the user, or a conversion *)
Inductive as_choice : Type := ASelf | AMember | AExt | AExtMove | AConvert (o : chosen_overload op).
(** as() const&, value_impl.hpp:681-704 *)
Definition as_select (T : cpptype) : as_choice :=
  if is_value_t (c_identity T) then ASelf
  else if f_from_json (feat T) then AMember
  else if e_from_json (c_ext T) then AExt
  else AConvert (convert T false).
(** as() &&, value_impl.hpp:706-729 *)
Definition as_select_rv (T : cpptype) : as_choice :=
  if is_value_t (c_identity T) then ASelf
  else if f_from_json (feat T) then AMember
  else if e_move_from_json (c_ext T) then AExtMove
  else AConvert (convert T false).
(** array::as, array_impl.hpp:429-521; object::as, object_impl.hpp:339-368 *)
Definition array_as (T : cpptype) : option branch :=
  let f := feat T in
  if is_fixed_array f then Some BFixed
  else if is_collection f then Some BCollection
  else if is_tuple_like f then Some BTuple
  else None.
Definition object_as (T : cpptype) : option branch :=
  let f := feat T in if is_map f && string_key f then Some BMap else None.

(** ** value::emplace(x), value_impl.hpp:743-755 *)
Inductive place : Type := InArray | InObject | Rejected.
(** [pair]: can an object member be made from x? *)
Definition emplace_place (T : cpptype) (c : category) (pair : bool) : place :=
  match construct T c with
  | Chosen KDeleted | Ambiguous | NotViable => if pair then InObject else Rejected
  | Chosen _ => InArray
  end.
