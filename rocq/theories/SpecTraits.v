(** * What a C++ type is taken for. *)
From Verif Require Import Base Value Num Enum Conv Traits.

Inductive kind : Type :=
| GValue | GArray | GObject            (* json's own classes *)
| GBool | GNumber | GNull | GText | GEnum
| GUser                                (* functions of the user *)
| GWrapper | GVariant | GFixed | GSequence | GTuple | GMap.

(** what each constructor of value makes of its argument *)
Definition scalar_kind (s : scalar) : kind :=
  match s with SBool => GBool | SNullptr => GNull | SCString | SPointer => GText | _ => GNumber end.
Definition ctor_kind (k : ctor) : option kind :=
  match k with
  | KCopy | KMove => Some GValue
  | KScalar s => Some (scalar_kind s)
  | KDeleted | KRaw => None
  | KString | KView | KPath => Some GText
  | KMonostate => Some GNull
  | KArray => Some GArray
  | KObject => Some GObject
  | KEnum => Some GEnum
  | KMember | KExt | KExtMove => Some GUser
  | KWrapper _ => Some GWrapper
  | KVariant _ => Some GVariant
  | KFixed _ => Some GFixed
  | KCollection _ => Some GSequence
  | KTuple _ => Some GTuple
  | KMap _ => Some GMap
  end.
(** what each branch of is<T>() asks for *)
Definition branch_kind (b : branch) : kind :=
  match b with
  | BValue => GValue | BMember | BExt => GUser | BBool => GBool | BMonostate | BNullptr => GNull | BNullable => GWrapper
  | BEnum => GEnum | BArithmetic => GNumber | BString | BPath => GText | BArray => GArray | BCollection => GSequence
  | BFixed => GFixed | BTuple => GTuple | BVariant => GVariant | BObject => GObject | BMap => GMap
  end.
(** what each conversion makes *)
Definition op_kind (T : cpptype) (o : op) : option kind :=
  match o with
  | OScalar s => Some (scalar_kind s)
  | OString | OView | OPath => Some GText
  | OMonostate => Some GNull
  | OArray => Some GArray
  | OObject => Some GObject
  | OEnum => if enum_operator_compiles (c_identity T) then Some GEnum else None
  | OMember | OExt | OExtMove => Some GUser
  | OOptional _ | OShared _ | OUnique _ => Some GWrapper
  | OVariant _ => Some GVariant
  | OSequence _ => option_map branch_kind (array_as T)
  | OMapping _ => option_map branch_kind (object_as T)
  end.
Definition choice_kind (T : cpptype) (a : as_choice) : option kind :=
  match a with
  | ASelf => Some GValue
  | AMember | AExt | AExtMove => Some GUser
  | AConvert (Chosen o) => op_kind T o
  | AConvert _ => None
  end.

(** The functions of the user: none; or all three as members; or all three in a specialization of
    ext::jsonization, possibly with those for rvalues. *)
Definition no_extension : extension := Extension false false false false false.
Definition no_functions (T : cpptype) : Prop :=
  c_ext T = no_extension /\
  f_to_json (feat T) = false /\ f_check_json (feat T) = false /\ f_from_json (feat T) = false.
Definition member_functions (T : cpptype) : Prop :=
  c_ext T = no_extension /\
  f_to_json (feat T) = true /\ f_check_json (feat T) = true /\ f_from_json (feat T) = true.
Definition extension_functions (T : cpptype) : Prop :=
  (exists mt mf, c_ext T = Extension true true true mt mf) /\
  f_to_json (feat T) = false /\ f_check_json (feat T) = false /\ f_from_json (feat T) = false.

(** What a class looks like. *)
Inductive looks (f : features) : kind -> Prop :=
| lk_wrapper p : f_bool f = true -> f_deref f = Some p -> looks f GWrapper
| lk_text : f_to_string f = true -> looks f GText
| lk_fixed : f_form f = FTypeSize -> looks f GFixed
| lk_tuple n : f_form f = FTypes n -> f_tuple_size f = Some n -> looks f GTuple
| lk_sequence : f_value_type f = true -> f_range f = Some true -> f_traits_type f <> Some true ->
    (f_key_type f = None \/ f_mapped_type f = false) -> f_form f <> FTypeSize -> looks f GSequence
| lk_map k : f_value_type f = true -> f_range f = Some true -> f_traits_type f <> Some true ->
    f_key_type f = Some k -> f_mapped_type f = true -> looks f GMap.
(** It looks like one thing only. *)
Definition one_face (f : features) : Prop := forall g g', looks f g -> looks f g' -> g = g'.

(** Types with a meaning of their own: fundamental types (but not pointers that are not text, nor integers
    beyond long long), enumerations other than json::value::value_type, json's classes, strings, monostate,
    path, optional (without begin()), shared_ptr, unique_ptr, variant; and classes that look like one thing,
    where a class that converts implicitly to the parameter of a constructor converts to text and looks like
    text. *)
Definition own_meaning (T : cpptype) : Prop :=
  match c_identity T with
  | IScalar (SPointer | SExtended) => False
  | IValueType => False
  | IOptional iterable _ => iterable = false
  | IClass f =>
      one_face f /\
      (forall u, c_user T = Some u -> looks f GText /\ exists k, u = Some k /\ ctor_kind k = Some GText)
  | _ => True
  end /\
  match c_identity T with
  | IClass _ => True
  | _ => c_user T = None
  end.
(** Types for which the user may supply functions. *)
Definition customizable (T : cpptype) : Prop :=
  match c_identity T with
  | IClass _ | IOptional _ _ | IShared _ | IUnique _ | IVariant _ => True
  | _ => False
  end.

(** Handing over to array and object: the category of the argument of the inner constructor. *)
Definition handed (mv : bool) (c : category) : category := if mv then c else Const.
(** What a class converts to implicitly is the parameter of a constructor that is not a template. *)
Definition possible (T : cpptype) : Prop :=
  forall k, c_user T = Some (Some k) ->
    match k with KScalar _ | KDeleted | KString | KView | KMonostate | KArray | KObject | KCopy | KMove => True | _ => False end.

(** ** The types of Conv.v as C++ types *)
(** a class without functions of the user that is neither wrapper nor text *)
Definition bare (fm : form) (values : bool) (range : option bool) (key : option bool) (mapped : bool) (size : option nat) : features :=
  Features fm None values range key mapped false None size false false false false.
Definition member_class : features := Features FOther None false None None false false None None true true true false.
Definition integers : list (scalar * bool * N) :=
  [(SInt, true, 32%N); (SUnsigned, false, 32%N); (SLong, true, 64%N); (SULong, false, 64%N);
   (SLLong, true, 64%N); (SULLong, false, 64%N)].
Inductive describes : cpptype -> ty -> Prop :=
| d_value : describes (Cpp IValue no_extension None) TValue
| d_array : describes (Cpp IArray no_extension None) TArr
| d_object : describes (Cpp IObject no_extension None) TObj
| d_bool : describes (Cpp (IScalar SBool) no_extension None) TBool
| d_int s sg w : In (s, sg, w) integers ->
    describes (Cpp (IScalar s) no_extension None) (TInt sg w)
| d_flt s p : In (s, p) [(SFloat, 24%N); (SDouble, 53%N); (SLDouble, 64%N)] ->
    describes (Cpp (IScalar s) no_extension None) (TFlt p)
| d_str : describes (Cpp IString no_extension None) TStr
| d_view : describes (Cpp IView no_extension None) TView
| d_nullptr : describes (Cpp (IScalar SNullptr) no_extension None) TNullptr
| d_mono : describes (Cpp IMonostate no_extension None) TMono
| d_opt t : describes (Cpp (IOptional false true) no_extension None) (TOpt t)
| d_shared t : describes (Cpp (IShared true) no_extension None) (TPtr t)
| d_unique t : describes (Cpp (IUnique true) no_extension None) (TPtr t)
| d_vec t n : describes (Cpp (IClass (bare (FTypes n) true (Some true) None false None)) no_extension None) (TVec t)
| d_coll ins t n k : describes (Cpp (IClass (bare (FTypes n) true (Some true) (Some k) false None)) no_extension None) (TColl ins t)
| d_fix m t : describes (Cpp (IClass (bare FTypeSize true (Some true) None false (Some m))) no_extension None) (TFix m t)
| d_tup ts : describes (Cpp (IClass (bare (FTypes (length ts)) false None None false (Some (length ts)))) no_extension None) (TTup ts)
| d_var ts : ts <> [] -> describes (Cpp (IVariant (length ts)) no_extension None) (TVar ts)
| d_map t n : describes (Cpp (IClass (bare (FTypes n) true (Some true) (Some true) true None)) no_extension None) (TMap t)
| d_enum e s : In (s, e_underlying e) ((SBool, None) :: map (fun '(s, sg, w) => (s, Some (sg, w))) integers) ->
    describes (Cpp (IEnum s) no_extension None) (TEnum e)
| d_rec fs : describes (Cpp (IClass member_class) no_extension None) (TRec fs)
| d_ext x : describes (Cpp (IClass no_features) (Extension true true true (x_move_to x)
                (match x_move_from x with Some _ => true | None => false end)) None) (TExt x).
(** the clause of the model for each type *)
Definition clause (t : ty) : kind :=
  match t with
  | TValue => GValue | TArr => GArray | TObj => GObject | TBool => GBool | TInt _ _ | TFlt _ => GNumber
  | TStr | TView => GText | TNullptr | TMono => GNull | TOpt _ | TPtr _ => GWrapper | TVec _ | TColl _ _ => GSequence
  | TFix _ _ => GFixed | TTup _ => GTuple | TVar _ => GVariant | TMap _ => GMap | TEnum _ => GEnum | TRec _ | TExt _ => GUser
  end.
(** the JSON type that goes with a kind, where there is one *)
Definition json_type (g : kind) : option vtype :=
  match g with
  | GBool => Some Tboolean | GNumber => Some Tnumber | GNull => Some Tnull | GText => Some Tstring
  | GArray | GFixed | GSequence | GTuple => Some Tarray
  | GObject | GMap => Some Tobject
  | _ => None
  end.
