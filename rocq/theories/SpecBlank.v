(** * What an empty value is as an rvalue, and is not as an lvalue: C43. *)
From Verif Require Import Base Value Packed Parser Dump Containers Num Enum Conv Spec SpecApi SpecConv.

(** values of the other kinds that have nothing in them *)
Definition empty_no_array (v : value) : Prop := v = v_null \/ v = v_string [] \/ v = v_object [].
Definition empty_no_object (v : value) : Prop := v = v_null \/ v = v_string [] \/ v = v_array [].
(** [blank v t d]: from an rvalue [v] an empty container comes, maybe inside wrappers. *)
Inductive blank (v : value) : ty -> data -> Prop :=
| bk_arr : empty_no_array v -> blank v TArr (DArr [])
| bk_vec t : empty_no_array v -> blank v (TVec t) (DSeq [])
| bk_coll ins t : empty_no_array v -> blank v (TColl ins t) (DSeq [])
| bk_fix t : empty_no_array v -> blank v (TFix 0 t) (DSeq [])
| bk_tup : empty_no_array v -> blank v (TTup []) (DSeq [])
| bk_obj : empty_no_object v -> blank v TObj (DObj [])
| bk_map t : empty_no_object v -> blank v (TMap t) (DMap [])
| bk_opt t d : blank v t d -> blank v (TOpt t) (DOpt (Some d))
| bk_ptr t d : v <> v_null -> blank v t d -> blank v (TPtr t) (DOpt (Some d))
| bk_one t d : blank v t d -> blank v (TTup [t]) (DSeq [d]).

(** ** Tuples of one element: C32
    No structs and no classes with functions of the user inside; an element that is put into an
    empty collection is then its only element. *)
Inductive listed : ty -> Prop :=
| li_value : listed TValue | li_arr : listed TArr | li_obj : listed TObj | li_bool : listed TBool
| li_int sg w : listed (TInt sg w) | li_flt p : listed (TFlt p) | li_str : listed TStr
| li_nullptr : listed TNullptr | li_mono : listed TMono | li_enum e : listed (TEnum e)
| li_opt t : listed t -> listed (TOpt t)
| li_ptr t : listed t -> listed (TPtr t)
| li_vec t : listed t -> listed (TVec t)
| li_coll ins t : (forall x, ins x [] = [x]) -> listed t -> listed (TColl ins t)
| li_fix n t : listed t -> listed (TFix n t)
| li_tup ts : Forall listed ts -> listed (TTup ts)
| li_var ts : Forall listed ts -> listed (TVar ts)
| li_map t : listed (TMap t).

(** ** The universe of C32 and C33: the types of [native], and structs of them. *)
(** null is no datum of the type: it is not itself an optional, nor a struct all of whose fields may be absent *)
Definition takes_no_null (t : ty) : Prop :=
  (forall t', t <> TOpt t') /\ forall fs, t = TRec fs -> Exists (fun ft => is_optional (fst ft) = false) fs.
Inductive native_s : ty -> Prop :=
| ns_bool : native_s TBool
| ns_int sg w : native_s (TInt sg w)
| ns_str : native_s TStr
| ns_opt t : native_s t -> takes_no_null t -> native_s (TOpt t)
| ns_vec t : native_s t -> native_s (TVec t)
| ns_coll ins t : native_s t -> native_s (TColl ins t)
| ns_fix n t : native_s t -> native_s (TFix n t)
| ns_tup ts : Forall native_s ts -> length ts <> 1%nat -> native_s (TTup ts)
| ns_map t : native_s t -> native_s (TMap t)
| ns_rec fs : Forall (fun ft => native_s (snd ft)) fs -> distinct_keys fs -> native_s (TRec fs).
(** no empty std::optional inside *)
Inductive full : data -> Prop :=
| fu_bool b : full (DBool b)
| fu_int z : full (DInt z)
| fu_str s : full (DStr s)
| fu_some d : full d -> full (DOpt (Some d))
| fu_seq l : Forall full l -> full (DSeq l)
| fu_map m : Forall (fun kd => full (snd kd)) m -> full (DMap m)
| fu_rec l : Forall full l -> full (DRec l).
