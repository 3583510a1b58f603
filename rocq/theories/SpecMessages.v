(** * Vocabulary for the properties of the texts of exceptions. *)
From Verif Require Import Base Value Dump Spec Containers Num Enum Conv SpecConv Heap SpecHeap SpecInfo.

(** Converting [v] to [t] may convert its part [w] to [t']. *)
Inductive reaches : ty -> value -> ty -> value -> Prop :=
| re_here t v : reaches t v t v
| re_opt t v t' w : reaches t v t' w -> reaches (TOpt t) v t' w
| re_ptr t v t' w : reaches t v t' w -> reaches (TPtr t) v t' w
| re_vec t l x t' w : In x l -> reaches t x t' w -> reaches (TVec t) (VArr Tarray (Some l)) t' w
| re_coll ins t l x t' w : In x l -> reaches t x t' w -> reaches (TColl ins t) (VArr Tarray (Some l)) t' w
| re_fix n t l x t' w : length l = n -> In x l -> reaches t x t' w -> reaches (TFix n t) (VArr Tarray (Some l)) t' w
| re_tup_one t v t' w : reaches t v t' w -> reaches (TTup [t]) v t' w
| re_tup ts i t l x t' w : length ts = length l -> nth_error ts i = Some t -> nth_error l i = Some x -> reaches t x t' w ->
    reaches (TTup ts) (VArr Tarray (Some l)) t' w
| re_var ts t v t' w : In t ts -> reaches t v t' w -> reaches (TVar ts) v t' w
| re_map t m k x t' w : In (k, x) m -> reaches t x t' w -> reaches (TMap t) (VObj Tobject (Some m)) t' w
| re_rec fs f t k v x t' w : In (f, t) fs -> effective_key f k -> member v k x -> reaches t x t' w -> reaches (TRec fs) v t' w
| re_enum e sg w' s : e_underlying e = Some (sg, w') ->
    reaches (TEnum e) (VStr Tnumber s) (TInt sg w') (VStr Tnumber s)
| re_enum_bool e s : e_underlying e = None -> reaches (TEnum e) (VStr Tnumber s) TBool (VStr Tnumber s).

(** the types that are made from an array, from an object *)
Definition from_array (t : ty) : Prop :=
  match t with TArr | TVec _ | TColl _ _ | TFix _ _ => True | TTup ts => length ts <> 1%nat | _ => False end.
Definition from_object (t : ty) : Prop := match t with TObj | TMap _ => True | _ => False end.

Section Complaints.
  Context (E : env) (names : bool -> N -> bytes).
  (** a type with one kind of source: its name, the kind, and the name of the kind *)
  Inductive wants : ty -> bytes -> vtype -> Prop :=
  | wa_bool : wants TBool (of_string "boolean") Tboolean
  | wa_int sg w : wants (TInt sg w) (names sg w) Tnumber
  | wa_float : wants (TFlt 24) (of_string "float") Tnumber
  | wa_double : wants (TFlt 53) (of_string "double") Tnumber
  | wa_long_double p : p <> 24 -> p <> 53 -> wants (TFlt p) (of_string "long double") Tnumber
  | wa_str : wants TStr (of_string "string") Tstring
  | wa_view : wants TView (of_string "string_view") Tstring
  | wa_nullptr : wants TNullptr (of_string "nullptr_t") Tnull
  | wa_mono : wants TMono (of_string "monostate") Tnull
  | wa_arr t : from_array t -> wants t (of_string "array") Tarray
  | wa_obj t : from_object t -> wants t (of_string "object") Tobject.
  (** [s] is no number of the type *)
  Inductive unreadable : ty -> bytes -> Prop :=
  | ur_int sg w s : (forall z, spells sg s z -> ~ fits sg w z) -> unreadable (TInt sg w) s
  | ur_flt p s : float_parse E p s = None -> unreadable (TFlt p) s.
  (** The text says what is wrong: the value is not of the kind, the text of the number is not one, ... *)
  Inductive complains : ty -> value -> bytes -> Prop :=
  | co_kind t n k v i : wants t n k -> type_of v <> k -> describes v i ->
      complains t v (of_string "Type error: cannot convert to " ++ n ++ of_string ", expected=" ++ tag_name k ++ of_string ", " ++ i)
  | co_bool s : s <> of_string "true" -> s <> of_string "false" ->
      complains TBool (VStr Tboolean s) (of_string "Parse error: invalid boolean value '" ++ s ++ of_string "'")
  | co_number t n s : wants t n Tnumber -> unreadable t s ->
      complains t (VStr Tnumber s) (of_string "Parse error: cannot convert number '" ++ s ++ of_string "' to " ++ n)
  | co_enum e v i : type_of v <> Tstring -> type_of v <> Tnumber -> describes v i ->
      complains (TEnum e) v (of_string "Cannot convert to enum: expected string or number type, " ++ i)
  | co_enum_name e s i : string_to_enum e s = None -> describes (VStr Tstring s) i ->
      complains (TEnum e) (VStr Tstring s) (of_string "Cannot convert to enum: invalid enum string value, " ++ i)
  | co_size n t l a b : length l <> n -> writes_number n a -> writes_number (length l) b ->
      complains (TFix n t) (VArr Tarray (Some l)) (of_string "Array size mismatch: expected=" ++ a ++ of_string ", actual=" ++ b)
  | co_tuple ts l a b : length l <> length ts -> length ts <> 1%nat -> writes_number (length ts) a -> writes_number (length l) b ->
      complains (TTup ts) (VArr Tarray (Some l))
        (of_string "Array size mismatch for tuple conversion: expected=" ++ a ++ of_string ", actual=" ++ b)
  | co_var ts v i : Forall (fun t => is_ E t v = Ok false) ts -> describes v i ->
      complains (TVar ts) v (of_string "Type error: cannot convert to any variant alternative, " ++ i)
  | co_rec fs v i : is_ E (TRec fs) v = Ok false -> describes v i ->
      complains (TRec fs) v (of_string "Deserialization failed: from_json() returned false, " ++ i)
  | co_ext x v i d : x_from x v (x_default x) = (d, Ok false) -> describes v i ->
      complains (TExt x) v (of_string "Deserialization failed: from_json() returned false, " ++ i).
  (** The source of a move: an empty value, string or object is taken for an empty array; when move_from_json returns
      false, the text is about what it has left. *)
  Inductive complains_rv (left : ext -> value -> value) : ty -> value -> bytes -> Prop :=
  | cr_same t v m : complains t v m -> complains_rv left t v m
  | cr_empty t v m : type_of v = Tnull \/ v = VStr Tstring [] \/ v = VObj Tobject (Some []) -> from_array t ->
      complains t (VArr Tarray (Some [])) m -> complains_rv left t v m
  | cr_move x f v d i : x_move_from x = Some f -> f v (x_default x) = (d, Ok false) -> describes (left x v) i ->
      complains_rv left (TExt x) v (of_string "Deserialization failed: move_from_json() returned false, " ++ i).
End Complaints.
(** what move_from_json of the user leaves *)
Definition leaves_sound (left : ext -> value -> value) : Prop := forall x v, sound v -> sound (left x v).
(** the names of the integer types *)
Definition integer_names (names : bool -> N -> bytes) : Prop :=
  forall sg w, In (names sg w) (map of_string ["integer"; "unsigned"; "long"; "unsigned long"; "long long"; "unsigned long long"]%string).
(** a text that repeats the text of a number or of a boolean *)
Definition quotes (s m : bytes) : Prop := exists a b, m = a ++ s ++ b /\ (length a <= 40)%nat /\ (length b <= 30)%nat.
(** no function of the user is involved *)
Inductive ours : ty -> Prop :=
| ou_value : ours TValue | ou_arr : ours TArr | ou_obj : ours TObj | ou_bool : ours TBool
| ou_int sg w : ours (TInt sg w) | ou_flt p : ours (TFlt p)
| ou_str : ours TStr | ou_view : ours TView | ou_nullptr : ours TNullptr | ou_mono : ours TMono
| ou_opt t : ours t -> ours (TOpt t)
| ou_ptr t : ours t -> ours (TPtr t)
| ou_vec t : ours t -> ours (TVec t)
| ou_coll ins t : ours t -> ours (TColl ins t)
| ou_fix n t : ours t -> ours (TFix n t)
| ou_tup ts : Forall ours ts -> ours (TTup ts)
| ou_var ts : Forall ours ts -> ours (TVar ts)
| ou_map t : ours t -> ours (TMap t)
| ou_enum e : ours (TEnum e)
| ou_rec fs : Forall (fun ft => ours (snd ft)) fs -> ours (TRec fs).
(** sizes are numbers of the type size_t *)
Definition extent (v : value) : N :=
  match v with VArr _ (Some l) => N.of_nat (length l) | VObj _ (Some m) => N.of_nat (length m) | _ => 0 end.
Definition arity (t : ty) : N := match t with TFix n _ => N.of_nat n | TTup ts => N.of_nat (length ts) | _ => 0 end.
Definition sizes_fit (t : ty) (v : value) : Prop := forall t' w, reaches t v t' w -> extent w < 2 ^ 64 /\ arity t' < 2 ^ 64.
