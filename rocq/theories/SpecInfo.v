(** * Vocabulary for the properties of value_info, and for native data as text. *)
From Verif Require Import Base Value Dump Spec Containers Num Enum Conv SpecConv.

(** ** Descriptions of a value *)
Definition tag_name (t : vtype) : bytes :=
  of_string match t with
  | Tinvalid => "invalid" | Tnull => "null" | Tboolean => "boolean" | Tstring => "string"
  | Tnumber => "number" | Tarray => "array" | Tobject => "object"
  end.
(** no more than the first hundred bytes *)
Inductive shortened : bytes -> bytes -> Prop :=
| short_all s : (length s <= 100)%nat -> shortened s s
| short_cut a b : length a = 100%nat -> b <> [] -> shortened (a ++ b) (a ++ of_string "...").
(** digits of the size: those of the number, without leading zeros *)
Definition writes_number (n : nat) (s : bytes) : Prop :=
  Forall digit s /\ decimal s = N.of_nat n /\ (s = [48] \/ exists c r, s = c :: r /\ c <> 48).
Inductive describes : value -> bytes -> Prop :=
| de_bare t s : t = Tnull \/ t = Tinvalid -> describes (VStr t s) (of_string "type=" ++ tag_name t)
| de_scalar t s x y : t = Tboolean \/ t = Tnumber \/ t = Tstring -> dumps None (VStr t s) = Ok x -> shortened x y ->
    describes (VStr t s) (of_string "type=" ++ tag_name t ++ of_string ", value=" ++ y)
| de_arr l s : writes_number (length l) s ->
    describes (VArr Tarray (Some l)) (of_string "type=array, size=" ++ s)
| de_obj m s : writes_number (length m) s ->
    describes (VObj Tobject (Some m)) (of_string "type=object, size=" ++ s).

(** ** Native data of bytes: the strings, and the keys of maps and structs *)
Inductive byte_data : ty -> data -> Prop :=
| bd_value v : all_vstrings (Forall is_byte) v -> byte_data TValue (DJson v)
| bd_arr l : Forall (all_vstrings (Forall is_byte)) l -> byte_data TArr (DArr l)
| bd_obj m : Forall (fun kv => Forall is_byte (fst kv) /\ all_vstrings (Forall is_byte) (snd kv)) m -> byte_data TObj (DObj m)
| bd_bool b : byte_data TBool (DBool b)
| bd_int sg w z : byte_data (TInt sg w) (DInt z)
| bd_flt p x : byte_data (TFlt p) (DFlt x)
| bd_str s : Forall is_byte s -> byte_data TStr (DStr s)
| bd_view s : Forall is_byte s -> byte_data TView (DStr s)
| bd_nullptr : byte_data TNullptr DUnit
| bd_mono : byte_data TMono DUnit
| bd_opt_none t : byte_data (TOpt t) (DOpt None)
| bd_opt t d : byte_data t d -> byte_data (TOpt t) (DOpt (Some d))
| bd_ptr_none t : byte_data (TPtr t) (DOpt None)
| bd_ptr t d : byte_data t d -> byte_data (TPtr t) (DOpt (Some d))
| bd_vec t l : Forall (byte_data t) l -> byte_data (TVec t) (DSeq l)
| bd_coll ins t l : Forall (byte_data t) l -> byte_data (TColl ins t) (DSeq l)
| bd_fix n t l : Forall (byte_data t) l -> byte_data (TFix n t) (DSeq l)
| bd_tup ts l : Forall2 byte_data ts l -> byte_data (TTup ts) (DSeq l)
| bd_var a t b d : byte_data t d -> byte_data (TVar (a ++ t :: b)) (DAlt (length a) d)
| bd_map t m : Forall (fun kd => Forall is_byte (fst kd) /\ byte_data t (snd kd)) m -> byte_data (TMap t) (DMap m)
| bd_enum e z : byte_data (TEnum e) (DInt z)
| bd_rec fs l : Forall2 (fun ft d => (forall k, effective_key (fst ft) k -> Forall is_byte k) /\ byte_data (snd ft) d) fs l ->
    byte_data (TRec fs) (DRec l)
| bd_ext x d : (forall v, x_to x d = Ok v -> all_vstrings (Forall is_byte) v) -> byte_data (TExt x) d.
(** types whose values are arrays or objects, the only documents the parser accepts *)
Definition container_type (t : ty) : Prop :=
  match t with
  | TArr | TObj | TVec _ | TColl _ _ | TFix _ _ | TTup _ | TMap _ | TRec _ => True
  | TExt x => forall d v, x_to x d = Ok v -> root v
  | _ => False
  end.

(** The tag is that of a string, an array or an object, and the value holds something else. *)
Definition mislabelled (v : value) : Prop :=
  (type_of v = Tstring /\ ~ exists t s, v = VStr t s) \/ (type_of v = Tarray /\ ~ exists t p, v = VArr t p) \/ (type_of v = Tobject /\ ~ exists t p, v = VObj t p).
