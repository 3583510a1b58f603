(** * Vocabulary for the properties of conversions. *)
From Coq Require Import Sorting.Sorted Permutation.
From Verif Require Import Base Value Containers Num Enum Conv Spec.

(** ** Integers *)
Definition fits (sg : bool) (w : N) (z : Z) : Prop :=
  if sg then (- 2 ^ (Z.of_N w - 1) <= z < 2 ^ (Z.of_N w - 1))%Z else (0 <= z < 2 ^ Z.of_N w)%Z.
(** the number a digit string denotes *)
Fixpoint decimal (ds : bytes) : N :=
  match ds with [] => 0 | c :: r => (c - 48) * 10 ^ N.of_nat (length r) + decimal r end.
(** digit strings; with a minus sign for signed types *)
Inductive spells (sg : bool) : bytes -> Z -> Prop :=
| sp_plain ds : ds <> [] -> Forall digit ds -> spells sg ds (Z.of_N (decimal ds))
| sp_minus ds : sg = true -> ds <> [] -> Forall digit ds -> spells sg (45 :: ds) (- Z.of_N (decimal ds))%Z.

(** ** Enumerations *)
Definition letter (c : N) : Prop := 97 <= c <= 122 \/ 65 <= c <= 90.
(** an identifier of ASCII letters, digits and underscores *)
Definition ascii_identifier (s : bytes) : Prop :=
  exists c r, s = c :: r /\ (letter c \/ c = 95) /\ Forall (fun c => letter c \/ c = 95 \/ digit c) r.
(** equal up to the case of ASCII letters *)
Definition same_letter (a b : N) : Prop :=
  a = b \/ (65 <= a <= 90 /\ b = a + 32) \/ (65 <= b <= 90 /\ a = b + 32).
Definition same_name (a b : bytes) : Prop := Forall2 same_letter a b.
Definition in_reflection_range (e : enum) (z : Z) : Prop := (e_lo e <= z <= e_hi e)%Z.
Definition enumerator (e : enum) (n : bytes) (z : Z) : Prop := In (n, z) (e_decl e).
(** [n] names [z], and is declared before any other name for it *)
Definition main_name (e : enum) (n : bytes) (z : Z) : Prop :=
  exists a b, e_decl e = a ++ (n, z) :: b /\ forall n', ~ In (n', z) a.
(** the values of the underlying type *)
Definition representable (e : enum) (z : Z) : Prop :=
  match e_underlying e with None => (z = 0 \/ z = 1)%Z | Some (sg, w) => fits sg w z end.
(** [z] is what the int [i] becomes: equal modulo the size of the type; any number but 0 is true *)
Definition converts (e : enum) (i z : Z) : Prop :=
  match e_underlying e with
  | None => (z = 0 /\ i = 0 \/ z = 1 /\ i <> 0)%Z
  | Some (sg, w) => fits sg w z /\ exists k, (z = i + k * 2 ^ Z.of_N w)%Z
  end.
(** some int of the range becomes [z] *)
Definition reflected (e : enum) (z : Z) : Prop := exists i, in_reflection_range e i /\ converts e i z.
(** what compilers print for the type and the enumerators: no equality sign, no semicolon, and the
    names qualified (or alone, on GCC and Clang) *)
Definition printable (e : enum) : Prop :=
  ~ In 59 (e_type e) /\ ~ In 61 (e_type e) /\ ~ In 59 (e_scope e) /\
  (e_scope e = [] /\ e_cc e <> MSVC \/ exists s, e_scope e = s ++ of_string "::").
(** ordinary declarations: the range is one of int values, names are ASCII identifiers *)
Record ordinary (e : enum) : Prop := Ordinary {
  or_lo : (- 2 ^ 31 <= e_lo e)%Z;
  or_hi : (e_hi e < 2 ^ 31)%Z;
  or_span : (e_hi e - e_lo e < 2 ^ 31)%Z;
  or_names : forall n z, enumerator e n z -> ascii_identifier n;
  or_width : forall sg w, e_underlying e = Some (sg, w) -> 1 <= w;
  or_values : forall n z, enumerator e n z -> representable e z;
  or_text : printable e;
}.
(** no two values in reach have names that differ by case only. A second name for a value, such as
    those that MEOJSON_ENUM_RANGE adds, does no harm. *)
Definition distinct_enumerators (e : enum) : Prop :=
  forall n z n' z', main_name e n z -> main_name e n' z' -> reflected e z -> reflected e z' -> same_name n n' -> z = z'.
(** every number of the underlying type is a value of the enumeration *)
Definition total_enum (e : enum) : Prop :=
  match e_underlying e, e_values e with
  | None, _ => False
  | Some _, None => True
  | Some (sg, w), Some (lo, hi) => forall z, fits sg w z -> (lo <= z <= hi)%Z
  end.

(** ** Sets: each element before all later ones *)
Definition set_sorted (lt : data -> data -> bool) (l : list data) : Prop :=
  StronglySorted (fun a b => lt a b = true /\ lt b a = false) l.

(** a container that comes out the same when its elements are inserted into an empty one, in the order of traversal *)
Definition rebuilt (ins : data -> list data -> list data) (l : list data) : Prop := fold_left (fun s x => ins x s) l [] = l.
(** std::set and std::multiset with this comparison *)
Definition TSet (lt : data -> data -> bool) (t : ty) : ty := TColl (set_insert lt) t.
Definition TMulti (lt : data -> data -> bool) (t : ty) : ty := TColl (multi_insert lt) t.

(** ** Typing: the objects of a type. json::value parts are well-formed. *)
Inductive has_type : ty -> data -> Prop :=
| ht_value v : wf v -> has_type TValue (DJson v)
| ht_arr l : Forall wf l -> has_type TArr (DArr l)
| ht_obj m : Forall (fun kv => wf (snd kv)) m -> sorted_keys m -> has_type TObj (DObj m)
| ht_bool b : has_type TBool (DBool b)
| ht_int sg w z : 1 <= w -> fits sg w z -> has_type (TInt sg w) (DInt z)
| ht_flt p x : has_type (TFlt p) (DFlt x)
| ht_str s : has_type TStr (DStr s)
| ht_view s : has_type TView (DStr s)
| ht_nullptr : has_type TNullptr DUnit
| ht_mono : has_type TMono DUnit
| ht_opt_none t : has_type (TOpt t) (DOpt None)
| ht_opt t d : has_type t d -> has_type (TOpt t) (DOpt (Some d))
| ht_ptr_none t : has_type (TPtr t) (DOpt None)
| ht_ptr t d : has_type t d -> has_type (TPtr t) (DOpt (Some d))
| ht_vec t l : Forall (has_type t) l -> has_type (TVec t) (DSeq l)
| ht_coll ins t l : Forall (has_type t) l -> rebuilt ins l -> has_type (TColl ins t) (DSeq l)
| ht_fix t l : Forall (has_type t) l -> has_type (TFix (length l) t) (DSeq l)
| ht_tup ts l : Forall2 has_type ts l -> has_type (TTup ts) (DSeq l)
| ht_var ts i t d : nth_error ts i = Some t -> has_type t d -> has_type (TVar ts) (DAlt i d)
| ht_map t m : Forall (fun kd => has_type t (snd kd)) m -> sorted_keys m -> has_type (TMap t) (DMap m)
| ht_enum_bool e z : e_underlying e = None -> (z = 0 \/ z = 1)%Z -> has_type (TEnum e) (DInt z)
| ht_enum e sg w z : e_underlying e = Some (sg, w) -> 1 <= w -> fits sg w z -> has_type (TEnum e) (DInt z)
| ht_rec fs l : Forall2 (fun ft d => has_type (snd ft) d) fs l -> has_type (TRec fs) (DRec l)
| ht_ext x d v : x_to x d = Ok v -> wf v -> has_type (TExt x) d.     (* the user's to_json does its part *)

(** The universe of property C32. Nullable types (std::optional) only directly around types
    that have no null. A tuple has any number of elements but one. *)
Inductive native : ty -> Prop :=
| na_bool : native TBool
| na_int sg w : native (TInt sg w)
| na_str : native TStr
| na_opt t : native t -> (forall t', t <> TOpt t') -> native (TOpt t)
| na_vec t : native t -> native (TVec t)
| na_coll ins t : native t -> native (TColl ins t)
| na_fix n t : native t -> native (TFix n t)
| na_tup ts : Forall native ts -> length ts <> 1%nat -> native (TTup ts)
| na_map t : native t -> native (TMap t).
(** no empty std::optional inside *)
Inductive no_nullopt : data -> Prop :=
| nn_bool b : no_nullopt (DBool b)
| nn_int z : no_nullopt (DInt z)
| nn_str s : no_nullopt (DStr s)
| nn_some d : no_nullopt d -> no_nullopt (DOpt (Some d))
| nn_seq l : Forall no_nullopt l -> no_nullopt (DSeq l)
| nn_map m : Forall (fun kd => no_nullopt (snd kd)) m -> no_nullopt (DMap m).

(** ** Functions supplied by the user: check_json returns normally on such values, and
    move_from_json does as from_json *)
Inductive lawful (P : value -> Prop) : ty -> Prop :=
| la_value : lawful P TValue | la_arr : lawful P TArr | la_obj : lawful P TObj | la_bool : lawful P TBool
| la_int sg w : lawful P (TInt sg w) | la_flt p : lawful P (TFlt p)
| la_str : lawful P TStr | la_view : lawful P TView | la_nullptr : lawful P TNullptr | la_mono : lawful P TMono
| la_opt t : lawful P t -> lawful P (TOpt t)
| la_ptr t : lawful P t -> lawful P (TPtr t)
| la_vec t : lawful P t -> lawful P (TVec t)
| la_coll ins t : lawful P t -> lawful P (TColl ins t)
| la_fix n t : lawful P t -> lawful P (TFix n t)
| la_tup ts : Forall (lawful P) ts -> lawful P (TTup ts)
| la_var ts : Forall (lawful P) ts -> lawful P (TVar ts)
| la_map t : lawful P t -> lawful P (TMap t)
| la_enum e : lawful P (TEnum e)
| la_rec fs : Forall (fun ft => lawful P (snd ft)) fs -> lawful P (TRec fs)
| la_ext x : (forall v, P v -> exists b, x_check x v = Ok b) ->
    (forall f v d, x_move_from x = Some f -> P v -> f v d = x_from x v d) -> lawful P (TExt x).

(** ** Types for which is<T>() decides as<T>() *)
Section Exact.
  Context (E : env).
  Inductive exact : ty -> Prop :=
  | ex_value : exact TValue | ex_arr : exact TArr | ex_obj : exact TObj | ex_bool : exact TBool
  | ex_int sg w : exact (TInt sg w) | ex_flt p : exact (TFlt p)
  | ex_str : exact TStr | ex_view : exact TView | ex_nullptr : exact TNullptr | ex_mono : exact TMono
  | ex_ptr t : exact t -> exact (TPtr t)
  | ex_opt t : exact t -> is_ E t v_null = Ok true -> exact (TOpt t)      (* T has its own null *)
  | ex_vec t : exact t -> exact (TVec t)
  | ex_coll ins t : exact t -> exact (TColl ins t)
  | ex_fix n t : exact t -> exact (TFix n t)
  | ex_tup ts : Forall exact ts -> length ts <> 1%nat -> exact (TTup ts)
  | ex_var ts : Forall exact ts -> exact (TVar ts)
  | ex_map t : exact t -> exact (TMap t)
  | ex_enum e : total_enum e -> exact (TEnum e)
  | ex_rec fs : Forall (fun ft => exact (snd ft)) fs -> exact (TRec fs)
  | ex_ext x :       (* from_json takes what check_json accepts, and nothing else *)
      (forall v, wf v -> exists d b, x_check x v = Ok b /\ x_from x v (x_default x) = (d, Ok b)) -> exact (TExt x).
End Exact.

(** ** Paths *)
Inductive child : key -> value -> value -> Prop :=
| ch_key k m w : In (k, w) m -> child (KStr k) (VObj Tobject (Some m)) w
| ch_pos z l w : (0 <= z)%Z -> nth_error l (Z.to_nat z) = Some w -> child (KInt z) (VArr Tarray (Some l)) w.
Inductive at_path : list key -> value -> value -> Prop :=
| ap_here v : at_path [] v v
| ap_step k ks v w x : child k v w -> at_path ks w x -> at_path (k :: ks) v x.
(** the integers of C++: 64 bits, signed or not *)
Definition int_key (k : key) : Prop :=
  match k with KStr _ => True | KInt z => (- 2 ^ 63 <= z < 2 ^ 64)%Z end.
(** no array is longer than a std::vector can be *)
Definition addressable (v : value) : Prop :=
  forall p l, at_path p v (VArr Tarray (Some l)) -> (Z.of_nat (length l) < 2 ^ 63)%Z.

(** ** Structs *)
(** the key of a member: that of the last MEO_KEY, or its name *)
Definition effective_key (f : field) (k : bytes) : Prop :=
  (exists a b, f_tags f = a ++ TagKey k :: b /\ forall k', ~ In (TagKey k') b) \/
  ((forall k', ~ In (TagKey k') (f_tags f)) /\ k = f_name f).
Definition marked_optional (f : field) : Prop := In TagOpt (f_tags f).
(** [w] is the member [k] of [v] *)
Definition member (v : value) (k : bytes) (w : value) : Prop :=
  exists m, v = VObj Tobject (Some m) /\ In (k, w) m.
(** the field is present and of the right type, or absent and optional *)
Definition good_field (E : env) (v : value) (ft : field * ty) : Prop :=
  (exists w k, effective_key (fst ft) k /\ member v k w /\ exists d, as_ E (snd ft) w = Ok d) \/
  (exists k, effective_key (fst ft) k /\ (forall w, ~ member v k w) /\ marked_optional (fst ft)).
(** what from_json does to one field *)
Definition loaded (E : env) (v : value) (ft : field * ty) (old new : data) : Prop :=
  exists k, effective_key (fst ft) k /\
  ((exists w, member v k w /\ as_ E (snd ft) w = Ok new) \/ ((forall w, ~ member v k w) /\ new = old)).
Definition distinct_keys (fs : list (field * ty)) : Prop :=
  forall i j f t f' t' k, nth_error fs i = Some (f, t) -> nth_error fs j = Some (f', t') ->
    effective_key f k -> effective_key f' k -> i = j.

(** ** Types with a constructor that takes a json::value, besides the conversion operators *)
Inductive takes_value : ty -> Prop :=
| tv_value : takes_value TValue
| tv_opt t : takes_value t -> takes_value (TOpt t)
| tv_tup t : takes_value t -> takes_value (TTup [t])
| tv_var ts t : In t ts -> takes_value t -> takes_value (TVar ts).
(** json::value itself inside any number of std::optional and one-element tuples *)
Inductive wraps_value : ty -> Prop :=
| wv_value : wraps_value TValue
| wv_opt t : wraps_value t -> wraps_value (TOpt t)
| wv_tup t : wraps_value t -> wraps_value (TTup [t]).
(** the conversion operator makes the variant: no alternative has such a constructor, or more than one
    (but none is json::value), so that overload resolution finds none *)
Definition by_operator (ts : list ty) : Prop :=
  (forall t, In t ts -> ~ takes_value t) \/
  (~ In TValue ts /\ exists a t b t' c, ts = a ++ t :: b ++ t' :: c /\ wraps_value t /\ wraps_value t').

(** ** Data that is found again in its JSON form *)
Fixpoint not_null (d : data) : Prop :=
  match d with
  | DUnit => False
  | DJson v => type_of v <> Tnull
  | DOpt None => False
  | DOpt (Some d') => not_null d'
  | DAlt _ d' => not_null d'
  | _ => True
  end.
Section Faithful.
  Context (E : env).
  Inductive faithful : ty -> data -> Prop :=
  | fa_value v : wf v -> faithful TValue (DJson v)
  | fa_arr l : Forall wf l -> faithful TArr (DArr l)
  | fa_obj m : Forall (fun kv => wf (snd kv)) m -> sorted_keys m -> faithful TObj (DObj m)
  | fa_bool b : faithful TBool (DBool b)
  | fa_int sg w z : 1 <= w -> fits sg w z -> faithful (TInt sg w) (DInt z)
  | fa_flt p x : gnumber (float_text E p x) -> float_parse E p (float_text E p x) = Some x ->
      faithful (TFlt p) (DFlt x)
  | fa_str s : faithful TStr (DStr s)
  | fa_view s : faithful TView (DStr s)
  | fa_nullptr : faithful TNullptr DUnit
  | fa_mono : faithful TMono DUnit
  | fa_opt t d : faithful t d -> faithful (TOpt t) (DOpt (Some d))
  | fa_ptr_none t : faithful (TPtr t) (DOpt None)
  | fa_ptr t d : faithful t d -> not_null d -> faithful (TPtr t) (DOpt (Some d))
  | fa_vec t l : Forall (faithful t) l -> faithful (TVec t) (DSeq l)
  | fa_coll ins t l : Forall (faithful t) l -> rebuilt ins l -> faithful (TColl ins t) (DSeq l)
  | fa_fix t l : Forall (faithful t) l -> faithful (TFix (length l) t) (DSeq l)
  | fa_tup ts l : Forall2 faithful ts l -> length ts <> 1%nat -> faithful (TTup ts) (DSeq l)
  | fa_var a t b d :
      faithful t d -> by_operator (a ++ t :: b) ->
      (forall t' v, In t' a -> to_value E t d = Ok v -> is_ E t' v = Ok false) ->
      faithful (TVar (a ++ t :: b)) (DAlt (length a) d)
  | fa_var_value a b v :
      wf v -> ~ In TValue a -> Forall (lawful wf) a -> faithful (TVar (a ++ TValue :: b)) (DAlt (length a) (DJson v))
  | fa_map t m : Forall (fun kd => faithful t (snd kd)) m -> sorted_keys m -> faithful (TMap t) (DMap m)
  | fa_enum e n z :
      enum_as_number E = false -> ordinary e -> distinct_enumerators e ->
      main_name e n z -> in_reflection_range e z -> faithful (TEnum e) (DInt z)
  | fa_enum_number e sg w z :
      enum_as_number E = true -> e_underlying e = Some (sg, w) -> 1 <= w -> total_enum e -> fits sg w z ->
      faithful (TEnum e) (DInt z)
  | fa_rec fs l :
      Forall2 (fun ft d => faithful (snd ft) d) fs l -> distinct_keys fs -> faithful (TRec fs) (DRec l)
  | fa_ext x d v :
      x_to x d = Ok v -> wf v -> (not_null d -> type_of v <> Tnull) ->
      x_check x v = Ok true -> x_from x v (x_default x) = (d, Ok true) -> faithful (TExt x) d.
End Faithful.

(** ** Objects that building a value from a variable can not touch: no non-const access to a
    wrapped object. *)
Inductive no_wrapper : ty -> Prop :=
| nw_value : no_wrapper TValue | nw_arr : no_wrapper TArr | nw_obj : no_wrapper TObj | nw_bool : no_wrapper TBool
| nw_int sg w : no_wrapper (TInt sg w) | nw_flt p : no_wrapper (TFlt p)
| nw_str : no_wrapper TStr | nw_view : no_wrapper TView | nw_nullptr : no_wrapper TNullptr | nw_mono : no_wrapper TMono
| nw_enum e : no_wrapper (TEnum e)
| nw_vec t : const_safe t -> no_wrapper (TVec t)
| nw_coll ins t : const_safe t -> no_wrapper (TColl ins t)
| nw_fix n t : const_safe t -> no_wrapper (TFix n t)
| nw_tup ts : Forall const_safe ts -> no_wrapper (TTup ts)
| nw_var ts : Forall const_safe ts -> no_wrapper (TVar ts)
| nw_map t : const_safe t -> no_wrapper (TMap t)
| nw_rec fs : Forall (fun ft => const_safe (snd ft)) fs -> no_wrapper (TRec fs)
| nw_ext x : no_wrapper (TExt x)
with const_safe : ty -> Prop :=
| cs_plain t : no_wrapper t -> const_safe t
| cs_opt t : const_safe t -> const_safe (TOpt t)
| cs_ptr t : no_wrapper t -> const_safe (TPtr t).

(** ** Sets: strict weak orders, as std::set demands of its comparison *)
Record strict_weak (P : data -> Prop) (lt : data -> data -> bool) : Prop := StrictWeak {
  sw_irrefl : forall a, P a -> lt a a = false;
  sw_trans : forall a b c, P a -> P b -> P c -> lt a b = true -> lt b c = true -> lt a c = true;
  sw_equiv : forall a b c, P a -> P b -> P c ->
    lt a b = false -> lt b a = false -> lt b c = false -> lt c b = false -> lt a c = false /\ lt c a = false;
}.
Definition equivalent (lt : data -> data -> bool) (a b : data) : Prop := lt a b = false /\ lt b a = false.
(** [x] occurs in the list, with nothing equivalent before it *)
Definition first_of_kind (lt : data -> data -> bool) (l : list data) (x : data) : Prop :=
  exists a b, l = a ++ x :: b /\ forall y, In y a -> ~ equivalent lt x y.
(** ** std::multiset: no element before a smaller one, equivalent elements in the order of the list *)
Definition multi_sorted (lt : data -> data -> bool) (l : list data) : Prop := StronglySorted (fun a b => lt b a = false) l.
Definition kind (lt : data -> data -> bool) (x y : data) : bool := negb (lt x y) && negb (lt y x).
Definition same_kinds (lt : data -> data -> bool) (l s : list data) : Prop :=
  forall x, In x l -> filter (kind lt x) s = filter (kind lt x) l.

(** ** Unordered containers, with any hash function and any number of buckets: the new element comes
    somewhere; std::unordered_set takes no element equal to one it has *)
Definition unordered_set_like (eq : data -> data -> bool) (ins : data -> list data -> list data) : Prop :=
  forall x s, ((exists y, In y s /\ eq x y = true) -> ins x s = s) /\
              ((forall y, In y s -> eq x y = false) -> Permutation (x :: s) (ins x s)).
Definition unordered_multi_like (ins : data -> list data -> list data) : Prop := forall x s, Permutation (x :: s) (ins x s).
Record equality_on (P : data -> Prop) (eq : data -> data -> bool) : Prop := EqualityOn {
  eo_refl : forall a, P a -> eq a a = true;
  eo_sym : forall a b, P a -> P b -> eq a b = true -> eq b a = true;
  eo_trans : forall a b c, P a -> P b -> P c -> eq a b = true -> eq b c = true -> eq a c = true;
}.
(** [x] occurs in the list, with nothing equal before it *)
Definition first_equal (eq : data -> data -> bool) (l : list data) (x : data) : Prop :=
  exists a b, l = a ++ x :: b /\ forall y, In y a -> eq x y = false.
(** no two elements are equal *)
Definition all_different (eq : data -> data -> bool) (l : list data) : Prop := ForallOrdPairs (fun a b => eq a b = false /\ eq b a = false) l.
