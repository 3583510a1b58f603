(** * Properties of conversions: C28-C35, C43, C44, C49, C50, C60.
    Statements only; each is closed by a lemma of ConvTheorems.v, NumProofs.v, FaithfulProofs.v, AgreeProofs.v or
    ConvCounterexamples.v. [E] is the build: the enum mode and the text of floating-point
    numbers, arbitrary in every theorem. *)
From Coq Require Import Permutation.
From Verif Require Import Base Value Packed Parser Dump Containers Num Enum Conv Spec SpecApi SpecConv BaseProofs NumProofs EnumProofs ConvProofs
  FaithfulProofs ConvTheorems SetProofs CollProofs SamplesApi SamplesConv ConvCounterexamples
  SpecBlank BlankProofs NulloptProofs SamplesBlank AgreeProofs.

(** C28: every type with an exact is<T>(), except std::string_view and nullptr_t *)
Theorem C28_value_get_partial : forall E t d ks v, exact E t -> t <> TNullptr -> t <> TView -> ks <> [] ->
  Forall int_key ks -> wf v -> addressable v ->
  (exists w d', at_path ks v w /\ is_ E t w = Ok true /\ as_ E t w = Ok d' /\ v_get E t d ks v = Ok d') \/
  ((forall w, at_path ks v w -> is_ E t w = Ok false) /\ v_get E t d ks v = Ok d).
Proof. exact get_value. Qed.
Print Assumptions C28_value_get_partial.
Theorem C28_object_get_partial : forall E t d k ks m, exact E t -> t <> TNullptr -> t <> TView \/ ks = [] ->
  Forall int_key ks -> wf (v_object m) -> addressable (v_object m) ->
  (exists w d', at_path (KStr k :: ks) (v_object m) w /\ is_ E t w = Ok true /\ as_ E t w = Ok d' /\ obj_get E t d k ks m = Ok d') \/
  ((forall w, at_path (KStr k :: ks) (v_object m) w -> is_ E t w = Ok false) /\ obj_get E t d k ks m = Ok d).
Proof. exact obj_get_spec. Qed.
Print Assumptions C28_object_get_partial.
Theorem C28_array_get_partial : forall E t d z ks l, exact E t -> t <> TNullptr -> t <> TView \/ ks = [] ->
  int_key (KInt z) -> Forall int_key ks -> wf (v_array l) -> addressable (v_array l) ->
  (exists w d', at_path (KInt z :: ks) (v_array l) w /\ is_ E t w = Ok true /\ as_ E t w = Ok d' /\ arr_get E t d z ks l = Ok d') \/
  ((forall w, at_path (KInt z :: ks) (v_array l) w -> is_ E t w = Ok false) /\ arr_get E t d z ks l = Ok d).
Proof. exact arr_get_spec. Qed.
Print Assumptions C28_array_get_partial.
(** find<T>(key), find<T>(pos): the converted child, or nothing *)
Theorem C28_find_key_partial : forall E t v k, exact E t -> wf v ->
  (exists w d, child (KStr k) v w /\ is_ E t w = Ok true /\ as_ E t w = Ok d /\ v_find_key E t k v = Ok (Some d)) \/
  ((forall w, child (KStr k) v w -> is_ E t w = Ok false) /\ v_find_key E t k v = Ok None).
Proof. exact find_key. Qed.
Print Assumptions C28_find_key_partial.
Theorem C28_find_pos_partial : forall E t v n, exact E t -> wf v -> n < 2 ^ 64 ->
  (exists w d, child (KInt (Z.of_N n)) v w /\ is_ E t w = Ok true /\ as_ E t w = Ok d /\ v_find_pos E t n v = Ok (Some d)) \/
  ((forall w, child (KInt (Z.of_N n)) v w -> is_ E t w = Ok false) /\ v_find_pos E t n v = Ok None).
Proof. exact find_pos. Qed.
Print Assumptions C28_find_pos_partial.
Theorem C28_object_find_partial : forall E t m k, exact E t -> wf (v_object m) ->
  (exists w d, child (KStr k) (v_object m) w /\ is_ E t w = Ok true /\ as_ E t w = Ok d /\ obj_find E t k m = Ok (Some d)) \/
  ((forall w, child (KStr k) (v_object m) w -> is_ E t w = Ok false) /\ obj_find E t k m = Ok None).
Proof. exact obj_find_spec. Qed.
Print Assumptions C28_object_find_partial.
Theorem C28_array_find_partial : forall E t l n, exact E t -> wf (v_array l) -> n < 2 ^ 64 ->
  (exists w d, child (KInt (Z.of_N n)) (v_array l) w /\ is_ E t w = Ok true /\ as_ E t w = Ok d /\ arr_find E t n l = Ok (Some d)) \/
  ((forall w, child (KInt (Z.of_N n)) (v_array l) w -> is_ E t w = Ok false) /\ arr_find E t n l = Ok None).
Proof. exact arr_find_spec. Qed.
Print Assumptions C28_array_find_partial.
Example C28_case : exact env_names t_int /\ wf sample_doc /\ Forall int_key [KStr ka; KInt (-1)] /\ addressable sample_doc /\
  v_get env_names t_int (DInt 7) [KStr ka; KInt 0] sample_doc = Ok (DInt 5) /\
  v_get env_names t_int (DInt 7) [KStr ka; KInt 1] sample_doc = Ok (DInt 7) /\
  v_get env_names t_int (DInt 7) [KStr ka; KInt 2] sample_doc = Ok (DInt 7) /\
  v_get env_names t_int (DInt 7) [KStr ka; KInt (-1)] sample_doc = Ok (DInt 7).
Proof. split; [constructor|]. split; [exact sample_doc_wf|]. split; [repeat constructor; cbn; lia|]. split; [exact sample_addressable|]. repeat split. Qed.
(** an empty std::optional as default, and null at the path *)
Theorem C28_get_optional_refuted : exists E t d ks v, wf v /\ has_type t d /\ v_get E t d ks v = Throw JsonException.
Proof. exact get_throws. Qed.
Print Assumptions C28_get_optional_refuted.
(** value::get with a std::string_view returns a view of a dead temporary *)
Theorem C28_get_view_refuted : exists E t d ks v, wf v /\ exact E t /\ has_type t d /\ v_get E t d ks v = Ub.
Proof. exact get_view_dangles. Qed.
Print Assumptions C28_get_view_refuted.
(** a nullptr default is handed to the constructor of std::string *)
Theorem C28_get_nullptr_refuted : exists E t d ks v, wf v /\ exact E t /\ has_type t d /\ v_get E t d ks v = Ub.
Proof. exact get_nullptr. Qed.
Print Assumptions C28_get_nullptr_refuted.
Theorem C28_object_get_nullptr_refuted : exists E t d k m,
  wf (v_object m) /\ exact E t /\ has_type t d /\ obj_get E t d k [] m = Throw JsonException.
Proof. exact get_nullptr_throws. Qed.
Print Assumptions C28_object_get_nullptr_refuted.
(** get(keys..., nullptr) never returns: it throws for a null at the path and is undefined otherwise *)
Theorem C28_nullptr_never : forall E d ks, ks <> [] -> Forall int_key ks -> forall v, wf v -> addressable v ->
  (at_path ks v v_null /\ v_get E TNullptr d ks v = Throw JsonException) \/
  ((forall w, at_path ks v w -> w <> v_null) /\ v_get E TNullptr d ks v = Ub).
Proof. exact nullptr_get. Qed.
Print Assumptions C28_nullptr_never.
Theorem C28_nullptr_never_containers : forall E d k z ks, Forall int_key (k :: KInt z :: ks) ->
  (forall m key, k = KStr key -> wf (v_object m) -> addressable (v_object m) ->
     (at_path (k :: ks) (v_object m) v_null /\ obj_get E TNullptr d key ks m = Throw JsonException) \/
     ((forall w, at_path (k :: ks) (v_object m) w -> w <> v_null) /\ obj_get E TNullptr d key ks m = Ub)) /\
  (forall l, wf (v_array l) -> addressable (v_array l) ->
     (at_path (KInt z :: ks) (v_array l) v_null /\ arr_get E TNullptr d z ks l = Throw JsonException) \/
     ((forall w, at_path (KInt z :: ks) (v_array l) w -> w <> v_null) /\ arr_get E TNullptr d z ks l = Ub)).
Proof. exact nullptr_containers. Qed.
Print Assumptions C28_nullptr_never_containers.
(** get(keys..., std::string_view) of a value is undefined exactly if the first key fits the kind of the value *)
Theorem C28_view_dangles : forall E d k ks v, wf v ->
  (match k with KStr _ => exists m, v = v_object m | KInt _ => exists l, v = v_array l end -> v_get E TView d (k :: ks) v = Ub) /\
  (~ match k with KStr _ => exists m, v = v_object m | KInt _ => exists l, v = v_array l end -> v_get E TView d (k :: ks) v = Ok d).
Proof. exact view_get_cons. Qed.
Print Assumptions C28_view_dangles.
Example C28_nullptr_case : wf sample_doc /\ addressable sample_doc /\ Forall int_key [KStr ka; KInt 0] /\
  v_get env_names TNullptr DUnit [KStr ka; KInt 0] sample_doc = Ub /\
  v_get env_names TNullptr DUnit [KStr ka] null_member = Throw JsonException /\
  v_get env_names TView (DStr kb) [KStr ka; KInt 0] sample_doc = Ub /\
  v_get env_names TView (DStr kb) [KInt 0] sample_doc = Ok (DStr kb).
Proof. split; [exact sample_doc_wf|]. split; [exact sample_addressable|]. split; [repeat constructor; cbn; lia|]. repeat split. Qed.

(** C29 *)
Theorem C29_is_decides_as_partial : forall E t, exact E t -> forall v, wf v ->
  (is_ E t v = Ok true /\ exists d, as_ E t v = Ok d) \/ (is_ E t v = Ok false /\ as_ E t v = Throw JsonException).
Proof. exact exact_decides. Qed.
Print Assumptions C29_is_decides_as_partial.
(** whatever the type: is<T>() returns normally, if the user's check_json does *)
Theorem C29_is_total : forall E t, lawful wf t -> forall v, wf v -> exists b, is_ E t v = Ok b.
Proof. exact is_ok. Qed.
Print Assumptions C29_is_total.
Example C29_case : forall E, exact E (TMap (TVar [TTup [t_int; TStr]; TVec (TFlt 53); TPtr (TEnum color); TRec s_fields; t_set])) /\ exact E (TExt yes_no) /\
  lawful wf (TExt yes_no) /\ wf sample_doc.
Proof. intros E. split; [repeat constructor; discriminate|]. split; [exact (yes_no_exact E)|]. split; [exact (yes_no_lawful wf)|exact sample_doc_wf]. Qed.
Theorem C29_optional_refuted : exists E t v, wf v /\ is_ E (TOpt t) v = Ok true /\ as_ E (TOpt t) v = Throw JsonException.
Proof. exact is_optional_inexact. Qed.
Print Assumptions C29_optional_refuted.
Theorem C29_one_tuple_refuted : exists E t v v', wf v /\ wf v' /\
  is_ E (TTup [t]) v = Ok true /\ as_ E (TTup [t]) v = Throw JsonException /\
  is_ E (TTup [t]) v' = Ok false /\ exists d, as_ E (TTup [t]) v' = Ok d.
Proof. exact is_tuple_inexact. Qed.
Print Assumptions C29_one_tuple_refuted.
(** for which values they disagree: null, if it is not a T; an array of one T that is not a T itself, and a T that is not one *)
Theorem C29_optional_exactly : forall E t v, exact E t -> wf v ->
  ((is_ E (TOpt t) v = Ok true /\ (exists d, as_ E (TOpt t) v = Ok d)) \/ (is_ E (TOpt t) v = Ok false /\ as_ E (TOpt t) v = Throw JsonException)
   <-> ~ (type_of v = Tnull /\ is_ E t v = Ok false)).
Proof. exact optional_agrees. Qed.
Print Assumptions C29_optional_exactly.
Theorem C29_one_tuple_exactly : forall E t v, exact E t -> wf v ->
  ((is_ E (TTup [t]) v = Ok true /\ (exists d, as_ E (TTup [t]) v = Ok d)) \/ (is_ E (TTup [t]) v = Ok false /\ as_ E (TTup [t]) v = Throw JsonException)
   <-> (is_ E t v = Ok true <-> exists x, v = v_array [x] /\ is_ E t x = Ok true)).
Proof. exact one_tuple_agrees. Qed.
Print Assumptions C29_one_tuple_exactly.
Example C29_exactly_case : exact env_names t_int /\ exact env_names TValue /\ wf v_null /\ is_ env_names t_int v_null = Ok false /\ is_ env_names TValue v_null = Ok true /\
  wf (v_array [v_null]) /\ is_ env_names (TTup [TValue]) (v_array [v_null]) = Ok true /\ as_ env_names (TTup [TValue]) (v_array [v_null]) = Ok (DSeq [DJson (v_array [v_null])]).
Proof.
  split; [constructor|]. split; [constructor|]. split; [exact wf_null|]. split; [reflexivity|]. split; [reflexivity|].
  split; [constructor; constructor; [exact wf_null|constructor]|split; reflexivity].
Qed.
(** an enumeration over bool *)
Theorem C29_enum_refuted : exists E e v, wf v /\ is_ E (TEnum e) v = Ok true /\ as_ E (TEnum e) v = Throw JsonException.
Proof. exact is_enum_inexact. Qed.
Print Assumptions C29_enum_refuted.
(** an enumeration without fixed underlying type *)
Theorem C29_unfixed_enum_refuted : exists E e v, wf v /\ is_ E (TEnum e) v = Ok true /\ as_ E (TEnum e) v = Ub.
Proof. exact is_enum_undefined. Qed.
Print Assumptions C29_unfixed_enum_refuted.

(** C30: any text tagged as a number, and any width *)
Theorem C30_integer_value : forall sg w s z, as_int sg w (VStr Tnumber s) = Ok z <-> spells sg s z /\ fits sg w z.
Proof. exact as_int_spec. Qed.
Print Assumptions C30_integer_value.
Theorem C30_otherwise_throws : forall sg w s, (forall z, ~ (spells sg s z /\ fits sg w z)) ->
  as_int sg w (VStr Tnumber s) = Throw JsonException.
Proof. exact as_int_throw. Qed.
Print Assumptions C30_otherwise_throws.
Theorem C30_value_unique : forall sg s z z', spells sg s z -> spells sg s z' -> z = z'.
Proof. exact spells_fun. Qed.
Print Assumptions C30_value_unique.
Example C30_case : spells true (of_string "-128") (-128) /\ fits true 8 (-128) /\ ~ fits true 8 128 /\
  as_int true 8 (v_number (of_string "-128")) = Ok (-128)%Z /\ as_int true 8 (v_number (of_string "128")) = Throw JsonException.
Proof.
  split; [exact (sp_minus true (of_string "128") eq_refl ltac:(discriminate) ltac:(vm_compute; repeat constructor; discriminate))|].
  split; [cbn; lia|]. split; [cbn; lia|]. split; reflexivity.
Qed.

(** C31 *)
Theorem C31_integer_round_trip : forall sg w z, fits sg w z -> wf (v_int z) /\ as_int sg w (v_int z) = Ok z.
Proof. exact int_back. Qed.
Print Assumptions C31_integer_round_trip.
Theorem C31_text_round_trip : forall jsonc be sg w z, fits sg w z ->
  exists t v, dumps None (v_array [v_int z]) = Ok t /\ parse jsonc be t = Ok (Some v) /\
  exists x, arr_at 0 [v_int z] = Ok x /\ v = v_array [x] /\ as_int sg w x = Ok z.
Proof. exact int_text_round_trip. Qed.
Print Assumptions C31_text_round_trip.
Example C31_case : fits true 64 (- 2 ^ 63) /\ fits false 64 (2 ^ 64 - 1).
Proof. split; cbn; lia. Qed.

(** C32 *)
Theorem C32_native_round_trip_partial : forall E t d, native t -> has_type t d -> no_nullopt d ->
  exists v, to_value E t d = Ok v /\ wf v /\ is_ E t v = Ok true /\ as_ E t v = Ok d.
Proof. exact native_round_trip. Qed.
Print Assumptions C32_native_round_trip_partial.
(** beyond that universe: pointers, variants, enumerations, structs, json types, classes with functions
    of their own *)
Theorem C32_round_trip_partial : forall E t d, faithful E t d ->
  exists v, to_value E t d = Ok v /\ wf v /\ is_ E t v = Ok true /\ as_ E t v = Ok d.
Proof. exact faithful_round_trip. Qed.
Print Assumptions C32_round_trip_partial.
Example C32_case : native t_native /\ has_type t_native d_native /\ no_nullopt d_native.
Proof. exact (conj t_native_native (conj d_native_typed d_native_full)). Qed.
Example C32_faithful_case : faithful env_names (TPtr (TVar [t_int; TEnum color])) (DOpt (Some (DAlt 1 (DInt 7)))) /\
  forall E, faithful E t_mixed d_mixed.
Proof. exact (conj faithful_sample mixed_faithful). Qed.
(** sets and multisets are among these *)
Theorem C32_sets_rebuilt : forall lt l, set_sorted lt l -> rebuilt (set_insert lt) l.
Proof. exact set_of_sorted. Qed.
Print Assumptions C32_sets_rebuilt.
Theorem C32_multisets_rebuilt : forall lt l, strict_weak (fun x => In x l) lt -> multi_sorted lt l -> rebuilt (multi_insert lt) l.
Proof. exact multi_rebuilt. Qed.
Print Assumptions C32_multisets_rebuilt.
Example C32_rebuilt_case : set_sorted int_lt [DInt 3; DInt 5] /\ multi_sorted int_lt [DInt 3; DInt 5; DInt 5].
Proof. split; repeat constructor. Qed.
(** std::unordered_set comes back with the same elements, in an order of its own *)
Theorem C32_unordered_partial : forall E eq ins t l, unordered_set_like eq ins -> all_different eq l -> Forall (faithful E t) l ->
  exists v s, to_value E (TColl ins t) (DSeq l) = Ok v /\ is_ E (TColl ins t) v = Ok true /\ as_ E (TColl ins t) v = Ok (DSeq s) /\ Permutation l s.
Proof. exact unordered_round_trip. Qed.
Print Assumptions C32_unordered_partial.
Example C32_unordered_case : all_different int_eq [DInt 3; DInt 5] /\ Forall (faithful env_names t_int) [DInt 3; DInt 5] /\
  as_ env_names (TColl int_hash t_int) (v_array [v_number (of_string "3"); v_number n5]) = Ok (DSeq [DInt 5; DInt 3]).
Proof.
  split; [repeat constructor|]. split; [|vm_compute; reflexivity]. constructor; [apply fa_int; cbn; lia|]. constructor; [apply fa_int; cbn; lia|constructor].
Qed.
(** the order in which a map is traversed does not matter: std::unordered_map makes the value that
    std::map makes *)
Theorem C32_map_order : forall E t m m' v, NoDup (map fst m) -> Permutation m m' -> to_value E (TMap t) (DMap m) = Ok v ->
  to_value E (TMap t) (DMap m') = Ok v.
Proof. exact map_order. Qed.
Print Assumptions C32_map_order.
Example C32_map_order_case : forall E, NoDup (map fst [(kb, DInt 5); (ka, DInt 3)]) /\
  to_value E (TMap t_int) (DMap [(kb, DInt 5); (ka, DInt 3)]) = Ok (v_object [(ka, v_number (of_string "3")); (kb, v_number n5)]).
Proof. intros E. split; [|reflexivity]. constructor; [intros [X|[]]; discriminate|constructor; [intros []|constructor]]. Qed.
Theorem C32_nullopt_refuted : exists E t d v, has_type (TOpt t) d /\ native t /\
  to_value E (TOpt t) d = Ok v /\ as_ E (TOpt t) v = Throw JsonException.
Proof. exact nullopt_lost. Qed.
Print Assumptions C32_nullopt_refuted.
Theorem C32_one_tuple_refuted : exists E t d v, native t /\ has_type (TTup [t]) d /\
  to_value E (TTup [t]) d = Ok v /\ as_ E (TTup [t]) v = Throw JsonException.
Proof. exact tuple_lost. Qed.
Print Assumptions C32_one_tuple_refuted.
(** exactly: with an empty std::optional anywhere inside is<T>() says yes and the conversion throws *)
Theorem C32_native_exactly : forall E t d, native_s t -> has_type t d ->
  exists v, to_value E t d = Ok v /\ wf v /\ is_ E t v = Ok true /\
  (full d /\ as_ E t v = Ok d \/ ~ full d /\ as_ E t v = Throw JsonException).
Proof. exact native_exactly. Qed.
Print Assumptions C32_native_exactly.
Example C32_exactly_case : native_s (TVec (TRec opt_fields)) /\
  (has_type (TVec (TRec opt_fields)) opt_empty /\ has_type (TVec (TRec opt_fields)) opt_filled) /\ full opt_filled /\ ~ full opt_empty.
Proof. exact (conj opt_native (conj opt_typed opt_full)). Qed.
(** a tuple of one element never comes back *)
Theorem C32_one_tuple_never : forall E t d v, listed t -> to_value E (TTup [t]) (DSeq [d]) = Ok v -> as_ E (TTup [t]) v <> Ok (DSeq [d]).
Proof. exact one_never. Qed.
Print Assumptions C32_one_tuple_never.
Example C32_one_tuple_case : listed (TColl (set_insert int_lt) t_int) /\
  forall E, to_value E (TTup [TColl (set_insert int_lt) t_int]) (DSeq [DSeq [DInt 5]]) = Ok (v_array [v_array [v_number n5]]).
Proof. exact (conj set_listed (fun E => eq_refl)). Qed.

(** C33 *)
Theorem C33_round_trip_partial : forall E fs l, faithful E (TRec fs) (DRec l) ->
  exists v, to_json E fs l = Ok v /\ check_json E fs v = Ok None /\
  forall cur, length cur = length fs -> from_json E fs v cur = (l, Ok None).
Proof. exact struct_round_trip. Qed.
Print Assumptions C33_round_trip_partial.
(** the members of the object to_json makes: one per field, under its effective key *)
Theorem C33_to_json_members_partial : forall E fs l, faithful E (TRec fs) (DRec l) ->
  exists m, to_json E fs l = Ok (v_object m) /\ forall k w, In (k, w) m <->
  exists i f t d, nth_error fs i = Some (f, t) /\ nth_error l i = Some d /\ effective_key f k /\ to_value E t d = Ok w.
Proof. exact struct_members. Qed.
Print Assumptions C33_to_json_members_partial.
(** from_json and check_json, on any value: the fields before the first bad one are loaded
    (or kept, if absent and optional), the others are kept, and error_key is the key of the
    first bad field *)
Theorem C33_from_json_partial : forall E v fs, wf v -> Forall (fun ft => exact E (snd ft)) fs ->
  forall cur, length cur = length fs -> exists a b cura curb new o,
  fs = a ++ b /\ cur = cura ++ curb /\ length cura = length a /\ length new = length a /\
  Forall (good_field E v) a /\
  (forall i ft x y, nth_error a i = Some ft -> nth_error cura i = Some x -> nth_error new i = Some y -> loaded E v ft x y) /\
  check_json E fs v = Ok o /\ from_json E fs v cur = (new ++ curb, Ok o) /\
  ((b = [] /\ o = None) \/
   (exists f t b' k, b = (f, t) :: b' /\ ~ good_field E v (f, t) /\ effective_key f k /\ o = Some k)).
Proof. exact load_spec. Qed.
Print Assumptions C33_from_json_partial.
Example C33_case : (forall E, faithful E (TRec s_fields) (DRec s_datum)) /\ (forall E, Forall (fun ft => exact E (snd ft)) s_fields) /\
  wf half_doc /\ check_json env_names s_fields half_doc = Ok (Some (of_string "flags")).
Proof. exact (conj s_faithful (conj s_exact (conj half_doc_wf eq_refl))). Qed.
(** an empty std::optional member: to_json writes null, check_json accepts it, from_json throws *)
Theorem C33_round_trip_refuted : exists E fs l v, distinct_keys fs /\ has_type (TRec fs) (DRec l) /\
  to_json E fs l = Ok v /\ check_json E fs v = Ok None /\ snd (from_json E fs v l) = Throw JsonException.
Proof. exact struct_nullopt_lost. Qed.
Print Assumptions C33_round_trip_refuted.
(** exactly so *)
Theorem C33_native_exactly : forall E fs l, Forall (fun ft => native_s (snd ft)) fs -> distinct_keys fs -> has_type (TRec fs) (DRec l) ->
  exists v, to_json E fs l = Ok v /\ wf v /\ check_json E fs v = Ok None /\
  (Forall full l /\ (forall cur, length cur = length fs -> from_json E fs v cur = (l, Ok None)) \/
   ~ Forall full l /\ forall cur, length cur = length fs -> exists r, from_json E fs v cur = (r, Throw JsonException)).
Proof. exact struct_exactly. Qed.
Print Assumptions C33_native_exactly.
Example C33_exactly_case : Forall (fun ft => native_s (snd ft)) opt_fields /\ distinct_keys opt_fields /\ has_type (TRec opt_fields) (DRec [DOpt None]).
Proof. exact opt_struct. Qed.

(** C34 *)
Theorem C34_target_unchanged_refuted : exists E fs v old new k, wf v /\ Forall (fun ft => exact E (snd ft)) fs /\
  has_type (TRec fs) (DRec old) /\ from_json E fs v old = (new, Ok (Some k)) /\ new <> old.
Proof. exact half_loaded. Qed.
Print Assumptions C34_target_unchanged_refuted.
(** it holds when the first field is the bad one; and after check_json, from_json does not fail *)
Theorem C34_first_field_partial : forall E v f t fs cur, wf v -> Forall (fun ft => exact E (snd ft)) ((f, t) :: fs) ->
  length cur = length ((f, t) :: fs) -> ~ good_field E v (f, t) ->
  exists k, from_json E ((f, t) :: fs) v cur = (cur, Ok (Some k)).
Proof. exact first_field_bad. Qed.
Print Assumptions C34_first_field_partial.
Theorem C34_checked_partial : forall E v fs cur, wf v -> Forall (fun ft => exact E (snd ft)) fs -> length cur = length fs ->
  (check_json E fs v = Ok None <-> exists new, from_json E fs v cur = (new, Ok None)).
Proof. exact checked_loads. Qed.
Print Assumptions C34_checked_partial.
(** exactly which failing loads leave the target as it was: those in which every field before the bad one already had what is loaded into it, or is absent *)
Theorem C34_unchanged_exactly : forall E v fs cur new k, wf v -> Forall (fun ft => exact E (snd ft)) fs -> length cur = length fs ->
  from_json E fs v cur = (new, Ok (Some k)) ->
  exists a f t b, fs = a ++ (f, t) :: b /\ Forall (good_field E v) a /\ ~ good_field E v (f, t) /\ effective_key f k /\
    (new = cur <-> forall i ft x, nth_error a i = Some ft -> nth_error cur i = Some x -> loaded E v ft x x).
Proof. exact failed_unchanged. Qed.
Print Assumptions C34_unchanged_exactly.
Example C34_exactly_case : wf half_doc /\ Forall (fun ft => exact env_names (snd ft)) s_fields /\
  from_json env_names s_fields half_doc [DInt 5; DStr ka; DSeq []] = ([DInt 5; DStr ka; DSeq []], Ok (Some (of_string "flags"))).
Proof. split; [exact half_doc_wf|]. split; [exact (s_exact _)|vm_compute; reflexivity]. Qed.
Example C34_case : wf v_null /\ ~ good_field env_names v_null (f_id, t_int).
Proof. exact (conj wf_null null_bad). Qed.

(** C35 *)
(** what the library cuts out of the compiler's text: the first name declared for the value, and
    nothing that passes for a name if there is none *)
Theorem C35_names_extracted_partial : forall e, ordinary e -> forall z,
  (exists n, main_name e n z /\ e_name e z = n /\ name_is_valid n = true) \/
  ((forall n, ~ enumerator e n z) /\ name_is_valid (e_name e z) = false).
Proof. exact enum_names. Qed.
Print Assumptions C35_names_extracted_partial.
Example C35_names_case :
  map (fun cc => e_name (side_enum cc) 1) [GCC; Clang; MSVC] = repeat (of_string "right") 3 /\
  map (fun cc => e_name (side_enum cc) 2) [GCC; Clang; MSVC] = repeat (of_string "Side)2") 3.
Proof. split; vm_compute; reflexivity. Qed.
Theorem C35_enum_round_trip_partial : forall e, ordinary e -> forall E n z, enum_as_number E = false ->
  distinct_enumerators e -> enumerator e n z -> in_reflection_range e z ->
  exists m, main_name e m z /\
  to_value E (TEnum e) (DInt z) = Ok (v_string m) /\ is_ E (TEnum e) (v_string m) = Ok true /\
  as_ E (TEnum e) (v_string m) = Ok (DInt z).
Proof. exact enum_value_round_trip. Qed.
Print Assumptions C35_enum_round_trip_partial.
Theorem C35_enum_lookup_partial : forall e, ordinary e -> forall E s,
  (is_ E (TEnum e) (v_string s) = Ok true <-> exists n z, main_name e n z /\ reflected e z /\ same_name n s) /\
  (forall z, as_ E (TEnum e) (v_string s) = Ok (DInt z) -> exists n, main_name e n z /\ reflected e z /\ same_name n s).
Proof. exact enum_lookup. Qed.
Print Assumptions C35_enum_lookup_partial.
(** of several matches the first one in the order of the range is taken *)
Theorem C35_enum_first_partial : forall e, ordinary e -> forall E s z, as_ E (TEnum e) (v_string s) = Ok (DInt z) ->
  exists i, converts e i z /\ in_reflection_range e i /\
  forall i' z' n, in_reflection_range e i' -> (i' < i)%Z -> converts e i' z' -> main_name e n z' -> ~ same_name n s.
Proof. exact enum_first. Qed.
Print Assumptions C35_enum_first_partial.
Example C35_case : ordinary status_enum /\ distinct_enumerators status_enum /\ enumerator status_enum (of_string "Stopped") 103 /\
  in_reflection_range status_enum 103 /\ as_ env_names (TEnum status_enum) (v_string (of_string "sTOPPED")) = Ok (DInt 103) /\
  ordinary byte_enum /\ ~ in_reflection_range byte_enum 200 /\ reflected byte_enum 200.
Proof.
  split; [exact status_ordinary|]. split; [exact status_distinct|]. split; [do 3 right; now left|].
  split; [unfold in_reflection_range; cbn; lia|]. split; [vm_compute; reflexivity|].
  split; [exact byte_ordinary|]. split; [unfold in_reflection_range; cbn; lia|].
  exists (-56)%Z. split; [unfold in_reflection_range; cbn; lia|]. split; [cbn; lia|]. exists 1%Z. reflexivity.
Qed.
(** two names that differ by case only *)
Theorem C35_round_trip_refuted : exists E e n z v, ordinary e /\ enumerator e n z /\ in_reflection_range e z /\
  to_value E (TEnum e) (DInt z) = Ok v /\ exists z', as_ E (TEnum e) v = Ok (DInt z') /\ z' <> z.
Proof. exact case_lost. Qed.
Print Assumptions C35_round_trip_refuted.
(** MEOJSON_ENUM_RANGE before the enumerators: the first of them is known by the name of the macro only *)
Theorem C35_lookup_refuted : exists E e n z, ordinary e /\ distinct_enumerators e /\ enumerator e n z /\ in_reflection_range e z /\
  is_ E (TEnum e) (v_string n) = Ok false /\ exists n', to_value E (TEnum e) (DInt z) = Ok (v_string n') /\ n' <> n.
Proof. exact alias_unknown. Qed.
Print Assumptions C35_lookup_refuted.
(** uint8_t, an enumerator above the range: found by name, but not converted to its name *)
Theorem C35_one_way_refuted : exists E e n z, ordinary e /\ distinct_enumerators e /\ enumerator e n z /\ has_type (TEnum e) (DInt z) /\
  is_ E (TEnum e) (v_string n) = Ok true /\ string_to_enum e n = Some z /\ to_value E (TEnum e) (DInt z) = Throw JsonException.
Proof. exact one_way. Qed.
Print Assumptions C35_one_way_refuted.

(** C43 *)
Theorem C43_category_irrelevant_partial : forall E t, lawful wf t -> forall v, wf v -> (v_empty v = Ok false \/ exists d, as_ E t v = Ok d) ->
  cast_rv E t v = as_ E t v.
Proof. exact category_irrelevant. Qed.
Print Assumptions C43_category_irrelevant_partial.
Example C43_case : lawful wf (TVec (TExt yes_no)) /\ wf sample_doc /\ v_empty sample_doc = Ok false.
Proof. exact (conj (la_vec _ _ (yes_no_lawful wf)) (conj sample_doc_wf eq_refl)). Qed.
(** null: a std::vector from the rvalue, an exception from the lvalue *)
Theorem C43_category_refuted : exists E t v, wf v /\ exact E t /\ as_ E t v = Throw JsonException /\ exists d, cast_rv E t v = Ok d.
Proof. exact category_matters. Qed.
Print Assumptions C43_category_refuted.
(** json::array and json::object too *)
Theorem C43_container_refuted : exists E v, wf v /\ as_ E TArr v = Throw JsonException /\ cast_rv E TArr v = Ok (DArr []) /\
  as_ E TObj v = Throw JsonException /\ cast_rv E TObj v = Ok (DObj []).
Proof. exact category_matters_containers. Qed.
Print Assumptions C43_container_refuted.
(** for every type and every value: where they differ, an empty value of another kind has
    become an empty container ... *)
Theorem C43_exactly : forall E t v, lawful wf t -> wf v ->
  cast_rv E t v = as_ E t v \/ (exists d, blank v t d /\ cast_rv E t v = Ok d /\ as_ E t v = Throw JsonException).
Proof. exact category_exactly. Qed.
Print Assumptions C43_exactly.
(** ... and wherever that can happen it does *)
Theorem C43_blank : forall E v t d, blank v t d -> cast_rv E t v = Ok d /\ as_ E t v = Throw JsonException.
Proof. exact blank_differs. Qed.
Print Assumptions C43_blank.
Example C43_blank_case : blank (v_string []) (TPtr (TTup [TMap TStr])) (DOpt (Some (DSeq [DMap []]))).
Proof. exact string_blank. Qed.

(** C44 *)
Theorem C44_first_alternative_partial : forall E ts v, Forall (exact E) ts -> by_operator ts -> wf v ->
  (exists a t b d, ts = a ++ t :: b /\ Forall (fun t' => is_ E t' v = Ok false) a /\ is_ E t v = Ok true /\
     as_ E t v = Ok d /\ as_ E (TVar ts) v = Ok (DAlt (length a) d)) \/
  (Forall (fun t' => is_ E t' v = Ok false) ts /\ as_ E (TVar ts) v = Throw JsonException).
Proof. exact variant_first. Qed.
Print Assumptions C44_first_alternative_partial.
Theorem C44_round_trip_partial : forall E a t b d, faithful E t d -> by_operator (a ++ t :: b) ->
  (forall t' v, In t' a -> to_value E t d = Ok v -> is_ E t' v = Ok false) ->
  exists v, to_value E (TVar (a ++ t :: b)) (DAlt (length a) d) = Ok v /\
  as_ E (TVar (a ++ t :: b)) v = Ok (DAlt (length a) d).
Proof. exact variant_round_trip. Qed.
Print Assumptions C44_round_trip_partial.
Example C44_case : forall E, Forall (exact E) [t_int; TStr; TVec TBool] /\ by_operator [t_int; TStr; TVec TBool] /\ by_operator [t_int; TOpt TValue; TTup [TValue]] /\
  as_ E (TVar [t_int; TStr; TVec TBool]) (v_string ka) = Ok (DAlt 1 (DStr ka)).
Proof. intros E. split; [repeat constructor|]. split; [left; intros t [<-|[<-|[<-|[]]]] H; inversion H|]. split; [exact two_optionals|reflexivity]. Qed.
(** with json::value among the alternatives: any value, as the first such alternative *)
Theorem C44_value_alternative : forall E a b v, ~ In TValue a -> wf v ->
  as_ E (TVar (a ++ TValue :: b)) v = Ok (DAlt (length a) (DJson v)).
Proof. exact variant_of_value. Qed.
Print Assumptions C44_value_alternative.
Example C44_value_case : ~ In TValue [t_int; TOpt TValue] /\ wf sample_doc.
Proof. split; [intros [X|[X|[]]]; discriminate|exact sample_doc_wf]. Qed.
(** with one alternative that is json::value inside optionals and one-element tuples: any value, as that alternative, whatever the others accept *)
Theorem C44_one_alternative : forall E a t b v, wraps_value t -> (forall t', In t' (a ++ b) -> ~ takes_value t') -> wf v ->
  exists d, as_ E t v = Ok d /\ as_ E (TVar (a ++ t :: b)) v = Ok (DAlt (length a) d).
Proof. exact one_alternative. Qed.
Print Assumptions C44_one_alternative.
Example C44_one_case : wraps_value (TOpt (TTup [TValue])) /\ (forall t', In t' ([t_int] ++ [TStr]) -> ~ takes_value t') /\ wf (v_number n5) /\
  is_ env_names t_int (v_number n5) = Ok true.
Proof.
  split; [repeat constructor|]. split; [intros t' [<-|[<-|[]]] H; inversion H|]. split; [exact wf_n5|vm_compute; reflexivity].
Qed.
(** std::variant<int, json::value> from 5 *)
Theorem C44_first_alternative_refuted : exists E ts v d, wf v /\ Forall (exact E) ts /\
  match ts with t :: _ => is_ E t v = Ok true | [] => False end /\ as_ E (TVar ts) v = Ok (DAlt 1 d).
Proof. exact variant_not_first. Qed.
Print Assumptions C44_first_alternative_refuted.
(** std::variant<int, std::optional<json::value>> from 5 *)
Theorem C44_optional_value_refuted : exists E ts v d, wf v /\ Forall (exact E) ts /\ ~ In TValue ts /\
  match ts with t :: _ => is_ E t v = Ok true | [] => False end /\ as_ E (TVar ts) v = Ok (DAlt 1 d).
Proof. exact variant_not_first_opt. Qed.
Print Assumptions C44_optional_value_refuted.

(** C49 *)
Theorem C49_source_kept_partial : forall t, no_wrapper t -> forall d, after Lvalue t d = d /\ after Const t d = d.
Proof. exact source_kept_plain. Qed.
Print Assumptions C49_source_kept_partial.
Theorem C49_const_source_kept_partial : forall t, const_safe t -> forall d, after Const t d = d.
Proof. exact source_kept_const. Qed.
Print Assumptions C49_const_source_kept_partial.
Example C49_case : no_wrapper (TVec (TMap (TOpt TStr))).
Proof. exact (nw_vec _ (cs_plain _ (nw_map _ (cs_opt _ (cs_plain _ nw_str))))). Qed.
(** std::optional<std::string> x = ...; json::value v(x); moves the string out of x *)
Theorem C49_source_kept_refuted : exists t d, has_type t d /\ after Lvalue t d <> d.
Proof. exact source_moved. Qed.
Print Assumptions C49_source_kept_refuted.
(** const std::shared_ptr<std::optional<std::string>> *)
Theorem C49_const_source_kept_refuted : exists t d, has_type t d /\ after Const t d <> d.
Proof. exact const_source_moved. Qed.
Print Assumptions C49_const_source_kept_refuted.

(** C50 *)
Theorem C50_enum_safe_partial : forall e, ordinary e -> forall E z, enum_as_number E = false ->
  has_type (TEnum e) (DInt z) -> fits true 32 z -> fits true 32 (z - e_lo e) ->
  (exists n, main_name e n z /\ to_value E (TEnum e) (DInt z) = Ok (v_string n)) \/
  ((forall n, ~ enumerator e n z) \/ ~ in_reflection_range e z) /\ to_value E (TEnum e) (DInt z) = Throw JsonException.
Proof. exact enum_safe. Qed.
Print Assumptions C50_enum_safe_partial.
Example C50_case : ordinary color /\ has_type (TEnum color) (DInt 3) /\ fits true 32 3 /\ fits true 32 (3 - e_lo color).
Proof. split; [exact color_ordinary|]. split; [apply (ht_enum color true 32); [reflexivity|lia|cbn; lia]|]. split; cbn; lia. Qed.
(** MEOJSON_ENUM_AS_NUMBER: numbers, which come back; with the underlying type bool a boolean, which is<T>() accepts
    and as<T>() never does *)
Theorem C50_enum_numbers : forall E e z, enum_as_number E = true -> has_type (TEnum e) (DInt z) ->
  (forall lo hi, e_values e = Some (lo, hi) -> (lo <= z <= hi)%Z) ->
  (e_underlying e <> None /\ to_value E (TEnum e) (DInt z) = Ok (v_int z) /\
   is_ E (TEnum e) (v_int z) = Ok true /\ as_ E (TEnum e) (v_int z) = Ok (DInt z)) \/
  (e_underlying e = None /\ exists b, (b = true <-> z <> 0%Z) /\ to_value E (TEnum e) (DInt z) = Ok (v_bool b) /\
   is_ E (TEnum e) (v_bool b) = Ok true /\ as_ E (TEnum e) (v_bool b) = Throw JsonException).
Proof. exact enum_numbers. Qed.
Print Assumptions C50_enum_numbers.
Example C50_numbers_case : enum_as_number env_numbers = true /\ has_type (TEnum color) (DInt 7) /\ has_type (TEnum bool_enum) (DInt 1) /\
  e_values color = None /\ e_values bool_enum = None /\ e_underlying bool_enum = None /\
  to_value env_numbers (TEnum color) (DInt 7) = Ok (v_number (of_string "7")) /\
  to_value env_numbers (TEnum bool_enum) (DInt 1) = Ok (v_bool true).
Proof.
  split; [reflexivity|]. split; [apply (ht_enum color true 32); [reflexivity|lia|cbn; lia]|].
  split; [apply ht_enum_bool; [reflexivity|now right]|]. repeat split.
Qed.
(** signed overflow for an enumerator close to the largest int *)
Theorem C50_enum_overflow_refuted : exists E e z, ordinary e /\ has_type (TEnum e) (DInt z) /\ to_value E (TEnum e) (DInt z) = Ub.
Proof. exact enum_overflow. Qed.
Print Assumptions C50_enum_overflow_refuted.
(** a 64-bit enumerator gets the name of another one *)
Theorem C50_enum_name_refuted : exists E e n z n' z', z <> z' /\ NoDup (map snd (e_decl e)) /\ enumerator e n z /\ enumerator e n' z' /\
  has_type (TEnum e) (DInt z) /\ to_value E (TEnum e) (DInt z) = Ok (v_string n').
Proof. exact enum_other_name. Qed.
Print Assumptions C50_enum_name_refuted.

(** C60: as<std::set<T>>() keeps one of each kind of element, the first, in order *)
Theorem C60_set_elements : forall E lt t v l, as_ E (TVec t) v = Ok (DSeq l) -> strict_weak (fun x => In x l) lt ->
  exists s, as_ E (TSet lt t) v = Ok (DSeq s) /\ set_sorted lt s /\ forall x, In x s <-> first_of_kind lt l x.
Proof. exact set_conversion. Qed.
Print Assumptions C60_set_elements.
(** and there is no other such set *)
Theorem C60_set_unique : forall lt l s, strict_weak (fun x => In x l) lt -> set_sorted lt l -> set_sorted lt s ->
  (forall x, In x l <-> In x s) -> l = s.
Proof. exact set_unique. Qed.
Print Assumptions C60_set_unique.
(** it fails exactly where as<std::vector<T>>() fails, and so does every other container *)
Theorem C60_set_failure : forall E ins t v, (forall d, as_ E (TVec t) v <> Ok d) -> as_ E (TColl ins t) v = as_ E (TVec t) v.
Proof. exact coll_failure. Qed.
Print Assumptions C60_set_failure.
Example C60_case : as_ env_names (TVec t_int) three_numbers = Ok (DSeq three_ints) /\ strict_weak (fun x => In x three_ints) int_lt /\
  as_ env_names t_set three_numbers = Ok (DSeq [DInt 3; DInt 5]) /\ as_ env_names t_set v_null = Throw JsonException.
Proof. split; [vm_compute; reflexivity|]. split; [exact (int_lt_weak _ three_typed)|]. split; vm_compute; reflexivity. Qed.
(** std::multiset: all of them, sorted; those of one kind stay in order; and that is the only such list *)
Theorem C60_multiset_elements : forall E lt t v l, as_ E (TVec t) v = Ok (DSeq l) -> strict_weak (fun x => In x l) lt ->
  exists s, as_ E (TMulti lt t) v = Ok (DSeq s) /\ Permutation l s /\ multi_sorted lt s /\ same_kinds lt l s.
Proof. exact multi_conversion. Qed.
Print Assumptions C60_multiset_elements.
Theorem C60_multiset_unique : forall lt l s, strict_weak (fun x => In x l) lt -> Permutation l s -> multi_sorted lt l -> multi_sorted lt s ->
  same_kinds lt l s -> l = s.
Proof. exact multi_unique. Qed.
Print Assumptions C60_multiset_unique.
Example C60_multiset_case : as_ env_names (TMulti int_lt t_int) three_numbers = Ok (DSeq [DInt 3; DInt 5; DInt 5]) /\
  multi_sorted int_lt [DInt 3; DInt 5; DInt 5].
Proof. split; [vm_compute; reflexivity|]. repeat constructor. Qed.
(** std::unordered_set, whatever the hash function: the first of each kind, in some order *)
Theorem C60_unordered_elements : forall E eq ins t v l, unordered_set_like eq ins -> as_ E (TVec t) v = Ok (DSeq l) ->
  equality_on (fun x => In x l) eq ->
  exists s, as_ E (TColl ins t) v = Ok (DSeq s) /\ all_different eq s /\ forall x, In x s <-> first_equal eq l x.
Proof. exact unordered_conversion. Qed.
Print Assumptions C60_unordered_elements.
(** std::unordered_multiset: all of them *)
Theorem C60_unordered_multi_elements : forall E ins t v l, unordered_multi_like ins -> as_ E (TVec t) v = Ok (DSeq l) ->
  exists s, as_ E (TColl ins t) v = Ok (DSeq s) /\ Permutation l s.
Proof. exact unordered_multi_conversion. Qed.
Print Assumptions C60_unordered_multi_elements.
Example C60_unordered_case : unordered_set_like int_eq int_hash /\ unordered_multi_like (@cons data) /\ equality_on (fun x => In x three_ints) int_eq /\
  as_ env_names (TColl int_hash t_int) three_numbers = Ok (DSeq [DInt 3; DInt 5]) /\
  as_ env_names (TColl (@cons data) t_int) three_numbers = Ok (DSeq [DInt 5; DInt 3; DInt 5]).
Proof.
  split; [exact int_hash_like|]. split; [exact cons_like|]. split; [exact (int_eq_on _ three_typed)|]. split; vm_compute; reflexivity.
Qed.
