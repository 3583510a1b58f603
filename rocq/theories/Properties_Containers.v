(** * Properties of array, object and value as containers: C18, C21, C23-C27, C36, C45.
    Statements only; each is closed by a lemma of ContainerProofs.v or ApiProofs.v. *)
From Verif Require Import Base Value Containers Dump Api Spec SpecApi BaseProofs ContainerProofs ApiProofs Samples SamplesApi.
From Coq Require Import Permutation.

(** C18: objects built by successive object::emplace calls, in any order *)
Theorem C18_emplace_order_independent : forall (m m' : list (bytes * value)) n, NoDup (map fst m) -> Permutation m m' ->
  object_dumps n (fold_left (fun acc kv => fst (obj_emplace (fst kv) (snd kv) acc)) m []) =
  object_dumps n (fold_left (fun acc kv => fst (obj_emplace (fst kv) (snd kv) acc)) m' []).
Proof. exact emplace_order_independent. Qed.
Print Assumptions C18_emplace_order_independent.
Example C18_emplace_case : NoDup (map fst [(kb, v_null); (ka, v_bool true)]) /\
  Permutation [(kb, v_null); (ka, v_bool true)] [(ka, v_bool true); (kb, v_null)].
Proof. split; [repeat constructor; cbn; intuition discriminate|apply perm_swap]. Qed.

(** C21: every value any history without moves, raw constructor abuse or assignment of a
    value to a part of itself can build is serialized to JSON *)
Theorem C21_reachable_is_json : forall cs st, Forall (cmd_literals scalar_text) cs ->
  Forall (fun c => ~ copies_into_part c) cs -> Forall cmd_no_move cs -> history [] cs st ->
  forall v n, In v st -> exists t j, dumps n v = Ok t /\ gvalue ws gstring false t j /\
  distinct j /\ inject j = v /\ (root v -> rfc_document t j).
Proof. exact reachable_is_json. Qed.
Print Assumptions C21_reachable_is_json.
Example C21_reachable_case : Forall (cmd_literals scalar_text) sample_history /\
  Forall (fun c => ~ copies_into_part c) sample_history /\ Forall cmd_no_move sample_history /\ history [] sample_history sample_store.
Proof. exact (conj sample_history_literals (conj sample_history_apart (conj sample_history_no_move sample_history_runs))). Qed.
(** the public constructor value(value_type, args...) takes any text for any type *)
Theorem C21_reachable_is_json_refuted : exists cs st v t, history [] cs st /\ In v st /\ dumps None v = Ok t /\
  ~ exists j, gvalue ws gstring false t j.
Proof. exact raw_not_json. Qed.
Print Assumptions C21_reachable_is_json_refuted.

(** C23 *)
Theorem C23_object_is_map : forall os, Forall obj_op_ok os ->
  exists m, obj_run os [] = Ok (m, snd (f_run os f_empty)) /\ represents m (fst (f_run os f_empty)).
Proof. exact object_refines. Qed.
Print Assumptions C23_object_is_map.
(** from any object that is one on *)
Theorem C23_from_any : forall m0 f0 os, represents m0 f0 -> Forall obj_op_ok os ->
  exists m, obj_run os m0 = Ok (m, snd (f_run os f0)) /\ represents m (fst (f_run os f0)).
Proof. exact object_refines_from. Qed.
Print Assumptions C23_from_any.
(** object(initializer_list), object(map), object(range): the first of equal keys stays *)
Theorem C23_object_of_list : forall l, exists m, obj_of_list l = m /\
  represents m (fold_left (fun f kv => if has f (fst kv) then f else f_set (fst kv) (Some (snd kv)) f) l f_empty).
Proof. exact object_of_list. Qed.
Print Assumptions C23_object_of_list.
Example C23_case : Forall obj_op_ok [OEmplace kb v_null; OIndex ka; OErase kb; OEraseFound ka; OMerge [(ka, v_null); (kb, v_bool true)] false; OClear].
Proof.
  repeat (first [apply Forall_cons|apply Forall_nil]); cbn; auto. split; [|repeat constructor].
  apply sk_cons; [apply blt_lt; reflexivity|apply sk_one].
Qed.

(** C24 *)
Theorem C24_array_is_sequence : forall os, arr_ops_ok os s_empty ->
  exists l, arr_run os [] = Ok (l, snd (s_run os s_empty)) /\ arr_represents l (fst (s_run os s_empty)).
Proof. exact array_refines. Qed.
Print Assumptions C24_array_is_sequence.
(** from any array on *)
Theorem C24_from_any : forall l0 os, arr_ops_ok os (seq_of l0) ->
  exists l, arr_run os l0 = Ok (l, snd (s_run os (seq_of l0))) /\ arr_represents l (fst (s_run os (seq_of l0))).
Proof. exact array_refines_from. Qed.
Print Assumptions C24_from_any.
(** array(size): that many null values *)
Theorem C24_of_size : forall n, arr_represents (arr_of_size n) (Seq n (fun i => if i <? n then Some v_null else None)).
Proof. exact array_of_size. Qed.
Print Assumptions C24_of_size.
Example C24_from_case : arr_ops_ok [AErase 1; AEraseIter 2; APush v_null] (seq_of [v_null; v_bool true; v_null]) /\
  arr_run [AErase 1; APush (v_bool true)] (arr_of_size 2) = Ok ([v_null; v_bool true], [true; true]).
Proof. split; [cbn; repeat split; lia|reflexivity]. Qed.
Theorem C24_erase_out_of_range : forall p l, arr_size l <= p -> arr_erase p l = (l, false).
Proof. exact erase_out_of_range. Qed.
Print Assumptions C24_erase_out_of_range.
Example C24_case : arr_ops_ok [APush v_null; AErase 4; APlus [v_bool true; v_null] false; AEraseIter 3; AErase 1; AClear] s_empty.
Proof. cbn. repeat split; try lia; repeat constructor. Qed.
Example C24_erase_case : arr_size [v_null; v_null] <= 2.
Proof. vm_compute. discriminate. Qed.

(** C25 *)
Theorem C25_merge_lookup : forall a b, good_object a -> good_object b ->
  exists m, obj_or_cc a b = Ok m /\ good_object m /\
  forall k, obj_find_value k m = match obj_find_value k b with Some v => Some v | None => obj_find_value k a end.
Proof. exact merge_lookup. Qed.
Print Assumptions C25_merge_lookup.
Theorem C25_merge_associative : forall a b c, good_object a -> good_object b -> good_object c ->
  exists ab bc abc, obj_or_cc a b = Ok ab /\ obj_or_cc b c = Ok bc /\ obj_or_cc ab c = Ok abc /\ obj_or_cc a bc = Ok abc.
Proof. exact merge_assoc. Qed.
Print Assumptions C25_merge_associative.
Theorem C25_merge_unit : forall a, good_object a -> obj_or_cc a [] = Ok a /\ obj_or_cc [] a = Ok a.
Proof. exact merge_unit. Qed.
Print Assumptions C25_merge_unit.
Theorem C25_merge_overloads : forall a b, good_object a -> good_object b ->
  obj_or_cm a b = obj_or_cc a b /\ obj_or_mc a b = obj_or_cc a b /\ obj_or_mm a b = obj_or_cc a b /\
  obj_or_assign_c a b = obj_or_cc a b /\ obj_or_assign_m a b = obj_or_cc a b.
Proof. exact merge_overloads_agree. Qed.
Print Assumptions C25_merge_overloads.
Theorem C25_concatenation : forall a b, Forall owned a -> Forall owned b ->
  arr_plus_cc a b = Ok (a ++ b) /\ arr_plus_cm a b = Ok (a ++ b) /\ arr_plus_mc a b = Ok (a ++ b) /\
  arr_plus_mm a b = Ok (a ++ b) /\ arr_plus_assign_c a b = Ok (a ++ b) /\ arr_plus_assign_m a b = Ok (a ++ b).
Proof. exact plus_overloads. Qed.
Print Assumptions C25_concatenation.
(** the operators of value, on a value holding an object (array) *)
Theorem C25_value_merge : forall m m', good_object m -> good_object m' ->
  exists r, obj_or_cc m m' = Ok r /\
  v_or_cc (v_object m) m' = Ok (v_object r) /\ v_or_cm (v_object m) m' = Ok (v_object r) /\
  v_or_mc (v_object m) m' = Ok (v_object r) /\ v_or_mm (v_object m) m' = Ok (v_object r) /\
  v_or_assign_c m' (v_object m) = (v_object r, Ok tt) /\ v_or_assign_m m' (v_object m) = (v_object r, Ok tt).
Proof. exact value_overloads. Qed.
Print Assumptions C25_value_merge.
Theorem C25_value_concatenation : forall a b, Forall owned a -> Forall owned b ->
  v_plus_cc (v_array a) b = Ok (v_array (a ++ b)) /\ v_plus_cm (v_array a) b = Ok (v_array (a ++ b)) /\
  v_plus_mc (v_array a) b = Ok (v_array (a ++ b)) /\ v_plus_mm (v_array a) b = Ok (v_array (a ++ b)) /\
  v_plus_assign_c b (v_array a) = (v_array (a ++ b), Ok tt) /\ v_plus_assign_m b (v_array a) = (v_array (a ++ b), Ok tt).
Proof. exact value_plus_overloads. Qed.
Print Assumptions C25_value_concatenation.
(** on an empty left operand the overloads for lvalues and rvalues disagree *)
Theorem C25_value_overloads_refuted : exists v m, v_or_cc v m <> v_or_mc v m.
Proof. exact value_overloads_differ_or. Qed.
Print Assumptions C25_value_overloads_refuted.
Theorem C25_value_plus_overloads_refuted : exists v a, v_plus_cc v a <> v_plus_mc v a.
Proof. exact value_overloads_differ_plus. Qed.
Print Assumptions C25_value_plus_overloads_refuted.
Example C25_case : good_object [(ka, v_null); (kb, v_bool true)] /\ good_object [(kb, v_array [v_null])] /\ Forall owned [v_null; v_array [v_null]].
Proof. repeat split; repeat constructor. Qed.

(** C26 *)
Theorem C26_tags_match_partial : forall cs st, Forall (cmd_literals (fun t _ => t <> Tarray /\ t <> Tobject)) cs ->
  Forall (fun c => ~ copies_into_part c) cs -> history [] cs st -> Forall tag_ok st /\ Forall keys_ok st.
Proof. exact tags_kept. Qed.
Print Assumptions C26_tags_match_partial.
Theorem C26_no_bad_variant_partial : forall cs st c st' r,
  Forall (cmd_literals (fun t _ => t <> Tarray /\ t <> Tobject)) (cs ++ [c]) ->
  Forall (fun c => ~ copies_into_part c) (cs ++ [c]) -> history [] cs st -> exec c st = Done st' r -> r <> Throw BadVariant.
Proof. exact outcomes_with_moves. Qed.
Print Assumptions C26_no_bad_variant_partial.
Theorem C26_no_ub_partial : forall cs st c st' r,
  Forall (cmd_literals (fun t _ => t <> Tarray /\ t <> Tobject)) (cs ++ [c]) ->
  Forall (fun c => ~ copies_into_part c) (cs ++ [c]) -> Forall cmd_no_move (cs ++ [c]) ->
  history [] cs st -> exec c st = Done st' r -> Forall owned st /\ (r = Ub -> misuse st c).
Proof. exact no_moves_safe. Qed.
Print Assumptions C26_no_ub_partial.
Example C26_case : Forall (cmd_literals (fun t _ => t <> Tarray /\ t <> Tobject)) (sample_history ++ [CAsk (at_root 0) (QDumps None)]) /\
  Forall (fun c => ~ copies_into_part c) (sample_history ++ [CAsk (at_root 0) (QDumps None)]) /\
  Forall cmd_no_move (sample_history ++ [CAsk (at_root 0) (QDumps None)]) /\
  history [] sample_history sample_store /\ exists st' r, exec (CAsk (at_root 0) (QDumps None)) sample_store = Done st' r.
Proof.
  splits; try (apply Forall_app; split; [|repeat constructor; tauto]).
  - exact sample_history_tags.
  - exact sample_history_apart.
  - exact sample_history_no_move.
  - exact sample_history_runs.
  - eexists. eexists. vm_compute. reflexivity.
Qed.
Example C26_moving_case : Forall (cmd_literals (fun t _ => t <> Tarray /\ t <> Tobject)) moving_prefix /\
  Forall (fun c => ~ copies_into_part c) moving_prefix /\ history [] moving_prefix moving_store.
Proof. exact (conj moving_history_tags (conj moving_history_apart moving_history_runs)). Qed.
(** v["a"] = v: the tag of v["a"] is assigned before v is copied *)
Theorem C26_tags_match_refuted : exists cs st, Forall (cmd_literals (fun t _ => t <> Tarray /\ t <> Tobject)) cs /\ Forall cmd_no_move cs /\
  history [] cs st /\ ~ Forall tag_ok st.
Proof. exact tags_broken. Qed.
Print Assumptions C26_tags_match_refuted.
Theorem C26_no_bad_variant_refuted : exists cs st c st', Forall (cmd_literals (fun t _ => t <> Tarray /\ t <> Tobject)) cs /\ Forall cmd_no_move cs /\
  history [] cs st /\ exec c st = Done st' (Throw BadVariant).
Proof. exact bad_variant_reached. Qed.
Print Assumptions C26_no_bad_variant_refuted.
(** v |= v["a"].as_object() where the operand has a member named a *)
Theorem C26_merge_part_refuted : exists cs st dst src st', Forall (cmd_literals (fun t _ => t <> Tarray /\ t <> Tobject)) cs /\ Forall cmd_no_move cs /\
  history [] cs st /\ exec (COr dst src false) st = Done st' Ub.
Proof. exact merge_part_ub. Qed.
Print Assumptions C26_merge_part_refuted.
(** v |= v.as_object() where v is an empty object: as_object() replaces the object the operand refers to *)
Theorem C26_merge_empty_self_refuted : exists cs st dst st', Forall (cmd_literals (fun t _ => t <> Tarray /\ t <> Tobject)) cs /\ Forall cmd_no_move cs /\
  history [] cs st /\ exec (COr dst dst false) st = Done st' Ub.
Proof. exact merge_empty_self_ub. Qed.
Print Assumptions C26_merge_empty_self_refuted.
(** v += v.as_array() *)
Theorem C26_append_self_refuted : exists cs st dst st', Forall (cmd_literals (fun t _ => t <> Tarray /\ t <> Tobject)) cs /\ Forall cmd_no_move cs /\
  history [] cs st /\ exec (CPlus dst dst false) st = Done st' Ub.
Proof. exact append_self_ub. Qed.
Print Assumptions C26_append_self_refuted.

(** C27 *)
Theorem C27_lookup_key : forall v, tag_ok v -> owned v -> keys_ok v -> forall k, exists r,
  v_find_value_key k v = Ok r /\
  (forall x, r = Some x <-> exists m, v = VObj Tobject (Some m) /\ In (k, x) m) /\
  v_contains_key k v = Ok (match r with Some _ => true | None => false end) /\
  v_exists_key k v = Ok (match r with Some _ => true | None => false end) /\
  v_at_key k v = match r with
                 | Some x => Ok x
                 | None => if is_object v then Throw OutOfRange else Throw JsonException
                 end.
Proof. exact lookup_key. Qed.
Print Assumptions C27_lookup_key.
Theorem C27_lookup_pos : forall v, tag_ok v -> owned v -> forall p, exists r,
  v_find_value_pos p v = Ok r /\
  (forall x, r = Some x <-> exists l, v = VArr Tarray (Some l) /\ nth_error l (N.to_nat p) = Some x) /\
  v_contains_pos p v = Ok (match r with Some _ => true | None => false end) /\
  v_exists_pos p v = Ok (match r with Some _ => true | None => false end) /\
  v_at_pos p v = match r with
                 | Some x => Ok x
                 | None => if is_array v then Throw OutOfRange else Throw JsonException
                 end /\
  (forall x, r = Some x -> v_index_c p v = Ok x).
Proof. exact lookup_pos. Qed.
Print Assumptions C27_lookup_pos.
Example C27_case : let v := v_object [(ka, v_null); (kb, v_array [v_bool true])] in tag_ok v /\ owned v /\ keys_ok v.
Proof. split; [|split]; repeat constructor; discriminate. Qed.

(** C36 *)
Theorem C36_equality_structural : forall v w, comparable v -> comparable w -> exists b, v_eq v w = Ok b /\ (b = true <-> same_value v w).
Proof. exact (fun v w Hv Hw => v_eq_spec v Hv w Hw). Qed.
Print Assumptions C36_equality_structural.
Theorem C36_equivalence : (forall v, comparable v -> same_value v v) /\ (forall v w, same_value v w -> same_value w v) /\
  (forall v w x, same_value v w -> same_value w x -> same_value v x).
Proof. exact (conj same_value_refl (conj same_value_sym same_value_trans)). Qed.
Print Assumptions C36_equivalence.
Theorem C36_inequality : forall v w, comparable v -> comparable w -> exists b, v_eq v w = Ok b /\ v_neq v w = Ok (negb b).
Proof. exact v_neq_spec. Qed.
Print Assumptions C36_inequality.
(** for values built by constructors and parser it is equality of the contents *)
Theorem C36_equality_wf : forall v w, wf v -> wf w -> exists b, v_eq v w = Ok b /\ (b = true <-> v = w).
Proof. exact equality_structural. Qed.
Print Assumptions C36_equality_wf.
Example C36_case : comparable (v_object [(ka, v_null); (kb, v_array [v_bool true])]) /\ wf (inject sample_json) /\ wf (inject samplec_json).
Proof. split; [|exact (conj sample_wf samplec_wf)]. repeat constructor. Qed.

(** C45 *)
Theorem C45_throw_keeps : forall v v' e,
  (as_array_m v = (v', Throw e) -> v' = v) /\ (as_object_m v = (v', Throw e) -> v' = v) /\
  (forall p, v_index_pos p v = (v', Throw e) -> v' = v) /\
  (keys_ok v -> forall k, v_index_key k v = (v', Throw e) -> v' = v).
Proof. exact throw_keeps. Qed.
Print Assumptions C45_throw_keeps.
Theorem C45_erase_throw_keeps : forall v v' e,
  (forall p, v_erase_pos p v = (v', Throw e) -> v' = v) /\ (forall k, v_erase_key k v = (v', Throw e) -> v' = v).
Proof. exact erase_throw_keeps. Qed.
Print Assumptions C45_erase_throw_keeps.
Theorem C45_erase_false_partial : forall v v', tag_ok v ->
  (forall p, v_erase_pos p v = (v', Ok false) -> v' = v \/ (v_empty v = Ok true /\ v' = v_array [])) /\
  (forall k, v_erase_key k v = (v', Ok false) -> v' = v \/ (v_empty v = Ok true /\ v' = v_object [])).
Proof. exact erase_false. Qed.
Print Assumptions C45_erase_false_partial.
Example C45_case : as_array_m (v_bool true) = (v_bool true, Throw JsonException) /\ as_object_m (v_bool true) = (v_bool true, Throw JsonException) /\
  v_index_pos 3 (v_bool true) = (v_bool true, Throw JsonException) /\ v_index_key ka (v_array [v_null]) = (v_array [v_null], Throw JsonException) /\
  v_erase_pos 1 (v_array [v_null]) = (v_array [v_null], Ok false) /\ v_erase_key ka (v_object [(kb, v_null)]) = (v_object [(kb, v_null)], Ok false) /\
  v_erase_pos 1 (v_bool true) = (v_bool true, Throw JsonException).
Proof. vm_compute. repeat split. Qed.
(** null.erase("a") returns false and turns the null into an object *)
Theorem C45_erase_false_refuted : exists k v v', tag_ok v /\ v_erase_key k v = (v', Ok false) /\ v' <> v.
Proof. exact erase_false_changes. Qed.
Print Assumptions C45_erase_false_refuted.
(** erase by index replaces null, the empty string and the empty object; erase by key null,
    the empty string and the empty array; and no other value is changed by an erase that
    returns false *)
Theorem C45_erase_false_exactly : forall v, tag_ok v ->
  (forall p, (exists v', v_erase_pos p v = (v', Ok false) /\ v' <> v) <-> type_of v = Tnull \/ v = v_string [] \/ v = v_object []) /\
  (forall k, (exists v', v_erase_key k v = (v', Ok false) /\ v' <> v) <-> type_of v = Tnull \/ v = v_string [] \/ v = v_array []).
Proof. exact erase_false_exactly. Qed.
Print Assumptions C45_erase_false_exactly.
Example C45_exactly_case : tag_ok (v_string []) /\ v_erase_pos 0 (v_string []) = (v_array [], Ok false) /\ v_erase_pos 0 (v_array []) = (v_array [], Ok false).
Proof. split; [constructor; discriminate|]. split; reflexivity. Qed.
