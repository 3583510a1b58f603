(** * Properties of the source of a converted rvalue: C67.
    Statements only; each is closed by a lemma of LeftProofs.v, LeftTheorems.v or SamplesLeft.v. [E] is the build,
    [left] what the user's move_from_json leaves, both arbitrary. [cast_left E left t v] is v after
    [(T)std::move(v)], [cast_rv E t v] the result of the conversion. *)
From Verif Require Import Base Value Dump Containers Num Enum Conv Spec SpecApi SpecConv Left SpecLeft LeftProofs LeftTheorems SamplesApi SamplesConv SamplesLeft.

(** C67: the source can still be read, whether the conversion succeeds or not; [gentle] leaves out
    json::value itself, json::object, maps to json::value, mixed tuples and move_from_json *)
Theorem C67_source_usable_partial : forall E left t v, gentle t -> usable v -> usable (cast_left E left t v).
Proof. exact source_usable. Qed.
Print Assumptions C67_source_usable_partial.
Example C67_source_usable_partial_ex : gentle (TVec TValue) /\ usable v_pair /\
  cast_left env_names left_nothing (TVec TValue) v_pair = v_array [].
Proof. split; [right; reflexivity|]. split; [exact usable_pair|vm_compute; reflexivity]. Qed.
(** a conversion that throws leaves the source as it was; of an empty value as_array() and as_object()
    have already made an empty container *)
Theorem C67_failure_keeps_partial : forall E left t v e, gentle t -> cast_rv E t v = Throw e ->
  cast_left E left t v = v \/
  (v_empty v = Ok true /\ (cast_left E left t v = v_array [] \/ cast_left E left t v = v_object [])).
Proof. exact failure_keeps. Qed.
Print Assumptions C67_failure_keeps_partial.
Example C67_failure_keeps_partial_ex : gentle (TVec t_int) /\ cast_rv env_names (TVec t_int) v_mixed = Throw JsonException /\
  cast_left env_names left_nothing (TVec t_int) v_mixed = v_mixed.
Proof. split; [left; intros []|]. split; vm_compute; reflexivity. Qed.
(** after a conversion to a sequence, a set, a fixed array or a tuple the source is an empty array, for
    every element type *)
Theorem C67_array_cleared : forall E left t v d, from_elements t -> cast_rv E t v = Ok d ->
  cast_left E left t v = v_array [].
Proof. exact array_cleared. Qed.
Print Assumptions C67_array_cleared.
Example C67_array_cleared_ex : from_elements (TTup [TValue; TStr]) /\
  cast_rv env_names (TTup [TValue; TStr]) v_pair = Ok (DSeq [DJson (v_array [num (of_string "1")]); DStr (of_string "x")]).
Proof. split; [cbn; discriminate|vm_compute; reflexivity]. Qed.
(** after a conversion to a map the object is not cleared: it keeps what was read *)
Theorem C67_map_kept : forall E left t v, ~ moves_away t -> v_empty v = Ok false -> cast_left E left (TMap t) v = v.
Proof. exact map_kept. Qed.
Print Assumptions C67_map_kept.
Example C67_map_kept_ex : ~ moves_away (TVec TValue) /\ v_empty v_member = Ok false.
Proof. split; [intros []|reflexivity]. Qed.
(** A conversion that throws has stopped at the first element that cannot be converted: those behind it are untouched,
    none is lost. A wrong number of elements is found before any is touched. *)
Theorem C67_stops_at_failure : forall E left t l e, from_elements t -> cast_rv E t (v_array l) = Throw e ->
  (required t <> None /\ required t <> Some (length l) /\ cast_left E left t (v_array l) = v_array l) \/
  exists l1 x l2 l1' x' t', l = l1 ++ x :: l2 /\ cast_left E left t (v_array l) = v_array (l1' ++ x' :: l2) /\
    length l1' = length l1 /\ element_type t (length l1) = Some t' /\ as_rv E t' x = Throw e /\
    forall i y, nth_error l1 i = Some y -> exists t'' d, element_type t i = Some t'' /\ as_rv E t'' y = Ok d.
Proof. exact failure_behind. Qed.
Print Assumptions C67_stops_at_failure.
Example C67_stops_at_failure_ex : from_elements (TVec (TExt keeper)) /\
  cast_rv env_names (TVec (TExt keeper)) v_three = Throw JsonException /\
  cast_left env_names left_keeper (TVec (TExt keeper)) v_three =
    v_array [VArr Tarray None; v_string (of_string "x"); v_array [num (of_string "1")]].
Proof. split; [exact Logic.I|]. split; vm_compute; reflexivity. Qed.
Theorem C67_map_stops_at_failure : forall E left t m e, cast_rv E (TMap t) (v_object m) = Throw e -> exists m1 k x m2 m1' x',
  m = m1 ++ (k, x) :: m2 /\ cast_left E left (TMap t) (v_object m) = v_object (m1' ++ (k, x') :: m2) /\
  map fst m1' = map fst m1 /\ as_rv E t x = Throw e.
Proof. exact map_failure_behind. Qed.
Print Assumptions C67_map_stops_at_failure.
Example C67_map_stops_at_failure_ex : cast_rv env_names (TMap (TExt keeper)) v_abc = Throw JsonException /\
  cast_left env_names left_keeper (TMap (TExt keeper)) v_abc =
    v_object [(of_string "a", VArr Tarray None); (of_string "b", v_string (of_string "x")); (of_string "c", v_array [num (of_string "1")])].
Proof. split; vm_compute; reflexivity. Qed.
(** Refuted without the restriction: a tuple whose second component fails, ... *)
Theorem C67_tuple_refuted : exists E left t v e, from_elements t /\ usable v /\ cast_rv E t v = Throw e /\
  ~ usable (cast_left E left t v) /\ dumps None (cast_left E left t v) = Ub.
Proof. exact tuple_half_moved. Qed.
Print Assumptions C67_tuple_refuted.
(** ... a map to json::value, ... *)
Theorem C67_map_refuted : exists E left t v d, t = TMap TValue /\ usable v /\ cast_rv E t v = Ok d /\
  ~ usable (cast_left E left t v) /\ dumps None (cast_left E left t v) = Ub.
Proof. exact map_members_moved. Qed.
Print Assumptions C67_map_refuted.
(** ... and json::object *)
Theorem C67_object_refuted : exists E left v d, usable v /\ cast_rv E TObj v = Ok d /\
  ~ usable (cast_left E left TObj v) /\ dumps None (cast_left E left TObj v) = Ub.
Proof. exact object_members_moved. Qed.
Print Assumptions C67_object_refuted.
