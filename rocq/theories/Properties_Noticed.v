(** * Failed requests for memory are not lost: C74, C75, C77.
    Statements only; each is closed by a lemma of FaultsNoticed.v. *)
From Verif Require Import Base Value Dump Containers Num Enum Conv Info Stream Spec SpecConv SpecHeap SpecInfo Faults FaultsMove SpecFaults
  SamplesConv FaultsTheorems SamplesFaults FaultsNoticed.

(** Serialization stops at the first request that fails, with bad_alloc, and with bad_alloc for no other reason. [s'] is what
    is left of [s]. Any value. *)
Theorem C74_noticed : forall limit n v s s' r, try_dumps limit n v s = (s', r) ->
  (all_met s s' /\ r <> Throw BadAlloc) \/ (last_failed s s' /\ r = Throw BadAlloc).
Proof. exact dumps_notes. Qed.
Print Assumptions C74_noticed.
Theorem C74_array_noticed : forall limit n l s s' r, try_array_dumps limit n l s = (s', r) ->
  (all_met s s' /\ r <> Throw BadAlloc) \/ (last_failed s s' /\ r = Throw BadAlloc).
Proof. exact array_dumps_notes. Qed.
Print Assumptions C74_array_noticed.
Theorem C74_object_noticed : forall limit n m s s' r, try_object_dumps limit n m s = (s', r) ->
  (all_met s s' /\ r <> Throw BadAlloc) \/ (last_failed s s' /\ r = Throw BadAlloc).
Proof. exact object_dumps_notes. Qed.
Print Assumptions C74_object_noticed.
Theorem C74_stream_noticed : forall limit v o s s' o' r, try_insert limit v o s = (s', (o', r)) ->
  (all_met s s' /\ r <> Throw BadAlloc) \/ (last_failed s s' /\ r = Throw BadAlloc).
Proof. exact insert_notes. Qed.
Print Assumptions C74_stream_noticed.
Example C74_noticed_case : try_dumps max_size None (v_array [v_number n5; v_null]) [false; true; false] = ([false], Throw BadAlloc) /\
  last_failed [false; true; false] [false].
Proof. exact (conj eq_refl (ex_intro _ [false] (conj (fun H => match H with or_introl e => eq_ind false (fun b => if b then False else True) Logic.I _ e | or_intror f => f end) eq_refl))). Qed.

(** The conversions, to any type and of any value: none of them goes on after a request that failed. *)
Theorem C75_is_noticed : forall short E t v s s' o, try_is short E t v s = (s', o) -> noticed s s' o.
Proof. exact is_notes. Qed.
Print Assumptions C75_is_noticed.
Theorem C75_as_noticed : forall short E t v s s' o, try_as short E t v s = (s', o) -> noticed s s' o.
Proof. exact as_notes. Qed.
Print Assumptions C75_as_noticed.
Theorem C75_from_json_noticed : forall short E fs v cur s l s' o, try_from_json short E fs v cur s = (l, (s', o)) -> noticed s s' o.
Proof. exact from_json_notes. Qed.
Print Assumptions C75_from_json_noticed.
Theorem C75_find_pos_noticed : forall short E t n v s s' o, try_find_pos short E t n v s = (s', o) -> noticed s s' o.
Proof. exact find_pos_notes. Qed.
Print Assumptions C75_find_pos_noticed.
Theorem C75_find_key_noticed : forall short E t k v s s' o, try_find_key short E t k v s = (s', o) -> noticed s s' o.
Proof. exact find_key_notes. Qed.
Print Assumptions C75_find_key_noticed.
Theorem C75_get_noticed : forall short E t d ks v s s' o, try_get short E t d ks v s = (s', o) -> noticed s s' o.
Proof. exact get_notes. Qed.
Print Assumptions C75_get_noticed.
Example C75_noticed_case : exists s', try_as 15 env_names (TVec TStr) (v_array [v_string n5; v_string n5]) [false; false; true; false] = (s', Res (Throw BadAlloc)) /\ s' = [false].
Proof. exact (ex_intro _ [false] (conj eq_refl eq_refl)). Qed.
(** and of rvalues *)
Theorem C77_noticed : forall short E left half grows t v s w s' o, try_cast_rv short E left half grows t v s = (w, (s', o)) -> noticed s s' o.
Proof. exact cast_rv_notes. Qed.
Print Assumptions C77_noticed.
Theorem C77_as_noticed : forall short E left half t v s w s' o, try_as_rv short E left half t v s = (w, (s', o)) -> noticed s s' o.
Proof. exact as_rv_notes. Qed.
Print Assumptions C77_as_noticed.
Theorem C77_array_noticed : forall short E left half grows t l s w s' o, try_array_take short E left half grows t l s = (w, (s', o)) -> noticed s s' o.
Proof. exact array_take_notes. Qed.
Print Assumptions C77_array_noticed.
Theorem C77_object_noticed : forall short E left half t m s w s' o, try_object_take short E left half t m s = (w, (s', o)) -> noticed s s' o.
Proof. exact object_take_notes. Qed.
Print Assumptions C77_object_noticed.
Example C77_noticed_case : exists w, try_cast_rv 15 env_names (fun _ v => v) (fun _ v => v) true (TVec TValue) (v_array [v_number n5; v_null]) [false; true; false] =
  (w, ([false], Res (Throw BadAlloc))).
Proof. exact (ex_intro _ (VArr Tarray (Some [VStr Tnumber []; v_null])) eq_refl). Qed.
(** value_info() goes on after one, as it is meant to *)
Example C74_value_info_goes_on : exists v s s', try_value_info max_size 15 GCC v s = (s', Res (Ok (of_string "type=object"))) /\ ~ all_met s s'.
Proof. exact swallowed. Qed.
(** with strings that hold seven to eleven characters themselves (ten in libc++ for 32-bit targets) it takes two failing
    requests to end the program *)
Theorem C74_value_info_once : forall limit short cc v i s, (7 <= short)%nat -> sound v -> value_info cc v = Ok i ->
  (count_occ Bool.bool_dec s true <= 1)%nat -> (forall t, dumps None v = Ok t -> N.of_nat (length t) <= limit) ->
  let o := snd (try_value_info limit short cc v s) in
  (o = Res (Ok i) /\ all_met s (fst (try_value_info limit short cc v s))) \/
  (o = Res (Ok (of_string "type=" ++ tag_name (type_of v))) /\ ~ enough s).
Proof. exact info_once. Qed.
Print Assumptions C74_value_info_once.
Example C74_value_info_once_case : sound (v_object []) /\ value_info GCC (v_object []) = Ok (of_string "type=object, size=0") /\
  snd (try_value_info max_size 10 GCC (v_object []) [true]) = Res (Ok (of_string "type=object")) /\
  snd (try_value_info max_size 10 GCC (v_object []) [true; true]) = Ended.
Proof. exact once_case. Qed.
