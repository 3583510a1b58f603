(** * Properties of the heap: copies, aliasing, allocation failure, ownership *)
From Verif Require Import Base Value Spec Containers Dump Api SpecApi Heap SpecHeap SamplesApi HeapProofs HeapTheorems HeapSafety UndefinedProofs SamplesHeap.

(** C37. The copy: a new variable holds it, nothing else changes. *)
Theorem C37_copy_constructor : forall hs st l v, sim hs st -> read st l = Some v -> owned v -> fails hs = [] ->
  exists hs', hexec (CNew (ECopy l)) hs = HDone hs' (Ok tt) /\ sim hs' (st ++ [v]).
Proof. exact copy_new. Qed.
Print Assumptions C37_copy_constructor.
(** copy assignment, unless the target is part of the source (see C26) *)
Theorem C37_copy_assignment_partial : forall hs st dst src d w, sim hs st -> read st dst = Some d -> read st src = Some w -> owned w ->
  ~ strictly_inside src dst -> fails hs = [] ->
  exists hs', hexec (CAssign dst (CRef src)) hs = HDone hs' (Ok tt) /\ sim hs' (write st dst w).
Proof. exact copy_assign_copies. Qed.
Print Assumptions C37_copy_assignment_partial.
Example C37_copy_case : sim (two_heap_failing []) two_store /\ (exists v, read two_store (Loc 0 [Key ka]) = Some v /\ owned v /\ v <> v_null) /\
  ~ strictly_inside (Loc 0 [Key ka]) (at_root 1).
Proof.
  split; [apply two_sim|]. split.
  - eexists. split; [vm_compute; reflexivity|]. split; [repeat constructor|discriminate].
  - intros (H & _). discriminate.
Qed.
(** v[k] = v: the tag of v[k] is assigned before v is copied *)
Theorem C37_copy_into_part_refuted : exists hs st dst src w hs' st', sim hs st /\ Forall sound st /\ read st dst <> None /\ read st src = Some w /\ fails hs = [] /\
  hexec (CAssign dst (CRef src)) hs = HDone hs' (Ok tt) /\ sim hs' st' /\ read st' dst <> Some w.
Proof. exact copy_into_part_differs. Qed.
Print Assumptions C37_copy_into_part_refuted.
(** No program changes a variable it neither writes to nor moves from, whatever allocations fail. *)
Theorem C37_other_variables_kept : forall cs hs st hs', sim hs st -> legal_run hs cs hs' ->
  exists st', sim hs' st' /\ unchanged (flat_map writes cs) st st'.
Proof. exact legal_run_keeps. Qed.
Print Assumptions C37_other_variables_kept.
(** The same at any depth: a value keeps its contents if no command is called on, or moves
    from, a part of it or a value containing it. *)
Theorem C37_other_parts_kept : forall cs hs st hs' l v, sim hs st -> fails hs = [] -> legal_run hs cs hs' ->
  Forall (fun c => Forall (apart l) (targets c)) cs -> read st l = Some v -> exists st', sim hs' st' /\ read st' l = Some v.
Proof. exact apart_kept. Qed.
Print Assumptions C37_other_parts_kept.
Example C37_kept_case : sim two_heap two_store /\ (exists hs', legal_run two_heap copy_program hs') /\
  Forall (fun c => Forall (apart (Loc 0 [Key ka])) (targets c)) copy_program /\ (exists v, read two_store (Loc 0 [Key ka]) = Some v).
Proof. exact copy_program_case. Qed.

(** C38. v = v[k] *)
Theorem C38_copy_from_part : forall hs st dst src d w, sim hs st -> read st dst = Some d -> read st src = Some w -> owned w ->
  strictly_inside dst src -> fails hs = [] ->
  exists hs', hexec (CAssign dst (CRef src)) hs = HDone hs' (Ok tt) /\ sim hs' (write st dst w).
Proof. exact copy_from_part. Qed.
Print Assumptions C38_copy_from_part.
(** v = std::move(v[k]): if both hold a string, both an array or both an object *)
Theorem C38_move_from_part_partial : forall hs st dst src d w, sim hs st -> read st dst = Some d -> read st src = Some w ->
  strictly_inside dst src -> same_alternative d w = true ->
  exists hs', hexec (CAssign dst (MRef src)) hs = HDone hs' (Ok tt) /\ sim hs' (write st dst w).
Proof. exact move_from_part. Qed.
Print Assumptions C38_move_from_part_partial.
Example C38_case : sim (two_heap_failing []) two_store /\ strictly_inside (at_root 0) (Loc 0 [Key ka]) /\
  exists d w, read two_store (at_root 0) = Some d /\ read two_store (Loc 0 [Key ka]) = Some w /\ owned w /\ same_alternative d w = true.
Proof.
  split; [apply two_sim|]. split; [split; [reflexivity|exists (Key ka), []; reflexivity]|].
  eexists _, _. split; [vm_compute; reflexivity|]. split; [vm_compute; reflexivity|]. split; [repeat constructor|reflexivity].
Qed.
(** an object assigned from an array inside it: the variant destroys the object before it
    moves from the array *)
Theorem C38_move_from_part_refuted : exists hs st dst src hs', sim hs st /\ Forall sound st /\ refs_valid st (CAssign dst (MRef src)) /\
  strictly_inside dst src /\ fails hs = [] /\ hexec (CAssign dst (MRef src)) hs = HDone hs' Ub.
Proof. exact move_from_part_ub. Qed.
Print Assumptions C38_move_from_part_refuted.
(** and so whenever the two alternatives differ *)
Theorem C38_move_from_part_undefined : forall hs st dst src d w, sim hs st -> read st dst = Some d -> read st src = Some w ->
  strictly_inside dst src -> same_alternative d w = false -> exists hs', hexec (CAssign dst (MRef src)) hs = HDone hs' Ub.
Proof. exact move_from_part_undefined. Qed.
Print Assumptions C38_move_from_part_undefined.
Example C38_differ : sim (two_heap_failing []) two_store /\ strictly_inside (at_root 0) (Loc 0 [Key kb]) /\
  exists d w, read two_store (at_root 0) = Some d /\ read two_store (Loc 0 [Key kb]) = Some w /\ same_alternative d w = false.
Proof.
  split; [apply two_sim|]. split; [split; [reflexivity|exists (Key kb), []; reflexivity]|].
  eexists _, _. split; [vm_compute; reflexivity|]. split; [vm_compute; reflexivity|reflexivity].
Qed.

(** C39. An allocation failure changes the tag of the target and not its payload. *)
Theorem C39_as_array_refuted : exists l, tag_lost_by (CInvoke l MAsArray).
Proof. exact as_array_loses. Qed.
Print Assumptions C39_as_array_refuted.
Theorem C39_as_object_refuted : exists l, tag_lost_by (CInvoke l MAsObject).
Proof. exact as_object_loses. Qed.
Print Assumptions C39_as_object_refuted.
Theorem C39_index_refuted : exists l k, tag_lost_by (CInvoke l (MIndexKey k)).
Proof. exact index_loses. Qed.
Print Assumptions C39_index_refuted.
Theorem C39_copy_assignment_refuted : exists dst src, tag_lost_by (CAssign dst (CRef src)).
Proof. exact assign_loses. Qed.
Print Assumptions C39_copy_assignment_refuted.
(** What does hold: the values after the failure. *)
Theorem C39_as_array_partial : forall hs st l v hs', sim hs st -> read st l = Some v -> legal hs (CInvoke l MAsArray) ->
  hexec (CInvoke l MAsArray) hs = HDone hs' (Throw BadAlloc) -> sim hs' (write st l (set_tag Tarray v)).
Proof. exact as_array_fails. Qed.
Print Assumptions C39_as_array_partial.
Theorem C39_as_object_partial : forall hs st l v hs', sim hs st -> read st l = Some v -> legal hs (CInvoke l MAsObject) ->
  hexec (CInvoke l MAsObject) hs = HDone hs' (Throw BadAlloc) -> sim hs' (write st l (set_tag Tobject v)).
Proof. exact as_object_fails. Qed.
Print Assumptions C39_as_object_partial.
Theorem C39_copy_assignment_partial : forall hs st dst src d w hs' e, sim hs st -> read st dst = Some d -> read st src = Some w -> owned w ->
  ~ strictly_inside src dst -> hexec (CAssign dst (CRef src)) hs = HDone hs' (Throw e) ->
  e = BadAlloc /\ sim hs' (write st dst (set_tag (type_of w) d)).
Proof. exact copy_assign_fails. Qed.
Print Assumptions C39_copy_assignment_partial.
(** construction: nothing changes and nothing leaks *)
Theorem C39_construction_partial : forall hs st e hs' x, sim hs st -> legal hs (CNew e) -> expr_moves e = [] ->
  hexec (CNew e) hs = HDone hs' (Throw x) -> x = BadAlloc /\ sim hs' st.
Proof. exact new_fails. Qed.
Print Assumptions C39_construction_partial.
(** any command: nothing leaks, nothing is shared, and only the variables it writes to change *)
Theorem C39_failure_contained_partial : forall hs st c hs', sim hs st -> legal hs c -> hexec c hs = HDone hs' (Throw BadAlloc) ->
  exists st', sim hs' st' /\ unchanged (writes c) st st'.
Proof. exact failure_contained. Qed.
Print Assumptions C39_failure_contained_partial.
Example C39_case :
  (legal (two_heap_failing fail_now) (CInvoke (at_root 1) MAsArray) /\ exists hs', hexec (CInvoke (at_root 1) MAsArray) (two_heap_failing fail_now) = HDone hs' (Throw BadAlloc)) /\
  (legal (two_heap_failing fail_now) (CInvoke (at_root 1) MAsObject) /\ exists hs', hexec (CInvoke (at_root 1) MAsObject) (two_heap_failing fail_now) = HDone hs' (Throw BadAlloc)) /\
  (exists hs', hexec (CAssign (at_root 1) (CRef (at_root 0))) (two_heap_failing [false; true]) = HDone hs' (Throw BadAlloc)) /\
  (legal (two_heap_failing [false; true]) (CNew (ECopy (at_root 0))) /\ exists hs', hexec (CNew (ECopy (at_root 0))) (two_heap_failing [false; true]) = HDone hs' (Throw BadAlloc)).
Proof. exact failing_cases. Qed.

(** C53. A program that moves nothing and assigns no value to a part of itself: no step has
    undefined behaviour, unless it is a misuse. *)
Theorem C53_program_safe_partial : forall cs hs st c, Forall moves_nothing (cs ++ [c]) -> clean_run (HS [] [] []) cs hs ->
  sim hs st -> names_exist st c -> ~ misuse st c ->
  Forall sound st /\ exists hs' r st', hexec c hs = HDone hs' r /\ r <> Ub /\ r <> Throw BadVariant /\ exec c st = Done st' r /\ sim hs' st'.
Proof. exact program_safe. Qed.
Print Assumptions C53_program_safe_partial.
(** When its variables are destroyed, all memory has been freed. *)
Theorem C53_program_frees_partial : forall cs hs, Forall moves_nothing cs -> clean_run (HS [] [] []) cs hs ->
  exists hs', drop_n (length (roots hs)) hs = HDone hs' (Ok tt) /\ roots hs' = [] /\ forall a, ~ live (hp hs') a.
Proof. exact program_frees. Qed.
Print Assumptions C53_program_frees_partial.
Example C53_program_case : Forall moves_nothing (sample_history ++ [CEq (at_root 0) (at_root 1)]) /\
  (exists hs, clean_run (HS [] [] []) sample_history hs /\ sim hs sample_store) /\
  names_exist sample_store (CEq (at_root 0) (at_root 1)) /\ ~ misuse sample_store (CEq (at_root 0) (at_root 1)).
Proof. exact (conj sample_moves_nothing (conj sample_clean_run sample_last)). Qed.
(** A step is safe also if allocations fail. *)
Theorem C53_step_safe_partial : forall hs st c, sim hs st -> Forall sound st -> cmd_literals (fun t _ => t <> Tarray /\ t <> Tobject) c ->
  cmd_no_move c -> ~ copies_into_part c -> names_exist st c -> ~ misuse st c ->
  exists hs' r, hexec c hs = HDone hs' r /\ r <> Ub /\ r <> Throw BadVariant /\
    (fails hs = [] -> fails hs' = [] /\ exists st', sim hs' st' /\ Forall sound st' /\ exec c st = Done st' r).
Proof. exact safe_step. Qed.
Print Assumptions C53_step_safe_partial.
(** Programs with moves: a step that has a meaning on the values has none but that meaning on
    the heap; in particular no undefined behaviour. *)
Theorem C53_moves_defined_partial : forall hs c, legal hs c -> exists hs' r, hexec c hs = HDone hs' r /\ r <> Ub.
Proof. exact legal_defined. Qed.
Print Assumptions C53_moves_defined_partial.
Theorem C53_moves_tree_partial : forall cs hs st st', sim hs st -> fails hs = [] -> sound_history st cs st' ->
  exists hs', hhistory hs cs hs' /\ sim hs' st' /\ fails hs' = [].
Proof. exact heap_follows. Qed.
Print Assumptions C53_moves_tree_partial.
(** After any such program, with any allocation failures, destroying the variables frees all memory. *)
Theorem C53_moves_free_partial : forall cs fl hs, legal_run (HS [] [] fl) cs hs ->
  exists st hs', sim hs st /\ drop_n (length st) hs = HDone hs' (Ok tt) /\ roots hs' = [] /\ forall a, ~ live (hp hs') a.
Proof. exact run_frees. Qed.
Print Assumptions C53_moves_free_partial.
Example C53_moves_case : sound_history [] heap_program heap_program_store /\ exists hs, legal_run (HS [] [] []) heap_program hs /\ sim hs heap_program_store.
Proof. exact (conj heap_program_sound heap_program_legal). Qed.
Example C53_join_case : Forall (fun cs => run_store cs <> None /\ run_values cs = run_store cs /\ run_left cs = Some []) join_programs.
Proof. repeat (constructor; [vm_compute; split; [discriminate|split; reflexivity]|]). constructor. Qed.
(** v[k] = std::move(v): the object becomes its own member and is never freed *)
Theorem C53_leak_refuted : exists hs st c hs' hs'', sim hs st /\ Forall sound st /\ refs_valid st c /\ fails hs = [] /\
  hexec c hs = HDone hs' (Ok tt) /\ drop_n (length (roots hs')) hs' = HDone hs'' (Ok tt) /\ roots hs'' = [] /\ exists a, live (hp hs'') a.
Proof. exact move_into_part_leaks. Qed.
Print Assumptions C53_leak_refuted.
