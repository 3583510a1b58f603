(** * Programs that move: more on C21, C26, C53 and C57.
    Statements only; each is closed by a lemma of MovesProofs.v, MovesTheorems.v,
    UndefinedProofs.v, UndefinedCalls.v or SamplesMoves.v. *)
From Verif Require Import Base Value Spec Containers Num Enum Conv Dump Api SpecApi SpecConv Heap SpecHeap Info SpecInfo SpecMoves
  SamplesApi SamplesHeap MovesProofs MovesTheorems SamplesMoves UndefinedProofs UndefinedCalls.

(** C26. A program may move. A command that reads nothing that has been moved from, after any history,
    is defined and does not throw bad_variant_access. *)
Theorem C26_moves_safe_partial : forall cs st c, Forall (cmd_literals (fun t _ => t <> Tarray /\ t <> Tobject)) cs ->
  Forall (fun c => ~ copies_into_part c) cs -> history [] cs st ->
  careful c -> ready st c -> ~ misuse st c -> exists st' r, exec c st = Done st' r /\ r <> Ub /\ r <> Throw BadVariant.
Proof. exact moved_program_safe. Qed.
Print Assumptions C26_moves_safe_partial.
Example C26_moves_safe_case : Forall (cmd_literals (fun t _ => t <> Tarray /\ t <> Tobject)) move_program /\
  Forall (fun c => ~ copies_into_part c) move_program /\ history [] move_program move_store /\ careful move_last /\ ready move_store move_last /\ ~ misuse move_store move_last.
Proof. exact (conj move_tags (conj move_apart (conj move_history (conj (Forall_inv (proj2 (proj1 (Forall_app _ _ _) move_careful))) move_ready)))). Qed.
(** one step, for all values whose tags match *)
Theorem C26_moves_step_partial : forall st c, Forall tag_ok st -> Forall keys_ok st -> careful c -> ready st c -> ~ misuse st c ->
  exists st' r, exec c st = Done st' r /\ r <> Ub /\ r <> Throw BadVariant /\ Forall tag_ok st' /\ Forall keys_ok st'.
Proof. exact ready_step. Qed.
Print Assumptions C26_moves_step_partial.

(** C53. The same on the heap, also if allocations fail *)
Theorem C53_careful_step_partial : forall hs st c, sim hs st -> Forall tag_ok st -> Forall keys_ok st -> careful c -> ready st c -> ~ misuse st c ->
  exists hs' r, hexec c hs = HDone hs' r /\ r <> Ub /\ r <> Throw BadVariant /\
    (fails hs = [] -> fails hs' = [] /\ exists st', sim hs' st' /\ Forall tag_ok st' /\ Forall keys_ok st' /\ exec c st = Done st' r).
Proof. exact careful_step. Qed.
Print Assumptions C53_careful_step_partial.
(** a program all of whose commands are such *)
Theorem C53_careful_safe_partial : forall cs hs st c, Forall careful (cs ++ [c]) -> careful_run (HS [] [] []) cs hs -> sim hs st -> ready st c -> ~ misuse st c ->
  exists hs' r st', hexec c hs = HDone hs' r /\ r <> Ub /\ r <> Throw BadVariant /\ exec c st = Done st' r /\ sim hs' st'.
Proof. exact careful_program_safe. Qed.
Print Assumptions C53_careful_safe_partial.
Theorem C53_careful_frees_partial : forall cs hs, Forall careful cs -> careful_run (HS [] [] []) cs hs ->
  exists hs', drop_n (length (roots hs)) hs = HDone hs' (Ok tt) /\ roots hs' = [] /\ forall a, ~ live (hp hs') a.
Proof. exact careful_program_frees. Qed.
Print Assumptions C53_careful_frees_partial.
Example C53_careful_case : Forall careful (move_program ++ [move_last]) /\ (exists hs, careful_run (HS [] [] []) move_program hs /\ sim hs move_store) /\
  ready move_store move_last /\ ~ misuse move_store move_last /\
  exists v w, read move_store (at_root 2) = Some v /\ no_leftover v /\ read move_store (at_root 1) = Some w /\ ~ owned w /\ present move_store (at_root 1).
Proof. exact (conj move_careful (conj move_run (conj (proj1 move_ready) (conj (proj2 move_ready) move_result)))). Qed.
(** A copy is defined exactly if nothing in the value has been moved from and left without a container. *)
Theorem C53_copy_exactly : forall hs st l v, sim hs st -> fails hs = [] -> read st l = Some v ->
  exists hs' r, hexec (CNew (ECopy l)) hs = HDone hs' r /\ (owned v /\ r = Ok tt /\ sim hs' (st ++ [v]) \/ ~ owned v /\ r = Ub).
Proof. exact copy_exactly. Qed.
Print Assumptions C53_copy_exactly.
Example C53_copy_case : (exists v, read move_store (at_root 2) = Some v /\ owned v) /\ exists w, read move_store (at_root 1) = Some w /\ ~ owned w.
Proof. exact (conj move_owned move_not_owned). Qed.
(** a method called on any value, moved from or not: the heap gives the outcome of the trees, and
    undefined behaviour exactly where they do *)
Theorem C53_calls_exactly : forall hs st l v m, sim hs st -> fails hs = [] -> read st l = Some v ->
  exists hs', hexec (CInvoke l m) hs = HDone hs' (snd (invoke m v)) /\ (snd (invoke m v) <> Ub -> sim hs' (write st l (fst (invoke m v)))).
Proof. exact invoke_exactly. Qed.
Print Assumptions C53_calls_exactly.
Theorem C53_queries_exactly : forall hs st l v q, sim hs st -> read st l = Some v -> hexec (CAsk l q) hs = HDone hs (ask q v).
Proof. exact ask_exactly. Qed.
Print Assumptions C53_queries_exactly.
(** | and + on an lvalue that has been moved from *)
Theorem C53_or_undefined : forall hs st lhs src v kv m mr, sim hs st -> fails hs = [] -> read st lhs = Some v -> as_object_c v = Ub -> read st src = Some (VObj Tobject (Some (kv :: m))) ->
  exists hs', hexec (COrNew lhs src false mr) hs = HDone hs' Ub.
Proof. exact or_new_undefined. Qed.
Print Assumptions C53_or_undefined.
Theorem C53_plus_undefined : forall hs st lhs src v x m mr, sim hs st -> fails hs = [] -> read st lhs = Some v -> as_array_c v = Ub -> read st src = Some (VArr Tarray (Some (x :: m))) ->
  exists hs', hexec (CPlusNew lhs src false mr) hs = HDone hs' Ub.
Proof. exact plus_new_undefined. Qed.
Print Assumptions C53_plus_undefined.
Example C53_undefined_case : as_object_c (VObj Tobject None) = Ub /\ as_object_c (VArr Tarray None) = Ub /\ as_array_c (VArr Tarray None) = Ub /\
  snd (invoke MAsArray (VArr Tarray None)) = Ub /\ snd (invoke (MIndexPos 0) v_null) = Ub /\ snd (invoke MClear (VArr Tarray None)) = Ok tt.
Proof. repeat split; reflexivity. Qed.
(** the operands of += and |= may be parts of each other *)
Example C53_overlap_case : Forall careful overlap_program /\ exists hs, careful_run (HS [] [] []) overlap_program hs /\ sim hs overlap_store.
Proof. exact (conj overlap_careful overlap_run). Qed.

(** C21. Whatever a program with moves builds is serialized to JSON, unless something in it was moved
    from: then a pointer in it is null or a number or boolean has no text. *)
Theorem C21_moves : forall cs st l v n, Forall (cmd_literals scalar_text) cs -> Forall (fun c => ~ copies_into_part c) cs -> history [] cs st ->
  read st l = Some v -> no_leftover v ->
  exists t j, dumps n v = Ok t /\ gvalue ws gstring false t j /\ distinct j /\ inject j = v /\ (root v -> rfc_document t j).
Proof. exact left_is_json. Qed.
Print Assumptions C21_moves.
Example C21_moves_case : Forall (cmd_literals scalar_text) move_program /\ Forall (fun c => ~ copies_into_part c) move_program /\ history [] move_program move_store /\
  exists v w, read move_store (at_root 2) = Some v /\ no_leftover v /\ read move_store (at_root 1) = Some w /\ ~ owned w /\ present move_store (at_root 1).
Proof. exact (conj move_literals (conj move_apart (conj move_history move_result))). Qed.
(** value x = 12; value y = std::move(x); x.dumps() is the empty text *)
Theorem C21_moved_number_refuted : exists cs st v t, Forall (cmd_literals scalar_text) cs /\ Forall (fun c => ~ copies_into_part c) cs /\ history [] cs st /\
  read st (at_root 0) = Some v /\ owned v /\ dumps None v = Ok t /\ ~ exists j, gvalue ws gstring false t j.
Proof. exact moved_number_text. Qed.
Print Assumptions C21_moved_number_refuted.

(** C57. The functions declared noexcept do not throw for any value a program with moves builds, if nothing
    in it was moved from. *)
Theorem C57_moves_partial : forall cs st l v, Forall (cmd_literals (fun t _ => t <> Tarray /\ t <> Tobject)) cs -> Forall (fun c => ~ copies_into_part c) cs -> history [] cs st ->
  read st l = Some v -> owned v ->
  (exists b, v_empty v = Ok b) /\ (forall E t, lawful sound t -> exists b, is_ E t v = Ok b) /\
  (forall cc, exists i, type_name cc v = Ok i) /\ (forall cc, exists i, value_info cc v = Ok i).
Proof. exact noexcept_moves. Qed.
Print Assumptions C57_moves_partial.
Example C57_moves_case : Forall (cmd_literals (fun t _ => t <> Tarray /\ t <> Tobject)) move_program /\ Forall (fun c => ~ copies_into_part c) move_program /\
  history [] move_program move_store /\ exists v, read move_store (at_root 2) = Some v /\ owned v.
Proof. exact (conj move_tags (conj move_apart (conj move_history move_owned))). Qed.
