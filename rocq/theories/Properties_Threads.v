(** * Programs that use different variables: C73.
    Statements only; each is closed by a lemma of ThreadsTheorems.v. *)
From Verif Require Import Base Value Containers Dump Api SpecApi Heap SpecHeap SpecThreads SamplesApi SamplesHeap ThreadsTheorems SamplesThreads.

(** C73. The outcome of a command, and what it leaves in the variables it names and makes, depend on
    nothing but the contents of the variables it names; it changes no other. *)
Theorem C73_named_only : forall g g2 c, length g = length g2 -> (forall i, In i (uses c) -> (i < length g)%nat /\ nth_error g i = nth_error g2 i) ->
  match exec c g with
  | Stuck => exec c g2 = Stuck
  | Done g' r => exists g2', exec c g2 = Done g2' r /\ length g' = length g2' /\
      (forall i, In i (uses c) \/ (length g <= i)%nat -> nth_error g' i = nth_error g2' i) /\
      forall i, (i < length g)%nat -> ~ In i (uses c) -> nth_error g' i = nth_error g i /\ nth_error g2' i = nth_error g2 i
  end.
Proof. exact exec_named. Qed.
Print Assumptions C73_named_only.
(** On the heap: with every node of the other variables deleted, so that touching one is undefined, the command
    is defined and does the same. *)
Theorem C73_heap_named_only : forall hs st c st' r, sim hs st -> names_exist st c -> ~ moves_into_part c -> exec c st = Done st' r -> r <> Ub -> fails hs = [] ->
  exists hs1 hs1' st1, fewer (hp hs) (hp hs1) /\ (forall i, In i (uses c) -> nth_error (roots hs1) i = nth_error (roots hs) i) /\
    sim hs1 (only (uses c) st) /\ hexec c hs1 = HDone hs1' r /\ sim hs1' st1 /\
    forall i, In i (uses c) \/ (length st <= i)%nat -> nth_error st1 i = nth_error st' i.
Proof. exact touches_named. Qed.
Print Assumptions C73_heap_named_only.
Example C73_named_only_case : sim two_heap two_store /\ names_exist two_store touch /\ ~ moves_into_part touch /\ (exists st', exec touch two_store = Done st' (Ok tt)) /\
  fails two_heap = [] /\ uses touch = [1%nat] /\ exists a, live (hp two_heap) a.
Proof. exact touch_case. Qed.
(** Threads that share no variable one of them changes: however their statements take turns, each thread does,
    and sees, what it would do and see alone. *)
Theorem C73_threads : forall g ts g' ts', placed g ts -> race_free ts -> turns g ts g' ts' ->
  forall i t', nth_error ts' i = Some t' -> exists t ran st st', nth_error ts i = Some t /\ code t = ran ++ code t' /\
    shows (names t) g st /\ alone st ran st' (said t') /\ shows (names t') g' st'.
Proof. exact threads_alone. Qed.
Print Assumptions C73_threads.
(** and no thread is kept from going on *)
Theorem C73_threads_go_on : forall g ts g' ts', placed g ts -> race_free ts -> turns g ts g' ts' ->
  forall i t' c cs, nth_error ts' i = Some t' -> code t' = c :: cs -> Forall (fun k => k < length (names t'))%nat (uses c) ->
  forall st', shows (names t') g' st' -> exec c st' <> Stuck -> exists g2 ts2 t2, turn g' ts' g2 ts2 /\ nth_error ts2 i = Some t2 /\ code t2 = cs.
Proof. exact threads_go_on. Qed.
Print Assumptions C73_threads_go_on.
Example C73_threads_case : placed shared_store both /\ race_free both /\ turns shared_store both shared_after both_after.
Proof. exact (conj both_placed (conj both_race_free both_turns)). Qed.
