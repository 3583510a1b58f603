(** * Properties of references held across calls *)
From Verif Require Import Base Value Spec Containers Dump Api SpecApi Heap SpecHeap SpecMoves SpecRefs RefsTheorems SamplesApi SamplesHeap SamplesRefs.

(** C76. After a call that returns normally, a reference taken before it still names the value it named, unless the call
    is one of those listed in [doomed]; the values have the tags and member names that careful programs leave. *)
Theorem C76_reference_kept : forall hs st c hs' l p, sim hs st -> Forall tag_ok st -> Forall keys_ok st -> legal hs c ->
  hexec c hs = HDone hs' (Ok tt) -> ~ doomed st c l -> refers hs l p -> refers hs' l p.
Proof. exact reference_kept. Qed.
Print Assumptions C76_reference_kept.
(** After a call that throws, other than std::bad_alloc, every reference taken before it still names the value it named,
    unless the value is part of one that std::move inside the braces of the argument names. *)
Theorem C76_reference_survives : forall hs st c hs' e l p, sim hs st -> Forall tag_ok st -> legal hs c ->
  hexec c hs = HDone hs' (Throw e) -> e <> BadAlloc -> ~ spilled c l -> refers hs l p -> refers hs' l p.
Proof. exact reference_survives. Qed.
Print Assumptions C76_reference_survives.
(** a careful program that takes a reference at some point; calls may throw, and it goes on *)
Theorem C76_program : forall cs cs' hs hs' l p, Forall careful (cs ++ cs') -> careful_run (HS [] [] []) cs hs ->
  holding_run l hs cs' hs' -> refers hs l p -> refers hs' l p.
Proof. exact program_references. Qed.
Print Assumptions C76_program.
Example C76_case : Forall careful (two_program ++ hold_program) /\ careful_run (HS [] [] []) two_program two_heap /\
  (exists hs', holding_run held two_heap hold_program hs' /\ sim hs' hold_store) /\ exists p, refers two_heap held p.
Proof. exact (conj hold_careful (conj two_run (conj hold_run held_refers))). Qed.
(** not after every call: assigning to a value ends the references to its members *)
Example C76_ended : exists hs st c hs' l a k, sim hs st /\ Forall tag_ok st /\ Forall keys_ok st /\ legal hs c /\
  hexec c hs = HDone hs' (Ok tt) /\ refers hs l (Mem a k) /\ ~ live (hp hs') a.
Proof. exact dangles. Qed.
Example C76_spilled_ended : exists hs st c hs' l a k, sim hs st /\ Forall tag_ok st /\ Forall keys_ok st /\ legal hs c /\
  hexec c hs = HDone hs' (Throw JsonException) /\ refers hs l (Mem a k) /\ ~ live (hp hs') a.
Proof. exact spilled_dangles. Qed.
