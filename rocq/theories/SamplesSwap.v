(** * Concrete cases for the properties of swaps. *)
From Coq Require Import Permutation.
From Verif Require Import Base Value Spec Containers Dump Api SpecApi SpecEffects SpecHeap SpecRefs BaseProofs EffectProofs Heap HeapBase HeapOps HeapProofs Swap SpecSwap SamplesApi SamplesHeap.

Definition three : list value := [v_number n12; v_object [(ka, v_array [])]; v_string ka].
Definition three_store : store := [v_null; v_object [(kb, v_array three)]].
Definition three_at : loc := Loc 1 [Key kb].
Lemma three_found : found three_store three_at (v_array three).
Proof. apply puts_read. vm_compute. reflexivity. Qed.
Lemma three_apart : ForallOrdPairs apart [element three_at 2; at_root 0; element three_at 0] /\
  Forall2 (found three_store) [element three_at 2; at_root 0; element three_at 0] [v_string ka; v_null; v_number n12].
Proof. split; repeat constructor; apply puts_read; vm_compute; reflexivity. Qed.
(** the heap with a variable that holds the object whose member is swapped with another variable *)
Definition two_places : list loc := [Loc 0 [Key ka]; at_root 1].
Lemma two_apart : ForallOrdPairs apart two_places /\ (exists xs, Forall2 (found two_store) two_places xs) /\
  forall fl, exists ps p, Forall2 (refers (two_heap_failing fl)) two_places ps /\ refers (two_heap_failing fl) (under (Loc 0 [Key ka]) [Key ka]) p /\ ~ part_of two_places (Loc 0 [Key kb]).
Proof.
  split; [repeat constructor|]. split.
  - eexists. repeat constructor; apply puts_read; vm_compute; reflexivity.
  - intros fl. eexists _, _. split; [repeat constructor; eexists; vm_compute; reflexivity|]. split; [eexists; vm_compute; reflexivity|].
    intros (w & [<-|[<-|[]]] & Hs & s & r & E); cbn in *; discriminate.
Qed.
(** std::swap(v, v[k]) *)
Lemma swap_with_part_leaks : exists hs st a b pa pb hs' hs'', sim hs st /\ Forall sound st /\ fails hs = [] /\ strictly_inside a b /\ refers hs a pa /\ refers hs b pb /\
  h_swap pa pb hs = HDone hs' (Ok tt) /\ drop_n (length (roots hs')) hs' = HDone hs'' (Ok tt) /\ roots hs'' = [] /\ exists a, live (hp hs'') a.
Proof.
  eexists (two_heap_failing []), two_store, (at_root 0), (Loc 0 [Key ka]), _, _, _, _. split; [apply two_sim|]. split; [exact two_wf|]. split; [reflexivity|].
  split; [split; [reflexivity|exists (Key ka), []; reflexivity]|]. split; [eexists; vm_compute; reflexivity|]. split; [eexists; vm_compute; reflexivity|].
  split; [vm_compute; reflexivity|]. split; [vm_compute; reflexivity|]. split; [reflexivity|]. exists 4%nat. eexists. reflexivity.
Qed.
