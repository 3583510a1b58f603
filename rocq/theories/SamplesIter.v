(** * Cases for C80 *)
From Verif Require Import Base Value Spec Containers BaseProofs Iter SpecIter IterProofs.
Lemma iter_array_iterator_case : exists v',
  v_run [VErase 2; VPush false v_null; VSet 0 (v_bool true)] (Vec [v_null; v_null; v_null] []) = Ok v' /\
  ~ v_ended [VErase 2; VPush false v_null; VSet 0 (v_bool true)] (Vec [v_null; v_null; v_null] []) 1 /\
  v_ended [VErase 2; VPush false v_null; VSet 0 (v_bool true)] (Vec [v_null; v_null; v_null] []) 2.
Proof. eexists. split; [vm_compute; reflexivity|]. cbn. split; [|lia]. intros H. destruct H as [H|[H|H]]; [lia| |tauto]. destruct H as [H|H]; [discriminate|lia]. Qed.
Lemma iter_object_iterator_case : let m := OMap [(of_string "a", v_null); (of_string "b", v_null)] [] in
  sorted_keys (members m) /\ (forall o, In o [OErase (of_string "a"); OEmplace (of_string "b") (v_bool true)] -> ~ o_ends (of_string "b") o) /\
  o_deref (o_run [OErase (of_string "a"); OEmplace (of_string "b") (v_bool true)] m) (o_at (of_string "b") m) = Ok (of_string "b", v_bool true) /\
  o_deref (o_run [OErase (of_string "b"); OEmplace (of_string "b") (v_bool true)] m) (o_at (of_string "b") m) = Ub.
Proof.
  cbv zeta. split; [|split; [|split; vm_compute; reflexivity]].
  - repeat constructor.
  - intros o [<-|[<-|[]]]; vm_compute; [discriminate|auto].
Qed.
Lemma iter_erase_case : let p := is_null in let v := Vec [v_null; v_null; v_bool true] [] in
  (exists v', v_prune 4 p v 0 = Ok v' /\ items v' = [v_bool true]) /\ v_sweep 4 p v (v_begin v) = Ub /\ ~ spaced p (items v) /\
  (exists v', v_skim 4 p v 0 = Ok v' /\ items v' = [v_null; v_bool true]).
Proof.
  cbv zeta. split; [eexists; split; vm_compute; reflexivity|]. split; [vm_compute; reflexivity|]. split; [|eexists; split; vm_compute; reflexivity].
  intros H. inversion H as [| |? ? ? [Q|Q] _]; vm_compute in Q; discriminate.
Qed.
Lemma iter_grow_case : sorted_keys [(of_string "a", v_null)] /\ [(of_string "a", v_null)] <> [].
Proof. split; [constructor|discriminate]. Qed.
Lemma iter_same_case : exists v', v_erase_iter (VIt 0 0) (Vec [v_null] []) = Ok (v', true).
Proof. eexists. vm_compute. reflexivity. Qed.
