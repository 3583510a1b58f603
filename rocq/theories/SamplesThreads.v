(** * Two threads that share a variable neither of them changes. *)
From Verif Require Import Base Value Containers Dump Api SpecApi Heap SpecHeap SpecThreads SamplesApi SamplesHeap.
From Coq Require Import Lia.

(** variable 0 is shared, 1 and 2 belong to one thread each *)
Definition shared_store : store := [v_object [(ka, v_number n12)]; v_null; v_array []].
(** x["a"] = shared; value y = x; y.clear() *)
Definition first_thread : thread := Thread [1; 0]%nat
  [CEmplaceKey (at_root 0) ka (CRef (at_root 1)); CNew (ECopy (at_root 0)); CInvoke (at_root 2) MClear] [].
(** value z = shared; w.emplace(std::move(z)); shared == w *)
Definition second_thread : thread := Thread [2; 0]%nat
  [CNew (ECopy (at_root 1)); CEmplace (at_root 0) (MRef (at_root 2)); CEq (at_root 1) (at_root 0)] [].
Definition both : list thread := [first_thread; second_thread].
Lemma both_placed : placed shared_store both.
Proof.
  repeat constructor; cbn; try (intros [H|[]]; discriminate H); try (intros []); lia.
Qed.
Lemma both_race_free : race_free both.
Proof.
  intros i j t u k N Hi Hj Hk Lk.
  assert (Ci : (i = 0 \/ i = 1)%nat) by (assert (i < 2)%nat by (apply nth_error_Some with (l := both); congruence); lia).
  assert (Cj : (j = 0 \/ j = 1)%nat) by (assert (j < 2)%nat by (apply nth_error_Some with (l := both); congruence); lia).
  destruct Ci as [-> | ->], Cj as [-> | ->]; try congruence; cbn in Hi, Hj; injection Hi as <-; injection Hj as <-; cbn in *;
    repeat (destruct Hk as [<-|Hk]; [cbn in *; try lia; intros [H|[H|[]]]; discriminate H|]); contradiction.
Qed.
(** the threads take turns *)
Definition shared_after : store := [v_object [(ka, v_number n12)]; v_object [(ka, v_object [(ka, v_number n12)])]; v_array [v_object [(ka, v_number n12)]];
  VObj Tobject None; v_null].
Definition both_after : list thread := [Thread [1; 0; 4]%nat [] [Ok tt; Ok tt; Ok tt]; Thread [2; 0; 3]%nat [] [Ok tt; Ok tt; Ok tt]].
Lemma uses_known n l : forallb (fun i => Nat.ltb i n) l = true -> Forall (fun i => i < n)%nat l.
Proof. intros H. apply Forall_forall. intros i Hi. apply Nat.ltb_lt. exact (proj1 (forallb_forall _ _) H i Hi). Qed.
Lemma both_turns : turns shared_store both shared_after both_after.
Proof.
  eapply ts_turn; [apply (tu_step _ []); [apply uses_known; reflexivity|vm_compute; reflexivity]|].
  eapply ts_turn; [apply (tu_step _ [_]); [apply uses_known; reflexivity|vm_compute; reflexivity]|].
  eapply ts_turn; [apply (tu_step _ []); [apply uses_known; reflexivity|vm_compute; reflexivity]|].
  eapply ts_turn; [apply (tu_step _ [_]); [apply uses_known; reflexivity|vm_compute; reflexivity]|].
  eapply ts_turn; [apply (tu_step _ [_]); [apply uses_known; reflexivity|vm_compute; reflexivity]|].
  eapply ts_turn; [apply (tu_step _ []); [apply uses_known; reflexivity|vm_compute; reflexivity]|].
  apply ts_done.
Qed.
(** w.emplace(true) on the heap of [two_store]: the nodes of the other variable are not touched *)
Definition touch : cmd := CEmplace (at_root 1) (Tmp (EBool true)).
Lemma touch_case : sim two_heap two_store /\ names_exist two_store touch /\ ~ moves_into_part touch /\ (exists st', exec touch two_store = Done st' (Ok tt)) /\ fails two_heap = [] /\
  uses touch = [1%nat] /\ exists a, live (hp two_heap) a.
Proof.
  split; [exact (two_sim [])|]. split; [repeat constructor; cbn; discriminate|]. split; [intros []|]. split; [eexists; vm_compute; reflexivity|]. split; [reflexivity|].
  split; [reflexivity|]. exists 4%nat. eexists. vm_compute. reflexivity.
Qed.
