(** * A program that keeps a reference, and one whose reference dangles. *)
From Verif Require Import Base Value Spec Containers Dump Api SpecApi BaseProofs Heap SpecHeap SamplesApi HeapBase HeapProofs HeapTheorems HeapSafety SamplesHeap SpecMoves MovesProofs MovesTheorems SamplesMoves SpecRefs RefsTheorems.

(** v = {a: {a: 12}, b: []}; w = null; auto& r = v[a][a]; v[b].emplace(true); w = v; v[kc]; v[b].emplace(std::move(w));
    v.erase(b); v |= {b: 12}; 
    try { v[a][a].emplace(array{std::move(v[b])}) } catch (...) {}; try { u += std::move(v) } catch (...) {}, u the object {b: 12} *)
Definition kc : bytes := [99].
Definition hold_program : list cmd :=
  [CEmplace (Loc 0 [Key kb]) (Tmp (EBool true)); CAssign (at_root 1) (CRef (at_root 0)); CInvoke (at_root 0) (MIndexKey kc);
   CEmplace (Loc 0 [Key kb]) (MRef (at_root 1)); CInvoke (Loc 0 [Key kb]) (MErasePos 0); CInvoke (at_root 0) (MEraseKey kb);
   CNew (EObj [(kb, ENum n12)]); COr (at_root 0) (at_root 2) true; CEmplace (Loc 0 [Key ka; Key ka]) (Tmp (EArr [EMove (Loc 0 [Key kb])])); CPlus (at_root 2) (at_root 0) true].
Definition held : loc := Loc 0 [Key ka; Key ka].
Inductive tree_holding (l : loc) : store -> list cmd -> store -> Prop :=
| th_nil st : tree_holding l st [] st
| th_step st c r st1 cs st2 : ready st c -> ~ misuse st c -> ~ moves_into_part c -> exec c st = Done st1 r -> r <> Ub -> ~ ended st c r l -> tree_holding l st1 cs st2 -> tree_holding l st (c :: cs) st2.
Lemma tree_holding_run l cs : forall hs st st', sim hs st -> fails hs = [] -> tree_holding l st cs st' -> exists hs', holding_run l hs cs hs' /\ sim hs' st'.
Proof.
  induction cs as [|c cs IH]; intros hs st st' S F H; inversion H as [|? ? r st1 ? ? Hn Hu Hm E Nr Hd H1]; subst; [exists hs; split; [constructor|auto]|].
  destruct (hexec_refines c hs st st1 r S (ready_refs st c Hn) Hm E Nr) as (hs1 & r' & X & [(-> & S1 & _ & F1)|(_ & C & _)]); [|tauto].
  destruct (IH hs1 st1 st' S1 (F1 F) H1) as (hs2 & R & S2). exists hs2. split; auto. eapply hr_step; eauto.
Qed.
Definition hold_store : store :=
  Eval vm_compute in
  match (fold_left (fun o c => match o with Some st => match exec c st with Done st' _ => Some st' | Stuck => None end | None => None end) hold_program (Some two_store)) with
  | Some st => st | None => [] end.
Ltac not_doomed := vm_compute; let H := fresh in intros H; repeat match goal with
  | H : _ \/ _ |- _ => destruct H as [H|H] | H : exists _, _ |- _ => destruct H as (? & H) | H : _ /\ _ |- _ => let H' := fresh in destruct H as [H' H]
  | H : False |- _ => destruct H | H : _ = _ |- _ => discriminate H | H : {| slot := _; steps := _ |} = _ |- _ => subst end; auto.
Ltac not_doomed_or := intros (k & v & R & [(_ & s & q & E)|(_ & E & _)]); [cbn in E; injection E as <- <- <-; vm_compute in R; discriminate R|discriminate E].
Lemma hold_runs : tree_holding held two_store hold_program hold_store.
Proof.
  unfold hold_program. repeat (first [apply th_nil | eapply th_step; [is_ready|no_misuse|not_moved|vm_compute; reflexivity|discriminate|first [not_doomed_or|solve [not_doomed]]|]]).
Qed.
Lemma hold_run : exists hs', holding_run held two_heap hold_program hs' /\ sim hs' hold_store.
Proof. exact (tree_holding_run _ _ two_heap _ _ (two_sim []) eq_refl hold_runs). Qed.
Lemma two_runs : tree_careful [] two_program two_store.
Proof.
  unfold two_program.
  repeat (first [apply tf_nil | eapply tf_step; [is_ready|no_misuse|not_moved|vm_compute; reflexivity|discriminate|]]).
Qed.
Lemma two_run : careful_run (HS [] [] []) two_program two_heap.
Proof.
  destruct (tree_careful_run _ _ _ _ (sim_empty []) eq_refl two_runs) as (hs & R & _). unfold two_program in R.
  inversion R as [|? ? ? ? ? ? ? S0 R0 M0 E0 R1]; subst. vm_compute in E0. injection E0 as <- <-.
  inversion R1 as [|? ? ? ? ? ? ? S1 R1' M1 E1 R2]; subst. vm_compute in E1. injection E1 as <- <-. inversion R2; subst. exact R.
Qed.
Lemma hold_careful : Forall careful (two_program ++ hold_program).
Proof.
  repeat (first [apply Forall_cons|apply Forall_nil]); (split; [|split]); try (cbn; repeat constructor; discriminate);
    try (cbn; tauto); try (cbn; intros (X & s & p & Y); discriminate); try (cbn; discriminate).
Qed.
Lemma held_refers : exists p, refers two_heap held p.
Proof. eexists. eexists. vm_compute. reflexivity. Qed.
(** v = {a: {a: 12}, b: []}; auto& r = v[a]; v = null: r refers to a member of a map that is no more *)
Lemma dangles : exists hs st c hs' l a k, sim hs st /\ Forall tag_ok st /\ Forall keys_ok st /\ legal hs c /\ hexec c hs = HDone hs' (Ok tt) /\
  refers hs l (Mem a k) /\ ~ live (hp hs') a.
Proof.
  exists two_heap, two_store, (CAssign (at_root 0) (Tmp ENull)). eexists. exists (Loc 0 [Key ka]). eexists _, _.
  split; [exact (two_sim [])|]. split; [eapply Forall_impl; [|exact two_wf]; intros v (H & _); exact H|]. split; [eapply Forall_impl; [|exact two_wf]; intros v (_ & _ & H); exact H|].
  split. { exists two_store. eexists _, _. split; [exact (two_sim [])|]. split; [refs_ok|]. split; [not_moved|]. split; [vm_compute; reflexivity|discriminate]. }
  split; [vm_compute; reflexivity|]. split; [eexists; vm_compute; reflexivity|]. intros (n & H). vm_compute in H. discriminate H.
Qed.
(** v = {a: {a: 12}, b: []}; auto& r = v[a][a]; try { v.emplace(array{std::move(v[a])}) } catch (...) {}: the call
    throws, and r refers to a member of the map that the temporary took and freed *)
Lemma spilled_dangles : exists hs st c hs' l a k, sim hs st /\ Forall tag_ok st /\ Forall keys_ok st /\ legal hs c /\ hexec c hs = HDone hs' (Throw JsonException) /\
  refers hs l (Mem a k) /\ ~ live (hp hs') a.
Proof.
  exists two_heap, two_store, (CEmplace (at_root 0) (Tmp (EArr [EMove (Loc 0 [Key ka])]))). eexists. exists (Loc 0 [Key ka; Key ka]). eexists _, _.
  split; [exact (two_sim [])|]. split; [eapply Forall_impl; [|exact two_wf]; intros v (H & _); exact H|]. split; [eapply Forall_impl; [|exact two_wf]; intros v (_ & _ & H); exact H|].
  split. { exists two_store. eexists _, _. split; [exact (two_sim [])|]. split; [refs_ok|]. split; [not_moved|]. split; [vm_compute; reflexivity|discriminate]. }
  split; [vm_compute; reflexivity|]. split; [eexists; vm_compute; reflexivity|]. intros (n & H). vm_compute in H. discriminate H.
Qed.
