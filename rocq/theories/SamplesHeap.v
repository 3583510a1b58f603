(** * Concrete heaps and programs that meet the hypotheses of the theorems on the heap, and
    the ones that refute the stronger statements. *)
From Verif Require Import Base Value Spec Containers Dump Api SpecApi BaseProofs Heap SpecHeap SamplesApi HeapBase HeapOps HeapProofs HeapTheorems HeapSafety.

Ltac refs_ok := repeat constructor; vm_compute; discriminate.
Ltac not_moved := vm_compute; let H := fresh in intros H; first [exact H | discriminate H | destruct H as (_ & ? & ? & H); discriminate H].
Ltac run_sound := repeat (first [apply sh_nil | eapply sh_step; [refs_ok|not_moved|vm_compute; reflexivity|discriminate|]]).
Lemma sample_sound : sound_history [] sample_history sample_store.
Proof. unfold sample_history. run_sound. Qed.
(** moves, erasures, an exception *)
Definition heap_program : list cmd :=
  [CNew (EObj [(ka, EObj [(ka, ENum n12)]); (kb, EArr [EBool true; EStr ka])]);
   CNew (ECopy (at_root 0));
   CAssign (at_root 1) (MRef (Loc 1 [Key ka]));
   CInvoke (at_root 1) MAsArray;
   CEmplace (Loc 0 [Key kb]) (MRef (at_root 1));
   CInvoke (Loc 0 [Key kb]) (MErasePos 0);
   CInvoke (at_root 1) MClear;
   COrNew (at_root 0) (Loc 0 [Key ka]) false false;
   CPlus (at_root 1) (Loc 0 [Key kb]) true;
   CPlusNew (at_root 1) (Loc 0 [Key kb]) true true].
Definition heap_program_store : store :=
  Eval vm_compute in
  match (fold_left (fun o c => match o with Some st => match exec c st with Done st' _ => Some st' | Stuck => None end | None => None end) heap_program (Some [])) with
  | Some st => st | None => [] end.
Lemma heap_program_sound : sound_history [] heap_program heap_program_store.
Proof. unfold heap_program. run_sound. Qed.
Lemma heap_program_legal : exists hs, legal_run (HS [] [] []) heap_program hs /\ sim hs heap_program_store.
Proof. exact (sound_legal _ _ _ _ (sim_empty []) eq_refl heap_program_sound). Qed.

(** a heap with two variables, {a: {a: 12}, b: []} and null *)
Definition two_program : list cmd := [CNew (EObj [(ka, EObj [(ka, ENum n12)]); (kb, EArr [])]); CNew ENull].
Definition run_cmds (cs : list cmd) (hs : hstate) : hstate :=
  fold_left (fun hs c => match hexec c hs with HDone hs' _ => hs' | HStuck => hs end) cs hs.
Definition two_heap : hstate := Eval vm_compute in run_cmds two_program (HS [] [] []).
Definition two_store : store := [v_object [(ka, v_object [(ka, v_number n12)]); (kb, v_array [])]; v_null].
Definition two_heap_failing (fl : list bool) : hstate := HS (roots two_heap) (hp two_heap) fl.
Lemma two_sim fl : sim (two_heap_failing fl) two_store.
Proof.
  assert (R : exists hs, hhistory (HS [] [] []) two_program hs /\ sim hs two_store /\ fails hs = []).
  { apply (heap_follows _ _ [] _ (sim_empty []) eq_refl). unfold two_program. run_sound. }
  destruct R as (hs & H & S & _). unfold two_program in H. inversion H as [|? ? hs1 r1 ? ? E1 N1 H1]; subst. vm_compute in E1. injection E1 as <- <-.
  inversion H1 as [|? ? hs2 r2 ? ? E2 N2 H2]; subst. vm_compute in E2. injection E2 as <- <-. inversion H2; subst. exact S.
Qed.
Lemma two_wf : Forall sound two_store.
Proof.
  repeat (apply Forall_cons || apply Forall_nil); (split; [|split]); repeat constructor; discriminate.
Qed.
(** the first allocation of a command fails *)
Definition fail_now : list bool := [true].
(** what is left: the tag has changed, the payload has not *)
Definition two_after (t : vtype) : hstate := HS [HObj Tobject (Some 4%nat); HStr t []] (hp two_heap) [].
Definition two_store_after (t : vtype) : store := [v_object [(ka, v_object [(ka, v_number n12)]); (kb, v_array [])]; VStr t []].
Lemma two_after_sim t : sim (two_after t) (two_store_after t).
Proof.
  exists [4%nat; 2%nat; 3%nat]. split; [|split].
  - apply (ho_cons _ _ _ [4; 2; 3]%nat _ _ []); [|apply (ho_cons _ _ _ [] _ _ []); constructor].
    eapply ho_obj; [reflexivity|reflexivity|]. apply (ho_cons _ _ _ [2]%nat _ _ [3]%nat).
    + eapply ho_obj; [reflexivity|reflexivity|]. apply (ho_cons _ _ _ [] _ _ []); constructor.
    + apply (ho_cons _ _ _ [3]%nat _ _ []); [|constructor]. eapply ho_arr; [reflexivity|constructor].
  - repeat constructor; cbn; intuition discriminate.
  - intros a (n & H). cbn in H. do 5 (destruct a as [|a]; [cbn in *; try discriminate; tauto|]). destruct a; discriminate.
Qed.
Lemma two_after_bad t : t = Tarray \/ t = Tobject -> ~ Forall tag_ok (two_store_after t).
Proof. intros Ht H. inversion H as [|? ? _ H1]; subst. inversion H1 as [|? ? H2 _]; subst. inversion H2; subst. destruct Ht; congruence. Qed.
Lemma two_legal c : refs_valid two_store c -> ~ moves_into_part c -> (exists st' r, exec c two_store = Done st' r /\ r <> Ub) -> forall fl, legal (two_heap_failing fl) c.
Proof. intros A B (st' & r & C & D) fl. exists two_store, st', r. repeat split; auto. apply two_sim. Qed.
Ltac legal_two := apply two_legal; [refs_ok|not_moved|eexists _, _; split; [vm_compute; reflexivity|discriminate]].
Lemma tag_lost c t : (forall fl, legal (two_heap_failing fl) c) -> t = Tarray \/ t = Tobject -> hexec c (two_heap_failing fail_now) = HDone (two_after t) (Throw BadAlloc) ->
  tag_lost_by c.
Proof.
  intros L Ht E. exists (two_heap_failing fail_now), two_store, (two_after t), (two_store_after t). repeat split; auto using two_sim, two_wf, two_after_sim, two_after_bad.
Qed.
Lemma as_array_loses : exists l, tag_lost_by (CInvoke l MAsArray).
Proof. exists (at_root 1). apply (tag_lost _ Tarray); [legal_two|now left|vm_compute; reflexivity]. Qed.
Lemma as_object_loses : exists l, tag_lost_by (CInvoke l MAsObject).
Proof. exists (at_root 1). apply (tag_lost _ Tobject); [legal_two|now right|vm_compute; reflexivity]. Qed.
Lemma index_loses : exists l k, tag_lost_by (CInvoke l (MIndexKey k)).
Proof. exists (at_root 1), ka. apply (tag_lost _ Tobject); [legal_two|now right|vm_compute; reflexivity]. Qed.
Lemma assign_loses : exists dst src, tag_lost_by (CAssign dst (CRef src)).
Proof. exists (at_root 1), (at_root 0). apply (tag_lost _ Tobject); [legal_two|now right|vm_compute; reflexivity]. Qed.
(** v = std::move(v[k]) where v is an object and v[k] an array *)
Lemma move_from_part_ub : exists hs st dst src hs', sim hs st /\ Forall sound st /\ refs_valid st (CAssign dst (MRef src)) /\
  strictly_inside dst src /\ fails hs = [] /\ hexec (CAssign dst (MRef src)) hs = HDone hs' Ub.
Proof.
  eexists (two_heap_failing []), two_store, (at_root 0), (Loc 0 [Key kb]), _. split; [apply two_sim|]. split; [exact two_wf|]. split; [refs_ok|]. split; [split; [reflexivity|exists (Key kb), []; reflexivity]|]. split; [reflexivity|].
  vm_compute. reflexivity.
Qed.
(** v[k] = std::move(v): the object owns itself *)
Lemma move_into_part_leaks : exists hs st c hs' hs'', sim hs st /\ Forall sound st /\ refs_valid st c /\ fails hs = [] /\
  hexec c hs = HDone hs' (Ok tt) /\ drop_n (length (roots hs')) hs' = HDone hs'' (Ok tt) /\ roots hs'' = [] /\ exists a, live (hp hs'') a.
Proof.
  eexists (two_heap_failing []), two_store, (CAssign (Loc 0 [Key kb]) (MRef (at_root 0))), _, _. split; [apply two_sim|]. split; [exact two_wf|]. split; [refs_ok|]. split; [reflexivity|].
  split; [vm_compute; reflexivity|]. split; [vm_compute; reflexivity|]. split; [reflexivity|]. exists 4%nat. eexists. reflexivity.
Qed.
(** a program that moves nothing *)
Inductive tree_clean : store -> list cmd -> store -> Prop :=
| tc_nil st : tree_clean st [] st
| tc_step st c st1 r cs st2 : names_exist st c -> ~ misuse st c -> ~ moves_into_part c -> exec c st = Done st1 r -> r <> Ub -> tree_clean st1 cs st2 -> tree_clean st (c :: cs) st2.
Lemma tree_clean_run cs : forall hs st st', sim hs st -> fails hs = [] -> tree_clean st cs st' -> exists hs', clean_run hs cs hs' /\ sim hs' st'.
Proof.
  induction cs as [|c cs IH]; intros hs st st' S F H; inversion H as [|? ? st1 r ? ? Hn Hu Hm E NU H1]; subst; [exists hs; split; [constructor|auto]|].
  assert (Hr : refs_valid st c). { unfold names_exist in Hn. apply Forall_app in Hn. apply Hn. }
  destruct (hexec_refines c hs st st1 r S Hr Hm E NU) as (hs1 & r' & X & [(-> & S1 & _ & F1)|(_ & C & _)]); [|tauto].
  destruct (IH hs1 st1 st' S1 (F1 F) H1) as (hs2 & R & S2). exists hs2. split; auto. eapply cr_step; eauto.
Qed.
Ltac no_misuse := cbn; try tauto; try discriminate; intros H; repeat (destruct H as [H|H]); try (destruct H as (H & ? & ? & H')); try (destruct H as (H & H')); discriminate.
Lemma sample_clean : tree_clean [] sample_history sample_store.
Proof.
  unfold sample_history. repeat (first [apply tc_nil | eapply tc_step; [repeat constructor; vm_compute; discriminate|no_misuse|not_moved|vm_compute; reflexivity|discriminate|]]).
Qed.
Lemma sample_clean_run : exists hs, clean_run (HS [] [] []) sample_history hs /\ sim hs sample_store.
Proof. exact (tree_clean_run _ _ _ _ (sim_empty []) eq_refl sample_clean). Qed.
Lemma sample_moves_nothing : Forall moves_nothing (sample_history ++ [CEq (at_root 0) (at_root 1)]).
Proof.
  apply Forall_app. split.
  - rewrite Forall_forall. intros c Hc. pose proof sample_history_tags as A. pose proof sample_history_no_move as B. pose proof sample_history_apart as C.
    rewrite Forall_forall in *. split; auto.
  - repeat constructor. cbn. tauto.
Qed.
Lemma sample_last : names_exist sample_store (CEq (at_root 0) (at_root 1)) /\ ~ misuse sample_store (CEq (at_root 0) (at_root 1)).
Proof. split; [repeat constructor; vm_compute; discriminate|cbn; tauto]. Qed.
(** programs on a copy *)
Definition copy_program : list cmd :=
  [CAssign (at_root 1) (CRef (Loc 0 [Key ka])); CInvoke (at_root 1) (MEraseKey ka); CEmplace (Loc 0 [Key kb]) (MRef (at_root 1))].
Lemma copy_program_case : sim two_heap two_store /\ (exists hs', legal_run two_heap copy_program hs') /\
  Forall (fun c => Forall (apart (Loc 0 [Key ka])) (targets c)) copy_program /\ (exists v, read two_store (Loc 0 [Key ka]) = Some v).
Proof.
  split; [apply (two_sim [])|]. split; [|split].
  - assert (H : exists st', sound_history two_store copy_program st') by (eexists; unfold copy_program; run_sound).
    destruct H as (st' & H). destruct (sound_legal _ _ _ _ (two_sim []) eq_refl H) as (hs' & R & _). exists hs'. exact R.
  - repeat constructor.
  - eexists. vm_compute. reflexivity.
Qed.
Lemma copy_into_part_differs : exists hs st dst src w hs' st', sim hs st /\ Forall sound st /\ read st dst <> None /\ read st src = Some w /\ fails hs = [] /\
  hexec (CAssign dst (CRef src)) hs = HDone hs' (Ok tt) /\ sim hs' st' /\ read st' dst <> Some w.
Proof.
  assert (E : exists st', exec (CAssign (Loc 0 [Key kb]) (CRef (at_root 0))) two_store = Done st' (Ok tt) /\ read st' (Loc 0 [Key kb]) <> read two_store (at_root 0)).
  { eexists. split; [vm_compute; reflexivity|]. vm_compute. discriminate. }
  destruct E as (st' & E & N).
  destruct (hexec_refines (CAssign (Loc 0 [Key kb]) (CRef (at_root 0))) (two_heap_failing []) two_store st' (Ok tt) (two_sim [])) as (hs' & r & X & [(-> & S & _)|(_ & C & _)]).
  - refs_ok.
  - not_moved.
  - exact E.
  - discriminate.
  - eexists _, two_store, _, (at_root 0), _, hs', st'. split; [apply (two_sim [])|]. split; [exact two_wf|]. split; [|split; [reflexivity|split; [reflexivity|split; [exact X|split; [exact S|exact N]]]]].
    vm_compute. discriminate.
  - destruct (C eq_refl).
Qed.
Lemma failing_cases :
  (legal (two_heap_failing fail_now) (CInvoke (at_root 1) MAsArray) /\ exists hs', hexec (CInvoke (at_root 1) MAsArray) (two_heap_failing fail_now) = HDone hs' (Throw BadAlloc)) /\
  (legal (two_heap_failing fail_now) (CInvoke (at_root 1) MAsObject) /\ exists hs', hexec (CInvoke (at_root 1) MAsObject) (two_heap_failing fail_now) = HDone hs' (Throw BadAlloc)) /\
  (exists hs', hexec (CAssign (at_root 1) (CRef (at_root 0))) (two_heap_failing [false; true]) = HDone hs' (Throw BadAlloc)) /\
  (legal (two_heap_failing [false; true]) (CNew (ECopy (at_root 0))) /\ exists hs', hexec (CNew (ECopy (at_root 0))) (two_heap_failing [false; true]) = HDone hs' (Throw BadAlloc)).
Proof.
  split; [split; [legal_two|eexists; vm_compute; reflexivity]|]. split; [split; [legal_two|eexists; vm_compute; reflexivity]|].
  split; [eexists; vm_compute; reflexivity|split; [legal_two|eexists; vm_compute; reflexivity]].
Qed.

(** operator| and operator+ with overlapping operands; in the last two the loop makes an object
    (array) its own member for a while, a case [moves_into_part] excludes from the theorems *)
Definition join_programs : list (list cmd) :=
  let o := EObj [(ka, EObj [(ka, ENum n12); (kb, ENull)]); (kb, EArr [EArr [ENull]; EBool true])] in
  [[CNew o; COrNew (at_root 0) (Loc 0 [Key ka]) false false];
   [CNew o; COrNew (Loc 0 [Key ka]) (at_root 0) false false];
   [CNew o; COrNew (at_root 0) (Loc 0 [Key ka]) false true];
   [CNew o; COrNew (at_root 0) (at_root 0) false true];
   [CNew o; COrNew (Loc 0 [Key ka]) (at_root 0) true false];
   [CNew o; CPlusNew (Loc 0 [Key kb; Idx 0]) (Loc 0 [Key kb]) false true];
   [CNew o; CPlusNew (Loc 0 [Key kb]) (Loc 0 [Key kb; Idx 0]) true true];
   [CNew o; COrNew (Loc 0 [Key ka]) (at_root 0) true true];
   [CNew o; CPlusNew (Loc 0 [Key kb; Idx 0]) (Loc 0 [Key kb]) true true]].
Definition run_store (cs : list cmd) : option store :=
  fold_left (fun o c => match o with Some st => match exec c st with Done st' (Ok _) => Some st' | _ => None end | None => None end) cs (Some []).
Definition run_heap (cs : list cmd) : option hstate :=
  fold_left (fun o c => match o with Some hs => match hexec c hs with HDone hs' (Ok _) => Some hs' | _ => None end | None => None end) cs (Some (HS [] [] [])).
Definition run_values (cs : list cmd) : option store :=
  match run_heap cs with
  | Some hs => match load_each (h_load (length (hp hs))) (roots hs) hs with HDone _ (Ok l) => Some l | _ => None end
  | None => None
  end.
Definition run_left (cs : list cmd) : option (list node) :=
  match run_heap cs with
  | Some hs =>
      match drop_n (length (roots hs)) hs with
      | HDone hs' (Ok _) => Some (flat_map (fun o => match o with Some n => [n] | None => [] end) (hp hs'))
      | _ => None
      end
  | None => None
  end.
