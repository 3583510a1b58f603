(** * A program that moves and meets the hypotheses of the theorems on such programs; a moved-from
    number. *)
From Verif Require Import Base Value Spec Containers Dump Api SpecApi BaseProofs Heap SpecHeap SamplesApi HeapBase HeapProofs HeapTheorems HeapSafety SamplesHeap SpecMoves MovesProofs MovesTheorems.

Inductive tree_careful : store -> list cmd -> store -> Prop :=
| tf_nil st : tree_careful st [] st
| tf_step st c st1 r cs st2 : ready st c -> ~ misuse st c -> ~ moves_into_part c -> exec c st = Done st1 r -> r <> Ub -> tree_careful st1 cs st2 -> tree_careful st (c :: cs) st2.
Lemma tree_careful_run cs : forall hs st st', sim hs st -> fails hs = [] -> tree_careful st cs st' -> exists hs', careful_run hs cs hs' /\ sim hs' st'.
Proof.
  induction cs as [|c cs IH]; intros hs st st' S F H; inversion H as [|? ? st1 r ? ? Hn Hu Hm E NU H1]; subst; [exists hs; split; [constructor|auto]|].
  destruct (hexec_refines c hs st st1 r S (ready_refs st c Hn) Hm E NU) as (hs1 & r' & X & [(-> & S1 & _ & F1)|(_ & C & _)]); [|tauto].
  destruct (IH hs1 st1 st' S1 (F1 F) H1) as (hs2 & R & S2). exists hs2. split; auto. eapply cf_step; eauto.
Qed.
Lemma tree_careful_history cs : forall st st', tree_careful st cs st' -> history st cs st'.
Proof. induction cs as [|c cs IH]; intros st st' H; inversion H; subst; [constructor|]. econstructor; eauto. Qed.
(** v = {a: {a: 12}, b: [true, "a"]}; w = std::move(v[a]); v[a] = array{w[a], std::move(v[b])}; v[b].clear();
    v[a].emplace(std::move(w)); w = std::move(v[a]); x = w + std::move(w.as_array()) *)
Definition move_program : list cmd :=
  [CNew (EObj [(ka, EObj [(ka, ENum n12)]); (kb, EArr [EBool true; EStr ka])]);
   CNew (EMove (Loc 0 [Key ka]));
   CAssign (Loc 0 [Key ka]) (Tmp (EArr [ECopy (Loc 1 [Key ka]); EMove (Loc 0 [Key kb])]));
   CInvoke (Loc 0 [Key kb]) MClear;
   CEmplace (Loc 0 [Key ka]) (MRef (at_root 1));
   CAssign (at_root 1) (MRef (Loc 0 [Key ka]));
   CPlusNew (at_root 1) (at_root 1) false true].
Definition move_last : cmd := CAssign (Loc 0 [Key ka]) (CRef (at_root 2)).
Definition move_store : store :=
  Eval vm_compute in
  match (fold_left (fun o c => match o with Some st => match exec c st with Done st' _ => Some st' | Stuck => None end | None => None end) move_program (Some [])) with
  | Some st => st | None => [] end.
Ltac owns := repeat (first [apply ow_str|apply ow_arr|apply ow_obj|apply Forall_nil|apply Forall_cons|cbn [snd]]).
Ltac is_whole := eexists; split; [vm_compute; reflexivity|owns].
Ltac is_present := eexists; split; [vm_compute; reflexivity|exact Logic.I].
Ltac moves_once := unfold moved_once; cbn [expr_refs flat_map app fst snd]; repeat constructor; cbn; try (intros [|]; discriminate).
Ltac is_ready := cbn [ready arg_ready part_ready expr_ready deep]; unfold expr_ready;
  repeat (first [exact Logic.I|split]); try (vm_compute; discriminate); try is_whole; try is_present; try moves_once;
  try (intros (X & _); discriminate X); try (repeat constructor; is_whole); try (repeat constructor; vm_compute; reflexivity).
Lemma move_runs : tree_careful [] move_program move_store.
Proof.
  unfold move_program.
  repeat (first [apply tf_nil | eapply tf_step; [is_ready|no_misuse|not_moved|vm_compute; reflexivity|discriminate|]]).
Qed.
Lemma move_run : exists hs, careful_run (HS [] [] []) move_program hs /\ sim hs move_store.
Proof. exact (tree_careful_run _ _ _ _ (sim_empty []) eq_refl move_runs). Qed.
Lemma move_history : history [] move_program move_store.
Proof. exact (tree_careful_history _ _ _ move_runs). Qed.
Lemma move_careful : Forall careful (move_program ++ [move_last]).
Proof.
  repeat (first [apply Forall_cons|apply Forall_nil]); (split; [|split]); try (cbn; repeat constructor; discriminate);
    try (cbn; tauto); try (cbn; intros (X & s & p & Y); discriminate); try (cbn; discriminate).
Qed.
Lemma move_literals : Forall (cmd_literals scalar_text) move_program.
Proof.
  repeat (first [apply Forall_cons|apply Forall_nil]); cbn; auto;
    repeat (first [apply Forall_cons|apply Forall_nil|apply li_null|apply li_bool|apply li_num|apply li_str|apply li_copy|apply li_move|apply li_arr|apply li_obj]).
  right. right. left. split; [reflexivity|exact digits12].
Qed.
Lemma move_parts c : In c move_program -> cmd_literals (fun t _ => t <> Tarray /\ t <> Tobject) c /\ ~ copies_into_part c.
Proof.
  intros H. pose proof move_careful as C. rewrite Forall_forall in C. destruct (C c) as (A & B & _); [apply in_app_iff; now left|]. auto.
Qed.
Lemma move_tags : Forall (cmd_literals (fun t _ => t <> Tarray /\ t <> Tobject)) move_program.
Proof. rewrite Forall_forall. intros c H. apply (move_parts c H). Qed.
Lemma move_apart : Forall (fun c => ~ copies_into_part c) move_program.
Proof. rewrite Forall_forall. intros c H. apply (move_parts c H). Qed.
Lemma move_ready : ready move_store move_last /\ ~ misuse move_store move_last.
Proof. split; [unfold move_last; is_ready|cbn; tauto]. Qed.
(** the two arrays in the result were moved, not copied: one of them is left, without its contents *)
Lemma move_result : exists v w, read move_store (at_root 2) = Some v /\ no_leftover v /\ read move_store (at_root 1) = Some w /\ ~ owned w /\ present move_store (at_root 1).
Proof.
  eexists _, _. split; [vm_compute; reflexivity|]. split; [|split; [vm_compute; reflexivity|split; [|is_present]]].
  - repeat (first [apply nl_arr|apply nl_obj|apply Forall_cons|apply Forall_nil|apply nl_str; intros _; discriminate|apply nl_str; intros [X|X]; discriminate|cbn [snd]]).
  - intros O. inversion_clear O as [|? ? F|]. repeat match goal with H : Forall _ (_ :: _) |- _ => inversion_clear H end. match goal with H : owned (VArr _ None) |- _ => inversion H | H : owned (VObj _ None) |- _ => inversion H end.
Qed.
(** v = [[12], [true]]; v += std::move(v[0]); v[1] += v; w = {a: 12}; w |= w; w |= std::move(w) *)
Definition overlap_program : list cmd :=
  [CNew (EArr [EArr [ENum n12]; EArr [EBool true]]); CPlus (at_root 0) (Loc 0 [Idx 0]) true; CAssign (Loc 0 [Idx 0]) (Tmp ENull); CPlus (Loc 0 [Idx 1]) (at_root 0) false;
   CNew (EObj [(ka, ENum n12)]); COr (at_root 1) (at_root 1) false; COr (at_root 1) (at_root 1) true].
Definition overlap_store : store :=
  Eval vm_compute in
  match (fold_left (fun o c => match o with Some st => match exec c st with Done st' _ => Some st' | Stuck => None end | None => None end) overlap_program (Some [])) with
  | Some st => st | None => [] end.
Lemma overlap_runs : tree_careful [] overlap_program overlap_store.
Proof.
  unfold overlap_program.
  repeat (first [apply tf_nil | eapply tf_step; [is_ready
    |cbn [misuse]; try tauto; try discriminate; try (intros [(_ & s & p & X)|(_ & v & R & E)]; [discriminate X|vm_compute in R; injection R as <-; vm_compute in E; discriminate E])
    |cbn; try tauto; try (intros (_ & s & p & X); discriminate X)|vm_compute; reflexivity|discriminate|]]).
Qed.
Lemma overlap_careful : Forall careful overlap_program.
Proof.
  repeat (first [apply Forall_cons|apply Forall_nil]); (split; [|split]); try (cbn; repeat constructor; discriminate);
    try (cbn; tauto); try (cbn; intros (X & s & p & Y); discriminate); try (cbn; discriminate).
Qed.
Lemma overlap_run : exists hs, careful_run (HS [] [] []) overlap_program hs /\ sim hs overlap_store.
Proof. exact (tree_careful_run _ _ _ _ (sim_empty []) eq_refl overlap_runs). Qed.
(** value x = 12; value y = std::move(x); x.dumps() *)
Lemma moved_number_text : exists cs st v t, Forall (cmd_literals scalar_text) cs /\ Forall (fun c => ~ copies_into_part c) cs /\ history [] cs st /\ read st (at_root 0) = Some v /\ owned v /\
  dumps None v = Ok t /\ ~ exists j, gvalue ws gstring false t j.
Proof.
  exists [CNew (ENum n12); CNew (EMove (at_root 0))]. eexists. exists (VStr Tnumber []), []. refine (conj _ (conj _ (conj _ (conj _ (conj _ (conj _ _)))))).
  - repeat (first [apply Forall_cons|apply Forall_nil]); cbn; [apply li_num|apply li_move]. right. right. left. split; [reflexivity|exact digits12].
  - repeat constructor; cbn; tauto.
  - run_history.
  - reflexivity.
  - constructor.
  - reflexivity.
  - intros (j & G). inversion G as [| | |? Hn|? ? Hs| | | |]; subst.
    + inversion Hn as [m i f e Hm Hi Hf He E]. apply app_eq_nil in E as [_ E]. apply app_eq_nil in E as [E _]. destruct Hi; discriminate.
    + destruct Hs as (x & E & _). discriminate.
Qed.
Lemma move_owned : exists v, read move_store (at_root 2) = Some v /\ owned v.
Proof. is_whole. Qed.
