(** * Concrete histories and operation sequences that meet the hypotheses of the theorems on containers. *)
From Verif Require Import Base Value Containers Dump Api Spec SpecApi BaseProofs ContainerProofs.

Definition ka := of_string "a".
Definition kb := of_string "b".
Definition n12 := of_string "12".
Definition at_root (n : nat) : loc := Loc n [].
(** no moves *)
Definition sample_history : list cmd :=
  [CNew (EObj [(ka, ENum n12); (kb, EArr [EBool true; EStr ka])]);
   CNew ENull;
   CEmplaceKey (at_root 1) ka (CRef (Loc 0 [Key kb]));
   CInvoke (at_root 1) (MIndexKey kb);
   CAssign (Loc 0 [Key ka]) (CRef (at_root 1));
   CPlus (Loc 0 [Key ka; Key ka]) (Loc 0 [Key kb]) false;
   COr (at_root 1) (at_root 0) false;
   CEmplace (Loc 1 [Key kb; Idx 1]) (Tmp ENull);
   CEmplace (Loc 1 [Key kb]) (Tmp (ECopy (at_root 0)))].
Definition sample_store : store :=
  Eval vm_compute in
  match (fold_left (fun o c => match o with Some st => match exec c st with Done st' _ => Some st' | Stuck => None end | None => None end) sample_history (Some [])) with
  | Some st => st | None => [] end.
Ltac run_history := repeat (first [apply h_nil | eapply h_ok; [vm_compute; reflexivity|discriminate|]]).
Ltac not_into_part := repeat apply Forall_cons; try apply Forall_nil; cbn; try tauto; intros (E & s & p & H); discriminate.
Lemma sample_history_runs : history [] sample_history sample_store.
Proof. unfold sample_history. run_history. Qed.
Lemma sample_history_apart : Forall (fun c => ~ copies_into_part c) sample_history.
Proof. unfold sample_history. not_into_part. Qed.
Lemma digits12 : gnumber n12.
Proof. apply (gnumber_intro [] n12 [] []); [now left|apply (gint_pos 49 [50]); [lia|constructor; [unfold digit; lia|constructor]]|constructor|constructor]. Qed.
Lemma sample_history_literals : Forall (cmd_literals scalar_text) sample_history.
Proof.
  repeat (first [apply Forall_cons|apply Forall_nil|apply li_null|apply li_bool|apply li_num|apply li_str|apply li_copy|apply li_arr|apply li_obj]); cbn; auto;
  repeat (first [apply Forall_cons|apply Forall_nil|apply li_null|apply li_bool|apply li_num|apply li_str|apply li_copy|apply li_arr|apply li_obj]).
  right. right. left. split; [reflexivity|exact digits12].
Qed.
Lemma sample_history_tags : Forall (cmd_literals (fun t _ => t <> Tarray /\ t <> Tobject)) sample_history.
Proof. repeat (first [apply Forall_cons|apply Forall_nil]); cbn; auto; repeat constructor; discriminate. Qed.
Lemma sample_history_no_move : Forall cmd_no_move sample_history.
Proof. repeat (first [apply Forall_cons|apply Forall_nil]); cbn; auto; repeat constructor. Qed.

(** with moves *)
Definition moving_history : list cmd :=
  [CNew (EObj [(ka, ENum n12); (kb, EArr [EBool true; EStr ka])]);
   CNew (EMove (Loc 0 [Key kb]));
   CAssign (Loc 0 [Key ka]) (MRef (at_root 1));
   CPlus (at_root 1) (Loc 0 [Key ka]) true].
Definition moving_prefix : list cmd := removelast moving_history.
Definition moving_store : store :=
  Eval vm_compute in
  match (fold_left (fun o c => match o with Some st => match exec c st with Done st' _ => Some st' | Stuck => None end | None => None end) moving_prefix (Some [])) with
  | Some st => st | None => [] end.
Lemma moving_history_runs : history [] moving_prefix moving_store.
Proof. unfold moving_prefix, moving_history. cbn [removelast]. run_history. Qed.
Lemma moving_history_apart : Forall (fun c => ~ copies_into_part c) moving_prefix.
Proof. unfold moving_prefix, moving_history. cbn [removelast]. not_into_part. Qed.
Lemma moving_history_tags : Forall (cmd_literals (fun t _ => t <> Tarray /\ t <> Tobject)) moving_prefix.
Proof. repeat (first [apply Forall_cons|apply Forall_nil]); cbn; auto; repeat constructor; discriminate. Qed.
