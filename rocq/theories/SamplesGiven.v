(** * Objects for the examples of Properties_Given.v *)
From Verif Require Import Base Value Packed Parser Dump Containers Num Enum Conv Spec SpecConv SpecGiven.

Definition pair_type : ty := TTup [TOpt TStr; TVar [TBool; TStr]].
Definition some_pair : data := DSeq [DOpt (Some (DStr (of_string "a"))); DAlt 1 (DStr (of_string "b"))].
Definition some_shared : data := DOpt (Some (DOpt (Some (DStr (of_string "a"))))).
Lemma pair_parts : whole some_pair /\ (forall p, ~ moved_from Lvalue pair_type some_pair p) /\
  moved_from Rvalue pair_type some_pair [0; 0]%nat /\ moved_from Rvalue pair_type some_pair [1; 0]%nat /\
  part_at some_pair [1; 0]%nat = Some (DStr (of_string "b")) /\
  whole some_shared /\ moved_from Const (TPtr (TOpt TStr)) some_shared [0; 0]%nat.
Proof.
  assert (N : forall t d p, moved_from Const t d p -> t = TOpt TStr \/ t = TVar [TBool; TStr] \/ t = TStr \/ t = TBool -> False).
  { intros t d p M. remember Const as c eqn:C. induction M as [t d M|c t d i c' t' x p P M IH]; [discriminate|]. subst c.
    intros [-> | [-> | [-> | ->]]]; inversion P; subst; try discriminate.
    - apply IH; auto.
    - apply IH; auto. destruct n as [|[|[|n]]]; try discriminate;
        match goal with X : nth_error _ _ = Some _ |- _ => injection X as <- end; auto. }
  split; [|split; [|split; [|split; [|split; [|split]]]]].
  - intros [|[|[|i]] p]; cbn; try discriminate.
    + destruct p as [|[|i] p]; cbn; try discriminate. destruct p; cbn; discriminate.
    + destruct p as [|[|i] p]; cbn; try discriminate. destruct p; cbn; discriminate.
    + destruct i; cbn; discriminate.
  - intros p M. inversion M as [|c t d i c' t' x q P M']; subst. inversion P; subst.
    apply (N _ _ _ M'). destruct i as [|[|[|i]]]; try discriminate;
      match goal with X : nth_error _ _ = Some t' |- _ => injection X as <- end; auto.
  - eapply mf_part; [eapply pa_tup_r; reflexivity|]. eapply mf_part; [apply pa_opt_r|]. apply mf_here, mo_str.
  - eapply mf_part; [eapply pa_tup_r; reflexivity|]. eapply mf_part; [eapply pa_var_r; reflexivity|]. apply mf_here, mo_str.
  - reflexivity.
  - intros [|[|i] p]; cbn; try discriminate. destruct p as [|[|i] p]; cbn; try discriminate. destruct p; cbn; discriminate.
  - eapply mf_part; [apply pa_ptr_c|]. eapply mf_part; [apply pa_opt_l|]. apply mf_here, mo_str.
Qed.
