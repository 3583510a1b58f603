(** * Proofs of C43 for empty values *)
From Verif Require Import Base Value Packed Parser Dump Containers Num Enum Conv Spec SpecApi SpecConv SpecBlank BaseProofs ConvProofs ConvTheorems.

Definition nothing (v : value) : Prop := v = v_null \/ v = v_string [] \/ v = v_array [] \/ v = v_object [].
Lemma wf_empty v : wf v -> v_empty v = Ok false \/ nothing v.
Proof.
  unfold nothing. intros H. inversion H as [|b|s Hs|s|l Hl|m Hm Hs]; subst; auto.
  - destruct s; auto.
  - destruct l; auto 6.
  - destruct m; auto 6.
Qed.
Lemma nothing_wf v : nothing v -> wf v.
Proof.
  intros [->|[->|[->| ->]]]; [apply wf_null|apply (wf_str [])|apply (wf_arr []); constructor|apply (wf_obj []); constructor].
Qed.

Section Env.
  Context (E : env).
  Lemma blank_differs v t d : blank v t d -> cast_rv E t v = Ok d /\ as_ E t v = Throw JsonException.
  Proof.
    induction 1 as [H|t H|ins t H|t H|H|H|t H|t d _ [I J]|t d N B [I J]|t d _ [I J]]; cbn [cast_rv as_].
    1-7: destruct H as [->|[->| ->]]; split; reflexivity.
    - rewrite I, J. split; reflexivity.
    - assert (Z : nothing v).
      { clear -B. unfold nothing. induction B as [H|t H|ins t H|t H|H|H|t H|t d _ I|t d _ _ I|t d _ I]; auto.
        all: destruct H as [->|[->| ->]]; auto 6. }
      assert (Z' : is_null v = false) by (destruct Z as [->|[->|[->| ->]]]; [contradiction|reflexivity..]).
      rewrite Z', I, J. split; reflexivity.
    - rewrite I, J. split; reflexivity.
  Qed.
  Lemma array_cases v : nothing v ->
    (v = v_array [] /\ snd (as_array_m v) = as_array_c v) \/ (empty_no_array v /\ snd (as_array_m v) = Ok [] /\ as_array_c v = Throw JsonException).
  Proof. unfold empty_no_array. intros [->|[->|[->| ->]]]; [right|right|left|right]; repeat split; auto. Qed.
  Lemma object_cases v : nothing v ->
    (v = v_object [] /\ snd (as_object_m v) = as_object_c v) \/ (empty_no_object v /\ snd (as_object_m v) = Ok [] /\ as_object_c v = Throw JsonException).
  Proof. unfold empty_no_object. intros [->|[->|[->| ->]]]; [right|right|right|left]; repeat split; auto. Qed.

  Definition agrees (t : ty) (v : value) : Prop :=
    cast_rv E t v = as_ E t v \/ exists d, blank v t d /\ cast_rv E t v = Ok d /\ as_ E t v = Throw JsonException.
  Lemma agrees_blank t v d : blank v t d -> agrees t v.
  Proof. intros B. right. exists d. split; [exact B|]. now apply blank_differs. Qed.
  Lemma nothing_agrees t : lawful wf t -> forall v, nothing v -> agrees t v.
  Proof.
    induction t as [ | | | |sg w|p| | | | |t IH|t IH|t IH|ins t IH|n t IH|ts IH|ts IH|t IH|e|fs IH|x] using ty_ind'; intros L v Hv.
    all: try (left; reflexivity).
    - left. cbn [cast_rv as_]. rewrite wf_copy; [reflexivity|now apply nothing_wf].
    - destruct (array_cases v Hv) as [[-> _]|[H _]]; [left; reflexivity|]. eapply agrees_blank, bk_arr, H.
    - destruct (object_cases v Hv) as [[-> _]|[H _]]; [left; reflexivity|]. eapply agrees_blank, bk_obj, H.
    - inversion L; subst. destruct (IH ltac:(assumption) v Hv) as [H|(d & B & _)].
      + left. cbn [cast_rv as_]. now rewrite H.
      + eapply agrees_blank, bk_opt, B.
    - inversion L; subst. destruct (IH ltac:(assumption) v Hv) as [H|(d & B & _)].
      + left. cbn [cast_rv as_]. now rewrite H.
      + destruct (is_null v) eqn:En; [left; cbn [cast_rv as_]; now rewrite En|].
        eapply agrees_blank, bk_ptr, B. intros ->. discriminate.
    - destruct (array_cases v Hv) as [[-> _]|[H _]]; [left; reflexivity|]. eapply agrees_blank, bk_vec, H.
    - destruct (array_cases v Hv) as [[-> _]|[H _]]; [left; reflexivity|]. eapply agrees_blank, bk_coll, H.
    - destruct (array_cases v Hv) as [[-> _]|(H & A & B)]; [left; reflexivity|].
      destruct n as [|n]; [eapply agrees_blank, bk_fix, H|]. left. cbn [cast_rv as_]. now rewrite A, B.
    - destruct ts as [|t1 [|t2 ts]].
      + destruct (array_cases v Hv) as [[-> _]|[H _]]; [left; reflexivity|]. eapply agrees_blank, bk_tup, H.
      + assert (Hts : Forall (lawful wf) [t1]) by (inversion L; auto). inversion Hts; subst. inversion IH as [|? ? IH1 _]; subst.
        destruct (IH1 ltac:(assumption) v Hv) as [H|(d & B & _)].
        * left. cbn [cast_rv as_]. now rewrite H.
        * eapply agrees_blank, bk_one, B.
      + left. destruct (array_cases v Hv) as [[-> _]|(H & A & B)]; [reflexivity|]. cbn [cast_rv as_]. now rewrite A, B.
    - left. assert (W : wf v) by now apply nothing_wf. destruct (chosen ts) as [n|] eqn:En.
      + apply category_irrelevant; auto. right. cbn [as_]. rewrite En. apply chosen_implicit in En as (t & Hn & Hi).
        rewrite (as_alternative_nth _ _ _ _ _ Hn). destruct (implicit_as E t Hi v W) as [d Hd]. rewrite Hd. eexists. reflexivity.
      + cbn [cast_rv as_]. rewrite En. apply as_variant_rv; auto. inversion L; auto.
    - destruct (object_cases v Hv) as [[-> _]|[H _]]; [left; reflexivity|]. eapply agrees_blank, bk_map, H.
    - left. cbn [cast_rv]. apply as_rv_eq; auto. now apply nothing_wf.
  Qed.
  Theorem category_exactly t v : lawful wf t -> wf v -> agrees t v.
  Proof.
    intros L W. destruct (wf_empty v W) as [H|H]; [left; apply category_irrelevant; auto|now apply nothing_agrees].
  Qed.
End Env.

Lemma string_blank : blank (v_string []) (TPtr (TTup [TMap TStr])) (DOpt (Some (DSeq [DMap []]))).
Proof. apply bk_ptr; [discriminate|]. apply bk_one, bk_map. unfold empty_no_object. auto. Qed.
