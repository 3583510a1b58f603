(** * References stay valid (C76). *)
From Verif Require Import Base Value Spec Containers Dump Api SpecApi BaseProofs ContainerProofs ApiProofs StoreProofs Heap SpecHeap HeapBase HeapSteps HeapOps HeapMoves HeapNodes HeapCalls HeapMerge HeapJoin HeapEval HeapProofs HeapTheorems SpecMoves MovesProofs MovesTheorems SpecRefs.

Lemma loses_doomed st c l : Forall keys_ok st -> loses st c l -> doomed st c l.
Proof.
  intros K. destruct c as [e|d a|d a|d k a|d s mv|d s mv|d s ml mr|d s ml mr|x m|x q|x y]; cbn [loses doomed]; try (intros H; exact H); try (intros H; right; exact H).
  intros (v & R & H). destruct m as [| |n|k|n|k| | | |n|[k|]]; cbn [method_loses] in H; auto. destruct H as [[]|H]. apply H. exact (keys_read _ _ _ K R).
Qed.
Lemma refers_slot hs st l p : sim hs st -> refers hs l p -> (slot l < length st)%nat.
Proof.
  intros (fp & H & _) (x & R). unfold resolve in R. rewrite <- (holds_all_length _ _ _ _ H). apply nth_error_Some. destruct (nth_error (roots hs) (slot l)); discriminate.
Qed.
Lemma reference_kept hs st c hs' l p : sim hs st -> Forall tag_ok st -> Forall keys_ok st -> legal hs c -> hexec c hs = HDone hs' (Ok tt) ->
  ~ doomed st c l -> refers hs l p -> refers hs' l p.
Proof.
  intros S T K L E D V. destruct (legal_sim _ _ _ S L) as (A & B & st' & r & C & N).
  destruct (hexec_keeps c hs st st' r S A B C N) as (hs1 & r1 & E1 & Ks & _ & _). rewrite E in E1. injection E1 as <- <-.
  apply (Ks (ex_intro _ tt eq_refl) T); [exact (refers_slot _ _ _ _ S V)|intros H; exact (D (loses_doomed _ _ _ K H))|exact V].
Qed.
Lemma spills_spilled c l : spills c l -> spilled c l.
Proof. destruct c as [e|d [e|s|s]|d [e|s|s]|d k [e|s|s]| | | | | | |]; cbn; auto; intros (w & [] & _). Qed.
Lemma reference_survives hs st c hs' e l p : sim hs st -> Forall tag_ok st -> legal hs c -> hexec c hs = HDone hs' (Throw e) -> e <> BadAlloc ->
  ~ spilled c l -> refers hs l p -> refers hs' l p.
Proof.
  intros S T L E Ne D V. destruct (legal_sim _ _ _ S L) as (A & B & st' & r & C & N).
  destruct (hexec_keeps c hs st st' r S A B C N) as (hs1 & r1 & E1 & _ & Ks & _). rewrite E in E1. injection E1 as <- <-.
  apply (Ks (ex_intro _ e (conj eq_refl Ne)) T); [exact (refers_slot _ _ _ _ S V)|intros H; exact (D (spills_spilled _ _ H))|exact V].
Qed.
Lemma ready_legal hs st c : sim hs st -> Forall tag_ok st -> Forall keys_ok st -> careful c -> ready st c -> ~ misuse st c -> legal hs c.
Proof.
  intros S T K C R Hu. destruct (ready_step st c T K C R Hu) as (st' & r & E & N & _). exists st, st', r. split; [exact S|]. split; [exact (ready_refs st c R)|]. split; [apply C|]. split; auto.
Qed.
Lemma reference_held cs : forall hs st hs' l p, Forall careful cs -> sim hs st -> Forall tag_ok st -> Forall keys_ok st -> fails hs = [] ->
  holding_run l hs cs hs' -> refers hs l p -> refers hs' l p.
Proof.
  induction cs as [|c cs IH]; intros hs st hs' l p Hc S T K F R V; inversion R as [|? st0 ? r hs1 ? ? S0 Hn Hu E Hd R1]; subst; [exact V|].
  inversion_clear Hc as [|? ? H1 H4]. assert (st0 = st) as -> by (first [exact (sim_det _ _ _ S0 S)|exact (eq_sym (sim_det _ _ _ S0 S))]).
  destruct (careful_step hs st c S T K H1 Hn Hu) as (hs2 & r2 & E2 & _ & _ & G). rewrite E in E2. injection E2 as <- <-.
  destruct (G F) as (F1 & st1 & S1 & T1 & K1 & _). apply (IH hs1 st1 hs' l p H4 S1 T1 K1 F1 R1). pose proof (ready_legal hs st c S T K H1 Hn Hu) as Lg.
  destruct r as [[]|e| | |]; try (destruct (Hd Logic.I)); [exact (reference_kept hs st c hs1 l p S T K Lg E Hd V)|].
  assert (Ne : e <> BadAlloc) by (intros ->; exact (Hd Logic.I)). apply (reference_survives hs st c hs1 e l p S T Lg E Ne); [|exact V]. destruct e; auto.
Qed.
Lemma program_references cs cs' hs hs' l p : Forall careful (cs ++ cs') -> careful_run (HS [] [] []) cs hs -> holding_run l hs cs' hs' -> refers hs l p -> refers hs' l p.
Proof.
  intros Hc R H V. apply Forall_app in Hc as [Hc Hc'].
  destruct (careful_run_tags cs _ [] _ Hc (sim_empty []) (Forall_nil _) (Forall_nil _) eq_refl R) as (st1 & S1 & T & K & F). eapply reference_held; eauto.
Qed.
