(** * Programs with moves on the heap; what their values serialize to. *)
From Verif Require Import Base Value Spec Containers Num Enum Conv Dump Api SpecApi SpecConv BaseProofs ContainerProofs DumpProofs ApiProofs Heap SpecHeap StoreProofs HeapBase HeapProofs HeapTheorems HeapSafety Info SpecInfo SpecMoves MovesProofs.
From Verif Require InfoProofs.

Lemma moved_program_safe cs st c : Forall (cmd_literals (fun t _ => t <> Tarray /\ t <> Tobject)) cs -> Forall (fun c => ~ copies_into_part c) cs -> history [] cs st ->
  careful c -> ready st c -> ~ misuse st c -> exists st' r, exec c st = Done st' r /\ r <> Ub /\ r <> Throw BadVariant.
Proof.
  intros Hl Hn H C R Hu. destruct (tags_kept cs st Hl Hn H) as [T K]. destruct (ready_step st c T K C R Hu) as (st' & r & E & A & B & _). eauto.
Qed.
Lemma ready_refs st c : ready st c -> refs_valid st c.
Proof.
  unfold refs_valid. destruct c as [e|dst a|dst a|dst k a|dst src mv|dst src mv|lhs src ml mr|lhs src ml mr|l m|l q|a b]; cbn [ready refs]; intros R; auto.
  - destruct R as (A & B & _). constructor; auto. destruct a; cbn in *; constructor; auto. now apply whole_read.
  - destruct R as (A & B). constructor; [now apply present_read|]. destruct a; cbn in *; constructor; auto. now apply whole_read.
  - destruct R as (A & B & _). constructor; [now apply present_read|]. destruct a; cbn in *; constructor; auto. now apply whole_read.
  - destruct R as (A & B). constructor; [now apply present_read|]. constructor; auto. destruct mv; [now apply present_read|now apply whole_read].
  - destruct R as (A & B). constructor; [now apply present_read|]. constructor; auto. destruct mv; [now apply present_read|now apply whole_read].
  - destruct R as (A & B). constructor; [destruct ml; [now apply present_read|now apply whole_read]|]. constructor; auto. destruct mr; [now apply present_read|now apply whole_read].
  - destruct R as (A & B). constructor; [destruct ml; [now apply present_read|now apply whole_read]|]. constructor; auto. destruct mr; [now apply present_read|now apply whole_read].
  - constructor; auto. destruct m; try (now apply present_read). exact R.
  - constructor; auto. destruct (deep q); [now apply whole_read|now apply present_read].
  - destruct R as (A & B). constructor; [now apply whole_read|]. constructor; auto. now apply whole_read.
Qed.
Lemma careful_step hs st c : sim hs st -> Forall tag_ok st -> Forall keys_ok st -> careful c -> ready st c -> ~ misuse st c ->
  exists hs' r, hexec c hs = HDone hs' r /\ r <> Ub /\ r <> Throw BadVariant /\
    (fails hs = [] -> fails hs' = [] /\ exists st', sim hs' st' /\ Forall tag_ok st' /\ Forall keys_ok st' /\ exec c st = Done st' r).
Proof.
  intros S T K C R Hu. destruct (ready_step st c T K C R Hu) as (st' & r & E & N & B & T' & K'). destruct C as (_ & _ & Hm).
  destruct (hexec_refines c hs st st' r S (ready_refs st c R) Hm E N) as (hs' & r' & H & [(-> & S' & U & F)|(-> & F & _)]).
  - exists hs', r. splits; auto. intros F0. split; auto. exists st'. auto.
  - exists hs', (Throw BadAlloc). splits; auto; try discriminate. intros F0. tauto.
Qed.
Lemma careful_run_tags cs : forall hs st hs', Forall careful cs -> sim hs st -> Forall tag_ok st -> Forall keys_ok st -> fails hs = [] -> careful_run hs cs hs' ->
  exists st', sim hs' st' /\ Forall tag_ok st' /\ Forall keys_ok st' /\ fails hs' = [].
Proof.
  induction cs as [|c cs IH]; intros hs st hs' Hc S T K F R; inversion R as [|? st0 ? hs1 r ? ? S0 Hn Hu E R1]; subst; [eauto 6|].
  inversion_clear Hc as [|? ? H1 H4]. assert (st0 = st) as -> by (first [exact (sim_det _ _ _ S0 S)|exact (eq_sym (sim_det _ _ _ S0 S))]).
  destruct (careful_step hs st c S T K H1 Hn Hu) as (hs2 & r2 & E2 & _ & _ & G). rewrite E in E2. injection E2 as <- <-.
  destruct (G F) as (F1 & st1 & S1 & T1 & K1 & _). eapply IH; eauto.
Qed.
Lemma careful_program_safe cs hs st c : Forall careful (cs ++ [c]) -> careful_run (HS [] [] []) cs hs -> sim hs st -> ready st c -> ~ misuse st c ->
  exists hs' r st', hexec c hs = HDone hs' r /\ r <> Ub /\ r <> Throw BadVariant /\ exec c st = Done st' r /\ sim hs' st'.
Proof.
  intros Hc R S Hn Hu. apply Forall_app in Hc as [Hc Hc']. inversion_clear Hc' as [|? ? H1 _].
  destruct (careful_run_tags cs _ [] _ Hc (sim_empty []) (Forall_nil _) (Forall_nil _) eq_refl R) as (st1 & S1 & T & K & F). assert (st1 = st) as -> by (first [exact (sim_det _ _ _ S1 S)|exact (eq_sym (sim_det _ _ _ S1 S))]).
  destruct (careful_step hs st c S T K H1 Hn Hu) as (hs2 & r2 & E2 & A & B & G). destruct (G F) as (_ & st' & S' & _ & _ & X). exists hs2, r2, st'. auto.
Qed.
Lemma careful_program_frees cs hs : Forall careful cs -> careful_run (HS [] [] []) cs hs ->
  exists hs', drop_n (length (roots hs)) hs = HDone hs' (Ok tt) /\ roots hs' = [] /\ forall a, ~ live (hp hs') a.
Proof.
  intros Hc R. destruct (careful_run_tags cs _ [] _ Hc (sim_empty []) (Forall_nil _) (Forall_nil _) eq_refl R) as (st & S & _ & _).
  destruct (destroy_all hs st S) as (hs' & D & A & B). exists hs'. split; auto.
  replace (length (roots hs)) with (length st); auto. destruct S as (fp & H & _). clear -H. revert fp H. generalize (hp hs) as h. intros h.
  generalize (roots hs) as l. induction st as [|v st IH]; intros l fp H; inversion H; subst; cbn; f_equal; eauto.
Qed.

(** ** C21 *)
Definition left_text (t : vtype) (s : bytes) : Prop := scalar_text t s \/ ((t = Tnumber \/ t = Tboolean) /\ s = []).
Lemma no_leftover_ok v : okv left_text True v -> no_leftover v -> okv scalar_text False v.
Proof.
  induction v as [t s|t|t l IH|t|t m IH] using value_ind'; intros H G; inversion H as [? ? Ha|? Hl| |? Hl Hs|]; inversion G as [? ? Hn|? ? Fn|? ? Fn]; subst.
  - constructor. destruct Ha as [Ha|[Ht ->]]; auto. exfalso. now apply Hn.
  - constructor. rewrite Forall_forall in *. auto.
  - constructor; auto. rewrite Forall_forall in *. auto.
Qed.
Lemma left_history cs st : Forall (cmd_literals scalar_text) cs -> Forall (fun c => ~ copies_into_part c) cs -> history [] cs st -> sok left_text True st.
Proof.
  intros Hl Hn H. eapply (history_ok left_text True); [..|exact Hn| |exact H].
  - left. left. auto.
  - intros []; left; right; left; auto.
  - intros s. left. right. right. right. auto.
  - intros _ t s [[[-> _]|[[-> _]|[[-> _]| ->]]]|[[->| ->] _]].
    + left. left. auto.
    + right. auto.
    + right. auto.
    + left. right. right. right. auto.
    + right. auto.
    + right. auto.
  - intros t s [[[-> _]|[[-> _]|[[-> _]| ->]]]|[[->| ->] _]]; split; discriminate.
  - eapply Forall_impl; [|exact Hl]. intros c Hc. apply cmd_ok_moves. unfold cmd_literals in *. revert Hc. apply cmd_all_impl; auto.
    intros e. induction e as [|b|s|s|t s|l|l|es IH|ms IH] using expr_ind'; intros He; inversion He as [| |? A1| |? ? A1| | |? A1|? A1]; subst; constructor; auto; try (left; exact A1); rewrite Forall_forall in *; auto.
  - constructor.
Qed.
Lemma left_is_json cs st l v n : Forall (cmd_literals scalar_text) cs -> Forall (fun c => ~ copies_into_part c) cs -> history [] cs st ->
  read st l = Some v -> no_leftover v -> exists t j, dumps n v = Ok t /\ gvalue ws gstring false t j /\ distinct j /\ inject j = v /\ (root v -> rfc_document t j).
Proof.
  intros Hl Hn H R G. apply dumps_is_json. apply okv_wf. apply no_leftover_ok; auto. eapply read_ok; [|exact R]. eapply left_history; eauto.
Qed.
(** ** C57 *)
Lemma noexcept_moves cs st l v : Forall (cmd_literals (fun t _ => t <> Tarray /\ t <> Tobject)) cs -> Forall (fun c => ~ copies_into_part c) cs -> history [] cs st ->
  read st l = Some v -> owned v ->
  (exists b, v_empty v = Ok b) /\ (forall E t, lawful sound t -> exists b, is_ E t v = Ok b) /\
  (forall cc, exists i, type_name cc v = Ok i) /\ (forall cc, exists i, value_info cc v = Ok i).
Proof.
  intros Hl Hn H R O. apply InfoProofs.noexcept_sound. destruct (tags_kept cs st Hl Hn H) as [T K]. pose proof (sok_of st T K) as S. destruct (tagged _ _ _ S R). split; auto.
Qed.
