(** * Facts about the grammar and about what the parser accepts. *)
From Verif Require Import Base Value Packed Parser Spec BaseProofs PackedProofs LexProofs StringProofs ParserProofs ParserComplete.
From Coq Require Import Permutation.
Ltac Zify.zify_post_hook ::= Z.div_mod_to_equations.

(** ** Infixes *)
Lemma infix_refl x : infix x x.
Proof. exists [], []. now rewrite app_nil_r. Qed.
Lemma infix_trans x y z : infix x y -> infix y z -> infix x z.
Proof.
  intros (a & b & ->) (a' & b' & ->). exists (a' ++ a), (b ++ b').
  repeat rewrite <- app_assoc. reflexivity.
Qed.
Lemma infix_r x a b : infix x b -> infix x (a ++ b).
Proof. intros (p & q & ->). exists (a ++ p), q. now rewrite <- app_assoc. Qed.
Lemma infix_l x a b : infix x a -> infix x (a ++ b).
Proof. intros (p & q & ->). exists p, (q ++ b). now repeat rewrite <- app_assoc. Qed.
Ltac infix_tac := solve [repeat first [apply infix_refl | apply infix_l; apply infix_refl | apply infix_r] | 
   eauto using infix_l, infix_r, infix_refl].

(** ** Changing the parameters of the grammar *)
Section Mono.
  Context (W W' : bytes -> Prop) (STR STR' : bytes -> bytes -> Prop) (tc tc' : bool).
  Context (Htc : tc = true -> tc' = true).
  Definition okw (t : bytes) : Prop := forall w, infix w t -> W w -> W' w.
  Definition oks (t : bytes) : Prop := forall kt k, infix kt t -> STR kt k -> STR' kt k.
  Lemma okw_sub x t : infix x t -> okw t -> okw x.
  Proof. intros Hi H w Hw. apply H. eapply infix_trans; eauto. Qed.
  Lemma oks_sub x t : infix x t -> oks t -> oks x.
  Proof. intros Hi H w k Hw. apply H. eapply infix_trans; eauto. Qed.
  Lemma grammar_mono :
    (forall t j, gvalue W STR tc t j -> okw t -> oks t -> gvalue W' STR' tc' t j) /\
    (forall t l, gelems W STR tc t l -> okw t -> oks t -> gelems W' STR' tc' t l) /\
    (forall t m, gmembers W STR tc t m -> okw t -> oks t -> gmembers W' STR' tc' t m).
  Proof.
    apply grammar_ind; intros.
    - apply gv_null.
    - apply gv_true.
    - apply gv_false.
    - now apply gv_num.
    - apply gv_str. eauto using infix_refl.
    - apply gv_arr0. match goal with H : okw _ |- _ => apply H end; auto. infix_tac.
    - apply gv_arr. match goal with H : okw _ -> _ |- _ => apply H end; [eapply okw_sub|eapply oks_sub]; try eassumption; infix_tac.
    - apply gv_obj0. match goal with H : okw _ |- _ => apply H end; auto. infix_tac.
    - apply gv_obj. match goal with H : okw _ -> _ |- _ => apply H end; [eapply okw_sub|eapply oks_sub]; try eassumption; infix_tac.
    - match goal with A : okw ?t, B : oks ?t |- _ => rename A into HA, B into HB end.
      apply ge_last; [apply HA; auto; infix_tac| |apply HA; auto; infix_tac].
      apply H; [eapply okw_sub; [|exact HA]|eapply oks_sub; [|exact HB]]; infix_tac.
    - match goal with A : okw ?t, B : oks ?t |- _ => rename A into HA, B into HB end.
      apply ge_trail; [auto|apply HA; auto; infix_tac| |apply HA; auto; infix_tac|apply HA; auto; infix_tac].
      apply H; [eapply okw_sub; [|exact HA]|eapply oks_sub; [|exact HB]]; infix_tac.
    - match goal with A : okw ?t, B : oks ?t |- _ => rename A into HA, B into HB end.
      apply ge_cons; [apply HA; auto; infix_tac| |apply HA; auto; infix_tac|].
      + apply H; [eapply okw_sub; [|exact HA]|eapply oks_sub; [|exact HB]]; infix_tac.
      + apply H0; [eapply okw_sub; [|exact HA]|eapply oks_sub; [|exact HB]]; infix_tac.
    - match goal with A : okw ?t, B : oks ?t |- _ => rename A into HA, B into HB end.
      apply gm_last; [apply HA; auto; infix_tac|apply HB; auto; infix_tac|apply HA; auto; infix_tac|apply HA; auto; infix_tac| |apply HA; auto; infix_tac].
      apply H; [eapply okw_sub; [|exact HA]|eapply oks_sub; [|exact HB]]; infix_tac.
    - match goal with A : okw ?t, B : oks ?t |- _ => rename A into HA, B into HB end.
      apply gm_trail; [auto|apply HA; auto; infix_tac|apply HB; auto; infix_tac|apply HA; auto; infix_tac|apply HA; auto; infix_tac| |apply HA; auto; infix_tac|apply HA; auto; infix_tac].
      apply H; [eapply okw_sub; [|exact HA]|eapply oks_sub; [|exact HB]]; infix_tac.
    - match goal with A : okw ?t, B : oks ?t |- _ => rename A into HA, B into HB end.
      apply gm_cons; [apply HA; auto; infix_tac|apply HB; auto; infix_tac|apply HA; auto; infix_tac|apply HA; auto; infix_tac| |apply HA; auto; infix_tac|].
      + apply H; [eapply okw_sub; [|exact HA]|eapply oks_sub; [|exact HB]]; infix_tac.
      + apply H0; [eapply okw_sub; [|exact HA]|eapply oks_sub; [|exact HB]]; infix_tac.
  Qed.
End Mono.

Lemma ws_cws w : ws w -> cws w.
Proof. induction 1; constructor; auto. Qed.
Lemma ws_wsp jsonc w : ws w -> wsp jsonc w.
Proof. destruct jsonc; cbn; auto using ws_cws. Qed.
Lemma gvalue_weaken (W W' : bytes -> Prop) (STR STR' : bytes -> bytes -> Prop) tc tc' t j :
  (forall w, W w -> W' w) -> (forall a b, STR a b -> STR' a b) -> (tc = true -> tc' = true) ->
  gvalue W STR tc t j -> gvalue W' STR' tc' t j.
Proof.
  intros HW HS Ht Hg. apply (proj1 (grammar_mono W W' STR STR' tc tc' Ht)) in Hg; auto.
  - intros w _. apply HW.
  - intros a b _. apply HS.
Qed.

(** ** Strings of a denoted document *)
Section Strings.
  Context (W : bytes -> Prop) (STR : bytes -> bytes -> Prop) (tc : bool) (P : bytes -> Prop).
  Definition okp (t : bytes) : Prop := forall kt k, infix kt t -> STR kt k -> P k.
  Lemma okp_sub x t : infix x t -> okp t -> okp x.
  Proof. intros Hi H w k Hw. apply H. eapply infix_trans; eauto. Qed.
  Lemma grammar_strings :
    (forall t j, gvalue W STR tc t j -> okp t -> all_strings P j) /\
    (forall t l, gelems W STR tc t l -> okp t -> Forall (all_strings P) l) /\
    (forall t m, gmembers W STR tc t m -> okp t -> Forall (fun kv => P (fst kv) /\ all_strings P (snd kv)) m).
  Proof.
    apply grammar_ind; intros; try (constructor; fail).
    - constructor. eauto using infix_refl.
    - constructor. constructor.
    - constructor. match goal with H : okp _ -> _ |- _ => apply H end; eapply okp_sub; try eassumption; infix_tac.
    - constructor. constructor.
    - constructor. match goal with H : okp _ -> _ |- _ => apply H end; eapply okp_sub; try eassumption; infix_tac.
    - constructor; [|constructor]. apply H. eapply okp_sub; [|eassumption]. infix_tac.
    - constructor; [|constructor]. apply H. eapply okp_sub; [|eassumption]. infix_tac.
    - constructor; [apply H|apply H0]; (eapply okp_sub; [|eassumption]); infix_tac.
    - match goal with A : okp ?t |- _ => rename A into HA end.
      constructor; [|constructor]. split; [eapply HA; eauto; cbn [fst]; infix_tac|]. apply H. eapply okp_sub; [|eassumption]. infix_tac.
    - match goal with A : okp ?t |- _ => rename A into HA end.
      constructor; [|constructor]. split; [eapply HA; eauto; cbn [fst]; infix_tac|]. apply H. eapply okp_sub; [|eassumption]. infix_tac.
    - match goal with A : okp ?t |- _ => rename A into HA end.
      constructor; [split|].
      + eapply HA; eauto; cbn [fst]; infix_tac.
      + apply H. eapply okp_sub; [|eassumption]. infix_tac.
      + apply H0. eapply okp_sub; [|eassumption]. infix_tac.
  Qed.
End Strings.

(** ** Well-formedness of denoted values *)
Lemma Forall_sort {A} (P : bytes * A -> Prop) m : Forall P m -> Forall P (sort_members m).
Proof. intros H. eapply Permutation_Forall; [apply sort_members_perm|exact H]. Qed.
Lemma all_strings_inject P j : all_strings P j -> all_vstrings P (inject j).
Proof.
  induction j as [|b|s|s|l IH|m IH] using json_ind'; intros H; inversion H; subst; cbn [inject].
  - constructor; discriminate.
  - constructor; discriminate.
  - constructor; discriminate.
  - now constructor.
  - constructor. rewrite Forall_map. rewrite Forall_forall in *. eauto.
  - constructor. apply Forall_sort. rewrite Forall_map. rewrite Forall_forall in *. cbn.
    intros kv Hin. split; [apply H1, Hin|]. apply IH; [exact Hin|]. apply H1, Hin.
Qed.
(** number texts of a document *)
Inductive num_ok : json -> Prop :=
| no_null : num_ok JNull | no_bool b : num_ok (JBool b) | no_str s : num_ok (JStr s)
| no_num s : gnumber s -> num_ok (JNum s)
| no_arr l : Forall num_ok l -> num_ok (JArr l)
| no_obj m : Forall (fun kv => num_ok (snd kv)) m -> num_ok (JObj m).
Lemma grammar_num W STR tc :
  (forall t j, gvalue W STR tc t j -> num_ok j) /\
  (forall t l, gelems W STR tc t l -> Forall num_ok l) /\
  (forall t m, gmembers W STR tc t m -> Forall (fun kv => num_ok (snd kv)) m).
Proof. apply grammar_ind; intros; repeat constructor; auto. Qed.
Lemma wf_inject j : num_ok j -> distinct j -> wf (inject j).
Proof.
  induction j as [|b|s|s|l IH|m IH] using json_ind'; intros Hn Hd; inversion Hn; inversion Hd; subst; cbn [inject].
  - constructor.
  - apply wf_bool.
  - now constructor.
  - constructor.
  - constructor. rewrite Forall_map. rewrite Forall_forall in *. eauto.
  - constructor.
    + apply Forall_sort. rewrite Forall_map. rewrite Forall_forall in *. cbn. eauto.
    + apply sort_members_sorted. change (map (fun kv => (fst kv, inject (snd kv))) m) with (map inj_member m).
      now rewrite map_inj_keys.
Qed.

(** ** Paired surrogates: the lenient strings are the strict ones *)
Lemma app_same_len {A} (a b c d : list A) : length a = length b -> a ++ c = b ++ d -> a = b /\ c = d.
Proof.
  revert b. induction a as [|x a IH]; intros [|y b] Hl E; try discriminate; cbn in *; [auto|].
  injection E as -> E. destruct (IH b) as [-> ->]; auto.
Qed.
Lemma hex4_length h cp : hex4 h cp -> length h = 4%nat.
Proof. now destruct 1. Qed.
Lemma paired_chars raw z : forall n body out a, (length body <= n)%nat ->
  lchars raw None body out -> surrogates_paired (a ++ body ++ 34 :: z) -> gchars body out.
Proof.
  induction n as [|n IH]; intros body out a Hn HL Hp.
  { destruct body; [|cbn in Hn; lia]. inversion HL. constructor. }
  remember None as ph eqn:Eph.
  destruct HL as [|ph c t s Hc Ho Ht|l c t s He Ht|ph h cp t s Hh Hs Ht|h hi t s Hh Hs Ht|hi h lo t s Hh Hs Ht]; subst; try discriminate.
  - constructor.
  - apply gc_raw; auto. apply (IH t s (a ++ [c])); auto; [cbn in Hn; lia|]. rewrite <- app_assoc. exact Hp.
  - apply gc_esc; auto. apply (IH t s (a ++ [92; l])); auto; [cbn in Hn; lia|]. rewrite <- app_assoc. exact Hp.
  - apply gc_uni; auto. apply (IH t s (a ++ 92 :: 117 :: h)); auto; [cbn in Hn; rewrite app_length in Hn; lia|].
    repeat (rewrite <- app_assoc; cbn [app]). cbn [app] in Hp. rewrite <- app_assoc in Hp. exact Hp.
  - cbn [app] in Hp. rewrite <- app_assoc in Hp.
    destruct (Hp a h hi _ eq_refl Hh Hs) as (h2 & lo & b' & E & Hh2 & Hlo).
    remember (Some hi) as ph eqn:Eph2.
    destruct Ht as [|ph c t s Hc Ho Ht|l c t s He Ht|ph h' cp t s Hh' Hs' Ht|h' hi' t s Hh' Hs' Ht|hi0 h' lo' t s Hh' Hs' Ht]; subst; try discriminate.
    + cbn in E. injection E as -> _. destruct Hc as (_ & _ & Hc). congruence.
    + cbn [app] in E. injection E as E. rewrite <- app_assoc in E.
      apply app_same_len in E; [|rewrite (hex4_length _ _ Hh'), (hex4_length _ _ Hh2); reflexivity].
      destruct E as [-> _]. rewrite (hex4_fun _ _ _ Hh' Hh2) in Hs'. exfalso. apply Hs'. unfold low_surrogate, surrogate in *. lia.
    + injection Eph2 as ->. apply (gc_pair h hi h' lo'); auto.
      apply (IH t s (a ++ 92 :: 117 :: h ++ 92 :: 117 :: h')); auto.
      { cbn in Hn. repeat (rewrite app_length in Hn; cbn [length] in Hn). lia. }
      repeat (rewrite <- app_assoc; cbn [app]). cbn [app] in Hp. rewrite <- app_assoc in Hp. exact Hp.
Qed.
Lemma paired_string raw t s k : infix t s -> surrogates_paired s -> lstring raw t k -> gstring t k.
Proof.
  intros (a & b & ->) Hp (body & -> & HL). exists body. split; [reflexivity|].
  apply (paired_chars raw b (length body) body k (a ++ [34])); auto.
  repeat (rewrite <- app_assoc; cbn [app]). cbn [app] in Hp. rewrite <- app_assoc in Hp. exact Hp.
Qed.

(** ** What an accepted input is *)
Section Facts.
  Context (jsonc : bool).
  Lemma parse_sound be s v : Forall is_byte s -> parse jsonc be s = Ok (Some v) ->
    exists j, accepted_document jsonc (raw_ok be) s j /\ distinct j /\ v = inject j.
  Proof. intros Hb H. destruct (parse_total jsonc be s Hb) as (o & Ho & HP). rewrite H in Ho. injection Ho as <-. exact HP. Qed.
  Lemma parse_exact s v : Forall is_byte s ->
    parse jsonc BNone s = Ok (Some v) <-> exists j, accepted_document jsonc false s j /\ distinct j /\ v = inject j.
  Proof.
    intros Hb. split.
    - exact (parse_sound BNone s v Hb).
    - intros (j & Ha & Hd & ->). now apply (parse_complete jsonc BNone s j Hb Ha).
  Qed.
  (** exact blocks of at most eight bytes: raw characters between surrogates are always skipped *)
  Lemma parse_exact_short be st s v : exact_backend be -> step be = Some st -> (st <= 8)%nat -> Forall is_byte s ->
    parse jsonc be s = Ok (Some v) <-> exists j, accepted_document jsonc true s j /\ distinct j /\ v = inject j.
  Proof.
    intros He Hst H8 Hb. split.
    - intros H. apply parse_sound in H; auto. unfold raw_ok in H. now rewrite Hst in H.
    - intros (j & Ha & Hd & ->). apply (parse_complete_raw jsonc be true (or_intror (conj He (ex_intro _ st (conj Hst H8)))) s j Hb Ha). exact Hd.
  Qed.
  Lemma parse_same_short be be' st st' s s' : exact_backend be -> exact_backend be' -> step be = Some st -> step be' = Some st' ->
    (st <= 8)%nat -> (st' <= 8)%nat -> Forall is_byte s -> Forall is_byte s' ->
    (forall j, accepted_document jsonc true s j <-> accepted_document jsonc true s' j) -> parse jsonc be s = parse jsonc be' s'.
  Proof.
    intros He He' Hst Hst' H8 H8' Hb Hb' H.
    pose proof (fun v => parse_exact_short be st s v He Hst H8 Hb) as X. pose proof (fun v => parse_exact_short be' st' s' v He' Hst' H8' Hb') as X'.
    destruct (parse_total jsonc be s Hb) as ([v|] & E & _), (parse_total jsonc be' s' Hb') as ([v'|] & E' & _); rewrite E, E'; try reflexivity.
    - apply X in E as (j & A & D & ->). rewrite <- E'. symmetry. apply X'. exists j. now rewrite <- H.
    - apply X in E as (j & A & D & ->). rewrite <- E'. symmetry. apply X'. exists j. now rewrite <- H.
    - apply X' in E' as (j & A & D & ->). rewrite <- E. apply X. exists j. now rewrite H.
  Qed.
  Lemma gdoc_accepted raw s j w1 t w2 e : s = w1 ++ t ++ w2 ++ e -> wsp jsonc w1 -> wsp jsonc w2 -> stop jsonc e ->
    container j -> gvalue (wsp jsonc) gstring jsonc t j -> accepted_document jsonc raw s j.
  Proof.
    intros -> Hw1 Hw2 He Hc Hg. exists w1, t, w2, e. splits; auto.
    eapply gvalue_weaken; [| | |exact Hg]; auto using gstring_lstring.
  Qed.
  Lemma accepted_weaken raw s j : accepted_document jsonc false s j -> accepted_document jsonc raw s j.
  Proof.
    intros (w1 & t & w2 & e & -> & Hw1 & Hw2 & He & Hc & Hg). exists w1, t, w2, e. splits; auto.
    eapply gvalue_weaken; [| | |exact Hg]; auto. destruct raw; auto.
    intros a b (body & -> & H). exists body. auto using lchars_weaken.
  Qed.
  Lemma accepted_paired raw s j : surrogates_paired s -> accepted_document jsonc raw s j ->
    exists w1 t w2 e, s = w1 ++ t ++ w2 ++ e /\ wsp jsonc w1 /\ wsp jsonc w2 /\ stop jsonc e /\
      container j /\ gvalue (wsp jsonc) gstring jsonc t j.
  Proof.
    intros Hp (w1 & t & w2 & e & -> & Hw1 & Hw2 & He & Hc & Hg). exists w1, t, w2, e. splits; auto.
    apply (proj1 (grammar_mono _ (wsp jsonc) _ gstring _ jsonc (fun H => H))) in Hg; auto.
    - intros w _ H. exact H.
    - intros kt k Hi Hk. eapply paired_string; [|exact Hp|exact Hk].
      eapply infix_trans; [exact Hi|]. infix_tac.
  Qed.
  Lemma backend_paired be be' s : Forall is_byte s -> surrogates_paired s -> parse jsonc be s = parse jsonc be' s.
  Proof.
    intros Hb Hp.
    assert (H : forall be be' v, parse jsonc be s = Ok (Some v) -> parse jsonc be' s = Ok (Some v)).
    { intros b b' v H. destruct (parse_sound b s v Hb H) as (j & Ha & Hd & ->).
      destruct (accepted_paired _ _ _ Hp Ha) as (w1 & t & w2 & e & Es & Hw1 & Hw2 & He & Hc & Hg).
      apply (parse_complete jsonc b' s j Hb); auto. eapply gdoc_accepted; eauto. }
    destruct (parse_total jsonc be s Hb) as ([v|] & Ho & _), (parse_total jsonc be' s Hb) as ([v'|] & Ho' & _).
    - rewrite (H be be' v Ho). exact Ho.
    - rewrite (H be be' v Ho) in Ho'. discriminate.
    - rewrite (H be' be v' Ho') in Ho. discriminate.
    - congruence.
  Qed.
  (** whatever a backend accepts with the scalar scanner is accepted by all *)
  Lemma backend_scalar be s v : Forall is_byte s -> parse jsonc BNone s = Ok (Some v) -> parse jsonc be s = Ok (Some v).
  Proof.
    intros Hb H. apply parse_exact in H; auto. destruct H as (j & Ha & Hd & ->).
    now apply (parse_complete jsonc be s j Hb Ha).
  Qed.
  Lemma parse_wf be s v : Forall is_byte s -> parse jsonc be s = Ok (Some v) -> wf v.
  Proof.
    intros Hb H. destruct (parse_sound be s v Hb H) as (j & (w1 & t & w2 & e & -> & Hw1 & Hw2 & He & Hc & Hg) & Hd & ->).
    apply wf_inject; auto. eapply (proj1 (grammar_num _ _ _)); eauto.
  Qed.
End Facts.

Lemma rfc_accepted s j : rfc_document s j -> accepted_document false false s j.
Proof.
  intros (w1 & t & w2 & -> & Hw1 & Hw2 & Hc & Hg). apply (gdoc_accepted false false _ j w1 t w2 []); auto.
  - now rewrite app_nil_r.
  - now left.
Qed.
Lemma rfc_accepted_c s j : rfc_document s j -> accepted_document true false s j.
Proof.
  intros (w1 & t & w2 & -> & Hw1 & Hw2 & Hc & Hg). apply (gdoc_accepted true false _ j w1 t w2 []).
  - now rewrite app_nil_r.
  - now apply ws_cws.
  - now apply ws_cws.
  - now left.
  - auto.
  - eapply gvalue_weaken; [exact ws_cws|intros ? ? H; exact H|reflexivity|exact Hg].
Qed.
Lemma jsonc_accepted s j : jsonc_document s j -> accepted_document true false s j.
Proof.
  intros (w1 & t & w2 & e & -> & Hw1 & Hw2 & He & Hc & Hg). apply (gdoc_accepted true false _ j w1 t w2 e); auto.
  destruct He as [-> | (b & -> & Hb)]; [left; auto|]. right. right. left. eauto.
Qed.

(** ** jsonc mode extends strict mode, except for what follows the root value *)
Section Sim.
  Context (be : backend).
  Definition sim (x y : res (value * bytes)) : Prop :=
    forall v r, x = Ok (v, r) -> valid v = true -> y = Ok (v, r).
  Lemma skip_ws_sim cur r : skip_ws false cur = Ok (true, r) -> skip_ws true cur = Ok (true, r).
  Proof.
    destruct (skip_ws_cases false cur) as [(w & c & r' & -> & Hw & Hc & E)|(w & e & r' & -> & Hw & He & E)]; rewrite E; intros [= <-].
    apply skip_ws_token; auto. now apply ws_cws.
  Qed.
  Lemma skip_ws_sim_token cur c r : skip_ws false cur = Ok (true, c :: r) -> token c.
  Proof.
    destruct (skip_ws_cases false cur) as [(w & c' & r' & -> & Hw & Hc & E)|(w & e & r' & -> & Hw & He & E)]; rewrite E; intros [= -> ->]. exact Hc.
  Qed.
  Ltac ws_step cur :=
    let ok := fresh "ok" in let c1 := fresh "cur" in let E := fresh "E" in
    destruct (skip_ws false cur) as [[ok c1]| | | |] eqn:E; cbn [bind]; try discriminate;
    destruct ok; cbn [negb]; [|intros [= <- <-]; discriminate];
    rewrite (skip_ws_sim _ _ E); cbn [bind negb].
  Ltac deref_step cur := destruct cur as [|?c ?r] eqn:?Ecur; cbn [deref bind advance]; try discriminate.
  Lemma array_close_sim acc cur : sim (array_close false acc cur) (array_close true acc cur).
  Proof.
    intros v r. unfold array_close. ws_step cur. auto.
  Qed.
  Lemma object_close_sim acc cur : sim (object_close false acc cur) (object_close true acc cur).
  Proof.
    intros v r. unfold object_close. ws_step cur. auto.
  Qed.
  Context (pv pv' : bytes -> res (value * bytes)).
  Context (Hpv : forall cur, sim (pv cur) (pv' cur)).
  Context (H93 : forall r, exists x, pv (93 :: r) = Ok (invalid_value, x) \/ pv (93 :: r) = Stack).
  Lemma array_loop_sim : forall f cur acc, sim (array_loop false pv f cur acc) (array_loop true pv' f cur acc).
  Proof.
    induction f as [|f IH]; intros cur acc v r; [discriminate|]. cbn [array_loop].
    ws_step cur. destruct cur0 as [|c r0]; cbn [deref bind andb]; [discriminate|].
    destruct (N.eqb_spec c 93) as [->|Hc].
    { destruct (H93 r0) as (x & [-> | ->]); cbn; [intros [= <- <-]; discriminate|discriminate]. }
    destruct (pv (c :: r0)) as [[val cur1]| | | |] eqn:Epv; cbn [bind]; try discriminate.
    destruct (valid val) eqn:Ev; cbn [negb]; [|intros [= <- <-]; discriminate].
    rewrite (Hpv _ _ _ Epv Ev). cbn [bind]. rewrite Ev. cbn [negb].
    ws_step cur1. destruct cur0 as [|c2 r2]; cbn [deref bind]; [discriminate|].
    destruct (c2 =? 44); cbn [advance bind]; [apply IH|apply array_close_sim].
  Qed.
  Lemma parse_array_sim cur : sim (parse_array false pv cur) (parse_array true pv' cur).
  Proof.
    intros v r. unfold parse_array. destruct cur as [|c r0]; cbn [deref bind]; [discriminate|].
    destruct (c =? 91); cbn [negb]; [|auto]. cbn [advance bind].
    ws_step r0. destruct cur as [|c2 r2]; cbn [deref bind]; [discriminate|].
    destruct (c2 =? 93); [auto|]. apply array_loop_sim.
  Qed.
  Lemma object_loop_sim : forall f cur acc, sim (object_loop false be pv f cur acc) (object_loop true be pv' f cur acc).
  Proof.
    induction f as [|f IH]; intros cur acc v r; [discriminate|]. cbn [object_loop].
    ws_step cur. destruct cur0 as [|c r0]; cbn [deref bind andb]; [discriminate|].
    destruct (N.eqb_spec c 125) as [->|Hc].
    { unfold parse_stdstring. cbn. intros [= <- <-]. discriminate. }
    destruct (parse_stdstring be (c :: r0)) as [[[key|] cur1]| | | |] eqn:Es; cbn [bind]; try discriminate;
      [|auto].
    ws_step cur1. destruct cur0 as [|c2 r2]; cbn [deref bind]; [discriminate|].
    destruct (c2 =? 58); cbn [negb]; [|auto]. cbn [advance bind].
    ws_step r2.
    destruct (pv cur0) as [[val cur2]| | | |] eqn:Epv; cbn [bind]; try discriminate.
    destruct (valid val) eqn:Ev; cbn [negb]; [|intros [= <- <-]; discriminate].
    rewrite (Hpv _ _ _ Epv Ev). cbn [bind]. rewrite Ev. cbn [negb].
    ws_step cur2. destruct (map_emplace key val acc) as [m' [|]]; cbn [negb]; [|auto].
    destruct cur3 as [|c4 r4]; cbn [deref bind]; [discriminate|].
    destruct (c4 =? 44); cbn [advance bind]; [apply IH|apply object_close_sim].
  Qed.
  Lemma parse_object_sim cur : sim (parse_object false be pv cur) (parse_object true be pv' cur).
  Proof.
    intros v r. unfold parse_object. destruct cur as [|c r0]; cbn [deref bind]; [discriminate|].
    destruct (c =? 123); cbn [negb]; [|auto]. cbn [advance bind].
    ws_step r0. destruct cur as [|c2 r2]; cbn [deref bind]; [discriminate|].
    destruct (c2 =? 125); [auto|]. apply object_loop_sim.
  Qed.
End Sim.
Lemma pv93 jsonc be d r : exists x, parse_value jsonc be d (93 :: r) = Ok (invalid_value, x) \/ parse_value jsonc be d (93 :: r) = Stack.
Proof. exists (93 :: r). destruct d; cbn; auto. Qed.
Lemma parse_value_sim be : forall d cur, sim (parse_value false be d cur) (parse_value true be d cur).
Proof.
  induction d as [|d IH]; intros cur v r; [discriminate|]. cbn [parse_value].
  destruct cur as [|c r0]; cbn [deref bind]; [discriminate|].
  destruct (c =? 110); [intros E _; exact E|].
  destruct ((c =? 116) || (c =? 102)); [intros E _; exact E|].
  destruct ((c =? 45) || isdigit c); [intros E _; exact E|].
  destruct (c =? 34); [intros E _; exact E|].
  destruct (c =? 91); [refine (parse_array_sim _ _ IH _ _ v r); intros ?; apply pv93|].
  destruct (c =? 123); [exact (parse_object_sim be _ _ IH _ v r)|].
  intros E _; exact E.
Qed.
(** strict mode stops at a slash or a NUL or the end *)
Lemma strict_jsonc be s v : Forall is_byte s -> parse false be s = Ok (Some v) ->
  parse true be s = Ok (Some v) \/
  exists j w1 t w2 r, s = w1 ++ t ++ w2 ++ 47 :: r /\ ws w1 /\ ws w2 /\ container j /\
    gvalue ws (lstring (raw_ok be)) false t j /\ v = inject j.
Proof.
  intros Hb H.
  unfold parse, parse_budget in H |- *.
  destruct (skip_ws_cases false s) as [(w1 & c & r & -> & Hw1 & Hc & E)|(w1 & e & r & -> & Hw1 & He & E)];
    rewrite E in H; cbn [bind negb] in H; [|discriminate].
  rewrite (skip_ws_sim _ _ E). cbn [deref bind negb] in *.
  destruct ((c =? 91) || (c =? 123)) eqn:Ec; [|discriminate].
  set (d := length (w1 ++ c :: r)) in *.
  set (x := if c =? 91 then parse_array false (parse_value false be d) (c :: r) else parse_object false be (parse_value false be d) (c :: r)) in *.
  assert (Hsim : sim x (if c =? 91 then parse_array true (parse_value true be d) (c :: r) else parse_object true be (parse_value true be d) (c :: r))).
  { unfold x. destruct (c =? 91); [apply parse_array_sim|apply parse_object_sim]; auto using pv93; apply parse_value_sim. }
  assert (Hwp : wp x (pv_post false be (c :: r)) (d < length (c :: r))%nat).
  { apply Forall_app_r in Hb. subst x. destruct (N.eqb_spec c 91) as [->|Hn].
    - eapply wp_mono; [apply (parse_array_wp false be d); auto|auto|cbn [length]; lia].
    - assert (c = 123) as -> by lia.
      eapply wp_mono; [apply (parse_object_wp false be d); auto|auto|cbn [length]; lia]. }
  destruct x as [[v0 cur]| | | |] eqn:Ex; cbn [bind] in H; try discriminate. cbn [wp] in Hwp.
  destruct (valid v0) eqn:Ev; cbn [negb] in H; [|discriminate].
  rewrite (Hsim _ _ eq_refl Ev). cbn [bind]. rewrite Ev. cbn [negb].
  destruct (Hwp Ev) as (t & j & Et & Hg & Hdj & Ej). cbn [fst snd] in *.
  destruct (skip_ws_cases false cur) as [(w2 & c2 & r2 & -> & Hw2 & Hc2 & E2)|(w2 & e & r2 & -> & Hw2 & He & E2)];
    rewrite E2 in H; cbn [bind] in H; [discriminate|]. injection H as ->.
  destruct He as [-> | (r3 & [-> | ->])].
  - left. destruct (skip_ws_stop true w2 []) as (r' & ->); [now apply ws_cws|left; auto|reflexivity].
  - left. destruct (skip_ws_stop true w2 (0 :: r3)) as (r' & ->); [now apply ws_cws|right; left; eauto|reflexivity].
  - right. exists j, w1, t, w2, r3. splits; auto.
    + rewrite Et. reflexivity.
    + assert (Hcc : c = 91 \/ c = 123) by lia.
      destruct Hg as [| | |s Hs|t s (b & -> & _)|w' Hw'|t l Hl|w' Hw'|t m Hm]; cbn; auto;
        try (cbn in Et; injection Et as -> _; lia).
      destruct (gnumber_head _ Hs) as (x1 & y1 & -> & Hx). cbn in Et. injection Et as <- _. unfold digit in Hx. lia.
Qed.

(** ** Texts end with the closing bracket *)
Lemma container_last W STR tc t j : gvalue W STR tc t j -> container j ->
  exists a c, t = a ++ [c] /\ (c = 93 \/ c = 125).
Proof.
  destruct 1; cbn; try contradiction; intros _.
  - exists (91 :: w), 93. auto.
  - exists (91 :: t), 93. auto.
  - exists (123 :: w), 125. auto.
  - exists (123 :: t), 125. auto.
Qed.
Lemma snoc_inv {A} (l : list A) : l = [] \/ exists a x, l = a ++ [x].
Proof. destruct l using rev_ind; eauto. Qed.
Lemma snoc_eq {A} (a b : list A) x y : a ++ [x] = b ++ [y] -> a = b /\ x = y.
Proof. apply app_inj_tail. Qed.
(** an RFC document ends with a bracket or white space *)
Lemma rfc_last p c j : rfc_document (p ++ [c]) j -> c = 93 \/ c = 125 \/ wschar c.
Proof.
  intros (w1 & t & w2 & E & Hw1 & Hw2 & Hc & Hg).
  destruct (container_last _ _ _ _ _ Hg Hc) as (a & d & -> & Hd).
  destruct (snoc_inv w2) as [-> | (b & x & ->)].
  - rewrite app_nil_r, app_assoc in E. apply snoc_eq in E as [_ ->]. tauto.
  - rewrite !app_assoc in E. apply snoc_eq in E as [_ ->].
    apply Forall_app_r in Hw2. inversion Hw2; auto.
Qed.

(** ** Every stack size is exceeded by some input *)
Lemma nest_stack jsonc be : forall d r, parse_value jsonc be d (repeat 91 (S d) ++ r) = Stack.
Proof.
  induction d as [|d IH]; intros r; [reflexivity|].
  change (repeat 91 (S (S d)) ++ r) with (91 :: repeat 91 (S d) ++ r).
  cbn [parse_value deref bind N.eqb Pos.eqb orb]. change (isdigit 91) with false. cbv iota.
  unfold parse_array. cbn [deref bind N.eqb Pos.eqb negb advance].
  cbn [repeat app]. rewrite skip_ws_nows by (unfold token, wschar; lia). cbn [bind negb deref N.eqb Pos.eqb].
  cbn [array_loop]. rewrite skip_ws_nows by (unfold token, wschar; lia). cbn [bind negb deref N.eqb Pos.eqb].
  rewrite andb_false_r. specialize (IH r). cbn [repeat app] in IH. rewrite IH. reflexivity.
Qed.
Lemma stack_unbounded jsonc be d r : parse_budget jsonc be d (repeat 91 (S (S d)) ++ r) = Stack.
Proof.
  unfold parse_budget. change (repeat 91 (S (S d)) ++ r) with (91 :: repeat 91 (S d) ++ r).
  rewrite skip_ws_nows by (unfold token, wschar; lia). cbn [bind negb deref N.eqb Pos.eqb orb].
  unfold parse_array. cbn [deref bind N.eqb Pos.eqb negb advance].
  cbn [repeat app]. rewrite skip_ws_nows by (unfold token, wschar; lia). cbn [bind negb deref N.eqb Pos.eqb].
  cbn [array_loop]. rewrite skip_ws_nows by (unfold token, wschar; lia). cbn [bind negb deref N.eqb Pos.eqb].
  rewrite andb_false_r. pose proof (nest_stack jsonc be d r) as IH. cbn [repeat app] in IH. rewrite IH. reflexivity.
Qed.
