(** * UTF-8 validity: cutting at ASCII bytes, decoding string bodies. *)
From Verif Require Import Base Value Packed Parser Spec BaseProofs PackedProofs LexProofs StringProofs ParserProofs ParserComplete GrammarProofs.

Lemma utf8_valid_nil : utf8_valid [].
Proof. exists []. split; [constructor|reflexivity]. Qed.
Lemma utf8_valid_app a b : utf8_valid a -> utf8_valid b -> utf8_valid (a ++ b).
Proof.
  intros (x & Hx & ->) (y & Hy & ->). exists (x ++ y). split; [now apply Forall_app|].
  now rewrite map_app, concat_app.
Qed.
Lemma utf8_valid_cp cp : scalar_value cp -> utf8_valid (utf8 cp).
Proof. intros H. exists [cp]. split; [auto|]. cbn. now rewrite app_nil_r. Qed.
Lemma utf8_valid_ascii c : c < 128 -> utf8_valid [c].
Proof.
  intros H. replace [c] with (utf8 c) by (unfold utf8; destruct (N.ltb_spec c 128); [reflexivity|lia]).
  apply utf8_valid_cp. unfold scalar_value, surrogate. lia.
Qed.
Lemma utf8_valid_cons c s : c < 128 -> utf8_valid s -> utf8_valid (c :: s).
Proof. intros Hc Hs. apply (utf8_valid_app [c]); auto using utf8_valid_ascii. Qed.
Lemma utf8_valid_asciis s : Forall (fun c => c < 128) s -> utf8_valid s.
Proof. induction 1; auto using utf8_valid_nil, utf8_valid_cons. Qed.
Lemma utf8_shape cp : (exists c, utf8 cp = [c] /\ c < 128) \/ Forall (fun c => 128 <= c) (utf8 cp).
Proof.
  unfold utf8. destruct (N.ltb_spec cp 128) as [H|H]; [left; eauto|right].
  destruct (cp <? 2048); [|destruct (cp <? 65536)]; repeat constructor; lia.
Qed.
Lemma utf8_nonempty cp : utf8 cp <> [].
Proof. unfold utf8. destruct (cp <? 128), (cp <? 2048), (cp <? 65536); discriminate. Qed.
Lemma utf8_split a c b : c < 128 -> utf8_valid (a ++ c :: b) -> utf8_valid a /\ utf8_valid b.
Proof.
  intros Hc (cps & Hs & E). revert a E. induction Hs as [|cp cps Hcp Hs IH]; intros a E; cbn in E.
  - destruct a; discriminate.
  - apply app_eq_app in E. destruct E as (l & [(E1 & E2) | (E1 & E2)]).
    + symmetry in E2. destruct (IH _ E2) as [H1 H2]. split; auto. subst a. apply utf8_valid_app; auto using utf8_valid_cp.
    + destruct l as [|c' l]; cbn in E2.
      * rewrite app_nil_r in E1. subst a. rewrite <- E2 in IH. destruct (IH [] eq_refl) as [_ H2].
        split; auto using utf8_valid_cp.
      * injection E2 as <- E2. destruct (utf8_shape cp) as [(c0 & Ec & H0)|Hg].
        -- rewrite Ec in E1. destruct a as [|? [|? ?]]; cbn in E1; try discriminate. injection E1 as -> <-.
           split; [apply utf8_valid_nil|]. subst b. cbn. exists cps. auto.
        -- rewrite E1 in Hg. apply Forall_app_r in Hg. inversion Hg; subst. lia.
Qed.
Lemma utf8_asciis h t : Forall (fun c => c < 128) h -> utf8_valid (h ++ t) -> utf8_valid t.
Proof.
  induction 1 as [|c h Hc _ IH]; cbn; auto. intros H. apply IH. now apply (utf8_split [] c (h ++ t)) in H.
Qed.
Lemma hex4_ascii h cp : hex4 h cp -> Forall (fun c => c < 128) h.
Proof. intros [a b c d a' b' c' d' Ha Hb Hc Hd]. destruct Ha, Hb, Hc, Hd; repeat constructor; lia. Qed.
Lemma hex4_lt' h cp : hex4 h cp -> cp < 65536.
Proof. intros [a b c d a' b' c' d' Ha Hb Hc Hd]. destruct Ha, Hb, Hc, Hd; lia. Qed.
Lemma esc_ascii l c : esc l c -> l < 128 /\ c < 128.
Proof. destruct 1; lia. Qed.

Lemma lchars_ph_high raw ph t s : lchars raw ph t s -> (forall hi, ph = Some hi -> high_surrogate hi) ->
  forall pre, utf8_valid (pre ++ t) -> utf8_valid (pre ++ s).
Proof.
  induction 1 as [|ph c t s Hc Ho H IH|l c t s He H IH|ph h cp t s Hh Hs H IH|h hi t s Hh Hi H IH|hi h lo t s Hh Hl H IH];
    intros Hph pre Hv.
  - exact Hv.
  - specialize (IH Hph (pre ++ [c])). rewrite <- !app_assoc in IH. auto.
  - apply utf8_split in Hv; [|lia]. destruct Hv as [Hp Ht]. apply esc_ascii in He.
    apply (utf8_split [] l t) in Ht; [|lia]. destruct Ht as [_ Ht].
    apply utf8_valid_app; auto. apply utf8_valid_cons; [lia|]. now apply (IH Hph []).
  - apply utf8_split in Hv; [|lia]. destruct Hv as [Hp Ht].
    apply (utf8_split [] 117) in Ht; [|lia]. destruct Ht as [_ Ht].
    apply utf8_asciis in Ht; [|eauto using hex4_ascii].
    apply utf8_valid_app; auto. apply utf8_valid_app; [|now apply (IH Hph [])].
    apply utf8_valid_cp. split; auto. apply hex4_lt' in Hh. lia.
  - apply utf8_split in Hv; [|lia]. destruct Hv as [Hp Ht].
    apply (utf8_split [] 117) in Ht; [|lia]. destruct Ht as [_ Ht].
    apply utf8_asciis in Ht; [|eauto using hex4_ascii].
    apply utf8_valid_app; auto. apply (IH) with (pre := []); auto. intros ? [= <-]. exact Hi.
  - apply utf8_split in Hv; [|lia]. destruct Hv as [Hp Ht].
    apply (utf8_split [] 117) in Ht; [|lia]. destruct Ht as [_ Ht].
    apply utf8_asciis in Ht; [|eauto using hex4_ascii].
    apply utf8_valid_app; auto. apply utf8_valid_app; [|apply IH with (pre := []); auto; discriminate].
    specialize (Hph _ eq_refl). unfold high_surrogate, low_surrogate in *.
    apply utf8_valid_cp. unfold scalar_value, surrogate. lia.
Qed.
Lemma lstring_utf8 raw t k s : infix t s -> lstring raw t k -> utf8_valid s -> utf8_valid k.
Proof.
  intros (a & b & ->) (body & -> & H) Hv. cbn in Hv. apply utf8_split in Hv; [|lia]. destruct Hv as [_ Hv].
  rewrite <- app_assoc in Hv. cbn in Hv. apply utf8_split in Hv; [|lia]. destruct Hv as [Hv _].
  apply (lchars_ph_high _ _ _ _ H) with (pre := []); auto. discriminate.
Qed.
Lemma parse_utf8 jsonc be s v : Forall is_byte s -> utf8_valid s -> parse jsonc be s = Ok (Some v) ->
  all_vstrings utf8_valid v.
Proof.
  intros Hb Hu H. destruct (parse_sound jsonc be s v Hb H) as (j & (w1 & t & w2 & e & -> & Hw1 & Hw2 & He & Hc & Hg) & Hd & ->).
  apply all_strings_inject. apply (proj1 (grammar_strings _ _ _ utf8_valid)) in Hg; auto.
  intros kt k Hi Hk. eapply lstring_utf8; [|exact Hk|exact Hu]. eapply infix_trans; [exact Hi|]. infix_tac.
Qed.
