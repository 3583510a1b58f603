(** * The grammars are unambiguous: a text denotes at most one document. *)
From Verif Require Import Base Value Packed Parser Spec BaseProofs PackedProofs LexProofs StringProofs ParserProofs ParserComplete GrammarProofs Utf8Proofs PropsParse.

Lemma esc_fun l c c' : esc l c -> esc l c' -> c = c'.
Proof. intros H H'. destruct H; inversion H'; reflexivity. Qed.
Lemma lchars_det raw ph body out : lchars raw ph body out -> forall body' out' x y, lchars raw ph body' out' ->
  body ++ 34 :: x = body' ++ 34 :: y -> body = body' /\ out = out' /\ x = y.
Proof.
  induction 1 as [|ph c t s Hc Ho H IH|l c t s He H IH|ph h cp t s Hh Hs H IH|h hi t s Hh Hi H IH|hi h lo t s Hh Hl H IH];
    intros body' out' x y HL E.
  - destruct body' as [|c' b']; cbn in E.
    + injection E as E. inversion HL; subst. auto.
    + injection E as E0 E. subst c'. inversion HL; subst. unfold unescaped in *. lia.
  - cbn [app] in E. destruct Hc as (Hc1 & Hc2 & Hc3). symmetry in E. apply body_head in E; auto. destruct E as (b & -> & E).
    inversion HL; subst; try congruence. symmetry in E. eapply IH in E; [|eassumption]. destruct E as (-> & -> & ->). auto.
  - cbn [app] in E. symmetry in E. apply body_head in E; [|lia]. destruct E as (b & -> & E).
    inversion HL; subst; try (unfold unescaped in *; tauto); cbn [app] in E; injection E as E0 E; subst; try (exfalso; eapply no_esc_u; eassumption).
    symmetry in E. eapply IH in E; [|eassumption]. destruct E as (-> & -> & ->).
    match goal with A : esc l ?a, B : esc l ?b |- _ => rewrite (esc_fun l a b A B) end. auto.
  - cbn [app] in E. symmetry in E. apply body_head in E; [|lia]. destruct E as (b & -> & E). apply body_head in E; [|lia]. destruct E as (b1 & -> & E).
    inversion HL as [|? ? ? ? Hc|? ? ? ? He|? h' cp' t' ? Hh' Hs' Hg|h' hi' t' ? Hh' Hi' Hg|hi' h' lo' t' ? Hh' Hl' Hg]; subst.
    + now apply not_unescaped in Hc.
    + now apply no_esc_u in He.
    + hexeq E. subst. symmetry in E. eapply IH in E; [|eassumption]. destruct E as (-> & -> & ->). auto.
    + hexeq E. subst. exfalso. apply Hs. sur.
    + hexeq E. subst. exfalso. apply Hs. sur.
  - cbn [app] in E. symmetry in E. apply body_head in E; [|lia]. destruct E as (b & -> & E). apply body_head in E; [|lia]. destruct E as (b1 & -> & E).
    inversion HL as [|? ? ? ? Hc|? ? ? ? He|? h' cp' t' ? Hh' Hs' Hg|h' hi' t' ? Hh' Hi' Hg|hi' h' lo' t' ? Hh' Hl' Hg]; subst.
    + now apply not_unescaped in Hc.
    + now apply no_esc_u in He.
    + hexeq E. subst. exfalso. apply Hs'. sur.
    + hexeq E. subst. symmetry in E. eapply IH in E; [|eassumption]. destruct E as (-> & -> & ->). auto.
  - cbn [app] in E. symmetry in E. apply body_head in E; [|lia]. destruct E as (b & -> & E). apply body_head in E; [|lia]. destruct E as (b1 & -> & E).
    inversion HL as [|? ? ? ? Hc|? ? ? ? He|? h' cp' t' ? Hh' Hs' Hg|h' hi' t' ? Hh' Hi' Hg|hi' h' lo' t' ? Hh' Hl' Hg]; subst.
    + now apply not_unescaped in Hc.
    + hexeq E. subst. exfalso. apply Hs'. sur.
    + hexeq E. subst. symmetry in E. eapply IH in E; [|eassumption]. destruct E as (-> & -> & ->). auto.
Qed.
Lemma lstring_det raw t s t' s' x y : lstring raw t s -> lstring raw t' s' -> t ++ x = t' ++ y -> t = t' /\ s = s'.
Proof.
  intros (b & -> & H) (b' & -> & H') E. cbn [app] in E. injection E as E. rewrite <- !app_assoc in E. cbn [app] in E.
  destruct (lchars_det _ _ _ _ H _ _ _ _ H' E) as (-> & -> & _). auto.
Qed.
Lemma gnumber_det t t' c c' r r' : gnumber t -> gnumber t' -> numstop c -> numstop c' ->
  t ++ c :: r = t' ++ c' :: r' -> t = t'.
Proof.
  intros H H' Hc Hc' E. pose proof (parse_number_ok t c r H Hc) as P. rewrite E, (parse_number_ok t' c' r' H' Hc') in P.
  now injection P as ->.
Qed.

Section Det.
  Context (jsonc : bool).
  Let W := wsp jsonc.
  Let STR := lstring true.
  Lemma ws_det w w' c c' r r' : W w -> W w' -> token c -> token c' -> w ++ c :: r = w' ++ c' :: r' ->
    w = w' /\ c = c' /\ r = r'.
  Proof.
    intros Hw Hw' Hc Hc' E. pose proof (skip_ws_token jsonc w c r Hw Hc) as P.
    rewrite E, (skip_ws_token jsonc w' c' r' Hw' Hc') in P. injection P as -> ->.
    apply app_inv_tail in E. auto.
  Qed.
  Lemma gv_head t j : gvalue W STR jsonc t j -> exists c r, t = c :: r /\ token c /\ c <> 93 /\ c <> 125.
  Proof.
    unfold token, wschar.
    destruct 1 as [| | |s H|t s (body & -> & _)|w Hw|t l H|w Hw|t m H].
    1-3, 5-9: cbn; do 2 eexists; splits; lia.
    destruct (gnumber_head s H) as (c & r & -> & Hc). exists c, r. unfold digit in Hc. splits; lia.
  Qed.
  Lemma ge_head t l : gelems W STR jsonc t l -> exists w c r, t = w ++ c :: r /\ W w /\ token c /\ c <> 93.
  Proof.
    destruct 1 as [w1 t w2 j A B C|w1 t w2 w3 j A B C D F|w1 t w2 j ts l A B C D];
      destruct (gv_head _ _ ltac:(eassumption)) as (x & y & -> & Hx & Hx93 & _); eexists w1, x, _; splits; auto.
  Qed.
  Lemma gm_head t m : gmembers W STR jsonc t m -> exists w c r, t = w ++ c :: r /\ W w /\ token c /\ c <> 125.
  Proof.
    destruct 1 as [w1 kt w2 w3 t w4 k j A (kb & -> & K)|w1 kt w2 w3 t w4 w5 k j Z A (kb & -> & K)|w1 kt w2 w3 t w4 k j ts m A (kb & -> & K) B C D E F];
      eexists w1, 34, _; splits; auto using token34; lia.
  Qed.
  Lemma ge_not_ws w t l r r' : W w -> gelems W STR jsonc t l -> w ++ 93 :: r = t ++ 93 :: r' -> False.
  Proof.
    intros Hw Hg E. destruct (ge_head _ _ Hg) as (w' & c & x & -> & Hw' & Hc & H93). rewrite <- app_assoc in E. cbn [app] in E.
    apply ws_det in E; auto using token93. destruct E as (_ & E & _). congruence.
  Qed.
  Lemma gm_not_ws w t l r r' : W w -> gmembers W STR jsonc t l -> w ++ 125 :: r = t ++ 125 :: r' -> False.
  Proof.
    intros Hw Hg E. destruct (gm_head _ _ Hg) as (w' & c & x & -> & Hw' & Hc & H93). rewrite <- app_assoc in E. cbn [app] in E.
    apply ws_det in E; auto using token125. destruct E as (_ & E & _). congruence.
  Qed.
  Definition DV (t : bytes) (j : json) : Prop := forall t' j' r r', gvalue W STR jsonc t' j' -> t ++ r = t' ++ r' ->
    follows j r -> follows j' r' -> t = t' /\ j = j'.
  Definition DE (t : bytes) (l : list json) : Prop := forall t' l' r r', gelems W STR jsonc t' l' -> t ++ 93 :: r = t' ++ 93 :: r' ->
    t = t' /\ l = l'.
  Definition DM (t : bytes) (l : list (bytes * json)) : Prop := forall t' l' r r', gmembers W STR jsonc t' l' -> t ++ 125 :: r = t' ++ 125 :: r' ->
    t = t' /\ l = l'.
  Lemma follows_ws j w c r : W w -> numstop c -> follows j (w ++ c :: r).
  Proof. intros Hw Hc. right. exact (wsp_numstop jsonc w c r Hw Hc). Qed.
  Lemma value_det w1 t w2 j c r w1' t' w2' j' c' r' : DV t j -> gvalue W STR jsonc t j -> gvalue W STR jsonc t' j' ->
    W w1 -> W w2 -> W w1' -> W w2' -> token c -> token c' -> numstop c -> numstop c' ->
    w1 ++ t ++ w2 ++ c :: r = w1' ++ t' ++ w2' ++ c' :: r' ->
    w1 = w1' /\ t = t' /\ j = j' /\ w2 = w2' /\ c = c' /\ r = r'.
  Proof.
    intros HD Hg Hg' H1 H2 H1' H2' Hc Hc' Hn Hn' E.
    destruct (gv_head _ _ Hg) as (x & y & Et & Hx & _), (gv_head _ _ Hg') as (x' & y' & Et' & Hx' & _).
    assert (E1 : w1 = w1' /\ t ++ w2 ++ c :: r = t' ++ w2' ++ c' :: r').
    { rewrite Et, Et' in E |- *. cbn [app] in E |- *. apply ws_det in E; auto. destruct E as (-> & -> & ->). auto. }
    clear E. destruct E1 as [-> E].
    destruct (HD _ _ _ _ Hg' E) as [-> ->]; auto using follows_ws.
    apply app_inv_head in E. apply ws_det in E; auto 10.
  Qed.
  Lemma key_det w1 kt k w2 r w1' kt' k' w2' r' : STR kt k -> STR kt' k' -> W w1 -> W w2 -> W w1' -> W w2' ->
    w1 ++ kt ++ w2 ++ 58 :: r = w1' ++ kt' ++ w2' ++ 58 :: r' ->
    w1 = w1' /\ kt = kt' /\ k = k' /\ w2 = w2' /\ r = r'.
  Proof.
    intros Hk Hk' H1 H2 H1' H2' E.
    destruct (lstring_quote _ _ _ Hk) as (y & Et), (lstring_quote _ _ _ Hk') as (y' & Et').
    assert (E1 : w1 = w1' /\ kt ++ w2 ++ 58 :: r = kt' ++ w2' ++ 58 :: r').
    { rewrite Et, Et' in E |- *. cbn [app] in E |- *. apply ws_det in E; auto using token34. destruct E as (-> & _ & ->). auto. }
    clear E. destruct E1 as [-> E]. destruct (lstring_det _ _ _ _ _ _ _ Hk Hk' E) as [-> ->].
    apply app_inv_head in E. apply ws_det in E; auto using token58. destruct E as (-> & _ & ->). splits; auto.
  Qed.
  Lemma gv_first t j c r : gvalue W STR jsonc t j -> t = c :: r ->
    (c = 110 -> t = of_string "null" /\ j = JNull) /\ (c = 116 -> t = of_string "true" /\ j = JBool true) /\
    (c = 102 -> t = of_string "false" /\ j = JBool false) /\
    (c = 34 -> exists s, j = JStr s /\ STR t s) /\
    ((c = 45 \/ digit c) -> j = JNum t /\ gnumber t) /\
    (c = 91 -> (exists w, W w /\ t = [91] ++ w ++ [93] /\ j = JArr []) \/ exists u l, gelems W STR jsonc u l /\ t = [91] ++ u ++ [93] /\ j = JArr l) /\
    (c = 123 -> (exists w, W w /\ t = [123] ++ w ++ [125] /\ j = JObj []) \/ exists u l, gmembers W STR jsonc u l /\ t = [123] ++ u ++ [125] /\ j = JObj l).
  Proof.
    destruct 1 as [| | |s H|t s H|w Hw|t l H|w Hw|t m H]; intros E; try (cbn in E; injection E as <- _; unfold digit; splits; intros; try lia; eauto 7; fail).
    - destruct (gnumber_head _ H) as (x & y & E' & Hx). rewrite E in E'. injection E' as -> ->. unfold digit in *. splits; intros; try lia; auto.
    - destruct H as (b & -> & H). injection E as <- _. unfold digit. splits; intros; try lia. exists s. split; auto. exists b. auto.
  Qed.
  Lemma grammar_det :
    (forall t j, gvalue W STR jsonc t j -> DV t j) /\ (forall t l, gelems W STR jsonc t l -> DE t l) /\
    (forall t m, gmembers W STR jsonc t m -> DM t m).
  Proof.
    apply grammar_ind.
    - intros t' j' r r' Hg E _ _. destruct (gv_head _ _ Hg) as (c & y & Et & _). pose proof (gv_first _ _ _ _ Hg Et) as F.
      rewrite Et in E. cbn [of_string app] in E. injection E as E _. destruct F as (F & _). destruct F as [-> ->]; auto.
    - intros t' j' r r' Hg E _ _. destruct (gv_head _ _ Hg) as (c & y & Et & _). pose proof (gv_first _ _ _ _ Hg Et) as F.
      rewrite Et in E. cbn [of_string app] in E. injection E as E _. destruct F as (_ & F & _). destruct F as [-> ->]; auto.
    - intros t' j' r r' Hg E _ _. destruct (gv_head _ _ Hg) as (c & y & Et & _). pose proof (gv_first _ _ _ _ Hg Et) as F.
      rewrite Et in E. cbn [of_string app] in E. injection E as E _. destruct F as (_ & _ & F & _). destruct F as [-> ->]; auto.
    - intros s Hs t' j' r r' Hg E Hf Hf'. destruct (gv_head _ _ Hg) as (c & y & Et & _). pose proof (gv_first _ _ _ _ Hg Et) as F.
      destruct (gnumber_head _ Hs) as (x & z & Es & Hx).
      assert (x = c) by (rewrite Es, Et in E; now injection E). subst x.
      destruct F as (_ & _ & _ & _ & F & _). destruct (F Hx) as [-> Hn].
      destruct Hf as [[]|(x & r1 & -> & Hx1)], Hf' as [[]|(x' & r1' & -> & Hx1')].
      rewrite (gnumber_det s t' x x' r1 r1' Hs Hn Hx1 Hx1' E). auto.
    - intros t s Hs t' j' r r' Hg E _ _. destruct (gv_head _ _ Hg) as (c & y & Et & _). pose proof (gv_first _ _ _ _ Hg Et) as F.
      destruct (lstring_quote _ _ _ Hs) as (z & Ez).
      assert (c = 34) by (rewrite Ez, Et in E; now injection E). subst c.
      destruct F as (_ & _ & _ & F & _). destruct (F eq_refl) as (s' & -> & Hs').
      destruct (lstring_det _ _ _ _ _ _ _ Hs Hs' E) as [-> ->]. auto.
    - intros w Hw t' j' r r' Hg E _ _. destruct (gv_head _ _ Hg) as (c & y & Et & _). pose proof (gv_first _ _ _ _ Hg Et) as F.
      assert (c = 91) by (rewrite Et in E; now injection E). subst c.
      destruct F as (_ & _ & _ & _ & _ & F & _). destruct (F eq_refl) as [(w' & Hw' & -> & ->)|(u & l & Hl & -> & ->)];
        cbn [app] in E; injection E as E; rewrite <- !app_assoc in E; cbn [app] in E.
      + apply ws_det in E; auto using token93. destruct E as (-> & _). auto.
      + destruct (ge_not_ws _ _ _ _ _ Hw Hl E).
    - intros t l Hl IH t' j' r r' Hg E _ _. destruct (gv_head _ _ Hg) as (c & y & Et & _). pose proof (gv_first _ _ _ _ Hg Et) as F.
      assert (c = 91) by (rewrite Et in E; now injection E). subst c.
      destruct F as (_ & _ & _ & _ & _ & F & _). destruct (F eq_refl) as [(w' & Hw' & -> & ->)|(u & l' & Hl' & -> & ->)];
        cbn [app] in E; injection E as E; rewrite <- !app_assoc in E; cbn [app] in E.
      + symmetry in E. destruct (ge_not_ws _ _ _ _ _ Hw' Hl E).
      + destruct (IH _ _ _ _ Hl' E) as [-> ->]. auto.
    - intros w Hw t' j' r r' Hg E _ _. destruct (gv_head _ _ Hg) as (c & y & Et & _). pose proof (gv_first _ _ _ _ Hg Et) as F.
      assert (c = 123) by (rewrite Et in E; now injection E). subst c.
      destruct F as (_ & _ & _ & _ & _ & _ & F). destruct (F eq_refl) as [(w' & Hw' & -> & ->)|(u & l & Hl & -> & ->)];
        cbn [app] in E; injection E as E; rewrite <- !app_assoc in E; cbn [app] in E.
      + apply ws_det in E; auto using token125. destruct E as (-> & _). auto.
      + destruct (gm_not_ws _ _ _ _ _ Hw Hl E).
    - intros t l Hl IH t' j' r r' Hg E _ _. destruct (gv_head _ _ Hg) as (c & y & Et & _). pose proof (gv_first _ _ _ _ Hg Et) as F.
      assert (c = 123) by (rewrite Et in E; now injection E). subst c.
      destruct F as (_ & _ & _ & _ & _ & _ & F). destruct (F eq_refl) as [(w' & Hw' & -> & ->)|(u & l' & Hl' & -> & ->)];
        cbn [app] in E; injection E as E; rewrite <- !app_assoc in E; cbn [app] in E.
      + symmetry in E. destruct (gm_not_ws _ _ _ _ _ Hw' Hl E).
      + destruct (IH _ _ _ _ Hl' E) as [-> ->]. auto.
    - intros w1 t w2 j H1 Hg IH H2 t' l' r r' Hl' E.
      destruct Hl' as [w1' t' w2' j' H1' Hg' H2'|w1' t' w2' w3' j' Ht' H1' Hg' H2' H3'|w1' t' w2' j' ts' l' H1' Hg' H2' Hl'];
        repeat rewrite <- app_assoc in E; cbn [app] in E;
        apply (value_det w1 t w2 j _ _ _ _ _ _ _ _ IH Hg Hg') in E; auto using token93, token44, numstop93, numstop44;
        destruct E as (-> & -> & -> & -> & E & _); [auto|discriminate..].
    - intros w1 t w2 w3 j Ht H1 Hg IH H2 H3 t' l' r r' Hl' E.
      destruct Hl' as [w1' t' w2' j' H1' Hg' H2'|w1' t' w2' w3' j' Ht' H1' Hg' H2' H3'|w1' t' w2' j' ts' l' H1' Hg' H2' Hl'];
        repeat rewrite <- app_assoc in E; cbn [app] in E;
        apply (value_det w1 t w2 j _ _ _ _ _ _ _ _ IH Hg Hg') in E; auto using token93, token44, numstop93, numstop44;
        destruct E as (-> & -> & -> & -> & E0 & E); [discriminate| |].
      + apply ws_det in E; auto using token93. destruct E as (-> & _). auto.
      + destruct (ge_not_ws _ _ _ _ _ H3 Hl' E).
    - intros w1 t w2 j ts l H1 Hg IH H2 Hl IHl t' l' r r' Hl' E.
      destruct Hl' as [w1' t' w2' j' H1' Hg' H2'|w1' t' w2' w3' j' Ht' H1' Hg' H2' H3'|w1' t' w2' j' ts' l' H1' Hg' H2' Hl'];
        repeat rewrite <- app_assoc in E; cbn [app] in E;
        apply (value_det w1 t w2 j _ _ _ _ _ _ _ _ IH Hg Hg') in E; auto using token93, token44, numstop93, numstop44;
        destruct E as (-> & -> & -> & -> & E0 & E); [discriminate| |].
      + symmetry in E. destruct (ge_not_ws _ _ _ _ _ H3' Hl E).
      + destruct (IHl _ _ _ _ Hl' E) as [-> ->]. auto.
    - intros w1 kt w2 w3 t w4 k j H1 Hk H2 H3 Hg IH H4 t' l' r r' Hl' E.
      destruct Hl' as [w1' kt' w2' w3' t' w4' k' j' H1' Hk' H2' H3' Hg' H4'|w1' kt' w2' w3' t' w4' w5' k' j' Ht' H1' Hk' H2' H3' Hg' H4' H5'|w1' kt' w2' w3' t' w4' k' j' ts' m' H1' Hk' H2' H3' Hg' H4' Hm'];
        repeat rewrite <- app_assoc in E; cbn [app] in E;
        apply (key_det _ _ _ _ _ _ _ _ _ _ Hk Hk' H1 H2 H1' H2') in E; destruct E as (-> & -> & -> & -> & E);
        apply (value_det w3 t w4 j _ _ _ _ _ _ _ _ IH Hg Hg') in E; auto using token125, token44, numstop125, numstop44;
        destruct E as (-> & -> & -> & -> & E0 & E); [auto|discriminate..].
    - intros w1 kt w2 w3 t w4 w5 k j Ht H1 Hk H2 H3 Hg IH H4 H5 t' l' r r' Hl' E.
      destruct Hl' as [w1' kt' w2' w3' t' w4' k' j' H1' Hk' H2' H3' Hg' H4'|w1' kt' w2' w3' t' w4' w5' k' j' Ht' H1' Hk' H2' H3' Hg' H4' H5'|w1' kt' w2' w3' t' w4' k' j' ts' m' H1' Hk' H2' H3' Hg' H4' Hm'];
        repeat rewrite <- app_assoc in E; cbn [app] in E;
        apply (key_det _ _ _ _ _ _ _ _ _ _ Hk Hk' H1 H2 H1' H2') in E; destruct E as (-> & -> & -> & -> & E);
        apply (value_det w3 t w4 j _ _ _ _ _ _ _ _ IH Hg Hg') in E; auto using token125, token44, numstop125, numstop44;
        destruct E as (-> & -> & -> & -> & E0 & E); [discriminate| |].
      + apply ws_det in E; auto using token125. destruct E as (-> & _). auto.
      + destruct (gm_not_ws _ _ _ _ _ H5 Hm' E).
    - intros w1 kt w2 w3 t w4 k j ts m H1 Hk H2 H3 Hg IH H4 Hm IHm t' l' r r' Hl' E.
      destruct Hl' as [w1' kt' w2' w3' t' w4' k' j' H1' Hk' H2' H3' Hg' H4'|w1' kt' w2' w3' t' w4' w5' k' j' Ht' H1' Hk' H2' H3' Hg' H4' H5'|w1' kt' w2' w3' t' w4' k' j' ts' m' H1' Hk' H2' H3' Hg' H4' Hm'];
        repeat rewrite <- app_assoc in E; cbn [app] in E;
        apply (key_det _ _ _ _ _ _ _ _ _ _ Hk Hk' H1 H2 H1' H2') in E; destruct E as (-> & -> & -> & -> & E);
        apply (value_det w3 t w4 j _ _ _ _ _ _ _ _ IH Hg Hg') in E; auto using token125, token44, numstop125, numstop44;
        destruct E as (-> & -> & -> & -> & E0 & E); [discriminate| |].
      + symmetry in E. destruct (gm_not_ws _ _ _ _ _ H5' Hm E).
      + destruct (IHm _ _ _ _ Hm' E) as [-> ->]. auto.
  Qed.
  (** containers need no delimiter *)
  Lemma container_det t j t' j' r r' : gvalue W STR jsonc t j -> gvalue W STR jsonc t' j' -> container j -> container j' ->
    t ++ r = t' ++ r' -> t = t' /\ j = j' /\ r = r'.
  Proof.
    intros Hg Hg' Hc Hc' E. destruct (proj1 grammar_det _ _ Hg _ _ _ _ Hg' E) as [-> ->]; [left; auto|left; auto|].
    apply app_inv_head in E. auto.
  Qed.
  Lemma doc_container_det w t r j w' t' r' j' : W w -> W w' -> gvalue W STR jsonc t j -> gvalue W STR jsonc t' j' ->
    container j -> container j' -> w ++ t ++ r = w' ++ t' ++ r' -> w = w' /\ t = t' /\ j = j' /\ r = r'.
  Proof.
    intros Hw Hw' Hg Hg' Hc Hc' E.
    destruct (gv_head _ _ Hg) as (x & y & Et & Hx & _), (gv_head _ _ Hg') as (x' & y' & Et' & Hx' & _).
    assert (E1 : w = w' /\ t ++ r = t' ++ r').
    { rewrite Et, Et' in E |- *. cbn [app] in E |- *. apply ws_det in E; auto. destruct E as (-> & -> & ->). auto. }
    destruct E1 as [-> E1]. destruct (container_det _ _ _ _ _ _ Hg Hg' Hc Hc' E1) as (-> & -> & ->). auto.
  Qed.
End Det.

Lemma lstring_true raw t s : lstring raw t s -> lstring true t s.
Proof. destruct raw; auto. intros (b & -> & H). exists b. split; auto using lchars_weaken. Qed.
Lemma accepted_true jsonc raw s j : accepted_document jsonc raw s j -> accepted_document jsonc true s j.
Proof.
  intros (w1 & t & w2 & e & -> & Hw1 & Hw2 & He & Hc & Hg). exists w1, t, w2, e. splits; auto.
  eapply gvalue_weaken; [| | |exact Hg]; auto. intros ? ?. apply lstring_true.
Qed.
(** a text denotes at most one document *)
Lemma accepted_fun jsonc raw raw' s j j' : accepted_document jsonc raw s j -> accepted_document jsonc raw' s j' -> j = j'.
Proof.
  intros H H'. apply accepted_true in H, H'.
  destruct H as (w1 & t & w2 & e & -> & Hw1 & Hw2 & He & Hc & Hg), H' as (w1' & t' & w2' & e' & E & Hw1' & Hw2' & He' & Hc' & Hg').
  now destruct (doc_container_det jsonc _ _ _ _ _ _ _ _ Hw1 Hw1' Hg Hg' Hc Hc' E) as (_ & _ & -> & _).
Qed.
Lemma rfc_fun s j j' : rfc_document s j -> rfc_document s j' -> j = j'.
Proof. intros H H'. eapply accepted_fun; eapply rfc_accepted; eassumption. Qed.
Lemma jsonc_fun s j j' : jsonc_document s j -> jsonc_document s j' -> j = j'.
Proof. intros H H'. eapply accepted_fun; eapply jsonc_accepted; eassumption. Qed.
Lemma repeated_rejected_raw jsonc be raw s j : Forall is_byte s -> accepted_document jsonc raw s j -> ~ distinct j ->
  parse jsonc be s = Ok None.
Proof.
  intros Hb Ha Hd. destruct (parse_total jsonc be s Hb) as ([v|] & Ho & HP); [|exact Ho].
  destruct HP as (j' & Ha' & Hd' & _). rewrite (accepted_fun _ _ _ _ _ _ Ha Ha') in Hd. contradiction.
Qed.
(** a proper beginning of a container text is rejected *)
Lemma prefix_rejected jsonc be t j p q : gvalue (wsp jsonc) gstring jsonc t j -> container j -> t = p ++ q -> q <> [] ->
  Forall is_byte t -> parse jsonc be p = Ok None.
Proof.
  intros Hg Hc E Hq Hb. subst t. apply reject_if; [now apply Forall_app in Hb|].
  intros j' Ha. apply accepted_true in Ha. destruct Ha as (w1 & t' & w2 & e & E & Hw1 & Hw2 & He & Hc' & Hg').
  assert (Hg2 : gvalue (wsp jsonc) (lstring true) jsonc (p ++ q) j).
  { eapply gvalue_weaken; [| | |exact Hg]; auto. intros ? ?. apply gstring_lstring. }
  assert (E' : [] ++ (p ++ q) ++ [] = w1 ++ t' ++ (w2 ++ e ++ q)).
  { cbn [app]. rewrite app_nil_r, E. now rewrite <- !app_assoc. }
  apply (doc_container_det jsonc _ _ _ _ _ _ _ _ (wsp_nil jsonc) Hw1 Hg2 Hg' Hc Hc') in E'.
  destruct E' as (_ & _ & _ & E'). destruct w2; [|discriminate]. destruct e; [|discriminate]. cbn in E'. congruence.
Qed.
