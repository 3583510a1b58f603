(** * Other kinds of sources: when they are read like a std::string, and safety. *)
From Verif Require Import Base Value Packed Parser Source Spec SpecSource BaseProofs PackedProofs LexProofs StringProofs ParserProofs.
From Verif Require PropsParse.
Ltac Zify.zify_post_hook ::= Z.div_mod_to_equations.

Ltac rewr E := match type of E with _ = ?y => match goal with |- context [@bind ?A ?B ?x ?f] => replace x with (y : res A) by (symmetry; exact E) end end.
Definition suffix (r s : bytes) : Prop := exists p, s = p ++ r.
Lemma suffix_refl s : suffix s s. Proof. now exists []. Qed.
Lemma suffix_cons c r s : suffix r s -> suffix r (c :: s).
Proof. intros [p ->]. now exists (c :: p). Qed.
Lemma suffix_tl c r s : suffix (c :: r) s -> suffix r s.
Proof. intros [p ->]. exists (p ++ [c]). now rewrite <- app_assoc. Qed.
Lemma suffix_trans a b c : suffix a b -> suffix b c -> suffix a c.
Proof. intros [p ->] [q ->]. exists (q ++ p). now rewrite app_assoc. Qed.
Lemma suffix_len r s : suffix r s -> (length r <= length s)%nat.
Proof. intros [p ->]. rewrite app_length. lia. Qed.
Lemma suffix_skipn n s : suffix (skipn n s) s.
Proof. exists (firstn n s). symmetry. apply firstn_skipn. Qed.

Section Suffix.
  Context (low : N -> N).
  Lemma drop_suffix s : suffix (t_drop_digits low s) s.
  Proof. induction s as [|c r IH]; cbn [t_drop_digits]; [apply suffix_refl|]. destruct isdigit; [now apply suffix_cons|apply suffix_refl]. Qed.
  Lemma skip_digit_suffix s ok r : t_skip_digit low s = (ok, r) -> suffix r s /\ (ok = true -> r <> [] /\ (length r < length s)%nat).
  Proof.
    destruct s as [|c s]; cbn [t_skip_digit]; [intros [= <- <-]; split; [apply suffix_refl|discriminate]|].
    pose proof (drop_suffix s) as D. destruct isdigit; intros [= <- <-].
    - split; [now apply suffix_cons|]. destruct (t_drop_digits low s) eqn:E; [discriminate|]. intros _. split; [discriminate|].
      apply suffix_len in D. cbn [length] in *. lia.
    - split; [apply suffix_refl|discriminate].
  Qed.
  Lemma hex_loop_wp n : forall cp cur, cur <> [] ->
    exists o r, t_hex_loop low n cp cur = Ok (o, r) /\ suffix r cur /\ (o <> None -> r <> []).
  Proof.
    induction n as [|n IH]; intros cp cur Hn; [do 2 eexists; split; [reflexivity|]; split; [apply suffix_refl|auto]|].
    cbn [t_hex_loop]. destruct cur as [|c cur]; [congruence|]. cbn [advance bind].
    destruct cur as [|d cur]; cbn [at_end]; [do 2 eexists; split; [reflexivity|]; split; [apply suffix_cons, suffix_refl|congruence]|].
    cbn [deref bind]. destruct (t_hex_value low d).
    - destruct (IH (N.lor (N.shiftl cp 4 mod 65536) n0) (d :: cur)) as (o & r & E & S & O); [discriminate|].
      rewrite E. do 2 eexists. split; [reflexivity|]. split; [now apply suffix_cons|auto].
    - do 2 eexists. split; [reflexivity|]. split; [apply suffix_cons, suffix_refl|congruence].
  Qed.
  (** a pending high surrogate is one *)
  Definition pending (ph : N) : Prop := ph = 0 \/ 55296 <= ph.
  Lemma unicode_wp cur ph result : cur <> [] -> pending ph ->
    exists b r ph' s, t_skip_unicode_escape low cur ph result = Ok (b, r, ph', s) /\ suffix r cur /\ pending ph' /\ (b = true -> r <> []).
  Proof.
    intros Hn Hp. unfold t_skip_unicode_escape. destruct (hex_loop_wp 4 0 cur Hn) as (o & r & -> & S & O). cbn [bind].
    destruct o as [cp|]; [|do 4 eexists; split; [reflexivity|]; split; [|split]; auto; discriminate].
    destruct ((55296 <=? cp) && (cp <=? 56319)) eqn:E1.
    - destruct (negb (ph =? 0)); do 4 eexists; (split; [reflexivity|]); (split; [|split]; auto); try (intros _; apply O; congruence); try (intros H; discriminate H).
      right. lia.
    - destruct ((56320 <=? cp) && (cp <=? 57343)) eqn:E2.
      + destruct (ph =? 0) eqn:E3; [do 4 eexists; split; [reflexivity|]; split; [|split]; auto; discriminate|].
        destruct (N.ltb_spec ph 55296) as [H|H]; [destruct Hp; lia|].
        do 4 eexists; split; [reflexivity|]; split; [|split]; auto; [now left|]. intros _. apply O. congruence.
      + do 4 eexists; split; [reflexivity|]; split; [|split]; auto. intros _. apply O. congruence.
  Qed.
End Suffix.

(** ** Safety for any conversion to char, if the block scan is safe *)
Section Safe.
  Context (low : N -> N) (accel : bytes -> res (bool * bytes)) (jsonc : bool).
  Context (Hacc : forall cur, cur <> [] -> exists b r, accel cur = Ok (b, r) /\ suffix r cur /\ (b = true -> r <> [])).
  Lemma str_loop_safe fuel : forall cur result beg ph, (length cur < fuel)%nat -> pending ph ->
    exists so r, t_str_loop low accel fuel cur result beg ph = Ok (so, r) /\ suffix r cur /\ (so <> None -> (length r < length cur)%nat).
  Proof.
    induction fuel as [|f IH]; intros cur result beg ph Hl Hph; [lia|]. cbn [t_str_loop].
    destruct (at_end cur) eqn:Ee; [do 2 eexists; split; [reflexivity|]; split; [apply suffix_refl|congruence]|].
    destruct (Hacc cur) as (b & cur1 & -> & S & B); [destruct cur; discriminate|]. cbn [bind].
    destruct b; cbn [negb]; [|do 2 eexists; split; [reflexivity|]; split; [exact S|congruence]].
    destruct cur1 as [|c cur1]; [destruct (B eq_refl); reflexivity|]. cbn [deref bind].
    assert (Hl1 : (length cur1 < length cur)%nat) by (apply suffix_len in S; cbn in S; lia).
    destruct ((c =? 9) || (c =? 13) || (c =? 10)); [do 2 eexists; split; [reflexivity|]; split; [exact S|congruence]|].
    assert (S1 : suffix cur1 cur) by (eapply suffix_tl; eauto).
    destruct (c =? 92); cbn [advance bind].
    - destruct cur1 as [|l cur2]; cbn [at_end]; [do 2 eexists; split; [reflexivity|]; split; [exact S1|congruence]|].
      cbn [deref bind]. destruct (negb (ph =? 0) && negb (l =? 117)); [do 2 eexists; split; [reflexivity|]; split; [exact S1|congruence]|].
      destruct (l =? 117).
      + destruct (unicode_wp low (l :: cur2) ph (result ++ map low (slice beg (c :: l :: cur2)))) as (b & r & ph' & s & -> & Sr & P & Br); [discriminate|auto|].
        cbn [bind]. assert (Sr' : suffix r cur) by (eapply suffix_trans; eauto).
        destruct b; cbn [negb]; [|do 2 eexists; split; [reflexivity|]; split; [exact Sr'|congruence]].
        destruct r as [|x r]; [destruct (Br eq_refl); reflexivity|]. cbn [advance bind]. apply suffix_len in Sr. cbn [length] in Sr, Hl1.
        destruct (IH r s r ph') as (so & r' & E & S2 & L); [lia|auto|].
        do 2 eexists. split; [exact E|]. split; [eapply suffix_trans; [exact S2|]; eapply suffix_tl; eauto|]. intros H. specialize (L H). lia.
      + destruct (simple_escape l); [|do 2 eexists; split; [reflexivity|]; split; [exact S1|congruence]]. cbn [advance bind]. cbn [length] in Hl1.
        destruct (IH cur2 ((result ++ map low (slice beg (c :: l :: cur2))) ++ [n]) cur2 ph) as (so & r' & E & S2 & L); [lia|auto|].
        do 2 eexists. split; [exact E|]. split; [eapply suffix_trans; [exact S2|]; eapply suffix_tl; eauto|]. intros H. specialize (L H). lia.
    - destruct (c =? 34).
      + destruct (negb (ph =? 0)); do 2 eexists; split; try reflexivity; split; auto; congruence.
      + destruct (negb (ph =? 0)); [do 2 eexists; split; [reflexivity|]; split; [exact S|congruence]|].
        destruct (low c <? 32); [do 2 eexists; split; [reflexivity|]; split; [exact S|congruence]|].
        destruct (IH cur1 result beg ph) as (so & r' & E & S2 & L); [lia|auto|].
        do 2 eexists. split; [exact E|]. split; [eapply suffix_trans; eauto|]. intros H. specialize (L H). lia.
  Qed.
  Lemma stdstring_safe c cur : exists so r, t_parse_stdstring low accel (c :: cur) = Ok (so, r) /\ suffix r (c :: cur) /\ (so <> None -> (length r < length (c :: cur))%nat).
  Proof.
    unfold t_parse_stdstring. cbn [deref bind advance]. destruct (c =? 34).
    - destruct (str_loop_safe (S (length cur)) cur [] cur 0) as (so & r & E & S & L); [lia|now left|].
      do 2 eexists. split; [exact E|]. split; [now apply suffix_cons|]. intros H. specialize (L H). cbn. lia.
    - do 2 eexists. split; [reflexivity|]. split; [apply suffix_refl|congruence].
  Qed.
  Lemma number_safe c cur : exists v r, t_parse_number low (c :: cur) = Ok (v, r) /\ suffix r (c :: cur) /\ (valid v = true -> (length r < length (c :: cur))%nat).
  Proof.
    unfold t_parse_number, advance, bytes. cbv zeta. cbn [deref bind].
    assert (Hsign : exists cur1, (if c =? 45 then Ok cur else Ok (c :: cur)) = Ok cur1 /\ suffix cur1 (c :: cur)).
    { destruct (c =? 45); cbn [advance]; eexists; (split; [reflexivity|]); [apply suffix_cons|]; apply suffix_refl. }
    destruct Hsign as (cur1 & Es & S1). rewr Es. cbn [bind].
    match goal with |- context [if ?x then Ok (invalid_value, cur1) else _] => destruct x end; [do 2 eexists; split; [reflexivity|]; split; [exact S1|discriminate]|].
    destruct (t_skip_digit low cur1) as [ok cur2] eqn:E2. destruct (skip_digit_suffix low _ _ _ E2) as [S2 K2].
    assert (S2' : suffix cur2 (c :: cur)) by (eapply suffix_trans; eauto).
    destruct ok; cbn [negb]; [|do 2 eexists; split; [reflexivity|]; split; [exact S2'|discriminate]].
    destruct (K2 eq_refl) as [N2 L2]. destruct cur2 as [|c2 cur2]; [congruence|]. cbn [deref bind].
    pose proof (suffix_len _ _ S1) as L1.
    assert (Hfrac : exists ok cur3, (if c2 =? 46 then Ok (t_skip_digit low cur2) else Ok (true, c2 :: cur2)) = Ok (ok, cur3)
      /\ suffix cur3 (c :: cur) /\ (ok = true -> cur3 <> [] /\ (length cur3 < length (c :: cur))%nat)).
    { destruct (c2 =? 46); cbn [advance bind].
      - destruct (t_skip_digit low cur2) as [ok cur3] eqn:E3. destruct (skip_digit_suffix low _ _ _ E3) as [S3 K3].
        do 2 eexists. split; [reflexivity|]. split; [eapply suffix_trans; [exact S3|]; eapply suffix_tl; eauto|].
        intros H. destruct (K3 H). split; auto. cbn [length] in *. lia.
      - do 2 eexists. split; [reflexivity|]. split; [exact S2'|]. intros _. split; [discriminate|]. lia. }
    destruct Hfrac as (ok & cur3 & Ef & S3 & K3). rewr Ef. cbn [bind]. destruct ok; cbn [negb]; [|do 2 eexists; split; [reflexivity|]; split; [exact S3|discriminate]].
    destruct (K3 eq_refl) as [N3 L3]. destruct cur3 as [|c3 cur3]; [congruence|]. cbn [deref bind].
    destruct ((c3 =? 101) || (c3 =? 69)); [|do 2 eexists; split; [reflexivity|]; split; [exact S3|auto]].
    cbn [advance bind]. assert (S3' : suffix cur3 (c :: cur)) by (eapply suffix_tl; eauto).
    destruct cur3 as [|c4 cur4]; cbn [at_end]; [do 2 eexists; split; [reflexivity|]; split; [exact S3'|discriminate]|]. cbn [deref bind].
    assert (Hs : exists cur5, (if (c4 =? 43) || (c4 =? 45) then Ok cur4 else Ok (c4 :: cur4)) = Ok cur5 /\ suffix cur5 (c4 :: cur4)).
    { destruct ((c4 =? 43) || (c4 =? 45)); cbn [advance]; eexists; (split; [reflexivity|]); [apply suffix_cons|]; apply suffix_refl. }
    destruct Hs as (cur5 & Ee & S5). rewr Ee. cbn [bind].
    destruct (t_skip_digit low cur5) as [ok cur6] eqn:E6. destruct (skip_digit_suffix low _ _ _ E6) as [S6 K6].
    assert (S6' : suffix cur6 (c :: cur)) by (eapply suffix_trans; [exact S6|]; eapply suffix_trans; eauto).
    apply suffix_len in S5, S6. cbn [length] in *.
    destruct ok; cbn [negb]; do 2 eexists; (split; [reflexivity|]); (split; [exact S6'|]); [intros _; lia|discriminate].
  Qed.
  Definition sf_post (cur : bytes) (p : value * bytes) : Prop := valid (fst p) = true -> suffix (snd p) cur /\ (length (snd p) < length cur)%nat.
  Definition sf_spec (d : nat) (pv : bytes -> res (value * bytes)) : Prop :=
    forall cur, cur <> [] -> wp (pv cur) (sf_post cur) (d < length cur)%nat.
  Lemma sf_invalid cur r : sf_post cur (invalid_value, r).
  Proof. intros H. discriminate. Qed.
  Lemma ws_safe cur : exists b r, skip_ws jsonc cur = Ok (b, r) /\ (b = true -> suffix r cur /\ r <> []).
  Proof.
    destruct (skip_ws_cases jsonc cur) as [(w & c & r & -> & _ & _ & ->)|(w & e & r & -> & _ & _ & ->)]; do 2 eexists; (split; [reflexivity|]); [|discriminate].
    intros _. split; [now exists w|discriminate].
  Qed.
  Lemma aclose_safe acc cur : wp (array_close jsonc acc cur) (sf_post cur) False.
  Proof.
    destruct (array_close_cases jsonc acc cur) as [(w & r & -> & _ & ->)|(r & ->)]; cbn [wp]; [|apply sf_invalid].
    intros _. cbn [snd]. split; [exists (w ++ [93]); now rewrite <- app_assoc|rewrite app_length; cbn; lia].
  Qed.
  Lemma oclose_safe acc cur : wp (object_close jsonc acc cur) (sf_post cur) False.
  Proof.
    destruct (object_close_cases jsonc acc cur) as [(w & r & -> & _ & ->)|(r & ->)]; cbn [wp]; [|apply sf_invalid].
    intros _. cbn [snd]. split; [exists (w ++ [125]); now rewrite <- app_assoc|rewrite app_length; cbn; lia].
  Qed.
  Lemma sf_weaken cur cur' p : suffix cur' cur -> sf_post cur' p -> sf_post cur p.
  Proof. intros S H V. destruct (H V). split; [eapply suffix_trans; eauto|]. apply suffix_len in S. lia. Qed.
  Lemma sf_wp cur cur' r (P Q : Prop) : wp r (sf_post cur') P -> suffix cur' cur -> (P -> Q) -> wp r (sf_post cur) Q.
  Proof. intros H S HPQ. eapply wp_mono; [exact H| |exact HPQ]. intros p. now apply sf_weaken. Qed.
  Lemma array_loop_safe d pv : sf_spec d pv -> forall fuel cur acc, (length cur < fuel)%nat ->
    wp (array_loop jsonc pv fuel cur acc) (sf_post cur) (d < length cur)%nat.
  Proof.
    intros Hpv. induction fuel as [|f IH]; intros cur acc Hl; [lia|]. cbn [array_loop].
    destruct (ws_safe cur) as (b & cur1 & -> & B). cbn [bind]. destruct b; cbn [negb]; [|apply sf_invalid].
    destruct (B eq_refl) as [S1 N1]. destruct cur1 as [|c cur1]; [congruence|]. cbn [deref bind].
    destruct (jsonc && (c =? 93)); [eapply sf_wp; [apply aclose_safe|exact S1|tauto]|].
    pose proof (suffix_len _ _ S1) as L1.
    apply wp_bind. eapply wp_mono; [apply Hpv; discriminate| |lia].
    intros [val cur2] Hv. unfold sf_post in Hv. cbn [fst snd] in Hv. cbv beta iota. destruct (valid val); cbn [negb]; [|apply sf_invalid].
    destruct (Hv eq_refl) as [S2 L2].
    destruct (ws_safe cur2) as (b & cur3 & -> & B3). cbn [bind]. destruct b; cbn [negb]; [|apply sf_invalid].
    destruct (B3 eq_refl) as [S3 N3]. destruct cur3 as [|c3 cur3]; [congruence|]. cbn [deref bind].
    pose proof (suffix_len _ _ S3) as L3. cbn [length] in L3.
    assert (S : suffix (c3 :: cur3) cur) by (eapply suffix_trans; [exact S3|]; eapply suffix_trans; eauto).
    destruct (c3 =? 44); [|eapply sf_wp; [apply aclose_safe|exact S|tauto]].
    cbn [advance bind]. eapply sf_wp; [apply IH; lia|eapply suffix_tl; eauto|lia].
  Qed.
  Lemma parse_array_safe d pv : sf_spec d pv -> forall r, wp (parse_array jsonc pv (91 :: r)) (sf_post (91 :: r)) (d < length r)%nat.
  Proof.
    intros Hpv r. unfold parse_array. cbn [deref bind N.eqb Pos.eqb negb advance].
    destruct (ws_safe r) as (b & cur1 & -> & B). cbn [bind]. destruct b; cbn [negb]; [|apply sf_invalid].
    destruct (B eq_refl) as [S1 N1]. destruct cur1 as [|c cur1]; [congruence|]. cbn [deref bind].
    pose proof (suffix_len _ _ S1) as L1. cbn [length] in L1.
    destruct (c =? 93); cbn [advance bind wp].
    - intros _. cbn [snd]. split; [apply suffix_cons; eapply suffix_tl; eauto|cbn; lia].
    - eapply sf_wp; [apply (array_loop_safe d); [auto|lia]|now apply suffix_cons|cbn; lia].
  Qed.
  Lemma object_loop_safe d pv : sf_spec d pv -> forall fuel cur acc, (length cur < fuel)%nat ->
    wp (t_object_loop low accel jsonc pv fuel cur acc) (sf_post cur) (d < length cur)%nat.
  Proof.
    intros Hpv. induction fuel as [|f IH]; intros cur acc Hl; [lia|]. cbn [t_object_loop].
    destruct (ws_safe cur) as (b & cur1 & -> & B). cbn [bind]. destruct b; cbn [negb]; [|apply sf_invalid].
    destruct (B eq_refl) as [S1 N1]. destruct cur1 as [|c cur1]; [congruence|]. cbn [deref bind].
    destruct (jsonc && (c =? 125)); [eapply sf_wp; [apply oclose_safe|exact S1|tauto]|].
    pose proof (suffix_len _ _ S1) as L1.
    destruct (stdstring_safe c cur1) as (ko & curk & -> & Sk & Lk). cbn [bind].
    destruct ko as [key|]; [|apply sf_invalid]. specialize (Lk ltac:(discriminate)).
    destruct (ws_safe curk) as (b & cur2 & -> & B2). cbn [bind]. destruct b; cbn [negb]; [|apply sf_invalid].
    destruct (B2 eq_refl) as [S2 N2]. destruct cur2 as [|c2 cur2]; [congruence|]. cbn [deref bind].
    pose proof (suffix_len _ _ S2) as L2.
    destruct (c2 =? 58); cbn [negb]; [|apply sf_invalid]. cbn [advance bind].
    destruct (ws_safe cur2) as (b & cur4 & -> & B4). cbn [bind]. destruct b; cbn [negb]; [|apply sf_invalid].
    destruct (B4 eq_refl) as [S4 N4]. pose proof (suffix_len _ _ S4) as L4. cbn [length] in *.
    apply wp_bind. eapply wp_mono; [apply Hpv; exact N4| |lia].
    intros [val cur5] Hv. unfold sf_post in Hv. cbn [fst snd] in Hv. cbv beta iota. destruct (valid val); cbn [negb]; [|apply sf_invalid].
    destruct (Hv eq_refl) as [S5 L5].
    destruct (ws_safe cur5) as (b & cur3 & -> & B3). cbn [bind]. destruct b; cbn [negb]; [|apply sf_invalid].
    destruct (B3 eq_refl) as [S3 N3]. destruct cur3 as [|c3 cur3]; [congruence|].
    pose proof (suffix_len _ _ S3) as L3. cbn [length] in L3.
    assert (S : suffix (c3 :: cur3) cur).
    { eapply suffix_trans; [exact S3|]. eapply suffix_trans; [exact S5|]. eapply suffix_trans; [exact S4|]. eapply suffix_trans; [|exact S1].
      eapply suffix_trans; [|exact Sk]. eapply suffix_tl; eauto. }
    destruct (map_emplace key val acc) as [acc' em]. destruct em; cbn [negb]; [|apply sf_invalid]. cbn [deref bind].
    destruct (c3 =? 44); [|eapply sf_wp; [apply oclose_safe|exact S|tauto]].
    cbn [advance bind]. eapply sf_wp; [apply IH; lia|eapply suffix_tl; eauto|lia].
  Qed.
  Lemma parse_object_safe d pv : sf_spec d pv -> forall r, wp (t_parse_object low accel jsonc pv (123 :: r)) (sf_post (123 :: r)) (d < length r)%nat.
  Proof.
    intros Hpv r. unfold t_parse_object. cbn [deref bind N.eqb Pos.eqb negb advance].
    destruct (ws_safe r) as (b & cur1 & -> & B). cbn [bind]. destruct b; cbn [negb]; [|apply sf_invalid].
    destruct (B eq_refl) as [S1 N1]. destruct cur1 as [|c cur1]; [congruence|]. cbn [deref bind].
    pose proof (suffix_len _ _ S1) as L1. cbn [length] in L1.
    destruct (c =? 125); cbn [advance bind wp].
    - intros _. cbn [snd]. split; [apply suffix_cons; eapply suffix_tl; eauto|cbn; lia].
    - eapply sf_wp; [apply (object_loop_safe d); [auto|lia]|now apply suffix_cons|cbn; lia].
  Qed.
  Lemma word_safe w cur v : w <> [] -> wp (let '(ok, cur) := match_word w cur in Ok (if ok : bool then v else invalid_value, cur)) (sf_post cur) False.
  Proof.
    intros Hw. destruct (match_word_cases w cur) as [(r' & -> & ->)|(r' & ->)]; cbn [wp]; [|apply sf_invalid].
    intros _. cbn [snd]. split; [now exists w|]. rewrite app_length. destruct w; [congruence|cbn; lia].
  Qed.
  Lemma parse_value_safe d : sf_spec d (t_parse_value low accel jsonc d).
  Proof.
    induction d as [|d IH]; intros cur Hne; [destruct cur; [congruence|cbn; lia]|].
    cbn [t_parse_value]. destruct cur as [|c r]; [congruence|]. cbn [deref bind].
    destruct (c =? 110); [eapply wp_mono; [apply word_safe; discriminate|auto|tauto]|].
    destruct ((c =? 116) || (c =? 102)).
    { unfold parse_boolean. cbn [deref bind].
      destruct (c =? 116); [|destruct (c =? 102)]; [eapply wp_mono; [apply word_safe; discriminate|auto|tauto]..|apply sf_invalid]. }
    destruct ((c =? 45) || ((48 <=? c) && (c <=? 57))).
    { destruct (number_safe c r) as (v & r' & -> & S & L). cbn [wp]. intros V. cbn [snd fst] in *. auto. }
    destruct (c =? 34).
    { unfold t_parse_string. destruct (stdstring_safe c r) as (so & r' & -> & S & L). cbn [bind].
      destruct so as [s|]; cbn [wp]; [|apply sf_invalid]. intros _. cbn [snd]. split; auto. apply L. discriminate. }
    destruct (N.eqb_spec c 91) as [->|_]; [eapply wp_mono; [apply (parse_array_safe d); auto|auto|cbn [length]; lia]|].
    destruct (N.eqb_spec c 123) as [->|_]; [eapply wp_mono; [apply (parse_object_safe d); auto|auto|cbn [length]; lia]|].
    apply sf_invalid.
  Qed.
  Theorem t_parse_safe s : exists o, t_parse low accel jsonc s = Ok o.
  Proof.
    unfold t_parse, t_parse_budget. destruct (ws_safe s) as (b & cur & -> & B). cbn [bind]. destruct b; cbn [negb]; [|eauto].
    destruct (B eq_refl) as [S N]. destruct cur as [|c cur]; [congruence|]. cbn [deref bind].
    destruct ((c =? 91) || (c =? 123)) eqn:E; [|eauto]. apply suffix_len in S. cbn [length] in S.
    assert (W : wp (if c =? 91 then parse_array jsonc (t_parse_value low accel jsonc (length s)) (c :: cur)
                    else t_parse_object low accel jsonc (t_parse_value low accel jsonc (length s)) (c :: cur)) (sf_post (c :: cur)) (length s < length cur)%nat).
    { destruct (N.eqb_spec c 91) as [->|]; [apply parse_array_safe, parse_value_safe|].
      assert (c = 123) as -> by lia. apply parse_object_safe, parse_value_safe. }
    destruct (if c =? 91 then _ else _) as [[v r]|e| | |]; cbn [wp] in W; try contradiction; [|lia].
    cbn [bind]. destruct (valid v); cbn [negb]; [|eauto].
    destruct (ws_safe r) as (b & r' & -> & _). cbn [bind]. destruct b; eauto.
  Qed.
End Safe.

(** ** Sources that are read like a std::string *)
Section Same.
  Context (low : N -> N) (accel : bytes -> res (bool * bytes)) (jsonc : bool) (be : backend) (L : bytes -> Prop).
  Context (Lsuffix : forall r s, suffix r s -> L s -> L r) (Lbyte : forall s, L s -> Forall is_byte s)
          (Llow : forall c, is_byte c -> low c = c) (Lacc : forall s, L s -> s <> [] -> accel s = skip_accel be s).
  Lemma Lhead c r : L (c :: r) -> low c = c.
  Proof. intros H. apply Lbyte in H. inversion H. auto. Qed.
  Lemma Ltail c r : L (c :: r) -> L r.
  Proof. apply Lsuffix, suffix_cons, suffix_refl. Qed.
  Lemma Lmap s : Forall is_byte s -> map low s = s.
  Proof. induction 1; cbn [map]; [reflexivity|]. now rewrite Llow, IHForall. Qed.
  Lemma Lslice a b : Forall is_byte a -> map low (slice a b) = slice a b.
  Proof. intros H. apply Lmap. unfold slice. rewrite <- (firstn_skipn (length a - length b) a) in H. eapply Forall_app_l; eauto. Qed.
  Lemma same_drop s : L s -> t_drop_digits low s = drop_digits s.
  Proof. induction s as [|c r IH]; intros H; cbn; [reflexivity|]. rewrite (Lhead c r H), IH by (eapply Ltail; eauto). reflexivity. Qed.
  Lemma same_skip_digit s : L s -> t_skip_digit low s = skip_digit s.
  Proof. destruct s as [|c r]; intros H; cbn [t_skip_digit skip_digit]; [reflexivity|]. rewrite (Lhead c r H), same_drop by (eapply Ltail; eauto). reflexivity. Qed.
  Lemma same_hex n : forall cp cur, L cur -> t_hex_loop low n cp cur = hex_loop n cp cur.
  Proof.
    induction n as [|n IH]; intros cp cur H; [reflexivity|]. cbn [t_hex_loop hex_loop]. destruct cur as [|c cur]; [reflexivity|].
    cbn [advance bind]. apply Ltail in H. destruct cur as [|d cur]; [reflexivity|]. cbn [at_end deref bind].
    unfold t_hex_value, hex_value. rewrite (Lhead d cur H). destruct (if negb (isxdigit d) then _ else _); [now apply IH|reflexivity].
  Qed.
  Lemma same_unicode cur ph s : L cur -> t_skip_unicode_escape low cur ph s = skip_unicode_escape cur ph s.
  Proof. intros H. unfold t_skip_unicode_escape, skip_unicode_escape. now rewrite same_hex. Qed.
  Lemma skip_accel_total cur : L cur -> cur <> [] -> exists b r, skip_accel be cur = Ok (b, r) /\ suffix r cur /\ (b = true -> r <> []).
  Proof.
    intros H Hn. destruct (skip_accel_spec be cur Hn (Lbyte _ H)) as (mid & r & E & -> & _). exists (negb (at_end r)), r.
    split; [exact E|]. split; [now exists mid|]. destruct r; [discriminate|]. intros _. discriminate.
  Qed.
  Lemma same_str_loop fuel : forall cur result beg ph, L cur -> Forall is_byte beg -> pending ph ->
    t_str_loop low accel fuel cur result beg ph = str_loop be fuel cur result beg ph.
  Proof.
    induction fuel as [|f IH]; intros cur result beg ph H Hb Hp; [reflexivity|]. cbn [t_str_loop str_loop].
    destruct (at_end cur) eqn:Ee; [reflexivity|]. assert (Hn : cur <> []) by (destruct cur; discriminate).
    rewrite Lacc by auto. destruct (skip_accel_total cur H Hn) as (b & r & -> & S & B). cbn [bind].
    destruct b; cbn [negb]; [|reflexivity]. destruct r as [|c r]; [destruct (B eq_refl); reflexivity|].
    assert (H1 : L (c :: r)) by (eapply Lsuffix; eauto). cbn [deref bind advance]. rewrite Lslice by auto.
    pose proof (Ltail _ _ H1) as H2. rewrite (Lhead _ _ H1).
    destruct ((c =? 9) || (c =? 13) || (c =? 10)); [reflexivity|].
    destruct (c =? 92).
    - destruct r as [|l r]; [reflexivity|]. cbn [at_end deref bind].
      destruct (negb (ph =? 0) && negb (l =? 117)); [reflexivity|].
      destruct (l =? 117).
      + rewrite same_unicode by auto.
        destruct (unicode_wp low (l :: r) ph (result ++ slice beg (c :: l :: r))) as (b & r' & ph' & s & E & S' & P & Br); [discriminate|auto|].
        rewrite same_unicode in E by auto. rewrite E. cbn [bind]. destruct b; cbn [negb]; [|reflexivity].
        destruct r' as [|x r']; [reflexivity|]. cbn [advance bind].
        assert (L r') by (eapply Ltail, Lsuffix; eauto). apply IH; auto.
      + destruct (simple_escape l); [|reflexivity]. cbn [advance bind]. apply Ltail in H2. apply IH; auto.
    - destruct (c =? 34); [reflexivity|]. destruct (negb (ph =? 0)); [reflexivity|]. destruct (c <? 32); [reflexivity|]. apply IH; auto.
  Qed.
  Lemma same_stdstring cur : L cur -> t_parse_stdstring low accel cur = parse_stdstring be cur.
  Proof.
    intros H. unfold t_parse_stdstring, parse_stdstring. destruct cur as [|c cur]; [reflexivity|]. cbn [deref bind advance].
    destruct (c =? 34); [|reflexivity]. apply Ltail in H. apply same_str_loop; auto. now left.
  Qed.
  Lemma same_number cur : L cur -> t_parse_number low cur = parse_number cur.
  Proof.
    intros H. unfold t_parse_number, parse_number. cbv zeta. destruct cur as [|c cur]; cbn [deref bind]; [reflexivity|].
    assert (Hsign : exists cur1, (if c =? 45 then advance (c :: cur) else Ok (c :: cur)) = Ok cur1 /\ L cur1).
    { destruct (c =? 45); cbn [advance]; eexists; (split; [reflexivity|]); [eapply Ltail; eauto|auto]. }
    destruct Hsign as (cur1 & Es & H1). rewr Es.
    assert (Hz : match cur1 with c0 :: c1 :: _ => (c0 =? 48) && isdigit (low c1) | _ => false end
               = match cur1 with c0 :: c1 :: _ => (c0 =? 48) && isdigit c1 | _ => false end).
    { destruct cur1 as [|c0 [|c1 cur1]]; try reflexivity. apply Ltail in H1. now rewrite (Lhead _ _ H1). }
    try match goal with |- _ = bind ?x _ => replace x with (Ok cur1 : res bytes) by (symmetry; exact Es) end.
    cbn [bind]. rewrite Hz. clear Hz. destruct (match cur1 with c0 :: c1 :: _ => _ | _ => _ end); [reflexivity|].
    destruct (t_skip_digit low cur1) as [ok cur2] eqn:E2. destruct (skip_digit_suffix low _ _ _ E2) as [S2 K2].
    rewrite same_skip_digit in E2 by auto. rewrite E2. destruct ok; cbn [negb]; [|reflexivity].
    assert (H2 : L cur2) by (eapply Lsuffix; eauto). destruct cur2 as [|c2 cur2]; [reflexivity|]. cbn [deref bind advance].
    rewrite (same_skip_digit cur2) by (eapply Ltail; eauto).
    assert (Hfrac : exists ok cur3, (if c2 =? 46 then Ok (skip_digit cur2) else Ok (true, c2 :: cur2)) = Ok (ok, cur3) /\ L cur3).
    { destruct (c2 =? 46); [|eauto]. destruct (skip_digit cur2) as [ok cur3] eqn:E3. do 2 eexists. split; [reflexivity|].
      rewrite <- same_skip_digit in E3 by (eapply Ltail; eauto). destruct (skip_digit_suffix low _ _ _ E3) as [S3 _].
      apply (Lsuffix _ cur2 S3). eapply Ltail; eauto. }
    destruct Hfrac as (ok & cur3 & Ef & H3). rewr Ef. try match goal with |- _ = bind ?x _ => replace x with (Ok (ok, cur3) : res (bool * bytes)) by (symmetry; exact Ef) end.
    cbn [bind]. destruct ok; cbn [negb]; [|reflexivity]. destruct cur3 as [|c3 cur3]; [reflexivity|]. cbn [deref bind advance].
    rewrite Lslice by auto.
    destruct ((c3 =? 101) || (c3 =? 69)); [|reflexivity]. apply Ltail in H3. destruct cur3 as [|c4 cur4]; [reflexivity|]. cbn [at_end deref bind advance].
    assert (Hs : exists cur5, (if (c4 =? 43) || (c4 =? 45) then Ok cur4 else Ok (c4 :: cur4)) = Ok cur5 /\ L cur5).
    { destruct ((c4 =? 43) || (c4 =? 45)); eexists; (split; [reflexivity|]); [eapply Ltail; eauto|auto]. }
    destruct Hs as (cur5 & Ee & H5). rewr Ee. try match goal with |- _ = bind ?x _ => replace x with (Ok cur5 : res bytes) by (symmetry; exact Ee) end.
    cbn [bind]. rewrite same_skip_digit by auto. destruct (skip_digit cur5) as [ok cur6]. rewrite Lslice by auto. reflexivity.
  Qed.
  (** [pv] and [pv'] agree, and [pv'] returns a rest of its input *)
  Definition agree (pv pv' : bytes -> res (value * bytes)) : Prop :=
    forall cur, L cur -> cur <> [] -> pv cur = pv' cur /\ wp (pv' cur) (fun p => valid (fst p) = true -> suffix (snd p) cur) True.
  Lemma ws_L cur : L cur -> exists b r, skip_ws jsonc cur = Ok (b, r) /\ (b = true -> L r /\ r <> []).
  Proof.
    intros H. destruct (ws_safe jsonc cur) as (b & r & E & B). exists b, r. split; auto. intros Hb. destruct (B Hb). split; auto. eapply Lsuffix; eauto.
  Qed.
  Lemma same_array_loop pv pv' : agree pv pv' -> forall fuel cur acc, L cur -> array_loop jsonc pv fuel cur acc = array_loop jsonc pv' fuel cur acc.
  Proof.
    intros A. induction fuel as [|f IH]; intros cur acc H; [reflexivity|]. cbn [array_loop].
    destruct (ws_L cur H) as (b & cur1 & -> & B). cbn [bind]. destruct b; cbn [negb]; [|reflexivity]. destruct (B eq_refl) as [H1 N1].
    destruct cur1 as [|c cur1]; [congruence|]. cbn [deref bind]. destruct (jsonc && (c =? 93)); [reflexivity|].
    destruct (A (c :: cur1) H1 N1) as [-> P]. destruct (pv' (c :: cur1)) as [[v cur2]|e| | |]; cbn [bind]; [|reflexivity..]. cbn [wp fst snd] in P.
    destruct (valid v); cbn [negb]; [|reflexivity]. assert (H2 : L cur2) by (eapply Lsuffix; eauto).
    destruct (ws_L cur2 H2) as (b & cur3 & -> & B3). cbn [bind]. destruct b; cbn [negb]; [|reflexivity]. destruct (B3 eq_refl) as [H3 N3].
    destruct cur3 as [|c3 cur3]; [congruence|]. cbn [deref bind advance]. destruct (c3 =? 44); [|reflexivity]. apply IH. eapply Ltail; eauto.
  Qed.
  Lemma same_parse_array pv pv' cur : agree pv pv' -> L cur -> parse_array jsonc pv cur = parse_array jsonc pv' cur.
  Proof.
    intros A H. unfold parse_array. destruct cur as [|c cur]; cbn [deref bind]; [reflexivity|]. destruct (c =? 91); cbn [negb]; [|reflexivity].
    cbn [advance bind]. apply Ltail in H. destruct (ws_L cur H) as (b & cur1 & -> & B). cbn [bind]. destruct b; cbn [negb]; [|reflexivity].
    destruct (B eq_refl) as [H1 N1]. destruct cur1 as [|c1 cur1]; [congruence|]. cbn [deref bind]. destruct (c1 =? 93); [reflexivity|]. now apply same_array_loop.
  Qed.
  Lemma stdstring_suffix c cur k r : L (c :: cur) -> parse_stdstring be (c :: cur) = Ok (Some k, r) -> suffix r (c :: cur).
  Proof.
    intros H E. destruct (parse_stdstring_cases be c cur (Lbyte _ H)) as [(t & s & r' & Et & _ & E')|(r' & E')]; rewrite E' in E; [|discriminate].
    injection E as _ <-. now exists t.
  Qed.
  Lemma same_object_loop pv pv' : agree pv pv' -> forall fuel cur acc, L cur ->
    t_object_loop low accel jsonc pv fuel cur acc = object_loop jsonc be pv' fuel cur acc.
  Proof.
    intros A. induction fuel as [|f IH]; intros cur acc H; [reflexivity|]. cbn [t_object_loop object_loop].
    destruct (ws_L cur H) as (b & cur1 & -> & B). cbn [bind]. destruct b; cbn [negb]; [|reflexivity]. destruct (B eq_refl) as [H1 N1].
    destruct cur1 as [|c cur1]; [congruence|]. cbn [deref bind]. destruct (jsonc && (c =? 125)); [reflexivity|].
    rewrite same_stdstring by auto. destruct (parse_stdstring be (c :: cur1)) as [[[k|] curk]|e| | |] eqn:Ek; cbn [bind]; [|reflexivity..].
    assert (Hk : L curk) by (eapply Lsuffix; [eapply stdstring_suffix|]; eauto).
    destruct (ws_L curk Hk) as (b & cur4 & -> & B4). cbn [bind]. destruct b; cbn [negb]; [|reflexivity]. destruct (B4 eq_refl) as [H4 N4].
    destruct cur4 as [|c4 cur4]; [congruence|]. cbn [deref bind]. destruct (c4 =? 58); cbn [negb]; [|reflexivity]. cbn [advance bind]. apply Ltail in H4.
    destruct (ws_L cur4 H4) as (b & cur5 & -> & B5). cbn [bind]. destruct b; cbn [negb]; [|reflexivity]. destruct (B5 eq_refl) as [H5 N5].
    destruct (A cur5 H5 N5) as [-> P]. destruct (pv' cur5) as [[v cur2]|e| | |]; cbn [bind]; [|reflexivity..]. cbn [wp fst snd] in P.
    destruct (valid v); cbn [negb]; [|reflexivity]. assert (H2 : L cur2) by (eapply Lsuffix; eauto).
    destruct (ws_L cur2 H2) as (b & cur3 & -> & B3). cbn [bind]. destruct b; cbn [negb]; [|reflexivity]. destruct (B3 eq_refl) as [H3 N3].
    destruct (map_emplace k v acc) as [acc' em]. destruct em; cbn [negb]; [|reflexivity].
    destruct cur3 as [|c3 cur3]; [congruence|]. cbn [deref bind advance]. destruct (c3 =? 44); [|reflexivity]. apply IH. eapply Ltail; eauto.
  Qed.
  Lemma same_parse_object pv pv' cur : agree pv pv' -> L cur -> t_parse_object low accel jsonc pv cur = parse_object jsonc be pv' cur.
  Proof.
    intros A H. unfold t_parse_object, parse_object. destruct cur as [|c cur]; cbn [deref bind]; [reflexivity|]. destruct (c =? 123); cbn [negb]; [|reflexivity].
    cbn [advance bind]. apply Ltail in H. destruct (ws_L cur H) as (b & cur1 & -> & B). cbn [bind]. destruct b; cbn [negb]; [|reflexivity].
    destruct (B eq_refl) as [H1 N1]. destruct cur1 as [|c1 cur1]; [congruence|]. cbn [deref bind]. destruct (c1 =? 125); [reflexivity|]. now apply same_object_loop.
  Qed.
  Lemma same_parse_value d : agree (t_parse_value low accel jsonc d) (parse_value jsonc be d).
  Proof.
    intros cur H Hn. split.
    - revert cur H Hn. induction d as [|d IH]; intros cur H Hn; [reflexivity|]. cbn [t_parse_value parse_value].
      assert (A : agree (t_parse_value low accel jsonc d) (parse_value jsonc be d)).
      { intros c Hc Nc. split; [now apply IH|]. eapply wp_mono; [apply (parse_value_wp jsonc be d c Nc (Lbyte _ Hc))| |auto].
        intros p Hp V. destruct (Hp V) as (t & j & E & _). now exists t. }
      destruct cur as [|c cur]; [congruence|]. cbn [deref bind].
      destruct (c =? 110); [reflexivity|]. destruct ((c =? 116) || (c =? 102)); [reflexivity|].
      change ((48 <=? c) && (c <=? 57)) with (isdigit c). destruct ((c =? 45) || isdigit c); [now apply same_number|].
      destruct (c =? 34); [unfold t_parse_string, parse_string; now rewrite same_stdstring|].
      destruct (c =? 91); [now apply same_parse_array|]. destruct (c =? 123); [now apply same_parse_object|reflexivity].
    - eapply wp_mono; [apply (parse_value_wp jsonc be d cur Hn (Lbyte _ H))| |auto].
      intros p Hp V. destruct (Hp V) as (t & j & E & _). now exists t.
  Qed.
  Theorem same_parse s : L s -> t_parse low accel jsonc s = parse jsonc be s.
  Proof.
    intros H. unfold t_parse, parse, t_parse_budget, parse_budget.
    destruct (ws_L s H) as (b & cur & -> & B). cbn [bind]. destruct b; cbn [negb]; [|reflexivity]. destruct (B eq_refl) as [H1 N1].
    destruct cur as [|c cur]; [congruence|]. cbn [deref bind].
    rewrite (same_parse_array _ _ _ (same_parse_value (length s)) H1), (same_parse_object _ _ _ (same_parse_value (length s)) H1). reflexivity.
  Qed.
End Same.

Theorem wide_safe jsonc s : exists o, wide_parse jsonc s = Ok o.
Proof. apply t_parse_safe. intros cur Hn. do 2 eexists. split; [reflexivity|]. split; [apply suffix_refl|auto]. Qed.
Lemma to_char_byte c : is_byte c -> to_char c = c.
Proof. unfold is_byte, to_char. intros H. apply N.mod_small. lia. Qed.
Theorem wide_same jsonc s : Forall is_byte s -> wide_parse jsonc s = parse jsonc BNone s.
Proof.
  apply (same_parse to_char (fun cur => Ok (true, cur)) jsonc BNone (Forall is_byte)); auto using to_char_byte.
  intros r t [p ->]. apply Forall_app_r.
Qed.
Lemma deque_loop_same be off n st : forall fuel cur, (length cur <= n)%nat -> (off + n <= node)%nat ->
  deque_loop be off n st fuel cur = accel_loop be st fuel cur.
Proof.
  induction fuel as [|f IH]; intros cur Hl Ho; [reflexivity|]. cbn [deque_loop accel_loop].
  destruct (Nat.leb_spec st (length cur)) as [Hs|]; [|reflexivity]. unfold deque_load.
  assert (Hnode : (node = 512)%nat) by reflexivity.
  assert (E : (node <? (off + (n - length cur)) mod node + st)%nat = false).
  { apply Nat.ltb_ge. destruct (Nat.eq_dec (off + (n - length cur)) node) as [E|E].
    - rewrite E, Nat.mod_same by (rewrite Hnode; discriminate). lia.
    - rewrite Nat.mod_small; lia. }
  rewrite E. destruct (load_block st cur); cbn [bind]; [|reflexivity..]. destruct (scan be a); [reflexivity|].
  unfold advance_by. destruct (length cur <? st)%nat; [reflexivity|]. cbn [bind]. apply IH; [|auto]. rewrite skipn_length. lia.
Qed.
Theorem deque_same jsonc be off s : Forall is_byte s -> (off + length s <= node)%nat -> deque_parse jsonc be off s = parse jsonc be s.
Proof.
  intros Hb Ho. apply (same_parse (fun c => c) (deque_accel be off (length s)) jsonc be (fun r => Forall is_byte r /\ (length r <= length s)%nat)).
  - intros r t [p ->] [H1 H2]. split; [eapply Forall_app_r; eauto|]. rewrite app_length in H2. lia.
  - tauto.
  - auto.
  - intros r [_ Hr] _. unfold deque_accel, skip_accel. destruct (step be); [|reflexivity]. now rewrite deque_loop_same.
  - auto.
Qed.
Theorem deque_none jsonc be off s : Forall is_byte s -> step be = None -> deque_parse jsonc be off s = parse jsonc be s.
Proof.
  intros Hb E. apply (same_parse (fun c => c) (deque_accel be off (length s)) jsonc be (Forall is_byte)); auto.
  - intros r t [p ->]. apply Forall_app_r.
  - intros r _ _. unfold deque_accel, skip_accel. now rewrite E.
Qed.

(** ** What happens to other characters *)
Lemma quoted_utf8 c : 128 <= c -> utf8 c <> [to_char c].
Proof. intros H. unfold utf8. destruct (N.ltb_spec c 128); [lia|]. destruct (c <? 2048); [discriminate|]. destruct (c <? 65536); discriminate. Qed.
Lemma wide_quoted jsonc c : 128 <= c -> wide_parse jsonc (quoted c) = Ok (if to_char c <? 32 then None else Some (v_array [v_string [to_char c]])).
Proof.
  intros H. unfold wide_parse, quoted, t_parse. cbn [length]. unfold t_parse_budget.
  assert (E : skip_ws jsonc [91; 34; c; 34; 93] = Ok (true, [91; 34; c; 34; 93])) by (apply skip_ws_nows; unfold token, wschar; lia).
  rewrite E. cbn [bind negb deref N.eqb Pos.eqb orb]. unfold parse_array. cbn [bind negb deref N.eqb Pos.eqb advance].
  assert (E2 : skip_ws jsonc [34; c; 34; 93] = Ok (true, [34; c; 34; 93])) by (apply skip_ws_nows; unfold token, wschar; lia).
  rewrite E2. cbn [bind negb deref N.eqb Pos.eqb length array_loop]. rewrite E2. cbn [bind negb deref N.eqb Pos.eqb]. rewrite andb_false_r.
  cbn [t_parse_value bind deref N.eqb Pos.eqb orb N.leb N.compare Pos.compare Pos.compare_cont andb].
  unfold t_parse_string, t_parse_stdstring. cbn [bind deref N.eqb Pos.eqb advance length t_str_loop at_end negb].
  assert (H1 : (c =? 9) || (c =? 13) || (c =? 10) = false) by lia. rewrite H1.
  assert (H2 : c =? 92 = false) by lia. rewrite H2. assert (H3 : c =? 34 = false) by lia. rewrite H3.
  destruct (to_char c <? 32); [reflexivity|].
  cbn [bind deref N.eqb Pos.eqb advance length t_str_loop at_end negb orb].
  assert (E4 : slice [c; 34; 93] [34; 93] = [c]) by reflexivity. rewrite E4. cbn [map app valid v_string type_of negb].
  assert (E3 : skip_ws jsonc [93] = Ok (true, [93])) by (apply skip_ws_nows; unfold token, wschar; lia).
  rewrite E3. cbn [bind negb deref N.eqb Pos.eqb]. unfold array_close. rewrite E3. cbn [bind negb deref N.eqb Pos.eqb advance].
  destruct jsonc; reflexivity.
Qed.
Theorem wide_not_utf8 jsonc c : 128 <= c -> wide_parse jsonc (quoted c) <> Ok (Some (v_array [v_string (utf8 c)])).
Proof.
  intros H. rewrite wide_quoted by auto. destruct (to_char c <? 32); [discriminate|]. intros [= E]. destruct (quoted_utf8 c H). auto.
Qed.

Lemma encode_ascii s : Forall (fun c => c < 128) s -> encode s = s.
Proof. induction 1 as [|c s H _ IH]; [reflexivity|]. unfold encode in *. cbn [map concat]. rewrite IH. unfold utf8. destruct (N.ltb_spec c 128); [reflexivity|lia]. Qed.
Theorem wide_ascii jsonc s : Forall (fun c => c < 128) s -> wide_parse jsonc s = parse jsonc BNone (encode s).
Proof. intros H. rewrite encode_ascii by auto. apply wide_same. eapply Forall_impl; [|exact H]. unfold is_byte. intros. cbn in *. lia. Qed.
Lemma utf8_raw c : 128 <= c -> c <= 1114111 -> Forall (fun b => unescaped b /\ is_byte b) (utf8 c).
Proof.
  intros H1 H2. unfold utf8, unescaped, is_byte. destruct (N.ltb_spec c 128); [lia|].
  destruct (N.ltb_spec c 2048); [|destruct (N.ltb_spec c 65536)]; repeat constructor; lia.
Qed.
Lemma raw_gchars s : Forall (fun b => unescaped b /\ is_byte b) s -> gchars s s.
Proof. induction 1 as [|c s [H _] _ IH]; constructor; auto. Qed.
Theorem utf8_read jsonc be c : 128 <= c -> c <= 1114111 -> parse jsonc be (encode (quoted c)) = Ok (Some (v_array [v_string (utf8 c)])).
Proof.
  intros H1 H2. pose proof (utf8_raw c H1 H2) as R.
  assert (E : encode (quoted c) = PropsParse.string_doc (utf8 c)).
  { unfold encode, quoted, PropsParse.string_doc. cbn [map concat]. change (utf8 91) with [91]. change (utf8 34) with [34]. change (utf8 93) with [93]. reflexivity. }
  rewrite E. apply PropsParse.decode_string; [now apply raw_gchars|]. eapply Forall_impl; [|exact R]. intros b [_ Hb]; exact Hb.
Qed.
(** [-İ5], a text of five characters *)
Definition zero_like : list N := [91; 45; 0x130; 53; 93].
Theorem wide_accepts_more : exists s v, Forall scalar_value s /\ wide_parse false s = Ok (Some v) /\ ~ wf v /\ parse false BNone (encode s) = Ok None.
Proof.
  exists zero_like, (v_array [v_number [45; 48; 53]]).
  split; [repeat constructor; unfold surrogate; lia|]. split; [vm_compute; reflexivity|]. split; [|vm_compute; reflexivity].
  intros W. inversion W as [| | | |l F|]; subst. inversion F as [|x y Wx _]; subst. inversion Wx as [| |t G| | |]; subst.
  inversion G as [m i f e Hm Hi Hf He E]. destruct Hm as [->| ->].
  - destruct Hi as [|d ds Hd]; cbn in E; injection E as E _; unfold digit in *; lia.
  - inversion Hi as [E1|d ds Hd Hds E1]; subst i; cbn [app] in E; [|injection E as E _; lia]. injection E as E.
    inversion Hf as [E2|c ds Hc Hds E2]; subst f; cbn [app] in E; [|discriminate].
    inversion He as [E3|e' sg c ds [?|?] _ _ _ E3]; subst e; [discriminate| |]; injection E as E _; lia.
Qed.
(** a quoted text of 600 characters *)
Definition long_doc : bytes := [91; 34] ++ repeat 97 600 ++ [34; 93].
Lemma long_doc_bytes : Forall is_byte long_doc.
Proof. apply Forall_app. split; [repeat constructor; unfold is_byte; lia|]. apply Forall_app. split; [|repeat constructor; unfold is_byte; lia]. apply Forall_forall. intros c H. apply repeat_spec in H as ->. unfold is_byte. lia. Qed.
Theorem deque_undefined be : step be <> None -> exists s v, Forall is_byte s /\ parse false be s = Ok (Some v) /\ deque_parse false be 0 s = Ub.
Proof.
  intros H. exists long_doc, (v_array [v_string (repeat 97 600)]). split; [exact long_doc_bytes|].
  destruct be as [|[]|[]| | | |]; [destruct H; reflexivity|..]; split; vm_compute; reflexivity.
Qed.
