(** * Lemmas behind the parser properties (Properties_Parse.v). *)
From Verif Require Import Base Value Packed Parser Spec BaseProofs PackedProofs LexProofs StringProofs ParserProofs ParserComplete GrammarProofs Utf8Proofs.
From Coq Require Import Permutation.

(** ** C01, C02 *)
Lemma budget_cases jsonc be d s : Forall is_byte s ->
  (exists o, parse_budget jsonc be d s = Ok o) \/ (parse_budget jsonc be d s = Stack /\ (d < length s)%nat).
Proof.
  intros Hb. pose proof (parse_budget_wp jsonc be d s Hb) as H.
  destruct (parse_budget jsonc be d s); cbn in H; try contradiction; eauto.
Qed.
Lemma no_ub jsonc be d s : Forall is_byte s -> parse_budget jsonc be d s <> Ub.
Proof. intros Hb. destruct (budget_cases jsonc be d s Hb) as [(o & ->)|[-> _]]; discriminate. Qed.
Lemma terminates jsonc be s : Forall is_byte s -> exists o,
  (forall d, (length s <= d)%nat -> parse_budget jsonc be d s = Ok o) /\
  (forall d, parse_budget jsonc be d s = Ok o \/ parse_budget jsonc be d s = Stack).
Proof.
  intros Hb. destruct (parse_total jsonc be s Hb) as (o & Ho & _). unfold parse in Ho. exists o.
  assert (H : forall d, (length s <= d)%nat -> parse_budget jsonc be d s = Ok o).
  { intros d Hd. destruct (parse_budget_mono jsonc be _ _ s Hd); congruence. }
  split; [exact H|]. intros d. destruct (Nat.le_gt_cases (length s) d) as [Hd|Hd]; [left; exact (H d Hd)|].
  destruct (parse_budget_mono jsonc be d (length s) s) as [E|E]; [lia|right; exact E|left; congruence].
Qed.

(** ** C03 *)
Lemma rfc_parses be s j : Forall is_byte s -> rfc_document s j -> distinct j -> json_parse be s = Ok (Some (inject j)).
Proof. intros Hb Hr Hd. apply (parse_complete false be s j); auto using rfc_accepted. Qed.
Lemma object_lookup m : distinct (JObj m) -> exists o, inject (JObj m) = VObj Tobject (Some o) /\ sorted_keys o /\
  forall k v, In (k, v) o <-> exists j, In (k, j) m /\ v = inject j.
Proof.
  intros Hd. inversion Hd as [| | | | |m' Hn Hf]; subst. eexists. split; [reflexivity|].
  set (im := map (fun kv => (fst kv, inject (snd kv))) m).
  assert (Hk : map fst im = map fst m) by (unfold im; rewrite map_map; reflexivity).
  split; [apply sort_members_sorted; change (NoDup (map fst im)); rewrite Hk; exact Hn|].
  intros k v. pose proof (sort_members_perm im) as Hp. split.
  - intros H. eapply Permutation_in in H; [|apply Permutation_sym; exact Hp].
    unfold im in H. apply in_map_iff in H. destruct H as ([k' j] & [= <- <-] & H). eauto.
  - intros (j & H & ->). eapply Permutation_in; [exact Hp|]. unfold im. apply in_map_iff. exists (k, j). auto.
Qed.

(** ** C04, C07 *)
Lemma strict_only be s v : Forall is_byte s -> surrogates_paired s -> json_parse be s = Ok (Some v) ->
  exists j p e, s = p ++ e /\ rfc_document p j /\ distinct j /\ strict_stop e /\ v = inject j.
Proof.
  intros Hb Hp H. destruct (parse_sound false be s v Hb H) as (j & Ha & Hd & ->).
  destruct (accepted_paired _ _ _ _ Hp Ha) as (w1 & t & w2 & e & -> & Hw1 & Hw2 & He & Hc & Hg).
  exists j, (w1 ++ t ++ w2), e. splits; auto.
  - now rewrite <- !app_assoc.
  - exists w1, t, w2. splits; auto.
Qed.
Lemma strict_only_clean be s v : Forall is_byte s -> surrogates_paired s -> ~ In 0 s -> ~ In 47 s ->
  json_parse be s = Ok (Some v) -> exists j, rfc_document s j /\ distinct j /\ v = inject j.
Proof.
  intros Hb Hp H0 H47 H. destruct (strict_only be s v Hb Hp H) as (j & p & e & -> & Hr & Hd & He & ->).
  exists j. splits; auto. destruct He as [-> | (r & [-> | ->])].
  - now rewrite app_nil_r.
  - exfalso. apply H0, in_or_app. right. left. reflexivity.
  - exfalso. apply H47, in_or_app. right. left. reflexivity.
Qed.
Lemma jsonc_only be s v : Forall is_byte s -> surrogates_paired s -> json_parsec be s = Ok (Some v) ->
  exists j p e, s = p ++ e /\ jsonc_document p j /\ distinct j /\ jsonc_stop e /\ v = inject j.
Proof.
  intros Hb Hp H. destruct (parse_sound true be s v Hb H) as (j & Ha & Hd & ->).
  destruct (accepted_paired _ _ _ _ Hp Ha) as (w1 & t & w2 & e & -> & Hw1 & Hw2 & He & Hc & Hg).
  exists j, (w1 ++ t ++ w2), e. splits; auto.
  - now rewrite <- !app_assoc.
  - exists w1, t, w2, []. splits; auto.
    + now rewrite app_nil_r.
    + left; auto.
Qed.
Definition bad_tail : bytes := of_string "[]/x".
Lemma bad_tail_rfc j : ~ rfc_document bad_tail j.
Proof.
  intros H. change bad_tail with ([91; 93; 47] ++ [120]) in H. apply rfc_last in H. unfold wschar in H. lia.
Qed.
Lemma cws_head47 w : cws (47 :: w) -> exists r, w = 47 :: r \/ w = 42 :: r.
Proof. intros H. inversion H; subst; [unfold wschar in *; lia|eauto..]. Qed.
Lemma cws_head c w : cws (c :: w) -> wschar c \/ c = 47.
Proof. intros H. inversion H; subst; auto. Qed.
(** every derivation of a bracketed text *)
Lemma wsp_head jsonc c w : wsp jsonc (c :: w) -> wschar c \/ c = 47.
Proof. destruct jsonc; cbn; intros H; [now apply cws_head in H|inversion H; auto]. Qed.
Lemma wsp_nil_head jsonc w t c r : wsp jsonc w -> w ++ t = c :: r -> ~ wschar c -> c <> 47 -> w = [] /\ t = c :: r.
Proof.
  intros Hw E H1 H2. destruct w as [|x w]; cbn in E; [auto|]. injection E as E1 E2. subst x.
  apply wsp_head in Hw. tauto.
Qed.
Lemma bad_tail_jsonc j : ~ jsonc_document bad_tail j.
Proof.
  intros (w1 & t & w2 & e & E & Hw1 & Hw2 & He & Hc & Hg). unfold bad_tail in E. cbn in E.
  destruct (wsp_nil_head true w1 (t ++ w2 ++ e) 91 [93; 47; 120] Hw1 (eq_sym E)) as [-> E2]; [unfold wschar; lia|lia|].
  destruct (container_last _ _ _ _ _ Hg Hc) as (a & c & -> & Hc').
  (* t ends with a bracket: it is [] *)
  assert (Ht : w2 ++ e = [47; 120]).
  { destruct a as [|a0 [|a1 [|a2 [|a3 a]]]]; cbn in E2.
    - injection E2 as E2 _. lia.
    - injection E2 as -> -> E2. exact E2.
    - injection E2 as _ _ E2 _. lia.
    - injection E2 as _ _ _ E2 _. lia.
    - exfalso. injection E2 as _ _ _ _ E2. destruct a; discriminate. }
  destruct w2 as [|x w2]; cbn in Ht.
  - subst e. destruct He as [He|(b & He & _)]; discriminate.
  - injection Ht as -> Ht. apply cws_head47 in Hw2. destruct Hw2 as (r & [-> | ->]); discriminate.
Qed.
Lemma strict_not_rfc : exists s v, json_parse BNone s = Ok (Some v) /\ forall j, ~ rfc_document s j.
Proof. exists bad_tail, (VArr Tarray (Some [])). split; [vm_compute; reflexivity|exact bad_tail_rfc]. Qed.
Lemma jsonc_not_jsonc : exists s v, json_parsec BNone s = Ok (Some v) /\ forall j, ~ jsonc_document s j.
Proof. exists bad_tail, (VArr Tarray (Some [])). split; [vm_compute; reflexivity|exact bad_tail_jsonc]. Qed.

(** ** C05 *)
Lemma repeated_rejected jsonc be s j : Forall is_byte s -> accepted_document jsonc false s j -> ~ distinct j ->
  parse jsonc be s = Ok None.
Proof. intros Hb Ha Hd. now apply (parse_complete jsonc be s j Hb Ha). Qed.
Lemma rfc_repeated be s j : Forall is_byte s -> rfc_document s j -> ~ distinct j ->
  json_parse be s = Ok None /\ json_parsec be s = Ok None.
Proof.
  intros Hb Hr Hd. split; [apply (repeated_rejected false be s j)|apply (repeated_rejected true be s j)];
    auto using rfc_accepted, rfc_accepted_c.
Qed.
Lemma jsonc_repeated be s j : Forall is_byte s -> jsonc_document s j -> ~ distinct j -> json_parsec be s = Ok None.
Proof. intros Hb Hr Hd. apply (repeated_rejected true be s j); auto using jsonc_accepted. Qed.

(** ** C06 *)
Lemma jsonc_parses be s j : Forall is_byte s -> jsonc_document s j -> distinct j -> json_parsec be s = Ok (Some (inject j)).
Proof. intros Hb Hr Hd. apply (parse_complete true be s j); auto using jsonc_accepted. Qed.

(** ** C08 *)
Lemma rfc_both be s j : Forall is_byte s -> rfc_document s j -> json_parse be s = json_parsec be s.
Proof.
  intros Hb Hr. pose proof (parse_complete false be s j Hb (rfc_accepted s j Hr)) as [H1 H2].
  pose proof (parse_complete true be s j Hb (rfc_accepted_c s j Hr)) as [H3 H4].
  unfold json_parse, json_parsec. destruct (distinct_dec j) as [Hd|Hd].
  - now rewrite H1, H3.
  - now rewrite H2, H4.
Qed.
Lemma conservative_noslash be s v : Forall is_byte s -> ~ In 47 s -> json_parse be s = Ok (Some v) ->
  json_parsec be s = Ok (Some v).
Proof.
  intros Hb Hs H. destruct (strict_jsonc be s v Hb H) as [?|(j & w1 & t & w2 & r & -> & _)]; auto.
  exfalso. apply Hs. rewrite !in_app_iff. cbn. tauto.
Qed.
Lemma conservative_refuted : exists s v, json_parse BNone s = Ok (Some v) /\ json_parsec BNone s = Ok None.
Proof. exists (of_string "[]//x" ++ [10; 91]), (VArr Tarray (Some [])). split; vm_compute; reflexivity. Qed.

(** ** C09, C12: string literals *)
Definition string_doc (body : bytes) : bytes := [91; 34] ++ body ++ [34; 93].
Lemma decode_string jsonc be body out : gchars body out -> Forall is_byte body ->
  parse jsonc be (string_doc body) = Ok (Some (VArr Tarray (Some [VStr Tstring out]))).
Proof.
  intros Hg Hb. change (VArr Tarray (Some [VStr Tstring out])) with (inject (JArr [JStr out])).
  assert (Ha : accepted_document jsonc false (string_doc body) (JArr [JStr out])).
  { apply (gdoc_accepted jsonc false _ _ [] (string_doc body) [] []); auto using wsp_nil.
    - now rewrite !app_nil_r.
    - destruct jsonc; left; reflexivity.
    - exact I.
    - unfold string_doc. replace ([91; 34] ++ body ++ [34; 93]) with ([91] ++ ([] ++ (34 :: body ++ [34]) ++ []) ++ [93]).
      + apply gv_arr. apply ge_last; auto using wsp_nil. apply gv_str. exists body. auto.
      + cbn. rewrite app_nil_r, <- app_assoc. reflexivity. }
  apply (parse_complete jsonc be _ _) in Ha.
  - apply Ha. repeat constructor.
  - unfold string_doc. apply Forall_app. split; [repeat constructor; unfold is_byte; lia|].
    apply Forall_app. split; auto. repeat constructor; unfold is_byte; lia.
Qed.
Lemma lstring_quote raw a b : lstring raw a b -> exists a', a = 34 :: a'.
Proof. intros (body & -> & _). eauto. Qed.
(** a derivation of a text that starts with an array of a string *)
Lemma gvalue_quote jsonc raw tc t j r x : gvalue (wsp jsonc) (lstring raw) tc t j -> t ++ x = 34 :: r ->
  exists body out, r = body ++ 34 :: x /\ lchars raw None body out /\ j = JStr out.
Proof.
  intros H E. destruct H as [| | |s Hs|t s (body & -> & HL)|w Hw|t l Hl|w Hw|t m Hm]; cbn in E; try discriminate.
  - apply gnumber_head in Hs. destruct Hs as (c & y & -> & Hx). cbn in E. injection E as -> _. unfold digit in Hx. lia.
  - injection E as <-. exists body, s. splits; auto. now rewrite <- app_assoc.
Qed.
Lemma gelems_quote jsonc raw tc t l r x : gelems (wsp jsonc) (lstring raw) tc t l -> t ++ x = 34 :: r ->
  exists body out y, r = body ++ 34 :: y /\ lchars raw None body out.
Proof.
  intros H E. destruct H as [w1 t w2 j Hw1 Hg Hw2|w1 t w2 w3 j Ht Hw1 Hg Hw2 Hw3|w1 t w2 j ts l Hw1 Hg Hw2 Hl];
    rewrite <- !app_assoc in E; apply (wsp_nil_head jsonc) in E; auto; try (unfold wschar; lia);
    destruct E as [-> E]; eapply gvalue_quote in E; eauto; destruct E as (body & out & E & HL & _); eauto.
Qed.
Lemma doc_quote jsonc raw r j : accepted_document jsonc raw (91 :: 34 :: r) j ->
  exists body out y, r = body ++ 34 :: y /\ lchars raw None body out.
Proof.
  intros (w1 & t & w2 & e & E & Hw1 & Hw2 & He & Hc & Hg). symmetry in E.
  apply (wsp_nil_head jsonc) in E; auto; try (unfold wschar; lia). destruct E as [-> E].
  destruct Hg as [| | |s Hs|t s (body & -> & HL)|w Hw|t l Hl|w Hw|t m Hm]; cbn in Hc; try contradiction; cbn in E; try discriminate.
  - injection E as E. rewrite <- app_assoc in E. destruct w as [|c w]; cbn in E; [discriminate|].
    injection E as -> _. apply wsp_head in Hw. unfold wschar in Hw. lia.
  - injection E as E. rewrite <- app_assoc in E. eapply gelems_quote in E; eauto.
Qed.
Lemma hex4_same h h' cp cp' a b : hex4 h cp -> hex4 h' cp' -> h ++ a = h' ++ b -> h = h' /\ cp = cp' /\ a = b.
Proof.
  intros H H' E. apply app_same_len in E; [|now rewrite (hex4_length _ _ H), (hex4_length _ _ H')].
  destruct E as [-> ->]. splits; auto. eauto using hex4_fun.
Qed.
Lemma no_esc_u c : ~ esc 117 c. Proof. inversion 1. Qed.
Lemma not_unescaped c : unescaped c -> c <> 92. Proof. intros (_ & _ & H). exact H. Qed.
(** compare the text of two escapes *)
Ltac hexeq E :=
  repeat rewrite <- app_assoc in E; cbn [app] in E;
  match type of E with ?h ++ _ = ?h' ++ _ =>
    match goal with A : hex4 h ?c, B : hex4 h' ?c' |- _ =>
      let E1 := fresh "Eh" in let E2 := fresh "Ec" in let E3 := fresh "Er" in
      destruct (hex4_same _ _ _ _ _ _ A B E) as (E1 & E2 & E3); clear E; rename E3 into E end end.
Ltac sur := unfold high_surrogate, low_surrogate, surrogate in *; lia.
(** the first escape of a body that starts with one *)
Lemma lchars_u raw ph t o : lchars raw ph (92 :: 117 :: t) o ->
  exists h cp t' o', t = h ++ t' /\ hex4 h cp /\
   ((~ surrogate cp /\ lchars raw ph t' o') \/
    (high_surrogate cp /\ ph = None /\ lchars raw (Some cp) t' o') \/
    (low_surrogate cp /\ ph <> None /\ lchars raw None t' o')).
Proof.
  intros H. inversion H as [|? ? ? ? Hc|? ? ? ? He|? h cp t' ? Hh Hs Hg|h hi t' ? Hh Hi Hg|hi h lo t' ? Hh Hl Hg]; subst.
  - now apply not_unescaped in Hc.
  - now apply no_esc_u in He.
  - exists h, cp, t'. eexists. splits; eauto.
  - exists h, hi, t'. eexists. splits; eauto 6.
  - exists h, lo, t'. eexists. splits; eauto. right. right. splits; [auto|discriminate|eassumption].
Qed.
Lemma body_head (body : bytes) c x (y : bytes) : body ++ 34 :: x = c :: y -> c <> 34 -> exists body', body = c :: body' /\ body' ++ 34 :: x = y.
Proof. destruct body as [|c' b]; cbn; intros [= -> E] Hc; [congruence|eauto]. Qed.
(** a proper beginning of a body stays one *)
Lemma lchars_prefix raw pre o : gchars pre o -> forall body out x y, lchars raw None body out ->
  body ++ 34 :: x = pre ++ y -> exists body' out', body = pre ++ body' /\ lchars raw None body' out' /\ body' ++ 34 :: x = y.
Proof.
  induction 1 as [|c t s Hc H IH|l c t s He H IH|h cp t s Hh Hs H IH|h1 hi h2 lo t s H1 H2 Hi Hl H IH];
    intros body out x y HL E; cbn [app] in E.
  - exists body, out. auto.
  - destruct Hc as (Hc1 & Hc2 & Hc3). apply body_head in E; auto. destruct E as (b & -> & E).
    inversion HL; subst; try congruence. eapply IH in E; [|eassumption]. destruct E as (b' & o' & -> & ? & ?). exists b', o'. auto.
  - apply body_head in E; [|lia]. destruct E as (b & -> & E).
    inversion HL; subst; try (unfold unescaped in *; tauto); cbn [app] in E; injection E as E0 E; subst; try (exfalso; eapply no_esc_u; eassumption).
    eapply IH in E; [|eassumption]. destruct E as (b' & o' & -> & ? & ?). exists b', o'. auto.
  - apply body_head in E; [|lia]. destruct E as (b & -> & E). apply body_head in E; [|lia]. destruct E as (b1 & -> & E).
    apply lchars_u in HL. destruct HL as (h' & cp' & t' & o' & -> & Hh' & HL). hexeq E. subst.
    destruct HL as [[_ HL]|[[HL _]|[HL _]]]; [|exfalso; apply Hs; sur..].
    eapply IH in E; [|eassumption]. destruct E as (b' & o'' & -> & ? & ?). exists b', o''. cbn. rewrite <- app_assoc. auto.
  - apply body_head in E; [|lia]. destruct E as (b & -> & E). apply body_head in E; [|lia]. destruct E as (b1 & -> & E).
    apply lchars_u in HL. destruct HL as (h' & cp' & t' & o' & -> & Hh' & HL). hexeq E. subst.
    destruct HL as [[HL _]|[(_ & _ & HL)|[HL _]]]; [exfalso; apply HL; sur| |exfalso; sur].
    apply body_head in E; [|lia]. destruct E as (b & -> & E). apply body_head in E; [|lia]. destruct E as (b1 & -> & E).
    apply lchars_u in HL. destruct HL as (h' & cp' & t2 & o2 & -> & Hh2 & HL). hexeq E. subst.
    destruct HL as [[HL _]|[(_ & ? & HL)|(_ & _ & HL)]]; [exfalso; apply HL; sur|discriminate|].
    eapply IH in E; [|eassumption]. destruct E as (b' & o'' & -> & ? & ?). exists b', o''. splits; auto.
    repeat (cbn [app]; rewrite <- ?app_assoc). reflexivity.
Qed.
Lemma reject_if jsonc be s : Forall is_byte s -> (forall j, ~ accepted_document jsonc (raw_ok be) s j) -> parse jsonc be s = Ok None.
Proof.
  intros Hb H. destruct (parse_total jsonc be s Hb) as ([v|] & Ho & HP); [|exact Ho].
  destruct HP as (j & Ha & _). destruct (H j Ha).
Qed.
Lemma control_rejected jsonc be pre o c rest : gchars pre o -> c < 32 -> Forall is_byte (pre ++ c :: rest) ->
  parse jsonc be ([91; 34] ++ pre ++ c :: rest) = Ok None.
Proof.
  intros Hp Hc Hb. apply reject_if.
  { apply Forall_app. split; auto. repeat constructor; unfold is_byte; lia. }
  intros j Ha. apply doc_quote in Ha. destruct Ha as (body & out & y & E & HL). symmetry in E.
  destruct (lchars_prefix _ _ _ Hp _ _ _ _ HL E) as (b' & o' & -> & HL' & E').
  destruct b' as [|c' b']; cbn in E'; injection E' as E0 E'; [lia|]. subst c'. inversion HL'; subst; try lia.
  unfold unescaped in *. lia.
Qed.
Lemma lone_low_rejected jsonc be pre o h lo rest : gchars pre o -> hex4 h lo -> low_surrogate lo ->
  Forall is_byte (pre ++ 92 :: 117 :: h ++ rest) ->
  parse jsonc be ([91; 34] ++ pre ++ 92 :: 117 :: h ++ rest) = Ok None.
Proof.
  intros Hp Hh Hl Hb. apply reject_if.
  { apply Forall_app. split; auto. repeat constructor; unfold is_byte; lia. }
  intros j Ha. apply doc_quote in Ha. destruct Ha as (body & out & y & E & HL). symmetry in E.
  destruct (lchars_prefix _ _ _ Hp _ _ _ _ HL E) as (b' & o' & -> & HL' & E'). clear E.
  apply body_head in E'; [|lia]. destruct E' as (b & -> & E). apply body_head in E; [|lia]. destruct E as (b1 & -> & E).
  apply lchars_u in HL'. destruct HL' as (h' & cp' & t' & o2 & -> & Hh' & HL'). hexeq E. subst.
  destruct HL' as [[HL' _]|[(HL' & _ & _)|(_ & HL' & _)]]; [apply HL'; sur|sur|congruence].
Qed.
(** a pending high surrogate has to meet a low one *)
Lemma pending_low raw ph body out : lchars raw ph body out -> ph <> None ->
  exists a h lo b, body = a ++ 92 :: 117 :: h ++ b /\ hex4 h lo /\ low_surrogate lo.
Proof.
  induction 1 as [|ph c t s Hc Ho H IH|l c t s He H IH|ph h cp t s Hh Hs H IH|h hi t s Hh Hi H IH|hi h lo t s Hh Hl H IH];
    intros Hn; try congruence.
  - destruct (IH Hn) as (a & h & lo & b & -> & ? & ?). exists (c :: a), h, lo, b. auto.
  - destruct (IH Hn) as (a & h' & lo & b & -> & ? & ?). exists (92 :: 117 :: h ++ a), h', lo, b. cbn. rewrite <- app_assoc. auto.
  - exists [], h, lo, t. auto.
Qed.
Lemma lone_high_rejected jsonc be pre o h hi rest : gchars pre o -> hex4 h hi -> high_surrogate hi ->
  (forall a h2 lo b, rest = a ++ 92 :: 117 :: h2 ++ b -> hex4 h2 lo -> ~ low_surrogate lo) ->
  Forall is_byte (pre ++ 92 :: 117 :: h ++ rest) ->
  parse jsonc be ([91; 34] ++ pre ++ 92 :: 117 :: h ++ rest) = Ok None.
Proof.
  intros Hp Hh Hi Hno Hb. apply reject_if.
  { apply Forall_app. split; auto. repeat constructor; unfold is_byte; lia. }
  intros j Ha. apply doc_quote in Ha. destruct Ha as (body & out & y & E & HL). symmetry in E.
  destruct (lchars_prefix _ _ _ Hp _ _ _ _ HL E) as (b' & o' & -> & HL' & E'). clear E.
  apply body_head in E'; [|lia]. destruct E' as (b & -> & E). apply body_head in E; [|lia]. destruct E as (b1 & -> & E).
  apply lchars_u in HL'. destruct HL' as (h' & cp' & t' & o2 & -> & Hh' & HL'). hexeq E. subst.
  destruct HL' as [[HL' _]|[(_ & _ & HL')|(HL' & _ & _)]]; [apply HL'; sur| |sur].
  destruct (pending_low _ _ _ _ HL') as (a & h2 & lo & b & -> & Hh2 & Hl); [discriminate|].
  refine (Hno a h2 lo (b ++ 34 :: y) _ Hh2 Hl). repeat (rewrite <- app_assoc; cbn [app]). reflexivity.
Qed.
Lemma displaced_surrogate : exists body out, parse false BNone (string_doc body) = Ok (Some (VArr Tarray (Some [VStr Tstring out]))) /\
  forall o, ~ gchars body o.
Proof.
  set (b1 := [92; 117; 68; 56; 48; 48]). set (b2 := [92; 117; 48; 48; 52; 49]). set (b3 := [92; 117; 68; 67; 48; 48]).
  exists (b1 ++ b2 ++ b3). eexists. split; [vm_compute; reflexivity|].
  intros o H. unfold b1, b2, b3 in H. cbn [app] in H.
  inversion H as [|c0 t0 s0 Hc| l c0 t0 s0 He | h cp t s Hh Hs Hg E | h1 hi h2 lo t s H1 H2 Hi Hl Hg E]; subst.
  - unfold unescaped in Hc. lia.
  - inversion He.
  - change [68; 56; 48; 48; 92; 117; 48; 48; 52; 49; 92; 117; 68; 67; 48; 48] with ([68; 56; 48; 48] ++ [92; 117; 48; 48; 52; 49; 92; 117; 68; 67; 48; 48]) in E.
    assert (H8 : hex4 [68; 56; 48; 48] 55296).
    { apply (hex4_intro 68 56 48 48 13 8 0 0); [apply (hex_up 68)|apply (hex_dec 56)|apply (hex_dec 48)|apply (hex_dec 48)]; lia. }
    destruct (hex4_same _ _ _ _ _ _ Hh H8 E) as (_ & -> & _). apply Hs. unfold surrogate. lia.
  - change [68; 56; 48; 48; 92; 117; 48; 48; 52; 49; 92; 117; 68; 67; 48; 48] with ([68; 56; 48; 48] ++ [92; 117; 48; 48; 52; 49; 92; 117; 68; 67; 48; 48]) in E.
    assert (H8 : hex4 [68; 56; 48; 48] 55296).
    { apply (hex4_intro 68 56 48 48 13 8 0 0); [apply (hex_up 68)|apply (hex_dec 56)|apply (hex_dec 48)|apply (hex_dec 48)]; lia. }
    destruct (hex4_same _ _ _ _ _ _ H1 H8 E) as (_ & _ & E'). injection E' as E'.
    change [48; 48; 52; 49; 92; 117; 68; 67; 48; 48] with ([48; 48; 52; 49] ++ [92; 117; 68; 67; 48; 48]) in E'.
    assert (H9 : hex4 [48; 48; 52; 49] 65).
    { apply (hex4_intro 48 48 52 49 0 0 4 1); [apply (hex_dec 48)|apply (hex_dec 48)|apply (hex_dec 52)|apply (hex_dec 49)]; lia. }
    destruct (hex4_same _ _ _ _ _ _ H2 H9 E') as (_ & -> & _). unfold low_surrogate in Hl. lia.
Qed.

(** ** C10 *)
Definition split_pair (n : nat) : bytes :=
  string_doc ([92; 117; 68; 56; 51; 68] ++ repeat 120 n ++ [92; 117; 68; 69; 48; 48]).
Lemma backend_dependent : forall be, be <> BNone -> exists s v, json_parse BNone s = Ok None /\ json_parse be s = Ok (Some v).
Proof.
  intros be Hbe. exists (split_pair 64).
  destruct be as [|[]|[]| | | |]; try congruence; eexists; split; vm_compute; reflexivity.
Qed.

(** ** C12 *)
Lemma words_agree jsonc be be' st st' s : exact_backend be -> exact_backend be' -> step be = Some st -> step be' = Some st' ->
  (st <= 8)%nat -> (st' <= 8)%nat -> Forall is_byte s -> parse jsonc be s = parse jsonc be' s.
Proof.
  intros He He' Hst Hst' H8 H8' Hb. apply (parse_same_short jsonc be be' st st' s s He He' Hst Hst' H8 H8' Hb Hb). intros j. reflexivity.
Qed.
Lemma lchars_clean raw ph t s : lchars raw ph t s -> Forall (fun c => 32 <= c) t.
Proof.
  induction 1 as [|ph c t s Hc Ho H IH|l c t s He H IH|ph h cp t s Hh Hs H IH|h hi t s Hh Hi H IH|hi h lo t s Hh Hl H IH]; auto.
  - constructor; auto. apply Hc.
  - constructor; [lia|]. constructor; auto. destruct He; lia.
  - repeat (constructor; [lia|]). apply Forall_app. split; auto. destruct Hh as [a b c d a' b' c' d' Ha Hb Hc Hd]. destruct Ha, Hb, Hc, Hd; repeat constructor; lia.
  - repeat (constructor; [lia|]). apply Forall_app. split; auto. destruct Hh as [a b c d a' b' c' d' Ha Hb Hc Hd]. destruct Ha, Hb, Hc, Hd; repeat constructor; lia.
  - repeat (constructor; [lia|]). apply Forall_app. split; auto. destruct Hh as [a b c d a' b' c' d' Ha Hb Hc Hd]. destruct Ha, Hb, Hc, Hd; repeat constructor; lia.
Qed.
Lemma lstring_clean raw t s : lstring raw t s -> Forall (fun c => 32 <= c) t.
Proof.
  intros (body & -> & H). constructor; [lia|]. apply Forall_app. split; [eauto using lchars_clean|repeat constructor; lia].
Qed.
Lemma no_control_in_strings jsonc be s v : Forall is_byte s -> parse jsonc be s = Ok (Some v) ->
  exists j w1 t w2 e, s = w1 ++ t ++ w2 ++ e /\ wsp jsonc w1 /\ wsp jsonc w2 /\ stop jsonc e /\ v = inject j /\
    gvalue (wsp jsonc) (fun lit k => lstring (raw_ok be) lit k /\ Forall (fun c => 32 <= c) lit) jsonc t j.
Proof.
  intros Hb H. destruct (parse_sound jsonc be s v Hb H) as (j & (w1 & t & w2 & e & -> & Hw1 & Hw2 & He & Hc & Hg) & Hd & ->).
  exists j, w1, t, w2, e. splits; auto. eapply gvalue_weaken; [| | |exact Hg]; auto. cbn. eauto using lstring_clean.
Qed.

(** ** C20 *)
Lemma number_exact jsonc be t : Forall is_byte t ->
  (parse jsonc be ([91] ++ t ++ [93]) = Ok (Some (VArr Tarray (Some [VStr Tnumber t]))) <-> gnumber t).
Proof.
  intros Hb.
  assert (Hb' : Forall is_byte ([91] ++ t ++ [93])).
  { constructor; [unfold is_byte; lia|]. apply Forall_app. split; auto. repeat constructor; unfold is_byte; lia. }
  split.
  - intros H. apply parse_wf in H; auto. inversion H as [| | | |l Hl|]; subst. inversion Hl as [|x l Hx]; subst. inversion Hx; auto.
  - intros Hn. change (VArr Tarray (Some [VStr Tnumber t])) with (inject (JArr [JNum t])).
    apply (parse_complete jsonc be _ (JArr [JNum t])); auto; [|repeat constructor].
    apply (gdoc_accepted jsonc false _ _ [] ([91] ++ t ++ [93]) [] []); auto using wsp_nil.
    + now rewrite !app_nil_r.
    + destruct jsonc; left; reflexivity.
    + exact I.
    + replace t with ([] ++ t ++ []) at 1 by (now rewrite app_nil_r). apply gv_arr, ge_last; auto using wsp_nil, gv_num.
Qed.

(** ** C40, C46 *)
Lemma bom_removed be jsonc s : json_parse_stream be true jsonc (Seekable ([239; 187; 191] ++ s)) = parse jsonc be s.
Proof. destruct jsonc; reflexivity. Qed.
Lemma no_bom be cb jsonc s : (cb = false \/ forall r, s <> [239; 187; 191] ++ r) ->
  json_parse_stream be cb jsonc (Seekable s) = parse jsonc be s.
Proof.
  intros H. unfold json_parse_stream.
  replace (if cb then strip_bom s else s) with s; [destruct jsonc; reflexivity|].
  destruct cb; auto. destruct H as [H|H]; [discriminate|].
  destruct s as [|b0 [|b1 [|b2 r]]]; auto. cbn.
  destruct ((b0 =? 239) && (b1 =? 187) && (b2 =? 191)) eqn:E; auto.
  exfalso. apply (H r). replace b0 with 239 by lia. replace b1 with 187 by lia. replace b2 with 191 by lia. reflexivity.
Qed.
Lemma bom_rejected be jsonc s : json_parse_stream be false jsonc (Seekable ([239; 187; 191] ++ s)) = Ok None.
Proof.
  destruct jsonc; cbn [json_parse_stream]; unfold json_parsec, json_parse, parse, parse_budget; cbn [app];
    rewrite skip_ws_nows by (unfold token, wschar; lia); reflexivity.
Qed.
Lemma cstr_spec s r : ~ In 0 s -> cstr (s ++ 0 :: r) = Ok s.
Proof.
  induction s as [|c s IH]; cbn [app cstr In]; intros H; [reflexivity|].
  destruct (N.eqb_spec c 0) as [->|Hc]; [tauto|]. rewrite IH by tauto. reflexivity.
Qed.
Lemma cstr_parse be s r : ~ In 0 s ->
  json_parse_cstr be (s ++ 0 :: r) = json_parse be s /\ json_parsec_cstr be (s ++ 0 :: r) = json_parsec be s.
Proof. intros H. unfold json_parse_cstr, json_parsec_cstr. rewrite cstr_spec; auto. Qed.
Lemma parse_root jsonc be s v : Forall is_byte s -> parse jsonc be s = Ok (Some v) ->
  wf v /\ ((exists l, v = VArr Tarray (Some l)) \/ exists m, v = VObj Tobject (Some m)).
Proof.
  intros Hb H. split; [eauto using parse_wf|].
  destruct (parse_sound jsonc be s v Hb H) as (j & (w1 & t & w2 & e & -> & Hw1 & Hw2 & He & Hc & Hg) & Hd & ->).
  destruct j; cbn in Hc; try contradiction; cbn; eauto.
Qed.
Lemma literals be s : Forall is_byte s ->
  (forall v, json_parse be s = Ok (Some v) -> lit_jvalue be s = Ok v) /\
  (forall l, json_parse be s = Ok (Some (VArr Tarray (Some l))) -> lit_jarray be s = Ok l /\ lit_jobject be s = Ok []) /\
  (forall m, json_parse be s = Ok (Some (VObj Tobject (Some m))) -> lit_jobject be s = Ok m /\ lit_jarray be s = Ok []) /\
  (json_parse be s = Ok None -> lit_jvalue be s = Ok (VStr Tnull []) /\ lit_jarray be s = Ok [] /\ lit_jobject be s = Ok []) /\
  (* one of these cases applies *)
  (json_parse be s = Ok None \/ (exists l, json_parse be s = Ok (Some (VArr Tarray (Some l)))) \/
   exists m, json_parse be s = Ok (Some (VObj Tobject (Some m)))).
Proof.
  intros Hb. unfold lit_jvalue, lit_jarray, lit_jobject. splits.
  - intros v ->. reflexivity.
  - intros l ->. auto.
  - intros m ->. auto.
  - intros ->. auto.
  - destruct (parse_total false be s Hb) as ([v|] & Ho & _).
    + right. unfold json_parse. rewrite Ho. destruct (parse_root false be s v Hb Ho) as [_ [[l ->]|[m ->]]]; eauto.
    + left. exact Ho.
Qed.
Lemma strip_bom_bytes s : Forall is_byte s -> Forall is_byte (strip_bom s).
Proof.
  intros H. destruct s as [|a [|b [|c r]]]; auto. cbn. destruct ((a =? 239) && (b =? 187) && (c =? 191)); auto.
  inversion H as [|? ? ? H1]; subst. inversion H1 as [|? ? ? H2]; subst. now inversion H2.
Qed.
Lemma open_no_throw be cb jsonc s : Forall is_byte s -> exists o, json_open be cb jsonc (Some (Seekable s)) = Ok o.
Proof.
  intros Hb. cbn [json_open json_parse_stream].
  assert (Hs : Forall is_byte (if cb then strip_bom s else s)) by (destruct cb; auto using strip_bom_bytes).
  destruct jsonc; [destruct (parse_total true be _ Hs) as (o & Ho & _)|destruct (parse_total false be _ Hs) as (o & Ho & _)];
    exists o; exact Ho.
Qed.
Lemma stream_can_throw be cb jsonc : exists st e, json_parse_stream be cb jsonc st = Throw e.
Proof. exists Unseekable, LengthError. reflexivity. Qed.
Lemma stack_refuted jsonc be : ~ exists d, forall s, Forall is_byte s -> parse_budget jsonc be d s <> Stack.
Proof.
  intros (d & H). apply (H (repeat 91 (S (S d)) ++ [])); [|apply stack_unbounded].
  rewrite app_nil_r. apply Forall_forall. intros c Hc. apply repeat_spec in Hc. subst. unfold is_byte. lia.
Qed.
