(** * Theorems on streams, from the lemmas of StreamProofs.v. *)
From Verif Require Import Base BaseProofs Value Packed Parser Dump Spec SpecStream Stream ParserComplete ParserProofs GrammarProofs PropsParse DumpProofs StreamProofs.

(** ** Input *)
Lemma istream_runs be cb wc i : ifail i = false -> iseekable i = true ->
  let got := firstn (isize i) (ideliver i) in
  let short := (length got <? isize i)%nat in
  parse_istream be cb wc i =
    (json_parse_stream be cb wc (Seekable (got ++ repeat 0 (isize i - length got))), with_state (length got) short short i).
Proof.
  intros F S. destruct i as [n d p e f k]. cbn in F, S. subst. cbn [isize ideliver]. cbv zeta. reflexivity.
Qed.
Lemma istream_whole be cb wc i : ifail i = false -> iseekable i = true -> length (ideliver i) = isize i ->
  parse_istream be cb wc i = (json_parse_stream be cb wc (Seekable (ideliver i)), with_state (isize i) false false i).
Proof.
  intros F S L. rewrite (istream_runs be cb wc i F S). cbv zeta. rewrite firstn_all2 by lia. rewrite L, Nat.sub_diag, Nat.ltb_irrefl. cbn [repeat]. now rewrite app_nil_r.
Qed.
Lemma istream_again be cb wc cb' wc' i r i' : ifail i = false -> iseekable i = true -> length (ideliver i) = isize i ->
  parse_istream be cb wc i = (r, i') -> parse_istream be cb' wc' i' = (fst (parse_istream be cb' wc' i), i').
Proof.
  intros F S L E. rewrite (istream_whole be cb wc i F S L) in E. injection E as <- <-. rewrite (istream_whole be cb' wc' i F S L). cbn [fst].
  rewrite istream_whole; auto.
Qed.
Lemma istream_short be cb wc i : ifail i = false -> iseekable i = true -> (length (ideliver i) < isize i)%nat ->
  Forall is_byte (ideliver i) -> plain_for be (ideliver i) ->
  parse_istream be cb wc i = (json_parse_stream be cb wc (Seekable (ideliver i)), with_state (length (ideliver i)) true true i).
Proof.
  intros F S L Hb P. rewrite (istream_runs be cb wc i F S). cbv zeta. rewrite firstn_all2 by lia.
  replace (length (ideliver i) <? isize i)%nat with true by (symmetry; now apply Nat.ltb_lt). now rewrite stream_nuls.
Qed.
Lemma istream_broken be cb wc i : ifail i = true \/ iseekable i = false ->
  parse_istream be cb wc i = (Throw LengthError, with_state (ipos i) false true i).
Proof.
  intros H. destruct i as [n d p e f k]. cbn in H. destruct f; [reflexivity|]. destruct H as [H|H]; [discriminate|]. subst k. reflexivity.
Qed.
Lemma crlf_length s : (length (crlf s) <= length s)%nat.
Proof. induction s as [|c s IH]; [auto|]. rewrite crlf_cons. destruct ((c =? 13) && heads10 s); cbn [length]; lia. Qed.
Lemma open_text be cb wc s : Forall is_byte s -> plain_for be s -> open_file be cb wc true s = open_file be cb wc false s.
Proof.
  intros Hb P. unfold open_file. rewrite (istream_whole be cb wc (opened false s)) by reflexivity. cbn [fst opened ideliver].
  rewrite <- stream_crlf by auto. pose proof (crlf_length s) as L. destruct (Nat.eq_dec (length (crlf s)) (length s)) as [E|N].
  - rewrite istream_whole by (auto; exact E). reflexivity.
  - rewrite istream_short; auto.
    + cbn. lia.
    + now apply bytes_crlf.
    + destruct P as [|[|]]; [now left|right; now left|right; right; now apply paired_crlf].
Qed.
Lemma open_binary be cb wc s : open_file be cb wc false s = json_open be cb wc (Some (Seekable s)).
Proof. unfold open_file. rewrite (istream_whole be cb wc (opened false s)) by reflexivity. reflexivity. Qed.

(** ** Output *)
Lemma repeat_eq (f : N) n : Forall (eq f) (repeat f n).
Proof. apply Forall_forall. intros x H. apply repeat_spec in H. now subst. Qed.
Lemma put_put t u o : put u (put t o) = put (t ++ u) o.
Proof.
  unfold put. destruct o as [w wi f l g r]. cbn [ogood oroom written owidth ofill oleft]. destruct g; [|reflexivity]. cbn [negb].
  destruct r as [r|]; cbn [ogood oroom written owidth ofill oleft negb]; [|now rewrite app_assoc].
  rewrite app_length. destruct (length t <=? r)%nat eqn:E; cbn [negb].
  - f_equal.
    + rewrite <- app_assoc. f_equal. rewrite (firstn_app r t u). f_equal.
    + apply Nat.leb_le in E. destruct (Nat.leb_spec (length u) (r - length t)), (Nat.leb_spec (length t + length u) r); auto; lia.
    + f_equal. lia.
  - apply Nat.leb_gt in E. f_equal.
    + f_equal. rewrite firstn_app. replace (r - length t)%nat with 0%nat by lia. cbn. now rewrite app_nil_r.
    + symmetry. apply Nat.leb_gt. lia.
    + f_equal. lia.
Qed.
Lemma insert_runs t o : ogood o = true -> exists u, pads (owidth o) (ofill o) (oleft o) t u /\ ostream_insert t o = set_width 0 (put u o).
Proof.
  intros G. unfold ostream_insert. rewrite G. cbn [negb]. set (p := repeat (ofill o) (N.to_nat (owidth o) - length t)).
  exists (if oleft o then t ++ p else p ++ t). split.
  - exists p. split; [apply repeat_eq|]. split; [apply repeat_length|]. reflexivity.
  - destruct (oleft o); now rewrite put_put.
Qed.
Lemma insert_any v o t : dumps (Some 4) v = Ok t -> ogood o = true -> exists u o',
  pads (owidth o) (ofill o) (oleft o) t u /\ insert_value v o = Ok o' /\
  written o' = written o ++ match oroom o with Some r => firstn r u | None => u end /\
  (ogood o' = true <-> match oroom o with Some r => (length u <= r)%nat | None => True end) /\
  owidth o' = 0 /\ ofill o' = ofill o /\ oleft o' = oleft o /\
  oroom o' = match oroom o with Some r => Some (r - length u)%nat | None => None end.
Proof.
  intros E G. destruct (insert_runs t o G) as (u & P & I). exists u, (set_width 0 (put u o)). unfold insert_value. rewrite E. cbn [bind]. rewrite I.
  split; [exact P|]. split; [reflexivity|]. unfold put. rewrite G. cbn [negb]. destruct (oroom o) as [r|]; cbn [set_width written ogood owidth ofill oleft oroom].
  - splits; auto. apply Nat.leb_le.
  - splits; auto. tauto.
Qed.
Lemma insert_not_good v o : ogood o = false -> insert_value v o = bind (dumps (Some 4) v) (fun _ => Ok o).
Proof. intros G. unfold insert_value, ostream_insert. now rewrite G. Qed.
Lemma insert_throws v o e : dumps (Some 4) v = Throw e -> insert_value v o = Throw e.
Proof. intros E. unfold insert_value. now rewrite E. Qed.
Lemma insert_containers o : (forall l, insert_array l o = insert_value (v_array l) o) /\ (forall m, insert_object m o = insert_value (v_object m) o).
Proof. destruct (array_object_dumps (Some 4)) as [A B]. unfold insert_array, insert_object, insert_value. split; intros; now rewrite ?A, ?B. Qed.

(** ** From a value to a stream and back *)
Lemma rfc_reads jsonc be s j : Forall is_byte s -> rfc_document s j -> distinct j -> parse jsonc be s = Ok (Some (inject j)).
Proof.
  intros Hb H Hd. apply (parse_complete jsonc be s j Hb); auto. destruct jsonc; auto using rfc_accepted, rfc_accepted_c.
Qed.
Lemma eq_ws f p : wschar f -> Forall (eq f) p -> ws p.
Proof. intros H. apply Forall_impl. intros c <-. exact H. Qed.
Lemma eq_bytes f p : wschar f -> Forall (eq f) p -> Forall is_byte p.
Proof. intros H. apply Forall_impl. intros c <-. unfold wschar, is_byte in *. lia. Qed.
Lemma insert_read jsonc be v o : wf v -> all_vstrings (Forall is_byte) v -> root v ->
  ogood o = true -> oroom o = None -> ws (written o) ->
  (wschar (ofill o) \/ forall t, dumps (Some 4) v = Ok t -> (N.to_nat (owidth o) <= length t)%nat) ->
  exists o', insert_value v o = Ok o' /\ ogood o' = true /\ parse jsonc be (written o') = Ok (Some v).
Proof.
  intros H HP Hr G R Hw Hf. destruct (dumps_document (Some 4) v H Hr) as (t & E & w1 & x & w2 & Et & Hw1 & Hw2 & Hc & Hg).
  destruct (insert_any v o t E G) as (u & o' & (p & Pp & Lp & Eu) & I & W & Go & _). rewrite R in W, Go. exists o'. split; [exact I|]. split; [now apply Go|].
  assert (Hp : ws p /\ Forall is_byte p).
  { destruct Hf as [Hf|Hf]; [eauto using eq_ws, eq_bytes|]. specialize (Hf t E). destruct p; [split; constructor|cbn in Lp; lia]. }
  destruct Hp as [Hp Hpb]. rewrite W. rewrite <- (inject_project v H). apply rfc_reads; [| |now apply distinct_project].
  - apply Forall_app. split; [eapply Forall_impl; [|exact Hw]; unfold wschar, is_byte; cbn; intros; lia|]. pose proof (dumps_bytes v (Some 4) t H HP E).
    rewrite Eu. destruct (oleft o); apply Forall_app; auto.
  - rewrite Eu, Et. destruct (oleft o).
    + exists (written o ++ w1), x, (w2 ++ p). rewrite <- !app_assoc. splits; auto; apply Forall_app; auto.
    + exists (written o ++ p ++ w1), x, w2. rewrite <- !app_assoc. splits; auto; repeat (apply Forall_app; split); auto.
Qed.
Lemma insert_cut jsonc be v o o' : wf v -> all_vstrings (Forall is_byte) v -> root v ->
  ogood o = true -> written o = [] -> owidth o = 0 -> insert_value v o = Ok o' -> ogood o' = false -> parse jsonc be (written o') = Ok None.
Proof.
  intros H HP Hr G W0 W1 I Go. destruct (dumps_document (Some 4) v H Hr) as (t & E & _).
  destruct (insert_any v o t E G) as (u & o'' & (p & Pp & Lp & Eu) & I' & W & Go' & _). rewrite I in I'. injection I' as <-.
  rewrite W1 in Lp. destruct p as [|c p]; [|cbn in Lp; lia]. assert (Ut : u = t) by (rewrite Eu; destruct (oleft o); [apply app_nil_r|reflexivity]). clear Eu. subst u.
  destruct (oroom o) as [r|]; [|rewrite (proj2 Go' Logic.I) in Go; discriminate].
  assert (W2 : written o' = firstn r t) by (rewrite W, W0; reflexivity). rewrite W2.
  pose proof (truncated jsonc be (Some 4) v t (firstn r t) (skipn r t) H HP Hr E (eq_sym (firstn_skipn r t))) as Tr. apply Tr. clear Tr.
  intros Sk. assert (L : (length t <= r)%nat). { pose proof (skipn_length r t) as S. rewrite Sk in S. cbn in S. lia. } apply Go' in L. congruence.
Qed.
Lemma insert_all_text l : forall o ts, Forall2 (fun v t => dumps (Some 4) v = Ok t) l ts -> ogood o = true -> oroom o = None -> owidth o = 0 ->
  exists o', insert_all l o = Ok o' /\ written o' = written o ++ concat ts /\ ogood o' = true.
Proof.
  induction l as [|v l IH]; intros o ts F G R W; inversion F as [|? t ? ts' E F']; subst.
  - exists o. cbn. now rewrite app_nil_r.
  - destruct (insert_any v o t E G) as (u & o1 & (p & _ & Lp & Eu) & I & W1 & G1 & W2 & _ & _ & R1). rewrite R in W1, G1, R1.
    rewrite W in Lp. destruct p as [|c p]; [|cbn in Lp; lia]. assert (Ut : u = t) by (rewrite Eu; destruct (oleft o); [apply app_nil_r|reflexivity]). clear Eu. subst u.
    destruct (IH o1 ts' F') as (o' & I' & W' & G'); auto; [now apply G1|]. exists o'. cbn [insert_all bind]. rewrite I. cbn [bind]. split; [exact I'|]. split; [|exact G'].
    rewrite W', W1. cbn [concat]. now rewrite <- app_assoc.
Qed.
Lemma to_disk_crlf t : ~ In 13 t -> crlf (to_disk t) = t.
Proof.
  induction t as [|c t IH]; intros H; [reflexivity|]. assert (Hc : c <> 13) by (intros ->; apply H; now left). assert (Ht : ~ In 13 t) by (intros I; apply H; now right).
  cbn [to_disk]. destruct (c =? 10) eqn:E.
  - rewrite !crlf_cons. cbn [N.eqb Pos.eqb andb heads10]. rewrite IH by exact Ht. f_equal. lia.
  - rewrite crlf_cons. replace (c =? 13) with false by lia. cbn [andb]. now rewrite IH.
Qed.
Lemma to_disk_bytes t : Forall is_byte t -> Forall is_byte (to_disk t).
Proof.
  induction 1 as [|c t Hc _ IH]; cbn [to_disk]; [constructor|]. destruct (c =? 10); repeat (apply Forall_cons); auto; unfold is_byte; lia.
Qed.
Lemma dumps_no_cr n v t : wf v -> dumps n v = Ok t -> ~ In 13 t.
Proof.
  intros H E I. destruct n as [n|].
  - pose proof (format_clean v n t H E) as C. rewrite Forall_forall in C. apply C in I. lia.
  - pose proof (dump_clean v t H E) as C. rewrite Forall_forall in C. apply C in I. lia.
Qed.
Lemma strip_bom_other c r : c <> 239 -> strip_bom (c :: r) = c :: r.
Proof. intros H. destruct r as [|b1 [|b2 r]]; try reflexivity. cbn [strip_bom]. now replace (c =? 239) with false by lia. Qed.
Lemma file_round_trip be cb jsonc (out_text in_text : bool) n v : wf v -> all_vstrings (Forall is_byte) v -> root v ->
  exists t, dumps n v = Ok t /\ open_file be cb jsonc in_text (if out_text then to_disk t else t) = Ok (Some v).
Proof.
  intros H HP Hr. destruct (dumps_document n v H Hr) as (t & E & D). exists t. split; [exact E|].
  pose proof (dumps_bytes v n t H HP E) as Hb. pose proof (dumps_no_cr n v t H E) as Ncr.
  set (s := if out_text then to_disk t else t).
  assert (Hs : Forall is_byte s) by (unfold s; destruct out_text; auto using to_disk_bytes).
  assert (A : accepted_document jsonc false s (project v)).
  { assert (A : accepted_document jsonc false t (project v)) by (destruct jsonc; auto using rfc_accepted, rfc_accepted_c).
    unfold s. destruct out_text; [|exact A]. apply accepted_crlf. now rewrite to_disk_crlf. }
  assert (Nb : forall s j, accepted_document jsonc false s j -> strip_bom s = s).
  { clear. intros s j (w1 & t & w2 & e & -> & Hw1 & _ & _ & Hc & Hg). destruct w1 as [|c w1].
    - destruct Hg; try destruct Hc; apply strip_bom_other; lia.
    - apply strip_bom_other. destruct (wsp_head jsonc c w1 Hw1) as [Hc'| ->]; [unfold wschar in Hc'; lia|lia]. }
  assert (K : forall s, Forall is_byte s -> accepted_document jsonc false s (project v) -> forall n, json_parse_stream be cb jsonc (Seekable (s ++ repeat 0 n)) = Ok (Some v)).
  { clear - H Nb. intros s Hs A n. assert (A' : accepted_document jsonc false (s ++ repeat 0 n) (project v)) by now apply accepted_nuls.
    assert (P : parse jsonc be (s ++ repeat 0 n) = Ok (Some v)).
    { rewrite <- (inject_project v H). apply (parse_complete jsonc be _ _ (bytes_nuls s n Hs) A'). now apply distinct_project. }
    cbn [json_parse_stream]. rewrite (Nb _ _ A'). destruct cb, jsonc; exact P. }
  unfold open_file. rewrite istream_runs by reflexivity. cbv zeta. cbn [fst opened isize ideliver].
  assert (L : (length (if in_text then crlf s else s) <= length s)%nat) by (destruct in_text; auto using crlf_length).
  rewrite firstn_all2 by exact L. apply K; destruct in_text; auto using bytes_crlf. now apply (proj1 (accepted_crlf jsonc false s _)).
Qed.
(** ** Where it fails *)
Lemma short_refuted be : (exists st, step be = Some st /\ (9 < st)%nat) ->
  exists d n, Forall is_byte d /\ (length d < n)%nat /\
  fst (parse_istream be false false {| isize := n; ideliver := d; ipos := 0; ieof := false; ifail := false; iseekable := true |})
    <> json_parse_stream be false false (Seekable d).
Proof.
  intros (st & E & L). exists (split_pair 1), (length (split_pair 1) + 32)%nat. split; [unfold split_pair, string_doc; repeat constructor|]. split; [lia|].
  destruct be as [|b|b| | | |]; cbn in E; try discriminate E; injection E as <-; first [exfalso; lia|intros H; vm_compute in H; discriminate H].
Qed.
Lemma padding_refuted : exists v o o', wf v /\ all_vstrings (Forall is_byte) v /\ root v /\ ogood o = true /\ written o = [] /\
  insert_value v o = Ok o' /\ forall jsonc be, parse jsonc be (written o') = Ok None.
Proof.
  exists (v_array []), {| written := []; owidth := 4; ofill := 48; oleft := false; ogood := true; oroom := None |}.
  eexists. split; [constructor; constructor|]. split; [constructor; constructor|]. split; [left; eexists; reflexivity|]. split; [reflexivity|]. split; [reflexivity|].
  split; [reflexivity|]. intros jsonc be. cbn [written set_width put]. apply reject_if; [repeat constructor|].
  intros j (w1 & t & w2 & e & E & Hw1 & Hw2 & He & Hc & Hg). match type of E with ?a = _ => change a with [48; 91; 10; 93] in E end.
  symmetry in E. apply (wsp_nil_head jsonc w1 (t ++ w2 ++ e) 48 [91; 10; 93] Hw1) in E as [-> E]; [|unfold wschar; lia|lia].
  destruct Hg; try destruct Hc; discriminate.
Qed.
Lemma text_mode_refuted be : (exists st, step be = Some st /\ (9 < st)%nat) ->
  exists s, Forall is_byte s /\ open_file be false false true s <> open_file be false false false s.
Proof.
  intros (st & E & L). exists (concat (repeat [13; 10] 32) ++ split_pair 1). split; [unfold split_pair, string_doc; repeat constructor|].
  destruct be as [|b|b| | | |]; cbn in E; try discriminate E; injection E as <-; first [exfalso; lia|intros H; vm_compute in H; discriminate H].
Qed.
