(** * Concrete documents that meet the hypotheses of the parser theorems. *)
From Verif Require Import Base Value Packed Parser Spec BaseProofs PackedProofs LexProofs StringProofs ParserProofs ParserComplete GrammarProofs Utf8Proofs.

Lemma bytes_ok s : forallb (fun c => c <? 256) s = true -> Forall is_byte s.
Proof. intros H. apply Forall_forall. intros c Hc. rewrite forallb_forall in H. apply H in Hc. unfold is_byte. lia. Qed.
Ltac is_bytes := apply bytes_ok; vm_compute; reflexivity.

(** decide [surrogates_paired] *)
Definition hex4b (h : bytes) : option N :=
  match h with
  | [a; b; c; d] =>
      match hex_value a, hex_value b, hex_value c, hex_value d with
      | Some a', Some b', Some c', Some d' => Some (a' * 4096 + b' * 256 + c' * 16 + d')
      | _, _, _, _ => None
      end
  | _ => None
  end.
Lemma hex4b_spec h cp : hex4b h = Some cp <-> hex4 h cp.
Proof.
  split.
  - unfold hex4b. destruct h as [|a [|b [|c [|d [|]]]]]; try discriminate.
    destruct (hex_value a) eqn:Ea, (hex_value b) eqn:Eb, (hex_value c) eqn:Ec, (hex_value d) eqn:Ed; try discriminate.
    intros [= <-]. apply hex_value_spec in Ea, Eb, Ec, Ed. now constructor.
  - intros [a b c d a' b' c' d' Ha Hb Hc Hd]. apply hex_value_spec in Ha, Hb, Hc, Hd. cbn. now rewrite Ha, Hb, Hc, Hd.
Qed.
Definition low_next (s : bytes) : bool :=
  match s with
  | c :: c' :: r => (c =? 92) && (c' =? 117) && match hex4b (firstn 4 r) with Some cp => (56320 <=? cp) && (cp <=? 57343) | None => false end
  | _ => false
  end.
Definition high_next (s : bytes) : bool :=
  match s with
  | c :: c' :: r => (c =? 92) && (c' =? 117) && match hex4b (firstn 4 r) with Some cp => (55296 <=? cp) && (cp <=? 56319) | None => false end
  | _ => false
  end.
Fixpoint pairedb (s : bytes) : bool :=
  match s with
  | [] => true
  | _ :: r => (negb (high_next s) || low_next (skipn 6 s)) && pairedb r
  end.
Lemma firstn4 h cp b : hex4 h cp -> firstn 4 (h ++ b) = h /\ skipn 4 (h ++ b) = b.
Proof. intros H. apply hex4_shape in H. destruct H as (a & c & d & e & ->). auto. Qed.
Lemma low_next_spec s : low_next s = true -> exists h2 lo b', s = 92 :: 117 :: h2 ++ b' /\ hex4 h2 lo /\ low_surrogate lo.
Proof.
  unfold low_next. destruct s as [|c [|c' r]]; try discriminate.
  destruct (N.eqb_spec c 92) as [->|Hc]; [|discriminate].
  destruct (N.eqb_spec c' 117) as [->|Hc]; [|discriminate]. cbn [andb].
  destruct (hex4b (firstn 4 r)) as [cp|] eqn:E; [|discriminate]. intros H. apply hex4b_spec in E.
  exists (firstn 4 r), cp, (skipn 4 r). rewrite firstn_skipn. splits; auto. unfold low_surrogate. lia.
Qed.
Lemma pairedb_ok s : pairedb s = true -> surrogates_paired s.
Proof.
  intros H a h hi b -> Hh Hi. induction a as [|c a IH].
  - cbn [app pairedb] in H. apply andb_prop in H. destruct H as [H _].
    destruct (firstn4 h hi b Hh) as [F S]. apply hex4_shape in Hh as Hs. destruct Hs as (h0 & h1 & h2 & h3 & ->).
    cbn [high_next skipn N.eqb Pos.eqb andb] in H. rewrite F in H. apply hex4b_spec in Hh. rewrite Hh in H.
    replace ((55296 <=? hi) && (hi <=? 56319)) with true in H by (unfold high_surrogate in Hi; lia).
    cbn [negb orb app] in H. now apply low_next_spec.
  - apply IH. cbn [app pairedb] in H. now apply andb_prop in H.
Qed.
Ltac paired := apply pairedb_ok; vm_compute; reflexivity.

(** decide UTF-8 validity of an explicit code point list *)
Definition scalarb (c : N) : bool := (c <=? 1114111) && negb ((55296 <=? c) && (c <=? 57343)).
Lemma utf8_ok cps s : forallb scalarb cps = true -> concat (map utf8 cps) = s -> utf8_valid s.
Proof.
  intros H <-. exists cps. split; auto. apply Forall_forall. intros c Hc. rewrite forallb_forall in H. apply H in Hc.
  unfold scalarb in Hc. unfold scalar_value, surrogate. lia.
Qed.
Ltac utf8_from cps := apply (utf8_ok cps); vm_compute; reflexivity.

Lemma gv_conv W STR tc t t' j : gvalue W STR tc t j -> t = t' -> gvalue W STR tc t' j.
Proof. now intros H <-. Qed.
Lemma ws_nil : ws []. Proof. constructor. Qed.
Lemma ws_sp : ws [32]. Proof. repeat constructor. Qed.
Lemma hexc h cp : hex4b h = Some cp -> hex4 h cp. Proof. apply hex4b_spec. Qed.
Ltac raws := repeat (apply gc_raw; [unfold unescaped; lia|]).

(** an object with a number, a string with a surrogate pair and an escape, null, true *)
Definition pair_text : bytes := [92; 117] ++ of_string "D83D" ++ [92; 117] ++ of_string "DE00" ++ [92; 110].
Definition sample_text : bytes :=
  of_string "{""k"":[-1.5e3, ""x" ++ pair_text ++ of_string """,null],"""":true} ".
Definition sample_json : json :=
  JObj [([107], JArr [JNum (of_string "-1.5e3"); JStr ([120; 240; 159; 152; 128; 10]); JNull]);
        ([], JBool true)].
Lemma sample_chars : gchars ([120] ++ pair_text) [120; 240; 159; 152; 128; 10].
Proof.
  unfold pair_text. cbn. apply gc_raw; [unfold unescaped; lia|].
  change [240; 159; 152; 128; 10] with (utf8 (65536 + (55357 - 55296) * 1024 + (56832 - 56320)) ++ [10]).
  apply (gc_pair [68; 56; 51; 68] 55357 [68; 69; 48; 48] 56832 [92; 110] [10]).
  1-2: apply hexc; reflexivity.
  1-2: unfold high_surrogate, low_surrogate; lia.
  apply (gc_esc 110 10); [constructor|constructor].
Qed.
Lemma sample_string : gstring (34 :: ([120] ++ pair_text) ++ [34]) [120; 240; 159; 152; 128; 10].
Proof. exists ([120] ++ pair_text). split; [reflexivity|exact sample_chars]. Qed.
Lemma sample_number : gnumber (of_string "-1.5e3").
Proof.
  apply (gnumber_intro [45] [49] [46; 53] [101; 51]).
  - auto.
  - apply gint_pos; [lia|constructor].
  - apply gfrac_some; [unfold digit; lia|constructor].
  - apply (gexp_some 101 [] 51 []); auto. unfold digit; lia.
Qed.
Lemma sample_gvalue : gvalue ws gstring false (firstn (length sample_text - 1) sample_text) sample_json.
Proof.
  eapply gv_conv; [unfold sample_json; eapply gv_obj, gm_cons|].
  - apply ws_nil.
  - exists [107]. split; [reflexivity|]. apply gc_raw; [unfold unescaped; lia|constructor].
  - apply ws_nil.
  - apply ws_nil.
  - apply gv_arr. apply ge_cons.
    + apply ws_nil.
    + apply gv_num. exact sample_number.
    + apply ws_nil.
    + apply ge_cons; [apply ws_sp|apply gv_str, sample_string|apply ws_nil|].
      apply ge_last; [apply ws_nil|apply gv_null|apply ws_nil].
  - apply ws_nil.
  - apply gm_last; [apply ws_nil| |apply ws_nil|apply ws_nil|apply gv_true|apply ws_nil].
    exists []. split; [reflexivity|constructor].
  - vm_compute. reflexivity.
Qed.
Lemma sample_rfc : rfc_document sample_text sample_json.
Proof.
  exists [], (firstn (length sample_text - 1) sample_text), [32]. splits.
  - apply ws_nil.
  - apply ws_sp.
  - exact I.
  - exact sample_gvalue.
Qed.
Lemma sample_distinct : distinct sample_json.
Proof.
  repeat constructor; cbn; try tauto. intros [H|H]; [discriminate|tauto].
Qed.
Lemma sample_bytes : Forall is_byte sample_text. Proof. is_bytes. Qed.
Lemma sample_paired : surrogates_paired sample_text. Proof. paired. Qed.

(** a JSONC document: comments and a trailing comma *)
Definition samplec_text : bytes :=
  of_string "/* a* */[1,//x" ++ [10] ++ of_string "] // end".
Definition samplec_json : json := JArr [JNum [49]].
Lemma no_close_dec b : forallb (fun i => match skipn i b with 42 :: 47 :: _ => false | _ => true end) (seq 0 (S (length b))) = true -> no_close b.
Proof.
  intros H x y ->. rewrite forallb_forall in H. specialize (H (length x)).
  rewrite skipn_app, skipn_all, Nat.sub_diag in H. cbn [skipn app] in H. discriminate H. apply in_seq. rewrite app_length. lia.
Qed.
Lemma samplec_doc : jsonc_document samplec_text samplec_json.
Proof.
  exists (of_string "/* a* */"), (of_string "[1,//x" ++ [10] ++ of_string "]"), [32], (of_string "// end"). splits.
  - apply (cws_block (of_string " a* ") []); [apply no_close_dec; reflexivity|constructor].
  - apply cws_char; [left; reflexivity|constructor].
  - right. exists (of_string " end"). split; [reflexivity|]. intros H. cbn in H. lia.
  - exact I.
  - eapply gv_conv; [unfold samplec_json; eapply gv_arr, ge_trail|].
    + reflexivity.
    + apply cws_nil.
    + apply gv_num. apply (gnumber_intro [] [49] [] []); [auto|apply gint_pos; [lia|constructor]|constructor|constructor].
    + apply cws_nil.
    + apply (cws_line [120] []); [intros H; cbn in H; lia|constructor].
    + reflexivity.
Qed.
Lemma samplec_distinct : distinct samplec_json. Proof. repeat constructor. Qed.

(** a document with a repeated name, once spelled with an escape *)
Definition dup_text : bytes := of_string "[{""a"":1,""" ++ [92; 117] ++ of_string "0061"":2}]".
Definition dup_json : json := JArr [JObj [([97], JNum [49]); ([97], JNum [50])]].
Lemma dup_rfc : rfc_document dup_text dup_json.
Proof.
  exists [], dup_text, []. splits; [apply ws_nil|apply ws_nil|exact I|].
  eapply gv_conv; [unfold dup_json; eapply gv_arr, ge_last; [apply ws_nil|eapply gv_obj, gm_cons|apply ws_nil]|].
  - apply ws_nil.
  - exists [97]. split; [reflexivity|]. apply gc_raw; [unfold unescaped; lia|constructor].
  - apply ws_nil.
  - apply ws_nil.
  - apply gv_num. apply (gnumber_intro [] [49] [] []); [auto|apply gint_pos; [lia|constructor]|constructor|constructor].
  - apply ws_nil.
  - apply gm_last; [apply ws_nil| |apply ws_nil|apply ws_nil| |apply ws_nil].
    + exists ([92; 117] ++ of_string "0061"). split; [reflexivity|].
      change [97] with (utf8 97 ++ []). apply (gc_uni [48; 48; 54; 49] 97 [] []); [apply hexc; reflexivity|unfold surrogate; lia|constructor].
    + apply gv_num. apply (gnumber_intro [] [50] [] []); [auto|apply gint_pos; [lia|constructor]|constructor|constructor].
  - vm_compute. reflexivity.
Qed.
Lemma dup_repeated : ~ distinct dup_json.
Proof.
  intros H. inversion H as [| | | |l Hl|]; subst. inversion Hl as [|x l Hx]; subst. inversion Hx as [| | | | |m Hn]; subst.
  inversion Hn as [|x l Hin]; subst. apply Hin. left. reflexivity.
Qed.

(** the values they denote *)
Lemma sample_wf : wf (inject sample_json).
Proof. apply wf_inject; [eapply (proj1 (grammar_num _ _ _)), sample_gvalue|exact sample_distinct]. Qed.
Lemma samplec_wf : wf (inject samplec_json).
Proof.
  apply wf_inject; [|exact samplec_distinct]. constructor. constructor; [|constructor]. constructor.
  apply (gnumber_intro [] [49] [] []); auto; [apply gint_pos; [lia|constructor]|constructor|constructor].
Qed.
Lemma sample_root : root (inject sample_json).
Proof. right. eexists. reflexivity. Qed.
Lemma sample_all (P : bytes -> Prop) : P [] -> P [107] -> P [120; 240; 159; 152; 128; 10] -> all_vstrings P (inject sample_json).
Proof.
  intros H1 H2 H3. cbn. apply avs_obj. constructor; [split; [exact H1|constructor; discriminate]|].
  constructor; [|constructor]. split; [exact H2|]. apply avs_arr.
  constructor; [constructor; discriminate|]. constructor; [now constructor|]. constructor; [constructor; discriminate|constructor].
Qed.
Lemma sample_vbytes : all_vstrings (Forall is_byte) (inject sample_json).
Proof. apply sample_all; is_bytes. Qed.
Lemma sample_vutf8 : all_vstrings utf8_valid (inject sample_json).
Proof. apply sample_all; [utf8_from (@nil N)|utf8_from [107]|utf8_from [120; 128512; 10]]. Qed.
