(** * Properties of streams: C69 (operator<<), C70 (parse(std::istream& ), open).
    Statements only; each is closed by a lemma of StreamTheorems.v. [pads w f left t u]: [u] is [t] padded with [f] to
    width [w]. [plain_for be s]: no block scan, or one with blocks of at most eight bytes, or surrogate escapes in pairs. *)
From Verif Require Import Base Value Packed Parser Dump Spec SpecStream Stream Samples PropsParse StreamTheorems StreamExc StreamExcProofs.

(** C69. What [out << v] adds to the stream: format(), padded to the field width, as far as the buffer takes it; the stream
    stays good if it took all of it. The width is reset, nothing else changes. *)
Theorem C69_inserted : forall v o t, dumps (Some 4) v = Ok t -> ogood o = true -> exists u o',
  pads (owidth o) (ofill o) (oleft o) t u /\ insert_value v o = Ok o' /\
  written o' = written o ++ match oroom o with Some r => firstn r u | None => u end /\
  (ogood o' = true <-> match oroom o with Some r => (length u <= r)%nat | None => True end) /\
  owidth o' = 0 /\ ofill o' = ofill o /\ oleft o' = oleft o /\
  oroom o' = match oroom o with Some r => Some (r - length u)%nat | None => None end.
Proof. exact insert_any. Qed.
Print Assumptions C69_inserted.
Theorem C69_array_object : forall o,
  (forall l, insert_array l o = insert_value (v_array l) o) /\ (forall m, insert_object m o = insert_value (v_object m) o).
Proof. exact insert_containers. Qed.
Print Assumptions C69_array_object.
(** a stream that is not good takes nothing; an exception of format() leaves before the stream is touched *)
Theorem C69_not_good : forall v o, ogood o = false -> insert_value v o = bind (dumps (Some 4) v) (fun _ => Ok o).
Proof. exact insert_not_good. Qed.
Print Assumptions C69_not_good.
Theorem C69_throws : forall v o e, dumps (Some 4) v = Throw e -> insert_value v o = Throw e.
Proof. exact insert_throws. Qed.
Print Assumptions C69_throws.
Example C69_case : exists t o', dumps (Some 4) (v_array [v_null]) = Ok t /\ length t = 12%nat /\
  insert_value (v_array [v_null]) (fresh_out 14 32 true (Some 13%nat)) = Ok o' /\ written o' = t ++ [32] /\ ogood o' = false /\
  insert_value (v_array [v_null]) o' = Ok o' /\
  insert_value invalid_value o' = Throw JsonException.
Proof. do 2 eexists. split; [vm_compute; reflexivity|]. repeat split; vm_compute; reflexivity. Qed.
(** [out << a << b << ...] *)
Theorem C69_chain : forall l o ts, Forall2 (fun v t => dumps (Some 4) v = Ok t) l ts -> ogood o = true -> oroom o = None -> owidth o = 0 ->
  exists o', insert_all l o = Ok o' /\ written o' = written o ++ concat ts /\ ogood o' = true.
Proof. exact insert_all_text. Qed.
Print Assumptions C69_chain.
Example C69_chain_case : exists ts, Forall2 (fun v t => dumps (Some 4) v = Ok t) [v_array []; v_object []; v_null] ts /\
  concat ts = [91; 10; 93; 123; 10; 125] ++ of_string "null".
Proof. eexists. split; [repeat (apply Forall2_cons; [vm_compute; reflexivity|]); apply Forall2_nil|reflexivity]. Qed.

(** C69. Full statement: the content of a stream on which a well-formed array or object was written alone is read
    back as that value. It fails with a field width and another fill character than white space (below); it holds
    without padding, or with white space. *)
Theorem C69_read_back_partial : forall jsonc be v o, wf v -> all_vstrings (Forall is_byte) v -> root v ->
  ogood o = true -> oroom o = None -> ws (written o) ->
  (wschar (ofill o) \/ forall t, dumps (Some 4) v = Ok t -> (N.to_nat (owidth o) <= length t)%nat) ->
  exists o', insert_value v o = Ok o' /\ ogood o' = true /\ parse jsonc be (written o') = Ok (Some v).
Proof. exact insert_read. Qed.
Print Assumptions C69_read_back_partial.
Example C69_read_back_partial_ex : wf (inject sample_json) /\ all_vstrings (Forall is_byte) (inject sample_json) /\ root (inject sample_json) /\
  wschar (ofill (fresh_out 1000 32 false None)) /\ exists t, dumps (Some 4) (inject sample_json) = Ok t /\ (length t <= 1000)%nat.
Proof.
  refine (conj sample_wf (conj sample_vbytes (conj sample_root (conj _ _)))); [left; reflexivity|].
  eexists. split; [vm_compute; reflexivity|]. apply Nat.leb_le. vm_compute. reflexivity.
Qed.
Theorem C69_read_back_refuted : exists v o o', wf v /\ all_vstrings (Forall is_byte) v /\ root v /\ ogood o = true /\ written o = [] /\
  insert_value v o = Ok o' /\ forall jsonc be, parse jsonc be (written o') = Ok None.
Proof. exact padding_refuted. Qed.
Print Assumptions C69_read_back_refuted.
(** a write cut short shows when the content is read back *)
Theorem C69_cut_detected : forall jsonc be v o o', wf v -> all_vstrings (Forall is_byte) v -> root v ->
  ogood o = true -> written o = [] -> owidth o = 0 -> insert_value v o = Ok o' -> ogood o' = false -> parse jsonc be (written o') = Ok None.
Proof. exact insert_cut. Qed.
Print Assumptions C69_cut_detected.
Example C69_cut_case : exists o', insert_value (inject sample_json) (fresh_out 0 32 false (Some 20%nat)) = Ok o' /\ ogood o' = false /\ length (written o') = 20%nat.
Proof. eexists. split; [vm_compute; reflexivity|]. split; reflexivity. Qed.

(** C70. A stream that can be sought is read from its start to its end, wherever it stood and even at its end; it is left
    in a good state behind its last byte, and reading it again gives the same. *)
Theorem C70_whole : forall be cb wc i, ifail i = false -> iseekable i = true -> length (ideliver i) = isize i ->
  parse_istream be cb wc i = (json_parse_stream be cb wc (Seekable (ideliver i)), with_state (isize i) false false i).
Proof. exact istream_whole. Qed.
Print Assumptions C70_whole.
Theorem C70_again : forall be cb wc cb' wc' i r i', ifail i = false -> iseekable i = true -> length (ideliver i) = isize i ->
  parse_istream be cb wc i = (r, i') -> parse_istream be cb' wc' i' = (fst (parse_istream be cb' wc' i), i').
Proof. exact istream_again. Qed.
Print Assumptions C70_again.
Example C70_case : fst (parse_istream BNone false false
  {| isize := length sample_text; ideliver := sample_text; ipos := 13; ieof := true; ifail := false; iseekable := true |}) = Ok (Some (inject sample_json)).
Proof. vm_compute. reflexivity. Qed.
(** C70. Full statement: if read delivers less than the size of the file, the outcome is that of the text delivered (the
    string has NULs behind it). It fails exactly with blocks of 16 and 32 bytes and unpaired surrogates (below, cf. C10). The stream is left failed. *)
Theorem C70_short_partial : forall be cb wc i, ifail i = false -> iseekable i = true -> (length (ideliver i) < isize i)%nat ->
  Forall is_byte (ideliver i) -> plain_for be (ideliver i) ->
  parse_istream be cb wc i = (json_parse_stream be cb wc (Seekable (ideliver i)), with_state (length (ideliver i)) true true i).
Proof. exact istream_short. Qed.
Print Assumptions C70_short_partial.
Example C70_short_partial_ex : Forall is_byte sample_text /\ plain_for BAvx2 sample_text /\
  fst (parse_istream BAvx2 false false
    {| isize := length sample_text + 2; ideliver := sample_text; ipos := 0; ieof := false; ifail := false; iseekable := true |}) = Ok (Some (inject sample_json)).
Proof. refine (conj sample_bytes (conj (or_intror (or_intror sample_paired)) _)). vm_compute. reflexivity. Qed.
Example C70_short_words_case : forall little s, plain_for (BU32 little) s /\ plain_for (BU64 little) s.
Proof. intros little s. split; right; left; eexists; (split; [reflexivity|lia]). Qed.
Theorem C70_short_refuted : forall be, (exists st, step be = Some st /\ (9 < st)%nat) ->
  exists d n, Forall is_byte d /\ (length d < n)%nat /\
  fst (parse_istream be false false {| isize := n; ideliver := d; ipos := 0; ieof := false; ifail := false; iseekable := true |})
    <> json_parse_stream be false false (Seekable d).
Proof. exact short_refuted. Qed.
Print Assumptions C70_short_refuted.
Example C70_short_refuted_ex : exists st, step BSse2 = Some st /\ (9 < st)%nat.
Proof. exists 16%nat. split; [reflexivity|lia]. Qed.
(** C70. A stream that failed before, such as one read short, or cannot be sought: std::length_error *)
Theorem C70_broken : forall be cb wc i, ifail i = true \/ iseekable i = false ->
  parse_istream be cb wc i = (Throw LengthError, with_state (ipos i) false true i).
Proof. exact istream_broken. Qed.
Print Assumptions C70_broken.
Example C70_broken_case : let i := {| isize := 3; ideliver := [91; 93]; ipos := 0; ieof := false; ifail := false; iseekable := true |} in
  fst (parse_istream BNone false false i) = Ok (Some (v_array [])) /\
  ifail (snd (parse_istream BNone false false i)) = true /\
  fst (parse_istream BNone false false (snd (parse_istream BNone false false i))) = Throw LengthError.
Proof. repeat split; vm_compute; reflexivity. Qed.

(** C70. A file opened in text mode on Windows (CR LF read as LF) is read as in binary mode (not so with blocks of 16 and 32 bytes and
    unpaired surrogates), and in binary mode as [json_open] says. *)
Theorem C70_text_mode_partial : forall be cb wc s, Forall is_byte s -> plain_for be s -> open_file be cb wc true s = open_file be cb wc false s.
Proof. exact open_text. Qed.
Print Assumptions C70_text_mode_partial.
Theorem C70_text_mode_refuted : forall be, (exists st, step be = Some st /\ (9 < st)%nat) ->
  exists s, Forall is_byte s /\ open_file be false false true s <> open_file be false false false s.
Proof. exact text_mode_refuted. Qed.
Print Assumptions C70_text_mode_refuted.
Theorem C70_binary_mode : forall be cb wc s, open_file be cb wc false s = json_open be cb wc (Some (Seekable s)).
Proof. exact open_binary. Qed.
Print Assumptions C70_binary_mode.
Example C70_text_mode_partial_ex : let s := of_string "[1," ++ [13; 10] ++ of_string "2] //" ++ [13; 10; 13] in
  crlf s <> s /\ open_file BNone false true true s = Ok (Some (v_array [v_number [49]; v_number [50]])).
Proof. cbv zeta. split; [discriminate|vm_compute; reflexivity]. Qed.
(** C70. What was written to a file in either mode is read back in either mode, by every build. *)
Theorem C70_file_round_trip : forall be cb jsonc (out_text in_text : bool) n v, wf v -> all_vstrings (Forall is_byte) v -> root v ->
  exists t, dumps n v = Ok t /\ open_file be cb jsonc in_text (if out_text then to_disk t else t) = Ok (Some v).
Proof. exact file_round_trip. Qed.
Print Assumptions C70_file_round_trip.
Example C70_file_case : exists t, dumps (Some 4) (inject sample_json) = Ok t /\ to_disk t <> t /\
  open_file BAvx2 true false true (to_disk t) = Ok (Some (inject sample_json)).
Proof. eexists. split; [vm_compute; reflexivity|]. split; [discriminate|vm_compute; reflexivity]. Qed.

(** C70, C69 for streams on which exceptions(mask) was called. std::ios_base::failure is thrown exactly if failures are in the mask
    and the stream had failed or cannot be sought, or any bit is in the mask and read delivers too little. Otherwise the outcome is as
    without the mask; the state of the stream is so in any case. *)
Theorem C70_exceptions : forall m be cb wc i, fst (parse_istream_exc m be cb wc i) = Failure <->
  (on_fail m = true /\ (ifail i = true \/ iseekable i = false)) \/
  ((on_fail m = true \/ on_eof m = true) /\ ifail i = false /\ iseekable i = true /\ (length (ideliver i) < isize i)%nat).
Proof. exact parse_exc_failure. Qed.
Print Assumptions C70_exceptions.
Theorem C70_exceptions_otherwise : forall m be cb wc i r i', parse_istream be cb wc i = (r, i') ->
  parse_istream_exc m be cb wc i = (Failure, i') \/ parse_istream_exc m be cb wc i = (Gave r, i').
Proof. exact parse_exc_same. Qed.
Print Assumptions C70_exceptions_otherwise.
Theorem C70_exceptions_whole : forall m be cb wc i, ifail i = false -> iseekable i = true -> length (ideliver i) = isize i ->
  parse_istream_exc m be cb wc i = (Gave (json_parse_stream be cb wc (Seekable (ideliver i))), with_state (isize i) false false i).
Proof. exact parse_exc_whole. Qed.
Print Assumptions C70_exceptions_whole.
Theorem C70_exceptions_off : forall be cb wc i, parse_istream_exc no_mask be cb wc i = (Gave (fst (parse_istream be cb wc i)), snd (parse_istream be cb wc i)).
Proof. exact parse_exc_off. Qed.
Print Assumptions C70_exceptions_off.
Example C70_exceptions_case : let i := {| isize := 3; ideliver := [91; 93]; ipos := 0; ieof := false; ifail := false; iseekable := true |} in
  fst (parse_istream BNone false false i) = Ok (Some (v_array [])) /\
  fst (parse_istream_exc {| on_eof := true; on_fail := false |} BNone false false i) = Failure /\
  fst (parse_istream_exc {| on_eof := true; on_fail := false |} BNone false false (with_state 0 false true i)) = Gave (Throw LengthError) /\
  fst (parse_istream_exc {| on_eof := false; on_fail := true |} BNone false false (with_state 0 false true i)) = Failure.
Proof. repeat split; vm_compute; reflexivity. Qed.
(** [out << v]: the exception comes exactly if the stream is not good in the end; the same bytes have been written. *)
Theorem C69_exceptions : forall m v o o', insert_value v o = Ok o' ->
  exists o1, insert_value_exc m v o = (if on_fail m && negb (ogood o') then Failure else Gave (Ok tt), o1) /\
    written o1 = written o' /\ ogood o1 = ogood o' /\ oroom o1 = oroom o' /\ (on_fail m && negb (ogood o') = false -> o1 = o') /\
    (on_fail m && negb (ogood o') = true -> owidth o1 = owidth o).
Proof. exact insert_exc_ok. Qed.
Print Assumptions C69_exceptions.
Theorem C69_exceptions_throws : forall m v o e, dumps (Some 4) v = Throw e -> insert_value_exc m v o = (Gave (Throw e), o).
Proof. exact insert_exc_throws. Qed.
Print Assumptions C69_exceptions_throws.
Example C69_exceptions_case : exists o' o1, insert_value (v_array [v_null]) (fresh_out 14 32 true (Some 13%nat)) = Ok o' /\ ogood o' = false /\ owidth o' = 0 /\
  insert_value_exc {| on_eof := false; on_fail := true |} (v_array [v_null]) (fresh_out 14 32 true (Some 13%nat)) = (Failure, o1) /\ owidth o1 = 14 /\ length (written o1) = 13%nat.
Proof. do 2 eexists. split; [vm_compute; reflexivity|]. repeat split; vm_compute; reflexivity. Qed.
