(** * Properties of the parser: C01-C13, C20, C40, C42, C46-C48.
    Statements only; each is closed by a lemma of PropsParse.v or a file it imports. *)
From Verif Require Import Base Value Packed Parser Spec PackedProofs GrammarProofs Utf8Proofs PropsParse GrammarDet BlockProofs Builds StrictProofs Samples.

(** C01. No input makes the parser read at or past the end of the buffer, whatever the
    stack size, the mode and the backend. *)
Theorem C01_no_out_of_bounds : forall jsonc be d s, Forall is_byte s -> parse_budget jsonc be d s <> Ub.
Proof. exact no_ub. Qed.
Print Assumptions C01_no_out_of_bounds.
Example C01_case : Forall is_byte sample_text /\ parse_budget true BAvx2 3 (firstn 20 sample_text) = Ok None.
Proof. split; [exact sample_bytes|vm_compute; reflexivity]. Qed.

(** C02. Some outcome [Ok o] (never an exception, never [Fuel]) is returned for every stack
    budget of at least [length s], and for a smaller one the same or stack exhaustion. *)
Theorem C02_terminates : forall jsonc be s, Forall is_byte s -> exists o,
  (forall d, (length s <= d)%nat -> parse_budget jsonc be d s = Ok o) /\
  (forall d, parse_budget jsonc be d s = Ok o \/ parse_budget jsonc be d s = Stack).
Proof. exact terminates. Qed.
Print Assumptions C02_terminates.
Example C02_case : parse_budget false BNone 1 sample_text = Stack /\
  parse_budget false BNone 2 sample_text = Ok (Some (inject sample_json)).
Proof. split; vm_compute; reflexivity. Qed.

(** C03 *)
Theorem C03_rfc_accepted : forall be s j, Forall is_byte s -> rfc_document s j -> distinct j ->
  json_parse be s = Ok (Some (inject j)).
Proof. exact rfc_parses. Qed.
Print Assumptions C03_rfc_accepted.
(** a text has one reading *)
Theorem C03_reading_unique : forall s j j', rfc_document s j -> rfc_document s j' -> j = j'.
Proof. exact rfc_fun. Qed.
Print Assumptions C03_reading_unique.
(** what the denoted object answers: exactly the members of the text *)
Theorem C03_object_members : forall m, distinct (JObj m) ->
  exists o, inject (JObj m) = VObj Tobject (Some o) /\ sorted_keys o /\
  forall k v, In (k, v) o <-> exists j, In (k, j) m /\ v = inject j.
Proof. exact object_lookup. Qed.
Print Assumptions C03_object_members.
Example C03_case : Forall is_byte sample_text /\ rfc_document sample_text sample_json /\ distinct sample_json.
Proof. exact (conj sample_bytes (conj sample_rfc sample_distinct)). Qed.

(** C04. Exactly what the scalar build accepts. *)
Theorem C04_accepted_exactly : forall s v, Forall is_byte s ->
  (json_parse BNone s = Ok (Some v) <->
   exists j, accepted_document false false s j /\ distinct j /\ v = inject j).
Proof. exact (parse_exact false). Qed.
Print Assumptions C04_accepted_exactly.
(** the builds that scan words of four or eight bytes on little-endian machines: characters between a high surrogate escape
    and its low one are taken too *)
Theorem C04_accepted_exactly_words : forall be st s v, exact_backend be -> step be = Some st -> (st <= 8)%nat -> Forall is_byte s ->
  (json_parse be s = Ok (Some v) <->
   exists j, accepted_document false true s j /\ distinct j /\ v = inject j).
Proof. exact (parse_exact_short false). Qed.
Print Assumptions C04_accepted_exactly_words.
(** every build with blocks, whatever their size and byte order *)
Theorem C04_accepted_exactly_blocks : forall be st, step be = Some st -> forall s v, Forall is_byte s ->
  (json_parse be s = Ok (Some v) <->
   exists j, block_document false (big_words be) st s j /\ distinct j /\ v = inject j).
Proof. exact (block_exact false). Qed.
Print Assumptions C04_accepted_exactly_blocks.
Example C04_blocks_case : step BSse2 = Some 16%nat /\ step (BU32 false) = Some 4%nat /\
  json_parse BSse2 (between (repeat 120 10)) <> Ok None /\ json_parse BSse2 (between [120]) = Ok None /\
  json_parse (BU32 false) (between (repeat 93 4)) <> Ok None /\ json_parse (BU32 false) (between [120; 93]) = Ok None /\
  json_parse (BU32 false) (between [93; 120]) <> Ok None.
Proof. do 2 (split; [reflexivity|]). split; [vm_compute; discriminate|]. split; [vm_compute; reflexivity|].
  split; [vm_compute; discriminate|]. split; [vm_compute; reflexivity|vm_compute; discriminate]. Qed.
(** Full statement: accepted implies RFC 8259 text. It fails (below). What holds: with
    adjacent surrogate escapes, the accepted text is an RFC 8259 text followed by
    nothing, by a NUL and anything, or by a slash and anything. *)
Theorem C04_rfc_then_stop_partial : forall be s v, Forall is_byte s -> surrogates_paired s ->
  json_parse be s = Ok (Some v) ->
  exists j p e, s = p ++ e /\ rfc_document p j /\ distinct j /\ strict_stop e /\ v = inject j.
Proof. exact strict_only. Qed.
Print Assumptions C04_rfc_then_stop_partial.
Theorem C04_rfc_only_partial : forall be s v, Forall is_byte s -> surrogates_paired s ->
  ~ In 0 s -> ~ In 47 s -> json_parse be s = Ok (Some v) ->
  exists j, rfc_document s j /\ distinct j /\ v = inject j.
Proof. exact strict_only_clean. Qed.
Print Assumptions C04_rfc_only_partial.
Theorem C04_rfc_only_refuted : exists s v, json_parse BNone s = Ok (Some v) /\ forall j, ~ rfc_document s j.
Proof. exact strict_not_rfc. Qed.
Print Assumptions C04_rfc_only_refuted.
Example C04_case : Forall is_byte sample_text /\ surrogates_paired sample_text /\ ~ In 0 sample_text /\ ~ In 47 sample_text /\
  json_parse BSse2 sample_text = Ok (Some (inject sample_json)).
Proof.
  refine (conj sample_bytes (conj sample_paired (conj _ (conj _ _)))).
  - vm_compute. intuition discriminate.
  - vm_compute. intuition discriminate.
  - vm_compute. reflexivity.
Qed.

(** C05. Names are compared after decoding, objects at any depth. *)
Theorem C05_repeated_rejected : forall be s j, Forall is_byte s -> rfc_document s j -> ~ distinct j ->
  json_parse be s = Ok None /\ json_parsec be s = Ok None.
Proof. exact rfc_repeated. Qed.
Print Assumptions C05_repeated_rejected.
Theorem C05_repeated_rejected_jsonc : forall be s j, Forall is_byte s -> jsonc_document s j -> ~ distinct j ->
  json_parsec be s = Ok None.
Proof. exact jsonc_repeated. Qed.
Print Assumptions C05_repeated_rejected_jsonc.
(** also with the lenient string literals and trailing garbage the implementation allows *)
Theorem C05_repeated_rejected_lenient : forall jsonc be raw s j, Forall is_byte s ->
  accepted_document jsonc raw s j -> ~ distinct j -> parse jsonc be s = Ok None.
Proof. exact repeated_rejected_raw. Qed.
Print Assumptions C05_repeated_rejected_lenient.
(** whatever is accepted has a reading with distinct names *)
Theorem C05_accepted_distinct : forall jsonc be s v, Forall is_byte s -> parse jsonc be s = Ok (Some v) ->
  exists j, accepted_document jsonc (StringProofs.raw_ok be) s j /\ distinct j /\ v = inject j.
Proof. exact parse_sound. Qed.
Print Assumptions C05_accepted_distinct.
Example C05_case : rfc_document dup_text dup_json /\ ~ distinct dup_json /\ Forall is_byte dup_text.
Proof. refine (conj dup_rfc (conj dup_repeated _)). is_bytes. Qed.

(** C06 *)
Theorem C06_jsonc_accepted : forall be s j, Forall is_byte s -> jsonc_document s j -> distinct j ->
  json_parsec be s = Ok (Some (inject j)).
Proof. exact jsonc_parses. Qed.
Print Assumptions C06_jsonc_accepted.
Theorem C06_reading_unique : forall s j j', jsonc_document s j -> jsonc_document s j' -> j = j'.
Proof. exact jsonc_fun. Qed.
Print Assumptions C06_reading_unique.
Example C06_case : Forall is_byte samplec_text /\ jsonc_document samplec_text samplec_json /\ distinct samplec_json.
Proof. refine (conj _ (conj samplec_doc samplec_distinct)). is_bytes. Qed.

(** C07 *)
Theorem C07_accepted_exactly : forall s v, Forall is_byte s ->
  (json_parsec BNone s = Ok (Some v) <->
   exists j, accepted_document true false s j /\ distinct j /\ v = inject j).
Proof. exact (parse_exact true). Qed.
Print Assumptions C07_accepted_exactly.
Theorem C07_accepted_exactly_words : forall be st s v, exact_backend be -> step be = Some st -> (st <= 8)%nat -> Forall is_byte s ->
  (json_parsec be s = Ok (Some v) <->
   exists j, accepted_document true true s j /\ distinct j /\ v = inject j).
Proof. exact (parse_exact_short true). Qed.
Print Assumptions C07_accepted_exactly_words.
Theorem C07_accepted_exactly_blocks : forall be st, step be = Some st -> forall s v, Forall is_byte s ->
  (json_parsec be s = Ok (Some v) <->
   exists j, block_document true (big_words be) st s j /\ distinct j /\ v = inject j).
Proof. exact (block_exact true). Qed.
Print Assumptions C07_accepted_exactly_blocks.
Theorem C07_jsonc_then_stop_partial : forall be s v, Forall is_byte s -> surrogates_paired s ->
  json_parsec be s = Ok (Some v) ->
  exists j p e, s = p ++ e /\ jsonc_document p j /\ distinct j /\ jsonc_stop e /\ v = inject j.
Proof. exact jsonc_only. Qed.
Print Assumptions C07_jsonc_then_stop_partial.
Theorem C07_jsonc_only_refuted : exists s v, json_parsec BNone s = Ok (Some v) /\ forall j, ~ jsonc_document s j.
Proof. exact jsonc_not_jsonc. Qed.
Print Assumptions C07_jsonc_only_refuted.
Example C07_case : Forall is_byte samplec_text /\ surrogates_paired samplec_text /\
  json_parsec (BU64 true) samplec_text = Ok (Some (inject samplec_json)).
Proof. split; [is_bytes|split; [paired|vm_compute; reflexivity]]. Qed.

(** C08. Full statement: json_parse s = Ok (Some v) -> json_parsec s = Ok (Some v). It fails
    when a slash follows the root value, and only then. *)
Theorem C08_conservative_partial : forall be s v, Forall is_byte s -> json_parse be s = Ok (Some v) ->
  json_parsec be s = Ok (Some v) \/
  exists j w1 t w2 r, s = w1 ++ t ++ w2 ++ 47 :: r /\ ws w1 /\ ws w2 /\ container j /\
    gvalue ws (lstring (StringProofs.raw_ok be)) false t j /\ v = inject j.
Proof. exact strict_jsonc. Qed.
Print Assumptions C08_conservative_partial.
Theorem C08_rfc_same : forall be s j, Forall is_byte s -> rfc_document s j -> json_parse be s = json_parsec be s.
Proof. exact rfc_both. Qed.
Print Assumptions C08_rfc_same.
Theorem C08_no_slash_partial : forall be s v, Forall is_byte s -> ~ In 47 s -> json_parse be s = Ok (Some v) ->
  json_parsec be s = Ok (Some v).
Proof. exact conservative_noslash. Qed.
Print Assumptions C08_no_slash_partial.
Theorem C08_conservative_refuted : exists s v, json_parse BNone s = Ok (Some v) /\ json_parsec BNone s = Ok None.
Proof. exact conservative_refuted. Qed.
Print Assumptions C08_conservative_refuted.
(** exactly which: those with nothing behind the value, up to where the parser stops reading, but white space and comments *)
Theorem C08_exactly : forall be s v, Forall is_byte s -> json_parse be s = Ok (Some v) ->
  exists j w1 t r, s = w1 ++ t ++ r /\ ws w1 /\ container j /\ gvalue ws (lstring (StringProofs.raw_ok be)) false t j /\ v = inject j /\
    ((exists w e, r = w ++ e /\ cws w /\ jsonc_stop e) /\ json_parsec be s = Ok (Some v) \/
     ~ (exists w e, r = w ++ e /\ cws w /\ jsonc_stop e) /\ json_parsec be s = Ok None).
Proof. exact strict_jsonc_exactly. Qed.
Print Assumptions C08_exactly.
Example C08_exactly_case : json_parse BNone (of_string "[] /* */ 1") = Ok (Some (v_array [])) /\ json_parsec BNone (of_string "[] /* */ 1") = Ok None /\
  json_parse BNone (of_string "[] /x") = Ok (Some (v_array [])) /\ json_parsec BNone (of_string "[] /x") = Ok (Some (v_array [])).
Proof. repeat split; vm_compute; reflexivity. Qed.
Example C08_case : Forall is_byte sample_text /\ rfc_document sample_text sample_json /\ ~ In 47 sample_text.
Proof. refine (conj sample_bytes (conj sample_rfc _)). vm_compute. intuition discriminate. Qed.

(** C09. [gchars body out]: RFC 8259 decoding of a literal body, surrogates adjacent. *)
Theorem C09_decoded : forall jsonc be body out, gchars body out -> Forall is_byte body ->
  parse jsonc be (string_doc body) = Ok (Some (VArr Tarray (Some [VStr Tstring out]))).
Proof. exact decode_string. Qed.
Print Assumptions C09_decoded.
(** Unpaired surrogates: rejected if a low one comes first, or if no low one follows. *)
Theorem C09_lone_low_rejected : forall jsonc be pre o h lo rest, gchars pre o -> hex4 h lo -> low_surrogate lo ->
  Forall is_byte (pre ++ 92 :: 117 :: h ++ rest) ->
  parse jsonc be ([91; 34] ++ pre ++ 92 :: 117 :: h ++ rest) = Ok None.
Proof. exact lone_low_rejected. Qed.
Print Assumptions C09_lone_low_rejected.
Theorem C09_lone_high_rejected_partial : forall jsonc be pre o h hi rest, gchars pre o -> hex4 h hi -> high_surrogate hi ->
  (forall a h2 lo b, rest = a ++ 92 :: 117 :: h2 ++ b -> hex4 h2 lo -> ~ low_surrogate lo) ->
  Forall is_byte (pre ++ 92 :: 117 :: h ++ rest) ->
  parse jsonc be ([91; 34] ++ pre ++ 92 :: 117 :: h ++ rest) = Ok None.
Proof. exact lone_high_rejected. Qed.
Print Assumptions C09_lone_high_rejected_partial.
(** Full statement: a literal with a non-adjacent pair is rejected. It is not. *)
Theorem C09_unpaired_rejected_refuted : exists body out,
  parse false BNone (string_doc body) = Ok (Some (VArr Tarray (Some [VStr Tstring out]))) /\ forall o, ~ gchars body o.
Proof. exact displaced_surrogate. Qed.
Print Assumptions C09_unpaired_rejected_refuted.
Example C09_case : gchars ([120] ++ pair_text) [120; 240; 159; 152; 128; 10] /\ hex4 [68; 67; 48; 48] 56320 /\ low_surrogate 56320
  /\ hex4 [68; 56; 48; 48] 55296 /\ high_surrogate 55296.
Proof.
  split; [exact sample_chars|]. split; [apply hexc; reflexivity|]. split; [unfold low_surrogate; lia|].
  split; [apply hexc; reflexivity|]. unfold high_surrogate. lia.
Qed.

(** C10. Full statement: parse jsonc be s = parse jsonc be' s. It fails for every vector or
    word backend against the scalar build (below). It holds with adjacent surrogate escapes. *)
Theorem C10_backend_independent_partial : forall jsonc be be' s, Forall is_byte s -> surrogates_paired s ->
  parse jsonc be s = parse jsonc be' s.
Proof. exact backend_paired. Qed.
Print Assumptions C10_backend_independent_partial.
Theorem C10_scalar_accepts_all_accept_partial : forall jsonc be s v, Forall is_byte s ->
  parse jsonc BNone s = Ok (Some v) -> parse jsonc be s = Ok (Some v).
Proof. exact backend_scalar. Qed.
Print Assumptions C10_scalar_accepts_all_accept_partial.
(** the builds with words of four and of eight bytes agree on every text *)
Theorem C10_words_agree_partial : forall jsonc be be' st st' s, exact_backend be -> exact_backend be' ->
  step be = Some st -> step be' = Some st' -> (st <= 8)%nat -> (st' <= 8)%nat -> Forall is_byte s ->
  parse jsonc be s = parse jsonc be' s.
Proof. exact words_agree. Qed.
Print Assumptions C10_words_agree_partial.
Example C10_words_case : exact_backend (BU32 true) /\ exact_backend (BU64 true) /\ step (BU32 true) = Some 4%nat /\ step (BU64 true) = Some 8%nat /\
  (4 <= 8)%nat /\ (8 <= 8)%nat.
Proof. repeat split; lia. Qed.
(** two builds agree on every text if and only if they are of the same class *)
Theorem C10_agree_exactly : forall jsonc be be',
  (forall s, Forall is_byte s -> parse jsonc be s = parse jsonc be' s) <-> class_of be = class_of be'.
Proof. exact builds_exactly. Qed.
Print Assumptions C10_agree_exactly.
Theorem C10_backend_independent_refuted : forall be, be <> BNone ->
  exists s v, json_parse BNone s = Ok None /\ json_parse be s = Ok (Some v).
Proof. exact backend_dependent. Qed.
Print Assumptions C10_backend_independent_refuted.
Example C10_case : Forall is_byte sample_text /\ surrogates_paired sample_text.
Proof. exact (conj sample_bytes sample_paired). Qed.

(** C11 *)
Theorem C11_scan_never_skips : forall be st blk, step be = Some st -> length blk = st -> Forall is_byte blk ->
  scan_spec blk (scan be blk).
Proof. exact scan_spec_all. Qed.
Print Assumptions C11_scan_never_skips.
Theorem C11_scan_exact : forall be st blk, step be = Some st -> length blk = st -> Forall is_byte blk ->
  exact_backend be -> scan_exact blk (scan be blk).
Proof. exact scan_exact_all. Qed.
Print Assumptions C11_scan_exact.
(** words on a big-endian machine: the first byte of a flagged run *)
Theorem C11_scan_big_endian : forall be st blk, step be = Some st -> length blk = st -> Forall is_byte blk ->
  big_words be = true -> scan_big blk (scan be blk).
Proof. exact scan_big_all. Qed.
Print Assumptions C11_scan_big_endian.
Example C11_big_case : scan (BU64 false) [97; 35; 33; 35; 35; 34; 93; 92] = Some 3 /\ scan (BU32 false) (repeat 93 4) = None.
Proof. split; vm_compute; reflexivity. Qed.
Example C11_case : scan (BU64 true) [97; 200; 33; 34; 92; 255; 10; 97] = Some 3 /\ scan (BU64 true) (repeat 200 8) = None.
Proof. split; vm_compute; reflexivity. Qed.

(** C12 *)
Theorem C12_no_control_in_literals : forall jsonc be s v, Forall is_byte s -> parse jsonc be s = Ok (Some v) ->
  exists j w1 t w2 e, s = w1 ++ t ++ w2 ++ e /\ wsp jsonc w1 /\ wsp jsonc w2 /\ stop jsonc e /\ v = inject j /\
    gvalue (wsp jsonc) (fun lit k => lstring (StringProofs.raw_ok be) lit k /\ Forall (fun c => 32 <= c) lit) jsonc t j.
Proof. exact no_control_in_strings. Qed.
Print Assumptions C12_no_control_in_literals.
Theorem C12_control_rejected : forall jsonc be pre o c rest, gchars pre o -> c < 32 -> Forall is_byte (pre ++ c :: rest) ->
  parse jsonc be ([91; 34] ++ pre ++ c :: rest) = Ok None.
Proof. exact control_rejected. Qed.
Print Assumptions C12_control_rejected.
Example C12_case : parse true BAvx2 ([91; 34] ++ repeat 97 40 ++ 9 :: [34; 93]) = Ok None /\
  parse true BAvx2 ([91; 34] ++ repeat 97 40 ++ 32 :: [34; 93]) <> Ok None.
Proof. split; [vm_compute; reflexivity|vm_compute; discriminate]. Qed.

(** C13 *)
Theorem C13_utf8_preserved : forall jsonc be s v, Forall is_byte s -> utf8_valid s -> parse jsonc be s = Ok (Some v) ->
  all_vstrings utf8_valid v.
Proof. exact parse_utf8. Qed.
Print Assumptions C13_utf8_preserved.
Example C13_case : utf8_valid (of_string "[""" ++ [195; 169] ++ pair_text ++ of_string """]") /\
  json_parse BNone (of_string "[""" ++ [195; 169] ++ pair_text ++ of_string """]") <> Ok None.
Proof.
  split; [|vm_compute; discriminate].
  utf8_from ([91; 34; 233] ++ pair_text ++ [34; 93]).
Qed.

(** C20 *)
Theorem C20_number_grammar : forall jsonc be t, Forall is_byte t ->
  (parse jsonc be ([91] ++ t ++ [93]) = Ok (Some (VArr Tarray (Some [VStr Tnumber t]))) <-> gnumber t).
Proof. exact number_exact. Qed.
Print Assumptions C20_number_grammar.
Example C20_case : gnumber (of_string "-1.5e3").
Proof. exact sample_number. Qed.

(** C40 *)
Theorem C40_bom_removed_once : forall be jsonc s,
  json_parse_stream be true jsonc (Seekable ([239; 187; 191] ++ s)) = parse jsonc be s.
Proof. exact bom_removed. Qed.
Print Assumptions C40_bom_removed_once.
Theorem C40_no_bom_unaffected : forall be cb jsonc s, (cb = false \/ forall r, s <> [239; 187; 191] ++ r) ->
  json_parse_stream be cb jsonc (Seekable s) = parse jsonc be s.
Proof. exact no_bom. Qed.
Print Assumptions C40_no_bom_unaffected.
Theorem C40_bom_rejected_unchecked : forall be jsonc s,
  json_parse_stream be false jsonc (Seekable ([239; 187; 191] ++ s)) = Ok None.
Proof. exact bom_rejected. Qed.
Print Assumptions C40_bom_rejected_unchecked.
Example C40_case : json_parse_stream BNone true false (Seekable ([239; 187; 191] ++ sample_text)) = Ok (Some (inject sample_json)) /\
  json_parse_stream BNone true false (Seekable ([239; 187; 191; 239; 187; 191] ++ sample_text)) = Ok None.
Proof. split; vm_compute; reflexivity. Qed.

(** C42. Full statement: exists d, forall s, parse_budget jsonc be d s <> Stack. False. *)
Theorem C42_bounded_stack_refuted : forall jsonc be,
  ~ exists d, forall s, Forall is_byte s -> parse_budget jsonc be d s <> Stack.
Proof. exact stack_refuted. Qed.
Print Assumptions C42_bounded_stack_refuted.
Theorem C42_nesting_overflows_refuted : forall jsonc be d r, parse_budget jsonc be d (repeat 91 (S (S d)) ++ r) = Stack.
Proof. exact stack_unbounded. Qed.
Print Assumptions C42_nesting_overflows_refuted.

(** C46 *)
Theorem C46_c_string : forall be s r, ~ In 0 s ->
  json_parse_cstr be (s ++ 0 :: r) = json_parse be s /\ json_parsec_cstr be (s ++ 0 :: r) = json_parsec be s.
Proof. exact cstr_parse. Qed.
Print Assumptions C46_c_string.
Theorem C46_literals : forall be s, Forall is_byte s ->
  (forall v, json_parse be s = Ok (Some v) -> lit_jvalue be s = Ok v) /\
  (forall l, json_parse be s = Ok (Some (VArr Tarray (Some l))) -> lit_jarray be s = Ok l /\ lit_jobject be s = Ok []) /\
  (forall m, json_parse be s = Ok (Some (VObj Tobject (Some m))) -> lit_jobject be s = Ok m /\ lit_jarray be s = Ok []) /\
  (json_parse be s = Ok None -> lit_jvalue be s = Ok (VStr Tnull []) /\ lit_jarray be s = Ok [] /\ lit_jobject be s = Ok []) /\
  (json_parse be s = Ok None \/ (exists l, json_parse be s = Ok (Some (VArr Tarray (Some l)))) \/
   exists m, json_parse be s = Ok (Some (VObj Tobject (Some m)))).
Proof. exact literals. Qed.
Print Assumptions C46_literals.
Example C46_case : ~ In 0 sample_text /\ json_parse_cstr BNone (sample_text ++ [0; 93]) = Ok (Some (inject sample_json)).
Proof. split; [vm_compute; intuition discriminate|vm_compute; reflexivity]. Qed.

(** C47 *)
Theorem C47_parsed_well_formed : forall jsonc be s v, Forall is_byte s -> parse jsonc be s = Ok (Some v) ->
  wf v /\ ((exists l, v = VArr Tarray (Some l)) \/ exists m, v = VObj Tobject (Some m)).
Proof. exact parse_root. Qed.
Print Assumptions C47_parsed_well_formed.
Example C47_case : Forall is_byte sample_text /\ parse false BNeon sample_text = Ok (Some (inject sample_json)).
Proof. split; [exact sample_bytes|vm_compute; reflexivity]. Qed.

(** C48. Full statement: reading a stream reports failure by nullopt, without an exception.
    A stream that cannot be sought makes it throw. *)
Theorem C48_stream_no_throw_partial : forall be cb jsonc s, Forall is_byte s ->
  exists o, json_open be cb jsonc (Some (Seekable s)) = Ok o.
Proof. exact open_no_throw. Qed.
Print Assumptions C48_stream_no_throw_partial.
Theorem C48_stream_no_throw_refuted : forall be cb jsonc, exists st e, json_parse_stream be cb jsonc st = Throw e.
Proof. exact stream_can_throw. Qed.
Print Assumptions C48_stream_no_throw_refuted.
