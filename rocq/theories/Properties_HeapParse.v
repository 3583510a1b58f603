(** * C48, C68: reading a stream; parsing when memory runs out *)
From Verif Require Import Base Value Spec Packed Parser Containers Api SpecApi Heap SpecHeap HeapParse Samples SamplesHeap HeapParseTheorems SamplesHeapParse.

(** C68. Whatever allocations fail: the parsed value is built as one more value, sharing nothing with the
    others, and nothing else is left; or the text is rejected, or std::bad_alloc is
    thrown, and everything that had been built is freed. *)
Theorem C68_parse : forall jsonc be s hs st, Forall is_byte s -> sim hs st -> exists hs' r, h_parse jsonc be s hs = HDone hs' r /\
  ((exists v, parse jsonc be s = Ok (Some v) /\ r = Ok true /\ sim hs' (st ++ [v])) \/
   (parse jsonc be s = Ok None /\ r = Ok false /\ sim hs' st) \/
   (r = Throw BadAlloc /\ fails hs <> [] /\ sim hs' st)).
Proof. exact heap_parse. Qed.
Print Assumptions C68_parse.
(** streams, which must be seekable *)
Theorem C68_stream : forall be cb wc src hs st, (forall s, src = Seekable s -> Forall is_byte s) -> sim hs st -> exists hs' r, h_parse_stream be cb wc src hs = HDone hs' r /\
  ((exists v, json_parse_stream be cb wc src = Ok (Some v) /\ r = Ok true /\ sim hs' (st ++ [v])) \/
   (json_parse_stream be cb wc src = Ok None /\ r = Ok false /\ sim hs' st) \/
   (json_parse_stream be cb wc src = Throw LengthError /\ r = Throw LengthError /\ sim hs' st) \/
   (r = Throw BadAlloc /\ fails hs <> [] /\ sim hs' st)).
Proof. exact heap_stream. Qed.
Print Assumptions C68_stream.
(** files *)
Theorem C68_open : forall be cb wc file hs st, (forall s, file = Some (Seekable s) -> Forall is_byte s) -> sim hs st -> exists hs' r, h_open be cb wc file hs = HDone hs' r /\
  ((exists v, json_open be cb wc file = Ok (Some v) /\ r = Ok true /\ sim hs' (st ++ [v])) \/
   (json_open be cb wc file = Ok None /\ r = Ok false /\ sim hs' st) \/
   (json_open be cb wc file = Throw LengthError /\ r = Throw LengthError /\ sim hs' st) \/
   (r = Throw BadAlloc /\ fails hs <> [] /\ sim hs' st)).
Proof. exact heap_open. Qed.
Print Assumptions C68_open.
(** the literals: the copy that is returned is all that is left *)
Theorem C68_literals : forall be s hs st, Forall is_byte s -> sim hs st -> forall m w,
  (m = h_lit_jvalue /\ lit_jvalue be s = Ok w) \/ (m = h_lit_jarray /\ exists l, lit_jarray be s = Ok l /\ w = v_array l) \/
  (m = h_lit_jobject /\ exists o, lit_jobject be s = Ok o /\ w = v_object o) ->
  exists hs' r, m be s hs = HDone hs' r /\ ((r = Ok tt /\ sim hs' (st ++ [w])) \/ (r = Throw BadAlloc /\ fails hs <> [] /\ sim hs' st)).
Proof. exact heap_literals. Qed.
Print Assumptions C68_literals.

(** A document with 7 values, below which the heap of two variables: 3 nodes become 6 when it is
    read, and 3 again when the tenth allocation fails or a key is repeated. *)
Example C68_case : Forall is_byte (doc "b") /\ sim (two_heap_failing []) two_store /\
  (alive (hret tt (two_heap_failing [])) = 3 /\ alive (h_parse false BAvx2 (doc "b") (two_heap_failing [])) = 6)%nat.
Proof. split; [exact doc_bytes|]. split; [apply two_sim|vm_compute; auto]. Qed.
Example C68_rejected_case : alive (h_parse false BAvx2 (doc "a") (two_heap_failing [])) = 3%nat /\
  (exists hs, h_parse false BAvx2 (doc "a") (two_heap_failing []) = HDone hs (Ok false)).
Proof. split; [vm_compute; reflexivity|]. eexists. vm_compute. reflexivity. Qed.
Example C68_failing_case : let fl := [false; false; false; false; false; false; false; false; false; true] in
  alive (h_parse false BAvx2 (doc "b") (two_heap_failing fl)) = 3%nat /\
  (exists hs, h_parse false BAvx2 (doc "b") (two_heap_failing fl) = HDone hs (Throw BadAlloc)).
Proof. split; [vm_compute; reflexivity|]. eexists. vm_compute. reflexivity. Qed.

(** C48. A stream that cannot be sought is the only one that makes it throw, and what it throws is std::length_error. *)
Theorem C48_throws_exactly : forall be cb wc file e, (forall s, file = Some (Seekable s) -> Forall is_byte s) ->
  (json_open be cb wc file = Throw e <-> file = Some Unseekable /\ e = LengthError).
Proof. exact open_throws. Qed.
Print Assumptions C48_throws_exactly.
Example C48_throws_case : Forall is_byte sample_text /\ json_open BNone true false (Some (Seekable sample_text)) = Ok (Some (inject sample_json)) /\ json_open BNone true false None = Ok None.
Proof. split; [exact sample_bytes|split; [vm_compute; reflexivity|reflexivity]]. Qed.
