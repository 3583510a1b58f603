(** * Properties of parsing sources other than std::string: C61, C62.
    Statements only; each is closed by a lemma of SourceProofs.v. [encode s] is the UTF-8 text of
    the code points [s]; [quoted c] is the document of one string of one character. *)
From Verif Require Import Base Value Packed Parser Source Spec SpecSource BaseProofs SourceProofs DequeProofs.

(** C61: every wide string has a defined outcome *)
Theorem C61_wide_defined : forall jsonc s, exists o, wide_parse jsonc s = Ok o.
Proof. exact wide_safe. Qed.
Print Assumptions C61_wide_defined.
(** ASCII text is read as the same text in a std::string *)
Theorem C61_wide_partial : forall jsonc s, Forall (fun c => c < 128) s -> wide_parse jsonc s = parse jsonc BNone (encode s).
Proof. exact wide_ascii. Qed.
Print Assumptions C61_wide_partial.
Example C61_case : let s := of_string "{""k"": [1.5e3, null]}" in Forall (fun c => c < 128) s /\ exists v, wide_parse false s = Ok (Some v).
Proof. split; [|eexists; vm_compute; reflexivity]. apply Forall_forall. intros c H. vm_compute in H. repeat (destruct H as [<-|H]; [reflexivity|]). destruct H. Qed.
(** ... and no other character is: in a std::string it is read, in a wide string it is
    rejected or cut to eight bits *)
Theorem C61_wide_refuted : forall jsonc c, 128 <= c -> c <= 1114111 ->
  parse jsonc BNone (encode (quoted c)) = Ok (Some (v_array [v_string (utf8 c)])) /\
  wide_parse jsonc (quoted c) <> Ok (Some (v_array [v_string (utf8 c)])).
Proof. exact (fun jsonc c H1 H2 => conj (utf8_read jsonc BNone c H1 H2) (wide_not_utf8 jsonc c H1)). Qed.
Print Assumptions C61_wide_refuted.
(** a character beyond ASCII is accepted as a digit, and the number is not one of JSON *)
Theorem C61_wide_number_refuted : exists s v, Forall scalar_value s /\ wide_parse false s = Ok (Some v) /\ ~ wf v /\ parse false BNone (encode s) = Ok None.
Proof. exact wide_accepts_more. Qed.
Print Assumptions C61_wide_number_refuted.

(** C62: a deque whose characters lie in one node, or a build without block scan *)
Theorem C62_deque_partial : forall jsonc be off s, Forall is_byte s -> (off + length s <= node)%nat \/ step be = None ->
  deque_parse jsonc be off s = parse jsonc be s.
Proof. exact (fun jsonc be off s Hb H => match H with or_introl Ho => deque_same jsonc be off s Hb Ho | or_intror E => deque_none jsonc be off s Hb E end). Qed.
Print Assumptions C62_deque_partial.
Example C62_case : exists v, deque_parse false BSse2 100 (of_string "[""a string longer than one block"", 1]") = Ok (Some v).
Proof. eexists. vm_compute. reflexivity. Qed.
(** any deque, any build: if the outcome is defined, it is that of a std::string *)
Theorem C62_defined_same_partial : forall jsonc be off s, Forall is_byte s ->
  deque_parse jsonc be off s = Ub \/ deque_parse jsonc be off s = parse jsonc be s.
Proof. exact deque_less. Qed.
Print Assumptions C62_defined_same_partial.
Example C62_defined_same_partial_ex : let s := of_string "[""a string longer than one block"", 1]" in
  Forall is_byte s /\ (node < 494 + length s)%nat /\ deque_parse false BSse2 500 s = Ub /\
  exists v, deque_parse false BSse2 494 s = Ok (Some v).
Proof.
  cbv zeta. split; [repeat constructor|]. split; [apply Nat.ltb_lt; vm_compute; reflexivity|].
  split; [vm_compute; reflexivity|]. eexists. vm_compute. reflexivity.
Qed.
(** a longer one: with every block scan there is a document whose reading is undefined *)
Theorem C62_deque_refuted : forall be, step be <> None -> exists s v, Forall is_byte s /\ parse false be s = Ok (Some v) /\ deque_parse false be 0 s = Ub.
Proof. exact deque_undefined. Qed.
Print Assumptions C62_deque_refuted.
