(** * C66: parsing takes time in proportion to the text (but for looking up member
    names), serialization in proportion to the value, and neither the value read nor the text written is larger than its
    source by more than a constant factor. *)
From Verif Require Import Base Value Packed Parser Dump Cost DumpCost Spec SpecCost Samples CostProofs CostTheorems DumpCostProofs.
Open Scope N_scope.

(** C66. [parse_c] is the parser with a counter of the work done: it returns the
    same outcome, and the counter stays below a linear bound with a logarithmic factor
    for the insertions into std::map. *)
Theorem C66_parse_time : forall jsonc be s, Forall is_byte s -> exists o c,
  parse_c jsonc be s = (Ok o, c) /\ parse jsonc be s = Ok o /\
  c <= (4 * N.log2 (N.of_nat (length s) + 1) + 182) * N.of_nat (length s) + 100.
Proof. exact parse_time. Qed.
Print Assumptions C66_parse_time.
(** a document with an object, strings with escapes, numbers and nesting *)
Example C66_time_case : Forall is_byte sample_text /\
  length sample_text = 47%nat /\ snd (parse_c false BAvx2 sample_text) = 306.
Proof. split; [exact sample_bytes|split; vm_compute; reflexivity]. Qed.

(** The counter never changes the outcome. *)
Theorem C66_counter_only_counts : forall jsonc be s, fst (parse_c jsonc be s) = parse jsonc be s.
Proof. exact parse_c_erases. Qed.
Print Assumptions C66_counter_only_counts.

(** C66. Values, members and the bytes of all strings together are no more than the
    bytes of the text they were read from. *)
Theorem C66_parse_space : forall jsonc be s v,
  parse jsonc be s = Ok (Some v) -> (vsize v <= length s)%nat.
Proof. exact parse_space. Qed.
Print Assumptions C66_parse_space.

(** C66. The text written has at most eight bytes for each unit of size, and two lines'
    worth of indentation when it is laid out. *)
Theorem C66_text_size : forall indent v s, dumps indent v = Ok s ->
  N.of_nat (length s) <=
    (8 + 2 * match indent with Some w => w * N.of_nat (vdepth v) | None => 0 end) * N.of_nat (vsize v).
Proof. exact dumps_length. Qed.
Print Assumptions C66_text_size.
(** the bound on the size read is reached by [1,2] *)
Example C66_space_case : exists v,
  parse false BNone (of_string "[1,2]") = Ok (Some v) /\ vsize v = 5%nat /\ vdepth v = 1%nat /\
  dumps (Some 4) v = Ok (of_string "[" ++ [10] ++ of_string "    1," ++ [10] ++ of_string "    2" ++ [10] ++ of_string "]").
Proof. eexists. split; [vm_compute; reflexivity|]. repeat split; vm_compute; reflexivity. Qed.

(** C66. [dumps_c] is the serializer with a counter of the work done: for every value, also
    one that makes it throw, it ends as [dumps] does, and the counter stays below a bound
    linear in the size of the value, with two lines' worth of indentation per unit of size
    when the text is laid out. *)
Theorem C66_serialize_time : forall indent v, fst (dumps_c indent v) = dumps indent v /\
  snd (dumps_c indent v) <=
    (26 + 2 * match indent with Some w => w * N.of_nat (vdepth v) | None => 0 end) * N.of_nat (vsize v).
Proof. exact dumps_time. Qed.
Print Assumptions C66_serialize_time.
(** a value with strings to escape, once on one line and once laid out *)
Example C66_serialize_case :
  let v := VArr Tarray (Some [VStr Tstring [34; 1; 65]; VObj Tobject (Some [([107], VStr Tnumber [49])])]) in
  vsize v = 10%nat /\ snd (dumps_c None v) = 81 /\ snd (dumps_c (Some 4) v) = 122 /\
  snd (dumps_c None (VArr Tarray (Some [VStr Tinvalid []]))) < 26.
Proof. repeat split; vm_compute; reflexivity. Qed.
