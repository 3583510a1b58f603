(** * Properties of the depth of recursion: C42, C71.
    Statements only; each is closed by a lemma of DepthProofs.v, DepthTheorems.v or OpenersProofs.v. A function ending in [_d], and parse_budget,
    has the number of nested values it may enter as an argument, and gives [Stack] when it is exceeded; [height] is the nesting of
    a value, [ty_height] of a C++ type. *)
From Verif Require Import Base Value Packed Parser Dump Containers Num Conv Spec SpecApi Depth SpecDepth Samples
  DepthProofs DepthTheorems OpenersProofs.

(** C71. dumps, the copy, the comparison of equal values, the destructor and the parser need exactly as many levels as the
    value is nested. *)
Theorem C71_dumps : forall indent d v s, tag_ok v -> dumps indent v = Ok s ->
  dumps_d indent d v = if (height v <=? d)%nat then Ok s else Stack.
Proof. exact dumps_depth. Qed.
Print Assumptions C71_dumps.
Theorem C71_copy : forall d v w, copy v = Ok w -> copy_d d v = if (height v <=? d)%nat then Ok w else Stack.
Proof. exact copy_depth. Qed.
Print Assumptions C71_copy.
Theorem C71_equal : forall d v w, tag_ok v -> v_eq v w = Ok true ->
  v_eq_d d v w = if (height v <=? d)%nat then Ok true else Stack.
Proof. exact eq_depth. Qed.
Print Assumptions C71_equal.
(** for values that differ, the height of either is enough *)
Theorem C71_unequal : forall d v w, (height v <= d \/ height w <= d)%nat -> v_eq_d d v w = v_eq v w.
Proof. exact v_eq_d_enough. Qed.
Print Assumptions C71_unequal.
Theorem C71_destroy : forall d v, destroy_d d v = if (height v <=? d)%nat then Ok tt else Stack.
Proof. exact destroy_depth. Qed.
Print Assumptions C71_destroy.
Theorem C71_parse : forall jsonc be s v d, parse jsonc be s = Ok (Some v) ->
  parse_budget jsonc be d s = if (height v <=? S d)%nat then Ok (Some v) else Stack.
Proof. exact parse_depth. Qed.
Print Assumptions C71_parse.
Example C71_case : height (inject sample_json) = 3%nat /\ tag_ok (inject sample_json) /\
  (exists s, dumps (Some 2) (inject sample_json) = Ok s /\ dumps_d (Some 2) 3 (inject sample_json) = Ok s /\
     parse false BNone s = Ok (Some (inject sample_json)) /\ parse_budget false BNone 1 s = Stack) /\
  copy (inject sample_json) = Ok (inject sample_json) /\ v_eq (inject sample_json) (inject sample_json) = Ok true /\
  v_eq_d 1 (v_array [v_null]) (v_array [v_array [v_null]]) = Stack /\
  v_eq_d 2 (v_array [v_null]) (v_array [v_array [v_null]]) = Ok false.
Proof.
  split; [vm_compute; reflexivity|]. split; [exact (wf_tag _ sample_wf)|].
  split; [eexists; split; [vm_compute; reflexivity|repeat split; vm_compute; reflexivity]|repeat split; vm_compute; reflexivity].
Qed.

(** C71. What the parser reads within a number of levels can be serialized, copied, compared with itself and destroyed
    within the same number (the parser does not count the value it returns). *)
Theorem C71_read_then_use : forall jsonc be d s v, Forall is_byte s -> parse_budget jsonc be d s = Ok (Some v) ->
  (forall indent, exists t, dumps indent v = Ok t /\ dumps_d indent (S d) v = Ok t) /\
  copy_d (S d) v = Ok v /\ v_eq_d (S d) v v = Ok true /\ destroy_d (S d) v = Ok tt.
Proof. exact read_then_use. Qed.
Print Assumptions C71_read_then_use.
Example C71_read_then_use_ex : parse_budget false BNone 1 (of_string "[[]]") = Ok (Some (v_array [v_array []])) /\
  parse_budget false BNone 0 (of_string "[[]]") = Stack.
Proof. split; vm_compute; reflexivity. Qed.
(** and what was written can be read within the height of the value *)
Theorem C71_write_then_read : forall jsonc be indent v, wf v -> all_vstrings (Forall is_byte) v -> root v ->
  exists t, dumps indent v = Ok t /\ forall d,
    parse_budget jsonc be d t = if (height v <=? S d)%nat then Ok (Some v) else Stack.
Proof. exact write_then_read. Qed.
Print Assumptions C71_write_then_read.
Example C71_write_then_read_ex : wf (inject sample_json) /\ all_vstrings (Forall is_byte) (inject sample_json) /\ root (inject sample_json).
Proof. exact (conj sample_wf (conj sample_vbytes sample_root)). Qed.

(** C71. What is made of C++ data without json types inside is nested no deeper than its type. *)
Theorem C71_native : forall E t n d v, ty_height t = Some n -> to_value E t d = Ok v -> (height v <= n)%nat.
Proof. exact native_height. Qed.
Print Assumptions C71_native.
Example C71_native_ex : ty_height (TVec (TMap (TOpt (TTup [TStr; TVec TBool])))) = Some 5%nat /\
  forall E, exists v, to_value E (TVec (TMap (TOpt (TTup [TStr; TVec TBool]))))
    (DSeq [DMap [(of_string "k", DOpt (Some (DSeq [DStr []; DSeq [DBool true]])))]]) = Ok v /\ height v = 5%nat.
Proof. split; [reflexivity|]. intros E. eexists. split; vm_compute; reflexivity. Qed.

(** No number of levels is enough for all values: each of these functions overflows the stack if the value is nested
    deeply enough. *)
Theorem C71_no_bound : exists v : nat -> value, forall d, wf (v d) /\ (forall indent, dumps_d indent d (v d) = Stack) /\
  copy_d d (v d) = Stack /\ v_eq_d d (v d) (v d) = Stack /\ destroy_d d (v d) = Stack.
Proof. exact depth_unbounded. Qed.
Print Assumptions C71_no_bound.

(** C42. Though no number of levels is enough for every text, as many as a text opens brackets are enough for it, whether it is
    accepted or not, in every mode and with every backend. *)
Theorem C42_openers : forall jsonc be d s, Forall is_byte s -> (openers s <= d)%nat -> parse_budget jsonc be d s = parse jsonc be s.
Proof. exact openers_enough. Qed.
Print Assumptions C42_openers.
(** One less is not enough for some text with any number of them. *)
Theorem C42_openers_needed : forall jsonc be d, openers (repeat 91 (S d) ++ [49]) = S d /\ parse_budget jsonc be d (repeat 91 (S d) ++ [49]) = Stack.
Proof. exact openers_needed. Qed.
Print Assumptions C42_openers_needed.
Example C42_openers_case : openers (of_string "[[1],[{""a"":[") = 5%nat /\ parse true BAvx2 (of_string "[[1],[{""a"":[") = Ok None /\
  parse_budget true BAvx2 2 (of_string "[[1],[{""a"":[") = Stack.
Proof. repeat split; vm_compute; reflexivity. Qed.
