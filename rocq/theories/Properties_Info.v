(** * Properties of descriptions, of noexcept functions, and of native data as text: C57-C59.
    Statements only; each is closed by a lemma of InfoProofs.v, InfoExact.v or SamplesInfo.v. *)
From Verif Require Import Base Value Packed Parser Dump Spec Containers Num Enum Conv Api SpecApi SpecConv Float SpecFloat Heap SpecHeap Info SpecInfo
  BaseProofs ConvProofs FaithfulProofs SamplesApi SamplesConv SamplesFloat SamplesHeap Samples InfoProofs InfoExact SamplesInfo.

(** C57. A function declared noexcept that throws ends the program. Values whose tags match their
    contents, whose pointers are not null: *)
Theorem C57_noexcept_partial : forall v, sound v ->
  (exists b, v_empty v = Ok b) /\ (forall E t, lawful sound t -> exists b, is_ E t v = Ok b) /\
  (forall cc, exists s, type_name cc v = Ok s) /\ (forall cc, exists s, value_info cc v = Ok s).
Proof. exact noexcept_sound. Qed.
Print Assumptions C57_noexcept_partial.
(** such as what the parser returns *)
Theorem C57_parsed : forall jsonc be s v, Forall is_byte s -> parse jsonc be s = Ok (Some v) ->
  (exists b, v_empty v = Ok b) /\ (forall E t, lawful wf t -> exists b, is_ E t v = Ok b) /\
  (forall cc, exists i, type_name cc v = Ok i) /\ (forall cc, exists i, value_info cc v = Ok i).
Proof. exact noexcept_parsed. Qed.
Print Assumptions C57_parsed.
(** and what a program that moves nothing can build *)
Theorem C57_program_partial : forall cs hs st l v, Forall moves_nothing cs -> clean_run (HS [] [] []) cs hs -> sim hs st -> read st l = Some v ->
  (exists b, v_empty v = Ok b) /\ (forall E t, lawful sound t -> exists b, is_ E t v = Ok b) /\
  (forall cc, exists i, type_name cc v = Ok i) /\ (forall cc, exists i, value_info cc v = Ok i).
Proof. exact noexcept_program. Qed.
Print Assumptions C57_program_partial.
Example C57_case : lawful sound (TExt yes_no) /\ sound (inject sample_json) /\ Forall moves_nothing (sample_history ++ [CEq (at_root 0) (at_root 1)]) /\
  (exists hs, clean_run (HS [] [] []) sample_history hs /\ sim hs sample_store) /\
  exists v, read sample_store (at_root 0) = Some v.
Proof. split; [exact (yes_no_lawful sound)|]. split; [exact (wf_sound _ sample_wf)|]. split; [exact sample_moves_nothing|]. split; [exact sample_clean_run|]. eexists. reflexivity. Qed.
(** value(value_type::array): the public constructor from raw data *)
Theorem C57_noexcept_refuted : exists v, v_empty v = Throw BadVariant /\ forall E, is_ E (TVec TBool) v = Throw BadVariant.
Proof. exact tag_only_throws. Qed.
Print Assumptions C57_noexcept_refuted.
(** empty() ends the program exactly on the values with the tag of a string, an array or an object that hold something else; it, and value_info(), are undefined
    exactly on the arrays and objects without a pointer *)
Theorem C57_empty_exactly : forall v,
  (forall e, v_empty v = Throw e <-> e = BadVariant /\ mislabelled v) /\ (v_empty v = Ub <-> v = VArr Tarray None \/ v = VObj Tobject None).
Proof. exact empty_exactly. Qed.
Print Assumptions C57_empty_exactly.
Example C57_empty_case : mislabelled (VStr Tarray []) /\ ~ mislabelled (VArr Tnumber None) /\ v_empty (VArr Tnumber None) = Ok false.
Proof.
  split; [right; left; split; [reflexivity|intros (t & p & H); discriminate]|]. split; [|reflexivity].
  intros [(H & _)|[(H & _)|(H & _)]]; discriminate.
Qed.

(** C58 *)
Theorem C58_type_name : forall cc v, type_name cc v = Ok (tag_name (type_of v)).
Proof. exact type_name_spec. Qed.
Print Assumptions C58_type_name.
Theorem C58_value_info_partial : forall cc v, sound v -> exists s, value_info cc v = Ok s /\ describes v s.
Proof. exact info_spec. Qed.
Print Assumptions C58_value_info_partial.
(** it catches its own exceptions, whatever the value *)
Theorem C58_info_contained : forall cc v x, value_info cc v <> Throw x.
Proof. exact info_no_throw. Qed.
Print Assumptions C58_info_contained.
Theorem C58_info_exactly : forall cc v, (v = VArr Tarray None \/ v = VObj Tobject None) /\ value_info cc v = Ub \/
  ~ (v = VArr Tarray None \/ v = VObj Tobject None) /\ exists s, value_info cc v = Ok s.
Proof. exact info_exactly. Qed.
Print Assumptions C58_info_exactly.
Example C58_case : sound (v_string long_text) /\ value_info GCC (v_bool true) = Ok (of_string "type=boolean, value=true") /\
  value_info MSVC (inject sample_json) = Ok (of_string "type=object, size=2").
Proof. split; [apply wf_sound; constructor|]. split; vm_compute; reflexivity. Qed.
(** the text is cut after a hundred bytes, possibly inside a character: the message of an exception
    need not be valid UTF-8 although all strings are *)
Theorem C58_info_utf8_refuted : exists cc v s, wf v /\ all_vstrings utf8_valid v /\ value_info cc v = Ok s /\ ~ utf8_valid s.
Proof. exact info_cut. Qed.
Print Assumptions C58_info_utf8_refuted.

(** C59: native data, to a value, to text, and back *)
Theorem C59_saved_and_loaded_partial : forall E n jsonc be t d, faithful E t d -> container_type t -> byte_data t d ->
  exists v s w, to_value E t d = Ok v /\ dumps n v = Ok s /\ parse jsonc be s = Ok (Some w) /\ is_ E t w = Ok true /\ as_ E t w = Ok d.
Proof. exact saved_and_loaded. Qed.
Print Assumptions C59_saved_and_loaded_partial.
(** a struct with an enumeration, a double and a map *)
Example C59_case : faithful (std_env false cfg_keep) (TRec r_fields) (DRec r_datum) /\ byte_data (TRec r_fields) (DRec r_datum) /\
  exists v, to_value (std_env false cfg_keep) (TRec r_fields) (DRec r_datum) = Ok v /\
  dumps None v = Ok (of_string "{""m"":{""a"":[""b"",""""]},""status"":""Paused"",""x"":1.5}").
Proof. exact (conj r_faithful (conj r_bytes r_text)). Qed.
(** an int: its text is no document *)
Theorem C59_scalar_refuted : exists E t d v s, faithful E t d /\ byte_data t d /\ to_value E t d = Ok v /\ dumps None v = Ok s /\
  forall jsonc be, parse jsonc be s = Ok None.
Proof. exact scalar_lost. Qed.
Print Assumptions C59_scalar_refuted.
