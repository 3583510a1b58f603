(** * Properties of serialization: C14-C19, C21, C22.
    Statements only; each is closed by a lemma of DumpProofs.v. *)
From Verif Require Import Base Value Packed Parser Dump Spec DumpProofs Samples.
From Coq Require Import Permutation.

(** C14 *)
Theorem C14_utf8_out : forall n v, wf v -> all_vstrings utf8_valid v -> exists t, dumps n v = Ok t /\ utf8_valid t.
Proof. exact out_utf8. Qed.
Print Assumptions C14_utf8_out.
Theorem C14_no_control : forall v, wf v -> exists t, dumps None v = Ok t /\ Forall (fun c => 32 <= c) t.
Proof. exact out_clean. Qed.
Print Assumptions C14_no_control.
Theorem C14_no_control_pretty : forall n v, wf v -> exists t, dumps (Some n) v = Ok t /\ Forall (fun c => 32 <= c \/ c = 10) t.
Proof. exact out_clean_pretty. Qed.
Print Assumptions C14_no_control_pretty.
Example C14_case : wf (inject sample_json) /\ all_vstrings utf8_valid (inject sample_json).
Proof. exact (conj sample_wf sample_vutf8). Qed.

(** C15 *)
Theorem C15_compact_round_trip : forall jsonc be v, wf v -> all_vstrings (Forall is_byte) v -> root v ->
  exists t, dumps None v = Ok t /\ parse jsonc be t = Ok (Some v).
Proof. exact compact_round_trip. Qed.
Print Assumptions C15_compact_round_trip.
(** array::dumps and object::dumps write the text of the value holding the container *)
Theorem C15_array_object_dumps : forall n,
  (forall l, array_dumps n l = dumps n (v_array l)) /\ (forall m, object_dumps n m = dumps n (v_object m)).
Proof. exact array_object_dumps. Qed.
Print Assumptions C15_array_object_dumps.
Example C15_case : wf (inject sample_json) /\ all_vstrings (Forall is_byte) (inject sample_json) /\ root (inject sample_json).
Proof. exact (conj sample_wf (conj sample_vbytes sample_root)). Qed.

(** C16 *)
Theorem C16_pretty_round_trip : forall jsonc be n v, wf v -> all_vstrings (Forall is_byte) v -> root v ->
  exists t, dumps (Some n) v = Ok t /\ parse jsonc be t = Ok (Some v).
Proof. exact pretty_round_trip. Qed.
Print Assumptions C16_pretty_round_trip.
Example C16_case : wf (inject sample_json) /\ all_vstrings (Forall is_byte) (inject sample_json) /\ root (inject sample_json).
Proof. exact (conj sample_wf (conj sample_vbytes sample_root)). Qed.

(** C17 *)
Theorem C17_pretty_compact : forall n v, wf v -> exists t t', dumps (Some n) v = Ok t /\ dumps None v = Ok t' /\
  compact Outside t = t' /\ compact Outside t' = t'.
Proof. exact pretty_compact. Qed.
Print Assumptions C17_pretty_compact.
Example C17_case : wf (inject sample_json) /\ exists t t', dumps (Some 4) (inject sample_json) = Ok t /\
  dumps None (inject sample_json) = Ok t' /\ t <> t'.
Proof. split; [exact sample_wf|]. eexists. eexists. split; [vm_compute; reflexivity|]. split; [vm_compute; reflexivity|discriminate]. Qed.

(** C18 *)
Theorem C18_canonical : forall n v v', wf v -> wf v' -> (dumps n v = dumps n v' <-> v = v').
Proof. exact canonical. Qed.
Print Assumptions C18_canonical.
(** objects built by successive emplace calls, in any order *)
Theorem C18_order_independent : forall (m m' : list (bytes * value)) n, NoDup (map fst m) -> Permutation m m' ->
  object_dumps n (fold_left (fun acc kv => fst (map_emplace (fst kv) (snd kv) acc)) m []) =
  object_dumps n (fold_left (fun acc kv => fst (map_emplace (fst kv) (snd kv) acc)) m' []).
Proof. exact order_independent. Qed.
Print Assumptions C18_order_independent.
Example C18_case : wf (inject sample_json) /\ wf (inject samplec_json) /\ inject sample_json <> inject samplec_json.
Proof. split; [exact sample_wf|split; [exact samplec_wf|discriminate]]. Qed.
Example C18_order_case : Permutation [([98], v_bool true); ([97], v_null)] [([97], v_null); ([98], v_bool true)] /\
  object_dumps None (fold_left (fun acc kv => fst (map_emplace (fst kv) (snd kv) acc)) [([98], v_bool true); ([97], v_null)] [])
  = Ok (of_string "{""a"":null,""b"":true}").
Proof. split; [constructor|reflexivity]. Qed.

(** C19 *)
Theorem C19_truncation_detected : forall jsonc be n v t p q, wf v -> all_vstrings (Forall is_byte) v -> root v ->
  dumps n v = Ok t -> t = p ++ q -> q <> [] -> parse jsonc be p = Ok None.
Proof. exact truncated. Qed.
Print Assumptions C19_truncation_detected.
Example C19_case : wf (inject sample_json) /\ all_vstrings (Forall is_byte) (inject sample_json) /\ root (inject sample_json) /\
  exists t, dumps None (inject sample_json) = Ok t /\ t = firstn 30 t ++ skipn 30 t /\ skipn 30 t <> [].
Proof.
  split; [exact sample_wf|]. split; [exact sample_vbytes|]. split; [exact sample_root|].
  eexists. split; [vm_compute; reflexivity|]. split; [reflexivity|discriminate].
Qed.

(** C21 *)
Theorem C21_well_formed_is_json : forall n v, wf v -> exists t j, dumps n v = Ok t /\ gvalue ws gstring false t j /\
  distinct j /\ inject j = v /\ (root v -> rfc_document t j).
Proof. exact dumps_is_json. Qed.
Print Assumptions C21_well_formed_is_json.
Example C21_case : wf (inject sample_json) /\ root (inject sample_json).
Proof. exact (conj sample_wf sample_root). Qed.

(** C22 *)
Theorem C22_escape_denotes : forall s, gchars (escape_string s) s.
Proof. exact escape_gchars. Qed.
Print Assumptions C22_escape_denotes.
Theorem C22_escape_parses : forall jsonc be s, Forall is_byte s ->
  parse jsonc be ([91; 34] ++ escape_string s ++ [34; 93]) = Ok (Some (VArr Tarray (Some [VStr Tstring s]))).
Proof. exact escape_parses. Qed.
Print Assumptions C22_escape_parses.
Theorem C22_escape_injective : forall s s', escape_string s = escape_string s' -> s = s'.
Proof. exact escape_injective. Qed.
Print Assumptions C22_escape_injective.
Theorem C22_escape_clean : forall s, Forall (fun c => 32 <= c) (escape_string s).
Proof. exact escape_clean. Qed.
Print Assumptions C22_escape_clean.
Example C22_case : escape_string [0; 34; 92; 10; 31; 97; 200] =
  [92; 117] ++ of_string "0000" ++ [92; 34; 92; 92; 92; 110; 92; 117] ++ of_string "001f" ++ [97; 200].
Proof. reflexivity. Qed.
