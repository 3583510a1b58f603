(** * Properties of serialization: C22 (byte by byte), C54.
    Statements only; each is closed by a lemma of LayoutProofs.v. *)
From Verif Require Import Base Value Dump Spec SpecLayout LayoutProofs Samples SamplesEffects.

(** C22: the text of a string is the concatenation of the texts of its bytes, and a byte that
    needs no escape is its own text *)
Theorem C22_escape_bytewise : forall s s', escape_string (s ++ s') = escape_string s ++ escape_string s'.
Proof. exact escape_app. Qed.
Print Assumptions C22_escape_bytewise.
Theorem C22_escape_identity : forall s, Forall (fun c => 32 <= c /\ c <> 34 /\ c <> 92) s -> escape_string s = s.
Proof. exact escape_id. Qed.
Print Assumptions C22_escape_identity.
Example C22_identity_case : Forall (fun c => 32 <= c /\ c <> 34 /\ c <> 92) (of_string "a/b").
Proof. repeat constructor; vm_compute; congruence. Qed.

(** C54 *)
Theorem C54_layout : forall n k v, wf v -> nested k v -> n * k < 2 ^ 64 ->
  exists t t', dumps (Some n) v = Ok t /\ dumps None v = Ok t' /\ t = layout n Outside 0 true t'.
Proof. exact pretty_layout. Qed.
Print Assumptions C54_layout.
Example C54_case : wf (inject sample_json) /\ nested 6 (inject sample_json) /\ 4 * 6 < 2 ^ 64.
Proof. exact (conj sample_wf (conj sample_nested eq_refl)). Qed.
Example C54_text : layout 2 Outside 0 true (of_string "[[1,""[a""],{},{""k"":2}]") =
  of_string "[
  [
    1,
    ""[a""
  ],
  {
  },
  {
    ""k"": 2
  }
]".
Proof. vm_compute. reflexivity. Qed.
