(** * Samples for C32 and C33: data with and without an empty std::optional. *)
From Verif Require Import Base Value Packed Parser Dump Containers Num Enum Conv Spec SpecApi SpecConv SpecBlank BaseProofs SamplesApi SamplesConv ConvCounterexamples.

(** a vector of structs with a std::optional member *)
Lemma opt_native : native_s (TVec (TRec opt_fields)).
Proof. apply ns_vec, ns_rec; [|exact opt_fields_distinct]. repeat constructor; discriminate. Qed.
Definition opt_empty : data := DSeq [DRec [DOpt None]].
Definition opt_filled : data := DSeq [DRec [DOpt (Some (DInt 5))]].
Lemma opt_typed : has_type (TVec (TRec opt_fields)) opt_empty /\ has_type (TVec (TRec opt_fields)) opt_filled.
Proof. split; repeat constructor; cbn; lia. Qed.
Lemma opt_full : full opt_filled /\ ~ full opt_empty.
Proof.
  split; [repeat constructor|]. intros H. inversion H as [| | | |? F| |]; subst. inversion F as [|? ? F' _]; subst. inversion F' as [| | | | | |? G]; subst.
  inversion G as [|? ? G' _]; subst. inversion G'.
Qed.
Lemma set_listed : listed (TColl (set_insert int_lt) t_int).
Proof. apply li_coll; [reflexivity|apply li_int]. Qed.
Lemma opt_struct : Forall (fun ft => native_s (snd ft)) opt_fields /\ distinct_keys opt_fields /\ has_type (TRec opt_fields) (DRec [DOpt None]).
Proof. split; [repeat constructor; discriminate|]. split; [exact opt_fields_distinct|repeat constructor]. Qed.
