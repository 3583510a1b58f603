(** * Exactly where empty() ends the program, and where it and value_info() are undefined. *)
From Verif Require Import Base Value Dump Containers Num Enum Info SpecInfo BaseProofs InfoProofs.

Lemma empty_exactly v :
  (forall e, v_empty v = Throw e <-> e = BadVariant /\ mislabelled v) /\ (v_empty v = Ub <-> v = VArr Tarray None \/ v = VObj Tobject None).
Proof.
  unfold v_empty, mislabelled. destruct v as [t s|t [l|]|t [m|]]; destruct t; cbn; split;
    try (intros e); split; try discriminate; try (intros [H|H]; discriminate);
    try (intros [= <-]; split; [reflexivity|]);
    try (intros (-> & [(H & N)|[(H & N)|(H & N)]]); try discriminate H; try reflexivity; exfalso; apply N; eauto);
    try (left; split; [reflexivity|intros (t' & s' & H); discriminate]);
    try (right; left; split; [reflexivity|intros (t' & s' & H); discriminate]);
    try (right; right; split; [reflexivity|intros (t' & s' & H); discriminate]); auto.
Qed.
Lemma info_exactly cc v : (v = VArr Tarray None \/ v = VObj Tobject None) /\ value_info cc v = Ub \/
  ~ (v = VArr Tarray None \/ v = VObj Tobject None) /\ exists s, value_info cc v = Ok s.
Proof.
  unfold value_info, info_body. rewrite !type_name_spec. cbn [bind].
  destruct v as [t s|t [l|]|t [m|]]; destruct t; cbn;
    try (right; split; [intros [H|H]; discriminate|]; eexists; reflexivity); left; auto.
Qed.
