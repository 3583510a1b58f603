(** * Properties of the object a value is built from, part by part: C49.
    Statements only; each is closed by a lemma of GivenProofs.v. [c] is how the object is named: an rvalue, a variable, a const
    variable, a const rvalue. *)
From Verif Require Import Base Value Packed Parser Dump Containers Num Enum Conv Spec SpecConv SpecGiven GivenProofs SamplesGiven.

(** C49. Exactly the parts that the rules of [moved_from] reach have been moved from; *)
Theorem C49_moved_exactly : forall c t d p, whole d -> part_at (after c t d) p = Some DGone <-> moved_from c t d p.
Proof. exact moved_exactly. Qed.
Print Assumptions C49_moved_exactly.
(** every other part is there as it was; *)
Theorem C49_rest_kept : forall p c t d x, part_at d p = Some x -> (forall q r, p = q ++ r -> ~ moved_from c t d q) ->
  exists y, part_at (after c t d) p = Some y /\ alike x y.
Proof. exact rest_kept. Qed.
Print Assumptions C49_rest_kept.
(** so that the object is unchanged exactly if nothing is reached. *)
Theorem C49_kept_iff : forall c t d, whole d -> after c t d = d <-> forall p, ~ moved_from c t d p.
Proof. exact kept_iff. Qed.
Print Assumptions C49_kept_iff.
(** a variable holding a std::pair of an optional string, and a variant with a string: neither is moved from; a
    const std::shared_ptr to the optional gives its string away *)
Example C49_parts_case : whole some_pair /\ (forall p, ~ moved_from Lvalue pair_type some_pair p) /\
  moved_from Rvalue pair_type some_pair [0; 0]%nat /\ moved_from Rvalue pair_type some_pair [1; 0]%nat /\
  part_at some_pair [1; 0]%nat = Some (DStr (of_string "b")) /\
  whole some_shared /\ moved_from Const (TPtr (TOpt TStr)) some_shared [0; 0]%nat.
Proof. exact pair_parts. Qed.
