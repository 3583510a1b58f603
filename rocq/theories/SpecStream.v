(** * What is said about streams, independently of Stream.v. *)
From Verif Require Import Base Value Packed Parser Spec.

(** [u] is the text [t] padded with [f] to the width [w], the padding behind the text if [left], else before it. *)
Definition pads (w f : N) (left : bool) (t u : bytes) : Prop :=
  exists p : bytes, Forall (eq f) p /\ length p = (N.to_nat w - length t)%nat /\ u = if left then t ++ p else p ++ t.
(** The build has no block scan, or one with blocks of at most eight bytes, or surrogate escapes stand in pairs (the condition of C10). *)
Definition plain_for (be : backend) (s : bytes) : Prop :=
  be = BNone \/ (exists st, step be = Some st /\ (st <= 8)%nat) \/ surrogates_paired s.
