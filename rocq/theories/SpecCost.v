(** * Sizes of values, used to state the bounds on time and space. *)
From Verif Require Import Base Value.

(** One unit for every value and every object member, and the bytes of all strings. *)
Fixpoint vsize (v : value) : nat :=
  match v with
  | VStr _ s => 1 + length s
  | VArr _ None => 1
  | VArr _ (Some l) => 1 + list_sum (map vsize l)
  | VObj _ None => 1
  | VObj _ (Some l) => 1 + list_sum (map (fun '(k, x) => 1 + length k + vsize x) l)
  end%nat.

(** How many arrays and objects are nested in each other at most. *)
Fixpoint vdepth (v : value) : nat :=
  match v with
  | VArr _ (Some l) => 1 + list_max (map vdepth l)
  | VObj _ (Some l) => 1 + list_max (map (fun '(_, x) => vdepth x) l)
  | _ => 0
  end%nat.
