(** * Concrete calls of MEO_JSONIZATION. *)
From Verif Require Import Base Value Containers Conv Macro SpecMacro BaseProofs ContainerProofs.

(** MEO_JSONIZATION(a, MEO_OPT b, MEO_KEY("delete") MEO_OPT delete_) *)
Definition call3 : list (list tag * bytes) :=
  [([], of_string "a"); ([TagOpt], of_string "b"); ([TagKey (of_string "delete"); TagOpt], of_string "delete_")].
Definition ints (x : bytes) : ty := TInt true 32.
Definition one : struct := fun _ => DInt 1.
Lemma call3_names : NoDup (map snd call3).
Proof.
  assert (H : forall x l, existsb (bytes_eqb x) l = false -> ~ In x l).
  { intros x l H Hi. assert (existsb (bytes_eqb x) l = true) by (apply existsb_exists; exists x; split; [exact Hi|now apply bytes_eqb_eq]). congruence. }
  unfold call3. cbn [map snd]. repeat (constructor; [apply H; vm_compute; reflexivity|]). constructor.
Qed.
