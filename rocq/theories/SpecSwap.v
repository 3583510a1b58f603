(** * Vocabulary for the properties of swaps (C81). *)
From Verif Require Import Base Value Containers Api SpecApi SpecEffects SpecHeap.

(** there is a value [x] at [l] *)
Definition found (st : store) (l : loc) (x : value) : Prop := puts st l x st.
(** [placed st ls xs st']: [st'] is [st] with the values at [ls] replaced by [xs] *)
Inductive placed : store -> list loc -> list value -> store -> Prop :=
| pl_nil st : placed st [] [] st
| pl_cons st l x st1 ls xs st' : puts st l x st1 -> placed st1 ls xs st' -> placed st (l :: ls) (x :: xs) st'.
(** the sequence [ys] is [xs] with the elements [i] and [j] exchanged *)
Definition exchanged {A} (i j : nat) (xs ys : list A) : Prop :=
  length ys = length xs /\ nth_error ys i = nth_error xs j /\ nth_error ys j = nth_error xs i /\
  forall k, k <> i -> k <> j -> nth_error ys k = nth_error xs k.
(** one exchange after the other *)
Inductive exchanges {A} : list (nat * nat) -> list A -> list A -> Prop :=
| ex_nil xs : exchanges [] xs xs
| ex_cons i j ps xs ys zs : exchanged i j xs ys -> exchanges ps ys zs -> exchanges ((i, j) :: ps) xs zs.
(** both are positions of a sequence of [n] elements *)
Definition in_range (n : nat) (p : nat * nat) : Prop := (fst p < n)%nat /\ (snd p < n)%nat.
(** [ys] is [xs] with the element at each of [is] replaced by the one at the corresponding place of [js] *)
Definition reindexed {A} (is js : list nat) (xs ys : list A) : Prop :=
  length ys = length xs /\ Forall2 (fun i j => nth_error ys i = nth_error xs j) is js /\
  forall k, ~ In k is -> nth_error ys k = nth_error xs k.
(** the part of the value at [l] that the path [q] leads to *)
Definition under (l : loc) (q : path) : loc := Loc (slot l) (steps l ++ q).
