(** * std::swap and other reordering through moves.

    value has no swap of its own, so std::swap and the algorithms of the library ([std::reverse], [std::rotate],
    [std::sort], ...) go through value(value&&) (value_impl.hpp:86) and operator=(value&&) (value_impl.hpp:854):

      value t = std::move(a); a = std::move(b); b = std::move(t);

    and, for an insertion, [t = std::move(x0); x0 = std::move(x1); ...; xn = std::move(t)], of which the swap is the case
    of two. The iterators of json::array are those of its std::vector (array.hpp:23-28), so the x's of an algorithm are
    elements of the vector; they may be any other values as well. Model only. *)
From Verif Require Import Base Value Containers Dump Api Heap.

(** ** On values. [l = std::move(t)] for the temporary [t], see [assign] of Api.v *)
Definition put_back (l : loc) (t : value) : M unit := run _ <- rd l; wr l t.
Fixpoint shift (l : loc) (ls : list loc) (t : value) : M unit :=
  match ls with
  | [] => put_back l t
  | l' :: r => run _ <- move_assign l l'; shift l' r t
  end.
Definition rotate (l : loc) (ls : list loc) : M unit := run t <- take l; shift l ls t.
(** std::swap(a, b) *)
Definition swap (a b : loc) : M unit := rotate a [b].
(** the element [i] of the array at [l]: operator[], array.hpp:210-211 *)
Definition element (l : loc) (i : nat) : loc := Loc (slot l) (steps l ++ [Idx i]).
(** the steps of an algorithm that reorders with std::swap (or std::iter_swap) *)
Fixpoint swaps (l : loc) (ps : list (nat * nat)) : M unit :=
  match ps with
  | [] => mret tt
  | (i, j) :: r => run _ <- swap (element l i) (element l j); swaps l r
  end.
(** the pairs that std::reverse swaps in an array of [n] elements *)
Definition reversal (n : nat) : list (nat * nat) := map (fun i => (i, (n - 1 - i)%nat)) (seq 0 (n / 2)).

(** ** On the heap: the program holds references, see [place] of Heap.v *)
Fixpoint h_shift (p : place) (ps : list place) : hM unit :=
  match ps with
  | [] => swap_in p ;; drop
  | p' :: r => h_move_assign p p' ;; h_shift p' r
  end.
Definition h_rotate (p : place) (ps : list place) : hM unit := take_pl p ;; h_shift p ps.
Definition h_swap (p q : place) : hM unit := h_rotate p [q].
