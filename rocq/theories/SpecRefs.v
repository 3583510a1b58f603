(** * What it means for a reference to stay valid (C76).

    A C++ reference to a value is a place: a variable, an element of the vector of a json::array, or a member of
    the map of a json::object ([place] of Heap.v). The place stays the same as long as the vector or map lives where
    it did and the element has not been shifted, moved or erased. *)
From Verif Require Import Base Value Containers Dump Api SpecApi Heap SpecHeap SpecMoves.

(** [p] is the address of the value the path [l] leads to *)
Definition refers (hs : hstate) (l : loc) (p : place) : Prop := exists x, resolve hs l = Some (p, x).
(** [l] is part of one of these values *)
Definition part_of (ls : list loc) (l : loc) : Prop := exists w, In w ls /\ strictly_inside w l.
(** [l] is an element of the array [d]. The vector may be allocated anew when it grows; the parts of its elements stay
    where they are, because a value has a move constructor that cannot throw. *)
Definition element_of (d l : loc) : Prop := exists j, l = sub d (Idx j).
(** The calls after which a program may no longer use a reference to [l] it had before. *)
Definition doomed (st : store) (c : cmd) (l : loc) : Prop :=
  match c with
  | CNew e => part_of (expr_takes e) l
  | CAssign dst a => strictly_inside dst l \/ part_of (arg_takes a) l
  | CEmplace dst a => element_of dst l \/ part_of (arg_takes a) l
  | CEmplaceKey dst k a => strictly_inside (sub dst (Key k)) l \/ part_of (arg_takes a) l
  | COr dst src mv =>
      exists k v, read st (sub src (Key k)) = Some v /\
        (strictly_inside (sub dst (Key k)) l \/ (mv = true /\ strictly_inside (sub src (Key k)) l))
  | CPlus dst src mv => element_of dst l \/ (mv = true /\ strictly_inside src l)
  | COrNew lhs src ml mr =>
      (ml = true /\ strictly_inside lhs l) \/
      (mr = true /\ exists k v, read st (sub src (Key k)) = Some v /\ strictly_inside (sub src (Key k)) l)
  | CPlusNew lhs src ml mr => (ml = true /\ strictly_inside lhs l) \/ (mr = true /\ strictly_inside src l)
  | CInvoke x m =>
      match m with
      | MAsArray | MAsObject | MIndexPos _ | MIndexKey _ | MObjEraseIter None => False
      | MErasePos n | MArrEraseIter n => exists j, (N.to_nat n <= j)%nat /\ within (sub x (Idx j)) l = true
      | MEraseKey k | MObjEraseIter (Some k) => within (sub x (Key k)) l = true
      | MClear | MArrClear | MObjClear => strictly_inside x l
      end
  | CAsk _ _ | CEq _ _ => False
  end.
(** A call that throws, other than std::bad_alloc, has changed nothing that was not empty, except that what the argument
    names with std::move inside braces has been moved into the temporary already. *)
Definition spilled (c : cmd) (l : loc) : Prop :=
  match c with
  | CAssign _ (Tmp e) | CEmplace _ (Tmp e) | CEmplaceKey _ _ (Tmp e) => part_of (expr_takes e) l
  | _ => False
  end.
(** the end of a call with result [r] is the end of the reference to [l] *)
Definition ended (st : store) (c : cmd) (r : res unit) (l : loc) : Prop :=
  match r with Ok _ => doomed st c l | Throw BadAlloc => True | Throw _ => spilled c l | _ => True end.
(** a run of which every step is ready and no misuse (SpecMoves.v), and does not end the reference to [l]; a step may
    throw, and the program goes on *)
Inductive holding_run (l : loc) : hstate -> list cmd -> hstate -> Prop :=
| hr_nil hs : holding_run l hs [] hs
| hr_step hs st c r hs1 cs hs2 : sim hs st -> ready st c -> ~ misuse st c -> hexec c hs = HDone hs1 r -> ~ ended st c r l ->
    holding_run l hs1 cs hs2 -> holding_run l hs (c :: cs) hs2.
