(** * Which operations end an iterator (C80). *)
From Verif Require Import Base Value Spec Containers Iter.

(** what may be done to an array between making an iterator and using it *)
Inductive vop : Type :=
| VErase (p : nat)                     (* arr.erase(p) or arr.erase(arr.begin() + p) *)
| VPush (moved : bool) (x : value)     (* arr.emplace_back(x) *)
| VSet (p : nat) (x : value)           (* arr[p] = x *)
| VClear.                              (* arr.clear() *)
Definition v_do (o : vop) (v : vec) : res vec :=
  match o with
  | VErase p => do r <- v_erase_at p v; Ok (fst r)
  | VPush moved x => Ok (v_push moved x v)
  | VSet p x => v_set p x v
  | VClear => Ok (v_clear v)
  end.
Fixpoint v_run (os : list vop) (v : vec) : res vec :=
  match os with [] => Ok v | o :: r => do v' <- v_do o v; v_run r v' end.
(** an operation on an array of [n] elements ends the iterator at position [p] *)
Definition v_ends (n p : nat) (o : vop) : Prop :=
  match o with
  | VErase q => (q <= p)%nat /\ (q < n)%nat
  | VPush moved _ => moved = true \/ p = n
  | VSet _ _ => False
  | VClear => True
  end.
(** one of the operations does *)
Fixpoint v_ended (os : list vop) (v : vec) (p : nat) : Prop :=
  match os with
  | [] => False
  | o :: r => v_ends (length (items v)) p o \/ match v_do o v with Ok v' => v_ended r v' p | _ => False end
  end.

Inductive oop : Type :=
| OErase (k : bytes) | OEmplace (k : bytes) (x : value) | OIndex (k : bytes) | OClear.
Definition o_do (o : oop) (m : omap) : omap :=
  match o with
  | OErase k => fst (o_erase k m)
  | OEmplace k x => o_emplace k x m
  | OIndex k => o_index k m
  | OClear => o_clear m
  end.
Definition o_run (os : list oop) (m : omap) : omap := fold_left (fun m o => o_do o m) os m.
Definition o_ends (k : bytes) (o : oop) : Prop := match o with OErase k' => k' = k | OClear => True | _ => False end.

(** the elements that do not satisfy [p] *)
Definition keep {A} (p : A -> bool) (l : list A) : list A := filter (fun x => negb (p x)) l.
(** no two neighbours satisfy [p] *)
Inductive spaced {A} (p : A -> bool) : list A -> Prop :=
| sp_nil : spaced p []
| sp_one x : spaced p [x]
| sp_cons x y l : p x = false \/ p y = false -> spaced p (y :: l) -> spaced p (x :: y :: l).
(** the member after the one with key [k] *)
Definition follows (k k2 : bytes) (m : object) : Prop :=
  In k2 (map fst m) /\ blt k k2 /\ forall k3, In k3 (map fst m) -> blt k k3 -> k3 = k2 \/ blt k2 k3.
