(** * Types whose conversion from an rvalue reads the elements without moving them away. *)
From Verif Require Import Base Value Containers Num Enum Conv SpecApi.

(** as<T>() of an rvalue takes the value apart: json::value, and classes with a move_from_json *)
Definition moves_away (t : ty) : Prop :=
  match t with
  | TValue => True
  | TExt x => x_move_from x <> None
  | _ => False
  end.
(** Elements that are taken apart are either none or all, and of json::value, which always succeeds;
    members of an object are never taken apart. *)
Fixpoint gentle (t : ty) : Prop :=
  match t with
  | TValue | TObj => False
  | TExt x => x_move_from x = None
  | TOpt t' | TPtr t' => gentle t'
  | TVec t' | TColl _ t' | TFix _ t' => ~ moves_away t' \/ t' = TValue
  | TTup [t'] => gentle t'
  | TTup ts => Forall (fun t' => ~ moves_away t') ts \/ Forall (eq TValue) ts
  | TVar ts => (fix all (l : list ty) : Prop := match l with [] => True | t' :: r => gentle t' /\ all r end) ts
  | TMap t' => ~ moves_away t'
  | TArr | TBool | TInt _ _ | TFlt _ | TStr | TView | TNullptr | TMono | TEnum _ | TRec _ => True
  end.
(** Types read from the elements of an array: sequences, sets, fixed arrays, tuples of several. *)
Definition from_elements (t : ty) : Prop :=
  match t with
  | TVec _ | TColl _ _ | TFix _ _ | TArr => True
  | TTup ts => length ts <> 1%nat
  | _ => False
  end.
(** Nothing at any depth was moved away, and the tags match. *)
Definition usable (v : value) : Prop := tag_ok v /\ owned v /\ keys_ok v.
(** The type of the element at a position; the number of elements required, if there is one. *)
Definition element_type (t : ty) (i : nat) : option ty :=
  match t with
  | TVec t' | TColl _ t' | TFix _ t' => Some t'
  | TArr => Some TValue
  | TTup ts => nth_error ts i
  | _ => None
  end.
Definition required (t : ty) : option nat :=
  match t with TFix n _ => Some n | TTup ts => Some (length ts) | _ => None end.
