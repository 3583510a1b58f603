(** * How deep a value is nested. *)
From Verif Require Import Base Value Conv.

(** A value that contains none: 1. *)
Fixpoint height (v : value) : nat :=
  match v with
  | VStr _ _ => 1
  | VArr _ None | VObj _ None => 1
  | VArr _ (Some l) => S (list_max (map height l))
  | VObj _ (Some m) => S (list_max (map (fun kv => height (snd kv)) m))
  end.

(** The depth of a C++ type: how many containers are around its innermost scalars. [None]: its data may be
    nested to any depth (json types), or the user decides (to_json). *)
Definition omax (a b : option nat) : option nat :=
  match a, b with Some x, Some y => Some (Nat.max x y) | _, _ => None end.
Fixpoint ty_height (t : ty) : option nat :=
  match t with
  | TValue | TArr | TObj | TExt _ => None
  | TBool | TInt _ _ | TFlt _ | TStr | TView | TNullptr | TMono | TEnum _ => Some 1%nat
  | TOpt t | TPtr t => ty_height t
  | TVec t | TColl _ t | TFix _ t | TMap t => option_map S (ty_height t)
  | TTup ts => option_map S (fold_right (fun t a => omax (ty_height t) a) (Some O) ts)
  | TVar ts => fold_right (fun t a => omax (ty_height t) a) (Some 1%nat) ts
  | TRec fs => option_map S (fold_right (fun ft a => omax (ty_height (snd ft)) a) (Some O) fs)
  end.

(** How many brackets a text opens. *)
Definition opening (c : N) : bool := (c =? 91) || (c =? 123).
Definition openers (s : bytes) : nat := length (filter opening s).
