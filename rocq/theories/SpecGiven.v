(** * What is said about the object a value is built from, independently of [after] of Conv.v: C49. *)
From Verif Require Import Base Value Packed Parser Dump Containers Num Enum Conv.

(** The parts of an object, numbered: what an optional, a pointer or a variant holds, elements, the values of a map, fields. *)
Definition piece (d : data) (i : nat) : option data :=
  match d with
  | DOpt (Some x) | DAlt _ x => match i with O => Some x | S _ => None end
  | DSeq l | DRec l => nth_error l i
  | DMap m => match nth_error m i with Some (_, x) => Some x | None => None end
  | _ => None
  end.
Fixpoint part_at (d : data) (p : list nat) : option data :=
  match p with
  | [] => Some d
  | i :: r => match piece d i with Some x => part_at x r | None => None end
  end.
(** No part of it has been moved from. *)
Definition whole (d : data) : Prop := forall p, part_at d p <> Some DGone.
(** Two objects are alike but for their parts. *)
Definition alike (x y : data) : Prop :=
  match x, y with
  | DOpt (Some _), DOpt (Some _) => True
  | DAlt i _, DAlt j _ => i = j
  | DSeq l, DSeq l' | DRec l, DRec l' => length l = length l'
  | DMap m, DMap m' => map fst m = map fst m'
  | _, _ => x = y
  end.

(** [passed c t d i c' t' x]: the constructor for objects of type [t] named as [c] passes on the [i]-th part [x] of [d],
    of type [t'], and names it as [c']. *)
Inductive passed : category -> ty -> data -> nat -> category -> ty -> data -> Prop :=
(* a std::optional: what an rvalue holds is moved, and what a variable holds too *)
| pa_opt_r t x : passed Rvalue (TOpt t) (DOpt (Some x)) 0 Rvalue t x
| pa_opt_l t x : passed Lvalue (TOpt t) (DOpt (Some x)) 0 Rvalue t x
| pa_opt_c t x : passed Const (TOpt t) (DOpt (Some x)) 0 Const t x
| pa_opt_cr t x : passed ConstRvalue (TOpt t) (DOpt (Some x)) 0 ConstRvalue t x
(* a pointer: a const one is dereferenced, any other moved from *)
| pa_ptr_c t x : passed Const (TPtr t) (DOpt (Some x)) 0 Lvalue t x
| pa_ptr c t x : c <> Const -> passed c (TPtr t) (DOpt (Some x)) 0 Rvalue t x
(* sequences and maps: elements of an rvalue are rvalues *)
| pa_vec_r t l i x : nth_error l i = Some x -> passed Rvalue (TVec t) (DSeq l) i Rvalue t x
| pa_vec_cr t l i x : nth_error l i = Some x -> passed ConstRvalue (TVec t) (DSeq l) i ConstRvalue t x
| pa_vec c t l i x : c = Lvalue \/ c = Const -> nth_error l i = Some x -> passed c (TVec t) (DSeq l) i Const t x
| pa_map_r t m i k x : nth_error m i = Some (k, x) -> passed Rvalue (TMap t) (DMap m) i Rvalue t x
| pa_map_cr t m i k x : nth_error m i = Some (k, x) -> passed ConstRvalue (TMap t) (DMap m) i ConstRvalue t x
| pa_map c t m i k x : c = Lvalue \/ c = Const -> nth_error m i = Some (k, x) -> passed c (TMap t) (DMap m) i Const t x
(* elements of sets are const *)
| pa_coll_r c ins t l i x : c = Rvalue \/ c = ConstRvalue -> nth_error l i = Some x -> passed c (TColl ins t) (DSeq l) i ConstRvalue t x
| pa_coll c ins t l i x : c = Lvalue \/ c = Const -> nth_error l i = Some x -> passed c (TColl ins t) (DSeq l) i Const t x
(* std::array, tuples, variants *)
| pa_fix_r n t l i x : nth_error l i = Some x -> passed Rvalue (TFix n t) (DSeq l) i Rvalue t x
| pa_fix c n t l i x : c <> Rvalue -> nth_error l i = Some x -> passed c (TFix n t) (DSeq l) i Const t x
| pa_tup_r ts l i t x : nth_error ts i = Some t -> nth_error l i = Some x -> passed Rvalue (TTup ts) (DSeq l) i Rvalue t x
| pa_tup c ts l i t x : c <> Rvalue -> nth_error ts i = Some t -> nth_error l i = Some x -> passed c (TTup ts) (DSeq l) i Const t x
| pa_var_r ts n t x : nth_error ts n = Some t -> passed Rvalue (TVar ts) (DAlt n x) 0 Rvalue t x
| pa_var c ts n t x : c <> Rvalue -> nth_error ts n = Some t -> passed c (TVar ts) (DAlt n x) 0 Const t x
(* to_json is a const member *)
| pa_rec c fs l i f t x : nth_error fs i = Some (f, t) -> nth_error l i = Some x -> passed c (TRec fs) (DRec l) i Const t x.
(** the types whose rvalues are moved from *)
Inductive movable : ty -> Prop :=
| mo_str : movable TStr
| mo_value : movable TValue
| mo_arr : movable TArr
| mo_obj : movable TObj
| mo_ext x : x_move_to x = true -> movable (TExt x).
(** The part of the object at this position is moved from. *)
Inductive moved_from : category -> ty -> data -> list nat -> Prop :=
| mf_here t d : movable t -> moved_from Rvalue t d []
| mf_part c t d i c' t' x p : passed c t d i c' t' x -> moved_from c' t' x p -> moved_from c t d (i :: p).
