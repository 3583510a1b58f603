(** * What a conversion of an rvalue may leave of it when memory runs out. Definitions only. *)
From Verif Require Import Base Value Containers Num Enum Conv SpecApi Left SpecLeft Faults FaultsMove.
From Verif Require Api.

(** The call has ended for lack of memory: *)
Definition out_of_memory {A} (o : outcome A) : Prop := o = Res (Throw BadAlloc) \/ o = Ended.

(** Types whose conversion only reads its source *)
Fixpoint reads_only (t : ty) : Prop :=
  match t with
  | TBool | TInt _ _ | TFlt _ | TStr | TView | TNullptr | TMono | TEnum _ | TRec _ => True
  | TOpt t' | TPtr t' | TTup [t'] => reads_only t'
  | TMap t' => ~ moves_away t'
  | TVar ts => (fix all (l : list ty) : Prop := match l with [] => True | t' :: r => reads_only t' /\ all r end) ts
  | TExt x => x_move_from x = None
  | TValue | TArr | TObj | TVec _ | TColl _ _ | TFix _ _ | TTup _ => False
  end.
Section Careful.
  Context (grows : bool).
  (** Types whose conversion takes nothing from its source before the last request for memory. [grows]: adding an element
      to the sequence requests memory (std::list, std::deque). *)
  Fixpoint careful (t : ty) : Prop :=
    match t with
    | TValue | TBool | TInt _ _ | TFlt _ | TStr | TView | TNullptr | TMono | TEnum _ | TRec _ => True
    | TOpt t' | TTup [t'] => careful t'
    | TPtr t' => reads_only t'
    | TVec t' => ~ moves_away t' \/ (t' = TValue /\ grows = false)
    | TColl _ t' => ~ moves_away t'
    | TFix _ t' => ~ moves_away t' \/ t' = TValue
    | TTup ts => Forall (fun t' => ~ moves_away t') ts \/ Forall (eq TValue) ts
    | TMap t' => ~ moves_away t'
    | TVar ts => (fix all (l : list ty) : Prop := match l with [] => True | t' :: r => careful t' /\ all r end) ts
    | TExt x => x_move_from x = None
    | TArr | TObj => False
    end.
End Careful.
(** The source is as it was, unless it was empty: then it may have become an empty container, or have been given
    the type of one and nothing else. *)
Definition unharmed (v w : value) : Prop :=
  w = v \/ (v_empty v = Ok true /\ (w = v_array [] \/ w = v_object [] \/ w = Api.set_tag Tarray v \/ w = Api.set_tag Tobject v)).

Section Interrupted.
  (** what move_from_json leaves when it returns, and when it runs out of memory *)
  Context (left half : ext -> value -> value).
  (** Elements of the types [ts] were taken from the first one on, up to some element. *)
  Inductive interrupted : list ty -> array -> array -> Prop :=
  | int_here ts l : interrupted ts l l
  | int_within x f ts v l : x_move_from x = Some f -> interrupted (TExt x :: ts) (v :: l) (half x v :: l)
  | int_next t ts v l l' : interrupted ts l l' -> interrupted (t :: ts) (v :: l) (as_left left t v :: l').
End Interrupted.
(** the types of the elements of an array of [n] *)
Definition element_types (t : ty) (n : nat) : list ty :=
  match t with
  | TVec t' | TColl _ t' | TFix _ t' => repeat t' n
  | TArr => repeat TValue n
  | TTup ts => ts
  | _ => []
  end.
Definition member_type (t : ty) : option ty :=
  match t with TMap t' => Some t' | TObj => Some TValue | _ => None end.
