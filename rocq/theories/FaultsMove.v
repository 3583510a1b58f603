(** * Allocations that fail in conversions of rvalues: std::move(v).as<T>(), (T)std::move(v), std::move(arr).as<T>(),
      std::move(obj).as<T>(). Model only.

    As in [Faults.v] a run is given a list that says which requests for memory fail. A call gives the source as it is
    afterwards ([Left.v] has that for unlimited memory), the rest of the list, and the outcome. *)
From Verif Require Import Base Value Containers Num Enum Conv Faults.
From Verif Require Api.

Definition taking (S A : Type) := list bool -> S * (list bool * outcome A).
(** a step that leaves the source alone *)
Definition kept {S A} (x : S) (m : M A) : taking S A := fun s => (x, m s).
Definition pass {A B} (o : outcome A) : outcome B :=
  match o with Res r => Res (do _ <- r; Fuel) | Ended => Ended end.
(** [f] follows if there is a result; if there is none, [bad] gives the whole source *)
Definition taken {S S' A B} (m : taking S A) (bad : S -> S') (f : S -> A -> taking S' B) : taking S' B := fun s =>
  match m s with
  | (x, (s', Res (Ok a))) => f x a s'
  | (x, (s', o)) => (bad x, (s', pass o))
  end.

Section Taking.
  Context (short : nat) (E : env).
  (** what a move_from_json of the user leaves when it has come to its end, and when it ran out of memory *)
  Context (left half : ext -> value -> value).
  (** does adding an element to the sequence request memory? std::vector: no, room was reserved; std::list, std::deque: yes *)
  Context (grows : bool).

  (** as() &&, value_impl.hpp:706-729 *)
  Definition try_as_rv (t : ty) (v : value) : taking value data :=
    match t with
    | TValue => fun s => (moved v, (s, Res (Ok (DJson v))))
    | TExt x =>
        match x_move_from x with
        | Some f => taken (kept tt request) (fun _ => half x v) (fun _ _ => kept (left x v) (with_text (ext_as x f v)))
        | None => kept v (try_ext_as x v)
        end
    | _ => kept v (try_as short E t v)
    end.
  (** the loops over the elements, array_impl.hpp:485-487, 496-503; [g]: adding an element may request memory, and then the
      element is already taken *)
  Fixpoint try_take_elems (g : bool) (t : ty) (l : array) : taking array (list data) :=
    match l with
    | [] => kept [] (now (Ok []))
    | v :: r =>
        taken (try_as_rv t v) (fun v' => v' :: r) (fun v' d =>
        taken (kept tt (if g then request else now (Ok tt))) (fun _ => v' :: r) (fun _ _ =>
        taken (try_take_elems g t r) (fun r' => v' :: r') (fun r' ds => kept (v' :: r') (now (Ok (d :: ds))))))
    end.
  (** move_as_tuple_helper, array_impl.hpp:545-550 *)
  Fixpoint try_take_tuple (ts : list ty) (l : array) : taking array (list data) :=
    match ts, l with
    | t :: ts', v :: r =>
        taken (try_as_rv t v) (fun v' => v' :: r) (fun v' d =>
        taken (try_take_tuple ts' r) (fun r' => v' :: r') (fun r' ds => kept (v' :: r') (now (Ok (d :: ds)))))
    | _, _ => kept l (now (Ok []))
    end.
  (** object_impl.hpp:360-362: emplace copies the key and makes a node *)
  Fixpoint try_take_members (t : ty) (m : object) : taking object (list (bytes * data)) :=
    match m with
    | [] => kept [] (now (Ok []))
    | (k, v) :: r =>
        taken (try_as_rv t v) (fun v' => (k, v') :: r) (fun v' d =>
        taken (kept tt request) (fun _ => (k, v') :: r) (fun _ _ =>
        taken (try_take_members t r) (fun r' => (k, v') :: r') (fun r' ds => kept ((k, v') :: r') (now (Ok ((k, d) :: ds))))))
    end.
  (** array::as &&, array_impl.hpp:475-521. json::array has no reserve(). *)
  Definition try_array_take (t : ty) (l : array) : taking array data :=
    match t with
    | TVec t' =>
        taken (kept tt request) (fun _ => l) (fun _ _ =>
        taken (try_take_elems grows t' l) (fun l' => l') (fun _ ds => kept [] (now (Ok (DSeq ds)))))
    | TColl ins t' =>
        taken (kept tt request) (fun _ => l) (fun _ _ =>
        taken (try_take_elems true t' l) (fun l' => l') (fun _ ds => kept [] (now (Ok (DSeq (coll_of ins ds))))))
    | TArr => taken (try_take_elems true TValue l) (fun l' => l') (fun _ _ => kept [] (now (Ok (DArr l))))
    | TFix n t' =>
        if Nat.eqb (length l) n then
          taken (kept tt request) (fun _ => l) (fun _ _ =>
          taken (try_take_elems false t' l) (fun l' => l') (fun _ ds => kept [] (now (Ok (DSeq ds)))))
        else kept l (with_text (Throw JsonException))
    | TTup ts =>
        if Nat.eqb (length l) (length ts) then
          taken (kept tt request) (fun _ => l) (fun _ _ =>
          taken (try_take_tuple ts l) (fun l' => l') (fun _ ds => kept [] (now (Ok (DSeq ds)))))
        else kept l (with_text (Throw JsonException))
    | _ => kept l (now Fuel)                              (* does not compile *)
    end.
  (** object::as &&, object_impl.hpp:355-370 *)
  Definition try_object_take (t : ty) (m : object) : taking object data :=
    match t with
    | TMap t' => taken (try_take_members t' m) (fun m' => m') (fun m' ds => kept m' (now (Ok (DMap ds))))
    | TObj => taken (try_take_members TValue m) (fun m' => m') (fun m' _ => kept m' (now (Ok (DObj m))))
    | _ => kept m (now Fuel)                              (* does not compile *)
    end.
  (** if (empty()): _type is set before make_unique, value_impl.hpp:642-645, 656-659 *)
  Definition try_coerce (t : vtype) (fresh v : value) : taking value unit :=
    match v_empty v with
    | Ok true => taken (kept tt request) (fun _ => Api.set_tag t v) (fun _ _ => kept fresh (now (Ok tt)))
    | Ok false => kept v (now (Ok tt))
    | r => kept v (now (do _ <- r; Ok tt))
    end.
  (** as_array(), as_object(), value_impl.hpp:640-666 *)
  Definition try_as_array_m (v : value) : taking value array :=
    taken (try_coerce Tarray (v_array []) v) (fun w => w) (fun w _ => kept w (with_text (if is_array w then get_arr w else type_error w))).
  Definition try_as_object_m (v : value) : taking value object :=
    taken (try_coerce Tobject (v_object []) v) (fun w => w) (fun w _ => kept w (with_text (if is_object w then get_obj w else type_error w))).
  (** std::move(as_array()).as<T>(), value.hpp:615-618; std::move(as_object()).as<T>(), value.hpp:639-642 *)
  Definition try_through_array (t : ty) (v : value) : taking value data :=
    taken (try_as_array_m v) (fun w => w) (fun _ l =>
    taken (try_array_take t l) (fun l' => VArr Tarray (Some l')) (fun l' d => kept (VArr Tarray (Some l')) (now (Ok d)))).
  Definition try_through_object (t : ty) (v : value) : taking value data :=
    taken (try_as_object_m v) (fun w => w) (fun _ m =>
    taken (try_object_take t m) (fun m' => VObj Tobject (Some m')) (fun m' d => kept (VObj Tobject (Some m')) (now (Ok d)))).
  (** move_to_variant_helper, value_impl.hpp:1161-1168 *)
  Fixpoint try_variant_rv (n : nat) (ts : list ty) (v : value) : taking value data :=
    match ts with
    | [] => kept v (with_text (type_error v))
    | t :: ts' =>
        taken (kept v (try_is short E t v)) (fun w => w) (fun _ b =>
        if b then taken (try_as_rv t v) (fun w => w) (fun w d => kept w (now (Ok (DAlt n d))))
        else try_variant_rv (S n) ts' v)
    end.
  Section Alternative.
    Context (f : ty -> value -> taking value data).
    Fixpoint try_alternative_rv (ts : list ty) (n : nat) (v : value) : taking value data :=
      match ts, n with
      | t :: _, O => f t v
      | _ :: ts', S n' => try_alternative_rv ts' n' v
      | [], _ => kept v (now Fuel)
      end.
  End Alternative.
  (** (T)std::move(v): the && operators, value.hpp:522-648; the same choices as in [cast_rv]. make_shared and make_unique
      are given the converted value. *)
  Fixpoint try_cast_rv (t : ty) (v : value) {struct t} : taking value data :=
    match t with
    | TValue => fun s => (moved v, (s, Res (Ok (DJson v))))
    | TOpt t' => taken (try_cast_rv t' v) (fun w => w) (fun w d => kept w (now (Ok (DOpt (Some d)))))
    | TPtr t' =>
        if is_null v then kept v (now (Ok (DOpt None)))
        else
          taken (try_cast_rv t' v) (fun w => w) (fun w d =>
          taken (kept tt request) (fun _ => w) (fun _ _ => kept w (now (Ok (DOpt (Some d))))))
    | TTup [t'] => taken (try_cast_rv t' v) (fun w => w) (fun w d => kept w (now (Ok (DSeq [d]))))
    | TVec _ | TColl _ _ | TFix _ _ | TTup _ | TArr => try_through_array t v
    | TMap _ | TObj => try_through_object t v
    | TVar ts =>
        match chosen ts with
        | Some n => taken (try_alternative_rv try_cast_rv ts n v) (fun w => w) (fun w d => kept w (now (Ok (DAlt n d))))
        | None => taken (kept tt request) (fun _ => v) (fun _ _ => try_variant_rv O ts v)
        end
    | TExt _ => try_as_rv t v
    | TBool | TInt _ _ | TFlt _ | TStr | TView | TNullptr | TMono | TEnum _ | TRec _ => kept v (try_as short E t v)
    end.
End Taking.
