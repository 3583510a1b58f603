(** * What converting an rvalue leaves of it: std::move(v).as<T>(), (T)std::move(v),
    std::move(arr).as<T>(), std::move(obj).as<T>().

    [as_rv] and [cast_rv] of Conv.v say what these calls give; the functions here
    give the state of the source afterwards, also when the call ends in an exception. *)
From Verif Require Import Base Value Containers Num Enum Conv.

Section Left.
  Context (E : env) (left : ext -> value -> value).   (* what a move_from_json of the user leaves *)

  (** as() &&, value_impl.hpp:706-729: return std::move( *this ) is a move construction;
      everything but move_from_json reads only *)
  Definition as_left (t : ty) (v : value) : value :=
    match t with
    | TValue => moved v
    | TExt x => match x_move_from x with Some _ => left x v | None => v end
    | _ => v
    end.
  (** the loop over the elements, array_impl.hpp:485-487, 496-503: it ends with the first exception *)
  Fixpoint elems_left (t : ty) (l : array) : array :=
    match l with
    | [] => []
    | v :: r => as_left t v :: (match as_rv E t v with Ok _ => elems_left t r | _ => r end)
    end.
  (** move_as_tuple_helper, array_impl.hpp:545-550 *)
  Fixpoint tuple_left (ts : list ty) (l : array) : array :=
    match ts, l with
    | t :: ts', v :: r => as_left t v :: (match as_rv E t v with Ok _ => tuple_left ts' r | _ => r end)
    | _, _ => l
    end.
  (** object::as &&, object_impl.hpp:360-362 *)
  Fixpoint members_left (t : ty) (m : object) : object :=
    match m with
    | [] => []
    | (k, v) :: r => (k, as_left t v) :: (match as_rv E t v with Ok _ => members_left t r | _ => r end)
    end.
  (** array::as &&, array_impl.hpp:475-521: what is left of the array. After the last element
      it is cleared (488, 504, 515), a wrong size is found before anything is moved (480-482, 509-511).
      json::array itself is a collection of json::value. *)
  Definition array_as_left (t : ty) (l : array) : array :=
    match t with
    | TVec t' | TColl _ t' => match mapM (as_rv E t') l with Ok _ => [] | _ => elems_left t' l end
    | TArr => match mapM (as_rv E TValue) l with Ok _ => [] | _ => elems_left TValue l end
    | TFix n t' =>
        if Nat.eqb (length l) n then match mapM (as_rv E t') l with Ok _ => [] | _ => elems_left t' l end
        else l
    | TTup ts =>
        if Nat.eqb (length l) (length ts) then
          match as_tuple (as_rv E) ts l with Ok _ => [] | _ => tuple_left ts l end
        else l
    | _ => l                                              (* does not compile *)
    end.
  (** object::as &&, object_impl.hpp:355-370: the members stay, with what is left of their values.
      json::object itself is a map to json::value. *)
  Definition object_as_left (t : ty) (m : object) : object :=
    match t with
    | TMap t' => members_left t' m
    | TObj => members_left TValue m
    | _ => m                                              (* does not compile *)
    end.
  (** std::move(as_array()).as<T>(), value.hpp:615-618; as_array() makes an array of an empty value *)
  Definition through_array (t : ty) (v : value) : value :=
    let '(v1, r) := as_array_m v in
    match r with Ok l => VArr Tarray (Some (array_as_left t l)) | _ => v1 end.
  (** std::move(as_object()).as<T>(), value.hpp:639-642 *)
  Definition through_object (t : ty) (v : value) : value :=
    let '(v1, r) := as_object_m v in
    match r with Ok m => VObj Tobject (Some (object_as_left t m)) | _ => v1 end.
  (** move_to_variant_helper, value_impl.hpp:1161-1168 *)
  Fixpoint variant_left (ts : list ty) (v : value) : value :=
    match ts with
    | [] => v
    | t :: ts' =>
        match is_ E t v with
        | Ok true => as_left t v
        | Ok false => variant_left ts' v
        | _ => v
        end
    end.
  Section Alternative.
    Context (f : ty -> value -> value).
    Fixpoint alternative_left (ts : list ty) (n : nat) (v : value) : value :=
      match ts, n with
      | t :: _, O => f t v
      | _ :: ts', S n' => alternative_left ts' n' v
      | [], _ => v
      end.
  End Alternative.
  (** (T)std::move(v): the && operators, value.hpp:522-648; the same choices as in [cast_rv] *)
  Fixpoint cast_left (t : ty) (v : value) {struct t} : value :=
    match t with
    | TValue => moved v
    | TOpt t' => cast_left t' v
    | TPtr t' => if is_null v then v else cast_left t' v
    | TTup [t'] => cast_left t' v
    | TVec _ | TColl _ _ | TFix _ _ | TTup _ | TArr => through_array t v
    | TMap _ | TObj => through_object t v
    | TVar ts =>
        match chosen ts with
        | Some n => alternative_left cast_left ts n v
        | None => variant_left ts v
        end
    | TExt _ => as_left t v
    | TBool | TInt _ _ | TFlt _ | TStr | TView | TNullptr | TMono | TEnum _ | TRec _ => v
    end.
End Left.
