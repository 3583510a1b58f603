(** * json::array, json::object and the methods of json::value that act on one value.

    A mutating method is a function from the value to its final state and the
    outcome; after [Ub] the state is meaningless. References returned by methods
    are modelled in Api.v by paths. Model only, no proofs. *)
From Verif Require Import Base Value.

Definition is_nil {A} (l : list A) : bool := match l with [] => true | _ => false end.
Definition size {A} (l : list A) : N := N.of_nat (length l).
(** element at a [size_t] position *)
Definition nthN {A} (l : list A) (pos : N) : option A :=
  if pos <? size l then nth_error l (N.to_nat pos) else None.
Fixpoint remove_nth {A} (l : list A) (n : nat) : list A :=
  match l, n with
  | [], _ => []
  | _ :: r, O => r
  | x :: r, S n' => x :: remove_nth r n'
  end.

(** The state a default move constructor or assignment leaves behind
    (value_impl.hpp:86, 854): the tag is copied, a [unique_ptr] becomes null. For
    a string the standard only says valid but unspecified; the common
    implementations leave it empty. *)
Definition moved (v : value) : value :=
  match v with
  | VStr t _ => VStr t []
  | VArr t _ => VArr t None
  | VObj t _ => VObj t None
  end.

(** ** Copying: value(const value&) 80-84, deep_copy 1102-1120 *)
Section Copy.
  Context (cp : value -> res value).
  Fixpoint copy_elems (l : array) : res array :=
    match l with [] => Ok [] | v :: r => do v' <- cp v; do r' <- copy_elems r; Ok (v' :: r') end.
  Fixpoint copy_members (m : object) : res object :=
    match m with [] => Ok [] | (k, v) :: r => do v' <- cp v; do r' <- copy_members r; Ok ((k, v') :: r') end.
End Copy.
Fixpoint copy (v : value) : res value :=
  match v with
  | VStr t s => Ok (VStr t s)
  | VArr t (Some l) => do l' <- copy_elems copy l; Ok (VArr t (Some l'))
  | VObj t (Some m) => do m' <- copy_members copy m; Ok (VObj t (Some m'))
  | VArr _ None | VObj _ None => Ub
  end.

(** ** json::array, array_impl.hpp *)
(** empty, size, contains, exists: 135-153 *)
Definition arr_empty (l : array) : bool := is_nil l.
Definition arr_size (l : array) : N := size l.
Definition arr_contains (pos : N) (l : array) : bool := pos <? size l.
Definition arr_exists (pos : N) (l : array) : bool := arr_contains pos l.
(** clear: 155-158 *)
Definition arr_clear (l : array) : array := [].
(** erase(iterator): 168-175; the iterator is its offset from begin(), at most size() *)
Definition arr_erase_iter (pos : N) (l : array) : array * bool :=
  if pos =? size l then (l, false) else (remove_nth l (N.to_nat pos), true).
(** erase(size_t): 160-166 *)
Definition arr_erase (pos : N) (l : array) : array * bool :=
  if size l <=? pos then (l, false) else arr_erase_iter pos l.
(** emplace_back, push_back: 177-188 *)
Definition arr_emplace_back (v : value) (l : array) : array := l ++ [v].
(** at: 190-193, vector::at *)
Definition arr_at (pos : N) (l : array) : res value :=
  match nthN l pos with Some v => Ok v | None => Throw OutOfRange end.
(** operator[]: 366-374, vector::operator[] *)
Definition arr_index (pos : N) (l : array) : res value :=
  match nthN l pos with Some v => Ok v | None => Ub end.
(** find_value: 301-304 *)
Definition arr_find_value (pos : N) (l : array) : option value :=
  if arr_contains pos l then nthN l pos else None.
(** array(size_type): 34-37; array(initializer_list): 29-32 *)
Definition arr_of_size (n : N) : array := repeat v_null (N.to_nat n).
(** append_array, append_array_move: 9-19, for [dst] and [src] that do not overlap; the
    second component is what is left in [src] *)
Definition append_array (dst src : array) : res array :=
  do src' <- copy_elems copy src; Ok (dst ++ src').
Definition append_array_move (dst src : array) : array * array := (dst ++ src, map moved src).
(** operator+, operator+=: 376-412, for operands that do not overlap. [c]: the operand is
    an lvalue, [m]: an rvalue (left operand first). *)
Definition arr_plus_cc (l r : array) : res array := do t <- copy_elems copy l; append_array t r.
Definition arr_plus_cm (l r : array) : res array := do t <- copy_elems copy l; Ok (fst (append_array_move t r)).
Definition arr_plus_mc (l r : array) : res array := append_array l r.
Definition arr_plus_mm (l r : array) : res array := Ok (fst (append_array_move l r)).
Definition arr_plus_assign_c (l r : array) : res array := append_array l r.
Definition arr_plus_assign_m (l r : array) : res array := Ok (fst (append_array_move l r)).

(** ** json::object, object_impl.hpp *)
(** empty, size, contains, exists: 64-82 *)
Definition obj_empty (m : object) : bool := is_nil m.
Definition obj_size (m : object) : N := size m.
Definition obj_contains (k : bytes) (m : object) : bool :=
  match map_find k m with Some _ => true | None => false end.
Definition obj_exists (k : bytes) (m : object) : bool := obj_contains k m.
(** at: 84-87, map::at *)
Definition obj_at (k : bytes) (m : object) : res value :=
  match map_find k m with Some v => Ok v | None => Throw OutOfRange end.
(** clear: 89-92 *)
Definition obj_clear (m : object) : object := [].
(** erase(key): 94-97 *)
Definition obj_erase (k : bytes) (m : object) : object * bool := map_erase k m.
(** erase(iterator): 99-106; the iterator is the key it points at, [None] for end() *)
Definition obj_erase_iter (it : option bytes) (m : object) : object * bool :=
  match it with None => (m, false) | Some k => (fst (map_erase k m), true) end.
(** emplace, insert: 108-119, map::insert_or_assign; the boolean of the returned pair *)
Definition obj_emplace (k : bytes) (v : value) (m : object) : object * bool :=
  (map_assign k v m, negb (obj_contains k m)).
(** find_value: 240-244 *)
Definition obj_find_value (k : bytes) (m : object) : option value := map_find k m.
(** operator[]: 276-284, map::operator[] inserts a default constructed value *)
Definition obj_index (k : bytes) (m : object) : object := fst (map_emplace k v_null m).
(** object(initializer_list): 31-34 (the range constructor of map keeps the first of
    equal keys) and object(const map_t&), object(map_t&&): 43-62 *)
Definition obj_of_list (l : list (bytes * value)) : object :=
  fold_left (fun m kv => fst (map_emplace (fst kv) (snd kv) m)) l [].
(** merge_object, 9-14, for [dst] and [src] that do not overlap: both an insertion and an
    assignment copy the value *)
Fixpoint merge_object (dst src : object) : res object :=
  match src with
  | [] => Ok dst
  | (k, v) :: r => do v' <- copy v; merge_object (map_assign k v' dst) r
  end.
(** merge_object_move, 16-21; the second component is what is left in [src] *)
Definition merge_object_move (dst src : object) : object * object :=
  (fold_left (fun m kv => map_assign (fst kv) (snd kv) m) src dst,
   map (fun kv => (fst kv, moved (snd kv))) src).
(** operator|, operator|=: 286-322, as for arrays *)
Definition obj_or_cc (l r : object) : res object := do t <- copy_members copy l; merge_object t r.
Definition obj_or_cm (l r : object) : res object := do t <- copy_members copy l; Ok (fst (merge_object_move t r)).
Definition obj_or_mc (l r : object) : res object := merge_object l r.
Definition obj_or_mm (l r : object) : res object := Ok (fst (merge_object_move l r)).
Definition obj_or_assign_c (l r : object) : res object := merge_object l r.
Definition obj_or_assign_m (l r : object) : res object := Ok (fst (merge_object_move l r)).

(** ** Queries of json::value, value_impl.hpp *)
(** is_null ... is_object: 229-257 *)
Definition is_null (v : value) : bool := vtype_eqb (type_of v) Tnull.
Definition is_number (v : value) : bool := vtype_eqb (type_of v) Tnumber.
Definition is_boolean (v : value) : bool := vtype_eqb (type_of v) Tboolean.
Definition is_string (v : value) : bool := vtype_eqb (type_of v) Tstring.
Definition is_array (v : value) : bool := vtype_eqb (type_of v) Tarray.
Definition is_object (v : value) : bool := vtype_eqb (type_of v) Tobject.

(** std::get<std::string>, *std::get<array_ptr>, *std::get<object_ptr> *)
Definition get_str (v : value) : res bytes :=
  match v with VStr _ s => Ok s | _ => Throw BadVariant end.
Definition get_arr (v : value) : res array :=
  match v with VArr _ (Some l) => Ok l | VArr _ None => Ub | _ => Throw BadVariant end.
Definition get_obj (v : value) : res object :=
  match v with VObj _ (Some m) => Ok m | VObj _ None => Ub | _ => Throw BadVariant end.

(** empty: 213-227. The function is noexcept: a [Throw] here ends the program. *)
Definition v_empty (v : value) : res bool :=
  match type_of v with
  | Tnull => Ok true
  | Tstring => do s <- get_str v; Ok (is_nil s)
  | Tarray => do l <- get_arr v; Ok (arr_empty l)
  | Tobject => do m <- get_obj v; Ok (obj_empty m)
  | _ => Ok false
  end.
(** throw exception(... + value_info()): value_info (373-405) catches every exception,
    but for an array or object it dereferences the pointer *)
Definition type_error {A} (v : value) : res A :=
  match v with
  | VArr Tarray None | VObj Tobject None => Ub
  | _ => Throw JsonException
  end.
(** as_array() const, as_object() const: 622-638 *)
Definition as_array_c (v : value) : res array := if is_array v then get_arr v else type_error v.
Definition as_object_c (v : value) : res object := if is_object v then get_obj v else type_error v.
(** contains, exists: 342-360 *)
Definition v_contains_key (k : bytes) (v : value) : res bool :=
  if is_object v then do m <- as_object_c v; Ok (obj_contains k m) else Ok false.
Definition v_contains_pos (pos : N) (v : value) : res bool :=
  if is_array v then do l <- as_array_c v; Ok (arr_contains pos l) else Ok false.
Definition v_exists_key (k : bytes) (v : value) : res bool := v_contains_key k v.
Definition v_exists_pos (pos : N) (v : value) : res bool := v_contains_pos pos v.
(** at: 407-415 *)
Definition v_at_pos (pos : N) (v : value) : res value := do l <- as_array_c v; arr_at pos l.
Definition v_at_key (k : bytes) (v : value) : res value := do m <- as_object_c v; obj_at k m.
(** find_value: 484-492 *)
Definition v_find_value_pos (pos : N) (v : value) : res (option value) :=
  if is_array v then do l <- as_array_c v; Ok (arr_find_value pos l) else Ok None.
Definition v_find_value_key (k : bytes) (v : value) : res (option value) :=
  if is_object v then do m <- as_object_c v; Ok (obj_find_value k m) else Ok None.
(** operator[](size_t) const: 973-978 *)
Definition v_index_c (pos : N) (v : value) : res value := do l <- as_array_c v; arr_index pos l.
(** as_boolean, as_string: 494-510, 602-610 *)
Definition as_boolean (v : value) : res bool :=
  if is_boolean v then
    do s <- get_str v;
    if bytes_eqb s true_string then Ok true
    else if bytes_eqb s false_string then Ok false
    else Throw JsonException
  else type_error v.
Definition as_string (v : value) : res bytes := if is_string v then get_str v else type_error v.

(** ** Equality *)
Section Eq.
  Context (eqv : value -> value -> res bool).
  (** vector operator==: sizes, then std::equal *)
  Fixpoint eq_elems (l r : array) : res bool :=
    match l, r with
    | x :: l', y :: r' => do b <- eqv x y; if b then eq_elems l' r' else Ok false
    | _, _ => Ok true
    end.
  Definition eq_array (l r : array) : res bool :=
    if Nat.eqb (length l) (length r) then eq_elems l r else Ok false.
  (** map operator==: sizes, then std::equal with pair operator== (first, then second) *)
  Fixpoint eq_members (l r : object) : res bool :=
    match l, r with
    | (k, x) :: l', (k', y) :: r' =>
        if bytes_eqb k k' then do b <- eqv x y; if b then eq_members l' r' else Ok false
        else Ok false
    | _, _ => Ok true
    end.
  Definition eq_object (l r : object) : res bool :=
    if Nat.eqb (length l) (length r) then eq_members l r else Ok false.
End Eq.
(** variant operator== on the string-typed tags: different alternatives are unequal; two
    pointers are compared by address (distinct values own distinct objects; two null
    pointers are equal) *)
Definition raw_eq (v w : value) : bool :=
  match v, w with
  | VStr _ s, VStr _ s' => bytes_eqb s s'
  | VArr _ None, VArr _ None => true
  | VObj _ None, VObj _ None => true
  | _, _ => false
  end.
(** value::operator==, 856-876; array 414-417, object 324-327 *)
Fixpoint v_eq (v w : value) {struct v} : res bool :=
  if negb (vtype_eqb (type_of v) (type_of w)) then Ok false
  else match type_of v with
  | Tnull => Ok true
  | Tboolean | Tnumber | Tstring => Ok (raw_eq v w)
  | Tarray =>
      match v with
      | VArr _ (Some l) => do r <- get_arr w; eq_array v_eq l r
      | VArr _ None => Ub
      | _ => Throw BadVariant
      end
  | Tobject =>
      match v with
      | VObj _ (Some m) => do r <- get_obj w; eq_object v_eq m r
      | VObj _ None => Ub
      | _ => Throw BadVariant
      end
  | Tinvalid => Throw JsonException
  end.
(** operator!=, 878-881 *)
Definition v_neq (v w : value) : res bool := do b <- v_eq v w; Ok (negb b).

(** ** Mutators of json::value *)
(** the first statement of as_array(), as_object(), operator[](key): 642-645, 656-659, 989-992 *)
Definition coerce (fresh : value) (v : value) : value * res unit :=
  match v_empty v with
  | Ok true => (fresh, Ok tt)
  | Ok false => (v, Ok tt)
  | r => (v, do _ <- r; Ok tt)
  end.
(** as_array(), as_object(): 640-666 *)
Definition as_array_m (v : value) : value * res array :=
  let '(v1, r) := coerce (v_array []) v in
  (v1, do _ <- r; if is_array v1 then get_arr v1 else type_error v1).
Definition as_object_m (v : value) : value * res object :=
  let '(v1, r) := coerce (v_object []) v in
  (v1, do _ <- r; if is_object v1 then get_obj v1 else type_error v1).
(** run a method of the array (object) returned by as_array() (as_object()) *)
Definition on_array {A} (f : array -> array * res A) (v : value) : value * res A :=
  let '(v1, r) := as_array_m v in
  match r with
  | Ok l => let '(l', x) := f l in (VArr Tarray (Some l'), x)
  | _ => (v1, do _ <- r; Ub)
  end.
Definition on_object {A} (f : object -> object * res A) (v : value) : value * res A :=
  let '(v1, r) := as_object_m v in
  match r with
  | Ok m => let '(m', x) := f m in (VObj Tobject (Some m'), x)
  | _ => (v1, do _ <- r; Ub)
  end.
Definition ret {A S} (p : S * A) : S * res A := (fst p, Ok (snd p)).
(** erase: 417-425 *)
Definition v_erase_pos (pos : N) : value -> value * res bool := on_array (fun l => ret (arr_erase pos l)).
Definition v_erase_key (k : bytes) : value -> value * res bool := on_object (fun m => ret (obj_erase k m)).
(** emplace: 741-755, one argument and (key, value) *)
Definition v_emplace (x : value) : value -> value * res unit :=
  on_array (fun l => (arr_emplace_back x l, Ok tt)).
Definition v_emplace_kv (k : bytes) (x : value) : value -> value * res bool :=
  on_object (fun m => ret (obj_emplace k x m)).
(** clear: 757-760 *)
Definition v_clear (v : value) : value * res unit := (v_null, Ok tt).
(** operator[]: 980-1005. The result is a reference, see Api.v. *)
Definition v_index_pos (pos : N) : value -> value * res value := on_array (fun l => (l, arr_index pos l)).
Definition v_index_key (k : bytes) (v : value) : value * res value :=
  let '(v1, r) := coerce (v_object []) v in
  match r with
  | Ok _ => on_object (fun m => let m' := obj_index k m in (m', obj_at k m')) v1
  | _ => (v1, do _ <- r; Ub)
  end.
(** operator|, operator+: 1007-1037, 1051-1081. The rvalue overloads call the non-const
    as_object()/as_array(). *)
Definition v_or_cc (v : value) (m : object) : res value := do l <- as_object_c v; do r <- obj_or_cc l m; Ok (v_object r).
Definition v_or_cm (v : value) (m : object) : res value := do l <- as_object_c v; do r <- obj_or_cm l m; Ok (v_object r).
Definition v_or_mc (v : value) (m : object) : res value := do l <- snd (as_object_m v); do r <- obj_or_mc l m; Ok (v_object r).
Definition v_or_mm (v : value) (m : object) : res value := do l <- snd (as_object_m v); do r <- obj_or_mm l m; Ok (v_object r).
Definition v_plus_cc (v : value) (a : array) : res value := do l <- as_array_c v; do r <- arr_plus_cc l a; Ok (v_array r).
Definition v_plus_cm (v : value) (a : array) : res value := do l <- as_array_c v; do r <- arr_plus_cm l a; Ok (v_array r).
Definition v_plus_mc (v : value) (a : array) : res value := do l <- snd (as_array_m v); do r <- arr_plus_mc l a; Ok (v_array r).
Definition v_plus_mm (v : value) (a : array) : res value := do l <- snd (as_array_m v); do r <- arr_plus_mm l a; Ok (v_array r).
(** operator|=, operator+=: 1039-1049, 1083-1093, for operands that do not overlap (Api.v
    has the general case). An exception cannot happen while merging. *)
Definition v_or_assign_c (m : object) : value -> value * res unit :=
  on_object (fun l => match obj_or_assign_c l m with Ok l' => (l', Ok tt) | r => (l, do _ <- r; Ok tt) end).
Definition v_or_assign_m (m : object) : value -> value * res unit :=
  on_object (fun l => match obj_or_assign_m l m with Ok l' => (l', Ok tt) | r => (l, do _ <- r; Ok tt) end).
Definition v_plus_assign_c (a : array) : value -> value * res unit :=
  on_array (fun l => match arr_plus_assign_c l a with Ok l' => (l', Ok tt) | r => (l, do _ <- r; Ok tt) end).
Definition v_plus_assign_m (a : array) : value -> value * res unit :=
  on_array (fun l => match arr_plus_assign_m l a with Ok l' => (l', Ok tt) | r => (l, do _ <- r; Ok tt) end).
