(** * Iterators of json::array and json::object.

    begin(), end() and the others return the iterators of the vector or map; which operations make them invalid is in the
    standard ([vector.modifiers], [associative.reqmts]). Using an invalid iterator is [Ub]. An iterator belongs to one
    container here, so comparing iterators of different containers is left out. Model only, no proofs. *)
From Verif Require Import Base Value Containers.

(** ** json::array, array_impl.hpp *)
(** The elements, and for each event that made iterators invalid the first position it was about, newest first. *)
Record vec := Vec { items : array; cuts : list nat }.
(** a position, and how many events there had been when the iterator was made *)
Record viter := VIt { vpos : nat; vborn : nat }.
Definition since {A} (born : nat) (l : list A) : list A := firstn (length l - born) l.
Definition v_at (p : nat) (v : vec) : viter := VIt p (length (cuts v)).
(** begin, cbegin: 306-309, 316-319, 326-329 *)
Definition v_begin (v : vec) : viter := v_at 0 v.
(** end, cend: 311-314, 321-324, 331-334 *)
Definition v_end (v : vec) : viter := v_at (length (items v)) v.
Definition v_valid (v : vec) (it : viter) : bool := forallb (fun c => Nat.ltb (vpos it) c) (since (vborn it) (cuts v)).
(** *it *)
Definition v_deref (v : vec) (it : viter) : res value :=
  if v_valid v it then match nth_error (items v) (vpos it) with Some x => Ok x | None => Ub end else Ub.
(** ++it: from a valid iterator, a valid one *)
Definition v_next (v : vec) (it : viter) : res viter :=
  if v_valid v it && Nat.ltb (vpos it) (length (items v)) then Ok (v_at (S (vpos it)) v) else Ub.
(** --it *)
Definition v_prev (v : vec) (it : viter) : res viter :=
  if v_valid v it then match vpos it with O => Ub | S p => Ok (v_at p v) end else Ub.
(** it != it' *)
Definition v_differ (v : vec) (it it' : viter) : res bool :=
  if v_valid v it && v_valid v it' then Ok (negb (Nat.eqb (vpos it) (vpos it'))) else Ub.
(** reverse iterators: rbegin, rend, crbegin, crend: 336-364. A reverse iterator holds the iterator after its element. *)
Definition v_rbegin (v : vec) : viter := v_end v.
Definition v_rend (v : vec) : viter := v_begin v.
Definition v_rderef (v : vec) (it : viter) : res value := do b <- v_prev v it; v_deref v b.
Definition v_rnext (v : vec) (it : viter) : res viter := v_prev v it.
(** erase(iterator): 168-175 *)
Definition v_erase_iter (it : viter) (v : vec) : res (vec * bool) :=
  do d <- v_differ v it (v_end v);
  if d then
    match nth_error (items v) (vpos it) with
    | Some _ => Ok (Vec (remove_nth (items v) (vpos it)) (vpos it :: cuts v), true)
    | None => Ub
    end
  else Ok (v, false).
(** erase(size_t): 160-166 *)
Definition v_erase_at (p : nat) (v : vec) : res (vec * bool) :=
  if Nat.leb (length (items v)) p then Ok (v, false) else v_erase_iter (v_at p v) v.
(** emplace_back, push_back: 177-188; [moved]: the vector takes a larger block of memory *)
Definition v_push (moved : bool) (x : value) (v : vec) : vec :=
  Vec (arr_emplace_back x (items v)) ((if moved then O else length (items v)) :: cuts v).
(** clear: 155-158 *)
Definition v_clear (v : vec) : vec := Vec (arr_clear (items v)) (O :: cuts v).
(** arr[p] = x: 366-369 *)
Definition v_set (p : nat) (x : value) (v : vec) : res vec :=
  if Nat.ltb p (length (items v)) then Ok (Vec (firstn p (items v) ++ x :: skipn (S p) (items v)) (cuts v)) else Ub.

(** ** json::object, object_impl.hpp *)
(** The members, and the keys that have been erased, newest first. *)
Record omap := OMap { members : object; erased : list bytes }.
(** a member and how many had been erased when the iterator was made; [None] is end() *)
Definition oiter : Type := option (bytes * nat).
Definition o_at (k : bytes) (m : omap) : oiter := if obj_contains k (members m) then Some (k, length (erased m)) else None.
(** begin, cbegin: 246-249, 256-259, 266-269 *)
Definition o_begin (m : omap) : oiter :=
  match members m with [] => None | (k, _) :: _ => Some (k, length (erased m)) end.
(** end, cend: 251-254, 261-264, 271-274 *)
Definition o_end (m : omap) : oiter := None.
Definition o_valid (m : omap) (it : oiter) : bool :=
  match it with
  | None => true
  | Some (k, born) => obj_contains k (members m) && negb (existsb (bytes_eqb k) (since born (erased m)))
  end.
Definition o_deref (m : omap) (it : oiter) : res (bytes * value) :=
  if o_valid m it then
    match it with
    | None => Ub
    | Some (k, _) => match map_find k (members m) with Some x => Ok (k, x) | None => Ub end
    end
  else Ub.
(** the first member after the one with key [k] *)
Fixpoint after (k : bytes) (m : object) : option bytes :=
  match m with
  | [] => None
  | (k', _) :: r => if bytes_eqb k k' then match r with [] => None | (k2, _) :: _ => Some k2 end else after k r
  end.
Definition o_next (m : omap) (it : oiter) : res oiter :=
  if o_valid m it then
    match it with
    | None => Ub
    | Some (k, born) => Ok (match after k (members m) with Some k2 => Some (k2, length (erased m)) | None => None end)
    end
  else Ub.
Definition o_differ (m : omap) (it it' : oiter) : res bool :=
  if o_valid m it && o_valid m it' then
    Ok (match it, it' with
        | None, None => false
        | Some (k, _), Some (k', _) => negb (bytes_eqb k k')
        | _, _ => true
        end)
  else Ub.
(** erase(iterator): 99-106 *)
Definition o_erase_iter (it : oiter) (m : omap) : res (omap * bool) :=
  do d <- o_differ m it (o_end m);
  if d then match it with Some (k, _) => Ok (OMap (fst (map_erase k (members m))) (k :: erased m), true) | None => Ub end
  else Ok (m, false).
(** erase(key): 94-97 *)
Definition o_erase (k : bytes) (m : omap) : omap * bool :=
  (OMap (fst (obj_erase k (members m))) (k :: erased m), snd (obj_erase k (members m))).
(** emplace, insert: 108-119, insert_or_assign keeps the node of a member that is there *)
Definition o_emplace (k : bytes) (x : value) (m : omap) : omap := OMap (fst (obj_emplace k x (members m))) (erased m).
(** operator[]: 276-284 *)
Definition o_index (k : bytes) (m : omap) : omap := OMap (obj_index k (members m)) (erased m).
(** clear: 89-92 *)
Definition o_clear (m : omap) : omap := OMap (obj_clear (members m)) (map fst (members m) ++ erased m).

(** ** Loops a user writes; they run on fuel *)
Section Loops.
  Context {S : Type}.
  (** for (auto& x : arr) { body }: end() is called once. The body may change the array. *)
  Fixpoint v_each (fuel : nat) (body : S -> value -> vec -> res (S * vec)) (s : S) (v : vec) (it e : viter) : res (S * vec) :=
    match fuel with
    | O => Fuel
    | Datatypes.S n =>
        do d <- v_differ v it e;
        if (d : bool) then do x <- v_deref v it; do p <- body s x v; do it' <- v_next (snd p) it; v_each n body (fst p) (snd p) it' e
        else Ok (s, v)
    end.
  (** for (auto it = arr.rbegin(); it != arr.rend(); ++it) { body } *)
  Fixpoint v_back (fuel : nat) (body : S -> value -> S) (s : S) (v : vec) (it : viter) : res S :=
    match fuel with
    | O => Fuel
    | Datatypes.S n =>
        do d <- v_differ v it (v_rend v);
        if (d : bool) then do x <- v_rderef v it; do it' <- v_rnext v it; v_back n body (body s x) v it' else Ok s
    end.
  (** for (auto& kv : obj) { body } *)
  Fixpoint o_each (fuel : nat) (body : S -> bytes * value -> omap -> S * omap) (s : S) (m : omap) (it e : oiter) : res (S * omap) :=
    match fuel with
    | O => Fuel
    | Datatypes.S n =>
        do d <- o_differ m it e;
        if (d : bool) then
          do x <- o_deref m it;
          let p := body s x m in
          do it' <- o_next (snd p) it; o_each n body (fst p) (snd p) it' e
        else Ok (s, m)
    end.
End Loops.
(** for (auto it = obj.begin(); it != obj.end();) { auto cur = it++; if (p( *cur)) obj.erase(cur); } *)
Fixpoint o_sweep (fuel : nat) (p : bytes * value -> bool) (m : omap) (it : oiter) : res omap :=
  match fuel with
  | O => Fuel
  | S n =>
      do d <- o_differ m it (o_end m);
      if (d : bool) then
        do it' <- o_next m it;
        do x <- o_deref m it;
        if p x then do r <- o_erase_iter it m; o_sweep n p (fst r) it' else o_sweep n p m it'
      else Ok m
  end.
(** the same loop with an array *)
Fixpoint v_sweep (fuel : nat) (p : value -> bool) (v : vec) (it : viter) : res vec :=
  match fuel with
  | O => Fuel
  | S n =>
      do d <- v_differ v it (v_end v);
      if (d : bool) then
        do it' <- v_next v it;
        do x <- v_deref v it;
        if p x then do r <- v_erase_iter it v; v_sweep n p (fst r) it' else v_sweep n p v it'
      else Ok v
  end.
(** for (size_t i = 0; i < arr.size();) { if (p(arr[i])) arr.erase(i); else ++i; } *)
Fixpoint v_prune (fuel : nat) (p : value -> bool) (v : vec) (i : nat) : res vec :=
  match fuel with
  | O => Fuel
  | S n =>
      if Nat.ltb i (length (items v)) then
        do x <- arr_index (N.of_nat i) (items v);
        if p x then do r <- v_erase_at i v; v_prune n p (fst r) i else v_prune n p v (S i)
      else Ok v
  end.
(** for (size_t i = arr.size(); i-- > 0;) if (p(arr[i])) arr.erase(i); *)
Fixpoint v_prune_down (p : value -> bool) (v : vec) (i : nat) : res vec :=
  match i with
  | O => Ok v
  | S j =>
      do x <- arr_index (N.of_nat j) (items v);
      if p x then do r <- v_erase_at j v; v_prune_down p (fst r) j else v_prune_down p v j
  end.
(** for (size_t i = 0; i < arr.size(); ++i) if (p(arr[i])) arr.erase(i); *)
Fixpoint v_skim (fuel : nat) (p : value -> bool) (v : vec) (i : nat) : res vec :=
  match fuel with
  | O => Fuel
  | S n =>
      if Nat.ltb i (length (items v)) then
        do x <- arr_index (N.of_nat i) (items v);
        if p x then do r <- v_erase_at i v; v_skim n p (fst r) (S i) else v_skim n p v (S i)
      else Ok v
  end.
