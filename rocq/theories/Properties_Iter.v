(** * Properties of the iterators of json::array and json::object *)
From Verif Require Import Base Value Spec Containers Iter SpecIter IterProofs SamplesIter.

(** C80. Going through an array visits its elements in order, backwards in reverse order, and through an object its
    members in the order of the keys; the array or object is as before. *)
Theorem C80_array_forward : forall (S : Type) (g : S -> value -> S) s v fuel, (length (items v) < fuel)%nat ->
  v_each fuel (fun s x v => Ok (g s x, v)) s v (v_begin v) (v_end v) = Ok (fold_left g (items v) s, v).
Proof. exact @each_reads. Qed.
Print Assumptions C80_array_forward.
Theorem C80_array_backward : forall (S : Type) (g : S -> value -> S) s v fuel, (length (items v) < fuel)%nat ->
  v_back fuel g s v (v_rbegin v) = Ok (fold_left g (rev (items v)) s).
Proof. exact @back_reads. Qed.
Print Assumptions C80_array_backward.
Theorem C80_object_forward : forall (S : Type) (g : S -> bytes * value -> S) s m fuel, sorted_keys (members m) ->
  (length (members m) < fuel)%nat ->
  o_each fuel (fun s x m => (g s x, m)) s m (o_begin m) (o_end m) = Ok (fold_left g (members m) s, m).
Proof. exact @object_reads. Qed.
Print Assumptions C80_object_forward.
Example C80_forward_case :
  v_each 3 (fun s x v => Ok (s ++ [x], v)) [] (Vec [v_null; v_bool true] []) (VIt 0 0) (VIt 2 0) =
    Ok ([v_null; v_bool true], Vec [v_null; v_bool true] []) /\
  v_back 3 (fun s x => s ++ [x]) [] (Vec [v_null; v_bool true] []) (VIt 2 0) = Ok [v_bool true; v_null] /\
  o_each 3 (fun s x m => (s ++ [fst x], m)) [] (OMap [(of_string "a", v_null); (of_string "b", v_null)] [])
    (Some (of_string "a", O)) None =
    Ok ([of_string "a"; of_string "b"], OMap [(of_string "a", v_null); (of_string "b", v_null)] []).
Proof. repeat split; vm_compute; reflexivity. Qed.

(** An iterator of an array can be used after calls exactly if none of them ends it: erase at or before its position,
    an append that moves the elements, or clear. It then names the element at its position. *)
Theorem C80_array_iterator : forall os v v' p, (p < length (items v))%nat -> v_run os v = Ok v' -> ~ v_ended os v p ->
  exists x, nth_error (items v') p = Some x /\ v_deref v' (v_at p v) = Ok x.
Proof. exact array_iterator_kept. Qed.
Print Assumptions C80_array_iterator.
(** and ++ leads to the next one, as the array is now *)
Theorem C80_array_next : forall os v v' p, (p < length (items v))%nat -> v_run os v = Ok v' -> ~ v_ended os v p ->
  exists it, v_next v' (v_at p v) = Ok it /\ v_differ v' it (v_end v') = Ok (negb (Nat.eqb (S p) (length (items v')))) /\
    forall x, nth_error (items v') (S p) = Some x -> v_deref v' it = Ok x.
Proof. exact array_next_kept. Qed.
Print Assumptions C80_array_next.
(** the same for end(), which every append ends *)
Theorem C80_array_iterator_ended : forall os v v' p, (p <= length (items v))%nat -> v_run os v = Ok v' -> v_ended os v p ->
  v_deref v' (v_at p v) = Ub /\ v_next v' (v_at p v) = Ub /\ (forall it, v_differ v' (v_at p v) it = Ub) /\
  v_erase_iter (v_at p v) v' = Ub.
Proof. exact array_iterator_ended. Qed.
Print Assumptions C80_array_iterator_ended.
Example C80_array_iterator_case : exists v',
  v_run [VErase 2; VPush false v_null; VSet 0 (v_bool true)] (Vec [v_null; v_null; v_null] []) = Ok v' /\
  ~ v_ended [VErase 2; VPush false v_null; VSet 0 (v_bool true)] (Vec [v_null; v_null; v_null] []) 1 /\
  v_ended [VErase 2; VPush false v_null; VSet 0 (v_bool true)] (Vec [v_null; v_null; v_null] []) 2.
Proof. exact iter_array_iterator_case. Qed.
(** An iterator of an object can be used after calls exactly if none of them erases its member, also if a member with the
    same key has come back. *)
Theorem C80_object_iterator : forall os m k x, sorted_keys (members m) -> map_find k (members m) = Some x ->
  (forall o, In o os -> ~ o_ends k o) ->
  exists y, map_find k (members (o_run os m)) = Some y /\ o_deref (o_run os m) (o_at k m) = Ok (k, y).
Proof. exact object_iterator_kept. Qed.
Print Assumptions C80_object_iterator.
(** and ++ leads to the member with the next key, as the object is now *)
Theorem C80_object_next : forall os m k x, sorted_keys (members m) -> map_find k (members m) = Some x ->
  (forall o, In o os -> ~ o_ends k o) ->
  exists it, o_next (o_run os m) (o_at k m) = Ok it /\
    ((exists k2 y, follows k k2 (members (o_run os m)) /\ map_find k2 (members (o_run os m)) = Some y /\
        o_deref (o_run os m) it = Ok (k2, y)) \/
     (forall k3, In k3 (map fst (members (o_run os m))) -> ~ blt k k3) /\
       o_differ (o_run os m) it (o_end (o_run os m)) = Ok false).
Proof. exact object_next_kept. Qed.
Print Assumptions C80_object_next.
Theorem C80_object_iterator_ended : forall os m k x o, sorted_keys (members m) -> map_find k (members m) = Some x ->
  In o os -> o_ends k o ->
  o_deref (o_run os m) (o_at k m) = Ub /\ o_next (o_run os m) (o_at k m) = Ub /\ o_erase_iter (o_at k m) (o_run os m) = Ub.
Proof. exact object_iterator_ended. Qed.
Print Assumptions C80_object_iterator_ended.
Example C80_object_iterator_case : let m := OMap [(of_string "a", v_null); (of_string "b", v_null)] [] in
  sorted_keys (members m) /\ (forall o, In o [OErase (of_string "a"); OEmplace (of_string "b") (v_bool true)] -> ~ o_ends (of_string "b") o) /\
  o_deref (o_run [OErase (of_string "a"); OEmplace (of_string "b") (v_bool true)] m) (o_at (of_string "b") m) = Ok (of_string "b", v_bool true) /\
  o_deref (o_run [OErase (of_string "b"); OEmplace (of_string "b") (v_bool true)] m) (o_at (of_string "b") m) = Ub.
Proof. exact iter_object_iterator_case. Qed.

(** end() names nothing and cannot be stepped over, begin() not be stepped before; erase(end()) does nothing *)
Theorem C80_end : forall v m, v_deref v (v_end v) = Ub /\ v_next v (v_end v) = Ub /\ v_prev v (v_begin v) = Ub /\
  v_rderef v (v_rend v) = Ub /\ v_erase_iter (v_end v) v = Ok (v, false) /\
  o_deref m (o_end m) = Ub /\ o_next m (o_end m) = Ub /\ o_erase_iter (o_end m) m = Ok (m, false).
Proof. exact ends_misused. Qed.
Print Assumptions C80_end.

(** Erasing while going through. An object: the loop that steps before it erases leaves the members that do not satisfy
    the condition. *)
Theorem C80_object_sweep : forall p m fuel, sorted_keys (members m) -> (length (members m) < fuel)%nat ->
  exists m', o_sweep fuel p m (o_begin m) = Ok m' /\ members m' = keep p (members m).
Proof. exact sweep_object. Qed.
Print Assumptions C80_object_sweep.
(** an array: the same loop is undefined as soon as something is erased *)
Theorem C80_array_sweep : forall p v fuel, (length (items v) < fuel)%nat ->
  v_sweep fuel p v (v_begin v) = if existsb p (items v) then Ub else Ok v.
Proof. exact sweep_array. Qed.
Print Assumptions C80_array_sweep.
(** by index it works, upwards and downwards *)
Theorem C80_array_index : forall p v fuel, (length (items v) < fuel)%nat ->
  exists v', v_prune fuel p v 0 = Ok v' /\ items v' = keep p (items v).
Proof. exact prune_keeps. Qed.
Print Assumptions C80_array_index.
Theorem C80_array_index_down : forall p v,
  exists v', v_prune_down p v (length (items v)) = Ok v' /\ items v' = keep p (items v).
Proof. exact down_keeps. Qed.
Print Assumptions C80_array_index_down.
(** a loop that steps after each erase too is right exactly if no two neighbours are to be erased *)
Theorem C80_array_skip : forall p v fuel, (length (items v) < fuel)%nat ->
  exists v', v_skim fuel p v 0 = Ok v' /\ (items v' = keep p (items v) <-> spaced p (items v)).
Proof. exact skim_keeps. Qed.
Print Assumptions C80_array_skip.
Example C80_erase_case : let p := is_null in let v := Vec [v_null; v_null; v_bool true] [] in
  (exists v', v_prune 4 p v 0 = Ok v' /\ items v' = [v_bool true]) /\ v_sweep 4 p v (v_begin v) = Ub /\ ~ spaced p (items v) /\
  (exists v', v_skim 4 p v 0 = Ok v' /\ items v' = [v_null; v_bool true]).
Proof. exact iter_erase_case. Qed.

(** Changing the container in the body of a range-for. Appending to an array that has elements is undefined, also if its
    elements are not moved. *)
Theorem C80_array_append : forall moved f v fuel, items v <> [] -> (1 < fuel)%nat ->
  v_each fuel (fun s x v => Ok (s, v_push moved (f x) v)) tt v (v_begin v) (v_end v) = Ub.
Proof. exact each_push. Qed.
Print Assumptions C80_array_append.
(** so is erasing the member at hand of an object *)
Theorem C80_object_erase : forall m fuel, sorted_keys (members m) -> members m <> [] -> (0 < fuel)%nat ->
  o_each fuel (fun s kv m => (s, fst (o_erase (fst kv) m))) tt m (o_begin m) (o_end m) = Ub.
Proof. exact each_erases. Qed.
Print Assumptions C80_object_erase.
(** inserting is defined, but with a key that extends the one at hand the loop never ends *)
Theorem C80_object_grow : forall c m fuel, sorted_keys (members m) -> members m <> [] ->
  o_each fuel (fun s kv m => (s, o_index (fst kv ++ [c]) m)) tt m (o_begin m) (o_end m) = Fuel.
Proof. exact insertion_loops. Qed.
Print Assumptions C80_object_grow.
Example C80_grow_case : sorted_keys [(of_string "a", v_null)] /\ [(of_string "a", v_null)] <> [].
Proof. exact iter_grow_case. Qed.

(** erase here is the erase of the other theorems (C24) where iterators are valid *)
Theorem C80_same_array : forall it v v' b, v_erase_iter it v = Ok (v', b) ->
  arr_erase_iter (N.of_nat (vpos it)) (items v) = (items v', b).
Proof. exact erase_same. Qed.
Print Assumptions C80_same_array.
Theorem C80_same_index : forall p v v' b, v_erase_at p v = Ok (v', b) -> arr_erase (N.of_nat p) (items v) = (items v', b).
Proof. exact erase_at_same. Qed.
Print Assumptions C80_same_index.
Theorem C80_same_object : forall it m m' b, o_erase_iter it m = Ok (m', b) ->
  obj_erase_iter (option_map fst it) (members m) = (members m', b).
Proof. exact o_erase_same. Qed.
Print Assumptions C80_same_object.
Example C80_same_case : exists v', v_erase_iter (VIt 0 0) (Vec [v_null] []) = Ok (v', true).
Proof. exact iter_same_case. Qed.
