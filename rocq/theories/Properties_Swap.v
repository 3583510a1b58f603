(** * Properties of std::swap and other reordering through moves *)
From Coq Require Import Permutation.
From Verif Require Import Base Value Spec Containers Dump Api SpecApi SpecEffects Heap SpecHeap SpecRefs Swap SpecSwap SwapProofs SamplesApi SamplesHeap SamplesSwap.

(** C81. Values none of which is part of another are passed round: each place gets the value of the next, the last the value
    of the first, and nothing else changes. *)
Theorem C81_rotate : forall st l ls x xs, ForallOrdPairs apart (l :: ls) -> Forall2 (found st) (l :: ls) (x :: xs) ->
  exists st', rotate l ls st = Done st' (Ok tt) /\ placed st (l :: ls) (xs ++ [x]) st'.
Proof. exact rotate_effect. Qed.
Print Assumptions C81_rotate.
Theorem C81_swap : forall st a b x y, apart a b -> found st a x -> found st b y ->
  exists st1 st', swap a b st = Done st' (Ok tt) /\ puts st a y st1 /\ puts st1 b x st'.
Proof. exact swap_effect. Qed.
Print Assumptions C81_swap.
Example C81_rotate_case : ForallOrdPairs apart [element three_at 2; at_root 0; element three_at 0] /\
  Forall2 (found three_store) [element three_at 2; at_root 0; element three_at 0] [v_string ka; v_null; v_number n12].
Proof. exact three_apart. Qed.
(** std::swap(v, v), although [v = std::move(v)] alone may lose a text (C56) *)
Theorem C81_swap_self : forall st l x, found st l x -> swap l l st = Done st (Ok tt).
Proof. exact swap_self. Qed.
Print Assumptions C81_swap_self.
Theorem C81_swap_back : forall st a b x y st', apart a b -> found st a x -> found st b y -> swap a b st = Done st' (Ok tt) -> swap a b st' = Done st (Ok tt).
Proof. exact swap_back. Qed.
Print Assumptions C81_swap_back.
(** Elements of one array *)
Theorem C81_array_rotate : forall st l t xs i is, found st l (VArr t (Some xs)) -> NoDup (i :: is) -> Forall (fun i => i < length xs)%nat (i :: is) ->
  exists st' ys, rotate (element l i) (map (element l) is) st = Done st' (Ok tt) /\ puts st l (VArr t (Some ys)) st' /\
    reindexed (i :: is) (is ++ [i]) xs ys /\ Permutation xs ys.
Proof. exact array_rotated. Qed.
Print Assumptions C81_array_rotate.
Theorem C81_array_swap : forall st l t xs i j, found st l (VArr t (Some xs)) -> (i < length xs)%nat -> (j < length xs)%nat ->
  exists st' ys, swap (element l i) (element l j) st = Done st' (Ok tt) /\ puts st l (VArr t (Some ys)) st' /\ exchanged i j xs ys.
Proof. exact array_swapped. Qed.
Print Assumptions C81_array_swap.
(** Whatever pairs of elements an algorithm swaps, the array has the same elements in another order, and every order can be had. *)
Theorem C81_array_swaps : forall l t ps st xs, found st l (VArr t (Some xs)) -> Forall (in_range (length xs)) ps ->
  exists st' ys, swaps l ps st = Done st' (Ok tt) /\ puts st l (VArr t (Some ys)) st' /\ exchanges ps xs ys /\ Permutation xs ys.
Proof. exact array_swaps. Qed.
Print Assumptions C81_array_swaps.
Theorem C81_array_order : forall st l t xs ys, found st l (VArr t (Some xs)) -> Permutation xs ys ->
  exists ps st', Forall (in_range (length xs)) ps /\ swaps l ps st = Done st' (Ok tt) /\ puts st l (VArr t (Some ys)) st'.
Proof. exact array_reaches. Qed.
Print Assumptions C81_array_order.
Theorem C81_array_reverse : forall st l t xs, found st l (VArr t (Some xs)) ->
  exists st', swaps l (reversal (length xs)) st = Done st' (Ok tt) /\ puts st l (VArr t (Some (rev xs))) st'.
Proof. exact array_reversed. Qed.
Print Assumptions C81_array_reverse.
Example C81_array_case : found three_store three_at (VArr Tarray (Some three)).
Proof. exact three_found. Qed.
(** On the heap, through references: the same happens, it throws nothing and allocates nothing (the list of the allocations that
    are going to fail is as before); nothing is shared or leaked. *)
Theorem C81_heap : forall hs st l ls p ps x xs, sim hs st -> ForallOrdPairs apart (l :: ls) -> Forall2 (found st) (l :: ls) (x :: xs) ->
  Forall2 (refers hs) (l :: ls) (p :: ps) ->
  exists hs' st', h_rotate p ps hs = HDone hs' (Ok tt) /\ rotate l ls st = Done st' (Ok tt) /\ sim hs' st' /\ fails hs' = fails hs.
Proof. exact heap_rotated. Qed.
Print Assumptions C81_heap.
Theorem C81_heap_self : forall hs st l p x, sim hs st -> found st l x -> refers hs l p ->
  exists hs', h_swap p p hs = HDone hs' (Ok tt) /\ sim hs' st /\ fails hs' = fails hs.
Proof. exact heap_swap_self. Qed.
Print Assumptions C81_heap_self.
(** References to the values themselves and to anything that is not part of them stay valid; those to parts go with the value. *)
Theorem C81_heap_elsewhere : forall hs st l ls p ps x xs hs' l0 p0, sim hs st -> ForallOrdPairs apart (l :: ls) -> Forall2 (found st) (l :: ls) (x :: xs) ->
  Forall2 (refers hs) (l :: ls) (p :: ps) -> h_rotate p ps hs = HDone hs' (Ok tt) -> ~ part_of (l :: ls) l0 -> refers hs l0 p0 -> refers hs' l0 p0.
Proof. exact rotation_keeps. Qed.
Print Assumptions C81_heap_elsewhere.
Theorem C81_heap_inside : forall hs st l ls p ps x xs hs' i a b q p0, sim hs st -> ForallOrdPairs apart (l :: ls) -> Forall2 (found st) (l :: ls) (x :: xs) ->
  Forall2 (refers hs) (l :: ls) (p :: ps) -> h_rotate p ps hs = HDone hs' (Ok tt) ->
  nth_error (l :: ls) i = Some a -> nth_error (ls ++ [l]) i = Some b -> q <> [] -> refers hs (under b q) p0 -> refers hs' (under a q) p0.
Proof. exact rotation_carries. Qed.
Print Assumptions C81_heap_inside.
Example C81_heap_case : ForallOrdPairs apart two_places /\ (exists xs, Forall2 (found two_store) two_places xs) /\
  forall fl, exists ps p, Forall2 (refers (two_heap_failing fl)) two_places ps /\ refers (two_heap_failing fl) (under (Loc 0 [Key ka]) [Key ka]) p /\ ~ part_of two_places (Loc 0 [Key kb]).
Proof. exact two_apart. Qed.
(** Not for a value and a part of it: std::swap(v, v[k]) makes an object that owns itself, which is never freed. *)
Theorem C81_part_refuted : exists hs st a b pa pb hs' hs'', sim hs st /\ Forall sound st /\ fails hs = [] /\ strictly_inside a b /\ refers hs a pa /\ refers hs b pb /\
  h_swap pa pb hs = HDone hs' (Ok tt) /\ drop_n (length (roots hs')) hs' = HDone hs'' (Ok tt) /\ roots hs'' = [] /\ exists a, live (hp hs'') a.
Proof. exact swap_with_part_leaks. Qed.
Print Assumptions C81_part_refuted.
