(** * Properties of the mutating calls and of statements: C55, C56, C26.
    Statements only; each is closed by a lemma of EffectProofs.v, StatementProofs.v or PartProofs.v. *)
From Verif Require Import Base Value Spec Containers Api SpecApi SpecEffects SpecHeap EffectProofs StatementProofs PartProofs SamplesApi SamplesEffects.

(** C55 *)
Theorem C55_array_calls : forall v l, elements_of v = Some l ->
  as_array_m v = (VArr Tarray (Some l), Ok l) /\
  (forall x, v_emplace x v = (VArr Tarray (Some (l ++ [x])), Ok tt)) /\
  (forall p, v_erase_pos p v = (VArr Tarray (Some (firstn (N.to_nat p) l ++ skipn (N.to_nat p + 1) l)), Ok (p <? N.of_nat (length l)))) /\
  (forall p x, nth_error l (N.to_nat p) = Some x -> v_index_pos p v = (VArr Tarray (Some l), Ok x)) /\
  (forall p, nth_error l (N.to_nat p) = None -> snd (v_index_pos p v) = Ub) /\
  (forall a, Forall owned a -> v_plus_assign_c a v = (VArr Tarray (Some (l ++ a)), Ok tt)) /\
  (forall a, v_plus_assign_m a v = (VArr Tarray (Some (l ++ a)), Ok tt)) /\
  (forall a, Forall owned a -> v_plus_mc v a = Ok (VArr Tarray (Some (l ++ a)))) /\
  (forall a, v_plus_mm v a = Ok (VArr Tarray (Some (l ++ a)))).
Proof. exact array_calls. Qed.
Print Assumptions C55_array_calls.
Theorem C55_array_calls_throw : forall v, tag_ok v -> owned v -> elements_of v = None ->
  as_array_m v = (v, Throw JsonException) /\
  (forall x, v_emplace x v = (v, Throw JsonException)) /\
  (forall p, v_erase_pos p v = (v, Throw JsonException)) /\
  (forall p, v_index_pos p v = (v, Throw JsonException)) /\
  (forall a, v_plus_assign_c a v = (v, Throw JsonException)) /\
  (forall a, v_plus_assign_m a v = (v, Throw JsonException)) /\
  (forall a, v_plus_mc v a = Throw JsonException) /\
  (forall a, v_plus_mm v a = Throw JsonException).
Proof. exact array_calls_throw. Qed.
Print Assumptions C55_array_calls_throw.
Theorem C55_object_calls : forall v m, members_of v = Some m -> sorted_keys m ->
  as_object_m v = (VObj Tobject (Some m), Ok m) /\
  (forall k x, exists m', v_emplace_kv k x v = (VObj Tobject (Some m'), Ok (negb (has (pairs m) k))) /\ represents m' (f_set k (Some x) (pairs m))) /\
  (forall k, exists m', v_erase_key k v = (VObj Tobject (Some m'), Ok (has (pairs m) k)) /\ represents m' (f_set k None (pairs m))) /\
  (forall k, exists m' x, v_index_key k v = (VObj Tobject (Some m'), Ok x) /\
     represents m' (if has (pairs m) k then pairs m else f_set k (Some (VStr Tnull [])) (pairs m)) /\
     x = match pairs m k with Some y => y | None => VStr Tnull [] end) /\
  (forall a, good_object a -> exists m', v_or_assign_c a v = (VObj Tobject (Some m'), Ok tt) /\ v_or_mc v a = Ok (VObj Tobject (Some m')) /\
     represents m' (f_over (pairs m) (pairs a))) /\
  (forall a, sorted_keys a -> exists m', v_or_assign_m a v = (VObj Tobject (Some m'), Ok tt) /\ v_or_mm v a = Ok (VObj Tobject (Some m')) /\
     represents m' (f_over (pairs m) (pairs a))).
Proof. exact object_calls. Qed.
Print Assumptions C55_object_calls.
Theorem C55_object_calls_throw : forall v, tag_ok v -> owned v -> members_of v = None ->
  as_object_m v = (v, Throw JsonException) /\
  (forall k x, v_emplace_kv k x v = (v, Throw JsonException)) /\
  (forall k, v_erase_key k v = (v, Throw JsonException)) /\
  (forall k, v_index_key k v = (v, Throw JsonException)) /\
  (forall a, v_or_assign_c a v = (v, Throw JsonException)) /\
  (forall a, v_or_assign_m a v = (v, Throw JsonException)) /\
  (forall a, v_or_mc v a = Throw JsonException) /\
  (forall a, v_or_mm v a = Throw JsonException).
Proof. exact object_calls_throw. Qed.
Print Assumptions C55_object_calls_throw.
Theorem C55_const_operators : forall v, tag_ok v -> owned v ->
  (is_array v = false -> forall a, v_plus_cc v a = Throw JsonException /\ v_plus_cm v a = Throw JsonException) /\
  (is_object v = false -> forall m, v_or_cc v m = Throw JsonException /\ v_or_cm v m = Throw JsonException).
Proof. exact const_operators. Qed.
Print Assumptions C55_const_operators.
Theorem C55_clear : forall v, v_clear v = (VStr Tnull [], Ok tt) /\
  (forall l, elements_of v = Some l -> invoke MArrClear v = (VArr Tarray (Some []), Ok tt)) /\
  (forall m, members_of v = Some m -> invoke MObjClear v = (VObj Tobject (Some []), Ok tt)).
Proof. exact clear_calls. Qed.
Print Assumptions C55_clear.
Example C55_case : elements_of (v_string []) = Some [] /\ elements_of (v_array [v_null]) = Some [v_null] /\
  members_of v_null = Some [] /\ members_of (v_object [(ka, v_null)]) = Some [(ka, v_null)] /\ sorted_keys [(ka, v_null)] /\
  elements_of (v_object [(ka, v_null)]) = None /\ members_of (v_string ka) = None /\ is_array (v_string ka) = false /\
  Forall owned two /\ Forall tag_ok two.
Proof. repeat split; try apply two_owned. constructor. Qed.

(** C56: [puts st l x st] says that [l] names the value [x] *)
Theorem C56_reading : forall st l x, puts st l x st <-> read st l = Some x.
Proof. exact puts_read. Qed.
Print Assumptions C56_reading.
Theorem C56_expressions : forall e st x st', eval e st = Done st' (Ok x) <-> yields st e x st'.
Proof. exact expression_value. Qed.
Print Assumptions C56_expressions.
Theorem C56_new : forall st e x st1, yields st e x st1 -> exec (CNew e) st = Done (st1 ++ [x]) (Ok tt).
Proof. exact new_effect. Qed.
Print Assumptions C56_new.
Theorem C56_assign_copy : forall st dst src x, read st dst <> None -> read st src = Some x -> owned x -> ~ strictly_inside src dst ->
  exists st', exec (CAssign dst (CRef src)) st = Done st' (Ok tt) /\ puts st dst x st'.
Proof. exact assign_copied. Qed.
Print Assumptions C56_assign_copy.
Theorem C56_assign_move : forall st dst src x y st1, read st dst <> None -> read st src = Some x -> apart dst src -> emptied x y -> puts st src y st1 ->
  exists st', exec (CAssign dst (MRef src)) st = Done st' (Ok tt) /\ puts st1 dst x st'.
Proof. exact assign_moved. Qed.
Print Assumptions C56_assign_move.
Theorem C56_assign_move_part : forall st dst src d x, read st dst = Some d -> read st src = Some x -> strictly_inside dst src ->
  (match d, x with VStr _ _, VStr _ _ | VArr _ _, VArr _ _ | VObj _ _, VObj _ _ => True | _, _ => False end) ->
  exists st', exec (CAssign dst (MRef src)) st = Done st' (Ok tt) /\ puts st dst x st'.
Proof. exact assign_moved_part. Qed.
Print Assumptions C56_assign_move_part.
Theorem C56_assign_move_self : forall st l x, read st l = Some x ->
  exists st', exec (CAssign l (MRef l)) st = Done st' (Ok tt) /\ match x with VStr t _ => puts st l (VStr t []) st' | _ => st' = st end.
Proof. exact assign_moved_self. Qed.
Print Assumptions C56_assign_move_self.
Theorem C56_assign_temporary : forall st dst e x st1 st', yields st e x st1 -> puts st1 dst x st' -> exec (CAssign dst (Tmp e)) st = Done st' (Ok tt).
Proof. exact assign_temporary. Qed.
Print Assumptions C56_assign_temporary.
Theorem C56_emplace_temporary : forall st dst e x st1 d l, yields st e x st1 -> read st1 dst = Some d -> elements_of d = Some l ->
  exists st', exec (CEmplace dst (Tmp e)) st = Done st' (Ok tt) /\ puts st1 dst (VArr Tarray (Some (l ++ [x]))) st'.
Proof. exact emplaced_temporary. Qed.
Print Assumptions C56_emplace_temporary.
Theorem C56_emplace_copy : forall st dst src x d l, read st dst = Some d -> elements_of d = Some l -> read st src = Some x -> owned x ->
  d = VArr Tarray (Some l) \/ within src dst = false ->
  exists st', exec (CEmplace dst (CRef src)) st = Done st' (Ok tt) /\ puts st dst (VArr Tarray (Some (l ++ [x]))) st'.
Proof. exact emplaced_copy. Qed.
Print Assumptions C56_emplace_copy.
Theorem C56_emplace_move : forall st dst src x y st1 d1 l1, read st src = Some x -> emptied x y -> puts st src y st1 -> within src dst = false ->
  read st1 dst = Some d1 -> elements_of d1 = Some l1 ->
  exists st', exec (CEmplace dst (MRef src)) st = Done st' (Ok tt) /\ puts st1 dst (VArr Tarray (Some (l1 ++ [x]))) st'.
Proof. exact emplaced_moved. Qed.
Print Assumptions C56_emplace_move.
Theorem C56_member_temporary : forall st dst k e x st1 d m, yields st e x st1 -> read st1 dst = Some d -> members_of d = Some m -> sorted_keys m ->
  exists st' m', exec (CEmplaceKey dst k (Tmp e)) st = Done st' (Ok tt) /\ represents m' (f_set k (Some x) (pairs m)) /\ puts st1 dst (VObj Tobject (Some m')) st'.
Proof. exact member_temporary. Qed.
Print Assumptions C56_member_temporary.
Theorem C56_member_copy : forall st dst k src x d m, read st dst = Some d -> members_of d = Some m -> sorted_keys m -> read st src = Some x -> owned x ->
  within src dst = false \/ (d = VObj Tobject (Some m) /\ map_find k m = None) ->
  exists st' m', exec (CEmplaceKey dst k (CRef src)) st = Done st' (Ok tt) /\ represents m' (f_set k (Some x) (pairs m)) /\ puts st dst (VObj Tobject (Some m')) st'.
Proof. exact member_copy. Qed.
Print Assumptions C56_member_copy.
Theorem C56_member_move : forall st dst k src x y st1 d1 m1, read st src = Some x -> emptied x y -> puts st src y st1 ->
  within src dst = false -> within (sub dst (Key k)) src = false ->
  read st1 dst = Some d1 -> members_of d1 = Some m1 -> sorted_keys m1 ->
  exists st' m', exec (CEmplaceKey dst k (MRef src)) st = Done st' (Ok tt) /\ represents m' (f_set k (Some x) (pairs m1)) /\ puts st1 dst (VObj Tobject (Some m')) st'.
Proof. exact member_moved. Qed.
Print Assumptions C56_member_move.
Theorem C56_temporary_throws : forall st dst e x st1 d, yields st e x st1 -> read st1 dst = Some d -> tag_ok d -> owned d ->
  (elements_of d = None -> exec (CEmplace dst (Tmp e)) st = Done st1 (Throw JsonException)) /\
  (members_of d = None -> forall k, exec (CEmplaceKey dst k (Tmp e)) st = Done st1 (Throw JsonException)).
Proof. exact temporary_throws. Qed.
Print Assumptions C56_temporary_throws.
Theorem C56_reference_throws : forall st dst a d, (exists src, a = CRef src \/ a = MRef src) -> read st dst = Some d -> tag_ok d -> owned d ->
  (elements_of d = None -> exec (CEmplace dst a) st = Done st (Throw JsonException)) /\
  (members_of d = None -> forall k, exec (CEmplaceKey dst k a) st = Done st (Throw JsonException)).
Proof. exact reference_throws. Qed.
Print Assumptions C56_reference_throws.
Theorem C56_merge : forall dst src mv st d m s r, apart dst src -> read st dst = Some d -> members_of d = Some m -> sorted_keys m ->
  read st src = Some s -> members_of s = Some r -> sorted_keys r -> (mv = false -> Forall (fun kv => owned (snd kv)) r) ->
  exists st1 st' m' r', exec (COr dst src mv) st = Done st' (Ok tt) /\ puts st src (VObj Tobject (Some r')) st1 /\ puts st1 dst (VObj Tobject (Some m')) st' /\
    represents m' (f_over (pairs m) (pairs r)) /\
    if mv then Forall2 (fun a b => fst a = fst b /\ emptied (snd a) (snd b)) r r' else r' = r.
Proof. exact merge_effect. Qed.
Print Assumptions C56_merge.
Theorem C56_append : forall dst src mv st d l s r, apart dst src -> read st dst = Some d -> elements_of d = Some l ->
  read st src = Some s -> elements_of s = Some r -> (mv = false -> Forall owned r) ->
  exists st1 st' r', exec (CPlus dst src mv) st = Done st' (Ok tt) /\ puts st src (VArr Tarray (Some r')) st1 /\ puts st1 dst (VArr Tarray (Some (l ++ r))) st' /\
    if mv then Forall2 emptied r r' else r' = r.
Proof. exact append_effect. Qed.
Print Assumptions C56_append.
(** x = lhs | src and x = lhs + src; [mr]: src is an rvalue. The operands may overlap. *)
Theorem C56_or_new : forall lhs src mr st st1 m s r, read st src = Some s -> members_of s = Some r -> sorted_keys r -> puts st src (VObj Tobject (Some r)) st1 ->
  read st1 lhs = Some (VObj Tobject (Some m)) -> sorted_keys m -> Forall (fun kv => owned (snd kv)) m -> (mr = false -> Forall (fun kv => owned (snd kv)) r) ->
  exists st' m' r', exec (COrNew lhs src false mr) st = Done (st' ++ [VObj Tobject (Some m')]) (Ok tt) /\ puts st1 src (VObj Tobject (Some r')) st' /\
    represents m' (f_over (pairs m) (pairs r)) /\
    if mr then Forall2 (fun a b => fst a = fst b /\ emptied (snd a) (snd b)) r r' else r' = r.
Proof. exact or_new_copy. Qed.
Print Assumptions C56_or_new.
Theorem C56_plus_new : forall lhs src mr st st1 l s r, read st src = Some s -> elements_of s = Some r -> puts st src (VArr Tarray (Some r)) st1 ->
  read st1 lhs = Some (VArr Tarray (Some l)) -> Forall owned l -> (mr = false -> Forall owned r) ->
  exists st' r', exec (CPlusNew lhs src false mr) st = Done (st' ++ [VArr Tarray (Some (l ++ r))]) (Ok tt) /\ puts st1 src (VArr Tarray (Some r')) st' /\
    if mr then Forall2 emptied r r' else r' = r.
Proof. exact plus_new_copy. Qed.
Print Assumptions C56_plus_new.
(** x = std::move(lhs) | src and x = std::move(lhs) + src *)
Theorem C56_or_new_moved : forall lhs src mr st d m s r, apart lhs src -> read st lhs = Some d -> members_of d = Some m -> sorted_keys m ->
  read st src = Some s -> members_of s = Some r -> sorted_keys r -> (mr = false -> Forall (fun kv => owned (snd kv)) r) ->
  exists st1 st' m' r', exec (COrNew lhs src true mr) st = Done (st' ++ [VObj Tobject (Some m')]) (Ok tt) /\ puts st src (VObj Tobject (Some r')) st1 /\ puts st1 lhs (VObj Tobject (Some [])) st' /\
    represents m' (f_over (pairs m) (pairs r)) /\
    if mr then Forall2 (fun a b => fst a = fst b /\ emptied (snd a) (snd b)) r r' else r' = r.
Proof. exact or_new_move. Qed.
Print Assumptions C56_or_new_moved.
Theorem C56_plus_new_moved : forall lhs src mr st d l s r, apart lhs src -> read st lhs = Some d -> elements_of d = Some l ->
  read st src = Some s -> elements_of s = Some r -> (mr = false -> Forall owned r) ->
  exists st1 st' r', exec (CPlusNew lhs src true mr) st = Done (st' ++ [VArr Tarray (Some (l ++ r))]) (Ok tt) /\ puts st src (VArr Tarray (Some r')) st1 /\ puts st1 lhs (VArr Tarray (Some [])) st' /\
    if mr then Forall2 emptied r r' else r' = r.
Proof. exact plus_new_move. Qed.
Print Assumptions C56_plus_new_moved.
Theorem C56_or_new_throws : forall lhs src mr st st1 s r d, read st src = Some s -> members_of s = Some r -> puts st src (VObj Tobject (Some r)) st1 ->
  read st1 lhs = Some d -> owned d -> type_of d <> Tobject -> exec (COrNew lhs src false mr) st = Done st1 (Throw JsonException).
Proof. exact or_new_throws. Qed.
Print Assumptions C56_or_new_throws.
Theorem C56_plus_new_throws : forall lhs src mr st st1 s r d, read st src = Some s -> elements_of s = Some r -> puts st src (VArr Tarray (Some r)) st1 ->
  read st1 lhs = Some d -> owned d -> type_of d <> Tarray -> exec (CPlusNew lhs src false mr) st = Done st1 (Throw JsonException).
Proof. exact plus_new_throws. Qed.
Print Assumptions C56_plus_new_throws.
(** in the second and the last the right operand is part of the left, resp. the left of the right *)
Example C56_new_case : exec (CPlusNew (Loc 0 [Key kb]) (Loc 0 [Key kb]) false false) two = Done (two ++ [v_array [v_bool true; v_bool true]]) (Ok tt) /\
  exec (COrNew (Loc 0 []) (Loc 0 [Key ka]) false false) two =
    Done [v_object [(ka, v_object []); (kb, v_array [v_bool true])]; v_array []; v_string []; v_object [(ka, v_object []); (kb, v_array [v_bool true])]] (Ok tt) /\
  exec (COrNew (Loc 2 []) (Loc 0 []) true true) two =
    Done [v_object [(ka, v_null); (kb, VArr Tarray None)]; v_array []; v_object []; v_object [(ka, v_null); (kb, v_array [v_bool true])]] (Ok tt) /\
  exec (COrNew (Loc 0 [Key ka]) (Loc 0 []) true true) two =
    Done [v_object [(ka, VObj Tobject None); (kb, VArr Tarray None)]; v_array []; v_string []; v_object [(ka, v_object []); (kb, v_array [v_bool true])]] (Ok tt).
Proof. vm_compute. repeat split. Qed.
Theorem C56_invoke : forall st l m v, read st l = Some v ->
  exists st', exec (CInvoke l m) st = Done st' (snd (invoke m v)) /\ puts st l (fst (invoke m v)) st'.
Proof. exact invoke_effect. Qed.
Print Assumptions C56_invoke.
Theorem C56_queries : forall st c st' r, exec c st = Done st' r -> match c with CAsk _ _ | CEq _ _ => st' = st | _ => True end.
Proof. exact query_effect. Qed.
Print Assumptions C56_queries.
Example C56_case : yields two (EObj [(kb, ECopy (Loc 0 [Key kb])); (ka, EStr ka); (kb, ENull)])
    (VObj Tobject (Some [(ka, v_string ka); (kb, v_array [v_bool true])])) two /\
  (exists st', yields two (EMove (Loc 0 [Key kb])) (v_array [v_bool true]) st' /\ st' <> two) /\
  apart (Loc 1 []) (Loc 0 [Key kb]) /\ read two (Loc 0 [Key kb]) = Some (v_array [v_bool true]) /\ read two (Loc 1 []) = Some (v_array []) /\
  strictly_inside (Loc 0 []) (Loc 0 [Key kb]) /\ ~ strictly_inside (Loc 0 [Key kb]) (Loc 0 [Key ka]).
Proof.
  repeat split; try apply two_yields; try apply two_yields_move; try reflexivity.
  - exists (Key kb), []. reflexivity.
  - intros (_ & s & p & H). discriminate.
Qed.
Example C56_moving_case : exec (CEmplace (Loc 1 []) (MRef (Loc 0 [Key kb]))) two =
    Done [v_object [(ka, v_null); (kb, VArr Tarray None)]; v_array [v_array [v_bool true]]; v_string []] (Ok tt) /\
  exec (COr (Loc 2 []) (Loc 0 []) true) two =
    Done [v_object [(ka, v_null); (kb, VArr Tarray None)]; v_array []; v_object [(ka, v_null); (kb, v_array [v_bool true])]] (Ok tt).
Proof. vm_compute. split; reflexivity. Qed.

(** C26, operands that overlap. v[q] = v: the part gets a copy of v in which it has the tag of v
    already *)
Theorem C26_copy_into_part : forall st src q x d, q <> [] -> read st src = Some x -> get_at q x = Some d -> owned x ->
  exists x' st', exec (CAssign (Loc (slot src) (steps src ++ q)) (CRef src)) st = Done st' (Ok tt) /\
    swapped q (set_tag (type_of x) d) x x' /\ puts st (Loc (slot src) (steps src ++ q)) x' st'.
Proof. exact copy_into_part. Qed.
Print Assumptions C26_copy_into_part.
(** so the tags still match, and the part is a copy of v, exactly if it had the type of v *)
Theorem C26_copy_into_part_exactly : forall st src q x d st', q <> [] -> Forall tag_ok st -> read st src = Some x -> get_at q x = Some d -> owned x ->
  exec (CAssign (Loc (slot src) (steps src ++ q)) (CRef src)) st = Done st' (Ok tt) ->
  (Forall tag_ok st' <-> type_of d = type_of x) /\ (puts st (Loc (slot src) (steps src ++ q)) x st' <-> type_of d = type_of x).
Proof. exact copy_into_part_exactly. Qed.
Print Assumptions C26_copy_into_part_exactly.
(** v |= v[k0]...[p].as_object(): undefined exactly if that object has a member k0 *)
Theorem C26_merge_part_exactly : forall st dst k0 p m r, let src := Loc (slot dst) (steps dst ++ Key k0 :: p) in
  read st dst = Some (VObj Tobject (Some m)) -> sorted_keys m -> read st src = Some (VObj Tobject (Some r)) -> sorted_keys r -> Forall (fun kv => owned (snd kv)) r ->
  (In k0 (map fst r) -> exists st', exec (COr dst src false) st = Done st' Ub) /\
  (~ In k0 (map fst r) -> exists st' m', exec (COr dst src false) st = Done st' (Ok tt) /\ represents m' (f_over (pairs m) (pairs r)) /\ puts st dst (VObj Tobject (Some m')) st').
Proof. exact merge_part_exactly. Qed.
Print Assumptions C26_merge_part_exactly.
(** v += v.as_array() and, for a v that counts as empty, v |= v.as_object() *)
Theorem C26_append_self_undefined : forall st l d xs mv, read st l = Some d -> elements_of d = Some xs -> exists st', exec (CPlus l l mv) st = Done st' Ub.
Proof. exact append_self_undefined. Qed.
Print Assumptions C26_append_self_undefined.
Theorem C26_merge_empty_self_undefined : forall st l d mv, read st l = Some d -> members_of d = Some [] -> exists st', exec (COr l l mv) st = Done st' Ub.
Proof. exact merge_empty_self_undefined. Qed.
Print Assumptions C26_merge_empty_self_undefined.
(** the other cases are as for operands that do not overlap *)
Theorem C26_append_overlapping : forall st dst src l r, dst <> src -> read st dst = Some (VArr Tarray (Some l)) -> read st src = Some (VArr Tarray (Some r)) -> Forall owned r ->
  exists st', exec (CPlus dst src false) st = Done st' (Ok tt) /\ puts st dst (VArr Tarray (Some (l ++ r))) st'.
Proof. exact append_overlapping. Qed.
Print Assumptions C26_append_overlapping.
Theorem C26_merge_self : forall st l kv m, read st l = Some (VObj Tobject (Some (kv :: m))) -> sorted_keys (kv :: m) -> Forall (fun kv => owned (snd kv)) (kv :: m) ->
  exec (COr l l false) st = Done st (Ok tt).
Proof. exact merge_self. Qed.
Print Assumptions C26_merge_self.
Example C26_overlap_case : read two (Loc 0 []) = Some (v_object [(ka, v_null); (kb, v_array [v_bool true])]) /\
  get_at [Key kb] (v_object [(ka, v_null); (kb, v_array [v_bool true])]) = Some (v_array [v_bool true]) /\
  exec (CAssign (Loc 0 [Key kb]) (CRef (Loc 0 []))) two =
    Done [v_object [(ka, v_null); (kb, v_object [(ka, v_null); (kb, VArr Tobject (Some [v_bool true]))])]; v_array []; v_string []] (Ok tt) /\
  exec (COr (Loc 0 []) (Loc 0 [Key kb]) false) [v_object [(ka, v_null); (kb, v_object [(ka, v_bool true)])]] =
    Done [v_object [(ka, v_bool true); (kb, v_object [(ka, v_bool true)])]] (Ok tt) /\
  exec (COr (Loc 0 []) (Loc 0 [Key kb]) false) [v_object [(kb, v_object [(kb, v_bool true)])]] = Done [v_object [(kb, v_object [(kb, v_bool true)])]] Ub /\
  elements_of (v_array []) = Some [] /\ members_of (v_string []) = Some [].
Proof. vm_compute. repeat split; reflexivity. Qed.
