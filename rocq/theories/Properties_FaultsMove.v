(** * Properties of conversions of rvalues when memory runs out: C77.
    Statements only; each is closed by a lemma of FaultsMoveTheorems.v or SamplesFaultsMove.v. [s] says which requests for memory fail,
    [left] and [half] what the user's move_from_json leaves when it returns and when it runs out of memory, [grows] whether adding an
    element to the sequence requests memory (std::list, std::deque) or not (std::vector). *)
From Verif Require Import Base Value Dump Containers Num Enum Conv Spec SpecApi SpecConv SpecHeap Left SpecLeft Faults SpecFaults FaultsMove SpecFaultsMove
  SamplesApi SamplesConv SamplesLeft FaultsMoveTheorems SamplesFaultsMove.

(** C77: (T)std::move(v) gives what it gives with unlimited memory and leaves what it leaves then; or memory ran out, and the source is
    as before, for the types whose conversion takes nothing before its last request. *)
Theorem C77_cast_partial : forall short E left half grows t v s w s' o, lawful sound t -> sound v ->
  try_cast_rv short E left half grows t v s = (w, (s', o)) ->
  (w = cast_left E left t v /\ o = Res (cast_rv E t v)) \/
  (~ enough s /\ out_of_memory o /\ (o = Ended -> as_asks short t = true) /\ (careful grows t -> unharmed v w)).
Proof. exact cast_fault. Qed.
Print Assumptions C77_cast_partial.
Theorem C77_enough : forall short E left half grows t v s w s' o, lawful sound t -> sound v -> enough s ->
  try_cast_rv short E left half grows t v s = (w, (s', o)) ->
  w = cast_left E left t v /\ o = Res (cast_rv E t v).
Proof. exact cast_enough. Qed.
Print Assumptions C77_enough.
Theorem C77_keeps_partial : forall short E left half grows t v s w s' d, lawful sound t -> sound v -> careful grows t ->
  cast_rv E t v = Ok d -> try_cast_rv short E left half grows t v s = (w, (s', Res (Throw BadAlloc))) -> unharmed v w.
Proof. exact cast_keeps. Qed.
Print Assumptions C77_keeps_partial.
Example C77_keeps_case : careful false (TVec TStr) /\ lawful sound (TVec TStr) /\
  let v := v_array [v_string (of_string "a text of twenty-one."); v_string (of_string "x")] in
  sound v /\ (exists d, cast_rv env_names (TVec TStr) v = Ok d) /\
  try_cast_rv 15 env_names left_nothing left_nothing false (TVec TStr) v [true] = (v, ([], Res (Throw BadAlloc))) /\
  try_cast_rv 15 env_names left_nothing left_nothing false (TVec TStr) v [false; true] = (v, ([], Res (Throw BadAlloc))) /\
  fst (try_cast_rv 15 env_names left_nothing left_nothing false (TVec TStr) v [false; false; true]) = v_array [].
Proof. exact strings_kept. Qed.
(** std::move(v).as<T>(): only a move_from_json of the user leaves anything but the source itself *)
Theorem C77_as : forall short E left half t v s w s' o, lawful sound t -> sound v -> try_as_rv short E left half t v s = (w, (s', o)) ->
  (w = as_left left t v /\ o = Res (as_rv E t v)) \/
  (~ enough s /\ out_of_memory o /\ (o = Ended -> as_asks short t = true) /\
   (w = v \/ exists x, t = TExt x /\ x_move_from x <> None /\ (w = half x v \/ w = left x v))).
Proof. exact as_rv_fault. Qed.
Print Assumptions C77_as.
(** Whatever the types of the elements: those up to some one are taken, the others are as before; an object keeps its keys. *)
Theorem C77_array : forall short E left half grows t l s l' s' o, from_elements t -> lawful sound t -> Forall sound l ->
  try_array_take short E left half grows t l s = (l', (s', o)) ->
  (l' = array_as_left E left t l /\ o = Res (cast_rv E t (v_array l))) \/
  (~ enough s /\ out_of_memory o /\ (o = Ended -> as_asks short t = true) /\ interrupted left half (element_types t (length l)) l l').
Proof. exact array_fault. Qed.
Print Assumptions C77_array.
Example C77_array_case : lawful sound (TVec (TExt keeper)) /\ sound v_three /\
  try_array_take 15 env_names left_keeper half_keeper false (TVec (TExt keeper)) [v_one; v_one; v_one] [false; false; true] =
    ([VArr Tarray None; v_null; v_one], ([], Res (Throw BadAlloc))).
Proof. exact keeper_interrupted. Qed.
Theorem C77_cast_array : forall short E left half grows t l s w s' o, from_elements t -> lawful sound t -> sound (v_array l) ->
  try_cast_rv short E left half grows t (v_array l) s = (w, (s', o)) ->
  (w = cast_left E left t (v_array l) /\ o = Res (cast_rv E t (v_array l))) \/
  (~ enough s /\ out_of_memory o /\ exists l', w = v_array l' /\ interrupted left half (element_types t (length l)) l l').
Proof. exact cast_array_fault. Qed.
Print Assumptions C77_cast_array.
Theorem C77_cast_object : forall short E left half grows t t' m s w s' o, member_type t = Some t' -> lawful sound t -> sound (v_object m) ->
  try_cast_rv short E left half grows t (v_object m) s = (w, (s', o)) ->
  (w = cast_left E left t (v_object m) /\ o = Res (cast_rv E t (v_object m))) \/
  (~ enough s /\ out_of_memory o /\
   exists m', w = v_object m' /\ map fst m' = map fst m /\ interrupted left half (repeat t' (length m)) (map snd m) (map snd m')).
Proof. exact cast_object_fault. Qed.
Print Assumptions C77_cast_object.
(** elements of type json::value: a number of them, from the first one on, is moved from *)
Theorem C77_values : forall short E left half grows t l s w s' o, from_elements t -> Forall (eq TValue) (element_types t (length l)) ->
  lawful sound t -> sound (v_array l) ->
  try_cast_rv short E left half grows t (v_array l) s = (w, (s', o)) -> out_of_memory o ->
  exists n, (n <= length l)%nat /\ w = v_array (map moved (firstn n l) ++ skipn n l).
Proof. exact values_fault. Qed.
Print Assumptions C77_values.

(** Refuted without the restriction: std::list<json::value> loses elements, and reading the source is then undefined, ... *)
Theorem C77_list_refuted : exists t v s w, lawful sound t /\ sound v /\ (exists d, cast_rv env_names t v = Ok d) /\
  try_cast_rv 15 env_names left_nothing left_nothing true t v s = (w, ([], Res (Throw BadAlloc))) /\ dumps None w = Ub /\
  try_cast_rv 15 env_names left_nothing left_nothing false t v [true] = (v, ([], Res (Throw BadAlloc))).
Proof. exact (ex_intro _ _ (ex_intro _ _ (ex_intro _ _ (ex_intro _ _ list_loses)))). Qed.
Print Assumptions C77_list_refuted.
(** ... so do json::array and json::object, ... *)
Theorem C77_array_refuted : exists v s l, sound v /\ cast_rv env_names TArr v = Ok (DArr l) /\
  try_cast_rv 15 env_names left_nothing left_nothing false TArr v s = (v_array [VArr Tarray None; VStr Tstring []], ([], Res (Throw BadAlloc))).
Proof. exact (ex_intro _ _ (ex_intro _ _ (ex_intro _ _ array_loses))). Qed.
Print Assumptions C77_array_refuted.
Theorem C77_object_refuted : exists v s, sound v /\ (exists d, cast_rv env_names TObj v = Ok d) /\
  try_cast_rv 15 env_names left_nothing left_nothing false TObj v s = (v_object [(of_string "k", VArr Tarray None)], ([], Res (Throw BadAlloc))).
Proof. exact (ex_intro _ _ (ex_intro _ _ object_loses)). Qed.
Print Assumptions C77_object_refuted.
(** ... a pointer to a std::vector<int> loses the whole array, ... *)
Theorem C77_pointer_refuted : exists t v s, lawful sound (TPtr t) /\ sound v /\ cast_rv env_names (TPtr t) v = Ok (DOpt (Some (DSeq [DInt 1]))) /\
  try_cast_rv 15 env_names left_nothing left_nothing false (TPtr t) v s = (v_array [], ([], Res (Throw BadAlloc))) /\
  careful false t /\ ~ careful false (TPtr t).
Proof. exact (ex_intro _ _ (ex_intro _ _ (ex_intro _ _ pointer_loses))). Qed.
Print Assumptions C77_pointer_refuted.
(** ... and an empty value is left with a type that does not match what it holds *)
Theorem C77_tag_refuted : exists v s w, sound v /\ cast_rv env_names (TVec t_int) v = Ok (DSeq []) /\
  try_cast_rv 15 env_names left_nothing left_nothing false (TVec t_int) v s = (w, ([], Res (Throw BadAlloc))) /\ ~ tag_ok w /\
  dumps None w = Throw BadVariant.
Proof. exact (ex_intro _ _ (ex_intro _ _ (ex_intro _ _ tag_wrong))). Qed.
Print Assumptions C77_tag_refuted.
