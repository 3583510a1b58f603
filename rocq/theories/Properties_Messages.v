(** * Properties of the texts of exceptions, and of json::array and json::object as the source of a conversion: C78, C79.
    Statements only; each is closed by a lemma of MessagesProofs.v, MessagesTheorems.v, MovedMessagesProofs.v or SamplesMessages.v. *)
From Verif Require Import Base Value Dump Spec Containers Num Enum Conv Api SpecApi SpecConv Heap SpecHeap Info SpecInfo Messages SpecMessages
  BaseProofs ConvProofs InfoProofs MessagesProofs MessagesTheorems MovedMessagesProofs SamplesApi SamplesConv SamplesMessages.

(** C78. The functions with the texts are the functions of C32-C36 *)
Theorem C78_same : forall cc E names t v, plainly (as_said cc E names t v) = as_ E t v.
Proof. exact as_said_plainly. Qed.
Print Assumptions C78_same.
(** every exception that no function of the user throws has a text *)
Theorem C78_always : forall cc E names t v, ours t -> as_ E t v = Throw JsonException -> exists m, as_said cc E names t v = Says m.
Proof. exact always_worded. Qed.
Print Assumptions C78_always.
(** The text names a type and describes a value such that the value is a part of the source, its conversion to the type
    is part of the conversion, and the value is not of the kind, or the text not of the form, that the text says it is not. *)
Theorem C78_says_partial : forall cc E names t v m, sound v -> as_said cc E names t v = Says m ->
  exists t' w p, reaches t v t' w /\ at_path p v w /\ complains E names t' w m.
Proof. exact message_explained. Qed.
Print Assumptions C78_says_partial.
Theorem C78_length_partial : forall cc E names t v m, integer_names names -> sound v -> sizes_fit t v -> as_said cc E names t v = Says m ->
  (length m <= 250)%nat \/ exists p k s, at_path p v (VStr k s) /\ (k = Tnumber \/ k = Tboolean) /\ quotes s m.
Proof. exact message_length. Qed.
Print Assumptions C78_length_partial.
Theorem C78_shown_partial : forall cc E names t v m, integer_names names -> wf v -> as_said cc E names t v = Says m ->
  what m = m /\ Forall (fun c => 32 <= c) m.
Proof. exact message_shown. Qed.
Print Assumptions C78_shown_partial.
Example C78_case : integer_names usual_names /\ wf nested /\ sound nested /\ ours (TVec (TVec t_int)) /\ sizes_fit (TVec (TVec t_int)) nested /\
  as_ env_names (TVec (TVec t_int)) nested = Throw JsonException /\
  as_said GCC env_names usual_names (TVec (TVec t_int)) nested =
    Says (of_string "Type error: cannot convert to integer, expected=number, type=boolean, value=true").
Proof.
  split; [exact usual_names_ok|]. split; [exact nested_wf|]. split; [exact (wf_sound _ nested_wf)|]. split; [repeat constructor|].
  split; [exact nested_sizes|]. split; [vm_compute; reflexivity|exact nested_says].
Qed.
(** the text of a number is repeated whole *)
Theorem C78_length_refuted : forall n, exists cc E names v m, integer_names names /\ wf v /\ as_said cc E names (TInt true 32) v = Says m /\ (n < length m)%nat.
Proof. exact long_message. Qed.
Print Assumptions C78_length_refuted.
(** which element, which field, which number: the text does not say *)
Theorem C78_place_refuted : exists cc E names t l l' m d x y, names = usual_names /\ Forall wf l /\ Forall wf l' /\
  as_said cc E names (TVec t) (v_array l) = Says m /\ as_said cc E names (TVec t) (v_array l') = Says m /\
  nth_error l 0 = Some x /\ as_ E t x = Ok d /\ nth_error l' 0 = Some y /\ as_ E t y = Throw JsonException.
Proof. exact place_lost. Qed.
Print Assumptions C78_place_refuted.
Theorem C78_field_refuted : exists cc E names fs v v' m k k', names = usual_names /\ wf v /\ wf v' /\
  as_said cc E names (TRec fs) v = Says m /\ as_said cc E names (TRec fs) v' = Says m /\
  check_json E fs v = Ok (Some k) /\ check_json E fs v' = Ok (Some k') /\ k <> k'.
Proof. exact field_lost. Qed.
Print Assumptions C78_field_refuted.
Theorem C78_number_refuted : exists cc E e z z' m, z <> z' /\ enum_value_said cc E e z = Says m /\ enum_value_said cc E e z' = Says m.
Proof. exact number_lost. Qed.
Print Assumptions C78_number_refuted.
(** what() ends at a zero byte *)
Theorem C78_shown_refuted : exists cc E names v m, sound v /\ as_said cc E names (TInt true 32) v = Says m /\ what m <> m.
Proof. exact zero_cut. Qed.
Print Assumptions C78_shown_refuted.
(** std::move(v).as<T>() when move_from_json returns false: the text is about what is left of the value; *)
Theorem C78_moved_partial : forall cc E names left x f v d m, x_move_from x = Some f -> f v (x_default x) = (d, Ok false) -> sound (left x v) ->
  as_rv_said cc E names left (TExt x) v = Says m ->
  exists i, describes (left x v) i /\ m = of_string "Deserialization failed: move_from_json() returned false, " ++ i.
Proof. exact moved_text. Qed.
Print Assumptions C78_moved_partial.
(** if that is an array whose pointer has been taken, making the text is undefined *)
Theorem C78_moved_refuted : exists cc E names left x v, sound v /\ left x v = moved v /\ as_rv_said cc E names left (TExt x) v = Done Ub.
Proof. exact moved_undefined. Qed.
Print Assumptions C78_moved_refuted.
Example C78_moved_case : exists f, x_move_from never = Some f /\ f (v_bool true) (x_default never) = (DUnit, Ok false) /\ sound (v_bool true) /\
  as_rv_said GCC env_names usual_names (fun _ v => v) (TExt never) (v_bool true) =
    Says (of_string "Deserialization failed: move_from_json() returned false, type=boolean, value=true").
Proof. eexists. split; [reflexivity|]. split; [reflexivity|]. split; [exact (wf_sound _ true_wf)|vm_compute; reflexivity]. Qed.

(** std::move(v).as<T>() and (T)std::move(v) are the functions of C35, and their texts say as much; the move_from_json
    of the user leaves values that can be described *)
Theorem C78_moved_same : forall cc E names left t v, leaves_sound left -> sound v ->
  plainly (as_rv_said cc E names left t v) = as_rv E t v /\ plainly (cast_rv_said cc E names left t v) = cast_rv E t v.
Proof. exact moved_same. Qed.
Print Assumptions C78_moved_same.
Theorem C78_moved_says_partial : forall cc E names left t v m, leaves_sound left -> sound v ->
  as_rv_said cc E names left t v = Says m \/ cast_rv_said cc E names left t v = Says m ->
  exists t' w p, reaches t v t' w /\ at_path p v w /\ complains_rv E names left t' w m.
Proof. exact moved_says. Qed.
Print Assumptions C78_moved_says_partial.
Example C78_moved_says_case : leaves_sound (fun _ v => v) /\ sound nested /\ sound v_null /\
  cast_rv_said GCC env_names usual_names (fun _ v => v) (TVec (TVec t_int)) nested =
    Says (of_string "Type error: cannot convert to integer, expected=number, type=boolean, value=true") /\
  cast_rv_said GCC env_names usual_names (fun _ v => v) (TFix 2 t_int) v_null = Says (of_string "Array size mismatch: expected=2, actual=0") /\
  as_said GCC env_names usual_names (TFix 2 t_int) v_null =
    Says (of_string "Type error: cannot convert to array, expected=array, type=null").
Proof.
  split; [intros x v Hv; exact Hv|]. split; [exact (wf_sound _ nested_wf)|]. split; [exact (wf_sound _ wf_null)|].
  split; [vm_compute; reflexivity|]. split; vm_compute; reflexivity.
Qed.
(** what() *)
Theorem C78_what : what [] = of_string "Unknown exception" /\ (forall m, m <> [] -> Forall (fun c => c <> 0) m -> what m = m) /\
  (forall a b, Forall (fun c => c <> 0) a -> what (a ++ 0 :: b) = a).
Proof. exact what_text. Qed.
Print Assumptions C78_what.
(** value(e) for a number that no name belongs to, and values whose tag is no type of JSON *)
Theorem C78_enum : forall cc E e z,
  plainly (enum_value_said cc E e z) = v_enum (enum_as_number E) e z /\
  forall m, enum_value_said cc E e z = Says m ->
    enum_to_string e z = Ok [] /\ exists i, describes (v_string []) i /\ m = of_string "Cannot convert to enum: unknown enum value, " ++ i.
Proof. exact (fun cc E e z => conj (enum_value_same cc E e z) (enum_value_text cc E e z)). Qed.
Print Assumptions C78_enum.
Theorem C78_unknown : forall cc A v, sound v -> exists i, describes v i /\ @unknown_type cc A v = Says (of_string "Internal error: unknown value type, " ++ i).
Proof. exact unknown_text. Qed.
Print Assumptions C78_unknown.
Example C78_what_case : Forall (fun c => c <> 0) (of_string "a") /\ what (of_string "a" ++ 0 :: of_string "b") = of_string "a" /\ sound (VStr Tinvalid []) /\
  @unknown_type GCC bytes (VStr Tinvalid []) = Says (of_string "Internal error: unknown value type, type=invalid").
Proof.
  split; [repeat constructor; discriminate|]. split; [reflexivity|]. split; [|vm_compute; reflexivity].
  apply HeapSafety.sound_okv. constructor. split; discriminate.
Qed.

(** C79. (T)arr and (T)obj do as (T)v for the value with the container *)
Theorem C79_array_partial : forall cc E names t l, from_array t \/ (exists fs, t = TRec fs) \/ (exists x, t = TExt x) \/ t = TValue -> sound (v_array l) ->
  plainly (array_cast cc E names t l) = as_ E t (v_array l).
Proof. exact array_cast_same. Qed.
Print Assumptions C79_array_partial.
Theorem C79_object : forall cc E names t m, from_object t \/ (exists fs, t = TRec fs) \/ (exists x, t = TExt x) \/ t = TValue -> sound (v_object m) ->
  plainly (object_cast cc E names t m) = as_ E t (v_object m).
Proof. exact object_cast_same. Qed.
Print Assumptions C79_object.
Example C79_case : from_array (TVec (TExt never)) /\ sound (v_array five_true) /\ from_object (TMap t_int) /\ sound (v_object []) /\
  plainly (array_cast GCC env_names usual_names (TTup [t_int; TBool]) five_true) = Ok (DSeq [DInt 5; DBool true]).
Proof.
  split; [exact Logic.I|]. split; [exact five_true_sound|]. split; [exact Logic.I|].
  split; [apply wf_sound; apply wf_obj; constructor|vm_compute; reflexivity].
Qed.
(** but for a tuple of one element *)
Theorem C79_one_tuple_refuted : exists cc E names t l d, sound (v_array l) /\
  plainly (array_cast cc E names (TTup [t]) l) = Ok d /\ as_ E (TTup [t]) (v_array l) = Throw JsonException.
Proof. exact one_tuple. Qed.
Print Assumptions C79_one_tuple_refuted.
(** it takes the element of the array, and throws if there is not exactly one; so the two do the same exactly if the element converts like the array, or
    there is not one and the array does not convert *)
Theorem C79_one_tuple_takes : forall cc E names t l,
  plainly (array_cast cc E names (TTup [t]) l) = match l with [x] => do d <- as_ E t x; Ok (DSeq [d]) | _ => Throw JsonException end.
Proof. exact one_taken. Qed.
Print Assumptions C79_one_tuple_takes.
Theorem C79_one_tuple_exactly : forall cc E names t l, plainly (array_cast cc E names (TTup [t]) l) = as_ E (TTup [t]) (v_array l) <->
  (exists x, l = [x] /\ as_ E t x = as_ E t (v_array l)) \/ (length l <> 1%nat /\ as_ E t (v_array l) = Throw JsonException).
Proof. exact one_tuple_same. Qed.
Print Assumptions C79_one_tuple_exactly.
Example C79_one_tuple_case : plainly (array_cast GCC env_names usual_names (TTup [t_int]) five_true) = Throw JsonException /\ as_ env_names t_int (v_array five_true) = Throw JsonException /\
  as_ env_names TBool (v_string []) = Throw JsonException /\ as_ env_names TBool (v_array [v_string []]) = Throw JsonException.
Proof. repeat split; vm_compute; reflexivity. Qed.
(** the text when from_json of the user returns false *)
Theorem C79_array_text : forall cc E names x l d, sound (v_array l) -> x_from x (v_array l) (x_default x) = (d, Ok false) ->
  exists s, writes_number (length l) s /\
    array_cast cc E names (TExt x) l = Says (of_string "Deserialization failed: from_json() returned false for array, size=" ++ s).
Proof. exact array_user_text. Qed.
Print Assumptions C79_array_text.
Theorem C79_object_text : forall cc E names x m d, sound (v_object m) -> x_from x (v_object m) (x_default x) = (d, Ok false) ->
  exists s, writes_number (length m) s /\
    object_cast cc E names (TExt x) m = Says (of_string "Deserialization failed: from_json() returned false for object, size=" ++ s).
Proof. exact object_user_text. Qed.
Print Assumptions C79_object_text.
(** an rvalue, and a class with move_from_json: the container is moved away before the call, whatever its outcome *)
Theorem C79_moved : forall cc E names x f, x_move_from x = Some f ->
  (forall l, fst (array_move_user cc E names x l) = [] /\ plainly (snd (array_move_user cc E names x l)) = plainly (given (f (v_array l) (x_default x)) [])) /\
  (forall m, fst (object_move_user cc E names x m) = [] /\ plainly (snd (object_move_user cc E names x m)) = plainly (given (f (v_object m) (x_default x)) [])).
Proof. exact container_moved. Qed.
Print Assumptions C79_moved.
Example C79_text_case : x_from never (v_array five_true) (x_default never) = (DUnit, Ok false) /\ exists f, x_move_from never = Some f.
Proof. split; [reflexivity|eexists; reflexivity]. Qed.
(** so that the text has always the size 0 *)
Theorem C79_size_refuted : exists cc E names x l m, sound (v_array l) /\ length l = 2%nat /\
  array_move_user cc E names x l = ([], Says m) /\ m = of_string "Deserialization failed: move_from_json() returned false for array, size=0".
Proof. exact size_lost. Qed.
Print Assumptions C79_size_refuted.
(** a class without move_from_json: the container stays; with it, the text is this *)
Theorem C79_kept : forall cc E names x, x_move_from x = None ->
  (forall l, array_move_user cc E names x l = (l, array_cast cc E names (TExt x) l)) /\
  (forall m, object_move_user cc E names x m = (m, object_cast cc E names (TExt x) m)).
Proof. exact container_kept. Qed.
Print Assumptions C79_kept.
Theorem C79_moved_text : forall cc E names x f, x_move_from x = Some f ->
  (forall l m, snd (array_move_user cc E names x l) = Says m -> m = of_string "Deserialization failed: move_from_json() returned false for array, size=0") /\
  (forall l m, snd (object_move_user cc E names x l) = Says m -> m = of_string "Deserialization failed: move_from_json() returned false for object, size=0").
Proof. exact container_moved_text. Qed.
Print Assumptions C79_moved_text.
Example C79_moved_text_case : snd (object_move_user GCC env_names usual_names never []) =
  Says (of_string "Deserialization failed: move_from_json() returned false for object, size=0").
Proof. vm_compute; reflexivity. Qed.
