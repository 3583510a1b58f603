(** * Properties of reading functions when memory runs out: C74, C75.
    Statements only; each is closed by a lemma of FaultsTheorems.v or SamplesFaults.v. *)
From Verif Require Import Base Value Dump Containers Num Enum Conv Info Stream Spec SpecConv SpecHeap SpecInfo Faults SpecFaults
  SamplesConv FaultsTheorems SamplesFaults.

(** C74: text. [s] says which requests for memory fail; [limit] is the size a std::string can have. The text is
    the one there would be with unlimited memory, or there is none. *)
Theorem C74_dumps : forall limit n v t s, dumps n v = Ok t ->
  let r := snd (try_dumps limit n v s) in
  (r = Ok t /\ N.of_nat (length t) <= limit) \/ (r = Throw BadAlloc /\ ~ enough s) \/ (r = Throw LengthError /\ limit < N.of_nat (length t)).
Proof. exact dumps_value. Qed.
Print Assumptions C74_dumps.
Theorem C74_array : forall limit n l t s, array_dumps n l = Ok t ->
  let r := snd (try_array_dumps limit n l s) in
  (r = Ok t /\ N.of_nat (length t) <= limit) \/ (r = Throw BadAlloc /\ ~ enough s) \/ (r = Throw LengthError /\ limit < N.of_nat (length t)).
Proof. exact dumps_array. Qed.
Print Assumptions C74_array.
Theorem C74_object : forall limit n m t s, object_dumps n m = Ok t ->
  let r := snd (try_object_dumps limit n m s) in
  (r = Ok t /\ N.of_nat (length t) <= limit) \/ (r = Throw BadAlloc /\ ~ enough s) \/ (r = Throw LengthError /\ limit < N.of_nat (length t)).
Proof. exact dumps_object. Qed.
Print Assumptions C74_object.
Theorem C74_enough : forall limit n v t s, dumps n v = Ok t -> enough s ->
  (snd (try_dumps limit n v s) = Ok t <-> N.of_nat (length t) <= limit).
Proof. exact dumps_enough. Qed.
Print Assumptions C74_enough.
(** no text but that one, whatever the value *)
Theorem C74_no_other_text : forall limit n v s t, snd (try_dumps limit n v s) = Ok t -> dumps n v = Ok t.
Proof. exact dumps_never. Qed.
Print Assumptions C74_no_other_text.
(** operator<< writes all of the text into the stream or nothing *)
Theorem C74_stream : forall limit v o s, exists o' r, snd (try_insert limit v o s) = (o', r) /\
  ((r = Ok tt /\ insert_value v o = Ok o') \/ (r <> Ok tt /\ o' = o)).
Proof. exact insert_fault. Qed.
Print Assumptions C74_stream.
Example C74_case : dumps None (v_array [v_number n5; v_null]) = Ok (of_string "[5,null]") /\
  emit max_size (v_array [v_number n5; v_null]) (of_string "old") [false; false; false; true] = (of_string "old[5,", [], Throw BadAlloc) /\
  snd (try_dumps max_size None (v_array [v_number n5; v_null]) [false; false; false; true]) = Throw BadAlloc /\
  snd (try_dumps max_size None (v_array [v_number n5; v_null]) [false; false; false; false; false; false; true]) = Ok (of_string "[5,null]").
Proof. exact list_fails. Qed.
(** an indentation for which no string is long enough: neither json::exception nor bad_alloc *)
Theorem C74_too_long_refuted : exists n v t, dumps (Some n) v = Ok t /\ n < 2 ^ 64 /\ snd (try_dumps max_size (Some n) v []) = Throw LengthError.
Proof. exact too_long. Qed.
Print Assumptions C74_too_long_refuted.

(** value_info() is noexcept: it gives the type alone when memory runs out, and needs none for that in the
    libraries that keep twelve characters in the string itself *)
Theorem C74_value_info : forall limit short cc v i s, (12 <= short)%nat -> sound v -> value_info cc v = Ok i ->
  let o := snd (try_value_info limit short cc v s) in
  o = Res (Ok i) \/
  (o = Res (Ok (of_string "type=" ++ tag_name (type_of v))) /\ (~ enough s \/ exists t, dumps None v = Ok t /\ limit < N.of_nat (length t))).
Proof. exact info_fault. Qed.
Print Assumptions C74_value_info.
Example C74_value_info_case : sound window_json /\ value_info GCC window_json = Ok (of_string "type=object, size=2") /\
  snd (try_value_info max_size 15 GCC window_json [true]) = Res (Ok (of_string "type=object")) /\
  snd (try_value_info max_size 22 GCC window_json [true]) = Res (Ok (of_string "type=object, size=2")).
Proof. exact (conj window_sound info_brief). Qed.
(** in the others it ends the program *)
Theorem C74_value_info_ends_refuted : exists v s, sound v /\ snd (try_value_info max_size 0 GCC v s) = Ended.
Proof. exact info_ends. Qed.
Print Assumptions C74_value_info_ends_refuted.

(** C75: conversions. is<T>() is noexcept: its answer is right, or it ends the program. *)
Theorem C75_is_partial : forall short E t v s, lawful sound t -> sound v ->
  let o := snd (try_is short E t v s) in
  o = Res (is_ E t v) \/ (o = Ended /\ ~ enough s /\ is_requests short t = true).
Proof. exact is_fault. Qed.
Print Assumptions C75_is_partial.
(** for types without long keys and without functions of the user it always answers *)
Theorem C75_is_quiet : forall short E t v s, lawful sound t -> sound v -> is_requests short t = false ->
  snd (try_is short E t v s) = Res (is_ E t v).
Proof. exact quiet_is_fault. Qed.
Print Assumptions C75_is_quiet.
Example C75_is_quiet_case : lawful sound window /\ sound window_json /\ is_requests 22 window = false /\
  snd (try_is 22 env_names window window_json [true]) = Res (Ok true).
Proof. exact (conj window_lawful (conj window_sound window_quiet)). Qed.
(** a key of 17 characters, libstdc++ *)
Theorem C75_is_ends_refuted : exists t v s, lawful sound t /\ sound v /\ is_ env_names t v = Ok true /\ snd (try_is 15 env_names t v s) = Ended.
Proof. exact (ex_intro _ window (ex_intro _ window_json (ex_intro _ [true] window_ends))). Qed.
Print Assumptions C75_is_ends_refuted.
(** any struct with a member that owns memory from the start *)
Theorem C75_default_ends : forall short E fs v, existsb (holds_memory short) (map (fun ft => f_default (fst ft)) fs) = true ->
  exists s, snd (try_is short E (TRec fs) v s) = Ended.
Proof. exact default_ends. Qed.
Print Assumptions C75_default_ends.
Example C75_default_case : existsb (holds_memory 15) (map (fun ft => f_default (fst ft)) [(Field [] (of_string "o") (DObj [(of_string "k", v_null)]), TObj)]) = true /\
  existsb (holds_memory 15) (map (fun ft => f_default (fst ft)) [(Field [] (of_string "o") (DObj []), TObj)]) = false.
Proof. exact (conj eq_refl eq_refl). Qed.
(** any struct whose first key is too long, and any value at all *)
Theorem C75_long_key_ends : forall short E f t fs v, (short < length (json_key f))%nat ->
  exists s, snd (try_is short E (TRec ((f, t) :: fs)) v s) = Ended.
Proof. exact long_key_ends. Qed.
Print Assumptions C75_long_key_ends.
Example C75_long_key_case : (15 < length (json_key (Field [] (of_string "window_position_x") (DInt 0))))%nat.
Proof. exact (proj1 (PeanoNat.Nat.ltb_lt 15 17) eq_refl). Qed.

(** as<T>() const&, find<T>, get: the right result, or bad_alloc. *)
Theorem C75_as_partial : forall short E t v s, lawful sound t -> sound v ->
  let o := snd (try_as short E t v s) in
  same_or_bad_alloc (as_ E t v) s o \/ (o = Ended /\ ~ enough s /\ as_asks short t = true).
Proof. exact as_fault. Qed.
Print Assumptions C75_as_partial.
Theorem C75_find_pos_partial : forall short E t pos v s, lawful sound t -> sound v ->
  let o := snd (try_find_pos short E t pos v s) in
  same_or_bad_alloc (v_find_pos E t pos v) s o \/ (o = Ended /\ ~ enough s /\ is_requests short t || as_asks short t = true).
Proof. exact find_pos_fault. Qed.
Print Assumptions C75_find_pos_partial.
Theorem C75_find_key_partial : forall short E t k v s, lawful sound t -> sound v ->
  let o := snd (try_find_key short E t k v s) in
  same_or_bad_alloc (v_find_key E t k v) s o \/ (o = Ended /\ ~ enough s /\ is_requests short t || as_asks short t = true).
Proof. exact find_key_fault. Qed.
Print Assumptions C75_find_key_partial.
Theorem C75_get_partial : forall short E t d ks v s, lawful sound t -> sound v ->
  let o := snd (try_get short E t d ks v s) in
  same_or_bad_alloc (v_get E t d ks v) s o \/ (o = Ended /\ ~ enough s /\ is_requests short t || as_asks short t = true).
Proof. exact get_fault. Qed.
Print Assumptions C75_get_partial.
Example C75_get_case : v_get env_names TStr (DStr n5) [KStr (of_string "name")] window_json = Ok (DStr (of_string "a name of twenty-one")) /\
  snd (try_get 15 env_names TStr (DStr n5) [KStr (of_string "name")] window_json [true]) = Res (Throw BadAlloc) /\
  snd (try_find_key 15 env_names t_int (of_string "window_position_x") window_json [true]) = Res (Ok (Some (DInt 5))) /\
  snd (try_find_pos 15 env_names window 0 (v_array [window_json]) [true]) = Ended.
Proof. exact get_fails. Qed.
(** what is read without any request *)
Theorem C75_scalars : forall short E t v d s,
  match t with TBool | TInt _ _ | TFlt _ | TView | TNullptr | TMono | TEnum _ => True | _ => False end ->
  as_ E t v = Ok d -> snd (try_as short E t v s) = Res (Ok d).
Proof. exact scalars_fault. Qed.
Print Assumptions C75_scalars.
Example C75_scalars_case : as_ env_names t_int (v_number n5) = Ok (DInt 5).
Proof. exact eq_refl. Qed.
(** a member that is a struct with a long key *)
Theorem C75_as_ends_refuted : exists t v s, lawful sound t /\ sound v /\ (exists d, as_ env_names t v = Ok d) /\
  snd (try_as 15 env_names t v s) = Ended /\ as_asks 15 window = false /\ snd (try_as 15 env_names window window_json [true]) = Res (Throw BadAlloc).
Proof. exact (ex_intro _ desk (ex_intro _ desk_json (ex_intro _ [true] desk_ends))). Qed.
Print Assumptions C75_as_ends_refuted.

(** from_json into an object: when it fails the members up to some one have their new values, the others their old ones *)
Theorem C75_from_json : forall short E fs v cur s, lawful sound (TRec fs) -> sound v -> length cur = length fs ->
  forall l s' o, try_from_json short E fs v cur s = (l, (s', o)) ->
  (l = fst (from_json E fs v cur) /\ o = Res (snd (from_json E fs v cur))) \/
  ((o = Res (Throw BadAlloc) \/ (o = Ended /\ as_asks short (TRec fs) = true)) /\ ~ enough s /\
   exists n, l = assigned_up_to n cur (fst (from_json E fs v cur))).
Proof. exact load_fault. Qed.
Print Assumptions C75_from_json.
Example C75_from_json_case : lawful sound (TRec both_long) /\ sound both_json /\
  try_from_json 15 env_names both_long both_json [DStr n5; DStr n5] [false; true] =
  ([DStr (of_string "a name of twenty-one"); DStr n5], ([], Res (Throw BadAlloc))).
Proof. exact (conj both_lawful (conj both_sound half_loaded)). Qed.
