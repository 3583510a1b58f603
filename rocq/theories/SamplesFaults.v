(** * Concrete cases for allocations that fail *)
From Verif Require Import Base BaseProofs Value Dump Containers Num Enum Conv Info Stream Spec SpecConv SpecHeap SpecInfo Faults SpecFaults
  SamplesConv InfoProofs FaultsTheorems.

(** {"window_position_x": 5, "name": "a name of twenty-one"} *)
Definition window_json : value :=
  v_object [(of_string "name", v_string (of_string "a name of twenty-one")); (of_string "window_position_x", v_number n5)].
Ltac sorted := repeat first [apply sk_nil | apply sk_one | apply sk_cons; [apply bytes_ltb_blt; vm_compute; reflexivity|]].
Lemma window_wf : wf window_json.
Proof.
  constructor; [|sorted]. constructor; [apply wf_str|]. constructor; [exact wf_n5|constructor].
Qed.
Lemma window_sound : sound window_json.
Proof. exact (wf_sound _ window_wf). Qed.
(** struct Window { std::string name; int window_position_x; MEO_JSONIZATION(name, window_position_x) } *)
Definition window_fields : list (field * ty) :=
  [(Field [] (of_string "name") (DStr []), TStr); (Field [] (of_string "window_position_x") (DInt 0), t_int)].
Definition window : ty := TRec window_fields.
Lemma window_lawful : lawful sound window.
Proof. repeat constructor. Qed.
(** libstdc++: is<Window>() ends the program *)
Theorem window_ends : lawful sound window /\ sound window_json /\ is_ env_names window window_json = Ok true /\
  snd (try_is 15 env_names window window_json [true]) = Ended.
Proof. splits; [exact window_lawful|exact window_sound|vm_compute; reflexivity..]. Qed.
(** libc++: it requests nothing *)
Theorem window_quiet : is_requests 22 window = false /\ snd (try_is 22 env_names window window_json [true]) = Res (Ok true).
Proof. split; vm_compute; reflexivity. Qed.
(** as<Window>() throws bad_alloc whenever a request of its own fails; as<std::vector<Window>>() likewise; a struct that has a Window ends the program *)
Definition desk : ty := TRec [(Field [] (of_string "w") (DRec [DStr []; DInt 0]), window)].
Definition desk_json : value := v_object [(of_string "w", window_json)].
Lemma desk_lawful : lawful sound desk.
Proof. repeat constructor. Qed.
Lemma desk_sound : sound desk_json.
Proof.
  apply wf_sound. constructor; [|sorted]. constructor; [exact window_wf|constructor].
Qed.
Theorem desk_ends : lawful sound desk /\ sound desk_json /\
  (exists d, as_ env_names desk desk_json = Ok d) /\ snd (try_as 15 env_names desk desk_json [true]) = Ended /\
  as_asks 15 window = false /\ snd (try_as 15 env_names window window_json [true]) = Res (Throw BadAlloc).
Proof.
  splits; [exact desk_lawful|exact desk_sound|eexists; vm_compute; reflexivity|vm_compute; reflexivity..].
Qed.
(** from_json: the first member has its new value, the second the old *)
Definition both_long : list (field * ty) :=
  [(Field [] (of_string "name") (DStr []), TStr); (Field [] (of_string "again") (DStr []), TStr)].
Definition both_json : value :=
  v_object [(of_string "again", v_string (of_string "another of twenty-two"));
            (of_string "name", v_string (of_string "a name of twenty-one"))].
Theorem half_loaded : try_from_json 15 env_names both_long both_json [DStr n5; DStr n5] [false; true] =
  ([DStr (of_string "a name of twenty-one"); DStr n5], ([], Res (Throw BadAlloc))).
Proof. vm_compute. reflexivity. Qed.
Lemma both_lawful : lawful sound (TRec both_long).
Proof. repeat constructor. Qed.
Lemma both_sound : sound both_json.
Proof. apply wf_sound. constructor; [|sorted]. constructor; [apply wf_str|]. constructor; [apply wf_str|constructor]. Qed.
(** a failure while "5" is written *)
Theorem list_fails : dumps None (v_array [v_number n5; v_null]) = Ok (of_string "[5,null]") /\
  emit max_size (v_array [v_number n5; v_null]) (of_string "old") [false; false; false; true] = (of_string "old[5,", [], Throw BadAlloc) /\
  snd (try_dumps max_size None (v_array [v_number n5; v_null]) [false; false; false; true]) = Throw BadAlloc /\
  snd (try_dumps max_size None (v_array [v_number n5; v_null]) [false; false; false; false; false; false; true]) = Ok (of_string "[5,null]").
Proof. splits; vm_compute; reflexivity. Qed.
(** value_info gives the type only *)
Theorem info_brief : value_info GCC window_json = Ok (of_string "type=object, size=2") /\
  snd (try_value_info max_size 15 GCC window_json [true]) = Res (Ok (of_string "type=object")) /\
  snd (try_value_info max_size 22 GCC window_json [true]) = Res (Ok (of_string "type=object, size=2")).
Proof. splits; vm_compute; reflexivity. Qed.
Theorem get_fails : v_get env_names TStr (DStr n5) [KStr (of_string "name")] window_json = Ok (DStr (of_string "a name of twenty-one")) /\
  snd (try_get 15 env_names TStr (DStr n5) [KStr (of_string "name")] window_json [true]) = Res (Throw BadAlloc) /\
  snd (try_find_key 15 env_names t_int (of_string "window_position_x") window_json [true]) = Res (Ok (Some (DInt 5))) /\
  snd (try_find_pos 15 env_names window 0 (v_array [window_json]) [true]) = Ended.
Proof. splits; vm_compute; reflexivity. Qed.
