(** * Concrete conversions of rvalues. *)
From Verif Require Import Base Value Packed Parser Dump Containers Num Enum Conv Spec SpecApi SpecConv Left SpecLeft BaseProofs SamplesApi SamplesConv LeftProofs.

(** no class here has a move_from_json *)
Definition left_nothing (x : ext) (v : value) : value := v.
(** [[1],"x"] *)
Definition v_pair : value := v_array [v_array [num (of_string "1")]; v_string (of_string "x")].
(** {"k":[1]} *)
Definition v_member : value := v_object [(of_string "k", v_array [num (of_string "1")])].
(** [1,"x"] *)
Definition v_mixed : value := v_array [num (of_string "1"); v_string (of_string "x")].
Lemma usable_pair : usable v_pair.
Proof. split; [|split]; repeat (constructor; try discriminate; cbn). Qed.
Lemma usable_member : usable v_member.
Proof. split; [|split]; repeat (constructor; try discriminate; cbn). Qed.
Lemma usable_mixed : usable v_mixed.
Proof. split; [|split]; repeat (constructor; try discriminate; cbn). Qed.

(** std::tuple<json::value, int>: the first component is moved out, the second throws *)
Lemma tuple_half_moved : exists E left t v e, from_elements t /\ usable v /\ cast_rv E t v = Throw e /\
  ~ usable (cast_left E left t v) /\ dumps None (cast_left E left t v) = Ub.
Proof.
  exists env_names, left_nothing, (TTup [TValue; t_int]), v_pair. eexists.
  split; [cbn; discriminate|]. split; [exact usable_pair|]. split; [vm_compute; reflexivity|]. split; [|vm_compute; reflexivity].
  intros [_ [H _]]. vm_compute in H. repeat match goal with X : owned _ |- _ => inversion X; clear X; subst | X : Forall _ (_ :: _) |- _ => inversion X; clear X; subst end.
Qed.
(** std::map<std::string, json::value> and json::object: all members are moved out and stay *)
Lemma map_members_moved : exists E left t v d, (t = TMap TValue) /\ usable v /\ cast_rv E t v = Ok d /\
  ~ usable (cast_left E left t v) /\ dumps None (cast_left E left t v) = Ub.
Proof.
  exists env_names, left_nothing, (TMap TValue), v_member. eexists.
  split; [reflexivity|]. split; [exact usable_member|]. split; [vm_compute; reflexivity|]. split; [|vm_compute; reflexivity].
  intros [_ [H _]]. vm_compute in H. repeat match goal with X : owned _ |- _ => inversion X; clear X; subst | X : Forall _ (_ :: _) |- _ => inversion X; clear X; subst end.
Qed.
Lemma object_members_moved : exists E left v d, usable v /\ cast_rv E TObj v = Ok d /\
  ~ usable (cast_left E left TObj v) /\ dumps None (cast_left E left TObj v) = Ub.
Proof.
  exists env_names, left_nothing, v_member. eexists.
  split; [exact usable_member|]. split; [vm_compute; reflexivity|]. split; [|vm_compute; reflexivity].
  intros [_ [H _]]. vm_compute in H. repeat match goal with X : owned _ |- _ => inversion X; clear X; subst | X : Forall _ (_ :: _) |- _ => inversion X; clear X; subst end.
Qed.

(** a class that keeps a JSON array: its move_from_json takes the array, and rejects everything else *)
Definition keeper_from (v : value) (d : data) : data * res bool := if is_array v then (DJson v, Ok true) else (d, Ok false).
Definition keeper : ext :=
  {| x_to := fun d => match d with DJson v => Ok v | _ => Fuel end; x_check := fun v => Ok (is_array v);
     x_from := keeper_from; x_move_from := Some keeper_from; x_move_to := false; x_default := DJson v_null |}.
Definition left_keeper (x : ext) (v : value) : value := if is_array v then moved v else v.
(** [[1],"x",[1]] *)
Definition v_three : value := v_array [v_array [num (of_string "1")]; v_string (of_string "x"); v_array [num (of_string "1")]].
(** {"a":[1],"b":"x","c":[1]} *)
Definition v_abc : value :=
  v_object [(of_string "a", v_array [num (of_string "1")]); (of_string "b", v_string (of_string "x")); (of_string "c", v_array [num (of_string "1")])].
