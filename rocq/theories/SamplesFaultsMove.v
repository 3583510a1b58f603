(** * Concrete cases for allocations that fail in conversions of rvalues *)
From Verif Require Import Base BaseProofs Value Dump Containers Num Enum Conv Spec SpecApi SpecConv SpecHeap Left SpecLeft Faults SpecFaults FaultsMove SpecFaultsMove
  SamplesApi SamplesConv SamplesLeft.

Notation cast g := (try_cast_rv 15 env_names left_nothing left_nothing g).
(** std::list<json::value> from [[1],"x"]: there is no memory for the first node, and the first element is lost; reading it is undefined.
    With a std::vector the room is requested first. *)
Theorem list_loses : lawful sound (TVec TValue) /\ sound v_pair /\ (exists d, cast_rv env_names (TVec TValue) v_pair = Ok d) /\
  cast true (TVec TValue) v_pair [false; true] = (v_array [VArr Tarray None; v_string (of_string "x")], ([], Res (Throw BadAlloc))) /\
  dumps None (v_array [VArr Tarray None; v_string (of_string "x")]) = Ub /\
  cast false (TVec TValue) v_pair [true] = (v_pair, ([], Res (Throw BadAlloc))).
Proof.
  splits; [repeat constructor|exact usable_pair|eexists; vm_compute; reflexivity|vm_compute; reflexivity..].
Qed.
(** json::array: likewise *)
Theorem array_loses : sound v_pair /\ cast_rv env_names TArr v_pair = Ok (DArr [v_array [num (of_string "1")]; v_string (of_string "x")]) /\
  cast false TArr v_pair [false; true] = (v_array [VArr Tarray None; VStr Tstring []], ([], Res (Throw BadAlloc))).
Proof. splits; [exact usable_pair|vm_compute; reflexivity..]. Qed.
(** json::object *)
Theorem object_loses : sound v_member /\ (exists d, cast_rv env_names TObj v_member = Ok d) /\
  cast false TObj v_member [true] = (v_object [(of_string "k", VArr Tarray None)], ([], Res (Throw BadAlloc))).
Proof. split; [exact usable_member|]. split; [eexists|]; vm_compute; reflexivity. Qed.
(** [1] *)
Definition v_one : value := v_array [num (of_string "1")].
Lemma usable_one : usable v_one.
Proof. split; [|split]; repeat (constructor; try discriminate; cbn). Qed.
(** std::unique_ptr<std::vector<int>>: the array is cleared before make_unique *)
Theorem pointer_loses : lawful sound (TPtr (TVec t_int)) /\ sound v_one /\ cast_rv env_names (TPtr (TVec t_int)) v_one = Ok (DOpt (Some (DSeq [DInt 1]))) /\
  cast false (TPtr (TVec t_int)) v_one [false; true] = (v_array [], ([], Res (Throw BadAlloc))) /\
  careful false (TVec t_int) /\ ~ careful false (TPtr (TVec t_int)).
Proof.
  splits; [repeat constructor|exact usable_one|left; intros []|intros []].
Qed.
(** null, converted to a std::vector<int>, is left with the type of an array and no array *)
Theorem tag_wrong : sound v_null /\ cast_rv env_names (TVec t_int) v_null = Ok (DSeq []) /\
  cast false (TVec t_int) v_null [true] = (VStr Tarray [], ([], Res (Throw BadAlloc))) /\ ~ tag_ok (VStr Tarray []) /\
  dumps None (VStr Tarray []) = Throw BadVariant.
Proof.
  splits; [split; [|split]; repeat (constructor; try discriminate; cbn)|intros H; inversion H; congruence].
Qed.
(** a std::vector<std::string> keeps the source whichever request fails *)
Theorem strings_kept : careful false (TVec TStr) /\ lawful sound (TVec TStr) /\
  let v := v_array [v_string (of_string "a text of twenty-one."); v_string (of_string "x")] in
  sound v /\ (exists d, cast_rv env_names (TVec TStr) v = Ok d) /\
  cast false (TVec TStr) v [true] = (v, ([], Res (Throw BadAlloc))) /\
  cast false (TVec TStr) v [false; true] = (v, ([], Res (Throw BadAlloc))) /\
  fst (cast false (TVec TStr) v [false; false; true]) = v_array [].
Proof.
  split; [left; intros []|]. split; [repeat constructor|]. cbv zeta.
  splits; [split; [|split]; repeat (constructor; try discriminate; cbn)|eexists; vm_compute; reflexivity].
Qed.
(** a class with a move_from_json that has taken half of the second element *)
Definition half_keeper (x : ext) (v : value) : value := v_null.
Theorem keeper_interrupted : lawful sound (TVec (TExt keeper)) /\ sound v_three /\
  try_array_take 15 env_names left_keeper half_keeper false (TVec (TExt keeper)) [v_one; v_one; v_one] [false; false; true] =
    ([VArr Tarray None; v_null; v_one], ([], Res (Throw BadAlloc))).
Proof.
  splits; [|split; [|split]; repeat (constructor; try discriminate; cbn)].
  constructor. constructor; [intros v _; eexists; reflexivity|]. intros f v d H _. injection H as <-. reflexivity.
Qed.
