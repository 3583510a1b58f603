(** * Concrete cases for the properties of the texts of exceptions. *)
From Verif Require Import Base Value Dump Spec Containers Num Enum Conv Api SpecApi SpecConv Heap SpecHeap Info SpecInfo Messages SpecMessages
  BaseProofs ApiProofs ConvProofs InfoProofs SamplesApi SamplesConv.

(** int, unsigned, long long, unsigned long long *)
Definition usual_names (sg : bool) (w : N) : bytes :=
  if w =? 32 then of_string (if sg then "integer" else "unsigned") else of_string (if sg then "long long" else "unsigned long long").
Lemma usual_names_ok : integer_names usual_names.
Proof. intros sg w. unfold usual_names. destruct (w =? 32), sg; cbn; tauto. Qed.
Notation gcc_said := (as_said GCC env_names usual_names).

(** "[[1], [2, true]]" as std::vector<std::vector<int>> *)
Definition nested : value := v_array [v_array [v_number n5]; v_array [v_number n5; v_bool true]].
Definition nested_text : bytes := of_string "Type error: cannot convert to integer, expected=number, type=boolean, value=true".
Lemma n5_number : gnumber n5.
Proof. exact (gnumber_intro [] [53] [] [] (or_introl eq_refl) ltac:(constructor; unfold digit; [lia|constructor]) ltac:(constructor) ltac:(constructor)). Qed.
Lemma n5_wf : wf (v_number n5). Proof. exact (wf_num n5 n5_number). Qed.
Lemma true_wf : wf (v_bool true). Proof. exact (wf_bool true). Qed.
Lemma nested_wf : wf nested.
Proof.
  apply wf_arr. constructor; [apply wf_arr; constructor; [exact n5_wf|constructor]|].
  constructor; [|constructor]. apply wf_arr. constructor; [exact n5_wf|]. constructor; [exact true_wf|constructor].
Qed.
Lemma nested_says : gcc_said (TVec (TVec t_int)) nested = Says nested_text.
Proof. vm_compute. reflexivity. Qed.
Lemma sizes_vec t l : N.of_nat (length l) < 2 ^ 64 -> Forall (sizes_fit t) l -> sizes_fit (TVec t) (v_array l).
Proof.
  intros Hl H t' w Hr. unfold v_array in Hr. inversion Hr; subst; [split; [exact Hl|reflexivity]|]. rewrite Forall_forall in H. eapply H; eauto.
Qed.
Lemma sizes_int sg w k s : sizes_fit (TInt sg w) (VStr k s).
Proof. intros t' v Hr. inversion Hr; subst. split; reflexivity. Qed.
Lemma nested_sizes : sizes_fit (TVec (TVec t_int)) nested.
Proof.
  apply sizes_vec; [reflexivity|]. repeat (apply Forall_cons || apply Forall_nil); (apply sizes_vec; [reflexivity|]);
    repeat (apply Forall_cons || apply Forall_nil); apply sizes_int.
Qed.

(** a number of any length *)
Definition long_number (n : nat) : bytes := [49; 46] ++ repeat 48 (S n).
Lemma long_number_number n : gnumber (long_number n).
Proof.
  replace (long_number n) with ([] ++ [49] ++ (46 :: repeat 48 (S n)) ++ []) by (rewrite app_nil_r; reflexivity).
  refine (gnumber_intro [] [49] (46 :: repeat 48 (S n)) [] (or_introl eq_refl) _ _ _).
  - constructor; [unfold digit; lia|constructor].
  - apply (gfrac_some 48); [unfold digit; lia|]. apply Forall_forall. intros c Hc. apply repeat_spec in Hc. unfold digit. lia.
  - constructor.
Qed.
Theorem long_message n : exists cc E names v m, integer_names names /\ wf v /\ as_said cc E names (TInt true 32) v = Says m /\ (n < length m)%nat.
Proof.
  exists GCC, env_names, usual_names, (v_number (long_number n)), (number_message (long_number n) (of_string "integer")).
  splits; [exact usual_names_ok|constructor; apply long_number_number|].
  unfold number_message, long_number. rewrite !app_length. cbn [length]. rewrite repeat_length. lia.
Qed.

(** the text is the same whichever element is wrong *)
Theorem place_lost : exists cc E names t l l' m d x y, names = usual_names /\ Forall wf l /\ Forall wf l' /\
  as_said cc E names (TVec t) (v_array l) = Says m /\ as_said cc E names (TVec t) (v_array l') = Says m /\
  nth_error l 0 = Some x /\ as_ E t x = Ok d /\ nth_error l' 0 = Some y /\ as_ E t y = Throw JsonException.
Proof.
  exists GCC, env_names, usual_names, t_int, [v_number n5; v_bool true], [v_bool true; v_number n5].
  do 4 eexists. splits; try (vm_compute; reflexivity).
  - constructor; [exact n5_wf|constructor; [exact true_wf|constructor]].
  - constructor; [exact true_wf|constructor; [exact n5_wf|constructor]].
Qed.
(** nor does it name the field of a struct *)
Definition f_a : field := Field [] ka (DInt 0).
Definition f_b : field := Field [] kb (DInt 0).
Theorem field_lost : exists cc E names fs v v' m k k', names = usual_names /\ wf v /\ wf v' /\
  as_said cc E names (TRec fs) v = Says m /\ as_said cc E names (TRec fs) v' = Says m /\
  check_json E fs v = Ok (Some k) /\ check_json E fs v' = Ok (Some k') /\ k <> k'.
Proof.
  exists GCC, env_names, usual_names, [(f_a, t_int); (f_b, t_int)],
    (v_object [(ka, v_bool true); (kb, v_number n5)]), (v_object [(ka, v_number n5); (kb, v_bool true)]).
  do 3 eexists. splits; try (vm_compute; reflexivity).
  - constructor; [constructor; [exact true_wf|constructor; [exact n5_wf|constructor]]|].
    apply sk_cons; [apply bytes_ltb_blt; vm_compute; reflexivity|constructor].
  - constructor; [constructor; [exact n5_wf|constructor; [exact true_wf|constructor]]|].
    apply sk_cons; [apply bytes_ltb_blt; vm_compute; reflexivity|constructor].
  - vm_compute. discriminate.
Qed.
(** an enumeration without a name for the number: the text has not got the number *)
Theorem number_lost : exists cc E e z z' m, z <> z' /\ enum_value_said cc E e z = Says m /\ enum_value_said cc E e z' = Says m.
Proof. exists GCC, env_names, color, 77%Z, 78%Z. eexists. splits; try (vm_compute; reflexivity). discriminate. Qed.
(** a number with a zero byte inside, from the constructor that takes any text *)
Theorem zero_cut : exists cc E names v m, sound v /\ as_said cc E names (TInt true 32) v = Says m /\ what m <> m.
Proof.
  exists GCC, env_names, usual_names, (VStr Tnumber [49; 0; 50]). eexists. splits; [|vm_compute; discriminate].
  unfold sound. splits; constructor; discriminate.
Qed.
(** a class whose functions never succeed *)
Definition never : ext := {|
  x_to := fun _ => Ok v_null; x_check := fun _ => Ok true; x_from := fun _ d => (d, Ok false);
  x_move_from := Some (fun _ d => (d, Ok false)); x_move_to := false; x_default := DUnit
|}.
Definition five_true : array := [v_number n5; v_bool true].
Lemma five_true_sound : sound (v_array five_true).
Proof. apply wf_sound. constructor. constructor; [exact n5_wf|constructor; [exact true_wf|constructor]]. Qed.
Theorem size_lost : exists cc E names x l m, sound (v_array l) /\ length l = 2%nat /\
  array_move_user cc E names x l = ([], Says m) /\ m = of_string "Deserialization failed: move_from_json() returned false for array, size=0".
Proof.
  exists GCC, env_names, usual_names, never, five_true. eexists. split; [exact five_true_sound|]. splits; vm_compute; reflexivity.
Qed.
(** a tuple of one element: the array is converted element by element, the value as a whole *)
Theorem one_tuple : exists cc E names t l d, sound (v_array l) /\
  plainly (array_cast cc E names (TTup [t]) l) = Ok d /\ as_ E (TTup [t]) (v_array l) = Throw JsonException.
Proof.
  exists GCC, env_names, usual_names, t_int, [v_number n5]. eexists. splits; try (vm_compute; reflexivity).
  apply wf_sound. constructor. constructor; [exact n5_wf|constructor].
Qed.
(** a move_from_json that takes the value and then fails *)
Theorem moved_undefined : exists cc E names left x v, sound v /\ left x v = moved v /\ as_rv_said cc E names left (TExt x) v = Done Ub.
Proof. exists GCC, env_names, usual_names, (fun _ v => moved v), never, (v_array five_true). split; [exact five_true_sound|]. splits; vm_compute; reflexivity. Qed.
