(** * Cases for the properties of value_info and of native data as text. *)
From Verif Require Import Base Value Packed Parser Dump Spec Containers Num Enum Conv Api SpecApi SpecConv Float SpecFloat Heap SpecHeap Info SpecInfo
  BaseProofs NumProofs EnumProofs ConvProofs FaithfulProofs FloatProofs FloatTheorems SamplesApi SamplesConv SamplesFloat SamplesHeap InfoProofs.
Open Scope N_scope.

(** value(value_type::array), a public constructor: the tag of an array, the content of a string *)
Definition tag_only : value := VStr Tarray [].
Lemma tag_only_throws : exists v, v_empty v = Throw BadVariant /\ forall E, is_ E (TVec TBool) v = Throw BadVariant.
Proof. exists tag_only. split; reflexivity. Qed.

(** 5 is written as the text 5, which is no document for the parser *)
Lemma scalar_lost : exists E t d v s, faithful E t d /\ byte_data t d /\ to_value E t d = Ok v /\ dumps None v = Ok s /\
  forall jsonc be, parse jsonc be s = Ok None.
Proof.
  exists env_names, t_int, (DInt 5). eexists. eexists. split; [constructor; cbn; lia|]. split; [constructor|].
  split; [reflexivity|]. split; [vm_compute; reflexivity|]. intros [] be; destruct be as [|[]|[]| | | |]; vm_compute; reflexivity.
Qed.

(** struct { Status status; double x; std::map<std::string, std::vector<std::string>> m; } *)
Definition f_status : field := Field [] (of_string "status") (DInt 0).
Definition f_x : field := Field [] (of_string "x") (DFlt 0).
Definition f_m : field := Field [] (of_string "m") (DMap []).
Definition r_fields : list (field * ty) := [(f_status, TEnum status_enum); (f_x, TFlt 53); (f_m, TMap (TVec TStr))].
Definition r_datum : list data := [DInt 102; DFlt 0x3FF8000000000000; DMap [(ka, DSeq [DStr kb; DStr []])]].
Lemma r_distinct : distinct_keys r_fields.
Proof.
  intros i j f t f' t' k Hi Hj H H'. unfold r_fields in *.
  destruct i as [|[|[|i]]], j as [|[|[|j]]]; cbn in Hi, Hj; try discriminate; try reflexivity;
    try (destruct i; discriminate); try (destruct j; discriminate);
    injection Hi as <- <-; injection Hj as <- <-; apply key_plain in H; apply key_plain in H'; subst; discriminate.
Qed.
Lemma r_faithful : faithful (std_env false cfg_keep) (TRec r_fields) (DRec r_datum).
Proof.
  constructor; [|exact r_distinct]. constructor; [|constructor; [|constructor; [|constructor]]]; cbn [snd].
  - apply (fa_enum _ status_enum (of_string "Paused")); [reflexivity|exact status_ordinary|exact status_distinct| |unfold in_reflection_range; cbn; lia].
    exists (firstn 2 status_names), (skipn 3 status_names ++ range_names 100 103). split; [reflexivity|]. intros n [X|[X|[]]]; discriminate.
  - apply float_faithful; [reflexivity|exact keep_classic|exact double_precision|exact (proj1 one_half_bits)|].
    right. rewrite (proj2 one_half_bits). exact one_half_normal.
  - repeat constructor.
Qed.
Lemma r_bytes : byte_data (TRec r_fields) (DRec r_datum).
Proof.
  assert (B : forall s, forallb (fun c => c <? 256) s = true -> Forall is_byte s)
    by (intros s H; rewrite forallb_forall in H; apply Forall_forall; intros c Hc; apply H in Hc; unfold is_byte; lia).
  constructor. repeat constructor; cbn [fst snd]; try (intros k Hk; apply key_plain in Hk; subst k); apply B; reflexivity.
Qed.
Lemma r_text : exists v, to_value (std_env false cfg_keep) (TRec r_fields) (DRec r_datum) = Ok v /\
  dumps None v = Ok (of_string "{""m"":{""a"":[""b"",""""]},""status"":""Paused"",""x"":1.5}").
Proof. eexists. split; vm_compute; reflexivity. Qed.
