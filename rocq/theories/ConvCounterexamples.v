(** * Concrete conversions that go against a property. *)
From Verif Require Import Base Value Packed Parser Dump Containers Num Enum Conv Spec SpecApi SpecConv BaseProofs ContainerProofs NumProofs EnumProofs ConvProofs FaithfulProofs ConvTheorems SamplesApi SamplesConv.

(** C28 *)
Definition null_member : value := v_object [(ka, v_null)].
Lemma null_member_wf : wf null_member.
Proof. constructor; [repeat constructor; exact wf_null|apply sk_one]. Qed.
Lemma get_throws : exists E t d ks v, wf v /\ has_type t d /\ v_get E t d ks v = Throw JsonException.
Proof.
  exists env_names, (TOpt t_int), (DOpt None), [KStr ka], null_member.
  split; [exact null_member_wf|]. split; [constructor|reflexivity].
Qed.
Lemma get_view_dangles : exists E t d ks v, wf v /\ exact E t /\ has_type t d /\ v_get E t d ks v = Ub.
Proof.
  exists env_names, TView, (DStr kb), [KStr ka], null_member.
  split; [exact null_member_wf|]. split; [constructor|]. split; [constructor|reflexivity].
Qed.
Lemma get_nullptr : exists E t d ks v, wf v /\ exact E t /\ has_type t d /\ v_get E t d ks v = Ub.
Proof.
  exists env_names, TNullptr, DUnit, [KStr kb], null_member.
  split; [exact null_member_wf|]. split; [constructor|]. split; [constructor|reflexivity].
Qed.
Lemma get_nullptr_throws : exists E t d k m, wf (v_object m) /\ exact E t /\ has_type t d /\ obj_get E t d k [] m = Throw JsonException.
Proof.
  exists env_names, TNullptr, DUnit, ka, [(ka, v_null)].
  split; [exact null_member_wf|]. split; [constructor|]. split; [constructor|reflexivity].
Qed.

(** C29 *)
Lemma is_optional_inexact : exists E t v, wf v /\ is_ E (TOpt t) v = Ok true /\ as_ E (TOpt t) v = Throw JsonException.
Proof. exists env_names, t_int, v_null. split; [exact wf_null|split; reflexivity]. Qed.
Lemma is_tuple_inexact : exists E t v v', wf v /\ wf v' /\
  is_ E (TTup [t]) v = Ok true /\ as_ E (TTup [t]) v = Throw JsonException /\
  is_ E (TTup [t]) v' = Ok false /\ exists d, as_ E (TTup [t]) v' = Ok d.
Proof.
  exists env_names, t_int, (v_array [v_number n5]), (v_number n5).
  split; [constructor; constructor; [exact wf_n5|constructor]|]. split; [exact wf_n5|]. repeat (split; [vm_compute; reflexivity|]).
  eexists. vm_compute. reflexivity.
Qed.
Lemma is_enum_inexact : exists E e v, wf v /\ is_ E (TEnum e) v = Ok true /\ as_ E (TEnum e) v = Throw JsonException.
Proof. exists env_names, bool_enum, (v_bool true). split; [exact (wf_bool true)|split; reflexivity]. Qed.
Lemma is_enum_undefined : exists E e v, wf v /\ is_ E (TEnum e) v = Ok true /\ as_ E (TEnum e) v = Ub.
Proof. exists env_names, unfixed_enum, (v_number n5). split; [exact wf_n5|split; reflexivity]. Qed.

(** C32 *)
Lemma nullopt_lost : exists E t d v, has_type (TOpt t) d /\ native t /\
  to_value E (TOpt t) d = Ok v /\ as_ E (TOpt t) v = Throw JsonException.
Proof. exists env_names, t_int, (DOpt None), v_null. split; [constructor|]. split; [constructor|split; reflexivity]. Qed.
Lemma tuple_lost : exists E t d v, native t /\ has_type (TTup [t]) d /\
  to_value E (TTup [t]) d = Ok v /\ as_ E (TTup [t]) v = Throw JsonException.
Proof.
  exists env_names, t_int, (DSeq [DInt 5]), (v_array [v_number n5]).
  split; [constructor|]. split; [repeat constructor; cbn; lia|split; reflexivity].
Qed.

(** C33: struct { std::optional<int> a; } *)
Definition opt_fields : list (field * ty) := [(Field [] ka (DOpt None), TOpt t_int)].
Lemma opt_fields_distinct : distinct_keys opt_fields.
Proof. intros [|[|]] [|[|]] f t f' t' k Hi Hj; try discriminate; auto. Qed.
Lemma struct_nullopt_lost : exists E fs l v, distinct_keys fs /\ has_type (TRec fs) (DRec l) /\
  to_json E fs l = Ok v /\ check_json E fs v = Ok None /\ snd (from_json E fs v l) = Throw JsonException.
Proof.
  exists env_names, opt_fields, [DOpt None], null_member. split; [exact opt_fields_distinct|].
  split; [repeat constructor|]. repeat split; reflexivity.
Qed.

(** C34 *)
Definition half_doc : value := v_object [(of_string "flags", v_null); (of_string "id", v_number n5)].
Lemma half_doc_wf : wf half_doc.
Proof.
  constructor; [constructor; [exact wf_null|constructor; [exact wf_n5|constructor]]|].
  apply sk_cons; [apply blt_lt; reflexivity|apply sk_one].
Qed.
Definition old_datum : list data := [DInt 0; DStr ka; DSeq []].
Lemma half_loaded : exists E fs v old new k, wf v /\ Forall (fun ft => exact E (snd ft)) fs /\ has_type (TRec fs) (DRec old) /\
  from_json E fs v old = (new, Ok (Some k)) /\ new <> old.
Proof.
  exists env_names, s_fields, half_doc, old_datum, [DInt 5; DStr ka; DSeq []], (of_string "flags").
  split; [exact half_doc_wf|]. split; [exact (s_exact _)|]. split; [repeat constructor; cbn; lia|].
  split; [vm_compute; reflexivity|discriminate].
Qed.

(** C35 *)
Lemma case_lost : exists E e n z v, ordinary e /\ enumerator e n z /\ in_reflection_range e z /\
  to_value E (TEnum e) (DInt z) = Ok v /\ exists z', as_ E (TEnum e) v = Ok (DInt z') /\ z' <> z.
Proof.
  exists env_names, case_enum, (of_string "OK"), 1%Z, (v_string (of_string "OK")).
  split; [exact case_ordinary|]. split; [right; now left|]. split; [unfold in_reflection_range; cbn; lia|].
  split; [vm_compute; reflexivity|]. exists 0%Z. split; [vm_compute; reflexivity|discriminate].
Qed.
Lemma alias_unknown : exists E e n z, ordinary e /\ distinct_enumerators e /\ enumerator e n z /\ in_reflection_range e z /\
  is_ E (TEnum e) (v_string n) = Ok false /\ exists n', to_value E (TEnum e) (DInt z) = Ok (v_string n') /\ n' <> n.
Proof.
  exists env_names, front_enum, (of_string "Idle"), 100%Z.
  split; [exact front_ordinary|]. split; [exact front_distinct|]. split; [right; right; now left|]. split; [unfold in_reflection_range; cbn; lia|].
  split; [vm_compute; reflexivity|]. exists (of_string "_MEOJSON_ENUM_MIN"). split; [vm_compute; reflexivity|discriminate].
Qed.
Lemma one_way : exists E e n z, ordinary e /\ distinct_enumerators e /\ enumerator e n z /\ has_type (TEnum e) (DInt z) /\
  is_ E (TEnum e) (v_string n) = Ok true /\ string_to_enum e n = Some z /\ to_value E (TEnum e) (DInt z) = Throw JsonException.
Proof.
  exists env_names, byte_enum, (of_string "high"), 200%Z.
  split; [exact byte_ordinary|]. split; [exact byte_distinct|]. split; [right; now left|].
  split; [apply (ht_enum byte_enum false 8); [reflexivity|lia|cbn; lia]|]. repeat split; vm_compute; reflexivity.
Qed.

(** C43 *)
Lemma category_matters : exists E t v, wf v /\ exact E t /\ as_ E t v = Throw JsonException /\ exists d, cast_rv E t v = Ok d.
Proof.
  exists env_names, (TVec t_int), v_null. split; [exact wf_null|]. split; [repeat constructor|]. split; [reflexivity|].
  eexists. reflexivity.
Qed.
Lemma category_matters_containers : exists E v, wf v /\ as_ E TArr v = Throw JsonException /\ cast_rv E TArr v = Ok (DArr []) /\
  as_ E TObj v = Throw JsonException /\ cast_rv E TObj v = Ok (DObj []).
Proof. exists env_names, v_null. split; [constructor|]. repeat split. Qed.

(** C44 *)
Lemma variant_not_first : exists E ts v d, wf v /\ Forall (exact E) ts /\
  match ts with t :: _ => is_ E t v = Ok true | [] => False end /\ as_ E (TVar ts) v = Ok (DAlt 1 d).
Proof.
  exists env_names, [t_int; TValue], (v_number n5), (DJson (v_number n5)).
  split; [exact wf_n5|]. split; [repeat constructor|]. split; reflexivity.
Qed.
Lemma variant_not_first_opt : exists E ts v d, wf v /\ Forall (exact E) ts /\ ~ In TValue ts /\
  match ts with t :: _ => is_ E t v = Ok true | [] => False end /\ as_ E (TVar ts) v = Ok (DAlt 1 d).
Proof.
  exists env_names, [t_int; TOpt TValue], (v_number n5), (DOpt (Some (DJson (v_number n5)))).
  split; [exact wf_n5|]. split; [repeat constructor|]. split; [intros [X|[X|[]]]; discriminate|]. split; reflexivity.
Qed.

(** C49 *)
Lemma source_moved : exists t d, has_type t d /\ after Lvalue t d <> d.
Proof. exists (TOpt TStr), (DOpt (Some (DStr ka))). split; [repeat constructor|discriminate]. Qed.
Lemma const_source_moved : exists t d, has_type t d /\ after Const t d <> d.
Proof. exists (TPtr (TOpt TStr)), (DOpt (Some (DOpt (Some (DStr ka))))). split; [repeat constructor|discriminate]. Qed.

(** C50 *)
Lemma enum_overflow : exists E e z, ordinary e /\ has_type (TEnum e) (DInt z) /\ to_value E (TEnum e) (DInt z) = Ub.
Proof.
  exists env_names, color, (2 ^ 31 - 1)%Z. split; [exact color_ordinary|].
  split; [apply (ht_enum color true 32); [reflexivity|lia|cbn; lia]|vm_compute; reflexivity].
Qed.
Lemma enum_other_name : exists E e n z n' z', z <> z' /\ NoDup (map snd (e_decl e)) /\ enumerator e n z /\ enumerator e n' z' /\
  has_type (TEnum e) (DInt z) /\ to_value E (TEnum e) (DInt z) = Ok (v_string n').
Proof.
  exists env_names, big_enum, (of_string "big"), (2 ^ 32 + 1)%Z, (of_string "small"), 1%Z.
  split; [discriminate|]. split; [repeat constructor; cbn; intuition discriminate|].
  split; [right; now left|]. split; [now left|].
  split; [apply (ht_enum big_enum true 64); [reflexivity|lia|cbn; lia]|vm_compute; reflexivity].
Qed.
