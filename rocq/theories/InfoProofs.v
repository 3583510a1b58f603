(** * Proofs: descriptions of values, noexcept functions, native data as text. *)
From Verif Require Import Base Value Packed Parser Dump Spec Containers Num Enum Conv Api SpecApi SpecConv Heap SpecHeap Info SpecInfo
  BaseProofs Utf8Proofs DumpProofs ContainerProofs ApiProofs NumProofs EnumProofs ConvProofs FaithfulProofs HeapProofs HeapTheorems HeapSafety.
From Verif Require GrammarProofs.

(** ** C58 *)
Lemma type_name_spec cc v : type_name cc v = Ok (tag_name (type_of v)).
Proof. unfold type_name. destruct cc, (type_of v); vm_compute; reflexivity. Qed.
Lemma shortened_spec s : shortened s (if Nat.ltb 100 (length s) then firstn 100 s ++ of_string "..." else s).
Proof.
  destruct (Nat.ltb_spec 100 (length s)); [|now constructor].
  rewrite <- (firstn_skipn 100 s) at 1. constructor.
  - rewrite firstn_length. lia.
  - intros X. apply (f_equal (@length N)) in X. rewrite skipn_length in X. cbn in X. lia.
Qed.
Lemma size_text n : writes_number n (to_string_N (N.of_nat n)).
Proof.
  destruct (to_string_N_spec (N.of_nat n)) as (H1 & H2 & H3). unfold writes_number. splits; auto.
  clear H1 H2. inversion H3 as [X|c ds Hc Hd X]; [now left|right]. exists c, ds. split; [reflexivity|]. lia.
Qed.
Lemma info_spec cc v : sound v -> exists s, value_info cc v = Ok s /\ describes v s.
Proof.
  intros H. apply sound_okv in H. unfold value_info, info_body. rewrite type_name_spec. cbn [bind].
  destruct H as [t s Hp|l Hl|[]|m Hm Hk|[]]; cbn [type_of].
  - destruct Hp as [H1 H2].
    assert (S : t = Tboolean \/ t = Tnumber \/ t = Tstring -> exists x, dump (VStr t s) = Ok x)
      by (intros [-> |[-> | ->]]; eexists; reflexivity).
    destruct t; try congruence; try (eexists; split; [reflexivity|]; constructor; auto);
      (destruct S as [x Hx]; [tauto|]); rewrite Hx; cbn [bind]; eexists; (split; [reflexivity|]);
      rewrite <- app_assoc; (eapply de_scalar; [tauto|exact Hx|apply shortened_spec]).
  - cbn [as_array_c is_array type_of vtype_eqb get_arr bind]. eexists. split; [reflexivity|]. rewrite <- app_assoc. constructor. apply size_text.
  - cbn [as_object_c is_object type_of vtype_eqb get_obj bind]. eexists. split; [reflexivity|]. rewrite <- app_assoc. constructor. apply size_text.
Qed.
(** value_info catches what it throws itself, on any value *)
Lemma info_no_throw cc v x : value_info cc v <> Throw x.
Proof.
  unfold value_info. rewrite type_name_spec. destruct (info_body cc v); cbn [bind]; discriminate.
Qed.
(** a hundred bytes may end inside a character *)
Definition long_text : bytes := repeat 97 98 ++ [195; 169].
Lemma lone_lead : ~ utf8_valid [195].
Proof.
  intros (cps & Hs & Hc). destruct cps as [|cp cps]; [discriminate|]. cbn in Hc.
  destruct (utf8_shape cp) as [(c & E & H)|H].
  - rewrite E in Hc. injection Hc as Hc _. lia.
  - clear Hs. unfold utf8 in *. destruct (cp <? 128) eqn:E1.
    + inversion H; subst. lia.
    + destruct (cp <? 2048); [discriminate Hc|]. destruct (cp <? 65536); discriminate Hc.
Qed.
Lemma info_cut : exists cc v s, wf v /\ all_vstrings utf8_valid v /\ value_info cc v = Ok s /\ ~ utf8_valid s.
Proof.
  exists GCC, (v_string long_text), (of_string "type=string, value=" ++ [34] ++ repeat 97 98 ++ [195] ++ of_string "...").
  split; [constructor|]. split.
  { apply avs_str. apply utf8_valid_app; [apply utf8_valid_asciis, Forall_forall; intros x Hx; apply repeat_spec in Hx; lia|].
    exists [233]. split; [|reflexivity]. constructor; [unfold scalar_value, surrogate; lia|constructor]. }
  split; [vm_compute; reflexivity|]. intros H.
  rewrite !app_assoc, <- (app_assoc _ [195]) in H. apply utf8_asciis in H; [|repeat constructor].
  apply (utf8_split [195] 46 [46; 46]) in H; [|lia]. exact (lone_lead (proj1 H)).
Qed.

(** ** C57 *)
Notation ok := (okv ApiProofs.plain False).
Lemma ok_find v k : ok v -> exists o, v_find_value_key k v = Ok o /\ forall w, o = Some w -> ok w.
Proof.
  intros H. unfold v_find_value_key. destruct H as [t s [H1 H2]|l Hl|[]|m Hm Hk|[]].
  - exists None. split; [|discriminate]. destruct t; try congruence; reflexivity.
  - exists None. split; [reflexivity|discriminate].
  - exists (map_find k m). split; [reflexivity|]. intros w Hw. apply map_find_in in Hw. rewrite Forall_forall in Hm. exact (Hm _ Hw).
Qed.
Section Is.
  Context (E : env).
  Lemma is_enum_sound e v : ok v -> exists b, is_enum e v = Ok b.
  Proof.
    intros H. unfold is_enum. destruct H as [t s [H1 H2]|l Hl|[]|m Hm Hk|[]]; cbn -[try_parse_integer string_to_enum].
    - destruct t; try congruence; cbn -[try_parse_integer string_to_enum]; destruct (e_underlying e) as [[sg w]|]; eauto.
    - destruct (e_underlying e) as [[sg w]|]; eauto.
    - destruct (e_underlying e) as [[sg w]|]; eauto.
  Qed.
  Lemma is_sound t : lawful sound t -> forall v, ok v -> exists b, is_ E t v = Ok b.
  Proof.
    induction t as [ | | | |sg w|p| | | | |t IH|t IH|t IH|lt t IH|n t IH|ts IH|ts IH|t IH|e|fs IH|x] using ty_ind'; intros Hlaw v Hv; cbn [is_].
    all: try (eexists; reflexivity).
    all: try (assert (Hlt : lawful sound t) by (inversion Hlaw; auto); specialize (IH Hlt)).
    - destruct Hv as [t s [H1 H2]| | | |]; [destruct t; try congruence|..]; cbn -[try_parse_integer]; eauto.
    - destruct Hv as [t s [H1 H2]| | | |]; [destruct t; try congruence|..]; cbn; eauto.
    - destruct (is_null v); eauto.
    - destruct (is_null v); eauto.
    - destruct Hv as [t0 s [H1 H2]|l Hl|[]|m Hm Hk|[]]; cbn [is_array type_of vtype_eqb as_array_c get_arr bind]; eauto.
      + destruct t0; try congruence; cbn; eauto.
      + induction Hl as [|x l Hx _ IHl]; cbn; eauto. destruct (IH x Hx) as [[] ->]; cbn; eauto.
    - destruct Hv as [t0 s [H1 H2]|l Hl|[]|m Hm Hk|[]]; cbn [is_array type_of vtype_eqb as_array_c get_arr bind]; eauto.
      + destruct t0; try congruence; cbn; eauto.
      + induction Hl as [|x l Hx _ IHl]; cbn; eauto. destruct (IH x Hx) as [[] ->]; cbn; eauto.
    - destruct Hv as [t0 s [H1 H2]|l Hl|[]|m Hm Hk|[]]; cbn [is_array type_of vtype_eqb as_array_c get_arr bind]; eauto.
      + destruct t0; try congruence; cbn; eauto.
      + destruct (Nat.eqb _ _); eauto. clear n Hlaw. induction Hl as [|x l Hx _ IHl]; cbn; eauto. destruct (IH x Hx) as [[] ->]; cbn; eauto.
    - assert (Hts : Forall (lawful sound) ts) by (inversion Hlaw; auto). clear Hlaw.
      destruct Hv as [t0 s [H1 H2]|l Hl|[]|m Hm Hk|[]]; cbn [is_array type_of vtype_eqb as_array_c get_arr bind]; eauto.
      + destruct t0; try congruence; cbn; eauto.
      + destruct (Nat.eqb _ _); eauto. revert l Hl. induction IH as [|t ts Ht _ IHt]; intros l Hl; cbn; eauto. inversion Hts; subst.
        destruct Hl as [|x l Hx Hl]; eauto. destruct (Ht ltac:(auto) x Hx) as [[] ->]; cbn; eauto.
    - assert (Hts : Forall (lawful sound) ts) by (inversion Hlaw; auto). clear Hlaw.
      induction IH as [|t ts Ht _ IHt]; cbn; eauto. inversion Hts; subst. destruct (Ht ltac:(auto) v Hv) as [[] ->]; cbn; eauto.
    - destruct Hv as [t0 s [H1 H2]|l Hl|[]|m Hm Hk|[]]; cbn [is_object type_of vtype_eqb as_object_c get_obj bind]; eauto.
      + destruct t0; try congruence; cbn; eauto.
      + clear Hk. induction Hm as [|[k x] l Hx _ IHl]; cbn; eauto. cbn in Hx. destruct (IH x Hx) as [[] ->]; cbn; eauto.
    - now apply is_enum_sound.
    - assert (Hfs : Forall (fun ft => lawful sound (snd ft)) fs) by (inversion Hlaw; auto). clear Hlaw.
      assert (exists o, check_fields (is_ E) fs v = Ok o) as [o ->]; [|destruct o; cbn; eauto].
      induction IH as [|[f t] fs Ht _ IHf]; cbn -[json_key]; eauto. cbn [snd] in Ht. inversion Hfs; subst.
      destruct (ok_find v (json_key f) Hv) as (o & -> & Ho). cbn [bind]. destruct o as [w|].
      + destruct (Ht ltac:(auto) w) as [[] ->]; cbn; eauto.
      + destruct (is_optional f); eauto.
    - inversion Hlaw as [| | | | | | | | | | | | | | | | | | | |? Hc Hm]; subst. apply Hc. now apply sound_okv.
  Qed.
End Is.
Lemma empty_sound v : ok v -> exists b, v_empty v = Ok b.
Proof. intros [t s [H1 H2]|l Hl|[]|m Hm Hk|[]]; cbn; [destruct t; try congruence|..]; cbn; eauto. Qed.
Theorem noexcept_sound v : sound v ->
  (exists b, v_empty v = Ok b) /\ (forall E t, lawful sound t -> exists b, is_ E t v = Ok b) /\
  (forall cc, exists s, type_name cc v = Ok s) /\ (forall cc, exists s, value_info cc v = Ok s).
Proof.
  intros H. pose proof (proj1 (sound_okv v) H) as Ho. splits.
  - now apply empty_sound.
  - intros. now apply is_sound.
  - intros. eexists. apply type_name_spec.
  - intros cc. destruct (info_spec cc v H) as (s & Hs & _). eauto.
Qed.

Lemma wf_sound v : wf v -> sound v.
Proof.
  intros H. apply sound_okv. revert H. induction v as [t s|t|t l IH|t|t m IH] using value_ind'; intros H; inversion H; subst;
    try (constructor; split; discriminate); constructor; auto; rewrite Forall_forall in *; auto.
Qed.
Theorem noexcept_parsed jsonc be s v : Forall is_byte s -> parse jsonc be s = Ok (Some v) ->
  (exists b, v_empty v = Ok b) /\ (forall E t, lawful wf t -> exists b, is_ E t v = Ok b) /\
  (forall cc, exists i, type_name cc v = Ok i) /\ (forall cc, exists i, value_info cc v = Ok i).
Proof.
  intros Hb H. assert (Hw : wf v) by (eapply GrammarProofs.parse_wf; eauto).
  destruct (noexcept_sound v (wf_sound v Hw)) as (H1 & _ & H3 & H4). splits; auto. intros E t Hl. now apply is_ok.
Qed.
Theorem noexcept_program cs hs st l v : Forall moves_nothing cs -> clean_run (HS [] [] []) cs hs -> sim hs st -> read st l = Some v ->
  (exists b, v_empty v = Ok b) /\ (forall E t, lawful sound t -> exists b, is_ E t v = Ok b) /\
  (forall cc, exists i, type_name cc v = Ok i) /\ (forall cc, exists i, value_info cc v = Ok i).
Proof.
  intros Hm R S Hr. destruct (clean_run_sound cs _ [] _ Hm (sim_empty []) (Forall_nil _) eq_refl R) as (st1 & S1 & So & _).
  assert (st1 = st) as -> by exact (sim_det _ _ _ S S1). apply noexcept_sound. apply sound_okv. eapply read_ok; [|exact Hr]. now apply sound_sok.
Qed.

(** ** C59 *)
Lemma vstrings_copy P v w : all_vstrings P v -> copy v = Ok w -> all_vstrings P w.
Proof. intros H Hc. apply copy_id in Hc. now subst. Qed.
Lemma identifier_bytes n : name_is_valid n = true -> Forall is_byte n.
Proof.
  intros H. apply name_is_valid_spec in H. apply Forall_forall. intros c Hc. apply (identifier_chars n) in Hc; auto.
  unfold letter, digit, is_byte in *. lia.
Qed.
Lemma name_at_bytes e z : Forall is_byte (name_at e z).
Proof. unfold name_at. destruct (name_is_valid _) eqn:Ev; [now apply identifier_bytes|constructor]. Qed.
Lemma map_assign_bytes k v (m : object) : Forall is_byte k -> all_vstrings (Forall is_byte) v ->
  Forall (fun kv => Forall is_byte (fst kv) /\ all_vstrings (Forall is_byte) (snd kv)) m ->
  Forall (fun kv => Forall is_byte (fst kv) /\ all_vstrings (Forall is_byte) (snd kv)) (map_assign k v m).
Proof.
  intros Hk Hv. induction 1 as [|[k' v'] m Hx Hm IH]; cbn; [constructor; auto|].
  destruct (bytes_ltb k k'), (bytes_eqb k k'); repeat (constructor; auto); cbn in *; tauto.
Qed.
Lemma map_emplace_bytes k v (m : object) : Forall is_byte k -> all_vstrings (Forall is_byte) v ->
  Forall (fun kv => Forall is_byte (fst kv) /\ all_vstrings (Forall is_byte) (snd kv)) m ->
  Forall (fun kv => Forall is_byte (fst kv) /\ all_vstrings (Forall is_byte) (snd kv)) (fst (map_emplace k v m)).
Proof.
  intros Hk Hv. induction 1 as [|[k' v'] m Hx Hm IH]; cbn; [constructor; auto|].
  destruct (bytes_ltb k k'), (bytes_eqb k k'); cbn; repeat (constructor; auto). destruct (map_emplace k v m); cbn in *. constructor; auto.
Qed.
Lemma obj_of_list_bytes (l : list (bytes * value)) :
  Forall (fun kv => Forall is_byte (fst kv) /\ all_vstrings (Forall is_byte) (snd kv)) l ->
  Forall (fun kv => Forall is_byte (fst kv) /\ all_vstrings (Forall is_byte) (snd kv)) (obj_of_list l).
Proof.
  unfold obj_of_list. assert (H0 : Forall (fun kv : bytes * value => Forall is_byte (fst kv) /\ all_vstrings (Forall is_byte) (snd kv)) []) by constructor.
  revert H0. generalize (@nil (bytes * value)) as acc. intros acc Ha Hl. revert acc Ha.
  induction Hl as [|[k v] l [Hk Hv] _ IH]; intros acc Ha; cbn; auto. apply IH. now apply map_emplace_bytes.
Qed.
Section Bytes.
  Context (E : env).
  Notation vb := (all_vstrings (Forall is_byte)).
  Lemma mapM_bytes t l : Forall (fun d => forall v, to_value E t d = Ok v -> vb v) l -> forall r, mapM (to_value E t) l = Ok r -> Forall vb r.
  Proof.
    induction 1 as [|d l Hd _ IH]; cbn; intros r Hr; [injection Hr as <-; constructor|].
    destruct (to_value E t d) eqn:E1; try discriminate. cbn in Hr. destruct (mapM _ l) eqn:E2; try discriminate. injection Hr as <-. constructor; auto.
  Qed.
  Lemma mapM_members_bytes t m : Forall (fun kd => Forall is_byte (fst kd) /\ forall v, to_value E t (snd kd) = Ok v -> vb v) m ->
    forall r, mapM_members (to_value E t) m = Ok r -> Forall (fun kv => Forall is_byte (fst kv) /\ vb (snd kv)) r.
  Proof.
    induction 1 as [|[k d] l [Hk Hd] _ IH]; cbn; intros r Hr; [injection Hr as <-; constructor|]. cbn in Hk, Hd.
    destruct (to_value E t d) eqn:E1; try discriminate. cbn in Hr. destruct (mapM_members _ l) eqn:E2; try discriminate. injection Hr as <-. constructor; auto.
  Qed.
  Lemma copy_elems_bytes l : Forall vb l -> forall r, copy_elems copy l = Ok r -> Forall vb r.
  Proof.
    induction 1 as [|v l Hd _ IH]; cbn; intros r Hr; [injection Hr as <-; constructor|].
    destruct (copy v) eqn:E1; try discriminate. cbn in Hr. destruct (copy_elems _ l) eqn:E2; try discriminate. injection Hr as <-. constructor; auto. eapply vstrings_copy; eauto.
  Qed.
  Lemma copy_members_bytes (m : object) : Forall (fun kv => Forall is_byte (fst kv) /\ vb (snd kv)) m ->
    forall r, copy_members copy m = Ok r -> Forall (fun kv => Forall is_byte (fst kv) /\ vb (snd kv)) r.
  Proof.
    induction 1 as [|[k v] l [Hk Hd] _ IH]; cbn; intros r Hr; [injection Hr as <-; constructor|]. cbn in Hk, Hd.
    destruct (copy v) eqn:E1; try discriminate. cbn in Hr. destruct (copy_members _ l) eqn:E2; try discriminate. injection Hr as <-. constructor; auto. split; auto. eapply vstrings_copy; eauto.
  Qed.
  Lemma to_value_bytes t : forall d v, byte_data t d -> to_value E t d = Ok v -> vb v.
  Proof.
    induction t as [ | | | |sg w|p| | | | |t IH|t IH|t IH|lt t IH|n t IH|ts IH|ts IH|t IH|e|fs IH|x] using ty_ind'; intros d v Hd Hv; inversion Hd; subst; cbn [to_value] in Hv.
    - eapply vstrings_copy; eauto.
    - destruct (copy_elems copy l) eqn:E1; try discriminate. injection Hv as <-. constructor. eapply copy_elems_bytes; eauto.
    - destruct (copy_members copy m) eqn:E1; try discriminate. injection Hv as <-. constructor. eapply copy_members_bytes; eauto.
    - injection Hv as <-. constructor. discriminate.
    - injection Hv as <-. constructor. discriminate.
    - injection Hv as <-. constructor. discriminate.
    - injection Hv as <-. now apply avs_str.
    - injection Hv as <-. now apply avs_str.
    - injection Hv as <-. constructor. discriminate.
    - injection Hv as <-. constructor. discriminate.
    - injection Hv as <-. constructor. discriminate.
    - eauto.
    - injection Hv as <-. constructor. discriminate.
    - eauto.
    - destruct (mapM _ l) eqn:E1; try discriminate. injection Hv as <-. constructor. eapply mapM_bytes; [|exact E1].
      eapply Forall_impl; [|eassumption]. cbn. eauto.
    - destruct (mapM _ l) eqn:E1; try discriminate. injection Hv as <-. constructor. eapply mapM_bytes; [|exact E1].
      eapply Forall_impl; [|eassumption]. cbn. eauto.
    - destruct (Nat.eqb _ _); [|discriminate]. destruct (mapM _ l) eqn:E1; try discriminate. injection Hv as <-. constructor. eapply mapM_bytes; [|exact E1].
      eapply Forall_impl; [|eassumption]. cbn. eauto.
    - destruct (to_tuple _ ts l) as [r| | | |] eqn:E1; try discriminate. injection Hv as <-. constructor.
      match goal with X : Forall2 _ ts l |- _ => clear Hd; revert r E1; induction X as [|t d ts l H1 H2 IH2] end; intros r E1; cbn in E1; [injection E1 as <-; constructor|].
      inversion IH as [|? ? Ht Hts]; subst. destruct (to_value E t d) eqn:E2; try discriminate. cbn in E1.
      destruct (to_tuple _ ts l) eqn:E3; try discriminate. injection E1 as <-. constructor; eauto.
    - rewrite to_variant_nth in Hv. apply Forall_app in IH as [_ IH]. inversion IH; subst. eauto.
    - destruct (mapM_members _ m) eqn:E1; try discriminate. injection Hv as <-. constructor. apply obj_of_list_bytes. eapply mapM_members_bytes; [|exact E1].
      eapply Forall_impl; [|eassumption]. cbn. intros kd [Hk Hb]. split; eauto.
    - unfold v_enum in Hv. destruct (enum_as_number E).
      + injection Hv as <-. destruct (e_underlying e); constructor; discriminate.
      + unfold enum_to_string in Hv. destruct (negb _); [discriminate|]. destruct (_ && _); [|discriminate]. cbn [bind] in Hv.
        destruct (is_nil _); [discriminate|]. injection Hv as <-. apply avs_str. apply name_at_bytes.
    - destruct (dump_fields _ fs l []) as [o| | | |] eqn:E1; try discriminate. injection Hv as <-. constructor.
      assert (Hn : Forall (fun kv : bytes * value => Forall is_byte (fst kv) /\ vb (snd kv)) []) by constructor.
      revert Hn E1. generalize (@nil (bytes * value)) as acc. clear Hd.
      match goal with X : Forall2 _ fs l |- _ => induction X as [|[f t] d fs l [H1 H2] H3 IH2] end; intros acc Ha E1; cbn [dump_fields] in E1; [injection E1 as <-; auto|].
      inversion IH as [|? ? Ht Hts]; subst. destruct (to_value E t d) as [w| | | |] eqn:E2; try discriminate. cbn [bind] in E1.
      refine (IH2 Hts _ _ E1). cbn [obj_emplace fst]. cbn [fst snd] in H1, H2, Ht. apply map_assign_bytes; auto; [apply H1; now apply effective_key_spec|eauto].
    - auto.
  Qed.
  Lemma container_root t d v : container_type t -> to_value E t d = Ok v -> root v.
  Proof.
    destruct t; cbn [container_type]; try tauto; [..|intros H Hv; exact (H d v Hv)];
      intros _ Hv; unfold root; destruct d; try discriminate; cbn [to_value] in Hv.
    - destruct (copy_elems copy l); try discriminate. injection Hv as <-. left. eexists. reflexivity.
    - destruct (copy_members copy m); try discriminate. injection Hv as <-. right. eexists. reflexivity.
    - destruct (mapM _ l); try discriminate. injection Hv as <-. left. eexists. reflexivity.
    - destruct (mapM _ l); try discriminate. injection Hv as <-. left. eexists. reflexivity.
    - destruct (Nat.eqb _ _); [|discriminate]. destruct (mapM _ l); try discriminate. injection Hv as <-. left. eexists. reflexivity.
    - destruct (to_tuple _ ts l); try discriminate. injection Hv as <-. left. eexists. reflexivity.
    - destruct (mapM_members _ m); try discriminate. injection Hv as <-. right. eexists. reflexivity.
    - destruct (dump_fields _ fs l []); try discriminate. injection Hv as <-. right. eexists. reflexivity.
  Qed.
  Theorem saved_and_loaded n jsonc be t d : faithful E t d -> container_type t -> byte_data t d ->
    exists v s w, to_value E t d = Ok v /\ dumps n v = Ok s /\ parse jsonc be s = Ok (Some w) /\ is_ E t w = Ok true /\ as_ E t w = Ok d.
  Proof.
    intros Hf Hc Hb. destruct (faithful_survives E t d Hf) as (v & Hv & Hw & _ & Hi & Ha).
    pose proof (to_value_bytes t d v Hb Hv) as Hvb. pose proof (container_root t d v Hc Hv) as Hr.
    assert (exists s, dumps n v = Ok s /\ parse jsonc be s = Ok (Some v)) as (s & Hs & Hp).
    { destruct n as [n|]; [now apply pretty_round_trip|now apply compact_round_trip]. }
    exists v, s, v. splits; auto.
  Qed.
End Bytes.
