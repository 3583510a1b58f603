(** * Concrete types, data and values for the properties of conversions. *)
From Verif Require Import Base Value Packed Parser Dump Containers Num Enum Conv Spec SpecApi SpecConv BaseProofs ContainerProofs NumProofs EnumProofs SamplesApi.

(** text of floating-point numbers plays no role in most samples *)
Definition env_names : env := Env false (fun _ _ => of_string "1.5") (fun _ _ => Some 1).
Definition env_numbers : env := Env true (fun _ _ => of_string "1.5") (fun _ _ => Some 1).
Definition t_int := TInt true 32.
Definition num (s : bytes) : value := v_number s.
Definition n5 := of_string "5".
Lemma wf_n5 : wf (v_number n5).
Proof. constructor. apply (gnumber_intro [] n5 [] []); [now left|apply (gint_pos 53 []); [lia|constructor]|constructor|constructor]. Qed.

(** as GCC prints it *)
Definition Enum (t : string) u vs (d : list (bytes * Z)) lo hi : enum := EnumOf u vs d lo hi GCC (of_string t) (of_string t ++ of_string "::").
(** enum class Color : int { Red = 1, green, Blue = 7 } *)
Definition color : enum :=
  Enum "Color" (Some (true, 32)) None [(of_string "Red", 1%Z); (of_string "green", 2%Z); (of_string "Blue", 7%Z)] (-128) 128.
Ltac ident := apply name_is_valid_spec; vm_compute; reflexivity.
Ltac each H :=
  lazymatch type of H with
  | _ \/ _ => let H' := fresh in destruct H as [H'|H]; [injection H' as <- <-|each H]
  | False => contradiction H
  end.
Ltac ordinary :=
  constructor; try (cbn -[Z.pow]; lia);
  [ intros ? ? H; unfold enumerator in H; cbn -[of_string] in H; each H; ident
  | intros ? ? [= <- <-]; lia
  | intros ? ? H; unfold enumerator in H; cbn -[of_string] in H; each H; unfold representable; cbn; lia
  | repeat split; try (apply not_in_dec; reflexivity); right; eexists; reflexivity ].
Lemma color_ordinary : ordinary color.
Proof. ordinary. Qed.
Lemma distinct_by_name e :
  (forall n z n' z', enumerator e n z -> enumerator e n' z' -> iequals n n' = true -> z = z') -> distinct_enumerators e.
Proof. intros H n z n' z' H1 H2 _ _ H3. eapply H; eauto using main_name_enumerator. now apply iequals_spec. Qed.
Ltac distinct :=
  apply distinct_by_name; intros n z n' z' H1 H2 H3; unfold enumerator in H1, H2; cbn -[of_string] in H1, H2;
  each H1; each H2; auto; exfalso; vm_compute in H3; discriminate.
Lemma color_distinct : distinct_enumerators color.
Proof. distinct. Qed.
Lemma color_total : total_enum color.
Proof. exact I. Qed.
(** enum class Case : int { ok = 0, OK = 1 } *)
Definition case_enum : enum := Enum "Case" (Some (true, 32)) None [(of_string "ok", 0%Z); (of_string "OK", 1%Z)] (-128) 128.
Lemma case_ordinary : ordinary case_enum.
Proof. ordinary. Qed.
(** test/enum_test.cpp:29-36: enum class Status { Idle = 100, Running = 101, Paused = 102, Stopped = 103,
    MEOJSON_ENUM_RANGE(Idle, Stopped) } *)
Definition range_names (lo hi : Z) : list (bytes * Z) := [(of_string "_MEOJSON_ENUM_MIN", lo); (of_string "_MEOJSON_ENUM_MAX", hi)].
Definition status_names : list (bytes * Z) :=
  [(of_string "Idle", 100%Z); (of_string "Running", 101%Z); (of_string "Paused", 102%Z); (of_string "Stopped", 103%Z)].
Definition status_enum : enum :=
  Enum "Status" (Some (true, 32)) None
    (status_names ++ range_names 100 103) 100 103.
Lemma status_ordinary : ordinary status_enum.
Proof. ordinary. Qed.
Lemma status_distinct : distinct_enumerators status_enum.
Proof. distinct. Qed.
(** the same with the macro at the front *)
Definition front_enum : enum :=
  Enum "Status" (Some (true, 32)) None
    (range_names 100 103 ++ status_names) 100 103.
Lemma front_ordinary : ordinary front_enum.
Proof. ordinary. Qed.
Lemma front_distinct : distinct_enumerators front_enum.
Proof. distinct. Qed.
(** enum class Byte : uint8_t { low = 1, high = 200 } *)
Definition byte_enum : enum := Enum "Byte" (Some (false, 8)) None [(of_string "low", 1%Z); (of_string "high", 200%Z)] (-128) 128.
Lemma byte_ordinary : ordinary byte_enum.
Proof. ordinary. Qed.
Lemma byte_distinct : distinct_enumerators byte_enum.
Proof. distinct. Qed.
(** enum class Flag : bool { off, on } *)
Definition bool_enum : enum := Enum "Flag" None None [(of_string "off", 0%Z); (of_string "on", 1%Z)] (-128) 128.
(** enum Unfixed { a, b, c }: its values are those of two bits *)
Definition unfixed_enum : enum :=
  Enum "Unfixed" (Some (false, 32)) (Some (0, 3)%Z) [(of_string "a", 0%Z); (of_string "b", 1%Z); (of_string "c", 2%Z)] (-128) 128.
(** enum class Big : int64_t { small = 1, big = 2^32 + 1 } *)
Definition big_enum : enum :=
  Enum "Big" (Some (true, 64)) None [(of_string "small", 1%Z); (of_string "big", (2 ^ 32 + 1)%Z)] (-128) 128.
(** namespace ns { enum class Side { left, right }; } with Clang and MSVC *)
Definition side_enum (cc : compiler) : enum :=
  EnumOf (Some (true, 32)) None [(of_string "left", 0%Z); (of_string "right", 1%Z)] (-2) 2 cc (of_string "ns::Side") (of_string "ns::Side::").

(** struct S { int id; std::string name = a; std::vector<bool> flags; } with
    MEO_JSONIZATION(id, MEO_OPT MEO_KEY("b") name, flags) *)
Definition f_id : field := Field [] (of_string "id") (DInt 0).
Definition f_nm : field := Field [TagOpt; TagKey kb] (of_string "name") (DStr ka).
Definition f_flags : field := Field [] (of_string "flags") (DSeq []).
Definition s_fields : list (field * ty) := [(f_id, t_int); (f_nm, TStr); (f_flags, TVec TBool)].
Definition s_datum : list data := [DInt 5; DStr kb; DSeq [DBool true; DBool false]].
Lemma s_exact E : Forall (fun ft => exact E (snd ft)) s_fields.
Proof. repeat constructor. Qed.
Lemma key_plain n d k : effective_key (Field [] n d) k -> k = n.
Proof. intros [(a & b & H & _)|[_ H]]; auto. destruct a; discriminate. Qed.
Lemma key_nm k : effective_key f_nm k -> k = kb.
Proof.
  intros [(a & b & H & Hb)|[H _]].
  - destruct a as [|x [|y [|]]]; try discriminate. now injection H as _ <- _.
  - exfalso. apply (H kb). right. now left.
Qed.
Lemma s_distinct : distinct_keys s_fields.
Proof.
  intros i j f t f' t' k Hi Hj.
  destruct i as [|[|[|[|]]]]; try discriminate Hi; destruct j as [|[|[|[|]]]]; try discriminate Hj; auto;
    cbn in Hi, Hj; injection Hi as <- <-; injection Hj as <- <-; intros H H';
    first [apply key_nm in H|apply key_plain in H]; first [apply key_nm in H'|apply key_plain in H']; subst; discriminate.
Qed.
Lemma s_faithful E : faithful E (TRec s_fields) (DRec s_datum).
Proof. constructor; [|exact s_distinct]. repeat constructor; cbn; lia. Qed.

(** std::map<std::string, std::tuple<int, std::vector<std::string>, std::optional<bool>>> *)
Definition t_native : ty := TMap (TTup [t_int; TVec TStr; TOpt TBool]).
Definition d_native : data := DMap [(ka, DSeq [DInt 5; DSeq [DStr kb; DStr []]; DOpt (Some (DBool true))])].
Lemma t_native_native : native t_native.
Proof. repeat (constructor; cbn; try discriminate). Qed.
Lemma d_native_typed : has_type t_native d_native.
Proof. repeat (constructor; cbn; try lia). Qed.
Lemma d_native_full : no_nullopt d_native.
Proof. repeat constructor. Qed.

Definition sample_doc : value := v_object [(ka, v_array [v_number n5; v_null]); (kb, v_string ka)].
Lemma sample_doc_wf : wf sample_doc.
Proof.
  constructor; [|].
  - constructor; [|constructor; [exact (wf_str ka)|constructor]]. apply wf_arr. constructor; [exact wf_n5|constructor; [exact wf_null|constructor]].
  - apply sk_cons; [apply blt_lt; reflexivity|apply sk_one].
Qed.
Lemma faithful_sample : faithful env_names (TPtr (TVar [t_int; TEnum color])) (DOpt (Some (DAlt 1 (DInt 7)))).
Proof.
  constructor; [|exact I]. apply (fa_var env_names [t_int] (TEnum color) []).
  - apply (fa_enum env_names color (of_string "Blue")); [reflexivity|exact color_ordinary|exact color_distinct|eexists [_; _], []; split; [reflexivity|intros ? [X|[X|[]]]; discriminate]|unfold in_reflection_range; cbn; lia].
  - left. intros t [<-|[<-|[]]] H; inversion H.
  - intros t' v [<-|[]] H. vm_compute in H. injection H as <-. reflexivity.
Qed.
Lemma null_bad : ~ good_field env_names v_null (f_id, t_int).
Proof. intros [(w & k & _ & (m & H & _) & _)|(k & _ & _ & H)]; [discriminate|destruct H]. Qed.

(** std::set<int> *)
Definition int_lt (a b : data) : bool := match a, b with DInt x, DInt y => (x <? y)%Z | _, _ => false end.
Definition t_set : ty := TSet int_lt t_int.
Lemma int_lt_weak l : Forall (has_type t_int) l -> strict_weak (fun x => In x l) int_lt.
Proof.
  intros H. assert (X : forall d, In d l -> exists z, d = DInt z).
  { rewrite Forall_forall in H. intros d Hd. apply H in Hd. inversion Hd; subst. eauto. }
  split.
  - intros a Ha. destruct (X a Ha) as [z ->]. cbn. lia.
  - intros a b c Ha Hb Hc. destruct (X a Ha) as [x ->], (X b Hb) as [y ->], (X c Hc) as [z ->]. cbn. lia.
  - intros a b c Ha Hb Hc. destruct (X a Ha) as [x ->], (X b Hb) as [y ->], (X c Hc) as [z ->]. cbn. lia.
Qed.
Definition three_numbers : value := v_array [v_number n5; v_number (of_string "3"); v_number n5].
Definition three_ints : list data := [DInt 5; DInt 3; DInt 5].
Lemma three_typed : Forall (has_type t_int) three_ints.
Proof. repeat constructor; cbn; lia. Qed.

(** std::unordered_set<int> with the last one in front *)
Definition int_eq (a b : data) : bool := match a, b with DInt x, DInt y => (x =? y)%Z | _, _ => false end.
Definition int_hash (x : data) (s : list data) : list data := if existsb (int_eq x) s then s else x :: s.
Lemma int_hash_like : unordered_set_like int_eq int_hash.
Proof.
  intros x s. unfold int_hash. destruct (existsb (int_eq x) s) eqn:E.
  - split; auto. intros H. apply existsb_exists in E as (y & Hy & Hx). rewrite (H y Hy) in Hx. discriminate.
  - split; [|intros _; reflexivity]. intros (y & Hy & Hx). assert (existsb (int_eq x) s = true) by (apply existsb_exists; eauto). congruence.
Qed.
Lemma cons_like : unordered_multi_like (@cons data).
Proof. intros x s. reflexivity. Qed.
Lemma int_eq_on l : Forall (has_type t_int) l -> equality_on (fun x => In x l) int_eq.
Proof.
  intros H. assert (X : forall d, In d l -> exists z, d = DInt z).
  { rewrite Forall_forall in H. intros d Hd. apply H in Hd. inversion Hd; subst. eauto. }
  split.
  - intros a Ha. destruct (X a Ha) as [z ->]. cbn. lia.
  - intros a b Ha Hb. destruct (X a Ha) as [x ->], (X b Hb) as [y ->]. cbn. lia.
  - intros a b c Ha Hb Hc. destruct (X a Ha) as [x ->], (X b Hb) as [y ->], (X c Hc) as [z ->]. cbn. lia.
Qed.

(** a class written as the strings yes and no *)
Definition yes : bytes := of_string "yes".
Definition no : bytes := of_string "no".
Definition yes_no : ext := {|
  x_to d := match d with DBool b => Ok (v_string (if b then yes else no)) | _ => Fuel end;
  x_check v := match v with VStr Tstring s => Ok (bytes_eqb s yes || bytes_eqb s no) | _ => Ok false end;
  x_from v d := match v with
                | VStr Tstring s => if bytes_eqb s yes then (DBool true, Ok true) else if bytes_eqb s no then (DBool false, Ok true) else (d, Ok false)
                | _ => (d, Ok false)
                end;
  x_move_from := None; x_move_to := false; x_default := DBool false |}.
Lemma yes_no_lawful P : lawful P (TExt yes_no).
Proof.
  constructor; [|discriminate]. intros v _. cbn. destruct v as [[] s|t l|t m]; eauto.
Qed.
Lemma yes_no_exact E : exact E (TExt yes_no).
Proof.
  constructor. intros v _. cbn [x_check x_from x_default yes_no]. destruct v as [[] s|t l|t m]; eauto.
  destruct (bytes_eqb s yes); [eauto|]. destruct (bytes_eqb s no); eauto.
Qed.
(** std::map<std::string, std::set<int>> beside such a class *)
Definition t_mixed : ty := TTup [TMap t_set; TExt yes_no].
Definition d_mixed : data := DSeq [DMap [(ka, DSeq [DInt 3; DInt 5])]; DBool true].
Lemma mixed_faithful E : faithful E t_mixed d_mixed.
Proof.
  apply fa_tup; [|discriminate]. constructor; [|constructor; [|constructor]].
  - apply fa_map; [|apply sk_one]. constructor; [|constructor]. cbn [snd]. apply fa_coll.
    + constructor; [apply fa_int; cbn; lia|]. constructor; [apply fa_int; cbn; lia|constructor].
    + reflexivity.
  - apply (fa_ext E yes_no _ (v_string yes)); [reflexivity|constructor|discriminate|reflexivity|reflexivity].
Qed.
Lemma sample_addressable : addressable sample_doc.
Proof.
  intros p l H. inversion H as [|k ks v w x Hc Hp]; subst. inversion Hc; subst.
  match goal with X : In _ _ |- _ => destruct X as [[= <- <-]|[[= <- <-]|[]]] end.
  - inversion Hp as [|k' ks' v' w' x' Hc' Hp']; subst; [cbn; lia|]. inversion Hc'; subst.
    match goal with X : nth_error _ ?n = Some _ |- _ => destruct n as [|[|i]]; cbn in X; [injection X as <-|injection X as <-|destruct i; discriminate] end;
      inversion Hp' as [|? ? ? ? ? Hc'' ?]; subst; inversion Hc''.
  - inversion Hp as [|k' ks' v' w' x' Hc' Hp']; subst. inversion Hc'.
Qed.
Lemma two_optionals : by_operator [t_int; TOpt TValue; TTup [TValue]].
Proof.
  right. split; [intros [X|[X|[X|[]]]]; discriminate|]. exists [t_int], (TOpt TValue), [], (TTup [TValue]), [].
  split; [reflexivity|]. split; repeat constructor.
Qed.
