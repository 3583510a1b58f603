(** * Theorems about allocations that fail *)
From Verif Require Import Base BaseProofs Value Dump Containers Num Enum Conv Info Stream SpecConv SpecHeap SpecInfo Faults SpecFaults
  ApiProofs ConvProofs HeapSafety InfoProofs FaultsProofs.

Notation len t := (N.of_nat (length t)).
Lemma not_enough s : In true s -> ~ enough s.
Proof. unfold enough. tauto. Qed.

(** ** Text *)
Definition text_outcome (limit : N) (d : res bytes) (s : list bool) (r : res bytes) : Prop :=
  match d with
  | Ok t => (r = Ok t /\ len t <= limit) \/ (r = Throw BadAlloc /\ ~ enough s) \/ (r = Throw LengthError /\ limit < len t)
  | _ => r = d \/ (r = Throw BadAlloc /\ ~ enough s) \/ r = Throw LengthError
  end.
Lemma collect_writes limit w d s : writes limit w d -> text_outcome limit d s (snd (collect w s)).
Proof.
  intros H. destruct (H [] s ltac:(cbn; lia)) as (p & s' & r & E1 & I1 & C). unfold collect. rewrite E1. cbn [snd app].
  unfold text_outcome. destruct d as [t| | | |].
  - destruct C as [(-> & -> & L)|[(-> & T & _)|(-> & L & _)]]; cbn [bind]; try (cbn in L).
    + left. split; auto.
    + right. left. split; auto using not_enough.
    + right. right. split; auto.
  - destruct C as [->|[(-> & T)| ->]]; cbn [bind]; auto. right. left. split; auto using not_enough.
  - destruct C as [->|[(-> & T)| ->]]; cbn [bind]; auto. right. left. split; auto using not_enough.
  - destruct C as [->|[(-> & T)| ->]]; cbn [bind]; auto. right. left. split; auto using not_enough.
  - destruct C as [->|[(-> & T)| ->]]; cbn [bind]; auto. right. left. split; auto using not_enough.
Qed.
Theorem dumps_fault limit n v s : text_outcome limit (dumps n v) s (snd (try_dumps limit n v s)).
Proof. apply collect_writes. destruct n; cbn [dumps]; [apply writes_lay|apply writes_emit]. Qed.
Lemma each_emit limit l : each limit (emit limit) dump l.
Proof. apply Forall_forall. intros. apply writes_emit. Qed.
Lemma each_lay limit i n l : each limit (lay limit i n) (format_to i n) l.
Proof. apply Forall_forall. intros. apply writes_lay. Qed.
Theorem array_dumps_fault limit n l s : text_outcome limit (array_dumps n l) s (snd (try_array_dumps limit n l s)).
Proof. apply collect_writes. destruct n; cbn [array_dumps]; [apply writes_lay_array, each_lay|apply writes_array, each_emit]. Qed.
Theorem object_dumps_fault limit n m s : text_outcome limit (object_dumps n m) s (snd (try_object_dumps limit n m s)).
Proof. apply collect_writes. destruct n; cbn [object_dumps]; [apply writes_lay_object, each_lay|apply writes_object, each_emit]. Qed.
Theorem dumps_value limit n v t s : dumps n v = Ok t ->
  let r := snd (try_dumps limit n v s) in
  (r = Ok t /\ len t <= limit) \/ (r = Throw BadAlloc /\ ~ enough s) \/ (r = Throw LengthError /\ limit < len t).
Proof. intros H. pose proof (dumps_fault limit n v s) as X. rewrite H in X. exact X. Qed.
Theorem dumps_array limit n l t s : array_dumps n l = Ok t ->
  let r := snd (try_array_dumps limit n l s) in
  (r = Ok t /\ len t <= limit) \/ (r = Throw BadAlloc /\ ~ enough s) \/ (r = Throw LengthError /\ limit < len t).
Proof. intros H. pose proof (array_dumps_fault limit n l s) as X. rewrite H in X. exact X. Qed.
Theorem dumps_object limit n m t s : object_dumps n m = Ok t ->
  let r := snd (try_object_dumps limit n m s) in
  (r = Ok t /\ len t <= limit) \/ (r = Throw BadAlloc /\ ~ enough s) \/ (r = Throw LengthError /\ limit < len t).
Proof. intros H. pose proof (object_dumps_fault limit n m s) as X. rewrite H in X. exact X. Qed.
Theorem dumps_enough limit n v t s : dumps n v = Ok t -> enough s -> (snd (try_dumps limit n v s) = Ok t <-> len t <= limit).
Proof.
  intros H He. destruct (dumps_value limit n v t s H) as [[-> L]|[[-> L]|[-> L]]]; [tauto|tauto|]. split; [discriminate|lia].
Qed.
(** what cannot be written cannot be written with less memory *)
Theorem dumps_never limit n v s t : snd (try_dumps limit n v s) = Ok t -> dumps n v = Ok t.
Proof.
  intros H. pose proof (dumps_fault limit n v s) as X. rewrite H in X. unfold text_outcome in X. destruct (dumps n v) as [t'|e| | |].
  - destruct X as [[X _]|[[X _]|[X _]]]; congruence.
  - destruct X as [X|[[X _]|X]]; congruence.
  - destruct X as [X|[[X _]|X]]; congruence.
  - destruct X as [X|[[X _]|X]]; congruence.
  - destruct X as [X|[[X _]|X]]; congruence.
Qed.
Theorem insert_fault limit v o s : exists o' r, snd (try_insert limit v o s) = (o', r) /\
  ((r = Ok tt /\ insert_value v o = Ok o') \/ (r <> Ok tt /\ o' = o)).
Proof.
  unfold try_insert. pose proof (dumps_never limit (Some 4) v s) as X. unfold insert_value.
  destruct (try_dumps limit (Some 4) v s) as [s' [t|e| | |]]; cbn [snd] in *.
  - eexists _, _. split; [reflexivity|]. left. split; auto. now rewrite (X t eq_refl).
  - eexists _, _. split; [reflexivity|]. right. split; auto. discriminate.
  - eexists _, _. split; [reflexivity|]. right. split; auto. discriminate.
  - eexists _, _. split; [reflexivity|]. right. split; auto. discriminate.
  - eexists _, _. split; [reflexivity|]. right. split; auto. discriminate.
Qed.
(** std::string::max_size() of libstdc++ on 64 bits *)
Definition max_size : N := 2 ^ 63 - 1.
Theorem too_long : exists n v t, dumps (Some n) v = Ok t /\ n < 2 ^ 64 /\ snd (try_dumps max_size (Some n) v []) = Throw LengthError.
Proof.
  exists (2 ^ 63), (v_array [v_null]). eexists. split; [|split; [reflexivity|vm_compute; reflexivity]].
  cbn [dumps v_array v_null format_to format_array_with format_elems bind dump]. reflexivity.
Qed.

(** ** value_info *)
Definition yields {A} (P : Prop) (m : M A) (a : A) : Prop := forall s,
  exists s' o, m s = (s', o) /\ incl s' s /\ (o = Res (Ok a) \/ exists e, o = Res (Throw e) /\ (In true s \/ P)).
Section Yields.
  Context (P : Prop).
  Lemma yields_now {A} (a : A) : yields P (now (Ok a)) a.
  Proof. intros s. exists s, (Res (Ok a)). splits; auto using incl_refl. Qed.
  Lemma yields_text short k : yields P (text short k) tt.
  Proof.
    unfold text. destruct (_ <=? _)%nat; [apply yields_now|]. intros [|[] s]; cbn.
    - exists [], (Res (Ok tt)). splits; auto using incl_refl.
    - eexists s, _. splits; auto using incl_tl, incl_refl. right. eexists. splits; auto using in_eq.
    - eexists s, _. splits; auto using incl_tl, incl_refl.
  Qed.
  Lemma yields_bind {A B} (m : M A) (f : A -> M B) a b : yields P m a -> yields P (f a) b -> yields P (bindM m f) b.
  Proof.
    intros H H' s. destruct (H s) as (s1 & o & E1 & I1 & C1). unfold bindM. rewrite E1. destruct C1 as [->|(e & -> & HT)].
    - destruct (H' s1) as (s2 & o2 & E2 & I2 & C2). exists s2, o2. splits; auto; [eapply incl_tran; eauto|]. destruct C2 as [->|(e & -> & [HT|HT])]; [left; auto|right; eauto|right; eauto].
    - eexists s1, _. split; [reflexivity|]. split; auto. right. eauto.
  Qed.
End Yields.
Section Info.
  Context (limit : N) (short : nat) (cc : compiler).
  Definition brief (v : value) : bytes := of_string "type=" ++ tag_name (type_of v).
  Lemma name_exact v s : (7 <= short)%nat -> try_type_name short cc v s = (s, Res (Ok (tag_name (type_of v)))).
  Proof.
    intros H. unfold try_type_name. rewrite type_name_spec. unfold noexcept, bindM, now. unfold text.
    destruct (Nat.leb_spec (length (tag_name (type_of v))) short) as [|L]; [reflexivity|]. exfalso. destruct (type_of v); cbn in L; lia.
  Qed.
  Definition too_long_text (v : value) : Prop := exists t, dumps None v = Ok t /\ limit < len t.
  Ltac steps :=
    repeat first
      [ apply yields_now
      | match goal with |- yields _ (bindM (text _ _) _) _ => eapply yields_bind; [apply yields_text|] end
      | match goal with |- yields _ (bindM (now (Ok _)) _) _ => eapply yields_bind; [apply yields_now|] end ].
  Lemma dump_yields v t : dump v = Ok t -> yields (too_long_text v) (fun l => let '(l', r) := try_dumps limit None v l in (l', Res r)) t.
  Proof.
    intros H s. destruct (writes_emit limit v [] s ltac:(cbn; lia)) as (p & s' & r & E1 & I1 & C). rewrite H in C.
    unfold try_dumps, collect. rewrite E1. cbn [app]. eexists s', _. split; [reflexivity|]. split; auto.
    destruct C as [(-> & -> & L)|[(-> & T & _)|(-> & L & _)]]; cbn [bind].
    - now left.
    - right. eauto.
    - right. eexists. split; [reflexivity|]. right. exists t. split; auto.
  Qed.
  Lemma body_yields v i : (7 <= short)%nat -> sound v -> info_body cc v = Ok i -> yields (too_long_text v) (try_info_body limit short cc v) i.
  Proof.
    intros Hs Hv Hi. apply sound_okv in Hv. unfold try_info_body. eapply yields_bind.
    { intros s. rewrite name_exact by auto. exists s, (Res (Ok (tag_name (type_of v)))). splits; auto using incl_refl. }
    revert Hi. unfold info_body. rewrite type_name_spec. cbn [bind]. intros Hi. steps. revert Hi.
    destruct Hv as [t s Hp|l Hl|[]|m Hm Hk|[]]; cbn [type_of].
    - destruct Hp as [H1 H2]. destruct t; try congruence; intros Hi; try (injection Hi as <-; steps; fail).
      all: match type of Hi with context [dump ?v] => destruct (dump v) as [x| | | |] eqn:Hx; cbn [bind] in Hi; try discriminate;
             eapply yields_bind; [apply dump_yields; exact Hx|] end; injection Hi as <-; destruct (Nat.ltb 100 (length x)); steps.
    - cbn [as_array_c is_array type_of vtype_eqb get_arr bind]. intros [= <-]. steps.
    - cbn [as_object_c is_object type_of vtype_eqb get_obj bind]. intros [= <-]. steps.
  Qed.
  Theorem info_fault v i s : (12 <= short)%nat -> sound v -> value_info cc v = Ok i ->
    let o := snd (try_value_info limit short cc v s) in
    o = Res (Ok i) \/ (o = Res (Ok (brief v)) /\ (~ enough s \/ too_long_text v)).
  Proof.
    intros Hs Hv Hi. assert (Hb : info_body cc v = Ok i).
    { revert Hi. unfold value_info. destruct (info_body cc v) eqn:Eb; auto. apply sound_okv in Hv. revert Eb. unfold info_body. rewrite type_name_spec. cbn [bind].
      destruct Hv as [t x Hp|l Hl|[]|m Hm Hk|[]]; cbn [type_of].
      - destruct Hp as [H1 H2]. destruct t; try congruence; cbn; discriminate.
      - cbn; discriminate.
      - cbn; discriminate. }
    destruct (body_yields v i ltac:(lia) Hv Hb s) as (s1 & o & E1 & I1 & C1). unfold try_value_info, noexcept. rewrite E1.
    destruct C1 as [->|(e & -> & HT)]; [now left|]. right. unfold bindM. rewrite name_exact by lia.
    unfold text. destruct (Nat.leb_spec (length (of_string "type=" ++ tag_name (type_of v))) short) as [|L].
    - cbn [snd now]. split; [reflexivity|]. destruct HT as [HT|HT]; [left; now apply not_enough|auto].
    - exfalso. rewrite app_length in L. destruct (type_of v); cbn in L; lia.
  Qed.
End Info.
(** strings without room of their own, as with _GLIBCXX_USE_CXX11_ABI=0 *)
Theorem info_ends : exists v s, sound v /\ snd (try_value_info max_size 0 GCC v s) = Ended.
Proof. exists v_null, [true]. split; [apply wf_sound; constructor|]. vm_compute. reflexivity. Qed.

(** ** Conversions *)
Section Reading.
  Context (short : nat) (E : env).
  Theorem is_fault t v s : lawful sound t -> sound v ->
    let o := snd (try_is short E t v s) in
    o = Res (is_ E t v) \/ (o = Ended /\ ~ enough s /\ is_requests short t = true).
  Proof.
    intros Hl Hv. apply sound_okv in Hv. destruct (runs_is short E t Hl v Hv s) as (s1 & o & -> & _ & C). cbn [snd].
    destruct C as [->|[(-> & ? & [])|(-> & ? & ?)]]; auto. right. splits; auto using not_enough.
  Qed.
  Definition read_outcome {A} (ends : bool) (r : res A) (s : list bool) (o : outcome A) : Prop :=
    same_or_bad_alloc r s o \/ (o = Ended /\ ~ enough s /\ ends = true).
  Lemma runs_outcome {A} (ends : bool) (m : M A) r s : runs True (ends = true) m r -> read_outcome ends r s (snd (m s)).
  Proof.
    intros H. destruct (H s) as (s1 & o & -> & _ & C). cbn [snd]. destruct C as [->|[(-> & T & _)|(-> & T & ?)]].
    - left. now left.
    - left. right. split; auto using not_enough.
    - right. splits; auto using not_enough.
  Qed.
  Theorem as_fault t v s : lawful sound t -> sound v -> read_outcome (as_asks short t) (as_ E t v) s (snd (try_as short E t v s)).
  Proof. intros Hl Hv. apply runs_outcome, runs_as; auto. now apply sound_okv. Qed.

  Definition both (t : ty) : bool := is_requests short t || as_asks short t.
  Lemma runs_both_is t v : lawful sound t -> ok v -> runs True (both t = true) (try_is short E t v) (is_ E t v).
  Proof. intros. eapply runs_weak; [| |now apply runs_is]; [tauto|]. unfold both. intros ->. reflexivity. Qed.
  Lemma runs_both_as t v : lawful sound t -> ok v -> runs True (both t = true) (try_as short E t v) (as_ E t v).
  Proof. intros. eapply runs_weak; [| |now apply runs_as]; [tauto|]. unfold both. intros ->. apply orb_true_r. Qed.
  Lemma runs_found t o : lawful sound t -> (forall w, o = Some w -> ok w) -> runs True (both t = true) (try_found short E t o) (found E t o).
  Proof.
    intros Hl Ho. destruct o as [w|]; cbn [try_found found]; [|apply runs_now]. specialize (Ho w eq_refl).
    apply runs_bind; [now apply runs_both_is|]. intros [] _; [|apply runs_now]. apply runs_bind; [now apply runs_both_as|]. intros; apply runs_now.
  Qed.
  Lemma arr_find_ok l n w : Forall ok l -> arr_find_value n l = Some w -> ok w.
  Proof.
    intros H. unfold arr_find_value, nthN. destruct (arr_contains n l); [|discriminate]. destruct (n <? size l); [|discriminate]. intros Hw. apply nth_error_In in Hw.
    rewrite Forall_forall in H. auto.
  Qed.
  Lemma obj_find_ok m k w : Forall (fun kv => ok (snd kv)) m -> map_find k m = Some w -> ok w.
  Proof.
    induction 1 as [|[k' x] m Hx _ IH]; cbn [map_find]; [discriminate|]. destruct (bytes_eqb k k'); intros Hw; auto. now injection Hw as <-.
  Qed.
  Theorem find_pos_fault t pos v s : lawful sound t -> sound v -> read_outcome (both t) (v_find_pos E t pos v) s (snd (try_find_pos short E t pos v s)).
  Proof.
    intros Hl Hv. apply sound_okv in Hv. apply runs_outcome. unfold try_find_pos, v_find_pos. apply runs_bind; [apply runs_now|]. intros o Ho. apply runs_found; auto.
    intros w ->. unfold v_find_value_pos in Ho. destruct (is_array v); [|discriminate]. destruct (as_array_c v) as [l| | | |] eqn:El; cbn [bind] in Ho; try discriminate.
    injection Ho as Ho. eapply arr_find_ok; [|exact Ho]. eapply array_elems; eauto.
  Qed.
  Theorem find_key_fault t k v s : lawful sound t -> sound v -> read_outcome (both t) (v_find_key E t k v) s (snd (try_find_key short E t k v s)).
  Proof.
    intros Hl Hv. apply sound_okv in Hv. apply runs_outcome. unfold try_find_key, v_find_key. apply runs_bind; [apply runs_now|]. intros o Ho. apply runs_found; auto.
    intros w ->. destruct (ok_find v k Hv) as (o' & Ho' & H). apply H. congruence.
  Qed.

  Lemma runs_default (T : Prop) t d : runs True T (try_default t d) (default_or_string t d).
  Proof. destruct t; cbn; try apply runs_now; (apply runs_step; [now apply runs_request|apply runs_now]). Qed.
  Lemma runs_conditional (T : Prop) t d : runs True T (try_conditional t d) (conditional_default t d).
  Proof. destruct t; cbn; try apply runs_now; (apply runs_step; [now apply runs_request|apply runs_now]). Qed.
  Lemma runs_or_default t v d : lawful sound t -> ok v -> runs True (both t = true) (try_or_default short E t v d) (json_value_or_default E t v d).
  Proof.
    intros Hl Hv. unfold try_or_default, json_value_or_default. apply runs_bind; [now apply runs_both_is|]. intros [] _; [|apply runs_default].
    destruct (returns_string t); [|now apply runs_both_as]. eapply runs_weak; [| |apply runs_as; [constructor|exact Hv]]; [tauto|discriminate].
  Qed.
  Lemma runs_get t d ks : lawful sound t -> forall v, ok v -> runs True (both t = true) (try_get short E t d ks v) (v_get E t d ks v).
  Proof.
    intros Hl. induction ks as [|[k|z] rest IH]; intros v Hv; cbn [try_get v_get]; [apply runs_now| |].
    - destruct (is_object v); [|apply runs_conditional]. unfold conditional_container at 2. apply runs_bind.
      + apply runs_bind; [now apply runs_text_error|]. intros m Hm. apply runs_step; [now apply runs_text|]. destruct (map_find k m) as [w|] eqn:Ew; [|apply runs_default].
        assert (Hw : ok w) by (eapply obj_find_ok; [eapply object_elems; eauto|exact Ew]). destruct (is_nil rest); [now apply runs_or_default|now apply IH].
      + intros x _. apply runs_now.
    - destruct (is_array v); [|apply runs_conditional]. unfold conditional_container at 2. apply runs_bind.
      + apply runs_bind; [now apply runs_text_error|]. intros l Hm. destruct (arr_find_value (to_size_t z) l) as [w|] eqn:Ew; [|apply runs_default].
        assert (Hw : ok w) by (eapply arr_find_ok; [eapply array_elems; eauto|exact Ew]). destruct (is_nil rest); [now apply runs_or_default|now apply IH].
      + intros x _. apply runs_now.
  Qed.
  Theorem get_fault t d ks v s : lawful sound t -> sound v -> read_outcome (both t) (v_get E t d ks v) s (snd (try_get short E t d ks v s)).
  Proof. intros Hl Hv. apply runs_outcome, runs_get; auto. now apply sound_okv. Qed.

  Theorem load_fault fs v cur s : lawful sound (TRec fs) -> sound v -> length cur = length fs ->
    forall l s' o, try_from_json short E fs v cur s = (l, (s', o)) ->
    (l = fst (from_json E fs v cur) /\ o = Res (snd (from_json E fs v cur))) \/
    ((o = Res (Throw BadAlloc) \/ (o = Ended /\ as_asks short (TRec fs) = true)) /\ ~ enough s /\
     exists n, l = assigned_up_to n cur (fst (from_json E fs v cur))).
  Proof.
    intros Hlaw Hv Hlen l s' o Hr. apply sound_okv in Hv. assert (Hts : Forall (fun ft => lawful sound (snd ft)) fs) by now inversion Hlaw.
    assert (L : loads short E (as_asks short (TRec fs) = true) (try_as short E) fs v cur).
    { apply load_runs; auto.
      - rewrite Forall_forall in *. intros ft Hft w Hw. eapply runs_weak; [| |apply runs_as; auto]; auto. intros Ha. cbn [as_asks]. apply existsb_exists. exists ft. split; auto. rewrite Ha. apply orb_true_r.
      - rewrite Forall_forall in *. intros ft Hft w Hw. eapply runs_weak; [| |apply runs_is; auto]; auto. intros Ha. cbn [as_asks]. apply existsb_exists. exists ft. split; auto. now rewrite Ha. }
    unfold try_from_json in Hr. destruct (L s) as (l1 & s1 & o1 & E1 & _ & C1). rewrite Hr in E1. injection E1 as <- <- <-. unfold from_json.
    destruct C1 as [H|([(-> & HT)|(-> & HT & HB)] & n & Hn)].
    - injection H as -> ->. now left.
    - right. splits; auto using not_enough. now exists n.
    - right. splits; auto using not_enough. now exists n.
  Qed.
  (** types read without any request when reading succeeds *)
  Theorem scalars_fault t v d s : match t with TBool | TInt _ _ | TFlt _ | TView | TNullptr | TMono | TEnum _ => True | _ => False end ->
    as_ E t v = Ok d -> snd (try_as short E t v s) = Res (Ok d).
  Proof. intros Ht H. destruct t; try contradiction; cbn [try_as]; rewrite H; reflexivity. Qed.
  Theorem quiet_is_fault t v s : lawful sound t -> sound v -> is_requests short t = false -> snd (try_is short E t v s) = Res (is_ E t v).
  Proof. intros Hl Hv Hr. destruct (is_fault t v s Hl Hv) as [->|(_ & _ & H)]; [reflexivity|congruence]. Qed.
  (** a struct with a member that owns memory from the start *)
  Theorem default_ends fs v : existsb (holds_memory short) (map (fun ft => f_default (fst ft)) fs) = true -> exists s, snd (try_is short E (TRec fs) v s) = Ended.
  Proof.
    intros H. exists [true]. rewrite <- (owns_all short) in H. cbn [try_is]. unfold noexcept, bindM, fresh, defaults. rewrite H. reflexivity.
  Qed.
  (** a struct whose first key is long *)
  Theorem long_key_ends f t fs v : (short < length (json_key f))%nat -> exists s, snd (try_is short E (TRec ((f, t) :: fs)) v s) = Ended.
  Proof.
    intros H. assert (Ht : text short (json_key f) = request) by (unfold text; destruct (Nat.leb_spec (length (json_key f)) short); [lia|reflexivity]).
    destruct (existsb (owns short) (defaults ((f, t) :: fs))) eqn:Ef.
    - exists [true]. cbn [try_is]. unfold noexcept, bindM, fresh. rewrite Ef. reflexivity.
    - exists [true]. cbn [try_is try_check_fields]. unfold noexcept, bindM, fresh. rewrite Ef. cbn [now]. rewrite Ht. reflexivity.
  Qed.
End Reading.
