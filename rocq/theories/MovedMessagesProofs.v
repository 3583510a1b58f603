(** * Proofs: the texts of exceptions of conversions of rvalues. *)
From Verif Require Import Base Value Dump Spec Containers Num Enum Conv Api SpecApi SpecConv Heap SpecHeap Info SpecInfo Messages SpecMessages
  BaseProofs DumpProofs ContainerProofs ApiProofs NumProofs EnumProofs ConvProofs HeapSafety InfoProofs MessagesProofs MessagesTheorems.

Section Moved.
  Context (cc : compiler) (E : env) (names : bool -> N -> bytes) (left : ext -> value -> value) (HL : leaves_sound left).
  Notation as_said := (as_said cc E names).
  Notation as_rv_said := (as_rv_said cc E names left).
  Notation cast_rv_said := (cast_rv_said cc E names left).
  Notation complains := (complains E names).
  Notation complains_rv := (complains_rv E names left).

  (** ** The same outcome *)
  Lemma sound_type_error {A} v : sound v -> @type_error A v = Throw JsonException.
  Proof. intros H. apply sound_okv in H. destruct H as [t s _|l _|[]|m _ _|[]]; [|reflexivity|reflexivity]. destruct t; reflexivity. Qed.
  Lemma as_rv_plainly t v : sound v -> plainly (as_rv_said t v) = as_rv E t v.
  Proof.
    intros Hv. destruct t; try apply as_said_plainly; [reflexivity|].
    cbn [Messages.as_rv_said as_rv]. destruct (x_move_from x) as [f|]; apply user_plainly; [|reflexivity]. rewrite !sound_type_error; auto.
  Qed.
  Lemma array_taken_plainly v : plainly (array_taken cc v) = snd (as_array_m v).
  Proof.
    unfold array_taken, as_array_m. destruct (coerce (v_array []) v) as [v1 r]. cbn [snd]. rewrite plainly_ask. cbn [plainly].
    destruct r; cbn [bind]; auto. exact (array_plainly cc v1).
  Qed.
  Lemma object_taken_plainly v : plainly (object_taken cc v) = snd (as_object_m v).
  Proof.
    unfold object_taken, as_object_m. destruct (coerce (v_object []) v) as [v1 r]. cbn [snd]. rewrite plainly_ask. cbn [plainly].
    destruct r; cbn [bind]; auto. exact (object_plainly cc v1).
  Qed.
  Lemma v_empty_ok v : ok v -> (v_empty v = Ok true /\ (type_of v = Tnull \/ v = VStr Tstring [] \/ v = VArr Tarray (Some []) \/ v = VObj Tobject (Some []))) \/
    v_empty v = Ok false.
  Proof.
    intros [t s [H1 H2]|l _|[]|m _ _|[]].
    - destruct t; cbn; try congruence; auto. destruct s; cbn; auto.
    - destruct l; cbn; auto 6.
    - destruct m; cbn; auto 6.
  Qed.
  Lemma ok_arr_elems l : ok (VArr Tarray (Some l)) -> Forall ok l.
  Proof. intros H. now inversion H. Qed.
  Lemma array_taken_done v l : ok v -> array_taken cc v = Done (Ok l) -> Forall ok l /\ (v = VArr Tarray (Some l) \/
    l = [] /\ (type_of v = Tnull \/ v = VStr Tstring [] \/ v = VObj Tobject (Some []))).
  Proof.
    intros Hv. unfold array_taken, coerce. destruct (v_empty_ok v Hv) as [[-> H]| ->]; cbn [bind ask].
    - intros [= <-]. split; [constructor|]. destruct H as [H|[H|[H|H]]]; auto.
    - intros H. destruct (array_done cc v l Hv H). auto.
  Qed.
  Lemma array_taken_says t v m : from_array t -> ok v -> array_taken cc v = Says m -> complains t v m.
  Proof.
    intros Ht Hv. unfold array_taken, coerce. destruct (v_empty_ok v Hv) as [[-> H]| ->]; cbn [bind ask]; [discriminate|]. now apply array_says.
  Qed.
  Lemma object_taken_done v l : ok v -> object_taken cc v = Done (Ok l) -> Forall (fun kv => ok (snd kv)) l /\ (v = VObj Tobject (Some l) \/ l = []).
  Proof.
    intros Hv. unfold object_taken, coerce. destruct (v_empty_ok v Hv) as [[-> H]| ->]; cbn [bind ask].
    - intros [= <-]. split; [constructor|]. auto.
    - intros H. destruct (object_done cc v l Hv H). auto.
  Qed.
  Lemma object_taken_says t v m : from_object t -> ok v -> object_taken cc v = Says m -> complains t v m.
  Proof.
    intros Ht Hv. unfold object_taken, coerce. destruct (v_empty_ok v Hv) as [[-> H]| ->]; cbn [bind ask]; [discriminate|]. now apply object_says.
  Qed.
  Lemma taken_array v : sound v -> forall l, snd (as_array_m v) = Ok l -> Forall sound l.
  Proof.
    intros Hv l H. apply sound_okv in Hv. rewrite <- array_taken_plainly in H. destruct (array_taken cc v) as [r|] eqn:A; [|discriminate]. cbn in H. subst r.
    destruct (array_taken_done v l Hv A) as [Hl _]. eapply Forall_impl; [|exact Hl]. intros x. apply sound_okv.
  Qed.
  Lemma taken_object v : sound v -> forall l, snd (as_object_m v) = Ok l -> Forall (fun kv => sound (snd kv)) l.
  Proof.
    intros Hv l H. apply sound_okv in Hv. rewrite <- object_taken_plainly in H. destruct (object_taken cc v) as [r|] eqn:A; [|discriminate]. cbn in H. subst r.
    destruct (object_taken_done v l Hv A) as [Hl _]. eapply Forall_impl; [|exact Hl]. intros x. apply sound_okv.
  Qed.
  Lemma each_member_plainly' {A B} (f : A -> said B) (g : A -> res B) l : Forall (fun kv => plainly (f (snd kv)) = g (snd kv)) l -> plainly (each_member f l) = mapM_members g l.
  Proof.
    induction 1 as [|[k x] l Hx _ IH]; [reflexivity|]. cbn [snd] in Hx. cbn. rewrite plainly_ask, Hx. destruct (g x); cbn; auto.
    rewrite plainly_ask, IH. destruct (mapM_members g l); reflexivity.
  Qed.
  Lemma elems_plainly t l : Forall sound l -> plainly (each (as_rv_said t) l) = mapM (as_rv E t) l.
  Proof. intros H. apply each_plainly. eapply Forall_impl; [|exact H]. intros x. apply as_rv_plainly. Qed.
  Lemma tuple_plainly ts : forall l, Forall sound l -> plainly (tuple_said as_rv_said ts l) = as_tuple (as_rv E) ts l.
  Proof.
    induction ts as [|t ts IH]; intros l Hl; [reflexivity|]. destruct Hl as [|x l Hx Hl]; [reflexivity|]. cbn [tuple_said as_tuple].
    rewrite plainly_ask, as_rv_plainly by exact Hx. destruct (as_rv E t x); cbn [bind]; auto. rewrite plainly_ask, IH by exact Hl. destruct (as_tuple (as_rv E) ts l); reflexivity.
  Qed.
  Theorem cast_rv_plainly t : forall v, sound v -> plainly (cast_rv_said t v) = cast_rv E t v.
  Proof.
    induction t as [ | | | |sg w|p| | | | |t IH|t IH|t IH|ins t IH|n t IH|ts IH|ts IH|t IH|e|fs IH|x] using ty_ind'; intros v Hv; cbn [Messages.cast_rv_said cast_rv].
    all: try apply as_said_plainly.
    - reflexivity.
    - rewrite plainly_ask, array_taken_plainly. destruct (snd (as_array_m v)); reflexivity.
    - rewrite plainly_ask, object_taken_plainly. destruct (snd (as_object_m v)); reflexivity.
    - rewrite plainly_ask, IH by exact Hv. destruct (cast_rv E t v); reflexivity.
    - destruct (is_null v); [reflexivity|]. rewrite plainly_ask, IH by exact Hv. destruct (cast_rv E t v); reflexivity.
    - rewrite plainly_ask, array_taken_plainly. pose proof (taken_array v Hv) as Hl. destruct (snd (as_array_m v)) as [l| | | |]; cbn [bind]; auto.
      rewrite plainly_ask, elems_plainly by auto. destruct (mapM _ l); reflexivity.
    - rewrite plainly_ask, array_taken_plainly. pose proof (taken_array v Hv) as Hl. destruct (snd (as_array_m v)) as [l| | | |]; cbn [bind]; auto.
      rewrite plainly_ask, elems_plainly by auto. destruct (mapM _ l); reflexivity.
    - rewrite plainly_ask, array_taken_plainly. pose proof (taken_array v Hv) as Hl. destruct (snd (as_array_m v)) as [l| | | |]; cbn [bind]; auto.
      destruct (Nat.eqb _ _); [|reflexivity]. rewrite plainly_ask, elems_plainly by auto. destruct (mapM _ l); reflexivity.
    - assert (G : plainly (asked l <- array_taken cc v;
        if Nat.eqb (length l) (length ts) then asked r <- tuple_said as_rv_said ts l; Done (Ok (DSeq r)) else Says (tuple_message (length ts) (length l))) =
        do l <- snd (as_array_m v); if Nat.eqb (length l) (length ts) then do r <- as_tuple (as_rv E) ts l; Ok (DSeq r) else Throw JsonException).
      { rewrite plainly_ask, array_taken_plainly. pose proof (taken_array v Hv) as Hl. destruct (snd (as_array_m v)) as [l| | | |]; cbn [bind]; auto.
        destruct (Nat.eqb _ _); [|reflexivity]. rewrite plainly_ask, tuple_plainly by auto. destruct (as_tuple (as_rv E) ts l); reflexivity. }
      destruct ts as [|t [|t' ts]]; [exact G| |exact G]. rewrite plainly_ask. inversion IH as [|? ? Ht _]; subst. rewrite Ht by exact Hv. destruct (cast_rv E t v); reflexivity.
    - destruct (chosen ts) as [n|].
      + rewrite plainly_ask. assert (G : plainly (alternative_said cast_rv_said ts n v) = as_alternative (cast_rv E) ts n v).
        { revert n. induction IH as [|t ts Ht _ IHt]; intros n; [reflexivity|]. destruct n; cbn; auto. }
        rewrite G. destruct (as_alternative (cast_rv E) ts n v); reflexivity.
      + clear IH. generalize O. induction ts as [|t ts IHt]; intros n; [apply plainly_complain|]. cbn [variant_said as_variant]. rewrite plainly_ask. cbn [plainly].
        destruct (is_ E t v) as [[]| | | |]; cbn [bind]; try reflexivity; [rewrite plainly_ask, as_rv_plainly by exact Hv; destruct (as_rv E t v); reflexivity|]. apply IHt.
    - rewrite plainly_ask, object_taken_plainly. pose proof (taken_object v Hv) as Hl. destruct (snd (as_object_m v)) as [l| | | |]; cbn [bind]; auto.
      rewrite plainly_ask, (each_member_plainly' _ (as_rv E t)); [destruct (mapM_members _ l); reflexivity|].
      eapply Forall_impl; [|exact (Hl l eq_refl)]. intros [k x]. apply as_rv_plainly.
    - now apply as_rv_plainly.
  Qed.

  (** ** What the text says *)
  Definition explained_rv (t : ty) (v : value) (m : bytes) : Prop := exists t' w, reaches t v t' w /\ complains_rv t' w m.
  Lemma rv_here t v m : complains_rv t v m -> explained_rv t v m.
  Proof. intros H. exists t, v. split; [constructor|exact H]. Qed.
  Lemma rv_plain t v m : explained E names t v m -> explained_rv t v m.
  Proof. intros (t' & w & H1 & H2). exists t', w. split; [exact H1|now constructor]. Qed.
  Theorem as_rv_explained t v m : ok v -> as_rv_said t v = Says m -> explained_rv t v m.
  Proof.
    intros Hv H. assert (C : (exists x f, t = TExt x /\ x_move_from x = Some f) \/ as_said t v = Says m).
    { destruct t; cbn [Messages.as_rv_said] in H; auto; [discriminate|]. destruct (x_move_from x) as [f|] eqn:F; [left; eauto|right; exact H]. }
    destruct C as [(x & f & -> & F)|C].
    - cbn [Messages.as_rv_said] in H. rewrite F in H. unfold user_said in H. destruct (f v (x_default x)) as [d [[]| | | |]] eqn:D; try discriminate.
      apply complain_says in H as (i & Hi & ->); [|apply sound_okv, HL; now apply sound_okv]. apply rv_here. eapply cr_move; eauto.
    - apply rv_plain. exact (as_said_explained cc E names t v m Hv C).
  Qed.
  Lemma rv_elem t v l x m : ok v -> Forall ok l -> In x l -> as_rv_said t x = Says m -> exists t' w, reaches t x t' w /\ complains_rv t' w m.
  Proof. intros Hv Hl Hx H. rewrite Forall_forall in Hl. exact (as_rv_explained t x m (Hl x Hx) H). Qed.
  Theorem cast_rv_explained t : forall v m, ok v -> cast_rv_said t v = Says m -> explained_rv t v m.
  Proof.
    induction t as [ | | | |sg w|p| | | | |t IH|t IH|t IH|ins t IH|n t IH|ts IH|ts IH|t IH|e|fs IH|x] using ty_ind'; intros v m Hv H; cbn [Messages.cast_rv_said] in H.
    all: try (apply rv_plain; exact (as_said_explained cc E names _ v m Hv H)).
    - discriminate.
    - apply ask_says in H as [H|(l & _ & H)]; [|discriminate]. apply rv_here, cr_same. now apply array_taken_says.
    - apply ask_says in H as [H|(l & _ & H)]; [|discriminate]. apply rv_here, cr_same. now apply object_taken_says.
    - apply ask_says in H as [H|(? & _ & H)]; [|discriminate]. destruct (IH v m Hv H) as (t' & w & H1 & H2). exists t', w. split; [now constructor|exact H2].
    - destruct (is_null v); [discriminate|]. apply ask_says in H as [H|(? & _ & H)]; [|discriminate].
      destruct (IH v m Hv H) as (t' & w & H1 & H2). exists t', w. split; [now constructor|exact H2].
    - apply ask_says in H as [H|(l & Hl & H)]; [apply rv_here, cr_same; now apply array_taken_says|]. apply ask_says in H as [H|(? & _ & H)]; [|discriminate].
      destruct (array_taken_done v l Hv Hl) as [Ho [-> |[-> _]]]; [|discriminate]. apply each_says in H as (x & Hx & H).
      destruct (rv_elem t _ l x m Hv Ho Hx H) as (t' & w & H1 & H2). exists t', w. split; [econstructor; eauto|exact H2].
    - apply ask_says in H as [H|(l & Hl & H)]; [apply rv_here, cr_same; now apply array_taken_says|]. apply ask_says in H as [H|(? & _ & H)]; [|discriminate].
      destruct (array_taken_done v l Hv Hl) as [Ho [-> |[-> _]]]; [|discriminate]. apply each_says in H as (x & Hx & H).
      destruct (rv_elem t _ l x m Hv Ho Hx H) as (t' & w & H1 & H2). exists t', w. split; [econstructor; eauto|exact H2].
    - apply ask_says in H as [H|(l & Hl & H)]; [apply rv_here, cr_same; now apply array_taken_says|].
      destruct (array_taken_done v l Hv Hl) as [Ho C]. destruct (Nat.eqb_spec (length l) n) as [L|L].
      + apply ask_says in H as [H|(? & _ & H)]; [|discriminate]. destruct C as [-> |[-> _]]; [|discriminate]. apply each_says in H as (x & Hx & H).
        destruct (rv_elem t _ l x m Hv Ho Hx H) as (t' & w & H1 & H2). exists t', w. split; [econstructor; eauto|exact H2].
      + injection H as <-. apply rv_here. destruct C as [-> |[-> C]].
        * apply cr_same. constructor; auto using size_text.
        * apply cr_empty; [exact C|exact Logic.I|]. constructor; auto using size_text.
    - assert (G : length ts <> 1%nat -> (asked l <- array_taken cc v;
        if Nat.eqb (length l) (length ts) then asked r <- tuple_said as_rv_said ts l; Done (Ok (DSeq r)) else Says (tuple_message (length ts) (length l))) = Says m ->
        explained_rv (TTup ts) v m).
      { clear H. intros L1 H. apply ask_says in H as [H|(l & Hl & H)]; [apply rv_here, cr_same; apply array_taken_says; [exact L1|exact Hv|exact H]|].
        destruct (array_taken_done v l Hv Hl) as [Ho C]. destruct (Nat.eqb_spec (length l) (length ts)) as [L|L].
        - apply ask_says in H as [H|(? & _ & H)]; [|discriminate]. apply tuple_says in H as (i & t & x & H1 & H2 & H).
          destruct C as [-> |[-> _]]; [|destruct i; discriminate].
          destruct (rv_elem t _ l x m Hv Ho (nth_error_In _ _ H2) H) as (t' & w & H3 & H4). exists t', w. split; [eapply re_tup; eauto|exact H4].
        - injection H as <-. apply rv_here. destruct C as [-> |[-> C]].
          + apply cr_same. apply co_tuple; auto using size_text.
          + apply cr_empty; [exact C|exact L1|]. apply co_tuple; auto using size_text. }
      destruct ts as [|t0 [|t1 ts]]; [apply G; [discriminate|exact H]| |apply G; [discriminate|exact H]].
      apply ask_says in H as [H|(? & _ & H)]; [|discriminate]. inversion IH as [|? ? Ht _]; subst.
      destruct (Ht v m Hv H) as (t' & w & H1 & H2). exists t', w. split; [now apply re_tup_one|exact H2].
    - destruct (chosen ts) as [n|].
      + apply ask_says in H as [H|(? & _ & H)]; [|discriminate]. apply alternative_says in H as (t & Ht & H). rewrite Forall_forall in IH.
        destruct (IH t Ht v m Hv H) as (t' & w & H1 & H2). exists t', w. split; [econstructor; eauto|exact H2].
      + assert (G : forall n us, (forall t, In t us -> In t ts) -> (Forall (fun t => is_ E t v = Ok false) us -> Forall (fun t => is_ E t v = Ok false) ts) ->
          variant_said cc E as_rv_said n us v = Says m -> explained_rv (TVar ts) v m).
        { clear H. intros n us. revert n. induction us as [|t us IHu]; intros n Hs Hf H; cbn [variant_said] in H.
          - apply complain_says in H as (i & Hi & ->); [|exact Hv]. apply rv_here, cr_same. constructor; auto.
          - apply ask_says in H as [H|(b & Hb & H)]; [discriminate|]. injection Hb as Hb. destruct b.
            + apply ask_says in H as [H|(? & _ & H)]; [|discriminate]. assert (Ht : In t ts) by (apply Hs; now left).
              destruct (as_rv_explained t v m Hv H) as (t' & w & H1 & H2). exists t', w. split; [econstructor; eauto|exact H2].
            + apply (IHu (S n)); auto. intros t' Ht'. apply Hs. now right. }
        exact (G O ts (fun t Ht => Ht) (fun h => h) H).
    - apply ask_says in H as [H|(l & Hl & H)]; [apply rv_here, cr_same; now apply object_taken_says|]. apply ask_says in H as [H|(? & _ & H)]; [|discriminate].
      destruct (object_taken_done v l Hv Hl) as [Ho [-> | ->]]; [|discriminate]. apply each_member_says in H as (k & x & Hx & H). rewrite Forall_forall in Ho.
      destruct (as_rv_explained t x m (Ho _ Hx) H) as (t' & w & H1 & H2). exists t', w. split; [econstructor; eauto|exact H2].
    - exact (as_rv_explained (TExt x) v m Hv H).
  Qed.
End Moved.
Theorem moved_same cc E names left t v : leaves_sound left -> sound v ->
  plainly (as_rv_said cc E names left t v) = as_rv E t v /\ plainly (cast_rv_said cc E names left t v) = cast_rv E t v.
Proof. intros HL Hv. split; [now apply as_rv_plainly|now apply cast_rv_plainly]. Qed.
Theorem moved_says cc E names left t v m : leaves_sound left -> sound v ->
  as_rv_said cc E names left t v = Says m \/ cast_rv_said cc E names left t v = Says m ->
  exists t' w p, reaches t v t' w /\ at_path p v w /\ complains_rv E names left t' w m.
Proof.
  intros HL Hv H. assert (Hx : explained_rv E names left t v m).
  { apply sound_okv in Hv. destruct H as [H|H]; [exact (as_rv_explained cc E names left HL t v m Hv H)|exact (cast_rv_explained cc E names left HL t v m Hv H)]. }
  destruct Hx as (t' & w & Hr & Hc). destruct (reaches_path _ _ _ _ Hr) as [p Hp]. exists t', w, p. auto.
Qed.

(** ** what() *)
Lemma c_str_app a b : Forall (fun c => c <> 0) a -> c_str (a ++ 0 :: b) = a.
Proof. induction 1 as [|c a Hc _ IH]; [reflexivity|]. cbn. replace (c =? 0) with false by lia. now rewrite IH. Qed.
Lemma c_str_whole a : Forall (fun c => c <> 0) a -> c_str a = a.
Proof. induction 1 as [|c a Hc _ IH]; [reflexivity|]. cbn. replace (c =? 0) with false by lia. now rewrite IH. Qed.
Theorem what_text : what [] = of_string "Unknown exception" /\ (forall m, m <> [] -> Forall (fun c => c <> 0) m -> what m = m) /\
  (forall a b, Forall (fun c => c <> 0) a -> what (a ++ 0 :: b) = a).
Proof.
  split; [reflexivity|]. split.
  - intros m Hm Hz. unfold what. destruct m; [congruence|]. now apply c_str_whole.
  - intros a b Hz. unfold what. destruct (a ++ 0 :: b) as [|c r] eqn:A; [destruct a; discriminate|]. rewrite <- A. now apply c_str_app.
Qed.

(** ** value(e), and values of no type *)
Theorem enum_value_same cc E e z : plainly (enum_value_said cc E e z) = v_enum (enum_as_number E) e z.
Proof.
  unfold enum_value_said, v_enum. destruct (enum_as_number E); [reflexivity|]. rewrite plainly_ask. cbn [plainly].
  destruct (enum_to_string e z) as [s| | | |]; cbn [bind]; auto. destruct (is_nil s); [|reflexivity]. rewrite plainly_complain. reflexivity.
Qed.
Theorem enum_value_text cc E e z m : enum_value_said cc E e z = Says m ->
  enum_to_string e z = Ok [] /\ exists i, describes (v_string []) i /\ m = of_string "Cannot convert to enum: unknown enum value, " ++ i.
Proof.
  unfold enum_value_said. destruct (enum_as_number E); [discriminate|]. intros H. apply ask_says in H as [H|(s & Hs & H)]; [discriminate|].
  injection Hs as Hs. destruct s as [|c s]; [|discriminate]. cbn [is_nil] in H. split; [exact Hs|].
  apply complain_says in H; [exact H|]. constructor. split; discriminate.
Qed.
Theorem unknown_text cc A v : sound v -> exists i, describes v i /\ @unknown_type cc A v = Says (of_string "Internal error: unknown value type, " ++ i).
Proof.
  intros Hv. destruct (info_spec cc v Hv) as (i & Hi & Hd). exists i. split; [exact Hd|]. unfold unknown_type, complain. now rewrite Hi.
Qed.

(** ** The containers *)
Theorem container_kept cc E names x : x_move_from x = None ->
  (forall l, array_move_user cc E names x l = (l, array_cast cc E names (TExt x) l)) /\
  (forall m, object_move_user cc E names x m = (m, object_cast cc E names (TExt x) m)).
Proof. intros H. unfold array_move_user, object_move_user. rewrite H. auto. Qed.
Theorem container_moved_text cc E names x f : x_move_from x = Some f ->
  (forall l m, snd (array_move_user cc E names x l) = Says m -> m = of_string "Deserialization failed: move_from_json() returned false for array, size=0") /\
  (forall l m, snd (object_move_user cc E names x l) = Says m -> m = of_string "Deserialization failed: move_from_json() returned false for object, size=0").
Proof.
  intros H. unfold array_move_user, object_move_user. rewrite H. split; intros l m; cbn [snd]; unfold given; destruct (f _ _) as [d [[]| | | |]];
    try discriminate; intros [= <-]; reflexivity.
Qed.
