(** * What converting an rvalue leaves of it. *)
From Verif Require Import Base Value Containers Num Enum Conv Dump Spec SpecApi SpecConv Left SpecLeft BaseProofs ConvProofs.

Section Left.
  Context (E : env) (left : ext -> value -> value).

  Lemma as_left_kept t v : ~ moves_away t -> as_left left t v = v.
  Proof.
    destruct t; cbn; intros H; try reflexivity; [destruct (H I)|].
    destruct (x_move_from x); [destruct H; discriminate|reflexivity].
  Qed.
  Lemma elems_left_kept t l : ~ moves_away t -> elems_left E left t l = l.
  Proof.
    intros H. induction l as [|v l IH]; cbn [elems_left]; [reflexivity|].
    rewrite (as_left_kept t v H), IH. destruct (as_rv E t v); reflexivity.
  Qed.
  Lemma tuple_left_kept ts : Forall (fun t => ~ moves_away t) ts -> forall l, tuple_left E left ts l = l.
  Proof.
    induction 1 as [|t ts H _ IH]; intros [|v l]; cbn [tuple_left]; try reflexivity.
    rewrite (as_left_kept t v H), IH. destruct (as_rv E t v); reflexivity.
  Qed.
  Lemma members_left_kept t m : ~ moves_away t -> members_left E left t m = m.
  Proof.
    intros H. induction m as [|[k v] m IH]; cbn [members_left]; [reflexivity|].
    rewrite (as_left_kept t v H), IH. destruct (as_rv E t v); reflexivity.
  Qed.
  Lemma mapM_value l : mapM (as_rv E TValue) l = Ok (map DJson l).
  Proof. induction l as [|v l IH]; cbn [mapM map]; [reflexivity|]. rewrite IH. reflexivity. Qed.
  Lemma as_tuple_value ts : Forall (eq TValue) ts -> forall l, exists r, as_tuple (as_rv E) ts l = Ok r.
  Proof.
    induction 1 as [|t ts <- _ IH]; intros [|v l]; cbn [as_tuple]; try (eexists; reflexivity).
    destruct (IH l) as [r ->]. eexists; reflexivity.
  Qed.
  Lemma as_array_m_ok v v1 l : as_array_m v = (v1, Ok l) ->
    v1 = VArr Tarray (Some l) /\ (v1 = v \/ (v_empty v = Ok true /\ l = [])).
  Proof.
    unfold as_array_m, coerce. destruct (v_empty v) as [[]| | | | ] eqn:Ee; intros H;
      try discriminate.
    - injection H as <- <-. split; [reflexivity|right; split; reflexivity].
    - injection H as <- H. destruct v as [t s|t [l'|]|t [m|]]; destruct t; try discriminate. injection H as <-. split; [reflexivity|left; reflexivity].
  Qed.
  Lemma as_array_m_throws v v1 r : as_array_m v = (v1, r) -> (forall l, r <> Ok l) -> v1 = v.
  Proof.
    unfold as_array_m, coerce. destruct (v_empty v) as [[]| | | | ] eqn:Ee; intros H Hr;
      injection H as <- <-; try reflexivity. destruct (Hr []). reflexivity.
  Qed.
  Lemma as_object_m_ok v v1 l : as_object_m v = (v1, Ok l) ->
    v1 = VObj Tobject (Some l) /\ (v1 = v \/ (v_empty v = Ok true /\ l = [])).
  Proof.
    unfold as_object_m, coerce. destruct (v_empty v) as [[]| | | | ] eqn:Ee; intros H;
      try discriminate.
    - injection H as <- <-. split; [reflexivity|right; split; reflexivity].
    - injection H as <- H. destruct v as [t s|t [l'|]|t [m|]]; destruct t; try discriminate. injection H as <-. split; [reflexivity|left; reflexivity].
  Qed.
  Lemma as_object_m_throws v v1 r : as_object_m v = (v1, r) -> (forall l, r <> Ok l) -> v1 = v.
  Proof.
    unfold as_object_m, coerce. destruct (v_empty v) as [[]| | | | ] eqn:Ee; intros H Hr;
      injection H as <- <-; try reflexivity. destruct (Hr []). reflexivity.
  Qed.

  (** ** Success: a sequence takes everything, and the array is empty afterwards *)
  Lemma array_as_left_ok t l : from_elements t ->
    (match t with
     | TVec t' | TColl _ t' => exists r, mapM (as_rv E t') l = Ok r
     | TFix n t' => length l = n /\ exists r, mapM (as_rv E t') l = Ok r
     | TTup ts => length l = length ts /\ exists r, as_tuple (as_rv E) ts l = Ok r
     | _ => True
     end) -> array_as_left E left t l = [].
  Proof.
    destruct t; cbn [array_as_left from_elements]; intros Hf H; try (exact (False_ind _ Hf)).
    - rewrite mapM_value. reflexivity.
    - destruct H as [r ->]. reflexivity.
    - destruct H as [r ->]. reflexivity.
    - destruct H as [Hn [r Hr]]. rewrite Hn, Nat.eqb_refl, Hr. reflexivity.
    - destruct H as [Hn [r Hr]]. rewrite Hn, Nat.eqb_refl, Hr. reflexivity.
  Qed.
  Lemma array_cleared t v d : from_elements t -> cast_rv E t v = Ok d -> cast_left E left t v = v_array [].
  Proof.
    intros Hf H.
    assert (G : forall l, snd (as_array_m v) = Ok l -> array_as_left E left t l = [] -> through_array E left t v = v_array []).
    { intros l Hl Ha. unfold through_array. destruct (as_array_m v) as [v1 r]. cbn [snd] in Hl. subst r. rewrite Ha. reflexivity. }
    destruct t; try (exact (False_ind _ Hf)); cbn [cast_rv cast_left] in *.
    - apply bind_ok in H. destruct H as [l [Hl H]]. apply (G l Hl), array_as_left_ok; exact I.
    - apply bind_ok in H. destruct H as [l [Hl H]]. apply bind_ok in H. destruct H as [r [Hr H]].
      apply (G l Hl), array_as_left_ok; [exact I|eauto].
    - apply bind_ok in H. destruct H as [l [Hl H]]. apply bind_ok in H. destruct H as [r [Hr H]].
      apply (G l Hl), array_as_left_ok; [exact I|eauto].
    - apply bind_ok in H. destruct H as [l [Hl H]]. destruct (Nat.eqb (length l) n) eqn:En; [|discriminate].
      apply bind_ok in H. destruct H as [r [Hr H]].
      apply (G l Hl), array_as_left_ok; [exact I|split; [apply Nat.eqb_eq; exact En|eauto]].
    - assert (W : exists l r, snd (as_array_m v) = Ok l /\ length l = length ts /\ as_tuple (as_rv E) ts l = Ok r).
      { destruct ts as [|t0 [|t1 ts]]; [|destruct Hf; reflexivity|];
        (apply bind_ok in H; destruct H as [l [Hl H]];
         match type of H with (if ?b then _ else _) = _ => destruct b eqn:En; [|discriminate] end;
         apply bind_ok in H; destruct H as [r [Hr H]]; exists l, r; split; [exact Hl|];
         split; [apply Nat.eqb_eq; exact En|exact Hr]). }
      destruct W as (l & r & Hl & Hn & Hr).
      destruct ts as [|t0 [|t1 ts]]; [|destruct Hf; reflexivity|];
        (apply (G l Hl), array_as_left_ok; [exact Hf|eauto]).
  Qed.

  (** ** With element types that are read, or all taken, nothing is left half moved *)
  Lemma array_as_left_kept t l : gentle t -> from_elements t ->
    array_as_left E left t l = [] \/ array_as_left E left t l = l.
  Proof.
    destruct t; cbn [array_as_left]; intros H Hf; try (exact (False_ind _ Hf)).
    - rewrite mapM_value. auto.
    - destruct H as [H| ->]; [rewrite (elems_left_kept _ l H); destruct (mapM _ l); auto|rewrite mapM_value; auto].
    - destruct H as [H| ->]; [rewrite (elems_left_kept _ l H); destruct (mapM _ l); auto|rewrite mapM_value; auto].
    - destruct (Nat.eqb _ _); [|auto].
      destruct H as [H| ->]; [rewrite (elems_left_kept _ l H); destruct (mapM _ l); auto|rewrite mapM_value; auto].
    - destruct (Nat.eqb (length l) (length ts)) eqn:En; [|auto].
      assert (W : Forall (fun t' => ~ moves_away t') ts \/ Forall (eq TValue) ts).
      { destruct ts as [|? [|? ?]]; [exact H|destruct Hf; reflexivity|exact H]. }
      destruct W as [W|W]; [rewrite (tuple_left_kept ts W l); destruct (as_tuple _ ts l); auto|].
      destruct (as_tuple_value ts W l) as [r ->]. auto.
  Qed.
  Definition outcome (t : ty) (v w : value) : Prop :=
    w = v
    \/ (w = v_array [] /\ ((exists d, cast_rv E t v = Ok d) \/ v_empty v = Ok true))
    \/ (w = v_object [] /\ v_empty v = Ok true).
  Lemma through_array_outcome t v : gentle t -> from_elements t ->
    cast_left E left t v = through_array E left t v ->
    (forall l, snd (as_array_m v) = Ok l -> array_as_left E left t l = [] -> l <> [] -> exists d, cast_rv E t v = Ok d) ->
    outcome t v (cast_left E left t v).
  Proof.
    intros Hg Hf -> Hok. unfold through_array. destruct (as_array_m v) as [v1 r] eqn:Ea. cbn [snd] in Hok.
    destruct r as [l|e| | | ]; try (left; apply (as_array_m_throws _ _ _ Ea); discriminate).
    destruct (as_array_m_ok _ _ _ Ea) as [Hv1 Hv].
    destruct (array_as_left_kept t l Hg Hf) as [W|W].
    - rewrite W. destruct Hv as [Hv|[Hv ->]]; [|right; left; split; [reflexivity|right; exact Hv]].
      destruct l as [|x l]; [left; congruence|].
      right. left. split; [reflexivity|left]. apply (Hok (x :: l) eq_refl W). discriminate.
    - rewrite W. destruct Hv as [Hv|[Hv ->]]; [left; congruence|right; left; split; [reflexivity|right; exact Hv]].
  Qed.
  Lemma elems_left_cons t l : l <> [] -> elems_left E left t l <> [].
  Proof. destruct l; [congruence|discriminate]. Qed.
  Lemma cast_left_outcome t : gentle t -> forall v, outcome t v (cast_left E left t v).
  Proof.
    induction t using ty_ind'; intros Hg v; try (left; reflexivity).
    - destruct Hg.
    - apply (through_array_outcome TArr v I I eq_refl). intros l Hl _ _. cbn [cast_rv]. rewrite Hl. eexists; reflexivity.
    - destruct Hg.
    - cbn [cast_left]. destruct (IHt Hg v) as [H|[[H [[d Hd]|He]]|H]]; unfold outcome; auto.
      right. left. split; [exact H|]. left. cbn [cast_rv]. rewrite Hd. eexists; reflexivity.
    - cbn [cast_left]. destruct (is_null v) eqn:En; [left; reflexivity|].
      destruct (IHt Hg v) as [H|[[H [[d Hd]|He]]|H]]; unfold outcome; auto.
      right. left. split; [exact H|]. left. cbn [cast_rv]. rewrite En, Hd. eexists; reflexivity.
    - apply (through_array_outcome (TVec t) v Hg I eq_refl). intros l Hl Hc Hn. cbn [cast_rv array_as_left] in *. rewrite Hl. cbn [bind].
      destruct (mapM (as_rv E t) l); [eexists; reflexivity|..]; destruct (elems_left_cons t l Hn Hc).
    - apply (through_array_outcome (TColl ins t) v Hg I eq_refl). intros l Hl Hc Hn. cbn [cast_rv array_as_left] in *. rewrite Hl. cbn [bind].
      destruct (mapM (as_rv E t) l); [eexists; reflexivity|..]; destruct (elems_left_cons t l Hn Hc).
    - apply (through_array_outcome (TFix n t) v Hg I eq_refl). intros l Hl Hc Hn. cbn [cast_rv array_as_left] in *. rewrite Hl. cbn [bind].
      destruct (Nat.eqb (length l) n); [|congruence].
      destruct (mapM (as_rv E t) l); [eexists; reflexivity|..]; destruct (elems_left_cons t l Hn Hc).
    - destruct ts as [|t0 [|t1 ts]].
      + apply (through_array_outcome (TTup []) v Hg); [discriminate|reflexivity|].
        intros l Hl Hc Hn. destruct l; [congruence|discriminate].
      + cbn [cast_left]. inversion H; subst. destruct (H2 Hg v) as [W|[[W [[d Hd]|He]]|W]]; unfold outcome; auto.
        right. left. split; [exact W|]. left. cbn [cast_rv]. rewrite Hd. eexists; reflexivity.
      + apply (through_array_outcome (TTup (t0 :: t1 :: ts)) v Hg); [discriminate|reflexivity|].
        intros l Hl Hc Hn. cbn [cast_rv array_as_left] in *. rewrite Hl. cbn [bind].
        destruct (Nat.eqb (length l) _); [|congruence].
        destruct (as_tuple (as_rv E) _ l); [eexists; reflexivity|..]; (destruct l; [congruence|discriminate]).
    - assert (HA : Forall gentle ts).
      { clear H. cbn in Hg. induction ts; constructor; [apply Hg|apply IHts, Hg]. }
      cbn [cast_left]. destruct (chosen ts) as [n|] eqn:Ec.
      + enough (G : alternative_left (cast_left E left) ts n v = v
                    \/ (alternative_left (cast_left E left) ts n v = v_array []
                        /\ ((exists d, as_alternative (cast_rv E) ts n v = Ok d) \/ v_empty v = Ok true))
                    \/ (alternative_left (cast_left E left) ts n v = v_object [] /\ v_empty v = Ok true)).
        { destruct G as [G|[[G [[d Hd]|He]]|G]]; unfold outcome; auto; right; left; split; auto.
          left. cbn [cast_rv]. rewrite Ec, Hd. eexists; reflexivity. }
        clear Ec Hg. revert n. induction H as [|t ts Ht _ IH]; intros n; cbn [alternative_left]; [left; reflexivity|].
        inversion HA; subst. destruct n; [apply (Ht H1 v)|apply (IH H2)].
      + left. clear Hg Ec H. induction HA as [|t ts Ht _ IH]; cbn [variant_left]; [reflexivity|].
        destruct (is_ E t v) as [[]| | | | ]; auto. apply as_left_kept.
        destruct t; cbn in *; auto.
    - cbn [cast_left]. unfold through_object. destruct (as_object_m v) as [v1 r] eqn:Ea.
      destruct r as [m|e| | | ]; try (left; apply (as_object_m_throws _ _ _ Ea); discriminate).
      cbn [object_as_left]. rewrite (members_left_kept t m Hg).
      destruct (as_object_m_ok _ _ _ Ea) as [Hv1 [Hv|[Hv ->]]]; [left; congruence|right; right; auto].
    - left. cbn [cast_left]. apply as_left_kept. cbn in *. congruence.
  Qed.

  Lemma source_usable t v : gentle t -> usable v -> usable (cast_left E left t v).
  Proof.
    intros Hg Hu. destruct (cast_left_outcome t Hg v) as [->|[[-> _]|[-> _]]]; [exact Hu|..];
      repeat (constructor; cbn).
  Qed.
  Lemma failure_keeps t v e : gentle t -> cast_rv E t v = Throw e ->
    cast_left E left t v = v
    \/ (v_empty v = Ok true /\ (cast_left E left t v = v_array [] \/ cast_left E left t v = v_object [])).
  Proof.
    intros Hg H. destruct (cast_left_outcome t Hg v) as [W|[[W [[d Hd]|He]]|[W He]]]; auto. congruence.
  Qed.
  Lemma map_kept t v : ~ moves_away t -> v_empty v = Ok false -> cast_left E left (TMap t) v = v.
  Proof.
    intros Hg He. destruct (cast_left_outcome (TMap t) Hg v) as [W|[[W [[d Hd]|He']]|[W He']]]; auto; try congruence.
    exfalso. cbn [cast_left] in W. unfold through_object in W. destruct (as_object_m v) as [v1 r] eqn:Ea.
    destruct r; [discriminate|..]; cbn [cast_rv] in Hd; rewrite Ea in Hd; discriminate.
  Qed.
End Left.
