(** * Theorems about allocations that fail in conversions of rvalues *)
From Verif Require Import Base BaseProofs Value Dump Containers Num Enum Conv SpecApi SpecConv SpecHeap Left SpecLeft ApiProofs ConvProofs InfoProofs LeftProofs HeapSafety
  Faults SpecFaults FaultsProofs FaultsTheorems FaultsMove SpecFaultsMove FaultsMoveProofs.

Lemma takes_outcome {S A} (ends : bool) (m : taking S A) x r (P : S -> Prop) s w s' o : takes (ends = true) m x r P -> m s = (w, (s', o)) ->
  (w = x /\ o = Res r) \/ (~ enough s /\ out_of_memory o /\ (o = Ended -> ends = true) /\ P w).
Proof.
  intros H Hm. destruct (H s) as (y & s1 & o1 & E1 & _ & C). rewrite Hm in E1. injection E1 as <- <- <-.
  destruct C as [C|(HP & HT & C)]; [left; exact C|right]. splits; auto using not_enough.
  - destruct C as [->|[-> _]]; [now left|now right].
  - intros ->. destruct C as [C|[_ C]]; [discriminate|exact C].
Qed.

Section Theorems.
  Context (short : nat) (E : env) (left half : ext -> value -> value) (grows : bool).
  Notation cast := (try_cast_rv short E left half grows).

  Theorem cast_fault t v s w s' o : lawful sound t -> sound v -> cast t v s = (w, (s', o)) ->
    (w = cast_left E left t v /\ o = Res (cast_rv E t v)) \/
    (~ enough s /\ out_of_memory o /\ (o = Ended -> as_asks short t = true) /\ (careful grows t -> unharmed v w)).
  Proof.
    intros Hl Hv Hc. apply sound_okv in Hv. exact (takes_outcome (as_asks short t) _ _ _ _ s w s' o (takes_cast short E left half grows t Hl _ v Hv (fun H => H)) Hc).
  Qed.
  Theorem cast_enough t v s w s' o : lawful sound t -> sound v -> enough s -> cast t v s = (w, (s', o)) ->
    w = cast_left E left t v /\ o = Res (cast_rv E t v).
  Proof. intros Hl Hv He Hc. destruct (cast_fault t v s w s' o Hl Hv Hc) as [H|(H & _)]; [exact H|now destruct H]. Qed.
  Theorem cast_keeps t v s w s' d : lawful sound t -> sound v -> careful grows t -> cast_rv E t v = Ok d ->
    cast t v s = (w, (s', Res (Throw BadAlloc))) -> unharmed v w.
  Proof.
    intros Hl Hv Hk Hd Hc. destruct (cast_fault t v s w s' _ Hl Hv Hc) as [[_ H]|(_ & _ & _ & H)]; [congruence|auto].
  Qed.
  Theorem as_rv_fault t v s w s' o : lawful sound t -> sound v -> try_as_rv short E left half t v s = (w, (s', o)) ->
    (w = as_left left t v /\ o = Res (as_rv E t v)) \/
    (~ enough s /\ out_of_memory o /\ (o = Ended -> as_asks short t = true) /\
     (w = v \/ exists x, t = TExt x /\ x_move_from x <> None /\ (w = half x v \/ w = left x v))).
  Proof.
    intros Hl Hv Hc. apply sound_okv in Hv.
    destruct (takes_outcome (as_asks short t) _ _ _ _ s w s' o (takes_rv short E left half _ t v Hl Hv (fun H => H)) Hc) as [H|(H1 & H2 & H3 & H4)]; [now left|].
    destruct t; try (right; splits; auto; left; specialize (H4 [] []); apply intr_still in H4; [congruence|]; constructor; [solve [intros []]|constructor]).
    - left. injection Hc as <- <- <-. auto.
    - right. splits; auto. specialize (H4 [] []). inversion H4 as [|? f ? ? ? Hx|]; subst; [now left|right|].
      + exists x. splits; auto. congruence.
      + destruct (x_move_from x) as [f|] eqn:Ex; [right; exists x; splits; auto; congruence|now left].
  Qed.
  Notation intr := (interrupted left half).
  (** std::move(arr).as<T>() *)
  Lemma gives_cast t l : from_elements t -> array_gives E t l = cast_rv E t (v_array l).
  Proof.
    intros Hf. assert (Ha : snd (as_array_m (v_array l)) = Ok l) by now destruct l.
    destruct t as [ | | | | | | | | | | | | | | |ts| | | | |]; try (now destruct Hf); try (cbn [array_gives cast_rv]; rewrite Ha; reflexivity).
    destruct ts as [|? [|? ?]]; [|now destruct Hf|]; (cbn [array_gives cast_rv]; rewrite Ha; reflexivity).
  Qed.
  Theorem array_fault t l s l' s' o : from_elements t -> lawful sound t -> Forall sound l -> try_array_take short E left half grows t l s = (l', (s', o)) ->
    (l' = array_as_left E left t l /\ o = Res (cast_rv E t (v_array l))) \/
    (~ enough s /\ out_of_memory o /\ (o = Ended -> as_asks short t = true) /\ intr (element_types t (length l)) l l').
  Proof.
    intros Hf Hl Hv Hc. assert (Hv' : Forall ok l) by (eapply Forall_impl; [|exact Hv]; intros x; apply sound_okv).
    assert (Ha : in_array t) by (destruct t; try (now destruct Hf); exact I). rewrite <- (gives_cast t l Hf).
    destruct (takes_outcome (as_asks short t) _ _ _ _ s l' s' o (takes_array_take short E left half grows _ t l Ha Hl Hv' (fun H => H)) Hc) as [H|(H1 & H2 & H3 & H4 & _)]; [now left|right; auto].
  Qed.
  Theorem cast_array_fault t l s w s' o : from_elements t -> lawful sound t -> sound (v_array l) -> cast t (v_array l) s = (w, (s', o)) ->
    (w = cast_left E left t (v_array l) /\ o = Res (cast_rv E t (v_array l))) \/
    (~ enough s /\ out_of_memory o /\ exists l', w = v_array l' /\ intr (element_types t (length l)) l l').
  Proof.
    intros Ha Hl Hv Hc. apply sound_okv in Hv.
    assert (Hi : in_array t) by (destruct t; try (now destruct Ha); exact I).
    pose proof (takes_through_array short E left half grows (as_asks short t = true) t (v_array l) Hi Hl Hv (fun H => H)) as H.
    assert (X : cast t (v_array l) = try_through_array short E left half grows t (v_array l) /\ cast_left E left t (v_array l) = through_array E left t (v_array l) /\
      cast_rv E t (v_array l) = (do l <- snd (as_array_m (v_array l)); array_gives E t l)).
    { destruct t as [ | | | | | | | | | | | | | | |ts| | | | |]; try (now destruct Ha); try (splits; reflexivity). destruct ts as [|? [|? ?]]; [splits; reflexivity|now destruct Ha|splits; reflexivity]. }
    destruct X as (X1 & X2 & X3). rewrite X1 in Hc. rewrite X2, X3.
    destruct (takes_outcome _ _ _ _ _ s w s' o H Hc) as [G|(H1 & H2 & H3 & H4)]; [now left|right]. destruct H4 as [_ H4]. splits; auto.
  Qed.
  Theorem cast_object_fault t t' m s w s' o : member_type t = Some t' -> lawful sound t -> sound (v_object m) -> cast t (v_object m) s = (w, (s', o)) ->
    (w = cast_left E left t (v_object m) /\ o = Res (cast_rv E t (v_object m))) \/
    (~ enough s /\ out_of_memory o /\ exists m', w = v_object m' /\ map fst m' = map fst m /\ intr (repeat t' (length m)) (map snd m) (map snd m')).
  Proof.
    intros Ha Hl Hv Hc. apply sound_okv in Hv.
    pose proof (takes_through_object short E left half (as_asks short t = true) t t' (v_object m) Ha Hl Hv (fun H => H)) as H.
    assert (X : cast t (v_object m) = try_through_object short E left half t (v_object m) /\ cast_left E left t (v_object m) = through_object E left t (v_object m) /\
      cast_rv E t (v_object m) = (do m <- snd (as_object_m (v_object m)); object_gives E t m)).
    { destruct t; try discriminate; splits; reflexivity. }
    destruct X as (X1 & X2 & X3). rewrite X1 in Hc. rewrite X2, X3.
    destruct (takes_outcome _ _ _ _ _ s w s' o H Hc) as [G|(H1 & H2 & H3 & H4)]; [now left|right]. destruct H4 as [_ H4]. splits; auto.
  Qed.
  (** elements of type json::value *)
  Lemma mapM_values t l : Forall (eq TValue) (repeat t (length l)) -> exists r, mapM (as_rv E t) l = Ok r.
  Proof.
    induction l as [|v l IH]; cbn [repeat length mapM]; intros H; [eauto|]. inversion H as [|? ? <- H']; subst. destruct (IH H') as [r ->]. cbn. eauto.
  Qed.
  Lemma values_give t l : from_elements t -> Forall (eq TValue) (element_types t (length l)) -> (exists d, cast_rv E t (v_array l) = Ok d) \/ cast_rv E t (v_array l) = Throw JsonException.
  Proof.
    intros Hf Ht. assert (Ha : snd (as_array_m (v_array l)) = Ok l) by now destruct l.
    destruct t as [ | | | |sg w|p| | | | |t|t|t|ins t|n t|ts|ts|t|e|fs|x]; try (now destruct Hf); cbn [element_types] in Ht.
    - left. cbn [cast_rv]. rewrite Ha. cbn. eauto.
    - left. cbn [cast_rv]. rewrite Ha. cbn [bind]. destruct (mapM_values t l Ht) as [r ->]. cbn. eauto.
    - left. cbn [cast_rv]. rewrite Ha. cbn [bind]. destruct (mapM_values t l Ht) as [r ->]. cbn. eauto.
    - cbn [cast_rv]. rewrite Ha. cbn [bind]. destruct (Nat.eqb (length l) n); [left|now right]. destruct (mapM_values t l Ht) as [r ->]. cbn. eauto.
    - assert (G : (exists d, (do l <- snd (as_array_m (v_array l)); array_gives E (TTup ts) l) = Ok d) \/ (do l <- snd (as_array_m (v_array l)); array_gives E (TTup ts) l) = Throw JsonException).
      { rewrite Ha. cbn [bind array_gives]. destruct (Nat.eqb (length l) (length ts)); [left|now right]. destruct (as_tuple_value E ts Ht l) as [r ->]. cbn. eauto. }
      destruct ts as [|? [|? ?]]; [exact G|now destruct Hf|exact G].
  Qed.
  Theorem values_fault t l s w s' o : from_elements t -> Forall (eq TValue) (element_types t (length l)) -> lawful sound t -> sound (v_array l) ->
    cast t (v_array l) s = (w, (s', o)) -> out_of_memory o ->
    exists n, (n <= length l)%nat /\ w = v_array (map moved (firstn n l) ++ skipn n l).
  Proof.
    intros Hf Ht Hl Hv Hc Ho. destruct (cast_array_fault t l s w s' o Hf Hl Hv Hc) as [[H1 H2]|(_ & _ & l' & -> & Hi)].
    - exfalso. destruct (values_give t l Hf Ht) as [[d Hd]|Hd]; rewrite Hd in H2; subst o; destruct Ho; discriminate.
    - destruct (intr_values left half _ _ _ Hi Ht) as (n & Hn & ->). eauto.
  Qed.
End Theorems.
