(** * An exception in the middle: what is behind it is untouched. *)
From Verif Require Import Base Value Containers Num Enum Conv Spec SpecApi SpecConv Left SpecLeft BaseProofs ConvProofs LeftProofs.
From Coq Require Import Lia.

Section Behind.
  Context (E : env) (left : ext -> value -> value).
  Lemma elems_behind t e : forall l, mapM (as_rv E t) l = Throw e -> exists l1 x l2 l1' x',
    l = l1 ++ x :: l2 /\ elems_left E left t l = l1' ++ x' :: l2 /\ length l1' = length l1 /\
    as_rv E t x = Throw e /\ Forall (fun y => exists d, as_rv E t y = Ok d) l1.
  Proof.
    induction l as [|v l IH]; cbn [mapM elems_left]; intros H; [discriminate H|].
    destruct (as_rv E t v) as [d|e'| | | ] eqn:A; cbn [bind] in H; try discriminate H.
    - destruct (mapM (as_rv E t) l) as [r|e'| | | ] eqn:B; cbn [bind] in H; try discriminate H. injection H as ->.
      destruct (IH eq_refl) as (l1 & x & l2 & l1' & x' & -> & -> & L & F & O).
      exists (v :: l1), x, l2, (as_left left t v :: l1'), x'. cbn [app length]. rewrite L.
      repeat split; auto. constructor; [exists d; exact A|exact O].
    - injection H as ->. exists [], v, l, [], (as_left left t v). repeat split; auto.
  Qed.
  Lemma tuple_behind e : forall ts l, length l = length ts -> as_tuple (as_rv E) ts l = Throw e -> exists l1 x l2 l1' x' t,
    l = l1 ++ x :: l2 /\ tuple_left E left ts l = l1' ++ x' :: l2 /\ length l1' = length l1 /\
    nth_error ts (length l1) = Some t /\ as_rv E t x = Throw e /\
    forall i y, nth_error l1 i = Some y -> exists t d, nth_error ts i = Some t /\ as_rv E t y = Ok d.
  Proof.
    induction ts as [|t ts IH]; intros [|v l] L H; cbn [as_tuple tuple_left] in *; try discriminate.
    destruct (as_rv E t v) as [d|e'| | | ] eqn:A; cbn [bind] in H; try discriminate H.
    - destruct (as_tuple (as_rv E) ts l) as [r|e'| | | ] eqn:B; cbn [bind] in H; try discriminate H. injection H as ->.
      injection L as L. destruct (IH l L B) as (l1 & x & l2 & l1' & x' & t' & -> & -> & L' & T & F & O).
      exists (v :: l1), x, l2, (as_left left t v :: l1'), x', t'. cbn [app length nth_error]. rewrite L'.
      repeat split; auto. intros [|i] y Hy; cbn [nth_error] in *; [injection Hy as <-; eauto|exact (O i y Hy)].
    - injection H as ->. exists [], v, l, [], (as_left left t v), t. repeat split; auto.
      intros i y Hy. destruct i; discriminate Hy.
  Qed.
  Lemma as_array_m_array l : as_array_m (v_array l) = (v_array l, Ok l).
  Proof. unfold as_array_m. cbn. destruct l; reflexivity. Qed.
  Lemma cast_array t l : from_elements t -> cast_left E left t (v_array l) = v_array (array_as_left E left t l).
  Proof.
    intros H. transitivity (through_array E left t (v_array l)).
    - destruct t as [| | | | | | | | | | | | | | |[|t [|t1 ts]]| | | | | ]; try exact (False_ind _ H); cbn [cast_left]; try reflexivity. exfalso. apply H. reflexivity.
    - unfold through_array. rewrite as_array_m_array. reflexivity.
  Qed.
  Lemma failure_behind t l e : from_elements t -> cast_rv E t (v_array l) = Throw e ->
    (required t <> None /\ required t <> Some (length l) /\ cast_left E left t (v_array l) = v_array l) \/
    exists l1 x l2 l1' x' t', l = l1 ++ x :: l2 /\ cast_left E left t (v_array l) = v_array (l1' ++ x' :: l2) /\
      length l1' = length l1 /\ element_type t (length l1) = Some t' /\ as_rv E t' x = Throw e /\
      forall i y, nth_error l1 i = Some y -> exists t'' d, element_type t i = Some t'' /\ as_rv E t'' y = Ok d.
  Proof.
    intros Hf H. rewrite (cast_array _ _ Hf).
    assert (G : forall t', (forall i, element_type t i = Some t') -> mapM (as_rv E t') l = Throw e ->
      array_as_left E left t l = elems_left E left t' l ->
      exists l1 x l2 l1' x' t', l = l1 ++ x :: l2 /\ v_array (array_as_left E left t l) = v_array (l1' ++ x' :: l2) /\
      length l1' = length l1 /\ element_type t (length l1) = Some t' /\ as_rv E t' x = Throw e /\
      forall i y, nth_error l1 i = Some y -> exists t'' d, element_type t i = Some t'' /\ as_rv E t'' y = Ok d).
    { intros t' Ht Hm ->. destruct (elems_behind t' e l Hm) as (l1 & x & l2 & l1' & x' & -> & -> & L & F & O).
      exists l1, x, l2, l1', x', t'. repeat split; auto. intros i y Hy. apply nth_error_In in Hy.
      rewrite Forall_forall in O. destruct (O y Hy) as [d Hd]. eauto. }
    assert (A : snd (as_array_m (v_array l)) = Ok l) by (rewrite as_array_m_array; reflexivity).
    destruct t; cbn [from_elements] in Hf; try exact (False_ind _ Hf); cbn [cast_rv] in H.
    - rewrite A in H. discriminate H.
    - rewrite A in H. cbn [bind] in H. destruct (mapM _ l) as [r|e'| | | ] eqn:B; cbn [bind] in H; try discriminate H.
      injection H as ->. right. apply (G t); [reflexivity|exact B|]. cbn [array_as_left]. rewrite B. reflexivity.
    - rewrite A in H. cbn [bind] in H. destruct (mapM _ l) as [r|e'| | | ] eqn:B; cbn [bind] in H; try discriminate H.
      injection H as ->. right. apply (G t); [reflexivity|exact B|]. cbn [array_as_left]. rewrite B. reflexivity.
    - rewrite A in H. cbn [bind] in H. destruct (Nat.eqb (length l) n) eqn:En.
      2: { left. cbn [required array_as_left]. rewrite En. split; [discriminate|]. split; [|reflexivity].
           intros Hn. injection Hn as ->. rewrite Nat.eqb_refl in En. discriminate En. }
      destruct (mapM _ l) as [r|e'| | | ] eqn:B; cbn [bind] in H; try discriminate H.
      injection H as ->. right. apply (G t); [reflexivity|exact B|]. cbn [array_as_left]. rewrite En, B. reflexivity.
    - assert (H' : (if Nat.eqb (length l) (length ts) then do r <- as_tuple (as_rv E) ts l; Ok (DSeq r) else Throw JsonException) = Throw e).
      { destruct ts as [|t0 [|t1 ts]]; [|destruct Hf; reflexivity|]; rewrite A in H; exact H. }
      clear H. destruct (Nat.eqb (length l) (length ts)) eqn:En.
      2: { left. cbn [required array_as_left]. rewrite En. split; [discriminate|]. split; [|reflexivity].
           intros Hn. injection Hn as Hn. rewrite Hn, Nat.eqb_refl in En. discriminate En. }
      destruct (as_tuple _ _ l) as [r|e'| | | ] eqn:B; cbn [bind] in H'; try discriminate H'. injection H' as ->.
      right. cbn [array_as_left element_type]. rewrite En, B. apply Nat.eqb_eq in En.
      destruct (tuple_behind e ts l En B) as (l1 & x & l2 & l1' & x' & t & -> & -> & L & T & F & O).
      exists l1, x, l2, l1', x', t. repeat split; auto.
  Qed.
  (** members: those behind, and the keys of all *)
  Lemma members_behind t e : forall m, mapM_members (as_rv E t) m = Throw e -> exists m1 k x m2 m1' x',
    m = m1 ++ (k, x) :: m2 /\ members_left E left t m = m1' ++ (k, x') :: m2 /\ map fst m1' = map fst m1 /\
    as_rv E t x = Throw e.
  Proof.
    induction m as [|[k v] m IH]; cbn [mapM_members members_left]; intros H; [discriminate H|].
    destruct (as_rv E t v) as [d|e'| | | ] eqn:A; cbn [bind] in H; try discriminate H.
    - destruct (mapM_members (as_rv E t) m) as [r|e'| | | ] eqn:B; cbn [bind] in H; try discriminate H. injection H as ->.
      destruct (IH eq_refl) as (m1 & k' & x & m2 & m1' & x' & -> & -> & L & F).
      exists ((k, v) :: m1), k', x, m2, ((k, as_left left t v) :: m1'), x'. cbn [app map fst]. rewrite L. repeat split; auto.
    - injection H as ->. exists [], k, v, m, [], (as_left left t v). repeat split; auto.
  Qed.
  Lemma map_failure_behind t m e : cast_rv E (TMap t) (v_object m) = Throw e -> exists m1 k x m2 m1' x',
    m = m1 ++ (k, x) :: m2 /\ cast_left E left (TMap t) (v_object m) = v_object (m1' ++ (k, x') :: m2) /\
    map fst m1' = map fst m1 /\ as_rv E t x = Throw e.
  Proof.
    intros H. assert (A : as_object_m (v_object m) = (v_object m, Ok m)) by (unfold as_object_m; cbn; destruct m; reflexivity).
    cbn [cast_rv] in H. cbn [cast_left]. unfold through_object. rewrite A in *. cbn [snd bind] in H.
    destruct (mapM_members _ m) as [r|e'| | | ] eqn:B; cbn [bind] in H; try discriminate H. injection H as ->.
    destruct (members_behind t e m B) as (m1 & k & x & m2 & m1' & x' & -> & L & K & F).
    exists m1, k, x, m2, m1', x'. cbn [object_as_left]. rewrite L. repeat split; auto.
  Qed.
End Behind.
