(** * A command on the heap does what it does on the trees. *)
From Verif Require Import Base Value Spec Containers Dump Api SpecApi BaseProofs ContainerProofs ApiProofs StoreProofs Heap SpecHeap HeapBase HeapSteps HeapOps HeapMoves HeapNodes HeapCalls HeapMerge HeapJoin HeapEval.
From Coq Require Import Permutation.

(** ** Methods without argument *)
Lemma sim_same hs st l v : read st l = Some v -> sim hs st -> sim hs (write st l v).
Proof. intros E S. now rewrite (write_same _ _ _ E). Qed.
Definition did {A} (P : loc -> Prop) (hs : hstate) (st : store) (l : loc) (v1 : value) (r : res A) (hs' : hstate) : Prop :=
  (exists x, r = Ok x) /\ sim hs' (write st l v1) /\ quiet hs hs' /\ (Forall tag_ok st -> stays P (length st) hs hs').
Definition undid {A} (hs : hstate) (st : store) (l : loc) (v1 : value) (r : res A) (e : exn) (hs' : hstate) : Prop :=
  (r = Throw e /\ sim hs' (write st l v1) /\ quiet hs hs' /\ (Forall tag_ok st -> stays nowhere (length st) hs hs')) \/ (oom hs e /\ exists v', sim hs' (write st l v')).
Lemma place_eq_dec (p q : place) : {p = q} + {p <> q}.
Proof. decide equality; auto using Nat.eq_dec; apply (list_eq_dec N.eq_dec). Qed.
Lemma stays_unless (P : loc -> Prop) (C : Prop) n hs hs' : (C -> stays P n hs hs') -> stays (fun l => P l \/ ~ C) n hs hs'.
Proof.
  intros H l pl L F V. unfold vref. destruct (resolve hs' l) as [[p y]|] eqn:R.
  - destruct (place_eq_dec p pl) as [->|Np]; [eauto|]. exfalso. apply F. right. intros c. destruct (H c l pl L ltac:(tauto) V) as (y' & Y). congruence.
  - exfalso. apply F. right. intros c. destruct (H c l pl L ltac:(tauto) V) as (y' & Y). congruence.
Qed.
Lemma keys_get v q w : keys_ok v -> get_at q v = Some w -> keys_ok w.
Proof.
  revert v. induction q as [|s q IH]; intros v Hv; cbn; [now intros [= <-]|]. destruct Hv as [t s0|t l Hl| |t m Hm|]; destruct s as [k|n]; try discriminate.
  - destruct (nth_error l n) as [x|] eqn:E; [|discriminate]. apply IH. eapply Forall_forall; [exact Hl|]. eapply nth_error_In; eauto.
  - destruct (map_find k m) as [x|] eqn:E; [|discriminate]. apply IH. clear H. induction Hm as [|[k' v] m Hv Hm IHm]; cbn in E; [discriminate|]. destruct (bytes_eqb k k'); [now injection E as <-|auto].
Qed.
Lemma keys_read st l w : Forall keys_ok st -> read st l = Some w -> keys_ok w.
Proof.
  intros Hs. unfold read. destruct (nth_error st (slot l)) as [v|] eqn:E; [|discriminate]. apply keys_get. eapply Forall_forall; [exact Hs|]. eapply nth_error_In; eauto.
Qed.
Lemma coerced_stays hs hs1 st st1 l v : sim hs st -> read st l = Some v -> upto (length st) [l] [l] hs hs1 st1 -> (v_empty v = Ok false -> hs1 = hs) -> v_empty v = Ok false \/ v_empty v = Ok true ->
  Forall tag_ok st -> stays nowhere (length st) hs hs1.
Proof.
  intros S E U Z D Ts. eapply (empty_stays hs hs1 st [] st1 l v); [rewrite app_nil_r; exact S|exact E|exact (tag_read _ _ _ Ts E)| |rewrite app_nil_r; exact U]. destruct D; auto.
Qed.
Lemma arr_body {A} P hs st l v pl (f : array -> array * res A) (body : addr -> hM unit) v1 r : sim hs st -> read st l = Some v -> vref hs l pl -> on_array f v = (v1, r) -> r <> Ub ->
  (forall a hs1 st1 xs, sim hs1 st1 -> read st1 l = Some (VArr Tarray (Some xs)) -> resolve hs1 l = Some (pl, HArr Tarray (Some a)) -> snd (f xs) <> Ub ->
     exists x hs2, snd (f xs) = Ok x /\ body a hs1 = HDone hs2 (Ok tt) /\ sim hs2 (write st1 l (VArr Tarray (Some (fst (f xs))))) /\ quiet hs1 hs2 /\ stays P (length st1) hs1 hs2) ->
  wp (let! a := h_as_array pl in body a) hs (fun _ => did P hs st l v1 r) (undid hs st l v1 r).
Proof.
  intros S E V O NU B. unfold on_array in O. destruct (as_array_m v) as [w ra] eqn:Ea.
  assert (Na : ra <> Ub). { intros ->. injection O as _ <-. now apply NU. }
  apply wp_bind. eapply wp_mono; [exact (as_array_run hs st l v pl w ra S E V Ea Na)|..]; cbv beta.
  - intros a hs1 (xs & -> & U & -> & R & Z). destruct (f xs) as [l' x] eqn:Ef. injection O as <- <-.
    assert (E1 : read (write st l (VArr Tarray (Some xs))) l = Some (VArr Tarray (Some xs))) by (now rewrite read_write_same, E).
    destruct (B a hs1 _ xs (upto_sim _ _ _ _ _ _ U) E1 R) as (y & hs2 & Ey & E2 & S2 & Q2 & K2); [now rewrite Ef|]. rewrite Ef in *. cbn [fst snd] in *.
    eapply wp_run; [exact E2|]. split; [eauto|]. rewrite write_write in S2. split; auto. split; [eapply quiet_trans; [apply U|exact Q2]|].
    intros Ts. rewrite write_length in K2. eapply stays_trans; [|exact K2]. eapply stays_mono; [eapply (coerced_stays hs hs1 st); eauto using as_array_empty; apply Z|lia|intros ? []].
  - intros e hs1 [(-> & Ew & ->)|(Om & S1)]; [left|right; eauto]. injection O as <- <-. rewrite Ew. split; [reflexivity|]. split; auto. split; [intros Hq; exact Hq|intros _; apply stays_refl].
Qed.
Lemma obj_body {A} P hs st l v pl (f : object -> object * res A) (body : addr -> hM unit) v1 r : sim hs st -> read st l = Some v -> vref hs l pl -> on_object f v = (v1, r) -> r <> Ub ->
  (forall a hs1 st1 xs, sim hs1 st1 -> read st1 l = Some (VObj Tobject (Some xs)) -> resolve hs1 l = Some (pl, HObj Tobject (Some a)) -> snd (f xs) <> Ub -> (keys_ok v -> sorted_keys xs) ->
     wp (body a) hs1 (fun _ hs2 => (exists x, snd (f xs) = Ok x) /\ sim hs2 (write st1 l (VObj Tobject (Some (fst (f xs))))) /\ quiet hs1 hs2 /\ stays P (length st1) hs1 hs2) (fun e hs2 => oom hs1 e /\ sim hs2 st1)) ->
  wp (let! a := h_as_object pl in body a) hs (fun _ => did P hs st l v1 r) (undid hs st l v1 r).
Proof.
  intros S E V O NU B. unfold on_object in O. destruct (as_object_m v) as [w ra] eqn:Ea.
  assert (Na : ra <> Ub). { intros ->. injection O as _ <-. now apply NU. }
  apply wp_bind. eapply wp_mono; [exact (as_object_run hs st l v pl w ra S E V Ea Na)|..]; cbv beta.
  - intros a hs1 (xs & -> & U & -> & R & Z). destruct (f xs) as [l' x] eqn:Ef. injection O as <- <-.
    assert (SK : keys_ok v -> sorted_keys xs).
    { intros Kv. destruct (as_object_empty _ _ _ Ea) as [F|F]; [destruct (Z F) as [_ <-]; now inversion Kv|].
      unfold as_object_m, coerce in Ea. rewrite F in Ea. cbn in Ea. injection Ea as <-. constructor. }
    assert (E1 : read (write st l (VObj Tobject (Some xs))) l = Some (VObj Tobject (Some xs))) by (now rewrite read_write_same, E).
    assert (NB : snd (f xs) <> Ub) by (now rewrite Ef).
    eapply wp_mono; [exact (B a hs1 _ xs (upto_sim _ _ _ _ _ _ U) E1 R NB SK)|..]; cbv beta; rewrite ?Ef; cbn [fst snd].
    + intros ? hs2 (Ey & S2 & Q2 & K2). split; auto. rewrite write_write in S2. split; auto. split; [eapply quiet_trans; [apply U|exact Q2]|].
      intros Ts. rewrite write_length in K2. eapply stays_trans; [|exact K2]. eapply stays_mono; [eapply (coerced_stays hs hs1 st); eauto using as_object_empty; apply Z|lia|intros ? []].
    + intros e hs2 [Om S2]. right. split; [eapply oom_quiet; [apply U|exact Om]|eauto].
  - intros e hs1 [(-> & Ew & ->)|(Om & S1)]; [left|right; eauto]. injection O as <- <-. rewrite Ew. split; [reflexivity|]. split; auto. split; [intros Hq; exact Hq|intros _; apply stays_refl].
Qed.
Lemma arr_size hs st l xs a pl : sim hs st -> read st l = Some (VArr Tarray (Some xs)) -> resolve hs l = Some (pl, HArr Tarray (Some a)) ->
  exists ys, arr_node a hs = HDone hs (Ok ys) /\ size ys = size xs.
Proof.
  intros S E R. destruct (arr_at_loc _ _ _ _ _ _ _ _ S E R) as (ys & fl & Hn & Hy & _). exists ys. pose proof (holds_all_length _ _ _ _ Hy) as L. split.
  - unfold arr_node, hbind, node_at. destruct hs. cbn in *. now rewrite Hn.
  - unfold size. now rewrite L.
Qed.
Lemma obj_keys hs st l xs a pl : sim hs st -> read st l = Some (VObj Tobject (Some xs)) -> resolve hs l = Some (pl, HObj Tobject (Some a)) ->
  exists ys, obj_node a hs = HDone hs (Ok ys) /\ map fst ys = map fst xs.
Proof.
  intros S E R. destruct (obj_at_loc _ _ _ _ _ _ _ _ S E R) as (ys & Hn & Hy). exists ys. split; auto.
  unfold obj_node, hbind, node_at. destruct hs. cbn in *. now rewrite Hn.
Qed.
Lemma erase_ok hs st l xs a pl n : sim hs st -> read st l = Some (VArr Tarray (Some xs)) -> resolve hs l = Some (pl, HArr Tarray (Some a)) ->
  exists hs', h_erase a n hs = HDone hs' (Ok tt) /\ sim hs' (write st l (VArr Tarray (Some (fst (arr_erase n xs))))) /\ quiet hs hs' /\
    stays (fun l' => exists j, (N.to_nat n <= j)%nat /\ within (sub l (Idx j)) l' = true) (length st) hs hs'.
Proof.
  intros S E R. destruct (arr_size _ _ _ _ _ _ S E R) as (ys & En & Es). unfold h_erase, hbind at 1. rewrite En, Es. unfold arr_erase, arr_erase_iter.
  destruct (size xs <=? n) eqn:C.
  - replace (n <? size xs) with false by lia. exists hs. split; [reflexivity|]. cbn [fst ret]. split; [exact (sim_same _ _ _ _ E S)|]. split; [intros Hq; exact Hq|apply stays_refl].
  - replace (n <? size xs) with true by lia. replace (n =? size xs) with false by lia. cbn [fst]. unfold size in C.
    destruct (nth_error xs (N.to_nat n)) as [v|] eqn:Ev; [|apply nth_error_None in Ev; lia].
    destruct (extract_upto hs st l Tarray xs pl Tarray a (N.to_nat n) v S E R Ev) as (hs1 & E1 & U1 & K1).
    destruct (drop_upto _ _ _ (upto_sim _ _ _ _ _ _ U1)) as (hs2 & E2 & U2). exists hs2. unfold hbind. rewrite E1. split; [exact E2|].
    split; [apply U2|]. split; [eapply quiet_trans; [apply U1|apply U2]|]. eapply stays_trans; [exact K1|]. eapply upto_stays; [exact U2|rewrite write_length; lia|intros w l' []].
Qed.
Lemma find_keys_some {A B} k (m : list (bytes * A)) (m' : list (bytes * B)) : map fst m = map fst m' ->
  match map_find k m, map_find k m' with Some _, Some _ | None, None => True | _, _ => False end.
Proof.
  intros H. destruct (map_find k m) eqn:E1, (map_find k m') eqn:E2; auto.
  - rewrite (find_none_keys k m' m) in E1 by auto. discriminate.
  - rewrite (find_none_keys k m m') in E2 by auto. discriminate.
Qed.
Lemma erase_key_ok hs st l xs a pl k v : sim hs st -> read st l = Some (VObj Tobject (Some xs)) -> resolve hs l = Some (pl, HObj Tobject (Some a)) -> map_find k xs = Some v ->
  exists hs', (extract_key a k ;; drop) hs = HDone hs' (Ok tt) /\ sim hs' (write st l (VObj Tobject (Some (fst (map_erase k xs))))) /\ quiet hs hs' /\
    stays (fun l' => within (sub l (Key k)) l' = true) (length st) hs hs'.
Proof.
  intros S E R F. destruct (extract_key_upto hs st l Tobject xs pl Tobject a k v S E R F) as (hs1 & E1 & U1 & K1).
  destruct (drop_upto _ _ _ (upto_sim _ _ _ _ _ _ U1)) as (hs2 & E2 & U2). exists hs2. unfold hbind. rewrite E1. split; [exact E2|].
  split; [apply U2|]. split; [eapply quiet_trans; [apply U1|apply U2]|]. eapply stays_trans; [exact K1|]. eapply upto_stays; [exact U2|rewrite write_length; lia|intros w l' []].
Qed.
Lemma erase_none {A} k (m : list (bytes * A)) : map_find k m = None -> fst (map_erase k m) = m.
Proof.
  induction m as [|(k', x) m IH]; cbn; auto. destruct (bytes_eqb k k'); [discriminate|]. intros H. specialize (IH H). destruct (map_erase k m) as [q b]. cbn in *. congruence.
Qed.
Lemma find_emplaced {A} k (x : A) m : exists y, map_find k (fst (map_emplace k x m)) = Some y.
Proof.
  induction m as [|(k', z) m IH]; cbn [map_emplace].
  - exists x. cbn. now rewrite bytes_eqb_refl.
  - destruct (bytes_ltb k k'); [exists x; cbn; now rewrite bytes_eqb_refl|]. destruct (bytes_eqb k k') eqn:E; [exists z; cbn; now rewrite E|].
    destruct (map_emplace k x m) as [q b]. cbn in *. now rewrite E.
Qed.
Lemma index_key_ok hs st l xs a pl k : sim hs st -> read st l = Some (VObj Tobject (Some xs)) -> resolve hs l = Some (pl, HObj Tobject (Some a)) ->
  wp (let! m := obj_node a in let '(m', fresh) := map_emplace k (HStr Tnull []) m in if (fresh : bool) then tick ;; tick ;; set_node a (NObj m') else hret tt) hs
    (fun _ hs2 => sim hs2 (write st l (VObj Tobject (Some (obj_index k xs)))) /\ quiet hs hs2 /\ (sorted_keys xs -> stays nowhere (length st) hs hs2)) (fun e hs2 => oom hs e /\ sim hs2 st).
Proof.
  intros S E R. destruct (obj_keys _ _ _ _ _ _ S E R) as (m & En & Ek). eapply wp_step; [exact En|].
  destruct (map_emplace k (HStr Tnull []) m) as [m' fresh] eqn:Em. pose proof (emplace_new k (HStr Tnull []) m) as Nw. rewrite Em in Nw. cbn in Nw. subst fresh.
  pose proof (emplace_ins k v_null xs) as I. unfold obj_index. rewrite Ek. destruct (emp_new k (map fst xs)).
  - destruct hs as [RR h fl]. apply wp_bind. apply wp_tick; cbn [roots hp fails]; [|intros fl1 Hf; split; [split; auto|exact S]].
    intros fl1 Hf1. apply wp_bind. apply wp_tick; cbn [roots hp fails]; [|intros fl2 Hf2; split; [split; auto|exact S]].
    intros fl2 Hf2. destruct (fresh_upto (HS RR h fl2) st l Tobject xs pl Tobject a k S E R) as (m2 & En2 & _ & hs3 & E3 & U3 & K3).
    assert (m2 = m) as -> by (unfold obj_node, hbind, node_at in En, En2; cbn in En, En2; destruct (nth_error h a) as [[[]|]|] eqn:Hn; rewrite ?Hn in En, En2; unfold hfail, hret in En, En2; congruence).
    rewrite Em in E3. cbn [fst] in E3. eapply wp_run; [exact E3|]. split; [apply U3|]. split; [|exact K3]. eapply quiet_trans; [|apply U3]. intros Hq. cbn in *. auto.
  - rewrite I. eapply wp_run; [reflexivity|]. split; [exact (sim_same _ _ _ _ E S)|]. split; [intros Hq; exact Hq|intros _; apply stays_refl].
Qed.
Lemma did_void {A} P hs st l v1 (r : res A) hs' : did P hs st l v1 r hs' -> did P hs st l v1 (do _ <- r; Ok tt) hs'.
Proof. intros ((x & ->) & H). split; [exists tt; reflexivity|exact H]. Qed.
Lemma undid_void {A} hs st l v1 (r : res A) e hs' : undid hs st l v1 r e hs' -> undid hs st l v1 (do _ <- r; Ok tt) e hs'.
Proof. intros [(-> & H)|H]; [left|right; exact H]. split; [reflexivity|exact H]. Qed.
Lemma void_wp {A} P (h : hM unit) (p : value * res A) hs st l v1 r : voidm p = (v1, r) -> r <> Ub ->
  (forall r0, p = (v1, r0) -> r0 <> Ub -> wp h hs (fun _ => did P hs st l v1 r0) (undid hs st l v1 r0)) -> wp h hs (fun _ => did P hs st l v1 r) (undid hs st l v1 r).
Proof.
  intros E NU H. destruct p as [w r0]. injection E as -> <-. assert (N0 : r0 <> Ub) by (intros ->; now apply NU).
  eapply wp_mono; [exact (H r0 eq_refl N0)|..]; cbv beta; intros; [now apply did_void|now apply undid_void].
Qed.
(** the references a method called on [l], which holds [v], does not keep *)
Definition method_loses (m : method) (v : value) (l l' : loc) : Prop :=
  match m with
  | MAsArray | MAsObject | MIndexPos _ | MObjEraseIter None => False
  | MIndexKey _ => nowhere l' \/ ~ keys_ok v
  | MErasePos n | MArrEraseIter n => exists j, (N.to_nat n <= j)%nat /\ within (sub l (Idx j)) l' = true
  | MEraseKey k | MObjEraseIter (Some k) => within (sub l (Key k)) l' = true
  | MClear | MArrClear | MObjClear => strictly_inside l l'
  end.
Lemma invoke_ok hs st l v pl m v1 r : sim hs st -> read st l = Some v -> vref hs l pl -> invoke m v = (v1, r) -> r <> Ub ->
  wp (h_invoke m pl) hs (fun _ => did (method_loses m v l) hs st l v1 r) (undid hs st l v1 r).
Proof.
  intros S E V I NU. pose proof (read_slot _ _ _ E) as Ls.
  destruct m as [| |n|k|n|k| | | |n|k]; cbn [invoke h_invoke] in *; try (apply (void_wp _ _ _ _ _ _ _ _ I NU); clear r I NU; intros r I NU).
  - apply wp_bind. eapply wp_mono; [exact (as_array_run hs st l v pl v1 r S E V I NU)|..]; cbv beta.
    + intros a hs1 (xs & -> & U & _ & _ & Z). eapply wp_run; [reflexivity|]. split; [eauto|]. split; [apply U|]. split; [apply U|]. intros Ts.
      eapply (coerced_stays hs hs1 st); eauto using as_array_empty. apply Z.
    + intros e hs1 [(-> & Ew & ->)|(Om & S1)]; [left|right; eauto]. rewrite Ew. split; [reflexivity|]. split; [exact S|]. split; [intros Hq; exact Hq|intros _; apply stays_refl].
  - apply wp_bind. eapply wp_mono; [exact (as_object_run hs st l v pl v1 r S E V I NU)|..]; cbv beta.
    + intros a hs1 (xs & -> & U & _ & _ & Z). eapply wp_run; [reflexivity|]. split; [eauto|]. split; [apply U|]. split; [apply U|]. intros Ts.
      eapply (coerced_stays hs hs1 st); eauto using as_object_empty. apply Z.
    + intros e hs1 [(-> & Ew & ->)|(Om & S1)]; [left|right; eauto]. rewrite Ew. split; [reflexivity|]. split; [exact S|]. split; [intros Hq; exact Hq|intros _; apply stays_refl].
  - apply (arr_body _ hs st l v pl _ _ v1 r S E V I NU). intros a hs1 st1 xs S1 E1 R1 Nx. cbn [fst snd] in *. destruct (arr_size _ _ _ _ _ _ S1 E1 R1) as (ys & En & Es).
    unfold arr_index in *. destruct (nthN xs n) as [x|] eqn:Ex; [|congruence]. exists x, hs1. split; [reflexivity|]. split.
    + unfold hbind. rewrite En, Es. unfold nthN in Ex. destruct (n <? size xs) eqn:C; [reflexivity|].
      assert (nth_error xs (N.to_nat n) = None) by (apply nth_error_None; unfold size in C; lia). congruence.
    + split; [exact (sim_same _ _ _ _ E1 S1)|split; [intros Hq; exact Hq|apply stays_refl]].
  - unfold v_index_key in I. destruct (coerce (v_object []) v) as [w rc] eqn:Ec.
    assert (Nc : rc <> Ub). { intros ->. injection I as _ <-. now apply NU. }
    apply wp_bind. eapply wp_mono; [exact (coerce_ok hs st l v pl Tobject (NObj []) (fun a => HObj Tobject (Some a)) (v_object []) w rc S E V (fun h b Hb => ho_obj h Tobject b [] [] [] Hb eq_refl (ho_nil h)) Ec Nc)|..]; cbv beta.
    + intros ? hs1 (-> & U & Z).
      assert (De : v_empty v = Ok false \/ v_empty v = Ok true) by (unfold coerce in Ec; destruct (v_empty v) as [[]| | | |]; auto; injection Ec as _ X; discriminate).
      assert (Kw : keys_ok v -> keys_ok w) by (intros Kv; destruct De as [F|F]; [destruct (Z F) as [_ ->]; exact Kv|unfold coerce in Ec; rewrite F in Ec; injection Ec as <-; repeat constructor]).
      assert (Tw : tag_ok v -> tag_ok w) by (intros Kv; destruct De as [F|F]; [destruct (Z F) as [_ ->]; exact Kv|unfold coerce in Ec; rewrite F in Ec; injection Ec as <-; repeat constructor]).
      assert (E1 : read (write st l w) l = Some w) by (now rewrite read_write_same, E).
      assert (V1 : vref hs1 l pl) by (eapply upto_vref_self; [exact U|exact Ls|apply incl_refl|exact V]).
      eapply wp_mono; [apply (obj_body (fun l' => nowhere l' \/ ~ keys_ok v) hs1 (write st l w) l w pl _ (fun a => let! m := obj_node a in let '(m', fresh) := map_emplace k (HStr Tnull []) m in if (fresh : bool) then tick ;; tick ;; set_node a (NObj m') else hret tt) v1 r (upto_sim _ _ _ _ _ _ U) E1 V1 I NU)|..]; cbv beta.
      * intros b hs2 st2 xs S2 E2 R2 _ Sk. eapply wp_mono; [exact (index_key_ok hs2 st2 l xs b pl k S2 E2 R2)|..]; cbv beta; [|intros e hs3 X; exact X].
        intros ? hs3 (S3 & Q3 & K3). cbn [fst snd]. split; [unfold obj_at, obj_index; destruct (find_emplaced k v_null xs) as (y & ->); eauto|]. split; auto. split; auto. apply stays_unless. auto.
      * intros ? hs2 (X & S2 & Q2 & K2). rewrite write_write in S2. split; auto. split; auto. split; [eapply quiet_trans; [apply U|exact Q2]|].
        intros Ts. rewrite write_length in K2. eapply stays_trans; [|apply K2; apply tag_write; [exact Ts|exact (Tw (tag_read _ _ _ Ts E))]].
        eapply stays_mono; [eapply (coerced_stays hs hs1 st); eauto; apply Z|lia|intros ? []].
      * intros e hs2 [(-> & S2 & Q2 & K2)|(Om & v' & S2)]; rewrite write_write in S2; [left|right].
        -- split; [reflexivity|]. split; auto. split; [eapply quiet_trans; [apply U|exact Q2]|]. intros Ts. rewrite write_length in K2.
           eapply stays_trans; [|apply K2; apply tag_write; [exact Ts|exact (Tw (tag_read _ _ _ Ts E))]]. eapply (coerced_stays hs hs1 st); eauto; apply Z.
        -- split; [eapply oom_quiet; [apply U|exact Om]|eauto].
    + intros e hs1 [(-> & -> & ->)|(Om & _ & S1)]; [left|right; eauto]. injection I as <- <-. rewrite (write_same _ _ _ E). split; [reflexivity|]. split; [exact S|]. split; [intros Hq; exact Hq|intros _; apply stays_refl].
  - apply (arr_body _ hs st l v pl _ _ v1 r S E V I NU). intros a hs1 st1 xs S1 E1 R1 Nx. destruct (erase_ok _ _ _ _ _ _ n S1 E1 R1) as (hs2 & E2 & S2 & Q2 & K2).
    exists (snd (arr_erase n xs)), hs2. split; [reflexivity|]. splits; auto.
  - apply (obj_body _ hs st l v pl _ _ v1 r S E V I NU). intros a hs1 st1 xs S1 E1 R1 Nx _. destruct (obj_keys _ _ _ _ _ _ S1 E1 R1) as (m & En & Ek). eapply wp_step; [exact En|].
    pose proof (find_keys_some k m xs Ek) as F. unfold ret, obj_erase. cbn [fst snd]. destruct (map_find k m); destruct (map_find k xs) as [y|] eqn:Fx; try tauto.
    + destruct (erase_key_ok _ _ _ _ _ _ k y S1 E1 R1 Fx) as (hs2 & E2 & S2 & Q2 & K2). eapply wp_run; [exact E2|]. split; [eauto|]. split; auto.
    + eapply wp_run; [reflexivity|]. assert (X : sim hs1 (write st1 l (VObj Tobject (Some (fst (map_erase k xs)))))) by (rewrite (erase_none _ _ Fx); exact (sim_same _ _ _ _ E1 S1)).
      split; [eauto|]. split; [exact X|]. split; [intros Hq; exact Hq|apply stays_refl].
  - injection I as <- <-. destruct (push_upto hs st (HStr Tnull []) v_null S) as (hs1 & E1 & U1); [constructor|].
    assert (V1 : vref hs1 l pl) by (eapply upto_vref; [exact U1|exact Ls|constructor|exact V]).
    destruct (assign_tmp_ok hs1 st v_null l v pl (upto_sim _ _ _ _ _ _ U1) E V1) as (hs2 & E2 & U2). eapply wp_step; [exact E1|]. eapply wp_run; [exact E2|].
    split; [eauto|]. split; [apply U2|]. split; [eapply quiet_trans; [apply U1|apply U2]|]. intros _.
    eapply stays_trans; [eapply upto_stays; [exact U1|lia|intros w l' []]|]. eapply upto_stays; [exact U2|lia|]. intros w l' [<-|[]] H. exact H.
  - apply (arr_body _ hs st l v pl _ _ v1 r S E V I NU). intros a hs1 st1 xs S1 E1 R1 Nx.
    destruct (explode_upto hs1 st1 l Tarray xs pl Tarray a (fun _ => []) (fun _ => []) S1 E1 R1) as (hs2 & E2 & U2); [intros; constructor|].
    destruct (drop_n_upto hs2 _ xs _ eq_refl (upto_sim _ _ _ _ _ _ U2)) as (hs3 & E3 & U3). exists tt, hs3. unfold hbind. rewrite E2. split; [reflexivity|]. split; [exact E3|]. split; [apply U3|]. split; [eapply quiet_trans; [apply U2|apply U3]|].
    eapply stays_trans; [eapply upto_stays; [exact U2|lia|intros w l' [<-|[]] H; exact H]|eapply upto_stays; [exact U3|rewrite write_length; lia|intros w l' []]].
  - apply (obj_body _ hs st l v pl _ _ v1 r S E V I NU). intros a hs1 st1 xs S1 E1 R1 Nx _.
    destruct (explode_obj_upto hs1 st1 l Tobject xs pl Tobject a S1 E1 R1) as (hs2 & E2 & U2).
    destruct (drop_n_upto hs2 _ (map snd xs) _ eq_refl (upto_sim _ _ _ _ _ _ U2)) as (hs3 & E3 & U3). eapply wp_step; [exact E2|]. eapply wp_run; [exact E3|]. split; [exists tt; reflexivity|]. split; [apply U3|]. split; [eapply quiet_trans; [apply U2|apply U3]|].
    eapply stays_trans; [eapply upto_stays; [exact U2|lia|intros w l' [<-|[]] H; exact H]|eapply upto_stays; [exact U3|rewrite write_length; lia|intros w l' []]].
  - apply (arr_body _ hs st l v pl _ _ v1 r S E V I NU). intros a hs1 st1 xs S1 E1 R1 Nx. destruct (arr_size _ _ _ _ _ _ S1 E1 R1) as (ys & En & Es).
    destruct (size xs <? n) eqn:C; [cbn in Nx; congruence|]. destruct (erase_ok _ _ _ _ _ _ n S1 E1 R1) as (hs2 & E2 & S2 & Q2 & K2).
    exists (snd (arr_erase_iter n xs)), hs2. unfold hbind. rewrite En, Es, C. split; [reflexivity|]. split; [exact E2|]. split; [|split; [exact Q2|exact K2]]. unfold ret. cbn [fst].
    replace (arr_erase_iter n xs) with (arr_erase n xs); auto. unfold arr_erase, arr_erase_iter. destruct (n =? size xs) eqn:C2; destruct (size xs <=? n) eqn:C3; auto; lia.
  - apply (obj_body _ hs st l v pl _ _ v1 r S E V I NU). intros a hs1 st1 xs S1 E1 R1 Nx _. destruct k as [k|].
    + destruct (obj_keys _ _ _ _ _ _ S1 E1 R1) as (m & En & Ek). eapply wp_step; [exact En|].
      pose proof (find_keys_some k m xs Ek) as F. unfold obj_contains in *. destruct (map_find k m); destruct (map_find k xs) as [y|] eqn:Fx; try tauto.
      * destruct (erase_key_ok _ _ _ _ _ _ k y S1 E1 R1 Fx) as (hs2 & E2 & S2 & Q2 & K2). eapply wp_run; [exact E2|]. split; [eexists; reflexivity|]. split; [exact S2|]. split; [exact Q2|exact K2].
    + eapply wp_run; [reflexivity|]. unfold ret. cbn [fst snd obj_erase_iter]. split; [eexists; reflexivity|]. split; [exact (sim_same _ _ _ _ E1 S1)|]. split; [intros Hq; exact Hq|apply stays_refl].
Qed.

(** ** Commands *)
Lemma thrown_mono {A} S S' P hs st ex st' (r : res A) e hs' : thrown S P hs st ex st' r e hs' -> incl S S' -> thrown S' P hs st ex st' r e hs'.
Proof. intros [(E & Si & F & Q & K)|H] I; [left|right; eapply failed_mono; eauto]. splits; auto. eapply frame_mono; eauto. Qed.
Lemma fine_mono S S' (P P' : loc -> Prop) hs st hs' st' : fine S P hs st hs' st' -> incl S S' -> (forall l, P l -> P' l) -> fine S' P' hs st hs' st'.
Proof. intros (Si & F & Q & K) I IP. unfold fine. splits; [auto|eapply frame_mono; eauto|auto|]. intros Ts. eapply stays_mono; [exact (K Ts)|lia|exact IP]. Qed.
Lemma eval_tags e : forall st st' r, eval e st = Done st' r -> Forall tag_ok st -> Forall tag_ok st'.
Proof.
  assert (EL : forall es, Forall (fun e => forall st st' r, eval e st = Done st' r -> Forall tag_ok st -> Forall tag_ok st') es ->
    forall st st' r, eval_list eval es st = Done st' r -> Forall tag_ok st -> Forall tag_ok st').
  { induction 1 as [|e' es He _ IH]; intros st st' r E T; cbn [eval_list] in E; [now injection E as <- <-|]. unfold mbind in E.
    destruct (eval e' st) as [|st1 r1] eqn:E1; [discriminate|]. pose proof (He _ _ _ E1 T) as T1. destruct r1 as [v| | | |]; try (injection E as <- _; exact T1).
    destruct (eval_list eval es st1) as [|st2 r2] eqn:E2; [discriminate|]. pose proof (IH _ _ _ E2 T1) as T2. destruct r2; injection E as <- _; exact T2. }
  induction e as [|b|s|s|t s|l|l|es IH|ms IH] using expr_ind'; intros st st' r E T; cbn [eval] in E; try (injection E as <- <-; exact T).
  - unfold copy_from, mbind, rd, mfail in E. destruct (read st l); [|discriminate]. injection E as <- _. exact T.
  - unfold take, mbind, rd, wr in E. destruct (read st l) as [w|] eqn:R; [|discriminate]. injection E as <- _. apply tag_write; auto. exact (tag_moved _ (tag_read _ _ _ T R)).
  - unfold mbind, mfail in E. destruct (eval_list eval es st) as [|st1 r1] eqn:E1; [discriminate|]. pose proof (EL es IH _ _ _ E1 T). destruct r1 as [v| | | |]; try (injection E as <- _; auto). destruct (copy_elems copy v); injection E as <- _; auto.
  - unfold mbind, mfail in E. rewrite eval_members_list in E. destruct (eval_list eval (map snd ms) st) as [|st1 r1] eqn:E1; [discriminate|].
    assert (IH' : Forall (fun e => forall st st' r, eval e st = Done st' r -> Forall tag_ok st -> Forall tag_ok st') (map snd ms)) by (now apply Forall_map).
    pose proof (EL _ IH' _ _ _ E1 T). destruct r1 as [v| | | |]; cbn [bind] in E; try (injection E as <- _; auto). destruct (copy_members copy (combine (map fst ms) v)); injection E as <- _; auto.
Qed.
(** the references a command does not keep *)
Definition loses (st : store) (c : cmd) (l : loc) : Prop :=
  match c with
  | CNew e => inside (expr_takes e) l
  | CAssign d a => strictly_inside d l \/ inside (arg_takes a) l
  | CEmplace d a => inside (arg_takes a) l
  | CEmplaceKey d k a => strictly_inside (sub d (Key k)) l \/ inside (arg_takes a) l
  | COr d s mv => or_loses st d s mv l
  | CPlus d s mv => mv = true /\ strictly_inside s l
  | COrNew d s ml mr => or_new_loses st d s ml mr l
  | CPlusNew d s ml mr => plus_new_loses d s ml mr l
  | CInvoke x m => exists v, read st x = Some v /\ method_loses m v x l
  | CAsk _ _ | CEq _ _ => False
  end.
Lemma inside_taken a l : inside (taken a) l -> inside (arg_takes a) l.
Proof. intros (w & Iw & H). exists w. split; auto. destruct a; cbn in *; tauto. Qed.
Lemma inside_cons d P l : inside (d :: P) l -> strictly_inside d l \/ inside P l.
Proof. intros (w & [<-|Iw] & H); [auto|right; exists w; auto]. Qed.
(** what the evaluation of the argument has moved away when the function throws *)
Definition arg_spills (a : arg) : list loc := match a with Tmp e => expr_takes e | _ => [] end.
Lemma thrown_spills {A} S (P : loc -> Prop) hs st ex st' (r : res A) e hs' : thrown S nowhere hs st ex st' r e hs' -> thrown S P hs st ex st' r e hs'.
Proof. intros [(E & Si & F & Q & K)|H]; [left|right; exact H]. splits; auto. intros Ts. eapply stays_mono; [exact (K Ts)|lia|intros l []]. Qed.
Lemma thrown_trans {A} S (P : loc -> Prop) hs st ex hs1 st1 st' (r : res A) e hs' : frame S st st1 -> quiet hs hs1 -> stays P (length st) hs hs1 -> (Forall tag_ok st -> Forall tag_ok st1) ->
  thrown S nowhere hs1 st1 ex st' r e hs' -> thrown S P hs st ex st' r e hs'.
Proof.
  intros F Q K T [(E & Si & F2 & Q2 & K2)|H]; [left|right; eapply failed_trans; eauto]. splits; auto; [eapply frame_trans; eauto|eapply quiet_trans; eauto|].
  intros Ts. eapply stays_trans; [exact K|]. eapply stays_mono; [exact (K2 (T Ts))|rewrite (frame_length _ _ _ F); lia|intros l []].
Qed.
Lemma with_arg_ok hs st a (body : harg -> hM unit) (f : option value -> M unit) S (P : loc -> Prop) st' r : (forall l, inside (arg_takes a) l -> P l) -> sim hs st -> Forall (fun l => read st l <> None) (arg_refs a) ->
  mbind (prepare a) f st = Done st' r -> r <> Ub -> incl (arg_moves a) S ->
  (forall hs1 st1 t x ex, sim hs1 (st1 ++ ex) -> harg_for hs1 a t x ex -> f t st1 = Done st' r -> (ex = [] -> st1 = st) ->
     wp (body x) hs1 (fun _ hs' => r = Ok tt /\ fine S P hs1 st1 hs' st') (thrown S nowhere hs1 st1 ex st' r)) ->
  wp (with_arg a body) hs (fun _ hs' => r = Ok tt /\ fine S P hs st hs' st') (thrown S (inside (arg_spills a)) hs st [] st' r).
Proof.
  intros IP Si Va E NU I B. destruct a as [e|l|l]; cbn [prepare with_arg arg_moves arg_refs] in *; unfold mbind in E.
  - destruct (eval e st) as [|st1 r1] eqn:E1; [discriminate|].
    assert (N1 : r1 <> Ub). { intros ->. injection E as _ E. now apply NU. }
    assert (Si' : sim hs (st ++ [])) by (now rewrite app_nil_r).
    apply wp_bind. eapply wp_mono; [exact (eval_ok e hs st [] st1 r1 Si' E1 N1)|..]; cbv beta.
    + intros ? hs1 (v & -> & S1 & F1 & Q1 & K1). cbn [app] in S1. cbn in E. assert (F1' : frame S st st1) by (eapply frame_mono; eauto).
      eapply wp_catch; [eapply wp_mono; [exact (B hs1 st1 (Some v) HTmp [v] S1 (hf_tmp hs1 e v) E ltac:(discriminate))|..]|]; cbv beta.
      * intros ? hs2 (-> & F2). destruct F2 as (S2 & F2 & Q2 & K2). split; auto. unfold fine. splits; [auto|eapply frame_trans; eauto|eapply quiet_trans; eauto|].
        intros Ts. specialize (K2 (eval_tags _ _ _ _ E1 Ts)). rewrite (frame_length _ _ _ F1) in K2. eapply stays_trans; [eapply stays_mono; [exact K1|lia|exact IP]|exact K2].
      * intros e' hs2 X. exact X.
      * intros e' hs2 X. pose proof (thrown_trans S (inside (expr_takes e)) _ _ _ _ _ _ _ _ _ F1' Q1 (stays_mono _ _ _ _ _ _ K1 (le_n _) (fun l H => H)) (eval_tags _ _ _ _ E1) X) as Y. destruct Y as [(-> & S2 & F2 & Q2 & K2)|(Om & st3 & S3 & F3)].
        -- destruct (drop_upto _ _ _ S2) as (hs3 & E3 & U3). exists hs3. split; [exact E3|]. left. rewrite app_nil_r. splits; auto; [apply U3|eapply quiet_trans; [exact Q2|apply U3]|]. intros Ts. eapply stays_trans; [exact (K2 Ts)|]. eapply upto_stays; [exact U3|rewrite (frame_length _ _ _ F2); lia|intros w l []].
        -- destruct (drop_upto _ _ _ S3) as (hs3 & E3 & U3). exists hs3. split; [exact E3|]. right. eapply failed_at; eauto. apply U3.
    + intros e' hs1 X. right. eapply failed_mono; eauto.
  - apply Forall_inv in Va. destruct (read st l) as [w|] eqn:R; [|congruence]. assert (Si' : sim hs (st ++ [])) by (now rewrite app_nil_r).
    destruct (at_loc_ok hs st [] l w Si' R) as (pl & Ea & V). eapply wp_step; [exact Ea|]. eapply wp_mono; [exact (B hs st None (HRef pl) [] Si' (hf_ref hs l None pl V) E (fun _ => eq_refl))|..]; cbv beta; [auto|intros e' hs1 X; now apply thrown_spills].
  - apply Forall_inv in Va. destruct (read st l) as [w|] eqn:R; [|congruence]. assert (Si' : sim hs (st ++ [])) by (now rewrite app_nil_r).
    destruct (at_loc_ok hs st [] l w Si' R) as (pl & Ea & V). eapply wp_step; [exact Ea|]. eapply wp_mono; [exact (B hs st None (HMove pl) [] Si' (hf_move hs l None pl V) E (fun _ => eq_refl))|..]; cbv beta; [auto|intros e' hs1 X; now apply thrown_spills].
Qed.
Lemma taken_moves a : map slot (taken a) = match a with MRef l => [slot l] | _ => [] end.
Proof. destruct a; reflexivity. Qed.
Lemma taken_incl d a : incl (map slot (d :: taken a)) (slot d :: arg_moves a).
Proof. cbn. rewrite taken_moves. destruct a; incls. Qed.
(** what a command does, apart from creating a variable and from queries *)
Definition plain (c : cmd) : Prop := match c with CNew _ | COrNew _ _ _ _ | CPlusNew _ _ _ _ | CAsk _ _ | CEq _ _ => False | _ => True end.
(** what a command that throws has moved away *)
Definition spills (c : cmd) (l : loc) : Prop :=
  match c with CAssign _ a | CEmplace _ a | CEmplaceKey _ _ a => inside (arg_spills a) l | _ => False end.
Lemma plain_ok c hs st st' r : plain c -> sim hs st -> refs_valid st c -> ~ moves_into_part c -> exec c st = Done st' r -> r <> Ub ->
  wp (hexec c) hs (fun _ hs' => r = Ok tt /\ fine (writes c) (loses st c) hs st hs' st') (thrown (writes c) (spills c) hs st [] st' r).
Proof.
  intros Pl Si Va NM E NU. unfold refs_valid in Va. assert (Si' : sim hs (st ++ [])) by (now rewrite app_nil_r).
  destruct c as [e|d a|d a|d k a|d s mv|d s mv|d s ml mr|d s ml mr|l m|l q|x y]; try exact (False_ind _ Pl); cbn [exec hexec writes refs moves_into_part] in *.
  - refine (with_arg_ok hs st a _ _ _ _ st' r _ Si (Forall_inv_tail Va) E NU _ _); [intros l Hl; cbn [loses]; auto|apply incl_tl, incl_refl|]. intros hs1 st1 t x ex S1 H1 E1 _.
    assert (Rd : exists w, read st1 d = Some w).
    { destruct H1 as [e v|l t p Vl|l t p Vl]; cbn [assign] in E1; unfold copy_assign, move_assign, mbind, rd in E1; destruct (read st1 d); eauto; discriminate. }
    destruct Rd as (w & Rd). destruct (at_loc_ok hs1 st1 ex d w S1 Rd) as (pd & Ea & V). eapply wp_step; [exact Ea|].
    assert (Hn : forall s, a = MRef s -> ~ strictly_inside s d) by (intros s ->; exact NM).
    eapply wp_mono; [exact (assign_ok hs1 st1 d a t x ex pd st' r S1 H1 V Hn E1 NU)|..]; cbv beta.
    + intros ? hs2 [-> G]. split; auto. eapply fine_mono; [eapply good_fine; exact G|apply taken_incl|]. intros l Hl. apply inside_cons in Hl as [Hl|Hl]; [left; exact Hl|right; now apply inside_taken].
    + intros e hs2 X. right. eapply failed_mono; [exact X|apply taken_incl].
  - refine (with_arg_ok hs st a _ _ _ _ st' r _ Si (Forall_inv_tail Va) E NU _ _); [intros l Hl; cbn [loses]; auto|apply incl_tl, incl_refl|]. intros hs1 st1 t x ex S1 H1 E1 _.
    assert (Rd : exists w, read st1 d = Some w).
    { unfold emplace_back, mbind, call in E1. destruct (read st1 d); eauto; discriminate. }
    destruct Rd as (w & Rd). destruct (at_loc_ok hs1 st1 ex d w S1 Rd) as (pd & Ea & V). eapply wp_step; [exact Ea|].
    assert (Hn : forall s, a = MRef s -> within s d = false) by (intros s ->; destruct (within s d); [now destruct NM|reflexivity]).
    eapply wp_mono; [exact (emplace_ok hs1 st1 d a t x ex pd st' r S1 H1 V Hn E1 NU)|..]; cbv beta.
    + intros ? hs2 (-> & G & K). split; auto. destruct (good_fine _ _ _ _ _ _ _ G) as (G1 & G2 & G3 & _). unfold fine. splits; [exact G1|eapply frame_mono; [exact G2|apply taken_incl]|exact G3|].
      intros Ts. eapply stays_mono; [exact (K Ts)|lia|]. intros l Hl. now apply inside_taken.
    + intros e hs2 X. eapply thrown_mono; [exact X|apply taken_incl].
  - refine (with_arg_ok hs st a _ _ _ _ st' r _ Si (Forall_inv_tail Va) E NU _ _); [intros l Hl; cbn [loses]; auto|apply incl_tl, incl_refl|]. intros hs1 st1 t x ex S1 H1 E1 _.
    assert (Rd : exists w, read st1 d = Some w).
    { unfold insert_or_assign, mbind, call in E1. destruct (read st1 d); eauto; discriminate. }
    destruct Rd as (w & Rd). destruct (at_loc_ok hs1 st1 ex d w S1 Rd) as (pd & Ea & V). eapply wp_step; [exact Ea|].
    assert (Hn : forall s, a = MRef s -> within s d = false) by (intros s ->; destruct (within s d); [now destruct NM|reflexivity]).
    eapply wp_mono; [exact (emplace_key_ok hs1 st1 d k a t x ex pd st' r S1 H1 V Hn E1 NU)|..]; cbv beta.
    + intros ? hs2 [-> G]. split; auto. eapply fine_mono; [exact G|apply taken_incl|]. intros l Hl. apply inside_cons in Hl as [Hl|Hl]; [left; exact Hl|right; now apply inside_taken].
    + intros e hs2 X. eapply thrown_mono; [exact X|apply taken_incl].
  - pose proof (Forall_inv Va) as Vd. pose proof (Forall_inv (Forall_inv_tail Va)) as Vs. cbv beta in *.
    destruct (read st d) as [w|] eqn:Rd; [|congruence]. destruct (read st s) as [w'|] eqn:Rs; [|congruence].
    destruct (at_loc_ok hs st [] d w Si' Rd) as (pd & Ead & Wd). destruct (at_loc_ok hs st [] s w' Si' Rs) as (ps & Eas & Ws).
    eapply wp_step; [exact Eas|]. eapply wp_step; [exact Ead|]. eapply wp_mono; [apply (or_ok hs st d s pd ps mv st' r); auto|..]; cbv beta; [|auto|intros e hs1 X; now apply thrown_spills]. intros ->. exact NM.
  - pose proof (Forall_inv Va) as Vd. pose proof (Forall_inv (Forall_inv_tail Va)) as Vs. cbv beta in *.
    destruct (read st d) as [w|] eqn:Rd; [|congruence]. destruct (read st s) as [w'|] eqn:Rs; [|congruence].
    destruct (at_loc_ok hs st [] d w Si' Rd) as (pd & Ead & Wd). destruct (at_loc_ok hs st [] s w' Si' Rs) as (ps & Eas & Ws).
    eapply wp_step; [exact Eas|]. eapply wp_step; [exact Ead|]. eapply wp_mono; [apply (plus_ok hs st d s pd ps mv st' r); auto|..]; cbv beta; [|auto|intros e hs1 X; now apply thrown_spills]. intros ->. exact NM.
  - unfold call in E. destruct (read st l) as [v|] eqn:R; [|discriminate]. destruct (invoke m v) as [v1 r1] eqn:I. injection E as <- <-.
    destruct (at_loc_ok hs st [] l v Si' R) as (pl & Ea & V). eapply wp_step; [exact Ea|].
    eapply wp_mono; [exact (invoke_ok hs st l v pl m v1 r1 Si R V I NU)|..]; cbv beta.
    + intros ? hs1 (([] & ->) & S1 & Q1 & K1). split; auto. unfold fine. splits; [auto|frames|auto|]. intros Ts. eapply stays_mono; [exact (K1 Ts)|lia|]. intros l' Hl. exists v. auto.
    + intros e hs1 [(-> & S1 & Q1 & K1)|(Om & v' & S1)]; [left|right].
      * rewrite app_nil_r. splits; auto. frames.
      * eapply failed_at; [exact Om|exact S1|frames].
Qed.
Lemma frame_unchanged W st st' : frame W st st' -> unchanged W st st'.
Proof. intros [L F]. split; [lia|]. intros i v E N. now rewrite F. Qed.
Lemma wp_out {A} (m : hM A) hs Q E : wp m hs Q E -> (exists hs' a, m hs = HDone hs' (Ok a) /\ Q a hs') \/ (exists hs' e, m hs = HDone hs' (Throw e) /\ E e hs').
Proof. unfold wp. destruct (m hs) as [|hs' [a|e| | |]]; try tauto; eauto. Qed.
Ltac kept := first [solve [intros _; assumption] | solve [intros _ _; assumption] | solve [intros (? & ?); discriminate] | solve [intros (? & ? & ?); congruence] | solve [intros _ Ts; eapply stays_mono; [eauto|lia|intros ? []]] | intros _ _; apply stays_refl].
(** the result, and the references kept by a normal return *)
Theorem hexec_keeps c hs st st' r : sim hs st -> refs_valid st c -> ~ moves_into_part c -> exec c st = Done st' r -> r <> Ub ->
  exists hs' r', hexec c hs = HDone hs' r' /\ ((exists x, r' = Ok x) -> Forall tag_ok st -> stays (loses st c) (length st) hs hs') /\
    ((exists e, r' = Throw e /\ e <> BadAlloc) -> Forall tag_ok st -> stays (spills c) (length st) hs hs') /\
    ((r' = r /\ sim hs' st' /\ unchanged (writes c) st st' /\ (fails hs = [] -> fails hs' = [])) \/
     (r' = Throw BadAlloc /\ fails hs <> [] /\ exists st'', sim hs' st'' /\ length st'' = length st /\ unchanged (writes c) st st'')).
Proof.
  intros Si Va NM E NU. assert (Si' : sim hs (st ++ [])) by (now rewrite app_nil_r).
  assert (Pl : plain c -> exists hs' r', hexec c hs = HDone hs' r' /\ ((exists x, r' = Ok x) -> Forall tag_ok st -> stays (loses st c) (length st) hs hs') /\
    ((exists e, r' = Throw e /\ e <> BadAlloc) -> Forall tag_ok st -> stays (spills c) (length st) hs hs') /\
    ((r' = r /\ sim hs' st' /\ unchanged (writes c) st st' /\ (fails hs = [] -> fails hs' = [])) \/
     (r' = Throw BadAlloc /\ fails hs <> [] /\ exists st'', sim hs' st'' /\ length st'' = length st /\ unchanged (writes c) st st''))).
  { intros Pl. destruct (wp_out _ _ _ _ (plain_ok c hs st st' r Pl Si Va NM E NU)) as [(hs' & [] & Eh & -> & S1 & F1 & Q1 & K1)|(hs' & e & Eh & [(-> & S1 & F1 & Q1 & K1)|([-> Om] & st2 & S2 & F2)])].
    - eexists _, _. split; [exact Eh|]. split; [kept|]. split; [kept|]. left. splits; auto using frame_unchanged.
    - rewrite app_nil_r in S1. eexists _, _. split; [exact Eh|]. split; [kept|]. split; [kept|]. left. splits; auto using frame_unchanged.
    - rewrite app_nil_r in S2. eexists _, _. split; [exact Eh|]. split; [kept|]. split; [kept|]. right. splits; auto. exists st2. splits; auto using frame_unchanged. apply F2. }
  assert (Nw : forall d s W P m m', refs c = [d; s] -> W = writes c -> P = loses st c ->
    (forall pd ps, vref hs d pd -> vref hs s ps -> wp (m' pd ps) hs (fun _ hs' => r = Ok tt /\ made W P hs st hs' st') (thrown W nowhere hs st [] st' r)) ->
    m = (let! ps := at_loc s in let! pd := at_loc d in m' pd ps) -> exists hs' r', m hs = HDone hs' r' /\ ((exists x, r' = Ok x) -> Forall tag_ok st -> stays (loses st c) (length st) hs hs') /\
    ((exists e, r' = Throw e /\ e <> BadAlloc) -> Forall tag_ok st -> stays (spills c) (length st) hs hs') /\
    ((r' = r /\ sim hs' st' /\ unchanged (writes c) st st' /\ (fails hs = [] -> fails hs' = [])) \/
     (r' = Throw BadAlloc /\ fails hs <> [] /\ exists st'', sim hs' st'' /\ length st'' = length st /\ unchanged (writes c) st st''))).
  { intros d s W P m m' Er -> -> H ->. unfold refs_valid in Va. rewrite Er in Va. pose proof (Forall_inv Va) as Vd. pose proof (Forall_inv (Forall_inv_tail Va)) as Vs. cbv beta in *.
    destruct (read st d) as [w|] eqn:Rd; [|congruence]. destruct (read st s) as [w'|] eqn:Rs; [|congruence].
    destruct (at_loc_ok hs st [] d w Si' Rd) as (pd & Ead & Wd). destruct (at_loc_ok hs st [] s w' Si' Rs) as (ps & Eas & Ws).
    unfold hbind at 1. rewrite Eas. unfold hbind at 1. rewrite Ead.
    destruct (wp_out _ _ _ _ (H pd ps Wd Ws)) as [(hs' & [] & Eh & -> & S1 & Q1 & (st1 & v1 & -> & F1) & K1)|(hs' & e & Eh & [(-> & S1 & F1 & Q1 & K1)|([-> Om] & st2 & S2 & F2)])].
    - eexists _, _. split; [exact Eh|]. split; [kept|]. split; [kept|]. left. splits; auto. destruct (frame_unchanged _ _ _ F1) as [L U]. split; [rewrite app_length; lia|].
      intros i x Ex Ni. rewrite nth_error_app1; auto. apply nth_error_Some. rewrite (U i x Ex Ni). discriminate.
    - rewrite app_nil_r in S1. eexists _, _. split; [exact Eh|]. split; [kept|]. split; [kept|]. left. splits; auto using frame_unchanged.
    - rewrite app_nil_r in S2. eexists _, _. split; [exact Eh|]. split; [kept|]. split; [kept|]. right. splits; auto. exists st2. splits; auto using frame_unchanged. apply F2. }
  destruct c as [e|d a|d a|d k a|d s mv|d s mv|d s ml mr|d s ml mr|l m|l q|x y]; try (apply Pl; exact I); clear Pl; cbn [exec hexec writes refs] in *.
  - unfold mbind in E. destruct (eval e st) as [|st1 r1] eqn:E1; [discriminate|].
    assert (N1 : r1 <> Ub). { intros ->. injection E as _ E. now apply NU. }
    destruct (wp_out _ _ _ _ (eval_ok e hs st [] st1 r1 Si' E1 N1)) as [(hs' & [] & Eh & v & -> & S1 & F1 & Q1 & K1)|(hs' & e' & Eh & [-> Om] & st2 & S2 & F2)].
    + injection E as <- <-. eexists _, _. split; [exact Eh|]. split; [kept|]. split; [kept|]. left. splits; auto. destruct (frame_unchanged _ _ _ F1) as [L U]. split; [rewrite app_length; lia|].
      intros i w Ew Ni. rewrite nth_error_app1; auto. apply nth_error_Some. rewrite (U i w Ew Ni). discriminate.
    + rewrite app_nil_r in S2. eexists _, _. split; [exact Eh|]. split; [kept|]. split; [kept|]. right. splits; auto. exists st2. splits; auto using frame_unchanged. apply F2.
  - eapply (Nw d s (join_slots ml d s)); [reflexivity|reflexivity|reflexivity| |reflexivity]. intros pd ps Vd Vs. apply (or_new_ok hs st d s pd ps ml mr st' r); auto. intros -> ->. exact NM.
  - eapply (Nw d s (join_slots ml d s)); [reflexivity|reflexivity|reflexivity| |reflexivity]. intros pd ps Vd Vs. apply (plus_new_ok hs st d s pd ps ml mr st' r); auto. intros -> ->. exact NM.
  - unfold mbind, rd, mfail in E. destruct (read st l) as [v|] eqn:R; [|discriminate]. injection E as <- <-. destruct (at_loc_ok hs st [] l v Si' R) as (pl & Ea & V).
    exists hs, (ask q v). unfold hbind, hfail. rewrite Ea, (load_pl_ok hs st l v pl Si R V). split; [reflexivity|]. split; [kept|]. split; [kept|]. left. splits; auto. apply frame_unchanged, frame_refl.
  - unfold mbind, rd, mfail in E. destruct (read st x) as [v|] eqn:R; [|discriminate]. destruct (read st y) as [w|] eqn:R'; [|discriminate].
    assert (X : st' = st /\ r = (do _ <- v_eq v w; Ok tt)) by (destruct (v_eq v w); injection E as <- <-; auto). destruct X as [-> ->].
    destruct (at_loc_ok hs st [] x v Si' R) as (px & Ex & Vx). destruct (at_loc_ok hs st [] y w Si' R') as (py & Ey & Vy).
    eexists hs, _. unfold hbind, hfail. rewrite Ex, Ey, (load_pl_ok hs st x v px Si R Vx), (load_pl_ok hs st y w py Si R' Vy). split; [reflexivity|]. split; [kept|]. split; [kept|]. left. splits; auto. apply frame_unchanged, frame_refl.
Qed.
Theorem hexec_refines c hs st st' r : sim hs st -> refs_valid st c -> ~ moves_into_part c -> exec c st = Done st' r -> r <> Ub ->
  exists hs' r', hexec c hs = HDone hs' r' /\
    ((r' = r /\ sim hs' st' /\ unchanged (writes c) st st' /\ (fails hs = [] -> fails hs' = [])) \/
     (r' = Throw BadAlloc /\ fails hs <> [] /\ exists st'', sim hs' st'' /\ length st'' = length st /\ unchanged (writes c) st st'')).
Proof. intros A B C D E. destruct (hexec_keeps c hs st st' r A B C D E) as (hs' & r' & X & _ & _ & Y). eauto. Qed.
