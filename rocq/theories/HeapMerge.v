(** * emplace(key, value), operator|=, operator+= on the heap. *)
From Verif Require Import Base Value Containers Dump Api SpecApi BaseProofs ContainerProofs ApiProofs StoreProofs Heap SpecHeap HeapBase HeapSteps HeapOps HeapMoves HeapNodes HeapCalls.
From Coq Require Import Permutation.

(** [P]: the references that may be lost; the others name the same place as before *)
Definition fine (S : list nat) (P : loc -> Prop) (hs : hstate) (st : store) (hs' : hstate) (st' : store) : Prop :=
  sim hs' st' /\ frame S st st' /\ quiet hs hs' /\ (Forall tag_ok st -> stays P (length st) hs hs').
Lemma good_fine S P W hs st hs' st' : good S P W hs st hs' st' -> fine S (inside P) hs st hs' st'.
Proof. intros [U C]. unfold fine; splits; [apply U|exact C|apply U|]. intros _. eapply upto_stays; [exact U|lia|]. intros w l Hw Hi. exists w. auto. Qed.
Lemma frame_length S st st' : frame S st st' -> length st' = length st.
Proof. now intros [L _]. Qed.
Lemma quiet_trans hs hs1 hs2 : quiet hs hs1 -> quiet hs1 hs2 -> quiet hs hs2.
Proof. intros A B H. auto. Qed.
Lemma failed_trans S hs st ex hs1 st1 e hs2 : frame S st st1 -> quiet hs hs1 -> failed S hs1 st1 ex e hs2 -> failed S hs st ex e hs2.
Proof. intros F Q (O & st2 & S2 & F2). eapply failed_ex; [eapply oom_quiet; eauto|exact S2|eapply frame_trans; eauto]. Qed.
Lemma failed_mono S S' hs st ex e hs' : failed S hs st ex e hs' -> incl S S' -> failed S' hs st ex e hs'.
Proof. intros (O & st2 & S2 & F2) I. eapply failed_ex; [exact O|exact S2|eapply frame_mono; eauto]. Qed.

Lemma emplace_key_ok hs st d k a t x ex pd st' r : sim hs (st ++ ex) -> harg_for hs a t x ex -> vref hs d pd -> (forall s, a = MRef s -> within s d = false) ->
  insert_or_assign d k a t st = Done st' r -> r <> Ub ->
  wp (h_emplace_key pd k x) hs (fun _ hs' => r = Ok tt /\ fine (map slot (d :: taken a)) (inside (sub d (Key k) :: taken a)) hs st hs' st')
    (thrown (map slot (d :: taken a)) nowhere hs st ex st' r).
Proof.
  intros S H V Hn E Hr. unfold insert_or_assign in E. unfold mbind at 1, call at 1 in E.
  destruct (read st d) as [v|] eqn:Rd; [|discriminate]. destruct (as_object_m v) as [v1 r1] eqn:A.
  pose proof (read_slot _ _ _ Rd) as Ld. assert (Rdx : read (st ++ ex) d = Some v) by (now rewrite read_app).
  assert (H1 : r1 <> Ub) by (intros ->; congruence).
  unfold h_emplace_key. apply wp_bind. eapply wp_mono; [exact (as_object_run hs (st ++ ex) d v pd v1 r1 S Rdx V A H1)|..]; cbv beta.
  2:{ intros e hs' [(-> & Ew & ->)|[O S']].
      - injection E as <- <-. left. rewrite write_app in Ew by auto. apply app_inv_tail in Ew. rewrite Ew. splits; auto; [apply frame_refl|intros Hq; auto|intros _; apply stays_refl].
      - right. rewrite write_app in S' by auto. eapply failed_ex; eauto. apply frame_in. now left. }
  intros b hs1 (ms & -> & U1 & -> & Ed & Z). rewrite write_app in U1 by auto. set (st1 := write st d (VObj Tobject (Some ms))) in *.
  assert (L1 : length st1 = length st) by apply write_length.
  change (insert_at d k a t ms st1 = Done st' r) in E.
  assert (R1 : read st1 d = Some (VObj Tobject (Some ms))) by (unfold st1; now rewrite read_write_same, Rd).
  assert (H2 : harg_for hs1 a t x ex).
  { destruct (as_object_cases _ _ _ A) as [F|F].
    - destruct (Z F) as [-> _]. exact H.
    - eapply (harg_coerced hs hs1 st d v (VObj Tobject (Some ms))); [exact H|exact U1|auto|exact Ld|]. fold st1.
      unfold insert_at in E. assert (ms = []) as -> by (unfold v_object in F; congruence). cbn in E.
      destruct (construct a t st1) as [|st2 r2] eqn:C; [unfold mbind in E; rewrite C in E; discriminate|]. exact (construct_reads _ _ _ _ _ C). }
  assert (F1 : frame (map slot (d :: taken a)) st st1) by (apply frame_in; now left).
  eapply wp_mono; [exact (insert_ok hs1 st1 d k a t x ex pd b ms st' r (upto_sim _ _ _ _ _ _ U1) H2 Ed R1 Hn E Hr)|..]; cbv beta.
  - intros ? hs2 [-> G]. split; auto. pose proof G as [G' _]. destruct (good_fine _ _ _ _ _ _ _ G) as (S2 & F2 & Q2 & _). unfold fine; splits; [auto|eapply frame_trans; eauto|eapply quiet_trans; [apply U1|exact Q2]|].
    intros Ts. assert (K1 : stays nowhere (length st) hs hs1).
    { eapply (empty_stays hs hs1 st ex); [exact S|exact Rd|exact (tag_read _ _ _ Ts Rd)| |exact U1]. destruct (as_object_empty _ _ _ A) as [F|F]; [right; now apply Z|auto]. }
    eapply stays_trans; [eapply stays_mono; [exact K1|lia|intros l []]|]. eapply upto_stays; [exact G'|lia|]. intros w l Hw Hi. exists w. auto.
  - intros e hs2 Ff. right. eapply failed_trans; [exact F1|apply U1|exact Ff].
Qed.

Lemma resolve_obj hs st d pd t b : sim hs st -> resolve hs d = Some (pd, HObj t (Some b)) -> exists ms, read st d = Some (VObj t (Some ms)).
Proof.
  intros S R. pose proof S as S0. destruct hs as [R0 h fl]. destruct S as (fp & H & D & L). destruct (resolve_read _ _ _ _ _ _ fl H R) as (w & Rw).
  destruct (sim_resolve _ _ _ _ S0 Rw) as (pl & y & fy & Er & _ & Hy & _). rewrite R in Er. injection Er as <- <-. inversion Hy; subst; eauto.
Qed.
Lemma within_sub_inside s x d : within (sub s x) d = true -> strictly_inside s d.
Proof.
  intros W. apply within_spec in W as (Es & r & E). cbn in *. rewrite <- app_assoc in E. cbn in E. unfold strictly_inside. split; auto. exists x, r. auto.
Qed.
Lemma merge_ok (P : loc -> Prop) mv ks : forall hs st d s pd ps b c st' r, (forall k l, In k ks -> strictly_inside (sub d (Key k)) l \/ (mv = true /\ strictly_inside (sub s (Key k)) l) -> P l) -> sim hs st -> resolve hs d = Some (pd, HObj Tobject (Some b)) -> resolve hs s = Some (ps, HObj Tobject (Some c)) ->
  (mv = true -> ~ strictly_inside s d) -> merge_loop d s mv ks st = Done st' r -> r <> Ub ->
  wp (h_merge b c mv ks) hs (fun _ hs' => r = Ok tt /\ resolve hs' d = Some (pd, HObj Tobject (Some b)) /\ fine [slot d; slot s] P hs st hs' st' /\ stays P (length st) hs hs') (failed [slot d; slot s] hs st []).
Proof.
  induction ks as [|k ks IH]; intros hs st d s pd ps b c st' r HP S Ed Es Hn E Hr; cbn [merge_loop h_merge] in *.
  { injection E as <- <-. eapply wp_run; [reflexivity|]. split; auto. split; auto. split; [unfold fine; splits; [auto|apply frame_refl|intros Hq; auto|intros _; apply stays_refl]|apply stays_refl]. }
  unfold mbind at 1, rd in E. destruct (read st (sub s (Key k))) as [w|] eqn:Rk; [|discriminate].
  destruct (negb (same d s) && within (sub d (Key k)) s) eqn:Bad; [injection E as <- <-; congruence|].
  destruct (resolve_obj _ _ _ _ _ _ S Ed) as (ms & Rd). destruct (resolve_obj _ _ _ _ _ _ S Es) as (ns & Rs). rewrite Rd in E.
  destruct (obj_at_loc _ _ _ _ _ _ _ _ S Rs Es) as (m & Nc & Kc).
  assert (Fk : map_find k ns = Some w).
  { unfold read in Rk, Rs. cbn [sub slot steps] in Rk. destruct (nth_error st (slot s)); [|discriminate]. rewrite get_at_app, Rs in Rk. cbn in Rk. destruct (map_find k ns); congruence. }
  destruct (find_some_keys _ _ _ _ Kc Fk) as (y & Fy). pose proof (resolve_member _ _ _ _ _ _ _ _ Es Nc Fy) as Ek.
  assert (Vk : vref hs (sub s (Key k)) (Mem c k)) by (eexists; eauto).
  eapply wp_step; [apply (get_pl_ok _ _ y); right; exists c, (Key k), (NObj m); auto|].
  set (a := if mv then MRef (sub s (Key k)) else CRef (sub s (Key k))) in *.
  set (x := if mv then HMove (Mem c k) else HRef (Mem c k)) in *.
  assert (Ha : harg_for hs a None x []) by (unfold a, x; destruct mv; now constructor).
  assert (Na : forall l, a = MRef l -> within l d = false).
  { unfold a. destruct mv; intros l Hl; [injection Hl as <-|discriminate]. destruct (within (sub s (Key k)) d) eqn:Wk; auto. exfalso. apply Hn; auto. eapply within_sub_inside; eauto. }
  unfold mbind at 1 in E. unfold insert_or_assign in E. unfold mbind at 1, call at 1 in E. rewrite Rd, as_object_m_id, (write_same _ _ _ Rd) in E.
  fold (insert_at d k a None ms) in E. destruct (insert_at d k a None ms st) as [|st1 r1] eqn:Ei; [discriminate|].
  assert (Hr1 : r1 <> Ub) by (intros ->; congruence).
  assert (Ia : incl (map slot (d :: taken a)) [slot d; slot s]) by (unfold a; destruct mv; cbn; incls).
  pose proof (read_slot _ _ _ Rd) as Ld. pose proof (read_slot _ _ _ Rs) as Ls.
  assert (S0 : sim hs (st ++ [])) by (now rewrite app_nil_r).
  apply wp_bind. eapply wp_mono; [exact (insert_ok hs st d k a None x [] pd b ms st1 r1 S0 Ha Ed Rd Na Ei Hr1)|..]; cbv beta.
  2:{ intros e hs' F. eapply failed_mono; eauto. }
  intros ? hs1 (-> & U & F).
  assert (Ws : within (sub d (Key k)) s = false).
  { destruct (same d s) eqn:Sm; [apply same_spec in Sm as ->; apply not_within_sub|exact Bad]. }
  assert (Wt : forall l, Forall (fun w => within w l = false) (taken a) <-> (mv = true -> within (sub s (Key k)) l = false)).
  { intros l. unfold a. destruct mv; cbn; split; intros Hf; try constructor; auto; try discriminate. now inversion Hf. }
  assert (Ed1 : resolve hs1 d = Some (pd, HObj Tobject (Some b))).
  { eapply upto_res; [exact U|auto| |exact Ed]. constructor; [apply not_within_sub|]. apply Wt. intros ->. now apply Na. }
  assert (Es1 : resolve hs1 s = Some (ps, HObj Tobject (Some c))).
  { eapply upto_res; [exact U|auto| |exact Es]. constructor; [exact Ws|]. apply Wt. intros _. apply not_within_sub. }
  destruct (resolve_obj _ _ _ _ _ _ (upto_sim _ _ _ _ _ _ U) Es1) as (ns1 & Rs1). destruct (obj_at_loc _ _ _ _ _ _ _ _ (upto_sim _ _ _ _ _ _ U) Rs1 Es1) as (m1 & Nc1 & _).
  eapply wp_step; [apply obj_node_ok; exact Nc1|].
  assert (F1 : frame [slot d; slot s] st st1) by (eapply frame_mono; eauto).
  eapply wp_mono; [exact (IH hs1 st1 d s pd ps b c st' r (fun k' l' I => HP k' l' (or_intror I)) (upto_sim _ _ _ _ _ _ U) Ed1 Es1 Hn E Hr)|..]; cbv beta.
  - intros ? hs2 [-> [G0 [G K2]]]. split; auto. split; auto. destruct G as (S2 & F2 & Q2 & _). rewrite (frame_length _ _ _ F1) in K2.
    assert (K : stays P (length st) hs hs2).
    { eapply stays_trans; [|exact K2]. eapply upto_stays; [exact U|lia|]. intros w' l [<-|Hw] Hi; [eapply HP; [now left|auto]|].
      unfold a in Hw. destruct mv; [|destruct Hw]. destruct Hw as [<-|[]]. eapply HP; [now left|auto]. }
    split; auto. unfold fine; splits; [auto|eapply frame_trans; eauto|eapply quiet_trans; [apply U|auto]|auto].
  - intros e hs2 Ff. eapply failed_trans; [exact F1|apply U|exact Ff].
Qed.

(** after as_object() on [s], then on [d]: both objects are where they were found *)
Lemma leaf_reread st d s u w : u = v_array [] \/ u = v_object [] -> strictly_inside d s -> read (write st d u) s = Some w -> False.
Proof. intros H SI R. rewrite (read_inside_leaf _ _ _ _ H SI) in R. discriminate. Qed.
(** the members of [d] that |= replaces, and those of [s] that it moves away *)
Definition or_loses (st : store) (d s : loc) (mv : bool) (l : loc) : Prop :=
  exists k v, read st (sub s (Key k)) = Some v /\ (strictly_inside (sub d (Key k)) l \/ (mv = true /\ strictly_inside (sub s (Key k)) l)).
Lemma member_read st s v v1 ns k : read st s = Some v -> tag_ok v -> as_object_m v = (v1, Ok ns) -> In k (map fst ns) -> exists w, read st (sub s (Key k)) = Some w.
Proof.
  intros E T A I. destruct (as_object_ok _ _ _ T A) as [-> [Ev|Ev]].
  - subst v. unfold read in *. cbn [sub slot steps]. destruct (nth_error st (slot s)) as [u|]; [|discriminate]. rewrite get_at_app, E. cbn.
    destruct (map_find k ns) eqn:F; eauto. apply map_find_none in F. tauto.
  - unfold as_object_m, coerce in A. rewrite Ev in A. cbn in A. injection A as <-. destruct I.
Qed.
Lemma or_into_ok hs st d s pd ps mv st' r : sim hs st -> vref hs d pd -> vref hs s ps -> (mv = true -> ~ strictly_inside s d) -> or_assign d s mv st = Done st' r -> r <> Ub ->
  wp (h_or_into pd ps mv) hs (fun b hs' => r = Ok tt /\ resolve hs' d = Some (pd, HObj Tobject (Some b)) /\ fine [slot d; slot s] (or_loses st d s mv) hs st hs' st') (thrown [slot d; slot s] nowhere hs st [] st' r).
Proof.
  intros S Vd Vs Hn E Hr. unfold or_assign in E. unfold mbind at 1, call at 1 in E.
  destruct (read st s) as [v|] eqn:Rs; [|discriminate]. destruct (as_object_m v) as [v1 r1] eqn:A. pose proof (read_slot _ _ _ Rs) as Ls.
  assert (H1 : r1 <> Ub) by (intros ->; congruence).
  unfold h_or_into. apply wp_bind. eapply wp_mono; [exact (as_object_run hs st s v ps v1 r1 S Rs Vs A H1)|..]; cbv beta.
  2:{ intros e hs' [(-> & Ew & ->)|[O S']].
      - injection E as <- <-. left. rewrite Ew, app_nil_r. splits; auto; [apply frame_refl|intros Hq; auto|intros _; apply stays_refl].
      - right. eapply failed_ex; [exact O|rewrite app_nil_r; exact S'|]. apply frame_in. cbn; tauto. }
  intros c hs1 (ns & -> & U1 & -> & Es & Z1). set (st1 := write st s (VObj Tobject (Some ns))) in *.
  assert (L1 : length st1 = length st) by apply write_length. assert (F1 : frame [slot d; slot s] st st1) by (apply frame_in; cbn; tauto).
  assert (Rs1 : read st1 s = Some (VObj Tobject (Some ns))) by (unfold st1; now rewrite read_write_same, Rs).
  destruct (same d s && is_nil ns) eqn:Self; [injection E as <- <-; congruence|].
  unfold mbind at 1, call at 1 in E. destruct (read st1 d) as [u|] eqn:Rd; [|discriminate]. destruct (as_object_m u) as [u1 r2] eqn:B.
  pose proof (read_slot _ _ _ Rd) as Ld. rewrite L1 in Ld.
  assert (H2 : r2 <> Ub) by (intros ->; congruence).
  assert (Vd1 : vref hs1 d pd).
  { destruct (as_object_cases _ _ _ A) as [F|F]; [destruct (Z1 F) as [-> _]; auto|]. eapply upto_vref; [exact U1|lia| |exact Vd]. constructor; auto.
    intros SI. exact (leaf_reread _ _ _ _ _ (or_intror F) SI Rd). }
  apply wp_bind. eapply wp_mono; [exact (as_object_run hs1 st1 d u pd u1 r2 (upto_sim _ _ _ _ _ _ U1) Rd Vd1 B H2)|..]; cbv beta.
  2:{ intros e hs' [(-> & Ew & ->)|[O S']].
      - injection E as <- <-. left. rewrite Ew, app_nil_r. splits; auto; [apply U1|apply U1|]. intros Ts. pose proof (tag_read _ _ _ Ts Rs) as Tv.
        eapply (empty_stays hs hs1 st []); [rewrite app_nil_r; exact S|exact Rs|exact Tv| |rewrite app_nil_r; exact U1]. destruct (as_object_empty _ _ _ A) as [F|F]; [right; now apply Z1|auto].
      - right. eapply failed_ex; [eapply oom_quiet; [apply U1|exact O]|rewrite app_nil_r; exact S'|]. eapply frame_trans; [exact F1|]. apply frame_in. cbn; tauto. }
  intros b hs2 (ms & -> & U2 & -> & Ed & Z2). set (st2 := write st1 d (VObj Tobject (Some ms))) in *.
  assert (F2 : frame [slot d; slot s] st st2) by (eapply frame_trans; [exact F1|]; apply frame_in; cbn; tauto).
  unfold mbind, rd, mfail in E. destruct (read st2 s) as [w|] eqn:Rw; [|discriminate].
  assert (Es2 : resolve hs2 s = Some (ps, HObj Tobject (Some c))).
  { destruct (as_object_cases _ _ _ B) as [F|F]; [destruct (Z2 F) as [-> _]; auto|].
    destruct (within d s) eqn:Wds.
    - exfalso. destruct (same d s) eqn:Sm.
      + apply same_spec in Sm as ->. rewrite Rs1 in Rd. injection Rd as <-. rewrite as_object_m_id in B. unfold v_object in F. assert (ns = []) as -> by congruence. discriminate.
      + assert (SI : strictly_inside d s). { apply strictly_inside_spec. split; auto. intros ->. rewrite (proj2 (same_spec s s) eq_refl) in Sm. discriminate. }
        exact (leaf_reread _ _ _ _ _ (or_intror F) SI Rw).
    - eapply upto_res; [exact U2|lia|constructor; auto|exact Es]. }
  destruct (resolve_obj _ _ _ _ _ _ (upto_sim _ _ _ _ _ _ U2) Es2) as (ns2 & Rs2). rewrite Rs2 in Rw. injection Rw as <-.
  destruct (obj_at_loc _ _ _ _ _ _ _ _ (upto_sim _ _ _ _ _ _ U2) Rs2 Es2) as (m & Nc & Kc). eapply wp_step; [apply obj_node_ok; exact Nc|].
  cbn in E. rewrite Kc. pose proof (quiet_trans _ _ _ (proj2 (proj2 U1)) (proj2 (proj2 U2))) as Q12.
  apply wp_bind. eapply wp_mono; [exact (merge_ok (fun l => exists k, In k (map fst ns2) /\ (strictly_inside (sub d (Key k)) l \/ (mv = true /\ strictly_inside (sub s (Key k)) l))) mv (map fst ns2) hs2 st2 d s pd ps b c st' r (fun k l I H => ex_intro _ k (conj I H)) (upto_sim _ _ _ _ _ _ U2) Ed Es2 Hn E Hr)|..]; cbv beta.
  - intros ? hs3 [-> (R3 & (S3 & F3 & Q3 & _) & K3)]. eapply wp_run; [reflexivity|]. split; auto. split; auto. unfold fine; splits; [auto|eapply frame_trans; eauto|eapply quiet_trans; eauto|].
    intros Ts. pose proof (tag_read _ _ _ Ts Rs) as Tv. assert (K1 : stays nowhere (length st) hs hs1).
    { eapply (empty_stays hs hs1 st []); [rewrite app_nil_r; exact S|exact Rs|exact Tv| |rewrite app_nil_r; exact U1]. destruct (as_object_empty _ _ _ A) as [F|F]; [right; now apply Z1|auto]. }
    assert (T1 : tag_ok (VObj Tobject (Some ns))) by (destruct (as_object_ok _ _ _ Tv A) as [_ [->|Ev]]; [exact Tv|]; unfold as_object_m, coerce in A; rewrite Ev in A; cbn in A; injection A as <-; repeat constructor).
    assert (Ts1 : Forall tag_ok st1) by (now apply tag_write). pose proof (tag_read _ _ _ Ts1 Rd) as Tu.
    assert (K2 : stays nowhere (length st1) hs1 hs2).
    { eapply (empty_stays hs1 hs2 st1 []); [rewrite app_nil_r; apply U1|exact Rd|exact Tu| |rewrite app_nil_r; exact U2]. destruct (as_object_empty _ _ _ B) as [F|F]; [right; now apply Z2|auto]. }
    rewrite L1 in K2. assert (Kn : map fst ns2 = map fst ns).
    { destruct (as_object_empty _ _ _ B) as [F|F].
      - destruct (Z2 F) as [_ Eu]. unfold st2 in Rs2. rewrite Eu, (write_same _ _ _ Rd), Rs1 in Rs2. congruence.
      - destruct (within d s) eqn:Wds.
        + destruct (same d s) eqn:Sm.
          * apply same_spec in Sm as ->. rewrite Rs1 in Rd. injection Rd as <-. destruct ns; [discriminate|discriminate F].
          * exfalso. assert (SI : strictly_inside d s). { apply strictly_inside_spec. split; auto. intros ->. rewrite (proj2 (same_spec s s) eq_refl) in Sm. discriminate. }
            exact (empty_has_no_part _ _ _ _ _ Rd Tu F SI Rs1).
        + destruct (read_write_obj st1 s d (VObj Tobject (Some ms)) Tobject ns Rs1 Wds) as (ms' & Rw' & Kw). fold st2 in Rw'. congruence. }
    assert (Tr : length st2 = length st) by (unfold st2; now rewrite write_length, L1). rewrite Tr in K3.
    eapply stays_trans; [eapply stays_mono; [exact K1|lia|intros l []]|]. eapply stays_trans; [eapply stays_mono; [exact K2|lia|intros l []]|].
    eapply stays_mono; [exact K3|lia|]. intros l (k & I & H). rewrite Kn in I. destruct (member_read _ _ _ _ _ _ Rs Tv A I) as (w & Rw). exists k, w. auto.
  - intros e hs3 Ff. right. eapply failed_trans; [exact F2|exact Q12|exact Ff].
Qed.
Lemma or_ok hs st d s pd ps mv st' r : sim hs st -> vref hs d pd -> vref hs s ps -> (mv = true -> ~ strictly_inside s d) -> or_assign d s mv st = Done st' r -> r <> Ub ->
  wp (h_or pd ps mv) hs (fun _ hs' => r = Ok tt /\ fine [slot d; slot s] (or_loses st d s mv) hs st hs' st') (thrown [slot d; slot s] nowhere hs st [] st' r).
Proof.
  intros S Vd Vs Hn E Hr. unfold h_or. apply wp_bind. eapply wp_mono; [exact (or_into_ok hs st d s pd ps mv st' r S Vd Vs Hn E Hr)|..]; cbv beta; auto.
  intros b hs' (A & _ & B). eapply wp_run; [reflexivity|]. auto.
Qed.
Lemma resolve_arr hs st d pd t b : sim hs st -> resolve hs d = Some (pd, HArr t (Some b)) -> exists ms, read st d = Some (VArr t (Some ms)).
Proof.
  intros S R. pose proof S as S0. destruct hs as [R0 h fl]. destruct S as (fp & H & D & L). destruct (resolve_read _ _ _ _ _ _ fl H R) as (w & Rw).
  destruct (sim_resolve _ _ _ _ S0 Rw) as (pl & y & fy & Er & _ & Hy & _). rewrite R in Er. injection Er as <- <-. inversion Hy; subst; eauto.
Qed.
Lemma holds_all_moved h l vs f : holds_all h l vs f -> forall h', holds_all h' (map h_moved l) (map moved vs) [].
Proof. induction 1 as [|x v fp l vs fps Hx _ IH]; intros h'; cbn; [constructor|]. change (@nil addr) with (@nil addr ++ []). constructor; auto. eapply holds_moved; eauto. Qed.
Lemma append_ok hs st d s pd ps b c ms ns mv : sim hs st -> read st d = Some (VArr Tarray (Some ms)) -> resolve hs d = Some (pd, HArr Tarray (Some b)) ->
  read st s = Some (VArr Tarray (Some ns)) -> resolve hs s = Some (ps, HArr Tarray (Some c)) -> (mv = true -> within s d = false) -> (mv = false -> Forall owned ns) ->
  forall st', call d (fun x => on_array (fun x => (x ++ ns, Ok tt)) x) (if mv then write st s (v_array (map moved ns)) else st) = Done st' (Ok tt) ->
  wp (h_append b c mv) hs (fun _ hs' => resolve hs' d = Some (pd, HArr Tarray (Some b)) /\ fine [slot d; slot s] (fun l => mv = true /\ strictly_inside s l) hs st hs' st' /\ stays (fun l => mv = true /\ strictly_inside s l) (length st) hs hs') (failed [slot d; slot s] hs st []).
Proof.
  intros S2 Rd2 Ed Rs2 Es2 Hmv Hown st' E. pose proof (read_slot _ _ _ Rd2) as Ld. pose proof (read_slot _ _ _ Rs2) as Ls. unfold h_append.
  apply wp_bind. eapply wp_mono; [exact (tick_upto hs st (length st) [] [] S2)|..]; cbv beta.
  2:{ intros e hs3 [O S3]. eapply failed_ex; [exact O|rewrite app_nil_r; exact S3|apply frame_refl]. }
  intros ? hs3 U3. pose proof (upto_sim _ _ _ _ _ _ U3) as S3. pose proof (proj2 (proj2 U3)) as Q3.
  assert (Es3 : resolve hs3 s = Some (ps, HArr Tarray (Some c))) by (eapply upto_res; [exact U3|lia|constructor|exact Es2]).
  assert (Ed3 : resolve hs3 d = Some (pd, HArr Tarray (Some b))) by (eapply upto_res; [exact U3|lia|constructor|exact Ed]).
  destruct mv.
  - pose proof (Hmv eq_refl) as Wsd.
    destruct (explode_upto hs3 st s Tarray ns ps Tarray c (map h_moved) (map moved) S3 Rs2 Es3) as (hs4 & E4 & U4); [intros h lx f h' Hl; eapply holds_all_moved; eauto|].
    eapply wp_step; [exact E4|]. fold (v_array (map moved ns)) in U4. set (st4 := write st s (v_array (map moved ns))) in *.
    assert (L4 : length st4 = length st) by (unfold st4; now rewrite write_length).
    destruct (read_write_arr st d s (v_array (map moved ns)) Tarray ms Rd2 Wsd) as (ms' & Rd4). fold st4 in Rd4.
    assert (Ed4 : resolve hs4 d = Some (pd, HArr Tarray (Some b))) by (eapply upto_res; [exact U4|lia|constructor; auto|exact Ed3]).
    destruct (append_upto hs4 st4 ns (length ns) d Tarray ms' pd Tarray b eq_refl (upto_sim _ _ _ _ _ _ U4) Rd4 Ed4) as (hs5 & E5 & U5).
    eapply wp_run; [exact E5|]. unfold call in E. rewrite Rd4 in E. unfold on_array in E. rewrite as_array_m_id in E. injection E as <-.
    split; [eapply upto_res; [exact U5|lia|constructor|exact Ed4]|].
    assert (K : stays (fun l => true = true /\ strictly_inside s l) (length st) hs hs5).
    { eapply stays_trans; [eapply upto_stays; [exact U3|lia|intros w l []]|]. eapply stays_trans; [eapply upto_stays; [exact U4|lia|intros w l [<-|[]]; auto]|]. eapply upto_stays; [exact U5|lia|intros w l []]. }
    split; auto. unfold fine; splits; [apply U5|..|auto].
    + eapply frame_trans; [apply (frame_in _ st s (v_array (map moved ns))); cbn; tauto|]. apply frame_in. cbn; tauto.
    + eapply quiet_trans; [exact Q3|]. eapply quiet_trans; [apply U4|apply U5].
  - pose proof (Hown eq_refl) as Ow. destruct (arr_at_loc _ _ _ _ _ _ _ _ S3 Rs2 Es3) as (l & fl & Nl & Hl & Ll).
    eapply wp_step; [apply arr_node_ok; exact Nl|]. eapply wp_step; [reflexivity|]. apply wp_bind. destruct S3 as (fp3 & S3).
    eapply wp_mono; [exact (copy_each_ok (h_copy (length (hp hs3))) l ns fl hs3 st fp3 ltac:(intros x v0 fx _ Lx hs0 st0 fp0; eapply copy_ok; lia) S3 Hl Ow)|..]; cbv beta.
    2:{ intros e hs4 C4. destruct (undone_upto _ _ _ _ _ S3 C4) as [O S4]. eapply failed_ex; [eapply oom_quiet; eauto|rewrite app_nil_r; exact S4|apply frame_refl]. }
    intros ? hs4 C4. pose proof (copied_upto _ _ _ _ _ S3 C4) as U4.
    assert (Ed4 : resolve hs4 d = Some (pd, HArr Tarray (Some b))) by (eapply upto_res; [exact U4|lia|constructor|exact Ed3]).
    destruct (append_upto hs4 st ns (length l) d Tarray ms pd Tarray b (eq_sym (holds_all_length _ _ _ _ Hl)) (upto_sim _ _ _ _ _ _ U4) Rd2 Ed4) as (hs5 & E5 & U5).
    eapply wp_run; [exact E5|]. unfold call in E. rewrite Rd2 in E. unfold on_array in E. rewrite as_array_m_id in E. injection E as <-.
    split; [eapply upto_res; [exact U5|lia|constructor|exact Ed4]|].
    assert (K : stays (fun l => false = true /\ strictly_inside s l) (length st) hs hs5).
    { eapply stays_trans; [eapply upto_stays; [exact U3|lia|intros w l1 []]|]. eapply stays_trans; [eapply upto_stays; [exact U4|lia|intros w l1 []]|]. eapply upto_stays; [exact U5|lia|intros w l1 []]. }
    split; auto. unfold fine; splits; [apply U5|..|auto].
    + apply frame_in. cbn; tauto.
    + eapply quiet_trans; [exact Q3|]. eapply quiet_trans; [apply U4|apply U5].
Qed.
Lemma plus_into_ok hs st d s pd ps mv st' r : sim hs st -> vref hs d pd -> vref hs s ps -> (mv = true -> ~ strictly_inside s d) -> plus_assign d s mv st = Done st' r -> r <> Ub ->
  wp (h_plus_into pd ps mv) hs (fun b hs' => r = Ok tt /\ resolve hs' d = Some (pd, HArr Tarray (Some b)) /\ fine [slot d; slot s] (fun l => mv = true /\ strictly_inside s l) hs st hs' st') (thrown [slot d; slot s] nowhere hs st [] st' r).
Proof.
  intros S Vd Vs Hn E Hr. unfold plus_assign in E. unfold mbind at 1, call at 1 in E.
  destruct (read st s) as [v|] eqn:Rs; [|discriminate]. destruct (as_array_m v) as [v1 r1] eqn:A. pose proof (read_slot _ _ _ Rs) as Ls.
  assert (H1 : r1 <> Ub) by (intros ->; congruence).
  unfold h_plus_into. apply wp_bind. eapply wp_mono; [exact (as_array_run hs st s v ps v1 r1 S Rs Vs A H1)|..]; cbv beta.
  2:{ intros e hs' [(-> & Ew & ->)|[O S']].
      - injection E as <- <-. left. rewrite Ew, app_nil_r. splits; auto; [apply frame_refl|intros Hq; auto|intros _; apply stays_refl].
      - right. eapply failed_ex; [exact O|rewrite app_nil_r; exact S'|]. apply frame_in. cbn; tauto. }
  intros c hs1 (ns & -> & U1 & -> & Es & Z1). set (st1 := write st s (VArr Tarray (Some ns))) in *.
  assert (L1 : length st1 = length st) by apply write_length. assert (F1 : frame [slot d; slot s] st st1) by (apply frame_in; cbn; tauto).
  unfold mbind at 1, call at 1 in E. destruct (read st1 d) as [u|] eqn:Rd; [|discriminate]. destruct (as_array_m u) as [u1 r2] eqn:B.
  pose proof (read_slot _ _ _ Rd) as Ld. rewrite L1 in Ld.
  assert (H2 : r2 <> Ub) by (intros ->; congruence).
  assert (Vd1 : vref hs1 d pd).
  { destruct (as_array_cases _ _ _ A) as [F|F]; [destruct (Z1 F) as [-> _]; auto|]. eapply upto_vref; [exact U1|lia| |exact Vd]. constructor; auto.
    intros SI. exact (leaf_reread _ _ _ _ _ (or_introl F) SI Rd). }
  apply wp_bind. eapply wp_mono; [exact (as_array_run hs1 st1 d u pd u1 r2 (upto_sim _ _ _ _ _ _ U1) Rd Vd1 B H2)|..]; cbv beta.
  2:{ intros e hs' [(-> & Ew & ->)|[O S']].
      - injection E as <- <-. left. rewrite Ew, app_nil_r. splits; auto; [apply U1|apply U1|]. intros Ts. pose proof (tag_read _ _ _ Ts Rs) as Tv.
        eapply (empty_stays hs hs1 st []); [rewrite app_nil_r; exact S|exact Rs|exact Tv| |rewrite app_nil_r; exact U1]. destruct (as_array_empty _ _ _ A) as [F|F]; [right; now apply Z1|auto].
      - right. eapply failed_ex; [eapply oom_quiet; [apply U1|exact O]|rewrite app_nil_r; exact S'|]. eapply frame_trans; [exact F1|]. apply frame_in. cbn; tauto. }
  intros b hs2 (ms & -> & U2 & -> & Ed & Z2). set (st2 := write st1 d (VArr Tarray (Some ms))) in *.
  assert (L2 : length st2 = length st) by (unfold st2; now rewrite write_length).
  assert (Rd2 : read st2 d = Some (VArr Tarray (Some ms))) by (unfold st2; now rewrite read_write_same, Rd).
  assert (F2 : frame [slot d; slot s] st st2) by (eapply frame_trans; [exact F1|]; apply frame_in; cbn; tauto).
  destruct (same d s) eqn:Sm; [injection E as <- <-; congruence|].
  unfold mbind at 1, mbind at 1, rd at 1 in E. destruct (read st2 s) as [w|] eqn:Rw; [|discriminate].
  assert (Es2 : resolve hs2 s = Some (ps, HArr Tarray (Some c))).
  { destruct (as_array_cases _ _ _ B) as [F|F]; [destruct (Z2 F) as [-> _]; auto|].
    destruct (within d s) eqn:Wds.
    - exfalso. assert (SI : strictly_inside d s). { apply strictly_inside_spec. split; auto. intros ->. rewrite (proj2 (same_spec s s) eq_refl) in Sm. discriminate. }
      exact (leaf_reread _ _ _ _ _ (or_introl F) SI Rw).
    - eapply upto_res; [exact U2|lia|constructor; auto|exact Es]. }
  pose proof (upto_sim _ _ _ _ _ _ U2) as S2.
  destruct (resolve_arr _ _ _ _ _ _ S2 Es2) as (ns2 & Rs2). rewrite Rs2 in Rw. injection Rw as <-.
  assert (Hbc : Nat.eqb b c = false).
  { apply Nat.eqb_neq. intros ->. assert (d = s) as -> by (eapply (addr_inj hs2 st2); eauto; reflexivity). rewrite (proj2 (same_spec s s) eq_refl) in Sm. discriminate. }
  rewrite Hbc. pose proof (quiet_trans _ _ _ (proj2 (proj2 U1)) (proj2 (proj2 U2))) as Q12.
  assert (A2 : exists st3, (if mv then write st2 s (v_array (map moved ns2)) else st2) = st3 /\ call d (fun x => on_array (fun x => (x ++ ns2, Ok tt)) x) st3 = Done st' r /\ (mv = true -> within s d = false) /\ (mv = false -> Forall owned ns2)).
  { cbn in E. destruct mv.
    - assert (Wsd : within s d = false).
      { destruct (within s d) eqn:W; auto. exfalso. apply Hn; auto. apply strictly_inside_spec. split; auto. intros ->. rewrite (proj2 (same_spec d d) eq_refl) in Sm. discriminate. }
      unfold mbind, wr in E. rewrite Wsd in E. eexists. split; [reflexivity|]. split; [exact E|]. split; [auto|discriminate].
    - unfold mbind, mfail in E. destruct (copy_elems copy ns2) as [l'|e| | |] eqn:Ec; try (injection E as <- <-); [|exfalso..].
      2:{ destruct (copy_elems_fine ns2 _ Ec) as [? _]; discriminate. } 2:{ auto. } 2:{ destruct (copy_elems_fine ns2 _ Ec) as [? _]; discriminate. } 2:{ destruct (copy_elems_fine ns2 _ Ec) as [? _]; discriminate. }
      destruct (copy_elems_fine ns2 _ Ec) as [El Ow]; [discriminate|]. injection El as ->. eexists. split; [reflexivity|]. split; [exact E|]. split; [discriminate|auto]. }
  destruct A2 as (st3 & E3 & C3 & Hmv & Hown). assert (Hr3 : r = Ok tt).
  { unfold call in C3. destruct (read st3 d) as [z|] eqn:Rz; [|discriminate]. subst st3. destruct mv.
    - destruct (read_write_arr st2 d s (v_array (map moved ns2)) Tarray ms Rd2 (Hmv eq_refl)) as (ms' & Rd4). rewrite Rd4 in Rz. injection Rz as <-. unfold on_array in C3. rewrite as_array_m_id in C3. now injection C3 as _ <-.
    - rewrite Rd2 in Rz. injection Rz as <-. unfold on_array in C3. rewrite as_array_m_id in C3. now injection C3 as _ <-. }
  subst r. rewrite <- E3 in C3. apply wp_bind. eapply wp_mono; [exact (append_ok hs2 st2 d s pd ps b c ms ns2 mv S2 Rd2 Ed Rs2 Es2 Hmv Hown st' C3)|..]; cbv beta.
  - intros ? hs3 (R3 & (S3 & F3 & Q3 & _) & K3). eapply wp_run; [reflexivity|]. split; auto. split; auto. unfold fine; splits; [auto|eapply frame_trans; eauto|eapply quiet_trans; eauto|].
    intros Ts. pose proof (tag_read _ _ _ Ts Rs) as Tv. assert (K1 : stays nowhere (length st) hs hs1).
    { eapply (empty_stays hs hs1 st []); [rewrite app_nil_r; exact S|exact Rs|exact Tv| |rewrite app_nil_r; exact U1]. destruct (as_array_empty _ _ _ A) as [F|F]; [right; now apply Z1|auto]. }
    assert (T1 : tag_ok (VArr Tarray (Some ns))) by (destruct (as_array_ok _ _ _ Tv A) as [_ [->|Ev]]; [exact Tv|]; unfold as_array_m, coerce in A; rewrite Ev in A; cbn in A; injection A as <-; repeat constructor).
    assert (Ts1 : Forall tag_ok st1) by (now apply tag_write). pose proof (tag_read _ _ _ Ts1 Rd) as Tu.
    assert (K2 : stays nowhere (length st1) hs1 hs2).
    { eapply (empty_stays hs1 hs2 st1 []); [rewrite app_nil_r; apply U1|exact Rd|exact Tu| |rewrite app_nil_r; exact U2]. destruct (as_array_empty _ _ _ B) as [F|F]; [right; now apply Z2|auto]. }
    rewrite L1 in K2. rewrite L2 in K3.
    eapply stays_trans; [eapply stays_mono; [exact K1|lia|intros l []]|]. eapply stays_trans; [eapply stays_mono; [exact K2|lia|intros l []]|]. exact K3.
  - intros e hs3 Ff. right. eapply failed_trans; [exact F2|exact Q12|exact Ff].
Qed.
Lemma plus_ok hs st d s pd ps mv st' r : sim hs st -> vref hs d pd -> vref hs s ps -> (mv = true -> ~ strictly_inside s d) -> plus_assign d s mv st = Done st' r -> r <> Ub ->
  wp (h_plus pd ps mv) hs (fun _ hs' => r = Ok tt /\ fine [slot d; slot s] (fun l => mv = true /\ strictly_inside s l) hs st hs' st') (thrown [slot d; slot s] nowhere hs st [] st' r).
Proof.
  intros S Vd Vs Hn E Hr. unfold h_plus. apply wp_bind. eapply wp_mono; [exact (plus_into_ok hs st d s pd ps mv st' r S Vd Vs Hn E Hr)|..]; cbv beta; auto.
  intros b hs' (A & _ & B). eapply wp_run; [reflexivity|]. auto.
Qed.
