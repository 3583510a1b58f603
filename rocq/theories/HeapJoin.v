(** * operator| and operator+ on the heap. *)
From Verif Require Import Base Value Containers Dump Api SpecApi BaseProofs ContainerProofs ApiProofs StoreProofs Heap SpecHeap HeapBase HeapSteps HeapOps HeapMoves HeapNodes HeapCalls HeapMerge.
From Coq Require Import Permutation.

Lemma const_array_run hs st l v pl r : sim hs st -> read st l = Some v -> vref hs l pl -> as_array_c v = r -> r <> Ub ->
  wp (h_const_array pl) hs (fun a hs' => hs' = hs /\ exists xs, r = Ok xs /\ v = VArr Tarray (Some xs) /\ resolve hs l = Some (pl, HArr Tarray (Some a))) (fun e hs' => hs' = hs /\ r = Throw e).
Proof.
  intros S E V A Hr. destruct (sim_resolve _ _ _ _ S E) as (pl' & y & fy & Er & V' & Hy & Gy & _). pose proof (vref_det _ _ _ _ V' V). subst pl. clear V'. subst r. unfold as_array_c in *.
  eapply wp_step; [exact Gy|]. rewrite (holds_tag_of _ _ _ _ Hy). fold (is_array v). destruct (is_array v) eqn:Ta.
  - inversion Hy as [| t Ey| |t b l0 vs fps Hn Hl Ey|]; subst; cbn in Hr; try congruence; unfold wp; cbn [hret hfail]; auto.
    assert (t = Tarray) as -> by (destruct t; cbn in Ta; congruence). split; auto. exists vs. splits; auto.
  - eapply h_type_error_ok; [exact Hy|exact Hr|]. intros He. split; auto.
Qed.
Lemma const_object_run hs st l v pl r : sim hs st -> read st l = Some v -> vref hs l pl -> as_object_c v = r -> r <> Ub ->
  wp (h_const_object pl) hs (fun a hs' => hs' = hs /\ exists xs, r = Ok xs /\ v = VObj Tobject (Some xs) /\ resolve hs l = Some (pl, HObj Tobject (Some a))) (fun e hs' => hs' = hs /\ r = Throw e).
Proof.
  intros S E V A Hr. destruct (sim_resolve _ _ _ _ S E) as (pl' & y & fy & Er & V' & Hy & Gy & _). pose proof (vref_det _ _ _ _ V' V). subst pl. clear V'. subst r. unfold as_object_c in *.
  eapply wp_step; [exact Gy|]. rewrite (holds_tag_of _ _ _ _ Hy). fold (is_object v). destruct (is_object v) eqn:Ta.
  - inversion Hy as [|? Ey|t Ey|?|t b l0 vs fps Hn Hk Hl Ey]; subst; cbn in Hr; try congruence; unfold wp; cbn [hret hfail]; auto.
    assert (t = Tobject) as -> by (destruct t; cbn in Ta; congruence). split; auto. exists vs. splits; auto.
  - eapply h_type_error_ok; [exact Hy|exact Hr|]. intros He. split; auto.
Qed.
(** the newest temporaries become the elements of a new container, itself a temporary *)
Lemma gather_ok (g : list hval -> node) (mk : addr -> hval) v hs st vs n (k : addr -> hM unit) Q E : sim hs (st ++ vs) -> n = length vs ->
  (forall xs h' b fs, length xs = length vs -> nth_error h' b = Some (Some (g xs)) -> holds_all h' xs vs fs -> holds h' (mk b) v (b :: fs)) ->
  (forall b hs', upto (length st) [] [] hs hs' (st ++ [v]) -> resolve hs' (Loc (length st) []) = Some (Root (length st), mk b) -> wp (k b) hs' Q E) ->
  wp (let! l := take_top n in let! b := alloc (g l) in push (mk b) ;; k b) hs Q E.
Proof.
  intros (f & S) -> Hg Hk. destruct (simf_split _ _ _ _ S) as (R & ys & fp & fv & Er & -> & H & B & D & L). destruct hs as [R' h fl]. cbn in Er, H, B, L. subst R'.
  pose proof (holds_all_length _ _ _ _ B) as Lb. pose proof (holds_all_length _ _ _ _ H) as Lr.
  destruct (make_node R ys h fl st vs fp fv (g ys) (mk (length h)) v) as (f & S2 & A2); auto.
  { intros h' G Hn. exists fv. split; auto. apply (Hg ys); auto. eapply holds_all_frame; eauto. }
  eapply wp_step; [apply take_top_ok; exact Lb|]. eapply wp_step; [reflexivity|]. eapply wp_step; [reflexivity|]. cbn [roots hp fails]. apply Hk.
  - split; [eexists; exact S2|]. split; [|intros Hq; exact Hq]. apply keeps_all. intros l Ll.
    rewrite (resolve_agree R [mk (length h)] h (h ++ [Some (g ys)]) fl fl st fp l H A2 Ll). symmetry. apply resolve_ext. lia.
  - unfold resolve. cbn. rewrite nth_error_app2 by lia. rewrite Lr, Nat.sub_diag. reflexivity.
Qed.
Lemma frame_app S st v st' : frame (length st :: S) (st ++ [v]) st' -> exists st1 v1, st' = st1 ++ [v1] /\ frame S st st1.
Proof.
  intros [L F]. rewrite app_length in L. cbn in L. destruct (rev st') as [|v1 l] eqn:E; [apply (f_equal (@rev _)) in E; rewrite rev_involutive in E; subst; cbn in L; lia|].
  apply (f_equal (@rev _)) in E. rewrite rev_involutive in E. cbn in E. exists (rev l), v1. split; auto. subst st'. rewrite app_length in L. cbn in L. split; [lia|].
  intros i Ni. destruct (Nat.lt_ge_cases i (length st)) as [Hi|Hi].
  - specialize (F i). rewrite !nth_error_app1 in F by lia. apply F. intros [<-|X]; [lia|auto].
  - rewrite !(proj2 (nth_error_None _ _)) by lia. reflexivity.
Qed.
(** the result of the operator is a new variable; the others change as in [frame] *)
Definition made (S : list nat) (P : loc -> Prop) (hs : hstate) (st : store) (hs' : hstate) (st' : store) : Prop :=
  sim hs' st' /\ quiet hs hs' /\ (exists st1 v1, st' = st1 ++ [v1] /\ frame S st st1) /\ (Forall tag_ok st -> stays P (length st) hs hs').
(** std::make_unique at the end; the temporary is destroyed if anything throws *)
Lemma finish_ok (m : hM unit) S P hs0 st0 hs st' (R : Prop) : quiet hs0 hs ->
  wp m hs (fun _ hs' => R /\ made S P hs0 st0 hs' st') (fun e hs' => oom hs e /\ exists st2 v2, sim hs' (st2 ++ [v2]) /\ frame S st0 st2) ->
  wp (h_finish m) hs (fun _ hs' => R /\ made S P hs0 st0 hs' st') (failed S hs0 st0 []).
Proof.
  intros Q0 H. unfold h_finish. eapply wp_catch with (E' := fun e hs' => oom hs0 e /\ exists st2 v2, sim hs' (st2 ++ [v2]) /\ frame S st0 st2).
  - apply wp_bind. eapply wp_mono; [exact H|..]; cbv beta; [|intros e hs' [O X]; split; [eapply oom_quiet; eauto|exact X]].
    intros _ hs1 (HR & S1 & Q1 & (st1 & v1 & -> & F1) & K1). eapply wp_mono; [exact (tick_upto hs1 _ (length st1) [] [] S1)|..]; cbv beta.
    + intros _ hs2 U2. split; auto. split; [apply U2|]. split; [eapply quiet_trans; [exact Q1|apply U2]|]. split; [eauto|]. intros Ts.
      eapply stays_trans; [exact (K1 Ts)|]. eapply upto_stays; [exact U2|rewrite (frame_length _ _ _ F1); lia|intros w l []].
    + intros e hs2 [O S2]. split; [eapply oom_quiet; eauto|]. eauto.
  - intros e hs' (O & st2 & v2 & S2 & F2). destruct (drop_upto _ _ _ S2) as (hs3 & E3 & U3). exists hs3. split; auto. eapply failed_ex; [exact O|rewrite app_nil_r; apply U3|auto].
Qed.
Definition join_slots (ml : bool) (d s : loc) : list nat := if ml then [slot d; slot s] else [slot s].
(** what | moves away: the whole left operand, and the members of the right one *)
Definition or_new_loses (st : store) (d s : loc) (ml mr : bool) (l : loc) : Prop :=
  (ml = true /\ strictly_inside d l) \/ (mr = true /\ exists k v, read st (sub s (Key k)) = Some v /\ strictly_inside (sub s (Key k)) l).
Definition plus_new_loses (d s : loc) (ml mr : bool) (l : loc) : Prop := (ml = true /\ strictly_inside d l) \/ (mr = true /\ strictly_inside s l).
Lemma deeper l s m : strictly_inside (sub l s) m -> strictly_inside l m.
Proof. intros [E (x & q & H)]. split; [exact E|]. cbn in H. rewrite <- app_assoc in H. eexists s, _. exact H. Qed.
Lemma or_new_ok hs st d s pd ps ml mr st' r : sim hs st -> vref hs d pd -> vref hs s ps -> (ml = true -> mr = true -> ~ strictly_inside s d) -> or_new d s ml mr st = Done st' r -> r <> Ub ->
  wp (h_or_new pd ps ml mr) hs (fun _ hs' => r = Ok tt /\ made (join_slots ml d s) (or_new_loses st d s ml mr) hs st hs' st') (thrown (join_slots ml d s) nowhere hs st [] st' r).
Proof.
  intros S Vd Vs Hn E Hr. unfold or_new in E. unfold h_or_new. destruct ml; cbn [join_slots].
  - assert (B : mr && within s d && negb (same d s) = false).
    { destruct mr; auto. destruct (within s d) eqn:W; auto. destruct (same d s) eqn:Sm; auto. exfalso. apply Hn; auto. apply strictly_inside_spec. split; auto. intros ->. rewrite (proj2 (same_spec d d) eq_refl) in Sm. discriminate. }
    rewrite B in E. clear B. unfold mbind at 1 in E. destruct (or_assign d s mr st) as [|st1 r1] eqn:E1; [discriminate|].
    assert (N1 : r1 <> Ub) by (intros ->; congruence).
    apply wp_bind. eapply wp_mono; [exact (or_into_ok hs st d s pd ps mr st1 r1 S Vd Vs (fun X => Hn eq_refl X) E1 N1)|..]; cbv beta.
    2:{ intros e hs1 [(-> & S1)|F]; [left|right; exact F]. injection E as <- <-. auto. }
    intros b hs1 (-> & Ed & S1 & F1 & Q1 & K1). destruct (resolve_obj _ _ _ _ _ _ S1 Ed) as (ms & Rd).
    unfold mbind, rd, mfail, wr, push_value in E. rewrite Rd in E. cbn [as_object_c is_object type_of vtype_eqb get_obj] in E. injection E as <- <-.
    destruct (obj_at_loc _ _ _ _ _ _ _ _ S1 Rd Ed) as (m & Nb & Kb). eapply wp_step; [apply obj_node_ok; exact Nb|].
    destruct (explode_obj_upto hs1 st1 d Tobject ms pd Tobject b S1 Rd Ed) as (hs2 & E2 & U2). eapply wp_step; [exact E2|].
    eapply (gather_ok (fun l => NObj (combine (map fst m) l)) (fun t => HObj Tobject (Some t)) (v_object ms)); [apply U2|reflexivity|..].
    + intros xs h' t fs Lx Hb Hx. rewrite map_length in Lx. unfold v_object. rewrite <- (combine_fst_snd ms), <- Kb. apply (make_obj_ok (map fst m) _ xs); auto; rewrite ?Kb, !map_length; lia.
    + intros t hs3 U3 _. assert (F3 : frame [slot d; slot s] st (write st1 d (VObj Tobject (Some [])))) by (eapply frame_trans; [exact F1|]; apply frame_in; cbn; tauto).
      assert (Q3 : quiet hs hs3) by (eapply quiet_trans; [exact Q1|]; eapply quiet_trans; [apply U2|apply U3]).
      eapply wp_mono; [apply (finish_ok (hret tt) [slot d; slot s] (or_new_loses st d s true mr) hs st hs3 (write st1 d (v_object []) ++ [v_object ms]) True Q3)|..]; cbv beta; [eapply wp_run; [reflexivity|]|..].
      * split; auto. split; [apply U3|]. split; [exact Q3|]. split; [eexists _, _; split; [reflexivity|exact F3]|]. intros Ts. pose proof (frame_length _ _ _ F1) as L1.
        eapply stays_trans; [eapply stays_mono; [exact (K1 Ts)|lia|]|].
        { intros l' (k & w & Rw & [H|[Hm H]]); [left; split; [auto|eapply deeper; exact H]|right; split; [exact Hm|exists k, w; auto]]. }
        eapply stays_trans; [eapply upto_stays; [exact U2|lia|intros w l' [<-|[]] H; left; auto]|]. eapply upto_stays; [exact U3|rewrite write_length; lia|intros w l' []].
      * intros _ hs4 [_ M]. split; auto.
      * intros e hs4 F. right. exact F.
  - unfold mbind at 1, call at 1 in E. destruct (read st s) as [v|] eqn:Rs; [|discriminate]. destruct (as_object_m v) as [v1 r1] eqn:A. pose proof (read_slot _ _ _ Rs) as Ls.
    assert (H1 : r1 <> Ub) by (intros ->; congruence).
    apply wp_bind. eapply wp_mono; [exact (as_object_run hs st s v ps v1 r1 S Rs Vs A H1)|..]; cbv beta.
    2:{ intros e hs' [(-> & Ew & ->)|[O S']].
        - injection E as <- <-. left. rewrite Ew, app_nil_r. splits; auto; [apply frame_refl|intros Hq; auto|intros _; apply stays_refl].
        - right. eapply failed_ex; [exact O|rewrite app_nil_r; exact S'|]. apply frame_in. cbn; tauto. }
    intros c hs1 (ns & -> & U1 & -> & Es & Z1). set (st1 := write st s (VObj Tobject (Some ns))) in *.
    assert (L1 : length st1 = length st) by apply write_length. assert (F1 : frame [slot s] st st1) by (apply frame_in; cbn; tauto).
    pose proof (upto_sim _ _ _ _ _ _ U1) as S1. pose proof (proj2 (proj2 U1)) as Q1.
    assert (Rs1 : read st1 s = Some (VObj Tobject (Some ns))) by (unfold st1; now rewrite read_write_same, Rs).
    unfold mbind at 1, mbind at 1, rd at 1 in E. destruct (read st1 d) as [u|] eqn:Rd; [|discriminate]. pose proof (read_slot _ _ _ Rd) as Ld. rewrite L1 in Ld.
    unfold mfail at 1 in E. assert (H2 : as_object_c u <> Ub) by (intros X; rewrite X in E; congruence).
    assert (Vd1 : vref hs1 d pd).
    { destruct (as_object_cases _ _ _ A) as [F|F]; [destruct (Z1 F) as [-> _]; auto|]. eapply upto_vref; [exact U1|lia| |exact Vd]. constructor; auto.
      intros SI. exact (leaf_reread _ _ _ _ _ (or_intror F) SI Rd). }
    apply wp_bind. eapply wp_mono; [exact (const_object_run hs1 st1 d u pd _ S1 Rd Vd1 eq_refl H2)|..]; cbv beta.
    2:{ intros e hs' (-> & X). rewrite X in E. injection E as <- <-. left. rewrite app_nil_r. splits; auto. intros Ts. pose proof (tag_read _ _ _ Ts Rs) as Tv.
        eapply (empty_stays hs hs1 st []); [rewrite app_nil_r; exact S|exact Rs|exact Tv| |rewrite app_nil_r; exact U1]. destruct (as_object_empty _ _ _ A) as [F|F]; [right; now apply Z1|auto]. }
    intros b hs' (-> & ms & X & -> & Ed). rewrite X in E. clear X H2.
    unfold mbind at 1, mfail at 1 in E. destruct (copy_members_fine ms _ eq_refl) as [Ec Ow]; [intros X; rewrite X in E; congruence|]. rewrite Ec in E. clear Ec.
    destruct (sim_resolve _ _ _ _ S1 Rd) as (pl & y & fy & Ey & _ & Hy & _ & Lf). rewrite Ed in Ey. injection Ey as <- <-. inversion Hy as [| | | |? ? m ? fps Nb Kb Hb]; subst.
    eapply wp_step; [apply obj_node_ok; exact Nb|]. eapply wp_step; [reflexivity|]. apply wp_bind. destruct S1 as (fp1 & S1).
    eapply wp_mono; [apply (copy_each_ok (fun y => tick ;; tick ;; h_copy (length (hp hs1)) y) (map snd m) (map snd ms) fps hs1 st1 fp1); auto|..]; cbv beta.
    { intros y w fy _ Ly hs' st0 fp' S' H' O'. apply tick_copied; auto. intros hs5 G1 G2 Q5.
      apply tick_copied; [eapply simf_same; eauto|]. intros hs6 G3 G4 Q6. apply (copy_ok _ y w fy); auto; [cbn in Lf; lia|eapply simf_same; [| |exact S']; congruence|]. now rewrite G4, G2. }
    { now apply owned_members. }
    2:{ intros e hs2 C2. destruct (undone_upto _ _ _ _ _ S1 C2) as [O S2]. right. eapply failed_ex; [eapply oom_quiet; eauto|rewrite app_nil_r; exact S2|exact F1]. }
    intros _ hs2 C2. pose proof (copied_upto _ _ _ _ _ S1 C2) as U2. pose proof (holds_all_length _ _ _ _ Hb) as Lm. rewrite !map_length in Lm.
    eapply (gather_ok (fun l => NObj (combine (map fst m) l)) (fun t => HObj Tobject (Some t)) (v_object ms)); [apply U2|now rewrite map_length|..].
    { intros xs h' t fs Lx Hb' Hx. rewrite map_length in Lx. unfold v_object. rewrite <- (combine_fst_snd ms), <- Kb. apply (make_obj_ok (map fst m) _ xs); auto; rewrite ?Kb, !map_length; lia. }
    intros t hs3 U3 Rt. set (tmp := Loc (length st1) []) in *.
    assert (Es3 : resolve hs3 s = Some (ps, HObj Tobject (Some c))).
    { eapply upto_res; [exact U3|lia|constructor|]. eapply upto_res; [exact U2|lia|constructor|exact Es]. }
    assert (Rs3 : read (st1 ++ [v_object ms]) s = Some (VObj Tobject (Some ns))) by (rewrite read_app; auto; lia).
    pose proof (upto_sim _ _ _ _ _ _ U3) as S3.
    cbn [mbind push_value] in E. unfold mbind, rd, mfail, push_value in E. rewrite Rs3 in E. cbn [as_object_c is_object type_of vtype_eqb get_obj] in E. fold tmp in E.
    destruct (obj_at_loc _ _ _ _ _ _ _ _ S3 Rs3 Es3) as (mc & Nc & Kc).
    assert (NI : mr = true -> ~ strictly_inside s tmp) by (intros _ [X _]; cbn in X; lia).
    assert (Q3 : quiet hs hs3) by (eapply quiet_trans; [exact Q1|]; eapply quiet_trans; [apply U2|apply U3]).
    set (PP := fun l : loc => exists k, In k (map fst ns) /\ (strictly_inside (sub tmp (Key k)) l \/ (mr = true /\ strictly_inside (sub s (Key k)) l))).
    pose proof (merge_ok PP mr (map fst ns) hs3 (st1 ++ [v_object ms]) tmp s (Root (length st1)) ps t c st' r (fun k l I H => ex_intro _ k (conj I H)) S3 Rt Es3 NI E Hr) as M.
    assert (FA : forall st0, frame [slot tmp; slot s] (st1 ++ [v_object ms]) st0 -> exists st2 v2, st0 = st2 ++ [v2] /\ frame [slot s] st st2).
    { intros st0 F0. destruct (frame_app [slot s] st1 _ _ F0) as (st2 & v2 & -> & F2). eexists _, _. split; [reflexivity|]. eapply frame_trans; eauto. }
    eapply wp_mono; [apply (finish_ok _ [slot s] (or_new_loses st d s false mr) hs st hs3 st' (r = Ok tt) Q3)|..]; cbv beta; [|auto|intros e hs4 F; right; exact F].
    eapply wp_step; [apply obj_node_ok; exact Nc|]. rewrite Kc. eapply wp_mono; [exact M|..]; cbv beta.
    + intros _ hs4 (-> & _ & (S4 & F4 & Q4 & _) & K4). split; auto. split; [exact S4|]. split; [eapply quiet_trans; eauto|]. split; [exact (FA _ F4)|].
      intros Ts. pose proof (tag_read _ _ _ Ts Rs) as Tv. assert (K1 : stays nowhere (length st) hs hs1).
      { eapply (empty_stays hs hs1 st []); [rewrite app_nil_r; exact S|exact Rs|exact Tv| |rewrite app_nil_r; exact U1]. destruct (as_object_empty _ _ _ A) as [F|F]; [right; now apply Z1|auto]. }
      eapply stays_trans; [eapply stays_mono; [exact K1|lia|intros l' []]|]. eapply stays_trans; [eapply upto_stays; [exact U2|lia|intros w l' []]|].
      eapply stays_trans; [eapply upto_stays; [exact U3|lia|intros w l' []]|].
      intros l' pl' L' F' V'. apply K4; [rewrite app_length; lia| |exact V']. intros (k & I & [H|[Hm H]]).
      * destruct H as [H _]. cbn in H. lia.
      * apply F'. right. split; auto. destruct (member_read _ _ _ _ _ _ Rs Tv A I) as (w & Rw). eauto.
    + intros e hs4 (O & st4 & S4 & F4). split; auto. rewrite app_nil_r in S4. destruct (FA _ F4) as (st2 & v2 & -> & F2). eauto.
Qed.

Lemma write_last st v w : write (st ++ [v]) (Loc (length st) []) w = st ++ [w].
Proof.
  unfold write. cbn. induction st; cbn; congruence.
Qed.
Lemma call_last st ms ns : call (Loc (length st) []) (fun x => on_array (fun x => (x ++ ns, Ok tt)) x) (st ++ [v_array ms]) = Done (st ++ [v_array (ms ++ ns)]) (Ok tt).
Proof.
  unfold call, read. cbn [slot steps get_at]. rewrite nth_error_app2, Nat.sub_diag by lia. cbn [nth_error]. unfold v_array, on_array. rewrite as_array_m_id. f_equal. apply write_last.
Qed.
Lemma plus_new_ok hs st d s pd ps ml mr st' r : sim hs st -> vref hs d pd -> vref hs s ps -> (ml = true -> mr = true -> ~ strictly_inside s d) -> plus_new d s ml mr st = Done st' r -> r <> Ub ->
  wp (h_plus_new pd ps ml mr) hs (fun _ hs' => r = Ok tt /\ made (join_slots ml d s) (plus_new_loses d s ml mr) hs st hs' st') (thrown (join_slots ml d s) nowhere hs st [] st' r).
Proof.
  intros S Vd Vs Hn E Hr. unfold plus_new in E. unfold h_plus_new. destruct ml; cbn [join_slots].
  - assert (B : mr && within s d && negb (same d s) = false).
    { destruct mr; auto. destruct (within s d) eqn:W; auto. destruct (same d s) eqn:Sm; auto. exfalso. apply Hn; auto. apply strictly_inside_spec. split; auto. intros ->. rewrite (proj2 (same_spec d d) eq_refl) in Sm. discriminate. }
    rewrite B in E. clear B. unfold mbind at 1 in E. destruct (plus_assign d s mr st) as [|st1 r1] eqn:E1; [discriminate|].
    assert (N1 : r1 <> Ub) by (intros ->; congruence).
    apply wp_bind. eapply wp_mono; [exact (plus_into_ok hs st d s pd ps mr st1 r1 S Vd Vs (fun X => Hn eq_refl X) E1 N1)|..]; cbv beta.
    2:{ intros e hs1 [(-> & S1)|F]; [left|right; exact F]. injection E as <- <-. auto. }
    intros b hs1 (-> & Ed & S1 & F1 & Q1 & K1). destruct (resolve_arr _ _ _ _ _ _ S1 Ed) as (ms & Rd).
    unfold mbind, rd, mfail, wr, push_value in E. rewrite Rd in E. cbn [as_array_c is_array type_of vtype_eqb get_arr] in E. injection E as <- <-.
    destruct (explode_upto hs1 st1 d Tarray ms pd Tarray b (fun _ => []) (fun _ => []) S1 Rd Ed) as (hs2 & E2 & U2); [intros; constructor|]. eapply wp_step; [exact E2|].
    eapply (gather_ok NArr (fun t => HArr Tarray (Some t)) (v_array ms)); [apply U2|reflexivity|..].
    + intros xs h' t fs Lx Hb Hx. econstructor; eauto.
    + intros t hs3 U3 _. assert (F3 : frame [slot d; slot s] st (write st1 d (VArr Tarray (Some [])))) by (eapply frame_trans; [exact F1|]; apply frame_in; cbn; tauto).
      assert (Q3 : quiet hs hs3) by (eapply quiet_trans; [exact Q1|]; eapply quiet_trans; [apply U2|apply U3]).
      eapply wp_mono; [apply (finish_ok (hret tt) [slot d; slot s] (plus_new_loses d s true mr) hs st hs3 (write st1 d (v_array []) ++ [v_array ms]) True Q3)|..]; cbv beta; [eapply wp_run; [reflexivity|]|..].
      * split; auto. split; [apply U3|]. split; [exact Q3|]. split; [eexists _, _; split; [reflexivity|exact F3]|]. intros Ts. pose proof (frame_length _ _ _ F1) as L1.
        eapply stays_trans; [eapply stays_mono; [exact (K1 Ts)|lia|intros l' H; right; exact H]|].
        eapply stays_trans; [eapply upto_stays; [exact U2|lia|intros w l' [<-|[]] H; left; auto]|]. eapply upto_stays; [exact U3|rewrite write_length; lia|intros w l' []].
      * intros _ hs4 [_ M]. split; auto.
      * intros e hs4 F. right. exact F.
  - unfold mbind at 1, call at 1 in E. destruct (read st s) as [v|] eqn:Rs; [|discriminate]. destruct (as_array_m v) as [v1 r1] eqn:A. pose proof (read_slot _ _ _ Rs) as Ls.
    assert (H1 : r1 <> Ub) by (intros ->; congruence).
    apply wp_bind. eapply wp_mono; [exact (as_array_run hs st s v ps v1 r1 S Rs Vs A H1)|..]; cbv beta.
    2:{ intros e hs' [(-> & Ew & ->)|[O S']].
        - injection E as <- <-. left. rewrite Ew, app_nil_r. splits; auto; [apply frame_refl|intros Hq; auto|intros _; apply stays_refl].
        - right. eapply failed_ex; [exact O|rewrite app_nil_r; exact S'|]. apply frame_in. cbn; tauto. }
    intros c hs1 (ns & -> & U1 & -> & Es & Z1). set (st1 := write st s (VArr Tarray (Some ns))) in *.
    assert (L1 : length st1 = length st) by apply write_length. assert (F1 : frame [slot s] st st1) by (apply frame_in; cbn; tauto).
    pose proof (upto_sim _ _ _ _ _ _ U1) as S1. pose proof (proj2 (proj2 U1)) as Q1.
    assert (Rs1 : read st1 s = Some (VArr Tarray (Some ns))) by (unfold st1; now rewrite read_write_same, Rs).
    unfold mbind at 1, mbind at 1, rd at 1 in E. destruct (read st1 d) as [u|] eqn:Rd; [|discriminate]. pose proof (read_slot _ _ _ Rd) as Ld. rewrite L1 in Ld.
    unfold mfail at 1 in E. assert (H2 : as_array_c u <> Ub) by (intros X; rewrite X in E; congruence).
    assert (Vd1 : vref hs1 d pd).
    { destruct (as_array_cases _ _ _ A) as [F|F]; [destruct (Z1 F) as [-> _]; auto|]. eapply upto_vref; [exact U1|lia| |exact Vd]. constructor; auto.
      intros SI. exact (leaf_reread _ _ _ _ _ (or_introl F) SI Rd). }
    apply wp_bind. eapply wp_mono; [exact (const_array_run hs1 st1 d u pd _ S1 Rd Vd1 eq_refl H2)|..]; cbv beta.
    2:{ intros e hs' (-> & X). rewrite X in E. injection E as <- <-. left. rewrite app_nil_r. splits; auto. intros Ts. pose proof (tag_read _ _ _ Ts Rs) as Tv.
        eapply (empty_stays hs hs1 st []); [rewrite app_nil_r; exact S|exact Rs|exact Tv| |rewrite app_nil_r; exact U1]. destruct (as_array_empty _ _ _ A) as [F|F]; [right; now apply Z1|auto]. }
    intros b hs' (-> & ms & X & -> & Ed). rewrite X in E. clear X H2.
    unfold mbind at 1, mfail at 1 in E. destruct (copy_elems_fine ms _ eq_refl) as [Ec Ow]; [intros X; rewrite X in E; congruence|]. rewrite Ec in E. clear Ec.
    unfold mbind at 1, mbind at 1, rd at 1, mfail at 1 in E. rewrite Rs1 in E. cbn [as_array_c is_array type_of vtype_eqb get_arr] in E.
    destruct (sim_resolve _ _ _ _ S1 Rd) as (pl & y & fy & Ey & _ & Hy & _ & Lf). rewrite Ed in Ey. injection Ey as <- <-. inversion Hy as [| | |? ? lb ? fps Nb Hb|]; subst.
    eapply wp_step; [apply arr_node_ok; exact Nb|]. eapply wp_step; [reflexivity|]. apply wp_bind. apply wp_tick.
    2:{ intros fl Hf. right. eapply failed_ex; [eapply oom_quiet; [exact Q1|]; split; auto|rewrite app_nil_r; exact S1|exact F1]. }
    intros fl Hf. set (hs1' := HS (roots hs1) (hp hs1) fl). assert (Q1' : quiet hs hs1') by (eapply quiet_trans; [exact Q1|exact Hf]).
    assert (S1' : sim hs1' st1) by exact S1. destruct S1' as (fp1 & S1'). assert (Es1 : resolve hs1' s = Some (ps, HArr Tarray (Some c))) by exact Es. assert (Hb1 : holds_all (hp hs1') lb ms fps) by exact Hb.
    apply wp_bind. eapply wp_mono; [exact (copy_each_ok (h_copy (length (hp hs1))) lb ms fps hs1' st1 fp1 ltac:(cbn in Lf; intros x v0 fx _ Lx hs0 st0 fp0; eapply copy_ok; lia) S1' Hb1 Ow)|..]; cbv beta.
    2:{ intros e hs2 C2. destruct (undone_upto _ _ _ _ _ S1' C2) as [O S2]. right. eapply failed_ex; [eapply oom_quiet; eauto|rewrite app_nil_r; exact S2|exact F1]. }
    intros _ hs2 C2. pose proof (copied_upto _ _ _ _ _ S1' C2) as U2.
    eapply (gather_ok NArr (fun t => HArr Tarray (Some t)) (v_array ms)); [apply U2|exact (holds_all_length _ _ _ _ Hb)|..].
    { intros xs h' t fs Lx Hb' Hx. econstructor; eauto. }
    intros t hs3 U3 Rt. set (tmp := Loc (length st1) []) in *.
    assert (Es3 : resolve hs3 s = Some (ps, HArr Tarray (Some c))).
    { eapply upto_res; [exact U3|lia|constructor|]. eapply upto_res; [exact U2|lia|constructor|exact Es1]. }
    assert (Rs3 : read (st1 ++ [v_array ms]) s = Some (VArr Tarray (Some ns))) by (rewrite read_app; auto; lia).
    assert (Rt3 : read (st1 ++ [v_array ms]) tmp = Some (VArr Tarray (Some ms))).
    { unfold read, tmp. cbn. rewrite nth_error_app2, Nat.sub_diag by lia. reflexivity. }
    pose proof (upto_sim _ _ _ _ _ _ U3) as S3.
    assert (Q3 : quiet hs hs3) by (eapply quiet_trans; [exact Q1'|]; eapply quiet_trans; [apply U2|apply U3]).
    assert (W3 : mr = true -> within s tmp = false).
    { intros _. unfold within. cbn. destruct (Nat.eqb_spec (slot s) (length st1)); auto. lia. }
    assert (X3 : r = Ok tt /\ (mr = false -> Forall owned ns) /\ call tmp (fun x => on_array (fun x => (x ++ ns, Ok tt)) x) (if mr then write (st1 ++ [v_array ms]) s (v_array (map moved ns)) else st1 ++ [v_array ms]) = Done st' (Ok tt)).
    { destruct mr.
      - unfold mbind, wr, push_value in E. injection E as <- <-. split; auto. split; [discriminate|]. rewrite write_app by lia.
        unfold tmp. rewrite <- (write_length st1 s (v_array (map moved ns))). apply call_last.
      - unfold mbind, mfail, append_array, bind, push_value in E. destruct (copy_elems_fine ns _ eq_refl) as [Ec Ow']; [intros X; rewrite X in E; congruence|]. rewrite Ec in E.
        injection E as <- <-. split; auto. split; auto. apply call_last. }
    destruct X3 as (-> & Own & C3).
    pose proof (append_ok hs3 (st1 ++ [v_array ms]) tmp s (Root (length st1)) ps t c ms ns mr S3 Rt3 Rt Rs3 Es3 W3 Own st' C3) as M.
    assert (FA : forall st0, frame [slot tmp; slot s] (st1 ++ [v_array ms]) st0 -> exists st2 v2, st0 = st2 ++ [v2] /\ frame [slot s] st st2).
    { intros st0 F0. destruct (frame_app [slot s] st1 _ _ F0) as (st2 & v2 & -> & F2). eexists _, _. split; [reflexivity|]. eapply frame_trans; eauto. }
    eapply wp_mono; [apply (finish_ok _ [slot s] (plus_new_loses d s false mr) hs st hs3 st' True Q3)|..]; cbv beta; [|intros _ hs4 [_ X]; auto|intros e hs4 F; right; exact F].
    eapply wp_mono; [exact M|..]; cbv beta.
    + intros _ hs4 (_ & (S4 & F4 & Q4 & _) & K4). split; auto. split; [exact S4|]. split; [eapply quiet_trans; eauto|]. split; [exact (FA _ F4)|].
      intros Ts. pose proof (tag_read _ _ _ Ts Rs) as Tv. assert (K1 : stays nowhere (length st) hs hs1').
      { assert (K1 : stays nowhere (length st) hs hs1); [|exact K1]. eapply (empty_stays hs hs1 st []); [rewrite app_nil_r; exact S|exact Rs|exact Tv| |rewrite app_nil_r; exact U1]. destruct (as_array_empty _ _ _ A) as [F|F]; [right; now apply Z1|auto]. }
      eapply stays_trans; [eapply stays_mono; [exact K1|lia|intros l' []]|]. eapply stays_trans; [eapply upto_stays; [exact U2|lia|intros w l' []]|].
      eapply stays_trans; [eapply upto_stays; [exact U3|lia|intros w l' []]|].
      eapply stays_mono; [exact K4|rewrite app_length; lia|]. intros l' H. right. exact H.
    + intros e hs4 (O & st4 & S4 & F4). split; auto. rewrite app_nil_r in S4. destruct (FA _ F4) as (st2 & v2 & -> & F2). eauto.
Qed.
