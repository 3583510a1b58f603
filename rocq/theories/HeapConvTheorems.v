(** * Statements with converted arguments on the heap. *)
From Verif Require Import Base Value Spec Packed Parser Containers Num Enum Conv Dump Api SpecApi SpecEffects BaseProofs ContainerProofs ConvProofs ApiProofs StoreProofs EffectProofs StatementProofs Heap SpecHeap HeapBase HeapSteps HeapOps HeapMoves HeapNodes HeapCalls HeapMerge HeapEval HeapJoin HeapParse HeapProofs HeapConv SpecHeapConv HeapConvProofs.

Lemma convertible_fine r : convertible r -> fine r.
Proof. intros [(v & ->)|(e & ->)]; exact Logic.I. Qed.
Lemma wp_converted (r : res value) hs (m : hM unit) (success : value -> hstate -> Prop) (failure : hstate -> Prop) :
  wp m hs (fun _ hs' => exists v, r = Ok v /\ success v hs') (fun e hs' => (r = Throw e \/ oom hs e) /\ failure hs') -> converted r hs (m hs) success failure.
Proof.
  unfold wp, converted. destruct (m hs) as [|hs' [[]|e| | |]]; try tauto.
  - intros (v & E & H). exists hs', (Ok tt). split; auto. left. eauto.
  - intros [[E|[-> O]] H]; eexists _, _; split; try reflexivity; right; [left; eauto|right; auto].
Qed.
Theorem data_new E t d hs st : sim hs st -> convertible (to_value E t d) ->
  converted (to_value E t d) hs (h_to_value E t d hs) (fun v hs' => sim hs' (st ++ [v])) (fun hs' => sim hs' st).
Proof.
  intros S C. apply wp_converted. eapply wp_mono; [apply (makes_wp _ _ _ _ (h_to_value_ok E t d) S (convertible_fine _ C))|..]; cbv beta; auto.
  intros _ hs' (v & Ev & U). exists v. split; auto. apply U.
Qed.
Theorem data_assigned E dst t d hs st w : sim hs st -> read st dst = Some w -> convertible (to_value E t d) ->
  converted (to_value E t d) hs (h_assign_data E dst t d hs) (fun v hs' => exists st', puts st dst v st' /\ sim hs' st') (fun hs' => sim hs' st).
Proof.
  intros S R C. apply wp_converted. unfold h_assign_data. apply wp_bind.
  eapply wp_mono; [apply (makes_wp _ _ _ _ (h_to_value_ok E t d) S (convertible_fine _ C))|..]; cbv beta; auto. intros _ hs1 (v & Ev & U1).
  destruct (at_loc_ok hs1 st [v] dst w (upto_sim _ _ _ _ _ _ U1) R) as (pl & Ea & V). eapply wp_step; [exact Ea|].
  destruct (assign_tmp_ok hs1 st v dst w pl (upto_sim _ _ _ _ _ _ U1) R V) as (hs2 & E2 & U2). eapply wp_run; [exact E2|].
  exists v. split; auto. eexists. split; [eapply puts_intro; eauto|apply U2].
Qed.
Lemma coerced_fails st dst w x (Q : value -> Prop) hs' : read st dst = Some w -> Q x -> sim hs' (write st dst x) -> exists x st', Q x /\ puts st dst x st' /\ sim hs' st'.
Proof. intros R H S. exists x, (write st dst x). splits; auto. eapply puts_intro; eauto. Qed.
Theorem data_emplaced E dst t d hs st w l : sim hs st -> read st dst = Some w -> elements_of w = Some l -> convertible (to_value E t d) ->
  converted (to_value E t d) hs (h_emplace_data E dst t d hs) (fun v hs' => exists st', puts st dst (VArr Tarray (Some (l ++ [v]))) st' /\ sim hs' st')
    (fun hs' => exists x st', (x = VArr Tarray (Some l) \/ x = set_tag Tarray w) /\ puts st dst x st' /\ sim hs' st').
Proof.
  intros S R El C. apply wp_converted. unfold h_emplace_data. assert (S0 : sim hs (st ++ [])) by (now rewrite app_nil_r).
  destruct (at_loc_ok hs st [] dst w S0 R) as (pl & Ea & V). eapply wp_step; [exact Ea|]. pose proof (read_slot _ _ _ R) as Ls.
  assert (F : forall x hs', x = VArr Tarray (Some l) \/ x = set_tag Tarray w -> sim hs' (write st dst x) -> exists x st', (x = VArr Tarray (Some l) \/ x = set_tag Tarray w) /\ puts st dst x st' /\ sim hs' st').
  { intros x hs' Hx Sx. exact (coerced_fails st dst w x (fun x => x = VArr Tarray (Some l) \/ x = set_tag Tarray w) hs' R Hx Sx). }
  apply wp_bind. eapply wp_mono; [exact (as_array_run hs st dst w pl _ _ S R V (as_array_some w l El) ltac:(discriminate))|..]; cbv beta.
  2:{ intros e hs1 [(X & _)|(O & S1)]; [discriminate X|]. split; auto. eapply F; eauto. }
  intros a hs1 (xs & X & U1 & _ & Ed & _). injection X as <-. set (st1 := write st dst (VArr Tarray (Some l))) in *.
  assert (L1 : length st1 = length st) by apply write_length.
  apply wp_bind. eapply wp_mono; [apply (tick_upto hs1 st1 (length st1) [] [] (upto_sim _ _ _ _ _ _ U1))|..]; cbv beta.
  2:{ intros e hs2 [O S2]. split; [right; eapply oom_upto; eauto|apply (F (VArr Tarray (Some l))); auto]. }
  intros _ hs2 U2. apply wp_bind. eapply wp_mono; [apply (makes_wp _ _ _ _ (h_to_value_ok E t d) (upto_sim _ _ _ _ _ _ U2) (convertible_fine _ C))|..]; cbv beta.
  2:{ intros e hs3 [[X|O] S3]; (split; [auto|apply (F (VArr Tarray (Some l))); auto]). right. eapply oom_upto; [exact U1|]. eapply oom_upto; eauto. }
  intros _ hs3 (v & Ev & U3). pose proof (upto_then _ _ _ _ _ _ _ U2 U3 (le_n _)) as U23.
  assert (Ed3 : resolve hs3 dst = Some (pl, HArr Tarray (Some a))) by (eapply upto_res; [exact U23|lia|constructor|exact Ed]).
  assert (R1 : read st1 dst = Some (VArr Tarray (Some l))) by (eapply read_write_some; eauto).
  destruct (append_upto hs3 st1 [v] 1 dst Tarray l pl Tarray a eq_refl (upto_sim _ _ _ _ _ _ U3) R1 Ed3) as (hs4 & E4 & U4).
  eapply wp_run; [exact E4|]. exists v. split; auto. eexists. split; [eapply puts_intro; eauto|]. unfold st1 in U4. rewrite write_write in U4. apply U4.
Qed.
Theorem data_inserted E dst k t d hs st w m : sim hs st -> read st dst = Some w -> members_of w = Some m -> sorted_keys m -> convertible (to_value E t d) ->
  converted (to_value E t d) hs (h_emplace_key_data E dst k t d hs)
    (fun v hs' => exists m' st', represents m' (f_set k (Some v) (pairs m)) /\ puts st dst (VObj Tobject (Some m')) st' /\ sim hs' st')
    (fun hs' => exists x st', (x = VObj Tobject (Some m) \/ x = set_tag Tobject w) /\ puts st dst x st' /\ sim hs' st').
Proof.
  intros S R El So C. apply wp_converted. unfold h_emplace_key_data. assert (S0 : sim hs (st ++ [])) by (now rewrite app_nil_r).
  destruct (at_loc_ok hs st [] dst w S0 R) as (pl & Ea & V). eapply wp_step; [exact Ea|]. pose proof (read_slot _ _ _ R) as Ls.
  assert (F : forall x hs', x = VObj Tobject (Some m) \/ x = set_tag Tobject w -> sim hs' (write st dst x) -> exists x st', (x = VObj Tobject (Some m) \/ x = set_tag Tobject w) /\ puts st dst x st' /\ sim hs' st').
  { intros x hs' Hx Sx. exact (coerced_fails st dst w x (fun x => x = VObj Tobject (Some m) \/ x = set_tag Tobject w) hs' R Hx Sx). }
  apply wp_bind. eapply wp_mono; [exact (as_object_run hs st dst w pl _ _ S R V (as_object_some w m El) ltac:(discriminate))|..]; cbv beta.
  2:{ intros e hs1 [(X & _)|(O & S1)]; [discriminate X|]. split; auto. eapply F; eauto. }
  intros a hs1 (xs & X & U1 & _ & Ed & _). injection X as <-. set (st1 := write st dst (VObj Tobject (Some m))) in *.
  assert (R1 : read st1 dst = Some (VObj Tobject (Some m))) by (eapply read_write_some; eauto).
  eapply wp_mono; [apply (put_ok _ _ hs1 st1 dst pl a m k (h_to_value_ok E t d) (convertible_fine _ C) (upto_sim _ _ _ _ _ _ U1) R1 Ed)|..]; cbv beta.
  - intros _ hs2 (v & Ev & U2). exists v. split; auto. rewrite put_sorted in U2 by auto. unfold st1 in U2. rewrite write_write in U2.
    eexists _, _. splits; [apply assign_represents; auto|eapply puts_intro; eauto|apply U2].
  - intros e hs2 [[X|O] S2]; (split; [auto|apply (F (VObj Tobject (Some m))); auto]). right. eapply oom_upto; eauto.
Qed.
Lemma coerce_some v m : members_of v = Some m -> coerce (v_object []) v = (VObj Tobject (Some m), Ok tt).
Proof. destruct v as [[] [|c s]|[] [[|x l']|]|[] [[|x m']|]]; cbn; intros E; try discriminate; injection E as <-; reflexivity. Qed.
Theorem data_indexed E dst k t d hs st w m : sim hs st -> read st dst = Some w -> members_of w = Some m -> sorted_keys m -> convertible (to_value E t d) ->
  converted (to_value E t d) hs (h_index_assign_data E dst k t d hs)
    (fun v hs' => exists m' st', represents m' (f_set k (Some v) (pairs m)) /\ puts st dst (VObj Tobject (Some m')) st' /\ sim hs' st')
    (fun hs' => exists x st', (x = w \/ x = VObj Tobject (Some m) \/ x = set_tag Tobject w) /\ puts st dst x st' /\ sim hs' st').
Proof.
  intros S R El So C. apply wp_converted. unfold h_index_assign_data. pose proof (read_slot _ _ _ R) as Ls.
  assert (F : forall x hs', x = w \/ x = VObj Tobject (Some m) \/ x = set_tag Tobject w -> sim hs' (write st dst x) -> exists x st', (x = w \/ x = VObj Tobject (Some m) \/ x = set_tag Tobject w) /\ puts st dst x st' /\ sim hs' st').
  { intros x hs' Hx Sx. exact (coerced_fails st dst w x (fun x => x = w \/ x = VObj Tobject (Some m) \/ x = set_tag Tobject w) hs' R Hx Sx). }
  apply wp_bind. eapply wp_mono; [apply (makes_wp _ _ _ _ (h_to_value_ok E t d) S (convertible_fine _ C))|..]; cbv beta.
  2:{ intros e hs1 [X S1]. split; auto. apply (F w); auto. now rewrite write_same. }
  intros _ hs1 (v & Ev & U1). pose proof (upto_sim _ _ _ _ _ _ U1) as S1. assert (Rx : read (st ++ [v]) dst = Some w) by (now rewrite read_app).
  set (st2 := write st dst (VObj Tobject (Some (obj_index k m)))).
  apply wp_bind. eapply wp_catch with (E' := fun e hs' => oom hs1 e /\ exists x, (x = VObj Tobject (Some m) \/ x = set_tag Tobject w) /\ sim hs' (write st dst x ++ [v])).
  - eapply wp_mono with (Q := fun _ hs' => sim hs' (st2 ++ [v]) /\ quiet hs1 hs') (E := fun e hs' => oom hs1 e /\ exists x, (x = VObj Tobject (Some m) \/ x = set_tag Tobject w) /\ sim hs' (write st dst x ++ [v])).
    + destruct (at_loc_ok hs1 st [v] dst w S1 R) as (pl & Ea & V). eapply wp_step; [exact Ea|]. cbn [h_invoke].
      apply wp_bind. eapply wp_mono; [exact (coerce_ok hs1 (st ++ [v]) dst w pl Tobject (NObj []) (fun a => HObj Tobject (Some a)) (v_object []) (VObj Tobject (Some m)) (Ok tt) S1 Rx V (fun h b Hb => ho_obj h Tobject b [] [] [] Hb eq_refl (ho_nil h)) (coerce_some w m El) ltac:(discriminate))|..]; cbv beta.
      2:{ intros e hs2 [(X & _)|(O & _ & S2)]; [discriminate X|]. rewrite write_app in S2 by auto. split; auto. eauto. }
      intros _ hs2 (_ & U2 & _). pose proof (upto_sim _ _ _ _ _ _ U2) as S2. set (st3 := write (st ++ [v]) dst (VObj Tobject (Some m))) in *.
      assert (L3 : (slot dst < length (st ++ [v]))%nat) by (rewrite app_length; lia). assert (R3 : read st3 dst = Some (VObj Tobject (Some m))) by (eapply read_write_some; eauto).
      assert (V2 : vref hs2 dst pl) by (eapply upto_vref_self; [exact U2|exact L3|apply incl_refl|exact V]).
      apply wp_bind. eapply wp_mono; [exact (as_object_run hs2 st3 dst _ pl _ _ S2 R3 V2 (as_object_some (VObj Tobject (Some m)) m eq_refl) ltac:(discriminate))|..]; cbv beta.
      2:{ intros e hs3 [(X & _)|(O & S3)]; [discriminate X|]. unfold st3 in S3. rewrite write_write, write_app in S3 by auto. split; [eapply oom_upto; eauto|]. eauto. }
      intros a hs3 (xs & X & U3 & _ & Ed & _). injection X as <-. pose proof (upto_sim _ _ _ _ _ _ U3) as S3. unfold st3 in S3. rewrite write_write in S3.
      eapply wp_mono; [apply (index_key_ok hs3 _ dst m a pl k S3); [eapply read_write_some; eauto|exact Ed]|..]; cbv beta.
      * intros _ hs4 (S4 & Q4 & _). rewrite write_write, write_app in S4 by auto. split; [exact S4|]. eapply quiet_trans; [apply U2|]. eapply quiet_trans; [apply U3|exact Q4].
      * intros e hs4 [O S4]. rewrite write_app in S4 by auto. split; [eapply oom_upto; [exact U2|]; eapply oom_upto; eauto|]. eauto.
    + cbv beta. intros _ hs2 [S2 Q2]. assert (R2 : read st2 dst = Some (VObj Tobject (Some (obj_index k m)))) by (eapply read_write_some; eauto).
      destruct (find_emplaced k v_null m) as (y & Fy). fold (obj_index k m) in Fy.
      assert (Rk : read st2 (sub dst (Key k)) = Some y) by (rewrite sub_read, R2; cbn [get_at]; now rewrite Fy).
      destruct (at_loc_ok hs2 st2 [v] _ y S2 Rk) as (q & Eq & Vq). eapply wp_step; [exact Eq|].
      destruct (assign_tmp_ok hs2 st2 v _ y q S2 Rk Vq) as (hs3 & E3 & U3). eapply wp_run; [exact E3|]. exists v. split; auto.
      assert (Sx : sorted_keys (obj_index k m)) by (now apply map_emplace_sorted).
      pose proof (upto_sim _ _ _ _ _ _ U3) as S3. rewrite (write_member _ _ _ _ _ R2 Sx) in S3 by congruence. unfold st2 in S3. rewrite write_write in S3.
      exists (map_assign k v (obj_index k m)). eexists. splits; [|eapply puts_intro; eauto|exact S3].
      apply rep_represents. split; [now apply map_assign_sorted|]. intros k'. rewrite map_assign_find, f_set_spec by auto. destruct (bytes_eqb k' k) eqn:Ek; auto.
      unfold obj_index, pairs. rewrite map_emplace_find; auto. rewrite Ek. reflexivity.
    + cbv beta. auto.
  - intros e hs' (O & x & Hx & S'). destruct (drop_upto _ _ _ S') as (hs2 & E2 & U2). exists hs2. split; auto. split; [right; eapply oom_upto; eauto|].
    apply (F x); [tauto|apply U2].
Qed.
