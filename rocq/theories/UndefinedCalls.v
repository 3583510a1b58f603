(** * The methods on every value, moved from or not: defined on the heap exactly if on the trees: C53. *)
From Verif Require Import Base Value Containers Dump Api SpecApi BaseProofs ContainerProofs ApiProofs Heap SpecHeap HeapBase HeapSteps HeapOps HeapMoves HeapNodes HeapCalls HeapEval HeapProofs StoreProofs UndefinedProofs.

Lemma array_ub v : snd (as_array_m v) = Ub -> v_empty v = Ub.
Proof.
  unfold as_array_m, coerce. destruct (v_empty v) as [[|]|e| | |] eqn:E; cbn; try discriminate; auto.
  unfold v_empty in E. destruct v as [t s|t [l|]|t [m|]]; destruct t; cbn in *; discriminate.
Qed.
Lemma object_ub v : snd (as_object_m v) = Ub -> v_empty v = Ub.
Proof.
  unfold as_object_m, coerce. destruct (v_empty v) as [[|]|e| | |] eqn:E; cbn; try discriminate; auto.
  unfold v_empty in E. destruct v as [t s|t [l|]|t [m|]]; destruct t; cbn in *; discriminate.
Qed.
Lemma coerce_ub hs st l v pl t n mk : sim hs st -> read st l = Some v -> vref hs l pl -> v_empty v = Ub -> exists hs', h_coerce t n mk pl hs = HDone hs' Ub.
Proof.
  intros S R V E. destruct (sim_resolve _ _ _ _ S R) as (pl' & y & fy & _ & V' & Hy & G & _). pose proof (vref_det _ _ _ _ V' V). subst pl'.
  exists hs. unfold h_coerce. rewrite (step_bind _ _ _ _ _ G). apply bind_ub. now rewrite (h_empty_ok _ _ _ _ Hy), E.
Qed.
Lemma res_ub_dec {A} (r : res A) : r = Ub \/ r <> Ub.
Proof. destruct r; auto; right; discriminate. Qed.
Lemma array_both hs st l v pl : sim hs st -> fails hs = [] -> read st l = Some v -> vref hs l pl ->
  (snd (as_array_m v) = Ub /\ exists hs', h_as_array pl hs = HDone hs' Ub) \/
  (exists e, snd (as_array_m v) = Throw e) \/
  (exists xs a hs' k, snd (as_array_m v) = Ok xs /\ h_as_array pl hs = HDone hs' (Ok a) /\ nth_error (hp hs') a = Some (Some (NArr k)) /\ length k = length xs).
Proof.
  intros S Q R V. destruct (as_array_m v) as [v1 r] eqn:A. cbn [snd].
  destruct (res_ub_dec r) as [->|N].
  - left. split; auto. assert (E : v_empty v = Ub) by (apply array_ub; now rewrite A).
    destruct (coerce_ub hs st l v pl Tarray (NArr []) (fun a => HArr Tarray (Some a)) S R V E) as (hs' & C). exists hs'. unfold h_as_array, coerce_array. now apply bind_ub.
  - right. pose proof (as_array_run hs st l v pl v1 r S R V A N) as W. unfold wp in W. destruct (h_as_array pl hs) as [|hs1 [a|e| | |]] eqn:E; try contradiction.
    + right. destruct W as (xs & -> & U & -> & Rs & _). destruct (arr_at_loc hs1 _ l pl Tarray Tarray xs a (upto_sim _ _ _ _ _ _ U) ltac:(now rewrite read_write_same, R) Rs) as (k & fl & Hn & Hk & _).
      exists xs, a, hs1, k. split; [reflexivity|]. split; [reflexivity|]. split; [exact Hn|]. eapply holds_all_length; eauto.
    + destruct W as [(-> & _)|((_ & O) & _)]; [eauto|contradiction].
Qed.
Lemma object_both hs st l v pl : sim hs st -> fails hs = [] -> read st l = Some v -> vref hs l pl ->
  (snd (as_object_m v) = Ub /\ exists hs', h_as_object pl hs = HDone hs' Ub) \/
  (exists e, snd (as_object_m v) = Throw e) \/
  (exists xs a hs' k, snd (as_object_m v) = Ok xs /\ h_as_object pl hs = HDone hs' (Ok a) /\ nth_error (hp hs') a = Some (Some (NObj k)) /\ map fst k = map fst xs).
Proof.
  intros S Q R V. destruct (as_object_m v) as [v1 r] eqn:A. cbn [snd].
  destruct (res_ub_dec r) as [->|N].
  - left. split; auto. assert (E : v_empty v = Ub) by (apply object_ub; now rewrite A).
    destruct (coerce_ub hs st l v pl Tobject (NObj []) (fun a => HObj Tobject (Some a)) S R V E) as (hs' & C). exists hs'. unfold h_as_object, coerce_object. now apply bind_ub.
  - right. pose proof (as_object_run hs st l v pl v1 r S R V A N) as W. unfold wp in W. destruct (h_as_object pl hs) as [|hs1 [a|e| | |]] eqn:E; try contradiction.
    + right. destruct W as (xs & -> & U & -> & Rs & _). destruct (obj_at_loc hs1 _ l pl Tobject Tobject xs a (upto_sim _ _ _ _ _ _ U) ltac:(now rewrite read_write_same, R) Rs) as (k & Hn & Hk).
      exists xs, a, hs1, k. auto.
    + destruct W as [(-> & _)|((_ & O) & _)]; [eauto|contradiction].
Qed.
Lemma on_array_snd {A} (f : array -> array * res A) v : snd (on_array f v) = do l <- snd (as_array_m v); snd (f l).
Proof. unfold on_array. destruct (as_array_m v) as [v1 [l|e| | |]]; cbn; auto. now destruct (f l). Qed.
Lemma on_object_snd {A} (f : object -> object * res A) v : snd (on_object f v) = do l <- snd (as_object_m v); snd (f l).
Proof. unfold on_object. destruct (as_object_m v) as [v1 [l|e| | |]]; cbn; auto. now destruct (f l). Qed.
Lemma size_same {A B} (l : list A) (l' : list B) : length l = length l' -> size l = size l'.
Proof. unfold size. now intros ->. Qed.
Lemma index_key_ub k v : snd (v_index_key k v) = Ub -> v_empty v = Ub.
Proof.
  unfold v_index_key, coerce. destruct (v_empty v) as [[|]|e| | |] eqn:E; cbn [snd bind]; try discriminate; auto; rewrite on_object_snd.
  - cbn. unfold obj_at. destruct (map_find k _); discriminate.
  - destruct (snd (as_object_m v)) eqn:O; cbn; try discriminate; [unfold obj_at; destruct (map_find k _); discriminate|].
    intros _. apply object_ub in O. congruence.
Qed.
Theorem invoke_undefined hs st l v m : sim hs st -> fails hs = [] -> read st l = Some v -> snd (invoke m v) = Ub -> exists hs', hexec (CInvoke l m) hs = HDone hs' Ub.
Proof.
  intros S Q R U. destruct (at_loc_ok hs st [] l v ltac:(now rewrite app_nil_r) R) as (pl & Ea & V).
  cbn [hexec]. rewrite (step_bind _ _ _ _ _ Ea).
  pose proof (array_both hs st l v pl S Q R V) as HA. pose proof (object_both hs st l v pl S Q R V) as HO.
  destruct m as [| |n|k|n|k| | | |n|k]; cbn [invoke h_invoke voidm snd] in *; rewrite ?on_array_snd, ?on_object_snd in U; unfold v_index_pos, v_erase_pos, v_erase_key in *; rewrite ?on_array_snd, ?on_object_snd in U.
  - destruct HA as [(_ & hs' & E)|[(e & E)|(xs & a & hs' & k & E & _)]]; [exists hs'; now apply bind_ub|rewrite E in U; discriminate..].
  - destruct HO as [(_ & hs' & E)|[(e & E)|(xs & a & hs' & k & E & _)]]; [exists hs'; now apply bind_ub|rewrite E in U; discriminate..].
  - destruct HA as [(_ & hs' & E)|[(e & E)|(xs & a & hs' & k & E & E' & Hn & Hl)]]; [exists hs'; now apply bind_ub|rewrite E in U; discriminate|]. rewrite E in U. cbn [bind snd] in U.
    exists hs'. rewrite (step_bind _ _ _ _ _ E'), (step_bind _ _ _ _ _ (arr_node_ok _ _ _ Hn)). rewrite (size_same k xs Hl).
    unfold arr_index, nthN in U. destruct (n <? size xs) eqn:L; [|reflexivity].
    exfalso. apply N.ltb_lt in L. unfold size in L. destruct (nth_error xs (N.to_nat n)) eqn:F; [discriminate|]. apply nth_error_None in F. lia.
  - assert (E : v_empty v = Ub) by (destruct (snd (v_index_key k v)) eqn:I; try discriminate; now apply (index_key_ub k)).
    destruct (coerce_ub hs st l v pl Tobject (NObj []) (fun a => HObj Tobject (Some a)) S R V E) as (hs' & C). exists hs'. now apply bind_ub.
  - destruct HA as [(_ & hs' & E)|[(e & E)|(xs & a & hs' & k & E & _)]]; [exists hs'; now apply bind_ub|rewrite E in U; discriminate..].
  - destruct HO as [(_ & hs' & E)|[(e & E)|(xs & a & hs' & k' & E & _)]]; [exists hs'; now apply bind_ub|rewrite E in U; discriminate..].
  - discriminate.
  - destruct HA as [(_ & hs' & E)|[(e & E)|(xs & a & hs' & k & E & _)]]; [exists hs'; now apply bind_ub|rewrite E in U; discriminate..].
  - destruct HO as [(_ & hs' & E)|[(e & E)|(xs & a & hs' & k' & E & _)]]; [exists hs'; now apply bind_ub|rewrite E in U; discriminate..].
  - destruct HA as [(_ & hs' & E)|[(e & E)|(xs & a & hs' & k & E & E' & Hn & Hl)]]; [exists hs'; now apply bind_ub|rewrite E in U; discriminate|]. rewrite E in U. cbn [bind snd] in U.
    exists hs'. rewrite (step_bind _ _ _ _ _ E'), (step_bind _ _ _ _ _ (arr_node_ok _ _ _ Hn)). rewrite (size_same k xs Hl). destruct (size xs <? n); [reflexivity|discriminate].
  - destruct HO as [(_ & hs' & E)|[(e & E)|(xs & a & hs' & k' & E & E' & Hn & Hl)]]; [exists hs'; now apply bind_ub|rewrite E in U; discriminate|]. rewrite E in U. cbn [bind snd] in U.
    exists hs'. rewrite (step_bind _ _ _ _ _ E'). destruct k as [k|]; [|discriminate]. rewrite (step_bind _ _ _ _ _ (obj_node_ok _ _ _ Hn)).
    unfold obj_contains in U. destruct (map_find k xs) eqn:F; [discriminate|]. destruct (map_find k k') eqn:F'; [|reflexivity].
    exfalso. apply (find_some_keys k xs k' _ (eq_sym Hl)) in F' as (y & F'). congruence.
Qed.
Theorem invoke_exactly hs st l v m : sim hs st -> fails hs = [] -> read st l = Some v ->
  exists hs', hexec (CInvoke l m) hs = HDone hs' (snd (invoke m v)) /\ (snd (invoke m v) <> Ub -> sim hs' (write st l (fst (invoke m v)))).
Proof.
  intros S Q R. destruct (res_ub_dec (snd (invoke m v))) as [U|U].
  - destruct (invoke_undefined hs st l v m S Q R U) as (hs' & E). exists hs'. rewrite U. split; auto. congruence.
  - assert (Ex : exec (CInvoke l m) st = Done (write st l (fst (invoke m v))) (snd (invoke m v))) by (cbn [exec]; unfold call; rewrite R; now destruct (invoke m v)).
    assert (Rv : refs_valid st (CInvoke l m)) by (constructor; [congruence|constructor]).
    destruct (hexec_refines (CInvoke l m) hs st _ _ S Rv (fun H => H) Ex U) as (hs' & r' & E & [(-> & S1 & _)|(_ & N & _)]); [|congruence]. exists hs'. auto.
Qed.
Theorem ask_exactly hs st l v q : sim hs st -> read st l = Some v -> hexec (CAsk l q) hs = HDone hs (ask q v).
Proof.
  intros S R. destruct (at_loc_ok hs st [] l v ltac:(now rewrite app_nil_r) R) as (pl & Ea & V).
  cbn [hexec]. rewrite (step_bind _ _ _ _ _ Ea), (step_bind _ _ _ _ _ (load_pl_ok hs st l v pl S R V)). reflexivity.
Qed.
(** lhs | src and lhs + src, the left operand an lvalue *)
Lemma const_object_ub {A} hs st l v pl (f : addr -> hM A) : sim hs st -> read st l = Some v -> vref hs l pl -> as_object_c v = Ub -> hbind (h_const_object pl) f hs = HDone hs Ub.
Proof.
  intros S R V U. destruct (sim_resolve _ _ _ _ S R) as (pl' & y & fy & _ & V' & Hy & G & _). pose proof (vref_det _ _ _ _ V' V). subst pl'.
  apply bind_ub. unfold h_const_object. rewrite (step_bind _ _ _ _ _ G). unfold as_object_c in U. rewrite (holds_tag_of _ _ _ _ Hy). fold (is_object v).
  destruct (is_object v) eqn:T; inversion Hy as [t s|t|t|t a l0 vs fps Hn Hl|t a m ms fps Hn Hk Hl]; subst; cbn in U; try discriminate; try reflexivity; destruct t; try discriminate; reflexivity.
Qed.
Lemma const_array_ub {A} hs st l v pl (f : addr -> hM A) : sim hs st -> read st l = Some v -> vref hs l pl -> as_array_c v = Ub -> hbind (h_const_array pl) f hs = HDone hs Ub.
Proof.
  intros S R V U. destruct (sim_resolve _ _ _ _ S R) as (pl' & y & fy & _ & V' & Hy & G & _). pose proof (vref_det _ _ _ _ V' V). subst pl'.
  apply bind_ub. unfold h_const_array. rewrite (step_bind _ _ _ _ _ G). unfold as_array_c in U. rewrite (holds_tag_of _ _ _ _ Hy). fold (is_array v).
  destruct (is_array v) eqn:T; inversion Hy as [t s|t|t|t a l0 vs fps Hn Hl|t a m ms fps Hn Hk Hl]; subst; cbn in U; try discriminate; try reflexivity; destruct t; try discriminate; reflexivity.
Qed.
Theorem or_new_undefined hs st lhs src v kv m mr : sim hs st -> fails hs = [] -> read st lhs = Some v -> as_object_c v = Ub -> read st src = Some (VObj Tobject (Some (kv :: m))) ->
  exists hs', hexec (COrNew lhs src false mr) hs = HDone hs' Ub.
Proof.
  intros S Q R U Rs. destruct (at_loc_ok hs st [] lhs v ltac:(now rewrite app_nil_r) R) as (pl & Ea & V). destruct (at_loc_ok hs st [] src _ ltac:(now rewrite app_nil_r) Rs) as (ps & Es & Vs).
  cbn [hexec]. rewrite (step_bind _ _ _ _ _ Es), (step_bind _ _ _ _ _ Ea). cbn [h_or_new].
  pose proof (as_object_run hs st src _ ps _ _ S Rs Vs eq_refl ltac:(discriminate)) as W. unfold wp in W. destruct (h_as_object ps hs) as [|hs1 [a|e| | |]] eqn:E; try contradiction.
  - destruct W as (xs & _ & _ & _ & _ & W). destruct (W eq_refl) as [-> _]. rewrite (step_bind _ _ _ _ _ E). exists hs. exact (const_object_ub hs st lhs v pl _ S R V U).
  - destruct W as [(W & _)|((_ & W) & _)]; [discriminate|contradiction].
Qed.
Theorem plus_new_undefined hs st lhs src v x m mr : sim hs st -> fails hs = [] -> read st lhs = Some v -> as_array_c v = Ub -> read st src = Some (VArr Tarray (Some (x :: m))) ->
  exists hs', hexec (CPlusNew lhs src false mr) hs = HDone hs' Ub.
Proof.
  intros S Q R U Rs. destruct (at_loc_ok hs st [] lhs v ltac:(now rewrite app_nil_r) R) as (pl & Ea & V). destruct (at_loc_ok hs st [] src _ ltac:(now rewrite app_nil_r) Rs) as (ps & Es & Vs).
  cbn [hexec]. rewrite (step_bind _ _ _ _ _ Es), (step_bind _ _ _ _ _ Ea). cbn [h_plus_new].
  pose proof (as_array_run hs st src _ ps _ _ S Rs Vs eq_refl ltac:(discriminate)) as W. unfold wp in W. destruct (h_as_array ps hs) as [|hs1 [a|e| | |]] eqn:E; try contradiction.
  - destruct W as (xs & _ & _ & _ & _ & W). destruct (W eq_refl) as [-> _]. rewrite (step_bind _ _ _ _ _ E). exists hs. exact (const_array_ub hs st lhs v pl _ S R V U).
  - destruct W as [(W & _)|((_ & W) & _)]; [discriminate|contradiction].
Qed.
