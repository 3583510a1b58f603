(** * Constructors on the heap: an rvalue becomes the newest temporary. *)
From Verif Require Import Base Value Spec Containers Dump Api SpecApi BaseProofs ContainerProofs ApiProofs StoreProofs Heap SpecHeap HeapBase HeapSteps HeapOps HeapMoves HeapNodes HeapCalls HeapMerge.
From Coq Require Import Permutation.

Lemma bury_ok hs st vs v n : length vs = n -> sim hs (st ++ vs ++ [v]) -> exists hs', bury n hs = HDone hs' (Ok tt) /\ sim hs' ((st ++ [v]) ++ vs) /\ quiet hs hs' /\ stays nowhere (length st) hs hs'.
Proof.
  intros <- (f & S). destruct (simf_split _ _ _ _ S) as (R & xs & f1 & f2 & E & -> & A & B & D & L).
  destruct (holds_all_split _ _ _ _ _ B) as (x1 & x2 & g1 & g2 & -> & -> & B1 & B2).
  pose proof (holds_all_length _ _ _ _ B1) as L1. pose proof (holds_all_length _ _ _ _ B2) as L2. cbn in L2.
  destruct hs as [R' h fl]. cbn in *. subst R'. pose proof (holds_all_length _ _ _ _ A) as LR. eexists. split; [reflexivity|].
  match goal with |- ?X /\ _ => enough (X /\ stays nowhere (length st) (HS (R ++ x1 ++ x2) h fl) (HS (firstn (length (R ++ x1 ++ x2) - Datatypes.S (length vs)) (R ++ x1 ++ x2) ++ skipn (length vs) (skipn (length (R ++ x1 ++ x2) - Datatypes.S (length vs)) (R ++ x1 ++ x2)) ++ firstn (length vs) (skipn (length (R ++ x1 ++ x2) - Datatypes.S (length vs)) (R ++ x1 ++ x2))) h fl)) as [Y Z]; [split; [exact Y|split; [intros Hq; exact Hq|exact Z]]|] end. cbn [roots hp fails].
  replace (length (R ++ x1 ++ x2) - Datatypes.S (length vs))%nat with (length R) by (rewrite !app_length; lia).
  rewrite firstn_app, Nat.sub_diag, firstn_all, skipn_app, skipn_all, Nat.sub_diag, app_nil_r. cbn [app skipn].
  rewrite <- L1, firstn_app, skipn_app, Nat.sub_diag, firstn_all, skipn_all. cbn [app firstn skipn]. rewrite app_nil_r. split.
  2:{ intros l pl Hl _ (y & Hy). exists y. rewrite (resolve_ext R _ h fl fl) in Hy by lia. rewrite (resolve_ext R _ h fl fl) by lia. exact Hy. }
  exists (f1 ++ g2 ++ g1). eapply simf_perm with (fp' := f1 ++ g1 ++ g2); auto.
  - rewrite <- app_assoc. apply holds_all_app; auto. apply holds_all_app; auto.
  - apply Permutation_app_head, Permutation_app_comm.
Qed.
Lemma temps_ok (c : hval -> hM unit) l vs fl hs st fp (g : list hval -> node) (mk : addr -> hval) v n : simf hs st fp ->
  (forall x w fx, In x l -> length fx <= length fl -> forall hs st fp, simf hs st fp -> holds (hp hs) x w fx -> owned w -> wp (c x) hs (fun _ => copied st fp hs [w]) (undone st fp hs))%nat ->
  holds_all (hp hs) l vs fl -> Forall owned vs -> length vs = n ->
  (forall xs h' b fs, length xs = length vs -> nth_error h' b = Some (Some (g xs)) -> holds_all h' xs vs fs ->
     exists fs', Permutation fs' fs /\ holds h' (mk b) v (b :: fs')) ->
  wp (copy_each c l ;; on_throw tick (drop_n n) ;; let! l' := take_top n in let! b := alloc (g l') in push (mk b)) hs
    (fun _ hs' => sim hs' (st ++ [v]) /\ quiet hs hs' /\ stays nowhere (length st) hs hs') (fun e hs' => oom hs e /\ sim hs' st).
Proof.
  intros S Hc Hl Ow Ln Hg. subst n. apply wp_bind. eapply wp_mono; [exact (copy_each_ok c l vs fl hs st fp Hc S Hl Ow)|..]; cbv beta.
  2:{ intros e hs' U. eapply undone_upto; eauto. }
  intros ? hs1 C1. pose proof (copied_upto _ _ _ _ _ S C1) as U1.
  apply wp_bind. eapply wp_catch with (E' := fun e hs' => oom hs1 e /\ sim hs' (st ++ vs)).
  - apply wp_tick.
    + intros fl2 Hf. destruct hs1 as [R1 h1 fl1]. assert (C2 : copied st fp hs vs (HS R1 h1 fl2)).
      { destruct C1 as (xs & fs & Er & Sf & Ag & Q). exists xs, fs. cbn in *. splits; auto. intros Hq. auto. }
      destruct (make_ok g mk v vs hs st fp (HS R1 h1 fl2) S C2 Hg) as (hs3 & E3 & C3). eapply wp_run; [exact E3|].
      pose proof (copied_upto _ _ _ _ _ S C3) as U3. split; [apply U3|split; [apply U3|]]. eapply upto_stays; [exact U3|lia|intros w l' []].
    + intros fl2 Hf. split; [split; auto|]. destruct hs1 as [R1 h1 fl1]. exact (upto_sim _ _ _ _ _ _ U1).
  - intros e hs2 [O S2]. destruct (drop_n_upto hs2 st vs _ eq_refl S2) as (hs3 & E3 & U3). exists hs3. split; [exact E3|]. split; [|apply U3]. eapply oom_quiet; [apply U1|exact O].
Qed.
Lemma finish_ok hs base vs v n (m : hM unit) : length vs = n -> 
  wp m hs (fun _ hs' => sim hs' ((base ++ vs) ++ [v]) /\ quiet hs hs' /\ stays nowhere (length (base ++ vs)) hs hs') (fun e hs' => oom hs e /\ sim hs' (base ++ vs)) ->
  wp (on_throw m (drop_n n) ;; bury n ;; drop_n n) hs (fun _ hs' => sim hs' (base ++ [v]) /\ quiet hs hs' /\ stays nowhere (length base) hs hs') (fun e hs' => oom hs e /\ sim hs' base).
Proof.
  intros Ln H. apply wp_bind. eapply wp_catch; [eapply wp_mono; [exact H|..]|]; cbv beta; [|intros e hs' X; exact X|].
  - intros ? hs1 (S1 & Q1 & K1). rewrite <- app_assoc in S1. destruct (bury_ok hs1 base vs v n Ln S1) as (hs2 & E2 & S2 & Q2 & K2). eapply wp_step; [exact E2|].
    destruct (drop_n_upto hs2 (base ++ [v]) vs n Ln S2) as (hs3 & E3 & U3). eapply wp_run; [exact E3|]. split; [apply U3|]. split; [eapply quiet_trans; [exact Q1|]; eapply quiet_trans; [exact Q2|apply U3]|].
    eapply stays_trans; [eapply stays_mono; [exact K1|rewrite app_length; lia|intros l []]|]. eapply stays_trans; [exact K2|]. eapply upto_stays; [exact U3|rewrite app_length; lia|intros w l []].
  - intros e hs1 [O S1]. destruct (drop_n_upto hs1 base vs n Ln S1) as (hs3 & E3 & U3). exists hs3. split; [exact E3|]. split; auto. apply U3.
Qed.
Lemma make_array_ok hs base vs n : sim hs (base ++ vs) -> length vs = n -> Forall owned vs ->
  wp (h_make_array n) hs (fun _ hs' => sim hs' (base ++ [v_array vs]) /\ quiet hs hs' /\ stays nowhere (length base) hs hs') (fun e hs' => oom hs e /\ sim hs' base).
Proof.
  intros S Ln Ow. unfold h_make_array. apply (finish_ok hs base vs (v_array vs) n); auto.
  pose proof S as (f & Sf). destruct (simf_split _ _ _ _ Sf) as (R & xs & f1 & f2 & E & -> & A & B & D & L).
  pose proof (holds_all_length _ _ _ _ B) as Lx. destruct hs as [R' h fl]. cbn in E, A, B, L. subst R'.
  assert (Lf : (length f2 <= length h)%nat). { eapply fp_bound; [|eapply holds_all_live; exact B]. now apply nodup_app in D. }
  eapply wp_step; [apply peek_top_ok; lia|]. apply wp_bind. apply wp_tick; cbn [roots hp fails].
  - intros fl2 Hf. eapply wp_step; [reflexivity|]. cbn [hp].
    eapply wp_mono; [eapply (temps_ok (h_copy (length h)) xs vs f2 (HS (R ++ xs) h fl2) (base ++ vs) (f1 ++ f2) NArr (fun b => HArr Tarray (Some b)) (v_array vs) n); auto|..]; cbv beta.
    + intros x w fx _ Lw hs0 st0 fp0. apply (copy_ok (length h) x w fx). lia.
    + intros xs' h' b fs _ Hb Hx. exists fs. split; auto. now apply ho_arr with (l := xs').
    + intros ? hs' (S1 & Q1 & K1). split; auto. split; [intros Hq; apply Q1; cbn in *; auto|exact K1].
    + intros e hs' [[-> O] S1]. split; auto. split; auto.
  - intros fl2 Hf. split; [split; auto|exact S].
Qed.

Lemma first_keys_holds h ks : forall xs vs f seen, holds_all h xs vs f -> length ks = length xs ->
  exists f', holds_all h (map snd (first_keys seen (combine ks xs))) (map snd (first_keys seen (combine ks vs))) f' /\ (length f' <= length f)%nat /\
    map fst (first_keys seen (combine ks xs)) = map fst (first_keys seen (combine ks vs)).
Proof.
  induction ks as [|k ks IH]; intros xs vs f seen H L; destruct xs as [|x xs]; try discriminate; inversion H as [|? v fx ? vs' fs Hx Hl]; subst; cbn.
  - exists []. splits; auto.
  - rewrite app_length. destruct (existsb (bytes_eqb k) seen).
    + destruct (IH xs vs' fs seen Hl) as (f' & A & B & C); [now injection L|]. exists f'. splits; auto. lia.
    + destruct (IH xs vs' fs (k :: seen) Hl) as (f' & A & B & C); [now injection L|]. exists (fx ++ f'). cbn. rewrite app_length, C. splits; auto; [now constructor|lia].
Qed.
Lemma first_keys_in {A} (l : list (bytes * A)) : forall seen kx, In kx (first_keys seen l) -> In kx l /\ ~ In (fst kx) seen.
Proof.
  induction l as [|(k, x) l IH]; intros seen kx; cbn; [tauto|]. destruct (existsb (bytes_eqb k) seen) eqn:E.
  - intros H. apply IH in H. tauto.
  - intros [<-|H]; [|apply IH in H; cbn in H; tauto]. split; auto. cbn. intros I. assert (existsb (bytes_eqb k) seen = true); [|congruence]. apply existsb_exists. exists k. split; auto. now apply bytes_eqb_eq.
Qed.
Lemma first_keys_nodup {A} (l : list (bytes * A)) : forall seen, NoDup (map fst (first_keys seen l)).
Proof.
  induction l as [|(k, x) l IH]; intros seen; cbn; [constructor|]. destruct (existsb (bytes_eqb k) seen) eqn:E; auto. cbn. constructor; auto.
  intros I. apply in_map_iff in I as (kx & <- & I). apply first_keys_in in I as [_ I]. apply I. now left.
Qed.
Lemma emp_new_notin k ks : ~ In k ks -> emp_new k ks = true.
Proof.
  induction ks as [|k' ks IH]; cbn; auto. intros H. destruct (bytes_ltb k k'); auto. destruct (bytes_eqb k k') eqn:E; [|apply IH; tauto]. apply bytes_eqb_eq in E. subst. tauto.
Qed.
Lemma emplace_keys {A} k (x : A) m k' : In k' (map fst (fst (map_emplace k x m))) -> k' = k \/ In k' (map fst m).
Proof.
  rewrite emplace_ins. destruct (emp_new k (map fst m)); auto. rewrite map_ins. unfold ins. rewrite in_app_iff. cbn.
  intros [H|[H|H]]; auto; right; rewrite <- (firstn_skipn (ins_pos k (map fst m)) (map fst m)); apply in_app_iff; auto.
Qed.
Lemma of_list_holds h ks : forall xs vs f m0 n0 f0, holds_all h xs vs f -> length ks = length xs -> NoDup ks -> (forall k, In k ks -> ~ In k (map fst n0)) ->
  map fst m0 = map fst n0 -> holds_all h (map snd m0) (map snd n0) f0 ->
  exists f', Permutation f' (f0 ++ f) /\
    map fst (fold_left (fun m kv => fst (map_emplace (fst kv) (snd kv) m)) (combine ks xs) m0) = map fst (fold_left (fun m kv => fst (map_emplace (fst kv) (snd kv) m)) (combine ks vs) n0) /\
    holds_all h (map snd (fold_left (fun m kv => fst (map_emplace (fst kv) (snd kv) m)) (combine ks xs) m0)) (map snd (fold_left (fun m kv => fst (map_emplace (fst kv) (snd kv) m)) (combine ks vs) n0)) f'.
Proof.
  induction ks as [|k ks IH]; intros xs vs f m0 n0 f0 H L D Hk K0 H0; destruct xs as [|x xs]; try discriminate; inversion H as [|? v fx ? vs' fs Hx Hl]; subst; cbn.
  - exists f0. rewrite app_nil_r. splits; auto.
  - apply NoDup_cons_iff in D as [Dk D]. destruct (holds_all_ins h (ins_pos k (map fst n0)) _ _ _ _ _ _ H0 Hx) as (f1 & P1 & H1).
    assert (En : emp_new k (map fst n0) = true) by (apply emp_new_notin, Hk; now left).
    destruct (IH xs vs' fs (fst (map_emplace k x m0)) (fst (map_emplace k v n0)) f1 Hl) as (f' & P & K & HH); auto.
    + intros k' Hk' I. apply emplace_keys in I as [->|I]; [tauto|]. eapply Hk; [|exact I]. now right.
    + rewrite !emplace_ins, K0, En, !map_ins. cbn. now rewrite K0.
    + rewrite !emplace_ins, K0, En, !map_ins. cbn. exact H1.
    + exists f'. splits; auto. rewrite P, P1. now rewrite app_assoc.
Qed.
Lemma of_list_first (l : list (bytes * value)) : forall seen m, sorted_keys m -> (forall k, In k seen <-> In k (map fst m)) ->
  fold_left (fun m kv => fst (map_emplace (fst kv) (snd kv) m)) l m = fold_left (fun m kv => fst (map_emplace (fst kv) (snd kv) m)) (first_keys seen l) m.
Proof.
  induction l as [|(k, x) l IH]; intros seen m Hs Hk; cbn; auto. destruct (existsb (bytes_eqb k) seen) eqn:E.
  - apply existsb_exists in E as (k' & I & E). apply bytes_eqb_eq in E as <-. apply Hk in I.
    assert (F : exists y, map_find k m = Some y). { destruct (map_find k m) eqn:F; eauto. apply map_find_none in F. tauto. }
    destruct F as (y & F). rewrite (map_emplace_assign k x m Hs), F. auto.
  - cbn. apply IH; [now apply map_emplace_sorted|]. intros k'. cbn. rewrite emplace_ins.
    assert (Nk : ~ In k (map fst m)). { intros I. apply Hk in I. assert (existsb (bytes_eqb k) seen = true); [|congruence]. apply existsb_exists. exists k. split; auto. now apply bytes_eqb_eq. }
    rewrite (emp_new_notin _ _ Nk), map_ins. unfold ins. cbn [fst]. rewrite in_app_iff. cbn. rewrite Hk.
    rewrite <- (firstn_skipn (ins_pos k (map fst m)) (map fst m)) at 1. rewrite in_app_iff. tauto.
Qed.
Lemma make_object_ok hs base (ms : object) ks : sim hs (base ++ map snd ms) -> ks = map fst ms -> Forall (fun kv => owned (snd kv)) ms ->
  wp (h_make_object ks) hs (fun _ hs' => sim hs' (base ++ [v_object (obj_of_list ms)]) /\ quiet hs hs' /\ stays nowhere (length base) hs hs') (fun e hs' => oom hs e /\ sim hs' base).
Proof.
  intros S -> Ow. unfold h_make_object. apply (finish_ok hs base (map snd ms)); [now rewrite !map_length|].
  pose proof S as (f & Sf). destruct (simf_split _ _ _ _ Sf) as (R & xs & f1 & f2 & E & -> & A & B & D & L).
  pose proof (holds_all_length _ _ _ _ B) as Lx. destruct hs as [R' h fl]. cbn in E, A, B, L. subst R'.
  assert (Lf : (length f2 <= length h)%nat). { eapply fp_bound; [|eapply holds_all_live; exact B]. now apply nodup_app in D. }
  eapply wp_step; [apply peek_top_ok; rewrite map_length in *; lia|]. cbv zeta. eapply wp_step; [reflexivity|]. cbn [hp].
  destruct (first_keys_holds h (map fst ms) xs (map snd ms) f2 [] B) as (f' & Hf & Lf' & Kf); [rewrite map_length in *; lia|].
  rewrite combine_fst_snd in Hf, Kf. set (mx := first_keys [] (combine (map fst ms) xs)) in *. set (mv := first_keys [] ms) in *.
  pose proof (holds_all_length _ _ _ _ Hf) as Lm. rewrite !map_length in Lm.
  apply (temps_ok (fun y => tick ;; tick ;; h_copy (length h) y) (map snd mx) (map snd mv) f' (HS (R ++ xs) h fl) (base ++ map snd ms) (f1 ++ f2) (fun l' => NObj (h_of_list (combine (map fst mx) l'))) (fun b => HObj Tobject (Some b))); auto.
  - intros x w fx _ Lw hs0 st0 fp0 S0 H0 O0. apply tick_copied; auto. intros hs1 R1 P1 _. apply tick_copied; [eapply simf_same; eauto|]. intros hs2 R2 P2 _.
    apply (copy_ok (length h) x w fx); [lia|eapply simf_same; [| |exact S0]; congruence|now rewrite P2, P1|auto].
  - apply owned_members. rewrite Forall_forall in *. intros kx I. apply first_keys_in in I as [I _]. now apply Ow.
  - rewrite map_length. lia.
  - intros xs' h' b fs Ls Hb Hx. rewrite map_length in Ls.
    destruct (of_list_holds h' (map fst mx) xs' (map snd mv) fs [] [] [] Hx) as (fs' & P & K & HH); auto; [rewrite map_length; lia|rewrite Kf; apply first_keys_nodup|constructor|].
    cbn in P. exists fs'. split; auto. unfold obj_of_list, v_object. rewrite (of_list_first ms [] []); [|constructor|cbn; tauto]. fold mv.
    rewrite Kf, combine_fst_snd in K, HH. eapply ho_obj; [exact Hb|unfold h_of_list; now rewrite Kf|unfold h_of_list; now rewrite Kf].
Qed.

(** ** Expressions *)
Definition evals (e : expr) : Prop := forall hs st ex st' r, sim hs (st ++ ex) -> eval e st = Done st' r -> r <> Ub ->
  wp (h_eval e) hs (fun _ hs' => exists v, r = Ok v /\ sim hs' (st' ++ ex ++ [v]) /\ frame (expr_moves e) st st' /\ quiet hs hs' /\ stays (inside (expr_takes e)) (length st) hs hs') (failed (expr_moves e) hs st ex).
Lemma each_ok es : Forall evals es -> forall hs st ex st' r, sim hs (st ++ ex) -> eval_list eval es st = Done st' r -> r <> Ub ->
  wp (eval_each h_eval es) hs (fun _ hs' => exists vs, r = Ok vs /\ length vs = length es /\ sim hs' (st' ++ ex ++ vs) /\ frame (flat_map expr_moves es) st st' /\ quiet hs hs' /\ stays (inside (flat_map expr_takes es)) (length st) hs hs')
    (failed (flat_map expr_moves es) hs st ex).
Proof.
  induction 1 as [|e es He _ IH]; intros hs st ex st' r S E NU.
  - injection E as <- <-. cbn. exists []. rewrite app_nil_r. splits; auto; [apply frame_refl|intros Hq; exact Hq|apply stays_refl].
  - cbn [eval_list eval_each flat_map] in *. unfold mbind in E. destruct (eval e st) as [|st1 r1] eqn:E1; [discriminate|].
    assert (N1 : r1 <> Ub). { intros ->. injection E as _ E. now apply NU. }
    apply wp_bind. eapply wp_mono; [exact (He hs st ex st1 r1 S E1 N1)|..]; cbv beta.
    + intros ? hs1 (v & -> & S1 & F1 & Q1 & K1). destruct (eval_list eval es st1) as [|st2 r2] eqn:E2; [discriminate|].
      assert (N2 : r2 <> Ub). { intros ->. injection E as _ E. now apply NU. }
      assert (S1' : sim hs1 (st1 ++ ex ++ [v])) by exact S1.
      eapply wp_catch; [eapply wp_mono; [exact (IH hs1 st1 (ex ++ [v]) st2 r2 S1' E2 N2)|..]|]; cbv beta.
      * intros ? hs2 (vs & -> & L & S2 & F2 & Q2 & K2). injection E as <- <-. exists (v :: vs). rewrite <- app_assoc in S2. splits; auto; [cbn; lia| |eapply quiet_trans; eauto|].
        2:{ eapply stays_trans; [eapply stays_mono; [exact K1|lia|]|eapply stays_mono; [exact K2|rewrite (frame_length _ _ _ F1); lia|]]; intros l (w & Iw & Hw); exists w; rewrite in_app_iff; auto. }
        eapply frame_trans; eapply frame_mono; eauto; [apply incl_appl, incl_refl|apply incl_appr, incl_refl].
      * intros e' hs2 X. exact X.
      * intros e' hs2 (O & st3 & S3 & F3). rewrite app_assoc in S3. destruct (drop_upto _ _ _ S3) as (hs3 & E3 & U3). exists hs3. split; [exact E3|].
        eapply failed_ex; [eapply oom_quiet; eauto|apply U3|]. eapply frame_trans; eapply frame_mono; eauto; [apply incl_appl, incl_refl|apply incl_appr, incl_refl].
    + intros e' hs1 X. eapply failed_mono; [exact X|apply incl_appl, incl_refl].
Qed.
Lemma eval_values_each ev ms : eval_values ev ms = eval_each ev (map snd ms).
Proof. induction ms as [|(k, e) ms IH]; cbn; [reflexivity|now rewrite IH]. Qed.
Lemma eval_members_list ev ms : forall st, eval_members ev ms st =
  match eval_list ev (map snd ms) st with Stuck => Stuck | Done st' r => Done st' (do vs <- r; Ok (combine (map fst ms) vs)) end.
Proof.
  induction ms as [|(k, e) ms IH]; intros st; cbn; [reflexivity|]. unfold mbind. destruct (ev e st) as [|st1 [v|?| | |]]; try reflexivity. rewrite IH.
  destruct (eval_list ev (map snd ms) st1) as [|st2 [vs|?| | |]]; reflexivity.
Qed.
Lemma read_slot st l v : read st l = Some v -> (slot l < length st)%nat.
Proof. unfold read. intros H. apply nth_error_Some. destruct (nth_error st (slot l)); [discriminate|]. destruct (steps l); discriminate. Qed.
Lemma at_loc_ok hs st ex l v : sim hs (st ++ ex) -> read st l = Some v -> exists pl, at_loc l hs = HDone hs (Ok pl) /\ vref hs l pl.
Proof.
  intros S H. rewrite <- (read_app st ex) in H by (eapply read_slot; eauto). destruct (sim_resolve _ _ _ _ S H) as (pl & y & fy & R & V & _).
  exists pl. split; auto. unfold at_loc. now rewrite R.
Qed.
Lemma lit_ok hs st ex x v S : sim hs (st ++ ex) -> (forall h, holds h x v []) ->
  wp (tick ;; push x) hs (fun _ hs' => exists v', Ok v = Ok v' /\ sim hs' (st ++ ex ++ [v']) /\ frame S st st /\ quiet hs hs' /\ stays (inside []) (length st) hs hs') (failed S hs st ex).
Proof.
  intros Si Hx. apply wp_bind. eapply wp_mono; [exact (tick_upto hs (st ++ ex) (length (st ++ ex)) [] [] Si)|..]; cbv beta.
  - intros ? hs1 U1. destruct (push_upto hs1 (st ++ ex) x v (upto_sim _ _ _ _ _ _ U1) Hx) as (hs2 & E2 & U2). eapply wp_run; [exact E2|].
    exists v. splits; auto; [rewrite app_assoc; apply U2|apply frame_refl|eapply quiet_trans; [apply U1|apply U2]|].
    eapply stays_trans; [eapply upto_stays; [exact U1|rewrite app_length; lia|intros w l []]|eapply upto_stays; [exact U2|rewrite app_length; lia|intros w l []]].
  - intros e hs1 [O S1]. eapply failed_ex; [exact O|exact S1|apply frame_refl].
Qed.
Theorem eval_ok e : evals e.
Proof.
  induction e as [|b|s|s|t s|l|l|es IH|ms IH] using expr_ind'; intros hs st ex st' r Si E NU; cbn [h_eval expr_moves].
  - injection E as <- <-. destruct (push_upto hs (st ++ ex) (HStr Tnull []) v_null Si) as (hs2 & E2 & U2); [constructor|]. eapply wp_run; [exact E2|].
    exists v_null. splits; auto; [rewrite app_assoc; apply U2|apply frame_refl|apply U2|eapply upto_stays; [exact U2|rewrite app_length; lia|intros w l []]].
  - injection E as <- <-. apply lit_ok; auto. destruct b; constructor.
  - injection E as <- <-. apply lit_ok; auto. constructor.
  - injection E as <- <-. apply lit_ok; auto. constructor.
  - injection E as <- <-. apply lit_ok; auto. constructor.
  - cbn [eval] in E. unfold copy_from, mbind, rd in E. destruct (read st l) as [w|] eqn:R; [|discriminate]. cbn in E. injection E as <- Er.
    destruct (copy_fine w _ Er NU) as [-> O]. clear Er. destruct (at_loc_ok hs st ex l w Si R) as (pl & Ea & V). eapply wp_step; [exact Ea|].
    assert (R' : read (st ++ ex) l = Some w) by (rewrite read_app; auto; eapply read_slot; eauto).
    eapply wp_mono; [exact (copy_upto hs (st ++ ex) l w pl Si R' V O)|..]; cbv beta.
    + intros ? hs2 U2. exists w. splits; auto; [rewrite app_assoc; apply U2|apply frame_refl|apply U2|eapply upto_stays; [exact U2|rewrite app_length; lia|intros w' l' []]].
    + intros e hs2 [O2 S2]. eapply failed_ex; [exact O2|exact S2|apply frame_refl].
  - cbn [eval] in E. unfold take, mbind, rd, wr in E. destruct (read st l) as [w|] eqn:R; [|discriminate]. cbn in E. injection E as <- <-.
    destruct (at_loc_ok hs st ex l w Si R) as (pl & Ea & V). eapply wp_step; [exact Ea|].
    assert (R' : read (st ++ ex) l = Some w) by (rewrite read_app; auto; eapply read_slot; eauto).
    destruct (take_upto hs (st ++ ex) l w pl Si R' V) as (hs2 & E2 & U2). eapply wp_run; [exact E2|].
    exists w. rewrite write_app, <- app_assoc in U2 by (eapply read_slot; eauto). splits; auto; [apply U2|apply frame_write; now left|apply U2|eapply upto_stays; [exact U2|rewrite app_length; lia|]].
    intros w' l' Hw Hi. exists w'. split; auto.
  - cbn [eval] in E. unfold mbind in E. destruct (eval_list eval es st) as [|st1 r1] eqn:E1; [discriminate|].
    assert (N1 : r1 <> Ub). { intros ->. injection E as _ E. now apply NU. }
    apply wp_bind. eapply wp_mono; [exact (each_ok es IH hs st ex st1 r1 Si E1 N1)|..]; cbv beta; [|intros e hs1 X; exact X].
    intros ? hs1 (vs & -> & L & S1 & F1 & Q1 & K1). unfold mfail in E.
    destruct (copy_elems_fine vs _ eq_refl) as [Ec Ow]; [intros X; rewrite X in E; injection E as _ E; now apply NU|]. rewrite Ec in E. injection E as <- <-.
    rewrite app_assoc in S1. eapply wp_mono; [exact (make_array_ok hs1 (st1 ++ ex) vs (length es) S1 L Ow)|..]; cbv beta.
    + intros ? hs2 (S2 & Q2 & K2). eexists. split; [reflexivity|]. rewrite app_assoc. splits; auto; [eapply quiet_trans; eauto|].
      eapply stays_trans; [exact K1|eapply stays_mono; [exact K2|rewrite app_length, (frame_length _ _ _ F1); lia|intros l []]].
    + intros e hs2 [O2 S2]. eapply failed_ex; [eapply oom_quiet; eauto|exact S2|exact F1].
  - cbn [eval] in E. unfold mbind in E. rewrite eval_members_list in E. rewrite eval_values_each.
    destruct (eval_list eval (map snd ms) st) as [|st1 r1] eqn:E1; [discriminate|].
    assert (N1 : r1 <> Ub). { intros ->. injection E as _ E. now apply NU. }
    assert (IH' : Forall evals (map snd ms)) by (now apply Forall_map).
    assert (Em : flat_map (fun ke => expr_moves (snd ke)) ms = flat_map expr_moves (map snd ms)). { clear. induction ms as [|x ms IH]; cbn; [reflexivity|now rewrite IH]. }
    rewrite Em. apply wp_bind. eapply wp_mono; [exact (each_ok (map snd ms) IH' hs st ex st1 r1 Si E1 N1)|..]; cbv beta; [|intros e hs1 X; exact X].
    intros ? hs1 (vs & -> & L & S1 & F1 & Q1 & K1). unfold mfail in E. cbn [bind] in E. rewrite map_length in L.
    destruct (copy_members_fine (combine (map fst ms) vs) _ eq_refl) as [Ec Ow]; [intros X; rewrite X in E; injection E as _ E; now apply NU|]. rewrite Ec in E. injection E as <- <-.
    rewrite app_assoc in S1. rewrite <- (snd_combine (map fst ms) vs) in S1 by (rewrite map_length; auto).
    eapply wp_mono; [exact (make_object_ok hs1 (st1 ++ ex) _ (map fst ms) S1 (eq_sym (fst_combine (map fst ms) vs ltac:(rewrite map_length; auto))) Ow)|..]; cbv beta.
    + intros ? hs2 (S2 & Q2 & K2). eexists. split; [reflexivity|]. rewrite app_assoc. splits; auto; [eapply quiet_trans; eauto|].
      assert (Et : expr_takes (EObj ms) = flat_map expr_takes (map snd ms)). { cbn. clear. induction ms as [|x ms IH]; cbn; [reflexivity|now rewrite IH]. }
      rewrite Et. eapply stays_trans; [exact K1|eapply stays_mono; [exact K2|rewrite app_length, (frame_length _ _ _ F1); lia|intros l []]].
    + intros e hs2 [O2 S2]. eapply failed_ex; [eapply oom_quiet; eauto|exact S2|exact F1].
Qed.
