(** * Assigning a copy of a value to a part of it: C26. *)
From Verif Require Import Base Value DumpProofs Containers Dump Api Spec SpecApi SpecEffects SpecHeap BaseProofs ContainerProofs ApiProofs StoreProofs EffectProofs StatementProofs.

Lemma get_owned p : forall v w, owned v -> get_at p v = Some w -> owned w.
Proof.
  induction p as [|[k|n] p IH]; intros v w Hv H; cbn in H; [congruence| |].
  - inversion Hv as [|t l F|t m F]; subst; try discriminate. destruct (map_find k m) eqn:E; [|discriminate]. eapply IH; [|exact H].
    rewrite Forall_forall in F. apply map_find_in in E. exact (F _ E).
  - inversion Hv as [|t l F|t m F]; subst; try discriminate. destruct (nth_error l n) eqn:E; [|discriminate]. eapply IH; [|exact H].
    rewrite Forall_forall in F. apply nth_error_In in E. exact (F _ E).
Qed.
Lemma upd_all_owned p : forall v x, owned v -> owned x -> owned (upd_at p (fun _ => x) v).
Proof.
  induction p as [|s p IH]; intros v x Hv Hx; cbn [upd_at]; auto. destruct s as [k|n]; inversion Hv as [|t l F|t m F]; subst; auto.
  - constructor. clear Hv. induction m as [|[k' y] m IHm]; cbn; auto. inversion_clear F as [|? ? F1 F2]. destruct (bytes_eqb k k'); constructor; cbn in *; auto.
  - constructor. clear Hv. revert n. induction l as [|y l IHl]; intros [|n]; cbn; auto; inversion_clear F as [|? ? F1 F2]; constructor; auto.
Qed.
Lemma get_tag_ok p : forall v w, tag_ok v -> get_at p v = Some w -> tag_ok w.
Proof.
  induction p as [|[k|n] p IH]; intros v w Hv H; cbn in H; [congruence| |].
  - destruct Hv as [| | |m F|]; try discriminate. destruct (map_find k m) eqn:E; [|discriminate]. eapply IH; [|exact H].
    rewrite Forall_forall in F. apply map_find_in in E. exact (F _ E).
  - destruct Hv as [|l F| | |]; try discriminate. destruct (nth_error l n) eqn:E; [|discriminate]. eapply IH; [|exact H].
    rewrite Forall_forall in F. apply nth_error_In in E. exact (F _ E).
Qed.
Lemma upd_tag_ok p x : forall v, tag_ok v -> tag_ok x -> tag_ok (upd_at p (fun _ => x) v).
Proof.
  induction p as [|s p IH]; intros v Hv Hx; cbn [upd_at]; auto. destruct s as [k|n]; destruct Hv as [t s H1 H2|l F| |m F|]; try (constructor; assumption).
  - constructor. induction m as [|[k' y] m IHm]; cbn; auto. inversion_clear F as [|? ? F1 F2]. destruct (bytes_eqb k k'); constructor; cbn in *; auto.
  - constructor. revert n. induction l as [|y l IHl]; intros [|n]; cbn; auto; inversion_clear F as [|? ? F1 F2]; constructor; auto.
Qed.
Lemma write_tag_ok st l x : Forall tag_ok st -> tag_ok x -> Forall tag_ok (write st l x).
Proof.
  intros F X. unfold write. generalize (slot l) as n. induction F as [|v st Hv F IH]; intros [|n]; cbn; constructor; auto. now apply upd_tag_ok.
Qed.
Lemma upd_self p : forall v w, get_at p v = Some w -> upd_at p (fun _ => w) v = v.
Proof.
  intros v w G. assert (R : read [v] (Loc 0 p) = Some w) by exact G. apply write_same in R. unfold write in R. cbn in R. now injection R.
Qed.
Lemma part_type q x f : q <> [] -> type_of (upd_at q f x) = type_of x.
Proof. destruct q as [|[k|n] q]; [contradiction|..]; intros _; cbn; [destruct x as [|? []|? []]|destruct x as [|? []|? []]]; reflexivity. Qed.
Lemma read_part st src q x : read st src = Some x -> read st (Loc (slot src) (steps src ++ q)) = get_at q x.
Proof. unfold read. cbn. destruct (nth_error st (slot src)); [|discriminate]. rewrite get_at_app. now intros ->. Qed.
Lemma read_above st src q x y : read st src = Some x -> read (write st (Loc (slot src) (steps src ++ q)) y) src = Some (upd_at q (fun _ => y) x).
Proof.
  unfold read, write. cbn. rewrite nth_upd_same. destruct (nth_error st (slot src)); [|discriminate]. cbn. rewrite get_upd_above. now intros ->.
Qed.
Lemma copied_into_part st src q x d : q <> [] -> read st src = Some x -> get_at q x = Some d -> owned x ->
  exec (CAssign (Loc (slot src) (steps src ++ q)) (CRef src)) st =
  Done (write st (Loc (slot src) (steps src ++ q)) (upd_at q (fun _ => set_tag (type_of x) d) x)) (Ok tt).
Proof.
  intros Q R G O. set (dst := Loc (slot src) (steps src ++ q)). cbn [exec prepare assign]. unfold mbind, mret, copy_assign, copy_from, mbind, rd, wr, mfail.
  assert (Rd : read st dst = Some d) by (unfold dst; now rewrite (read_part _ _ _ _ R)).
  rewrite Rd. cbv beta iota. rewrite R. cbv beta iota. rewrite (read_above st src q x _ R). cbv beta iota.
  assert (Od : owned (set_tag (type_of x) d)) by (apply (get_owned q) in G; auto; destruct G; constructor; auto).
  rewrite copy_owned by now apply upd_all_owned. cbv beta iota. rewrite <- (part_type q x (fun _ => set_tag (type_of x) d) Q) at 2. rewrite set_tag_self, write_write. reflexivity.
Qed.
Theorem copy_into_part st src q x d : q <> [] -> read st src = Some x -> get_at q x = Some d -> owned x ->
  exists x' st', exec (CAssign (Loc (slot src) (steps src ++ q)) (CRef src)) st = Done st' (Ok tt) /\
    swapped q (set_tag (type_of x) d) x x' /\ puts st (Loc (slot src) (steps src ++ q)) x' st'.
Proof.
  intros Q R G O. eexists _, _. split; [apply (copied_into_part st src q x d); auto|]. split; [apply upd_swapped; congruence|].
  eapply puts_intro. rewrite (read_part _ _ _ _ R). exact G.
Qed.
Lemma retagged x q d : q <> [] -> tag_ok x -> get_at q x = Some d -> tag_ok d -> (tag_ok (set_tag (type_of x) d) <-> type_of d = type_of x).
Proof.
  intros Q X G D. assert (T : type_of x = Tarray \/ type_of x = Tobject) by (destruct q as [|[k|n] q]; [contradiction|..]; cbn in G; destruct X; try discriminate; auto).
  split.
  - destruct T as [T|T]; rewrite T; destruct D as [t s H1 H2| | | |]; cbn; auto; intros HH; inversion HH; subst; try congruence; contradiction.
  - intros <-. now rewrite set_tag_self.
Qed.
Theorem copy_into_part_exactly st src q x d st' : q <> [] -> Forall tag_ok st -> read st src = Some x -> get_at q x = Some d -> owned x ->
  exec (CAssign (Loc (slot src) (steps src ++ q)) (CRef src)) st = Done st' (Ok tt) ->
  (Forall tag_ok st' <-> type_of d = type_of x) /\ (puts st (Loc (slot src) (steps src ++ q)) x st' <-> type_of d = type_of x).
Proof.
  intros Q F R G O E. rewrite (copied_into_part st src q x d Q R G O) in E. injection E as <-.
  assert (X : tag_ok x). { unfold read in R. destruct (nth_error st (slot src)) eqn:N; [|discriminate]. apply nth_error_In in N. rewrite Forall_forall in F. exact (get_tag_ok _ _ _ (F _ N) R). }
  pose proof (get_tag_ok _ _ _ X G) as D. pose proof (retagged x q d Q X G D) as K.
  set (dst := Loc (slot src) (steps src ++ q)). assert (Rd : read st dst = Some d) by (unfold dst; now rewrite (read_part _ _ _ _ R)).
  assert (Same : type_of d = type_of x -> upd_at q (fun _ => set_tag (type_of x) d) x = x) by (intros <-; rewrite set_tag_self; now apply upd_self).
  split; split.
  - intros F'. apply K. assert (R' : read (write st dst (upd_at q (fun _ => set_tag (type_of x) d) x)) dst = Some (upd_at q (fun _ => set_tag (type_of x) d) x)) by (rewrite read_write_same, Rd; reflexivity).
    unfold read in R'. destruct (nth_error _ (slot dst)) eqn:N; [|discriminate]. apply nth_error_In in N. rewrite Forall_forall in F'. pose proof (get_tag_ok _ _ _ (F' _ N) R') as T.
    apply (get_tag_ok q _ _ T). pose proof (get_upd_below q (fun _ => set_tag (type_of x) d) [] x) as B. rewrite app_nil_r, G in B. exact B.
  - intros T. rewrite (Same T). now apply write_tag_ok.
  - intros P. apply puts_write in P as [_ P]. assert (R' : read (write st dst (upd_at q (fun _ => set_tag (type_of x) d) x)) dst = read (write st dst x) dst) by (now rewrite P).
    rewrite !read_write_same, Rd in R'. injection R' as R'. apply (f_equal (get_at q)) in R'. pose proof (get_upd_below q (fun _ => set_tag (type_of x) d) [] x) as B. rewrite app_nil_r, G in B. cbn in B.
    rewrite B, G in R'. injection R' as R'. apply (f_equal type_of) in R'. destruct d; cbn in *; congruence.
  - intros T. rewrite (Same T). eapply puts_intro; eauto.
Qed.

(** ** Merging and appending with overlapping operands *)
Lemma within_step dst k k0 p : within (sub dst (Key k)) (Loc (slot dst) (steps dst ++ Key k0 :: p)) = true <-> k = k0.
Proof.
  rewrite within_spec. cbn [sub slot steps]. split.
  - intros (_ & r & E). rewrite <- app_assoc in E. apply app_inv_head in E. cbn in E. congruence.
  - intros ->. split; auto. exists p. now rewrite <- app_assoc.
Qed.
Lemma not_inside_self dst k0 p k k' : ~ strictly_inside (sub (Loc (slot dst) (steps dst ++ Key k0 :: p)) (Key k)) (sub dst (Key k')).
Proof.
  intros (_ & s & q & E). cbn [sub slot steps] in E. apply (f_equal (@length step)) in E. repeat (rewrite ?app_length in E; cbn [length] in E). lia.
Qed.
Lemma merge_part_loop dst k0 p : let src := Loc (slot dst) (steps dst ++ Key k0 :: p) in
  forall rs r m st, read st src = Some (VObj Tobject (Some r)) -> read st dst = Some (VObj Tobject (Some m)) -> sorted_keys m ->
  Forall (fun kv => map_find (fst kv) r = Some (snd kv) /\ owned (snd kv)) rs ->
  (~ In k0 (map fst rs) -> merge_loop dst src false (map fst rs) st = Done (write st dst (VObj Tobject (Some (merge_fold m rs)))) (Ok tt)) /\
  (In k0 (map fst rs) -> exists st', merge_loop dst src false (map fst rs) st = Done st' Ub).
Proof.
  intros src. assert (N : same dst src = false).
  { destruct (same dst src) eqn:S; auto. apply same_spec in S. apply (f_equal steps) in S. unfold src in S. cbn in S. apply (f_equal (@length step)) in S. rewrite app_length in S. cbn in S. lia. }
  induction rs as [|(k, x) rs IH]; intros r m st Rs Rd S H.
  - split; [|intros []]. intros _. cbn. unfold mret. now rewrite write_same.
  - inversion_clear H as [|? ? [F O] H']. cbn [fst snd] in *. cbn [map fst].
    assert (Rk : read st (sub src (Key k)) = Some x) by (rewrite sub_read, Rs; cbn [get_at]; now rewrite F).
    assert (St : merge_loop dst src false (k :: map fst rs) st = if within (sub dst (Key k)) src then Done st Ub
      else mbind (insert_or_assign dst k (CRef (sub src (Key k))) None) (fun _ => merge_loop dst src false (map fst rs)) st).
    { cbn [merge_loop]. unfold mbind at 1. unfold rd at 1. rewrite Rk, N. cbn [negb andb]. destruct (within (sub dst (Key k)) src); [reflexivity|]. now rewrite Rd. }
    rewrite St. clear St. destruct (within (sub dst (Key k)) src) eqn:W.
    + apply within_step in W as ->. split; [intros C; destruct C; now left|]. intros _. eexists. reflexivity.
    + assert (Kn : k <> k0) by (intros E; apply (within_step dst k k0 p) in E; fold src in E; congruence).
      assert (I : insert_or_assign dst k (CRef (sub src (Key k))) None st = Done (write st dst (VObj Tobject (Some (map_assign k x m)))) (Ok tt)).
      { eapply (insert_copy st dst k (sub src (Key k)) _ m x Rd eq_refl S Rk O). right. split; [reflexivity|]. right. apply not_inside_self. }
      rewrite (mbind_ok _ _ _ _ _ I).
      assert (Rs' : read (write st dst (VObj Tobject (Some (map_assign k x m)))) src = Some (VObj Tobject (Some r))).
      { unfold src. rewrite read_write_below, Rd. pose proof (read_part st dst (Key k0 :: p) _ Rd) as E. fold src in E. rewrite Rs in E. rewrite E. cbn [get_at].
        rewrite map_assign_find by auto. destruct (bytes_eqb_spec k0 k) as [->|_]; [contradiction|reflexivity]. }
      destruct (IH r (map_assign k x m) _ Rs' (read_write_some _ _ _ _ Rd) (map_assign_sorted _ _ _ S) H') as [I1 I2].
      split; intros C.
      * rewrite I1 by (intros C'; apply C; now right). now rewrite write_write.
      * destruct C as [C|C]; [congruence|]. exact (I2 C).
Qed.
Theorem merge_part_exactly st dst k0 p m r : let src := Loc (slot dst) (steps dst ++ Key k0 :: p) in
  read st dst = Some (VObj Tobject (Some m)) -> sorted_keys m -> read st src = Some (VObj Tobject (Some r)) -> sorted_keys r -> Forall (fun kv => owned (snd kv)) r ->
  (In k0 (map fst r) -> exists st', exec (COr dst src false) st = Done st' Ub) /\
  (~ In k0 (map fst r) -> exists st' m', exec (COr dst src false) st = Done st' (Ok tt) /\ represents m' (f_over (pairs m) (pairs r)) /\ puts st dst (VObj Tobject (Some m')) st').
Proof.
  intros src Rd Sm Rs Sr O. assert (N : same dst src = false).
  { destruct (same dst src) eqn:S; auto. apply same_spec in S. apply (f_equal steps) in S. unfold src in S. cbn in S. apply (f_equal (@length step)) in S. rewrite app_length in S. cbn in S. lia. }
  assert (L : exec (COr dst src false) st = merge_loop dst src false (map fst r) st).
  { cbn [exec]. unfold or_assign. rewrite (mbind_ok _ _ _ _ _ (call_as_object _ _ _ r Rs eq_refl)). rewrite (write_same st src) by auto. rewrite N. cbn [andb].
    rewrite (mbind_ok _ _ _ _ _ (call_as_object _ _ _ m Rd eq_refl)). rewrite (write_same st dst) by auto.
    rewrite (mbind_ok _ _ _ st r); [reflexivity|]. unfold mbind, rd, mfail. rewrite Rs. reflexivity. }
  destruct (merge_part_loop dst k0 p r r m st Rs Rd Sm) as [I1 I2].
  { rewrite Forall_forall in *. intros (k, x) Hi. split; [|exact (O _ Hi)]. apply map_find_some; auto using sorted_NoDup. }
  split; intros C.
  - destruct (I2 C) as (st' & E). exists st'. rewrite L. exact E.
  - eexists _, (merge_fold m r). split; [rewrite L; exact (I1 C)|]. split; [|eapply puts_intro; eauto].
    apply rep_represents. split; [now apply merge_fold_sorted|]. intros k. rewrite merge_fold_find by auto using sorted_NoDup. reflexivity.
Qed.
Theorem append_self_undefined st l d xs mv : read st l = Some d -> elements_of d = Some xs -> exists st', exec (CPlus l l mv) st = Done st' Ub.
Proof.
  intros R E. cbn [exec]. unfold plus_assign. rewrite (mbind_ok _ _ _ _ _ (call_as_array _ _ _ _ R E)).
  rewrite (mbind_ok _ _ _ _ _ (call_as_array _ _ (VArr Tarray (Some xs)) xs (read_write_some _ _ _ _ R) eq_refl)).
  assert (S : same l l = true) by now apply same_spec. rewrite S. eexists. reflexivity.
Qed.
Theorem merge_empty_self_undefined st l d mv : read st l = Some d -> members_of d = Some [] -> exists st', exec (COr l l mv) st = Done st' Ub.
Proof.
  intros R E. cbn [exec]. unfold or_assign. rewrite (mbind_ok _ _ _ _ _ (call_as_object _ _ _ _ R E)).
  assert (S : same l l = true) by now apply same_spec. rewrite S. eexists. reflexivity.
Qed.
Theorem append_overlapping st dst src l r : dst <> src -> read st dst = Some (VArr Tarray (Some l)) -> read st src = Some (VArr Tarray (Some r)) -> Forall owned r ->
  exists st', exec (CPlus dst src false) st = Done st' (Ok tt) /\ puts st dst (VArr Tarray (Some (l ++ r))) st'.
Proof.
  intros N Rd Rs O. exists (write st dst (VArr Tarray (Some (l ++ r)))). split; [|eapply puts_intro; eauto].
  cbn [exec]. unfold plus_assign. rewrite (mbind_ok _ _ _ _ _ (call_as_array _ _ _ r Rs eq_refl)), (write_same st src) by auto.
  rewrite (mbind_ok _ _ _ _ _ (call_as_array _ _ _ l Rd eq_refl)), (write_same st dst) by auto.
  assert (S : same dst src = false) by (destruct (same dst src) eqn:S; auto; apply same_spec in S; contradiction). rewrite S.
  rewrite (mbind_ok _ _ _ st r) by (unfold mbind, rd, mfail; now rewrite Rs).
  rewrite (mbind_ok _ _ _ st r) by (unfold mfail; now rewrite copy_elems_Ok by auto).
  rewrite (call_on_array _ _ _ (l ++ r, Ok tt) l); [reflexivity|auto|reflexivity].
Qed.
Lemma merge_self_loop l : forall rs m st, read st l = Some (VObj Tobject (Some m)) -> sorted_keys m ->
  Forall (fun kv => map_find (fst kv) m = Some (snd kv) /\ owned (snd kv)) rs -> merge_loop l l false (map fst rs) st = Done st (Ok tt).
Proof.
  induction rs as [|(k, x) rs IH]; intros m st R S H; [reflexivity|]. inversion_clear H as [|? ? [F O] H']. cbn [fst snd] in *. cbn [map fst merge_loop].
  assert (Rk : read st (sub l (Key k)) = Some x) by (rewrite sub_read, R; cbn [get_at]; now rewrite F).
  assert (Sm : same l l = true) by now apply same_spec.
  unfold mbind at 1. unfold rd at 1. rewrite Rk, Sm. cbn [negb andb]. rewrite R.
  assert (I : insert_or_assign l k (CRef (sub l (Key k))) None st = Done st (Ok tt)).
  { rewrite (insert_copy st l k (sub l (Key k)) _ m x R eq_refl S Rk O).
    - f_equal. rewrite <- (write_member st l k x m) by (auto; congruence). now apply write_same.
    - right. split; [reflexivity|]. right. intros (_ & s & p & E). cbn in E. apply (f_equal (@length step)) in E. rewrite !app_length in E. cbn in E. lia. }
  rewrite (mbind_ok _ _ _ _ _ I). now apply (IH m).
Qed.
Theorem merge_self st l kv m : read st l = Some (VObj Tobject (Some (kv :: m))) -> sorted_keys (kv :: m) -> Forall (fun kv => owned (snd kv)) (kv :: m) ->
  exec (COr l l false) st = Done st (Ok tt).
Proof.
  intros R S O. cbn [exec]. unfold or_assign. rewrite (mbind_ok _ _ _ _ _ (call_as_object _ _ _ (kv :: m) R eq_refl)), (write_same st l) by auto.
  cbn [is_nil]. rewrite andb_false_r. rewrite (mbind_ok _ _ _ _ _ (call_as_object _ _ _ (kv :: m) R eq_refl)), (write_same st l) by auto.
  rewrite (mbind_ok _ _ _ st (kv :: m)) by (unfold mbind, rd, mfail; now rewrite R).
  apply (merge_self_loop l (kv :: m) (kv :: m)); auto. rewrite Forall_forall in *. intros (k, x) Hi. split; [|exact (O _ Hi)]. apply map_find_some; auto using sorted_NoDup.
Qed.
