(** * Proofs about swaps. *)
From Coq Require Import Permutation.
From Verif Require Import Base Value DumpProofs Containers Dump Api Spec SpecApi SpecEffects SpecHeap BaseProofs ContainerProofs ApiProofs StoreProofs EffectProofs StatementProofs Heap HeapBase HeapOps HeapProofs HeapEval HeapSteps HeapMoves HeapCalls SpecRefs Swap SpecSwap.

(** ** On values *)
Lemma apart_sym a b : apart a b -> apart b a.
Proof. intros [H G]. now split. Qed.
Lemma placed_over st l m r ys st' : read st l <> None -> placed (write st l m) (l :: r) ys st' -> placed st (l :: r) ys st'.
Proof.
  intros R H. inversion H as [|? ? x st1 ? xs ? P Q]; subst. apply puts_write in P as [_ ->]. rewrite write_write in Q.
  econstructor; [|exact Q]. apply puts_write. auto.
Qed.
Lemma reads_other st a v ls xs : Forall (apart a) ls -> Forall2 (fun l x => read st l = Some x) ls xs -> Forall2 (fun l x => read (write st a v) l = Some x) ls xs.
Proof.
  intros H G. induction G as [|l x ls xs R _ IH]; constructor; inversion H as [|? ? [A B]]; subst; auto. now rewrite read_write_disjoint.
Qed.
Lemma shift_effect t ls : forall l xs st, ForallOrdPairs apart (l :: ls) -> read st l <> None -> Forall2 (fun l x => read st l = Some x) ls xs ->
  exists st', shift l ls t st = Done st' (Ok tt) /\ placed st (l :: ls) (xs ++ [t]) st'.
Proof.
  induction ls as [|l' ls IH]; intros l xs st P R F.
  - inversion F; subst. exists (write st l t). split.
    + cbn [shift]. unfold put_back, mbind, rd, wr. destruct (read st l); [reflexivity|tauto].
    + cbn. econstructor; [apply puts_write; auto|constructor].
  - inversion F as [|? x ? xs' R' F']; subst. inversion P as [|? ? A P']; subst. inversion A as [|? ? [W1 W2] A']; subst. inversion P' as [|? ? A2 P2]; subst.
    destruct (read st l) as [d|] eqn:Rl; [|tauto].
    destruct (IH l' xs' (write (write st l' (moved x)) l x)) as (st' & E & Q).
    + auto.
    + rewrite read_write_disjoint, read_write_same, R' by auto. discriminate.
    + apply reads_other; auto. apply reads_other; auto.
    + exists st'. split.
      * cbn [shift]. unfold mbind. rewrite (move_assign_effect st l l' d x Rl R' W1 W2). exact E.
      * cbn [app]. econstructor; [apply puts_write; split; [rewrite Rl; discriminate|reflexivity]|].
        rewrite (write_comm st l' l) in Q by auto. eapply placed_over; [|exact Q]. rewrite read_write_disjoint by auto. rewrite R'. discriminate.
Qed.
Lemma rotate_effect st l ls x xs : ForallOrdPairs apart (l :: ls) -> Forall2 (found st) (l :: ls) (x :: xs) ->
  exists st', rotate l ls st = Done st' (Ok tt) /\ placed st (l :: ls) (xs ++ [x]) st'.
Proof.
  intros P F. inversion F as [|? ? ? ? R F']; subst. apply puts_read in R.
  assert (G : Forall2 (fun l x => read st l = Some x) ls xs) by (clear - F'; induction F'; constructor; auto; now apply puts_read).
  inversion P as [|? ? A P']; subst.
  destruct (shift_effect x ls l xs (write st l (moved x)) P) as (st' & E & Q).
  - rewrite read_write_same, R. discriminate.
  - now apply reads_other.
  - exists st'. split; [|eapply placed_over; [|exact Q]; congruence]. unfold rotate, take, mbind, rd, wr, mret. rewrite R. exact E.
Qed.
Lemma swap_effect st a b x y : apart a b -> found st a x -> found st b y ->
  exists st1 st', swap a b st = Done st' (Ok tt) /\ puts st a y st1 /\ puts st1 b x st'.
Proof.
  intros A Fx Fy. destruct (rotate_effect st a [b] x [y]) as (st' & E & P); [repeat constructor; apply A|repeat constructor; auto|].
  inversion P as [|? ? ? st1 ? ? ? P1 P2]; subst. inversion P2 as [|? ? ? st2 ? ? ? P3 P4]; subst. inversion P4; subst. eauto.
Qed.
Lemma swap_self st l x : found st l x -> swap l l st = Done st (Ok tt).
Proof.
  intros F. apply puts_read in F. unfold swap, rotate, shift, take, move_assign, put_back, mbind, rd, wr, mret. rewrite F. cbv beta iota.
  rewrite (read_write_some st l x (moved x) F). cbv beta iota. rewrite (read_write_some st l x (moved x) F). cbv beta iota.
  replace (same l l) with true by (symmetry; now apply same_spec). cbv beta iota. rewrite write_write.
  rewrite (read_write_some st l x _ F). rewrite !write_write. now rewrite write_same.
Qed.
Lemma swap_back st a b x y st' : apart a b -> found st a x -> found st b y -> swap a b st = Done st' (Ok tt) -> swap a b st' = Done st (Ok tt).
Proof.
  intros A Fx Fy E. destruct (swap_effect st a b x y A Fx Fy) as (st1 & st2 & E2 & P1 & P2). rewrite E in E2. injection E2 as <-.
  apply puts_write in P1 as [_ ->]. apply puts_write in P2 as [_ ->]. apply puts_read in Fx, Fy. destruct A as [A B].
  destruct (swap_effect (write (write st a y) b x) a b y x) as (st1 & st3 & E3 & P1 & P2).
  - split; auto.
  - apply puts_read. now rewrite read_write_disjoint, read_write_same, Fx.
  - apply puts_read. now rewrite read_write_same, read_write_disjoint, Fy.
  - apply puts_write in P1 as [_ ->]. apply puts_write in P2 as [_ ->]. rewrite E3. do 2 f_equal.
    rewrite (write_comm st a b) by auto. rewrite write_write. rewrite (write_comm (write st b x) a b) by auto. rewrite write_write, (write_same st b y), (write_same st a x) by auto. reflexivity.
Qed.
(** the values elsewhere *)
Lemma placed_other st ls xs st' l : placed st ls xs st' -> Forall (apart l) ls -> read st' l = read st l.
Proof.
  intros P. induction P as [|st a x st1 ls xs st' H P IH]; intros F; auto. inversion F as [|? ? [A B] F']; subst. rewrite IH by auto.
  apply puts_write in H as [_ ->]. now apply read_write_disjoint.
Qed.

(** ** Sequences *)
Section Lists.
  Context {A : Type}.
  Lemma nth_ext_error (xs ys : list A) : (forall k, nth_error xs k = nth_error ys k) -> xs = ys.
  Proof.
    revert ys. induction xs as [|x xs IH]; intros [|y ys] H; auto; try (specialize (H 0%nat); discriminate).
    f_equal; [specialize (H 0%nat); now injection H|]. apply IH. intros k. exact (H (S k)).
  Qed.
  Lemma exchanged_det i j (xs ys zs : list A) : exchanged i j xs ys -> exchanged i j xs zs -> ys = zs.
  Proof.
    intros (_ & A1 & A2 & A3) (_ & B1 & B2 & B3). apply nth_ext_error. intros k.
    destruct (Nat.eq_dec k i) as [->|Ni]; [congruence|]. destruct (Nat.eq_dec k j) as [->|Nj]; [congruence|]. now rewrite A3, B3.
  Qed.
  Lemma reindexed_exchanged i j (xs ys : list A) : reindexed [i; j] [j; i] xs ys -> exchanged i j xs ys.
  Proof.
    intros (L & F & O). inversion F as [|? ? ? ? F1 F2]; subst. inversion F2; subst. split; [auto|]. split; [auto|]. split; [auto|].
    intros k H G. apply O. cbn. intros [?|[?|[]]]; congruence.
  Qed.
  Lemma exchanges_app ps qs (xs ys zs : list A) : exchanges ps xs ys -> exchanges qs ys zs -> exchanges (ps ++ qs) xs zs.
  Proof. intros H. revert zs. induction H; intros zs' G; cbn; auto. econstructor; eauto. Qed.
  Lemma exchanges_length ps (xs ys : list A) : exchanges ps xs ys -> length ys = length xs.
  Proof. intros H. induction H as [|? ? ? ? ? ? [L _]]; congruence. Qed.
  Lemma exchanges_cons x ps (xs ys : list A) : exchanges ps xs ys -> exchanges (map (fun p => (S (fst p), S (snd p))) ps) (x :: xs) (x :: ys).
  Proof.
    intros H. induction H as [|i j ps xs ys zs (L & B1 & B2 & B3) H IH]; cbn [map fst snd]; econstructor; [|exact IH].
    split; [cbn; congruence|]. split; [exact B1|]. split; [exact B2|]. intros [|k] Hi Hj; cbn; auto.
  Qed.
  (** any order can be reached *)
  Lemma permutation_exchanges (xs ys : list A) : Permutation xs ys -> exists ps, Forall (in_range (length xs)) ps /\ exchanges ps xs ys.
  Proof.
    intros P. induction P as [|x xs ys P (ps & F & H)|x y xs|xs ys zs P (ps & F & H) Q (qs & G & K)].
    - exists []. split; constructor.
    - exists (map (fun p => (S (fst p), S (snd p))) ps). split; [|now apply exchanges_cons]. apply Forall_map. eapply Forall_impl; [|exact F].
      intros [i j] [Hi Hj]. cbn in *. split; cbn; lia.
    - exists [(0, 1)%nat]. split; [constructor; [split; cbn; lia|constructor]|]. econstructor; [|constructor].
      split; [reflexivity|]. split; [reflexivity|]. split; [reflexivity|]. intros [|[|k]] Hi Hj; cbn; congruence.
    - exists (ps ++ qs). split; [|eapply exchanges_app; eauto]. apply Forall_app. split; auto. now rewrite (exchanges_length _ _ _ H) in G.
  Qed.
  (** where the element at [k] comes from *)
  Fixpoint source (is js : list nat) (k : nat) : nat :=
    match is, js with
    | i :: is', j :: js' => if Nat.eqb i k then j else source is' js' k
    | _, _ => k
    end.
  Lemma source_in is : forall js k, length is = length js -> In k is -> In (source is js k) js.
  Proof.
    induction is as [|i is IH]; intros [|j js] k L H; cbn in *; try tauto; try discriminate.
    destruct (Nat.eqb_spec i k); [now left|]. right. apply IH; [lia|tauto].
  Qed.
  Lemma source_out is : forall js k, ~ In k is -> source is js k = k.
  Proof.
    induction is as [|i is IH]; intros [|j js] k H; cbn in *; auto. destruct (Nat.eqb_spec i k); [tauto|]. apply IH. tauto.
  Qed.
  Lemma source_inj is : forall js k k', length is = length js -> NoDup js -> In k is -> In k' is -> source is js k = source is js k' -> k = k'.
  Proof.
    induction is as [|i is IH]; intros [|j js] k k' L N H H'; cbn in *; try tauto; try discriminate.
    inversion N as [|? ? N1 N2]; subst. destruct (Nat.eqb_spec i k), (Nat.eqb_spec i k'); intros E.
    - congruence.
    - exfalso. apply N1. rewrite E. apply source_in; [lia|tauto].
    - exfalso. apply N1. rewrite <- E. apply source_in; [lia|tauto].
    - apply (IH js); auto; try tauto; lia.
  Qed.
  Lemma reindexed_permutation is js (xs ys : list A) : NoDup js -> Permutation is js -> reindexed is js xs ys -> Permutation xs ys.
  Proof.
    intros N P (L & F & O). pose proof (Permutation_length P) as Len. apply Permutation_nth_error. split; [auto|]. exists (source is js). split.
    - intros k k' E. destruct (in_dec Nat.eq_dec k is) as [I|I], (in_dec Nat.eq_dec k' is) as [I'|I'].
      + eapply source_inj; eauto.
      + exfalso. rewrite (source_out is js k') in E by auto. apply I'. apply (Permutation_in _ (Permutation_sym P)). rewrite <- E. now apply source_in.
      + exfalso. rewrite (source_out is js k) in E by auto. apply I. apply (Permutation_in _ (Permutation_sym P)). rewrite E. now apply source_in.
      + now rewrite !source_out in E by auto.
    - intros k. clear L N P Len. destruct (in_dec Nat.eq_dec k is) as [I|I]; [|rewrite source_out by auto; auto]. clear O.
      induction F as [|i j is js H F IH]; [destruct I|]. cbn. destruct (Nat.eqb_spec i k) as [->|Ne]; [auto|]. apply IH. destruct I; tauto.
  Qed.
  Lemma exchanged_permutation i j (xs ys : list A) : (i < length xs)%nat -> (j < length xs)%nat -> exchanged i j xs ys -> Permutation xs ys.
  Proof.
    intros Li Lj (L & E1 & E2 & O). destruct (Nat.eq_dec i j) as [<-|Ne].
    - assert (xs = ys) as -> by (apply nth_ext_error; intros k; destruct (Nat.eq_dec k i) as [->|]; [congruence|symmetry; auto]). reflexivity.
    - apply (reindexed_permutation [i; j] [j; i]); [repeat constructor; cbn; intuition|constructor|].
      split; [auto|]. split; [repeat constructor; auto|]. intros k H. apply O; intros ->; apply H; cbn; auto.
  Qed.
  Lemma exchanges_permutation ps (xs ys : list A) : Forall (in_range (length xs)) ps -> exchanges ps xs ys -> Permutation xs ys.
  Proof.
    intros F H. induction H as [|i j ps xs ys zs E H IH]; [reflexivity|]. inversion F as [|? ? [Li Lj] F']; subst. cbn in Li, Lj.
    transitivity ys; [now apply (exchanged_permutation i j)|]. apply IH. now rewrite (proj1 E).
  Qed.
  (** std::reverse *)
  Lemma nth_error_rev' (xs : list A) k : (k < length xs)%nat -> nth_error (rev xs) k = nth_error xs (length xs - 1 - k).
  Proof.
    intros H. destruct (nth_error xs (length xs - 1 - k)) as [y|] eqn:E.
    - rewrite <- (nth_error_nth _ _ y E). rewrite (nth_error_nth' (rev xs) y) by (now rewrite rev_length). f_equal.
      rewrite rev_nth by auto. f_equal. lia.
    - apply nth_error_None in E. lia.
  Qed.
  Lemma exchange_exists i j (xs : list A) : (i < length xs)%nat -> (j < length xs)%nat -> exists ys, exchanged i j xs ys.
  Proof.
    intros Hi Hj. destruct (nth_error xs i) as [x|] eqn:Ei; [|apply nth_error_None in Ei; lia]. destruct (nth_error xs j) as [y|] eqn:Ej; [|apply nth_error_None in Ej; lia].
    destruct (Nat.eq_dec i j) as [<-|Ne].
    - exists xs. split; [auto|]. split; [auto|]. split; auto.
    - exists (upd_nth (fun _ => x) j (upd_nth (fun _ => y) i xs)). split; [now rewrite !upd_nth_length|].
      split; [rewrite nth_upd_other, nth_upd_same, Ei by auto; now rewrite Ej|]. split; [rewrite nth_upd_same, nth_upd_other, Ej by auto; now rewrite Ei|].
      intros k Hk Hk'. now rewrite !nth_upd_other by auto.
  Qed.
  Definition half_reversed (n k : nat) (xs ys : list A) : Prop :=
    length ys = n /\ forall i, (i < n)%nat -> nth_error ys i = if ((i <? k) || (n - k <=? i))%nat then nth_error xs (n - 1 - i) else nth_error xs i.
  Lemma reversing n (xs : list A) : length xs = n -> forall m k ys, (2 * (k + m) <= n)%nat -> half_reversed n k xs ys ->
    exists zs, exchanges (map (fun i => (i, (n - 1 - i)%nat)) (seq k m)) ys zs /\ half_reversed n (k + m) xs zs.
  Proof.
    intros Ln. induction m as [|m IH]; intros k ys Le [L H].
    - exists ys. rewrite Nat.add_0_r. split; [constructor|split; auto].
    - destruct (exchange_exists k (n - 1 - k) ys) as (ys' & E); [lia..|]. pose proof E as (L' & E1 & E2 & E3).
      destruct (IH (S k) ys') as (zs & X & R); [lia| |].
      + split; [congruence|]. intros i Hi. destruct (Nat.eq_dec i k) as [->|Nk].
        * rewrite E1, (H (n - 1 - k)%nat) by lia. destruct (Nat.ltb_spec k (S k)); [|lia]. cbn [orb].
          destruct (Nat.ltb_spec (n - 1 - k) k); [lia|]. destruct (Nat.leb_spec (n - k) (n - 1 - k)); [lia|]. reflexivity.
        * destruct (Nat.eq_dec i (n - 1 - k)) as [->|Nk'].
          -- rewrite E2, (H k) by lia. destruct (Nat.ltb_spec (n - 1 - k) (S k)); [lia|]. destruct (Nat.leb_spec (n - S k) (n - 1 - k)); [|lia]. cbn [orb].
             destruct (Nat.ltb_spec k k); [lia|]. destruct (Nat.leb_spec (n - k) k); [lia|]. cbn [orb]. f_equal. lia.
          -- rewrite E3, H by auto. destruct (Nat.ltb_spec i k), (Nat.ltb_spec i (S k)), (Nat.leb_spec (n - k) i), (Nat.leb_spec (n - S k) i); cbn [orb]; try reflexivity; lia.
      + exists zs. split; [cbn [seq map]; econstructor; eauto|]. now replace (k + S m)%nat with (S k + m)%nat by lia.
  Qed.
  Lemma reversal_exchanges (xs : list A) : exchanges (reversal (length xs)) xs (rev xs).
  Proof.
    set (n := length xs). assert (D : (2 * (n / 2) <= n < 2 * (n / 2) + 2)%nat) by (pose proof (Nat.div_mod n 2); pose proof (Nat.mod_upper_bound n 2); lia).
    destruct (reversing n xs eq_refl (n / 2) 0 xs) as (zs & X & (L & H)); [lia| |].
    - split; [reflexivity|]. intros i Hi. cbn [Nat.ltb]. destruct (Nat.leb_spec (n - 0) i); [lia|]. destruct (Nat.ltb_spec i 0); [lia|]. reflexivity.
    - replace (rev xs) with zs; [exact X|]. apply nth_ext_error. intros k. destruct (Nat.lt_ge_cases k n) as [Hk|Hk].
      + rewrite nth_error_rev' by auto. fold n. rewrite H by auto. cbn [Nat.add].
        destruct (Nat.ltb_spec k (n / 2)); [reflexivity|]. destruct (Nat.leb_spec (n - n / 2) k); [reflexivity|]. cbn [orb]. f_equal. lia.
      + rewrite !(proj2 (nth_error_None _ _)); auto; [rewrite rev_length; auto|lia].
  Qed.
  Lemma reversal_in_range n : Forall (in_range n) (reversal n).
  Proof.
    assert (D : (2 * (n / 2) <= n)%nat) by (pose proof (Nat.div_mod n 2); lia).
    apply Forall_map, Forall_forall. intros i Hi. apply in_seq in Hi. split; cbn; lia.
  Qed.
End Lists.

(** ** Elements of an array *)
Lemma within_element l i : within l (element l i) = true.
Proof. apply within_spec. split; [reflexivity|]. cbn. eauto. Qed.
Lemma element_apart l i j : i <> j -> apart (element l i) (element l j).
Proof.
  intros H. assert (G : forall i j, i <> j -> within (element l i) (element l j) = false).
  { clear. intros i j H. destruct (within _ _) eqn:E; auto. apply within_spec in E as [_ [r E]]. cbn in E. rewrite <- app_assoc in E. apply app_inv_head in E. cbn in E. congruence. }
  split; auto.
Qed.
Lemma read_element st l t xs i : read st l = Some (VArr t (Some xs)) -> read st (element l i) = nth_error xs i.
Proof.
  unfold read. cbn. destruct (nth_error st (slot l)); [|discriminate]. intros H. rewrite get_at_app, H. cbn. now destruct (nth_error xs i).
Qed.
Lemma write_element st l t xs i v : read st l = Some (VArr t (Some xs)) -> write st (element l i) v = write st l (VArr t (Some (upd_nth (fun _ => v) i xs))).
Proof.
  intros R. destruct (read_write_above st l (element l i) v (within_element l i)) as (q & Eq & E). cbn in Eq. apply app_inv_head in Eq as <-.
  rewrite R in E. cbn [option_map upd_at] in E. pose proof (write_same _ _ _ E) as W. rewrite write_above in W by apply within_element. now symmetry.
Qed.
Lemma placed_elements t l is : forall st vs st' xs, read st l = Some (VArr t (Some xs)) -> placed st (map (element l) is) vs st' -> NoDup is ->
  exists ys, puts st l (VArr t (Some ys)) st' /\ length ys = length xs /\ Forall2 (fun i v => nth_error ys i = Some v) is vs /\ forall k, ~ In k is -> nth_error ys k = nth_error xs k.
Proof.
  induction is as [|i is IH]; intros st vs st' xs R P N; cbn in P; inversion P as [|? ? v st1 ? vs' ? P1 P2]; subst.
  - exists xs. split; [now apply puts_read|]. split; [auto|]. split; [constructor|auto].
  - inversion N as [|? ? N1 N2]; subst. apply puts_write in P1 as [R1 ->]. rewrite (read_element st l t xs i R) in R1.
    set (xs1 := upd_nth (fun _ => v) i xs). rewrite (write_element st l t xs i v R) in P2. fold xs1 in P2.
    destruct (IH (write st l (VArr t (Some xs1))) vs' st' xs1) as (ys & Q & L & F & O); [eapply read_write_some; eauto|auto|auto|].
    exists ys. split.
    { apply puts_write in Q as [_ ->]. rewrite write_write. apply puts_write. split; [congruence|reflexivity]. }
    split; [rewrite L; unfold xs1; apply upd_nth_length|]. split.
    + constructor; auto. rewrite (O i N1). unfold xs1. rewrite nth_upd_same. destruct (nth_error xs i); [reflexivity|tauto].
    + intros k H. rewrite O by (cbn in H; tauto). unfold xs1. apply nth_upd_other. cbn in H. intuition.
Qed.
Lemma found_elements st l t xs is : read st l = Some (VArr t (Some xs)) -> Forall (fun i => i < length xs)%nat is ->
  exists vs, Forall2 (found st) (map (element l) is) vs /\ Forall2 (fun i v => nth_error xs i = Some v) is vs.
Proof.
  intros R F. induction F as [|i is H F (vs & G & K)]; [exists []; split; constructor|]. destruct (nth_error xs i) as [v|] eqn:E; [|apply nth_error_None in E; lia].
  exists (v :: vs). split; constructor; auto. apply puts_read. now rewrite (read_element st l t xs).
Qed.
Lemma pairwise_elements l is : NoDup is -> ForallOrdPairs apart (map (element l) is).
Proof.
  intros N. induction N as [|i is H N IH]; cbn; constructor; auto. apply Forall_map, Forall_forall. intros j Hj. apply element_apart. intros ->. tauto.
Qed.
Lemma Forall2_two {A B C} (P : A -> B -> Prop) (Q : C -> B -> Prop) (R : A -> C -> Prop) l1 l2 l3 : Forall2 P l1 l2 -> Forall2 Q l3 l2 -> (forall a b c, P a b -> Q c b -> R a c) -> Forall2 R l1 l3.
Proof. intros H. revert l3. induction H; intros l3 G I; inversion G; subst; constructor; eauto. Qed.
Lemma array_rotated st l t xs i is : found st l (VArr t (Some xs)) -> NoDup (i :: is) -> Forall (fun i => i < length xs)%nat (i :: is) ->
  exists st' ys, rotate (element l i) (map (element l) is) st = Done st' (Ok tt) /\ puts st l (VArr t (Some ys)) st' /\
    reindexed (i :: is) (is ++ [i]) xs ys /\ Permutation xs ys.
Proof.
  intros F N L. apply puts_read in F. destruct (found_elements st l t xs (i :: is) F L) as (vs & G & K). inversion K as [|? v ? vs' K1 K2]; subst.
  destruct (rotate_effect st (element l i) (map (element l) is) v vs') as (st' & E & P); [exact (pairwise_elements l (i :: is) N)|exact G|].
  destruct (placed_elements t l (i :: is) st _ st' xs F P N) as (ys & Q & Ly & Fy & O).
  assert (X : reindexed (i :: is) (is ++ [i]) xs ys).
  { split; [auto|]. split; [|auto]. eapply (Forall2_two _ _ _ _ _ _ Fy (Forall2_app K2 (Forall2_cons _ _ K1 (Forall2_nil _)))). cbv beta. intros ? ? ? A B. congruence. }
  exists st', ys. split; [auto|]. split; [auto|]. split; [auto|].
  eapply reindexed_permutation; [| |exact X].
  - eapply Permutation_NoDup; [|exact N]. apply Permutation_cons_append.
  - apply Permutation_cons_append.
Qed.
Lemma array_swapped st l t xs i j : found st l (VArr t (Some xs)) -> (i < length xs)%nat -> (j < length xs)%nat ->
  exists st' ys, swap (element l i) (element l j) st = Done st' (Ok tt) /\ puts st l (VArr t (Some ys)) st' /\ exchanged i j xs ys.
Proof.
  intros F Hi Hj. destruct (Nat.eq_dec i j) as [<-|Ne].
  - pose proof F as R. apply puts_read in R. destruct (nth_error xs i) as [x|] eqn:E; [|apply nth_error_None in E; lia].
    exists st, xs. split; [|split; [exact F|split; auto]]. apply (swap_self st _ x). apply puts_read. now rewrite (read_element st l t xs).
  - destruct (array_rotated st l t xs i [j] F) as (st' & ys & E & P & X & _); [repeat constructor; cbn; intuition|repeat constructor; auto|].
    exists st', ys. split; [exact E|]. split; [auto|]. now apply reindexed_exchanged.
Qed.
Lemma array_swaps l t ps : forall st xs, found st l (VArr t (Some xs)) -> Forall (in_range (length xs)) ps ->
  exists st' ys, swaps l ps st = Done st' (Ok tt) /\ puts st l (VArr t (Some ys)) st' /\ exchanges ps xs ys /\ Permutation xs ys.
Proof.
  induction ps as [|[i j] ps IH]; intros st xs F H; cbn.
  - exists st, xs. split; [reflexivity|]. split; [exact F|]. split; [constructor|reflexivity].
  - inversion H as [|? ? [Hi Hj] H']; subst. cbn in Hi, Hj. destruct (array_swapped st l t xs i j F Hi Hj) as (st1 & ys & E & P & X).
    destruct (IH st1 ys) as (st' & zs & E' & P' & X' & Q).
    + apply puts_read. apply puts_write in P as [R ->]. rewrite read_write_same. destruct (read st l); tauto.
    + now rewrite (proj1 X).
    + exists st', zs. split; [unfold mbind; now rewrite E|]. split; [apply puts_write in P as [R ->], P' as [_ ->]; rewrite write_write; apply puts_write; auto|].
      split; [econstructor; eauto|]. transitivity ys; auto. now apply (exchanged_permutation i j).
Qed.
Lemma exchanges_det {A} ps (xs ys zs : list A) : exchanges ps xs ys -> exchanges ps xs zs -> ys = zs.
Proof.
  intros H. revert zs. induction H as [|i j ps xs ys ws E H IH]; intros zs G; inversion G as [|? ? ? ? ys' ? E' G']; subst; auto.
  apply IH. now rewrite (exchanged_det _ _ _ _ _ E E').
Qed.
Lemma array_reaches st l t xs ys : found st l (VArr t (Some xs)) -> Permutation xs ys ->
  exists ps st', Forall (in_range (length xs)) ps /\ swaps l ps st = Done st' (Ok tt) /\ puts st l (VArr t (Some ys)) st'.
Proof.
  intros F P. destruct (permutation_exchanges xs ys P) as (ps & R & X). destruct (array_swaps l t ps st xs F R) as (st' & zs & E & Q & X' & _).
  exists ps, st'. split; [auto|]. split; [auto|]. now rewrite (exchanges_det _ _ _ _ X X').
Qed.
Lemma array_reversed st l t xs : found st l (VArr t (Some xs)) ->
  exists st', swaps l (reversal (length xs)) st = Done st' (Ok tt) /\ puts st l (VArr t (Some (rev xs))) st'.
Proof.
  intros F. destruct (array_swaps l t _ st xs F (reversal_in_range _)) as (st' & zs & E & Q & X & _).
  exists st'. split; [auto|]. now rewrite (exchanges_det _ _ _ _ (reversal_exchanges xs) X).
Qed.

(** ** On the heap *)
Lemma h_shift_ok t ls : forall hs st l p ps xs, sim hs (st ++ [t]) -> ForallOrdPairs apart (l :: ls) -> read st l <> None ->
  Forall2 (fun l x => read st l = Some x) ls xs -> Forall2 (vref hs) (l :: ls) (p :: ps) ->
  exists hs' st', h_shift p ps hs = HDone hs' (Ok tt) /\ shift l ls t st = Done st' (Ok tt) /\ upto (length st) (l :: ls) (l :: ls) hs hs' st'.
Proof.
  induction ls as [|l' ls IH]; intros hs st l p ps xs S P R F V; inversion V as [|? ? ? ? Vl V']; subst; destruct (read st l) as [d|] eqn:Rl; try tauto.
  - inversion V'; subst. destruct (assign_tmp_ok hs st t l d p S Rl Vl) as (hs' & E & U). exists hs', (write st l t). split; [exact E|]. split; [|exact U].
    cbn [shift]. unfold put_back, mbind, rd, wr. now rewrite Rl.
  - inversion V' as [|? p' ? ps' Vl' V2]; subst. inversion F as [|? x ? xs' R' F']; subst. inversion P as [|? ? A P']; subst. inversion A as [|? ? [W1 W2] A']; subst. inversion P' as [|? ? A2 P2]; subst.
    pose proof (read_slot _ _ _ Rl) as Ll. pose proof (read_slot _ _ _ R') as Ll'.
    pose proof (move_assign_effect st l l' d x Rl R' W1 W2) as M.
    set (st1 := write (write st l' (moved x)) l x) in *.
    assert (M' : move_assign l l' (st ++ [t]) = Done (st1 ++ [t]) (Ok tt)).
    { rewrite (move_assign_effect (st ++ [t]) l l' d x); auto; [|now rewrite read_app..]. rewrite (write_app st), write_app; auto. now rewrite write_length. }
    pose proof (move_assign_ok hs (st ++ [t]) l l' p p' _ _ S Vl Vl' (not_inside _ _ W2) M' ltac:(discriminate)) as Hw.
    apply wp_inv in Hw as (hs1 & [] & E1 & _ & U1 & _).
    assert (L1 : length st1 = length st) by (unfold st1; now rewrite !write_length).
    destruct (IH hs1 st1 l' p' ps' xs') as (hs' & st' & E2 & E3 & U2).
    + apply (upto_sim _ _ _ _ _ _ U1).
    + auto.
    + unfold st1. rewrite read_write_disjoint, read_write_same, R' by auto. discriminate.
    + apply reads_other; auto. apply reads_other; auto.
    + assert (K : Forall2 (fun a q => (slot a < length st)%nat /\ vref hs a q) (l' :: ls) (p' :: ps')).
      { constructor; auto. clear - V2 F'. revert xs' F'. induction V2; intros xs' F'; inversion F'; subst; constructor; eauto using read_slot. }
      assert (Z : Forall (fun a => ~ strictly_inside l a /\ ~ strictly_inside l' a) (l' :: ls)).
      { constructor; [split; [now apply not_inside|apply not_inside_self]|]. clear - A' A2. induction A' as [|a ls [B1 B2] A' IHA]; constructor; inversion A2 as [|? ? [C1 C2] A3]; subst; [split; now apply not_inside|auto]. }
      clear - K Z U1 L1. induction K as [|a q as_ qs [B V] K IHK]; constructor; inversion Z as [|? ? [Z1 Z2] Z3]; subst; auto.
      eapply upto_vref; [exact U1|rewrite app_length; lia|constructor; [auto|constructor; auto]|auto].
    + exists hs', st'. split; [cbn [h_shift]; unfold hbind; now rewrite E1|]. split; [cbn [shift]; unfold mbind; now rewrite M|].
      rewrite L1 in U2. eapply upto_chain; [eapply upto_mono; [exact U1|rewrite app_length; lia|apply incl_refl..]|exact U2|incls..].
Qed.
Lemma h_rotate_ok hs st l ls p ps x xs : sim hs st -> ForallOrdPairs apart (l :: ls) -> Forall2 (found st) (l :: ls) (x :: xs) -> Forall2 (refers hs) (l :: ls) (p :: ps) ->
  exists hs' st', h_rotate p ps hs = HDone hs' (Ok tt) /\ rotate l ls st = Done st' (Ok tt) /\ upto (length st) (l :: ls) (l :: ls) hs hs' st'.
Proof.
  intros S P F V. inversion F as [|? ? ? ? R F']; subst. apply puts_read in R. inversion V as [|? ? ? ? Vl V']; subst. inversion P as [|? ? A P']; subst.
  assert (G : Forall2 (fun l x => read st l = Some x) ls xs) by (clear - F'; induction F'; constructor; auto; now apply puts_read).
  destruct (take_upto hs st l x p S R Vl) as (hs1 & E1 & U1).
  destruct (h_shift_ok x ls hs1 (write st l (moved x)) l p ps xs) as (hs' & st' & E2 & E3 & U2).
  - apply (upto_sim _ _ _ _ _ _ U1).
  - exact P.
  - rewrite read_write_same, R. discriminate.
  - now apply reads_other.
  - constructor.
    + eapply upto_vref_self; [exact U1|eapply read_slot; eauto|incls|exact Vl].
    + clear - V' A G U1. revert xs G. induction V' as [|a q as_ qs Va V IHV]; intros xs G; constructor; inversion A as [|? ? [B1 B2] A2]; subst; inversion G as [|? ? ? ? Ra G']; subst; eauto.
      eapply upto_vref; [exact U1|eapply read_slot; eauto|constructor; [now apply not_inside|constructor]|exact Va].
  - exists hs', st'. split; [unfold h_rotate, hbind; now rewrite E1|]. split; [unfold rotate, take, mbind, rd, wr, mret; rewrite R; exact E3|].
    rewrite write_length in U2. eapply upto_chain; [exact U1|exact U2|incls..].
Qed.
(** references into the values that are moved *)
Definition carried (s d : loc) (hs hs' : hstate) : Prop := forall q p, q <> [] -> refers hs (under s q) p -> refers hs' (under d q) p.
Lemma walk_start h q p p' x : q <> [] -> walk h q (p, x) = walk h q (p', x).
Proof. destruct q; [tauto|reflexivity]. Qed.
Lemma resolve_under hs l q r : resolve hs l = Some r -> resolve hs (under l q) = walk (hp hs) q r.
Proof. intros H. now apply (resolve_below hs l (under l q) q r). Qed.
Lemma refers_under hs l q p : refers hs (under l q) p -> exists r, resolve hs l = Some r.
Proof. intros (x & H). eapply resolve_above; [|exact H]. apply within_spec. split; [reflexivity|]. cbn. eauto. Qed.
Lemma take_carried hs st l w pl hs' : sim hs st -> read st l = Some w -> vref hs l pl -> take_pl pl hs = HDone hs' (Ok tt) -> carried l (Loc (length st) []) hs hs'.
Proof.
  destruct hs as [R h fl]. intros (fp & H & D & L) E V T. cbn in *.
  destruct (store_at h R st fp l w fl H D E) as (pl' & y & F1 & fy & F2 & Er & -> & Hy & G & Pt).
  assert (pl' = pl) as -> by (eapply vref_det; eauto; eexists; eauto).
  pose proof (G [] h fl (agree_refl _ _)) as G0. rewrite app_nil_r in G0.
  destruct (Pt [y] h fl (h_moved y) (moved w) [] (agree_refl _ _) (holds_moved _ _ _ _ Hy h)) as (R2 & h2 & Ep & H2 & _ & Un & Lv & Rs); [cbn; tauto|].
  assert (Dj : forall a, In a fy -> ~ In a F1). { intros a Ha Hb. apply nodup_app in D as (_ & _ & D). eapply D; [exact Hb|]. rewrite in_app_iff. auto. }
  assert (T' : take_pl pl (HS R h fl) = HDone (HS (R2 ++ [y]) h2 fl) (Ok tt)) by (unfold take_pl, hbind; rewrite G0; cbn [push roots hp fails]; exact Ep).
  rewrite T in T'. injection T' as ->.
  intros q p Hq (z & Hz). rewrite (resolve_under _ _ _ _ Er) in Hz. cbn [hp] in Hz. exists z. unfold resolve, under. cbn [roots hp slot steps app].
  pose proof (holds_all_length _ _ _ _ H2) as LR. rewrite write_length in LR. rewrite nth_error_app2, LR, Nat.sub_diag by lia. cbn [nth_error].
  rewrite (walk_start h2 q _ pl y Hq). rewrite (walk_frame h h2 q pl y w fy Hy); auto. intros a Ha. apply Un. auto.
Qed.
Lemma swap_carried hs st v l w pl hs' : sim hs (st ++ [v]) -> read st l = Some w -> vref hs l pl -> swap_in pl hs = HDone hs' (Ok tt) -> carried (Loc (length st) []) l hs hs'.
Proof.
  intros (f & S) E V T. destruct (simf_split _ _ _ _ S) as (R & xs & fp & fv & Er0 & -> & H & B & D & L).
  pose proof (holds_all_length _ _ _ _ B) as Lb. destruct xs as [|x []]; try discriminate. apply holds_all_one in B.
  destruct hs as [R' h fl]. cbn in *. subst R'. pose proof (holds_all_length _ _ _ _ H) as LR. pose proof (read_slot _ _ _ E) as Ls.
  apply nodup_app in D as (D1 & D2 & D3).
  destruct (store_at h R st fp l w fl H D1 E) as (pl' & y & F1 & fy & F2 & Er & -> & Hy & G & Pt).
  assert (pl' = pl) as ->. { eapply vref_det; eauto. eexists. rewrite (resolve_ext R [x] h fl fl) by lia. eauto. }
  pose proof (G [] h fl (agree_refl _ _)) as G0. rewrite app_nil_r in G0.
  destruct (Pt [y] h fl x v fv (agree_refl _ _) B) as (R2 & h2 & Ep & H2 & _ & Un & Lv & Rs).
  { intros a Ha Hb. apply (D3 a); auto. rewrite in_app_iff. auto. }
  assert (T' : swap_in pl (HS (R ++ [x]) h fl) = HDone (HS (R2 ++ [y]) h2 fl) (Ok tt)) by (unfold swap_in, hbind; rewrite pop_ok, G0; cbn [push roots hp fails]; exact Ep).
  rewrite T in T'. injection T' as ->. destruct (Rs [y] fl) as [R3 _].
  intros q p Hq (z & Hz). exists z. rewrite (resolve_under _ _ _ _ R3). cbn [hp].
  unfold resolve, under in Hz. cbn [roots hp slot steps app] in Hz. rewrite nth_error_app2, LR, Nat.sub_diag in Hz by lia. cbn [nth_error] in Hz.
  rewrite (walk_start h q _ pl x Hq) in Hz. rewrite (walk_frame h h2 q pl x v fv B); auto.
  intros a Ha. apply Un. intros Hb. apply (D3 a); auto. rewrite in_app_iff. auto.
Qed.
Lemma upto_carried n P W hs hs' st l : upto n P W hs hs' st -> (slot l < n)%nat -> Forall (apart l) W -> carried l l hs hs'.
Proof.
  intros U L F q p Hq (z & Hz). exists z. eapply upto_res; [exact U|exact L| |exact Hz].
  eapply Forall_impl; [|exact F]. intros w [A B]. destruct (within w (under l q)) eqn:E; auto. exfalso.
  apply within_spec in E as [E1 (r & E2)]. cbn in E1, E2. apply app_eq_app in E2 as (k & [[E2 E3]|[E2 E3]]).
  - assert (within w l = true) by (apply within_spec; split; eauto). congruence.
  - assert (within l w = true) by (apply within_spec; split; eauto). congruence.
Qed.
Lemma carried_trans a b c hs hs1 hs2 : carried a b hs hs1 -> carried b c hs1 hs2 -> carried a c hs hs2.
Proof. intros H G q p Hq R. apply G; auto. Qed.
Lemma apart_fresh l n q : (slot l < n)%nat -> apart (Loc n q) l.
Proof. intros H. split; (destruct (within _ _) eqn:E; auto; apply within_spec in E as [E _]; cbn in E; lia). Qed.
Lemma assign_tmp_carried hs st v l w pl hs' : sim hs (st ++ [v]) -> read st l = Some w -> vref hs l pl -> (swap_in pl ;; drop) hs = HDone hs' (Ok tt) -> carried (Loc (length st) []) l hs hs'.
Proof.
  intros S E V T. destruct (swap_upto hs st v l w pl S E V) as (hs1 & E1 & U1).
  destruct (drop_upto hs1 (write st l v) w (upto_sim _ _ _ _ _ _ U1)) as (hs2 & E2 & U2).
  unfold hbind in T. rewrite E1, E2 in T. injection T as <-.
  eapply carried_trans; [exact (swap_carried hs st v l w pl hs1 S E V E1)|]. eapply upto_carried; [exact U2|rewrite write_length; eapply read_slot; eauto|constructor].
Qed.
Lemma take_swap_carried hs st d s w x pd ps hs' : sim hs st -> read st s = Some w -> read (write st s (moved w)) d = Some x -> vref hs d pd -> vref hs s ps -> ~ strictly_inside s d ->
  (take_pl ps ;; swap_in pd ;; drop) hs = HDone hs' (Ok tt) -> carried s d hs hs'.
Proof.
  intros S Es Ed Vd Vs Hn T. destruct (take_upto hs st s w ps S Es Vs) as (hs1 & E1 & U1).
  assert (Ld : (slot d < length st)%nat) by (apply read_slot in Ed; now rewrite write_length in Ed).
  assert (Vd1 : vref hs1 d pd) by (eapply upto_vref; [exact U1|auto|auto|auto]).
  unfold hbind at 1 in T. rewrite E1 in T.
  eapply carried_trans; [exact (take_carried hs st s w ps hs1 S Es Vs E1)|].
  rewrite <- (write_length st s (moved w)). exact (assign_tmp_carried hs1 _ w d x pd hs' (upto_sim _ _ _ _ _ _ U1) Ed Vd1 T).
Qed.
Lemma move_assign_carried hs st d s dv w pd ps hs' : sim hs st -> read st d = Some dv -> read st s = Some w -> vref hs d pd -> vref hs s ps -> apart d s ->
  h_move_assign pd ps hs = HDone hs' (Ok tt) -> carried s d hs hs'.
Proof.
  intros S Rd Rs Vd Vs [W1 W2] T.
  destruct (sim_resolve _ _ _ _ S Rd) as (pd' & x & fx & Ed & Vd' & Hx & Gx & _). pose proof (vref_det _ _ _ _ Vd' Vd). subst pd. clear Vd'.
  destruct (sim_resolve _ _ _ _ S Rs) as (ps' & y & fy & Es & Vs' & Hy & Gy & _). pose proof (vref_det _ _ _ _ Vs' Vs). subst ps. clear Vs'.
  pose proof (read_slot _ _ _ Rd) as Ld. pose proof (read_slot _ _ _ Rs) as Ls.
  assert (Fd : Forall (apart s) [d]) by (apply Forall_cons; [split; assumption|apply Forall_nil]).
  destruct y as [t txt|t py|t py] eqn:Ey.
  { intros q p Hq (z & Hz). rewrite (resolve_under _ _ _ _ Es) in Hz. destruct q as [|[k|i] q]; [tauto|discriminate..]. }
  all: rewrite <- Ey in *; unfold h_move_assign in T; unfold hbind at 1 in T; rewrite Gy in T; unfold hbind at 1 in T; rewrite Gx in T;
    destruct (tag_upto hs st d dv pd' x (h_tag y) S Rd Ed) as (hs1 & E1 & U1 & _); unfold hbind at 1 in T; rewrite E1 in T;
    (assert (Vs1 : vref hs1 s ps') by (exact (upto_vref_self _ _ _ _ _ _ _ _ U1 Ls (incl_nil_l _) Vs)));
    (assert (Vd1 : vref hs1 d pd') by (exact (upto_vref_self _ _ _ _ _ _ _ _ U1 Ld (incl_nil_l _) Vd)));
    set (st1 := write st d (set_tag (h_tag y) dv)) in *;
    (assert (L1 : length st1 = length st) by (unfold st1; apply write_length));
    (assert (Rs1 : read st1 s = Some w) by (unfold st1; now rewrite read_write_disjoint));
    (assert (Rd1 : read st1 d = Some (set_tag (h_tag y) dv)) by (eapply read_write_some; eauto));
    (assert (C1 : carried s s hs hs1) by (eapply upto_carried; [exact U1|exact Ls|exact Fd]));
    (destruct (h_same_alternative x y);
     [rewrite Ey in T;
      eapply carried_trans; [exact C1|]; eapply (take_swap_carried hs1 st1 d s w _ pd' ps');
        [exact (upto_sim _ _ _ _ _ _ U1)|exact Rs1|rewrite read_write_disjoint by auto; exact Rd1|exact Vd1|exact Vs1|now apply not_inside|exact T]
     |]).
  all: destruct (push_upto hs1 st1 (HStr (h_tag y) []) (VStr (h_tag y) []) (upto_sim _ _ _ _ _ _ U1)) as (hs2 & E2 & U2); [intros h; apply ho_str|];
    unfold hbind at 1 in T; rewrite E2 in T; rewrite L1 in U2;
    pose proof (upto_chain _ _ _ _ _ [d] [d] _ _ _ _ _ U1 U2 ltac:(incls) ltac:(incls) ltac:(incls) ltac:(incls)) as U12;
    (destruct (assign_tmp_ok hs2 st1 _ d _ pd' (upto_sim _ _ _ _ _ _ U12) Rd1) as (hs3 & E3 & U3); [eapply upto_vref_self; [exact U12|auto|incls|auto]|]);
    unfold st1 in U3 at 2; rewrite write_write, L1 in U3;
    pose proof (upto_chain _ _ _ _ _ [d] [d] _ _ _ _ _ U12 U3 ltac:(incls) ltac:(incls) ltac:(incls) ltac:(incls)) as U13;
    set (st3 := write st d (VStr (h_tag y) [])) in *;
    (assert (C3 : carried s s hs hs3) by (eapply upto_carried; [exact U13|exact Ls|exact Fd]));
    (assert (T3 : (take_pl ps' ;; swap_in pd' ;; drop) hs3 = HDone hs' (Ok tt))
      by (unfold hbind at 1 in E3; unfold hbind at 1 in T; destruct (swap_in pd' hs2) as [|hq [[]| | | |]]; try discriminate; unfold hbind at 1 in T; now rewrite E3 in T));
    (eapply carried_trans; [exact C3|]; eapply (take_swap_carried hs3 st3 d s w (VStr (h_tag y) []) pd' ps');
      [exact (upto_sim _ _ _ _ _ _ U13)|unfold st3; now rewrite read_write_disjoint|unfold st3; rewrite read_write_disjoint by auto; eapply read_write_some; eauto
      |eapply upto_vref_self; [exact U13|auto|incls|auto]|eapply upto_vref; [exact U13|auto|constructor; [now apply not_inside|constructor]|auto]|now apply not_inside|exact T3]).
Qed.
(** consecutive values of a rotation; [t]: the last *)
Fixpoint follow (l : loc) (ls : list loc) (t : loc) (hs hs' : hstate) : Prop :=
  match ls with
  | [] => carried t l hs hs'
  | l' :: r => carried l' l hs hs' /\ follow l' r t hs hs'
  end.
Lemma follow_before t hs hs1 hs2 : forall ls l, follow l ls t hs1 hs2 -> carried t t hs hs1 -> Forall (fun a => carried a a hs hs1) ls -> follow l ls t hs hs2.
Proof.
  induction ls as [|l' ls IH]; intros l H T F; cbn in *; [eapply carried_trans; eauto|]. inversion F; subst. destruct H as [H G]. split; auto. eapply carried_trans; eauto.
Qed.
Lemma follow_shift t ls : forall hs st l p ps xs hs', sim hs (st ++ [t]) -> ForallOrdPairs apart (l :: ls) -> read st l <> None ->
  Forall2 (fun l x => read st l = Some x) ls xs -> Forall2 (vref hs) (l :: ls) (p :: ps) ->
  h_shift p ps hs = HDone hs' (Ok tt) -> follow l ls (Loc (length st) []) hs hs'.
Proof.
  induction ls as [|l' ls IH]; intros hs st l p ps xs hs' S P R F V T; inversion V as [|? ? ? ? Vl V']; subst; destruct (read st l) as [d|] eqn:Rl; try tauto.
  - inversion V'; subst. cbn [h_shift] in T. cbn [follow]. eapply assign_tmp_carried; eauto.
  - inversion V' as [|? p' ? ps' Vl' V2]; subst. inversion F as [|? x ? xs' R' F']; subst. inversion P as [|? ? A P']; subst. inversion A as [|? ? [W1 W2] A']; subst. inversion P' as [|? ? A2 P2]; subst.
    pose proof (read_slot _ _ _ Rl) as Ll. pose proof (read_slot _ _ _ R') as Ll'.
    set (st1 := write (write st l' (moved x)) l x) in *.
    assert (M' : move_assign l l' (st ++ [t]) = Done (st1 ++ [t]) (Ok tt)).
    { rewrite (move_assign_effect (st ++ [t]) l l' d x); auto; [|now rewrite read_app..]. rewrite (write_app st), write_app; auto. now rewrite write_length. }
    pose proof (move_assign_ok hs (st ++ [t]) l l' p p' _ _ S Vl Vl' (not_inside _ _ W2) M' ltac:(discriminate)) as Hw.
    apply wp_inv in Hw as (hs1 & [] & E1 & _ & U1 & _).
    assert (L1 : length st1 = length st) by (unfold st1; now rewrite !write_length).
    cbn [h_shift] in T. unfold hbind at 1 in T. rewrite E1 in T.
    assert (Rs1 : read st1 l' <> None) by (unfold st1; rewrite read_write_disjoint, read_write_same, R' by auto; discriminate).
    assert (F1 : Forall2 (fun l x => read st1 l = Some x) ls xs') by (apply reads_other; auto; apply reads_other; auto).
    assert (V1 : Forall2 (vref hs1) (l' :: ls) (p' :: ps')).
    { assert (K : Forall2 (fun a q => (slot a < length st)%nat /\ vref hs a q) (l' :: ls) (p' :: ps')).
      { constructor; auto. clear - V2 F'. revert xs' F'. induction V2; intros xs' F'; inversion F'; subst; constructor; eauto using read_slot. }
      assert (Z : Forall (fun a => ~ strictly_inside l a /\ ~ strictly_inside l' a) (l' :: ls)).
      { constructor; [split; [now apply not_inside|apply not_inside_self]|]. clear - A' A2. induction A' as [|a ls [B1 B2] A' IHA]; constructor; inversion A2 as [|? ? [C1 C2] A3]; subst; [split; now apply not_inside|auto]. }
      clear - K Z U1 L1. induction K as [|a q as_ qs [B V] K IHK]; constructor; inversion Z as [|? ? [Z1 Z2] Z3]; subst; auto.
      eapply upto_vref; [exact U1|rewrite app_length; lia|constructor; [auto|constructor; auto]|auto]. }
    pose proof (IH hs1 st1 l' p' ps' xs' hs' (upto_sim _ _ _ _ _ _ U1) P' Rs1 F1 V1 T) as Fo. rewrite L1 in Fo.
    destruct (h_shift_ok t ls hs1 st1 l' p' ps' xs' (upto_sim _ _ _ _ _ _ U1) P' Rs1 F1 V1) as (hs2 & st' & E2 & _ & U2). rewrite T in E2. injection E2 as <-.
    cbn [follow]. split.
    + eapply carried_trans; [eapply (move_assign_carried hs (st ++ [t]) l l' d x p p' hs1); [exact S|now rewrite read_app|now rewrite read_app|exact Vl|exact Vl'|split; auto|exact E1]|].
      eapply upto_carried; [exact U2|lia|]. constructor; [split; auto|exact A'].
    + eapply follow_before; [exact Fo| |].
      * eapply upto_carried; [exact U1|rewrite app_length; cbn; lia|]. constructor; [now apply apart_fresh|constructor; [now apply apart_fresh|constructor]].
      * assert (Sl : Forall (fun a => slot a < length st)%nat ls) by (clear - F'; induction F'; constructor; eauto using read_slot).
        apply Forall_forall. intros a Ha. rewrite Forall_forall in A', A2, Sl. eapply upto_carried; [exact U1|rewrite app_length; cbn; specialize (Sl a Ha); lia|].
        constructor; [apply apart_sym; auto|constructor; [apply apart_sym; auto|constructor]].
Qed.
Lemma follow_last a b hs hs1 hs2 : forall ls l, follow l ls b hs1 hs2 -> carried a b hs hs1 -> Forall (fun c => carried c c hs hs1) ls -> follow l ls a hs hs2.
Proof.
  induction ls as [|l' ls IH]; intros l H T F; cbn in *; [eapply carried_trans; eauto|]. inversion F; subst. destruct H as [H G]. split; auto. eapply carried_trans; eauto.
Qed.
Lemma follow_rotate hs st l ls p ps x xs hs' : sim hs st -> ForallOrdPairs apart (l :: ls) -> Forall2 (found st) (l :: ls) (x :: xs) -> Forall2 (refers hs) (l :: ls) (p :: ps) ->
  h_rotate p ps hs = HDone hs' (Ok tt) -> follow l ls l hs hs'.
Proof.
  intros S P F V T. inversion F as [|? ? ? ? R F']; subst. apply puts_read in R. inversion V as [|? ? ? ? Vl V']; subst. inversion P as [|? ? A P']; subst.
  assert (G : Forall2 (fun l x => read st l = Some x) ls xs) by (clear - F'; induction F'; constructor; auto; now apply puts_read).
  destruct (take_upto hs st l x p S R Vl) as (hs1 & E1 & U1). unfold h_rotate in T. unfold hbind in T at 1. rewrite E1 in T.
  eapply follow_last; [eapply (follow_shift x ls hs1 (write st l (moved x)) l p ps xs)|rewrite write_length; eapply take_carried; eauto|].
  - apply (upto_sim _ _ _ _ _ _ U1).
  - exact P.
  - rewrite read_write_same, R. discriminate.
  - now apply reads_other.
  - constructor.
    + eapply upto_vref_self; [exact U1|eapply read_slot; eauto|incls|exact Vl].
    + clear - V' A G U1. revert xs G. induction V' as [|a q as_ qs Va V IHV]; intros xs G; constructor; inversion A as [|? ? [B1 B2] A2]; subst; inversion G as [|? ? ? ? Ra G']; subst; eauto.
      eapply upto_vref; [exact U1|eapply read_slot; eauto|constructor; [now apply not_inside|constructor]|exact Va].
  - exact T.
  - assert (Sl : Forall (fun a => slot a < length st)%nat ls) by (clear - G; induction G; constructor; eauto using read_slot).
    apply Forall_forall. intros a Ha. rewrite Forall_forall in A, Sl. eapply upto_carried; [exact U1|now apply Sl|]. constructor; [apply apart_sym; auto|constructor].
Qed.
(** no allocation *)
Definition still {A} (m : hM A) : Prop := forall hs hs' r, m hs = HDone hs' r -> fails hs' = fails hs.
Lemma still_bind {A B} (m : hM A) (f : A -> hM B) : still m -> (forall a, still (f a)) -> still (hbind m f).
Proof.
  intros H G hs hs' r. unfold hbind. destruct (m hs) as [|hs1 [a|e| | |]] eqn:E; try discriminate; pose proof (H _ _ _ E) as Q; try (intros X; injection X as <- <-; exact Q).
  intros X. rewrite (G _ _ _ _ X). exact Q.
Qed.
Lemma still_ret {A} (a : A) : still (hret a).
Proof. intros hs hs' r H. now injection H as <- <-. Qed.
Lemma still_fail {A} (r : res A) : still (hfail r).
Proof. intros hs hs' r' H. now injection H as <- <-. Qed.
Lemma still_node a : still (node_at a).
Proof. intros hs hs' r. unfold node_at. destruct (nth_error (hp hs) a) as [[]|]; intros H; now injection H as <- <-. Qed.
Lemma still_set a n : still (set_node a n).
Proof. intros hs hs' r. unfold set_node. destruct (nth_error (hp hs) a) as [[]|]; intros H; now injection H as <- <-. Qed.
Lemma still_release a : still (release a).
Proof. intros hs hs' r. unfold release. destruct (nth_error (hp hs) a) as [[]|]; intros H; now injection H as <- <-. Qed.
Lemma still_arr a : still (arr_node a).
Proof. apply still_bind; [apply still_node|intros []; apply still_ret || apply still_fail]. Qed.
Lemma still_obj a : still (obj_node a).
Proof. apply still_bind; [apply still_node|intros []; apply still_ret || apply still_fail]. Qed.
Lemma still_get p : still (get_pl p).
Proof.
  destruct p as [i|a n|a k]; cbn [get_pl].
  - intros hs hs' r. destruct (nth_error (roots hs) i); intros H; now injection H as <- <-.
  - apply still_bind; [apply still_arr|]. intros l. destruct (nth_error l n); apply still_ret || apply still_fail.
  - apply still_bind; [apply still_obj|]. intros l. destruct (map_find k l); apply still_ret || apply still_fail.
Qed.
Lemma still_put p x : still (put_pl p x).
Proof.
  apply still_bind; [apply still_get|]. intros _. destruct p as [i|a n|a k].
  - intros hs hs' r H. now injection H as <- <-.
  - apply still_bind; [apply still_arr|]. intros l. apply still_set.
  - apply still_bind; [apply still_obj|]. intros l. apply still_set.
Qed.
Lemma still_push x : still (push x).
Proof. intros hs hs' r H. now injection H as <- <-. Qed.
Lemma still_pop : still pop.
Proof.
  apply still_bind.
  - intros hs hs' r. unfold take_top. destruct (_ <=? _)%nat; intros H; now injection H as <- <-.
  - intros [|x [|]]; apply still_ret || apply still_fail.
Qed.
Lemma still_each f : (forall x, still (f x)) -> forall l, still (each f l).
Proof. intros H. induction l; cbn [each]; [apply still_ret|apply still_bind; auto]. Qed.
Lemma still_free n : forall x, still (h_free n x).
Proof.
  induction n as [|n IH]; intros [t s|t [a|]|t [a|]]; cbn [h_free]; try apply still_ret; try apply still_fail.
  - apply still_bind; [apply still_arr|]. intros l. apply still_bind; [now apply still_each|intros; apply still_release].
  - apply still_bind; [apply still_obj|]. intros l. apply still_bind; [now apply still_each|intros; apply still_release].
Qed.
Lemma still_drop : still drop.
Proof. apply still_bind; [apply still_pop|]. intros x. apply still_bind; [|intros n; apply still_free]. intros hs hs' r H. now injection H as <- <-. Qed.
Lemma still_take p : still (take_pl p).
Proof. apply still_bind; [apply still_get|]. intros x. apply still_bind; [apply still_push|intros _; apply still_put]. Qed.
Lemma still_swap_in p : still (swap_in p).
Proof. apply still_bind; [apply still_pop|]. intros x. apply still_bind; [apply still_get|]. intros y. apply still_bind; [apply still_push|intros _; apply still_put]. Qed.
Lemma still_assign d s : still (h_move_assign d s).
Proof.
  assert (X : still (take_pl s ;; swap_in d ;; drop)).
  { apply still_bind; [apply still_take|]. intros _. apply still_bind; [apply still_swap_in|intros _; apply still_drop]. }
  apply still_bind; [apply still_get|]. intros y. apply still_bind; [apply still_get|]. intros x. apply still_bind; [apply still_put|]. intros _.
  destruct (h_same_alternative x y).
  - destruct y; auto. apply still_bind; [apply still_put|intros _; apply still_put].
  - apply still_bind; [apply still_push|]. intros _. apply still_bind; [apply still_swap_in|]. intros _. apply still_bind; [apply still_drop|]. intros _. exact X.
Qed.
Lemma still_rotate p ps : still (h_rotate p ps).
Proof.
  apply still_bind; [apply still_take|]. intros _. revert p. induction ps as [|q ps IH]; intros p; cbn [h_shift].
  - apply still_bind; [apply still_swap_in|intros _; apply still_drop].
  - apply still_bind; [apply still_assign|intros _; apply IH].
Qed.
(** ** Together *)
Lemma heap_rotated hs st l ls p ps x xs : sim hs st -> ForallOrdPairs apart (l :: ls) -> Forall2 (found st) (l :: ls) (x :: xs) -> Forall2 (refers hs) (l :: ls) (p :: ps) ->
  exists hs' st', h_rotate p ps hs = HDone hs' (Ok tt) /\ rotate l ls st = Done st' (Ok tt) /\ sim hs' st' /\ fails hs' = fails hs.
Proof.
  intros S P F V. destruct (h_rotate_ok hs st l ls p ps x xs S P F V) as (hs' & st' & E & E' & U). exists hs', st'.
  split; [auto|]. split; [auto|]. split; [apply (upto_sim _ _ _ _ _ _ U)|]. exact (still_rotate _ _ _ _ _ E).
Qed.
Lemma refers_slot hs st l p : sim hs st -> refers hs l p -> (slot l < length st)%nat.
Proof.
  intros (fp & H & _) (x & R). unfold resolve in R. destruct (nth_error (roots hs) (slot l)) eqn:E; [|discriminate].
  rewrite <- (holds_all_length _ _ _ _ H). apply nth_error_Some. congruence.
Qed.
Lemma rotation_keeps hs st l ls p ps x xs hs' l0 p0 : sim hs st -> ForallOrdPairs apart (l :: ls) -> Forall2 (found st) (l :: ls) (x :: xs) -> Forall2 (refers hs) (l :: ls) (p :: ps) ->
  h_rotate p ps hs = HDone hs' (Ok tt) -> ~ part_of (l :: ls) l0 -> refers hs l0 p0 -> refers hs' l0 p0.
Proof.
  intros S P F V E N R. destruct (h_rotate_ok hs st l ls p ps x xs S P F V) as (hs2 & st' & E2 & _ & U). rewrite E in E2. injection E2 as <-.
  eapply upto_vref; [exact U|eapply refers_slot; eauto| |exact R]. apply Forall_forall. intros w Hw Hi. apply N. exists w. auto.
Qed.
Lemma follow_nth t hs hs' : forall ls l i a b, follow l ls t hs hs' -> nth_error (l :: ls) i = Some a -> nth_error (ls ++ [t]) i = Some b -> carried b a hs hs'.
Proof.
  induction ls as [|l' ls IH]; intros l i a b H A B; cbn in H.
  - destruct i as [|[|i]]; cbn in A, B; try discriminate. injection A as <-. injection B as <-. exact H.
  - destruct H as [H G]. destruct i as [|i]; cbn in A, B; [injection A as <-; injection B as <-; exact H|]. eapply IH; eauto.
Qed.
Lemma rotation_carries hs st l ls p ps x xs hs' i a b q p0 : sim hs st -> ForallOrdPairs apart (l :: ls) -> Forall2 (found st) (l :: ls) (x :: xs) -> Forall2 (refers hs) (l :: ls) (p :: ps) ->
  h_rotate p ps hs = HDone hs' (Ok tt) -> nth_error (l :: ls) i = Some a -> nth_error (ls ++ [l]) i = Some b -> q <> [] -> refers hs (under b q) p0 -> refers hs' (under a q) p0.
Proof. intros S P F V E A B. exact (follow_nth l hs hs' ls l i a b (follow_rotate _ _ _ _ _ _ _ _ _ S P F V E) A B q p0). Qed.
Lemma heap_swap_self hs st l p x : sim hs st -> found st l x -> refers hs l p ->
  exists hs', h_swap p p hs = HDone hs' (Ok tt) /\ sim hs' st /\ fails hs' = fails hs.
Proof.
  intros S F V. apply puts_read in F. destruct (take_upto hs st l x p S F V) as (hs1 & E1 & U1).
  pose proof (read_slot _ _ _ F) as L. set (st1 := write st l (moved x)) in *. assert (R1 : read st1 l = Some (moved x)) by (eapply read_write_some; eauto).
  assert (L1 : length st1 = length st) by apply write_length.
  assert (V1 : vref hs1 l p) by (eapply upto_vref_self; [exact U1|auto|incls|exact V]).
  assert (M : move_assign l l (st1 ++ [x]) = Done (st1 ++ [x]) (Ok tt)).
  { assert (R2 : read (st1 ++ [x]) l = Some (moved x)) by (rewrite read_app; auto; lia).
    unfold move_assign, mbind, rd, wr. rewrite !R2. replace (same l l) with true by (symmetry; now apply same_spec). f_equal.
    rewrite write_same; auto. rewrite R2. now destruct x. }
  pose proof (move_assign_ok hs1 (st1 ++ [x]) l l p p _ _ (upto_sim _ _ _ _ _ _ U1) V1 V1 (not_inside_self l) M ltac:(discriminate)) as Hw.
  apply wp_inv in Hw as (hs2 & [] & E2 & _ & U2 & _).
  assert (V2 : vref hs2 l p) by (eapply upto_vref_self; [exact U2|rewrite app_length; lia|incls|exact V1]).
  destruct (assign_tmp_ok hs2 st1 x l (moved x) p (upto_sim _ _ _ _ _ _ U2) R1 V2) as (hs3 & E3 & U3).
  assert (E : h_swap p p hs = HDone hs3 (Ok tt)).
  { unfold h_swap, h_rotate. unfold hbind at 1. rewrite E1. cbn [h_shift]. unfold hbind at 1. rewrite E2. exact E3. }
  exists hs3. split; [exact E|]. split; [|exact (still_rotate _ _ _ _ _ E)].
  pose proof (upto_sim _ _ _ _ _ _ U3) as S3. unfold st1 in S3. rewrite write_write, write_same in S3; auto.
Qed.
