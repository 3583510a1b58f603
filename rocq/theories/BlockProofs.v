(** * The exact language of the builds with block scans. *)
From Verif Require Import Base Value Packed Parser Spec BaseProofs PackedProofs LexProofs StringProofs ParserProofs ParserComplete.
Ltac Zify.zify_post_hook ::= idtac.

Lemma blocks_step st n : (0 < st)%nat -> (st <= n)%nat -> (st * (n / st) = st + st * ((n - st) / st))%nat.
Proof.
  intros H L. replace n with (1 * st + (n - st))%nat at 1 by lia. rewrite Nat.div_add_l by lia. lia.
Qed.
Lemma nth_error_firstn' {A} (l : list A) : forall n k, (k < n)%nat -> nth_error (firstn n l) k = nth_error l k.
Proof.
  induction l as [|a l IH]; intros [|n] [|k] H; try lia; try reflexivity. cbn. apply IH. lia.
Qed.
(** ** Scans of big-endian words: the flag of a backslash reaches the brackets in front of it *)
Definition on (f : N) : bool := negb (f =? 0).
Lemma first_idx_none_app {A} (p : A -> bool) a b : first_idx p a = None -> first_idx p (a ++ b) = option_map (Nat.add (length a)) (first_idx p b).
Proof.
  induction a as [|x a IH]; cbn [first_idx app length]; [destruct (first_idx p b); reflexivity|].
  destruct (p x); [discriminate|]. destruct (first_idx p a); [discriminate|]. intros _. rewrite IH by auto.
  destruct (first_idx p b); reflexivity.
Qed.
Lemma first_idx_exists {A} (p : A -> bool) a x b : p x = true -> exists i, (i <= length a)%nat /\ first_idx p (a ++ x :: b) = Some i.
Proof.
  intros Hx. induction a as [|y a (i & Hi & IH)]; cbn [first_idx app length].
  - rewrite Hx. exists 0%nat. auto.
  - destruct (p y); [exists 0%nat; split; [lia|auto]|]. rewrite IH. exists (S i). split; [lia|auto].
Qed.
Lemma first_idx_none_iff {A} (p : A -> bool) l : (forall x, In x l -> p x = false) -> first_idx p l = None.
Proof.
  induction l as [|x l IH]; intros H; cbn [first_idx]; [reflexivity|].
  rewrite (H x (or_introl eq_refl)), IH by (intros y Hy; apply H; now right). reflexivity.
Qed.
Lemma first_idx_rev {A} (p : A -> bool) l : first_idx p l = None -> first_idx p (rev l) = None.
Proof.
  intros H. apply first_idx_none_iff. intros x Hx. apply in_rev in Hx.
  exact (first_idx_none p l H x Hx).
Qed.
Lemma word_scan_be_flags w xs : ones_word w = le_word (repeat 1 w) -> length xs = w -> Forall is_byte xs ->
  w_scan w false xs = option_map N.of_nat (first_idx on (rev (gen_flags 0 0 0 (rev xs)))).
Proof.
  intros Hw Hl Hx. unfold w_scan, load.
  assert (Hr : Forall is_byte (rev xs)) by (apply Forall_rev; auto).
  rewrite word_result by (rewrite ?rev_length; auto).
  set (fl := gen_flags 0 0 0 (rev xs)).
  assert (Hfb : Forall fb fl) by (apply gen_flags_fb; auto).
  assert (Hw' : length fl = w) by (unfold fl; rewrite gen_flags_length, rev_length; auto).
  unfold w_is_all_zero, w_first_nonzero.
  destruct (N.eqb_spec (le_word fl) 0) as [E|E].
  - apply le_word_zero in E. rewrite first_idx_rev; [reflexivity|]. apply first_idx_none_iff. intros x Hin.
    rewrite Forall_forall in E. unfold on. now rewrite (E x Hin).
  - destruct (first_idx on (rev fl)) as [i|] eqn:F.
    + rewrite <- Hw' at 1. rewrite (clz_words fl Hfb i F). cbn [option_map]. f_equal.
      rewrite N.mul_comm. apply N.div_mul. discriminate.
    + exfalso. apply E, le_word_zero, Forall_forall. intros f Hf. apply in_rev in Hf.
      pose proof (first_idx_none _ _ F f Hf) as G. unfold on in G. now apply negb_false_iff, N.eqb_eq in G.
Qed.
Lemma gen_flags_app a : forall b1 b2 b3 c, b1 <= 1 -> b2 <= 1 -> b3 <= 1 -> exists b1' b2' b3',
  b1' <= 1 /\ b2' <= 1 /\ b3' <= 1 /\ gen_flags b1 b2 b3 (a ++ c) = gen_flags b1 b2 b3 a ++ gen_flags b1' b2' b3' c.
Proof.
  induction a as [|x a IH]; intros b1 b2 b3 c H1 H2 H3; [exists b1, b2, b3; auto|].
  cbn [app]. rewrite !gen_flags_cons.
  destruct (IH (if x <? 32 + b1 then 1 else 0) (if N.lxor x 34 <? 1 + b2 then 1 else 0) (if N.lxor x 92 <? 1 + b3 then 1 else 0) c)
    as (b1' & b2' & b3' & L1 & L2 & L3 & E); try apply borrow_le1.
  exists b1', b2', b3'. splits; auto. rewrite E. reflexivity.
Qed.
Lemma backslash_flag b1 b2 b3 r : b1 <= 1 -> b2 <= 1 -> b3 <= 1 -> gen_flags b1 b2 b3 (92 :: r) = 128 :: gen_flags 0 0 1 r.
Proof.
  intros H1 H2 H3.
  assert (b1 = 0 \/ b1 = 1) as [-> | ->] by lia; assert (b2 = 0 \/ b2 = 1) as [-> | ->] by lia;
    assert (b3 = 0 \/ b3 = 1) as [-> | ->] by lia; reflexivity.
Qed.
Lemma before_sweep : forallb (fun x => special_b x || (x =? 93) ||
  ((byte_flag x 0 0 1 =? 0) && negb (x <? 32 + 0) && negb (N.lxor x 34 <? 1 + 0) && negb (N.lxor x 92 <? 1 + 1)))
  (map N.of_nat (seq 0 256)) = true.
Proof. vm_compute. reflexivity. Qed.
Lemma before_flag x r : is_byte x -> unescaped x -> x <> 93 -> gen_flags 0 0 1 (x :: r) = 0 :: gen_flags 0 0 0 r.
Proof.
  intros Hx Hu Hn. pose proof before_sweep as H. rewrite forallb_forall in H. specialize (H x (in_bytes x Hx)). cbv beta in H.
  rewrite gen_flags_cons. apply orb_true_iff in H as [H|H].
  - apply orb_true_iff in H as [H|H]; [apply special_b_spec in H; now apply unescaped_special in Hu|].
    now apply N.eqb_eq in H.
  - rewrite !andb_true_iff, !negb_true_iff, N.eqb_eq in H. destruct H as (((-> & ->) & ->) & ->). reflexivity.
Qed.
Lemma plain_flags xs : Forall is_byte xs -> Forall unescaped xs -> first_idx on (gen_flags 0 0 0 xs) = None.
Proof.
  intros Hb Hu. unfold on. rewrite (gen_flags_first xs Hb). apply first_idx_none_iff. intros x Hx.
  rewrite Forall_forall in Hu. apply Hu, unescaped_special in Hx. destruct (special_b x) eqn:E; auto. now apply special_b_spec in E.
Qed.
Lemma be_stop w x y : ones_word w = le_word (repeat 1 w) -> length (x ++ 92%N :: y) = w -> Forall is_byte (x ++ 92 :: y) ->
  Forall unescaped x ->
  exists i, w_scan w false (x ++ 92 :: y) = Some (N.of_nat i) /\
    if last x 0 =? 93 then (i < length x)%nat else i = length x.
Proof.
  intros Hw Hl Hb Hu. rewrite word_scan_be_flags by auto. rewrite rev_app_distr. cbn [rev]. rewrite <- app_assoc. cbn [app].
  destruct (gen_flags_app (rev y) 0 0 0 (92 :: rev x)) as (b1 & b2 & b3 & L1 & L2 & L3 & ->); try lia.
  rewrite (backslash_flag b1 b2 b3 _ L1 L2 L3). rewrite rev_app_distr. cbn [rev]. rewrite <- app_assoc. cbn [app].
  destruct x as [|l x _] using rev_ind.
  - exists 0%nat. split; reflexivity.
  - rewrite last_last, rev_app_distr. cbn [rev app]. rewrite !app_length in *. cbn [length] in *.
    apply Forall_app in Hu as [Hu Hu1]. apply Forall_app_l in Hb. apply Forall_app in Hb as [Hb Hb1].
    inversion Hu1 as [|? ? Hul _]; inversion Hb1 as [|? ? Hbl _]; subst.
    destruct (N.eqb_spec l 93) as [->|N93].
    + rewrite gen_flags_cons. cbn [rev]. rewrite <- app_assoc. cbn [app].
      match goal with |- context [first_idx on (?a ++ ?z :: ?b)] => destruct (first_idx_exists on a z b eq_refl) as (i & Hi & ->) end.
      exists i. split; [reflexivity|]. rewrite rev_length, gen_flags_length, rev_length in Hi. lia.
    + rewrite before_flag by auto. cbn [rev]. rewrite <- app_assoc. cbn [app].
      rewrite first_idx_none_app.
      * cbn [first_idx on N.eqb negb option_map]. eexists. split; [reflexivity|].
        rewrite rev_length, gen_flags_length, rev_length. lia.
      * apply first_idx_rev, plain_flags; apply Forall_rev; auto.
Qed.
Lemma be_plain w xs : ones_word w = le_word (repeat 1 w) -> length xs = w -> Forall is_byte xs -> Forall unescaped xs ->
  w_scan w false xs = None.
Proof.
  intros Hw Hl Hb Hu. rewrite word_scan_be_flags by auto. rewrite first_idx_rev; [reflexivity|].
  apply plain_flags; apply Forall_rev; auto.
Qed.
(** what the scan of a big-endian word reports *)
Fixpoint borrows (xs : bytes) : N * N * N :=
  match xs with
  | [] => (0, 0, 0)
  | x :: r => let '(b1, b2, b3) := borrows r in
      (if x <? 32 + b1 then 1 else 0, if N.lxor x 34 <? 1 + b2 then 1 else 0, if N.lxor x 92 <? 1 + b3 then 1 else 0)
  end.
Fixpoint big_flags (xs : bytes) : list N :=
  match xs with [] => [] | x :: r => let '(b1, b2, b3) := borrows r in byte_flag x b1 b2 b3 :: big_flags r end.
Lemma gen_flags_borrows xs : forall y, gen_flags 0 0 0 (rev xs ++ [y]) =
  gen_flags 0 0 0 (rev xs) ++ [let '(b1, b2, b3) := borrows xs in byte_flag y b1 b2 b3].
Proof.
  assert (G : forall xs, exists b1 b2 b3, borrows xs = (b1, b2, b3) /\ (b1 <= 1 /\ b2 <= 1 /\ b3 <= 1) /\
    forall ys, gen_flags 0 0 0 (rev xs ++ ys) = gen_flags 0 0 0 (rev xs) ++ gen_flags b1 b2 b3 ys).
  { clear. induction xs as [|x xs (b1 & b2 & b3 & E & _ & IH)].
    - exists 0, 0, 0. splits; try lia; reflexivity.
    - exists (if x <? 32 + b1 then 1 else 0), (if N.lxor x 34 <? 1 + b2 then 1 else 0), (if N.lxor x 92 <? 1 + b3 then 1 else 0).
      splits; try apply borrow_le1.
      + cbn [borrows]. rewrite E. reflexivity.
      + intros ys. cbn [rev]. rewrite <- app_assoc. cbn [app]. rewrite !IH, !gen_flags_cons, <- app_assoc. reflexivity. }
  intros y. destruct (G xs) as (b1 & b2 & b3 & -> & _ & E). apply E.
Qed.
Lemma big_flags_rev xs : rev (gen_flags 0 0 0 (rev xs)) = big_flags xs.
Proof.
  induction xs as [|x xs IH]; [reflexivity|]. cbn [rev big_flags]. rewrite gen_flags_borrows, rev_app_distr, IH.
  destruct (borrows xs) as [[b1 b2] b3]. reflexivity.
Qed.
Definition chain (e : N) (p : N -> Prop) (s : bytes) : Prop := exists k c r, s = repeat e k ++ c :: r /\ p c.
Lemma chain_cons e p c r : chain e p (c :: r) <-> p c \/ (c = e /\ chain e p r).
Proof.
  split.
  - intros ([|k] & c' & r' & E & H); cbn in E; injection E as -> ->; [auto|right]. split; auto. exists k, c', r'. auto.
  - intros [H|(-> & k & c' & r' & -> & H)]; [exists 0%nat, c, r; auto|exists (S k), c', r'; auto].
Qed.
Lemma chain_nil e p : ~ chain e p [].
Proof. intros ([|k] & c & r & E & _); discriminate E. Qed.
Lemma flagged_chain s : flagged s <-> chain 32 (fun c => c < 32) s \/ chain 35 (fun c => c = 34) s \/ chain 93 (fun c => c = 92) s.
Proof.
  unfold flagged, chain. split.
  - intros (e & k & c & r & E & [(-> & H)|[(-> & H)|(-> & H)]]); [left|right; left|right; right]; eauto 6.
  - intros [(k & c & r & E & H)|[(k & c & r & E & H)|(k & c & r & E & H)]]; eauto 10.
Qed.
Lemma xor_sweep : forallb (fun n => forallb (fun x => forallb (fun b =>
    eqb (N.lxor x n <? 1 + b) ((x =? n) || ((x =? n + 1) && (b =? 1)))) [0;1]) (map N.of_nat (seq 0 256))) [34; 92] = true.
Proof. vm_compute. reflexivity. Qed.
Lemma xor_small n x b : In n [34; 92] -> x < 256 -> b <= 1 -> (N.lxor x n <? 1 + b) = ((x =? n) || ((x =? n + 1) && (b =? 1))).
Proof.
  intros Hn Hx Hb. pose proof xor_sweep as H. rewrite forallb_forall in H. specialize (H n Hn). cbv beta in H.
  rewrite forallb_forall in H. specialize (H x (in_bytes x Hx)). cbv beta in H.
  rewrite forallb_forall in H. apply eqb_prop, H. assert (b = 0 \/ b = 1) as [-> | ->] by lia; cbn; auto.
Qed.
Lemma borrows_chain xs : Forall is_byte xs -> exists b1 b2 b3, borrows xs = (b1, b2, b3) /\ (b1 <= 1 /\ b2 <= 1 /\ b3 <= 1) /\
  (b1 = 1 <-> chain 32 (fun c => c < 32) xs) /\ (b2 = 1 <-> chain 35 (fun c => c = 34) xs) /\ (b3 = 1 <-> chain 93 (fun c => c = 92) xs).
Proof.
  induction 1 as [|x xs Hx _ (b1 & b2 & b3 & E & (L1 & L2 & L3) & C1 & C2 & C3)].
  - exists 0, 0, 0. cbn [borrows]. split; [reflexivity|]. splits; try lia; split; try discriminate; intros H; exfalso; eapply chain_nil; eauto.
  - cbn [borrows]. rewrite E. do 3 eexists. split; [reflexivity|]. splits; try apply borrow_le1.
    + rewrite chain_cons, <- C1. destruct (N.ltb_spec x (32 + b1)); split; intros; try lia.
    + rewrite chain_cons, <- C2. rewrite (xor_small 34) by (cbn; auto).
      destruct (N.eqb_spec x 34), (N.eqb_spec x (34 + 1)), (N.eqb_spec b2 1); cbn [orb andb]; split; intros; lia.
    + rewrite chain_cons, <- C3. rewrite (xor_small 92) by (cbn; auto).
      destruct (N.eqb_spec x 92), (N.eqb_spec x (92 + 1)), (N.eqb_spec b3 1); cbn [orb andb]; split; intros; lia.
Qed.
Lemma spread_sweep : forallb (fun x => forallb (fun b1 => forallb (fun b2 => forallb (fun b3 =>
    eqb (on (byte_flag x b1 b2 b3)) (special_b x || ((x =? 32) && (b1 =? 1)) || ((x =? 35) && (b2 =? 1)) || ((x =? 93) && (b3 =? 1))))
   [0;1]) [0;1]) [0;1]) (map N.of_nat (seq 0 256)) = true.
Proof. vm_compute. reflexivity. Qed.
Lemma spread x b1 b2 b3 : x < 256 -> b1 <= 1 -> b2 <= 1 -> b3 <= 1 ->
  on (byte_flag x b1 b2 b3) = special_b x || ((x =? 32) && (b1 =? 1)) || ((x =? 35) && (b2 =? 1)) || ((x =? 93) && (b3 =? 1)).
Proof.
  intros Hx H1 H2 H3. pose proof spread_sweep as H. rewrite forallb_forall in H.
  specialize (H x (in_bytes x Hx)). cbv beta in H.
  assert (B : forall b, b <= 1 -> In b [0;1]). { intros b Hb. assert (b = 0 \/ b = 1) as [->| ->] by lia; cbn; auto. }
  rewrite forallb_forall in H. specialize (H b1 (B _ H1)). cbv beta in H.
  rewrite forallb_forall in H. specialize (H b2 (B _ H2)). cbv beta in H.
  rewrite forallb_forall in H. specialize (H b3 (B _ H3)). cbv beta zeta in H. now apply eqb_prop in H.
Qed.
Lemma big_flags_first xs : Forall is_byte xs -> scan_big xs (option_map N.of_nat (first_idx on (big_flags xs))).
Proof.
  assert (Nil : forall i, ~ flagged (skipn i [])).
  { intros i. rewrite skipn_nil, flagged_chain. intros [H|[H|H]]; eapply chain_nil; eauto. }
  induction 1 as [|x xs Hx Hxs IH]; [exact Nil|].
  destruct (borrows_chain xs Hxs) as (b1 & b2 & b3 & E & (L1 & L2 & L3) & C1 & C2 & C3).
  cbn [big_flags]. rewrite E. cbn [first_idx].
  assert (F : on (byte_flag x b1 b2 b3) = true <-> flagged (x :: xs)).
  { rewrite (spread x b1 b2 b3) by auto. rewrite flagged_chain, !chain_cons, <- C1, <- C2, <- C3.
    rewrite !orb_true_iff, !andb_true_iff, !N.eqb_eq. rewrite special_b_spec. unfold special. tauto. }
  destruct (on (byte_flag x b1 b2 b3)).
  - cbn [option_map scan_big]. split; [now apply F|]. intros k Hk. cbn in Hk. lia.
  - assert (Nf : ~ flagged (x :: xs)) by (intros H; apply F in H; discriminate).
    destruct (first_idx on (big_flags xs)) as [i|]; cbn [option_map scan_big] in *.
    + rewrite Nat2N.id in *. destruct IH as [A B]. split; [exact A|].
      intros [|k] Hk; [exact Nf|]. apply B. lia.
    + intros [|i]; [exact Nf|apply IH].
Qed.
Theorem scan_big_all be st blk : step be = Some st -> length blk = st -> Forall is_byte blk -> big_words be = true ->
  scan_big blk (scan be blk).
Proof.
  intros Hst Hl Hb Hg.
  destruct be as [|[]|[]| | | |]; try discriminate Hg; injection Hst as <-; cbn [scan];
    rewrite word_scan_be_flags, big_flags_rev by (auto; vm_compute; reflexivity); apply big_flags_first; auto.
Qed.
(** every build: where the scan of a block with a backslash after plain characters stops *)
Lemma scan_stop be st x y : step be = Some st -> length (x ++ 92%N :: y) = st -> Forall is_byte (x ++ 92 :: y) -> Forall unescaped x ->
  exists i, scan be (x ++ 92 :: y) = Some (N.of_nat i) /\
    if big_words be && (last x 0 =? 93) then (i < length x)%nat else i = length x.
Proof.
  intros Hst Hl Hb Hu.
  assert (He : exact_backend be -> exists i, scan be (x ++ 92 :: y) = Some (N.of_nat i) /\ i = length x).
  { intros He. pose proof (scan_exact_all be st _ Hst Hl Hb He) as Hsc.
    destruct (scan be (x ++ 92 :: y)) as [i|]; cbn [scan_exact] in Hsc.
    - destruct Hsc as (c & Hn & Hc & Hf). exists (N.to_nat i). rewrite N2Nat.id. split; auto.
      destruct (Nat.lt_trichotomy (N.to_nat i) (length x)) as [L|[L|L]]; [|exact L|]; exfalso.
      + rewrite nth_error_app1 in Hn by auto. apply nth_error_In in Hn. rewrite Forall_forall in Hu.
        apply Hu, unescaped_special in Hn. contradiction.
      + rewrite Forall_forall in Hf. apply (Hf 92); [|right; now right].
        apply (nth_error_In _ (length x)). rewrite nth_error_firstn' by auto. rewrite nth_error_app2, Nat.sub_diag by lia. reflexivity.
    - exfalso. rewrite Forall_forall in Hsc. apply (Hsc 92); [|right; now right]. apply in_app_iff. right. now left. }
  destruct be as [|[]|[]| | | |]; try (apply He; exact I); injection Hst as <-; cbn [big_words andb scan];
    apply be_stop; auto; vm_compute; reflexivity.
Qed.
Lemma scan_plain be st xs : step be = Some st -> length xs = st -> Forall is_byte xs -> Forall unescaped xs -> scan be xs = None.
Proof.
  intros Hst Hl Hb Hu.
  assert (He : exact_backend be -> scan be xs = None).
  { intros He. pose proof (scan_exact_all be st _ Hst Hl Hb He) as Hsc.
    destruct (scan be xs) as [i|]; cbn [scan_exact] in Hsc; auto.
    destruct Hsc as (c & Hn & Hc & _). apply nth_error_In in Hn. rewrite Forall_forall in Hu.
    apply Hu, unescaped_special in Hn. contradiction. }
  destruct be as [|[]|[]| | | |]; try (apply He; exact I); injection Hst as <-; cbn [scan]; apply be_plain; auto; vm_compute; reflexivity.
Qed.

(** a scan ends inside the whole blocks, and not behind a flagged bracket *)
Lemma accel_loop_blocks be st : step be = Some st -> forall fuel cur cur', Forall is_byte cur ->
  accel_loop be st fuel cur = Ok cur' -> exists mid, cur = mid ++ cur' /\ Forall unescaped mid /\
    (length mid <= st * (length cur / st))%nat /\
    (forall t, cur' = 92 :: t -> big_words be = true -> last mid 0 = 93 -> (length mid mod st = 0)%nat).
Proof.
  intros Hst. pose proof (step_pos be st Hst) as Hpos.
  induction fuel as [|f IH]; intros cur cur' Hb H; cbn [accel_loop] in H; [discriminate|].
  destruct (Nat.leb_spec st (length cur)) as [Hs|Hs].
  2: { injection H as <-. exists []. splits; [constructor|apply Nat.le_0_l|discriminate]. }
  unfold load_block, advance_by in H. destruct (Nat.ltb_spec (length cur) st) as [?|_]; [lia|]. cbn [bind] in H.
  assert (Hlen : length (firstn st cur) = st) by (rewrite firstn_length; lia).
  assert (Hbk : Forall is_byte (firstn st cur)).
  { rewrite <- (firstn_skipn st cur) in Hb. eapply Forall_app_l; eauto. }
  pose proof (scan_spec_all be st _ Hst Hlen Hbk) as Hsc. rewrite (blocks_step st (length cur)) by auto.
  destruct (scan be (firstn st cur)) as [i|] eqn:Escan; cbn [scan_spec] in Hsc.
  - destruct Hsc as [Hi Hf]. rewrite Hlen in Hi.
    destruct (Nat.ltb_spec (length cur) (N.to_nat i)) as [?|_]; [discriminate|]. injection H as <-.
    assert (Hu : Forall unescaped (firstn (N.to_nat i) cur)).
    { rewrite firstn_firstn, Nat.min_l in Hf by lia.
      eapply Forall_impl; [|exact Hf]. intros c Hc. now apply unescaped_special. }
    assert (Hli : length (firstn (N.to_nat i) cur) = N.to_nat i) by (rewrite firstn_length; lia).
    exists (firstn (N.to_nat i) cur). splits; auto.
    + symmetry. apply firstn_skipn.
    + rewrite Hli. pose proof (Nat.le_0_l (st * ((length cur - st) / st))). lia.
    + intros t Et Hbig Hlast. exfalso.
      set (mid := firstn (N.to_nat i) cur) in *.
      assert (Ec : cur = mid ++ 92 :: t) by (rewrite <- Et; symmetry; apply firstn_skipn).
      assert (Ef : firstn st cur = mid ++ 92 :: firstn (st - S (length mid)) t).
      { rewrite Ec, firstn_app. rewrite firstn_all2 by lia. f_equal.
        destruct (st - length mid)%nat as [|k] eqn:Ek; [lia|]. cbn [firstn]. f_equal. f_equal. lia. }
      rewrite Ef in Escan, Hlen, Hbk.
      destruct (scan_stop be st mid _ Hst Hlen Hbk Hu) as (i' & Ei & Q).
      rewrite Hbig, Hlast, N.eqb_refl in Q. cbn [andb] in Q. rewrite Escan in Ei. injection Ei as ->.
      rewrite Nat2N.id in *. lia.
  - cbn [bind] in H. destruct (IH (skipn st cur) cur') as (mid & Ec & Hm & Hl & Hg); auto.
    + rewrite <- (firstn_skipn st cur) in Hb. eapply Forall_app_r; eauto.
    + exists (firstn st cur ++ mid). splits.
      * rewrite <- app_assoc, <- Ec. symmetry. apply firstn_skipn.
      * apply Forall_app. split; auto. eapply Forall_impl; [|exact Hsc]. intros c Hc. now apply unescaped_special.
      * rewrite app_length, Hlen. rewrite skipn_length in Hl. lia.
      * intros t Et Hbig Hlast. rewrite app_length, Hlen.
        destruct mid as [|m mid' _] using rev_ind; [cbn; rewrite Nat.add_0_r; apply Nat.mod_same; lia|].
        rewrite app_assoc, last_last in Hlast. rewrite last_last in Hg.
        rewrite Nat.add_mod by lia. rewrite Nat.mod_same, (Hg t Et Hbig Hlast) by lia. apply Nat.mod_0_l. lia.
Qed.
(** a scan passes the characters in the whole blocks up to a backslash *)
Lemma accel_loop_run be st : step be = Some st -> forall fuel x y,
  (length (x ++ 92%N :: y) < fuel)%nat -> Forall is_byte (x ++ 92 :: y) -> Forall unescaped x ->
  (length x <= st * (length (x ++ 92%N :: y) / st))%nat ->
  (big_words be = true -> last x 0 = 93 -> (length x mod st = 0)%nat) ->
  accel_loop be st fuel (x ++ 92 :: y) = Ok (92 :: y).
Proof.
  intros Hst. pose proof (step_pos be st Hst) as Hpos.
  induction fuel as [|f IH]; intros x y Hf Hb Hx Hl Hg; [lia|]. cbn [accel_loop].
  set (cur := x ++ 92 :: y) in *.
  destruct (Nat.leb_spec st (length cur)) as [Hs|Hs].
  2: { rewrite Nat.div_small in Hl by auto. destruct x; [reflexivity|cbn in Hl; lia]. }
  unfold load_block, advance_by. destruct (Nat.ltb_spec (length cur) st) as [?|_]; [lia|]. cbn [bind].
  assert (Hlen : length (firstn st cur) = st) by (rewrite firstn_length; lia).
  assert (Hbk : Forall is_byte (firstn st cur)).
  { rewrite <- (firstn_skipn st cur) in Hb. eapply Forall_app_l; eauto. }
  rewrite (blocks_step st (length cur)) in Hl by auto.
  destruct (Nat.le_gt_cases st (length x)) as [Lx|Lx].
  - (* a whole block of plain characters *)
    assert (Ef : firstn st cur = firstn st x).
    { unfold cur. rewrite firstn_app. replace (st - length x)%nat with 0%nat by lia. now rewrite firstn_O, app_nil_r. }
    rewrite (scan_plain be st (firstn st cur)); auto.
    2: { rewrite Ef. rewrite <- (firstn_skipn st x) in Hx. eapply Forall_app_l; eauto. }
    cbn [bind].
    assert (Ex : skipn st cur = skipn st x ++ 92 :: y).
    { unfold cur. rewrite skipn_app. replace (st - length x)%nat with 0%nat by lia. reflexivity. }
    assert (Lc : (length (skipn st cur) = length cur - st)%nat) by apply skipn_length.
    rewrite Ex in Lc |- *. apply IH; auto.
    + rewrite Lc. lia.
    + rewrite <- Ex. rewrite <- (firstn_skipn st cur) in Hb. eapply Forall_app_r; eauto.
    + rewrite <- (firstn_skipn st x) in Hx. eapply Forall_app_r; eauto.
    + rewrite Lc, skipn_length. lia.
    + intros Hbig Hlast. rewrite skipn_length.
      destruct (Nat.eq_dec (length x) st) as [E|E]; [rewrite E, Nat.sub_diag; apply Nat.mod_0_l; lia|].
      assert (Hm : (length x mod st = 0)%nat).
      { apply Hg; auto. rewrite <- Hlast. rewrite <- (firstn_skipn st x) at 1.
        assert (Hne : skipn st x <> []) by (intros E0; apply (f_equal (@length N)) in E0; rewrite skipn_length in E0; cbn in E0; lia).
        revert Hne. generalize (skipn st x). intros z Hne. destruct z as [|m z _] using rev_ind; [contradiction|].
        now rewrite app_assoc, !last_last. }
      replace (length x) with (length x - st + 1 * st)%nat in Hm by lia. now rewrite Nat.mod_add in Hm by lia.
  - (* the block with the backslash *)
    assert (Ef : firstn st cur = x ++ 92 :: firstn (st - S (length x)) y).
    { unfold cur. rewrite firstn_app. rewrite firstn_all2 by lia. f_equal.
      destruct (st - length x)%nat as [|k] eqn:Ek; [lia|]. cbn [firstn]. f_equal. f_equal. lia. }
    rewrite Ef in Hlen, Hbk |- *.
    destruct (scan_stop be st x _ Hst Hlen Hbk Hx) as (i & -> & Q).
    assert (i = length x) as ->.
    { destruct (big_words be) eqn:Ebig; [|exact Q]. cbn [andb] in Q.
      destruct (N.eqb_spec (last x 0) 93) as [El|El]; [|exact Q].
      specialize (Hg eq_refl El). rewrite Nat.mod_small in Hg by auto. destruct x; [discriminate El|discriminate Hg]. }
    rewrite Nat2N.id. destruct (Nat.ltb_spec (length cur) (length x)) as [?|_]; [lia|]. f_equal.
    unfold cur. rewrite skipn_app, skipn_all, Nat.sub_diag. reflexivity.
Qed.

Lemma bchars_plain big st n mid : Forall unescaped mid -> forall t s, bchars big st n None t s -> bchars big st n None (mid ++ t) (mid ++ s).
Proof. induction 1 as [|c mid Hc _ IH]; intros t s H; cbn; auto. constructor; auto. Qed.
Lemma bchars_run big st n ph mid t s : Forall unescaped mid -> (length mid <= st * ((length (mid ++ 92%N :: t) + n) / st))%nat ->
  (big = true -> last mid 0 = 93 -> (length mid mod st = 0)%nat) ->
  bchars big st n ph (92 :: t) s -> bchars big st n ph (mid ++ 92 :: t) (mid ++ s).
Proof. destruct ph as [hi|]; intros Hm Hl Hg H; [now apply bc_block|now apply bchars_plain]. Qed.

Lemma skip_accel_blocks be st cur b cur' : step be = Some st -> Forall is_byte cur -> skip_accel be cur = Ok (b, cur') ->
  exists mid, cur = mid ++ cur' /\ Forall unescaped mid /\ (length mid <= st * (length cur / st))%nat /\
    (forall t, cur' = 92 :: t -> big_words be = true -> last mid 0 = 93 -> (length mid mod st = 0)%nat).
Proof.
  intros Hst Hb. unfold skip_accel. rewrite Hst. destruct (accel_loop be st (S (length cur)) cur) as [c| | | |] eqn:E; try discriminate.
  intros [= _ <-]. eapply accel_loop_blocks; eauto.
Qed.
Lemma skip_accel_run be st x y : step be = Some st -> Forall is_byte (x ++ 92 :: y) ->
  Forall unescaped x -> (length x <= st * (length (x ++ 92%N :: y) / st))%nat ->
  (big_words be = true -> last x 0 = 93 -> (length x mod st = 0)%nat) ->
  skip_accel be (x ++ 92 :: y) = Ok (true, 92 :: y).
Proof.
  intros Hst Hb Hx Hl Hg. unfold skip_accel. rewrite Hst.
  rewrite (accel_loop_run be st Hst _ x y); auto.
Qed.

Lemma str_loop_blocks be st : step be = Some st -> forall fuel cur result raw ph,
  (length cur < fuel)%nat -> Forall is_byte cur -> (ph = 0 \/ high_surrogate ph) ->
  exists so cur', str_loop be fuel cur result (raw ++ cur) ph = Ok (so, cur') /\
    match so with
    | None => True
    | Some s => exists body out, cur = body ++ 34 :: cur'
        /\ bchars (big_words be) st (S (length cur')) (ph_opt ph) body out /\ s = result ++ raw ++ out
    end.
Proof.
  intros Hst. induction fuel as [|f IH]; intros cur result raw ph Hl Hb Hph; [lia|]. cbn [str_loop].
  destruct cur as [|c0 cur0] eqn:Ecur; [cbn [at_end]; do 2 eexists; split; [reflexivity|exact I]|].
  rewrite <- Ecur in *. assert (Hne : cur <> []) by congruence.
  assert (at_end cur = false) as -> by (subst; reflexivity).
  clear c0 cur0 Ecur.
  destruct (skip_accel_spec be cur Hne Hb) as (mid0 & cur1 & E1 & _). rewrite E1. cbn [bind].
  destruct (skip_accel_blocks be st cur _ _ Hst Hb E1) as (mid & -> & Hmid & Hblk & Hgd). clear mid0 E1.
  destruct cur1 as [|c cur1]; cbn [at_end negb]; [do 2 eexists; split; [reflexivity|exact I]|].
  cbn [deref bind].
  assert (Hb1 : Forall is_byte cur1) by (apply Forall_app_r in Hb; inversion Hb; auto).
  assert (Hl1 : (length cur1 < f)%nat) by (rewrite app_length in Hl; cbn in Hl; lia).
  destruct ((c =? 9) || (c =? 13) || (c =? 10)); [do 2 eexists; split; [reflexivity|exact I]|].
  destruct (N.eqb_spec c 92) as [->|Hc92].
  - (* backslash *)
    specialize (Hgd _ eq_refl).
    rewrite app_assoc, slice_app. cbn [advance bind].
    destruct cur1 as [|l cur2]; cbn [at_end]; [do 2 eexists; split; [reflexivity|exact I]|].
    cbn [deref bind].
    destruct (negb (ph =? 0) && negb (l =? 117)) eqn:Epl; [do 2 eexists; split; [reflexivity|exact I]|].
    assert (Hrun : forall body r', l :: cur2 = body ++ 34 :: r' -> (length mid <= st * ((length (mid ++ 92%N :: body) + S (length r')) / st))%nat).
    { intros body r' E. rewrite E in Hblk. replace (length (mid ++ 92%N :: body) + S (length r'))%nat with (length (mid ++ 92%N :: body ++ 34%N :: r')); auto.
      repeat (rewrite app_length || cbn [length]). lia. }
    destruct (N.eqb_spec l 117) as [->|Hl117].
    + destruct (unicode_cases 117 cur2 ph (result ++ raw ++ mid) Hph)
        as [(h & d & r & cp & -> & Hh & [(Hs & -> & ->)|[(Hs & Hp & ->)|(Hs & ->)]])|(r & p & s & ->)];
        cbn [bind negb]; [| | |do 2 eexists; split; [reflexivity|exact I]]; cbn [advance bind].
      * (* high surrogate *)
        destruct (IH r (result ++ raw ++ mid) [] cp) as (so & cur' & E & HP); auto.
        { cbn in Hl1. rewrite app_length in Hl1. lia. }
        { inversion Hb1; eapply Forall_app_r; eauto. }
        cbn [app] in E. exists so, cur'. split; [exact E|].
        destruct so as [s|]; auto. destruct HP as (body & out & -> & Hlc & ->).
        exists (mid ++ 92 :: 117 :: h ++ body), (mid ++ out). splits.
        -- rewrite <- !app_assoc. cbn. rewrite <- !app_assoc. reflexivity.
        -- apply bchars_run; auto.
           { apply Hrun. cbn. now rewrite <- !app_assoc. }
           apply (bc_high _ _ _ h cp); auto.
           unfold ph_opt in Hlc. unfold high_surrogate in Hs. assert ((cp =? 0) = false) as Ez by lia. rewrite Ez in Hlc. exact Hlc.
        -- rewrite <- !app_assoc. reflexivity.
      * (* low surrogate *)
        destruct (IH r (result ++ raw ++ mid ++ utf8 (65536 + (ph - 55296) * 1024 + (cp - 56320))) [] 0) as (so & cur' & E & HP); auto.
        { cbn in Hl1. rewrite app_length in Hl1. lia. }
        { inversion Hb1; eapply Forall_app_r; eauto. }
        cbn [app] in E. exists so, cur'. split; [rewrite <- !app_assoc; exact E|].
        destruct so as [s|]; auto. destruct HP as (body & out & -> & Hlc & ->).
        exists (mid ++ 92 :: 117 :: h ++ body), (mid ++ utf8 (65536 + (ph - 55296) * 1024 + (cp - 56320)) ++ out). splits.
        -- rewrite <- !app_assoc. cbn. rewrite <- !app_assoc. reflexivity.
        -- apply bchars_run; auto.
           { apply Hrun. cbn. now rewrite <- !app_assoc. }
           assert (ph_opt ph = Some ph) as ->.
           { unfold ph_opt. unfold high_surrogate in Hp. assert ((ph =? 0) = false) as -> by lia. reflexivity. }
           apply bc_low; auto.
        -- rewrite <- !app_assoc. reflexivity.
      * (* other *)
        destruct (IH r (result ++ raw ++ mid ++ utf8 cp) [] ph) as (so & cur' & E & HP); auto.
        { cbn in Hl1. rewrite app_length in Hl1. lia. }
        { inversion Hb1; eapply Forall_app_r; eauto. }
        cbn [app] in E. exists so, cur'. split; [rewrite <- !app_assoc; exact E|].
        destruct so as [s|]; auto. destruct HP as (body & out & -> & Hlc & ->).
        exists (mid ++ 92 :: 117 :: h ++ body), (mid ++ utf8 cp ++ out). splits.
        -- rewrite <- !app_assoc. cbn. rewrite <- !app_assoc. reflexivity.
        -- apply bchars_run; auto.
           { apply Hrun. cbn. now rewrite <- !app_assoc. }
           apply bc_uni; auto.
        -- rewrite <- !app_assoc. reflexivity.
    + destruct (simple_escape l) as [e|] eqn:Ee; [|do 2 eexists; split; [reflexivity|exact I]].
      cbn [advance bind].
      destruct (IH cur2 ((result ++ raw ++ mid) ++ [e]) [] ph) as (so & cur' & E & HP); auto.
      { cbn in Hl1. lia. }
      { inversion Hb1; auto. }
      cbn [app] in E. exists so, cur'. split; [exact E|].
      destruct so as [s|]; auto. destruct HP as (body & out & -> & Hlc & ->).
      assert (ph = 0) as -> by (destruct (N.eqb_spec ph 0); [auto|cbn in Epl; discriminate]).
      exists (mid ++ 92 :: l :: body), (mid ++ e :: out). splits.
      * rewrite <- !app_assoc. reflexivity.
      * apply bchars_plain; auto. apply bc_esc; [now apply esc_simple|exact Hlc].
      * rewrite <- !app_assoc. reflexivity.
  - destruct (N.eqb_spec c 34) as [->|Hc34].
    + destruct (N.eqb_spec ph 0) as [->|Hp]; cbn [negb]; [|do 2 eexists; split; [reflexivity|exact I]].
      rewrite app_assoc, slice_app. cbn [advance bind].
      do 2 eexists. split; [reflexivity|]. exists mid, mid. splits.
      rewrite <- (app_nil_r mid). apply bchars_plain; auto. apply bc_nil.
    + destruct (N.eqb_spec ph 0) as [->|Hp]; cbn [negb]; [|do 2 eexists; split; [reflexivity|exact I]].
      destruct (N.ltb_spec c 32) as [?|Hc32]; [do 2 eexists; split; [reflexivity|exact I]|].
      cbn [advance bind].
      destruct (IH cur1 result (raw ++ mid ++ [c]) 0) as (so & cur' & E & HP); auto.
      exists so, cur'. split.
      { rewrite <- !app_assoc in E. exact E. }
      destruct so as [s|]; auto. destruct HP as (body & out & -> & Hlc & ->).
      exists (mid ++ c :: body), (mid ++ c :: out). splits.
      * rewrite <- !app_assoc. reflexivity.
      * apply bchars_plain; auto. apply bc_raw; auto. unfold unescaped. auto.
      * rewrite <- !app_assoc. reflexivity.
Qed.
Lemma parse_stdstring_blocks be st : step be = Some st -> forall c r, Forall is_byte (c :: r) ->
  (exists t s r', c :: r = t ++ r' /\ bstring (big_words be) st (length r') t s /\ parse_stdstring be (c :: r) = Ok (Some s, r'))
  \/ exists r', parse_stdstring be (c :: r) = Ok (None, r').
Proof.
  intros Hst c r Hb. unfold parse_stdstring. cbn [deref bind advance].
  destruct (N.eqb_spec c 34) as [->|]; [|right; eauto].
  destruct (str_loop_blocks be st Hst (S (length r)) r [] [] 0) as (so & r' & E & HP); auto; [inversion Hb; auto|].
  cbn [app] in E. rewrite E. destruct so as [s|]; [|right; eauto].
  destruct HP as (body & out & -> & Hlc & ->). left.
  exists (34 :: body ++ [34]), out, r'. splits.
  - cbn. rewrite <- app_assoc. reflexivity.
  - exists body. auto.
Qed.

(** ** Completeness *)
Lemma bchars_pending big st n hi t s : bchars big st n (Some hi) t s -> forall t', t = 92 :: t' ->
  (exists h cp u s', t' = 117 :: h ++ u /\ hex4 h cp /\ ~ surrogate cp /\ bchars big st n (Some hi) u s' /\ s = utf8 cp ++ s') \/
  (exists h lo u s', t' = 117 :: h ++ u /\ hex4 h lo /\ low_surrogate lo /\ bchars big st n None u s' /\
     s = utf8 (65536 + (hi - 55296) * 1024 + (lo - 56320)) ++ s').
Proof.
  intros H. remember (Some hi) as ph eqn:Eph. revert Eph.
  induction H as [|c t s Hc _ _|l c t s He _ _|ph h cp t s Hh Hs Ht _|h hi' t s Hh Hs Ht _|hi' h lo t s Hh Hs Ht _|hi' x t s Hx Hl Hg Ht IH];
    intros Eph t' Et; try discriminate Eph.
  - subst ph. injection Et as <-. left. exists h, cp, t, s. splits; auto.
  - injection Eph as ->. injection Et as <-. right. exists h, lo, t, s. splits; auto.
  - destruct x as [|c x]; [apply IH; auto|]. cbn in Et. injection Et as -> _. inversion Hx as [|? ? (_ & _ & H) _]. now contradiction H.
Qed.
Lemma bchars_plain_inv big st n mid : Forall unescaped mid -> forall t s, bchars big st n None (mid ++ t) s ->
  exists s', s = mid ++ s' /\ bchars big st n None t s'.
Proof.
  induction 1 as [|c mid (C1 & C2 & C3) _ IH]; intros t s H; cbn in *; [eauto|].
  inversion H; subst; try congruence.
  match goal with H' : bchars _ _ _ None (mid ++ t) _ |- _ => destruct (IH _ _ H') as (s'' & -> & H'') end. eauto.
Qed.
(** the scan stops in front of the backslash that ends the run *)
Lemma accel_pending be st hi mid body' out r : step be = Some st -> Forall is_byte ((mid ++ body') ++ 34 :: r) ->
  Forall unescaped mid -> skip_accel be ((mid ++ body') ++ 34 :: r) = Ok (true, body' ++ 34 :: r) ->
  bchars (big_words be) st (S (length r)) (Some hi) (mid ++ body') out ->
  exists t' out', body' = 92 :: t' /\ out = mid ++ out' /\ bchars (big_words be) st (S (length r)) (Some hi) body' out'.
Proof.
  intros Hst Hb Hmid Ea H.
  assert (Hbs : forall t, mid ++ body' = 92 :: t -> mid = []).
  { intros t E. destruct mid as [|c mid']; auto. cbn in E. injection E as -> _. inversion Hmid as [|? ? (_ & _ & X) _]. now contradiction X. }
  inversion H as [|? ? ? ?|? ? ? ?|ph h cp t s Hh Hs Ht E1 E2 E3|? ? ? ? ? ?|hi' h lo t s Hh Hs Ht E1 E2 E3|hi' x t s Hx Hl Hg Ht E1 E2 E3]; subst.
  - symmetry in E2. pose proof (Hbs _ E2). subst mid. cbn in *. subst body'. eauto.
  - symmetry in E2. pose proof (Hbs _ E2). subst mid. cbn in *. subst body'. eauto.
  - rewrite <- E2 in Ea, Hb. rewrite <- app_assoc in Ea, Hb. cbn [app] in Ea, Hb.
    rewrite (skip_accel_run be st x (t ++ 34 :: r)) in Ea; auto.
    2: { rewrite app_length in *. cbn [length] in *. rewrite app_length. cbn [length].
         now replace (length x + S (length t + S (length r)))%nat with (length x + S (length t) + S (length r))%nat by lia. }
    injection Ea as Ea. change (92 :: t ++ 34 :: r) with ((92 :: t) ++ 34 :: r) in Ea. apply app_inv_tail in Ea. subst body'.
    apply app_inv_tail in E2. subst x. eauto.
Qed.
Lemma str_loop_blocks_complete be st : step be = Some st -> forall fuel body out r result raw ph,
  (length (body ++ 34%N :: r) < fuel)%nat -> Forall is_byte (body ++ 34 :: r) -> (ph = 0 \/ high_surrogate ph) ->
  bchars (big_words be) st (S (length r)) (ph_opt ph) body out ->
  str_loop be fuel (body ++ 34 :: r) result (raw ++ body ++ 34 :: r) ph = Ok (Some (result ++ raw ++ out), r).
Proof.
  intros Hst. induction fuel as [|f IH]; intros body out r result raw ph Hl Hb Hph HL; [lia|]. cbn [str_loop].
  assert (Hne : body ++ 34 :: r <> []) by (destruct body; discriminate).
  assert (at_end (body ++ 34 :: r) = false) as -> by (destruct body; reflexivity).
  destruct (skip_accel_spec be _ Hne Hb) as (mid & cur1 & Ea & Ec & Hmid & _). pose proof Hb as Hb0. rewrite Ea. cbn [bind].
  destruct (unescaped_prefix mid body 34 r cur1) as (body' & -> & ->); auto.
  { unfold unescaped. intros (_ & H & _). auto. }
  assert (at_end (body' ++ 34 :: r) = false) as Ee by (destruct body'; reflexivity). rewrite Ee in Ea |- *. cbn [negb] in Ea |- *.
  rewrite <- app_assoc in Hl, Hb |- *. apply Forall_app_r in Hb. rewrite app_length in Hl.
  rewrite (app_assoc raw mid).
  destruct (N.eqb_spec ph 0) as [->|Np].
  - (* nothing pending *)
    cbn [ph_opt N.eqb] in HL. destruct (bchars_plain_inv _ _ _ _ Hmid _ _ HL) as (out' & -> & HL'). clear HL Ec Hne Ea Hb0.
    inversion HL' as [|c t s Hc Ht|l c t s He' Ht|ph' h cp t s Hh Hs Ht|h hi t s Hh Hs Ht| |]; subst; cbn [app].
    + cbn [deref bind N.eqb Pos.eqb orb negb advance]. rewrite slice_app. rewrite !app_nil_r. reflexivity.
    + destruct Hc as (C1 & C2 & C3). cbn [deref bind advance].
      assert (((c =? 9) || (c =? 13) || (c =? 10)) = false) as -> by lia.
      apply N.eqb_neq in C2, C3. rewrite C2, C3. cbn [N.eqb negb].
      assert ((c <? 32) = false) as -> by lia.
      pose proof (IH t s r result ((raw ++ mid) ++ [c]) 0) as Q. repeat rewrite <- app_assoc in Q. repeat rewrite <- app_assoc. cbn [app] in Q.
      apply Q; auto; [cbn in Hl; lia|inversion Hb; auto].
    + cbn [deref bind advance N.eqb Pos.eqb orb at_end negb andb]. rewrite slice_app.
      pose proof (esc_not_u _ _ He') as Hu. apply N.eqb_neq in Hu. rewrite Hu.
      apply esc_simple in He'. rewrite He'. cbn [bind].
      pose proof (IH t s r ((result ++ (raw ++ mid)) ++ [c]) [] 0) as Q. cbn [app] in Q.
      rewrite Q; auto.
      * rewrite <- !app_assoc. reflexivity.
      * cbn in Hl. lia.
      * inversion Hb as [|? ? ? Hb']; inversion Hb'; auto.
    + cbn [deref bind advance N.eqb Pos.eqb orb at_end negb andb]. rewrite slice_app.
      rewrite <- app_assoc. destruct (unicode_plain 117 h (t ++ 34 :: r) cp 0 (result ++ raw ++ mid) Hh Hs) as (d & E).
      rewrite E. cbn [bind negb advance].
      pose proof (IH t s r ((result ++ (raw ++ mid)) ++ utf8 cp) [] 0) as Q. cbn [app] in Q.
      rewrite Q; auto.
      * rewrite <- !app_assoc. reflexivity.
      * cbn in Hl. rewrite !app_length in *. lia.
      * inversion Hb as [|? ? ? Hb']; inversion Hb' as [|? ? ? Hb'']. rewrite <- app_assoc in Hb''. eapply Forall_app_r; eauto.
    + cbn [deref bind advance N.eqb Pos.eqb orb at_end negb andb]. rewrite slice_app.
      rewrite <- app_assoc. destruct (unicode_high 117 h (t ++ 34 :: r) hi (result ++ raw ++ mid) Hh Hs) as (d & E).
      rewrite E. cbn [bind negb advance].
      pose proof (IH t out' r (result ++ (raw ++ mid)) [] hi) as Q. cbn [app] in Q.
      rewrite Q; auto.
      * rewrite <- !app_assoc. reflexivity.
      * cbn in Hl. rewrite !app_length in *. lia.
      * inversion Hb as [|? ? ? Hb']; inversion Hb' as [|? ? ? Hb'']. rewrite <- app_assoc in Hb''. eapply Forall_app_r; eauto.
      * unfold ph_opt. unfold high_surrogate in Hs. assert ((hi =? 0) = false) as -> by lia. exact Ht.
  - (* a high surrogate pending *)
    assert (ph_opt ph = Some ph) as Eph by (unfold ph_opt; apply N.eqb_neq in Np; now rewrite Np).
    destruct Hph as [?|Hph]; [contradiction|]. rewrite Eph in HL.
    destruct (accel_pending be st ph mid body' out r Hst Hb0 Hmid Ea HL) as (t' & out' & -> & -> & HL'). clear HL Ec Hne Ea Hb0.
    destruct (bchars_pending _ _ _ _ _ _ HL' _ eq_refl) as [(h & cp & t & s & -> & Hh & Hs & Ht & ->)|(h & lo & t & s & -> & Hh & Hs & Ht & ->)];
      cbn [app].
    + cbn [deref bind advance N.eqb Pos.eqb orb at_end negb andb]. try rewrite andb_false_r. rewrite slice_app.
      rewrite <- app_assoc. destruct (unicode_plain 117 h (t ++ 34 :: r) cp ph (result ++ raw ++ mid) Hh Hs) as (d & E).
      rewrite E. cbn [bind negb advance].
      pose proof (IH t s r ((result ++ (raw ++ mid)) ++ utf8 cp) [] ph) as Q. cbn [app] in Q.
      rewrite Q; auto.
      * rewrite <- !app_assoc. reflexivity.
      * cbn in Hl. rewrite !app_length in *. lia.
      * inversion Hb as [|? ? ? Hb']; inversion Hb' as [|? ? ? Hb'']. rewrite <- app_assoc in Hb''. eapply Forall_app_r; eauto.
      * now rewrite Eph.
    + cbn [deref bind advance N.eqb Pos.eqb orb at_end negb andb]. try rewrite andb_false_r. rewrite slice_app.
      rewrite <- app_assoc. destruct (unicode_low 117 h (t ++ 34 :: r) lo ph (result ++ raw ++ mid) Hh Hs Hph) as (d & E).
      rewrite E. cbn [bind negb advance].
      match goal with |- context [utf8 ?x] => set (u := utf8 x) end.
      pose proof (IH t s r ((result ++ (raw ++ mid)) ++ u) [] 0) as Q. cbn [app] in Q.
      rewrite Q; auto.
      * rewrite <- !app_assoc. reflexivity.
      * cbn in Hl. rewrite !app_length in *. lia.
      * inversion Hb as [|? ? ? Hb']; inversion Hb' as [|? ? ? Hb'']. rewrite <- app_assoc in Hb''. eapply Forall_app_r; eauto.
Qed.
Lemma parse_stdstring_blocks_ok be st t s r : step be = Some st -> bstring (big_words be) st (length r) t s ->
  Forall is_byte (t ++ r) -> parse_stdstring be (t ++ r) = Ok (Some s, r).
Proof.
  intros Hst (body & -> & H) Hb. unfold parse_stdstring. cbn [app deref bind advance N.eqb Pos.eqb].
  cbn in Hb. rewrite <- app_assoc in Hb |- *. cbn [app] in Hb |- *.
  pose proof (str_loop_blocks_complete be st Hst (S (length (body ++ 34 :: r))) body s r [] [] 0) as Q. cbn [app] in Q.
  apply Q; auto. inversion Hb; auto.
Qed.

(** ** Documents *)
Lemma bstring_shape big st n t s : bstring big st n t s -> exists body, t = 34 :: body.
Proof. intros (body & -> & _). eauto. Qed.
Section Documents.
  Context (jsonc : bool) (be : backend) (st : nat) (Hst : step be = Some st).
  Let total := pp_total jsonc be (bstring (big_words be) st) (bstring_shape (big_words be) st) (parse_stdstring_blocks be st Hst).
  Theorem block_exact s v : Forall is_byte s ->
    (parse jsonc be s = Ok (Some v) <-> exists j, block_document jsonc (big_words be) st s j /\ distinct j /\ v = inject j).
  Proof.
    intros Hb. split.
    - intros E. destruct (total s Hb) as (o & E' & H). rewrite E in E'. injection E' as <-. exact H.
    - intros (j & H & Hd & ->).
      destruct (pp_complete jsonc be (bstring (big_words be) st) (bstring_shape (big_words be) st)
        (fun t s r H Hb => parse_stdstring_blocks_ok be st t s r Hst H Hb) s j Hb H) as [Q _]. auto.
  Qed.
  Theorem block_reject s : Forall is_byte s ->
    (parse jsonc be s = Ok None <-> forall j, block_document jsonc (big_words be) st s j -> ~ distinct j).
  Proof.
    intros Hb. split.
    - intros E j H Hd. assert (parse jsonc be s = Ok (Some (inject j))) as E' by (apply (block_exact s); eauto).
      congruence.
    - intros H. destruct (total s Hb) as (o & E' & Ho).
      destruct o as [v|]; auto. destruct Ho as (j & D & Hd & _). now contradiction (H j D).
  Qed.
End Documents.
(** builds that scan blocks of the same size, in the same byte order, read every text alike *)
Theorem same_step jsonc be be' s : step be = step be' -> big_words be = big_words be' -> Forall is_byte s ->
  parse jsonc be s = parse jsonc be' s.
Proof.
  intros Es Eb Hb. destruct (step be) as [st|] eqn:Hst.
  2: { destruct be; try discriminate Hst. destruct be'; try discriminate Es. reflexivity. }
  symmetry in Es.
  destruct (parse_total jsonc be s Hb) as (o & E & _). rewrite E. symmetry. destruct o as [v|].
  - apply (block_exact jsonc be' st Es s v Hb). rewrite <- Eb. apply (block_exact jsonc be st Hst s v Hb). exact E.
  - apply (block_reject jsonc be' st Es s Hb). rewrite <- Eb. apply (block_reject jsonc be st Hst s Hb). exact E.
Qed.
