(** * Trees in the heap: footprints, paths, updates. *)
From Verif Require Import Base Value Containers Dump Api SpecApi BaseProofs ContainerProofs ApiProofs Heap SpecHeap.
From Coq Require Import Permutation.

Scheme holds_ind' := Induction for holds Sort Prop with holds_all_ind' := Induction for holds_all Sort Prop.
Combined Scheme holds_mut from holds_ind', holds_all_ind'.

Definition agree (h h' : heap) (fp : list addr) : Prop := forall a, In a fp -> nth_error h' a = nth_error h a.
Lemma agree_app h h' f1 f2 : agree h h' (f1 ++ f2) <-> agree h h' f1 /\ agree h h' f2.
Proof. unfold agree. setoid_rewrite in_app_iff. firstorder. Qed.
Lemma agree_cons h h' a f : agree h h' (a :: f) <-> nth_error h' a = nth_error h a /\ agree h h' f.
Proof. unfold agree. split; [intros H; split; [apply H; now left|intros b Hb; apply H; now right]|intros [H1 H2] b [<-|Hb]; auto]. Qed.
Lemma agree_refl h fp : agree h h fp.
Proof. intros a _. reflexivity. Qed.
Lemma agree_incl h h' f f' : agree h h' f -> incl f' f -> agree h h' f'.
Proof. intros H I a Ha. apply H, I, Ha. Qed.

Lemma holds_frame_mut h h' : (forall x v fp, holds h x v fp -> agree h h' fp -> holds h' x v fp) /\
  (forall l vs fp, holds_all h l vs fp -> agree h h' fp -> holds_all h' l vs fp).
Proof.
  apply (holds_mut h (fun x v fp _ => agree h h' fp -> holds h' x v fp) (fun l vs fp _ => agree h h' fp -> holds_all h' l vs fp));
    intros; try (constructor; fail).
  - apply agree_cons in H0 as [H1 H2]. eapply ho_arr; [rewrite H1; eassumption|auto].
  - apply agree_cons in H0 as [H1 H2]. eapply ho_obj; [rewrite H1; eassumption|auto|auto].
  - apply agree_app in H1 as [H1 H2]. constructor; auto.
Qed.
Lemma holds_frame h h' x v fp : holds h x v fp -> agree h h' fp -> holds h' x v fp.
Proof. apply (proj1 (holds_frame_mut h h')). Qed.
Lemma holds_all_frame h h' x v fp : holds_all h x v fp -> agree h h' fp -> holds_all h' x v fp.
Proof. apply (proj2 (holds_frame_mut h h')). Qed.
Lemma holds_live_mut h : (forall x v fp, holds h x v fp -> Forall (live h) fp) /\ (forall l vs fp, holds_all h l vs fp -> Forall (live h) fp).
Proof.
  apply (holds_mut h (fun x v fp _ => Forall (live h) fp) (fun l vs fp _ => Forall (live h) fp)); intros; auto.
  - constructor; auto. now eexists; eauto.
  - constructor; auto. now eexists; eauto.
  - apply Forall_app; auto.
Qed.
Lemma holds_live h x v fp : holds h x v fp -> Forall (live h) fp.
Proof. apply (proj1 (holds_live_mut h)). Qed.
Lemma holds_all_live h x v fp : holds_all h x v fp -> Forall (live h) fp.
Proof. apply (proj2 (holds_live_mut h)). Qed.
Lemma holds_all_length h l vs fp : holds_all h l vs fp -> length l = length vs.
Proof. induction 1; cbn; auto. Qed.
Lemma holds_all_app h l1 v1 f1 l2 v2 f2 : holds_all h l1 v1 f1 -> holds_all h l2 v2 f2 -> holds_all h (l1 ++ l2) (v1 ++ v2) (f1 ++ f2).
Proof. induction 1; cbn; auto. intros. rewrite <- app_assoc. constructor; auto. Qed.
Lemma holds_all_split h l : forall v1 v2 fp, holds_all h l (v1 ++ v2) fp ->
  exists l1 l2 f1 f2, l = l1 ++ l2 /\ fp = f1 ++ f2 /\ holds_all h l1 v1 f1 /\ holds_all h l2 v2 f2.
Proof.
  induction l as [|x l IH]; intros v1 v2 fp H.
  - inversion H as [Hv Hn|]. destruct v1; [|discriminate]. cbn in *. subst. exists [], [], [], []. splits; constructor.
  - destruct v1 as [|y v1]; cbn in *.
    + exists [], (x :: l), [], fp. splits; auto. constructor.
    + inversion H as [|? ? fp1 ? ? fps Hx Hl]; subst. destruct (IH _ _ _ Hl) as (l1 & l2 & f1 & f2 & -> & -> & A & B).
      exists (x :: l1), l2, (fp1 ++ f1), f2. splits; auto; [now rewrite app_assoc|now constructor].
Qed.
Lemma holds_all_one h x v fp : holds_all h [x] [v] fp <-> holds h x v fp.
Proof.
  split.
  - intros H. inversion H as [|? ? fp1 ? ? fps Hx Hn]; subst. inversion Hn; subst. now rewrite app_nil_r.
  - intros H. rewrite <- (app_nil_r fp). constructor; [auto|constructor].
Qed.
Lemma holds_all_nil h l fp : holds_all h l [] fp -> l = [] /\ fp = [].
Proof. intros H. inversion H; auto. Qed.
Lemma nth_split' {A} (l : list A) i x : nth_error l i = Some x -> exists l1 l2, l = l1 ++ x :: l2 /\ length l1 = i.
Proof. apply nth_error_split. Qed.
Lemma upd_nth_app {A} (f : A -> A) l1 x l2 : upd_nth f (length l1) (l1 ++ x :: l2) = l1 ++ f x :: l2.
Proof. induction l1; cbn; auto. now f_equal. Qed.
Lemma upd_nth_same {A} (x : A) l i : nth_error l i = Some x -> upd_nth (fun _ => x) i l = l.
Proof. intros H. apply nth_split' in H as (l1 & l2 & -> & <-). apply upd_nth_app. Qed.
Lemma upd_nth_length {A} (f : A -> A) l : forall i, length (upd_nth f i l) = length l.
Proof. induction l; intros [|i]; cbn; auto. Qed.
Lemma upd_nth_app_l {A} (f : A -> A) l l' : forall i, (i < length l)%nat -> upd_nth f i (l ++ l') = upd_nth f i l ++ l'.
Proof. induction l; intros [|i] H; cbn in *; auto; try lia. f_equal. apply IHl. lia. Qed.
Lemma upd_nth_const {A} (f : A -> A) l i x : nth_error l i = Some x -> upd_nth f i l = upd_nth (fun _ => f x) i l.
Proof. intros H. apply nth_split' in H as (l1 & l2 & -> & <-). now rewrite !upd_nth_app. Qed.

(** one element of a list of trees *)
Lemma holds_nth h l vs fp i v : holds_all h l vs fp -> nth_error vs i = Some v ->
  exists x f1 fx f2, nth_error l i = Some x /\ fp = f1 ++ fx ++ f2 /\ holds h x v fx /\
  (forall h' x' v' fx', agree h h' (f1 ++ f2) -> holds h' x' v' fx' ->
    holds_all h' (upd_nth (fun _ => x') i l) (upd_nth (fun _ => v') i vs) (f1 ++ fx' ++ f2)) /\
  (forall j y, j <> i -> nth_error l j = Some y -> exists w fy, holds h y w fy /\ incl fy (f1 ++ f2)).
Proof.
  intros H E. apply nth_split' in E as (v1 & v2 & -> & <-).
  destruct (holds_all_split _ _ _ _ _ H) as (l1 & l2 & f1 & f2 & -> & -> & A & B).
  inversion B as [|x ? fx l2' ? f2' Hx Hl2]; subst. pose proof (holds_all_length _ _ _ _ A) as L.
  exists x, f1, fx, f2'. splits; auto.
  - rewrite <- L. rewrite nth_error_app2 by lia. now rewrite Nat.sub_diag.
  - intros h' x' v' fx' G Hx'. apply agree_app in G as [G1 G2]. rewrite <- L at 1. rewrite !upd_nth_app.
    apply holds_all_app; [eapply holds_all_frame; eauto|]. constructor; auto. eapply holds_all_frame; eauto.
  - intros j y Hj Ey. assert (Hy : In y l1 \/ In y l2').
    { destruct (Nat.lt_ge_cases j (length l1)).
      - left. rewrite nth_error_app1 in Ey by lia. eapply nth_error_In; eauto.
      - right. rewrite nth_error_app2 in Ey by lia. destruct (j - length l1)%nat eqn:D; [lia|]. cbn in Ey. eapply nth_error_In; eauto. }
    assert (K : forall l v f, holds_all h l v f -> In y l -> exists w fy, holds h y w fy /\ incl fy f).
    { clear. induction 1 as [|x v fp l vs fps Hx Hl IH]; cbn; [tauto|]. intros [->|Hy].
      - exists v, fp. split; auto. apply incl_appl, incl_refl.
      - destruct (IH Hy) as (w & fy & Hw & I). exists w, fy. split; auto. apply incl_appr, I. }
    destruct Hy as [Hy|Hy]; [destruct (K _ _ _ A Hy) as (w & fy & Hw & I)|destruct (K _ _ _ Hl2 Hy) as (w & fy & Hw & I)];
      exists w, fy; split; auto; [apply incl_appl, I|apply incl_appr, I].
Qed.

(** ** Members by position *)
Fixpoint pos_of (k : bytes) (ks : list bytes) : option nat :=
  match ks with [] => None | k' :: r => if bytes_eqb k k' then Some O else option_map S (pos_of k r) end.
Lemma find_pos {A} k (m : list (bytes * A)) : map_find k m = match pos_of k (map fst m) with Some i => nth_error (map snd m) i | None => None end.
Proof. induction m as [|(k', x) m IH]; cbn; auto. destruct (bytes_eqb k k'); auto. rewrite IH. destruct (pos_of k (map fst m)); auto. Qed.
Lemma upd_key_pos {A} (f : A -> A) k m : map snd (upd_key f k m) = match pos_of k (map fst m) with Some i => upd_nth f i (map snd m) | None => map snd m end.
Proof. induction m as [|(k', x) m IH]; cbn; auto. destruct (bytes_eqb k k'); cbn; auto. rewrite IH. destruct (pos_of k (map fst m)); auto. Qed.
Lemma upd_key_same {A} (x : A) k m : map_find k m = Some x -> upd_key (fun _ => x) k m = m.
Proof.
  induction m as [|(k', y) m IH]; cbn; auto. destruct (bytes_eqb k k'); [now intros [= ->]|]. intros H. now rewrite IH.
Qed.
Lemma upd_key_const {A} (f : A -> A) k m x : map_find k m = Some x -> upd_key f k m = upd_key (fun _ => f x) k m.
Proof. induction m as [|(k', y) m IH]; cbn; auto. destruct (bytes_eqb k k'); [now intros [= ->]|]. intros H. now rewrite IH. Qed.
Lemma pos_of_inj k k' ks i : pos_of k ks = Some i -> pos_of k' ks = Some i -> k = k'.
Proof.
  revert i. induction ks as [|c ks IH]; cbn; intros i; [discriminate|].
  destruct (bytes_eqb_spec k c), (bytes_eqb_spec k' c); try congruence.
  - intros [= <-]. destruct (pos_of k' ks); discriminate.
  - destruct (pos_of k ks); [|discriminate]. intros [= <-]. discriminate.
  - destruct (pos_of k ks) eqn:E, (pos_of k' ks) eqn:E'; try discriminate. intros [= <-] [= ->]. eauto.
Qed.
Lemma pos_of_len k ks i : pos_of k ks = Some i -> (i < length ks)%nat.
Proof. revert i. induction ks as [|c ks IH]; cbn; intros i; [discriminate|]. destruct (bytes_eqb k c); [intros [= <-]; lia|]. destruct (pos_of k ks); [|discriminate]. intros [= <-]. specialize (IH n eq_refl). lia. Qed.

(** ** One step of a path *)
Definition kid (a : addr) (s : step) : place := match s with Key k => Mem a k | Idx n => Elem a n end.
Definition addr_of (x : hval) : option addr := match x with HStr _ _ => None | HArr _ p => p | HObj _ p => p end.
Definition kid_of (s : step) (n : node) : option hval :=
  match s, n with Key k, NObj m => map_find k m | Idx i, NArr l => nth_error l i | _, _ => None end.
Definition set_kid (s : step) (y : hval) (n : node) : node :=
  match s, n with
  | Key k, NObj m => NObj (upd_key (fun _ => y) k m)
  | Idx i, NArr l => NArr (upd_nth (fun _ => y) i l)
  | _, _ => n
  end.
Lemma set_kid_same s y n : kid_of s n = Some y -> set_kid s y n = n.
Proof. destruct s, n; cbn; intros H; try discriminate; f_equal; [now apply upd_key_same|now apply upd_nth_same]. Qed.
Lemma kid_of_set s y z n : kid_of s n = Some z -> kid_of s (set_kid s y n) = Some y.
Proof. destruct s, n; cbn; intros H; try discriminate; [now rewrite find_upd_same, H|now rewrite nth_upd_same, H]. Qed.
Lemma kid_of_set_other s s' y n : s <> s' -> kid_of s' (set_kid s y n) = kid_of s' n.
Proof. destruct s, s', n; cbn; intros H; auto; [apply find_upd_other; congruence|apply nth_upd_other; congruence]. Qed.
Definition node_like (x : hval) (n : node) : Prop := match x, n with HArr _ _, NArr _ | HObj _ _, NObj _ => True | _, _ => False end.
Lemma child_spec h s x a n : addr_of x = Some a -> nth_error h a = Some (Some n) -> node_like x n ->
  child h s x = match kid_of s n with Some y => Some (kid a s, y) | None => None end.
Proof.
  intros Ha Hn Hx. destruct x as [|t p|t p], n as [l|m]; cbn in Ha, Hx; try tauto; subst; destruct s; cbn; rewrite ?Hn; auto.
Qed.
Lemma like_set x n s y : node_like x n -> node_like x (set_kid s y n).
Proof. destruct x, n, s; cbn; auto. Qed.

Lemma step_view h x v fp s w : holds h x v fp -> get_at [s] v = Some w ->
  exists a n y f1 fy f2, addr_of x = Some a /\ nth_error h a = Some (Some n) /\ node_like x n /\ kid_of s n = Some y /\
  fp = a :: f1 ++ fy ++ f2 /\ holds h y w fy /\
  (forall h' y' w' fy', agree h h' (f1 ++ f2) -> nth_error h' a = Some (Some (set_kid s y' n)) -> holds h' y' w' fy' ->
    holds h' x (upd_at [s] (fun _ => w') v) (a :: f1 ++ fy' ++ f2)) /\
  (forall s' z, s' <> s -> kid_of s' n = Some z -> exists u fz, holds h z u fz /\ incl fz (f1 ++ f2)).
Proof.
  intros H E. destruct s as [k|i]; cbn in E.
  - inversion H as [| | | |t a m ms fp' Hn Hk Hm]; subst; try discriminate.
    destruct (map_find k ms) as [w'|] eqn:F; [|discriminate]. injection E as ->.
    assert (F' := F). rewrite find_pos in F. destruct (pos_of k (map fst ms)) as [i|] eqn:P; [|discriminate].
    destruct (holds_nth _ _ _ _ _ _ Hm F) as (y & f1 & fy & f2 & Ey & -> & Hy & Hu & Ho).
    exists a, (NObj m), y, f1, fy, f2. splits; auto; cbn; try exact I.
    + now rewrite find_pos, Hk, P.
    + intros h' y' w' fy' G Ha Hy'. cbn [kid_of set_kid] in *. econstructor; [exact Ha|now rewrite !upd_key_keys|].
      rewrite !upd_key_pos, Hk, P. auto.
    + intros [k'|i'] z Hs; cbn; [|discriminate]. rewrite find_pos, Hk. destruct (pos_of k' (map fst ms)) as [j|] eqn:P'; [|discriminate].
      apply Ho. intros ->. apply Hs. f_equal. eapply pos_of_inj; eauto.
  - inversion H as [| | |t a l vs fp' Hn Hm|]; subst; try discriminate.
    destruct (nth_error vs i) as [w'|] eqn:F; [|discriminate]. injection E as ->.
    destruct (holds_nth _ _ _ _ _ _ Hm F) as (y & f1 & fy & f2 & Ey & -> & Hy & Hu & Ho).
    exists a, (NArr l), y, f1, fy, f2. splits; auto; cbn; try exact I.
    + intros h' y' w' fy' G Ha Hy'. econstructor; [exact Ha|]. auto.
    + intros [k'|i'] z Hs; cbn; [discriminate|]. apply Ho. congruence.
Qed.
Lemma child_get h x v fp s : holds h x v fp -> get_at [s] v = None -> child h s x = None.
Proof.
  intros H. destruct s as [k|i]; cbn.
  - inversion H as [| | | |t a m ms fp' Hn Hk Hm]; subst; auto. rewrite Hn. rewrite !find_pos, Hk.
    destruct (pos_of k (map fst ms)) as [i|]; [|auto]. pose proof (holds_all_length _ _ _ _ Hm) as L.
    destruct (nth_error (map snd ms) i) eqn:E; [discriminate|]. intros _. apply nth_error_None in E. rewrite <- L in E. apply nth_error_None in E. now rewrite E.
  - inversion H as [| | |t a l vs fp' Hn Hm|]; subst; auto. rewrite Hn. pose proof (holds_all_length _ _ _ _ Hm) as L.
    destruct (nth_error vs i) eqn:E; [discriminate|]. intros _. apply nth_error_None in E. rewrite <- L in E. apply nth_error_None in E. now rewrite E.
Qed.
Lemma get_at_cons s p v : get_at (s :: p) v = match get_at [s] v with Some w => get_at p w | None => None end.
Proof. apply (get_at_app [s] p v). Qed.
Lemma upd_at_cons s p f v w : get_at [s] v = Some w -> upd_at (s :: p) f v = upd_at [s] (fun _ => upd_at p f w) v.
Proof.
  destruct s as [k|i]; cbn; destruct v as [|t [l|]|t [m|]]; try discriminate.
  - destruct (map_find k m) eqn:E; [|discriminate]. intros [= ->]. now rewrite (upd_key_const _ _ _ _ E).
  - destruct (nth_error l i) eqn:E; [|discriminate]. intros [= ->]. now rewrite (upd_nth_const _ _ _ _ E).
Qed.
Lemma walk_frame h h' q : forall pl x v fp, holds h x v fp -> agree h h' fp -> walk h' q (pl, x) = walk h q (pl, x).
Proof.
  induction q as [|s q IH]; intros pl x v fp H G; cbn [walk snd]; auto.
  destruct (get_at [s] v) as [w|] eqn:E.
  - destruct (step_view _ _ _ _ _ _ H E) as (a & n & y & f1 & fy & f2 & Ha & Hn & Hl & Hk & -> & Hy & _ & _).
    apply agree_cons in G as [G1 G2]. rewrite (child_spec h s x a n), (child_spec h' s x a n), Hk; auto; [|congruence].
    eapply IH; eauto. eapply agree_incl; [exact G2|]. apply incl_appr, incl_appl, incl_refl.
  - rewrite (child_get h x v fp s), (child_get h' x v fp s); auto. eapply holds_frame; eauto.
Qed.

Lemma nodup_app {A} (l1 l2 : list A) : NoDup (l1 ++ l2) <-> NoDup l1 /\ NoDup l2 /\ forall x, In x l1 -> In x l2 -> False.
Proof.
  induction l1 as [|x l1 IH]; cbn.
  - split; [intros H; splits; auto; constructor|tauto].
  - rewrite !NoDup_cons_iff, IH, in_app_iff. split.
    + intros (H1 & H2 & H3 & H4). splits; auto. intros y [->|Hy]; eauto.
    + intros ((H1 & H2) & H3 & H4). splits; auto; [|intros; eapply H4; eauto]. intros [?|?]; eauto.
Qed.

(** ** A path: the place it leads to, and what writing there does *)
Lemma focus_steps p : forall h x v fp pl0 w, holds h x v fp -> NoDup fp -> get_at p v = Some w ->
  exists pl y F1 fy F2, walk h p (pl0, x) = Some (pl, y) /\ fp = F1 ++ fy ++ F2 /\ holds h y w fy /\
  ((p = [] /\ pl = pl0 /\ y = x /\ F1 = [] /\ F2 = []) \/
   exists a s n, p <> [] /\ pl = kid a s /\ In a F1 /\ nth_error h a = Some (Some n) /\ kid_of s n = Some y /\
     forall h2 y' w' fy', agree h h2 (remove Nat.eq_dec a (F1 ++ F2)) -> nth_error h2 a = Some (Some (set_kid s y' n)) ->
       holds h2 y' w' fy' ->
       holds h2 x (upd_at p (fun _ => w') v) (F1 ++ fy' ++ F2) /\ walk h2 p (pl0, x) = Some (pl, y') /\
       forall q r, path_prefix p q = false -> walk h q (pl0, x) = Some r -> walk h2 q (pl0, x) = Some r).
Proof.
  induction p as [|s p IH]; intros h x v fp pl0 w H D E.
  - cbn in E. injection E as <-. exists pl0, x, [], fp, []. rewrite app_nil_r. splits; auto. left. splits; auto.
  - rewrite get_at_cons in E. destruct (get_at [s] v) as [w0|] eqn:E0; [|discriminate].
    destruct (step_view _ _ _ _ _ _ H E0) as (a0 & n0 & y0 & f1 & fy0 & f2 & Ha & Hn & Hl & Hk & -> & Hy & Hu & Ho).
    apply NoDup_cons_iff in D as [Da D]. apply nodup_app in D as (D1 & D2 & D3). apply nodup_app in D2 as (D2 & D4 & D5).
    assert (K0 : child h s x = Some (kid a0 s, y0)) by (rewrite (child_spec h s x a0 n0), Hk; auto).
    destruct (IH h y0 w0 fy0 (kid a0 s) w Hy D2 E) as (pl & y & F1 & fy & F2 & W & -> & Hy' & C).
    exists pl, y, (a0 :: f1 ++ F1), fy, (F2 ++ f2). splits; auto.
    + cbn [walk snd]. now rewrite K0.
    + cbn. now rewrite <- !app_assoc.
    + right. destruct C as [(-> & -> & -> & -> & ->)|(a & s' & n & Hp & -> & Hin & Hna & Hka & U)].
      * exists a0, s, n0. splits; auto; [discriminate|now left|]. cbn in E. injection E as ->.
        intros h2 y' w' fy' G Ga Hy2.
        assert (G12 : agree h h2 (f1 ++ f2)).
        { intros b Hb. apply G. apply in_in_remove.
          - intros ->. apply Da. rewrite !in_app_iff in *. tauto.
          - cbn. rewrite !in_app_iff in *. tauto. }
        assert (K2 : child h2 s x = Some (kid a0 s, y')).
        { rewrite (child_spec h2 s x a0 (set_kid s y' n0)); auto; [now rewrite (kid_of_set _ _ _ _ Hk)|now apply like_set]. }
        splits.
        -- rewrite (upd_at_cons s [] _ v w E0). cbn [upd_at]. rewrite app_nil_r. eapply Hu; eauto.
        -- cbn [walk snd]. now rewrite K2.
        -- intros [|s2 q] r Hq; cbn [walk snd]; auto.
           assert (Hs : s <> s2). { intros ->. cbn in Hq. rewrite (proj2 (step_eqb_eq s2 s2) eq_refl) in Hq. discriminate. }
           rewrite (child_spec h s2 x a0 n0), (child_spec h2 s2 x a0 (set_kid s y' n0)); auto; [|now apply like_set].
           rewrite kid_of_set_other by auto. destruct (kid_of s2 n0) as [z|] eqn:Ez; auto. destruct (Ho s2 z) as (u & fz & Hz & I); auto.
           intros Hw. rewrite <- Hw. eapply walk_frame; [exact Hz|exact (agree_incl _ _ _ _ G12 I)].
      * exists a, s', n. splits; auto; [discriminate|right; apply in_or_app; now right|].
        intros h2 y' w' fy' G Ga Hy2.
        assert (Na : a <> a0). { intros ->. apply Da. rewrite !in_app_iff. tauto. }
        assert (Nf : ~ In a (f1 ++ f2)).
        { rewrite in_app_iff. intros [Hb|Hb]; [eapply D3; [exact Hb|]|eapply D5; [|exact Hb]]; rewrite !in_app_iff; tauto. }
        assert (G12 : agree h h2 (f1 ++ f2)).
        { intros b Hb. apply G. apply in_in_remove; [intros ->; tauto|]. cbn. rewrite !in_app_iff in *. tauto. }
        assert (Ga0 : nth_error h2 a0 = nth_error h a0). { apply G. apply in_in_remove; auto. now left. }
        assert (GF : agree h h2 (remove Nat.eq_dec a (F1 ++ F2))).
        { intros b Hb. apply in_remove in Hb as [Hb Hn']. apply G. apply in_in_remove; auto. cbn. rewrite !in_app_iff in *. tauto. }
        destruct (U h2 y' w' fy' GF Ga Hy2) as (U1 & U2 & U3).
        splits.
        -- rewrite (upd_at_cons s p _ v w0 E0). cbn [app]. rewrite <- !app_assoc.
           replace (f1 ++ F1 ++ fy' ++ F2 ++ f2) with (f1 ++ (F1 ++ fy' ++ F2) ++ f2) by now rewrite <- !app_assoc.
           apply Hu with (y' := y0); auto. rewrite Ga0, Hn. now rewrite set_kid_same.
        -- cbn [walk snd]. rewrite (child_spec h2 s x a0 n0), Hk; auto. congruence.
        -- intros [|s2 q] r Hq; cbn [walk snd]; auto.
           rewrite (child_spec h s2 x a0 n0), (child_spec h2 s2 x a0 n0); auto; [|congruence].
           destruct (kid_of s2 n0) as [z|] eqn:Ez; auto. cbn [path_prefix] in Hq. destruct (step_eqb s s2) eqn:Es.
           ++ apply step_eqb_eq in Es as <-. rewrite Hk in Ez. injection Ez as <-. now apply U3.
           ++ destruct (Ho s2 z) as (u & fz & Hz & I); auto.
              { intros ->. rewrite (proj2 (step_eqb_eq s s) eq_refl) in Es. discriminate. }
              intros Hw. rewrite <- Hw. eapply walk_frame; [exact Hz|exact (agree_incl _ _ _ _ G12 I)].
Qed.
