(** * Editing nodes: appending, inserting, extracting; building objects; reading trees. *)
From Verif Require Import Base Value Spec Containers Dump Api SpecApi BaseProofs ContainerProofs ApiProofs Heap SpecHeap HeapBase HeapSteps HeapOps HeapMoves.
From Coq Require Import Permutation.

Lemma node_step R ex h fl st fp fv l w pl y a : holds_all h R st fp -> NoDup (fp ++ fv) -> (forall b, live h b -> In b (fp ++ fv)) ->
  read st l = Some w -> resolve (HS (R ++ ex) h fl) l = Some (pl, y) -> addr_of y = Some a ->
  exists ks n, holds h y w (a :: ks) /\ nth_error h a = Some (Some n) /\ node_like y n /\ ~ In a (ks ++ fv) /\
  forall n' w' fx ex' vs' fv', let h1 := upd_nth (fun _ => Some n') a h in
    Permutation (fx ++ fv') (ks ++ fv) ->
    (nth_error h1 a = Some (Some n') -> (forall b, b <> a -> nth_error h1 b = nth_error h b) -> holds h1 y w' (a :: fx) /\ holds_all h1 ex' vs' fv') ->
    upto (length st) [l] [l] (HS (R ++ ex) h fl) (HS (R ++ ex') h1 fl) (write st l w' ++ vs') /\
    resolve (HS (R ++ ex') h1 fl) l = Some (pl, y) /\
    (node_like y n' -> (forall s z, kid_of s n = Some z -> kid_of s n' = Some z) -> keeps (length st) [] [] (HS (R ++ ex) h fl) (HS (R ++ ex') h1 fl)) /\
    (node_like y n' -> forall l' r, (slot l' < length st)%nat -> within l l' = true ->
     (forall s q z, steps l' = steps l ++ s :: q -> kid_of s n = Some z -> kid_of s n' = Some z) ->
     resolve (HS (R ++ ex) h fl) l' = Some r -> resolve (HS (R ++ ex') h1 fl) l' = Some r).
Proof.
  intros H D L E V A. pose proof (holds_all_length _ _ _ _ H) as LR. pose proof (read_slot _ _ _ E) as Ls.
  assert (V0 : resolve (HS R h fl) l = Some (pl, y)) by (rewrite <- (resolve_ext R ex h fl fl) by lia; exact V).
  assert (D0 := D). apply nodup_app in D as (D1 & D2 & D3).
  destruct (edit h R st fp l w fl pl y a H D1 E V0 A) as (F1 & ks & F2 & n & -> & Hy & Hn & Ln & U).
  apply nodup_app in D1 as (D4 & D5 & D6). assert (D5' := D5). apply nodup_app in D5 as (D5 & D7 & D8). apply NoDup_cons_iff in D5 as [Da D5].
  assert (Nv : ~ In a fv). { intros Hv. apply (D3 a); auto. rewrite !in_app_iff. cbn. tauto. }
  exists ks, n. splits; auto. { rewrite in_app_iff. tauto. }
  intros n' w' fx ex' vs' fv' h1 Pm Hh.
  assert (Ha1 : nth_error h1 a = Some (Some n')) by (unfold h1; now rewrite nth_upd_same, Hn).
  destruct Hh as [Hy1 He1]; auto. { intros b Hb. apply nth_upd_other. auto. }
  destruct (U n' w' fx Hy1) as [H1 Rs].
  { intros b Hb [<-|Hf]; [apply (D6 a); auto; now left|]. assert (In b (ks ++ fv)) as I by (eapply Permutation_in; [exact Pm|apply in_or_app; auto]).
    apply in_app_or in I as [I|I]; [apply (D6 b); auto; right; apply in_or_app; auto|apply (D3 b); auto; apply in_or_app; auto]. }
  destruct (Rs ex ex' fl) as (R1 & R2 & R3). splits; auto.
  - split; [|split; [|intros Hq; exact Hq]].
    + exists ((F1 ++ (a :: fx) ++ F2) ++ fv'). eapply simf_perm with (fp' := (F1 ++ (a :: ks) ++ F2) ++ fv); auto.
      * now apply holds_all_app.
      * rewrite <- !app_assoc. apply Permutation_app_head. cbn. constructor.
        rewrite !(Permutation_app_comm F2), !app_assoc. now apply Permutation_app_tail.
      * intros b Hb. apply L. apply (live_upd h a n' b); auto. eexists; eauto.
    + apply (keeps_at _ _ _ _ pl); [eexists; eauto|eexists; eauto|]. exact R2.
  - intros Ln' Hk. split.
    + intros l' pl' Hl _ (z & Ez). exists z. destruct (within l l') eqn:Ew; [eapply R3|eapply R2]; eauto.
    + intros l' r Hl _ Ez. destruct (within l l') eqn:Ew; [eapply R3|eapply R2]; eauto.
Qed.
Lemma set_node_ok a n m R h fl : nth_error h a = Some (Some n) -> set_node a m (HS R h fl) = HDone (HS R (upd_nth (fun _ => Some m) a h) fl) (Ok tt).
Proof. intros H. unfold set_node. cbn. now rewrite H. Qed.
Lemma frame_except h h1 a fp : (forall b, b <> a -> nth_error h1 b = nth_error h b) -> ~ In a fp -> agree h h1 fp.
Proof. intros H N b Hb. apply H. intros ->. auto. Qed.
Lemma inv_arr h y t xs a ks n : holds h y (VArr t (Some xs)) (a :: ks) -> nth_error h a = Some (Some n) -> exists l, n = NArr l /\ y = HArr t (Some a) /\ holds_all h l xs ks.
Proof. intros H E. inversion H as [| | |? ? l ? ? Hn Hl|]; subst. rewrite E in Hn. injection Hn as ->. eauto. Qed.
Lemma inv_obj h y t xs a ks n : holds h y (VObj t (Some xs)) (a :: ks) -> nth_error h a = Some (Some n) ->
  exists m, n = NObj m /\ y = HObj t (Some a) /\ map fst m = map fst xs /\ holds_all h (map snd m) (map snd xs) ks.
Proof. intros H E. inversion H as [| | | |? ? l ? ? Hn Hk Hl]; subst. rewrite E in Hn. injection Hn as ->. eauto. Qed.

Lemma append_upto hs st vs n l t xs pl t' a : length vs = n -> sim hs (st ++ vs) -> read st l = Some (VArr t (Some xs)) -> resolve hs l = Some (pl, HArr t' (Some a)) ->
  exists hs', append_top a n hs = HDone hs' (Ok tt) /\ upto (length st) [] [] hs hs' (write st l (VArr t (Some (xs ++ vs)))).
Proof.
  intros <- (f & S) E V. destruct (simf_split _ _ _ _ S) as (R & ys & fp & fv & Er & -> & H & B & D & L).
  destruct hs as [R' h fl]. cbn in *. subst R'. pose proof (holds_all_length _ _ _ _ B) as Lb.
  destruct (node_step R ys h fl st fp fv l _ pl _ a H D L E V eq_refl) as (ks & n & Hy & Hn & Ln & Na & U).
  destruct (inv_arr _ _ _ _ _ _ _ Hy Hn) as (lx & -> & Ey & Hl).
  destruct (U (NArr (lx ++ ys)) (VArr t (Some (xs ++ vs))) (ks ++ fv) [] [] []) as ((S' & K & Q) & _ & K' & _).
  - now rewrite app_nil_r.
  - intros Ha1 Ho. rewrite in_app_iff in Na. split; [|constructor]. rewrite Ey. econstructor; [exact Ha1|].
    apply holds_all_app; (eapply holds_all_frame; [eassumption|]; eapply frame_except; eauto).
  - rewrite !app_nil_r in *. eexists. split.
    + unfold append_top, hbind. rewrite take_top_ok by auto. rewrite (arr_node_ok a lx) by exact Hn. now rewrite (set_node_ok a (NArr lx)).
    + split; [exact S'|]. split; [|exact Q]. apply K'; [exact I|]. intros [k|i] z; cbn; [discriminate|]. intros Hz. rewrite nth_error_app1; auto. apply nth_error_Some. congruence.
Qed.

(** ** Positions of keys *)
Fixpoint ins_pos (k : bytes) (ks : list bytes) : nat :=
  match ks with [] => 0 | k' :: r => if bytes_ltb k k' then 0 else S (ins_pos k r) end%nat.
Fixpoint emp_new (k : bytes) (ks : list bytes) : bool :=
  match ks with [] => true | k' :: r => if bytes_ltb k k' then true else if bytes_eqb k k' then false else emp_new k r end.
Definition ins {A} (i : nat) (x : A) (l : list A) : list A := firstn i l ++ x :: skipn i l.
Lemma map_ins {A B} (f : A -> B) i x l : map f (ins i x l) = ins i (f x) (map f l).
Proof. unfold ins. cbn. now rewrite map_app, firstn_map, skipn_map. Qed.
Lemma assign_ins {A} k (x : A) m : map_find k m = None -> map_assign k x m = ins (ins_pos k (map fst m)) (k, x) m.
Proof.
  induction m as [|(k', y) m IH]; cbn; auto. destruct (bytes_eqb k k') eqn:E; [discriminate|]. intros H.
  destruct (bytes_ltb k k'); auto. unfold ins. cbn. f_equal. now apply IH.
Qed.
Lemma emplace_new {A} k (x : A) m : snd (map_emplace k x m) = emp_new k (map fst m).
Proof. induction m as [|(k', y) m IH]; cbn; auto. destruct (bytes_ltb k k'); auto. destruct (bytes_eqb k k'); auto. destruct (map_emplace k x m); auto. Qed.
Lemma emplace_ins {A} k (x : A) m : fst (map_emplace k x m) = if emp_new k (map fst m) then ins (ins_pos k (map fst m)) (k, x) m else m.
Proof.
  induction m as [|(k', y) m IH]; cbn; auto. destruct (bytes_ltb k k'); auto. destruct (bytes_eqb k k'); auto.
  destruct (map_emplace k x m) as [r b]. cbn in *. rewrite IH. destruct (emp_new k (map fst m)); reflexivity.
Qed.
Lemma holds_all_firstn h i : forall l vs f, holds_all h l vs f -> exists f1 f2, f = f1 ++ f2 /\ holds_all h (firstn i l) (firstn i vs) f1 /\ holds_all h (skipn i l) (skipn i vs) f2.
Proof.
  induction i as [|i IH]; intros l vs f H.
  - exists [], f. splits; auto. constructor.
  - inversion H as [|x v fx l' vs' fs Hx Hl]; subst; cbn.
    + exists [], []. splits; auto; constructor.
    + destruct (IH _ _ _ Hl) as (f1 & f2 & -> & A & B). exists (fx ++ f1), f2. splits; [now rewrite app_assoc|constructor; auto|auto].
Qed.
Lemma holds_all_ins h i l vs f x v fx : holds_all h l vs f -> holds h x v fx -> exists f', Permutation f' (f ++ fx) /\ holds_all h (ins i x l) (ins i v vs) f'.
Proof.
  intros H Hx. destruct (holds_all_firstn h i _ _ _ H) as (f1 & f2 & -> & A & B). exists (f1 ++ fx ++ f2). split.
  - rewrite <- app_assoc. apply Permutation_app_head, Permutation_app_comm.
  - apply holds_all_app; auto. now constructor.
Qed.
Lemma find_ins_other {A} k k' (x : A) i m : k <> k' -> map_find k' (ins i (k, x) m) = map_find k' m.
Proof.
  intros Hk. assert (E : bytes_eqb k' k = false). { destruct (bytes_eqb k' k) eqn:Eb; auto. apply bytes_eqb_eq in Eb. congruence. }
  unfold ins. revert m. induction i as [|i IH]; intros m; cbn; [now rewrite E|]. destruct m as [|(k0, y) m]; cbn; [now rewrite E|].
  destruct (bytes_eqb k' k0); auto.
Qed.
Lemma find_none_keys {A B} k (m : list (bytes * A)) (m' : list (bytes * B)) : map fst m = map fst m' -> map_find k m = None -> map_find k m' = None.
Proof. revert m'. induction m as [|(a, x) m IH]; intros [|(a', x') m']; cbn; try discriminate; auto. intros [= -> E]. destruct (bytes_eqb k a'); [discriminate|auto]. Qed.

Lemma insert_upto hs st v l t ms pl t' a k : sim hs (st ++ [v]) -> read st l = Some (VObj t (Some ms)) -> resolve hs l = Some (pl, HObj t' (Some a)) -> map_find k ms = None ->
  exists hs', insert_top a k hs = HDone hs' (Ok tt) /\ upto (length st) [] [] hs hs' (write st l (VObj t (Some (map_assign k v ms)))).
Proof.
  intros (f & S) E V F. destruct (simf_split _ _ _ _ S) as (R & ys & fp & fv & Er & -> & H & B & D & L).
  pose proof (holds_all_length _ _ _ _ B) as Lb. destruct ys as [|x []]; try discriminate. pose proof B as B0. apply holds_all_one in B.
  destruct hs as [R' h fl]. cbn in *. subst R'.
  destruct (node_step R [x] h fl st fp fv l _ pl _ a H D L E V eq_refl) as (ks & n & Hy & Hn & Ln & Na & U).
  destruct (inv_obj _ _ _ _ _ _ _ Hy Hn) as (m & -> & Ey & Hk & Hl).
  pose proof (find_none_keys k ms m (eq_sym Hk) F) as Fm. rewrite in_app_iff in Na.
  destruct (holds_all_ins h (ins_pos k (map fst ms)) _ _ _ _ _ _ Hl B) as (f' & Pf & Hf).
  destruct (U (NObj (map_assign k x m)) (VObj t (Some (map_assign k v ms))) f' [] [] []) as ((S' & K & Q) & _ & K' & _).
  - now rewrite app_nil_r.
  - generalize (upd_nth (fun _ => Some (NObj (map_assign k x m))) a h). intros h1 Ha1 Ho. split; [|constructor]. rewrite Ey. econstructor; [exact Ha1|..]; rewrite !assign_ins by auto; rewrite !map_ins, Hk; auto.
    cbn. eapply holds_all_frame; [exact Hf|]. apply (frame_except h _ a); [exact Ho|]. intros Hi. apply (Permutation_in _ Pf) in Hi. rewrite in_app_iff in Hi. tauto.
  - rewrite !app_nil_r in *. eexists. split.
    + unfold insert_top, hbind. rewrite pop_ok. rewrite (obj_node_ok a m) by exact Hn. now rewrite (set_node_ok a (NObj m)).
    + split; [exact S'|]. split; [|exact Q]. apply K'; [exact I|]. intros [k'|i] z; cbn; [|discriminate]. intros Hz. rewrite assign_ins by auto.
      rewrite find_ins_other; auto. intros ->. congruence.
Qed.
Lemma remove_nth_app {A} (l1 l2 : list A) x : remove_nth (l1 ++ x :: l2) (length l1) = l1 ++ l2.
Proof. induction l1; cbn; auto. now f_equal. Qed.
Lemma holds_all_remove h l vs f i v : holds_all h l vs f -> nth_error vs i = Some v -> exists x fx f', nth_error l i = Some x /\ holds h x v fx /\ Permutation (f' ++ fx) f /\
  holds_all h (remove_nth l i) (remove_nth vs i) f'.
Proof.
  intros H E. apply nth_split' in E as (v1 & v2 & -> & <-). destruct (holds_all_split _ _ _ _ _ H) as (l1 & l2 & f1 & f2 & -> & -> & A & B).
  inversion B as [|x ? fx l2' ? f2' Hx Hl2]; subst. pose proof (holds_all_length _ _ _ _ A) as Ll. exists x, fx, (f1 ++ f2'). splits; auto.
  - rewrite <- Ll, nth_error_app2, Nat.sub_diag by lia. reflexivity.
  - rewrite <- app_assoc. apply Permutation_app_head, Permutation_app_comm.
  - rewrite <- Ll at 1. rewrite !remove_nth_app. now apply holds_all_app.
Qed.
Lemma nth_remove_below {A} (l : list A) : forall i j, (j < i)%nat -> nth_error (remove_nth l i) j = nth_error l j.
Proof. induction l as [|x l IH]; intros [|i] [|j] H; cbn; auto; try lia. apply IH. lia. Qed.
Lemma find_erase_other {A} k k' (m : list (bytes * A)) : k <> k' -> map_find k' (fst (map_erase k m)) = map_find k' m.
Proof.
  intros N. induction m as [|(k0, x) m IH]; cbn; auto. destruct (bytes_eqb k k0) eqn:E.
  - apply bytes_eqb_eq in E as <-. destruct (bytes_eqb k' k) eqn:E'; auto. apply bytes_eqb_eq in E'. congruence.
  - destruct (map_erase k m) as [r b]. cbn in *. destruct (bytes_eqb k' k0); auto.
Qed.
(** the place of [l] stays; so do those outside it, and those in it that [H] covers *)
Lemma below_stays (P : loc -> Prop) l pl n {hs hs'} : keeps n [l] [l] hs hs' -> vref hs l pl -> vref hs' l pl ->
  (forall l' r, (slot l' < n)%nat -> within l l' = true -> ~ P l' -> resolve hs l' = Some r -> resolve hs' l' = Some r) -> stays P n hs hs'.
Proof.
  intros [_ K] V V' H l' pl' L F (y & E). destruct (within l l') eqn:W; exists y; auto.
Qed.
Lemma extract_upto hs st l t xs pl t' a i v : sim hs st -> read st l = Some (VArr t (Some xs)) -> resolve hs l = Some (pl, HArr t' (Some a)) -> nth_error xs i = Some v ->
  exists hs', extract a i hs = HDone hs' (Ok tt) /\ upto (length st) [l] [l] hs hs' (write st l (VArr t (Some (remove_nth xs i))) ++ [v]) /\
    stays (fun l' => exists j, (i <= j)%nat /\ within (sub l (Idx j)) l' = true) (length st) hs hs'.
Proof.
  intros (fp & H & D & L) E V F. destruct hs as [R h fl]. cbn in *. rewrite <- (app_nil_r fp) in D, L. rewrite <- (app_nil_r R) in V.
  destruct (node_step R [] h fl st fp [] l _ pl _ a H D L E V eq_refl) as (ks & n & Hy & Hn & Ln & Na & U). rewrite !app_nil_r in *.
  destruct (inv_arr _ _ _ _ _ _ _ Hy Hn) as (lx & -> & Ey & Hl). destruct (holds_all_remove _ _ _ _ _ _ Hl F) as (x & fx & f' & Ex & Hx & Pf & Hf).
  destruct (U (NArr (remove_nth lx i)) (VArr t (Some (remove_nth xs i))) f' [x] [v] fx) as ((S' & K & Q) & Rl & _ & Fine); auto.
  - intros Ha1 Ho. assert (Nf : ~ In a (f' ++ fx)) by (intros Hi; apply Na; eapply Permutation_in; eauto). rewrite in_app_iff in Nf. split.
    + rewrite Ey. econstructor; [exact Ha1|]. eapply holds_all_frame; [exact Hf|]. eapply frame_except; eauto.
    + apply holds_all_one. eapply holds_frame; [exact Hx|]. eapply frame_except; eauto.
  - eexists. split; [|split; [split; [exact S'|split; [exact K|exact Q]]|]].
    + unfold extract, hbind. rewrite (arr_node_ok a lx) by exact Hn. rewrite Ex. cbn. unfold set_node. cbn. now rewrite Hn.
    + apply (below_stays _ l pl _ K); [eexists; exact V|eexists; exact Rl|]. intros l' r Hl' Hw Np. apply (Fine I); auto. intros s q z Eq. destruct s as [k|j]; cbn; [discriminate|].
      intros Ez. destruct (Nat.lt_ge_cases j i) as [Hj|Hj]; [now rewrite nth_remove_below|].
      exfalso. apply Np. exists j. split; auto. apply within_spec in Hw as (Es & _). apply within_spec. cbn. split; auto. exists q. now rewrite <- app_assoc.
Qed.
Lemma erase_pos {A} k (m : list (bytes * A)) i : pos_of k (map fst m) = Some i -> fst (map_erase k m) = remove_nth m i.
Proof.
  revert i. induction m as [|(k', x) m IH]; cbn; [discriminate|]. intros i. destruct (bytes_eqb k k'); [now intros [= <-]|].
  destruct (pos_of k (map fst m)) as [j|]; [|discriminate]. intros [= <-]. destruct (map_erase k m) as [r b]. cbn in *. f_equal. auto.
Qed.
Lemma map_remove {A B} (f : A -> B) l : forall i, map f (remove_nth l i) = remove_nth (map f l) i.
Proof. induction l; intros [|i]; cbn; auto. now rewrite IHl. Qed.
Lemma extract_key_upto hs st l t ms pl t' a k v : sim hs st -> read st l = Some (VObj t (Some ms)) -> resolve hs l = Some (pl, HObj t' (Some a)) -> map_find k ms = Some v ->
  exists hs', extract_key a k hs = HDone hs' (Ok tt) /\ upto (length st) [l] [l] hs hs' (write st l (VObj t (Some (fst (map_erase k ms)))) ++ [v]) /\
    stays (fun l' => within (sub l (Key k)) l' = true) (length st) hs hs'.
Proof.
  intros (fp & H & D & L) E V F. destruct hs as [R h fl]. cbn in *. rewrite <- (app_nil_r fp) in D, L. rewrite <- (app_nil_r R) in V.
  destruct (node_step R [] h fl st fp [] l _ pl _ a H D L E V eq_refl) as (ks & n & Hy & Hn & Ln & Na & U). rewrite !app_nil_r in *.
  destruct (inv_obj _ _ _ _ _ _ _ Hy Hn) as (m & -> & Ey & Hk & Hl).
  assert (F0 := F). rewrite find_pos in F. destruct (pos_of k (map fst ms)) as [i|] eqn:P; [|discriminate].
  destruct (holds_all_remove _ _ _ _ _ _ Hl F) as (x & fx & f' & Ex & Hx & Pf & Hf).
  assert (Pm : pos_of k (map fst m) = Some i) by now rewrite Hk.
  destruct (U (NObj (fst (map_erase k m))) (VObj t (Some (fst (map_erase k ms)))) f' [x] [v] fx) as ((S' & K & Q) & Rl & _ & Fine); auto.
  - generalize (upd_nth (fun _ => Some (NObj (fst (map_erase k m)))) a h). intros h1 Ha1 Ho. assert (Nf : ~ In a (f' ++ fx)) by (intros Hi; apply Na; eapply Permutation_in; eauto). rewrite in_app_iff in Nf. split.
    + rewrite Ey. econstructor; [exact Ha1|..]; rewrite !(erase_pos k _ i) by auto; rewrite !map_remove, ?Hk; auto.
      eapply holds_all_frame; [exact Hf|]. eapply frame_except; eauto.
    + apply holds_all_one. eapply holds_frame; [exact Hx|]. eapply frame_except; eauto.
  - eexists. split; [|split; [split; [exact S'|split; [exact K|exact Q]]|]].
    + unfold extract_key, hbind. rewrite (obj_node_ok a m) by exact Hn. rewrite find_pos, Pm, Ex. cbn. unfold set_node. cbn. now rewrite Hn.
    + apply (below_stays _ l pl _ K); [eexists; exact V|eexists; exact Rl|]. intros l' r Hl' Hw Np. apply (Fine I); auto. intros s q z Eq. destruct s as [k'|j]; cbn; [|discriminate].
      intros Ez. rewrite find_erase_other; auto. intros <-.
      apply Np. apply within_spec in Hw as (Es & _). apply within_spec. cbn. split; auto. exists q. now rewrite <- app_assoc.
Qed.
Lemma each_push l : forall R h fl, each push l (HS R h fl) = HDone (HS (R ++ l) h fl) (Ok tt).
Proof. induction l as [|x l IH]; intros R h fl; cbn [each]; [now rewrite app_nil_r|]. unfold hbind. cbn. rewrite IH. now rewrite <- app_assoc. Qed.
Lemma explode_upto hs st l t xs pl t' a mv mw : sim hs st -> read st l = Some (VArr t (Some xs)) -> resolve hs l = Some (pl, HArr t' (Some a)) ->
  (forall h lx f h', holds_all h lx xs f -> holds_all h' (mv lx) (mw xs) []) ->
  exists hs', explode a mv hs = HDone hs' (Ok (length xs)) /\ upto (length st) [l] [l] hs hs' (write st l (VArr t (Some (mw xs))) ++ xs).
Proof.
  intros (fp & H & D & L) E V M. destruct hs as [R h fl]. cbn in *. rewrite <- (app_nil_r fp) in D, L. rewrite <- (app_nil_r R) in V.
  destruct (node_step R [] h fl st fp [] l _ pl _ a H D L E V eq_refl) as (ks & n & Hy & Hn & Ln & Na & U). rewrite !app_nil_r in *.
  destruct (inv_arr _ _ _ _ _ _ _ Hy Hn) as (lx & -> & Ey & Hl).
  destruct (U (NArr (mv lx)) (VArr t (Some (mw xs))) [] lx xs ks) as ((S' & K & Q) & _ & _); auto.
  - intros Ha1 Ho. split; [rewrite Ey; econstructor; [exact Ha1|eauto]|]. eapply holds_all_frame; [exact Hl|]. eapply frame_except; eauto.
  - eexists. split; [|split; [exact S'|split; [exact K|exact Q]]].
    unfold explode, hbind. rewrite (arr_node_ok a lx) by exact Hn. rewrite each_push. unfold set_node. cbn. rewrite Hn. cbn.
    now rewrite (holds_all_length _ _ _ _ Hl).
Qed.
Lemma explode_obj_upto hs st l t ms pl t' a : sim hs st -> read st l = Some (VObj t (Some ms)) -> resolve hs l = Some (pl, HObj t' (Some a)) ->
  exists hs', explode_obj a hs = HDone hs' (Ok (length (map snd ms))) /\ upto (length st) [l] [l] hs hs' (write st l (VObj t (Some [])) ++ map snd ms).
Proof.
  intros (fp & H & D & L) E V. destruct hs as [R h fl]. cbn in *. rewrite <- (app_nil_r fp) in D, L. rewrite <- (app_nil_r R) in V.
  destruct (node_step R [] h fl st fp [] l _ pl _ a H D L E V eq_refl) as (ks & n & Hy & Hn & Ln & Na & U). rewrite !app_nil_r in *.
  destruct (inv_obj _ _ _ _ _ _ _ Hy Hn) as (m & -> & Ey & Hk & Hl).
  destruct (U (NObj []) (VObj t (Some [])) [] (map snd m) (map snd ms) ks) as ((S' & K & Q) & _ & _); auto.
  - intros Ha1 Ho. split; [rewrite Ey; econstructor; [exact Ha1|reflexivity|constructor]|]. eapply holds_all_frame; [exact Hl|]. eapply frame_except; eauto.
  - eexists. split; [|split; [exact S'|split; [exact K|exact Q]]].
    unfold explode_obj, hbind. rewrite (obj_node_ok a m) by exact Hn. rewrite each_push. unfold set_node. cbn. rewrite Hn. cbn.
    pose proof (holds_all_length _ _ _ _ Hl) as Lm. rewrite !map_length in *. now rewrite Lm.
Qed.
Lemma emp_new_sorted k (ms : object) : sorted_keys ms -> emp_new k (map fst ms) = true -> map_find k ms = None.
Proof.
  intros So E. destruct (map_find k ms) as [y|] eqn:F; auto. exfalso. pose proof (emplace_ins k v_null ms) as En. rewrite E in En.
  rewrite (map_emplace_assign k v_null ms So), F in En. apply (f_equal (@length _)) in En. unfold ins in En.
  rewrite <- (firstn_skipn (ins_pos k (map fst ms)) ms), !app_length in En at 1. cbn [length] in En. lia.
Qed.
(** operator[](key): the new member is null *)
Lemma fresh_upto hs st l t ms pl t' a k : sim hs st -> read st l = Some (VObj t (Some ms)) -> resolve hs l = Some (pl, HObj t' (Some a)) ->
  exists m, obj_node a hs = HDone hs (Ok m) /\ map fst m = map fst ms /\ exists hs', set_node a (NObj (fst (map_emplace k (HStr Tnull []) m))) hs = HDone hs' (Ok tt) /\
    upto (length st) [l] [l] hs hs' (write st l (VObj t (Some (fst (map_emplace k v_null ms))))) /\
    (sorted_keys ms -> stays (fun _ => False) (length st) hs hs').
Proof.
  intros (fp & H & D & L) E V. destruct hs as [R h fl]. cbn in *. rewrite <- (app_nil_r fp) in D, L. rewrite <- (app_nil_r R) in V.
  destruct (node_step R [] h fl st fp [] l _ pl _ a H D L E V eq_refl) as (ks & n & Hy & Hn & Ln & Na & U). rewrite !app_nil_r in *.
  destruct (inv_obj _ _ _ _ _ _ _ Hy Hn) as (m & -> & Ey & Hk & Hl). exists m. splits; auto. { now apply obj_node_ok. }
  assert (K0 : exists f', Permutation f' ks /\ holds_all h (map snd (fst (map_emplace k (HStr Tnull []) m))) (map snd (fst (map_emplace k v_null ms))) f' /\
    map fst (fst (map_emplace k (HStr Tnull []) m)) = map fst (fst (map_emplace k v_null ms))).
  { rewrite !emplace_ins, Hk. destruct (emp_new k (map fst ms)); [|eauto].
    destruct (holds_all_ins h (ins_pos k (map fst ms)) _ _ _ (HStr Tnull []) v_null [] Hl) as (f' & Pf & Hf); [constructor|].
    rewrite app_nil_r in Pf. exists f'. rewrite !map_ins, Hk. splits; auto. }
  destruct K0 as (f' & Pf & Hf & Kf).
  destruct (U (NObj (fst (map_emplace k (HStr Tnull []) m))) (VObj t (Some (fst (map_emplace k v_null ms)))) f' [] [] []) as ((S' & K & Q) & _ & K' & _).
  - now rewrite app_nil_r.
  - intros Ha1 Ho. split; [|constructor]. rewrite Ey. econstructor; [exact Ha1|exact Kf|]. eapply holds_all_frame; [exact Hf|]. apply (frame_except h _ a); [exact Ho|].
    intros Hi. apply Na. eapply Permutation_in; eauto.
  - rewrite !app_nil_r in *. eexists. split; [unfold set_node; cbn; now rewrite Hn|]. split; [split; [exact S'|split; [exact K|exact Q]]|]. intros So.
    assert (Ks : keeps (length st) [] [] (HS R h fl) (HS R (upd_nth (fun _ => Some (NObj (fst (map_emplace k (HStr Tnull []) m)))) a h) fl)).
    { apply K'; [exact I|]. intros [k'|i] z; cbn; [|discriminate]. rewrite emplace_ins. destruct (emp_new k (map fst m)) eqn:En; auto. intros Hz.
      rewrite find_ins_other; auto. intros ->. rewrite Hk in En. apply (emp_new_sorted _ _ So) in En. rewrite (find_none_keys k' ms m) in Hz; auto; discriminate. }
    intros l' pl' Hl' _ Vl. destruct Ks as [Ks _]. apply Ks; auto.
Qed.

(** ** Reading trees *)
Lemma load_each_ok f : (forall x v fx hs, holds (hp hs) x v fx -> (length fx <= f)%nat -> h_load f x hs = HDone hs (Ok v)) ->
  forall l vs fl hs, holds_all (hp hs) l vs fl -> (length fl <= f)%nat -> load_each (h_load f) l hs = HDone hs (Ok vs).
Proof.
  intros IH l. induction l as [|x l IHl]; intros vs fl hs H L; inversion H as [|? v fx ? vs' fs Hx Hl]; subst; cbn [load_each]; auto.
  rewrite app_length in L. unfold hbind. rewrite (IH x v fx) by (auto; lia). now rewrite (IHl vs' fs) by (auto; lia).
Qed.
Lemma load_ok f : forall x v fx hs, holds (hp hs) x v fx -> (length fx <= f)%nat -> h_load f x hs = HDone hs (Ok v).
Proof.
  induction f as [|f IH]; intros x v fx hs H L.
  - inversion H; subst; cbn in L; try lia; reflexivity.
  - inversion H as [| | |t a l vs fps Hn Hl|t a m ms fps Hn Hk Hl]; subst; cbn in L; try reflexivity; cbn [h_load]; unfold hbind.
    + rewrite (arr_node_ok a l) by auto. now rewrite (load_each_ok f IH l vs fps) by (auto; lia).
    + rewrite (obj_node_ok a m) by auto. rewrite (load_each_ok f IH _ _ fps hs Hl) by lia. rewrite Hk. unfold hret. now rewrite combine_fst_snd.
Qed.
Lemma load_pl_ok hs st l w pl : sim hs st -> read st l = Some w -> vref hs l pl -> load_pl pl hs = HDone hs (Ok w).
Proof.
  intros S E V. destruct (sim_resolve _ _ _ _ S E) as (pl' & y & fy & _ & V' & Hy & G & L). rewrite (vref_det _ _ _ _ V' V) in *. clear pl V.
  unfold load_pl, hbind. rewrite G. cbn. now apply load_ok with (fx := fy).
Qed.

(** ** Different references, different nodes *)
Lemma walk_in h q : forall pl x v fp r, holds h x v fp -> walk h q (pl, x) = Some r -> exists w fy, holds h (snd r) w fy /\ incl fy fp.
Proof.
  induction q as [|s q IH]; intros pl x v fp r H E; cbn [walk snd] in E.
  - injection E as <-. exists v, fp. split; auto. apply incl_refl.
  - destruct (get_at [s] v) as [w|] eqn:Ew; [|rewrite (child_get _ _ _ _ _ H Ew) in E; discriminate].
    destruct (step_view _ _ _ _ _ _ H Ew) as (a & n & y & f1 & fy & f2 & Ha & Hn & Hl & Hk & -> & Hy & _ & _).
    rewrite (child_spec h s x a n), Hk in E by auto. destruct (IH _ _ _ _ _ Hy E) as (u & fu & Hu & Iu). exists u, fu. split; auto.
    intros b Hb. right. rewrite !in_app_iff. auto.
Qed.
Lemma walk_inj h p : forall q x v fp pl1 pl2 y1 y2 a pl0 pl0', holds h x v fp -> NoDup fp -> walk h p (pl0, x) = Some (pl1, y1) -> walk h q (pl0', x) = Some (pl2, y2) ->
  addr_of y1 = Some a -> addr_of y2 = Some a -> p = q.
Proof.
  assert (Deep : forall s q h x v fp pl0 pl y a, holds h x v fp -> NoDup fp -> walk h (s :: q) (pl0, x) = Some (pl, y) -> addr_of x = Some a -> addr_of y = Some a -> False).
  { intros s q h0 x v fp pl0 pl y a H D E A1 A2. cbn [walk snd] in E.
    destruct (get_at [s] v) as [w|] eqn:Ew; [|rewrite (child_get _ _ _ _ _ H Ew) in E; discriminate].
    destruct (step_view _ _ _ _ _ _ H Ew) as (a' & n & z & f1 & fy & f2 & Ha & Hn & Hl & Hk & -> & Hy & _ & _).
    rewrite A1 in Ha. injection Ha as <-. rewrite (child_spec h0 s x a n), Hk in E by auto.
    destruct (walk_in _ _ _ _ _ _ _ Hy E) as (u & fu & Hu & Iu). cbn in Hu. destruct (holds_addr _ _ _ _ _ Hu A2) as (n' & ks & -> & _).
    apply NoDup_cons_iff in D as [D _]. apply D. rewrite !in_app_iff. right. left. apply Iu. now left. }
  induction p as [|s p IH]; intros [|s' q] x v fp pl1 pl2 y1 y2 a pl0 pl0' H D E1 E2 A1 A2; auto.
  - cbn in E1. injection E1 as <- <-. exfalso. eapply Deep; eauto.
  - cbn in E2. injection E2 as <- <-. exfalso. eapply Deep; eauto.
  - cbn [walk snd] in E1, E2.
    destruct (get_at [s] v) as [w|] eqn:Ew; [|rewrite (child_get _ _ _ _ _ H Ew) in E1; discriminate].
    destruct (step_view _ _ _ _ _ _ H Ew) as (a' & n & z & f1 & fy & f2 & Ha & Hn & Hl & Hk & -> & Hy & _ & Ho).
    rewrite (child_spec h s x a' n), Hk in E1 by auto. rewrite (child_spec h s' x a' n) in E2 by auto.
    apply NoDup_cons_iff in D as [D D']. apply nodup_app in D' as (D1 & D2 & D3). apply nodup_app in D2 as (D2 & D4 & D5).
    assert (Ds : s = s' \/ s' <> s). { destruct (step_eqb s s') eqn:Es; [left; now apply step_eqb_eq|right]. intros ->. rewrite (proj2 (step_eqb_eq s s) eq_refl) in Es. discriminate. }
    destruct Ds as [<-|Ns].
    + rewrite Hk in E2. f_equal. exact (IH q z w fy pl1 pl2 y1 y2 a _ _ Hy D2 E1 E2 A1 A2).
    + exfalso. destruct (kid_of s' n) as [z'|] eqn:Hk'; [|discriminate]. destruct (Ho s' z' Ns Hk') as (u & fz & Hz & Iz).
      destruct (walk_in _ _ _ _ _ _ _ Hy E1) as (u1 & g1 & Hu1 & I1). destruct (walk_in _ _ _ _ _ _ _ Hz E2) as (u2 & g2 & Hu2 & I2). cbn in Hu1, Hu2.
      destruct (holds_addr _ _ _ _ _ Hu1 A1) as (? & ? & -> & _). destruct (holds_addr _ _ _ _ _ Hu2 A2) as (? & ? & -> & _).
      assert (J1 : In a fy) by (apply I1; now left). assert (J2 : In a (f1 ++ f2)) by (apply Iz, I2; now left).
      apply in_app_or in J2 as [J2|J2]; [apply (D3 a); auto; apply in_or_app; auto|apply (D5 a); auto].
Qed.
Lemma addr_inj hs st l1 l2 pl1 pl2 y1 y2 a : sim hs st -> resolve hs l1 = Some (pl1, y1) -> resolve hs l2 = Some (pl2, y2) -> addr_of y1 = Some a -> addr_of y2 = Some a -> l1 = l2.
Proof.
  intros (fp & H & D & _) E1 E2 A1 A2. unfold resolve in E1, E2.
  destruct (nth_error (roots hs) (slot l1)) as [x1|] eqn:X1; [|discriminate]. destruct (nth_error (roots hs) (slot l2)) as [x2|] eqn:X2; [|discriminate].
  destruct (nth_error st (slot l1)) as [v|] eqn:Ev. 2:{ apply nth_error_None in Ev. rewrite <- (holds_all_length _ _ _ _ H) in Ev. apply nth_error_None in Ev. congruence. }
  destruct (holds_nth _ _ _ _ _ _ H Ev) as (x & f1 & fx & f2 & Ex & -> & Hx & _ & Ho). rewrite X1 in Ex. injection Ex as <-.
  apply nodup_app in D as (D1 & D2 & D3). apply nodup_app in D2 as (D2 & D4 & D5).
  destruct l1 as [s1 p1], l2 as [s2 p2]. cbn in *. destruct (Nat.eq_dec s1 s2) as [<-|Ns].
  - f_equal. rewrite X1 in X2. injection X2 as <-. eapply walk_inj; eauto.
  - exfalso. destruct (Ho s2 x2) as (u & fz & Hz & Iz); auto.
    destruct (walk_in _ _ _ _ _ _ _ Hx E1) as (u1 & g1 & Hu1 & I1). destruct (walk_in _ _ _ _ _ _ _ Hz E2) as (u2 & g2 & Hu2 & I2). cbn in Hu1, Hu2.
    destruct (holds_addr _ _ _ _ _ Hu1 A1) as (? & ? & -> & _). destruct (holds_addr _ _ _ _ _ Hu2 A2) as (? & ? & -> & _).
    assert (J1 : In a fx) by (apply I1; now left). assert (J2 : In a (f1 ++ f2)) by (apply Iz, I2; now left).
    apply in_app_or in J2 as [J2|J2]; [apply (D3 a); auto; apply in_or_app; auto|apply (D5 a); auto].
Qed.
