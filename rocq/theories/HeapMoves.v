(** * Moving values between variables, parts of variables and temporaries. *)
From Verif Require Import Base Value Containers Dump Api SpecApi BaseProofs ContainerProofs ApiProofs Heap SpecHeap HeapBase HeapSteps HeapOps.
From Coq Require Import Permutation.

Lemma simf_perm R h fl st fp fp' : holds_all h R st fp -> Permutation fp fp' -> NoDup fp' -> (forall a, live h a -> In a fp') -> simf (HS R h fl) st fp.
Proof.
  intros H P D L. split; auto. split; [eapply Permutation_NoDup; [symmetry; exact P|exact D]|].
  intros a Ha. eapply Permutation_in; [symmetry; exact P|auto].
Qed.
(** [hs'] after a step from [hs]: it holds [st'] *)
Definition upto (n : nat) (P W : list loc) (hs hs' : hstate) (st' : store) : Prop :=
  sim hs' st' /\ keeps n P W hs hs' /\ quiet hs hs'.
Lemma upto_trans n P W P' W' hs hs1 hs2 st1 st2 : upto n P W hs hs1 st1 -> upto n P' W' hs1 hs2 st2 -> upto n (P ++ P') (W ++ W') hs hs2 st2.
Proof. intros (A & B & C) (A' & B' & C'). split; [auto|split; [eapply keeps_trans; eauto|intros H; auto]]. Qed.
Lemma upto_mono n n' P W P' W' hs hs' st : upto n P W hs hs' st -> (n' <= n)%nat -> incl P P' -> incl W W' -> upto n' P' W' hs hs' st.
Proof. intros (A & B & C) L I J. split; [auto|split; auto]. eapply keeps_mono; eauto. Qed.
Lemma upto_refl n P W hs st : sim hs st -> upto n P W hs hs st.
Proof. intros S. split; auto. split; [apply keeps_refl|intros H; auto]. Qed.

(** the references that still name the same place: all but those to [P] *)
Definition stays (P : loc -> Prop) (n : nat) (hs hs' : hstate) : Prop :=
  forall l pl, (slot l < n)%nat -> ~ P l -> vref hs l pl -> vref hs' l pl.
Lemma stays_refl P n hs : stays P n hs hs.
Proof. intros l pl _ _ V. exact V. Qed.
Lemma stays_trans P n hs hs1 hs2 : stays P n hs hs1 -> stays P n hs1 hs2 -> stays P n hs hs2.
Proof. intros A B l pl L F V. auto. Qed.
Lemma stays_mono (P P' : loc -> Prop) n n' hs hs' : stays P n hs hs' -> (n' <= n)%nat -> (forall l, P l -> P' l) -> stays P' n' hs hs'.
Proof. intros A L I l pl Hl F V. apply A; auto. lia. Qed.
Lemma upto_stays (P : loc -> Prop) n n' Pl W hs hs' st : upto n Pl W hs hs' st -> (n' <= n)%nat -> (forall w l, In w Pl -> strictly_inside w l -> P l) -> stays P n' hs hs'.
Proof.
  intros (_ & [K _] & _) L I l pl Hl F V. apply K; auto; [lia|]. apply Forall_forall. intros w Hw Si. apply F. eauto.
Qed.

Lemma resolve_agree R ex h h' fl fl' st fp l : holds_all h R st fp -> agree h h' fp -> (slot l < length st)%nat ->
  resolve (HS (R ++ ex) h' fl') l = resolve (HS R h fl) l.
Proof.
  intros H A L. pose proof (holds_all_length _ _ _ _ H) as Lr. rewrite (resolve_ext R ex h' fl' fl') by lia. unfold resolve. cbn.
  destruct (nth_error R (slot l)) as [x|] eqn:E; auto. destruct (nth_error st (slot l)) as [v|] eqn:Ev; [|apply nth_error_None in Ev; lia].
  destruct (holds_nth _ _ _ _ _ _ H Ev) as (x' & f1 & fx & f2 & Ex & -> & Hx & _). rewrite E in Ex. injection Ex as <-.
  eapply walk_frame; eauto. apply agree_app in A as [_ A]. now apply agree_app in A.
Qed.
Lemma keeps_agree hs hs' st fp ex P W : simf hs st fp -> roots hs' = roots hs ++ ex -> agree (hp hs) (hp hs') fp -> keeps (length st) P W hs hs'.
Proof.
  destruct hs as [R h fl], hs' as [R' h' fl']. intros (H & _) E A. cbn in *. subst R'. apply keeps_all. intros l L. eapply resolve_agree; eauto.
Qed.
Lemma copied_upto st fp hs vs hs' : simf hs st fp -> copied st fp hs vs hs' -> upto (length st) [] [] hs hs' (st ++ vs).
Proof. intros S (xs & fs & E & S' & A & Q). split; [eexists; exact S'|split; auto]. eapply keeps_agree; eauto. Qed.
Lemma undone_upto st fp hs e hs' : simf hs st fp -> undone st fp hs e hs' -> oom hs e /\ sim hs' st.
Proof. intros S (O & E & S' & A). split; auto. eexists; exact S'. Qed.
Lemma copy_upto hs st l w pl : sim hs st -> read st l = Some w -> vref hs l pl -> owned w ->
  wp (copy_pl pl) hs (fun _ hs' => upto (length st) [] [] hs hs' (st ++ [w])) (fun e hs' => oom hs e /\ sim hs' st).
Proof.
  intros (fp & S) E V O. eapply wp_mono; [eapply copy_pl_ok; eauto|..]; cbv beta.
  - intros _ hs' C. eapply copied_upto; eauto.
  - intros e hs' C. eapply undone_upto; eauto.
Qed.
Lemma drop_upto hs st v : sim hs (st ++ [v]) -> exists hs', drop hs = HDone hs' (Ok tt) /\ upto (length st) [] [] hs hs' st.
Proof.
  intros (f & S). destruct (simf_split _ _ _ _ S) as (R & xs & f1 & f2 & E & -> & A & B & D & L).
  pose proof (holds_all_length _ _ _ _ B) as Lb. destruct xs as [|x []]; try discriminate. apply holds_all_one in B.
  destruct hs as [R' h fl]. cbn in *. subst R'. destruct (drop_ok R x h fl st v f1 f2 A B D L) as (h' & Ed & Sd & Ad).
  eexists. split; [exact Ed|]. split; [eexists; exact Sd|]. split; [|intros H; exact H].
  apply keeps_all. intros l Hl. pose proof (holds_all_length _ _ _ _ A). rewrite (resolve_ext R [x] h fl fl) by lia.
  rewrite <- (app_nil_r R) at 1. eapply resolve_agree; eauto.
Qed.
Lemma drop_n_upto hs st vs n : length vs = n -> sim hs (st ++ vs) -> exists hs', drop_n n hs = HDone hs' (Ok tt) /\ upto (length st) [] [] hs hs' st.
Proof.
  intros <- (f & S). destruct (simf_split _ _ _ _ S) as (R & xs & f1 & f2 & E & -> & A & B & D & L).
  pose proof (holds_all_length _ _ _ _ B) as Lb. rewrite <- Lb.
  destruct hs as [R' h fl]. cbn in *. subst R'. destruct (drop_n_ok xs R h fl st vs f1 f2 A B D L) as (h' & Ed & Sd & Ad).
  eexists. split; [exact Ed|]. split; [eexists; exact Sd|]. split; [|intros H; exact H].
  apply keeps_all. intros l Hl. pose proof (holds_all_length _ _ _ _ A). rewrite (resolve_ext R xs h fl fl) by lia.
  rewrite <- (app_nil_r R) at 1. eapply resolve_agree; eauto.
Qed.
Lemma push_upto hs st x v : sim hs st -> (forall h, holds h x v []) -> exists hs', push x hs = HDone hs' (Ok tt) /\ upto (length st) [] [] hs hs' (st ++ [v]).
Proof.
  intros (fp & S) Hx. pose proof (push_copied x v st fp hs S Hx) as W. cbn in W. eexists. split; [reflexivity|].
  eapply copied_upto; eauto.
Qed.
Lemma tick_upto hs st n P W : sim hs st -> wp tick hs (fun _ hs' => upto n P W hs hs' st) (fun e hs' => oom hs e /\ sim hs' st).
Proof.
  intros S. apply wp_tick.
  - intros fl Hf. split; [exact S|]. split; [|exact Hf]. apply keeps_all. intros l Hl. destruct hs; reflexivity.
  - intros fl Hf. split; [split; auto|exact S].
Qed.

Lemma keeps_at n l hs hs' pl : vref hs l pl -> vref hs' l pl ->
  (forall l' r, (slot l' < n)%nat -> within l l' = false -> resolve hs l' = Some r -> resolve hs' l' = Some r) -> keeps n [l] [l] hs hs'.
Proof.
  intros V V' H. split.
  - intros l' pl' L F Vl. inversion F as [|? ? F1 _]; subst. destruct (within l l') eqn:Ew.
    + assert (l' = l) as ->.
      { destruct (same l l') eqn:Es; [apply same_spec in Es; auto|]. exfalso. apply F1, strictly_inside_spec. split; auto.
        intros ->. rewrite (proj2 (same_spec l' l') eq_refl) in Es. discriminate. }
      now rewrite <- (vref_det _ _ _ _ Vl V).
    + destruct Vl as (y & E). exists y. auto.
  - intros l' r L F. inversion F as [|? ? F1 _]; subst. auto.
Qed.
Ltac perm := repeat rewrite <- app_assoc; cbn; apply Permutation_refl.

(** value(value&&) *)
Lemma holds_moved h y w fy : holds h y w fy -> forall h', holds h' (h_moved y) (moved w) [].
Proof. intros H h'. inversion H; constructor. Qed.
Lemma take_upto hs st l w pl : sim hs st -> read st l = Some w -> vref hs l pl ->
  exists hs', take_pl pl hs = HDone hs' (Ok tt) /\ upto (length st) [l] [l] hs hs' (write st l (moved w) ++ [w]).
Proof.
  destruct hs as [R h fl]. intros (fp & H & D & L) E V. cbn in *.
  destruct (store_at h R st fp l w fl H D E) as (pl' & y & F1 & fy & F2 & Er & -> & Hy & G & Pt).
  assert (pl' = pl) as -> by (eapply vref_det; eauto; eexists; eauto).
  pose proof (G [] h fl (agree_refl _ _)) as G0. rewrite app_nil_r in G0.
  destruct (Pt [y] h fl (h_moved y) (moved w) [] (agree_refl _ _) (holds_moved _ _ _ _ Hy h)) as (R2 & h2 & Ep & H2 & _ & Un & Lv & Rs); [cbn; tauto|].
  assert (Dj : forall a, In a fy -> ~ In a F1). { intros a Ha Hb. apply nodup_app in D as (_ & _ & D). eapply D; [exact Hb|]. rewrite in_app_iff. auto. }
  assert (Hy2 : holds h2 y w fy) by (eapply holds_frame; [exact Hy|]; intros a Ha; apply Un; auto).
  exists (HS (R2 ++ [y]) h2 fl). split; [unfold take_pl, hbind; rewrite G0; cbn [push roots hp fails]; exact Ep|].
  split; [|split; [|intros Hq; exact Hq]].
  - exists ((F1 ++ [] ++ F2) ++ fy). eapply simf_perm with (fp' := F1 ++ fy ++ F2); auto.
    + apply holds_all_app; [exact H2|]. now apply holds_all_one.
    + cbn. rewrite <- app_assoc. apply Permutation_app_head, Permutation_app_comm.
    + intros a Ha. apply L. now apply Lv.
  - destruct (Rs [y] fl) as [R3 R4]. apply (keeps_at _ _ _ _ pl); auto.
    + eexists; exact R3.
    + intros l' r Hl Hw Hr. apply (R4 []); auto. now rewrite app_nil_r.
Qed.
(** the newest temporary and the value at [l] change places *)
Lemma swap_upto hs st v l w pl : sim hs (st ++ [v]) -> read st l = Some w -> vref hs l pl ->
  exists hs', swap_in pl hs = HDone hs' (Ok tt) /\ upto (length st) [l] [l] hs hs' (write st l v ++ [w]).
Proof.
  intros (f & S) E V. destruct (simf_split _ _ _ _ S) as (R & xs & fp & fv & Er0 & -> & H & B & D & L).
  pose proof (holds_all_length _ _ _ _ B) as Lb. destruct xs as [|x []]; try discriminate. apply holds_all_one in B.
  destruct hs as [R' h fl]. cbn in *. subst R'. pose proof (holds_all_length _ _ _ _ H) as LR. pose proof (read_slot _ _ _ E) as Ls.
  apply nodup_app in D as (D1 & D2 & D3).
  destruct (store_at h R st fp l w fl H D1 E) as (pl' & y & F1 & fy & F2 & Er & -> & Hy & G & Pt).
  assert (pl' = pl) as ->. { eapply vref_det; eauto. eexists. rewrite (resolve_ext R [x] h fl fl) by lia. eauto. }
  pose proof (G [] h fl (agree_refl _ _)) as G0. rewrite app_nil_r in G0.
  destruct (Pt [y] h fl x v fv (agree_refl _ _) B) as (R2 & h2 & Ep & H2 & _ & Un & Lv & Rs).
  { intros a Ha Hb. apply (D3 a); auto. rewrite in_app_iff. auto. }
  assert (Dj : forall a, In a fy -> ~ In a F1). { intros a Ha Hb. apply nodup_app in D1 as (_ & _ & D). eapply D; [exact Hb|]. rewrite in_app_iff. auto. }
  assert (Hy2 : holds h2 y w fy) by (eapply holds_frame; [exact Hy|]; intros a Ha; apply Un; auto).
  exists (HS (R2 ++ [y]) h2 fl). split; [unfold swap_in, hbind; rewrite pop_ok, G0; cbn [push roots hp fails]; exact Ep|].
  split; [|split; [|intros Hq; exact Hq]].
  - exists ((F1 ++ fv ++ F2) ++ fy). eapply simf_perm with (fp' := (F1 ++ fy ++ F2) ++ fv); auto.
    + apply holds_all_app; [exact H2|]. now apply holds_all_one.
    + rewrite <- !app_assoc. apply Permutation_app_head.
      rewrite (Permutation_app_comm fv (F2 ++ fy)). rewrite <- !app_assoc. rewrite (Permutation_app_comm F2 (fy ++ fv)). rewrite <- !app_assoc.
      apply Permutation_app_head. apply Permutation_app_comm.
    + apply nodup_app. auto.
    + intros a Ha. apply L. now apply Lv.
  - destruct (Rs [y] fl) as [R3 R4]. apply (keeps_at _ _ _ _ pl); auto.
    + eexists; exact R3.
    + intros l' r Hl Hw Hr. apply (R4 [x]); auto.
Qed.

(** ** Locations and places *)
Lemma walk_app h p : forall q r, walk h (p ++ q) r = match walk h p r with Some r' => walk h q r' | None => None end.
Proof. induction p as [|s p IH]; intros q r; cbn [app walk]; auto. destruct (child h s (snd r)); auto. Qed.
Lemma resolve_below hs l l' q r : slot l' = slot l -> steps l' = steps l ++ q -> resolve hs l = Some r -> resolve hs l' = walk (hp hs) q r.
Proof.
  intros Es Eq E. unfold resolve in *. rewrite Es, Eq.
  destruct (nth_error (roots hs) (slot l)); [|discriminate]. now rewrite walk_app, E.
Qed.
Lemma resolve_above hs l l' r' : within l l' = true -> resolve hs l' = Some r' -> exists r, resolve hs l = Some r.
Proof.
  intros W E. apply within_spec in W as (Es & q & Eq). unfold resolve in *. rewrite <- Es, Eq in E.
  destruct (nth_error (roots hs) (slot l)); [|discriminate]. rewrite walk_app in E. destruct (walk (hp hs) (steps l) _); [eauto|discriminate].
Qed.
Lemma set_tag_child h s t y : child h s (h_set_tag t y) = child h s y.
Proof. destruct s, y; reflexivity. Qed.
Lemma holds_tag h y w fy t : holds h y w fy -> holds h (h_set_tag t y) (set_tag t w) fy.
Proof. intros H. inversion H; subst; cbn; econstructor; eauto. Qed.
Lemma holds_tag_of h y w fy : holds h y w fy -> h_tag y = type_of w.
Proof. intros H. inversion H; reflexivity. Qed.
Lemma sim_resolve hs st l w : sim hs st -> read st l = Some w -> exists pl y fy, resolve hs l = Some (pl, y) /\ vref hs l pl /\ holds (hp hs) y w fy /\ get_pl pl hs = HDone hs (Ok y) /\ (length fy <= length (hp hs))%nat.
Proof. intros (fp & S) E. destruct (simf_read _ _ _ _ _ S E) as (pl & y & fy & Er & Hy & L & G). exists pl, y, fy. splits; auto. eexists; eauto. Qed.
(** replace a value by one with the same nodes *)
Lemma put_upto hs st l w pl y x v : sim hs st -> read st l = Some w -> resolve hs l = Some (pl, y) ->
  (forall h fy, holds h y w fy -> holds h x v fy) ->
  exists hs', put_pl pl x hs = HDone hs' (Ok tt) /\ upto (length st) [l] [l] hs hs' (write st l v) /\ resolve hs' l = Some (pl, x) /\
    ((forall h s, child h s x = child h s y) -> keeps (length st) [] [l] hs hs').
Proof.
  destruct hs as [R h fl]. intros (fp & H & D & L) E V Hx. cbn in *.
  destruct (store_at h R st fp l w fl H D E) as (pl' & y' & F1 & fy & F2 & Er & -> & Hy & G & Pt).
  rewrite V in Er. injection Er as <- <-.
  assert (Dj : forall a, In a fy -> ~ In a F1). { intros a Ha Hb. apply nodup_app in D as (_ & _ & D). eapply D; [exact Hb|]. rewrite in_app_iff. auto. }
  destruct (Pt [] h fl x v fy (agree_refl _ _) (Hx _ _ Hy)) as (R2 & h2 & Ep & H2 & _ & Un & Lv & Rs).
  { intros a Ha Hb. eapply Dj; eauto. }
  rewrite !app_nil_r in Ep. destruct (Rs [] fl) as [R3 R4]. rewrite app_nil_r in R3, R4.
  assert (KA : keeps (length st) [l] [l] (HS R h fl) (HS R2 h2 fl)).
  { apply (keeps_at _ _ _ _ pl); [eexists; eauto|eexists; eauto|]. intros l' r Hl Hw Hr. apply (R4 []); auto. now rewrite app_nil_r. }
  exists (HS R2 h2 fl). splits; auto.
  - split; [|split; [exact KA|intros Hq; exact Hq]]. eexists. eapply simf_perm with (fp' := F1 ++ fy ++ F2); eauto.
    intros a Ha. apply L. now apply Lv.
  - intros Hc. split; [|apply KA]. intros l' pl' Hl _ (z & Ez). destruct (within l l') eqn:Ew.
    + apply within_spec in Ew as (Es & q & Eq). symmetry in Es.
      rewrite (resolve_below _ l l' q _ Es Eq V) in Ez. unfold vref. rewrite (resolve_below (HS R2 h2 fl) l l' q _ Es Eq R3). cbn [hp] in *.
      assert (Ag : agree h h2 fy) by (intros a Ha; apply Un; auto).
      destruct q as [|s q]; [cbn in *; injection Ez as <- <-; eauto|]. exists z. rewrite <- Ez. cbn [walk snd]. rewrite Hc.
      exact (walk_frame h h2 (s :: q) pl y w fy Hy Ag).
    + exists z. apply (R4 []); auto. now rewrite app_nil_r.
Qed.
Lemma tag_upto hs st l w pl y t : sim hs st -> read st l = Some w -> resolve hs l = Some (pl, y) ->
  exists hs', put_pl pl (h_set_tag t y) hs = HDone hs' (Ok tt) /\ upto (length st) [] [l] hs hs' (write st l (set_tag t w)) /\ resolve hs' l = Some (pl, h_set_tag t y).
Proof.
  intros S E V. destruct (put_upto hs st l w pl y (h_set_tag t y) (set_tag t w) S E V) as (hs' & Ep & (S' & K & Q) & R & K').
  { intros h fy. apply holds_tag. }
  exists hs'. splits; auto. split; auto. split; auto. apply K'. intros. apply set_tag_child.
Qed.

(** ** Editing a node *)
Lemma put_same pl hs y : get_pl pl hs = HDone hs (Ok y) -> put_pl pl y hs = HDone hs (Ok tt).
Proof.
  destruct hs as [R h fl]. unfold put_pl, hbind at 1. intros E. rewrite E. destruct pl as [i|a n|a k]; cbn in E.
  - cbn. destruct (nth_error R i) eqn:Ei; [|discriminate]. injection E as ->. now rewrite (upd_nth_same y).
  - unfold arr_node, node_at, set_node, hbind in *. cbn in *. destruct (nth_error h a) as [[[l|m]|]|] eqn:Ea; try discriminate. cbn in *.
    destruct (nth_error l n) eqn:En; [|discriminate]. cbn in E. injection E as ->. rewrite Ea. rewrite (upd_nth_same y) by auto. now rewrite (upd_nth_same (Some (NArr l))).
  - unfold obj_node, node_at, set_node, hbind in *. cbn in *. destruct (nth_error h a) as [[[l|m]|]|] eqn:Ea; try discriminate. cbn in *.
    destruct (map_find k m) eqn:En; [|discriminate]. cbn in E. injection E as ->. rewrite Ea. rewrite (upd_key_same y) by auto. now rewrite (upd_nth_same (Some (NObj m))).
Qed.
Lemma holds_addr h y w fy a : holds h y w fy -> addr_of y = Some a -> exists n ks, fy = a :: ks /\ nth_error h a = Some (Some n) /\ node_like y n.
Proof. intros H E. inversion H; subst; cbn in E; try discriminate; injection E as ->; eexists _, _; (split; [reflexivity|split; [eassumption|exact I]]). Qed.
Lemma edit h R st fp l w fl pl y a : holds_all h R st fp -> NoDup fp -> read st l = Some w -> resolve (HS R h fl) l = Some (pl, y) -> addr_of y = Some a ->
  exists F1 ks F2 n, fp = F1 ++ (a :: ks) ++ F2 /\ holds h y w (a :: ks) /\ nth_error h a = Some (Some n) /\ node_like y n /\
  forall n' w' fx, let h1 := upd_nth (fun _ => Some n') a h in
    holds h1 y w' (a :: fx) -> (forall b, In b F1 -> In b (a :: fx) -> False) ->
    holds_all h1 R (write st l w') (F1 ++ (a :: fx) ++ F2) /\
    forall ex0 ex fl2, resolve (HS (R ++ ex) h1 fl2) l = Some (pl, y) /\
    (forall l' r, (slot l' < length st)%nat -> within l l' = false -> resolve (HS (R ++ ex0) h fl) l' = Some r -> resolve (HS (R ++ ex) h1 fl2) l' = Some r) /\
    (node_like y n' -> forall l' r, (slot l' < length st)%nat -> within l l' = true ->
     (forall s q z, steps l' = steps l ++ s :: q -> kid_of s n = Some z -> kid_of s n' = Some z) ->
     resolve (HS (R ++ ex0) h fl) l' = Some r -> resolve (HS (R ++ ex) h1 fl2) l' = Some r).
Proof.
  intros H D E V A. destruct (store_at h R st fp l w fl H D E) as (pl' & y' & F1 & fy & F2 & Er & -> & Hy & G & Pt).
  rewrite V in Er. injection Er as <- <-. destruct (holds_addr _ _ _ _ _ Hy A) as (n & ks & -> & Hn & Ln).
  exists F1, ks, F2, n. splits; auto. intros n' w' fx h1 Hy1 Dj.
  assert (D0 := D). apply nodup_app in D as (D1 & D2 & D3). apply nodup_app in D2 as (D2 & D4 & D5).
  assert (Un : forall b, b <> a -> nth_error h1 b = nth_error h b) by (intros b Hb; apply nth_upd_other; auto).
  assert (Ag : agree h h1 (F1 ++ F2)).
  { intros b Hb. apply Un. intros ->. apply in_app_or in Hb as [Hb|Hb]; [apply (D3 a); auto; now left|apply (D5 a); auto; now left]. }
  destruct (Pt [] h1 fl y w' (a :: fx) Ag Hy1 Dj) as (R2 & h2 & Ep & H2 & _ & _ & _ & Rs).
  assert (Eq : R2 = R /\ h2 = h1).
  { pose proof (G [] h1 fl Ag) as G1. apply put_same in G1. rewrite G1 in Ep. rewrite !app_nil_r in Ep. injection Ep as <- <-. auto. }
  destruct Eq as [-> ->]. split; auto. intros ex0 ex fl2. destruct (Rs ex fl2) as [R3 R4]. splits; auto.
  - intros l' r. apply R4.
  - intros Ln' l' r Hl Hw Hk Hr. apply within_spec in Hw as (Es & q & Eq). symmetry in Es.
    pose proof (holds_all_length _ _ _ _ H) as LR. pose proof (read_slot _ _ _ E) as Ls.
    assert (V0 : resolve (HS (R ++ ex0) h fl) l = Some (pl, y)) by (rewrite (resolve_ext R ex0 h fl fl) by lia; exact V).
    rewrite (resolve_below _ l l' q _ Es Eq V0) in Hr. rewrite (resolve_below _ l l' q _ Es Eq R3). cbn [hp] in *.
    destruct q as [|s q]; auto. cbn [walk snd] in *. assert (Ha1 : nth_error h1 a = Some (Some n')) by (unfold h1; now rewrite nth_upd_same, Hn).
    rewrite (child_spec h1 s y a n') by auto. rewrite (child_spec h s y a n) in Hr by auto.
    destruct (kid_of s n) as [z|] eqn:Ez; [|discriminate]. rewrite (Hk _ _ _ Eq Ez). cbv iota in Hr |- *. rewrite <- Hr.
    apply NoDup_cons_iff in D2 as [Da D2].
    assert (Kz : exists u fz, holds h z u fz /\ incl fz ks).
    { clear - Hy A Hn Ez. inversion Hy as [| | |t a' l vs fps Hn' Hl|t a' m ms fps Hn' Hk' Hl]; subst; cbn in A; try discriminate.
      - rewrite Hn in Hn'. injection Hn' as ->. destruct s as [k|i]; [discriminate|]. cbn in Ez.
        destruct (nth_error vs i) as [u|] eqn:Eu; [|apply nth_error_None in Eu; rewrite <- (holds_all_length _ _ _ _ Hl) in Eu; apply nth_error_None in Eu; congruence].
        destruct (holds_nth _ _ _ _ _ _ Hl Eu) as (x & f1 & fx & f2 & Ex & -> & Hx & _). rewrite Ez in Ex. injection Ex as <-. exists u, fx. split; auto.
        apply incl_appr, incl_appl, incl_refl.
      - rewrite Hn in Hn'. injection Hn' as ->. destruct s as [k|i]; [|discriminate]. cbn in Ez. rewrite find_pos in Ez.
        destruct (pos_of k (map fst m)) as [i|]; [|discriminate].
        destruct (nth_error (map snd ms) i) as [u|] eqn:Eu; [|apply nth_error_None in Eu; rewrite <- (holds_all_length _ _ _ _ Hl) in Eu; apply nth_error_None in Eu; congruence].
        destruct (holds_nth _ _ _ _ _ _ Hl Eu) as (x & f1 & fx & f2 & Ex & -> & Hx & _). rewrite Ez in Ex. injection Ex as <-. exists u, fx. split; auto.
        apply incl_appr, incl_appl, incl_refl. }
    destruct Kz as (u & fz & Hz & Iz). eapply walk_frame; [exact Hz|]. intros b Hb. apply Un. intros ->. apply Da. auto.
Qed.
