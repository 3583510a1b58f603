(** * Destruction, copying, moving and making nodes, as operations on trees. *)
From Verif Require Import Base Value Containers Dump Api SpecApi BaseProofs ContainerProofs ApiProofs Heap SpecHeap HeapBase HeapSteps.
From Coq Require Import Permutation.

Definition wp {A} (m : hM A) (hs : hstate) (Q : A -> hstate -> Prop) (E : exn -> hstate -> Prop) : Prop :=
  match m hs with HDone hs' (Ok a) => Q a hs' | HDone hs' (Throw e) => E e hs' | _ => False end.
Lemma wp_bind {A B} (m : hM A) (f : A -> hM B) hs Q E : wp m hs (fun a hs' => wp (f a) hs' Q E) E -> wp (hbind m f) hs Q E.
Proof. unfold wp, hbind. destruct (m hs) as [|hs' [a|e| | |]]; auto. Qed.
Lemma wp_mono {A} (m : hM A) hs (Q Q' : A -> hstate -> Prop) (E E' : exn -> hstate -> Prop) :
  wp m hs Q E -> (forall a hs', Q a hs' -> Q' a hs') -> (forall e hs', E e hs' -> E' e hs') -> wp m hs Q' E'.
Proof. unfold wp. destruct (m hs) as [|hs' [a|e| | |]]; auto. Qed.
Lemma wp_run {A} (m : hM A) hs hs' a (Q : A -> hstate -> Prop) E : m hs = HDone hs' (Ok a) -> Q a hs' -> wp m hs Q E.
Proof. unfold wp. now intros ->. Qed.
Lemma wp_step {A B} (m : hM A) (f : A -> hM B) hs hs' a Q E : m hs = HDone hs' (Ok a) -> wp (f a) hs' Q E -> wp (hbind m f) hs Q E.
Proof. intros H G. apply wp_bind. eapply wp_run; eauto. Qed.
Lemma wp_inv {A} (m : hM A) hs Q : wp m hs Q (fun _ _ => False) -> exists hs' a, m hs = HDone hs' (Ok a) /\ Q a hs'.
Proof. unfold wp. destruct (m hs) as [|hs' [a|e| | |]]; try tauto. eauto. Qed.
Lemma wp_catch {A} (m : hM A) c hs Q (E E' : exn -> hstate -> Prop) : wp m hs Q E' ->
  (forall e hs', E' e hs' -> exists hs'', c hs' = HDone hs'' (Ok tt) /\ E e hs'') -> wp (on_throw m c) hs Q E.
Proof.
  unfold wp, on_throw. destruct (m hs) as [|hs' [a|e| | |]]; auto. intros H G. destruct (G e hs' H) as (hs'' & Ec & He).
  unfold hbind, hfail. now rewrite Ec.
Qed.
Lemma wp_tick hs (Q : unit -> hstate -> Prop) (E : exn -> hstate -> Prop) :
  (forall fl, (fails hs = [] -> fl = []) -> Q tt (HS (roots hs) (hp hs) fl)) ->
  (forall fl, fails hs <> [] -> E BadAlloc (HS (roots hs) (hp hs) fl)) -> wp tick hs Q E.
Proof.
  intros HQ HE. unfold wp, tick. destruct hs as [R h fl]; cbn in *. destruct fl as [|[] fl].
  - now apply HQ.
  - now apply HE.
  - apply HQ. discriminate.
Qed.

(** ** Determinacy, bounds *)
Lemma holds_det_mut h : (forall x v fp, holds h x v fp -> forall v' fp', holds h x v' fp' -> v' = v /\ fp' = fp) /\
  (forall l vs fp, holds_all h l vs fp -> forall vs' fp', holds_all h l vs' fp' -> vs' = vs /\ fp' = fp).
Proof.
  apply (holds_mut h (fun x v fp _ => forall v' fp', holds h x v' fp' -> v' = v /\ fp' = fp)
    (fun l vs fp _ => forall vs' fp', holds_all h l vs' fp' -> vs' = vs /\ fp' = fp)); intros.
  - inversion H; auto.
  - inversion H; auto.
  - inversion H; auto.
  - inversion H0 as [| | |? ? l' vs'' fps' Hn Hl|]; subst. rewrite e in Hn. injection Hn as <-. destruct (H _ _ Hl) as [-> ->]. auto.
  - inversion H0 as [| | | |? ? m' ms' fps' Hn Hk Hl]; subst. rewrite e in Hn. injection Hn as <-. destruct (H _ _ Hl) as [E ->]. split; auto. do 2 f_equal.
    rewrite e0 in Hk. clear - Hk E. revert ms' Hk E. induction ms as [|(k, v) ms IH]; intros [|(k', v') ms']; cbn; try discriminate; auto.
    intros [= -> Hk] [= -> G]. f_equal. now apply IH.
  - inversion H; auto.
  - inversion H1 as [|? v0 fx' ? vs0 fps' Hx Hl]; subst. destruct (H _ _ Hx) as [-> ->], (H0 _ _ Hl) as [-> ->]. auto.
Qed.
Lemma holds_all_det h l vs fp vs' fp' : holds_all h l vs fp -> holds_all h l vs' fp' -> vs' = vs /\ fp' = fp.
Proof. intros H. now apply (proj2 (holds_det_mut h)). Qed.
Lemma live_lt h a : live h a -> (a < length h)%nat.
Proof. intros (n & E). apply nth_error_Some. congruence. Qed.
Lemma fp_bound h fp : NoDup fp -> Forall (live h) fp -> (length fp <= length h)%nat.
Proof.
  intros D L. rewrite <- (seq_length (length h) 0). apply NoDup_incl_length; auto.
  intros a Ha. apply in_seq. rewrite Forall_forall in L. apply L, live_lt in Ha. lia.
Qed.

(** ** Destruction *)
Definition freed (h h' : heap) (fp : list addr) : Prop :=
  forall a, (In a fp -> nth_error h' a = Some None) /\ (~ In a fp -> nth_error h' a = nth_error h a).
Lemma freed_nil h : freed h h [].
Proof. intros a. split; [intros []|auto]. Qed.
Lemma freed_agree h h' fp f : freed h h' fp -> (forall a, In a f -> In a fp -> False) -> agree h h' f.
Proof. intros H D a Ha. apply H. eauto. Qed.
Lemma freed_live h h' fp a : freed h h' fp -> live h' a -> live h a /\ ~ In a fp.
Proof.
  intros H (n & E). destruct (H a) as [H1 H2]. destruct (in_dec Nat.eq_dec a fp) as [I|I]; [rewrite H1 in E by exact I; discriminate|].
  split; auto. exists n. now rewrite <- H2.
Qed.
Lemma freed_app h h1 h2 f1 f2 : freed h h1 f1 -> freed h1 h2 f2 -> freed h h2 (f1 ++ f2).
Proof.
  intros A B a. destruct (A a) as [A1 A2], (B a) as [B1 B2]. rewrite in_app_iff.
  destruct (in_dec Nat.eq_dec a f2) as [I|I]; [split; [auto|intros; exfalso; tauto]|]. rewrite B2 by exact I. tauto.
Qed.
Lemma arr_node_ok a l hs : nth_error (hp hs) a = Some (Some (NArr l)) -> arr_node a hs = HDone hs (Ok l).
Proof. intros H. unfold arr_node, node_at, hbind. now rewrite H. Qed.
Lemma obj_node_ok a l hs : nth_error (hp hs) a = Some (Some (NObj l)) -> obj_node a hs = HDone hs (Ok l).
Proof. intros H. unfold obj_node, node_at, hbind. now rewrite H. Qed.
Lemma release_ok R h fl a : live h a -> exists h', release a (HS R h fl) = HDone (HS R h' fl) (Ok tt) /\ freed h h' [a].
Proof.
  intros (n & E). unfold release. cbn. rewrite E. eexists. split; [reflexivity|]. intros b.
  split; [intros [->|[]]; now rewrite nth_upd_same, E|]. intros Hn. apply nth_upd_other. intros ->. apply Hn. now left.
Qed.
Lemma each_free f : (forall x v fp h R fl, holds h x v fp -> NoDup fp -> (length fp <= f)%nat ->
    exists h', h_free f x (HS R h fl) = HDone (HS R h' fl) (Ok tt) /\ freed h h' fp) ->
  forall l vs fp h R fl, holds_all h l vs fp -> NoDup fp -> (length fp <= f)%nat ->
    exists h', each (h_free f) l (HS R h fl) = HDone (HS R h' fl) (Ok tt) /\ freed h h' fp.
Proof.
  intros IH l. induction l as [|x l IHl]; intros vs fp h R fl H D L; inversion H as [|? v fx ? vs' fps Hx Hl]; subst; cbn [each].
  - exists h. split; [reflexivity|]. apply freed_nil.
  - apply nodup_app in D as (D1 & D2 & D3). rewrite app_length in L. destruct (IH x v fx h R fl Hx D1) as (h1 & E1 & F1); [lia|].
    assert (Hl1 : holds_all h1 l vs' fps) by (eapply holds_all_frame; eauto; eapply freed_agree; eauto).
    destruct (IHl _ _ h1 R fl Hl1 D2) as (h2 & E2 & F2); [lia|]. exists h2. split; [|eapply freed_app; eauto].
    unfold hbind. now rewrite E1.
Qed.
Lemma free_ok fuel : forall x v fp h R fl, holds h x v fp -> NoDup fp -> (length fp <= fuel)%nat ->
  exists h', h_free fuel x (HS R h fl) = HDone (HS R h' fl) (Ok tt) /\ freed h h' fp.
Proof.
  induction fuel as [|f IH]; intros x v fp h R fl H D L.
  - destruct fp; [|cbn in L; lia]. exists h. split; [inversion H; reflexivity|]. apply freed_nil.
  - inversion H as [| | |t a l vs fps Hn Hl|t a m ms fps Hn Hk Hl]; subst.
    1-3: exists h; split; [reflexivity|apply freed_nil].
    all: apply NoDup_cons_iff in D as [Da D]; cbn in L; destruct (each_free f IH _ _ _ h R fl Hl D) as (h1 & E1 & F1); [lia|];
      assert (La : live h1 a) by (eexists; rewrite (proj2 (F1 a) Da); exact Hn);
      destruct (release_ok R h1 fl a La) as (h2 & E2 & F2); exists h2; (split;
      [cbn [h_free]; unfold hbind; first [rewrite (arr_node_ok a l) by exact Hn|rewrite (obj_node_ok a m) by exact Hn]; now rewrite E1, E2
      |intros b; assert (I : In b (fps ++ [a]) <-> In b (a :: fps)) by (rewrite in_app_iff; cbn; tauto);
       destruct (freed_app _ _ _ _ _ F1 F2 b); split; intros; [apply H0|apply H1]; rewrite I; auto]).
Qed.

Lemma take_top_ok R xs h fl n : length xs = n -> take_top n (HS (R ++ xs) h fl) = HDone (HS R h fl) (Ok xs).
Proof.
  intros <-. unfold take_top. cbn. rewrite app_length. replace (_ <=? _)%nat with true by (symmetry; apply Nat.leb_le; lia).
  replace (length R + length xs - length xs)%nat with (length R) by lia.
  now rewrite firstn_app, Nat.sub_diag, firstn_all, skipn_app, Nat.sub_diag, skipn_all, app_nil_r.
Qed.
Lemma peek_top_ok R xs h fl n : length xs = n -> peek_top n (HS (R ++ xs) h fl) = HDone (HS (R ++ xs) h fl) (Ok xs).
Proof.
  intros <-. unfold peek_top. cbn. rewrite app_length. replace (length R + length xs - length xs)%nat with (length R) by lia.
  now rewrite skipn_app, Nat.sub_diag, skipn_all.
Qed.
Lemma pop_ok R x h fl : pop (HS (R ++ [x]) h fl) = HDone (HS R h fl) (Ok x).
Proof. unfold pop, hbind. now rewrite (take_top_ok R [x]). Qed.

Lemma simf_split hs st vs fp : simf hs (st ++ vs) fp -> exists R xs f1 f2, roots hs = R ++ xs /\ fp = f1 ++ f2 /\
  holds_all (hp hs) R st f1 /\ holds_all (hp hs) xs vs f2 /\ NoDup (f1 ++ f2) /\ (forall a, live (hp hs) a -> In a (f1 ++ f2)).
Proof. intros (H & D & L). destruct (holds_all_split _ _ _ _ _ H) as (R & xs & f1 & f2 & E & -> & A & B). exists R, xs, f1, f2. splits; auto. Qed.

Lemma drop_ok R x h fl st v fp fv : holds_all h R st fp -> holds h x v fv -> NoDup (fp ++ fv) -> (forall a, live h a -> In a (fp ++ fv)) ->
  exists h', drop (HS (R ++ [x]) h fl) = HDone (HS R h' fl) (Ok tt) /\ simf (HS R h' fl) st fp /\ agree h h' fp.
Proof.
  intros H Hx D L. apply nodup_app in D as (D1 & D2 & D3).
  destruct (free_ok (length h) x v fv h R fl Hx D2) as (h' & E & F).
  { apply fp_bound; auto. eapply holds_live; eauto. }
  assert (A : agree h h' fp) by (eapply freed_agree; eauto).
  exists h'. splits; auto.
  - unfold drop, hbind. rewrite pop_ok. cbn. now rewrite E.
  - split; cbn; [eapply holds_all_frame; eauto|]. split; auto. intros a Ha. destruct (freed_live _ _ _ _ F Ha) as [Hl Hn].
    apply L, in_app_or in Hl. tauto.
Qed.
Lemma drop_n_ok xs : forall R h fl st vs fp fv, holds_all h R st fp -> holds_all h xs vs fv -> NoDup (fp ++ fv) -> (forall a, live h a -> In a (fp ++ fv)) ->
  exists h', drop_n (length xs) (HS (R ++ xs) h fl) = HDone (HS R h' fl) (Ok tt) /\ simf (HS R h' fl) st fp /\ agree h h' fp.
Proof.
  induction xs as [|x xs IH] using rev_ind; intros R h fl st vs fp fv H Hx D L.
  - inversion Hx; subst. rewrite !app_nil_r in *. exists h. splits; auto; [|apply agree_refl]. split; auto.
  - rewrite app_length, Nat.add_comm. cbn [length Nat.add drop_n].
    assert (K : exists vs1 v, vs = vs1 ++ [v]).
    { pose proof (holds_all_length _ _ _ _ Hx) as Lx. rewrite app_length in Lx. cbn in Lx.
      destruct (exists_last (l := vs)) as (vs1 & v & ->); [intros ->; cbn in Lx; lia|eauto]. }
    destruct K as (vs1 & v & ->). destruct (holds_all_split _ _ _ _ _ Hx) as (xs1 & x1 & f1 & f2 & E & -> & A & B).
    assert (E' : xs1 = xs /\ x1 = [x]).
    { pose proof (holds_all_length _ _ _ _ B) as Lb. destruct x1 as [|y []]; cbn in Lb; try lia. apply app_inj_tail in E as [-> ->]. auto. }
    destruct E' as [-> ->]. apply holds_all_one in B. rewrite !app_assoc in *.
    destruct (drop_ok (R ++ xs) x h fl (st ++ vs1) v (fp ++ f1) f2) as (h1 & E1 & (S1 & S2 & S3) & G); auto using holds_all_app.
    cbn in *. apply agree_app in G as [G1 G2].
    destruct (IH R h1 fl st vs1 fp f1) as (h2 & E2 & S4 & G4); auto; [eapply holds_all_frame; eauto|eapply holds_all_frame; eauto|].
    exists h2. splits; auto.
    + unfold hbind. now rewrite E1.
    + intros a Ha. rewrite G4 by auto. now apply G1.
Qed.

(** ** New nodes *)
Lemma alloc_ok n R h fl : alloc n (HS R h fl) = HDone (HS R (h ++ [Some n]) fl) (Ok (length h)).
Proof. reflexivity. Qed.
Lemma agree_ext h e fp : (forall a, In a fp -> live h a) -> agree h (h ++ e) fp.
Proof. intros L a Ha. rewrite nth_error_app1; auto. now apply live_lt, L. Qed.
Lemma make_node R xs h fl st vs fp fs n y v : holds_all h R st fp -> holds_all h xs vs fs -> NoDup (fp ++ fs) -> (forall a, live h a -> In a (fp ++ fs)) ->
  (forall h', agree h h' fs -> nth_error h' (length h) = Some (Some n) -> exists fs', Permutation fs' fs /\ holds h' y v (length h :: fs')) ->
  exists f, simf (HS (R ++ [y]) (h ++ [Some n]) fl) (st ++ [v]) (fp ++ f) /\ agree h (h ++ [Some n]) fp.
Proof.
  intros H Hx D L Hn. assert (La : forall a, In a (fp ++ fs) -> live h a).
  { intros a Ha. apply in_app_or in Ha as [Ha|Ha]; [eapply Forall_forall in Ha; [exact Ha|eapply holds_all_live; eauto]|
      eapply Forall_forall in Ha; [exact Ha|eapply holds_all_live; eauto]]. }
  assert (G : agree h (h ++ [Some n]) (fp ++ fs)) by (now apply agree_ext). apply agree_app in G as [G1 G2].
  destruct (Hn (h ++ [Some n]) G2) as (fs' & P & Hy). { rewrite nth_error_app2, Nat.sub_diag by lia. reflexivity. }
  assert (P' : Permutation (fp ++ length h :: fs') (length h :: fp ++ fs)).
  { symmetry. rewrite Permutation_middle. apply Permutation_app_head. constructor. now symmetry. }
  exists (length h :: fs'). split; auto. split; cbn.
  - apply holds_all_app; [eapply holds_all_frame; eauto|]. now apply holds_all_one.
  - split.
    + eapply Permutation_NoDup; [symmetry; exact P'|]. constructor; auto. intros Ha. apply La, live_lt in Ha. lia.
    + intros a (m & E). eapply Permutation_in; [symmetry; exact P'|]. destruct (Nat.eq_dec a (length h)) as [->|Ha]; [now left|right].
      apply L. exists m. destruct (Nat.lt_ge_cases a (length h)); [now rewrite nth_error_app1 in E|].
      rewrite nth_error_app2 in E by lia. destruct (a - length h)%nat eqn:D'; [lia|]. destruct n0; discriminate.
Qed.

(** ** Copies *)
Definition oom (hs : hstate) (e : exn) : Prop := e = BadAlloc /\ fails hs <> [].
Definition copied (st : store) (fp : list addr) (hs : hstate) (vs : list value) (hs' : hstate) : Prop :=
  exists xs fs, roots hs' = roots hs ++ xs /\ simf hs' (st ++ vs) (fp ++ fs) /\ agree (hp hs) (hp hs') fp /\ quiet hs hs'.
Definition undone (st : store) (fp : list addr) (hs : hstate) (e : exn) (hs' : hstate) : Prop :=
  oom hs e /\ roots hs' = roots hs /\ simf hs' st fp /\ agree (hp hs) (hp hs') fp.
Lemma simf_in hs st fp a : simf hs st fp -> live (hp hs) a -> In a fp.
Proof. intros (_ & _ & H). apply H. Qed.
Lemma simf_base hs st fp : simf hs st fp -> holds_all (hp hs) (roots hs) st fp.
Proof. intros (H & _). exact H. Qed.
Lemma simf_fl R h fl fl' st fp : simf (HS R h fl) st fp -> simf (HS R h fl') st fp.
Proof. auto. Qed.
Lemma agree_trans h h1 h2 fp : agree h h1 fp -> agree h1 h2 fp -> agree h h2 fp.
Proof. intros A B a Ha. rewrite B, A; auto. Qed.
Lemma holds_incl hs st fp x v fx : simf hs st fp -> holds (hp hs) x v fx -> incl fx fp.
Proof. intros S H a Ha. eapply simf_in; eauto. eapply Forall_forall in Ha; [exact Ha|eapply holds_live; eauto]. Qed.
Lemma holds_all_incl hs st fp x v fx : simf hs st fp -> holds_all (hp hs) x v fx -> incl fx fp.
Proof. intros S H a Ha. eapply simf_in; eauto. eapply Forall_forall in Ha; [exact Ha|eapply holds_all_live; eauto]. Qed.
Lemma simf_temps hs st fp vs fs R xs : simf hs (st ++ vs) (fp ++ fs) -> roots hs = R ++ xs -> holds_all (hp hs) R st fp -> holds_all (hp hs) xs vs fs.
Proof.
  intros (H & _) E B. rewrite E in H. destruct (holds_all_split _ _ _ _ _ H) as (R' & xs' & f1 & f2 & E' & Ef & A & C).
  pose proof (holds_all_length _ _ _ _ A) as L1. pose proof (holds_all_length _ _ _ _ B) as L2.
  assert (K : R' = R /\ xs' = xs).
  { rewrite <- L1 in L2. clear - E' L2. revert R' E' L2. induction R as [|r R IH]; intros [|r' R']; cbn; try discriminate; auto.
    intros [= -> E] [= L]. destruct (IH R' E) as [-> ->]; auto. }
  destruct K as [-> ->]. destruct (holds_all_det _ _ _ _ _ _ B A) as [_ ->]. apply app_inv_head in Ef as ->. exact C.
Qed.
Lemma copy_each_ok (c : hval -> hM unit) : forall l vs fl hs st fp,
  (forall x v fx, In x l -> length fx <= length fl -> forall hs st fp, simf hs st fp -> holds (hp hs) x v fx -> owned v -> wp (c x) hs (fun _ => copied st fp hs [v]) (undone st fp hs))%nat ->
  simf hs st fp -> holds_all (hp hs) l vs fl -> Forall owned vs ->
  wp (copy_each c l) hs (fun _ => copied st fp hs vs) (undone st fp hs).
Proof.
  induction l as [|x l IH]; intros vs fl hs st fp Hc S H O; inversion H as [|? v fx ? vs' fps Hx Hl]; subst; cbn [copy_each].
  - eapply wp_run; [reflexivity|]. exists [], []. rewrite !app_nil_r. splits; auto; [apply agree_refl|intros Hq; auto].
  - apply Forall_cons_iff in O as [O1 O2]. apply wp_bind. eapply wp_mono.
    { apply (Hc x v fx); eauto; [now left|rewrite app_length; lia]. }
    2:{ auto. }
    intros _ hs1 (xs & fs & E1 & S1 & A1 & Q1). cbv beta.
    assert (Hl1 : holds_all (hp hs1) l vs' fps). { eapply holds_all_frame; [exact Hl|]. eapply agree_incl; [exact A1|]. eapply holds_all_incl; eauto. }
    pose proof (simf_base _ _ _ S) as B0. assert (B1 : holds_all (hp hs1) (roots hs) st fp) by (eapply holds_all_frame; eauto).
    pose proof (simf_temps _ _ _ _ _ _ _ S1 E1 B1) as X1.
    assert (Lx : exists x', xs = [x']). { apply holds_all_length in X1. destruct xs as [|x' []]; try discriminate. eauto. }
    destruct Lx as (x' & ->).
    eapply wp_catch.
    + eapply wp_mono.
      * apply (IH vs' fps hs1 (st ++ [v]) (fp ++ fs)); auto. intros y w fy Hy Ly. apply Hc; [now right|]. rewrite app_length. lia.
      * intros _ hs2 (xs2 & fs2 & E2 & S2 & A2 & Q2). exists ([x'] ++ xs2), (fs ++ fs2).
        splits; [rewrite E2, E1, <- app_assoc; reflexivity| | |intros Hq; auto].
        -- rewrite <- !app_assoc in S2. exact S2.
        -- apply agree_app in A2 as [A2 _]. eapply agree_trans; eauto.
      * intros e hs2 H2. exact H2.
    + intros e hs2 ((-> & O3) & E2 & S2 & A2). destruct hs2 as [R2 h2 fl2]. cbn in *. rewrite E1 in E2. subst R2.
      apply agree_app in A2 as [A2 A3]. destruct S2 as (_ & D2 & L2). cbn in *.
      destruct (drop_ok (roots hs) x' h2 fl2 st v fp fs) as (h' & Ed & Sd & Ad); auto.
      * eapply holds_all_frame; eauto.
      * eapply holds_frame; [|exact A3]. now apply holds_all_one.
      * eexists. split; [exact Ed|]. split; [split; auto; intros Hq; apply O3; auto|]. splits; auto.
        cbn. eapply agree_trans; [exact A1|]. eapply agree_trans; eauto.
Qed.
Lemma simf_eta R h fl hs st fp : roots hs = R -> hp hs = h -> simf hs st fp -> simf (HS R h fl) st fp.
Proof. intros <- <- S. exact S. Qed.
Lemma owned_members m : Forall (fun kv => owned (snd kv)) m <-> Forall owned (map snd (m : object)).
Proof. now rewrite Forall_map. Qed.
Lemma combine_fst_snd {A B} (m : list (A * B)) : combine (map fst m) (map snd m) = m.
Proof. induction m as [|(a, b) m IH]; cbn; auto. now rewrite IH. Qed.
Lemma fst_combine {A B} (l : list A) : forall (l' : list B), length l = length l' -> map fst (combine l l') = l.
Proof. induction l; intros [|b l']; cbn; intros H; try discriminate; auto. f_equal. auto. Qed.
Lemma snd_combine {A B} (l : list A) : forall (l' : list B), length l = length l' -> map snd (combine l l') = l'.
Proof. induction l; intros [|b l']; cbn; intros H; try discriminate; auto. f_equal. auto. Qed.
Lemma undone_fl st fp R h fl hs e hs' : roots hs = R -> hp hs = h -> (fails hs = [] -> fl = []) -> undone st fp (HS R h fl) e hs' -> undone st fp hs e hs'.
Proof. intros <- <- H ((-> & O) & E & S & A). split; [split; auto|splits; auto]. Qed.
Lemma copied_fl st fp R h fl hs vs hs' : roots hs = R -> hp hs = h -> (fails hs = [] -> fl = []) -> copied st fp (HS R h fl) vs hs' -> copied st fp hs vs hs'.
Proof. intros <- <- H (xs & fs & E & S & A & Q). exists xs, fs. splits; auto. intros Hq. auto. Qed.
Lemma undone_now st fp hs fl : simf hs st fp -> fails hs <> [] -> undone st fp hs BadAlloc (HS (roots hs) (hp hs) fl).
Proof. intros S H. split; [split; auto|]. splits; auto. apply agree_refl. Qed.
Lemma make_ok (g : list hval -> node) (mk : addr -> hval) v vs hs st fp hs1 : simf hs st fp -> copied st fp hs vs hs1 ->
  (forall xs h' b fs, length xs = length vs -> nth_error h' b = Some (Some (g xs)) -> holds_all h' xs vs fs ->
     exists fs', Permutation fs' fs /\ holds h' (mk b) v (b :: fs')) ->
  exists hs2, (let! l' := take_top (length vs) in let! b := alloc (g l') in push (mk b)) hs1 = HDone hs2 (Ok tt) /\ copied st fp hs [v] hs2.
Proof.
  intros S (xs & fs & E1 & S1 & A1 & Q1) Hg. pose proof (simf_base _ _ _ S) as B0. assert (B1 : holds_all (hp hs1) (roots hs) st fp) by (eapply holds_all_frame; eauto).
  pose proof (simf_temps _ _ _ _ _ _ _ S1 E1 B1) as X1. pose proof (holds_all_length _ _ _ _ X1) as Lx.
  destruct hs1 as [R1 h1 fl1]. cbn in *. subst R1. destruct S1 as (_ & D1 & L1). cbn in *.
  destruct (make_node (roots hs) xs h1 fl1 st vs fp fs (g xs) (mk (length h1)) v) as (f & S2 & A2); auto.
  { intros h' G Hn. apply (Hg xs); auto. eapply holds_all_frame; eauto. }
  exists (HS (roots hs ++ [mk (length h1)]) (h1 ++ [Some (g xs)]) fl1). split.
  - unfold hbind. now rewrite (take_top_ok (roots hs) xs).
  - exists [mk (length h1)], f. splits; auto. eapply agree_trans; eauto.
Qed.
Lemma tick_copied (m : hM unit) st fp hs vs : simf hs st fp ->
  (forall hs', roots hs' = roots hs -> hp hs' = hp hs -> quiet hs hs' -> wp m hs' (fun _ => copied st fp hs' vs) (undone st fp hs')) ->
  wp (tick ;; m) hs (fun _ => copied st fp hs vs) (undone st fp hs).
Proof.
  intros S H. apply wp_bind. apply wp_tick.
  - intros fl Hf. eapply wp_mono; [apply (H (HS (roots hs) (hp hs) fl)); auto| |].
    + intros ? hs' C. eapply copied_fl; [reflexivity|reflexivity|exact Hf|exact C].
    + intros e hs' C. eapply undone_fl; [reflexivity|reflexivity|exact Hf|exact C].
  - intros fl Hf. now apply undone_now.
Qed.
Lemma push_copied x v st fp hs : simf hs st fp -> (forall h, holds h x v []) -> wp (push x) hs (fun _ => copied st fp hs [v]) (undone st fp hs).
Proof.
  intros (H & D & L) Hx. eapply wp_run; [reflexivity|]. exists [x], []. rewrite app_nil_r. cbn. splits; auto; [|apply agree_refl|intros Hq; auto].
  split; cbn; [|split; auto]. rewrite <- (app_nil_r fp). apply holds_all_app; auto. now apply holds_all_one.
Qed.
Lemma simf_same hs hs' st fp : roots hs' = roots hs -> hp hs' = hp hs -> simf hs st fp -> simf hs' st fp.
Proof. unfold simf. now intros -> ->. Qed.
Lemma make_obj_ok ks vs xs h b t fs : length xs = length ks -> length vs = length ks -> nth_error h b = Some (Some (NObj (combine ks xs))) -> holds_all h xs vs fs ->
  holds h (HObj t (Some b)) (VObj t (Some (combine ks vs))) (b :: fs).
Proof. intros L1 L2 Hn H. econstructor; [exact Hn|now rewrite !fst_combine|]. now rewrite !snd_combine. Qed.
Lemma copy_ok fuel : forall x v fx, (length fx <= fuel)%nat -> forall hs st fp, simf hs st fp -> holds (hp hs) x v fx -> owned v ->
  wp (h_copy fuel x) hs (fun _ => copied st fp hs [v]) (undone st fp hs).
Proof.
  assert (Str : forall fuel t s hs st fp, simf hs st fp -> wp (h_copy fuel (HStr t s)) hs (fun _ => copied st fp hs [VStr t s]) (undone st fp hs)).
  { intros n t s hs st fp S. replace (h_copy n (HStr t s)) with (tick ;; push (HStr t s)) by (destruct n; reflexivity).
    apply tick_copied; auto. intros hs' E1 E2 Q. apply push_copied; [eapply simf_same; eauto|]. intros; constructor. }
  induction fuel as [|f IH]; intros x v fx L hs st fp S H O.
  - inversion H; subst; cbn in L; try lia; try (now apply Str); inversion O.
  - inversion H as [| | |t a l vs fps Hn Hl|t a m ms fps Hn Hk Hl]; subst; cbn in L; try (now apply Str); try (now inversion O); cbn [h_copy].
    + inversion O as [|? ? Ov|]; subst. eapply wp_step; [apply arr_node_ok, Hn|].
      apply tick_copied; auto. intros hs1 E1 E2 Q1. apply tick_copied; [eapply simf_same; eauto|]. intros hs2 E3 E4 Q2.
      rewrite E1 in E3. rewrite E2 in E4. assert (S2 : simf hs2 st fp) by (eapply simf_same; eauto).
      apply wp_bind. eapply wp_mono; [apply (copy_each_ok (h_copy f) l vs fps hs2 st fp); auto|..].
      * intros y w fy _ Ly. apply IH. lia.
      * now rewrite E4.
      * intros ? hs3 C. rewrite (holds_all_length _ _ _ _ Hl).
        destruct (make_ok NArr (fun b => HArr t (Some b)) (VArr t (Some vs)) vs hs2 st fp hs3 S2 C) as (hs4 & E5 & C4).
        { intros xs h' b fs _ Hb Hx. exists fs. split; auto. econstructor; eauto. }
        eapply wp_run; [exact E5|exact C4].
      * auto.
    + inversion O as [| |? ? Ov]; subst. eapply wp_step; [apply obj_node_ok, Hn|].
      apply tick_copied; auto. intros hs2 E3 E4 Q1. assert (S2 : simf hs2 st fp) by (eapply simf_same; eauto).
      apply wp_bind. eapply wp_mono; [apply (copy_each_ok (fun y => tick ;; tick ;; h_copy f y) (map snd m) (map snd ms) fps hs2 st fp); auto|..].
      * intros y w fy _ Ly hs' st' fp' S' H' O'. apply tick_copied; auto. intros hs5 F1 F2 Q5.
        apply tick_copied; [eapply simf_same; eauto|]. intros hs6 F3 F4 Q6. apply (IH y w fy); auto; [lia|eapply simf_same; [| |exact S']; congruence|].
        now rewrite F4, F2.
      * now rewrite E4.
      * now apply owned_members.
      * intros ? hs3 C. pose proof (holds_all_length _ _ _ _ Hl) as Lm. rewrite !map_length in Lm.
        destruct (make_ok (fun l' => NObj (combine (map fst m) l')) (fun b => HObj t (Some b)) (VObj t (Some ms)) (map snd ms) hs2 st fp hs3 S2 C) as (hs4 & E5 & C4).
        { intros xs h' b fs Lx Hb Hx. exists fs. split; auto. rewrite <- (combine_fst_snd ms). rewrite <- Hk. rewrite map_length in Lx.
          apply (make_obj_ok (map fst m) _ xs); auto; rewrite !map_length; lia. }
        rewrite map_length, <- Lm in E5. eapply wp_run; [exact E5|exact C4].
      * auto.
Qed.
Lemma simf_read hs st fp l w : simf hs st fp -> read st l = Some w -> exists pl y fy, resolve hs l = Some (pl, y) /\ holds (hp hs) y w fy /\ (length fy <= length (hp hs))%nat /\
  get_pl pl hs = HDone hs (Ok y).
Proof.
  destruct hs as [R h fl]. intros (H & D & L) E. cbn in *. destruct (store_at h R st fp l w fl H D E) as (pl & y & F1 & fy & F2 & Er & -> & Hy & G & _).
  exists pl, y, fy. splits; auto.
  - apply fp_bound; [|eapply holds_live; eauto]. apply nodup_app in D as (_ & D & _). now apply nodup_app in D.
  - specialize (G [] h fl). rewrite app_nil_r in G. apply G, agree_refl.
Qed.
Lemma vref_det hs l pl pl' : vref hs l pl -> vref hs l pl' -> pl' = pl.
Proof. intros (y & E) (y' & E'). congruence. Qed.
Lemma copy_pl_ok hs st fp l w pl : simf hs st fp -> read st l = Some w -> vref hs l pl -> owned w ->
  wp (copy_pl pl) hs (fun _ => copied st fp hs [w]) (undone st fp hs).
Proof.
  intros S E V O. destruct (simf_read _ _ _ _ _ S E) as (pl' & y & fy & Er & Hy & Ly & G).
  assert (pl' = pl) as -> by (eapply vref_det; eauto; eexists; eauto). unfold copy_pl.
  eapply wp_step; [exact G|]. eapply wp_step; [reflexivity|]. eapply copy_ok; eauto.
Qed.
