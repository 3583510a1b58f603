(** * Copying a value that has been moved from: C53 *)
From Verif Require Import Base Value Containers Dump Api SpecApi BaseProofs ContainerProofs ApiProofs Heap SpecHeap HeapBase HeapSteps HeapOps HeapMoves HeapNodes HeapCalls SamplesApi SamplesHeap SpecMoves SamplesMoves.

Lemma forall_dec {A} (P : A -> Prop) l : Forall (fun x => P x \/ ~ P x) l -> Forall P l \/ ~ Forall P l.
Proof.
  induction 1 as [|x l [H|H] _ [I|I]]; auto.
  - right. intros F. inversion F. contradiction.
  - right. intros F. inversion F. contradiction.
  - right. intros F. inversion F. contradiction.
Qed.
Lemma owned_dec v : owned v \/ ~ owned v.
Proof.
  induction v as [t s|t|t l IH|t|t m IH] using value_ind'.
  - left. constructor.
  - right. intros H. inversion H.
  - destruct (forall_dec _ _ IH) as [H|H]; [left; now constructor|right]. intros X. inversion X. contradiction.
  - right. intros H. inversion H.
  - destruct (forall_dec (fun kv => owned (snd kv)) m IH) as [H|H]; [left; now constructor|right]. intros X. inversion X. contradiction.
Qed.
Lemma step_bind {A B} (m : hM A) (f : A -> hM B) hs hs' a : m hs = HDone hs' (Ok a) -> hbind m f hs = f a hs'.
Proof. unfold hbind. now intros ->. Qed.
Lemma bind_ub {A B} (m : hM A) (f : A -> hM B) hs hs' : m hs = HDone hs' Ub -> hbind m f hs = HDone hs' Ub.
Proof. unfold hbind. now intros ->. Qed.
Lemma tick_none hs : fails hs = [] -> tick hs = HDone hs (Ok tt).
Proof. unfold tick. now intros ->. Qed.

Lemma each_undefined (c : hval -> hM unit) l : forall vs fps hs st fp,
  (forall x v fx, In x l -> (length fx <= length fps)%nat -> forall hs st fp, simf hs st fp -> holds (hp hs) x v fx -> owned v -> wp (c x) hs (fun _ => copied st fp hs [v]) (undone st fp hs)) ->
  (forall x v fx, In x l -> (length fx <= length fps)%nat -> forall hs st fp, simf hs st fp -> holds (hp hs) x v fx -> ~ owned v -> fails hs = [] -> exists hs', c x hs = HDone hs' Ub) ->
  simf hs st fp -> holds_all (hp hs) l vs fps -> ~ Forall owned vs -> fails hs = [] -> exists hs', copy_each c l hs = HDone hs' Ub.
Proof.
  induction l as [|x l IH]; intros vs fps hs st fp Hc Hu S H N Q.
  - inversion H; subst. destruct N. constructor.
  - inversion H as [|? v fx ? vs' fps' Hx Hl]; subst. cbn [copy_each]. destruct (owned_dec v) as [O|O].
    + pose proof (Hc x v fx ltac:(now left) ltac:(rewrite app_length; lia) hs st fp S Hx O) as W. unfold wp in W.
      destruct (c x hs) as [|hs1 [[]|e| | |]] eqn:Ec; try contradiction.
      * destruct W as (xs & fs & E1 & S1 & A1 & Q1). rewrite (step_bind _ _ _ _ _ Ec).
        assert (Hl1 : holds_all (hp hs1) l vs' fps').
        { eapply holds_all_frame; [exact Hl|]. eapply agree_incl; [exact A1|]. eapply holds_all_incl; eauto. }
        destruct (IH vs' fps' hs1 (st ++ [v]) (fp ++ fs)) as (hs2 & E2); auto.
        { intros y w fy Hy Ly. apply Hc; [now right|]. rewrite app_length. lia. }
        { intros y w fy Hy Ly. apply Hu; [now right|]. rewrite app_length. lia. }
        exists hs2. unfold on_throw. now rewrite E2.
      * destruct W as ((_ & W) & _). contradiction.
    + destruct (Hu x v fx ltac:(now left) ltac:(rewrite app_length; lia) hs st fp S Hx O Q) as (hs' & E). exists hs'. now apply bind_ub.
Qed.
Lemma copy_undefined fuel : forall x v fx, (length fx <= fuel)%nat -> forall hs st fp, simf hs st fp -> holds (hp hs) x v fx -> ~ owned v -> fails hs = [] ->
  exists hs', h_copy fuel x hs = HDone hs' Ub.
Proof.
  induction fuel as [|f IH]; intros x v fx L hs st fp S H O Q.
  - inversion H as [| | |t a l vs fps Hn Hl|t a m ms fps Hn Hk Hl]; subst; cbn in L; try lia; [destruct O; constructor| |]; eexists; reflexivity.
  - inversion H as [| | |t a l vs fps Hn Hl|t a m ms fps Hn Hk Hl]; subst; cbn in L; [destruct O; constructor|eexists; reflexivity|eexists; reflexivity| |]; cbn [h_copy].
    + rewrite (step_bind _ _ _ _ _ (arr_node_ok _ _ _ Hn)), (step_bind _ _ _ _ _ (tick_none _ Q)), (step_bind _ _ _ _ _ (tick_none _ Q)).
      destruct (each_undefined (h_copy f) l vs fps hs st fp) as (hs' & E); auto.
      * intros y w fy _ Ly hs0 st0 fp0. apply copy_ok. lia.
      * intros y w fy _ Ly hs0 st0 fp0 S0 H0. apply (IH y w fy ltac:(lia) hs0 st0 fp0 S0 H0).
      * intros F. destruct O. now constructor.
      * exists hs'. now apply bind_ub.
    + rewrite (step_bind _ _ _ _ _ (obj_node_ok _ _ _ Hn)), (step_bind _ _ _ _ _ (tick_none _ Q)).
      destruct (each_undefined (fun y => tick ;; tick ;; h_copy f y) (map snd m) (map snd ms) fps hs st fp) as (hs' & E); auto.
      * intros y w fy _ Ly hs' st' fp' S' H' O'. apply tick_copied; auto. intros hs5 F1 F2 Q5.
        apply tick_copied; [eapply simf_same; eauto|]. intros hs6 F3 F4 Q6. apply (copy_ok f y w fy); auto; [lia|eapply simf_same; [| |exact S']; congruence|].
        now rewrite F4, F2.
      * intros y w fy _ Ly hs0 st0 fp0 S0 H0 O0 Q0. rewrite (step_bind _ _ _ _ _ (tick_none _ Q0)), (step_bind _ _ _ _ _ (tick_none _ Q0)).
        exact (IH y w fy ltac:(lia) hs0 st0 fp0 S0 H0 O0 Q0).
      * intros F. destruct O. constructor. now apply owned_members.
      * exists hs'. now apply bind_ub.
Qed.
Theorem copy_exactly hs st l v : sim hs st -> fails hs = [] -> read st l = Some v ->
  exists hs' r, hexec (CNew (ECopy l)) hs = HDone hs' r /\ (owned v /\ r = Ok tt /\ sim hs' (st ++ [v]) \/ ~ owned v /\ r = Ub).
Proof.
  intros (fp & S) Q R. destruct (simf_read _ _ _ _ _ S R) as (pl & y & fy & Er & Hy & Ly & G).
  cbn [hexec h_eval]. assert (A : at_loc l hs = HDone hs (Ok pl)) by (unfold at_loc; now rewrite Er).
  rewrite (step_bind _ _ _ _ _ A). unfold copy_pl. rewrite (step_bind _ _ _ _ _ G). rewrite (step_bind enough _ hs hs (length (hp hs)) eq_refl).
  destruct (owned_dec v) as [O|O].
  - pose proof (copy_ok _ _ _ _ Ly hs st fp S Hy O) as W. unfold wp in W. destruct (h_copy _ _ hs) as [|hs1 [[]|e| | |]] eqn:Ec; try contradiction.
    + destruct W as (xs & fs & E1 & S1 & _). exists hs1, (Ok tt). split; [reflexivity|]. left. split; [exact O|]. split; [reflexivity|]. eexists. exact S1.
    + destruct W as ((_ & W) & _). contradiction.
  - destruct (copy_undefined _ _ _ _ Ly hs st fp S Hy O Q) as (hs1 & ->). exists hs1, Ub. auto.
Qed.
Lemma move_not_owned : exists w, read move_store (at_root 1) = Some w /\ ~ owned w.
Proof. destruct move_result as (_ & w & _ & _ & R & O & _). eauto. Qed.

(** ** Moving out of a part that has been destroyed: C38 *)
Definition in_node (a : addr) (p : place) : Prop := match p with Root _ => False | Elem b _ | Mem b _ => b = a end.
Lemma child_inside h s x v fp r : holds h x v fp -> Heap.child h s x = Some r -> exists a w fy, in_node a (fst r) /\ In a fp /\ holds h (snd r) w fy /\ incl fy fp.
Proof.
  intros H E. assert (W : walk h [s] (Root 0, x) = Some r) by (cbn [walk snd]; now rewrite E).
  destruct (walk_in h [s] _ _ _ _ _ H W) as (w & fy & Hy & I).
  destruct s as [k|n], x as [t s|t [a|]|t [a|]]; cbn in E; try discriminate.
  - destruct (nth_error h a) as [[[l|m]|]|] eqn:En; try discriminate. destruct (map_find k m); [|discriminate]. injection E as <-.
    exists a, w, fy. split; [reflexivity|]. split; [inversion H; subst; now left|auto].
  - destruct (nth_error h a) as [[[l|m]|]|] eqn:En; try discriminate. destruct (nth_error l n); [|discriminate]. injection E as <-.
    exists a, w, fy. split; [reflexivity|]. split; [inversion H; subst; now left|auto].
Qed.
Lemma walk_inside h q : forall pl x v fp r, q <> [] -> holds h x v fp -> walk h q (pl, x) = Some r -> exists a, in_node a (fst r) /\ In a fp.
Proof.
  induction q as [|s q IH]; intros pl x v fp r Nq H E; [contradiction|]. cbn [walk snd] in E.
  destruct (Heap.child h s x) as [[p1 x1]|] eqn:Ec; [|discriminate].
  destruct (child_inside _ _ _ _ _ _ H Ec) as (a & w & fy & A & I & Hy & J). cbn [fst snd] in *.
  destruct q as [|s' q].
  - cbn in E. injection E as <-. exists a. auto.
  - destruct (IH p1 x1 w fy r ltac:(discriminate) Hy E) as (b & B & Ib). exists b. split; auto.
Qed.
Lemma get_dead a p hs : in_node a p -> ~ live (hp hs) a -> get_pl p hs = HDone hs Ub.
Proof.
  intros A N. destruct p as [i|b n|b k]; [destruct A| |]; cbn [in_node] in A; subst b; cbn [get_pl]; apply bind_ub; unfold arr_node, obj_node; apply bind_ub; unfold node_at.
  all: destruct (nth_error (hp hs) a) as [[n'|]|] eqn:En; [destruct N; exists n'; exact En|reflexivity..].
Qed.
Lemma nodup_mid {A} (f g k : list A) : NoDup (f ++ g ++ k) -> NoDup ((f ++ k) ++ g).
Proof. intros D. apply (Permutation.Permutation_NoDup (l := f ++ g ++ k)); auto. rewrite <- app_assoc. apply Permutation.Permutation_app_head, Permutation.Permutation_app_comm. Qed.
Theorem move_from_part_undefined hs st dst src d w : sim hs st -> read st dst = Some d -> read st src = Some w ->
  strictly_inside dst src -> same_alternative d w = false -> exists hs', hexec (CAssign dst (MRef src)) hs = HDone hs' Ub.
Proof.
  intros S Rd Rs I A. destruct hs as [R h fl]. destruct S as (fp & H & D & L). cbn [hp roots] in *.
  destruct (simf_read (HS R h fl) st fp src w (conj H (conj D L)) Rs) as (ps & y & fy & Es & Hy & _ & Gy). cbn [hp] in *.
  destruct (store_at h R st fp dst d fl H D Rd) as (pd & x & F1 & fx & F2 & Ed & -> & Hx & Gx & Px).
  assert (Hin : exists a, in_node a ps /\ In a fx).
  { destruct I as (I1 & s & q & I2). unfold resolve in Ed, Es. cbn [roots hp] in *. rewrite I1, I2 in Es. destruct (nth_error R (slot dst)) as [r|]; [|discriminate].
    rewrite walk_app, Ed in Es. exact (walk_inside h (s :: q) pd x d fx (ps, y) ltac:(discriminate) Hx Es). }
  destruct Hin as (a & Ha & Ia).
  cbn [hexec with_arg]. assert (As : at_loc src (HS R h fl) = HDone (HS R h fl) (Ok ps)) by (unfold at_loc; now rewrite Es).
  assert (Ad : at_loc dst (HS R h fl) = HDone (HS R h fl) (Ok pd)) by (unfold at_loc; now rewrite Ed).
  rewrite (step_bind _ _ _ _ _ As), (step_bind _ _ _ _ _ Ad). cbn [h_assign]. unfold h_move_assign.
  rewrite (step_bind _ _ _ _ _ Gy). pose proof (Gx [] h fl (fun a _ => eq_refl)) as Gx0. rewrite app_nil_r in Gx0. rewrite (step_bind _ _ _ _ _ Gx0).
  (* the tag *)
  destruct (Px [] h fl (h_set_tag (h_tag y) x) (set_tag (h_tag y) d) fx (fun a _ => eq_refl) (holds_tag _ _ _ _ _ Hx)) as (R2 & h2 & E2 & H2 & Hx2 & _ & L2 & V2).
  { intros b B1 B2. apply nodup_app in D as (_ & _ & D). apply (D b); [exact B1|]. apply in_or_app. now left. }
  rewrite !app_nil_r in E2. rewrite (step_bind _ _ _ _ _ E2). rewrite (alt_holds _ _ _ _ _ _ _ Hx Hy), A.
  rewrite (step_bind (push _) _ (HS R2 h2 fl) (HS (R2 ++ [HStr (h_tag y) []]) h2 fl) tt eq_refl).
  set (st1 := write st dst (set_tag (h_tag y) d)) in *.
  assert (R1 : read st1 dst = Some (set_tag (h_tag y) d)) by (unfold st1; now rewrite read_write_same, Rd).
  destruct (store_at h2 R2 st1 _ dst _ fl H2 D R1) as (pd' & x' & F1' & fx' & F2' & Ed' & Ef & Hx' & Gx' & Px').
  destruct (V2 [] fl) as [Ed2 _]. rewrite app_nil_r in Ed2. rewrite Ed2 in Ed'. injection Ed' as <- <-.
  destruct (proj1 (holds_det_mut h2) _ _ _ Hx2 _ _ Hx') as [_ ->]. clear Ed2 V2 Px.
  (* the old value becomes a temporary *)
  destruct (Px' [h_set_tag (h_tag y) x] h2 fl (HStr (h_tag y) []) (VStr (h_tag y) []) [] (fun a _ => eq_refl) (ho_str _ _ _)) as (R3 & h3 & E3 & H3 & _ & N3 & L3 & _).
  { intros b _ []. }
  assert (Sw : swap_in pd (HS (R2 ++ [HStr (h_tag y) []]) h2 fl) = HDone (HS (R3 ++ [h_set_tag (h_tag y) x]) h3 fl) (Ok tt)).
  { unfold swap_in. rewrite (step_bind _ _ _ _ _ (pop_ok R2 _ h2 fl)). pose proof (Gx' [] h2 fl (fun a _ => eq_refl)) as G. rewrite app_nil_r in G. rewrite (step_bind _ _ _ _ _ G).
    rewrite (step_bind (push _) _ (HS R2 h2 fl) (HS (R2 ++ [h_set_tag (h_tag y) x]) h2 fl) tt eq_refl). exact E3. }
  rewrite (step_bind _ _ _ _ _ Sw). cbn [app] in H3.
  (* and is destroyed *)
  rewrite Ef in D, L. pose proof (nodup_mid _ _ _ D) as D'.
  assert (Hx3 : holds h3 (h_set_tag (h_tag y) x) (set_tag (h_tag y) d) fx).
  { eapply holds_frame; [exact Hx'|]. intros b B. apply N3. intros B1. apply nodup_app in D as (_ & _ & D). apply (D b B1). apply in_or_app. now left. }
  destruct (drop_ok R3 _ h3 fl _ _ (F1' ++ F2') fx H3 Hx3 D') as (h4 & E4 & (_ & _ & L4) & _).
  { intros b B. apply L3, L2, L in B. rewrite !in_app_iff in *. tauto. }
  rewrite (step_bind _ _ _ _ _ E4). cbn [hp] in L4.
  exists (HS R3 h4 fl). apply bind_ub. unfold take_pl. apply bind_ub. apply (get_dead a); [exact Ha|]. cbn [hp]. intros Lv. apply L4 in Lv.
  apply nodup_app in D' as (_ & _ & D'). exact (D' a Lv Ia).
Qed.
