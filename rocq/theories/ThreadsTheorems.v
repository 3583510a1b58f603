(** * Threads that share nothing one of them changes do not influence each other. *)
From Verif Require Import Base Value Containers Dump Api SpecApi Heap SpecHeap SpecThreads BaseProofs ApiProofs HeapBase HeapOps HeapSteps HeapProofs ThreadsProofs.
From Coq Require Import Lia Permutation.

Lemma made_seq g (g' : store) n : length g' = (length g + n)%nat -> made (@length value g) g' = seq (length g) n.
Proof. intros L. unfold made. rewrite L. f_equal. lia. Qed.
(** one command *)
Lemma exec_local tab g st c : NoDup tab -> shows tab g st -> Forall (fun i => i < length tab)%nat (uses c) ->
  match exec c st with
  | Stuck => exec (ren_cmd tab c) g = Stuck
  | Done st' r => exists g', exec (ren_cmd tab c) g = Done g' r /\ shows (tab ++ made (length g) g') g' st' /\ (length g <= length g')%nat /\
      forall i, (i < length g)%nat -> ~ In i (map (ren tab) (writes c)) -> nth_error g' i = nth_error g i
  end.
Proof.
  intros ND S U. pose proof (exec_grow tab ND c U st g S) as H. destruct (exec c st) as [|st' r]; [exact H|].
  destruct H as (g' & n & E & L & S' & F). exists g'. rewrite (made_seq g g' n L). splits; auto. lia.
Qed.
Definition fits (g : store) (ts : list thread) : Prop := Forall (fun t => NoDup (names t) /\ Forall (fun i => i < length g)%nat (names t)) ts.
Lemma view g tab : Forall (fun i => i < length g)%nat tab -> exists st, shows tab g st.
Proof.
  induction 1 as [|i tab Hi _ (st & IH)]; [exists []; reflexivity|].
  destruct (nth_error g i) as [v|] eqn:E; [|apply nth_error_None in E; lia].
  exists (v :: st). unfold shows in *. cbn. rewrite E, IH. reflexivity.
Qed.
Lemma view_one tab g st st' : shows tab g st -> shows tab g st' -> st = st'.
Proof.
  unfold shows. intros H H'. rewrite H in H'. revert st' H'. clear H. induction st as [|v st IH]; intros [|w st'] H; try discriminate H; [reflexivity|].
  injection H as -> H. f_equal. auto.
Qed.
Lemma NoDup_made tab (g g' : store) : NoDup tab -> Forall (fun i => i < length g)%nat tab -> NoDup (tab ++ made (length g) g').
Proof.
  intros ND B. unfold made. generalize (length g' - length g)%nat. intros n.
  induction tab as [|x tab IH]; [apply seq_NoDup|]. cbn. apply NoDup_cons_iff in ND as [N1 N2]. apply Forall_cons_iff in B as [B1 B2].
  constructor; [|auto]. rewrite in_app_iff, in_seq. intros [H|H]; [auto|lia].
Qed.
Lemma in_middle {A} (a b : list A) x y i z : nth_error (a ++ x :: b) i = Some z -> (i <> length a /\ nth_error (a ++ y :: b) i = Some z) \/ (i = length a /\ z = x).
Proof.
  intros H. destruct (Nat.lt_trichotomy i (length a)) as [L|[->|L]].
  - left. split; [lia|]. rewrite nth_error_app1 in H |- * by lia. exact H.
  - right. split; [reflexivity|]. rewrite nth_error_app2, Nat.sub_diag in H by lia. cbn in H. congruence.
  - left. split; [lia|]. rewrite nth_error_app2 in H |- * by lia. destruct (i - length a)%nat eqn:E; [lia|]. exact H.
Qed.
Lemma nth_middle {A} (a b : list A) x : nth_error (a ++ x :: b) (length a) = Some x.
Proof. rewrite nth_error_app2, Nat.sub_diag by lia. reflexivity. Qed.

Lemma moves_named e : forall k, In k (expr_moves e) -> In k (map slot (expr_copies e)).
Proof.
  induction e as [| | | | |l|l|es IH|ms IH] using expr_ind'; cbn; try tauto.
  - intros k H. apply in_flat_map in H as (e & He & Hk). pose proof (proj1 (Forall_forall _ _) IH e He k Hk) as H. apply in_map_iff in H as (l & <- & Hl).
    apply in_map. apply in_flat_map. eauto.
  - intros k H. apply in_flat_map in H as (e & He & Hk). pose proof (proj1 (Forall_forall _ _) IH e He k Hk) as H. apply in_map_iff in H as (l & <- & Hl).
    apply in_map. apply in_flat_map. eauto.
Qed.
Lemma arg_named a k : In k (arg_moves a) -> In k (map slot (arg_refs a ++ arg_copies a)).
Proof. destruct a as [e|l|l]; cbn; [apply moves_named|tauto|auto]. Qed.
Lemma writes_used c k : In k (writes c) -> In k (uses c).
Proof.
  unfold uses. destruct c as [e|d a|d a|d x a|d s mv|d s mv|l s ml mr|l s ml mr|l m|l q|a b]; cbn [writes refs cmd_copies app map].
  - apply moves_named.
  - intros [<-|H]; [left; reflexivity|right; apply arg_named, H].
  - intros [<-|H]; [left; reflexivity|right; apply arg_named, H].
  - intros [<-|H]; [left; reflexivity|right; apply arg_named, H].
  - auto.
  - auto.
  - destruct ml; cbn; tauto.
  - destruct ml; cbn; tauto.
  - auto.
  - intros [].
  - intros [].
Qed.
Lemma turn_keeps g ts g' ts' : fits g ts -> race_free ts -> turn g ts g' ts' ->
  fits g' ts' /\ race_free ts' /\ forall i t', nth_error ts' i = Some t' -> exists t, nth_error ts i = Some t /\
    ((t' = t /\ forall st, shows (names t) g st -> shows (names t) g' st) \/
     (exists c r st st', code t = c :: code t' /\ said t' = said t ++ [r] /\ shows (names t) g st /\ exec c st = Done st' r /\ shows (names t') g' st')).
Proof.
  intros Fi Rf T. destruct T as [g a tab c cs rs b g' r U E].
  set (t0 := Thread tab (c :: cs) rs) in *. set (t1 := Thread (tab ++ made (length g) g') cs (rs ++ [r])).
  pose proof Fi as Fi'. apply Forall_app in Fi' as [Fa Fb]. apply Forall_cons_iff in Fb as [[ND Bd] Fb]. cbn in ND, Bd.
  destruct (view g tab Bd) as (st & S). pose proof (exec_local tab g st c ND S U) as Loc.
  destruct (exec c st) as [|st' r'] eqn:Ec; [congruence|]. destruct Loc as (g1 & E1 & S1 & L1 & F1).
  assert (g1 = g' /\ r' = r) as [-> ->] by (split; congruence). clear E1.
  assert (At : nth_error (a ++ t0 :: b) (length a) = Some t0) by apply nth_middle.
  splits.
  - apply Forall_app. split; [|constructor].
    + eapply Forall_impl; [|exact Fa]. intros t [N B]. split; [exact N|]. eapply Forall_impl; [|exact B]. cbn. intros; lia.
    + cbn. split; [apply NoDup_made; auto|]. apply Forall_app. split; [eapply Forall_impl; [|exact Bd]; cbn; intros; lia|].
      apply Forall_forall. intros i Hi. apply in_seq in Hi. lia.
    + eapply Forall_impl; [|exact Fb]. intros t [N B]. split; [exact N|]. eapply Forall_impl; [|exact B]. cbn. intros; lia.
  - intros i j t u k Nij Hi Hj Hk Lk.
    assert (Bu : forall j u, nth_error (a ++ t0 :: b) j = Some u -> Forall (fun i => i < length g)%nat (names u)).
    { intros j' u' H. apply nth_error_In in H. exact (proj2 (proj1 (Forall_forall _ _) Fi u' H)). }
    destruct (in_middle a b t1 t0 i t Hi) as [[Ni Hi']|[-> ->]], (in_middle a b t1 t0 j u Hj) as [[Nj Hj']|[-> ->]]; try congruence.
    + exact (Rf i j t u k Nij Hi' Hj' Hk Lk).
    + cbn [names t1]. rewrite in_app_iff. intros [H|H]; [exact (Rf i (length a) t t0 k Nij Hi' At Hk Lk H)|].
      apply in_seq in H. pose proof (proj1 (Forall_forall _ _) (Bu i t Hi') _ (ren_in (names t) k Lk)) as B. cbn in B. lia.
    + cbn [names code t1] in *. rewrite app_length in Lk. destruct (Nat.lt_ge_cases k (length tab)) as [Lt|Ge].
      * unfold ren. rewrite app_nth1 by exact Lt. apply (Rf (length a) j t0 u k Nij At Hj'); [|exact Lt]. cbn. apply in_or_app. right. exact Hk.
      * intros H. pose proof (proj1 (Forall_forall _ _) (Bu j u Hj') _ H) as B. cbn in B. unfold ren in B. rewrite app_nth2 in B by exact Ge.
        assert (Hm : In (nth (k - length tab) (made (length g) g') 0%nat) (made (length g) g')) by (apply nth_In; lia).
        apply in_seq in Hm. lia.
  - intros i t' Hi. destruct (in_middle a b t1 t0 i t' Hi) as [[Ni Hi']|[-> ->]].
    + exists t'. split; [exact Hi'|]. left. split; [reflexivity|]. intros stu Su. unfold shows in *. rewrite <- Su. apply map_ext_in. intros x Hx.
      assert (Bu : (x < length g)%nat) by (apply nth_error_In in Hi'; exact (proj1 (Forall_forall _ _) (proj2 (proj1 (Forall_forall _ _) Fi t' Hi')) x Hx)).
      apply F1; [exact Bu|]. intros Hw. apply in_map_iff in Hw as (k & <- & Hk). destruct (Nat.lt_ge_cases k (length tab)) as [Lt|Ge].
      * apply (Rf (length a) i t0 t' k); auto. cbn. apply in_or_app. left. exact Hk.
      * assert (In k (uses c)) by (apply writes_used, Hk). pose proof (proj1 (Forall_forall _ _) U k H). cbn in *. lia.
    + exists t0. split; [exact At|]. right. exists c, r, st, st'. cbn. splits; auto.
Qed.

Lemma alone_app st cs st1 rs : alone st cs st1 rs -> forall cs' st2 rs', alone st1 cs' st2 rs' -> alone st (cs ++ cs') st2 (rs ++ rs').
Proof. induction 1; cbn; intros; [assumption|]. econstructor; eauto. Qed.
Lemma turns_alone g ts g' ts' : turns g ts g' ts' -> fits g ts -> race_free ts ->
  forall i t', nth_error ts' i = Some t' -> exists t ran st st' rs, nth_error ts i = Some t /\ code t = ran ++ code t' /\ said t' = said t ++ rs /\ shows (names t) g st /\ alone st ran st' rs /\ shows (names t') g' st'.
Proof.
  induction 1 as [g ts|g ts g1 ts1 g2 ts2 T _ IH]; intros Fi Rf i t' Hi.
  - destruct (view g (names t')) as (st & S). { apply nth_error_In in Hi. exact (proj2 (proj1 (Forall_forall _ _) Fi t' Hi)). }
    exists t', [], st, st, []. rewrite app_nil_r. splits; auto. constructor.
  - destruct (turn_keeps g ts g1 ts1 Fi Rf T) as (Fi1 & Rf1 & Each). destruct (IH Fi1 Rf1 i t' Hi) as (t1 & ran & st1 & st2 & rs & H1 & Ec & Es & S1 & Al & S2).
    destruct (Each i t1 H1) as (t & Ht & [[-> K]|(c & r & st & st1' & Ec0 & Es0 & S0 & X & S1')]).
    + destruct (view g (names t)) as (st & S). { apply nth_error_In in Ht. exact (proj2 (proj1 (Forall_forall _ _) Fi t Ht)). }
      pose proof (view_one _ _ _ _ (K st S) S1) as ->. exists t, ran, st1, st2, rs. splits; auto.
    + pose proof (view_one _ _ _ _ S1' S1) as ->. exists t, (c :: ran), st, st2, (r :: rs). cbn. splits; auto.
      * rewrite Ec0, Ec. reflexivity.
      * rewrite Es, Es0, <- app_assoc. reflexivity.
      * econstructor; eauto.
Qed.
Lemma placed_fits g ts : placed g ts -> fits g ts.
Proof. intros P. eapply Forall_impl; [|exact P]. intros t (A & B & _). split; assumption. Qed.
(** what a thread has done so far it would have done alone *)
Lemma threads_alone g ts g' ts' : placed g ts -> race_free ts -> turns g ts g' ts' ->
  forall i t', nth_error ts' i = Some t' -> exists t ran st st', nth_error ts i = Some t /\ code t = ran ++ code t' /\ shows (names t) g st /\ alone st ran st' (said t') /\ shows (names t') g' st'.
Proof.
  intros P R T i t' H. destruct (turns_alone g ts g' ts' T (placed_fits g ts P) R i t' H) as (t & ran & st & st' & rs & Ht & Ec & Es & S & A & S').
  exists t, ran, st, st'. apply nth_error_In in Ht as In_t. destruct (proj1 (Forall_forall _ _) P t In_t) as (_ & _ & E0). rewrite E0 in Es. cbn in Es. rewrite Es. splits; auto.
Qed.
(** a thread whose next statement can be executed if it is alone can execute it now *)
Lemma threads_go_on g ts g' ts' : placed g ts -> race_free ts -> turns g ts g' ts' ->
  forall i t' c cs, nth_error ts' i = Some t' -> code t' = c :: cs -> Forall (fun k => k < length (names t'))%nat (uses c) ->
  forall st', shows (names t') g' st' -> exec c st' <> Stuck -> exists g2 ts2 t2, turn g' ts' g2 ts2 /\ nth_error ts2 i = Some t2 /\ code t2 = cs.
Proof.
  intros P R T i t' c cs Hi Ec U st' S Nx.
  assert (Fi : fits g' ts').
  { clear -P R T. apply placed_fits in P. induction T as [|g ts g1 ts1 g2 ts2 T _ IH]; [exact P|]. destruct (turn_keeps g ts g1 ts1 P R T) as (F1 & R1 & _). auto. }
  destruct (nth_error_split ts' i Hi) as (a & b & -> & <-).
  apply nth_error_In in Hi as Hin. destruct (proj1 (Forall_forall _ _) Fi t' Hin) as [ND _].
  pose proof (exec_local (names t') g' st' c ND S U) as L. destruct (exec c st') as [|st2 r]; [congruence|]. destruct L as (g2 & E & _).
  destruct t' as [tab co rs]. cbn in *. subst co. eexists _, _, _. split; [constructor; eauto|]. split; [apply nth_middle|reflexivity].
Qed.

(** ** What a command does depends on the variables it names only. *)
Lemma ren_expr_ext t1 t2 e : (forall l, In l (expr_copies e) -> ren t1 (slot l) = ren t2 (slot l)) -> ren_expr t1 e = ren_expr t2 e.
Proof.
  induction e as [| | | | |l|l|es IH|ms IH] using expr_ind'; intros H; cbn; try reflexivity.
  - unfold ren_loc. rewrite (H l); [reflexivity|now left].
  - unfold ren_loc. rewrite (H l); [reflexivity|now left].
  - f_equal. apply map_ext_in. intros e He. apply (proj1 (Forall_forall _ _) IH e He). intros l Hl. apply H. cbn. apply in_flat_map. eauto.
  - f_equal. apply map_ext_in. intros e He. f_equal. apply (proj1 (Forall_forall _ _) IH e He). intros l Hl. apply H. cbn. apply in_flat_map. eauto.
Qed.
Lemma ren_arg_ext t1 t2 a : (forall l, In l (arg_refs a ++ arg_copies a) -> ren t1 (slot l) = ren t2 (slot l)) -> ren_arg t1 a = ren_arg t2 a.
Proof.
  destruct a as [e|l|l]; intros H; cbn.
  - f_equal. apply ren_expr_ext. exact H.
  - unfold ren_loc. rewrite (H l); [reflexivity|now left].
  - unfold ren_loc. rewrite (H l); [reflexivity|now left].
Qed.
Lemma ren_cmd_ext t1 t2 c : (forall i, In i (uses c) -> ren t1 i = ren t2 i) -> ren_cmd t1 c = ren_cmd t2 c.
Proof.
  intros H0. assert (H : forall l, In l (refs c ++ cmd_copies c) -> ren t1 (slot l) = ren t2 (slot l)) by (intros l Hl; apply H0, in_map, Hl). clear H0.
  destruct c as [e|d a|d a|d x a|d s mv|d s mv|l s ml mr|l s ml mr|l m|l q|a b]; cbn [refs cmd_copies app ren_cmd] in *.
  - f_equal. apply ren_expr_ext. exact H.
  - f_equal; [unfold ren_loc; rewrite (H d); [reflexivity|now left]|]. apply ren_arg_ext. intros l Hl. apply H. now right.
  - f_equal; [unfold ren_loc; rewrite (H d); [reflexivity|now left]|]. apply ren_arg_ext. intros l Hl. apply H. now right.
  - f_equal; [unfold ren_loc; rewrite (H d); [reflexivity|now left]|]. apply ren_arg_ext. intros l Hl. apply H. now right.
  - unfold ren_loc; rewrite (H d), (H s); [reflexivity|right; now left|now left].
  - unfold ren_loc; rewrite (H d), (H s); [reflexivity|right; now left|now left].
  - unfold ren_loc; rewrite (H l), (H s); [reflexivity|right; now left|now left].
  - unfold ren_loc; rewrite (H l), (H s); [reflexivity|right; now left|now left].
  - unfold ren_loc; rewrite (H l); [reflexivity|now left].
  - unfold ren_loc; rewrite (H l); [reflexivity|now left].
  - unfold ren_loc; rewrite (H a), (H b); [reflexivity|right; now left|now left].
Qed.
Lemma ren_loc_comp t1 t2 l : (slot l < length t2)%nat -> ren_loc t1 (ren_loc t2 l) = ren_loc (map (ren t1) t2) l.
Proof.
  intros L. unfold ren_loc. cbn. f_equal. unfold ren at 3. rewrite (nth_indep _ 0%nat (ren t1 0)) by (rewrite map_length; exact L). rewrite map_nth. reflexivity.
Qed.
Lemma ren_expr_comp t1 t2 e : Forall (fun l => slot l < length t2)%nat (expr_copies e) -> ren_expr t1 (ren_expr t2 e) = ren_expr (map (ren t1) t2) e.
Proof.
  induction e as [| | | | |l|l|es IH|ms IH] using expr_ind'; intros H; cbn [ren_expr expr_copies] in *; try reflexivity.
  - rewrite ren_loc_comp; [reflexivity|exact (Forall_inv H)].
  - rewrite ren_loc_comp; [reflexivity|exact (Forall_inv H)].
  - f_equal. rewrite map_map. apply map_ext_in. intros e He. apply (proj1 (Forall_forall _ _) IH e He). apply forall_flat in H. exact (proj1 (Forall_forall _ _) H e He).
  - f_equal. rewrite map_map. apply map_ext_in. intros e He. cbn. f_equal. apply (proj1 (Forall_forall _ _) IH e He). apply forall_flat in H. exact (proj1 (Forall_forall _ _) H e He).
Qed.
Lemma ren_arg_comp t1 t2 a : Forall (fun l => slot l < length t2)%nat (arg_refs a ++ arg_copies a) -> ren_arg t1 (ren_arg t2 a) = ren_arg (map (ren t1) t2) a.
Proof.
  destruct a as [e|l|l]; intros H; cbn [ren_arg arg_refs arg_copies app] in *; [rewrite ren_expr_comp; auto|rewrite ren_loc_comp|rewrite ren_loc_comp]; auto; exact (Forall_inv H).
Qed.
Lemma ren_cmd_comp t1 t2 c : Forall (fun i => i < length t2)%nat (uses c) -> ren_cmd t1 (ren_cmd t2 c) = ren_cmd (map (ren t1) t2) c.
Proof.
  intros H. apply known_slots in H. unfold knows_all, knows in H.
  destruct c as [e|d a|d a|d x a|d s mv|d s mv|l s ml mr|l s ml mr|l m|l q|a b]; cbn [refs cmd_copies app ren_cmd] in *;
    try (rewrite !ren_loc_comp by (first [exact (Forall_inv H)|exact (Forall_inv (Forall_inv_tail H))]); reflexivity);
    try (rewrite ren_loc_comp, ren_arg_comp; [reflexivity|exact (Forall_inv_tail H)|exact (Forall_inv H)]).
  rewrite ren_expr_comp by exact H. reflexivity.
Qed.
Lemma ren_expr_id t e : (forall l, In l (expr_copies e) -> ren t (slot l) = slot l) -> ren_expr t e = e.
Proof.
  induction e as [| | | | |l|l|es IH|ms IH] using expr_ind'; intros H; cbn; try reflexivity.
  - unfold ren_loc. rewrite (H l); [destruct l; reflexivity|now left].
  - unfold ren_loc. rewrite (H l); [destruct l; reflexivity|now left].
  - f_equal. rewrite <- (map_id es) at 2. apply map_ext_in. intros e He. apply (proj1 (Forall_forall _ _) IH e He). intros l Hl. apply H. cbn. apply in_flat_map. eauto.
  - f_equal. rewrite <- (map_id ms) at 2. apply map_ext_in. intros [k e] He. cbn. f_equal. apply (proj1 (Forall_forall _ _) IH (k, e) He). intros l Hl. apply H. cbn. apply in_flat_map. eauto.
Qed.
Lemma ren_cmd_id t c : (forall i, In i (uses c) -> ren t i = i) -> ren_cmd t c = c.
Proof.
  intros H0. assert (H : forall l, In l (refs c ++ cmd_copies c) -> ren t (slot l) = slot l) by (intros l Hl; apply H0, in_map, Hl). clear H0.
  assert (L : forall l, In l (refs c ++ cmd_copies c) -> ren_loc t l = l) by (intros l Hl; unfold ren_loc; rewrite (H l Hl); destruct l; reflexivity).
  assert (A : forall a, (forall l, In l (arg_refs a ++ arg_copies a) -> In l (refs c ++ cmd_copies c)) -> ren_arg t a = a).
  { intros a I. destruct a as [e|l|l]; cbn; [rewrite ren_expr_id; auto|rewrite L; auto|rewrite L; auto]; apply I; now left. }
  destruct c as [e|d a|d a|d x a|d s mv|d s mv|l s ml mr|l s ml mr|l m|l q|a b]; cbn [refs cmd_copies app ren_cmd] in *.
  - rewrite ren_expr_id; auto.
  - rewrite (L d), (A a); auto; [intros l Hl; now right|now left].
  - rewrite (L d), (A a); auto; [intros l Hl; now right|now left].
  - rewrite (L d), (A a); auto; [intros l Hl; now right|now left].
  - rewrite (L d), (L s); [reflexivity|right; now left|now left].
  - rewrite (L d), (L s); [reflexivity|right; now left|now left].
  - rewrite (L l), (L s); [reflexivity|right; now left|now left].
  - rewrite (L l), (L s); [reflexivity|right; now left|now left].
  - rewrite (L l); [reflexivity|now left].
  - rewrite (L l); [reflexivity|now left].
  - rewrite (L a), (L b); [reflexivity|right; now left|now left].
Qed.
Lemma expr_copies_ren t e : expr_copies (ren_expr t e) = map (ren_loc t) (expr_copies e).
Proof.
  induction e as [| | | | |l|l|es IH|ms IH] using expr_ind'; cbn; try reflexivity.
  - induction es as [|e es IHes]; cbn; [reflexivity|]. apply Forall_cons_iff in IH as [H1 H2]. rewrite map_app, H1, IHes; auto.
  - induction ms as [|[k e] es IHes]; cbn; [reflexivity|]. apply Forall_cons_iff in IH as [H1 H2]. cbn in H1. rewrite map_app, H1, IHes; auto.
Qed.
Lemma uses_ren t c : uses (ren_cmd t c) = map (ren t) (uses c).
Proof.
  assert (A : forall a, arg_refs (ren_arg t a) = map (ren_loc t) (arg_refs a)) by (intros []; reflexivity).
  assert (B : forall a, arg_copies (ren_arg t a) = map (ren_loc t) (arg_copies a)) by (intros []; cbn; auto using expr_copies_ren).
  unfold uses. rewrite map_map. destruct c; cbn [ren_cmd refs cmd_copies app]; rewrite ?A, ?B, ?expr_copies_ren, <- ?map_app; cbn [map]; rewrite ?map_map; reflexivity.
Qed.
(** the place of [i] in the table *)
Fixpoint place_of (i : nat) (tab : list nat) : nat := match tab with [] => O | x :: r => if Nat.eqb i x then O else S (place_of i r) end.
Lemma place_of_ok i tab : In i tab -> (place_of i tab < length tab)%nat /\ ren tab (place_of i tab) = i.
Proof.
  induction tab as [|x tab IH]; [intros []|]. cbn. intros [->|H]; [rewrite Nat.eqb_refl; cbn; split; [lia|reflexivity]|].
  destruct (Nat.eqb_spec i x) as [->|N]; cbn; [split; [lia|reflexivity]|]. destruct (IH H). split; [lia|exact H1].
Qed.
Lemma exec_named g g2 c : length g = length g2 -> (forall i, In i (uses c) -> (i < length g)%nat /\ nth_error g i = nth_error g2 i) ->
  match exec c g with
  | Stuck => exec c g2 = Stuck
  | Done g' r => exists g2', exec c g2 = Done g2' r /\ length g' = length g2' /\
      (forall i, In i (uses c) \/ (length g <= i)%nat -> nth_error g' i = nth_error g2' i) /\
      forall i, (i < length g)%nat -> ~ In i (uses c) -> nth_error g' i = nth_error g i /\ nth_error g2' i = nth_error g2 i
  end.
Proof.
  intros L A. set (tab := nodup Nat.eq_dec (uses c)). assert (ND : NoDup tab) by apply NoDup_nodup.
  assert (It : forall i, In i tab <-> In i (uses c)) by (intros i; apply nodup_In).
  destruct (view g tab) as (st & S). { apply Forall_forall. intros i Hi. apply It in Hi. apply A, Hi. }
  assert (S2 : shows tab g2 st). { unfold shows in *. rewrite <- S. apply map_ext_in. intros i Hi. apply It in Hi. symmetry. apply A, Hi. }
  set (inv := map (fun i => place_of i tab) (seq 0 (length g))).
  assert (Ri : forall i, In i (uses c) -> ren inv i = place_of i tab).
  { intros i Hi. unfold ren, inv. rewrite (nth_indep _ 0%nat (place_of 0%nat tab)) by (rewrite map_length, seq_length; apply A, Hi).
    rewrite (map_nth (fun i => place_of i tab)). rewrite seq_nth by (apply A, Hi). reflexivity. }
  assert (Li : Forall (fun i => i < length inv)%nat (uses c)). { apply Forall_forall. intros i Hi. unfold inv. rewrite map_length, seq_length. apply A, Hi. }
  set (c0 := ren_cmd inv c).
  assert (Back : ren_cmd tab c0 = c).
  { unfold c0. rewrite ren_cmd_comp by exact Li. apply ren_cmd_id. intros i Hi. unfold ren at 1.
    rewrite (nth_indep _ 0%nat (ren tab 0%nat)) by (rewrite map_length; exact (proj1 (Forall_forall _ _) Li i Hi)). rewrite map_nth.
    change (ren tab (ren inv i) = i). rewrite (Ri i Hi). apply place_of_ok, It, Hi. }
  assert (U0 : Forall (fun i => i < length tab)%nat (uses c0)).
  { unfold c0. rewrite uses_ren. apply Forall_forall. intros x Hx. apply in_map_iff in Hx as (i & <- & Hi). rewrite (Ri i Hi). apply place_of_ok, It, Hi. }
  pose proof (exec_local tab g st c0 ND S U0) as X. pose proof (exec_local tab g2 st c0 ND S2 U0) as X2. rewrite Back in X, X2.
  destruct (exec c0 st) as [|st' r]; [rewrite X; exact X2|]. destruct X as (g' & -> & Sg & Lg & Fg). destruct X2 as (g2' & -> & Sg2 & Lg2 & Fg2).
  assert (Lm : length (made (length g) g') = length (made (length g2) g2')).
  { apply shows_length in Sg. apply shows_length in Sg2. rewrite app_length in Sg, Sg2. lia. }
  unfold made in Lm. rewrite !seq_length in Lm. assert (Le : length g' = length g2') by lia.
  assert (Fr : forall i, ~ In i (uses c) -> ~ In i (map (ren tab) (writes c0))).
  { intros i Ni Hw. apply Ni. apply in_map_iff in Hw as (k & <- & Hk). apply It, ren_in. exact (proj1 (Forall_forall _ _) U0 k (writes_used c0 k Hk)). }
  exists g2'. splits; auto.
  - intros i Hi. destruct (Nat.lt_ge_cases i (length g')) as [Lt|Ge]; [|rewrite (proj2 (nth_error_None g' i)), (proj2 (nth_error_None g2' i)) by lia; reflexivity].
    assert (Hm : In i (tab ++ made (length g) g')).
    { apply in_or_app. destruct Hi as [Hi|Hi]; [left; apply It, Hi|right; apply in_seq; lia]. }
    replace (made (length g2) g2') with (made (length g) g') in Sg2 by (unfold made; rewrite L, Le; reflexivity).
    destruct (in_ren _ i Hm) as (k & Lk & <-). rewrite (shows_nth _ _ _ k Sg Lk), (shows_nth _ _ _ k Sg2 Lk). reflexivity.
  - intros i Hi Ni. split; [apply Fg; auto|apply Fg2; auto; lia].
Qed.

(** ** On the heap: with all other variables destroyed a command does the same. *)
Definition only_from (k : nat) (U : list nat) (st : store) : store :=
  map (fun iv => if in_dec Nat.eq_dec (fst iv) U then snd iv else v_null) (combine (seq k (length st)) st).
Lemma only_nth U : forall st k i, nth_error (only_from k U st) i = match nth_error st i with Some v => Some (if in_dec Nat.eq_dec (k + i)%nat U then v else v_null) | None => None end.
Proof.
  unfold only_from. induction st as [|v st IH]; intros k [|i]; cbn; try reflexivity.
  - rewrite Nat.add_0_r. reflexivity.
  - rewrite IH. replace (S k + i)%nat with (k + S i)%nat by lia. reflexivity.
Qed.
Lemma only_length U st k : length (only_from k U st) = length st.
Proof. unfold only_from. rewrite map_length, combine_length, seq_length. lia. Qed.
Lemma strip_roots h U : forall rs st fp, holds_all h rs st fp -> NoDup fp -> forall k, exists rs' fp', holds_all h rs' (only_from k U st) fp' /\ NoDup fp' /\ incl fp' fp /\
  forall i, In (k + i)%nat U -> nth_error rs' i = nth_error rs i.
Proof.
  intros rs st fp H. induction H as [|x v fx l vs fl Hx Hl IH]; intros ND k.
  - exists [], []. splits; [constructor|constructor|intros a []|auto].
  - assert (ND2 : NoDup fl) by (clear -ND; induction fx as [|a fx IHx]; [exact ND|]; apply NoDup_cons_iff in ND as [_ ND]; auto).
    destruct (IH ND2 (S k)) as (rs' & fp' & H' & N' & I' & R'). unfold only_from. cbn [length seq combine map fst snd]. fold (only_from (S k) U vs).
    destruct (in_dec Nat.eq_dec k U) as [Ik|Nk].
    + exists (x :: rs'), (fx ++ fp'). splits; [constructor; auto| | |].
      * clear - ND N' I'. induction fx as [|a fx IHx]; [exact N'|]. cbn in *. apply NoDup_cons_iff in ND as [Na ND]. constructor; [|auto].
        rewrite in_app_iff in *. intros [?|?]; [tauto|]. apply Na. right. apply I'. assumption.
      * intros a Ha. apply in_app_iff in Ha. apply in_app_iff. destruct Ha; auto.
      * intros [|i] Hi; [reflexivity|]. cbn. apply R'. replace (S k + i)%nat with (k + S i)%nat by lia. exact Hi.
    + exists (HStr Tnull [] :: rs'), fp'. splits; [|exact N'|intros a Ha; apply in_or_app; right; apply I', Ha|].
      * change fp' with ([] ++ fp'). constructor; [constructor|exact H'].
      * intros [|i] Hi; [rewrite Nat.add_0_r in Hi; contradiction|]. cbn. apply R'. replace (S k + i)%nat with (k + S i)%nat by lia. exact Hi.
Qed.
Definition keep_only (fp : list addr) (h : heap) : heap := map (fun an => if in_dec Nat.eq_dec (fst an) fp then snd an else None) (combine (seq 0 (length h)) h).
Lemma keep_nth_from fp : forall h k a, nth_error (map (fun an => if in_dec Nat.eq_dec (fst an) fp then snd an else @None node) (combine (seq k (length h)) h)) a =
  match nth_error h a with Some n => Some (if in_dec Nat.eq_dec (k + a)%nat fp then n else None) | None => None end.
Proof.
  induction h as [|n h IH]; intros k [|a]; cbn; try reflexivity.
  - rewrite Nat.add_0_r. reflexivity.
  - rewrite IH. replace (S k + a)%nat with (k + S a)%nat by lia. reflexivity.
Qed.
Lemma keep_nth fp h a : nth_error (keep_only fp h) a = match nth_error h a with Some n => Some (if in_dec Nat.eq_dec a fp then n else None) | None => None end.
Proof. apply keep_nth_from. Qed.
Lemma strip hs st U : sim hs st -> exists hs1, fewer (hp hs) (hp hs1) /\ fails hs1 = fails hs /\ sim hs1 (only U st) /\
  forall i, In i U -> nth_error (roots hs1) i = nth_error (roots hs) i.
Proof.
  intros (fp & H & ND & _). destruct (strip_roots (hp hs) U _ _ _ H ND 0%nat) as (rs & fp' & H' & N' & I' & R').
  exists (HS rs (keep_only fp' (hp hs)) (fails hs)). splits; auto.
  - intros a. cbn. rewrite keep_nth. destruct (nth_error (hp hs) a) as [n|]; [|now left]. destruct (in_dec Nat.eq_dec a fp'); [left; reflexivity|right; split; [reflexivity|discriminate]].
  - exists fp'. cbn. splits; auto.
    + apply (holds_all_frame (hp hs)); [exact H'|]. intros a Ha. rewrite keep_nth. destruct (in_dec Nat.eq_dec a fp'); [|contradiction]. destruct (nth_error (hp hs) a); reflexivity.
    + intros a (n & Hn). rewrite keep_nth in Hn. destruct (nth_error (hp hs) a) as [m|]; [|discriminate]. destruct (in_dec Nat.eq_dec a fp'); [assumption|discriminate].
Qed.
Lemma only_read U st l : In (slot l) U -> read (only U st) l = read st l.
Proof.
  intros H. unfold read. change (only U st) with (only_from 0 U st). rewrite only_nth. cbn. destruct (nth_error st (slot l)) as [v|]; [|reflexivity].
  destruct (in_dec Nat.eq_dec (slot l) U); [reflexivity|contradiction].
Qed.
Lemma touches_named hs st c st' r : sim hs st -> names_exist st c -> ~ moves_into_part c -> exec c st = Done st' r -> r <> Ub -> fails hs = [] ->
  exists hs1 hs1' st1, fewer (hp hs) (hp hs1) /\ (forall i, In i (uses c) -> nth_error (roots hs1) i = nth_error (roots hs) i) /\
    sim hs1 (only (uses c) st) /\ hexec c hs1 = HDone hs1' r /\ sim hs1' st1 /\
    forall i, In i (uses c) \/ (length st <= i)%nat -> nth_error st1 i = nth_error st' i.
Proof.
  intros Si Na NM E NU Fl. destruct (strip hs st (uses c) Si) as (hs1 & Fe & Ff & S1 & R1).
  assert (Bd : forall i, In i (uses c) -> (i < length st)%nat /\ nth_error st i = nth_error (only (uses c) st) i).
  { intros i Hi. change (only (uses c) st) with (only_from 0 (uses c) st). rewrite only_nth. cbn.
    pose proof Hi as Hi'. apply in_map_iff in Hi' as (l & <- & Hl). pose proof (proj1 (Forall_forall _ _) Na l Hl) as R. unfold read in R.
    destruct (nth_error st (slot l)) as [v|] eqn:Ev; [|congruence]. split; [apply nth_error_Some; congruence|]. destruct (in_dec _ _ _); [reflexivity|contradiction]. }
  pose proof (exec_named st (only (uses c) st) c (eq_sym (only_length (uses c) st 0)) Bd) as X. rewrite E in X. destruct X as (st1 & E1 & _ & A & _).
  assert (Va : refs_valid (only (uses c) st) c).
  { apply Forall_forall. intros l Hl. rewrite only_read by (apply in_map, in_or_app; left; exact Hl).
    exact (proj1 (Forall_forall _ _) Na l (in_or_app _ _ _ (or_introl Hl))). }
  destruct (hexec_refines c hs1 _ st1 r S1 Va NM E1 NU) as (hs1' & r' & Eh & [(-> & S2 & _)|(_ & Fn & _)]); [|congruence].
  exists hs1, hs1', st1. splits; auto. intros i Hi. symmetry. apply A, Hi.
Qed.
