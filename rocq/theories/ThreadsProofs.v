(** * A command depends on, and changes, only the variables it names. *)
From Verif Require Import Base Value Containers Dump Api SpecApi Heap SpecHeap SpecThreads BaseProofs ApiProofs.
From Coq Require Import Lia Permutation.

Lemma nth_error_upd {A} (f : A -> A) : forall n l i, nth_error (upd_nth f n l) i = if Nat.eqb n i then match nth_error l i with Some x => Some (f x) | None => None end else nth_error l i.
Proof.
  induction n as [|n IH]; intros [|x l] [|i]; cbn; try reflexivity; try (destruct (Nat.eqb _ _); reflexivity). apply IH.
Qed.
Lemma length_upd {A} (f : A -> A) : forall n l, length (upd_nth f n l) = length l.
Proof. induction n as [|n IH]; intros [|x l]; cbn; congruence. Qed.

Lemma shows_length tab g st : shows tab g st -> length st = length tab.
Proof. intros H. apply (f_equal (@length _)) in H. rewrite !map_length in H. auto. Qed.
Lemma shows_nth tab g st i : shows tab g st -> (i < length tab)%nat -> nth_error g (ren tab i) = nth_error st i.
Proof.
  revert st i. unfold shows. induction tab as [|a tab IH]; intros [|v st] i H L; cbn in *; try lia; try discriminate H.
  injection H as H1 H2. destruct i as [|i]; cbn; [exact H1|]. apply IH; [exact H2|lia].
Qed.
Lemma shows_intro tab g st : length st = length tab -> (forall i, (i < length tab)%nat -> nth_error g (ren tab i) = nth_error st i) -> shows tab g st.
Proof.
  revert st. unfold shows. induction tab as [|a tab IH]; intros [|v st] L H; cbn in *; try lia; [reflexivity|].
  f_equal; [exact (H 0%nat ltac:(lia))|]. apply IH; [lia|]. intros i Hi. exact (H (S i) ltac:(lia)).
Qed.
Lemma ren_in tab i : (i < length tab)%nat -> In (ren tab i) tab.
Proof. intros L. apply nth_In, L. Qed.
Lemma in_ren tab x : In x tab -> exists i, (i < length tab)%nat /\ ren tab i = x.
Proof. intros H. destruct (In_nth tab x 0%nat H) as (i & L & E). eauto. Qed.
Lemma ren_inj tab i j : NoDup tab -> (i < length tab)%nat -> (j < length tab)%nat -> ren tab i = ren tab j -> i = j.
Proof. intros N L L' E. eapply NoDup_nth with (d := 0%nat); eauto. Qed.
Lemma shows_bound tab g st : shows tab g st -> Forall (fun i => i < length g)%nat tab.
Proof.
  intros S. apply Forall_forall. intros x Hx. destruct (in_ren tab x Hx) as (i & L & <-).
  apply nth_error_Some. rewrite (shows_nth tab g st i S L). apply nth_error_Some. rewrite (shows_length tab g st S). exact L.
Qed.

Section Local.
  Context (tab : list nat).
  Definition knows (i : nat) : Prop := (i < length tab)%nat.
  (** the same outcome, the same change; nothing changes outside [W] *)
  Definition lrel (W : list nat) {A} (m m' : M A) : Prop := forall st g, shows tab g st ->
    match m st with
    | Stuck => m' g = Stuck
    | Done st' r => exists g', m' g = Done g' r /\ shows tab g' st' /\ length g' = length g /\ forall i, ~ In i W -> nth_error g' i = nth_error g i
    end.
  Lemma lrel_mono W W' {A} (m m' : M A) : incl W W' -> lrel W m m' -> lrel W' m m'.
  Proof. intros I H st g S. specialize (H st g S). destruct (m st) as [|st' r]; [exact H|]. destruct H as (g' & E & S' & L & F). exists g'. splits; auto. Qed.
  Lemma lrel_same W {A} (r : res A) : lrel W (mfail r) (mfail r).
  Proof. intros st g S. exists g. splits; auto. Qed.
  Lemma lrel_ret W {A} (a : A) : lrel W (mret a) (mret a).
  Proof. exact (lrel_same W (Ok a)). Qed.
  Lemma lrel_bind W {A B} (m m' : M A) (f f' : A -> M B) : lrel W m m' -> (forall a, lrel W (f a) (f' a)) -> lrel W (mbind m f) (mbind m' f').
  Proof.
    intros Hm Hf st g S. unfold mbind. specialize (Hm st g S). destruct (m st) as [|st' r]; [rewrite Hm; reflexivity|].
    destruct Hm as (g1 & -> & S1 & L1 & F1). destruct r; try (exists g1; splits; auto; fail).
    specialize (Hf a st' g1 S1). destruct (f a st') as [|st2 r2]; [exact Hf|]. destruct Hf as (g2 & E2 & S2 & L2 & F2).
    exists g2. splits; auto; [lia|]. intros i Hi. rewrite F2, F1; auto.
  Qed.
  Lemma read_ren st g l : shows tab g st -> knows (slot l) -> read g (ren_loc tab l) = read st l.
  Proof. intros S K. unfold read. cbn. rewrite (shows_nth tab g st (slot l) S K). reflexivity. Qed.
  Lemma lrel_rd W l : knows (slot l) -> lrel W (rd l) (rd (ren_loc tab l)).
  Proof. intros K st g S. unfold rd. rewrite (read_ren st g l S K). destruct (read st l); [|reflexivity]. exists g. splits; auto. Qed.
  Context (ND : NoDup tab).
  Lemma write_ren st g l v : shows tab g st -> knows (slot l) -> shows tab (write g (ren_loc tab l) v) (write st l v).
  Proof.
    intros S K. apply shows_intro; [unfold write; rewrite length_upd; exact (shows_length tab g st S)|].
    intros i L. unfold write. rewrite !nth_error_upd. cbn. rewrite (shows_nth tab g st i S L).
    destruct (Nat.eqb_spec (ren tab (slot l)) (ren tab i)) as [E|E].
    - apply ren_inj in E; auto. subst i. rewrite Nat.eqb_refl. reflexivity.
    - destruct (Nat.eqb_spec (slot l) i) as [Ei|]; [congruence|reflexivity].
  Qed.
  Lemma write_frame (g : store) W l v i : In (ren tab (slot l)) W -> ~ In i W -> nth_error (write g (ren_loc tab l) v) i = nth_error g i.
  Proof. intros Hl Hi. unfold write. rewrite nth_error_upd. cbn. destruct (Nat.eqb_spec (ren tab (slot l)) i) as [<-|]; [contradiction|reflexivity]. Qed.
  Lemma write_len (g : store) l v : length (write g l v) = length g.
  Proof. apply length_upd. Qed.
  Lemma lrel_wr W l v : knows (slot l) -> In (ren tab (slot l)) W -> lrel W (wr l v) (wr (ren_loc tab l) v).
  Proof.
    intros K Hl st g S. unfold wr. exists (write g (ren_loc tab l) v). splits; auto using write_ren, write_len.
    intros i Hi. eapply write_frame; eauto.
  Qed.
  Lemma lrel_call W l {A} (f : value -> value * res A) : knows (slot l) -> In (ren tab (slot l)) W -> lrel W (call l f) (call (ren_loc tab l) f).
  Proof.
    intros K Hl st g S. unfold call. rewrite (read_ren st g l S K). destruct (read st l) as [v|]; [|reflexivity].
    destruct (f v) as [v' r]. exists (write g (ren_loc tab l) v'). splits; auto using write_ren, write_len.
    intros i Hi. eapply write_frame; eauto.
  Qed.
  Lemma within_ren a b : knows (slot a) -> knows (slot b) -> within (ren_loc tab a) (ren_loc tab b) = within a b.
  Proof.
    intros Ka Kb. unfold within. cbn. f_equal. destruct (Nat.eqb_spec (slot a) (slot b)) as [->|N]; [apply Nat.eqb_refl|].
    apply Nat.eqb_neq. intros E. apply N. eapply ren_inj; eauto.
  Qed.
  Lemma same_ren a b : knows (slot a) -> knows (slot b) -> same (ren_loc tab a) (ren_loc tab b) = same a b.
  Proof. intros Ka Kb. unfold same. rewrite !within_ren; auto. Qed.
  Lemma sub_ren l s : ren_loc tab (sub l s) = sub (ren_loc tab l) s.
  Proof. reflexivity. Qed.

  Ltac loc := first [ apply lrel_ret | apply lrel_same | apply lrel_rd; assumption | apply lrel_wr; assumption | apply lrel_call; assumption
    | apply lrel_bind; [|intros ?] ].
  Lemma lrel_copy_from W l : knows (slot l) -> lrel W (copy_from l) (copy_from (ren_loc tab l)).
  Proof. intros K. unfold copy_from. repeat loc. Qed.
  Lemma lrel_take W l : knows (slot l) -> In (ren tab (slot l)) W -> lrel W (take l) (take (ren_loc tab l)).
  Proof. intros K Hl. unfold take. repeat loc. Qed.
  Lemma lrel_copy_assign W d s : knows (slot d) -> knows (slot s) -> In (ren tab (slot d)) W -> lrel W (copy_assign d s) (copy_assign (ren_loc tab d) (ren_loc tab s)).
  Proof. intros Kd Ks Hd. unfold copy_assign. repeat first [apply lrel_copy_from; assumption|loc]. Qed.
  Lemma lrel_move_assign W d s : knows (slot d) -> knows (slot s) -> In (ren tab (slot d)) W -> In (ren tab (slot s)) W ->
    lrel W (move_assign d s) (move_assign (ren_loc tab d) (ren_loc tab s)).
  Proof.
    intros Kd Ks Hd Hs. unfold move_assign. loc; [loc|]. loc; [loc|]. rewrite same_ren, !within_ren by assumption.
    destruct (same d s); [loc|]. destruct (within d s); [destruct (same_alternative a a0); loc|]. destruct (within s d); repeat loc.
  Qed.

  Ltac more := first [ apply lrel_copy_from; assumption | apply lrel_take; assumption | apply lrel_copy_assign; assumption | apply lrel_move_assign; assumption | loc ].
  (** expressions and arguments *)
  Definition knows_all (l : list loc) : Prop := Forall (fun x => knows (slot x)) l.
  Definition inside (W : list nat) (l : list nat) : Prop := Forall (fun i => In (ren tab i) W) l.
  Lemma forall_flat {A B} (P : B -> Prop) (f : A -> list B) l : Forall P (flat_map f l) <-> Forall (fun x => Forall P (f x)) l.
  Proof. induction l as [|x l IH]; cbn; [split; constructor|]. rewrite Forall_app, Forall_cons_iff, IH. tauto. Qed.
  Lemma lrel_eval W : forall e, knows_all (expr_copies e) -> inside W (expr_moves e) -> lrel W (eval e) (eval (ren_expr tab e)).
  Proof.
    induction e as [| | | | |l|l|es IH|ms IH] using expr_ind'; intros K I; cbn [eval ren_expr]; try (repeat loc; fail).
    - apply lrel_copy_from. exact (Forall_inv K).
    - apply lrel_take; [exact (Forall_inv K)|exact (Forall_inv I)].
    - loc; [|repeat loc]. cbn in K, I. unfold knows_all, inside in K, I. apply -> (@forall_flat expr) in K. apply -> (@forall_flat expr) in I.
      induction es as [|e es IHes]; cbn; [loc|]. apply Forall_cons_iff in IH, K, I. destruct IH, K, I.
      loc; [auto|]. loc; [auto|loc].
    - loc; [|repeat loc]. cbn in K, I. unfold knows_all, inside in K, I. apply -> (@forall_flat (bytes * expr)) in K. apply -> (@forall_flat (bytes * expr)) in I.
      induction ms as [|[k e] ms IHms]; cbn; [loc|]. apply Forall_cons_iff in IH, K, I. destruct IH, K, I.
      loc; [auto|]. loc; [auto|loc].
  Qed.
  Definition arg_known (a : arg) : Prop := knows_all (arg_refs a ++ arg_copies a).
  Lemma lrel_prepare W a : arg_known a -> inside W (arg_moves a) -> lrel W (prepare a) (prepare (ren_arg tab a)).
  Proof. intros K I. destruct a as [e|l|l]; cbn; [|loc|loc]. loc; [apply lrel_eval; auto|loc]. Qed.
  Lemma lrel_construct W a t : arg_known a -> inside W (arg_moves a) -> lrel W (construct a t) (construct (ren_arg tab a) t).
  Proof.
    intros K I. destruct a as [e|l|l]; cbn; [destruct t; loc| |].
    - apply lrel_copy_from. exact (Forall_inv K).
    - apply lrel_take; [exact (Forall_inv K)|exact (Forall_inv I)].
  Qed.
  Lemma lrel_assign W d a t : knows (slot d) -> In (ren tab (slot d)) W -> arg_known a -> inside W (arg_moves a) -> lrel W (assign d a t) (assign (ren_loc tab d) (ren_arg tab a) t).
  Proof.
    intros Kd Hd K I. destruct a as [e|l|l]; cbn; [destruct t; repeat loc| |].
    - apply lrel_copy_assign; auto. exact (Forall_inv K).
    - apply lrel_move_assign; auto; [exact (Forall_inv K)|exact (Forall_inv I)].
  Qed.
  Lemma lrel_emplace_back W d a t : knows (slot d) -> In (ren tab (slot d)) W -> arg_known a -> inside W (arg_moves a) ->
    lrel W (emplace_back d a t) (emplace_back (ren_loc tab d) (ren_arg tab a) t).
  Proof.
    intros Kd Hd K I. unfold emplace_back. loc; [loc|]. loc; [apply lrel_construct; auto|]. destruct a as [e|l|l]; cbn; try loc.
    rewrite within_ren; auto; [|exact (Forall_inv K)]. destruct (within l d); loc.
  Qed.
  Lemma lrel_insert_or_assign W d k a t : knows (slot d) -> In (ren tab (slot d)) W -> arg_known a -> inside W (arg_moves a) ->
    lrel W (insert_or_assign d k a t) (insert_or_assign (ren_loc tab d) k (ren_arg tab a) t).
  Proof.
    intros Kd Hd K I. unfold insert_or_assign. loc; [loc|]. rewrite <- sub_ren. destruct (obj_contains k a0); [apply lrel_assign; auto|].
    loc; [apply lrel_construct; auto|]. destruct a as [e|l|l]; cbn; try loc.
    rewrite within_ren; auto; [|exact (Forall_inv K)]. destruct (within l d); loc.
  Qed.
  Lemma lrel_merge_loop W d s mv : forall ks, knows (slot d) -> knows (slot s) -> In (ren tab (slot d)) W -> (mv = true -> In (ren tab (slot s)) W) ->
    lrel W (merge_loop d s mv ks) (merge_loop (ren_loc tab d) (ren_loc tab s) mv ks).
  Proof.
    induction ks as [|k ks IH]; intros Kd Ks Hd Hs; cbn [merge_loop]; [loc|]. rewrite <- !sub_ren, same_ren, !within_ren by assumption.
    loc; [loc|]. destruct (_ && _); [loc|]. intros st g S. rewrite (read_ren st g d S Kd).
    destruct (read st d).
    - revert st g S. change (lrel W (run _ <- insert_or_assign d k (if mv then MRef (sub s (Key k)) else CRef (sub s (Key k))) None; merge_loop d s mv ks)
        (run _ <- insert_or_assign (ren_loc tab d) k (if mv then MRef (ren_loc tab (sub s (Key k))) else CRef (ren_loc tab (sub s (Key k)))) None; merge_loop (ren_loc tab d) (ren_loc tab s) mv ks)).
      loc; [|auto]. destruct mv.
      + apply (lrel_insert_or_assign W d k (MRef (sub s (Key k)))); auto; cbn; repeat constructor; auto.
      + apply (lrel_insert_or_assign W d k (CRef (sub s (Key k)))); auto; cbn; repeat constructor; auto.
    - destruct mv; [|reflexivity]. revert st g S.
      change (lrel W (run _ <- take (sub s (Key k)); merge_loop d s true ks) (run _ <- take (ren_loc tab (sub s (Key k))); merge_loop (ren_loc tab d) (ren_loc tab s) true ks)).
      loc; [|auto]. apply lrel_take; cbn; auto.
  Qed.
  Lemma lrel_or_assign W d s mv : knows (slot d) -> knows (slot s) -> In (ren tab (slot d)) W -> In (ren tab (slot s)) W ->
    lrel W (or_assign d s mv) (or_assign (ren_loc tab d) (ren_loc tab s) mv).
  Proof.
    intros Kd Ks Hd Hs. unfold or_assign. loc; [loc|]. rewrite same_ren by assumption. destruct (_ && _); [loc|]. loc; [loc|]. loc; [repeat loc|].
    apply lrel_merge_loop; auto.
  Qed.
  Lemma lrel_plus_assign W d s mv : knows (slot d) -> knows (slot s) -> In (ren tab (slot d)) W -> In (ren tab (slot s)) W ->
    lrel W (plus_assign d s mv) (plus_assign (ren_loc tab d) (ren_loc tab s) mv).
  Proof.
    intros Kd Ks Hd Hs. unfold plus_assign. loc; [loc|]. loc; [loc|]. rewrite same_ren, within_ren by assumption. destruct (same d s); [loc|].
    loc; [repeat loc|]. destruct mv; [|repeat loc]. loc; [loc|]. destruct (within s d); loc.
  Qed.
End Local.

(** the same for commands that make a variable *)
Definition lgrow (tab W : list nat) {A} (m m' : M A) : Prop := forall st g, shows tab g st ->
  match m st with
  | Stuck => m' g = Stuck
  | Done st' r => exists g' n, m' g = Done g' r /\ length g' = (length g + n)%nat /\ shows (tab ++ seq (length g) n) g' st' /\
      forall i, (i < length g)%nat -> ~ In i W -> nth_error g' i = nth_error g i
  end.
Lemma lgrow_of tab W {A} (m m' : M A) : lrel tab W m m' -> lgrow tab W m m'.
Proof.
  intros H st g S. specialize (H st g S). destruct (m st) as [|st' r]; [exact H|]. destruct H as (g' & E & S' & L & F).
  exists g', 0%nat. cbn. rewrite app_nil_r, Nat.add_0_r. splits; auto.
Qed.
Lemma lgrow_bind tab W {A B} (m m' : M A) (f f' : A -> M B) : lrel tab W m m' -> (forall a, lgrow tab W (f a) (f' a)) -> lgrow tab W (mbind m f) (mbind m' f').
Proof.
  intros Hm Hf st g S. unfold mbind. specialize (Hm st g S). destruct (m st) as [|st' r]; [rewrite Hm; reflexivity|].
  destruct Hm as (g1 & -> & S1 & L1 & F1).
  destruct r; try (exists g1, 0%nat; cbn; rewrite app_nil_r, Nat.add_0_r; splits; auto; fail).
  specialize (Hf a st' g1 S1). destruct (f a st') as [|st2 r2]; [exact Hf|]. destruct Hf as (g2 & n & E2 & L2 & S2 & F2).
  rewrite L1 in L2, S2. exists g2, n. split; [exact E2|]. split; [exact L2|]. split; [exact S2|]. intros i L Hi. rewrite F2, F1; auto. lia.
Qed.
Lemma shows_push tab g st v : shows tab g st -> shows (tab ++ [length g]) (g ++ [v]) (st ++ [v]).
Proof.
  intros S. unfold shows. rewrite !map_app. cbn. f_equal.
  - rewrite <- S. apply map_ext_in. intros i Hi. apply nth_error_app1. exact (proj1 (Forall_forall _ _) (shows_bound tab g st S) i Hi).
  - rewrite nth_error_app2 by lia. rewrite Nat.sub_diag. reflexivity.
Qed.
Lemma lgrow_push tab W v : lgrow tab W (push_value v) (push_value v).
Proof.
  intros st g S. unfold push_value. exists (g ++ [v]), 1%nat. cbn. rewrite app_length. splits; auto using shows_push.
  intros i L _. apply nth_error_app1, L.
Qed.

Section Exec.
  Context (tab : list nat) (ND : NoDup tab).
  Ltac kn := lazymatch goal with
    | |- lrel _ _ (mret _) _ => apply lrel_ret
    | |- lrel _ _ (mfail _) _ => apply lrel_same
    | |- lrel _ _ (rd _) _ => apply lrel_rd; assumption
    | |- lrel _ _ (wr _ _) _ => apply lrel_wr; assumption
    | |- lrel _ _ (call _ _) _ => apply lrel_call; assumption
    | |- lrel _ _ (mbind _ _) _ => apply lrel_bind; [|intros ?]
    end.
  Ltac gr := lazymatch goal with
    | |- lgrow _ _ (push_value _) _ => apply lgrow_push
    | |- lgrow _ _ (mbind _ _) _ => apply lgrow_bind; [repeat kn|intros ?]
    end.
  Lemma known_slots c : Forall (fun i => i < length tab)%nat (uses c) <-> knows_all tab (refs c ++ cmd_copies c).
  Proof. unfold uses, knows_all, knows. rewrite Forall_map. reflexivity. Qed.
  Lemma fresh_slot g st : shows tab g st -> NoDup (tab ++ [length g]).
  Proof.
    intros S. apply (Permutation_NoDup (l := length g :: tab)); [apply Permutation_cons_append|]. constructor; [|exact ND]. intros H.
    pose proof (proj1 (Forall_forall _ _) (shows_bound tab g st S) _ H) as B. cbn in B. lia.
  Qed.
  Lemma ren_app l b : knows tab (slot l) -> ren_loc (tab ++ b) l = ren_loc tab l.
  Proof. intros K. unfold ren_loc, ren. f_equal. apply app_nth1, K. Qed.
  Lemma lgrow_or_new W l s ml mr : knows tab (slot l) -> knows tab (slot s) -> (ml = true -> In (ren tab (slot l)) W) -> In (ren tab (slot s)) W ->
    lgrow tab W (or_new l s ml mr) (or_new (ren_loc tab l) (ren_loc tab s) ml mr).
  Proof.
    intros Kl Ks Hl Hs. unfold or_new. destruct ml.
    - specialize (Hl eq_refl). rewrite same_ren, !within_ren by assumption. destruct (_ && _); [repeat gr|].
      apply lgrow_bind; [apply lrel_or_assign; assumption|intros _]. repeat gr.
    - gr. gr. gr. intros st g S. unfold mbind at 1 3. unfold push_value.
      pose proof (shows_push tab g st (v_object a1) S) as S'. pose proof (fresh_slot g st S) as ND'. pose proof (shows_length _ _ _ S) as Ls.
      assert (Kd : knows (tab ++ [length g]) (length st)) by (unfold knows; rewrite app_length; cbn; lia).
      assert (Ks' : knows (tab ++ [length g]) (slot s)) by (unfold knows in *; rewrite app_length; cbn; lia).
      assert (Ed : ren_loc (tab ++ [length g]) (Loc (length st) []) = Loc (length g) []).
      { unfold ren_loc, ren. cbn [slot steps]. rewrite Ls, app_nth2, Nat.sub_diag by lia. reflexivity. }
      assert (R : lrel (tab ++ [length g]) (length g :: W) (run r <- (run w <- rd s; mfail (as_object_c w)); merge_loop (Loc (length st) []) s mr (map fst r))
        (run r <- (run w <- rd (ren_loc tab s); mfail (as_object_c w)); merge_loop (Loc (length g) []) (ren_loc tab s) mr (map fst r))).
      { rewrite <- (ren_app s [length g] Ks), <- Ed. kn; [repeat kn|]. apply lrel_merge_loop; auto.
        - apply (f_equal slot) in Ed. cbn in Ed. cbn. rewrite Ed. left. reflexivity.
        - intros _. right. change (In (slot (ren_loc (tab ++ [length g]) s)) W). rewrite ren_app by assumption. exact Hs. }
      specialize (R _ _ S').
      destruct (mbind _ _ (st ++ [v_object a1])) as [|st' r]; [exact R|]. destruct R as (g' & E & S2 & L & F).
      exists g', 1%nat. rewrite app_length in L. cbn [length] in L. cbn [seq]. splits; auto.
      intros i Li Hi. rewrite F; [apply nth_error_app1, Li|]. cbn. intros [<-|]; [lia|auto].
  Qed.
  Lemma lgrow_plus_new W l s ml mr : knows tab (slot l) -> knows tab (slot s) -> (ml = true -> In (ren tab (slot l)) W) -> In (ren tab (slot s)) W ->
    lgrow tab W (plus_new l s ml mr) (plus_new (ren_loc tab l) (ren_loc tab s) ml mr).
  Proof.
    intros Kl Ks Hl Hs. unfold plus_new. destruct ml.
    - specialize (Hl eq_refl). rewrite same_ren, !within_ren by assumption. destruct (_ && _); [repeat gr|].
      apply lgrow_bind; [apply lrel_plus_assign; assumption|intros _]. repeat gr.
    - gr. gr. gr. gr. destruct mr; repeat gr.
  Qed.
  Lemma exec_grow c : Forall (fun i => i < length tab)%nat (uses c) -> lgrow tab (map (ren tab) (writes c)) (exec c) (exec (ren_cmd tab c)).
  Proof.
    intros U. apply known_slots in U. unfold knows_all in U. apply Forall_app in U as [K1 K2].
    destruct c as [e|d a|d a|d k a|d s mv|d s mv|l s ml mr|l s ml mr|l m|l q|a b]; cbn [exec ren_cmd writes refs cmd_copies] in *.
    - apply lgrow_bind; [|intros v; apply lgrow_push]. apply lrel_eval; auto. apply Forall_forall. intros i Hi. apply in_map, Hi.
    - apply lgrow_of, lrel_bind; [|intros t]; [apply lrel_prepare|apply lrel_assign]; auto; try exact (Forall_inv K1); try (left; reflexivity);
        try (apply Forall_app; split; [exact (Forall_inv_tail K1)|exact K2]); apply Forall_forall; intros i Hi; right; apply in_map, Hi.
    - apply lgrow_of, lrel_bind; [|intros t]; [apply lrel_prepare|apply lrel_emplace_back]; auto; try exact (Forall_inv K1); try (left; reflexivity);
        try (apply Forall_app; split; [exact (Forall_inv_tail K1)|exact K2]); apply Forall_forall; intros i Hi; right; apply in_map, Hi.
    - apply lgrow_of, lrel_bind; [|intros t]; [apply lrel_prepare|apply lrel_insert_or_assign]; auto; try exact (Forall_inv K1); try (left; reflexivity);
        try (apply Forall_app; split; [exact (Forall_inv_tail K1)|exact K2]); apply Forall_forall; intros i Hi; right; apply in_map, Hi.
    - apply lgrow_of, lrel_or_assign; auto; [exact (Forall_inv K1)|exact (Forall_inv (Forall_inv_tail K1))|left; reflexivity|right; left; reflexivity].
    - apply lgrow_of, lrel_plus_assign; auto; [exact (Forall_inv K1)|exact (Forall_inv (Forall_inv_tail K1))|left; reflexivity|right; left; reflexivity].
    - apply lgrow_or_new; [exact (Forall_inv K1)|exact (Forall_inv (Forall_inv_tail K1))|intros ->; left; reflexivity|].
      destruct ml; cbn; auto.
    - apply lgrow_plus_new; [exact (Forall_inv K1)|exact (Forall_inv (Forall_inv_tail K1))|intros ->; left; reflexivity|].
      destruct ml; cbn; auto.
    - apply lgrow_of, lrel_call; [exact ND|exact (Forall_inv K1)|left; reflexivity].
    - apply lgrow_of. pose proof (Forall_inv K1). repeat kn.
    - apply lgrow_of. pose proof (Forall_inv K1). pose proof (Forall_inv (Forall_inv_tail K1)). repeat kn.
  Qed.
End Exec.
