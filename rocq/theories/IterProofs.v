(** * Iterators (C80). *)
From Verif Require Import Base Value Spec Containers BaseProofs ContainerProofs Iter SpecIter.

(** ** Validity *)
Lemma since_all {A} (l : list A) : since (length l) l = [].
Proof. unfold since. now rewrite Nat.sub_diag. Qed.
Lemma since_cons {A} b (c : A) l : (b <= length l)%nat -> since b (c :: l) = c :: since b l.
Proof. intros H. unfold since. cbn [length]. rewrite Nat.sub_succ_l by lia. reflexivity. Qed.
Lemma since_app {A} b (l l' : list A) : (b <= length l')%nat -> since b (l ++ l') = l ++ since b l'.
Proof. intros H. induction l as [|x l IH]; [reflexivity|]. cbn [app]. rewrite since_cons by (rewrite app_length; lia). now rewrite IH. Qed.
Lemma at_valid p v : v_valid v (v_at p v) = true.
Proof. unfold v_valid, v_at. cbn. now rewrite since_all. Qed.
Lemma end_valid v : v_valid v (v_end v) = true.
Proof. apply at_valid. Qed.
Lemma cut_valid l c v p b : (b <= length (cuts v))%nat -> v_valid (Vec l (c :: cuts v)) (VIt p b) = Nat.ltb p c && v_valid v (VIt p b).
Proof. intros H. unfold v_valid. cbn [cuts vborn vpos]. rewrite since_cons by auto. reflexivity. Qed.
Lemma next_at i v : (i < length (items v))%nat -> v_next v (v_at i v) = Ok (v_at (S i) v).
Proof. intros H. unfold v_next. rewrite at_valid. cbn [v_at vpos vborn andb]. destruct (Nat.ltb_spec i (length (items v))); [reflexivity|lia]. Qed.
Lemma prev_at i v : v_prev v (v_at (S i) v) = Ok (v_at i v).
Proof. unfold v_prev. now rewrite at_valid. Qed.
Lemma deref_at i v : v_deref v (v_at i v) = match nth_error (items v) i with Some x => Ok x | None => Ub end.
Proof. unfold v_deref. now rewrite at_valid. Qed.
Lemma differ_at i j v : v_differ v (v_at i v) (v_at j v) = Ok (negb (Nat.eqb i j)).
Proof. unfold v_differ. now rewrite !at_valid. Qed.
Lemma differ_end i v : v_differ v (v_at i v) (v_end v) = Ok (negb (Nat.eqb i (length (items v)))).
Proof. apply differ_at. Qed.

(** ** Traversals *)
Lemma each_from {S} (g : S -> value -> S) v : forall b a fuel s, items v = a ++ b -> (length b < fuel)%nat ->
  v_each fuel (fun s x v => Ok (g s x, v)) s v (v_at (length a) v) (v_end v) = Ok (fold_left g b s, v).
Proof.
  induction b as [|x b IH]; intros a [|n] s E F; [cbn in F; lia| |cbn in F; lia|]; cbn [v_each]; rewrite differ_end, E, app_length; cbn [bind length].
  - rewrite Nat.add_0_r, Nat.eqb_refl. reflexivity.
  - destruct (Nat.eqb_spec (length a) (length a + Datatypes.S (length b))); [lia|]. cbn [negb]. rewrite deref_at, E, nth_error_app2, Nat.sub_diag by lia. cbn [nth_error bind snd fst].
    rewrite next_at by (rewrite E, app_length; cbn; lia). cbn [bind]. replace (Datatypes.S (length a)) with (length (a ++ [x])) by (rewrite app_length; cbn; lia).
    apply IH; [rewrite E, <- app_assoc; reflexivity|cbn in F; lia].
Qed.
Lemma each_reads {S} (g : S -> value -> S) s v fuel : (length (items v) < fuel)%nat ->
  v_each fuel (fun s x v => Ok (g s x, v)) s v (v_begin v) (v_end v) = Ok (fold_left g (items v) s, v).
Proof. intros F. exact (each_from g v (items v) [] fuel s eq_refl F). Qed.
Lemma back_from {S} (g : S -> value -> S) v : forall a b fuel s, items v = a ++ b -> (length a < fuel)%nat ->
  v_back fuel g s v (v_at (length a) v) = Ok (fold_left g (rev a) s).
Proof.
  induction a as [|x a IH] using rev_ind; intros b [|n] s E F; [cbn in F; lia| |rewrite app_length in F; cbn in F; lia|]; cbn [v_back]; unfold v_rend, v_begin; rewrite differ_at; cbn [bind].
  - reflexivity.
  - rewrite app_length, Nat.add_1_r. cbn [Nat.eqb negb]. unfold v_rderef, v_rnext. rewrite prev_at. cbn [bind]. rewrite deref_at, E, <- app_assoc, nth_error_app2, Nat.sub_diag by lia. cbn [app nth_error bind].
    rewrite (IH ([x] ++ b)); [|rewrite E, <- app_assoc; reflexivity|rewrite app_length in F; cbn in F; lia]. now rewrite rev_app_distr.
Qed.
Lemma back_reads {S} (g : S -> value -> S) s v fuel : (length (items v) < fuel)%nat -> v_back fuel g s v (v_rbegin v) = Ok (fold_left g (rev (items v)) s).
Proof. intros F. apply (back_from g v (items v) [] fuel s); [now rewrite app_nil_r|exact F]. Qed.
(** appending in a range-for *)
Lemma each_push moved (f : value -> value) v fuel : items v <> [] -> (1 < fuel)%nat ->
  v_each fuel (fun s x v => Ok (s, v_push moved (f x) v)) tt v (v_begin v) (v_end v) = Ub.
Proof.
  intros N F. destruct fuel as [|[|n]]; try lia. destruct (items v) as [|x l] eqn:E; [congruence|]. cbn [v_each]. unfold v_begin. rewrite differ_end, E. cbn [bind length Nat.eqb negb].
  rewrite deref_at, E. cbn [nth_error bind fst snd]. unfold v_next at 1. unfold v_push. rewrite E. unfold v_at at 1. rewrite cut_valid by lia. fold (v_at 0 v). rewrite at_valid, andb_true_r. cbn [vpos v_at items arr_emplace_back].
  destruct moved; [reflexivity|]. cbn [length Nat.ltb Nat.leb andb app vborn v_at bind].
  unfold v_differ at 1. unfold v_end. rewrite E. cbn [v_at length]. rewrite at_valid. unfold v_at. rewrite (cut_valid _ (S (length l)) v (S (length l))) by lia. rewrite Nat.ltb_irrefl. reflexivity.
Qed.

(** ** Loops that erase *)
Lemma remove_middle {A} (a : list A) x b : remove_nth (a ++ x :: b) (length a) = a ++ b.
Proof. induction a; cbn; congruence. Qed.
Lemma erase_iter_at i v : (i <= length (items v))%nat -> v_erase_iter (v_at i v) v =
  Ok (if Nat.eqb i (length (items v)) then (v, false) else (Vec (remove_nth (items v) i) (i :: cuts v), true)).
Proof.
  intros H. unfold v_erase_iter. rewrite differ_end. cbn [bind]. destruct (Nat.eqb_spec i (length (items v))); [reflexivity|]. cbn [negb v_at vpos].
  destruct (nth_error (items v) i) eqn:E; [reflexivity|]. apply nth_error_None in E. lia.
Qed.
Lemma sweep_from p v : forall b a fuel, items v = a ++ b -> (length b < fuel)%nat -> v_sweep fuel p v (v_at (length a) v) = if existsb p b then Ub else Ok v.
Proof.
  induction b as [|x b IH]; intros a [|n] E F; [cbn in F; lia| |cbn in F; lia|]; cbn [v_sweep]; rewrite differ_end, E, app_length; cbn [bind length].
  - rewrite Nat.add_0_r, Nat.eqb_refl. reflexivity.
  - assert (L : (length a < length (items v))%nat) by (rewrite E, app_length; cbn; lia).
    destruct (Nat.eqb_spec (length a) (length a + S (length b))); [lia|]. cbn [negb]. rewrite next_at by auto. cbn [bind]. rewrite deref_at, E, nth_error_app2, Nat.sub_diag by lia. cbn [nth_error bind existsb].
    destruct (p x); cbn [orb].
    + rewrite erase_iter_at by lia. destruct (Nat.eqb_spec (length a) (length (items v))); [lia|]. cbn [bind fst]. destruct n as [|n]; [cbn in F; lia|]. cbn [v_sweep].
      unfold v_differ at 1. unfold v_at at 1. rewrite cut_valid by lia. destruct (Nat.ltb_spec (S (length a)) (length a)); [lia|reflexivity].
    + replace (S (length a)) with (length (a ++ [x])) by (rewrite app_length; cbn; lia). apply IH; [rewrite E, <- app_assoc; reflexivity|cbn in F; lia].
Qed.
Lemma sweep_array p v fuel : (length (items v) < fuel)%nat -> v_sweep fuel p v (v_begin v) = if existsb p (items v) then Ub else Ok v.
Proof. intros F. exact (sweep_from p v (items v) [] fuel eq_refl F). Qed.
Lemma index_middle (a : array) x b : arr_index (N.of_nat (length a)) (a ++ x :: b) = Ok x.
Proof.
  unfold arr_index, nthN, size. destruct (N.ltb_spec (N.of_nat (length a)) (N.of_nat (length (a ++ x :: b)))) as [_|H]; [|rewrite app_length in H; cbn in H; lia].
  rewrite Nat2N.id, nth_error_app2, Nat.sub_diag by lia. reflexivity.
Qed.
Lemma erase_middle a x b c : v_erase_at (length a) (Vec (a ++ x :: b) c) = Ok (Vec (a ++ b) (length a :: c), true).
Proof.
  unfold v_erase_at. cbn [items]. rewrite app_length. cbn [length]. destruct (Nat.leb_spec (length a + S (length b)) (length a)); [lia|].
  rewrite erase_iter_at by (cbn [items]; rewrite app_length; cbn; lia). cbn [items cuts]. rewrite app_length. cbn [length]. destruct (Nat.eqb_spec (length a) (length a + S (length b))); [lia|]. now rewrite remove_middle.
Qed.
Lemma prune_from p : forall b a c fuel, (length b < fuel)%nat -> exists c', v_prune fuel p (Vec (a ++ b) c) (length a) = Ok (Vec (a ++ keep p b) c').
Proof.
  induction b as [|x b IH]; intros a c [|n] F; [cbn in F; lia| |cbn in F; lia|]; cbn [v_prune items]; rewrite app_length; cbn [length].
  - rewrite Nat.add_0_r, Nat.ltb_irrefl. exists c. reflexivity.
  - destruct (Nat.ltb_spec (length a) (length a + S (length b))); [|lia]. rewrite index_middle. cbn [bind keep filter]. destruct (p x); cbn [negb].
    + rewrite erase_middle. cbn [bind fst]. apply IH. cbn in F; lia.
    + replace (S (length a)) with (length (a ++ [x])) by (rewrite app_length; cbn; lia). destruct (IH (a ++ [x]) c n ltac:(cbn in F; lia)) as (c1 & H1). rewrite <- !app_assoc in H1. exists c1. exact H1.
Qed.
Lemma prune_keeps p v fuel : (length (items v) < fuel)%nat -> exists v', v_prune fuel p v 0 = Ok v' /\ items v' = keep p (items v).
Proof. intros F. destruct v as [l c]. destruct (prune_from p l [] c fuel F) as (c' & H). eexists. split; [exact H|reflexivity]. Qed.
Lemma keep_app {A} (p : A -> bool) a b : keep p (a ++ b) = keep p a ++ keep p b.
Proof. apply filter_app. Qed.
Lemma down_from p : forall a b c, exists c', v_prune_down p (Vec (a ++ b) c) (length a) = Ok (Vec (keep p a ++ b) c').
Proof.
  induction a as [|x a IH] using rev_ind; intros b c; [exists c; reflexivity|]. rewrite app_length, Nat.add_1_r, <- app_assoc. cbn [v_prune_down items app]. rewrite index_middle. cbn [bind]. rewrite keep_app. cbn [keep filter].
  destruct (p x); cbn [negb].
  - rewrite erase_middle. cbn [bind fst]. rewrite app_nil_r. apply IH.
  - destruct (IH (x :: b) c) as (c' & H). exists c'. rewrite H, <- app_assoc. reflexivity.
Qed.
Lemma down_keeps p v : exists v', v_prune_down p v (length (items v)) = Ok v' /\ items v' = keep p (items v).
Proof. destruct v as [l c]. destruct (down_from p l [] c) as (c' & H). rewrite !app_nil_r in H. eexists. split; [exact H|reflexivity]. Qed.
Fixpoint skipped {A} (p : A -> bool) (l : list A) : list A :=
  match l with
  | [] => []
  | x :: r => if p x then match r with [] => [] | y :: r' => y :: skipped p r' end else x :: skipped p r
  end.
Lemma skim_from p : forall n b a c fuel, (length b <= n)%nat -> (length b < fuel)%nat -> exists c', v_skim fuel p (Vec (a ++ b) c) (length a) = Ok (Vec (a ++ skipped p b) c').
Proof.
  induction n as [|n IH]; intros [|x b] a c [|f] L F; try (cbn in L; lia); try (cbn in F; lia); cbn [v_skim items]; rewrite app_length; cbn [length];
    try (rewrite Nat.add_0_r, Nat.ltb_irrefl; exists c; reflexivity).
  destruct (Nat.ltb_spec (length a) (length a + S (length b))); [|lia]. rewrite index_middle. cbn [bind skipped]. destruct (p x) eqn:Px.
  - rewrite erase_middle. cbn [bind fst]. destruct b as [|y l].
    + destruct f as [|f]; [cbn in F; lia|]. cbn [v_skim items]. rewrite app_length. cbn [length]. rewrite Nat.add_0_r. destruct (Nat.ltb_spec (S (length a)) (length a)); [lia|]. exists (length a :: c). reflexivity.
    + replace (S (length a)) with (length (a ++ [y])) by (rewrite app_length; cbn; lia).
      destruct (IH l (a ++ [y]) (length a :: c) f ltac:(cbn in L; lia) ltac:(cbn in F; lia)) as (c' & H'). rewrite <- !app_assoc in H'. exists c'. exact H'.
  - replace (S (length a)) with (length (a ++ [x])) by (rewrite app_length; cbn; lia).
    destruct (IH b (a ++ [x]) c f ltac:(cbn in L; lia) ltac:(cbn in F; lia)) as (c' & H'). rewrite <- !app_assoc in H'. exists c'. exact H'.
Qed.
Lemma keep_none {A} (p : A -> bool) l x : In x (keep p l) -> p x = false.
Proof. intros I. apply filter_In in I as [_ I]. now destruct (p x). Qed.
Lemma spaced_tail {A} (p : A -> bool) x l : spaced p (x :: l) -> spaced p l.
Proof. inversion 1; subst; auto. constructor. Qed.
Lemma spaced_cons {A} (p : A -> bool) x l : p x = false -> spaced p l -> spaced p (x :: l).
Proof. intros H K. destruct l; constructor; auto. Qed.
Lemma skipped_spaced {A} (p : A -> bool) : forall n l, (length l <= n)%nat -> skipped p l = keep p l <-> spaced p l.
Proof.
  induction n as [|n IH]; intros [|x [|y l]] L; try (cbn in L; lia); try (split; intros; [constructor|reflexivity]).
  - split; intros _; [constructor|]. cbn. now destruct (p x).
  - cbn [skipped keep filter]. destruct (p x) eqn:Px; cbn [negb].
    + split.
      * intros E. assert (Py : p y = false) by (apply (keep_none p (y :: l)); unfold keep; cbn [filter]; rewrite <- E; now left).
        rewrite Py in E. cbn [negb] in E. injection E as E. constructor; [auto|]. apply spaced_cons; [exact Py|]. apply IH; [cbn in L; lia|exact E].
      * intros Sp. inversion Sp as [| |? ? ? [Q|Py] Sp']; subst; [congruence|]. rewrite Py. cbn [negb]. f_equal. apply IH; [cbn in L; lia|]. eapply spaced_tail; eauto.
    + split.
      * intros E. apply spaced_cons; [exact Px|]. apply IH; [cbn in L |- *; lia|]. injection E as E. exact E.
      * intros Sp. f_equal. apply (IH (y :: l)); [cbn in L |- *; lia|]. eapply spaced_tail; eauto.
Qed.
Lemma skim_keeps p v fuel : (length (items v) < fuel)%nat -> exists v', v_skim fuel p v 0 = Ok v' /\ (items v' = keep p (items v) <-> spaced p (items v)).
Proof. intros F. destruct v as [l c]. destruct (skim_from p (length l) l [] c fuel (le_n _) F) as (c' & H). eexists. split; [exact H|]. apply (skipped_spaced p (length l)). auto. Qed.
Lemma skim_skips : exists p v v', v_skim 3 p v 0 = Ok v' /\ items v' <> keep p (items v).
Proof. exists (fun _ => true), (Vec [v_null; v_null] []). eexists. split; [vm_compute; reflexivity|vm_compute; discriminate]. Qed.

(** ** Iterators across operations *)
Lemma Ok_inj {A} (x y : A) : Ok x = Ok y -> x = y.
Proof. congruence. Qed.
Lemma set_length {A} p (x : A) l : (p < length l)%nat -> length (firstn p l ++ x :: skipn (S p) l) = length l.
Proof. revert l. induction p as [|p IH]; intros [|y l] H; cbn [length] in *; try lia; [reflexivity|]. change (S (length (firstn p l ++ x :: skipn (S p) l)) = S (length l)). now rewrite IH by lia. Qed.
Lemma do_cuts o v v' : v_do o v = Ok v' -> exists l, cuts v' = l ++ cuts v.
Proof.
  destruct o as [q|mv x|q x|]; cbn [v_do].
  - unfold v_erase_at. destruct (Nat.leb_spec (length (items v)) q); [intros [= <-]; now exists []|]. rewrite erase_iter_at by lia. destruct (Nat.eqb q (length (items v))); intros [= <-]; [now exists []|now exists [q]].
  - intros [= <-]. eexists [_]. reflexivity.
  - unfold v_set. destruct (Nat.ltb q (length (items v))); intros [= <-]. now exists [].
  - intros [= <-]. now exists [O].
Qed.
Lemma invalid_stays o v v' p b : (b <= length (cuts v))%nat -> v_valid v (VIt p b) = false -> v_do o v = Ok v' -> v_valid v' (VIt p b) = false.
Proof.
  intros H I E. destruct (do_cuts _ _ _ E) as (l & C). unfold v_valid in *. cbn [vpos vborn] in *. rewrite C, since_app by auto. rewrite forallb_app, I. apply andb_false_r.
Qed.
Lemma invalid_run os : forall v v' p b, (b <= length (cuts v))%nat -> v_valid v (VIt p b) = false -> v_run os v = Ok v' -> v_valid v' (VIt p b) = false.
Proof.
  induction os as [|o os IH]; intros v v' p b H I E; cbn in E; [now injection E as <-|]. destruct (v_do o v) as [v1| | | |] eqn:D; cbn in E; try discriminate.
  eapply (IH v1); [|eapply invalid_stays; eauto|exact E]. destruct (do_cuts _ _ _ D) as (l & C). rewrite C, app_length. lia.
Qed.
Lemma ends_invalid o v v' p b : (b <= length (cuts v))%nat -> (p <= length (items v))%nat -> v_do o v = Ok v' -> v_ends (length (items v)) p o -> v_valid v' (VIt p b) = false.
Proof.
  intros H L E N. destruct o as [q|mv x|q x|]; cbn [v_do v_ends] in *; [| |contradiction|].
  - destruct N as [N1 N2]. unfold v_erase_at in E. destruct (Nat.leb_spec (length (items v)) q); [lia|]. rewrite erase_iter_at in E by lia. destruct (Nat.eqb_spec q (length (items v))); [lia|]. injection E as <-. cbn [fst].
    rewrite cut_valid by auto. destruct (Nat.ltb_spec p q); [lia|reflexivity].
  - injection E as <-. unfold v_push. rewrite cut_valid by auto. destruct mv; [now destruct p|]. destruct N as [N|N]; [discriminate|]. subst p. now rewrite Nat.ltb_irrefl.
  - injection E as <-. unfold v_clear. rewrite cut_valid by auto. now destruct p.
Qed.
Lemma iterator_ended os : forall v v' p b, (b <= length (cuts v))%nat -> (p <= length (items v))%nat -> v_run os v = Ok v' -> v_ended os v p -> v_valid v' (VIt p b) = false.
Proof.
  induction os as [|o os IH]; intros v v' p b H L E N; cbn [v_ended] in N; [contradiction|]. cbn in E. destruct (v_do o v) as [v1| | | |] eqn:D; cbn in E; try discriminate.
  destruct (do_cuts _ _ _ D) as (l & C). assert (H1 : (b <= length (cuts v1))%nat) by (rewrite C, app_length; lia).
  destruct (v_valid v1 (VIt p b)) eqn:V; [|eapply invalid_run; eauto]. destruct N as [N|N]; [rewrite (ends_invalid _ _ _ _ _ H L D N) in V; discriminate|].
  destruct (Nat.le_gt_cases p (length (items v1))) as [L1|L1]; [exact (IH v1 v' p b H1 L1 E N)|]. exfalso.
  destruct o as [q|mv x|q x|]; cbn [v_do] in D.
  - unfold v_erase_at in D. destruct (Nat.leb_spec (length (items v)) q); [injection D as <-; cbn in *; lia|]. rewrite erase_iter_at in D by lia. destruct (Nat.eqb_spec q (length (items v))); [lia|]. injection D as <-. cbn [fst] in *.
    rewrite cut_valid in V by auto. apply andb_prop in V as [V _]. apply Nat.ltb_lt in V. cbn [items] in L1.
    assert (X : length (remove_nth (items v) q) = pred (length (items v))).
    { clear -H0. revert q H0. generalize (items v). induction a as [|y l IHl]; intros [|q] H0; cbn in *; try lia. rewrite IHl by lia. lia. }
    lia.
  - injection D as <-. unfold v_push in L1. cbn in L1. unfold arr_emplace_back in L1. rewrite app_length in L1. cbn in L1. lia.
  - unfold v_set in D. destruct (Nat.ltb_spec q (length (items v))); [|discriminate]. apply Ok_inj in D. subst v1. cbn [items] in L1. rewrite set_length in L1 by auto. lia.
  - injection D as <-. unfold v_clear in V. rewrite cut_valid in V by auto. destruct p; discriminate V.
Qed.
Lemma survives o v v' p b : (b <= length (cuts v))%nat -> (p < length (items v))%nat -> v_valid v (VIt p b) = true -> v_do o v = Ok v' -> ~ v_ends (length (items v)) p o ->
  (b <= length (cuts v'))%nat /\ (p < length (items v'))%nat /\ v_valid v' (VIt p b) = true.
Proof.
  intros H L V D N. destruct (do_cuts _ _ _ D) as (l & C). split; [rewrite C, app_length; lia|]. clear l C. destruct o as [q|mv x|q x|]; cbn [v_do v_ends] in *.
  - unfold v_erase_at in D. destruct (Nat.leb_spec (length (items v)) q); [injection D as <-; auto|]. rewrite erase_iter_at in D by lia. destruct (Nat.eqb_spec q (length (items v))); [lia|]. injection D as <-. cbn [fst items].
    rewrite cut_valid by auto. rewrite V, andb_true_r. assert (Q : (p < q)%nat) by lia. split; [|now apply Nat.ltb_lt].
    assert (X : length (remove_nth (items v) q) = pred (length (items v))).
    { clear -H0. revert q H0. generalize (items v). induction a as [|y l IHl]; intros [|q] H0; cbn in *; try lia. rewrite IHl by lia. lia. }
    lia.
  - injection D as <-. unfold v_push. cbn [items]. rewrite cut_valid by auto. rewrite V, andb_true_r. unfold arr_emplace_back. rewrite app_length. destruct mv; [tauto|]. split; [lia|now apply Nat.ltb_lt].
  - unfold v_set in D. destruct (Nat.ltb_spec q (length (items v))); [|discriminate]. apply Ok_inj in D. subst v'. cbn [items]. rewrite set_length by auto. split; [lia|exact V].
  - tauto.
Qed.
Lemma iterator_kept os : forall v v' p b, (b <= length (cuts v))%nat -> (p < length (items v))%nat -> v_valid v (VIt p b) = true -> v_run os v = Ok v' -> ~ v_ended os v p ->
  (p < length (items v'))%nat /\ v_valid v' (VIt p b) = true.
Proof.
  induction os as [|o os IH]; intros v v' p b H L V E N; cbn in E; [injection E as <-; auto|]. cbn [v_ended] in N. destruct (v_do o v) as [v1| | | |] eqn:D; cbn in E; try discriminate.
  destruct (survives o v v1 p b H L V D ltac:(tauto)) as (H1 & L1 & V1). exact (IH v1 v' p b H1 L1 V1 E ltac:(tauto)).
Qed.
Lemma array_iterator_kept os v v' p : (p < length (items v))%nat -> v_run os v = Ok v' -> ~ v_ended os v p ->
  exists x, nth_error (items v') p = Some x /\ v_deref v' (v_at p v) = Ok x.
Proof.
  intros L E N. destruct (iterator_kept os v v' p _ (le_n _) L (at_valid p v) E N) as (L' & V'). destruct (nth_error (items v') p) as [x|] eqn:X; [|apply nth_error_None in X; lia].
  exists x. split; auto. unfold v_deref, v_at in *. rewrite V'. cbn [vpos]. now rewrite X.
Qed.
Lemma array_iterator_ended os v v' p : (p <= length (items v))%nat -> v_run os v = Ok v' -> v_ended os v p ->
  v_deref v' (v_at p v) = Ub /\ v_next v' (v_at p v) = Ub /\ (forall it, v_differ v' (v_at p v) it = Ub) /\ v_erase_iter (v_at p v) v' = Ub.
Proof.
  intros L E N. pose proof (iterator_ended os v v' p _ (le_n _) L E N) as V. fold (v_at p v) in V. unfold v_deref, v_next, v_erase_iter, v_differ. rewrite V. auto.
Qed.

Lemma array_next_kept os v v' p : (p < length (items v))%nat -> v_run os v = Ok v' -> ~ v_ended os v p ->
  exists it, v_next v' (v_at p v) = Ok it /\ v_differ v' it (v_end v') = Ok (negb (Nat.eqb (S p) (length (items v')))) /\
    forall x, nth_error (items v') (S p) = Some x -> v_deref v' it = Ok x.
Proof.
  intros L E N. destruct (iterator_kept os v v' p _ (le_n _) L (at_valid p v) E N) as (L' & V'). exists (v_at (S p) v'). splits.
  - unfold v_next, v_at in *. rewrite V'. cbn [vpos andb]. destruct (Nat.ltb_spec p (length (items v'))); [reflexivity|lia].
  - apply differ_end.
  - intros x X. now rewrite deref_at, X.
Qed.

(** ** Objects *)
Lemma contains_find k (m : object) : obj_contains k m = true <-> exists x, map_find k m = Some x.
Proof. unfold obj_contains. destruct (map_find k m); split; eauto; [discriminate|intros (x & X); discriminate]. Qed.
Lemma fresh_valid k m : obj_contains k (members m) = true -> o_valid m (Some (k, length (erased m))) = true.
Proof. intros H. unfold o_valid. now rewrite H, since_all. Qed.
Section Middle.
  Context (a b : object) (k : bytes) (x : value).
  Lemma keys_split : NoDup (map fst (a ++ (k, x) :: b)) -> ~ In k (map fst a) /\ ~ In k (map fst b).
  Proof. rewrite map_app. cbn. intros H. pose proof (NoDup_remove_2 _ _ _ H) as N. rewrite in_app_iff in N. tauto. Qed.
  Lemma find_middle : ~ In k (map fst a) -> map_find k (a ++ (k, x) :: b) = Some x.
  Proof.
    induction a as [|[k' y] l IH]; cbn; intros H; [now rewrite bytes_eqb_refl|]. destruct (bytes_eqb k k') eqn:E; [apply bytes_eqb_eq in E as ->; tauto|]. apply IH. tauto.
  Qed.
  Lemma after_middle : ~ In k (map fst a) -> after k (a ++ (k, x) :: b) = match b with [] => None | (k2, _) :: _ => Some k2 end.
  Proof.
    induction a as [|[k' y] l IH]; cbn; intros H; [now rewrite bytes_eqb_refl|]. destruct (bytes_eqb k k') eqn:E; [apply bytes_eqb_eq in E as ->; tauto|]. apply IH. tauto.
  Qed.
  Lemma erase_key_middle : ~ In k (map fst a) -> fst (map_erase k (a ++ (k, x) :: b)) = a ++ b.
  Proof.
    induction a as [|[k' y] l IH]; cbn [app map_erase map fst In]; intros H; [now rewrite bytes_eqb_refl|]. destruct (bytes_eqb k k') eqn:E; [apply bytes_eqb_eq in E as ->; tauto|].
    specialize (IH ltac:(tauto)). destruct (map_erase k (l ++ (k, x) :: b)). cbn in *. now rewrite IH.
  Qed.
End Middle.
Definition head_iter (b : object) (n : nat) : oiter := match b with [] => None | (k, _) :: _ => Some (k, n) end.
Lemma head_valid a b m : NoDup (map fst (members m)) -> members m = a ++ b -> o_valid m (head_iter b (length (erased m))) = true.
Proof.
  intros N E. destruct b as [|[k x] b]; [reflexivity|]. apply fresh_valid. apply contains_find. exists x. rewrite E. apply find_middle. rewrite E in N. apply (keys_split _ _ _ _ N).
Qed.
Lemma next_head a k x b m : NoDup (map fst (members m)) -> members m = a ++ (k, x) :: b -> forall n, o_valid m (Some (k, n)) = true -> o_next m (Some (k, n)) = Ok (head_iter b (length (erased m))).
Proof.
  intros N E n V. unfold o_next. rewrite V, E, after_middle by (rewrite E in N; apply (keys_split _ _ _ _ N)). destruct b as [|[k2 y] b]; reflexivity.
Qed.
Lemma deref_head a k x b m : NoDup (map fst (members m)) -> members m = a ++ (k, x) :: b -> forall n, o_valid m (Some (k, n)) = true -> o_deref m (Some (k, n)) = Ok (k, x).
Proof. intros N E n V. unfold o_deref. rewrite V, E, find_middle by (rewrite E in N; apply (keys_split _ _ _ _ N)). reflexivity. Qed.
Lemma differ_head it m : o_valid m it = true -> o_differ m it (o_end m) = Ok (match it with None => false | Some _ => true end).
Proof. intros V. unfold o_differ. rewrite V. cbn. destruct it as [[]|]; reflexivity. Qed.
Lemma o_each_from {S} (g : S -> bytes * value -> S) m : NoDup (map fst (members m)) -> forall b a fuel s, members m = a ++ b -> (length b < fuel)%nat ->
  o_each fuel (fun s x m => (g s x, m)) s m (head_iter b (length (erased m))) (o_end m) = Ok (fold_left g b s, m).
Proof.
  intros N. induction b as [|[k x] b IH]; intros a [|n] s E F; [cbn in F; lia| |cbn in F; lia|]; cbn [o_each]; pose proof (head_valid _ _ _ N E) as V; rewrite (differ_head _ _ V); cbn [head_iter bind]; [reflexivity|].
  cbn [head_iter] in V. rewrite (deref_head _ _ _ _ _ N E _ V). cbn [bind snd fst]. rewrite (next_head _ _ _ _ _ N E _ V). cbn [bind fold_left]. apply (IH (a ++ [(k, x)])); [rewrite E, <- app_assoc; reflexivity|cbn in F; lia].
Qed.
Lemma object_reads {S} (g : S -> bytes * value -> S) s m fuel : sorted_keys (members m) -> (length (members m) < fuel)%nat ->
  o_each fuel (fun s x m => (g s x, m)) s m (o_begin m) (o_end m) = Ok (fold_left g (members m) s, m).
Proof. intros K F. exact (o_each_from g m (sorted_NoDup _ K) (members m) [] fuel s eq_refl F). Qed.
Lemma o_sweep_from p : forall b a fuel m it, NoDup (map fst (members m)) -> members m = a ++ b -> (length b < fuel)%nat ->
  o_valid m it = true -> (exists n, it = head_iter b n) -> exists m', o_sweep fuel p m it = Ok m' /\ members m' = a ++ keep p b.
Proof.
  induction b as [|[k x] b IH]; intros a [|f] m it N E F V (n & ->); [cbn in F; lia| |cbn in F; lia|]; cbn [o_sweep]; rewrite (differ_head _ _ V); cbn [head_iter bind]; [exists m; auto|].
  cbn [head_iter] in V. rewrite (next_head _ _ _ _ _ N E _ V), (deref_head _ _ _ _ _ N E _ V). cbn [bind keep filter].
  assert (E' : members m = (a ++ [(k, x)]) ++ b) by (rewrite E, <- app_assoc; reflexivity).
  pose proof N as N0. rewrite E in N0. destruct (keys_split _ _ _ _ N0) as [Na Nb].
  destruct (p (k, x)); cbn [negb].
  - unfold o_erase_iter. rewrite (differ_head _ _ V). cbn [bind fst]. rewrite E, erase_key_middle by auto. apply IH; cbn [members erased]; auto.
    + rewrite map_app in *. cbn in N0. now apply NoDup_remove_1 in N0.
    + cbn in F; lia.
    + destruct b as [|[k2 y] b]; [reflexivity|]. cbn [head_iter o_valid members erased]. rewrite since_cons, since_all by lia. cbn [existsb].
      assert (C : obj_contains k2 (a ++ (k2, y) :: b) = true). { apply contains_find. exists y. apply find_middle. intros I. rewrite map_app in N0. cbn in N0. apply NoDup_remove_1 in N0. apply NoDup_remove_2 in N0. apply N0. apply in_or_app. now left. }
      rewrite C. destruct (bytes_eqb k2 k) eqn:Ek; [apply bytes_eqb_eq in Ek; subst; cbn in Nb; tauto|reflexivity].
    + eauto.
  - destruct (IH (a ++ [(k, x)]) f m (head_iter b (length (erased m))) N E' ltac:(cbn in F; lia) (head_valid _ _ _ N E') (ex_intro _ _ eq_refl)) as (m' & H & M). exists m'. split; auto. rewrite M, <- app_assoc. reflexivity.
Qed.
Lemma sweep_object p m fuel : sorted_keys (members m) -> (length (members m) < fuel)%nat -> exists m', o_sweep fuel p m (o_begin m) = Ok m' /\ members m' = keep p (members m).
Proof.
  intros K F. pose proof (sorted_NoDup _ K) as N. exact (o_sweep_from p (members m) [] fuel m (o_begin m) N eq_refl F (head_valid [] _ _ N eq_refl) (ex_intro _ _ eq_refl)).
Qed.
(** inserting a larger key in each turn *)
Lemma blt_append k x : blt k (k ++ [x]).
Proof. induction k; cbn; now constructor. Qed.
Lemma after_larger m k k' : sorted_keys m -> In k (map fst m) -> In k' (map fst m) -> blt k k' -> exists k2, after k m = Some k2 /\ In k2 (map fst m).
Proof.
  induction m as [|[k0 v0] m IH]; intros K I I' L; [destruct I|]. cbn [after]. destruct (bytes_eqb k k0) eqn:E.
  - apply bytes_eqb_eq in E as ->. destruct m as [|[k2 v2] m].
    + exfalso. destruct I' as [X|[]]. cbn in X. subst k'. now apply blt_irrefl in L.
    + exists k2. split; [reflexivity|]. cbn; tauto.
  - apply bytes_eqb_neq in E. destruct I as [X|I]; [cbn in X; congruence|]. destruct I' as [X|I'].
    + cbn in X. subst k'. pose proof (sorted_lt _ _ _ K _ I) as L2. exfalso. exact (blt_irrefl _ (blt_trans _ _ _ L L2)).
    + destruct (IH (sorted_cons_inv _ _ _ K) I I' L) as (k2 & A & B). exists k2. cbn; auto.
Qed.
Lemma in_contains k (m : object) : In k (map fst m) -> obj_contains k m = true.
Proof. intros I. unfold obj_contains. destruct (map_find k m) eqn:E; auto. apply map_find_none in E. tauto. Qed.
Lemma contains_in k (m : object) : obj_contains k m = true -> In k (map fst m).
Proof. intros C. apply contains_find in C as (x & X). apply map_find_in in X. now apply (in_map fst) in X. Qed.
Lemma grows_forever c fuel : forall m k, sorted_keys (members m) -> o_valid m (Some (k, length (erased m))) = true ->
  o_each fuel (fun s kv m => (s, o_index (fst kv ++ [c]) m)) tt m (Some (k, length (erased m))) (o_end m) = Fuel.
Proof.
  induction fuel as [|n IH]; intros m k K V; [reflexivity|]. cbn [o_each]. rewrite (differ_head _ _ V). cbn [bind].
  assert (C : obj_contains k (members m) = true) by (cbn in V; now apply andb_prop in V as [V _]). destruct (proj1 (contains_find _ _) C) as (x & X).
  unfold o_deref. rewrite V, X. cbn [bind fst snd]. set (m1 := o_index (k ++ [c]) m).
  assert (K1 : sorted_keys (members m1)) by (apply map_emplace_sorted; exact K).
  assert (F1 : forall q, map_find q (members m1) = if bytes_eqb q (k ++ [c]) then match map_find (k ++ [c]) (members m) with Some y => Some y | None => Some v_null end else map_find q (members m)).
  { intros q. unfold m1, o_index, obj_index. cbn [members]. rewrite map_emplace_find by exact K. destruct (bytes_eqb q (k ++ [c])) eqn:Q; [apply bytes_eqb_eq in Q as ->; now destruct (map_find (k ++ [c]) (members m))|reflexivity]. }
  assert (C1 : obj_contains k (members m1) = true).
  { apply contains_find. rewrite F1. destruct (bytes_eqb k (k ++ [c])); [destruct (map_find (k ++ [c]) (members m)); eauto|eauto]. }
  assert (C2 : obj_contains (k ++ [c]) (members m1) = true).
  { apply contains_find. rewrite F1, bytes_eqb_refl. destruct (map_find (k ++ [c]) (members m)); eauto. }
  assert (V1 : o_valid m1 (Some (k, length (erased m))) = true) by (apply (fresh_valid k m1); exact C1).
  unfold o_next. rewrite V1. destruct (after_larger (members m1) k (k ++ [c]) K1 (contains_in _ _ C1) (contains_in _ _ C2) (blt_append k c)) as (k2 & A & B). rewrite A. cbn [bind].
  refine (IH m1 k2 K1 _). apply fresh_valid. now apply in_contains.
Qed.
Lemma insertion_loops c m fuel : sorted_keys (members m) -> members m <> [] -> o_each fuel (fun s kv m => (s, o_index (fst kv ++ [c]) m)) tt m (o_begin m) (o_end m) = Fuel.
Proof.
  intros K N. unfold o_begin. destruct (members m) as [|[k x] l] eqn:E; [congruence|]. apply grows_forever; [now rewrite E|]. apply fresh_valid. rewrite E. apply in_contains. cbn; auto.
Qed.
(** iterators across operations *)
Lemma o_do_erased o m : exists l, erased (o_do o m) = l ++ erased m.
Proof. destruct o as [k|k x|k|]; [now exists [k]|now exists []|now exists []|now exists (map fst (members m))]. Qed.
Lemma o_do_sorted o m : sorted_keys (members m) -> sorted_keys (members (o_do o m)).
Proof. intros K. destruct o as [k|k x|k|]; cbn; [now apply map_erase_sorted|now apply map_assign_sorted|now apply map_emplace_sorted|constructor]. Qed.
Lemma gone_stays os : forall m k b, (b <= length (erased m))%nat -> existsb (bytes_eqb k) (since b (erased m)) = true -> o_valid (o_run os m) (Some (k, b)) = false.
Proof.
  induction os as [|o os IH]; intros m k b H G; cbn [o_run fold_left].
  - cbn. now rewrite G, andb_false_r.
  - destruct (o_do_erased o m) as (l & C). apply IH; [rewrite C, app_length; lia|]. rewrite C, since_app, existsb_app, G by auto. apply orb_true_r.
Qed.
Lemma o_survives o m k b : sorted_keys (members m) -> (b <= length (erased m))%nat -> o_valid m (Some (k, b)) = true -> ~ o_ends k o -> o_valid (o_do o m) (Some (k, b)) = true.
Proof.
  intros K H V N. cbn [o_valid] in *. apply andb_prop in V as [C G]. apply contains_find in C as (x & X). apply andb_true_intro. split.
  - apply contains_find. destruct o as [k'|k' y|k'|]; cbn [o_do o_ends] in *; [| | |tauto].
    + change (members (fst (o_erase k' m))) with (fst (map_erase k' (members m))). rewrite map_erase_find by auto. destruct (bytes_eqb k k') eqn:E; [apply bytes_eqb_eq in E; congruence|eauto].
    + change (members (o_emplace k' y m)) with (map_assign k' y (members m)). rewrite map_assign_find by auto. destruct (bytes_eqb k k'); eauto.
    + unfold o_index, obj_index. cbn [members]. rewrite map_emplace_find by auto. destruct (bytes_eqb k k') eqn:E; eauto.
  - destruct o as [k'|k' y|k'|]; cbn [o_do o_ends] in *; auto; try tauto. unfold o_erase. cbn [fst erased]. rewrite since_cons by auto. cbn [existsb]. destruct (bytes_eqb k k') eqn:E; [apply bytes_eqb_eq in E; congruence|exact G].
Qed.
Lemma object_kept os : forall m k b, sorted_keys (members m) -> (b <= length (erased m))%nat -> o_valid m (Some (k, b)) = true -> (forall o, In o os -> ~ o_ends k o) -> o_valid (o_run os m) (Some (k, b)) = true.
Proof.
  induction os as [|o os IH]; intros m k b K H V N; cbn [o_run fold_left]; [exact V|]. destruct (o_do_erased o m) as (l & C).
  apply IH; [now apply o_do_sorted|rewrite C, app_length; lia|apply o_survives; auto; apply N; now left|intros o' I; apply N; now right].
Qed.
Lemma object_iterator_kept os m k x : sorted_keys (members m) -> map_find k (members m) = Some x -> (forall o, In o os -> ~ o_ends k o) ->
  exists y, map_find k (members (o_run os m)) = Some y /\ o_deref (o_run os m) (o_at k m) = Ok (k, y).
Proof.
  intros K X N. assert (C : obj_contains k (members m) = true) by (apply contains_find; eauto). unfold o_at. rewrite C. pose proof (object_kept os m k _ K (le_n _) (fresh_valid _ _ C) N) as V.
  unfold o_deref. rewrite V. cbn in V. apply andb_prop in V as [C' _]. apply contains_find in C' as (y & Y). exists y. now rewrite Y.
Qed.
Lemma after_follows m k : sorted_keys m -> In k (map fst m) ->
  match after k m with Some k2 => follows k k2 m | None => forall k3, In k3 (map fst m) -> ~ blt k k3 end.
Proof.
  induction m as [|[k0 v0] m IH]; intros K I; [destruct I|]. cbn [after]. destruct (bytes_eqb k k0) eqn:E.
  - apply bytes_eqb_eq in E as ->. destruct m as [|[k2 v2] m].
    + intros k3 [X|[]]. cbn in X. subst k3. apply blt_irrefl.
    + split; [cbn; tauto|]. split; [apply (sorted_lt _ _ _ K); cbn; tauto|]. intros k3 [X|[X|I3]] L; try (cbn in X; subst).
      * now apply blt_irrefl in L.
      * now left.
      * right. exact (sorted_lt _ _ _ (sorted_cons_inv _ _ _ K) _ I3).
  - apply bytes_eqb_neq in E. destruct I as [X|I]; [cbn in X; congruence|]. specialize (IH (sorted_cons_inv _ _ _ K) I).
    pose proof (sorted_lt _ _ _ K _ I) as L0. destruct (after k m) as [k2|].
    + destruct IH as (I2 & L2 & M). split; [cbn; tauto|]. split; [exact L2|]. intros k3 [X|I3] L; [|now apply M]. cbn in X. subst k3. exfalso. exact (blt_irrefl _ (blt_trans _ _ _ L L0)).
    + intros k3 [X|I3] L; [|exact (IH _ I3 L)]. cbn in X. subst k3. exact (blt_irrefl _ (blt_trans _ _ _ L L0)).
Qed.
Lemma o_run_sorted os : forall m, sorted_keys (members m) -> sorted_keys (members (o_run os m)).
Proof. induction os as [|o os IH]; intros m K; [exact K|]. cbn [o_run fold_left]. apply IH. now apply o_do_sorted. Qed.
Lemma object_next_kept os m k x : sorted_keys (members m) -> map_find k (members m) = Some x -> (forall o, In o os -> ~ o_ends k o) ->
  exists it, o_next (o_run os m) (o_at k m) = Ok it /\
    ((exists k2 y, follows k k2 (members (o_run os m)) /\ map_find k2 (members (o_run os m)) = Some y /\ o_deref (o_run os m) it = Ok (k2, y)) \/
     (forall k3, In k3 (map fst (members (o_run os m))) -> ~ blt k k3) /\ o_differ (o_run os m) it (o_end (o_run os m)) = Ok false).
Proof.
  intros K X N. assert (C : obj_contains k (members m) = true) by (apply contains_find; eauto). unfold o_at. rewrite C. pose proof (object_kept os m k _ K (le_n _) (fresh_valid _ _ C) N) as V.
  unfold o_next. rewrite V. eexists. split; [reflexivity|]. cbn in V. apply andb_prop in V as [C' _]. pose proof (after_follows _ k (o_run_sorted os m K) (contains_in _ _ C')) as A.
  destruct (after k (members (o_run os m))) as [k2|]; [left|right; split; [exact A|reflexivity]]. pose proof A as (I2 & _). apply in_contains in I2. destruct (proj1 (contains_find _ _) I2) as (y & Y).
  exists k2, y. split; [exact A|]. split; [exact Y|]. unfold o_deref. rewrite (fresh_valid _ _ I2), Y. reflexivity.
Qed.
Lemma object_iterator_ended os m k x o : sorted_keys (members m) -> map_find k (members m) = Some x -> In o os -> o_ends k o ->
  o_deref (o_run os m) (o_at k m) = Ub /\ o_next (o_run os m) (o_at k m) = Ub /\ o_erase_iter (o_at k m) (o_run os m) = Ub.
Proof.
  intros K X I E. assert (C : obj_contains k (members m) = true) by (apply contains_find; eauto). unfold o_at. rewrite C.
  assert (G : forall os m b, sorted_keys (members m) -> (b <= length (erased m))%nat -> o_valid m (Some (k, b)) = true -> In o os -> o_valid (o_run os m) (Some (k, b)) = false).
  { clear -E. induction os as [|o' os IH]; intros m b K H V I; [destruct I|]. cbn [o_run fold_left]. destruct (o_do_erased o' m) as (l & Cl).
    assert (D : o_ends k o' \/ ~ o_ends k o') by (destruct o' as [k'| | |]; cbn; auto; destruct (bytes_eqb k' k) eqn:Q; [left; now apply bytes_eqb_eq|right; now apply bytes_eqb_neq]).
    destruct D as [D|D].
    - apply gone_stays; [rewrite Cl, app_length; lia|]. destruct o' as [k'| | |]; cbn in D; try contradiction.
      + subst k'. cbn [o_do o_erase fst erased]. rewrite since_cons by auto. cbn. now rewrite bytes_eqb_refl.
      + cbn [o_do o_clear erased]. rewrite since_app, existsb_app by auto. apply orb_true_iff. left. apply existsb_exists. exists k. split; [|apply bytes_eqb_refl]. cbn in V. apply andb_prop in V as [V _]. now apply contains_in.
    - destruct I as [->|I]; [contradiction|]. apply (IH (o_do o' m)); [now apply o_do_sorted|rewrite Cl, app_length; lia|now apply o_survives|exact I]. }
  pose proof (G os m _ K (le_n _) (fresh_valid _ _ C) I) as V. unfold o_deref, o_next, o_erase_iter, o_differ. rewrite V. auto.
Qed.
(** the same functions as in Containers.v *)
Lemma erase_same it v v' b : v_erase_iter it v = Ok (v', b) -> arr_erase_iter (N.of_nat (vpos it)) (items v) = (items v', b).
Proof.
  unfold v_erase_iter, v_differ. destruct (v_valid v it && v_valid v (v_end v)); [|discriminate]. cbn [bind v_end v_at vpos]. unfold arr_erase_iter, size. rewrite Nat2N.id.
  destruct (Nat.eqb_spec (vpos it) (length (items v))) as [E|E]; cbn [negb].
  - intros [= <- <-]. rewrite E, N.eqb_refl. reflexivity.
  - destruct (nth_error (items v) (vpos it)); intros H; [|discriminate]. injection H as <- <-. destruct (N.eqb_spec (N.of_nat (vpos it)) (N.of_nat (length (items v)))); [lia|reflexivity].
Qed.
Lemma erase_at_same p v v' b : v_erase_at p v = Ok (v', b) -> arr_erase (N.of_nat p) (items v) = (items v', b).
Proof.
  unfold v_erase_at, arr_erase, size. destruct (Nat.leb_spec (length (items v)) p) as [H|H].
  - intros [= <- <-]. destruct (N.leb_spec (N.of_nat (length (items v))) (N.of_nat p)); [reflexivity|lia].
  - intros E. destruct (N.leb_spec (N.of_nat (length (items v))) (N.of_nat p)); [lia|]. exact (erase_same _ _ _ _ E).
Qed.
Lemma o_erase_same it m m' b : o_erase_iter it m = Ok (m', b) -> obj_erase_iter (option_map fst it) (members m) = (members m', b).
Proof.
  unfold o_erase_iter, o_differ. destruct (o_valid m it); [|discriminate]. cbn. destruct it as [[k n]|]; cbn; intros [= <- <-]; reflexivity.
Qed.
(** erasing the member at hand in a range-for *)
Lemma each_erases m fuel : sorted_keys (members m) -> members m <> [] -> (0 < fuel)%nat ->
  o_each fuel (fun s kv m => (s, fst (o_erase (fst kv) m))) tt m (o_begin m) (o_end m) = Ub.
Proof.
  intros K N F. destruct fuel as [|n]; [lia|]. destruct (members m) as [|[k x] l] eqn:E; [congruence|]. cbn [o_each]. unfold o_begin. rewrite E.
  assert (C : obj_contains k (members m) = true) by (rewrite E; apply in_contains; cbn; auto). pose proof (fresh_valid _ _ C) as V. rewrite (differ_head _ _ V). cbn [bind].
  unfold o_deref. rewrite V, E. cbn [map_find]. rewrite bytes_eqb_refl. cbn [bind fst snd].
  replace (o_next (fst (o_erase k m)) (Some (k, length (erased m)))) with (@Ub oiter); [reflexivity|]. unfold o_next.
  assert (V' : o_valid (fst (o_erase k m)) (Some (k, length (erased m))) = false).
  { apply (gone_stays [] (fst (o_erase k m))); cbn [o_erase fst erased length]; [lia|]. rewrite since_cons, since_all by lia. cbn. now rewrite bytes_eqb_refl. }
  now rewrite V'.
Qed.
Lemma ends_misused v m : v_deref v (v_end v) = Ub /\ v_next v (v_end v) = Ub /\ v_prev v (v_begin v) = Ub /\ v_rderef v (v_rend v) = Ub /\
  v_erase_iter (v_end v) v = Ok (v, false) /\ o_deref m (o_end m) = Ub /\ o_next m (o_end m) = Ub /\ o_erase_iter (o_end m) m = Ok (m, false).
Proof.
  split; [|split; [|split; [|split; [|split; [|auto]]]]].
  - unfold v_end. rewrite deref_at. now rewrite (proj2 (nth_error_None _ _) (le_n _)).
  - unfold v_next. rewrite end_valid. cbn [v_end v_at vpos]. now rewrite Nat.ltb_irrefl.
  - unfold v_prev, v_begin. now rewrite at_valid.
  - unfold v_rderef, v_rend, v_prev, v_begin. now rewrite at_valid.
  - unfold v_end. rewrite erase_iter_at by auto. now rewrite Nat.eqb_refl.
Qed.
