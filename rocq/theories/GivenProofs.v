(** * Proofs of C49, part by part *)
From Verif Require Import Base Value Packed Parser Dump Containers Num Enum Conv Spec SpecConv SpecGiven BaseProofs ConvProofs.

Lemma nth_after_tuple f ts l i t x : nth_error ts i = Some t -> nth_error l i = Some x -> nth_error (after_tuple f ts l) i = Some (f t x).
Proof.
  revert l i. induction ts as [|u ts IH]; intros [|y l] [|i]; cbn; try discriminate; [intros [= <-] [= <-]; reflexivity|]. apply IH.
Qed.
Lemma nth_after_tuple_out f ts l i : nth_error ts i = None -> nth_error (after_tuple f ts l) i = nth_error l i.
Proof.
  revert l i. induction ts as [|u ts IH]; intros [|y l] [|i]; cbn; try discriminate; auto.
Qed.
Lemma length_after_tuple f ts l : length (after_tuple f ts l) = length l.
Proof. revert l. induction ts as [|u ts IH]; intros [|y l]; cbn; auto. Qed.
Lemma nth_after_fields f fs l i g t x : nth_error fs i = Some (g, t) -> nth_error l i = Some x -> nth_error (after_fields f fs l) i = Some (f t x).
Proof.
  revert l i. induction fs as [|[h u] fs IH]; intros [|y l] [|i]; cbn; try discriminate; [intros [= <- <-] [= <-]; reflexivity|]. apply IH.
Qed.
Lemma nth_after_fields_out f fs l i : nth_error fs i = None -> nth_error (after_fields f fs l) i = nth_error l i.
Proof.
  revert l i. induction fs as [|[h u] fs IH]; intros [|y l] [|i]; cbn; try discriminate; auto.
Qed.
Lemma length_after_fields f fs l : length (after_fields f fs l) = length l.
Proof. revert l. induction fs as [|[h u] fs IH]; intros [|y l]; cbn; auto. Qed.
Lemma after_variant_nth f ts n t d : nth_error ts n = Some t -> after_variant f ts n d = f t d.
Proof. revert n. induction ts as [|u ts IH]; intros [|n]; cbn; try discriminate; [intros [= <-]; reflexivity|apply IH]. Qed.
Lemma after_variant_out f ts n d : nth_error ts n = None -> after_variant f ts n d = d.
Proof. revert n. induction ts as [|u ts IH]; intros [|n]; cbn; try discriminate; auto. Qed.

Lemma passed_after c t d i c' t' x : passed c t d i c' t' x -> piece d i = Some x /\ piece (after c t d) i = Some (after c' t' x).
Proof.
  intros H. destruct H; cbn [after piece].
  all: try (split; reflexivity).
  all: try (destruct H as [-> | ->]).
  all: try (rewrite !nth_error_map).
  all: try (match goal with X : nth_error _ _ = Some _ |- _ => rewrite X; split; reflexivity end).
  - destruct c; [| |destruct (H eq_refl)|]; split; reflexivity.
  - destruct c; [destruct (H eq_refl)| | |]; rewrite H0; split; reflexivity.
  - split; auto. now apply nth_after_tuple.
  - split; auto. destruct c; [destruct (H eq_refl)| | |]; now apply nth_after_tuple.
  - split; auto. f_equal. now apply after_variant_nth.
  - split; auto. destruct c; [destruct (H eq_refl)| | |]; f_equal; now apply after_variant_nth.
  - split; auto. now apply nth_after_fields with (g := f).
Qed.
(** any part is passed on, or is kept as it is, or the object as a whole is moved from *)
Lemma piece_after c t d i x : piece d i = Some x ->
  (exists c' t', passed c t d i c' t' x) \/ piece (after c t d) i = Some x \/ c = Rvalue /\ movable t.
Proof.
  intros H. destruct t, d; try (right; left; exact H);
    try (destruct c; [right; right; split; [reflexivity|constructor]| | |]; right; left; exact H).
  all: cbn [piece] in H.
  (* extensions *)
  all: try (match goal with x0 : ext |- _ => cbn [after]; destruct c; try (right; left; exact H);
      destruct (x_move_to x0) eqn:M; [right; right; split; [reflexivity|now constructor]|right; left; exact H] end).
  - left. destruct d as [d|], i; try discriminate. injection H as ->. destruct c; do 2 eexists; [apply pa_opt_r|apply pa_opt_l|apply pa_opt_c|apply pa_opt_cr].
  - left. destruct d as [d|], i; try discriminate. injection H as ->. destruct c; do 2 eexists; try (apply pa_ptr; discriminate). apply pa_ptr_c.
  - left. destruct c; do 2 eexists; [now apply pa_vec_r|apply pa_vec; auto|apply pa_vec; auto|now apply pa_vec_cr].
  - left. destruct c; do 2 eexists; [apply pa_coll_r; auto|apply pa_coll; auto|apply pa_coll; auto|apply pa_coll_r; auto].
  - left. destruct c; do 2 eexists; [now apply pa_fix_r|apply pa_fix; auto; discriminate..].
  - destruct (nth_error ts i) as [t|] eqn:T.
    + left. destruct c; do 2 eexists; [eapply pa_tup_r; eauto|eapply pa_tup; eauto; discriminate..].
    + right. left. cbn [after piece]. now rewrite nth_after_tuple_out.
  - destruct i; [|discriminate]. injection H as ->. destruct (nth_error ts i0) as [t|] eqn:T.
    + left. destruct c; do 2 eexists; [eapply pa_var_r; eauto|eapply pa_var; eauto; discriminate..].
    + right. left. cbn [after piece]. now rewrite after_variant_out.
  - destruct (nth_error m i) as [[k y]|] eqn:M; [|discriminate]. injection H as ->.
    left. destruct c; do 2 eexists; [eapply pa_map_r; eauto|eapply pa_map; eauto|eapply pa_map; eauto|eapply pa_map_cr; eauto].
  - destruct (nth_error fs i) as [[f t]|] eqn:T.
    + left. do 2 eexists. eapply pa_rec; eauto.
    + right. left. cbn [after piece]. now rewrite nth_after_fields_out.
Qed.
(** the object itself *)
Lemma after_alike c t d : alike d (after c t d) \/ c = Rvalue /\ movable t.
Proof.
  assert (R : alike d d) by (destruct d as [ | | | | | | | |[]| | | | | ]; cbn; auto).
  destruct t, d; try (left; exact R);
    try (destruct c; [right; split; [reflexivity|constructor]| | |]; left; exact R).
  all: try (match goal with x0 : ext |- _ => cbn [after]; destruct c; try (left; exact R);
      destruct (x_move_to x0) eqn:M; [right; split; [reflexivity|now constructor]|left; exact R] end).
  all: left; cbn [after alike].
  all: try (destruct d as [d|]; [exact I|reflexivity]).
  all: try (rewrite map_length; reflexivity).
  - now rewrite length_after_tuple.
  - rewrite map_map. reflexivity.
  - now rewrite length_after_fields.
Qed.
Lemma alike_piece x y i b : alike x y -> piece y i = Some b -> exists a, piece x i = Some a.
Proof.
  intros A P. destruct x as [ | | | | | | | |[]| | | | | ], y as [ | | | | | | | |[]| | | | | ]; cbn in A, P; try discriminate; try congruence; cbn [piece].
  - destruct i; [eauto|discriminate].
  - destruct (nth_error l i) eqn:X; eauto. apply nth_error_None in X. rewrite A in X. apply nth_error_None in X. congruence.
  - destruct i; [eauto|discriminate].
  - destruct (nth_error m i) as [[]|] eqn:X; eauto. apply nth_error_None in X. destruct (nth_error m0 i) as [[]|] eqn:Y; [|discriminate].
    assert (L : (i < length m0)%nat) by (apply nth_error_Some; congruence). rewrite <- (map_length fst), <- A, map_length in L. lia.
  - destruct (nth_error l i) eqn:X; eauto. apply nth_error_None in X. rewrite A in X. apply nth_error_None in X. congruence.
Qed.
Lemma movable_after t d : movable t -> after Rvalue t d = DGone.
Proof. intros M. inversion M as [ | | | |x X]; subst; try reflexivity. cbn. now rewrite X. Qed.
Lemma gone_at p : part_at DGone p = Some DGone -> p = [].
Proof. destruct p; cbn; [auto|discriminate]. Qed.

Lemma moved_gone c t d p : moved_from c t d p -> part_at (after c t d) p = Some DGone.
Proof.
  induction 1 as [t d M|c t d i c' t' x p P M IH]; [cbn; now rewrite movable_after|].
  cbn [part_at]. now rewrite (proj2 (passed_after _ _ _ _ _ _ _ P)).
Qed.
Lemma gone_moved p : forall c t d, part_at (after c t d) p = Some DGone -> moved_from c t d p \/ part_at d p = Some DGone.
Proof.
  induction p as [|i p IH]; intros c t d H.
  - destruct (after_alike c t d) as [A|[-> M]]; [|left; now apply mf_here].
    cbn in H. injection H as H. rewrite H in A. right. destruct d as [ | | | | | | | |[]| | | | | ]; cbn in A; try discriminate; try destruct A; reflexivity.
  - cbn [part_at] in H. destruct (piece (after c t d) i) as [y|] eqn:Y; [|discriminate].
    destruct (after_alike c t d) as [A|[-> M]].
    2: { rewrite movable_after in Y by auto. discriminate. }
    destruct (alike_piece _ _ _ _ A Y) as [x X]. destruct (piece_after c t d i x X) as [(c' & t' & P)|[K|[-> M]]].
    + rewrite (proj2 (passed_after _ _ _ _ _ _ _ P)) in Y. injection Y as <-. destruct (IH _ _ _ H) as [G|G].
      * left. eapply mf_part; eauto.
      * right. cbn [part_at]. now rewrite X.
    + right. cbn [part_at]. rewrite X. congruence.
    + rewrite movable_after in Y by auto. discriminate.
Qed.
Theorem moved_exactly c t d p : whole d -> part_at (after c t d) p = Some DGone <-> moved_from c t d p.
Proof. intros W. split; [|apply moved_gone]. intros H. destruct (gone_moved _ _ _ _ H) as [M|G]; auto. destruct (W _ G). Qed.
Theorem rest_kept p : forall c t d x, part_at d p = Some x -> (forall q r, p = q ++ r -> ~ moved_from c t d q) ->
  exists y, part_at (after c t d) p = Some y /\ alike x y.
Proof.
  induction p as [|i p IH]; intros c t d x H N.
  - injection H as <-. exists (after c t d). split; [reflexivity|]. destruct (after_alike c t d) as [A|[-> M]]; auto.
    destruct (N [] [] eq_refl). now apply mf_here.
  - cbn [part_at] in H. destruct (piece d i) as [z|] eqn:Z; [|discriminate].
    destruct (piece_after c t d i z Z) as [(c' & t' & P)|[K|[-> M]]].
    + destruct (IH c' t' z x H) as (y & Y & A).
      { intros q r -> M. apply (N (i :: q) r eq_refl). eapply mf_part; eauto. }
      exists y. split; auto. cbn [part_at]. now rewrite (proj2 (passed_after _ _ _ _ _ _ _ P)).
    + exists x. split; [cbn [part_at]; now rewrite K|]. destruct x as [ | | | | | | | |[]| | | | | ]; cbn; auto.
    + destruct (N [] (i :: p) eq_refl). now apply mf_here.
Qed.
(** objects that are alike part by part are equal *)
Lemma alike_equal : forall d d', (forall p x, part_at d p = Some x -> exists y, part_at d' p = Some y /\ alike x y) -> d = d'.
Proof.
  fix IH 1. intros d d' H.
  assert (P : forall i x, piece d i = Some x -> exists y, piece d' i = Some y /\ (forall p a, part_at x p = Some a -> exists b, part_at y p = Some b /\ alike a b)).
  { intros i x X. destruct (H [i] x) as (y & Y & _); [cbn; now rewrite X|]. cbn in Y. destruct (piece d' i) as [y'|] eqn:Y'; [|discriminate].
    injection Y as ->. exists y. split; auto. intros p a A. specialize (H (i :: p) a). cbn in H. rewrite X, Y' in H. auto. }
  destruct (H [] d eq_refl) as (y & Y & A). cbn in Y. injection Y as <-. clear H.
  destruct d as [ | | | | | | | |[d|]|l|n d|m|l| ], d' as [ | | | | | | | |[d'|]|l'|n' d'|m'|l'| ]; cbn in A; try discriminate; try (exact A).
  - destruct (P 0%nat d eq_refl) as (y & Y & Q). injection Y as <-. f_equal. f_equal. apply IH, Q.
  - f_equal. cbn [piece] in P. revert l' A P. induction l as [|a l IHl]; intros [|b l'] A P; try discriminate; [reflexivity|].
    destruct (P 0%nat a eq_refl) as (y & Y & Q). injection Y as <-. f_equal; [apply IH, Q|]. apply IHl; [cbn in A; congruence|]. intros i. apply (P (S i)).
  - subst n'. destruct (P 0%nat d eq_refl) as (y & Y & Q). injection Y as <-. f_equal. apply IH, Q.
  - f_equal. cbn [piece] in P. revert m' A P. induction m as [|[k a] l IHl]; intros [|[k' b] l'] A P; try discriminate; [reflexivity|].
    destruct (P 0%nat a eq_refl) as (y & Y & Q). injection Y as <-. injection A as <- A. f_equal; [f_equal; apply IH, Q|].
    apply IHl; [exact A|]. intros i. apply (P (S i)).
  - f_equal. cbn [piece] in P. revert l' A P. induction l as [|a l IHl]; intros [|b l'] A P; try discriminate; [reflexivity|].
    destruct (P 0%nat a eq_refl) as (y & Y & Q). injection Y as <-. f_equal; [apply IH, Q|]. apply IHl; [cbn in A; congruence|]. intros i. apply (P (S i)).
Qed.
Theorem kept_iff c t d : whole d -> after c t d = d <-> forall p, ~ moved_from c t d p.
Proof.
  intros W. split.
  - intros E p M. apply moved_gone in M. rewrite E in M. exact (W _ M).
  - intros N. symmetry. apply alike_equal. intros p x X. apply rest_kept; auto.
Qed.
