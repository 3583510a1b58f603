(** * More about reading and writing locations. *)
From Verif Require Import Base Value Containers Dump Api SpecApi BaseProofs ContainerProofs ApiProofs.

Lemma upd_nth_id {A} (f : A -> A) l i x : nth_error l i = Some x -> f x = x -> upd_nth f i l = l.
Proof. revert i. induction l as [|y l IH]; intros [|i]; cbn; try discriminate; intros H G; [injection H as ->; now rewrite G|]. f_equal. auto. Qed.
Lemma upd_key_id {A} (f : A -> A) k m x : map_find k m = Some x -> f x = x -> upd_key f k m = m.
Proof. induction m as [|(k', y) m IH]; cbn; [discriminate|]. destruct (bytes_eqb k k'); intros H G; [injection H as ->; now rewrite G|]. f_equal. auto. Qed.
Lemma upd_at_same p : forall v w, get_at p v = Some w -> upd_at p (fun _ => w) v = v.
Proof.
  induction p as [|[k|n] p IH]; intros v w E; cbn in *; [congruence|..].
  - destruct v as [|t l|t [m|]]; try discriminate. destruct (map_find k m) as [x|] eqn:F; [|discriminate]. do 2 f_equal. eapply upd_key_id; eauto.
  - destruct v as [|t [l|]|t m]; try discriminate. destruct (nth_error l n) as [x|] eqn:F; [|discriminate]. do 2 f_equal. eapply upd_nth_id; eauto.
Qed.
Lemma write_same st l v : read st l = Some v -> write st l v = st.
Proof.
  unfold read, write. destruct (nth_error st (slot l)) as [x|] eqn:E; [|discriminate]. intros H. eapply upd_nth_id; eauto. now apply upd_at_same.
Qed.
Lemma get_upd_above p : forall q f v, get_at p (upd_at (p ++ q) f v) = option_map (upd_at q f) (get_at p v).
Proof.
  induction p as [|[k|n] p IH]; intros q f v; cbn [app upd_at get_at]; [reflexivity|..].
  - destruct v as [|t l|t [m|]]; auto. rewrite find_upd_same. destruct (map_find k m); cbn; auto.
  - destruct v as [|t [l|]|t m]; auto. rewrite nth_upd_same. destruct (nth_error l n); cbn; auto.
Qed.
Lemma upd_above p : forall q f g v, (forall x, f (upd_at q g x) = f x) -> upd_at p f (upd_at (p ++ q) g v) = upd_at p f v.
Proof.
  induction p as [|[k|n] p IH]; intros q f g v H; cbn [app upd_at]; auto.
  - destruct v as [|t l|t [m|]]; auto. rewrite upd_key_upd. do 2 f_equal. apply upd_key_ext. intros x. now apply IH.
  - destruct v as [|t [l|]|t m]; auto. rewrite upd_nth_upd. do 2 f_equal. apply upd_nth_ext. intros x. now apply IH.
Qed.
Lemma write_above st a b x y : within a b = true -> write (write st b x) a y = write st a y.
Proof.
  intros W. apply within_spec in W as (Es & q & Eq). unfold write. rewrite <- Es, Eq, upd_nth_upd. apply upd_nth_ext. intros v. now apply upd_above.
Qed.
Lemma read_write_above st a b x : within a b = true -> exists q, steps b = steps a ++ q /\ read (write st b x) a = option_map (upd_at q (fun _ => x)) (read st a).
Proof.
  intros W. apply within_spec in W as (Es & q & Eq). exists q. split; auto. unfold read, write. rewrite <- Es, nth_upd_same, Eq.
  destruct (nth_error st (slot a)); cbn; auto. apply get_upd_above.
Qed.
Lemma upd_nth_comm {A} (f g : A -> A) l : forall i j, i <> j -> upd_nth f i (upd_nth g j l) = upd_nth g j (upd_nth f i l).
Proof. induction l; intros [|i] [|j] H; cbn; auto; try congruence. f_equal. apply IHl. congruence. Qed.
Lemma upd_key_comm {A} (f g : A -> A) k k' m : k <> k' -> upd_key f k (upd_key g k' m) = upd_key g k' (upd_key f k m).
Proof.
  intros H. induction m as [|(k0, x) m IH]; cbn; auto.
  destruct (bytes_eqb k' k0) eqn:E1, (bytes_eqb k k0) eqn:E2; cbn; rewrite ?E1, ?E2; auto; [|now rewrite IH].
  apply bytes_eqb_eq in E1, E2. congruence.
Qed.
Lemma upd_nth_pair {A} (f g f' g' : A -> A) l i : (forall x, f (g x) = g' (f' x)) -> upd_nth f i (upd_nth g i l) = upd_nth g' i (upd_nth f' i l).
Proof. intros H. rewrite !upd_nth_upd. now apply upd_nth_ext. Qed.
Lemma upd_comm p : forall q f g v, path_prefix p q = false -> path_prefix q p = false -> upd_at p f (upd_at q g v) = upd_at q g (upd_at p f v).
Proof.
  induction p as [|s p IH]; intros [|s' q] f g v H1 H2; try discriminate. cbn [path_prefix] in H1, H2.
  destruct (step_eqb s s') eqn:Es.
  - apply step_eqb_eq in Es as <-. rewrite (proj2 (step_eqb_eq s s) eq_refl) in H2. cbn in H1, H2.
    destruct s as [k|n]; cbn [upd_at]; destruct v as [|t [l|]|t [m|]]; auto.
    + rewrite !upd_key_upd. do 2 f_equal. apply upd_key_ext. intros x. now apply IH.
    + do 2 f_equal. apply upd_nth_pair. intros x. now apply IH.
  - assert (Ns : s <> s') by (intros ->; rewrite (proj2 (step_eqb_eq s' s') eq_refl) in Es; discriminate).
    destruct s as [k|n], s' as [k'|n']; cbn [upd_at]; destruct v as [|t [l|]|t [m|]]; auto.
    + do 2 f_equal. apply upd_key_comm. congruence.
    + do 2 f_equal. apply upd_nth_comm. congruence.
Qed.
Lemma write_comm st a b x y : within a b = false -> within b a = false -> write (write st a x) b y = write (write st b y) a x.
Proof.
  intros H1 H2. unfold write, within in *. destruct (Nat.eqb_spec (slot a) (slot b)) as [E|E].
  - rewrite <- E in *. rewrite Nat.eqb_refl in H2. cbn in *. apply upd_nth_pair. intros v. now apply upd_comm.
  - apply upd_nth_comm. auto.
Qed.
Lemma get_at_tag s q t v : get_at (s :: q) (set_tag t v) = get_at (s :: q) v.
Proof. destruct s, v as [|? []|? []]; reflexivity. Qed.
Lemma read_tag st a b t v : read st a = Some v -> strictly_inside a b -> read (write st a (set_tag t v)) b = read st b.
Proof.
  intros E (Es & s & q & Eq). destruct b as [sb pb]. cbn in *. subst. rewrite read_write_below, E, get_at_tag.
  unfold read in *. cbn. destruct (nth_error st (slot a)); [|discriminate]. now rewrite get_at_app, E.
Qed.
Lemma read_write_obj st a b x t m : read st a = Some (VObj t (Some m)) -> within b a = false ->
  exists m', read (write st b x) a = Some (VObj t (Some m')) /\ map fst m' = map fst m.
Proof.
  intros E H. destruct (within a b) eqn:W.
  - destruct (read_write_above st a b x W) as (q & Eq & ->). rewrite E. cbn [option_map]. destruct q as [|[k|n] q].
    + exfalso. rewrite app_nil_r in Eq. apply within_spec in W as (Es & _).
      assert (within b a = true); [|congruence]. apply within_spec. split; auto. exists []. now rewrite app_nil_r.
    + cbn. eexists. split; [reflexivity|]. apply upd_key_keys.
    + cbn. eauto.
  - rewrite read_write_disjoint by auto. eauto.
Qed.
Lemma read_write_arr st a b x t l : read st a = Some (VArr t (Some l)) -> within b a = false ->
  exists l', read (write st b x) a = Some (VArr t (Some l')).
Proof.
  intros E H. destruct (within a b) eqn:W.
  - destruct (read_write_above st a b x W) as (q & Eq & ->). rewrite E. cbn [option_map]. destruct q as [|[k|n] q].
    + exfalso. rewrite app_nil_r in Eq. apply within_spec in W as (Es & _).
      assert (within b a = true); [|congruence]. apply within_spec. split; auto. exists []. now rewrite app_nil_r.
    + cbn. eauto.
    + cbn. eauto.
  - rewrite read_write_disjoint by auto. eauto.
Qed.
Lemma copy_owned_inv v : forall w, copy v = Ok w -> owned v.
Proof.
  induction v as [t s|t|t l IH|t|t m IH] using value_ind'; intros w E; cbn in E; try discriminate; constructor.
  - destruct (copy_elems copy l) as [l'| | | |] eqn:El; try discriminate. clear E. revert l' El. induction IH as [|x l Hx _ IHl]; intros l' El; constructor; cbn in El.
    + destruct (copy x) as [x'| | | |] eqn:Ex; try discriminate. eauto.
    + destruct (copy x) as [x'| | | |]; try discriminate. cbn in El. destruct (copy_elems copy l) as [l2| | | |] eqn:E2; try discriminate. eauto.
  - destruct (copy_members copy m) as [l'| | | |] eqn:El; try discriminate. clear E. revert l' El. induction IH as [|(k, x) l Hx _ IHl]; intros l' El; constructor; cbn in *.
    + destruct (copy x) as [x'| | | |] eqn:Ex; try discriminate. eauto.
    + destruct (copy x) as [x'| | | |]; try discriminate. cbn in El. destruct (copy_members copy l) as [l2| | | |] eqn:E2; try discriminate. eauto.
Qed.
Lemma copy_elems_owned_inv l : forall l', copy_elems copy l = Ok l' -> Forall owned l.
Proof.
  induction l as [|x l IH]; cbn; intros l' E; constructor; destruct (copy x) as [x'| | | |] eqn:Ex; try discriminate; [eapply copy_owned_inv; eauto|].
  cbn in E. destruct (copy_elems copy l) as [l2| | | |] eqn:E2; try discriminate. eauto.
Qed.
Lemma copy_members_owned_inv (l : object) : forall l', copy_members copy l = Ok l' -> Forall (fun kv => owned (snd kv)) l.
Proof.
  induction l as [|(k, x) l IH]; cbn; intros l' E; constructor; cbn; destruct (copy x) as [x'| | | |] eqn:Ex; try discriminate; [eapply copy_owned_inv; eauto|].
  cbn in E. destruct (copy_members copy l) as [l2| | | |] eqn:E2; try discriminate. eauto.
Qed.
(** ** The variables an operation may change *)
Definition frame (S : list nat) (st st' : store) : Prop :=
  length st' = length st /\ forall i, ~ In i S -> nth_error st' i = nth_error st i.
Lemma frame_refl S st : frame S st st.
Proof. split; auto. Qed.
Lemma frame_trans S st st1 st2 : frame S st st1 -> frame S st1 st2 -> frame S st st2.
Proof. intros [A B] [C D]. split; [congruence|]. intros i Hi. rewrite D, B; auto. Qed.
Lemma frame_mono S S' st st' : frame S st st' -> incl S S' -> frame S' st st'.
Proof. intros [A B] I. split; auto. Qed.
Lemma frame_write S st l v : In (slot l) S -> frame S st (write st l v).
Proof.
  intros H. unfold write. split; [|intros i Hi; apply nth_upd_other; intros <-; auto].
  generalize (slot l). induction st as [|x st IH]; intros [|n]; cbn; auto.
Qed.
