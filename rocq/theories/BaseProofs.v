(** * Basic lemmas: byte-string order, sorted maps, slices, weakest preconditions. *)
From Verif Require Import Base Value Spec.
From Coq Require Import Permutation.
Ltac Zify.zify_post_hook ::= Z.div_mod_to_equations.

Ltac splits := repeat match goal with |- _ /\ _ => split end; try match goal with |- @eq _ _ _ => reflexivity end.

(** ** Outcomes *)
Definition wp {A} (r : res A) (P : A -> Prop) (S : Prop) : Prop :=
  match r with Ok a => P a | Stack => S | _ => False end.
Lemma wp_bind {A B} (r : res A) (f : A -> res B) P S :
  wp r (fun a => wp (f a) P S) S -> wp (bind r f) P S.
Proof. destruct r; cbn; auto. Qed.
Lemma wp_mono {A} (r : res A) (P Q : A -> Prop) (S T : Prop) :
  wp r P S -> (forall a, P a -> Q a) -> (S -> T) -> wp r Q T.
Proof. destruct r; cbn; auto. Qed.
Lemma bind_ok {A B} (r : res A) (f : A -> res B) b :
  bind r f = Ok b -> exists a, r = Ok a /\ f a = Ok b.
Proof. destruct r; cbn; try discriminate. eauto. Qed.

(** ** Byte strings *)
Lemma bytes_eqb_spec a : forall b, reflect (a = b) (bytes_eqb a b).
Proof.
  induction a as [|x a IH]; intros [|y b]; cbn; try (constructor; congruence).
  destruct (N.eqb_spec x y) as [->|H]; cbn; [|constructor; congruence].
  destruct (IH b) as [->|H]; constructor; congruence.
Qed.
Lemma bytes_eqb_refl a : bytes_eqb a a = true.
Proof. destruct (bytes_eqb_spec a a); congruence. Qed.
Lemma bytes_eqb_eq a b : bytes_eqb a b = true <-> a = b.
Proof. destruct (bytes_eqb_spec a b); split; congruence. Qed.
Lemma bytes_eqb_neq a b : bytes_eqb a b = false <-> a <> b.
Proof. destruct (bytes_eqb_spec a b); split; congruence. Qed.
Lemma bytes_eqb_sym a b : bytes_eqb a b = bytes_eqb b a.
Proof. destruct (bytes_eqb_spec a b), (bytes_eqb_spec b a); congruence. Qed.
Lemma bytes_eq_dec (a b : bytes) : {a = b} + {a <> b}.
Proof. destruct (bytes_eqb_spec a b); auto. Qed.

Lemma bytes_ltb_blt a : forall b, bytes_ltb a b = true <-> blt a b.
Proof.
  induction a as [|x a IH]; intros [|y b]; cbn.
  - split; [discriminate|intros H; inversion H].
  - split; [constructor|reflexivity].
  - split; [discriminate|intros H; inversion H].
  - destruct (N.ltb_spec x y) as [H|H].
    + split; [intros _; now apply blt_lt|reflexivity].
    + destruct (N.ltb_spec y x) as [H'|H'].
      * split; [discriminate|intros G; inversion G; subst; lia].
      * assert (x = y) as -> by lia. rewrite IH. split; [apply blt_eq|].
        intros G; inversion G; subst; [lia|assumption].
Qed.
Lemma blt_irrefl a : ~ blt a a.
Proof. induction a; intros H; inversion H; subst; auto; lia. Qed.
Lemma blt_trans a b c : blt a b -> blt b c -> blt a c.
Proof.
  intros H; revert c; induction H; intros d Hd; inversion Hd; subst;
    first [apply blt_nil | apply blt_lt; lia | apply blt_eq; auto].
Qed.
Lemma blt_total a : forall b, blt a b \/ a = b \/ blt b a.
Proof.
  induction a as [|x a IH]; intros [|y b]; auto using blt_nil.
  destruct (N.lt_trichotomy x y) as [H|[->|H]]; auto using blt_lt.
  destruct (IH b) as [H|[->|H]]; auto using blt_eq.
Qed.
Lemma bytes_ltb_irrefl a : bytes_ltb a a = false.
Proof. destruct (bytes_ltb a a) eqn:E; auto. apply bytes_ltb_blt, blt_irrefl in E. destruct E. Qed.
Lemma bytes_ltb_false a b : bytes_ltb a b = false <-> a = b \/ blt b a.
Proof.
  destruct (bytes_ltb a b) eqn:E.
  - apply bytes_ltb_blt in E. split; [discriminate|]. intros [->|H]; exfalso.
    + eapply blt_irrefl; eauto.
    + eapply blt_irrefl, blt_trans; eauto.
  - split; [intros _|reflexivity]. destruct (blt_total a b) as [H|[H|H]]; auto.
    apply bytes_ltb_blt in H. congruence.
Qed.

(** ** Sorted maps *)
Section Maps.
  Context {A : Type}.
  Implicit Types m : list (bytes * A).

  Lemma insert_member_comm k v k' v' m : k <> k' ->
    insert_member k v (insert_member k' v' m) = insert_member k' v' (insert_member k v m).
  Proof.
    intros Hk. induction m as [|(k0, v0) m IH]; cbn.
    - destruct (bytes_ltb k k') eqn:E1, (bytes_ltb k' k) eqn:E2; auto.
      + apply bytes_ltb_blt in E1, E2. exfalso; eapply blt_irrefl, blt_trans; eauto.
      + apply bytes_ltb_false in E1, E2. destruct E1 as [?|E1], E2 as [?|E2]; try congruence.
        exfalso; eapply blt_irrefl, blt_trans; eauto.
    - destruct (bytes_ltb k' k0) eqn:E1; cbn [insert_member].
      + destruct (bytes_ltb k k0) eqn:E2; cbn [insert_member].
        * destruct (bytes_ltb k k') eqn:E3, (bytes_ltb k' k) eqn:E4; cbn [insert_member]; rewrite ?E1, ?E2; auto.
          -- apply bytes_ltb_blt in E3, E4. exfalso; eapply blt_irrefl, blt_trans; eauto.
          -- apply bytes_ltb_false in E3, E4. destruct E3 as [?|E3], E4 as [?|E4]; try congruence.
             exfalso; eapply blt_irrefl, blt_trans; eauto.
        * rewrite E1. destruct (bytes_ltb k k') eqn:E3; auto.
          apply bytes_ltb_blt in E1, E3. apply bytes_ltb_false in E2.
          exfalso. assert (blt k k0) by (eapply blt_trans; eauto). destruct E2 as [->|E2]; eapply blt_irrefl; eauto.
          eapply blt_trans; eauto.
      + destruct (bytes_ltb k k0) eqn:E2; cbn [insert_member].
        * destruct (bytes_ltb k' k) eqn:E3.
          -- apply bytes_ltb_blt in E2, E3. apply bytes_ltb_false in E1.
             exfalso. assert (blt k' k0) by (eapply blt_trans; eauto). destruct E1 as [->|E1]; eapply blt_irrefl; eauto.
             eapply blt_trans; eauto.
          -- rewrite E1. reflexivity.
        * rewrite E1. f_equal. exact IH.
  Qed.
  Lemma sort_members_app_one m k v : ~ In k (map fst m) ->
    sort_members (m ++ [(k, v)]) = insert_member k v (sort_members m).
  Proof.
    induction m as [|(k0, v0) m IH]; cbn; intros H; [reflexivity|].
    rewrite IH by tauto. apply insert_member_comm. intros ->; tauto.
  Qed.
  Lemma insert_member_perm k v m : Permutation ((k, v) :: m) (insert_member k v m).
  Proof.
    induction m as [|(k0, v0) m IH]; cbn; [auto|].
    destruct (bytes_ltb k k0); [reflexivity|]. etransitivity; [apply perm_swap|]. constructor. exact IH.
  Qed.
  Lemma sort_members_perm m : Permutation m (sort_members m).
  Proof.
    induction m as [|(k, v) m IH]; cbn; [auto|].
    etransitivity; [|apply insert_member_perm]. constructor. exact IH.
  Qed.
  Lemma sorted_cons_inv k v m : sorted_keys ((k, v) :: m) -> sorted_keys m.
  Proof. inversion 1; subst; auto. constructor. Qed.
  Lemma sorted_lt k v m : sorted_keys ((k, v) :: m) -> forall k', In k' (map fst m) -> blt k k'.
  Proof.
    revert k v. induction m as [|(k1, v1) m IH]; cbn; intros k v H k'; [tauto|].
    inversion H; subst. intros [<-|Hin]; auto. eapply blt_trans; eauto.
  Qed.
  Lemma sorted_cons k v m : (forall k', In k' (map fst m) -> blt k k') -> sorted_keys m -> sorted_keys ((k, v) :: m).
  Proof. destruct m as [|(k1, v1) m]; intros H Hs; constructor; auto. apply H. cbn; auto. Qed.
  Lemma insert_member_sorted k v m : ~ In k (map fst m) -> sorted_keys m -> sorted_keys (insert_member k v m).
  Proof.
    induction m as [|(k0, v0) m IH]; cbn; intros Hk Hs; [constructor|].
    destruct (bytes_ltb k k0) eqn:E.
    - apply bytes_ltb_blt in E. constructor; auto.
    - apply bytes_ltb_false in E. destruct E as [->|E]; [tauto|].
      apply sorted_cons.
      + intros k' Hin. apply (Permutation_in k' (Permutation_map fst (Permutation_sym (insert_member_perm k v m)))) in Hin.
        cbn in Hin. destruct Hin as [<-|Hin]; auto. eapply sorted_lt; eauto.
      + apply IH; [tauto|]. eapply sorted_cons_inv; eauto.
  Qed.
  Lemma sort_members_sorted m : NoDup (map fst m) -> sorted_keys (sort_members m).
  Proof.
    induction m as [|(k, v) m IH]; cbn; intros H; [constructor|]. inversion_clear H.
    apply insert_member_sorted; auto. intros Hin.
    apply (Permutation_in k (Permutation_map fst (Permutation_sym (sort_members_perm m)))) in Hin. auto.
  Qed.
  Lemma sorted_NoDup m : sorted_keys m -> NoDup (map fst m).
  Proof.
    induction m as [|(k, v) m IH]; cbn; intros H; constructor.
    - intros Hin. eapply blt_irrefl. eapply sorted_lt; eauto.
    - apply IH. eapply sorted_cons_inv; eauto.
  Qed.
  Lemma sort_members_id m : sorted_keys m -> sort_members m = m.
  Proof.
    induction m as [|(k, v) m IH]; cbn; intros H; [reflexivity|].
    rewrite IH by (eapply sorted_cons_inv; eauto).
    destruct m as [|(k1, v1) m]; cbn; [reflexivity|].
    inversion H as [| |? ? ? ? ? Hlt ?]; subst. apply bytes_ltb_blt in Hlt. rewrite Hlt. reflexivity.
  Qed.
  Lemma sorted_perm_eq m : forall m', sorted_keys m -> sorted_keys m' -> Permutation m m' -> m = m'.
  Proof.
    induction m as [|(k, v) m IH]; intros m' Hs Hs' Hp.
    - apply Permutation_nil in Hp. auto.
    - destruct m' as [|(k', v') m'].
      { apply Permutation_sym, Permutation_nil in Hp. discriminate. }
      assert ((k, v) = (k', v')) as [= <- <-].
      { assert (I1 : In (k, v) ((k', v') :: m')) by (eapply Permutation_in; eauto; left; auto).
        assert (I2 : In (k', v') ((k, v) :: m)) by (eapply Permutation_in; [apply Permutation_sym|]; eauto; left; auto).
        destruct I1 as [I1|I1]; [auto|]. destruct I2 as [I2|I2]; [auto|].
        exfalso. eapply blt_irrefl with (a := k), blt_trans with (b := k').
        - eapply sorted_lt; [exact Hs|]. change k' with (fst (k', v')). now apply in_map.
        - eapply sorted_lt; [exact Hs'|]. change k with (fst (k, v)). now apply in_map. }
      f_equal. apply IH; eauto using sorted_cons_inv. eapply Permutation_cons_inv; eauto.
  Qed.

  (** map operations of the model *)
  Lemma map_find_none k m : map_find k m = None <-> ~ In k (map fst m).
  Proof.
    induction m as [|(k0, v0) m IH]; cbn; [tauto|].
    destruct (bytes_eqb_spec k k0) as [->|H]; [split; [discriminate|tauto]|].
    rewrite IH. split; intros G; [|tauto]. intros [<-|]; tauto.
  Qed.
  Lemma map_find_some k v m : NoDup (map fst m) -> map_find k m = Some v <-> In (k, v) m.
  Proof.
    induction m as [|(k0, v0) m IH]; cbn; intros Hn; [split; [discriminate|tauto]|].
    inversion_clear Hn. destruct (bytes_eqb_spec k k0) as [->|Hk].
    - split; [intros [= ->]; auto|]. intros [[= ->]|Hin]; auto. exfalso; apply H.
      change k0 with (fst (k0, v)). now apply in_map.
    - rewrite IH by auto. split; auto. intros [[= -> ->]|]; tauto.
  Qed.
  Lemma map_find_in k v m : map_find k m = Some v -> In (k, v) m.
  Proof.
    induction m as [|(k0, v0) m IH]; cbn; [discriminate|].
    destruct (bytes_eqb_spec k k0) as [->|Hk]; [intros [= ->]|]; auto.
  Qed.
  Lemma map_emplace_new k v m : sorted_keys m -> ~ In k (map fst m) -> map_emplace k v m = (insert_member k v m, true).
  Proof.
    induction m as [|(k0, v0) m IH]; cbn; intros Hs Hk; [reflexivity|].
    destruct (bytes_ltb k k0) eqn:E; [reflexivity|].
    destruct (bytes_eqb_spec k k0) as [->|Hne]; [tauto|].
    rewrite IH; [reflexivity|eapply sorted_cons_inv; eauto|tauto].
  Qed.
  Lemma map_emplace_old k v m : sorted_keys m -> In k (map fst m) -> map_emplace k v m = (m, false).
  Proof.
    induction m as [|(k0, v0) m IH]; cbn; intros Hs Hk; [tauto|].
    destruct (bytes_ltb k k0) eqn:E.
    - apply bytes_ltb_blt in E. exfalso. destruct Hk as [->|Hk]; [eapply blt_irrefl; eauto|].
      eapply blt_irrefl with (a := k), blt_trans; eauto. eapply sorted_lt; eauto.
    - destruct (bytes_eqb_spec k k0) as [->|Hne]; [reflexivity|].
      destruct Hk as [->|Hk]; [tauto|].
      rewrite IH; [reflexivity|eapply sorted_cons_inv; eauto|exact Hk].
  Qed.
  Lemma in_sort_keys m k : In k (map fst (sort_members m)) <-> In k (map fst m).
  Proof.
    split; intros H; eapply Permutation_in; try exact H; apply Permutation_map;
      [apply Permutation_sym|]; apply sort_members_perm.
  Qed.
End Maps.

(** ** Slices *)
Lemma slice_app a b : slice (a ++ b) b = a.
Proof.
  unfold slice. rewrite app_length. replace (length a + length b - length b)%nat with (length a + 0)%nat by lia.
  rewrite firstn_app_2. cbn. apply app_nil_r.
Qed.
Lemma slice_self a : slice a a = [].
Proof. apply (slice_app [] a). Qed.

Lemma Forall_app_r {A} (P : A -> Prop) a b : Forall P (a ++ b) -> Forall P b.
Proof. intros H. apply Forall_app in H. tauto. Qed.
Lemma Forall_app_l {A} (P : A -> Prop) a b : Forall P (a ++ b) -> Forall P a.
Proof. intros H. apply Forall_app in H. tauto. Qed.

(** ** Induction over json and value *)
Lemma json_ind' (P : json -> Prop) :
  P JNull -> (forall b, P (JBool b)) -> (forall s, P (JNum s)) -> (forall s, P (JStr s)) ->
  (forall l, Forall P l -> P (JArr l)) -> (forall m, Forall (fun kv => P (snd kv)) m -> P (JObj m)) ->
  forall j, P j.
Proof.
  intros Hn Hb Hm Hs Ha Ho. fix IH 1. intros [|b|s|s|l|m]; [exact Hn|apply Hb|apply Hm|apply Hs| |].
  - apply Ha. induction l as [|x l IHl]; constructor; [apply IH|apply IHl].
  - apply Ho. induction m as [|(k, x) m IHm]; constructor; [apply IH|apply IHm].
Qed.
Lemma value_ind' (P : value -> Prop) :
  (forall t s, P (VStr t s)) ->
  (forall t, P (VArr t None)) -> (forall t l, Forall P l -> P (VArr t (Some l))) ->
  (forall t, P (VObj t None)) -> (forall t m, Forall (fun kv => P (snd kv)) m -> P (VObj t (Some m))) ->
  forall v, P v.
Proof.
  intros Hs Ha0 Ha Ho0 Ho. fix IH 1. intros [t s|t [l|]|t [m|]]; [apply Hs| |apply Ha0| |apply Ho0].
  - apply Ha. induction l as [|x l IHl]; constructor; [apply IH|apply IHl].
  - apply Ho. induction m as [|(k, x) m IHm]; constructor; [apply IH|apply IHm].
Qed.
