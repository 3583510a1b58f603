(** * std::multiset and the unordered sets. *)
From Coq Require Import Sorting.Sorted Permutation.
From Verif Require Import Base Value Packed Parser Dump Containers Num Enum Conv Spec SpecApi SpecConv BaseProofs ContainerProofs NumProofs EnumProofs ConvProofs
  FaithfulProofs ConvTheorems SetProofs.

Lemma coll_as E ins t v : (exists l, as_ E (TVec t) v = Ok (DSeq l) /\ as_ E (TColl ins t) v = Ok (DSeq (coll_of ins l))) \/
  (forall d, as_ E (TVec t) v <> Ok d) /\ as_ E (TColl ins t) v = as_ E (TVec t) v.
Proof.
  cbn. destruct (as_array_c v) as [l| | | |]; cbn; try (right; split; [discriminate|reflexivity]).
  destruct (mapM (as_ E t) l) as [r| | | |]; cbn; try (right; split; [discriminate|reflexivity]). left. eexists. split; reflexivity.
Qed.
Lemma coll_ok E ins t v l : as_ E (TVec t) v = Ok (DSeq l) -> as_ E (TColl ins t) v = Ok (DSeq (coll_of ins l)).
Proof.
  intros H. destruct (coll_as E ins t v) as [(l' & H1 & H2)|[H1 _]]; [|destruct (H1 _ H)]. rewrite H in H1. now injection H1 as <-.
Qed.
Lemma coll_failure E ins t v : (forall d, as_ E (TVec t) v <> Ok d) -> as_ E (TColl ins t) v = as_ E (TVec t) v.
Proof. intros H. destruct (coll_as E ins t v) as [(l' & H1 & H2)|[_ H1]]; [destruct (H _ H1)|auto]. Qed.

(** ** std::multiset *)
Section Multi.
  Context (lt : data -> data -> bool) (P : data -> Prop) (Hlt : strict_weak P lt).
  Lemma multi_perm x s : Permutation (x :: s) (multi_insert lt x s).
  Proof.
    induction s as [|y s IH]; cbn; auto. destruct (lt x y); auto. rewrite perm_swap. now constructor.
  Qed.
  Lemma asym a b : P a -> P b -> lt a b = true -> lt b a = false.
  Proof.
    intros Ha Hb H. destruct (lt b a) eqn:E; auto. rewrite <- (sw_irrefl _ _ Hlt a Ha). symmetry. apply (sw_trans _ _ Hlt a b a); auto.
  Qed.
  (** not smaller is transitive *)
  Lemma le_trans a b c : P a -> P b -> P c -> lt b a = false -> lt c b = false -> lt c a = false.
  Proof.
    intros Ha Hb Hc H1 H2. destruct (lt c a) eqn:E; auto. destruct (lt a b) eqn:E1.
    - rewrite <- H2. symmetry. apply (sw_trans _ _ Hlt c a b); auto.
    - destruct (lt b c) eqn:E2.
      + rewrite <- H1. symmetry. apply (sw_trans _ _ Hlt b c a); auto.
      + destruct (sw_equiv _ _ Hlt a b c Ha Hb Hc E1 H1 E2 H2). congruence.
  Qed.
  Lemma multi_insert_sorted x s : P x -> Forall P s -> multi_sorted lt s -> multi_sorted lt (multi_insert lt x s).
  Proof.
    unfold multi_sorted. intros Hx. induction s as [|y s IH]; intros Hp Hs; cbn; [repeat constructor|].
    inversion Hp as [|? ? Hy Hp']; subst. inversion Hs as [|? ? Hs' Hy']; subst. rewrite Forall_forall in Hp', Hy'.
    destruct (lt x y) eqn:E1.
    - constructor; auto. constructor; [now apply asym|]. apply Forall_forall. intros z Hz.
      apply (le_trans x y z); auto using asym.
    - constructor; [apply IH; auto; now apply Forall_forall|]. apply Forall_forall. intros z Hz.
      apply (Permutation_in z (Permutation_sym (multi_perm x s))) in Hz as [<-|Hz]; auto.
  Qed.
  (** the new element comes last of its kind *)
  Lemma kind_sym a b : kind lt a b = kind lt b a.
  Proof. unfold kind. apply Bool.andb_comm. Qed.
  Lemma multi_insert_kind x s u : P x -> P u -> Forall P s -> multi_sorted lt s ->
    filter (kind lt u) (multi_insert lt x s) = filter (kind lt u) (s ++ [x]).
  Proof.
    intros Hx Hu. induction s as [|y s IH]; intros Hp Hs; cbn; auto.
    inversion Hp as [|? ? Hy Hp']; subst. inversion Hs as [|? ? Hs' Hy']; subst. rewrite Forall_forall in Hp', Hy'.
    destruct (lt x y) eqn:E1.
    - cbn. rewrite filter_app. cbn. destruct (kind lt u x) eqn:Eu.
      + assert (X : forall z, z = y \/ In z s -> kind lt u z = false).
        { unfold kind in Eu. apply andb_prop in Eu as [E2 E3]. apply Bool.negb_true_iff in E2, E3.
          intros z Hz. unfold kind. assert (Pz : P z) by (destruct Hz as [->|]; auto).
          assert (lt x z = true).
          { destruct (lt x z) eqn:E4; auto. rewrite <- E1. destruct Hz as [->|Hz]; auto.
            rewrite <- (le_trans y z x); auto. }
          destruct (lt u z) eqn:E4; auto. destruct (lt z u) eqn:E5; auto. exfalso.
          destruct (sw_equiv _ _ Hlt x u z) as [X _]; auto. congruence. }
        assert (filter (kind lt u) s = []) as ->.
        { clear - X. induction s as [|z s IH]; cbn; auto. rewrite (X z) by (right; now left). apply IH. intros w [->|Hw]; apply X; [now left|right; now right]. }
        rewrite (X y) by now left. reflexivity.
      + rewrite app_nil_r. reflexivity.
    - cbn. destruct (kind lt u y); rewrite IH; auto; now apply Forall_forall.
  Qed.
  Lemma multi_fold l : forall s, Forall P s -> Forall P l -> multi_sorted lt s ->
    let s' := fold_left (fun s x => multi_insert lt x s) l s in
    multi_sorted lt s' /\ Permutation (s ++ l) s' /\ forall u, P u -> filter (kind lt u) s' = filter (kind lt u) (s ++ l).
  Proof.
    induction l as [|x l IH]; intros s Hs Hl Hm; cbn [fold_left].
    - rewrite app_nil_r. split; auto.
    - inversion Hl as [|? ? Hx Hl']; subst.
      destruct (IH (multi_insert lt x s)) as (A & B & C); auto.
      + apply Forall_forall. intros z Hz. apply (Permutation_in z (Permutation_sym (multi_perm x s))) in Hz as [<-|Hz]; auto.
        rewrite Forall_forall in Hs. auto.
      + now apply multi_insert_sorted.
      + split; auto. split.
        * rewrite <- B, <- multi_perm. symmetry. apply (Permutation_middle s l x).
        * intros u Hu. rewrite C by auto. replace (s ++ x :: l) with ((s ++ [x]) ++ l) by now rewrite <- app_assoc.
          rewrite !(filter_app _ _ l). f_equal. now apply multi_insert_kind.
  Qed.
End Multi.
Lemma multi_conversion E lt t v l : as_ E (TVec t) v = Ok (DSeq l) -> strict_weak (fun x => In x l) lt ->
  exists s, as_ E (TMulti lt t) v = Ok (DSeq s) /\ Permutation l s /\ multi_sorted lt s /\ same_kinds lt l s.
Proof.
  intros H Hlt. eexists. split; [exact (coll_ok E (multi_insert lt) t v l H)|].
  destruct (multi_fold lt _ Hlt l []) as (A & B & C); [constructor|now apply Forall_forall|constructor|]. split; auto.
Qed.
(** there is no other such list *)
Lemma kind_refl lt P x : strict_weak P lt -> P x -> kind lt x x = true.
Proof. intros W Hx. unfold kind. now rewrite (sw_irrefl _ _ W x Hx). Qed.
Lemma multi_unique lt l s : strict_weak (fun x => In x l) lt -> Permutation l s -> multi_sorted lt l -> multi_sorted lt s -> same_kinds lt l s -> l = s.
Proof.
  intros W Hp Hl Hs Hk.
  assert (X : forall P, strict_weak P lt -> forall l s, Forall P l -> Permutation l s -> multi_sorted lt l -> multi_sorted lt s ->
    (forall u, P u -> filter (kind lt u) s = filter (kind lt u) l) -> l = s).
  { clear. intros P W. induction l as [|x l IH]; intros s Hpl Hp Hl Hs Hk.
    - apply Permutation_nil in Hp. auto.
    - inversion Hpl as [|? ? Px Hpl']; subst. destruct s as [|y s]; [apply Permutation_sym, Permutation_nil in Hp; discriminate|].
      assert (Py : P y).
      { assert (In y (x :: l)) as Hy by (apply (Permutation_in y (Permutation_sym Hp)); now left).
        rewrite Forall_forall in Hpl. now apply Hpl. }
      unfold multi_sorted in *. inversion Hl as [|? ? Hl1 Hl2]; subst. inversion Hs as [|? ? Hs1 Hs2]; subst.
      assert (K : kind lt x y = true).
      { unfold kind. apply andb_true_intro. split; apply Bool.negb_true_iff.
        - assert (In x (y :: s)) as Hx by (apply (Permutation_in x Hp); now left). destruct Hx as [->|Hx]; [now apply (sw_irrefl _ _ W)|].
          rewrite Forall_forall in Hs2. auto.
        - assert (In y (x :: l)) as Hy by (apply (Permutation_in y (Permutation_sym Hp)); now left). destruct Hy as [->|Hy]; [now apply (sw_irrefl _ _ W)|].
          rewrite Forall_forall in Hl2. auto. }
      assert (x = y) as <-.
      { specialize (Hk x Px). cbn in Hk. rewrite K, (kind_refl lt P x W Px) in Hk. now injection Hk. }
      f_equal. apply IH; auto.
      + apply (Permutation_cons_inv Hp).
      + intros u Pu. specialize (Hk u Pu). cbn in Hk. destruct (kind lt u x); [now injection Hk|auto]. }
  apply (X (fun x => In x l)); auto. now apply Forall_forall.
Qed.
Lemma multi_rebuilt lt l : strict_weak (fun x => In x l) lt -> multi_sorted lt l -> rebuilt (multi_insert lt) l.
Proof.
  intros W H. destruct (multi_fold lt _ W l []) as (A & B & C); [constructor|now apply Forall_forall|constructor|].
  symmetry. apply (multi_unique lt l); auto.
Qed.

(** ** std::unordered_set *)
Section Unordered.
  Context (eq : data -> data -> bool) (ins : data -> list data -> list data) (Hins : unordered_set_like eq ins).
  Lemma equal_dec x s : (exists y, In y s /\ eq x y = true) \/ forall y, In y s -> eq x y = false.
  Proof.
    induction s as [|y s [(z & Hz & He)|IH]]; [right; intros z []|left; exists z; split; auto; now right|].
    destruct (eq x y) eqn:E; [left; exists y; split; auto; now left|]. right. intros z [<-|Hz]; auto.
  Qed.
  Lemma different_perm (s s' : list data) : Permutation s s' -> all_different eq s -> all_different eq s'.
  Proof.
    unfold all_different. induction 1 as [|x s s' Hp IH|x y s|s s' s'' _ IH1 _ IH2]; intros H; auto.
    - inversion H as [|? ? H1 H2]; subst. constructor; auto. rewrite Forall_forall in *. intros z Hz. apply H1.
      now apply (Permutation_in z (Permutation_sym Hp)).
    - inversion H as [|? ? H1 H2]; subst. inversion H2 as [|? ? H3 H4]; subst. inversion H1 as [|? ? [E1 E2] H5]; subst.
      constructor; [constructor; auto|]. constructor; auto.
  Qed.
  Section Fold.
    Context (P : data -> Prop) (He : equality_on P eq).
    Lemma unordered_fold l : forall p s, Forall P p -> Forall P l -> all_different eq s -> (forall x, In x s <-> first_equal eq p x) ->
      let s' := fold_left (fun s x => ins x s) l s in
      all_different eq s' /\ forall x, In x s' <-> first_equal eq (p ++ l) x.
    Proof.
      induction l as [|x l IH]; intros p s Hp Hl Hd Hin; cbn [fold_left]; [now rewrite app_nil_r|].
      inversion Hl as [|? ? Hx Hl']; subst. replace (p ++ x :: l) with ((p ++ [x]) ++ l) by now rewrite <- app_assoc.
      rewrite Forall_forall in Hp.
      assert (Hps : forall y, In y s -> In y p).
      { intros y Hy. apply Hin in Hy as (a & b & -> & _). apply in_or_app. right. now left. }
      (* every element has its first equal in the container *)
      assert (Hrep : forall y, In y p -> exists z, In z s /\ eq y z = true).
      { assert (X : forall q r, p = q ++ r -> forall y, In y q -> exists z, In z s /\ eq y z = true).
        { induction q as [|y q IHq] using rev_ind; [intros r _ y []|]. intros r E z Hz. apply in_app_or in Hz as [Hz|[<-|[]]].
          { apply (IHq (y :: r)); auto. now rewrite E, <- app_assoc. }
          assert (Qp : forall w, In w q -> P w) by (intros w Hw; apply Hp; rewrite E; apply in_or_app; left; apply in_or_app; now left).
          assert (Py : P y) by (apply Hp; rewrite E; apply in_or_app; left; apply in_or_app; right; now left).
          destruct (equal_dec y q) as [(z & Hz & Hyz)|D].
          - destruct (IHq (y :: r)) with (y := z) as (w & Hw & He'); auto; [now rewrite E, <- app_assoc|].
            exists w. split; auto. apply (eo_trans _ _ He y z w); auto.
          - exists y. split; [|now apply (eo_refl _ _ He)]. apply Hin. exists q, r. split; [now rewrite E, <- app_assoc|auto]. }
        intros y Hy. apply (X p []); auto. now rewrite app_nil_r. }
      destruct (Hins x s) as [I1 I2]. apply IH; auto.
      - apply Forall_app. split; [now apply Forall_forall|auto].
      - destruct (equal_dec x s) as [D|D]; [now rewrite I1|]. apply (different_perm (x :: s)); auto.
        constructor; auto. apply Forall_forall. intros y Hy. split; [auto|]. destruct (eq y x) eqn:E; auto.
        rewrite <- (D y Hy). symmetry. apply (eo_sym _ _ He); auto.
      - intros y. destruct (equal_dec x s) as [D|D].
        + rewrite I1 by auto. rewrite Hin. split.
          * intros (a & b & -> & Ha). exists a, (b ++ [x]). split; [now rewrite <- app_assoc|auto].
          * intros (a & b & E & Ha). destruct b as [|b0 b _] using rev_ind.
            { apply app_inj_tail in E as [<- <-]. destruct D as (z & Hz & Hxz). rewrite (Ha z) in Hxz by auto. discriminate. }
            exists a, b. rewrite app_comm_cons, app_assoc in E. apply app_inj_tail in E as [-> _]. auto.
        + assert (Q : In y (ins x s) <-> y = x \/ In y s).
          { split; intros Hy.
            - apply (Permutation_in y (Permutation_sym (I2 D))) in Hy as [<-|]; auto.
            - apply (Permutation_in y (I2 D)). destruct Hy as [->|]; [now left|now right]. }
          rewrite Q, Hin. split.
          * intros [->|(a & b & -> & Ha)].
            { exists p, []. split; auto. intros z Hz. destruct (eq x z) eqn:E; auto. destruct (Hrep z Hz) as (w & Hw & He').
              rewrite <- (D w Hw). symmetry. apply (eo_trans _ _ He x z w); auto. }
            exists a, (b ++ [x]). split; [now rewrite <- app_assoc|auto].
          * intros (a & b & E & Ha). destruct b as [|b0 b _] using rev_ind.
            { apply app_inj_tail in E as [_ ->]. now left. }
            right. exists a, b. rewrite app_comm_cons, app_assoc in E. apply app_inj_tail in E as [-> _]. auto.
    Qed.
  End Fold.
End Unordered.
Lemma unordered_conversion E eq ins t v l : unordered_set_like eq ins -> as_ E (TVec t) v = Ok (DSeq l) -> equality_on (fun x => In x l) eq ->
  exists s, as_ E (TColl ins t) v = Ok (DSeq s) /\ all_different eq s /\ forall x, In x s <-> first_equal eq l x.
Proof.
  intros Hi H He. eexists. split; [exact (coll_ok E ins t v l H)|].
  apply (unordered_fold eq ins Hi _ He l [] []); [constructor|now apply Forall_forall|constructor|].
  intros x. split; [intros []|]. intros (a & b & E' & _). destruct a; discriminate.
Qed.
Lemma unordered_multi_conversion E ins t v l : unordered_multi_like ins -> as_ E (TVec t) v = Ok (DSeq l) ->
  exists s, as_ E (TColl ins t) v = Ok (DSeq s) /\ Permutation l s.
Proof.
  intros Hi H. eexists. split; [exact (coll_ok E ins t v l H)|]. clear H.
  assert (X : forall s, Permutation (s ++ l) (fold_left (fun s x => ins x s) l s)); [|exact (X [])].
  induction l as [|x l IH]; intros s; cbn [fold_left]; [now rewrite app_nil_r|].
  pose proof (Hi x s) as P1. rewrite <- IH, <- P1. symmetry. apply (Permutation_middle s l x).
Qed.
(** back from JSON, an unordered container has the same elements *)
Lemma unordered_kept eq ins l : unordered_set_like eq ins -> all_different eq l -> Permutation l (coll_of ins l).
Proof.
  intros Hi Hd. assert (X : forall s, all_different eq (s ++ l) -> Permutation (s ++ l) (fold_left (fun s x => ins x s) l s)); [|exact (X [] Hd)].
  clear Hd. induction l as [|x l IH]; intros s Hd; cbn [fold_left]; [now rewrite app_nil_r|].
  assert (D : forall y, In y s -> eq x y = false).
  { clear IH. unfold all_different in Hd. induction s as [|z s IHs]; [intros y []|]. intros y [->|Hy]; inversion Hd as [|? ? H1 H2]; subst.
    - rewrite Forall_forall in H1. apply H1. apply in_or_app. right. now left.
    - auto. }
  pose proof (proj2 (Hi x s) D) as P1. rewrite <- IH.
  - rewrite <- P1. symmetry. apply (Permutation_middle s l x).
  - apply (different_perm eq (s ++ x :: l)); auto. rewrite <- P1. symmetry. apply (Permutation_middle s l x).
Qed.
Lemma unordered_round_trip E eq ins t l : unordered_set_like eq ins -> all_different eq l -> Forall (faithful E t) l ->
  exists v s, to_value E (TColl ins t) (DSeq l) = Ok v /\ is_ E (TColl ins t) v = Ok true /\ as_ E (TColl ins t) v = Ok (DSeq s) /\ Permutation l s.
Proof.
  intros Hi Hd Hf. destruct (faithful_round_trip E (TVec t) (DSeq l)) as (v & H1 & _ & H2 & H3); [now constructor|].
  exists v, (coll_of ins l). split; [exact H1|]. split; [exact H2|]. split; [now apply coll_ok|]. now apply (unordered_kept eq).
Qed.
