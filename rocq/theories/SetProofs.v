(** * std::set and std::unordered_map. *)
From Coq Require Import Sorting.Sorted Permutation.
From Verif Require Import Base Value Packed Parser Dump Containers Num Enum Conv Spec SpecApi SpecConv BaseProofs ContainerProofs NumProofs EnumProofs ConvProofs FaithfulProofs.
From Verif Require EffectProofs.

Section Sets.
  Context (lt : data -> data -> bool).
  Definition before (a b : data) : Prop := lt a b = true /\ lt b a = false.
  Section Order.
    Context (P : data -> Prop) (Hlt : strict_weak P lt).
    Lemma lt_asym a b : P a -> P b -> lt a b = true -> lt b a = false.
    Proof.
      intros Ha Hb H. destruct (lt b a) eqn:E; auto. rewrite <- (sw_irrefl _ _ Hlt a Ha). symmetry. apply (sw_trans _ _ Hlt a b a); auto.
    Qed.
    Lemma before_lt a b : P a -> P b -> before a b <-> lt a b = true.
    Proof. intros Ha Hb. split; [now intros []|]. intros H. split; auto. now apply lt_asym. Qed.
    Lemma equivalent_trans a b c : P a -> P b -> P c -> equivalent lt a b -> equivalent lt b c -> equivalent lt a c.
    Proof. intros Ha Hb Hc [H1 H2] [H3 H4]. exact (sw_equiv _ _ Hlt a b c Ha Hb Hc H1 H2 H3 H4). Qed.
    Lemma equivalent_sym a b : equivalent lt a b -> equivalent lt b a.
    Proof. now intros [H1 H2]. Qed.
    Lemma insert_spec x s : P x -> Forall P s -> StronglySorted before s ->
      (exists y, In y s /\ equivalent lt x y) /\ set_insert lt x s = s \/
      (forall y, In y s -> ~ equivalent lt x y) /\ StronglySorted before (set_insert lt x s) /\
      forall y, In y (set_insert lt x s) <-> y = x \/ In y s.
    Proof.
      intros Hx. induction s as [|y s IH]; intros Hp Hs; cbn.
      - right. split; [tauto|]. split; [repeat constructor|]. intros y. cbn. intuition.
      - inversion Hp as [|? ? Hy Hp']; subst. inversion Hs as [|? ? Hs' Hy']; subst. rewrite Forall_forall in Hp', Hy'.
        destruct (lt x y) eqn:E1.
        + right. assert (Hxs : forall z, In z s -> lt x z = true).
          { intros z Hz. apply (sw_trans _ _ Hlt x y z); auto. exact (proj1 (Hy' z Hz)). }
          split.
          { intros z [<-|Hz] [H1 H2]; [congruence|]. rewrite Hxs in H1 by auto. discriminate. }
          split; [|cbn; intuition]. constructor; auto. constructor; [now apply before_lt|]. apply Forall_forall. intros z Hz. apply before_lt; auto.
        + destruct (lt y x) eqn:E2.
          * destruct IH as [[(z & Hz & He) ->]|(H1 & H2 & H3)]; auto; [now apply Forall_forall| |].
            { left. split; auto. exists z. auto. }
            right. split; [intros z [<-|Hz] [X1 X2]; [congruence|now apply (H1 z Hz)]|]. split.
            { constructor; auto. apply Forall_forall. intros z Hz. apply H3 in Hz as [->|Hz]; auto. now apply before_lt. }
            intros z. cbn. rewrite H3. intuition.
          * left. split; auto. exists y. repeat split; auto.
    Qed.
    Lemma fold_spec l : forall p s, Forall P p -> Forall P l -> StronglySorted before s -> (forall x, In x s <-> first_of_kind lt p x) ->
      let s' := fold_left (fun s x => set_insert lt x s) l s in
      StronglySorted before s' /\ forall x, In x s' <-> first_of_kind lt (p ++ l) x.
    Proof.
      induction l as [|x l IH]; intros p s Hp Hl Hs Hin; cbn [fold_left]; [now rewrite app_nil_r|].
      inversion Hl as [|? ? Hx Hl']; subst. replace (p ++ x :: l) with ((p ++ [x]) ++ l) by now rewrite <- app_assoc.
      assert (Hps : Forall P s).
      { rewrite Forall_forall in *. intros y Hy. apply Hin in Hy as (a & b & -> & _). apply Hp. apply in_or_app. right. now left. }
      assert (Hrep : forall y, In y p -> exists z, In z s /\ equivalent lt y z).
      { assert (X : forall q r, p = q ++ r -> forall y, In y q -> exists z, In z s /\ equivalent lt y z).
        { induction q as [|y q IHq] using rev_ind; [intros r _ y []|]. intros r E z Hz. apply in_app_or in Hz as [Hz|[<-|[]]].
          { apply (IHq (y :: r)); auto. now rewrite E, <- app_assoc. }
          assert (Py : P y) by (rewrite Forall_forall in Hp; apply Hp; rewrite E; apply in_or_app; left; apply in_or_app; right; now left).
          assert (D : (exists z, In z q /\ equivalent lt y z) \/ forall z, In z q -> ~ equivalent lt y z).
          { clear. induction q as [|u q [(z & Hz & He)|H]]; [right; intros z []|left; exists z; split; auto; now right|].
            destruct (lt y u) eqn:E1; [|destruct (lt u y) eqn:E2].
            - right. intros z [<-|Hz]; [intros [X _]; congruence|auto].
            - right. intros z [<-|Hz]; [intros [_ X]; congruence|auto].
            - left. exists u. split; [now left|split; auto]. }
          destruct D as [(z & Hz & He)|D].
          - destruct (IHq (y :: r)) with (y := z) as (w & Hw & He'); auto; [now rewrite E, <- app_assoc|].
            exists w. split; auto. apply (equivalent_trans y z w); auto; rewrite Forall_forall in *; auto.
            apply Hp. rewrite E. apply in_or_app. left. apply in_or_app. now left.
          - exists y. split; [|split; now apply (sw_irrefl _ _ Hlt)]. apply Hin. exists q, r. split; [now rewrite E, <- app_assoc|auto]. }
        intros y Hy. apply (X p []); auto. now rewrite app_nil_r. }
      apply IH; auto.
      - apply Forall_app. auto.
      - destruct (insert_spec x s Hx Hps Hs) as [[_ ->]|(_ & H & _)]; auto.
      - intros y. split.
        + intros Hy. destruct (insert_spec x s Hx Hps Hs) as [[_ E]|(Hn & _ & H)].
          * rewrite E in Hy. apply Hin in Hy as (a & b & -> & Ha). exists a, (b ++ [x]). split; [now rewrite <- app_assoc|auto].
          * apply H in Hy as [->|Hy].
            { exists p, []. split; auto. intros z Hz He. destruct (Hrep z Hz) as (w & Hw & He').
              apply (Hn w Hw). apply (equivalent_trans x z w); auto; rewrite Forall_forall in *; auto. }
            apply Hin in Hy as (a & b & -> & Ha). exists a, (b ++ [x]). split; [now rewrite <- app_assoc|auto].
        + intros (a & b & E & Ha). destruct b as [|b0 b _] using rev_ind.
          * apply app_inj_tail in E as [<- <-].
            destruct (insert_spec x s Hx Hps Hs) as [[(z & Hz & He) _]|(_ & _ & H)].
            { exfalso. apply Hin in Hz as (a' & b' & E & _). apply (Ha z); auto. rewrite E. apply in_or_app. right. now left. }
            apply H. now left.
          * rewrite app_comm_cons, app_assoc in E. apply app_inj_tail in E as [E ->].
            assert (In y s) by (apply Hin; exists a, b; auto).
            destruct (insert_spec b0 s Hx Hps Hs) as [[_ ->]|(_ & _ & H0)]; auto. apply H0. now right.
    Qed.
  End Order.
  Lemma set_of_spec l : strict_weak (fun x => In x l) lt ->
    set_sorted lt (coll_of (set_insert lt) l) /\ forall x, In x (coll_of (set_insert lt) l) <-> first_of_kind lt l x.
  Proof.
    intros H. apply (fold_spec _ H l [] []); [constructor|now apply Forall_forall|constructor|].
    intros x. split; [intros []|]. intros (a & b & E & _). destruct a; discriminate.
  Qed.
End Sets.

Lemma set_as E lt t v : (exists l, as_ E (TVec t) v = Ok (DSeq l) /\ as_ E (TSet lt t) v = Ok (DSeq (coll_of (set_insert lt) l))) \/
  (forall d, as_ E (TVec t) v <> Ok d) /\ as_ E (TSet lt t) v = as_ E (TVec t) v.
Proof.
  cbn. destruct (as_array_c v) as [l| | | |]; cbn; try (right; split; [discriminate|reflexivity]).
  destruct (mapM (as_ E t) l) as [r| | | |]; cbn; try (right; split; [discriminate|reflexivity]). left. eexists. split; reflexivity.
Qed.
Lemma set_conversion E lt t v l : as_ E (TVec t) v = Ok (DSeq l) -> strict_weak (fun x => In x l) lt ->
  exists s, as_ E (TSet lt t) v = Ok (DSeq s) /\ set_sorted lt s /\ forall x, In x s <-> first_of_kind lt l x.
Proof.
  intros H Hlt. destruct (set_as E lt t v) as [(l' & H1 & H2)|[H1 _]]; [|destruct (H1 _ H)].
  rewrite H in H1. injection H1 as <-. eexists. split; [exact H2|]. now apply set_of_spec.
Qed.
(** a set is determined by its elements *)
Lemma set_unique lt l : forall s, strict_weak (fun x => In x l) lt -> set_sorted lt l -> set_sorted lt s ->
  (forall x, In x l <-> In x s) -> l = s.
Proof.
  induction l as [|x l IH]; intros s Hw Hl Hs H.
  - destruct s as [|y s]; auto. destruct (proj2 (H y)). now left.
  - destruct s as [|y s]; [destruct (proj1 (H x)); now left|]. inversion Hl as [|? ? Hl1 Hl2]; subst. inversion Hs as [|? ? Hs1 Hs2]; subst.
    rewrite Forall_forall in Hl2, Hs2.
    assert (x = y) as <-.
    { destruct (proj1 (H x) (or_introl eq_refl)) as [->|Hx]; auto. destruct (proj2 (H y) (or_introl eq_refl)) as [->|Hy]; auto.
      destruct (Hl2 y Hy), (Hs2 x Hx). congruence. }
    assert (Hxx : lt x x = false) by (apply (sw_irrefl _ _ Hw); now left).
    f_equal. apply IH; auto.
    + destruct Hw as [H1 H2 H3]. constructor.
      * intros a Ha. apply H1. now right.
      * intros a b c Ha Hb Hc. apply H2; now right.
      * intros a b c Ha Hb Hc. apply H3; now right.
    + intros z. split; intros Hz.
      * destruct (proj1 (H z) (or_intror Hz)) as [<-|]; auto. destruct (Hl2 x Hz). congruence.
      * destruct (proj2 (H z) (or_intror Hz)) as [<-|]; auto. destruct (Hs2 x Hz). congruence.
Qed.

(** a map in any order of iteration *)
Section Maps.
  Context {A B : Type} (f : A -> res B).
  Lemma mapM_members_keys m : forall r, mapM_members f m = Ok r -> map fst r = map fst m.
  Proof.
    induction m as [|[k x] m IH]; cbn; intros r H; [now injection H as <-|].
    destruct (f x); try discriminate. cbn in H. destruct (mapM_members f m); try discriminate. injection H as <-. cbn. f_equal. auto.
  Qed.
  Lemma mapM_members_perm m m' : Permutation m m' -> forall r, mapM_members f m = Ok r -> exists r', mapM_members f m' = Ok r' /\ Permutation r r'.
  Proof.
    induction 1 as [|[k x] m m' _ IH|[k x] [k' y] m|m m' m'' _ IH1 _ IH2]; cbn; intros r H.
    - injection H as <-. exists []. auto.
    - destruct (f x); try discriminate. cbn in H. destruct (mapM_members f m); try discriminate. injection H as <-.
      destruct (IH _ eq_refl) as (r' & -> & Hp). cbn. eexists. split; [reflexivity|]. now constructor.
    - destruct (f x), (f y); cbn in H; try discriminate. destruct (mapM_members f m); try discriminate. injection H as <-.
      cbn. eexists. split; [reflexivity|]. constructor.
    - destruct (IH1 _ H) as (r' & H1 & P1). destruct (IH2 _ H1) as (r'' & H2 & P2). exists r''. split; auto. now transitivity r'.
  Qed.
End Maps.
Lemma map_order E t m m' v : NoDup (map fst m) -> Permutation m m' -> to_value E (TMap t) (DMap m) = Ok v ->
  to_value E (TMap t) (DMap m') = Ok v.
Proof.
  intros Hn Hp H. cbn in *. destruct (mapM_members (to_value E t) m) as [r| | | |] eqn:Er; try discriminate. injection H as <-.
  destruct (mapM_members_perm _ _ _ Hp _ Er) as (r' & -> & Hr). cbn [bind]. f_equal. f_equal.
  destruct (EffectProofs.of_list_find r) as [S1 F1]. destruct (EffectProofs.of_list_find r') as [S2 F2].
  apply map_find_ext; auto. intros k. rewrite F1, F2. symmetry. apply map_find_perm; auto.
  now rewrite (mapM_members_keys _ _ _ Er).
Qed.

Lemma variant_of_value E a b v : ~ In TValue a -> wf v -> as_ E (TVar (a ++ TValue :: b)) v = Ok (DAlt (length a) (DJson v)).
Proof. intros Ha Hv. cbn [as_]. rewrite chosen_value, as_alternative_at by auto. cbn [as_]. now rewrite wf_copy. Qed.
