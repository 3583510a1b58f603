(** * Proofs about conversions. *)
From Verif Require Import Base Value Containers Num Enum Conv Spec SpecApi SpecConv BaseProofs ContainerProofs NumProofs EnumProofs.

(** ** Induction over types *)
Section TyInd.
  Context (P : ty -> Prop).
  Context (Hvalue : P TValue) (Harr : P TArr) (Hobj : P TObj) (Hbool : P TBool)
    (Hint : forall sg w, P (TInt sg w)) (Hflt : forall p, P (TFlt p)) (Hstr : P TStr) (Hview : P TView)
    (Hnullptr : P TNullptr) (Hmono : P TMono) (Hopt : forall t, P t -> P (TOpt t)) (Hptr : forall t, P t -> P (TPtr t))
    (Hvec : forall t, P t -> P (TVec t)) (Hcoll : forall ins t, P t -> P (TColl ins t)) (Hfix : forall n t, P t -> P (TFix n t))
    (Htup : forall ts, Forall P ts -> P (TTup ts)) (Hvar : forall ts, Forall P ts -> P (TVar ts))
    (Hmap : forall t, P t -> P (TMap t)) (Henum : forall e, P (TEnum e))
    (Hrec : forall fs, Forall (fun ft => P (snd ft)) fs -> P (TRec fs)) (Hext : forall x, P (TExt x)).
  Fixpoint ty_ind' (t : ty) : P t :=
    match t with
    | TValue => Hvalue | TArr => Harr | TObj => Hobj | TBool => Hbool
    | TInt sg w => Hint sg w | TFlt p => Hflt p | TStr => Hstr | TView => Hview
    | TNullptr => Hnullptr | TMono => Hmono
    | TOpt t => Hopt t (ty_ind' t) | TPtr t => Hptr t (ty_ind' t)
    | TVec t => Hvec t (ty_ind' t) | TColl ins t => Hcoll ins t (ty_ind' t) | TFix n t => Hfix n t (ty_ind' t)
    | TTup ts => Htup ts ((fix go ts : Forall P ts := match ts with [] => Forall_nil _ | t :: r => Forall_cons _ (ty_ind' t) (go r) end) ts)
    | TVar ts => Hvar ts ((fix go ts : Forall P ts := match ts with [] => Forall_nil _ | t :: r => Forall_cons _ (ty_ind' t) (go r) end) ts)
    | TMap t => Hmap t (ty_ind' t)
    | TEnum e => Henum e
    | TRec fs => Hrec fs ((fix go fs : Forall (fun ft => P (snd ft)) fs := match fs with [] => Forall_nil _ | ft :: r => Forall_cons _ (ty_ind' (snd ft)) (go r) end) fs)
    | TExt x => Hext x
    end.
End TyInd.

(** ** Well-formed values *)
Lemma wf_owned v : wf v -> owned v.
Proof.
  induction v as [t s|t|t l IH|t|t m IH] using value_ind'; intros H; inversion H; subst; constructor; auto;
    rewrite Forall_forall in *; auto.
Qed.
Lemma wf_copy v : wf v -> copy v = Ok v.
Proof. intros H. now apply copy_owned, wf_owned. Qed.
Lemma wf_copy_elems l : Forall wf l -> copy_elems copy l = Ok l.
Proof. intros H. apply copy_elems_Ok. eapply Forall_impl; [|exact H]. apply wf_owned. Qed.
Lemma wf_copy_members (m : object) : Forall (fun kv => wf (snd kv)) m -> copy_members copy m = Ok m.
Proof. intros H. apply copy_members_Ok. eapply Forall_impl; [|exact H]. intros; now apply wf_owned. Qed.
Lemma wf_type_error {A} v : wf v -> @type_error A v = Throw JsonException.
Proof. destruct 1; reflexivity. Qed.
Lemma wf_boolean v : wf v -> is_boolean v = true -> exists b, as_boolean v = Ok b /\ v = v_bool b.
Proof. destruct 1; try discriminate. intros _. exists b. destruct b; split; reflexivity. Qed.
Lemma wf_find v k : wf v -> exists o, v_find_value_key k v = Ok o /\ forall w, o = Some w <-> member v k w.
Proof.
  intros H. unfold member. destruct H as [|b|s Hs|s|l Hl|m Hm Hk]; cbn;
    try (eexists; split; [reflexivity|]; intros w; split; [discriminate|intros (m & X & _); discriminate]).
  exists (map_find k m). split; [reflexivity|]. intros w. unfold obj_find_value.
  rewrite map_find_some by now apply sorted_NoDup. split; [eauto|]. intros (m' & [= <-] & H). exact H.
Qed.
Lemma wf_member v k w : wf v -> member v k w -> wf w.
Proof.
  intros H (m & -> & Hin). inversion H; subst. rewrite Forall_forall in *.
  match goal with F : forall x, In x m -> _ |- _ => exact (F _ Hin) end.
Qed.

(** ** is and as side by side *)
(** the test says true and the conversion succeeds, or false and it throws *)
Definition decides {A} (r : res bool) (x : res A) : Prop :=
  (r = Ok true /\ exists d, x = Ok d) \/ (r = Ok false /\ x = Throw JsonException).

Lemma decides_all {A B} (f : A -> res bool) (g : A -> res B) l :
  Forall (fun x => decides (f x) (g x)) l -> decides (allM f l) (mapM g l).
Proof.
  induction 1 as [|x l Hx _ IH]; cbn; [left; eauto|].
  destruct Hx as [[-> [d ->]]|[-> ->]]; cbn [bind]; [|right; auto].
  destruct IH as [[-> [r ->]]|[-> ->]]; cbn [bind]; [left; eauto|right; auto].
Qed.
Lemma decides_all_members {A B} (f : A -> res bool) (g : A -> res B) (l : list (bytes * A)) :
  Forall (fun x => decides (f (snd x)) (g (snd x))) l -> decides (allM_members f l) (mapM_members g l).
Proof.
  induction 1 as [|[k x] l Hx _ IH]; cbn; [left; eauto|]. cbn in Hx.
  destruct Hx as [[-> [d ->]]|[-> ->]]; cbn [bind]; [|right; auto].
  destruct IH as [[-> [r ->]]|[-> ->]]; cbn [bind]; [left; eauto|right; auto].
Qed.
Lemma decides_bind {A B} r (x : res A) (f : A -> res B) :
  decides r x -> (forall a, exists b, f a = Ok b) -> decides r (bind x f).
Proof.
  intros [[-> [d ->]]|[-> ->]] H; cbn; [left; split; auto; apply H|right; auto].
Qed.

Section Env.
  Context (E : env).

  Lemma decides_tuple ts : forall l, length l = length ts -> Forall wf l ->
    Forall (fun t => forall v, wf v -> decides (is_ E t v) (as_ E t v)) ts ->
    decides (is_tuple (is_ E) ts l) (as_tuple (as_ E) ts l).
  Proof.
    induction ts as [|t ts IH]; intros [|v l] Hl Hw H; try discriminate; cbn; [left; eauto|].
    inversion Hw; subst. inversion H as [|? ? Ht Hts]; subst.
    destruct (Ht v ltac:(auto)) as [[-> [d ->]]|[-> ->]]; cbn [bind]; [|right; auto].
    destruct (IH l) as [[-> [r ->]]|[-> ->]]; cbn [bind]; auto; [left; eauto|right; auto].
  Qed.
  Lemma decides_variant v ts (g : ty -> value -> res data) : forall n, wf v ->
    Forall (fun t => decides (is_ E t v) (g t v)) ts ->
    decides (is_variant (is_ E) ts v) (as_variant E g n ts v).
  Proof.
    induction ts as [|t ts IH]; intros n Hv H; cbn; [right; split; auto; now apply wf_type_error|].
    inversion H as [|? ? Ht Hts]; subst.
    destruct Ht as [[-> [d Hd]]|[-> Hd]]; cbn [bind].
    - rewrite Hd. left. cbn. eauto.
    - now apply IH.
  Qed.
  Definition decides_fields (r : res (option bytes)) (x : list data * res (option bytes)) : Prop :=
    exists o, r = Ok o /\ snd x = Ok o.
  Lemma fields_agree v fs : wf v ->
    Forall (fun ft => forall v, wf v -> decides (is_ E (snd ft) v) (as_ E (snd ft) v)) fs ->
    forall cur, length cur = length fs ->
    decides_fields (check_fields (is_ E) fs v) (load_fields E (as_ E) fs v cur).
  Proof.
    intros Hv. induction 1 as [|[f t] fs Ht _ IH]; intros cur Hc; cbn -[json_key].
    - exists None. auto.
    - destruct cur as [|c cur]; [discriminate|]. cbn in Ht, Hc.
      destruct (wf_find v (json_key f) Hv) as (o & -> & Ho). cbn [bind].
      destruct o as [w|].
      + assert (Hw : wf w) by (eapply wf_member; [exact Hv|apply Ho; reflexivity]).
        destruct (Ht w Hw) as [[-> [d ->]]|[-> _]]; cbn [bind].
        * destruct (IH cur) as (o & -> & Ho'); [lia|]. exists o. split; auto.
          destruct (load_fields _ _ _ _ _). exact Ho'.
        * eexists. split; reflexivity.
      + destruct (is_optional f); [|eexists; split; reflexivity].
        destruct (IH cur) as (o & -> & Ho'); [lia|]. exists o. split; auto.
        destruct (load_fields _ _ _ _ _). exact Ho'.
  Qed.

  Lemma is_ok t : lawful wf t -> forall v, wf v -> exists b, is_ E t v = Ok b.
  Proof.
    induction t as [ | | | |sg w|p| | | | |t IH|t IH|t IH|lt t IH|n t IH|ts IH|ts IH|t IH|e|fs IH|x] using ty_ind'; intros Hl0 v Hv; cbn [is_].
    all: try (eexists; reflexivity).
    - destruct Hv; cbn -[try_parse_integer]; eauto.
    - destruct Hv; cbn; eauto.
    - inversion Hl0; subst. destruct (is_null v); eauto.
    - inversion Hl0; subst. destruct (is_null v); eauto.
    - inversion Hl0; subst. specialize (IH ltac:(auto)).
      destruct Hv as [|b|s Hs|s|l Hl|m Hm Hk]; cbn [is_array type_of vtype_eqb as_array_c get_arr bind]; eauto.
      clear Hl0. induction Hl as [|x l Hx _ IHl]; cbn; eauto. destruct (IH x Hx) as [[] ->]; cbn; eauto.
    - inversion Hl0; subst. specialize (IH ltac:(auto)).
      destruct Hv as [|b|s Hs|s|l Hl|m Hm Hk]; cbn [is_array type_of vtype_eqb as_array_c get_arr bind]; eauto.
      clear Hl0. induction Hl as [|x l Hx _ IHl]; cbn; eauto. destruct (IH x Hx) as [[] ->]; cbn; eauto.
    - inversion Hl0; subst. specialize (IH ltac:(auto)).
      destruct Hv as [|b|s Hs|s|l Hl|m Hm Hk]; cbn [is_array type_of vtype_eqb as_array_c get_arr bind]; eauto.
      destruct (Nat.eqb _ _); eauto. clear Hl0 n. induction Hl as [|x l Hx _ IHl]; cbn; eauto. destruct (IH x Hx) as [[] ->]; cbn; eauto.
    - assert (Hts : Forall (lawful wf) ts) by (inversion Hl0; auto).
      destruct Hv as [|b|s Hs|s|l Hl|m Hm Hk]; cbn [is_array type_of vtype_eqb as_array_c get_arr bind]; eauto.
      destruct (Nat.eqb _ _); eauto. clear Hl0. revert l Hl. induction IH as [|t ts Ht _ IHt]; intros l Hl; cbn; eauto.
      inversion Hts; subst. destruct Hl as [|x l Hx Hl]; eauto. destruct (Ht ltac:(auto) x Hx) as [[] ->]; cbn; eauto.
    - assert (Hts : Forall (lawful wf) ts) by (inversion Hl0; auto). clear Hl0.
      induction IH as [|t ts Ht _ IHt]; cbn; eauto. inversion Hts; subst. destruct (Ht ltac:(auto) v Hv) as [[] ->]; cbn; eauto.
    - inversion Hl0; subst. specialize (IH ltac:(auto)).
      destruct Hv as [|b|s Hs|s|l Hl|m Hm Hk]; cbn [is_object type_of vtype_eqb as_object_c get_obj bind]; eauto.
      clear Hk Hl0. induction Hm as [|[k x] l Hx _ IHl]; cbn; eauto. cbn in Hx. destruct (IH x Hx) as [[] ->]; cbn; eauto.
    - now apply is_enum_ok.
    - assert (Hts : Forall (fun ft => lawful wf (snd ft)) fs) by (inversion Hl0; auto). clear Hl0.
      assert (exists o, check_fields (is_ E) fs v = Ok o) as [o ->]; [|destruct o; cbn; eauto].
      induction IH as [|[f t] fs Ht _ IHf]; cbn -[json_key]; eauto. cbn [snd] in Ht. inversion Hts; subst.
      destruct (wf_find v (json_key f) Hv) as (o & -> & Ho). cbn [bind]. destruct o as [w|].
      + destruct (Ht ltac:(auto) w) as [[] ->]; cbn; eauto. eapply wf_member; [exact Hv|apply Ho; reflexivity].
      + destruct (is_optional f); eauto.
    - inversion Hl0; subst. auto.
  Qed.

  (** ** The converting constructor of std::variant *)
  Lemma position_spec imp ts n : position imp ts = Some n -> exists t, nth_error ts n = Some t /\ imp t = true /\
    forall i t', (i < n)%nat -> nth_error ts i = Some t' -> imp t' = false.
  Proof.
    revert n. induction ts as [|t ts IH]; cbn; intros n H; [discriminate|].
    destruct (imp t) eqn:Et.
    - injection H as <-. exists t. split; auto. split; auto. intros i t' Hi. lia.
    - destruct (position imp ts) as [k|]; [|discriminate]. injection H as <-.
      destruct (IH k eq_refl) as (t' & H1 & H2 & H3). exists t'. split; auto. split; auto.
      intros [|i] u Hi Hu; cbn in Hu; [congruence|]. apply (H3 i); auto. lia.
  Qed.
  Lemma count_position imp ts : count imp ts <> O -> exists n, position imp ts = Some n.
  Proof.
    induction ts as [|t ts IH]; cbn; [easy|]. destruct (imp t); [eauto|]. intros H.
    destruct (IH H) as [n ->]. eauto.
  Qed.
  Lemma position_value ts : existsb is_value ts = true -> exists n, position is_value ts = Some n.
  Proof.
    induction ts as [|t ts IH]; cbn; [easy|]. destruct (is_value t); [eauto|]. cbn. intros H.
    destruct (IH H) as [n ->]. eauto.
  Qed.
  Lemma chosen_implicit ts n : chosen ts = Some n -> exists t, nth_error ts n = Some t /\ implicit t = true.
  Proof.
    unfold chosen. destruct (position is_value ts) as [k|] eqn:Ek.
    - intros [= <-]. apply position_spec in Ek as (t & H1 & H2 & _). exists t. split; auto.
      destruct t; try discriminate. reflexivity.
    - destruct (Nat.eqb _ _); [|discriminate]. intros H. apply position_spec in H as (t & H1 & H2 & _). eauto.
  Qed.
  Lemma implicit_chosen ts : implicit (TVar ts) = true -> exists n, chosen ts = Some n.
  Proof.
    cbn. unfold chosen. intros H. apply orb_true_iff in H as [H|H].
    - destruct (position_value ts H) as [n ->]. eauto.
    - destruct (position is_value ts); [eauto|]. rewrite H. apply Nat.eqb_eq in H.
      apply count_position. lia.
  Qed.
  Lemma implicit_takes t : implicit t = true -> takes_value t.
  Proof.
    induction t as [ | | | |sg w|p| | | | |t IH|t IH|t IH|lt t IH|n t IH|ts IH|ts IH|t IH|e|fs IH|x] using ty_ind'; intros H; try discriminate.
    - constructor.
    - constructor. auto.
    - destruct ts as [|t [|]]; try discriminate. constructor. inversion IH; subst. auto.
    - apply implicit_chosen in H as [n H]. apply chosen_implicit in H as (t & H1 & H2). apply nth_error_In in H1.
      apply (tv_var ts t); auto. rewrite Forall_forall in IH. auto.
  Qed.
  Lemma wraps_implicit t : wraps_value t -> implicit t = true.
  Proof. induction 1; auto. Qed.
  Lemma count_app imp a b : count imp (a ++ b) = (count imp a + count imp b)%nat.
  Proof. induction a as [|t a IH]; cbn; auto. destruct (imp t); cbn; lia. Qed.
  Lemma by_operator_chosen ts : by_operator ts -> chosen ts = None.
  Proof.
    intros [H|(Hn & a & t & b & t' & c & -> & H1 & H2)].
    - destruct (chosen ts) as [n|] eqn:En; auto. apply chosen_implicit in En as (t & H1 & H2).
      apply nth_error_In in H1. exfalso. exact (H t H1 (implicit_takes t H2)).
    - unfold chosen. match goal with |- context [position is_value ?l] => destruct (position is_value l) as [n|] eqn:En end.
      + apply position_spec in En as (u & Hu & Hi & _). apply nth_error_In in Hu. destruct u; try discriminate. contradiction.
      + rewrite count_app. cbn. rewrite (wraps_implicit t H1), count_app. cbn. rewrite (wraps_implicit t' H2).
        match goal with |- context [Nat.eqb ?x 1] => destruct (Nat.eqb_spec x 1); [lia|reflexivity] end.
  Qed.
  Lemma as_alternative_nth g ts v : forall n t, nth_error ts n = Some t -> as_alternative g ts n v = g t v.
  Proof. induction ts as [|t' ts IH]; intros [|n] t H; try discriminate; cbn in *; [congruence|auto]. Qed.
  (** such a type is made from any value *)
  Lemma implicit_as t : implicit t = true -> forall v, wf v -> exists d, as_ E t v = Ok d.
  Proof.
    induction t as [ | | | |sg w|p| | | | |t IH|t IH|t IH|lt t IH|n t IH|ts IH|ts IH|t IH|e|fs IH|x] using ty_ind'; intros H v Hv; try discriminate.
    - cbn [as_]. rewrite wf_copy by auto. cbn. eauto.
    - cbn [as_ implicit] in *. destruct (IH H v Hv) as [d ->]. cbn. eauto.
    - destruct ts as [|t [|]]; try discriminate. cbn [as_ implicit] in *. inversion IH as [|? ? Ht]; subst.
      destruct (Ht H v Hv) as [d ->]. cbn. eauto.
    - apply implicit_chosen in H as [n H]. cbn [as_]. rewrite H. apply chosen_implicit in H as (t & H1 & H2).
      rewrite (as_alternative_nth _ _ _ _ _ H1). apply nth_error_In in H1. rewrite Forall_forall in IH.
      destruct (IH t H1 H2 v Hv) as [d ->]. cbn. eauto.
  Qed.
  Lemma is_variant_in ts v t : In t ts -> is_ E t v = Ok true -> Forall (fun t => exists b, is_ E t v = Ok b) ts ->
    is_variant (is_ E) ts v = Ok true.
  Proof.
    intros Hin Ht H. induction H as [|t' ts [b Hb] _ IH]; [easy|]. cbn. rewrite Hb. cbn. destruct b; auto.
    destruct Hin as [->|Hin]; [congruence|auto].
  Qed.

  Theorem exact_decides t : exact E t -> forall v, wf v -> decides (is_ E t v) (as_ E t v).
  Proof.
    induction t as [ | | | |sg w|p| | | | |t IH|t IH|t IH|lt t IH|n t IH|ts IH|ts IH|t IH|e|fs IH|x] using ty_ind'; intros Hx v Hv; cbn [is_ as_].
    - left. split; auto. rewrite wf_copy by auto. cbn. eauto.
    - destruct Hv as [|b|s Hs|s|l Hl|m Hm Hk]; try (right; split; reflexivity). left. split; auto.
      cbn [as_array_c is_array type_of vtype_eqb get_arr bind]. rewrite wf_copy_elems by auto. cbn. eauto.
    - destruct Hv as [|b|s Hs|s|l Hl|m Hm Hk]; try (right; split; reflexivity). left. split; auto.
      cbn [as_object_c is_object type_of vtype_eqb get_obj bind]. rewrite wf_copy_members by auto. cbn. eauto.
    - destruct Hv; try (right; split; reflexivity). left. split; auto. destruct b; cbn; eauto.
    - destruct Hv; try (right; split; reflexivity). cbn [is_number type_of vtype_eqb get_str bind].
      unfold as_int, parse_integer. cbn [is_number type_of vtype_eqb get_str bind].
      destruct (try_parse_integer sg w s); [left; split; auto; cbn; eauto|right; auto].
    - destruct Hv; try (right; split; reflexivity). cbn [is_number type_of vtype_eqb get_str bind].
      destruct (float_parse E p s); [left; split; auto; eauto|right; auto].
    - destruct Hv; try (right; split; reflexivity). left. cbn. eauto.
    - destruct Hv; try (right; split; reflexivity). left. cbn. eauto.
    - destruct Hv; try (right; split; reflexivity). left. cbn. eauto.
    - destruct Hv; try (right; split; reflexivity). left. cbn. eauto.
    - inversion Hx; subst. destruct (is_null v) eqn:En.
      + destruct Hv; try discriminate. left. split; auto. change (VStr Tnull []) with v_null in *.
        destruct (IH ltac:(auto) v_null) as [[_ [d ->]]|[X _]]; [constructor|cbn; eauto|congruence].
      + apply decides_bind; [now apply IH|]. intros a. eauto.
    - inversion Hx; subst. destruct (is_null v) eqn:En; [left; eauto|].
      apply decides_bind; [now apply IH|]. intros a. eauto.
    - inversion Hx; subst.
      destruct Hv as [|b|s Hs|s|l Hl|m Hm Hk]; try (right; split; reflexivity).
      cbn [is_array as_array_c type_of vtype_eqb get_arr bind].
      apply decides_bind; [apply decides_all|intros; eauto]. rewrite Forall_forall in *. auto.
    - inversion Hx; subst.
      destruct Hv as [|b|s Hs|s|l Hl|m Hm Hk]; try (right; split; reflexivity).
      cbn [is_array as_array_c type_of vtype_eqb get_arr bind].
      apply decides_bind; [apply decides_all|intros; eauto]. rewrite Forall_forall in *. auto.
    - inversion Hx; subst.
      destruct Hv as [|b|s Hs|s|l Hl|m Hm Hk]; try (right; split; reflexivity).
      cbn [is_array as_array_c type_of vtype_eqb get_arr bind]. destruct (Nat.eqb _ _); [|right; auto].
      apply decides_bind; [apply decides_all|intros; eauto]. rewrite Forall_forall in *. auto.
    - inversion Hx; subst.
      assert (G : decides (if is_array v then do l <- as_array_c v; if Nat.eqb (length l) (length ts) then is_tuple (is_ E) ts l else Ok false else Ok false)
        (do l <- as_array_c v; if Nat.eqb (length l) (length ts) then do r <- as_tuple (as_ E) ts l; Ok (DSeq r) else Throw JsonException)).
      { destruct Hv as [|b|s Hs|s|l Hl|m Hm Hk]; try (right; split; reflexivity).
        cbn [is_array as_array_c type_of vtype_eqb get_arr bind]. destruct (Nat.eqb _ _) eqn:El; [|right; auto].
        apply Nat.eqb_eq in El. apply decides_bind; [apply decides_tuple|intros; eauto]; auto.
        rewrite Forall_forall in *. auto. }
      destruct ts as [|t1 [|t2 ts]]; [exact G|exfalso; auto|exact G].
    - inversion Hx; subst. destruct (chosen ts) as [n|] eqn:Ev.
      + left. apply chosen_implicit in Ev as (t & H1 & H2). rewrite (as_alternative_nth _ _ _ _ _ H1).
        destruct (implicit_as t H2 v Hv) as [d Hd]. rewrite Hd. cbn [bind]. split; [|eauto].
        apply nth_error_In in H1. rewrite Forall_forall in *. apply (is_variant_in ts v t); auto.
        * destruct (IH t H1 ltac:(auto) v Hv) as [[X _]|[_ X]]; [exact X|congruence].
        * apply Forall_forall. intros t' Ht'. destruct (IH t' Ht' ltac:(auto) v Hv) as [[X _]|[X _]]; eauto.
      + apply decides_variant; auto. rewrite Forall_forall in *. auto.
    - inversion Hx; subst.
      destruct Hv as [|b|s Hs|s|l Hl|m Hm Hk]; try (right; split; reflexivity).
      cbn [is_object as_object_c type_of vtype_eqb get_obj bind].
      apply decides_bind; [apply decides_all_members|intros; eauto]. rewrite Forall_forall in *. auto.
    - inversion Hx; subst.
      apply decides_bind; [|intros; eauto]. destruct (enum_exact e v ltac:(auto) Hv) as [H|H]; [left|right]; exact H.
    - inversion Hx; subst.
      destruct (fields_agree v fs Hv) with (cur := map (fun ft : field * ty => f_default (fst ft)) fs) as (o & Ho1 & Ho2).
      { rewrite Forall_forall in *. auto. }
      { apply map_length. }
      rewrite Ho1. destruct (load_fields _ _ _ _ _) as [r x]. cbn in Ho2. subst x. destruct o; cbn [bind].
      + right. split; auto. now apply wf_type_error.
      + left. eauto.
    - inversion Hx as [ | | | | | | | | | | | | | | | | | | | |x' Hd]; subst. destruct (Hd v Hv) as (d & b & H1 & H2).
      unfold ext_as. rewrite H1, H2. destruct b; [left; eauto|right; split; auto; now apply wf_type_error].
  Qed.
End Env.
