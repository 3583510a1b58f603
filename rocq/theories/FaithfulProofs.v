(** * Proofs: data survives the way to JSON and back; structs. *)
From Verif Require Import Base Value Containers Num Enum Conv Spec SpecApi SpecConv BaseProofs ContainerProofs NumProofs EnumProofs ConvProofs.

(** ** Keys and tags of fields *)
Definition no_key (ts : list tag) : Prop := forall k, ~ In (TagKey k) ts.
Lemma tag_key_dec ts : no_key ts \/ exists k a b, ts = a ++ TagKey k :: b /\ no_key b.
Proof.
  induction ts as [|[|k] ts [H|(k' & a & b & -> & H)]].
  - left. now intros k X.
  - left. intros k [X|X]; [discriminate|]. eapply H; eauto.
  - right. exists k', (TagOpt :: a), b. auto.
  - right. exists k, [], ts. auto.
  - right. exists k', (TagKey k :: a), b. auto.
Qed.
Lemma override_fold ts : forall o, no_key ts ->
  fold_left (fun k t => match t with TagOpt => k | TagKey k' => Some k' end) ts o = o.
Proof.
  induction ts as [|[|k] ts IH]; intros o H; cbn; auto.
  - apply IH. intros k X. eapply H. right; eauto.
  - exfalso. eapply H. now left.
Qed.
Lemma override_last a k b o : no_key b ->
  fold_left (fun k t => match t with TagOpt => k | TagKey k' => Some k' end) (a ++ TagKey k :: b) o = Some k.
Proof. intros H. rewrite fold_left_app. cbn. now apply override_fold. Qed.
Lemma effective_key_spec f k : effective_key f k <-> k = json_key f.
Proof.
  unfold effective_key, json_key, override_key.
  destruct (tag_key_dec (f_tags f)) as [H|(k' & a & b & E & H)].
  - rewrite override_fold by auto. split; [|auto]. intros [(a & b & E & _)|[_ ->]]; auto.
    exfalso. eapply H. rewrite E. apply in_or_app. right. now left.
  - rewrite E, override_last by auto. split.
    + intros [(a' & b' & E' & H')|[X _]].
      * pose proof (override_last a' k b' None H') as G. rewrite <- E', override_last in G by auto. congruence.
      * exfalso. eapply X. apply in_or_app. right. now left.
    + intros ->. left. eauto.
Qed.
Lemma optional_fold ts : forall b, fold_left (fun b t => match t with TagOpt => true | TagKey _ => b end) ts b = true <-> b = true \/ In TagOpt ts.
Proof.
  induction ts as [|[|k] ts IH]; intros b; cbn.
  - tauto.
  - rewrite IH. tauto.
  - rewrite IH. split; [tauto|]. intros [|[|]]; try tauto. discriminate.
Qed.
Lemma is_optional_spec f : is_optional f = true <-> marked_optional f.
Proof. unfold is_optional, marked_optional. rewrite optional_fold. split; [intros [|]; [discriminate|auto]|auto]. Qed.

(** ** Building objects *)
Lemma emplace_last {A} (a : list (bytes * A)) k v r : sorted_keys (a ++ (k, v) :: r) -> fst (map_emplace k v a) = a ++ [(k, v)].
Proof.
  intros H. rewrite map_emplace_assign.
  2: { clear - H. induction a as [|[k' v'] a IH]; [constructor|]. cbn in H. apply sorted_cons.
       - intros k0 H0. eapply sorted_lt; [exact H|]. rewrite map_app. apply in_or_app. now left.
       - apply IH. eapply sorted_cons_inv; eauto. }
  induction a as [|[k' v'] a IH]; [reflexivity|]. cbn [app] in H.
  pose proof (sorted_lt _ _ _ H k) as L. rewrite map_app in L. specialize (L ltac:(apply in_or_app; right; now left)).
  pose proof (sorted_cons_inv _ _ _ H) as H'. specialize (IH H').
  cbn [map_find map_assign].
  destruct (bytes_eqb_spec k k') as [->|Hk]; [exfalso; eapply blt_irrefl; eauto|].
  replace (bytes_ltb k k') with false.
  - destruct (map_find k a) eqn:F; [|cbn; now rewrite IH].
    exfalso. apply map_find_in in F. apply (in_map fst) in F. cbn in F.
    apply in_split in F as (x & y & F).
    pose proof (sorted_NoDup _ H') as D. rewrite map_app, F in D. cbn in D.
    rewrite <- app_assoc in D. apply NoDup_remove_2 in D. apply D. apply in_or_app. right. cbn. apply in_or_app. right. now left.
  - symmetry. apply not_true_iff_false. intros X. apply bytes_ltb_blt in X. eapply blt_irrefl. eapply blt_trans; eauto.
Qed.
Lemma obj_of_list_app (l : list (bytes * value)) : forall a, sorted_keys (a ++ l) ->
  fold_left (fun m kv => fst (map_emplace (fst kv) (snd kv) m)) l a = a ++ l.
Proof.
  induction l as [|[k v] l IH]; intros a H; cbn [fold_left fst snd].
  - now rewrite app_nil_r.
  - rewrite (emplace_last a k v l) by auto. rewrite IH by (rewrite <- app_assoc; exact H). now rewrite <- app_assoc.
Qed.
Lemma obj_of_list_sorted (l : list (bytes * value)) : sorted_keys l -> obj_of_list l = l.
Proof. intros H. unfold obj_of_list. now rewrite obj_of_list_app. Qed.
Lemma sorted_same_keys {A B} (m : list (bytes * A)) : forall (m' : list (bytes * B)), map fst m = map fst m' -> sorted_keys m -> sorted_keys m'.
Proof.
  induction m as [|[k v] m IH]; intros [|[k' v'] m'] E H; try discriminate; [constructor|].
  cbn in E. injection E as -> E. apply sorted_cons.
  - rewrite <- E. eapply sorted_lt; eauto.
  - apply IH; auto. eapply sorted_cons_inv; eauto.
Qed.

Section Env.
  Context (E : env).

  (** the datum survives *)
  Definition survives (t : ty) (d : data) (v : value) : Prop :=
    wf v /\ (not_null d -> is_null v = false) /\ is_ E t v = Ok true /\ as_ E t v = Ok d.

  Lemma survives_seq t l : Forall (fun d => exists v, to_value E t d = Ok v /\ survives t d v) l ->
    exists r, mapM (to_value E t) l = Ok r /\ Forall wf r /\ length r = length l /\
      allM (is_ E t) r = Ok true /\ mapM (as_ E t) r = Ok l.
  Proof.
    induction 1 as [|d l (v & Hv & Hw & _ & Hi & Ha) _ (r & Hr & Hwr & Hl & Hir & Har)]; cbn.
    - exists []. splits; auto.
    - exists (v :: r). rewrite Hv, Hr. cbn. rewrite Hi, Ha. cbn. rewrite Hir, Har. cbn. splits; auto.
  Qed.
  Lemma survives_members t (m : list (bytes * data)) : Forall (fun kd => exists v, to_value E t (snd kd) = Ok v /\ survives t (snd kd) v) m ->
    exists r, mapM_members (to_value E t) m = Ok r /\ Forall (fun kv => wf (snd kv)) r /\ map fst r = map fst m /\
      allM_members (is_ E t) r = Ok true /\ mapM_members (as_ E t) r = Ok m.
  Proof.
    induction 1 as [|[k d] l (v & Hv & Hw & _ & Hi & Ha) _ (r & Hr & Hwr & Hl & Hir & Har)]; cbn.
    - exists []. splits; auto.
    - cbn in *. exists ((k, v) :: r). rewrite Hv, Hr. cbn. rewrite Hi, Ha. cbn. rewrite Hir, Har. cbn. splits; auto. now f_equal.
  Qed.
  Lemma survives_tuple ts l : Forall2 (fun t d => exists v, to_value E t d = Ok v /\ survives t d v) ts l ->
    exists r, to_tuple (to_value E) ts l = Ok r /\ Forall wf r /\ length r = length ts /\
      is_tuple (is_ E) ts r = Ok true /\ as_tuple (as_ E) ts r = Ok l.
  Proof.
    induction 1 as [|t d ts l (v & Hv & Hw & _ & Hi & Ha) _ (r & Hr & Hwr & Hl & Hir & Har)]; cbn.
    - exists []. splits; auto.
    - exists (v :: r). rewrite Hv, Hr. cbn. rewrite Hi, Ha. cbn. rewrite Hir, Har. cbn. splits; auto.
  Qed.
  Lemma to_variant_nth a t b d : to_variant (to_value E) (a ++ t :: b) (length a) d = to_value E t d.
  Proof. induction a; cbn; auto. Qed.
  Lemma is_variant_at a t b v : Forall (fun t' => exists b, is_ E t' v = Ok b) a -> is_ E t v = Ok true ->
    is_variant (is_ E) (a ++ t :: b) v = Ok true.
  Proof.
    intros Ha Ht. induction Ha as [|t' a [x Hx] _ IH]; cbn; [now rewrite Ht|]. rewrite Hx. cbn. destruct x; auto.
  Qed.
  Lemma as_variant_at (g : ty -> value -> res data) a t b v d : forall n,
    Forall (fun t' => is_ E t' v = Ok false) a -> is_ E t v = Ok true -> g t v = Ok d ->
    as_variant E g n (a ++ t :: b) v = Ok (DAlt (n + length a) d).
  Proof.
    intros n Ha Ht Hd. revert n. induction Ha as [|t' a Ht' _ IH]; intros n; cbn.
    - rewrite Ht. cbn. rewrite Hd. cbn. do 2 f_equal. lia.
    - rewrite Ht'. cbn. rewrite IH. do 2 f_equal. lia.
  Qed.
  Lemma chosen_value a b : ~ In TValue a -> chosen (a ++ TValue :: b) = Some (length a).
  Proof.
    intros H. unfold chosen. assert (position is_value (a ++ TValue :: b) = Some (length a)) as ->; auto.
    induction a as [|t a IH]; cbn in *; auto. destruct t; try (rewrite IH by tauto; reflexivity). exfalso; auto.
  Qed.
  Lemma as_alternative_at g a t b v : as_alternative g (a ++ t :: b) (length a) v = g t v.
  Proof. induction a; cbn; auto. Qed.

  (** *** sets: a sorted list is inserted in order *)
  Lemma set_insert_end lt x l : Forall (fun y => lt y x = true /\ lt x y = false) l -> set_insert lt x l = l ++ [x].
  Proof. induction 1 as [|y l [H1 H2] _ IH]; cbn; auto. now rewrite H2, H1, IH. Qed.
  Lemma set_fold_sorted lt l : forall acc, set_sorted lt (acc ++ l) -> fold_left (fun s x => set_insert lt x s) l acc = acc ++ l.
  Proof.
    unfold set_sorted. induction l as [|x l IH]; intros acc H; cbn; [now rewrite app_nil_r|].
    rewrite set_insert_end.
    - rewrite IH; rewrite <- app_assoc; auto.
    - clear IH. induction acc as [|y acc IH]; constructor; inversion H as [|? ? H1 H2]; subst.
      + rewrite Forall_forall in H2. apply H2. apply in_or_app. right. now left.
      + auto.
  Qed.
  Lemma set_of_sorted lt l : set_sorted lt l -> rebuilt (set_insert lt) l.
  Proof. intros H. unfold rebuilt. now apply (set_fold_sorted lt l []). Qed.

  (** *** structs *)
  Definition key_of (ft : field * ty) : bytes := json_key (fst ft).
  Lemma distinct_keys_NoDup fs : distinct_keys fs -> NoDup (map key_of fs).
  Proof.
    intros H. apply NoDup_nth_error. intros i j Hi E'. rewrite map_length in Hi.
    destruct (nth_error fs i) as [[f t]|] eqn:Ei; [|apply nth_error_None in Ei; lia].
    rewrite !nth_error_map, Ei in E'. cbn in E'.
    destruct (nth_error fs j) as [[f' t']|] eqn:Ej; [|discriminate]. cbn in E'. injection E' as E'.
    eapply H; [exact Ei|exact Ej| |]; apply effective_key_spec; [reflexivity|]. exact E'.
  Qed.
  Lemma dump_fold fs : forall l vs o, Forall2 (fun ft d => True) fs l ->
    to_tuple (to_value E) (map snd fs) l = Ok vs ->
    dump_fields (to_value E) fs l o = Ok (merge_fold o (combine (map key_of fs) vs)) /\ length vs = length fs.
  Proof.
    induction fs as [|[f t] fs IH]; intros l vs o Hl H; inversion Hl as [|? d ? l' _ Hl']; subst; cbn [map snd to_tuple] in H.
    - injection H as <-. split; reflexivity.
    - apply bind_ok in H as (v & Hv & H). apply bind_ok in H as (r & Hr & H). injection H as <-.
      cbn [dump_fields]. rewrite Hv. cbn [bind].
      destruct (IH l' r (fst (obj_emplace (json_key f) v o)) Hl' Hr) as [-> Hlen]. split; [reflexivity|cbn; lia].
  Qed.
  Lemma load_all v fs l vs : forall cur, wf v -> length cur = length fs ->
    Forall2 (fun ft w => v_find_value_key (key_of ft) v = Ok (Some w)) fs vs ->
    is_tuple (is_ E) (map snd fs) vs = Ok true -> as_tuple (as_ E) (map snd fs) vs = Ok l ->
    check_fields (is_ E) fs v = Ok None /\ load_fields E (as_ E) fs v cur = (l, Ok None).
  Proof.
    intros cur Hv Hc H. revert l cur Hc.
    induction H as [|[f t] w fs vs Hw _ IH]; intros l cur Hc Hi Ha; cbn -[json_key] in *.
    - injection Ha as <-. auto.
    - destruct cur as [|c cur]; [discriminate|]. unfold key_of in Hw. cbn in Hw. rewrite Hw. cbn [bind].
      apply bind_ok in Hi as (b & Hb & Hi). destruct b; [|discriminate].
      apply bind_ok in Ha as (d & Hd & Ha). apply bind_ok in Ha as (r & Hr & Ha). injection Ha as <-.
      rewrite Hb, Hd. cbn [bind]. destruct (IH r cur ltac:(cbn in Hc; lia) Hi Hr) as [H1 H2]. rewrite H1, H2. auto.
  Qed.
  Lemma survives_rec fs l : distinct_keys fs ->
    Forall2 (fun t d => exists v, to_value E t d = Ok v /\ survives t d v) (map snd fs) l ->
    exists o, dump_fields (to_value E) fs l [] = Ok o /\ Forall (fun kv => wf (snd kv)) o /\ sorted_keys o /\
      (forall k w, In (k, w) o <-> exists i f t d, nth_error fs i = Some (f, t) /\ nth_error l i = Some d /\ k = json_key f /\ to_value E t d = Ok w) /\
      check_fields (is_ E) fs (v_object o) = Ok None /\
      forall cur, length cur = length fs -> load_fields E (as_ E) fs (v_object o) cur = (l, Ok None).
  Proof.
    intros Hk H. pose proof (distinct_keys_NoDup _ Hk) as Hn.
    destruct (survives_tuple _ _ H) as (vs & Hto & Hw & Hlen & Hi & Ha). rewrite map_length in Hlen.
    assert (Hl : length l = length fs).
    { clear - H. remember (map snd fs) as ts. revert fs Heqts. induction H; intros [|ft fs] Hts; try discriminate; auto. cbn. f_equal. injection Hts as _ ->. now apply IHForall2. }
    assert (Htriv : Forall2 (fun (_ : field * ty) (_ : data) => True) fs l).
    { clear - Hl. revert l Hl. induction fs; intros [|] Hl; try discriminate; constructor; auto. }
    destruct (dump_fold fs l vs [] Htriv Hto) as [Hd _].
    set (kvs := combine (map key_of fs) vs) in *.
    assert (Hkv : map fst kvs = map key_of fs).
    { unfold kvs. clear - Hlen. revert vs Hlen. induction fs as [|ft fs IH]; intros [|v vs] Hl; try discriminate; auto. cbn. f_equal. apply IH. cbn in Hl. lia. }
    assert (Hn' : NoDup (map fst kvs)) by (rewrite Hkv; exact Hn).
    assert (Hfind : forall k, map_find k (merge_fold [] kvs) = map_find k kvs).
    { intros k. rewrite merge_fold_find; [|constructor|auto]. now destruct (map_find k kvs). }
    assert (Hs : sorted_keys (merge_fold [] kvs)) by (apply merge_fold_sorted; constructor).
    assert (Hwf : Forall (fun kv => wf (snd kv)) (merge_fold [] kvs)).
    { apply merge_fold_Forall; [constructor|]. apply Forall_forall. intros [k v] X. cbn. apply in_combine_r in X.
      rewrite Forall_forall in Hw. auto. }
    assert (Hin : forall k w, In (k, w) (merge_fold [] kvs) <-> In (k, w) kvs).
    { intros k w. rewrite <- !map_find_some by (auto using sorted_NoDup). now rewrite Hfind. }
    exists (merge_fold [] kvs). split; [exact Hd|]. split; [exact Hwf|]. split; [exact Hs|].
    assert (Hw' : wf (v_object (merge_fold [] kvs))) by (constructor; auto).
    assert (Hfs : Forall2 (fun ft w => v_find_value_key (key_of ft) (v_object (merge_fold [] kvs)) = Ok (Some w)) fs vs).
    { assert (X : forall ft w, In (key_of ft, w) kvs -> v_find_value_key (key_of ft) (v_object (merge_fold [] kvs)) = Ok (Some w)).
      { intros ft w X. unfold v_find_value_key. cbn. unfold obj_find_value. f_equal. apply map_find_some; [now apply sorted_NoDup|]. now apply Hin. }
      clear - X Hlen. subst kvs. revert X. generalize (merge_fold [] (combine (map key_of fs) vs)) as o. intros o X.
      revert vs Hlen X. induction fs as [|ft fs IH]; intros [|v vs] Hl X; try discriminate; constructor.
      - apply X. now left.
      - apply IH; [cbn in Hl; lia|]. intros ft' w H'. apply X. right. exact H'. }
    split; [|split].
    - intros k w. rewrite Hin. unfold kvs. clear - Hto Hlen Hl.
      revert l vs Hl Hlen Hto. induction fs as [|[f t] fs IH]; intros [|d l] [|v vs] Hl Hlen Hto; try discriminate.
      + cbn. split; [easy|]. intros (i & f & t & d & X & _). destruct i; discriminate.
      + cbn [map snd to_tuple] in Hto. apply bind_ok in Hto as (v' & Hv & Hto). apply bind_ok in Hto as (r & Hr & Hto). injection Hto as -> ->.
        cbn [map combine In]. rewrite (IH l vs) by (auto; cbn in *; lia). split.
        * intros [[= <- <-]|(i & f' & t' & d' & H1 & H2 & H3 & H4)].
          { exists O, f, t, d. cbn. auto. }
          { exists (S i), f', t', d'. cbn. auto. }
        * intros ([|i] & f' & t' & d' & H1 & H2 & H3 & H4); cbn in H1, H2.
          { injection H1 as <- <-. injection H2 as <-. left. unfold key_of. cbn. congruence. }
          { right. exists i, f', t', d'. auto. }
    - eapply (load_all _ fs l vs (repeat DUnit (length fs))); eauto. apply repeat_length.
    - intros cur Hc. eapply (load_all _ fs l vs cur); eauto.
  Qed.

  Theorem faithful_survives t : forall d, faithful E t d -> exists v, to_value E t d = Ok v /\ survives t d v.
  Proof.
    induction t as [ | | | |sg w|p| | | | |t IH|t IH|t IH|lt t IH|n t IH|ts IH|ts IH|t IH|e|fs IH|x] using ty_ind'; intros d H; inversion H; subst; cbn [to_value]; unfold survives; cbn [is_ as_].
    - rewrite wf_copy by auto. eexists. split; [reflexivity|]. rewrite wf_copy by auto. splits; auto.
      cbn. intros X. destruct v; cbn in *; unfold is_null; cbn; destruct t; auto; congruence.
    - rewrite wf_copy_elems by auto. eexists. split; [reflexivity|]. cbn [as_array_c v_array is_array type_of vtype_eqb get_arr bind].
      rewrite wf_copy_elems by auto. splits; auto. now constructor.
    - rewrite wf_copy_members by auto. eexists. split; [reflexivity|]. cbn [as_object_c v_object is_object type_of vtype_eqb get_obj bind].
      rewrite wf_copy_members by auto. splits; auto. now constructor.
    - eexists. split; [reflexivity|]. splits; auto; [destruct b; [exact (wf_bool true)|exact (wf_bool false)]|]. now destruct b.
    - eexists. split; [reflexivity|]. splits; auto.
      + apply v_int_wf.
      + cbn [v_int v_number is_number type_of vtype_eqb get_str bind]. now rewrite try_parse_to_string.
      + now rewrite int_round_trip.
    - eexists. split; [reflexivity|]. cbn [v_number is_number type_of vtype_eqb get_str bind].
      match goal with X : float_parse _ _ _ = _ |- _ => rewrite X end. splits; auto. now constructor.
    - eexists. split; [reflexivity|]. splits; auto. constructor.
    - eexists. split; [reflexivity|]. splits; auto. constructor.
    - eexists. split; [reflexivity|]. splits; auto. constructor. cbn; tauto.
    - eexists. split; [reflexivity|]. splits; auto. constructor. cbn; tauto.
    - destruct (IH d0) as (v & Hv & Hw & Hn & Hi & Ha); auto. exists v. split; auto. rewrite Hi, Ha. cbn [bind not_null].
      splits; auto. now destruct (is_null v).
    - eexists. split; [reflexivity|]. splits; auto. constructor. cbn; tauto.
    - destruct (IH d0) as (v & Hv & Hw & Hn & Hi & Ha); auto. exists v. split; auto. rewrite Hi, Ha, Hn by auto.
      splits; auto.
    - destruct (survives_seq t l) as (r & Hr & Hwr & Hl & Hir & Har).
      { rewrite Forall_forall in *. auto. }
      rewrite Hr. cbn [bind]. eexists. split; [reflexivity|]. cbn [v_array as_array_c is_array type_of vtype_eqb get_arr bind].
      rewrite Hir, Har. splits; auto. now constructor.
    - destruct (survives_seq t l) as (r & Hr & Hwr & Hl & Hir & Har).
      { rewrite Forall_forall in *. auto. }
      rewrite Hr. cbn [bind]. eexists. split; [reflexivity|]. cbn [v_array as_array_c is_array type_of vtype_eqb get_arr bind].
      rewrite Hir, Har. cbn [bind]. match goal with X : rebuilt _ _ |- _ => unfold coll_of; rewrite X end. splits; auto. now constructor.
    - destruct (survives_seq t l) as (r & Hr & Hwr & Hl & Hir & Har).
      { rewrite Forall_forall in *. auto. }
      rewrite Nat.eqb_refl, Hr. cbn [bind]. eexists. split; [reflexivity|]. cbn [v_array as_array_c is_array type_of vtype_eqb get_arr bind].
      rewrite Hl, Nat.eqb_refl, Hir, Har. splits; auto. now constructor.
    - destruct (survives_tuple ts l) as (r & Hr & Hwr & Hl & Hir & Har).
      { match goal with X : Forall2 _ ts l |- _ => clear - X IH; induction X end; constructor; inversion IH; subst; auto. }
      rewrite Hr. cbn [bind]. eexists. split; [reflexivity|]. cbn [v_array as_array_c is_array type_of vtype_eqb get_arr bind].
      rewrite Hl, Nat.eqb_refl, Hir, Har. splits; auto; [now constructor|].
      destruct ts as [|t1 [|t2 ts]]; try reflexivity. cbn in *. lia.
    - rewrite to_variant_nth. assert (IHt : forall d, faithful E t d -> exists v, to_value E t d = Ok v /\ survives t d v).
      { rewrite Forall_forall in IH. apply IH. apply in_or_app. right. now left. }
      destruct (IHt d0) as (v & Hv & Hw & Hn & Hi & Ha); auto. exists v. split; auto. cbn [not_null]. splits; auto.
      + apply is_variant_at; auto. apply Forall_forall. intros t' Ht'. exists false. eauto.
      + rewrite by_operator_chosen by auto.
        rewrite (as_variant_at (as_ E) a t b v d0 0); auto.
        apply Forall_forall. intros t' Ht'. eauto.
    - rewrite to_variant_nth. cbn [to_value]. rewrite wf_copy by auto. eexists. split; [reflexivity|]. splits; auto.
      + cbn. intros X. destruct v; cbn in *; unfold is_null; cbn; destruct t; auto; congruence.
      + apply is_variant_at; auto. rewrite Forall_forall in *. intros t' Ht'. apply is_ok; auto.
      + rewrite chosen_value, as_alternative_at by auto. cbn [as_]. rewrite wf_copy by auto. reflexivity.
    - destruct (survives_members t m) as (r & Hr & Hwr & Hl & Hir & Har).
      { rewrite Forall_forall in *. auto. }
      assert (Hs : sorted_keys r) by (eapply sorted_same_keys; [symmetry; exact Hl|auto]).
      rewrite Hr. cbn [bind]. rewrite obj_of_list_sorted by auto. eexists. split; [reflexivity|].
      cbn [v_object as_object_c is_object type_of vtype_eqb get_obj bind]. rewrite Hir, Har. splits; auto. now constructor.
    - match goal with X : ordinary e |- _ => destruct (enum_round_trip e X n z) as (H1' & H2' & H3'); auto end.
      unfold v_enum. match goal with X : enum_as_number E = _ |- _ => rewrite X end. rewrite H1'. cbn [bind].
      destruct n as [|c n]; [congruence|]. cbn [is_nil]. eexists. split; [reflexivity|].
      unfold is_enum, as_enum. cbn [v_string is_string type_of vtype_eqb get_str bind]. rewrite H2'. splits; auto. constructor.
    - unfold v_enum. match goal with X : enum_as_number E = _ |- _ => rewrite X end.
      match goal with X : e_underlying e = _ |- _ => rewrite X; pose proof X as Hu end. eexists. split; [reflexivity|].
      unfold is_enum, as_enum. rewrite Hu. cbn [v_int v_number is_string is_number type_of vtype_eqb get_str bind negb].
      change (VStr Tnumber (to_string_Z z)) with (v_int z). rewrite try_parse_to_string, int_round_trip by auto. cbn [bind].
      splits; auto; [apply v_int_wf|]. erewrite to_enum_total; eauto.
    - destruct (survives_rec fs l) as (o & Ho & Hwo & Hso & _ & Hc & Hload); auto.
      { match goal with X : Forall2 _ fs l |- _ => clear - X IH; induction X end; constructor; inversion IH; subst; auto. }
      rewrite Ho. cbn [bind]. eexists. split; [reflexivity|]. rewrite Hc, Hload by apply map_length. splits; auto. now constructor.
    - match goal with X : x_to x d = Ok _ |- _ => rewrite X end. eexists. split; [reflexivity|]. unfold ext_as.
      match goal with X : x_from x _ _ = _ |- _ => rewrite X end. splits; auto.
      intros X. unfold is_null. match goal with Y : not_null d -> _ |- _ => specialize (Y X) end.
      destruct (type_of v); auto; congruence.
  Qed.
End Env.
