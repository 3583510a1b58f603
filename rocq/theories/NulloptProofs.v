(** * Proofs about empty std::optional objects and tuples of one element: C32 *)
From Verif Require Import Base Value Packed Parser Dump Containers Num Enum Conv Spec SpecApi SpecConv SpecDepth SpecBlank BaseProofs NumProofs ContainerProofs ConvProofs FaithfulProofs ConvTheorems.

Section Env.
  Context (E : env).
  Notation nonopt := (fun t => forall t', t <> TOpt t').
  (** the value made from the datum, and what comes back *)
  Definition comes_back (t : ty) (d : data) : Prop :=
    exists v, to_value E t d = Ok v /\ wf v /\ is_ E t v = Ok true /\
    (full d /\ as_ E t v = Ok d \/ ~ full d /\ as_ E t v = Throw JsonException) /\ (nonopt t -> is_null v = false).

  Lemma back_list t l : Forall (comes_back t) l -> exists vs, mapM (to_value E t) l = Ok vs /\ Forall wf vs /\ length vs = length l /\
    allM (is_ E t) vs = Ok true /\ (Forall full l /\ mapM (as_ E t) vs = Ok l \/ ~ Forall full l /\ mapM (as_ E t) vs = Throw JsonException).
  Proof.
    induction 1 as [|d l (v & T & W & I & A & _) _ (vs & T' & W' & L & I' & A')]; cbn [mapM].
    - exists []. repeat split; auto.
    - exists (v :: vs). rewrite T, T'. cbn [bind mapM allM length]. rewrite I, I', L. cbn [bind]. split; [reflexivity|]. split; [auto|]. split; [reflexivity|]. split; [reflexivity|].
      destruct A as [[Nd ->]|[Nd ->]]; cbn [bind].
      + destruct A' as [[N' ->]|[N' ->]]; cbn [bind]; [left; auto|]. right. split; [|reflexivity]. intros F. inversion F. contradiction.
      + right. split; [|reflexivity]. intros F. inversion F. contradiction.
  Qed.
  Lemma back_tuple ts l : Forall2 comes_back ts l -> exists vs, to_tuple (to_value E) ts l = Ok vs /\ Forall wf vs /\ length vs = length ts /\
    is_tuple (is_ E) ts vs = Ok true /\ (Forall full l /\ as_tuple (as_ E) ts vs = Ok l \/ ~ Forall full l /\ as_tuple (as_ E) ts vs = Throw JsonException).
  Proof.
    induction 1 as [|t d ts l (v & T & W & I & A & _) _ (vs & T' & W' & L & I' & A')]; cbn [to_tuple].
    - exists []. repeat split; auto.
    - exists (v :: vs). rewrite T, T'. cbn [bind as_tuple is_tuple length]. rewrite I, I', L. cbn [bind]. split; [reflexivity|]. split; [auto|]. split; [reflexivity|]. split; [reflexivity|].
      destruct A as [[Nd ->]|[Nd ->]]; cbn [bind].
      + destruct A' as [[N' ->]|[N' ->]]; cbn [bind]; [left; auto|]. right. split; [|reflexivity]. intros F. inversion F. contradiction.
      + right. split; [|reflexivity]. intros F. inversion F. contradiction.
  Qed.
  Lemma back_map t (m : list (bytes * data)) : Forall (fun kd => comes_back t (snd kd)) m -> exists vs, mapM_members (to_value E t) m = Ok vs /\ Forall (fun kv => wf (snd kv)) vs /\
    map fst vs = map fst m /\ allM_members (is_ E t) vs = Ok true /\
    (Forall (fun kd => full (snd kd)) m /\ mapM_members (as_ E t) vs = Ok m \/ ~ Forall (fun kd => full (snd kd)) m /\ mapM_members (as_ E t) vs = Throw JsonException).
  Proof.
    induction 1 as [|[k d] l (v & T & W & I & A & _) _ (vs & T' & W' & L & I' & A')]; cbn [mapM_members].
    - exists []. repeat split; auto.
    - cbn [snd] in *. exists ((k, v) :: vs). rewrite T, T'. cbn [bind mapM_members allM_members map fst]. rewrite I, I', L. cbn [bind]. split; [reflexivity|]. split; [auto|]. split; [reflexivity|]. split; [reflexivity|].
      destruct A as [[Nd ->]|[Nd ->]]; cbn [bind].
      + destruct A' as [[N' ->]|[N' ->]]; cbn [bind]; [left; auto|]. right. split; [|reflexivity]. intros F. inversion F. contradiction.
      + right. split; [|reflexivity]. intros F. inversion F. contradiction.
  Qed.
  Lemma native_null t : native_s t -> takes_no_null t -> as_ E t v_null = Throw JsonException.
  Proof.
    destruct 1 as [ | | |t H Ht| | | |ts Hts Hl| |fs _ _]; intros [X Hx]; try reflexivity; [now destruct (X t)| |].
    - destruct ts as [|t1 [|t2 ts]]; [reflexivity|now destruct Hl|reflexivity].
    - specialize (Hx fs eq_refl). cbn [as_]. assert (Z : forall cur, length cur = length fs -> exists r k, load_fields E (as_ E) fs v_null cur = (r, Ok (Some k))).
      { clear X. induction fs as [|[f t] fs IH]; intros cur L; [inversion Hx|]. destruct cur as [|c cur]; [discriminate|]. cbn -[json_key is_optional].
        destruct (is_optional f) eqn:Ef; [|eauto]. inversion Hx as [? ? H|? ? H]; subst; [cbn in H; congruence|].
        destruct (IH H cur ltac:(cbn in L; lia)) as (r & k & ->). eauto. }
      destruct (Z _ (map_length (fun ft => f_default (fst ft)) fs)) as (r & k & ->). reflexivity.
  Qed.
  Lemma rec_object fs l vs : distinct_keys fs -> length l = length fs -> to_tuple (to_value E) (map snd fs) l = Ok vs -> Forall wf vs -> length vs = length fs ->
    exists o, dump_fields (to_value E) fs l [] = Ok o /\ wf (v_object o) /\ Forall2 (fun ft w => v_find_value_key (key_of ft) (v_object o) = Ok (Some w)) fs vs.
  Proof.
    intros Hk Hl Hto Hw Hlen. pose proof (distinct_keys_NoDup _ Hk) as Hn.
    assert (Htriv : Forall2 (fun (_ : field * ty) (_ : data) => True) fs l).
    { clear - Hl. revert l Hl. induction fs; intros [|] Hl; try discriminate; constructor; auto. }
    destruct (dump_fold E fs l vs [] Htriv Hto) as [Hd _].
    set (kvs := combine (map key_of fs) vs) in *.
    assert (Hkv : map fst kvs = map key_of fs).
    { unfold kvs. clear - Hlen. revert vs Hlen. induction fs as [|ft fs IH]; intros [|v vs] Hl; try discriminate; auto. cbn. f_equal. apply IH. cbn in Hl. lia. }
    assert (Hn' : NoDup (map fst kvs)) by (rewrite Hkv; exact Hn).
    assert (Hfind : forall k, map_find k (merge_fold [] kvs) = map_find k kvs).
    { intros k. rewrite merge_fold_find; [|constructor|auto]. now destruct (map_find k kvs). }
    assert (Hs : sorted_keys (merge_fold [] kvs)) by (apply merge_fold_sorted; constructor).
    assert (Hwf : Forall (fun kv => wf (snd kv)) (merge_fold [] kvs)).
    { apply merge_fold_Forall; [constructor|]. apply Forall_forall. intros [k v] X. cbn. apply in_combine_r in X.
      rewrite Forall_forall in Hw. auto. }
    assert (Hin : forall k w, In (k, w) (merge_fold [] kvs) <-> In (k, w) kvs).
    { intros k w. rewrite <- !map_find_some by (auto using sorted_NoDup). now rewrite Hfind. }
    exists (merge_fold [] kvs). split; [exact Hd|]. split; [constructor; auto|].
    assert (X : forall ft w, In (key_of ft, w) kvs -> v_find_value_key (key_of ft) (v_object (merge_fold [] kvs)) = Ok (Some w)).
    { intros ft w X. unfold v_find_value_key. cbn. unfold obj_find_value. f_equal. apply map_find_some; [now apply sorted_NoDup|]. now apply Hin. }
    clear - X Hlen. subst kvs. revert X. generalize (merge_fold [] (combine (map key_of fs) vs)) as o. intros o X.
    revert vs Hlen X. induction fs as [|ft fs IH]; intros [|v vs] Hl X; try discriminate; constructor.
    - apply X. now left.
    - apply IH; [cbn in Hl; lia|]. intros ft' w H'. apply X. right. exact H'.
  Qed.
  Lemma load_throws v fs vs : forall cur, length cur = length fs ->
    Forall2 (fun ft w => v_find_value_key (key_of ft) v = Ok (Some w)) fs vs ->
    is_tuple (is_ E) (map snd fs) vs = Ok true -> as_tuple (as_ E) (map snd fs) vs = Throw JsonException ->
    check_fields (is_ E) fs v = Ok None /\ exists r, load_fields E (as_ E) fs v cur = (r, Throw JsonException).
  Proof.
    intros cur Hc H. revert cur Hc.
    induction H as [|[f t] w fs vs Hw H IH]; intros cur Hc Hi Ha; cbn -[json_key] in *; [discriminate|].
    destruct cur as [|c cur]; [discriminate|]. unfold key_of in Hw. cbn in Hw. rewrite Hw. cbn [bind].
    apply bind_ok in Hi as (b & Hb & Hi). destruct b; [|discriminate]. rewrite Hb. cbn [bind].
    destruct (as_ E t w) as [d|e| | |] eqn:Ed; cbn [bind] in Ha; try discriminate.
    - destruct (IH cur ltac:(cbn in Hc; lia) Hi) as (H1 & r & H2); [|rewrite H1, H2; eauto].
      destruct (as_tuple (as_ E) (map snd fs) vs) as [x|e| | |]; cbn [bind] in Ha; try discriminate. exact Ha.
    - injection Ha as ->. split; [|eauto].
      clear -H Hi. revert Hi. induction H as [|[f t] w fs vs Hw H IH]; intros Hi; cbn -[json_key] in *; [reflexivity|].
      unfold key_of in Hw. cbn in Hw. rewrite Hw. cbn [bind]. apply bind_ok in Hi as (b & Hb & Hi). destruct b; [|discriminate]. rewrite Hb. cbn [bind]. auto.
  Qed.
  Lemma back_rec fs l : Forall2 (fun ft d => comes_back (snd ft) d) fs l -> distinct_keys fs -> exists v, to_json E fs l = Ok v /\ wf v /\ is_null v = false /\
    check_json E fs v = Ok None /\
    (Forall full l /\ (forall cur, length cur = length fs -> from_json E fs v cur = (l, Ok None)) \/
     ~ Forall full l /\ forall cur, length cur = length fs -> exists r, from_json E fs v cur = (r, Throw JsonException)).
  Proof.
    intros H Hk. assert (H' : Forall2 comes_back (map snd fs) l) by (clear Hk; induction H; constructor; auto).
    assert (Hl : length l = length fs) by (clear -H; induction H; cbn; auto).
    destruct (back_tuple _ _ H') as (vs & T & W & L & I & A). rewrite map_length in L.
    destruct (rec_object fs l vs Hk Hl T W L) as (o & D & Wo & F). exists (v_object o). unfold to_json. cbn [to_value]. rewrite D.
    split; [reflexivity|]. split; [exact Wo|]. split; [reflexivity|]. unfold check_json, from_json.
    destruct A as [[Nd A]|[Nd A]].
    - split; [|left; split; [exact Nd|]; intros cur Hc; now apply (load_all E (v_object o) fs l vs cur)].
      now apply (load_all E (v_object o) fs l vs (map (fun ft => f_default (fst ft)) fs) Wo (map_length _ fs)).
    - split; [|right; split; [exact Nd|]; intros cur Hc; now apply (load_throws (v_object o) fs vs cur)].
      now apply (load_throws (v_object o) fs vs (map (fun ft => f_default (fst ft)) fs) (map_length _ fs)).
  Qed.
  Theorem native_back t d : native_s t -> has_type t d -> comes_back t d.
  Proof.
    revert d. induction t as [ | | | |sg w|p| | | | |t IH|t IH|t IH|ins t IH|n t IH|ts IH|ts IH|t IH|e|fs IH|x] using ty_ind'; intros d Nt Hd; inversion Nt; subst; clear Nt.
    - inversion Hd; subst. exists (v_bool b). split; [reflexivity|]. split; [destruct b; [apply (wf_bool true)|apply (wf_bool false)]|]. split; [reflexivity|]. split; [|reflexivity]. left. split; [constructor|]. destruct b; reflexivity.
    - inversion Hd as [| | | |? ? z Hw Hf| | | | | | | | | | | | | | | | | | |]; subst. 
      destruct (native_round_trip E _ _ (na_int sg w) Hd (nn_int z)) as (v & T & W & I & A).
      exists v. split; [exact T|]. split; [exact W|]. split; [exact I|]. split; [left; split; [constructor|exact A]|].
      intros _. cbn [to_value] in T. injection T as <-. reflexivity.
    - inversion Hd; subst. exists (v_string s). split; [reflexivity|]. split; [apply wf_str|]. split; [reflexivity|]. split; [|reflexivity]. left. split; [constructor|reflexivity].
    - inversion Hd as [| | | | | | | | | |? |? d' Hd'| | | | | | | | | | | |]; subst.
      + exists v_null. split; [reflexivity|]. split; [apply wf_null|]. split; [reflexivity|]. split.
        * right. split; [intros X; inversion X|]. cbn [as_]. rewrite native_null; auto.
        * intros X. now destruct (X t).
      + destruct (IH d' ltac:(assumption) Hd') as (v & T & W & I & A & N). exists v. cbn [to_value is_ as_]. rewrite N by (match goal with H : takes_no_null t |- _ => apply H end).
        split; [exact T|]. split; [exact W|]. split; [exact I|]. split; [|intros X; now destruct (X t)].
        destruct A as [[Nd ->]|[Nd ->]]; [left; split; [now constructor|reflexivity]|right; split; [|reflexivity]]. intros X. inversion X. contradiction.
    - inversion Hd as [| | | | | | | | | | | | | |? l Hl| | | | | | | | |]; subst.
      destruct (back_list t l) as (vs & T & W & L & I & A); [rewrite Forall_forall in *; auto|].
      exists (v_array vs). cbn [to_value is_ as_]. rewrite T. cbn [bind v_array is_array type_of vtype_eqb as_array_c get_arr]. rewrite I.
      split; [reflexivity|]. split; [now apply wf_arr|]. split; [reflexivity|]. split; [|reflexivity].
      destruct A as [[Nd ->]|[Nd ->]]; [left; split; [now constructor|reflexivity]|right; split; [|reflexivity]]. intros X. inversion X. contradiction.
    - inversion Hd as [| | | | | | | | | | | | | | |? ? l Hl R| | | | | | | |]; subst.
      destruct (back_list t l) as (vs & T & W & L & I & A); [rewrite Forall_forall in *; auto|].
      exists (v_array vs). cbn [to_value is_ as_]. rewrite T. cbn [bind v_array is_array type_of vtype_eqb as_array_c get_arr]. rewrite I.
      split; [reflexivity|]. split; [now apply wf_arr|]. split; [reflexivity|]. split; [|reflexivity].
      destruct A as [[Nd ->]|[Nd ->]]; [left; split; [now constructor|]|right; split; [|reflexivity]].
      + cbn [bind]. unfold rebuilt in R. unfold coll_of. now rewrite R.
      + intros X. inversion X. contradiction.
    - inversion Hd as [| | | | | | | | | | | | | | | |? l Hl| | | | | | |]; subst.
      destruct (back_list t l) as (vs & T & W & L & I & A); [rewrite Forall_forall in *; auto|].
      exists (v_array vs). cbn [to_value is_ as_]. rewrite T. rewrite Nat.eqb_refl. cbn [bind v_array is_array type_of vtype_eqb as_array_c get_arr]. rewrite I, L, Nat.eqb_refl.
      split; [reflexivity|]. split; [now apply wf_arr|]. split; [reflexivity|]. split; [|reflexivity].
      destruct A as [[Nd ->]|[Nd ->]]; [left; split; [now constructor|reflexivity]|right; split; [|reflexivity]]. intros X. inversion X. contradiction.
    - inversion Hd as [| | | | | | | | | | | | | | | | |? l Hl| | | | | |]; subst.
      destruct (back_tuple ts l) as (vs & T & W & L & I & A).
      { match goal with H : Forall native_s ts |- _ => rename H into Hn end. clear -IH Hl Hn. revert IH Hn. induction Hl as [|t d ts l H _ J]; intros IH Hn; constructor; inversion IH; inversion Hn; subst; auto. }
      exists (v_array vs). cbn [to_value is_]. rewrite T. cbn [bind v_array is_array type_of vtype_eqb as_array_c get_arr]. rewrite I, L, Nat.eqb_refl.
      split; [reflexivity|]. split; [now apply wf_arr|]. split; [reflexivity|]. split; [|reflexivity].
      assert (Z : as_ E (TTup ts) (v_array vs) = do r <- as_tuple (as_ E) ts vs; Ok (DSeq r)).
      { destruct ts as [|t1 [|t2 ts]]; [|now match goal with H : _ <> 1%nat |- _ => destruct H end|]; cbn [as_ v_array bind as_array_c is_array type_of vtype_eqb get_arr]; rewrite L, Nat.eqb_refl; reflexivity. }
      replace (as_ E (TTup ts) _) with (do r <- as_tuple (as_ E) ts vs; Ok (DSeq r)) by (symmetry; exact Z).
      destruct A as [[Nd ->]|[Nd ->]]; [left; split; [now constructor|reflexivity]|right; split; [|reflexivity]]. intros X. inversion X. contradiction.
    - inversion Hd as [| | | | | | | | | | | | | | | | | | |? m Hm Hs| | | |]; subst.
      destruct (back_map t m) as (vs & T & W & L & I & A); [rewrite Forall_forall in *; auto|].
      assert (S : sorted_keys vs) by (eapply sorted_same_keys; [symmetry; exact L|exact Hs]).
      exists (v_object vs). cbn [to_value is_ as_]. rewrite T. cbn [bind]. rewrite (obj_of_list_sorted _ S). cbn [bind v_object is_object type_of vtype_eqb as_object_c get_obj]. rewrite I.
      split; [reflexivity|]. split; [now apply wf_obj|]. split; [reflexivity|]. split; [|reflexivity].
      destruct A as [[Nd ->]|[Nd ->]]; [left; split; [now constructor|reflexivity]|right; split; [|reflexivity]]. intros X. inversion X. contradiction.
    - inversion Hd as [| | | | | | | | | | | | | | | | | | | | | |? l Hl|]; subst.
      match goal with H : Forall (fun ft => native_s (snd ft)) fs |- _ => rename H into Hn end.
      destruct (back_rec fs l) as (v & T & W & N & C & A).
      { clear -IH Hl Hn. revert IH Hn. induction Hl as [|t d ts l H _ J]; intros IH Hn; constructor; inversion IH; inversion Hn; subst; auto. }
      { assumption. }
      exists v. split; [exact T|]. split; [exact W|]. cbn [is_ as_]. unfold check_json, from_json in *. rewrite C. split; [reflexivity|]. split; [|intros _; exact N].
      destruct A as [[Nd A]|[Nd A]].
      + left. split; [now constructor|]. rewrite A; [reflexivity|apply map_length].
      + right. split; [intros X; inversion X; contradiction|]. destruct (A _ (map_length (fun ft => f_default (fst ft)) fs)) as [r ->]. reflexivity.
  Qed.
  Theorem native_exactly t d : native_s t -> has_type t d ->
    exists v, to_value E t d = Ok v /\ wf v /\ is_ E t v = Ok true /\
    (full d /\ as_ E t v = Ok d \/ ~ full d /\ as_ E t v = Throw JsonException).
  Proof. intros H1 H2. destruct (native_back t d H1 H2) as (v & T & W & I & A & _). eauto. Qed.
  Theorem struct_exactly fs l : Forall (fun ft => native_s (snd ft)) fs -> distinct_keys fs -> has_type (TRec fs) (DRec l) ->
    exists v, to_json E fs l = Ok v /\ wf v /\ check_json E fs v = Ok None /\
    (Forall full l /\ (forall cur, length cur = length fs -> from_json E fs v cur = (l, Ok None)) \/
     ~ Forall full l /\ forall cur, length cur = length fs -> exists r, from_json E fs v cur = (r, Throw JsonException)).
  Proof.
    intros H Hk Ht. inversion Ht as [| | | | | | | | | | | | | | | | | | | | | |? ? Hl|]; subst.
    destruct (back_rec fs l) as (v & T & W & _ & C & A); [|exact Hk|eauto].
    clear -H Hl. revert H. induction Hl as [|ft d fs l X _ J]; intros H; constructor; inversion H; subst; auto. now apply native_back.
  Qed.
End Env.

(** ** One element *)
Fixpoint wrap (k : nat) (v : value) : value := match k with O => v | S k' => v_array [wrap k' v] end.
Lemma wrap_in k v : wrap k (v_array [v]) = wrap (S k) v.
Proof. induction k as [|k IH]; [reflexivity|]. cbn [wrap] in *. now rewrite IH. Qed.
Lemma wrap_height k v : height (wrap k v) = (k + height v)%nat.
Proof. induction k as [|k IH]; [reflexivity|]. cbn [wrap v_array height]. cbn. rewrite IH. lia. Qed.
Lemma wrap_other k v : wrap (S k) v <> v.
Proof. intros H. apply (f_equal height) in H. rewrite wrap_height in H. lia. Qed.

Section One.
  Context (E : env).
  Definition never (t : ty) : Prop := forall k d v, to_value E t d = Ok v -> as_ E t (wrap (S k) v) <> Ok d.
  Lemma as_one t v r : mapM (as_ E t) [v] = Ok r -> exists d, r = [d] /\ as_ E t v = Ok d.
  Proof. cbn [mapM]. intros H. apply bind_ok in H as (d & H & X). cbn [bind] in X. injection X as <-. eauto. Qed.
  Lemma to_one t d vs : mapM (to_value E t) [d] = Ok vs -> exists v, vs = [v] /\ to_value E t d = Ok v.
  Proof. cbn [mapM]. intros H. apply bind_ok in H as (v & H & X). cbn [bind] in X. injection X as <-. eauto. Qed.
  Lemma never_list t k d vs : never t -> mapM (to_value E t) [d] = Ok vs -> as_ E t (wrap k (v_array vs)) = Ok d -> False.
  Proof. intros N T A. apply to_one in T as (v & -> & T). rewrite wrap_in in A. exact (N k d v T A). Qed.
  Lemma variant_ok ts v d : forall n, as_variant E (as_ E) n ts v = Ok d -> exists i t x, nth_error ts i = Some t /\ d = DAlt (n + i) x /\ as_ E t v = Ok x.
  Proof.
    induction ts as [|t ts IH]; intros n H; cbn [as_variant] in H.
    - destruct v as [? ?|[] [|]|[] [|]]; discriminate.
    - apply bind_ok in H as (b & _ & H). destruct b.
      + apply bind_ok in H as (x & H & X). injection X as <-. exists O, t, x. rewrite Nat.add_0_r. auto.
      + apply IH in H as (i & t' & x & A & B & C). exists (S i), t', x. rewrite <- plus_n_Sm. auto.
  Qed.
  Lemma alternative_ok ts v d : forall n, as_alternative (as_ E) ts n v = Ok d -> exists t, nth_error ts n = Some t /\ as_ E t v = Ok d.
  Proof. induction ts as [|t ts IH]; intros [|n] H; cbn [as_alternative] in H; try discriminate; [exists t; auto|]. now apply IH. Qed.
  Lemma to_variant_ok ts v d : forall n, to_variant (to_value E) ts n d = Ok v -> exists t, nth_error ts n = Some t /\ to_value E t d = Ok v.
  Proof. induction ts as [|t ts IH]; intros [|n] H; cbn [to_variant] in H; try discriminate; [exists t; auto|]. now apply IH. Qed.
  Lemma never_one t : listed t -> never t.
  Proof.
    induction t as [ | | | |sg w|p| | | | |t IH|t IH|t IH|ins t IH|n t IH|ts IH|ts IH|t IH|e|fs IH|x] using ty_ind'; intros L k d v T A; inversion L; subst; clear L.
    all: try (cbn in A; discriminate).
    - destruct d; try discriminate. cbn [to_value as_] in *. apply copy_id in T. subst v0. apply bind_ok in A as (c & A & X). apply copy_id in A. injection X as ->. subst. eapply wrap_other; eauto.
    - destruct d; try discriminate. cbn [to_value as_] in *. apply bind_ok in T as (c & T & X). apply copy_elems_eq in T. injection X as <-. subst c.
      apply bind_ok in A as (a & A & X). cbn [wrap v_array as_array_c is_array type_of vtype_eqb get_arr bind] in A. injection A as <-.
      apply bind_ok in X as (b & B & X). apply copy_elems_eq in B. injection X as <-. apply (f_equal v_array) in B. symmetry in B. exact (wrap_other k (v_array b) B).
    - destruct d as [| | | | | | | |[d|]| | | | |]; try discriminate; cbn [to_value as_] in *; apply bind_ok in A as (x & A & X); [|discriminate]. injection X as ->. exact (IH ltac:(assumption) k d v T A).
    - destruct d as [| | | | | | | |[d|]| | | | |]; try discriminate; cbn [to_value as_] in *; cbn [wrap v_array is_null type_of vtype_eqb] in A; apply bind_ok in A as (x & A & X); [|discriminate]. injection X as ->. exact (IH ltac:(assumption) k d v T A).
    - cbn [as_ wrap v_array as_array_c is_array type_of vtype_eqb get_arr] in A. cbn [bind] in A. apply bind_ok in A as (r & A & X). injection X as <-. apply as_one in A as (y & -> & A).
      cbn [to_value] in T. apply bind_ok in T as (vs & T & X). injection X as <-. exact (never_list t k y vs (IH ltac:(assumption)) T A).
    - cbn [as_ wrap v_array as_array_c is_array type_of vtype_eqb get_arr] in A. cbn [bind] in A. apply bind_ok in A as (r & A & X). apply as_one in A as (y & -> & A).
      unfold coll_of in X. cbn [fold_left] in X. match goal with H : forall x, ins x [] = [x] |- _ => rewrite H in X end. injection X as <-.
      cbn [to_value] in T. apply bind_ok in T as (vs & T & X). injection X as <-. exact (never_list t k y vs (IH ltac:(assumption)) T A).
    - cbn [as_ wrap v_array as_array_c is_array type_of vtype_eqb get_arr] in A. cbn [bind] in A. destruct (Nat.eqb _ n) eqn:En; [|discriminate].
      apply bind_ok in A as (r & A & X). injection X as <-. apply as_one in A as (y & -> & A).
      cbn [to_value] in T. destruct (Nat.eqb _ n); [|discriminate]. apply bind_ok in T as (vs & T & X). injection X as <-. exact (never_list t k y vs (IH ltac:(assumption)) T A).
    - destruct ts as [|t1 [|t2 ts]]; [cbn in A; discriminate| |cbn in A; discriminate].
      inversion IH as [|? ? IH1 _]; subst. match goal with H : Forall listed _ |- _ => inversion H; subst end.
      cbn [as_] in A. apply bind_ok in A as (y & A & X). injection X as <-.
      cbn [to_value to_tuple] in T. apply bind_ok in T as (vs & T & X). injection X as <-. apply bind_ok in T as (v & T & X). cbn [bind] in X. injection X as <-.
      rewrite wrap_in in A. exact (IH1 ltac:(assumption) (S k) y v T A).
    - destruct d as [| | | | | | | | | |i d| | |]; try discriminate.
      cbn [to_value] in T. apply to_variant_ok in T as (t & Hn & T). cbn [as_] in A.
      assert (A' : exists t', nth_error ts i = Some t' /\ as_ E t' (wrap (S k) v) = Ok d).
      { destruct (chosen ts) as [n|].
        - apply bind_ok in A as (y & A & X). injection X as -> ->. now apply alternative_ok in A.
        - apply variant_ok in A as (j & t' & y & B & X & C). cbn [plus Nat.add] in X. injection X as -> ->. eauto. }
      destruct A' as (t' & Hn' & A'). rewrite Hn in Hn'. injection Hn' as <-. rewrite Forall_forall in *. apply nth_error_In in Hn.
      exact (IH t Hn ltac:(auto) k d v T A').
  Qed.
  Theorem one_never t d v : listed t -> to_value E (TTup [t]) (DSeq [d]) = Ok v -> as_ E (TTup [t]) v <> Ok (DSeq [d]).
  Proof.
    intros L T A. cbn [to_value to_tuple] in T. apply bind_ok in T as (vs & T & X). injection X as <-. apply bind_ok in T as (w & T & X). cbn [bind] in X. injection X as <-.
    cbn [as_] in A. apply bind_ok in A as (y & A & X). injection X as <-. exact (never_one t L O y w T A).
  Qed.
End One.
