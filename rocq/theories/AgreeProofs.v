(** * Exactly where is<T>() and as<T>() agree for optionals and one-element tuples, and which failing loads leave the target as it was. *)
From Verif Require Import Base Value Packed Parser Dump Containers Num Enum Conv Spec SpecApi SpecConv BaseProofs ContainerProofs NumProofs EnumProofs ConvProofs
  FaithfulProofs ConvTheorems.

Lemma optional_agrees E t v : exact E t -> wf v ->
  (decides (is_ E (TOpt t) v) (as_ E (TOpt t) v) <-> ~ (type_of v = Tnull /\ is_ E t v = Ok false)).
Proof.
  intros Hx Hv. cbn [is_ as_]. unfold decides, is_null.
  destruct (exact_decides E t Hx v Hv) as [[-> (d & ->)]|[-> ->]]; cbn [bind]; destruct (vtype_eqb (type_of v) Tnull) eqn:T.
  - split; [intros _ [_ H]; discriminate|intros _; left; eauto].
  - split; [intros _ [_ H]; discriminate|intros _; left; eauto].
  - split.
    + intros [[_ (d & H)]|[H _]]; discriminate.
    + intros H. exfalso. apply H. split; [|reflexivity]. destruct (type_of v); discriminate || reflexivity.
  - split; [intros _ [H _]; rewrite H in T; discriminate|auto].
Qed.
Lemma one_tuple_is E t v b : wf v -> is_ E (TTup [t]) v = Ok b -> (b = true <-> exists x, v = v_array [x] /\ is_ E t x = Ok true).
Proof.
  intros Hv. cbn [is_]. destruct (is_array v) eqn:A.
  - assert (exists l, v = v_array l) as (l & ->) by (inversion Hv; subst; try discriminate; eexists; reflexivity).
    cbn [as_array_c v_array is_array type_of vtype_eqb bind]. destruct l as [|x [|y l]]; cbn [as_array_c bind length Nat.eqb].
    + intros [= <-]. split; [discriminate|intros (x & H & _); discriminate].
    + cbn [is_tuple]. destruct (is_ E t x) as [[]|e| | |] eqn:I; cbn; rewrite ?I; cbn [bind]; try discriminate; intros [= <-]; split; try discriminate; eauto.
      intros (x' & [= <-] & H). congruence.
    + intros [= <-]. split; [discriminate|intros (z & H & _); discriminate].
  - intros [= <-]. split; [discriminate|]. intros (x & -> & _). discriminate.
Qed.
Lemma one_tuple_agrees E t v : exact E t -> wf v ->
  (decides (is_ E (TTup [t]) v) (as_ E (TTup [t]) v) <-> (is_ E t v = Ok true <-> exists x, v = v_array [x] /\ is_ E t x = Ok true)).
Proof.
  intros Hx Hv.
  assert (exists b, is_ E (TTup [t]) v = Ok b) as (b & I).
  { cbn [is_]. destruct (is_array v) eqn:A; [|eauto].
    assert (exists l, v = v_array l) as (l & ->) by (inversion Hv; subst; try discriminate; eexists; reflexivity).
    cbn. destruct l as [|x [|y l]]; cbn; eauto.
    assert (Hw : wf x) by (inversion Hv; subst; match goal with H : Forall wf _ |- _ => now inversion H end).
    destruct (exact_decides E t Hx x Hw) as [[-> _]|[-> _]]; cbn; eauto. }
  pose proof (one_tuple_is E t v b Hv I) as B. rewrite I. cbn [as_]. unfold decides.
  destruct (exact_decides E t Hx v Hv) as [[-> (d & ->)]|[-> ->]]; cbn [bind]; destruct b.
  - split; [intros _; split; [intros _; now apply B|auto]|intros _; left; eauto].
  - split; [intros [[H _]|[_ H]]; discriminate|]. intros H. exfalso. assert (false = true) by (apply B, H; reflexivity). discriminate.
  - split; [intros [[_ (d & H)]|[H _]]; discriminate|]. intros H. exfalso. assert (Ok false = Ok true) by (apply H, B; reflexivity). discriminate.
  - split; [|auto]. intros _. split; [discriminate|]. intros H. apply B in H. discriminate.
Qed.

(** ** from_json that fails *)
Lemma loaded_fun E v ft x y y' : wf v -> loaded E v ft x y -> loaded E v ft x y' -> y = y'.
Proof.
  intros Hv (k & Hk & H) (k' & Hk' & H'). apply effective_key_spec in Hk, Hk'. subst k k'.
  destruct H as [(w & M & A)|(M & ->)], H' as [(w' & M' & A')|(M' & ->)].
  - rewrite (member_fun _ _ _ _ Hv M M') in A. congruence.
  - now elim (M' w).
  - now elim (M w').
  - reflexivity.
Qed.
Lemma same_elements {A} : forall l l' : list A, (forall i, nth_error l i = nth_error l' i) -> l = l'.
Proof.
  induction l as [|x l IH]; intros [|y l'] H; [reflexivity|specialize (H 0%nat); discriminate|specialize (H 0%nat); discriminate|].
  f_equal; [specialize (H 0%nat); cbn in H; congruence|]. apply IH. intros i. exact (H (S i)).
Qed.
Theorem failed_unchanged E v fs cur new k : wf v -> Forall (fun ft => exact E (snd ft)) fs -> length cur = length fs -> from_json E fs v cur = (new, Ok (Some k)) ->
  exists a f t b, fs = a ++ (f, t) :: b /\ Forall (good_field E v) a /\ ~ good_field E v (f, t) /\ effective_key f k /\
    (new = cur <-> forall i ft x, nth_error a i = Some ft -> nth_error cur i = Some x -> loaded E v ft x x).
Proof.
  intros Hv Hf Hc F. destruct (load_spec E v fs Hv Hf cur Hc) as (a & b & cura & curb & na & o & Ha & Hcur & La & Ln & Hg & Hl & _ & H & Ho).
  rewrite F in H. injection H as -> <-. destruct Ho as [[_ Ho]|(f & t & b' & k' & -> & Hb & Hk & [= <-])]; [discriminate|].
  exists a, f, t, b'. repeat (split; [assumption|]). subst cur. split.
  - intros E1. apply app_inv_tail in E1. subst na. intros i ft x Ei Ex.
    assert (Li : (i < length cura)%nat) by (rewrite La; apply nth_error_Some; congruence).
    rewrite nth_error_app1 in Ex by exact Li. exact (Hl i ft x x Ei Ex Ex).
  - intros Hx. f_equal. apply same_elements. intros i. destruct (nth_error na i) as [y|] eqn:En.
    + assert (Li : (i < length na)%nat) by (apply nth_error_Some; congruence).
      destruct (nth_error cura i) as [x|] eqn:Ex; [|apply nth_error_None in Ex; lia]. destruct (nth_error a i) as [ft|] eqn:Ei; [|apply nth_error_None in Ei; lia].
      f_equal. symmetry. apply (loaded_fun E v ft x); auto; [|exact (Hl i ft x y Ei Ex En)]. apply (Hx i ft x Ei). rewrite nth_error_app1; [exact Ex|lia].
    + symmetry. apply nth_error_None. apply nth_error_None in En. lia.
Qed.

(** ** A variant with one alternative that wraps a json::value *)
Lemma position_middle imp a t b : (forall t', In t' a -> imp t' = false) -> imp t = true -> position imp (a ++ t :: b) = Some (length a).
Proof.
  intros Ha Ht. induction a as [|u a IH]; cbn [app position length]; [now rewrite Ht|].
  rewrite (Ha u (or_introl eq_refl)), IH; [reflexivity|]. intros t' H. apply Ha. now right.
Qed.
Lemma count_none imp a : (forall t', In t' a -> imp t' = false) -> count imp a = O.
Proof. intros Ha. induction a as [|u a IH]; cbn; [reflexivity|]. rewrite (Ha u (or_introl eq_refl)). apply IH. intros t' H. apply Ha. now right. Qed.
Lemma one_chosen a t b : wraps_value t -> (forall t', In t' (a ++ b) -> ~ takes_value t') -> chosen (a ++ t :: b) = Some (length a).
Proof.
  intros Hw Hn.
  assert (Hi : forall t', In t' (a ++ b) -> implicit t' = false) by (intros t' H; destruct (implicit t') eqn:I; [elim (Hn t' H); now apply implicit_takes|reflexivity]).
  assert (Hv : forall t', In t' (a ++ b) -> is_value t' = false) by (intros t' H; destruct t'; try reflexivity; elim (Hn TValue H); constructor).
  assert (Ia : forall t', In t' a -> implicit t' = false) by (intros; apply Hi, in_or_app; auto).
  assert (Ib : forall t', In t' b -> implicit t' = false) by (intros; apply Hi, in_or_app; auto).
  unfold chosen. destruct (position is_value (a ++ t :: b)) as [n|] eqn:P.
  - destruct (is_value t) eqn:V.
    + rewrite position_middle in P by (auto; intros; apply Hv, in_or_app; auto). congruence.
    + exfalso. apply position_spec in P as (u & Hu & Iu & _). apply nth_error_In in Hu. apply in_app_or in Hu as [Hu|[<-|Hu]]; try congruence; rewrite Hv in Iu by (apply in_or_app; auto); discriminate.
  - rewrite count_app. cbn [count]. rewrite (wraps_implicit t Hw), (count_none _ a Ia), (count_none _ b Ib). cbn [Nat.add Nat.eqb].
    apply position_middle; [exact Ia|now apply wraps_implicit].
Qed.
Theorem one_alternative E a t b v : wraps_value t -> (forall t', In t' (a ++ b) -> ~ takes_value t') -> wf v ->
  exists d, as_ E t v = Ok d /\ as_ E (TVar (a ++ t :: b)) v = Ok (DAlt (length a) d).
Proof.
  intros Hw Hn Hv. destruct (implicit_as E t (wraps_implicit t Hw) v Hv) as (d & D). exists d. split; [exact D|].
  cbn [as_]. rewrite (one_chosen a t b Hw Hn), (as_alternative_nth (as_ E) (a ++ t :: b) v (length a) t), D; [reflexivity|].
  rewrite nth_error_app2, Nat.sub_diag by lia. reflexivity.
Qed.
