(** * No failed allocation goes unnoticed: proofs *)
From Verif Require Import Base BaseProofs Value Dump Containers Num Enum Conv Info Stream SpecConv SpecHeap SpecInfo Faults FaultsMove SpecFaults
  ConvProofs HeapSafety InfoProofs FaultsProofs FaultsTheorems.
From Verif Require Api.

Lemma met_nil s : all_met s s.
Proof. exists []. split; [intros []|reflexivity]. Qed.
Lemma met_trans s s1 s2 : all_met s s1 -> all_met s1 s2 -> all_met s s2.
Proof.
  intros (p & P & ->) (q & Q & ->). exists (p ++ q). rewrite app_assoc. split; auto. intros H. apply in_app_or in H as [H|H]; auto.
Qed.
Lemma met_failed s s1 s2 : all_met s s1 -> last_failed s1 s2 -> last_failed s s2.
Proof.
  intros (p & P & ->) (q & Q & ->). exists (p ++ q). rewrite <- app_assoc. split; auto. intros H. apply in_app_or in H as [H|H]; auto.
Qed.
Lemma noticed_trans {A} s s1 s2 (o : outcome A) : all_met s s1 -> noticed s1 s2 o -> noticed s s2 o.
Proof. intros M [H|[H K]]; [left; eapply met_trans; eauto|right; split; auto; eapply met_failed; eauto]. Qed.
Lemma met_false s : all_met (false :: s) s.
Proof. exists [false]. split; [|reflexivity]. intros [H|[]]. discriminate. Qed.
Lemma failed_true s : last_failed (true :: s) s.
Proof. exists []. split; [intros []|reflexivity]. Qed.

(** ** Writers *)
Definition notes_w (w : writer) : Prop := forall out s out' s' r, w out s = (out', s', r) ->
  (all_met s s' /\ r <> Throw BadAlloc) \/ (last_failed s s' /\ r = Throw BadAlloc).
Lemma notes_stop r : r <> Throw BadAlloc -> notes_w (stop r).
Proof. intros N out s out' s' r' [= <- <- <-]. left. split; auto using met_nil. Qed.
Lemma notes_then w w' : notes_w w -> notes_w w' -> notes_w (w ;; w').
Proof.
  intros W W' out s out' s' r. unfold andthen. destruct (w out s) as [[o1 s1] r1] eqn:E. apply W in E as [(A & N)|(A & ->)].
  - destruct r1 as [x|e| | |]; try (intros [= <- <- <-]; left; auto; fail). intros H. apply W' in H as [(B & N')|(B & ->)].
    + left. split; auto. eapply met_trans; eauto.
    + right. split; auto. eapply met_failed; eauto.
  - intros [= <- <- <-]. right. auto.
Qed.
Section Writers.
  Context (limit : N).
  Lemma notes_append t : notes_w (append limit t).
  Proof.
    intros out s out' s' r. unfold append. destruct (_ <? _); [intros [= <- <- <-]; left; split; [apply met_nil|discriminate]|].
    destruct s as [|[] s]; intros [= <- <- <-]; [left; split; [apply met_nil|discriminate]|right; split; [apply failed_true|reflexivity]|left; split; [apply met_false|discriminate]].
  Qed.
  Lemma notes_spaces n : notes_w (append_spaces limit n).
  Proof.
    intros out s out' s' r. unfold append_spaces. destruct (_ <? _); [intros [= <- <- <-]; left; split; [apply met_nil|discriminate]|].
    destruct s as [|[] s]; intros [= <- <- <-]; [left; split; [apply met_nil|discriminate]|right; split; [apply failed_true|reflexivity]|left; split; [apply met_false|discriminate]].
  Qed.
  Lemma notes_push c : notes_w (push limit c).
  Proof. apply notes_append. Qed.
  Lemma notes_complain : notes_w complain.
  Proof.
    intros out s out' s' r. unfold complain.
    destruct s as [|[] s]; intros [= <- <- <-]; [left; split; [apply met_nil|discriminate]|right; split; [apply failed_true|reflexivity]|left; split; [apply met_false|discriminate]].
  Qed.
  Lemma notes_escaped cur : forall beg, notes_w (emit_escaped limit cur beg).
  Proof.
    induction cur as [|ch cur IH]; intros beg; cbn [emit_escaped]; [apply notes_append|].
    destruct (escape_letter ch); [|destruct (ch <? 32); [|auto]]; repeat (first [apply notes_then|apply notes_append|apply notes_push|apply IH]).
  Qed.
  Ltac writer := repeat (first [apply notes_then|apply notes_append|apply notes_push|apply notes_spaces|apply notes_escaped|apply notes_complain|apply notes_stop; discriminate|assumption
    |match goal with |- notes_w (match ?r with [] => _ | _ => _ end) => destruct r end]).
  Section Bodies.
    Context (f : value -> writer).
    Lemma notes_elems l : Forall (fun v => notes_w (f v)) l -> notes_w (emit_elems limit f l).
    Proof. induction 1 as [|v l Hv Hl IH]; cbn [emit_elems]; writer. Qed.
    Lemma notes_members m : Forall (fun kv => notes_w (f (snd kv))) m -> notes_w (emit_members limit f m).
    Proof. induction 1 as [|[k v] l Hv Hl IH]; cbn [emit_members snd] in *; writer. Qed.
    Lemma notes_lay_elems i n l : Forall (fun v => notes_w (f v)) l -> notes_w (lay_elems limit f i n l).
    Proof. induction 1 as [|v l Hv Hl IH]; cbn [lay_elems]; writer. Qed.
    Lemma notes_lay_members i n m : Forall (fun kv => notes_w (f (snd kv))) m -> notes_w (lay_members limit f i n m).
    Proof. induction 1 as [|[k v] l Hv Hl IH]; cbn [lay_members snd] in *; writer. Qed.
    Lemma notes_array l : Forall (fun v => notes_w (f v)) l -> notes_w (emit_array_with limit f l).
    Proof. intros H. unfold emit_array_with. writer. now apply notes_elems. Qed.
    Lemma notes_object m : Forall (fun kv => notes_w (f (snd kv))) m -> notes_w (emit_object_with limit f m).
    Proof. intros H. unfold emit_object_with. writer. now apply notes_members. Qed.
    Lemma notes_lay_array i n l : Forall (fun v => notes_w (f v)) l -> notes_w (lay_array_with limit f i n l).
    Proof. intros H. unfold lay_array_with. writer. now apply notes_lay_elems. Qed.
    Lemma notes_lay_object i n m : Forall (fun kv => notes_w (f (snd kv))) m -> notes_w (lay_object_with limit f i n m).
    Proof. intros H. unfold lay_object_with. writer. now apply notes_lay_members. Qed.
  End Bodies.
  Lemma notes_emit v : notes_w (emit limit v).
  Proof.
    induction v as [t s|t|t l IH|t|t m IH] using value_ind'; destruct t; cbn [emit type_of]; writer; first [now apply notes_elems|now apply notes_members].
  Qed.
  Lemma notes_lay i v : forall n, notes_w (lay limit i n v).
  Proof.
    induction v as [t s|t|t l IH|t|t m IH] using value_ind'; intros n; destruct t; cbn [lay type_of]; try apply notes_emit; writer.
    - apply notes_lay_elems. eapply Forall_impl; [|exact IH]. cbn. auto.
    - apply notes_lay_members. eapply Forall_impl; [|exact IH]. cbn. auto.
  Qed.
  Lemma notes_collect w s s' r : notes_w w -> collect w s = (s', r) -> (all_met s s' /\ r <> Throw BadAlloc) \/ (last_failed s s' /\ r = Throw BadAlloc).
  Proof.
    intros W. unfold collect. destruct (w [] s) as [[out s1] r1] eqn:E. intros [= <- <-]. apply W in E as [(A & N)|(A & ->)]; [left|right; auto].
    split; auto. destruct r1 as [x|e| | |]; cbn; try discriminate. intros [= ->]. apply N. reflexivity.
  Qed.
  Lemma dumps_notes n v s s' r : try_dumps limit n v s = (s', r) -> (all_met s s' /\ r <> Throw BadAlloc) \/ (last_failed s s' /\ r = Throw BadAlloc).
  Proof. apply notes_collect. destruct n; [apply notes_lay|apply notes_emit]. Qed.
  Lemma array_dumps_notes n l s s' r : try_array_dumps limit n l s = (s', r) -> (all_met s s' /\ r <> Throw BadAlloc) \/ (last_failed s s' /\ r = Throw BadAlloc).
  Proof. apply notes_collect. destruct n; [apply notes_lay_array|apply notes_array]; apply Forall_forall; intros; [apply notes_lay|apply notes_emit]. Qed.
  Lemma object_dumps_notes n m s s' r : try_object_dumps limit n m s = (s', r) -> (all_met s s' /\ r <> Throw BadAlloc) \/ (last_failed s s' /\ r = Throw BadAlloc).
  Proof. apply notes_collect. destruct n; [apply notes_lay_object|apply notes_object]; apply Forall_forall; intros; [apply notes_lay|apply notes_emit]. Qed.
  Lemma insert_notes v o s s' o' r : try_insert limit v o s = (s', (o', r)) -> (all_met s s' /\ r <> Throw BadAlloc) \/ (last_failed s s' /\ r = Throw BadAlloc).
  Proof.
    unfold try_insert. destruct (try_dumps limit (Some 4) v s) as [s1 r1] eqn:E. apply dumps_notes in E as [(A & N)|(A & ->)]; [|intros [= <- <- <-]; right; auto].
    destruct r1 as [x|e| | |]; intros [= <- <- <-]; left; split; auto; cbn; try discriminate. intros [= ->]. apply N. reflexivity.
  Qed.
End Writers.

(** ** Conversions *)
Definition notes {A} (m : M A) : Prop := forall s s' o, m s = (s', o) -> noticed s s' o.
Lemma notes_now {A} (r : res A) : notes (now r).
Proof. intros s s' o [= <- <-]. left. apply met_nil. Qed.
Lemma notes_bind {A B} (m : M A) (f : A -> M B) : notes m -> (forall a, notes (f a)) -> notes (bindM m f).
Proof.
  intros Hm Hf s s' o. unfold bindM. destruct (m s) as [s1 o1] eqn:E. apply Hm in E as [E|[E K]].
  - destruct o1 as [[a|e| | |]|]; try (intros [= <- <-]; left; exact E). intros H. eapply noticed_trans; [exact E|]. eapply Hf; eauto.
  - destruct K as [->| ->]; intros [= <- <-]; right; auto.
Qed.
Lemma notes_request : notes request.
Proof. intros [|[] s] s' o [= <- <-]; [left; apply met_nil|right; auto using failed_true|left; apply met_false]. Qed.
Lemma notes_noexcept {A} (m : M A) : notes m -> notes (noexcept m).
Proof.
  intros Hm s s' o. unfold noexcept. destruct (m s) as [s1 o1] eqn:E. apply Hm in E as [E|[E [->| ->]]].
  - destruct o1 as [[a|e| | |]|]; intros [= <- <-]; left; exact E.
  - intros [= <- <-]. right. auto.
  - intros [= <- <-]. right. auto.
Qed.
Lemma notes_with_text {A} (r : res A) : notes (with_text r).
Proof. destruct r as [a|[]| | |]; cbn [with_text]; try apply notes_now. apply notes_bind; [apply notes_request|intros; apply notes_now]. Qed.
Lemma notes_all {A} (f : A -> M bool) l : (forall x, In x l -> notes (f x)) -> notes (try_all f l).
Proof.
  induction l as [|x l IH]; intros H; cbn [try_all]; [apply notes_now|]. apply notes_bind; [apply H; now left|]. intros []; [apply IH; intros; apply H; now right|apply notes_now].
Qed.
Lemma notes_map {A B} (f : A -> M B) g l : (forall x, In x l -> notes (f x)) -> notes (try_map f g l).
Proof.
  induction l as [|x l IH]; intros H; cbn [try_map]; [apply notes_now|]. apply notes_bind; [apply H; now left|]. intros y.
  apply notes_bind; [destruct g; [apply notes_request|apply notes_now]|]. intros _. apply notes_bind; [apply IH; intros; apply H; now right|]. intros. apply notes_now.
Qed.
Lemma notes_map_members {A B} (f : A -> M B) (m : list (bytes * A)) : (forall kx, In kx m -> notes (f (snd kx))) -> notes (try_map_members f m).
Proof.
  induction m as [|[k x] l IH]; intros H; cbn [try_map_members]; [apply notes_now|]. apply notes_bind; [exact (H (k, x) (or_introl eq_refl))|]. intros y.
  apply notes_bind; [apply notes_request|]. intros _. apply notes_bind; [apply IH; intros; apply H; now right|]. intros. apply notes_now.
Qed.
Section Reading.
  Context (limit : N) (short : nat) (E : env).
  Lemma notes_text t : notes (text short t).
  Proof. unfold text. destruct (_ <=? _)%nat; [apply notes_now|apply notes_request]. Qed.
  Lemma notes_fresh l : notes (fresh short l).
  Proof. unfold fresh. destruct (existsb _ _); [apply notes_request|apply notes_now]. Qed.
  Ltac steps := repeat (first [apply notes_noexcept|apply notes_now|apply notes_request|apply notes_text|apply notes_fresh|apply notes_with_text|assumption
    |apply notes_bind; [|intros ?]|match goal with |- notes (if ?b then _ else _) => destruct b | |- notes (match ?x with None => _ | Some _ => _ end) => destruct x end]).
  Lemma notes_is_tuple is1 ts : forall l, Forall (fun t => forall v, notes (is1 t v)) ts -> notes (try_is_tuple is1 ts l).
  Proof.
    induction ts as [|t ts IH]; intros [|v l] H; cbn [try_is_tuple]; steps; inversion H; subst; auto.
  Qed.
  Lemma notes_is_variant is1 ts v : Forall (fun t => forall v, notes (is1 t v)) ts -> notes (try_is_variant is1 ts v).
  Proof. induction 1 as [|t ts Ht _ IH]; cbn [try_is_variant]; steps. apply Ht. Qed.
  Lemma notes_check_fields is1 fs v : Forall (fun ft : field * ty => forall v, notes (is1 (snd ft) v)) fs -> notes (try_check_fields short is1 fs v).
  Proof. induction 1 as [|[f t] fs Ht _ IH]; cbn [try_check_fields snd] in *; steps. apply Ht. Qed.
  Lemma is_notes t : forall v, notes (try_is short E t v).
  Proof.
    induction t as [ | | | |sg w|p| | | | |t IH|t IH|t IH|lt t IH|n t IH|ts IH|ts IH|t IH|e|fs IH|x] using ty_ind'; intros v; cbn [try_is]; steps; auto.
    - apply notes_all. auto.
    - apply notes_all. auto.
    - apply notes_all. auto.
    - now apply notes_is_tuple.
    - now apply notes_is_variant.
    - apply notes_all. auto.
    - now apply notes_check_fields.
  Qed.
  Lemma notes_as_tuple as1 ts : forall l, Forall (fun t => forall v, notes (as1 t v)) ts -> notes (try_as_tuple as1 ts l).
  Proof. induction ts as [|t ts IH]; intros [|v l] H; cbn [try_as_tuple]; steps; inversion H; subst; auto. Qed.
  Lemma notes_as_variant as1 ts v : forall n, Forall (fun t => forall v, notes (as1 t v)) ts -> notes (try_as_variant short E as1 n ts v).
  Proof. induction ts as [|t ts IH]; intros n H; cbn [try_as_variant]; steps; inversion H; subst; auto. apply is_notes. Qed.
  Lemma notes_as_alternative as1 ts v : forall n, Forall (fun t => forall v, notes (as1 t v)) ts -> notes (try_as_alternative as1 ts n v).
  Proof. induction ts as [|t ts IH]; intros [|n] H; cbn [try_as_alternative]; steps; inversion H; subst; auto. Qed.
  Lemma notes_load as1 fs v : Forall (fun ft : field * ty => forall v, notes (as1 (snd ft) v)) fs -> forall cur s l s' o,
    try_load_fields short E as1 fs v cur s = (l, (s', o)) -> noticed s s' o.
  Proof.
    induction 1 as [|[f t] fs Ht _ IH]; intros cur s l s' o; cbn [try_load_fields snd] in *; [intros [= <- <- <-]; left; apply met_nil|].
    destruct cur as [|c cur]; [intros [= <- <- <-]; left; apply met_nil|].
    set (found := let* _ := text short (json_key f) in now (v_find_value_key (json_key f) v)). set (missing := let* _ := text short (json_key f) in now (Ok (Some (json_key f)))).
    assert (Hf : notes found) by (unfold found; steps). assert (Hg : notes missing) by (unfold missing; steps).
    destruct (found s) as [s1 o1] eqn:E1. apply Hf in E1 as [E1|[E1 [->| ->]]]; [|intros [= <- <- <-]; right; auto|intros [= <- <- <-]; right; auto].
    destruct o1 as [[[w|]|e| | |]|]; try (intros [= <- <- <-]; left; exact E1).
    - destruct (try_is short E t w s1) as [s2 o2] eqn:E2. apply is_notes in E2 as [E2|[E2 K]].
      + pose proof (met_trans _ _ _ E1 E2) as E12. destruct o2 as [[[]|e| | |]|]; try (intros [= <- <- <-]; left; exact E12).
        * destruct (as1 t w s2) as [s3 o3] eqn:E3. apply Ht in E3 as [E3|[E3 K]].
          -- pose proof (met_trans _ _ _ E12 E3) as E13. destruct o3 as [[d|e| | |]|]; try (intros [= <- <- <-]; left; exact E13).
             destruct (try_load_fields short E as1 fs v cur s3) as [r0 [s4 o4]] eqn:E4. intros [= <- <- <-]. eapply noticed_trans; [exact E13|]. eapply IH; eauto.
          -- pose proof (met_failed _ _ _ E12 E3) as E13. destruct K as [->| ->]; intros [= <- <- <-]; right; auto.
        * destruct (missing s2) as [s3 o3] eqn:E3. intros [= <- <- <-]. eapply noticed_trans; [exact E12|]. eapply Hg; eauto.
      + pose proof (met_failed _ _ _ E1 E2) as E12. destruct K as [->| ->]; intros [= <- <- <-]; right; auto.
    - destruct (is_optional f).
      + destruct (try_load_fields short E as1 fs v cur s1) as [r0 [s4 o4]] eqn:E4. intros [= <- <- <-]. eapply noticed_trans; [exact E1|]. eapply IH; eauto.
      + destruct (missing s1) as [s3 o3] eqn:E3. intros [= <- <- <-]. eapply noticed_trans; [exact E1|]. eapply Hg; eauto.
  Qed.
  Lemma as_notes t : forall v, notes (try_as short E t v).
  Proof.
    induction t as [ | | | |sg w|p| | | | |t IH|t IH|t IH|lt t IH|n t IH|ts IH|ts IH|t IH|e|fs IH|x] using ty_ind'; intros v; cbn [try_as]; steps; auto.
    - apply notes_map. auto.
    - apply notes_map. auto.
    - apply notes_map. auto.
    - destruct ts as [|t1 [|t2 ts]]; steps; try (now apply notes_as_tuple). inversion IH; subst; auto.
    - now apply notes_as_alternative.
    - now apply notes_as_variant.
    - apply notes_map_members. auto.
    - intros s s' o. destruct (try_load_fields short E (try_as short E) fs v (defaults fs) s) as [l [s1 o1]] eqn:E1.
      apply (notes_load (try_as short E) fs v IH) in E1 as [E1|[E1 [->| ->]]]; [|intros [= <- <-]; right; auto|intros [= <- <-]; right; auto].
      destruct o1 as [[[k|]|e| | |]|]; try (intros [= <- <-]; left; exact E1). intros H. eapply noticed_trans; [exact E1|]. eapply notes_with_text; eauto.
  Qed.
  Lemma from_json_notes fs v cur s l s' o : try_from_json short E fs v cur s = (l, (s', o)) -> noticed s s' o.
  Proof. apply notes_load. apply Forall_forall. intros. apply as_notes. Qed.
  Lemma found_notes t o : notes (try_found short E t o).
  Proof. unfold try_found. steps; first [apply is_notes|apply as_notes]. Qed.
  Lemma find_pos_notes t n v : notes (try_find_pos short E t n v).
  Proof. unfold try_find_pos. steps. apply found_notes. Qed.
  Lemma find_key_notes t k v : notes (try_find_key short E t k v).
  Proof. unfold try_find_key. steps. apply found_notes. Qed.
  Lemma default_notes t d : notes (try_default t d).
  Proof. unfold try_default. destruct t; steps. Qed.
  Lemma or_default_notes t v d : notes (try_or_default short E t v d).
  Proof. unfold try_or_default. steps; first [apply is_notes|apply as_notes|apply default_notes]. Qed.
  Lemma get_notes t d ks : forall v, notes (try_get short E t d ks v).
  Proof.
    assert (Hc : notes (try_conditional t d)) by (unfold try_conditional; destruct t; steps).
    induction ks as [|[k|z] ks IH]; intros v; cbn [try_get]; steps; first [apply IH|apply is_notes|apply as_notes|apply default_notes|apply or_default_notes].
  Qed.

  (** ** Conversions of rvalues *)
  Definition notes_t {S A} (m : taking S A) : Prop := forall s x s' o, m s = (x, (s', o)) -> noticed s s' o.
  Lemma notes_kept {S A} (x : S) (m : M A) : notes m -> notes_t (kept x m).
  Proof. intros H s y s' o. unfold kept. intros [= _ K]. eapply H; eauto. Qed.
  Lemma notes_taken {S S' A B} (m : taking S A) (bad : S -> S') (f : S -> A -> taking S' B) : notes_t m -> (forall x a, notes_t (f x a)) -> notes_t (taken m bad f).
  Proof.
    intros Hm Hf s x s' o. unfold taken. destruct (m s) as [y [s1 o1]] eqn:E1. apply Hm in E1 as [E1|[E1 K]].
    - destruct o1 as [[a|e| | |]|]; try (intros [= <- <- <-]; left; exact E1). intros H. eapply noticed_trans; [exact E1|]. eapply Hf; eauto.
    - destruct K as [->| ->]; intros [= <- <- <-]; right; auto.
  Qed.
  Context (left half : ext -> value -> value) (grows : bool).
  Ltac takes := repeat (first [apply notes_kept; steps; fail|apply notes_taken; [|intros ? ?]|assumption]).
  Lemma as_rv_notes t v : notes_t (try_as_rv short E left half t v).
  Proof.
    destruct t; cbn [try_as_rv]; try (apply notes_kept; apply as_notes).
    - intros s x s' o [= <- <- <-]. left. apply met_nil.
    - destruct (x_move_from _); takes.
  Qed.
  Lemma take_elems_notes g t l : notes_t (try_take_elems short E left half g t l).
  Proof. induction l as [|v l IH]; cbn [try_take_elems]; takes. apply as_rv_notes. Qed.
  Lemma take_tuple_notes ts : forall l, notes_t (try_take_tuple short E left half ts l).
  Proof. induction ts as [|t ts IH]; intros [|v l]; cbn [try_take_tuple]; takes; [apply as_rv_notes|apply IH]. Qed.
  Lemma take_members_notes t m : notes_t (try_take_members short E left half t m).
  Proof. induction m as [|[k v] l IH]; cbn [try_take_members]; takes. apply as_rv_notes. Qed.
  Lemma array_take_notes t l : notes_t (try_array_take short E left half grows t l).
  Proof.
    destruct t; cbn [try_array_take]; try (apply notes_kept; apply notes_now); try (match goal with |- context [Nat.eqb ?a ?b] => destruct (Nat.eqb a b) end); takes;
      first [apply take_elems_notes|apply take_tuple_notes|idtac].
  Qed.
  Lemma object_take_notes t m : notes_t (try_object_take short E left half t m).
  Proof. destruct t; cbn [try_object_take]; takes; apply take_members_notes. Qed.
  Lemma coerce_notes t w v : notes_t (try_coerce t w v).
  Proof. unfold try_coerce. destruct (v_empty v) as [[]| | | |]; takes. Qed.
  Lemma through_array_notes t v : notes_t (try_through_array short E left half grows t v).
  Proof. unfold try_through_array, try_as_array_m. takes; first [apply coerce_notes|apply array_take_notes]. Qed.
  Lemma through_object_notes t v : notes_t (try_through_object short E left half t v).
  Proof. unfold try_through_object, try_as_object_m. takes; first [apply coerce_notes|apply object_take_notes]. Qed.
  Lemma variant_rv_notes ts v : forall n, notes_t (try_variant_rv short E left half n ts v).
  Proof.
    induction ts as [|t ts IH]; intros n; cbn [try_variant_rv]; takes; [apply notes_kept; apply is_notes|].
    match goal with |- notes_t (if ?b then _ else _) => destruct b end; [takes; apply as_rv_notes|apply IH].
  Qed.
  Lemma alternative_notes f ts v : forall n, Forall (fun t => forall v, notes_t (f t v)) ts -> notes_t (try_alternative_rv f ts n v).
  Proof. induction ts as [|t ts IH]; intros [|n] H; cbn [try_alternative_rv]; takes; inversion H; subst; auto. Qed.
  Lemma cast_rv_notes t : forall v, notes_t (try_cast_rv short E left half grows t v).
  Proof.
    induction t as [ | | | |sg w|p| | | | |t IH|t IH|t IH|lt t IH|n t IH|ts IH|ts IH|t IH|e|fs IH|x] using ty_ind'; intros v; cbn [try_cast_rv];
      try (apply notes_kept; apply as_notes); try apply through_array_notes; try apply through_object_notes; try apply as_rv_notes.
    - intros s x s' o [= <- <- <-]. left. apply met_nil.
    - takes. apply IH.
    - destruct (is_null v); takes. apply IH.
    - destruct ts as [|t1 [|t2 ts]]; try apply through_array_notes. takes. inversion IH; subst; auto.
    - destruct (chosen ts); takes; [now apply alternative_notes|apply variant_rv_notes].
  Qed.
End Reading.
Lemma swallowed : exists v s s', try_value_info max_size 15 GCC v s = (s', Res (Ok (of_string "type=object"))) /\ ~ all_met s s'.
Proof.
  exists (v_object []), [true], []. split; [vm_compute; reflexivity|]. intros (p & P & E). rewrite app_nil_r in E. apply P. rewrite <- E. now left.
Qed.
(** ** value_info() when one request fails *)
Definition once_w {A} (P : Prop) (m : M A) (a : A) : Prop := forall s, exists s' o, m s = (s', o) /\
  ((o = Res (Ok a) /\ all_met s s') \/ exists e, o = Res (Throw e) /\ (last_failed s s' \/ P)).
Section Once.
  Context (P : Prop).
  Lemma once_now {A} (a : A) : once_w P (now (Ok a)) a.
  Proof. intros s. exists s, (Res (Ok a)). split; [reflexivity|]. left. split; [reflexivity|apply met_nil]. Qed.
  Lemma once_text short k : once_w P (text short k) tt.
  Proof.
    unfold text. destruct (_ <=? _)%nat; [apply once_now|]. intros [|[] s]; cbn.
    - eexists _, _. split; [reflexivity|]. left. split; [reflexivity|apply met_nil].
    - eexists _, _. split; [reflexivity|]. right. eexists. split; [reflexivity|]. left. apply failed_true.
    - eexists _, _. split; [reflexivity|]. left. split; [reflexivity|apply met_false].
  Qed.
  Lemma once_bind {A B} (m : M A) (f : A -> M B) a b : once_w P m a -> once_w P (f a) b -> once_w P (bindM m f) b.
  Proof.
    intros H H' s. destruct (H s) as (s1 & o & E1 & C1). unfold bindM. rewrite E1. destruct C1 as [(-> & M1)|(e & -> & HT)].
    - destruct (H' s1) as (s2 & o2 & E2 & C2). exists s2, o2. split; [exact E2|]. destruct C2 as [(-> & M2)|(e & -> & [L|HP])].
      + left. split; [reflexivity|]. eapply met_trans; eauto.
      + right. exists e. split; [reflexivity|]. left. eapply met_failed; eauto.
      + right. exists e. split; [reflexivity|]. now right.
    - eexists s1, _. split; [reflexivity|]. right. eauto.
  Qed.
End Once.
Section OnceInfo.
  Context (limit : N) (short : nat) (cc : compiler).
  Ltac steps :=
    repeat first
      [ apply once_now
      | match goal with |- once_w _ (bindM (text _ _) _) _ => eapply once_bind; [apply once_text|] end
      | match goal with |- once_w _ (bindM (now (Ok _)) _) _ => eapply once_bind; [apply once_now|] end ].
  Lemma dump_once v t : dump v = Ok t -> once_w (too_long_text limit v) (fun l => let '(l', r) := try_dumps limit None v l in (l', Res r)) t.
  Proof.
    intros H s. destruct (writes_emit limit v [] s ltac:(cbn; lia)) as (p & s' & r & E1 & I1 & C). rewrite H in C.
    assert (D : try_dumps limit None v s = (s', do _ <- r; Ok p)) by (unfold try_dumps, collect; now rewrite E1).
    rewrite D. eexists s', _. split; [reflexivity|]. apply dumps_notes in D.
    destruct C as [(-> & -> & L)|[(-> & T & _)|(-> & L & _)]]; cbn [bind] in *.
    - destruct D as [(A & _)|(_ & Q)]; [|discriminate]. left. now split.
    - destruct D as [(_ & Q)|(A & _)]; [exfalso; now apply Q|]. right. eauto.
    - right. eexists. split; [reflexivity|]. right. exists t. split; auto.
  Qed.
  Lemma body_once v i : (7 <= short)%nat -> sound v -> info_body cc v = Ok i -> once_w (too_long_text limit v) (try_info_body limit short cc v) i.
  Proof.
    intros Hs Hv Hi. apply sound_okv in Hv. unfold try_info_body. eapply once_bind.
    { intros s. rewrite name_exact by auto. exists s, (Res (Ok (tag_name (type_of v)))). split; [reflexivity|]. left. split; [reflexivity|apply met_nil]. }
    revert Hi. unfold info_body. rewrite type_name_spec. cbn [bind]. intros Hi. steps. revert Hi.
    destruct Hv as [t s Hp|l Hl|[]|m Hm Hk|[]]; cbn [type_of].
    - destruct Hp as [H1 H2]. destruct t; try congruence; intros Hi; try (injection Hi as <-; steps; fail).
      all: match type of Hi with context [dump ?v] => destruct (dump v) as [x| | | |] eqn:Hx; cbn [bind] in Hi; try discriminate;
             eapply once_bind; [apply dump_once; exact Hx|] end; injection Hi as <-; destruct (Nat.ltb 100 (length x)); steps.
    - cbn [as_array_c is_array type_of vtype_eqb get_arr bind]. intros [= <-]. steps.
    - cbn [as_object_c is_object type_of vtype_eqb get_obj bind]. intros [= <-]. steps.
  Qed.
  Theorem info_once v i s : (7 <= short)%nat -> sound v -> value_info cc v = Ok i -> (count_occ Bool.bool_dec s true <= 1)%nat ->
    (forall t, dumps None v = Ok t -> len t <= limit) ->
    let o := snd (try_value_info limit short cc v s) in
    (o = Res (Ok i) /\ all_met s (fst (try_value_info limit short cc v s))) \/ (o = Res (Ok (of_string "type=" ++ tag_name (type_of v))) /\ ~ enough s).
  Proof.
    intros Hs Hv Hi Ho Hl. assert (Hb : info_body cc v = Ok i).
    { revert Hi. unfold value_info. destruct (info_body cc v) eqn:Eb; auto. apply sound_okv in Hv. revert Eb. unfold info_body. rewrite type_name_spec. cbn [bind].
      destruct Hv as [t x Hp|l Hlv|[]|m Hm Hk|[]]; cbn [type_of].
      - destruct Hp as [H1 H2]. destruct t; try congruence; cbn; discriminate.
      - cbn; discriminate.
      - cbn; discriminate. }
    destruct (body_once v i Hs Hv Hb s) as (s1 & o & E1 & C1). unfold try_value_info, noexcept. rewrite E1.
    destruct C1 as [(-> & M1)|(e & -> & [L|(t & T & L)])]; [left; auto| |specialize (Hl _ T); lia]. right.
    assert (Hn : ~ enough s) by (destruct L as (p & _ & ->); intros Q; apply Q; apply in_or_app; right; now left). split; [|exact Hn].
    assert (He : enough s1). { destruct L as (p & _ & ->). intros Q. rewrite count_occ_app in Ho. cbn in Ho. apply (count_occ_In Bool.bool_dec) in Q. lia. }
    unfold bindM. rewrite name_exact by lia. unfold text. destruct (_ <=? short)%nat; [reflexivity|]. destruct s1 as [|[] s1]; cbn; [reflexivity| |reflexivity]. destruct (He (or_introl eq_refl)).
  Qed.
End OnceInfo.
Lemma once_case : sound (v_object []) /\ value_info GCC (v_object []) = Ok (of_string "type=object, size=0") /\
  snd (try_value_info max_size 10 GCC (v_object []) [true]) = Res (Ok (of_string "type=object")) /\
  snd (try_value_info max_size 10 GCC (v_object []) [true; true]) = Ended.
Proof. split; [apply wf_sound; repeat constructor|]. repeat split; vm_compute; reflexivity. Qed.
