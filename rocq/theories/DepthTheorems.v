(** * The depth the parser needs, and what can be done with what it read. *)
From Verif Require Import Base Value Packed Parser Dump Containers Spec SpecApi Depth SpecDepth BaseProofs DepthProofs.
From Coq Require Import Lia.

Lemma emplaced_in (k : bytes) (v : value) m : forall r, map_emplace k v m = (r, true) -> forall kv, In kv r <-> kv = (k, v) \/ In kv m.
Proof.
  induction m as [|[k' v'] m IH]; cbn [map_emplace]; intros r H kv.
  - injection H as <-. cbn. split; [intros [<-|[]]; auto|intros [->|[]]; auto].
  - destruct (bytes_ltb k k').
    { injection H as <-. cbn. split; [intros [<-|[<-|H]]; auto|intros [->|[<-|H]]; auto]. }
    destruct (bytes_eqb k k'); [discriminate H|].
    destruct (map_emplace k v m) as [r' b]. injection H as <- ->. specialize (IH r' eq_refl kv). cbn [In]. rewrite IH.
    split; [intros [H|[H|H]]; auto|intros [H|[H|H]]; auto].
Qed.
Definition low (d : nat) (v : value) : bool := (height v <=? d)%nat.
Lemma low_arr t l d : low (S d) (VArr t (Some l)) = forallb (low d) l.
Proof.
  apply Bool.eq_true_iff_eq. unfold low. rewrite Nat.leb_le, height_arr, forallb_forall, Forall_forall.
  split; intros H x Hx; apply Nat.leb_le, H, Hx.
Qed.
Lemma low_obj t m l d : (forall kv, In kv m <-> In kv l) ->
  low (S d) (VObj t (Some m)) = forallb (fun kv => low d (snd kv)) l.
Proof.
  intros E. apply Bool.eq_true_iff_eq. unfold low. rewrite Nat.leb_le, height_obj, forallb_forall, Forall_forall.
  split; intros H x Hx; apply Nat.leb_le, H, E, Hx.
Qed.

Section Parse.
  Context (jsonc : bool) (be : backend).
  Lemma array_close_valid r cur v cur' : array_close jsonc r cur = Ok (v, cur') -> valid v = true -> v = v_array r.
  Proof.
    unfold array_close. intros H V. inv H. destruct a as [ok cur1]. destruct (negb ok).
    { injection H as <- <-. discriminate V. }
    inv H. destruct (a =? 93); [|injection H as <- <-; discriminate V]. inv H. injection H as <- <-. reflexivity.
  Qed.
  Lemma object_close_valid r cur v cur' : object_close jsonc r cur = Ok (v, cur') -> valid v = true -> v = v_object r.
  Proof.
    unfold object_close. intros H V. inv H. destruct a as [ok cur1]. destruct (negb ok).
    { injection H as <- <-. discriminate V. }
    inv H. destruct (a =? 125); [|injection H as <- <-; discriminate V]. inv H. injection H as <- <-. reflexivity.
  Qed.
  Section Nested.
    Context (pv1 pv2 : bytes -> res (value * bytes)) (d : nat).
    Context (Hpv : forall cur v cur', pv1 cur = Ok (v, cur') -> valid v = true ->
      pv2 cur = if low d v then Ok (v, cur') else Stack).
    Lemma array_loop_depth f : forall cur r v cur',
      array_loop jsonc pv1 f cur r = Ok (v, cur') -> valid v = true ->
      exists l, v = v_array (r ++ l) /\
        array_loop jsonc pv2 f cur r = if forallb (low d) l then Ok (v, cur') else Stack.
    Proof.
      induction f as [|f IH]; intros cur r v cur' H V; cbn [array_loop] in *; [discriminate H|].
      inv H. rewrite E. cbn [bind]. destruct a as [ok cur1]. destruct (negb ok).
      { injection H as <- <-. discriminate V. }
      inv H. rewrite E0. cbn [bind]. destruct (jsonc && (a =? 93)).
      { exists []. cbn [forallb]. rewrite app_nil_r. split; [exact (array_close_valid _ _ _ _ H V)|exact H]. }
      inv H. destruct a0 as [w cur2]. destruct (valid w) eqn:W; cbn [negb] in H.
      2: { injection H as <- <-. discriminate V. }
      pose proof (Hpv _ _ _ E1 W) as P. rewrite P. clear P.
      inv H. destruct a0 as [ok3 cur3]. destruct (negb ok3) eqn:O3.
      { injection H as <- <-. discriminate V. }
      inv H. destruct (a0 =? 44) eqn:C.
      - inv H. destruct (IH _ _ _ _ H V) as (l & L1 & L2). exists (w :: l). rewrite <- app_assoc in L1. split; [exact L1|].
        cbn [forallb]. destruct (low d w); [|reflexivity]. cbn [bind andb]. rewrite W. cbn [negb]. rewrite E2. cbn [bind].
        rewrite O3, E3. cbn [bind]. rewrite C, E4. cbn [bind]. exact L2.
      - exists [w]. split; [exact (array_close_valid _ _ _ _ H V)|].
        cbn [forallb]. destruct (low d w); [|reflexivity]. cbn [bind andb]. rewrite W. cbn [negb]. rewrite E2. cbn [bind].
        rewrite O3, E3. cbn [bind]. rewrite C. exact H.
    Qed.
    Lemma parse_array_depth cur v cur' : parse_array jsonc pv1 cur = Ok (v, cur') -> valid v = true ->
      (exists l, v = VArr Tarray (Some l)) /\
      parse_array jsonc pv2 cur = if low (S d) v then Ok (v, cur') else Stack.
    Proof.
      unfold parse_array. intros H V. inv H. rewrite E. cbn [bind]. destruct (negb (a =? 91)).
      { injection H as <- <-. discriminate V. }
      inv H. rewrite E0. cbn [bind]. inv H. rewrite E1. cbn [bind]. destruct a1 as [ok cur1]. destruct (negb ok).
      { injection H as <- <-. discriminate V. }
      inv H. rewrite E2. cbn [bind]. destruct (a1 =? 93).
      - inv H. rewrite E3. cbn [bind]. injection H as <- <-. split; [exists []; reflexivity|]. unfold v_array.
        rewrite low_arr. reflexivity.
      - destruct (array_loop_depth _ _ _ _ _ H V) as (l & -> & L). split; [exists l; reflexivity|].
        unfold v_array. cbn [app] in *. rewrite low_arr. exact L.
    Qed.
    Lemma object_loop_depth f : forall cur r v cur',
      object_loop jsonc be pv1 f cur r = Ok (v, cur') -> valid v = true ->
      exists m l, v = v_object m /\ (forall kv, In kv m <-> In kv r \/ In kv l) /\
        object_loop jsonc be pv2 f cur r = if forallb (fun kv => low d (snd kv)) l then Ok (v, cur') else Stack.
    Proof.
      induction f as [|f IH]; intros cur r v cur' H V; cbn [object_loop] in *; [discriminate H|].
      inv H. rewrite E. cbn [bind]. destruct a as [ok cur1]. destruct (negb ok).
      { injection H as <- <-. discriminate V. }
      inv H. rewrite E0. cbn [bind]. destruct (jsonc && (a =? 125)).
      { exists r, []. cbn [forallb]. split; [exact (object_close_valid _ _ _ _ H V)|].
        split; [intros kv; cbn; tauto|exact H]. }
      inv H. rewrite E1. cbn [bind]. destruct a0 as [ko cur2]. destruct ko as [key|].
      2: { injection H as <- <-. discriminate V. }
      inv H. rewrite E2. cbn [bind]. destruct a0 as [ok3 cur3]. destruct (negb ok3).
      { injection H as <- <-. discriminate V. }
      inv H. rewrite E3. cbn [bind]. destruct (negb (a0 =? 58)).
      { injection H as <- <-. discriminate V. }
      inv H. rewrite E4. cbn [bind].
      inv H. rewrite E5. cbn [bind]. destruct a2 as [ok4 cur4]. destruct (negb ok4).
      { injection H as <- <-. discriminate V. }
      inv H. destruct a2 as [w cur5]. destruct (valid w) eqn:W; cbn [negb] in H.
      2: { injection H as <- <-. discriminate V. }
      pose proof (Hpv _ _ _ E6 W) as P. rewrite P. clear P.
      inv H. destruct a2 as [ok6 cur6]. destruct (negb ok6) eqn:O6.
      { injection H as <- <-. discriminate V. }
      destruct (map_emplace key w r) as [r' emplaced] eqn:M. destruct emplaced; cbn [negb] in H.
      2: { injection H as <- <-. discriminate V. }
      pose proof (emplaced_in _ _ _ _ M) as IN.
      inv H. destruct (a2 =? 44) eqn:C.
      - inv H. destruct (IH _ _ _ _ H V) as (m & l & L1 & L2 & L3). exists m, ((key, w) :: l).
        split; [exact L1|]. split.
        { intros kv. rewrite L2, IN. cbn [In]. split; [intros [[->|X]|X]; auto|intros [X|[<-|X]]; auto]. }
        cbn [forallb snd]. destruct (low d w); [|reflexivity]. cbn [bind andb]. rewrite W. cbn [negb]. rewrite E7. cbn [bind].
        rewrite O6, M. cbn [negb]. rewrite E8. cbn [bind]. rewrite C, E9. cbn [bind]. exact L3.
      - exists r', [(key, w)]. split; [exact (object_close_valid _ _ _ _ H V)|]. split.
        { intros kv. rewrite IN. cbn [In]. split; [intros [->|X]; auto|intros [X|[<-|[]]]; auto]. }
        cbn [forallb snd]. destruct (low d w); [|reflexivity]. cbn [bind andb]. rewrite W. cbn [negb]. rewrite E7. cbn [bind].
        rewrite O6, M. cbn [negb]. rewrite E8. cbn [bind]. rewrite C. exact H.
    Qed.
    Lemma parse_object_depth cur v cur' : parse_object jsonc be pv1 cur = Ok (v, cur') -> valid v = true ->
      (exists m, v = VObj Tobject (Some m)) /\
      parse_object jsonc be pv2 cur = if low (S d) v then Ok (v, cur') else Stack.
    Proof.
      unfold parse_object. intros H V. inv H. rewrite E. cbn [bind]. destruct (negb (a =? 123)).
      { injection H as <- <-. discriminate V. }
      inv H. rewrite E0. cbn [bind]. inv H. rewrite E1. cbn [bind]. destruct a1 as [ok cur1]. destruct (negb ok).
      { injection H as <- <-. discriminate V. }
      inv H. rewrite E2. cbn [bind]. destruct (a1 =? 125).
      - inv H. rewrite E3. cbn [bind]. injection H as <- <-. split; [exists []; reflexivity|]. unfold v_object.
        rewrite (low_obj _ _ []); [reflexivity|]. intros; reflexivity.
      - destruct (object_loop_depth _ _ _ _ _ H V) as (m & l & -> & L1 & L). split; [exists m; reflexivity|].
        unfold v_object. rewrite (low_obj _ _ l); [exact L|]. intros kv. rewrite L1. cbn. tauto.
    Qed.
  End Nested.
  Definition scalar (r : res (value * bytes)) : Prop := forall v cur, r = Ok (v, cur) -> exists t s, v = VStr t s.
  Lemma null_scalar cur : scalar (parse_null cur).
  Proof.
    intros v c H. unfold parse_null in H. destruct (match_word _ _) as [ok c'].
    injection H as <- <-. destruct ok; eexists; eexists; reflexivity.
  Qed.
  Lemma boolean_scalar cur : scalar (parse_boolean cur).
  Proof.
    intros v c H. unfold parse_boolean in H. inv H.
    repeat match type of H with context [if ?b then _ else _] => destruct b
      | context [match_word ?w ?c] => destruct (match_word w c) end; injection H as <- <-; eexists; eexists; reflexivity.
  Qed.
  Lemma number_scalar cur : scalar (parse_number cur).
  Proof.
    intros v c H. unfold parse_number in H. inv H. inv H.
    repeat (match type of H with
      | bind _ _ = _ => inv H
      | (let (_, _) := ?p in _) = _ => destruct p
      | (if ?b then _ else _) = _ => destruct b
      | context [let x := _ in _] => cbv zeta in H
      end); injection H as <- <-; eexists; eexists; reflexivity.
  Qed.
  Lemma string_scalar cur : scalar (parse_string be cur).
  Proof.
    intros v c H. unfold parse_string in H. inv H. destruct a as [[s|] c']; injection H as <- <-; eexists; eexists; reflexivity.
  Qed.
  Lemma scalar_depth d r v cur : scalar r -> r = Ok (v, cur) -> r = if low (S d) v then Ok (v, cur) else Stack.
  Proof. intros S H. destruct (S _ _ H) as (t & s & ->). exact H. Qed.
  Lemma parse_value_depth n : forall cur v cur', parse_value jsonc be n cur = Ok (v, cur') -> valid v = true ->
    forall d, parse_value jsonc be d cur = if low d v then Ok (v, cur') else Stack.
  Proof.
    induction n as [|n IH]; intros cur v cur' H V d; [discriminate H|].
    destruct d as [|d].
    { cbn [parse_value]. unfold low. pose proof (height_pos v). destruct (height v); [lia|reflexivity]. }
    cbn [parse_value] in *. inv H. rewrite E. cbn [bind].
    destruct (a =? 110); [apply scalar_depth; [apply null_scalar|exact H]|].
    destruct ((a =? 116) || (a =? 102)); [apply scalar_depth; [apply boolean_scalar|exact H]|].
    destruct ((a =? 45) || isdigit a); [apply scalar_depth; [apply number_scalar|exact H]|].
    destruct (a =? 34); [apply scalar_depth; [apply string_scalar|exact H]|].
    destruct (a =? 91); [|destruct (a =? 123)].
    - apply (parse_array_depth (parse_value jsonc be n) (parse_value jsonc be d) d); [|exact H|exact V].
      intros c w c' Hw Vw. exact (IH _ _ _ Hw Vw d).
    - apply (parse_object_depth (parse_value jsonc be n) (parse_value jsonc be d) d); [|exact H|exact V].
      intros c w c' Hw Vw. exact (IH _ _ _ Hw Vw d).
    - injection H as <- <-. discriminate V.
  Qed.
  Lemma parse_budget_depth n s v : parse_budget jsonc be n s = Ok (Some v) ->
    forall d, parse_budget jsonc be d s = if low (S d) v then Ok (Some v) else Stack.
  Proof.
    intros H d. unfold parse_budget in *. inv H. rewrite E. cbn [bind]. destruct a as [ok cur].
    destruct (negb ok); [discriminate H|]. inv H. rewrite E0. cbn [bind].
    destruct ((a =? 91) || (a =? 123)); [|discriminate H]. inv H. destruct a0 as [w cur2].
    destruct (valid w) eqn:W; cbn [negb] in H; [|discriminate H].
    inv H. destruct a0 as [ok3 cur3]. destruct ok3; [discriminate H|]. injection H as ->.
    assert (P : (if a =? 91 then parse_array jsonc (parse_value jsonc be d) cur
                 else parse_object jsonc be (parse_value jsonc be d) cur) = if low (S d) v then Ok (v, cur2) else Stack).
    { destruct (a =? 91).
      - apply (parse_array_depth (parse_value jsonc be n) (parse_value jsonc be d) d); [|exact E1|exact W].
        intros c w c' Hw Vw. exact (parse_value_depth _ _ _ _ Hw Vw d).
      - apply (parse_object_depth (parse_value jsonc be n) (parse_value jsonc be d) d); [|exact E1|exact W].
        intros c w c' Hw Vw. exact (parse_value_depth _ _ _ _ Hw Vw d). }
    rewrite P. destruct (low (S d) v); [|reflexivity]. cbn [bind]. rewrite W. cbn [negb]. rewrite E2. reflexivity.
  Qed.
End Parse.
Lemma parse_depth jsonc be s v d : parse jsonc be s = Ok (Some v) ->
  parse_budget jsonc be d s = if (height v <=? S d)%nat then Ok (Some v) else Stack.
Proof. intros H. exact (parse_budget_depth jsonc be _ s v H d). Qed.

(** ** What was read can be used within the same depth *)
From Verif Require Import ContainerProofs ConvProofs ParserProofs PropsParse DumpProofs.
Lemma wf_tag v : wf v -> tag_ok v.
Proof.
  induction v as [t s|t|t l IH|t|t m IH] using value_ind'; intros W; inversion W; subst; try (constructor; discriminate);
    constructor; rewrite Forall_forall in *; intros x Hx; apply IH; auto.
Qed.
Lemma budget_parse jsonc be d s v : Forall is_byte s -> parse_budget jsonc be d s = Ok (Some v) ->
  parse jsonc be s = Ok (Some v) /\ (height v <= S d)%nat.
Proof.
  intros Hs H. destruct (terminates jsonc be s Hs) as (o & Ho & _).
  pose proof (Ho (length s) (le_n _)) as P. pose proof (parse_budget_depth jsonc be d s v H (length s)) as Q.
  rewrite P in Q. destruct (low (S (length s)) v); [|discriminate Q]. injection Q as ->. split; [exact P|].
  pose proof (parse_budget_depth jsonc be d s v H d) as R. rewrite H in R. destruct (low (S d) v) eqn:L; [|discriminate R].
  apply Nat.leb_le. exact L.
Qed.
Lemma read_then_use jsonc be d s v : Forall is_byte s -> parse_budget jsonc be d s = Ok (Some v) ->
  (forall indent, exists t, dumps indent v = Ok t /\ dumps_d indent (S d) v = Ok t) /\
  copy_d (S d) v = Ok v /\ v_eq_d (S d) v v = Ok true /\ destroy_d (S d) v = Ok tt.
Proof.
  intros Hs H. destruct (budget_parse _ _ _ _ _ Hs H) as [P L].
  destruct (parse_root _ _ _ _ Hs P) as [W _].
  split; [|split; [|split]].
  - intros indent. destruct (dumps_grammar v indent W) as (t & E & _). exists t. split; [exact E|].
    rewrite dumps_enough; [exact E|exact L].
  - rewrite copy_d_enough; [apply wf_copy; exact W|exact L].
  - rewrite v_eq_d_enough; [|left; exact L]. destruct (equality_structural v v W W) as (b & E & I).
    rewrite E. destruct b; [reflexivity|]. discriminate (proj2 I eq_refl).
  - rewrite destroy_depth. apply Nat.leb_le in L. rewrite L. reflexivity.
Qed.
Lemma write_then_read jsonc be indent v : wf v -> all_vstrings (Forall is_byte) v -> root v ->
  exists t, dumps indent v = Ok t /\ forall d,
    parse_budget jsonc be d t = if (height v <=? S d)%nat then Ok (Some v) else Stack.
Proof.
  intros W B R. destruct (round_trip jsonc be indent v W B R) as (t & E & P). exists t. split; [exact E|].
  intros d. exact (parse_depth _ _ _ _ d P).
Qed.
(** no budget suffices for every value *)
Fixpoint nest (n : nat) : value := match n with O => v_null | S n' => v_array [nest n'] end.
Lemma height_nest n : height (nest n) = S n.
Proof. induction n as [|n IH]; [reflexivity|]. cbn [nest v_array height map list_max]. rewrite list_max_cons, IH. cbn. lia. Qed.
Lemma wf_nest n : wf (nest n).
Proof. induction n as [|n IH]; [constructor|]. cbn [nest]. constructor. constructor; [exact IH|constructor]. Qed.
Lemma depth_unbounded : exists v : nat -> value, forall d, wf (v d) /\ (forall indent, dumps_d indent d (v d) = Stack) /\
  copy_d d (v d) = Stack /\ v_eq_d d (v d) (v d) = Stack /\ destroy_d d (v d) = Stack.
Proof.
  exists nest. intros d. pose proof (wf_nest d) as W. assert (L : (height (nest d) <=? d)%nat = false).
  { rewrite height_nest. apply Nat.leb_gt. lia. }
  split; [exact W|]. split; [|split; [|split]].
  - intros indent. destruct (dumps_grammar _ indent W) as (t & E & _).
    rewrite (dumps_depth indent d _ t (wf_tag _ W) E), L. reflexivity.
  - rewrite (copy_depth d _ _ (wf_copy _ W)), L. reflexivity.
  - destruct (equality_structural _ _ W W) as (b & E & I). destruct b; [|discriminate (proj2 I eq_refl)].
    rewrite (eq_depth d _ _ (wf_tag _ W) E), L. reflexivity.
  - rewrite destroy_depth, L. reflexivity.
Qed.

(** ** Values made of C++ data *)
From Verif Require Import Num Enum Conv.
Lemma mapM_forall {A B} (f : A -> res B) (P : B -> Prop) : (forall x y, f x = Ok y -> P y) ->
  forall l r, mapM f l = Ok r -> Forall P r.
Proof.
  intros H. induction l as [|x l IH]; intros r E; cbn [mapM] in E; [injection E as <-; constructor|].
  inv E. inv E. injection E as <-. constructor; [eapply H; eassumption|apply IH; assumption].
Qed.
Lemma mapM_members_forall {A B} (f : A -> res B) (P : B -> Prop) : (forall x y, f x = Ok y -> P y) ->
  forall l r, mapM_members f l = Ok r -> Forall (fun kv => P (snd kv)) r.
Proof.
  intros H. induction l as [|[k x] l IH]; intros r E; cbn [mapM_members] in E; [injection E as <-; constructor|].
  inv E. inv E. injection E as <-. constructor; [eapply H; eassumption|apply IH; assumption].
Qed.
Lemma emplace_forall (P : value -> Prop) k v m : P v -> Forall (fun kv => P (snd kv)) m ->
  Forall (fun kv => P (snd kv)) (fst (map_emplace k v m)).
Proof.
  intros Hv. induction m as [|[k' v'] m IH]; cbn [map_emplace]; intros H; [repeat constructor; exact Hv|].
  destruct (bytes_ltb k k'); [constructor; [exact Hv|exact H]|]. destruct (bytes_eqb k k'); [exact H|].
  inversion H as [|? ? A B]; subst. specialize (IH B). destruct (map_emplace k v m). constructor; assumption.
Qed.
Lemma assign_forall (P : value -> Prop) k v m : P v -> Forall (fun kv => P (snd kv)) m ->
  Forall (fun kv => P (snd kv)) (map_assign k v m).
Proof.
  intros Hv. induction m as [|[k' v'] m IH]; cbn [map_assign]; intros H; [repeat constructor; exact Hv|].
  inversion H as [|? ? A B]; subst. specialize (IH B).
  destruct (bytes_ltb k k'); [constructor; [exact Hv|exact H]|]. destruct (bytes_eqb k k'); constructor; assumption.
Qed.
Lemma of_list_forall (P : value -> Prop) l : Forall (fun kv => P (snd kv)) l -> Forall (fun kv => P (snd kv)) (obj_of_list l).
Proof.
  unfold obj_of_list. assert (G : forall m, Forall (fun kv => P (snd kv)) m -> Forall (fun kv => P (snd kv)) l ->
    Forall (fun kv => P (snd kv)) (fold_left (fun m kv => fst (map_emplace (fst kv) (snd kv) m)) l m)).
  { induction l as [|[k v] l IH]; cbn [fold_left fst snd]; intros m Hm Hl; [exact Hm|].
    inversion Hl; subst. apply IH; [|assumption]. apply emplace_forall; assumption. }
  intros H. apply G; [constructor|exact H].
Qed.
Lemma omax_some a b n : omax a b = Some n -> exists x y, a = Some x /\ b = Some y /\ n = Nat.max x y.
Proof. destruct a as [x|], b as [y|]; cbn; intros H; try discriminate H. injection H as <-. eauto. Qed.
Definition bounded E (t : ty) : Prop :=
  forall n d v, ty_height t = Some n -> to_value E t d = Ok v -> (height v <= n)%nat.
Lemma one_le E t : bounded E t -> forall n, ty_height t = Some n -> (1 <= n)%nat.
Proof.
  intros _. induction t as [ | | | | | | | | | |t IH|t IH|t IH|lt t IH|n' t IH|ts IH|ts IH|t IH|e|fs IH|x] using ty_ind';
    cbn [ty_height]; intros n H; try discriminate H; try (injection H as <-; lia); try (apply IH; exact H);
    try (destruct (ty_height t); [injection H as <-; lia|discriminate H]).
  - destruct (fold_right _ _ ts); [injection H as <-; lia|discriminate H].
  - revert n H. induction ts as [|t ts IH']; cbn [fold_right]; intros n H; [injection H as <-; lia|].
    inversion IH; subst. apply omax_some in H. destruct H as (x & y & A & B & ->). specialize (IH' H3 _ B). lia.
  - destruct (fold_right _ _ fs); [injection H as <-; lia|discriminate H].
Qed.
Lemma native_height E t : bounded E t.
Proof.
  induction t as [ | | | |sg w|p| | | | |t IH|t IH|t IH|lt t IH|n' t IH|ts IH|ts IH|t IH|e|fs IH|x] using ty_ind';
    intros n d v Hn Hv; cbn [ty_height] in Hn; try discriminate Hn;
    try (injection Hn as <-; destruct d as [b|z|dx|s| |dv|l|m|o|l|i d|m|l| ]; cbn [to_value] in Hv; try discriminate Hv; injection Hv as <-; cbn; lia).
  - destruct d as [b|z|dx|s| |dv|l|m|o|l|i d|m|l| ]; cbn [to_value] in Hv; try discriminate Hv. destruct o as [d|]; [exact (IH _ _ _ Hn Hv)|].
    injection Hv as <-. exact (one_le E t IH n Hn).
  - destruct d as [b|z|dx|s| |dv|l|m|o|l|i d|m|l| ]; cbn [to_value] in Hv; try discriminate Hv. destruct o as [d|]; [exact (IH _ _ _ Hn Hv)|].
    injection Hv as <-. exact (one_le E t IH n Hn).
  - destruct (ty_height t) as [k|] eqn:T; [|discriminate Hn]. injection Hn as <-.
    destruct d as [b|z|dx|s| |dv|l|m|o|l|i d|m|l| ]; cbn [to_value] in Hv; try discriminate Hv. inv Hv. injection Hv as <-. apply height_arr.
    eapply mapM_forall; [|exact E0]. intros x y. exact (IH _ _ _ T).
  - destruct (ty_height t) as [k|] eqn:T; [|discriminate Hn]. injection Hn as <-.
    destruct d as [b|z|dx|s| |dv|l|m|o|l|i d|m|l| ]; cbn [to_value] in Hv; try discriminate Hv. inv Hv. injection Hv as <-. apply height_arr.
    eapply mapM_forall; [|exact E0]. intros x y. exact (IH _ _ _ T).
  - destruct (ty_height t) as [k|] eqn:T; [|discriminate Hn]. injection Hn as <-.
    destruct d as [b|z|dx|s| |dv|l|m|o|l|i d|m|l| ]; cbn [to_value] in Hv; try discriminate Hv. destruct (Nat.eqb _ _); [|discriminate Hv].
    inv Hv. injection Hv as <-. apply height_arr.
    eapply mapM_forall; [|exact E0]. intros x y. exact (IH _ _ _ T).
  - destruct (fold_right _ _ ts) as [k|] eqn:F; [|discriminate Hn]. injection Hn as <-.
    destruct d as [b|z|dx|s| |dv|l|m|o|l|i d|m|l| ]; cbn [to_value] in Hv; try discriminate Hv. inv Hv. injection Hv as <-. apply height_arr.
    rename l into ds. revert k F ds a E0. induction ts as [|t ts IH']; intros k F ds a E0; destruct ds as [|d ds]; cbn [to_tuple] in E0; try discriminate E0.
    + injection E0 as <-. constructor.
    + inversion IH as [|? ? Ht Hts]; subst. cbn [fold_right] in F. apply omax_some in F. destruct F as (x & y & A & B & ->).
      inv E0. inv E0. injection E0 as <-. constructor.
      * specialize (Ht _ _ _ A E1). lia.
      * eapply Forall_impl; [|exact (IH' Hts _ B _ _ E2)]. cbn beta. intros; lia.
  - destruct d as [b|z|dx|s| |dv|l|m|o|l|i d|m|l| ]; cbn [to_value] in Hv; try discriminate Hv. revert n Hn i Hv.
    induction ts as [|t ts IH']; intros n Hn i Hv; [discriminate Hv|].
    inversion IH as [|? ? Ht Hts]; subst. cbn [fold_right] in Hn. apply omax_some in Hn. destruct Hn as (x & y & A & B & ->).
    destruct i as [|i]; cbn [to_variant] in Hv.
    + specialize (Ht _ _ _ A Hv). lia.
    + specialize (IH' Hts _ B _ Hv). lia.
  - destruct (ty_height t) as [k|] eqn:T; [|discriminate Hn]. injection Hn as <-.
    destruct d as [b|z|dx|s| |dv|l|m|o|l|i d|m|l| ]; cbn [to_value] in Hv; try discriminate Hv. inv Hv. injection Hv as <-. apply height_obj.
    apply (of_list_forall (fun v => (height v <= k)%nat)).
    eapply (mapM_members_forall _ (fun v => (height v <= k)%nat)); [|exact E0]. intros x y. exact (IH _ _ _ T).
  - injection Hn as <-. destruct d as [b|z|dx|s| |dv|l|m|o|l|i d|m|l| ]; cbn [to_value] in Hv; try discriminate Hv. unfold v_enum in Hv.
    destruct (enum_as_number E).
    + injection Hv as <-. destruct (e_underlying e); cbn; lia.
    + inv Hv. destruct (is_nil a); [discriminate Hv|]. injection Hv as <-. cbn. lia.
  - destruct (fold_right _ _ fs) as [k|] eqn:F; [|discriminate Hn]. injection Hn as <-.
    destruct d as [b|z|dx|s| |dv|l|m|o|l|i d|m|l| ]; cbn [to_value] in Hv; try discriminate Hv. inv Hv. injection Hv as <-. apply height_obj.
    assert (G : forall l o a j, (k <= j)%nat -> Forall (fun kv => (height (snd kv) <= j)%nat) o ->
      dump_fields (to_value E) fs l o = Ok a -> Forall (fun kv => (height (snd kv) <= j)%nat) a).
    { clear a E0. revert k F. induction fs as [|[f t] fs IH']; intros k F ds o a j Hj Ho E0; destruct ds as [|d ds]; cbn [dump_fields] in E0; try discriminate E0.
      - injection E0 as <-. exact Ho.
      - inversion IH as [|? ? Ht Hts]; subst. cbn [fold_right snd] in *. apply omax_some in F. destruct F as (x & y & A & B & ->).
        inv E0. apply (IH' Hts _ B ds (fst (obj_emplace (json_key f) a0 o)) a j); [lia| |exact E0].
        cbn [obj_emplace fst]. apply (assign_forall (fun v => (height v <= j)%nat)); [|exact Ho].
        specialize (Ht _ _ _ A E1). lia. }
    exact (G _ _ _ k (le_n _) (Forall_nil _) E0).
Qed.
