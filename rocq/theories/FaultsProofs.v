(** * Proofs about allocations that fail *)
From Verif Require Import Base BaseProofs Value Dump Containers Num Enum Conv Info Stream SpecConv SpecHeap SpecInfo Faults SpecFaults
  ApiProofs ConvProofs InfoProofs.

(** ** Writers *)
Definition cat (d d' : res bytes) : res bytes := do a <- d; do b <- d'; Ok (a ++ b).
Section Writers.
  Context (limit : N).
  Notation size t := (N.of_nat (length t)).
  Definition writes (w : writer) (d : res bytes) : Prop := forall out s, size out <= limit ->
    exists p s' r, w out s = (out ++ p, s', r) /\ incl s' s /\
    match d with
    | Ok t =>
        (r = Ok tt /\ p = t /\ size out + size t <= limit) \/
        (r = Throw BadAlloc /\ In true s /\ exists q, t = p ++ q) \/
        (r = Throw LengthError /\ limit < size out + size t /\ exists q, t = p ++ q)
    | _ => r = (do _ <- d; Ok tt) \/ (r = Throw BadAlloc /\ In true s) \/ r = Throw LengthError
    end.
  Lemma writes_append t : writes (append limit t) (Ok t).
  Proof.
    intros out s L. unfold append. destruct (N.ltb_spec limit (size out + size t)).
    - exists [], s, (Throw LengthError). rewrite app_nil_r. splits; auto using incl_refl. right. right. splits; auto. now exists t.
    - destruct s as [|[] s].
      + exists t, [], (Ok tt). splits; auto using incl_refl.
      + exists [], s, (Throw BadAlloc). rewrite app_nil_r. splits; auto using incl_tl, incl_refl. right. left. splits; [now left|]. now exists t.
      + exists t, s, (Ok tt). splits; auto using incl_tl, incl_refl.
  Qed.
  Lemma size_spaces n : size (spaces n) = n mod size_mod.
  Proof. unfold spaces. rewrite repeat_length. lia. Qed.
  Lemma append_spaces_eq n : forall out s, append_spaces limit n out s = append limit (spaces n) out s.
  Proof. intros. unfold append_spaces, append. now rewrite size_spaces. Qed.
  Lemma writes_spaces n : writes (append_spaces limit n) (Ok (spaces n)).
  Proof. intros out s L. rewrite append_spaces_eq. now apply writes_append. Qed.
  Lemma writes_push c : writes (push limit c) (Ok [c]).
  Proof. apply writes_append. Qed.
  Lemma writes_none : writes (stop (Ok tt)) (Ok []).
  Proof.
    intros out s L. exists [], s, (Ok tt). rewrite app_nil_r. splits; auto using incl_refl. left. splits; auto. cbn. lia.
  Qed.
  Lemma writes_stop (d : res unit) : d <> Ok tt -> writes (stop d) (do _ <- d; Ok []).
  Proof.
    intros Hd out s L. exists [], s, d. rewrite app_nil_r. splits; auto using incl_refl. destruct d as [[]| | | |]; cbn; auto. congruence.
  Qed.
  Lemma writes_complain : writes complain (Throw JsonException).
  Proof.
    intros out s L. unfold complain. destruct s as [|[] s].
    - exists [], [], (Throw JsonException). rewrite app_nil_r. splits; auto using incl_refl.
    - exists [], s, (Throw BadAlloc). rewrite app_nil_r. splits; auto using incl_tl, incl_refl. right. left. split; auto. now left.
    - exists [], s, (Throw JsonException). rewrite app_nil_r. splits; auto using incl_tl, incl_refl.
  Qed.
  Lemma writes_then w w' d d' : writes w d -> writes w' d' -> writes (w;; w') (cat d d').
  Proof.
    intros H H' out s L. destruct (H out s L) as (p & s1 & r & E1 & I1 & C). unfold andthen. rewrite E1. unfold cat.
    destruct d as [t| | | |]; cbn [bind].
    - destruct C as [(-> & -> & L1)|[(-> & T & q & ->)|(-> & L1 & q & ->)]].
      + assert (L2 : size (out ++ t) <= limit) by (rewrite app_length; lia).
        destruct (H' (out ++ t) s1 L2) as (p' & s2 & r' & E2 & I2 & C2). rewrite E2.
        exists (t ++ p'), s2, r'. rewrite app_assoc. splits; auto; [eapply incl_tran; eauto|].
        destruct d' as [t'| | | |]; cbn [bind].
        * rewrite app_length in C2. rewrite app_length.
          destruct C2 as [(-> & -> & L3)|[(-> & T & q & ->)|(-> & L3 & q & ->)]].
          -- left. splits; auto. lia.
          -- right. left. splits; auto. exists q. now rewrite app_assoc.
          -- right. right. splits; [lia|]. exists q. now rewrite app_assoc.
        * destruct C2 as [->|[(-> & T)| ->]]; auto.
        * destruct C2 as [->|[(-> & T)| ->]]; auto.
        * destruct C2 as [->|[(-> & T)| ->]]; auto.
        * destruct C2 as [->|[(-> & T)| ->]]; auto.
      + exists p, s1, (Throw BadAlloc). splits; auto. destruct d'; cbn [bind]; auto. right. left. splits; auto. eexists. now rewrite <- app_assoc.
      + exists p, s1, (Throw LengthError). splits; auto. destruct d'; cbn [bind]; auto. right. right. splits; auto; [rewrite app_length; lia|]. eexists. now rewrite <- app_assoc.
    - exists p, s1, r. splits; auto. destruct C as [->|[(-> & T)| ->]]; auto.
    - exists p, s1, r. splits; auto. destruct C as [->|[(-> & T)| ->]]; auto.
    - exists p, s1, r. splits; auto. destruct C as [->|[(-> & T)| ->]]; auto.
    - exists p, s1, r. splits; auto. destruct C as [->|[(-> & T)| ->]]; auto.
  Qed.
  Lemma writes_eq w d d' : writes w d -> d = d' -> writes w d'.
  Proof. now intros H <-. Qed.

  Lemma escape_out cur : forall beg result, escape_loop cur beg result = result ++ escape_loop cur beg [].
  Proof.
    induction cur as [|ch r IH]; intros beg result; cbn [escape_loop]; [reflexivity|].
    destruct (escape_letter ch) as [e|]; [|destruct (ch <? 32)].
    - rewrite IH, (IH r ([] ++ _)), <- app_assoc. reflexivity.
    - rewrite IH, (IH r ([] ++ _)), <- app_assoc. reflexivity.
    - apply IH.
  Qed.
  Lemma writes_escaped cur : forall beg, writes (emit_escaped limit cur beg) (Ok (escape_loop cur beg [])).
  Proof.
    induction cur as [|ch r IH]; intros beg; cbn [escape_loop emit_escaped]; [apply writes_append|].
    destruct (escape_letter ch) as [e|]; [|destruct (ch <? 32)].
    - eapply writes_eq; [repeat (eapply writes_then; [apply writes_append|]); apply IH|].
      rewrite (escape_out r r ([] ++ _)). cbn [cat bind]. cbn [app]. now rewrite <- app_assoc.
    - eapply writes_eq; [repeat (eapply writes_then; [apply writes_append|]); apply IH|].
      rewrite (escape_out r r ([] ++ _)). cbn [cat bind]. cbn [app]. now rewrite <- app_assoc.
    - apply IH.
  Qed.
  Lemma writes_sep {A} (l : list A) : writes (match l with [] => stop (Ok tt) | _ => push limit 44 end) (Ok (match l with [] => [] | _ => [44] end)).
  Proof. destruct l; [apply writes_none|apply writes_push]. Qed.

  Ltac atoms := repeat first [eapply writes_then | apply writes_sep | apply writes_append | apply writes_push | apply writes_spaces | apply writes_escaped | eassumption].
  Ltac joined := repeat match goal with |- context [bind ?d _] => is_var d; destruct d; cbn [bind] end; try reflexivity.
  Section Bodies.
    Context (w : value -> writer) (f : value -> res bytes).
    Definition each (l : list value) : Prop := Forall (fun v => writes (w v) (f v)) l.
    Lemma writes_elems l : each l -> writes (emit_elems limit w l) (dump_elems f l).
    Proof.
      induction 1 as [|v r Hv _ IH]; cbn [emit_elems dump_elems]; [apply writes_none|].
      eapply writes_eq; [atoms|]. unfold cat. destruct (f v), (dump_elems f r); reflexivity.
    Qed.
    Lemma writes_array l : each l -> writes (emit_array_with limit w l) (dump_array_with f l).
    Proof.
      intros H. pose proof (writes_elems l H). unfold emit_array_with, dump_array_with.
      eapply writes_eq; [atoms|]. unfold cat. destruct (dump_elems f l); reflexivity.
    Qed.
    Lemma writes_members m : each (map snd m) -> writes (emit_members limit w m) (dump_members f m).
    Proof.
      induction m as [|[k v] r IH]; intros H; cbn [emit_members dump_members]; [apply writes_none|]. cbn [map snd] in H. inversion H as [|? ? Hv Hr]; subst.
      specialize (IH Hr). eapply writes_eq; [atoms|]. unfold cat, escape_string. destruct (f v), (dump_members f r); cbn [bind]; reflexivity.
    Qed.
    Lemma writes_object m : each (map snd m) -> writes (emit_object_with limit w m) (dump_object_with f m).
    Proof.
      intros H. pose proof (writes_members m H). unfold emit_object_with, dump_object_with.
      eapply writes_eq; [atoms|]. unfold cat. destruct (dump_members f m); reflexivity.
    Qed.
    Lemma writes_lay_elems i n l : each l -> writes (lay_elems limit w i n l) (format_elems f i n l).
    Proof.
      induction 1 as [|v r Hv _ IH]; cbn [lay_elems format_elems]; [apply writes_none|].
      eapply writes_eq; [atoms|]. unfold cat. destruct (f v), (format_elems f i n r); cbn [bind]; try reflexivity.
    Qed.
    Lemma writes_lay_array i n l : each l -> writes (lay_array_with limit w i n l) (format_array_with f i n l).
    Proof.
      intros H. pose proof (writes_lay_elems i n l H). unfold lay_array_with, format_array_with.
      eapply writes_eq; [atoms|]. unfold cat. destruct (format_elems f i n l); reflexivity.
    Qed.
    Lemma writes_lay_members i n m : each (map snd m) -> writes (lay_members limit w i n m) (format_members f i n m).
    Proof.
      induction m as [|[k v] r IH]; intros H; cbn [lay_members format_members]; [apply writes_none|]. cbn [map snd] in H. inversion H as [|? ? Hv Hr]; subst.
      specialize (IH Hr). eapply writes_eq; [atoms|]. unfold cat, escape_string. destruct (f v), (format_members f i n r); cbn [bind]; try reflexivity.
    Qed.
    Lemma writes_lay_object i n m : each (map snd m) -> writes (lay_object_with limit w i n m) (format_object_with f i n m).
    Proof.
      intros H. pose proof (writes_lay_members i n m H). unfold lay_object_with, format_object_with.
      eapply writes_eq; [atoms|]. unfold cat. destruct (format_members f i n m); reflexivity.
    Qed.
  End Bodies.

  Lemma stopped (d : res unit) (b : res bytes) : d <> Ok tt -> b = (do _ <- d; Ok []) -> writes (stop d) b.
  Proof. intros H ->. now apply writes_stop. Qed.
  Lemma cut d : writes (push limit 34;; stop (Throw BadVariant);; d) (Throw BadVariant).
  Proof.
    intros out s L. unfold andthen, stop. pose proof (writes_push 34 out s L) as (p & s' & r & -> & I1 & C). exists p, s'.
    destruct r as [[]|e| | |]; eexists; splits; auto.
    all: destruct C as [(H & _)|[(H & T & _)|(H & _)]]; inversion H; subst; auto.
  Qed.
  Theorem writes_emit v : writes (emit limit v) (dump v).
  Proof.
    induction v as [t s|t|t l IH|t|t m IH] using value_ind'.
    - destruct t; cbn -[null_string]; try apply writes_append; try apply writes_complain; try (apply stopped; [discriminate|reflexivity]).
      eapply writes_eq; [atoms|]. reflexivity.
    - destruct t; cbn -[null_string]; try apply writes_append; try apply writes_complain; try apply cut; apply stopped; try discriminate; reflexivity.
    - destruct t; cbn -[null_string]; try apply writes_append; try apply writes_complain; try apply cut; try (apply stopped; [discriminate|reflexivity]).
      apply (writes_array (emit limit) dump). exact IH.
    - destruct t; cbn -[null_string]; try apply writes_append; try apply writes_complain; try apply cut; apply stopped; try discriminate; reflexivity.
    - destruct t; cbn -[null_string]; try apply writes_append; try apply writes_complain; try apply cut; try (apply stopped; [discriminate|reflexivity]).
      apply (writes_object (emit limit) dump). unfold each. apply Forall_map. exact IH.
  Qed.
  Theorem writes_lay i v : forall n, writes (lay limit i n v) (format_to i n v).
  Proof.
    induction v as [t s|t|t l IH|t|t m IH] using value_ind'; intros n.
    - destruct t; try apply (writes_emit (VStr _ s)); cbn; try apply writes_complain; try (apply stopped; [discriminate|reflexivity]).
    - destruct t; try apply (writes_emit (VArr _ None)); cbn; try apply writes_complain; try (apply stopped; [discriminate|reflexivity]).
    - destruct t; try apply (writes_emit (VArr _ (Some l))); cbn; try apply writes_complain; try (apply stopped; [discriminate|reflexivity]).
      apply (writes_lay_array (lay limit i (n + 1)) (format_to i (n + 1))). unfold each. rewrite Forall_forall in *. intros; now apply IH.
    - destruct t; try apply (writes_emit (VObj _ None)); cbn; try apply writes_complain; try (apply stopped; [discriminate|reflexivity]).
    - destruct t; try apply (writes_emit (VObj _ (Some m))); cbn; try apply writes_complain; try (apply stopped; [discriminate|reflexivity]).
      apply (writes_lay_object (lay limit i (n + 1)) (format_to i (n + 1))). unfold each. apply Forall_map. rewrite Forall_forall in *. intros; now apply IH.
  Qed.
End Writers.

(** ** Outcomes *)
(** [B]: bad_alloc may be thrown; [T]: the program may be ended; both only if the list has a failure *)
Definition runs {A} (B T : Prop) (m : M A) (r : res A) : Prop := forall s,
  exists s' o, m s = (s', o) /\ incl s' s /\
  (o = Res r \/ (o = Res (Throw BadAlloc) /\ In true s /\ B) \/ (o = Ended /\ In true s /\ T)).
Section Runs.
  Context (B T : Prop).
  Lemma runs_now {A} (r : res A) : runs B T (now r) r.
  Proof. intros s. exists s, (Res r). splits; auto using incl_refl. Qed.
  Lemma runs_request : B -> runs B T request (Ok tt).
  Proof.
    intros HB [|[] s]; cbn.
    - exists [], (Res (Ok tt)). splits; auto using incl_refl.
    - exists s, (Res (Throw BadAlloc)). splits; auto using incl_tl, incl_refl. right. left. splits; auto.
    - exists s, (Res (Ok tt)). splits; auto using incl_tl, incl_refl.
  Qed.
  Lemma runs_bind {A C} (m : M A) (f : A -> M C) r g : runs B T m r -> (forall a, r = Ok a -> runs B T (f a) (g a)) -> runs B T (bindM m f) (bind r g).
  Proof.
    intros H H' s. destruct (H s) as (s1 & o & E1 & I1 & C1). unfold bindM. rewrite E1.
    destruct C1 as [->|[(-> & HT & HB)|(-> & HT & HB)]].
    - destruct r as [a| | | |]; cbn [bind].
      + destruct (H' a eq_refl s1) as (s2 & o2 & E2 & I2 & C2). exists s2, o2. splits; auto; [eapply incl_tran; eauto|].
        destruct C2 as [->|[(-> & H1 & H2)|(-> & H1 & H2)]]; [left; auto|right; left; auto|right; right; auto].
      + eexists s1, _. splits; auto.
      + eexists s1, _. splits; auto.
      + eexists s1, _. splits; auto.
      + eexists s1, _. splits; auto.
    - eexists s1, _. splits; auto.
    - eexists s1, _. splits; auto.
  Qed.
  (** a step of the faulty program only *)
  Lemma runs_step {C} (m : M unit) (f : unit -> M C) g : runs B T m (Ok tt) -> runs B T (f tt) g -> runs B T (bindM m f) g.
  Proof. intros H H'. change g with (bind (Ok tt) (fun _ : unit => g)). apply runs_bind; auto. intros [] _. exact H'. Qed.
  Lemma runs_eq {A} (m : M A) r r' : runs B T m r -> r = r' -> runs B T m r'.
  Proof. now intros H <-. Qed.
  Lemma runs_text_error {A} (r : res A) : B -> runs B T (with_text r) r.
  Proof.
    intros HB. destruct r as [a|[]| | |]; cbn; try apply runs_now. apply runs_step; [now apply runs_request|apply runs_now].
  Qed.
  Lemma runs_text short k : ((short < length k)%nat -> B) -> runs B T (text short k) (Ok tt).
  Proof. intros HB. unfold text. destruct (Nat.leb_spec (length k) short); [apply runs_now|apply runs_request; auto]. Qed.
End Runs.
Lemma runs_weak {A} (B B' T T' : Prop) (m : M A) r : (B -> B') -> (T -> T') -> runs B T m r -> runs B' T' m r.
Proof. intros HB HT H s. destruct (H s) as (s1 & o & E1 & I1 & C1). exists s1, o. splits; auto. destruct C1 as [->|[(-> & ? & ?)|(-> & ? & ?)]]; [left; auto|right; left; auto|right; right; auto]. Qed.
Lemma runs_noexcept {A} (B T : Prop) (m : M A) a : (B -> T) -> runs B T m (Ok a) -> runs False T (noexcept m) (Ok a).
Proof.
  intros HBT H s. destruct (H s) as (s1 & o & E1 & I1 & C1). unfold noexcept. rewrite E1. destruct C1 as [->|[(-> & ? & ?)|(-> & ? & ?)]]; eexists s1, _; (split; [reflexivity|]; split; [auto|]); [left; auto|right; right; auto|right; right; auto].
Qed.
Lemma existsb_false {A} (f : A -> bool) l x : existsb f l = false -> In x l -> f x = false.
Proof. intros H Hx. destruct (f x) eqn:Ef; auto. assert (existsb f l = true) by (apply existsb_exists; eauto). congruence. Qed.

Lemma owns_spec short : forall d, owns short d = holds_memory short d.
Proof.
  fix IHd 1. intros d. destruct d as [| | | | |v|l|m|o|l|i d|m|l|]; try reflexivity.
  all: try (first [destruct v|destruct m|destruct o]; reflexivity).
  - destruct l; reflexivity.
  - destruct l; reflexivity.
  - exact (IHd d).
  - cbn [owns holds_memory]. induction l as [|d l IH]; [reflexivity|]. cbn [existsb]. rewrite (IHd d). f_equal. exact IH.
Qed.
Lemma owns_all short l : existsb (owns short) l = existsb (holds_memory short) l.
Proof. induction l as [|d l IH]; [reflexivity|]. cbn. now rewrite owns_spec, IH. Qed.
Section Reading.
  Context (limit : N) (short : nat) (E : env).
  Notation req t := (is_requests short t = true).

  Lemma runs_fresh (B T : Prop) l : (existsb (owns short) l = true -> B) -> runs B T (fresh short l) (Ok tt).
  Proof. intros HB. unfold fresh. destruct (existsb _ l); [apply runs_request; auto|apply runs_now]. Qed.

  Section IsParts.
    Context (B T : Prop) (is1 : ty -> value -> M bool).
    Lemma runs_all {A} (f : A -> M bool) (g : A -> res bool) l : Forall (fun x => runs B T (f x) (g x)) l -> runs B T (try_all f l) (allM g l).
    Proof.
      induction 1 as [|x l Hx _ IH]; cbn [try_all allM]; [apply runs_now|]. apply runs_bind; auto. intros [] _; auto. apply runs_now.
    Qed.
    Lemma allM_members_all {A} (g : A -> res bool) m : allM_members g m = allM (fun kv => g (snd kv)) m.
    Proof. induction m as [|[k x] m IH]; cbn [allM_members allM snd]; [reflexivity|]. now rewrite IH. Qed.
    Lemma runs_is_tuple ts : forall l, Forall (fun t => Forall (fun v => runs B T (is1 t v) (is_ E t v)) l) ts -> runs B T (try_is_tuple is1 ts l) (is_tuple (is_ E) ts l).
    Proof.
      induction ts as [|t ts IH]; intros l H; cbn [try_is_tuple is_tuple]; [apply runs_now|]. destruct l as [|v l]; [apply runs_now|].
      inversion H as [|? ? H1 H2]; subst. inversion H1; subst. apply runs_bind; auto. intros [] _; [|apply runs_now]. apply IH. eapply Forall_impl; [|exact H2]. intros t' Ht. now inversion Ht.
    Qed.
    Lemma runs_is_variant v ts : Forall (fun t => runs B T (is1 t v) (is_ E t v)) ts -> runs B T (try_is_variant is1 ts v) (is_variant (is_ E) ts v).
    Proof.
      induction 1 as [|t ts Ht _ IH]; cbn [try_is_variant is_variant]; [apply runs_now|]. apply runs_bind; auto. intros [] _; auto. apply runs_now.
    Qed.
    Lemma runs_check v fs : (forall k o, v_find_value_key k v = Ok (Some o) -> Forall (fun ft => runs B T (is1 (snd ft) o) (is_ E (snd ft) o)) fs) ->
      Forall (fun ft => (short < length (json_key (fst ft)))%nat -> B) fs ->
      runs B T (try_check_fields short is1 fs v) (check_fields (is_ E) fs v).
    Proof.
      induction fs as [|[f t] fs IH]; intros H HB; cbn [try_check_fields check_fields]; [apply runs_now|]. inversion HB as [|? ? Hk Hks]; subst. cbn [fst] in Hk.
      assert (Hr : runs B T (try_check_fields short is1 fs v) (check_fields (is_ E) fs v)).
      { apply IH; auto. intros k o Ho. specialize (H k o Ho). now inversion H. }
      apply runs_step; [now apply runs_text|]. apply runs_bind; [apply runs_now|]. intros [w|] Hw.
      - specialize (H _ _ Hw). inversion H; subst. apply runs_bind; auto. intros [] _; auto. apply runs_step; [now apply runs_text|apply runs_now].
      - destruct (is_optional f); auto. apply runs_step; [now apply runs_text|apply runs_now].
    Qed.
  End IsParts.

  Lemma elements_ok l : ok (VArr Tarray (Some l)) -> Forall ok l.
  Proof. intros H. now inversion H. Qed.
  Lemma array_elems v l : ok v -> as_array_c v = Ok l -> Forall ok l.
  Proof. intros [t s [H1 H2]|l' Hl|[]|m Hm Hk|[]]; [destruct t; cbn; try congruence; discriminate|cbn; now intros [= <-]|discriminate..]. Qed.
  Lemma object_elems v m : ok v -> as_object_c v = Ok m -> Forall (fun kv => ok (snd kv)) m.
  Proof. intros [t s [H1 H2]|l' Hl|[]|m' Hm Hk|[]]; [destruct t; cbn; try congruence; discriminate|discriminate|cbn; now intros [= <-]|discriminate..]. Qed.
  Lemma runs_is t : lawful sound t -> forall v, ok v -> runs False (req t) (try_is short E t v) (is_ E t v).
  Proof.
    induction t as [ | | | |sg w|p| | | | |t IH|t IH|t IH|ins t IH|n t IH|ts IH|ts IH|t IH|e|fs IH|x] using ty_ind'; intros Hlaw v Hv;
      destruct (is_sound E _ Hlaw v Hv) as [b Hb]; rewrite Hb;
      try (apply (runs_noexcept False); [tauto|]; rewrite <- Hb; apply runs_now).
    - apply (runs_noexcept False); [tauto|]. rewrite <- Hb. cbn [is_]. destruct (is_null v); [apply runs_now|]. apply IH; auto. now inversion Hlaw.
    - apply (runs_noexcept False); [tauto|]. rewrite <- Hb. cbn [is_]. destruct (is_null v); [apply runs_now|]. apply IH; auto. now inversion Hlaw.
    - apply (runs_noexcept False); [tauto|]. rewrite <- Hb. cbn [is_]. destruct (is_array v); [|apply runs_now]. apply runs_bind; [apply runs_now|]. intros l Hl. apply runs_all.
      eapply Forall_impl; [|eapply array_elems; eauto]. intros x Hx. apply IH; auto. now inversion Hlaw.
    - apply (runs_noexcept False); [tauto|]. rewrite <- Hb. cbn [is_]. destruct (is_array v); [|apply runs_now]. apply runs_bind; [apply runs_now|]. intros l Hl. apply runs_all.
      eapply Forall_impl; [|eapply array_elems; eauto]. intros x Hx. apply IH; auto. now inversion Hlaw.
    - apply (runs_noexcept False); [tauto|]. rewrite <- Hb. cbn [is_]. destruct (is_array v); [|apply runs_now]. apply runs_bind; [apply runs_now|]. intros l Hl.
      destruct (Nat.eqb (length l) n); [|apply runs_now]. apply runs_all.
      eapply Forall_impl; [|eapply array_elems; eauto]. intros x Hx. apply IH; auto. now inversion Hlaw.
    - apply (runs_noexcept False); [tauto|]. rewrite <- Hb. revert Hb. cbn [is_]. destruct (is_array v); [|intros; apply runs_now]. intros Hb. apply runs_bind; [apply runs_now|]. intros l Hl.
      rewrite Hl in Hb. cbn [bind] in Hb. destruct (Nat.eqb (length l) (length ts)); [|apply runs_now]. rewrite Hb.
      apply (runs_noexcept False); [tauto|]. rewrite <- Hb. apply runs_is_tuple. assert (Hts : Forall (lawful sound) ts) by now inversion Hlaw.
      rewrite Forall_forall in *. intros t Ht. rewrite Forall_forall. intros x Hx. eapply runs_weak; [| |apply IH; auto]; [auto| |].
      + intros Hr. cbn [is_requests]. apply existsb_exists. eauto.
      + eapply Forall_forall; [|exact Hx]. eapply array_elems; eauto.
    - apply (runs_noexcept False); [tauto|]. apply (runs_noexcept False); [tauto|]. rewrite <- Hb. cbn [is_]. apply runs_is_variant.
      assert (Hts : Forall (lawful sound) ts) by now inversion Hlaw. rewrite Forall_forall in *. intros t Ht. eapply runs_weak; [| |apply IH; auto]; auto.
      intros Hr. cbn [is_requests]. apply existsb_exists. eauto.
    - apply (runs_noexcept False); [tauto|]. rewrite <- Hb. cbn [is_]. destruct (is_object v); [|apply runs_now]. apply runs_bind; [apply runs_now|]. intros l Hl. rewrite allM_members_all. apply runs_all.
      eapply Forall_impl; [|eapply object_elems; eauto]. intros x Hx. apply IH; auto. now inversion Hlaw.
    - apply (runs_noexcept (req (TRec fs))); [tauto|]. rewrite <- Hb. cbn [is_]. apply runs_step.
      { apply runs_fresh. intros Ho. cbn [is_requests]. rewrite (owns_all short) in Ho. unfold defaults in Ho. now rewrite Ho. }
      apply runs_bind; [|intros; apply runs_now]. assert (Hts : Forall (fun ft => lawful sound (snd ft)) fs) by now inversion Hlaw.
      apply runs_check.
      + intros k o Ho. destruct (ok_find v k Hv) as (o' & Ho' & Hok). assert (o' = Some o) as -> by congruence. rewrite Forall_forall in *. intros ft Hft.
        eapply runs_weak; [| |apply IH; auto]; [tauto|]. intros Hr. cbn [is_requests]. apply orb_true_iff. right. apply existsb_exists. exists ft. split; auto. apply orb_true_iff. auto.
      + rewrite Forall_forall. intros ft Hft Hl. cbn [is_requests]. apply orb_true_iff. right. apply existsb_exists. exists ft. split; auto. apply orb_true_iff. left. now apply Nat.ltb_lt.
    - apply (runs_noexcept True); [reflexivity|]. apply runs_step; [now apply runs_request|]. rewrite <- Hb. apply runs_now.
  Qed.

  Notation asks t := (as_asks short t = true).
  Section AsParts.
    Context (T : Prop) (as1 : ty -> value -> M data).
    Lemma runs_map {A C} (f : A -> M C) (g : A -> res C) b l : Forall (fun x => runs True T (f x) (g x)) l -> runs True T (try_map f b l) (mapM g l).
    Proof.
      induction 1 as [|x l Hx _ IH]; cbn [try_map mapM]; [apply runs_now|]. apply runs_bind; auto. intros y _.
      apply runs_step; [destruct b; [now apply runs_request|apply runs_now]|]. apply runs_bind; auto. intros; apply runs_now.
    Qed.
    Lemma runs_map_members {A C} (f : A -> M C) (g : A -> res C) m : Forall (fun kv => runs True T (f (snd kv)) (g (snd kv))) m ->
      runs True T (try_map_members f m) (mapM_members g m).
    Proof.
      induction 1 as [|[k x] l Hx _ IH]; cbn [try_map_members mapM_members]; [apply runs_now|]. apply runs_bind; auto. intros y _.
      apply runs_step; [now apply runs_request|]. apply runs_bind; auto. intros; apply runs_now.
    Qed.
    Lemma runs_as_tuple ts : forall l, Forall (fun t => Forall (fun v => runs True T (as1 t v) (as_ E t v)) l) ts -> runs True T (try_as_tuple as1 ts l) (as_tuple (as_ E) ts l).
    Proof.
      induction ts as [|t ts IH]; intros l H; cbn [try_as_tuple as_tuple]; [apply runs_now|]. destruct l as [|v l]; [apply runs_now|].
      inversion H as [|? ? H1 H2]; subst. inversion H1; subst. apply runs_bind; auto. intros d _. apply runs_bind; [|intros; apply runs_now].
      apply IH. eapply Forall_impl; [|exact H2]. intros t' Ht. now inversion Ht.
    Qed.
    Lemma runs_as_variant v ts : Forall (fun t => runs True T (as1 t v) (as_ E t v)) ts -> Forall (fun t => runs False T (try_is short E t v) (is_ E t v)) ts ->
      forall n, runs True T (try_as_variant short E as1 n ts v) (as_variant E (as_ E) n ts v).
    Proof.
      induction ts as [|t ts IH]; intros H1 H2 n; cbn [try_as_variant as_variant]; [now apply runs_text_error|]. inversion H1; subst. inversion H2; subst.
      apply runs_bind; [eapply runs_weak; [| |eassumption]; tauto|]. intros [] _; auto. apply runs_bind; auto. intros; apply runs_now.
    Qed.
    Lemma runs_as_alternative v ts : Forall (fun t => runs True T (as1 t v) (as_ E t v)) ts ->
      forall n, runs True T (try_as_alternative as1 ts n v) (as_alternative (as_ E) ts n v).
    Proof.
      induction 1 as [|t ts Ht _ IH]; intros n; cbn [try_as_alternative as_alternative]; [apply runs_now|]. destruct n; auto.
    Qed.

    Definition loads (fs : list (field * ty)) (v : value) (cur : list data) : Prop := forall s,
      exists l s' o, try_load_fields short E as1 fs v cur s = (l, (s', o)) /\ incl s' s /\
      ((l, o) = (fst (load_fields E (as_ E) fs v cur), Res (snd (load_fields E (as_ E) fs v cur))) \/
       ((o = Res (Throw BadAlloc) /\ In true s \/ o = Ended /\ In true s /\ T) /\
        exists n, l = assigned_up_to n cur (fst (load_fields E (as_ E) fs v cur)))).
    Lemma stays (fs : list (field * ty)) c (cur : list data) (x : list data * res (option bytes)) : c :: cur = assigned_up_to 0 (c :: cur) (fst x).
    Proof. reflexivity. Qed.
    Lemma fails_now (A : Type) (m : M A) r s : runs True T m r -> exists s' o, m s = (s', o) /\ incl s' s /\
      (o = Res r \/ (o = Res (Throw BadAlloc) /\ In true s) \/ (o = Ended /\ In true s /\ T)).
    Proof. intros H. destruct (H s) as (s1 & o & E1 & I1 & C1). exists s1, o. splits; auto. tauto. Qed.
    Lemma one_more n d c cur (r : list data) : d :: assigned_up_to n cur r = assigned_up_to (S n) (c :: cur) (d :: r).
    Proof. reflexivity. Qed.
    Lemma load_runs v : ok v -> forall fs cur, length cur = length fs -> Forall (fun ft => forall w, ok w -> runs True T (as1 (snd ft) w) (as_ E (snd ft) w)) fs ->
      Forall (fun ft => forall w, ok w -> runs False T (try_is short E (snd ft) w) (is_ E (snd ft) w)) fs -> Forall (fun ft => lawful sound (snd ft)) fs -> loads fs v cur.
    Proof.
      intros Hv. induction fs as [|[f t] fs IH]; intros cur Hlen Ha Hi Hlaw s.
      { destruct cur; [|discriminate]. cbn [try_load_fields load_fields]. exists [], s, (Res (Ok None)). splits; auto using incl_refl. }
      destruct cur as [|c cur]; [discriminate|]. injection Hlen as Hlen.
      inversion Ha as [|? ? Ha1 Ha2]; subst. inversion Hi as [|? ? Hi1 Hi2]; subst. inversion Hlaw as [|? ? Hl1 Hl2]; subst. cbn [snd] in *.
      specialize (IH cur Hlen Ha2 Hi2 Hl2). cbn [try_load_fields load_fields].
      set (k := json_key f). destruct (ok_find v k Hv) as (o & Ho & Hok).
      assert (Hf : runs True T (let* _ := text short k in now (v_find_value_key k v)) (Ok o)).
      { apply runs_step; [now apply runs_text|]. rewrite Ho. apply runs_now. }
      assert (Hm : runs True T (let* _ := text short k in now (Ok (Some k))) (Ok (Some k))).
      { apply runs_step; [now apply runs_text|]. apply runs_now. }
      destruct (fails_now _ _ _ s Hf) as (s1 & o1 & -> & I1 & C1). rewrite Ho.
      destruct C1 as [->|[(-> & HT)|(-> & HT & HB)]].
      2: { eexists _, s1, _. split; [reflexivity|]. split; [auto|]. right. split; [left; auto|]. now exists O. }
      2: { eexists _, s1, _. split; [reflexivity|]. split; [auto|]. right. split; [right; auto|]. now exists O. }
      destruct o as [w|].
      - specialize (Hok w eq_refl). destruct (is_sound E t Hl1 w Hok) as [b Hb].
        destruct (fails_now _ _ _ s1 (runs_weak _ True _ T _ _ (fun _ => I) (fun x => x) (Hi1 w Hok))) as (s2 & o2 & -> & I2 & C2). rewrite Hb in *.
        destruct C2 as [->|[(-> & HT)|(-> & HT & HB)]].
        2: { eexists _, s2, _. split; [reflexivity|]. split; [eapply incl_tran; eauto|]. right. split; [left; auto|]. now exists O. }
        2: { eexists _, s2, _. split; [reflexivity|]. split; [eapply incl_tran; eauto|]. right. split; [right; auto|]. now exists O. }
        destruct b.
        + destruct (fails_now _ _ _ s2 (Ha1 w Hok)) as (s3 & o3 & -> & I3 & C3).
          destruct C3 as [->|[(-> & HT)|(-> & HT & HB)]].
          2: { eexists _, s3, _. split; [reflexivity|]. split; [eauto using incl_tran|]. right. split; [left; auto|]. now exists O. }
          2: { eexists _, s3, _. split; [reflexivity|]. split; [eauto using incl_tran|]. right. split; [right; auto|]. now exists O. }
          destruct (as_ E t w) as [d| | | |]; try (eexists _, s3, _; split; [reflexivity|]; split; [eauto using incl_tran|]; left; reflexivity).
          destruct (IH s3) as (l & s4 & o4 & -> & I4 & C4). destruct (load_fields E (as_ E) fs v cur) as [r0 x0] eqn:El. cbn [fst snd] in *.
          exists (d :: l), s4, o4. split; [reflexivity|]. split; [eauto using incl_tran|].
          destruct C4 as [H4|([(-> & HT)|(-> & HT & HB)] & n & ->)].
          * injection H4 as -> ->. now left.
          * right. split; [left; split; auto|]. exists (S n). apply one_more.
          * right. split; [right; splits; auto|]. exists (S n). apply one_more.
        + destruct (fails_now _ _ _ s2 Hm) as (s3 & o3 & -> & I3 & C3).
          destruct C3 as [->|[(-> & HT)|(-> & HT & HB)]]; eexists _, s3, _; (split; [reflexivity|]; split; [eauto using incl_tran|]).
          * now left.
          * right. split; [left; auto|]. now exists O.
          * right. split; [right; auto|]. now exists O.
      - destruct (is_optional f).
        + destruct (IH s1) as (l & s4 & o4 & -> & I4 & C4). destruct (load_fields E (as_ E) fs v cur) as [r0 x0] eqn:El. cbn [fst snd] in *.
          exists (c :: l), s4, o4. split; [reflexivity|]. split; [eauto using incl_tran|].
          destruct C4 as [H4|([(-> & HT)|(-> & HT & HB)] & n & ->)].
          * injection H4 as -> ->. now left.
          * right. split; [left; split; auto|]. exists (S n). apply one_more.
          * right. split; [right; splits; auto|]. exists (S n). apply one_more.
        + destruct (fails_now _ _ _ s1 Hm) as (s3 & o3 & -> & I3 & C3).
          destruct C3 as [->|[(-> & HT)|(-> & HT & HB)]]; eexists _, s3, _; (split; [reflexivity|]; split; [eauto using incl_tran|]).
          * now left.
          * right. split; [left; auto|]. now exists O.
          * right. split; [right; auto|]. now exists O.
    Qed.
  End AsParts.

  Lemma runs_array (T : Prop) v : runs True T (with_text (as_array_c v)) (as_array_c v).
  Proof. now apply runs_text_error. Qed.
  Lemma runs_as t : lawful sound t -> forall v, ok v -> runs True (asks t) (try_as short E t v) (as_ E t v).
  Proof.
    induction t as [ | | | |sg w|p| | | | |t IH|t IH|t IH|ins t IH|n t IH|ts IH|ts IH|t IH|e|fs IH|x] using ty_ind'; intros Hlaw v Hv;
      try (cbn [try_as]; now apply runs_text_error).
    - cbn [try_as as_]. apply runs_step; [now apply runs_request|]. apply runs_bind; intros; apply runs_now.
    - cbn [try_as as_]. apply runs_bind; [now apply runs_text_error|]. intros l _. apply runs_step; [now apply runs_request|]. apply runs_bind; intros; apply runs_now.
    - cbn [try_as as_]. apply runs_bind; [now apply runs_text_error|]. intros l _. apply runs_step; [now apply runs_request|]. apply runs_bind; intros; apply runs_now.
    - cbn [try_as as_]. apply runs_bind; [now apply runs_text_error|]. intros s _. apply runs_step; [now apply runs_text|]. apply runs_now.
    - cbn [try_as as_]. apply runs_bind; [apply IH; auto; now inversion Hlaw|]. intros; apply runs_now.
    - cbn [try_as as_]. destruct (is_null v); [apply runs_now|]. apply runs_bind; [apply IH; auto; now inversion Hlaw|]. intros. apply runs_step; [now apply runs_request|]. apply runs_now.
    - cbn [try_as as_]. apply runs_bind; [now apply runs_text_error|]. intros l Hl. apply runs_step; [now apply runs_request|].
      apply runs_bind; [|intros; apply runs_now]. apply runs_map. eapply Forall_impl; [|eapply array_elems; eauto]. intros x Hx. apply IH; auto. now inversion Hlaw.
    - cbn [try_as as_]. apply runs_bind; [now apply runs_text_error|]. intros l Hl. apply runs_step; [now apply runs_request|].
      apply runs_bind; [|intros; apply runs_now]. apply runs_map. eapply Forall_impl; [|eapply array_elems; eauto]. intros x Hx. apply IH; auto. now inversion Hlaw.
    - cbn [try_as as_]. apply runs_bind; [now apply runs_text_error|]. intros l Hl. destruct (Nat.eqb (length l) n); [|now apply runs_text_error]. apply runs_step; [now apply runs_request|].
      apply runs_bind; [|intros; apply runs_now]. apply runs_map. eapply Forall_impl; [|eapply array_elems; eauto]. intros x Hx. apply IH; auto. now inversion Hlaw.
    - assert (Hts : Forall (lawful sound) ts) by now inversion Hlaw.
      assert (Htup : runs True (asks (TTup ts)) (let* l := with_text (as_array_c v) in if Nat.eqb (length l) (length ts) then let* _ := request in let* r := try_as_tuple (try_as short E) ts l in now (Ok (DSeq r)) else with_text (Throw JsonException))
          (do l <- as_array_c v; if Nat.eqb (length l) (length ts) then do r <- as_tuple (as_ E) ts l; Ok (DSeq r) else Throw JsonException)).
      { apply runs_bind; [now apply runs_text_error|]. intros l Hl. destruct (Nat.eqb (length l) (length ts)); [|now apply runs_text_error]. apply runs_step; [now apply runs_request|].
        apply runs_bind; [|intros; apply runs_now]. apply runs_as_tuple. rewrite Forall_forall in *. intros t Ht. rewrite Forall_forall. intros x Hx. eapply runs_weak; [| |apply IH; auto]; [auto| |].
        + intros Hr. cbn [as_asks]. apply existsb_exists. eauto.
        + eapply Forall_forall; [|exact Hx]. eapply array_elems; eauto. }
      destruct ts as [|t [|t2 ts]]; [exact Htup| |exact Htup]. cbn [try_as as_]. apply runs_bind; [|intros; apply runs_now].
      inversion IH as [|? ? H1 _]; subst. inversion Hts; subst. eapply runs_weak; [| |apply H1; auto]; auto. intros Hr. cbn [as_asks existsb]. now rewrite Hr.
    - assert (Hts : Forall (lawful sound) ts) by now inversion Hlaw.
      assert (H1 : Forall (fun t => runs True (asks (TVar ts)) (try_as short E t v) (as_ E t v)) ts).
      { rewrite Forall_forall in *. intros t Ht. eapply runs_weak; [| |apply IH; auto]; auto. intros Hr. cbn [as_asks]. apply existsb_exists. exists t. split; auto. rewrite Hr. apply orb_true_r. }
      assert (H2 : Forall (fun t => runs False (asks (TVar ts)) (try_is short E t v) (is_ E t v)) ts).
      { rewrite Forall_forall in *. intros t Ht. eapply runs_weak; [| |apply runs_is; auto]; auto. intros Hr. cbn [as_asks]. apply existsb_exists. exists t. split; auto. now rewrite Hr. }
      cbn [try_as as_]. destruct (chosen ts) as [n|].
      + apply runs_bind; [|intros; apply runs_now]. now apply runs_as_alternative.
      + apply runs_step; [now apply runs_request|]. now apply runs_as_variant.
    - cbn [try_as as_]. apply runs_bind; [now apply runs_text_error|]. intros l Hl.
      apply runs_bind; [|intros; apply runs_now]. apply runs_map_members. eapply Forall_impl; [|eapply object_elems; eauto]. intros x Hx. apply IH; auto. now inversion Hlaw.
    - cbn [try_as]. apply runs_step; [now apply runs_fresh|]. intros s. assert (Hts : Forall (fun ft => lawful sound (snd ft)) fs) by now inversion Hlaw.
      assert (L : loads (asks (TRec fs)) (try_as short E) fs v (defaults fs)).
      { apply load_runs; auto; [unfold defaults; now rewrite map_length| |].
        - rewrite Forall_forall in *. intros ft Hft w Hw. eapply runs_weak; [| |apply IH; auto]; auto. intros Hr. cbn [as_asks]. apply existsb_exists. exists ft. split; auto. rewrite Hr. apply orb_true_r.
        - rewrite Forall_forall in *. intros ft Hft w Hw. eapply runs_weak; [| |apply runs_is; auto]; auto. intros Hr. cbn [as_asks]. apply existsb_exists. exists ft. split; auto. now rewrite Hr. }
      destruct (L s) as (l & s' & o & -> & I1 & C1). cbn [as_]. fold (defaults fs). destruct (load_fields E (as_ E) fs v (defaults fs)) as [l0 r0]. cbn [fst snd] in C1.
      destruct C1 as [H1|([(-> & HT)|(-> & HT & HB)] & _)].
      + injection H1 as -> ->. destruct r0 as [[k|]| | | |]; try (eexists s', _; splits; auto; fail).
        destruct (runs_text_error True (asks (TRec fs)) (A := data) (type_error v) I s') as (s2 & o2 & -> & I2 & C2). exists s2, o2. split; [reflexivity|]. split; [eauto using incl_tran|].
        destruct C2 as [->|[(-> & ? & _)|(-> & ? & ?)]]; [left; auto|right; left; auto|right; right; auto].
      + eexists s', _. splits; auto.
      + eexists s', _. splits; auto.
    - cbn [try_as as_]. unfold try_ext_as. apply runs_step; [now apply runs_request|]. now apply runs_text_error.
  Qed.
End Reading.
