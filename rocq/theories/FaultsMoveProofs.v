(** * Proofs about allocations that fail in conversions of rvalues *)
From Verif Require Import Base BaseProofs Value Dump Containers Num Enum Conv SpecApi SpecConv SpecHeap Left SpecLeft ApiProofs ConvProofs InfoProofs LeftProofs
  Faults SpecFaults FaultsProofs FaultsMove SpecFaultsMove.
From Verif Require Api.

(** [x] and [r]: the source and the result with unlimited memory; [P]: what may be left otherwise *)
Definition takes {S A} (T : Prop) (m : taking S A) (x : S) (r : res A) (P : S -> Prop) : Prop := forall s,
  exists y s' o, m s = (y, (s', o)) /\ incl s' s /\
  ((y = x /\ o = Res r) \/ (P y /\ In true s /\ (o = Res (Throw BadAlloc) \/ (o = Ended /\ T)))).
Section Takes.
  Context (T : Prop).
  Lemma takes_kept {S A} (x : S) (m : M A) r (P : S -> Prop) : runs True T m r -> P x -> takes T (kept x m) x r P.
  Proof.
    intros H HP s. destruct (H s) as (s' & o & E1 & I1 & C1). exists x, s', o. unfold kept. rewrite E1. splits; auto.
    destruct C1 as [->|[(-> & ? & _)|(-> & ? & ?)]]; [left; auto|right; auto|right; auto].
  Qed.
  Lemma takes_now {S A} (x : S) (r : res A) (P : S -> Prop) : takes T (kept x (now r)) x r P.
  Proof. intros s. exists x, s, (Res r). splits; auto using incl_refl. Qed.
  Lemma takes_weak {S A} (m : taking S A) x r (P Q : S -> Prop) : (forall y, P y -> Q y) -> takes T m x r P -> takes T m x r Q.
  Proof. intros H HT s. destruct (HT s) as (y & s' & o & E1 & I1 & C1). exists y, s', o. splits; auto. destruct C1 as [?|(? & ? & ?)]; auto. Qed.
  Lemma takes_eq {S A} (m : taking S A) x r x' r' (P : S -> Prop) : takes T m x r P -> x = x' -> r = r' -> takes T m x' r' P.
  Proof. now intros H <- <-. Qed.
  Lemma takes_taken {S S' A B} (m : taking S A) x r (P : S -> Prop) (bad : S -> S') f x' (g : A -> res B) (Q : S' -> Prop) :
    takes T m x r P -> (forall y, P y -> Q (bad y)) -> (forall a, r = Ok a -> takes T (f x a) (x' a) (g a) Q) ->
    takes T (taken m bad f) (match r with Ok a => x' a | _ => bad x end) (bind r g) Q.
  Proof.
    intros H HP Hf s. destruct (H s) as (y & s1 & o & E1 & I1 & C1). unfold taken. rewrite E1.
    destruct C1 as [(-> & ->)|(Hy & Hs & C1)].
    - destruct r as [a| | | |]; cbn [bind]; try (eexists _, s1, _; splits; auto; fail).
      destruct (Hf a eq_refl s1) as (y2 & s2 & o2 & E2 & I2 & C2). exists y2, s2, o2. splits; auto; [eauto using incl_tran|].
      destruct C2 as [?|(? & ? & ?)]; [left; auto|right; splits; auto].
    - destruct C1 as [->|(-> & HT)]; cbn; eexists _, s1, _; splits; auto; right; splits; auto.
  Qed.
  (** a request of the faulty program only *)
  Lemma takes_request {S A} (m : M unit) x0 (f : unit -> unit -> taking S A) x r (P : S -> Prop) : runs True T m (Ok tt) ->
    P x0 -> takes T (f tt tt) x r P -> takes T (taken (kept tt m) (fun _ => x0) f) x r P.
  Proof.
    intros Hm H0 H. apply (takes_taken (kept tt m) tt (Ok tt) (fun _ => True) (fun _ => x0) f (fun _ => x) (fun _ => r) P); auto.
    - now apply takes_kept.
    - now intros [] _.
  Qed.
End Takes.

Section Taking.
  Context (short : nat) (E : env) (left half : ext -> value -> value) (grows : bool).
  Notation asks t := (as_asks short t = true).
  Notation rv := (try_as_rv short E left half).
  Notation intr := (interrupted left half).

  Lemma takes_rv (T : Prop) t v : lawful sound t -> ok v -> (asks t -> T) ->
    takes T (rv t v) (as_left left t v) (as_rv E t v) (fun w => forall ts l, intr (t :: ts) (v :: l) (w :: l)).
  Proof.
    intros Hl Hv HT.
    assert (G : takes T (kept v (try_as short E t v)) v (as_ E t v) (fun w => forall ts l, intr (t :: ts) (v :: l) (w :: l))).
    { apply takes_kept; [|intros; apply int_here]. eapply runs_weak; [| |apply runs_as; eauto]; auto. }
    destruct t; try exact G.
    - intros s. eexists _, s, _. splits; auto using incl_refl.
    - cbn [try_as_rv as_left as_rv]. destruct (x_move_from x) as [f|] eqn:Ex; [|exact G].
      apply takes_request; [now apply runs_request|intros; eapply int_within; eauto|].
      apply takes_kept; [now apply runs_text_error|]. intros ts l. pose proof (int_next left half (TExt x) ts v l l (int_here _ _ ts l)) as W.
      cbn [as_left] in W. now rewrite Ex in W.
  Qed.

  Lemma elems_all_left t l ds : mapM (as_rv E t) l = Ok ds -> elems_left E left t l = map (as_left left t) l.
  Proof.
    revert ds. induction l as [|v l IH]; intros ds; cbn [mapM elems_left map]; [auto|]. intros H. apply bind_ok in H. destruct H as (d & Hd & H). rewrite Hd.
    apply bind_ok in H. destruct H as (ds' & H' & _). f_equal. eauto.
  Qed.
  Lemma takes_elems (T : Prop) g t l : lawful sound t -> Forall ok l -> (asks t -> T) ->
    takes T (try_take_elems short E left half g t l) (elems_left E left t l) (mapM (as_rv E t) l) (intr (repeat t (length l)) l).
  Proof.
    intros Hl Hv HT. induction Hv as [|v l Hv _ IH]; cbn [try_take_elems elems_left mapM repeat length]; [apply takes_now|].
    eapply takes_eq.
    - eapply (takes_taken T (rv t v) (as_left left t v) (as_rv E t v) _ _ _ (fun _ => as_left left t v :: elems_left E left t l)
        (fun d => do ds <- mapM (as_rv E t) l; Ok (d :: ds)) (intr (t :: repeat t (length l)) (v :: l))); [now apply takes_rv|intros y Hy; apply Hy|].
      intros d Hd. apply takes_request; [destruct g; [now apply runs_request|apply runs_now]|apply int_next, int_here|].
      eapply takes_eq.
      + eapply (takes_taken T _ _ _ _ _ _ (fun _ => as_left left t v :: elems_left E left t l) (fun ds => Ok (d :: ds)) _ IH).
        * intros y Hy. now apply int_next.
        * intros ds Hds. apply takes_now.
      + now destruct (mapM (as_rv E t) l).
      + reflexivity.
    - cbv beta. now destruct (as_rv E t v).
    - reflexivity.
  Qed.
  Lemma takes_tuple (T : Prop) ts : Forall (fun t => lawful sound t /\ (asks t -> T)) ts -> forall l, Forall ok l ->
    takes T (try_take_tuple short E left half ts l) (tuple_left E left ts l) (as_tuple (as_rv E) ts l) (intr ts l).
  Proof.
    induction 1 as [|t ts [Hl HT] _ IH]; intros l Hv; cbn [try_take_tuple tuple_left as_tuple]; [apply takes_now|].
    destruct Hv as [|v l Hv Hr]; [apply takes_now|]. specialize (IH l Hr).
    eapply takes_eq.
    - eapply (takes_taken T (rv t v) (as_left left t v) (as_rv E t v) _ _ _ (fun _ => as_left left t v :: tuple_left E left ts l)
        (fun d => do ds <- as_tuple (as_rv E) ts l; Ok (d :: ds)) (intr (t :: ts) (v :: l))); [now apply takes_rv|intros y Hy; apply Hy|].
      intros d Hd. eapply takes_eq.
      + eapply (takes_taken T _ _ _ _ _ _ (fun _ => as_left left t v :: tuple_left E left ts l) (fun ds => Ok (d :: ds)) _ IH).
        * intros y Hy. now apply int_next.
        * intros ds Hds. apply takes_now.
      + now destruct (as_tuple (as_rv E) ts l).
      + reflexivity.
    - cbv beta. now destruct (as_rv E t v).
    - reflexivity.
  Qed.
  Notation mintr t m m' := (map fst m' = map fst m /\ intr (repeat t (length m)) (map snd m) (map snd m')).
  Lemma takes_members (T : Prop) t m : lawful sound t -> Forall (fun kv => ok (snd kv)) m -> (asks t -> T) ->
    takes T (try_take_members short E left half t m) (members_left E left t m) (mapM_members (as_rv E t) m) (fun m' => mintr t m m').
  Proof.
    intros Hl Hv HT. induction Hv as [|[k v] m Hv _ IH]; cbn [try_take_members members_left mapM_members repeat length]; [apply takes_now|]. cbn [snd] in Hv.
    eapply takes_eq.
    - eapply (takes_taken T (rv t v) (as_left left t v) (as_rv E t v) _ _ _ (fun _ => (k, as_left left t v) :: members_left E left t m)
        (fun d => do ds <- mapM_members (as_rv E t) m; Ok ((k, d) :: ds))); [now apply takes_rv|intros y Hy; cbn [map fst snd]; split; [reflexivity|apply Hy]|].
      intros d Hd. apply takes_request; [now apply runs_request|split; [reflexivity|apply int_next, int_here]|].
      eapply takes_eq.
      + eapply (takes_taken T _ _ _ _ _ _ (fun _ => (k, as_left left t v) :: members_left E left t m) (fun ds => Ok ((k, d) :: ds)) _ IH).
        * intros y [Hy Hi]. cbn [map fst snd]. split; [now rewrite Hy|now apply int_next].
        * intros ds Hds. apply takes_now.
      + now destruct (mapM_members (as_rv E t) m).
      + reflexivity.
    - cbv beta. now destruct (as_rv E t v).
    - reflexivity.
  Qed.

  (** ** Elements that are not taken apart, or cannot run out of memory *)
  Lemma intr_still ts l l' : intr ts l l' -> Forall (fun t => ~ moves_away t) ts -> l' = l.
  Proof.
    induction 1 as [|x f ts v l Hx|t ts v l l' _ IH]; intros H; [reflexivity|..]; inversion H as [|? ? H1 H2]; subst.
    - destruct H1. cbn. congruence.
    - rewrite (as_left_kept left t v H1). f_equal. auto.
  Qed.
  Lemma intr_values ts l l' : intr ts l l' -> Forall (eq TValue) ts -> exists n, (n <= length l)%nat /\ l' = map moved (firstn n l) ++ skipn n l.
  Proof.
    induction 1 as [|x f ts v l Hx|t ts v l l' _ IH]; intros H.
    - exists 0%nat. split; [apply Nat.le_0_l|reflexivity].
    - inversion H. discriminate.
    - inversion H as [|? ? H1 H2]; subst. destruct (IH H2) as (n & Hn & ->). exists (S n). split; [now apply le_n_S|reflexivity].
  Qed.
  Lemma takes_sure {S A} (T : Prop) (m : taking S A) x r (P : S -> Prop) : (forall s, exists y s' a, m s = (y, (s', Res (Ok a)))) ->
    takes T m x r P -> takes T m x r (fun _ => False).
  Proof.
    intros H HT s. destruct (HT s) as (y & s' & o & E1 & I1 & C1). exists y, s', o. splits; auto. left.
    destruct C1 as [?|(_ & _ & C1)]; auto. destruct (H s) as (y' & s2 & a & E2). rewrite E2 in E1. injection E1 as -> -> <-. destruct C1 as [C1|(C1 & _)]; discriminate.
  Qed.
  Lemma values_sure l : forall s, try_take_elems short E left half false TValue l s = (map moved l, (s, Res (Ok (map DJson l)))).
  Proof.
    induction l as [|v l IH]; intros s; [reflexivity|]. cbn [try_take_elems map]. unfold taken at 1. cbn [try_as_rv]. unfold taken at 1, kept at 1, now at 1.
    unfold taken at 1. rewrite IH. reflexivity.
  Qed.
  Lemma tuple_sure ts : Forall (eq TValue) ts -> forall l s, exists y s' ds, try_take_tuple short E left half ts l s = (y, (s', Res (Ok ds))).
  Proof.
    induction 1 as [|t ts <- _ IH]; intros [|v l] s; cbn [try_take_tuple]; try (eexists _, _, _; reflexivity).
    unfold taken at 1. cbn [try_as_rv]. unfold taken at 1. destruct (IH l s) as (y & s' & ds & ->). eexists _, _, _; reflexivity.
  Qed.
  Lemma moves_dec t : moves_away t \/ ~ moves_away t.
  Proof. destruct t; cbn; auto. destruct (x_move_from x); [left|right]; congruence. Qed.
  Lemma all_still ts : Forall (fun t => ~ moves_away t) ts \/ ~ Forall (fun t => ~ moves_away t) ts.
  Proof.
    induction ts as [|t ts IH]; [left; constructor|]. destruct (moves_dec t) as [H|H]; [right; intros W; now inversion W|].
    destruct IH as [IH|IH]; [left; now constructor|right; intros W; now inversion W].
  Qed.
  Lemma all_values ts : Forall (eq TValue) ts \/ ~ Forall (eq TValue) ts.
  Proof.
    induction ts as [|t ts IH]; [left; constructor|].
    destruct IH as [IH|IH]; [|right; intros W; now inversion W]. destruct t; [left; now constructor|right; intros W; inversion W; discriminate..].
  Qed.

  (** ** array::as &&, object::as && *)
  Definition array_gives (t : ty) (l : array) : res data :=
    match t with
    | TVec t' => do r <- mapM (as_rv E t') l; Ok (DSeq r)
    | TColl ins t' => do r <- mapM (as_rv E t') l; Ok (DSeq (coll_of ins r))
    | TArr => Ok (DArr l)
    | TFix n t' => if Nat.eqb (length l) n then do r <- mapM (as_rv E t') l; Ok (DSeq r) else Throw JsonException
    | TTup ts => if Nat.eqb (length l) (length ts) then do r <- as_tuple (as_rv E) ts l; Ok (DSeq r) else Throw JsonException
    | _ => Fuel
    end.
  Definition whole (t : ty) : Prop :=
    match t with
    | TTup ts => Forall (fun t' => ~ moves_away t') ts \/ Forall (eq TValue) ts
    | _ => careful grows t
    end.
  Definition in_array (t : ty) : Prop := match t with TVec _ | TColl _ _ | TFix _ _ | TArr | TTup _ => True | _ => False end.
  Lemma repeat_still t n : ~ moves_away t -> Forall (fun t => ~ moves_away t) (repeat t n).
  Proof. intros H. induction n; now constructor. Qed.

  Lemma takes_loop (T : Prop) g t l (C : Prop) (mk : list data -> data) : lawful sound t -> Forall ok l -> (asks t -> T) ->
    (C -> ~ moves_away t \/ (t = TValue /\ g = false)) ->
    takes T (taken (try_take_elems short E left half g t l) (fun l' => l') (fun _ ds => kept [] (now (Ok (mk ds)))))
      (match mapM (as_rv E t) l with Ok _ => [] | _ => elems_left E left t l end) (do r <- mapM (as_rv E t) l; Ok (mk r))
      (fun l' => intr (repeat t (length l)) l l' /\ (C -> l' = l)).
  Proof.
    intros Hl Hv HT HC. pose proof (takes_elems T g t l Hl Hv HT) as H.
    apply (takes_taken T (try_take_elems short E left half g t l) (elems_left E left t l) (mapM (as_rv E t) l)
             (fun l' => intr (repeat t (length l)) l l' /\ (C -> l' = l)) (fun l' => l') _ (fun _ => []) (fun r => Ok (mk r))); auto.
    2: { intros; apply takes_now. }
    destruct (moves_dec t) as [M|M].
    - assert (D : (t = TValue /\ g = false) \/ ~ C).
      { destruct t; try (now destruct M); [destruct g; [right|left; auto]|right]; intros c; destruct (HC c) as [?|[? ?]]; try discriminate; auto. }
      destruct D as [[-> ->]|D].
      + eapply takes_weak; [|eapply takes_sure; [|exact H]]; [intros y []|]. intros s. rewrite values_sure. eexists _, _, _; reflexivity.
      + eapply takes_weak; [|exact H]. intros y Hy. split; auto. intros c. destruct (D c).
    - eapply takes_weak; [|exact H]. intros y Hy. split; auto. intros _. eapply intr_still; eauto using repeat_still.
  Qed.
  Lemma takes_array_take (T : Prop) t l : in_array t -> lawful sound t -> Forall ok l -> (asks t -> T) ->
    takes T (try_array_take short E left half grows t l) (array_as_left E left t l) (array_gives t l)
      (fun l' => intr (element_types t (length l)) l l' /\ (whole t -> l' = l)).
  Proof.
    intros Ha Hl Hv HT. destruct t as [ | | | |sg w|p| | | | |t|t|t|ins t|n t|ts|ts|t|e|fs|x]; try (now destruct Ha); cbn [try_array_take array_as_left array_gives element_types whole careful].
    - rewrite mapM_value. eapply takes_eq; [eapply (takes_loop T true TValue l False (fun _ => DArr l)); [constructor|exact Hv|intros W; discriminate W|intros []]|..].
      + now rewrite mapM_value.
      + now rewrite mapM_value.
    - assert (Ht : lawful sound t) by now inversion Hl. apply takes_request; [now apply runs_request|split; auto using int_here|].
      apply takes_loop; auto.
    - assert (Ht : lawful sound t) by now inversion Hl. apply takes_request; [now apply runs_request|split; auto using int_here|].
      apply takes_loop; auto.
    - assert (Ht : lawful sound t) by now inversion Hl. destruct (Nat.eqb (length l) n); [|apply takes_kept; [now apply runs_text_error|split; auto using int_here]].
      apply takes_request; [now apply runs_request|split; auto using int_here|]. apply takes_loop; auto. intros [?|?]; auto.
    - assert (Ht : Forall (lawful sound) ts) by now inversion Hl. destruct (Nat.eqb (length l) (length ts)); [|apply takes_kept; [now apply runs_text_error|split; auto using int_here]].
      apply takes_request; [now apply runs_request|split; auto using int_here|].
      assert (H : takes T (try_take_tuple short E left half ts l) (tuple_left E left ts l) (as_tuple (as_rv E) ts l) (intr ts l)).
      { apply takes_tuple; auto. rewrite Forall_forall in *. intros t Hin. split; auto. intros Hr. apply HT. cbn [as_asks]. apply existsb_exists. eauto. }
      apply (takes_taken T (try_take_tuple short E left half ts l) (tuple_left E left ts l) (as_tuple (as_rv E) ts l)
             (fun l' => intr ts l l' /\ (Forall (fun t' => ~ moves_away t') ts \/ Forall (eq TValue) ts -> l' = l)) (fun l' => l') _ (fun _ => []) (fun r => Ok (DSeq r))); auto.
      2: { intros; apply takes_now. }
      destruct (all_still ts) as [S|S]; [eapply takes_weak; [|exact H]; intros y Hy; split; auto; intros _; eapply intr_still; eauto|].
      destruct (all_values ts) as [V|V].
      + eapply takes_weak; [|eapply takes_sure; [|exact H]]; [intros y []|]. intros s. destruct (tuple_sure ts V l s) as (y & s' & ds & ->). eauto.
      + eapply takes_weak; [|exact H]. intros y Hy. split; auto. now intros [?|?].
  Qed.
  Definition object_gives (t : ty) (m : object) : res data :=
    match t with
    | TMap t' => do r <- mapM_members (as_rv E t') m; Ok (DMap r)
    | TObj => Ok (DObj m)
    | _ => Fuel
    end.
  Lemma members_value m : mapM_members (as_rv E TValue) m = Ok (map (fun kv => (fst kv, DJson (snd kv))) m).
  Proof. induction m as [|[k v] m IH]; cbn [mapM_members map]; [reflexivity|]. rewrite IH. reflexivity. Qed.
  Lemma pairs_eq (m m' : object) : map fst m' = map fst m -> map snd m' = map snd m -> m' = m.
  Proof.
    revert m'. induction m as [|[k v] m IH]; intros [|[k' v'] m']; cbn [map fst snd]; try discriminate; [reflexivity|]. intros [= -> H1] [= -> H2]. f_equal. auto.
  Qed.
  Lemma takes_object_take (T : Prop) t t' m : member_type t = Some t' -> lawful sound t -> Forall (fun kv => ok (snd kv)) m -> (asks t -> T) ->
    takes T (try_object_take short E left half t m) (object_as_left E left t m) (object_gives t m)
      (fun m' => (map fst m' = map fst m /\ intr (repeat t' (length m)) (map snd m) (map snd m')) /\ (~ moves_away t' -> m' = m)).
  Proof.
    intros Ht Hl Hv HT.
    assert (G : lawful sound t' -> (asks t' -> T) -> takes T (try_take_members short E left half t' m) (members_left E left t' m) (mapM_members (as_rv E t') m)
      (fun m' => (map fst m' = map fst m /\ intr (repeat t' (length m)) (map snd m) (map snd m')) /\ (~ moves_away t' -> m' = m))).
    { intros Hl' HT'. eapply takes_weak; [|apply takes_members; auto]. cbv beta. intros m' [H1 H2]. splits; auto. intros M. apply pairs_eq; auto.
      eapply intr_still; eauto using repeat_still. }
    destruct t; try discriminate; injection Ht as <-; cbn [try_object_take object_as_left object_gives].
    - assert (H : takes T (try_take_members short E left half TValue m) (members_left E left TValue m) (mapM_members (as_rv E TValue) m)
        (fun m' => (map fst m' = map fst m /\ intr (repeat TValue (length m)) (map snd m) (map snd m')) /\ (~ moves_away TValue -> m' = m))).
      { apply G; [constructor|intros W; discriminate W]. }
      eapply takes_eq; [eapply (takes_taken T _ _ _ _ (fun m' => m') _ (fun _ => members_left E left TValue m) (fun _ => Ok (DObj m)) _ H); [auto|intros; apply takes_now]|..];
        now rewrite members_value.
    - assert (Ht : lawful sound t) by now inversion Hl. eapply takes_eq.
      + eapply (takes_taken T _ _ _ _ (fun m' => m') _ (fun _ => members_left E left t m) (fun ds => Ok (DMap ds)) _ (G Ht HT)); [auto|intros; apply takes_now].
      + now destruct (mapM_members (as_rv E t) m).
      + reflexivity.
  Qed.

  (** ** The conversion operators *)
  Lemma takes_coerce (T : Prop) t fresh v : takes T (try_coerce t fresh v) (fst (coerce fresh v)) (snd (coerce fresh v)) (fun w => v_empty v = Ok true /\ w = Api.set_tag t v).
  Proof.
    unfold try_coerce, coerce. destruct (v_empty v) as [[]| | | |]; cbn [fst snd]; try apply takes_now.
    apply takes_request; [now apply runs_request|auto|apply takes_now].
  Qed.
  Definition made (v fresh : value) (t : vtype) (w : value) : Prop := w = v \/ (v_empty v = Ok true /\ (w = fresh \/ w = Api.set_tag t v)).
  Lemma coerce_made v fresh t : made v fresh t (fst (coerce fresh v)).
  Proof. unfold coerce, made. destruct (v_empty v) as [[]| | | |]; cbn [fst]; auto. Qed.
  Lemma made_array v w : made v (v_array []) Tarray w -> unharmed v w.
  Proof. intros [->|[He [->| ->]]]; [left|right..]; auto 6. Qed.
  Lemma made_object v w : made v (v_object []) Tobject w -> unharmed v w.
  Proof. intros [->|[He [->| ->]]]; [left|right..]; auto 6. Qed.
  Lemma takes_as_array (T : Prop) v : takes T (try_as_array_m v) (fst (as_array_m v)) (snd (as_array_m v)) (made v (v_array []) Tarray).
  Proof.
    unfold try_as_array_m, as_array_m. destruct (coerce (v_array []) v) as [w r] eqn:C. cbn [fst snd].
    pose proof (takes_coerce T Tarray (v_array []) v) as H. rewrite C in H. cbn [fst snd] in H.
    pose proof (coerce_made v (v_array []) Tarray) as U. rewrite C in U. cbn [fst] in U.
    eapply takes_eq; [eapply (takes_taken T _ _ _ _ (fun w => w) _ (fun _ => w) (fun _ => if is_array w then get_arr w else type_error w) (made v (v_array []) Tarray) H)|..].
    - intros y [He ->]. right. auto.
    - intros [] _. apply takes_kept; [now apply runs_text_error|exact U].
    - now destruct r.
    - reflexivity.
  Qed.
  Lemma takes_as_object (T : Prop) v : takes T (try_as_object_m v) (fst (as_object_m v)) (snd (as_object_m v)) (made v (v_object []) Tobject).
  Proof.
    unfold try_as_object_m, as_object_m. destruct (coerce (v_object []) v) as [w r] eqn:C. cbn [fst snd].
    pose proof (takes_coerce T Tobject (v_object []) v) as H. rewrite C in H. cbn [fst snd] in H.
    pose proof (coerce_made v (v_object []) Tobject) as U. rewrite C in U. cbn [fst] in U.
    eapply takes_eq; [eapply (takes_taken T _ _ _ _ (fun w => w) _ (fun _ => w) (fun _ => if is_object w then get_obj w else type_error w) (made v (v_object []) Tobject) H)|..].
    - intros y [He ->]. right. auto.
    - intros [] _. apply takes_kept; [now apply runs_text_error|exact U].
    - now destruct r.
    - reflexivity.
  Qed.
  Lemma array_m_elems v v1 l : ok v -> as_array_m v = (v1, Ok l) -> Forall ok l.
  Proof.
    intros Hv H. destruct (as_array_m_ok _ _ _ H) as [-> [<-|[_ ->]]]; [|constructor]. now inversion Hv.
  Qed.
  Lemma object_m_elems v v1 m : ok v -> as_object_m v = (v1, Ok m) -> Forall (fun kv => ok (snd kv)) m.
  Proof.
    intros Hv H. destruct (as_object_m_ok _ _ _ H) as [-> [<-|[_ ->]]]; [|constructor]. now inversion Hv.
  Qed.
  Lemma takes_through_array (T : Prop) t v : in_array t -> lawful sound t -> ok v -> (asks t -> T) ->
    takes T (try_through_array short E left half grows t v) (through_array E left t v) (do l <- snd (as_array_m v); array_gives t l)
      (fun w => (whole t -> unharmed v w) /\
        forall l, v = v_array l -> exists l', w = v_array l' /\ intr (element_types t (length l)) l l').
  Proof.
    intros Ha Hl Hv HT. unfold try_through_array, through_array. pose proof (takes_as_array T v) as H.
    destruct (as_array_m v) as [v1 r] eqn:A. cbn [fst snd] in *.
    assert (H' : takes T (try_as_array_m v) v1 r (fun w => (whole t -> unharmed v w) /\ forall l, v = v_array l -> exists l', w = v_array l' /\ intr (element_types t (length l)) l l')).
    { eapply takes_weak; [|exact H]. intros w Hw. split; [intros _; now apply made_array|]. intros l ->. exists l. split; [|apply int_here].
      destruct Hw as [->|[He Hw]]; auto. destruct l as [|x l]; [|discriminate]. now destruct Hw as [->| ->]. }
    eapply takes_eq; [eapply (takes_taken T _ _ _ _ (fun w => w) _ (fun l => VArr Tarray (Some (array_as_left E left t l))) (array_gives t) _ H')|..].
    - auto.
    - intros l ->. pose proof (array_m_elems v v1 l Hv A) as Hels.
      eapply takes_eq; [eapply (takes_taken T _ _ _ _ _ _ (fun _ => VArr Tarray (Some (array_as_left E left t l))) (fun d => Ok d)); [apply (takes_array_take T t l); auto|..]|..].
      + cbv beta. intros l' [Hi Hw]. destruct (as_array_m_ok _ _ _ A) as [Hv1 Hv']. split.
        * intros Hc. rewrite (Hw Hc). destruct Hv' as [Hv'|[He ->]]; [left; congruence|right; auto].
        * intros l0 ->. exists l'. split; [reflexivity|]. destruct Hv' as [Hv'|[He ->]]; [|destruct l0; [exact Hi|discriminate]].
          assert (l0 = l) as -> by (unfold v_array in Hv'; congruence). exact Hi.
      + intros d _. apply takes_now.
      + now destruct (array_gives t l).
      + now destruct (array_gives t l).
    - now destruct r.
    - reflexivity.
  Qed.
  Lemma takes_through_object (T : Prop) t t' v : member_type t = Some t' -> lawful sound t -> ok v -> (asks t -> T) ->
    takes T (try_through_object short E left half t v) (through_object E left t v) (do m <- snd (as_object_m v); object_gives t m)
      (fun w => (~ moves_away t' -> unharmed v w) /\
        forall m, v = v_object m -> exists m', w = v_object m' /\ map fst m' = map fst m /\ intr (repeat t' (length m)) (map snd m) (map snd m')).
  Proof.
    intros Ht Hl Hv HT. unfold try_through_object, through_object. pose proof (takes_as_object T v) as H.
    destruct (as_object_m v) as [v1 r] eqn:A. cbn [fst snd] in *.
    assert (H' : takes T (try_as_object_m v) v1 r (fun w => (~ moves_away t' -> unharmed v w) /\
        forall m, v = v_object m -> exists m', w = v_object m' /\ map fst m' = map fst m /\ intr (repeat t' (length m)) (map snd m) (map snd m'))).
    { eapply takes_weak; [|exact H]. intros w Hw. split; [intros _; now apply made_object|]. intros m ->. exists m. split; [|split; [reflexivity|apply int_here]].
      destruct Hw as [->|[He Hw]]; auto. destruct m as [|x m]; [|discriminate]. now destruct Hw as [->| ->]. }
    eapply takes_eq; [eapply (takes_taken T _ _ _ _ (fun w => w) _ (fun m => VObj Tobject (Some (object_as_left E left t m))) (object_gives t) _ H')|..].
    - auto.
    - intros m ->. pose proof (object_m_elems v v1 m Hv A) as Hels.
      eapply takes_eq; [eapply (takes_taken T _ _ _ _ _ _ (fun _ => VObj Tobject (Some (object_as_left E left t m))) (fun d => Ok d)); [apply (takes_object_take T t t' m); auto|..]|..].
      + cbv beta. intros m' [[Hk Hi] Hw]. destruct (as_object_m_ok _ _ _ A) as [Hv1 Hv']. split.
        * intros Hc. rewrite (Hw Hc). destruct Hv' as [Hv'|[He ->]]; [left; congruence|right; auto].
        * intros m0 ->. exists m'. split; [reflexivity|]. destruct Hv' as [Hv'|[He ->]]; [|destruct m0; [auto|discriminate]].
          assert (m0 = m) as -> by (unfold v_object in Hv'; congruence). auto.
      + intros d _. apply takes_now.
      + now destruct (object_gives t m).
      + now destruct (object_gives t m).
    - now destruct r.
    - reflexivity.
  Qed.
  Lemma takes_variant (T : Prop) v ts : ok v -> Forall (fun t => lawful sound t /\ (asks t -> T) /\ (is_requests short t = true -> T)) ts ->
    forall n, takes T (try_variant_rv short E left half n ts v) (variant_left E left ts v) (as_variant E (as_rv E) n ts v)
      (fun w => Forall (careful grows) ts -> w = v).
  Proof.
    intros Hv. induction 1 as [|t ts (Hl & HT & HR) _ IH]; intros n; cbn [try_variant_rv variant_left as_variant]; [apply takes_kept; [now apply runs_text_error|auto]|].
    eapply takes_eq; [eapply (takes_taken T (kept v (try_is short E t v)) v (is_ E t v) (eq v) (fun w => w) _
        (fun b => if b then as_left left t v else variant_left E left ts v)
        (fun b => if b then do d <- as_rv E t v; Ok (DAlt n d) else as_variant E (as_rv E) (S n) ts v))|..].
    - apply takes_kept; [|reflexivity]. eapply runs_weak; [| |apply runs_is; eauto]; auto.
    - now intros y <-.
    - intros [] _.
      + assert (H : takes T (rv t v) (as_left left t v) (as_rv E t v) (fun w => careful grows t -> w = v)).
        { destruct (moves_dec t) as [M|M].
          - destruct t; try (now destruct M).
            + intros s. eexists _, s, _. splits; auto using incl_refl.
            + eapply takes_weak; [|now apply takes_rv]. cbn [careful]. intros y _ W. now destruct M.
          - eapply takes_weak; [|now apply takes_rv]. cbv beta. intros y Hy _. specialize (Hy [] []). apply intr_still in Hy; [congruence|]. now constructor. }
        eapply takes_eq; [eapply (takes_taken T _ _ _ _ (fun w => w) _ (fun _ => as_left left t v) (fun d => Ok (DAlt n d)) _ H)|..].
        * intros y Hy Hc. apply Hy. now inversion Hc.
        * intros; apply takes_now.
        * now destruct (as_rv E t v).
        * reflexivity.
      + eapply takes_weak; [|apply IH]. intros y Hy Hc. apply Hy. now inversion Hc.
    - cbv beta. destruct (is_ E t v) as [[]| | | |]; reflexivity.
    - reflexivity.
  Qed.
  Lemma reads_careful t : reads_only t -> careful grows t.
  Proof.
    induction t as [ | | | |sg w|p| | | | |t IH|t IH|t IH|ins t IH|n t IH|ts IH|ts IH|t IH|e|fs IH|x] using ty_ind'; cbn [reads_only careful]; auto; try tauto.
    - destruct ts as [|t [|? ?]]; try tauto. inversion IH; subst; auto.
    - intros H. induction IH as [|t ts Ht _ IHts]; [exact I|]. destruct H as [H1 H2]. split; [exact (Ht H1)|exact (IHts H2)].
  Qed.
  Lemma all_forall (P : ty -> Prop) ts : (fix all (l : list ty) : Prop := match l with [] => True | t' :: r => P t' /\ all r end) ts -> Forall P ts.
  Proof. induction ts as [|t ts IH]; [constructor|]. intros [H1 H2]. constructor; auto. Qed.
  Lemma reads_left t v : reads_only t -> cast_left E left t v = v \/ (v_empty v = Ok true /\ cast_left E left t v = v_object []).
  Proof.
    induction t as [ | | | |sg w|p| | | | |t IH|t IH|t IH|ins t IH|n t IH|ts IH|ts IH|t IH|e|fs IH|x] using ty_ind'; cbn [reads_only cast_left]; auto; try tauto.
    - intros H. destruct (is_null v); auto.
    - destruct ts as [|t [|? ?]]; try tauto. inversion IH; subst; auto.
    - intros H. apply all_forall in H. destruct (chosen ts) as [n|].
      + revert n. induction IH as [|t ts Ht _ IHts]; intros n; [left; reflexivity|]. inversion H; subst. cbn [alternative_left]. destruct n; auto.
      + left. clear IH. induction H as [|t ts Ht _ IHts]; cbn [variant_left]; auto. destruct (is_ E t v) as [[]| | | |]; auto.
        apply as_left_kept. destruct t; cbn in *; auto.
    - intros H. unfold through_object. destruct (as_object_m v) as [v1 r] eqn:A.
      destruct r as [m|e| | | ]; try (left; apply (as_object_m_throws _ _ _ A); discriminate).
      cbn [object_as_left]. rewrite (members_left_kept _ _ _ m H). destruct (as_object_m_ok _ _ _ A) as [-> [<-|[He ->]]]; auto.
    - intros H. cbn [as_left]. rewrite H. auto.
  Qed.

  Lemma takes_cast t : lawful sound t -> forall (T : Prop) v, ok v -> (asks t -> T) ->
    takes T (try_cast_rv short E left half grows t v) (cast_left E left t v) (cast_rv E t v) (fun w => careful grows t -> unharmed v w).
  Proof.
    assert (SAME : forall (T : Prop) t v, lawful sound t -> ok v -> (asks t -> T) ->
      takes T (kept v (try_as short E t v)) v (as_ E t v) (fun w => careful grows t -> unharmed v w)).
    { intros T u v Hl Hv HT. apply takes_kept; [|now left]. eapply runs_weak; [| |apply runs_as; eauto]; auto. }
    assert (ARR : forall (T : Prop) t v, in_array t -> (careful grows t -> whole t) -> lawful sound t -> ok v -> (asks t -> T) ->
      takes T (try_through_array short E left half grows t v) (through_array E left t v) (do l <- snd (as_array_m v); array_gives t l) (fun w => careful grows t -> unharmed v w)).
    { intros T u v Ha Hw Hl Hv HT. eapply takes_weak; [|apply takes_through_array; auto]. cbv beta. intros y [Hy _] Hc. auto. }
    induction t as [ | | | |sg w|p| | | | |t IH|t IH|t IH|ins t IH|n t IH|ts IH|ts IH|t IH|e|fs IH|x] using ty_ind'; intros Hl T v Hv HT;
      try (apply SAME; assumption).
    - intros s. eexists _, s, _. splits; auto using incl_refl.
    - apply (ARR T TArr v); auto. exact I.
    - cbn [try_cast_rv cast_left cast_rv careful]. eapply takes_weak; [|apply (takes_through_object T TObj TValue); auto]. cbn. tauto.
    - cbn [try_cast_rv cast_left cast_rv careful]. eapply takes_eq;
        [eapply (takes_taken T _ _ _ _ (fun w => w) _ (fun _ => cast_left E left t v) (fun d => Ok (DOpt (Some d))) _ (IH ltac:(now inversion Hl) T v Hv HT)); [auto|intros; apply takes_now]|..]; [|reflexivity].
      now destruct (cast_rv E t v).
    - cbn [try_cast_rv cast_left cast_rv careful]. destruct (is_null v); [apply takes_now|]. eapply takes_eq;
        [eapply (takes_taken T _ _ _ _ (fun w => w) _ (fun _ => cast_left E left t v) (fun d => Ok (DOpt (Some d))) _ (IH ltac:(now inversion Hl) T v Hv HT))|..]; [| | |reflexivity].
      + cbv beta. intros y Hy Hc. apply Hy. now apply reads_careful.
      + intros d _. apply takes_request; [now apply runs_request| |apply takes_now]. intros Hc. destruct (reads_left t v Hc) as [->|[He ->]]; [now left|right; auto].
      + now destruct (cast_rv E t v).
    - apply (ARR T (TVec t) v); auto. exact I.
    - apply (ARR T (TColl ins t) v); auto. exact I.
    - cbn [try_cast_rv cast_left cast_rv]. eapply takes_eq; [apply (ARR T (TFix n t) v); auto; exact I|reflexivity|reflexivity].
    - assert (G : length ts <> 1%nat -> takes T (try_through_array short E left half grows (TTup ts) v) (through_array E left (TTup ts) v) (do l <- snd (as_array_m v); array_gives (TTup ts) l) (fun w => careful grows (TTup ts) -> unharmed v w)).
      { intros Hn. apply ARR; auto; [exact I|]. destruct ts as [|? [|? ?]]; cbn [careful whole]; auto; now destruct Hn. }
      destruct ts as [|t [|t2 ts]]; [apply G; discriminate| |apply G; discriminate]. clear G.
      inversion IH as [|? ? IH1 _]; subst. inversion Hl as [| | | | | | | | | | | | | | |? Hts| | | | |]; subst. inversion Hts; subst.
      assert (HT1 : asks t -> T) by (intros Hr; apply HT; cbn [as_asks existsb]; now rewrite Hr).
      cbn [try_cast_rv cast_left cast_rv careful]. eapply takes_eq;
        [eapply (takes_taken T _ _ _ _ (fun w => w) _ (fun _ => cast_left E left t v) (fun d => Ok (DSeq [d])) _ (IH1 ltac:(assumption) T v Hv HT1)); [auto|intros; apply takes_now]|..]; [|reflexivity].
      now destruct (cast_rv E t v).
    - assert (Hts : Forall (lawful sound) ts) by now inversion Hl.
      assert (HA : Forall (fun t => (asks t -> T) /\ (is_requests short t = true -> T)) ts).
      { rewrite Forall_forall. intros t Ht. split; intros Hr; apply HT; cbn [as_asks]; apply existsb_exists; exists t; (split; [exact Ht|]); rewrite Hr; auto using orb_true_r. }
      cbn [try_cast_rv cast_left cast_rv careful]. destruct (chosen ts) as [n|].
      + assert (G : takes T (try_alternative_rv (try_cast_rv short E left half grows) ts n v) (alternative_left (cast_left E left) ts n v) (as_alternative (cast_rv E) ts n v)
          (fun w => Forall (careful grows) ts -> unharmed v w)).
        { clear Hl HT. revert n. induction IH as [|t ts Ht _ IHts]; intros n; cbn [try_alternative_rv alternative_left as_alternative]; [apply takes_now|].
          inversion Hts; subst. inversion HA as [|? ? [? ?] ?]; subst. destruct n.
          - eapply takes_weak; [|apply Ht; auto]. cbv beta. intros y Hy Hc. apply Hy. now inversion Hc.
          - eapply takes_weak; [|apply IHts; auto]. cbv beta. intros y Hy Hc. apply Hy. now inversion Hc. }
        eapply takes_eq; [eapply (takes_taken T _ _ _ _ (fun w => w) _ (fun _ => alternative_left (cast_left E left) ts n v) (fun d => Ok (DAlt n d)) _ G)|..].
        * cbv beta. intros y Hy Hc. apply Hy. now apply all_forall.
        * intros; apply takes_now.
        * now destruct (as_alternative (cast_rv E) ts n v).
        * reflexivity.
      + apply takes_request; [now apply runs_request|now left|]. eapply takes_weak; [|apply takes_variant; auto].
        * cbv beta. intros y Hy Hc. left. apply Hy. now apply all_forall.
        * rewrite Forall_forall in *. intros t Ht. destruct (HA t Ht). auto.
    - cbn [try_cast_rv cast_left cast_rv careful]. eapply takes_weak; [|apply (takes_through_object T (TMap t) t); auto]. cbv beta. intros y [Hy _] Hc. auto.
    - cbn [try_cast_rv cast_left cast_rv careful]. eapply takes_weak; [|apply takes_rv; auto]. cbv beta. intros y Hy Hc. left. specialize (Hy [] []).
      apply intr_still in Hy; [congruence|]. constructor; [|constructor]. cbn. congruence.
  Qed.
End Taking.
