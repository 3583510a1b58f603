(** * Proofs: the texts of exceptions. *)
From Verif Require Import Base Value Dump Spec Containers Num Enum Conv Api SpecApi SpecConv Heap SpecHeap Info SpecInfo Messages SpecMessages
  BaseProofs DumpProofs ContainerProofs ApiProofs NumProofs EnumProofs ConvProofs HeapSafety InfoProofs.
From Verif Require FaithfulProofs.

Section Proofs.
  Context (cc : compiler) (E : env) (names : bool -> N -> bytes).
  Notation as_said := (as_said cc E names).
  Notation complains := (complains E names).

  (** ** The same outcome *)
  Lemma plainly_ask {A B} (x : said A) (f : A -> said B) : plainly (ask x f) = do a <- plainly x; plainly (f a).
  Proof. destruct x as [[]|]; reflexivity. Qed.
  Lemma plainly_complain {A} p v : plainly (@complain cc A p v) = type_error v.
  Proof.
    unfold complain, value_info, info_body. rewrite type_name_spec. cbn [bind].
    destruct v as [t s|t [l|]|t [m|]]; destruct t; reflexivity.
  Qed.
  Lemma each_plainly {A B} (f : A -> said B) (g : A -> res B) l : Forall (fun x => plainly (f x) = g x) l -> plainly (each f l) = mapM g l.
  Proof. induction 1 as [|x l Hx _ IH]; [reflexivity|]. cbn. rewrite plainly_ask, Hx. destruct (g x); cbn; auto. rewrite plainly_ask, IH. destruct (mapM g l); reflexivity. Qed.
  Lemma each_member_plainly {A B} (f : A -> said B) (g : A -> res B) l : (forall x, plainly (f x) = g x) -> plainly (each_member f l) = mapM_members g l.
  Proof. intros H. induction l as [|[k x] l IH]; [reflexivity|]. cbn. rewrite plainly_ask, H. destruct (g x); cbn; auto. rewrite plainly_ask, IH. destruct (mapM_members g l); reflexivity. Qed.
  Lemma boolean_plainly v : plainly (boolean_said cc v) = as_boolean v.
  Proof.
    unfold boolean_said, as_boolean. destruct (is_boolean v); [|apply plainly_complain]. rewrite plainly_ask. cbn [plainly].
    destruct (get_str v); cbn [bind]; auto. destruct (bytes_eqb _ _); auto. destruct (bytes_eqb _ _); auto.
  Qed.
  Lemma int_plainly sg w v : plainly (int_said cc names sg w v) = as_int sg w v.
  Proof.
    unfold int_said, as_int, parse_integer. destruct (is_number v); [|apply plainly_complain]. rewrite plainly_ask. cbn [plainly].
    destruct (get_str v); cbn [bind]; auto. destruct (try_parse_integer _ _ _); auto.
  Qed.
  Lemma array_plainly v : plainly (array_said cc v) = as_array_c v.
  Proof. unfold array_said, as_array_c. destruct (is_array v); [reflexivity|apply plainly_complain]. Qed.
  Lemma object_plainly v : plainly (object_said cc v) = as_object_c v.
  Proof. unfold object_said, as_object_c. destruct (is_object v); [reflexivity|apply plainly_complain]. Qed.
  Lemma string_plainly n v : plainly (string_said cc n v) = as_string v.
  Proof. unfold string_said, as_string. destruct (is_string v); [reflexivity|apply plainly_complain]. Qed.
  Lemma enum_plainly e v : plainly (enum_said cc names e v) = as_enum e v.
  Proof.
    unfold enum_said, as_enum. destruct (is_string v).
    - rewrite plainly_ask. cbn [plainly]. destruct (get_str v); cbn [bind]; auto. destruct (string_to_enum e _); [reflexivity|apply plainly_complain].
    - destruct (is_number v); [|apply plainly_complain]. destruct (e_underlying e) as [[sg w]|]; rewrite plainly_ask.
      + rewrite int_plainly. destruct (as_int sg w v); reflexivity.
      + rewrite boolean_plainly. destruct (as_boolean v); reflexivity.
  Qed.
  Lemma user_plainly x f p w v : type_error (A := data) w = type_error v -> plainly (user_said cc x f p w v) = ext_as x f v.
  Proof.
    intros H. unfold user_said, ext_as. destruct (f v (x_default x)) as [d [[]| | | |]]; try reflexivity. rewrite <- H. apply plainly_complain.
  Qed.
  Lemma fields_plainly fs v : Forall (fun ft => forall v, plainly (as_said (snd ft) v) = as_ E (snd ft) v) fs -> forall cur,
    (fst (fields_said E as_said fs v cur), plainly (snd (fields_said E as_said fs v cur))) = load_fields E (as_ E) fs v cur.
  Proof.
    induction 1 as [|[f t] fs Ht _ IH]; intros cur; [reflexivity|]. cbn [snd] in Ht. cbn -[json_key v_find_value_key]. destruct cur as [|c cur]; [reflexivity|].
    destruct (v_find_value_key (json_key f) v) as [[w|]| | | |]; try reflexivity.
    - destruct (is_ E t w) as [[]| | | |]; try reflexivity. rewrite <- (Ht w). destruct (as_said t w) as [[]|]; try reflexivity.
      cbn [plainly]. rewrite <- (IH cur). destruct (fields_said _ _ fs v cur); reflexivity.
    - destruct (is_optional f); [|reflexivity]. rewrite <- (IH cur). destruct (fields_said _ _ fs v cur); reflexivity.
  Qed.
  Lemma rec_plainly fs v cur mk : Forall (fun ft => forall v, plainly (as_said (snd ft) v) = as_ E (snd ft) v) fs -> plainly mk = type_error v ->
    plainly match fields_said E as_said fs v cur with
      | (l, Done (Ok None)) => Done (Ok (DRec l))
      | (_, Done (Ok (Some _))) => mk
      | (_, r) => asked _ <- r; Done Fuel
      end =
    match load_fields E (as_ E) fs v cur with
    | (l, Ok None) => Ok (DRec l)
    | (_, Ok (Some _)) => type_error v
    | (_, r) => do _ <- r; Fuel
    end.
  Proof.
    intros H Hm. rewrite <- (fields_plainly fs v H). destruct (fields_said _ _ fs v _) as [l [[[]| | | |]|]]; cbn [fst snd plainly]; try reflexivity. exact Hm.
  Qed.
  Lemma as_said_plainly t : forall v, plainly (as_said t v) = as_ E t v.
  Proof.
    induction t as [ | | | |sg w|p| | | | |t IH|t IH|t IH|ins t IH|n t IH|ts IH|ts IH|t IH|e|fs IH|x] using ty_ind'; intros v; cbn [Messages.as_said as_].
    - rewrite plainly_ask. cbn [plainly]. destruct (copy v); reflexivity.
    - rewrite plainly_ask, array_plainly. destruct (as_array_c v); cbn [bind]; auto. rewrite plainly_ask. cbn [plainly]. destruct (copy_elems copy a); reflexivity.
    - rewrite plainly_ask, object_plainly. destruct (as_object_c v); cbn [bind]; auto. rewrite plainly_ask. cbn [plainly]. destruct (copy_members copy a); reflexivity.
    - rewrite plainly_ask, boolean_plainly. destruct (as_boolean v); reflexivity.
    - rewrite plainly_ask, int_plainly. destruct (as_int sg w v); reflexivity.
    - rewrite plainly_ask. unfold float_said. destruct (is_number v); [|rewrite plainly_complain; unfold type_error; destruct v as [|[] []|[] []]; reflexivity].
      rewrite plainly_ask. cbn [plainly]. destruct (get_str v); cbn [bind]; auto. destruct (float_parse E p a); reflexivity.
    - rewrite plainly_ask, string_plainly. destruct (as_string v); reflexivity.
    - rewrite plainly_ask, string_plainly. destruct (as_string v); reflexivity.
    - destruct (is_null v); [reflexivity|apply plainly_complain].
    - destruct (is_null v); [reflexivity|apply plainly_complain].
    - rewrite plainly_ask, IH. destruct (as_ E t v); reflexivity.
    - destruct (is_null v); [reflexivity|]. rewrite plainly_ask, IH. destruct (as_ E t v); reflexivity.
    - rewrite plainly_ask, array_plainly. destruct (as_array_c v) as [l| | | |]; cbn [bind]; auto.
      rewrite plainly_ask, (each_plainly _ (as_ E t)) by (apply Forall_forall; auto). destruct (mapM _ l); reflexivity.
    - rewrite plainly_ask, array_plainly. destruct (as_array_c v) as [l| | | |]; cbn [bind]; auto.
      rewrite plainly_ask, (each_plainly _ (as_ E t)) by (apply Forall_forall; auto). destruct (mapM _ l); reflexivity.
    - rewrite plainly_ask, array_plainly. destruct (as_array_c v) as [l| | | |]; cbn [bind]; auto. destruct (Nat.eqb _ _); [|reflexivity].
      rewrite plainly_ask, (each_plainly _ (as_ E t)) by (apply Forall_forall; auto). destruct (mapM _ l); reflexivity.
    - assert (H : plainly (asked l <- array_said cc v;
        if Nat.eqb (length l) (length ts) then asked r <- tuple_said as_said ts l; Done (Ok (DSeq r)) else Says (tuple_message (length ts) (length l))) =
        do l <- as_array_c v; if Nat.eqb (length l) (length ts) then do r <- as_tuple (as_ E) ts l; Ok (DSeq r) else Throw JsonException).
      { rewrite plainly_ask, array_plainly. destruct (as_array_c v) as [l| | | |]; cbn [bind]; auto. destruct (Nat.eqb _ _); [|reflexivity]. rewrite plainly_ask.
        assert (G : plainly (tuple_said as_said ts l) = as_tuple (as_ E) ts l).
        { revert l. induction IH as [|t ts Ht _ IHt]; intros l; [reflexivity|]. destruct l as [|w l]; [reflexivity|]. cbn. rewrite plainly_ask, Ht.
          destruct (as_ E t w); cbn [bind]; auto. rewrite plainly_ask, IHt. destruct (as_tuple (as_ E) ts l); reflexivity. }
        rewrite G. destruct (as_tuple (as_ E) ts l); reflexivity. }
      destruct ts as [|t [|t' ts]]; [exact H| |exact H]. rewrite plainly_ask. inversion IH as [|? ? Ht _]; subst. rewrite Ht. destruct (as_ E t v); reflexivity.
    - destruct (chosen ts) as [n|].
      + rewrite plainly_ask. assert (G : plainly (alternative_said as_said ts n v) = as_alternative (as_ E) ts n v).
        { revert n. induction IH as [|t ts Ht _ IHt]; intros n; [reflexivity|]. destruct n; cbn; auto. }
        rewrite G. destruct (as_alternative (as_ E) ts n v); reflexivity.
      + generalize O. induction IH as [|t ts Ht _ IHt]; intros n; [apply plainly_complain|]. cbn [variant_said as_variant]. rewrite plainly_ask. cbn [plainly].
        destruct (is_ E t v) as [[]| | | |]; cbn [bind]; try reflexivity; [rewrite plainly_ask, Ht; destruct (as_ E t v); reflexivity|]. apply IHt.
    - rewrite plainly_ask, object_plainly. destruct (as_object_c v) as [l| | | |]; cbn [bind]; auto.
      rewrite plainly_ask, (each_member_plainly _ (as_ E t)) by auto. destruct (mapM_members _ l); reflexivity.
    - rewrite plainly_ask, enum_plainly. destruct (as_enum e v); reflexivity.
    - apply rec_plainly; [exact IH|apply plainly_complain].
    - now apply user_plainly.
  Qed.

  (** ** What the text says *)
  Lemma ask_says {A B} (x : said A) (f : A -> said B) m : ask x f = Says m -> x = Says m \/ exists a, x = Done (Ok a) /\ f a = Says m.
  Proof. destruct x as [[]|]; cbn; try discriminate; eauto. intros [= ->]. auto. Qed.
  Lemma complain_says {A} p v m : ok v -> @complain cc A p v = Says m -> exists i, describes v i /\ m = p ++ i.
  Proof. intros H. apply sound_okv in H. destruct (info_spec cc v H) as (i & Hi & Hd). unfold complain. rewrite Hi. intros [= <-]. eauto. Qed.
  Lemma kind_says {A} t n k v m : wants names t n k -> type_of v <> k -> ok v -> @complain cc A (cannot_convert n (tag_name k)) v = Says m -> complains t v m.
  Proof.
    intros Hw Hk Hv H. apply complain_says in H as (i & Hi & ->); [|exact Hv]. unfold cannot_convert. rewrite <- !app_assoc. now constructor.
  Qed.
  Lemma each_says {A B} (f : A -> said B) l m : each f l = Says m -> exists x, In x l /\ f x = Says m.
  Proof.
    induction l as [|x l IH]; cbn; [discriminate|]. intros H. apply ask_says in H as [H|(y & _ & H)]; [eauto|].
    apply ask_says in H as [H|(z & _ & H)]; [|discriminate]. destruct (IH H) as (w & Hw & Hm). eauto.
  Qed.
  Lemma each_member_says {A B} (f : A -> said B) l m : each_member f l = Says m -> exists k x, In (k, x) l /\ f x = Says m.
  Proof.
    induction l as [|[k x] l IH]; cbn; [discriminate|]. intros H. apply ask_says in H as [H|(y & _ & H)]; [eauto|].
    apply ask_says in H as [H|(z & _ & H)]; [|discriminate]. destruct (IH H) as (k' & w & Hw & Hm). eauto.
  Qed.
  Lemma tuple_says f ts : forall l m, tuple_said f ts l = Says m -> exists i t x, nth_error ts i = Some t /\ nth_error l i = Some x /\ f t x = Says m.
  Proof.
    induction ts as [|t ts IH]; intros l m; [discriminate|]. destruct l as [|x l]; [discriminate|]. cbn. intros H. apply ask_says in H as [H|(y & _ & H)].
    - exists O, t, x. auto.
    - apply ask_says in H as [H|(z & _ & H)]; [|discriminate]. destruct (IH l m H) as (i & t' & x' & H1 & H2 & H3). exists (S i), t', x'. auto.
  Qed.
  Lemma alternative_says f ts : forall n v m, alternative_said f ts n v = Says m -> exists t, In t ts /\ f t v = Says m.
  Proof.
    induction ts as [|t ts IH]; intros n v m; [discriminate|]. destruct n; cbn; intros H; [eauto|]. destruct (IH n v m H) as (t' & H1 & H2). eauto.
  Qed.
  Lemma get_str_ok v s : ok v -> get_str v = Ok s -> exists t, v = VStr t s.
  Proof. intros [t s' _|l _|[]|m' _ _|[]]; cbn; try discriminate. intros [= ->]. eauto. Qed.
  Lemma is_kind v k : vtype_eqb (type_of v) k = false -> type_of v <> k.
  Proof. destruct (type_of v), k; cbn; congruence. Qed.
  Lemma kind_is v k : vtype_eqb (type_of v) k = true -> type_of v = k.
  Proof. destruct (type_of v), k; cbn; congruence. Qed.
  Lemma boolean_says v m : ok v -> boolean_said cc v = Says m -> complains TBool v m.
  Proof.
    intros Hv. unfold boolean_said. destruct (is_boolean v) eqn:K; intros H.
    - apply ask_says in H as [H|(s & H1 & H)]; [discriminate|]. injection H1 as H1. destruct (get_str_ok v s Hv H1) as [t ->].
      apply kind_is in K. cbn in K. subst t. destruct (bytes_eqb s true_string) eqn:K1; [discriminate|]. destruct (bytes_eqb s false_string) eqn:K2; [discriminate|].
      injection H as <-. constructor; intros ->; discriminate.
    - exact (kind_says TBool _ Tboolean v m (wa_bool _) (is_kind _ _ K) Hv H).
  Qed.
  Lemma int_says sg w v m : ok v -> int_said cc names sg w v = Says m -> complains (TInt sg w) v m.
  Proof.
    intros Hv. unfold int_said. destruct (is_number v) eqn:K; intros H.
    - apply ask_says in H as [H|(s & H1 & H)]; [discriminate|]. injection H1 as H1. destruct (get_str_ok v s Hv H1) as [t ->].
      apply kind_is in K. cbn in K. subst t. destruct (try_parse_integer sg w s) eqn:K1; [discriminate|]. injection H as <-.
      apply co_number; constructor. intros z Hz Hf. assert (try_parse_integer sg w s = Some z) by (apply try_parse_spec; auto). congruence.
    - exact (kind_says (TInt sg w) _ Tnumber v m (wa_int _ sg w) (is_kind _ _ K) Hv H).
  Qed.
  Lemma float_wants p : wants names (TFlt p) (float_name p) Tnumber.
  Proof.
    unfold float_name. destruct (N.eqb_spec p 24) as [-> |H1]; [constructor|]. destruct (N.eqb_spec p 53) as [-> |H2]; [constructor|]. now constructor.
  Qed.
  Lemma float_says p v m : ok v -> float_said cc E p v = Says m -> complains (TFlt p) v m.
  Proof.
    intros Hv. unfold float_said. destruct (is_number v) eqn:K; intros H.
    - apply ask_says in H as [H|(s & H1 & H)]; [discriminate|]. injection H1 as H1. destruct (get_str_ok v s Hv H1) as [t ->].
      apply kind_is in K. cbn in K. subst t. destruct (float_parse E p s) eqn:K1; [discriminate|]. injection H as <-.
      apply co_number; [apply float_wants|now constructor].
    - exact (kind_says (TFlt p) _ Tnumber v m (float_wants p) (is_kind _ _ K) Hv H).
  Qed.
  Lemma array_says t v m : from_array t -> ok v -> array_said cc v = Says m -> complains t v m.
  Proof.
    intros Ht Hv. unfold array_said. destruct (is_array v) eqn:K; intros H; [discriminate|].
    exact (kind_says t _ Tarray v m (wa_arr _ t Ht) (is_kind _ _ K) Hv H).
  Qed.
  Lemma array_done v l : ok v -> array_said cc v = Done (Ok l) -> v = VArr Tarray (Some l) /\ Forall ok l.
  Proof.
    intros Hv. unfold array_said. destruct (is_array v) eqn:K.
    - destruct Hv as [t s _|l' Hl|[]|m' _ _|[]]; cbn; try discriminate. intros [= ->]. auto.
    - unfold complain. destruct (value_info cc v); discriminate.
  Qed.
  Lemma object_says t v m : from_object t -> ok v -> object_said cc v = Says m -> complains t v m.
  Proof.
    intros Ht Hv. unfold object_said. destruct (is_object v) eqn:K; intros H; [discriminate|].
    exact (kind_says t _ Tobject v m (wa_obj _ t Ht) (is_kind _ _ K) Hv H).
  Qed.
  Lemma object_done v l : ok v -> object_said cc v = Done (Ok l) -> v = VObj Tobject (Some l) /\ Forall (fun kv => ok (snd kv)) l.
  Proof.
    intros Hv. unfold object_said. destruct (is_object v) eqn:K.
    - destruct Hv as [t s _|l' Hl|[]|m' Hm _|[]]; cbn; try discriminate. intros [= ->]. auto.
    - unfold complain. destruct (value_info cc v); discriminate.
  Qed.
  Lemma string_says t n v m : wants names t n Tstring -> ok v -> string_said cc n v = Says m -> complains t v m.
  Proof.
    intros Ht Hv. unfold string_said. destruct (is_string v) eqn:K; intros H; [discriminate|].
    exact (kind_says t _ Tstring v m Ht (is_kind _ _ K) Hv H).
  Qed.
  Definition explained (t : ty) (v : value) (m : bytes) : Prop := exists t' w, reaches t v t' w /\ complains t' w m.
  Lemma explained_here t v m : complains t v m -> explained t v m.
  Proof. intros H. exists t, v. split; [constructor|exact H]. Qed.
  Lemma enum_says e v m : ok v -> enum_said cc names e v = Says m -> explained (TEnum e) v m.
  Proof.
    intros Hv. unfold enum_said. destruct (is_string v) eqn:K; intros H.
    - apply explained_here. apply ask_says in H as [H|(s & H1 & H)]; [discriminate|]. injection H1 as H1. destruct (get_str_ok v s Hv H1) as [t ->].
      apply kind_is in K. cbn in K. subst t. destruct (string_to_enum e s) eqn:K1; [discriminate|].
      apply complain_says in H as (i & Hi & ->); [|exact Hv]. now constructor.
    - destruct (is_number v) eqn:K1.
      + destruct Hv as [t s Hp|l Hl|[]|m' Hm _|[]]; try discriminate. apply kind_is in K1. cbn in K1. subst t.
        destruct (e_underlying e) as [[sg w]|] eqn:U; (apply ask_says in H as [H|(z & _ & H)]; [|discriminate]).
        * exists (TInt sg w), (VStr Tnumber s). split; [now constructor|]. apply int_says; [now constructor|exact H].
        * exists TBool, (VStr Tnumber s). split; [now constructor|]. apply boolean_says; [now constructor|exact H].
      + apply explained_here. apply complain_says in H as (i & Hi & ->); [|exact Hv]. constructor; auto; now apply is_kind.
  Qed.
  Lemma find_says v k w : ok v -> v_find_value_key k v = Ok (Some w) -> member v k w /\ ok w.
  Proof.
    intros Hv. unfold v_find_value_key. destruct Hv as [t s [H1 H2]|l Hl|[]|m Hm Hk|[]]; cbn.
    - destruct t; cbn; try discriminate; congruence.
    - discriminate.
    - intros [= H]. apply map_find_in in H. split; [exists m; auto|]. rewrite Forall_forall in Hm. exact (Hm _ H).
  Qed.
  Lemma fields_says fs v : ok v -> forall cur,
    (forall l m, fields_said E as_said fs v cur = (l, Says m) -> exists f t w, In (f, t) fs /\ member v (json_key f) w /\ ok w /\ as_said t w = Says m) /\
    (forall l k, fields_said E as_said fs v cur = (l, Done (Ok (Some k))) -> check_fields (is_ E) fs v = Ok (Some k)).
  Proof.
    intros Hv. induction fs as [|[f t] fs IH]; intros cur; [split; discriminate|].
    cbn -[json_key v_find_value_key]. destruct cur as [|c cur]; [split; discriminate|]. specialize (IH cur). destruct IH as [IH1 IH2].
    destruct (v_find_value_key (json_key f) v) as [[w|]| | | |] eqn:F; cbn [bind]; try (split; discriminate).
    - destruct (find_says v _ w Hv F) as [Hm Hw].
      destruct (is_ E t w) as [[]| | | |]; cbn [bind]; try (split; discriminate).
      + destruct (as_said t w) as [[]|] eqn:A; cbn [ask]; try (split; discriminate).
        * destruct (fields_said E as_said fs v cur) as [r o] eqn:R. split.
          -- intros l m [= <- ->]. destruct (IH1 _ _ eq_refl) as (f' & t' & w' & H1 & H2). exists f', t', w'. split; [now right|exact H2].
          -- intros l k [= <- ->]. exact (IH2 _ _ eq_refl).
        * split; [|discriminate]. intros l m' [= <- <-]. exists f, t, w. split; [now left|]. auto.
      + split; [discriminate|]. intros l k [= <- <-]. reflexivity.
    - destruct (is_optional f); [|split; [discriminate|]; intros l k [= <- <-]; reflexivity].
      destruct (fields_said E as_said fs v cur) as [r o] eqn:R. split.
      + intros l m [= <- ->]. destruct (IH1 _ _ eq_refl) as (f' & t' & w' & H1 & H2). exists f', t', w'. split; [now right|exact H2].
      + intros l k [= <- ->]. exact (IH2 _ _ eq_refl).
  Qed.
  Lemma json_key_effective f : effective_key f (json_key f).
  Proof. now apply FaithfulProofs.effective_key_spec. Qed.
  Theorem as_said_explained t : forall v m, ok v -> as_said t v = Says m -> explained t v m.
  Proof.
    induction t as [ | | | |sg w|p| | | | |t IH|t IH|t IH|ins t IH|n t IH|ts IH|ts IH|t IH|e|fs IH|x] using ty_ind'; intros v m Hv H; cbn [Messages.as_said] in H.
    - apply ask_says in H as [H|(? & _ & H)]; discriminate.
    - apply ask_says in H as [H|(l & _ & H)]; [apply explained_here; now apply array_says|]. apply ask_says in H as [H|(? & _ & H)]; discriminate.
    - apply ask_says in H as [H|(l & _ & H)]; [apply explained_here; now apply object_says|]. apply ask_says in H as [H|(? & _ & H)]; discriminate.
    - apply ask_says in H as [H|(? & _ & H)]; [|discriminate]. apply explained_here. now apply boolean_says.
    - apply ask_says in H as [H|(? & _ & H)]; [|discriminate]. apply explained_here. now apply int_says.
    - apply ask_says in H as [H|(? & _ & H)]; [|discriminate]. apply explained_here. now apply float_says.
    - apply ask_says in H as [H|(? & _ & H)]; [|discriminate]. apply explained_here. eapply string_says; [constructor|exact Hv|exact H].
    - apply ask_says in H as [H|(? & _ & H)]; [|discriminate]. apply explained_here. eapply string_says; [constructor|exact Hv|exact H].
    - destruct (is_null v) eqn:K; [discriminate|]. apply explained_here. exact (kind_says TNullptr _ Tnull v m (wa_nullptr _) (is_kind _ _ K) Hv H).
    - destruct (is_null v) eqn:K; [discriminate|]. apply explained_here. exact (kind_says TMono _ Tnull v m (wa_mono _) (is_kind _ _ K) Hv H).
    - apply ask_says in H as [H|(? & _ & H)]; [|discriminate]. destruct (IH v m Hv H) as (t' & w & H1 & H2). exists t', w. split; [now constructor|exact H2].
    - destruct (is_null v); [discriminate|]. apply ask_says in H as [H|(? & _ & H)]; [|discriminate].
      destruct (IH v m Hv H) as (t' & w & H1 & H2). exists t', w. split; [now constructor|exact H2].
    - apply ask_says in H as [H|(l & Hl & H)]; [apply explained_here; now apply array_says|]. apply ask_says in H as [H|(? & _ & H)]; [|discriminate].
      destruct (array_done v l Hv Hl) as [-> Ho]. apply each_says in H as (x & Hx & H). rewrite Forall_forall in Ho.
      destruct (IH x m (Ho x Hx) H) as (t' & w & H1 & H2). exists t', w. split; [econstructor; eauto|exact H2].
    - apply ask_says in H as [H|(l & Hl & H)]; [apply explained_here; now apply array_says|]. apply ask_says in H as [H|(? & _ & H)]; [|discriminate].
      destruct (array_done v l Hv Hl) as [-> Ho]. apply each_says in H as (x & Hx & H). rewrite Forall_forall in Ho.
      destruct (IH x m (Ho x Hx) H) as (t' & w & H1 & H2). exists t', w. split; [econstructor; eauto|exact H2].
    - apply ask_says in H as [H|(l & Hl & H)]; [apply explained_here; now apply array_says|].
      destruct (array_done v l Hv Hl) as [-> Ho]. destruct (Nat.eqb_spec (length l) n) as [L|L].
      + apply ask_says in H as [H|(? & _ & H)]; [|discriminate]. apply each_says in H as (x & Hx & H). rewrite Forall_forall in Ho.
        destruct (IH x m (Ho x Hx) H) as (t' & w & H1 & H2). exists t', w. split; [econstructor; eauto|exact H2].
      + injection H as <-. apply explained_here. constructor; auto using size_text.
    - destruct ts as [|t0 [|t1 ts]].
      + apply ask_says in H as [H|(l & Hl & H)]; [apply explained_here; apply array_says; [discriminate|exact Hv|exact H]|].
        destruct (array_done v l Hv Hl) as [-> Ho]. destruct (Nat.eqb_spec (length l) (length (@nil ty))) as [L|L]; [discriminate|].
        injection H as <-. apply explained_here. apply co_tuple; auto using size_text; discriminate.
      + apply ask_says in H as [H|(? & _ & H)]; [|discriminate]. inversion IH as [|? ? Ht _]; subst.
        destruct (Ht v m Hv H) as (t' & w & H1 & H2). exists t', w. split; [now apply re_tup_one|exact H2].
      + set (ts' := t0 :: t1 :: ts) in *.
        apply ask_says in H as [H|(l & Hl & H)]; [apply explained_here; apply array_says; [discriminate|exact Hv|exact H]|].
        destruct (array_done v l Hv Hl) as [-> Ho]. destruct (Nat.eqb_spec (length l) (length ts')) as [L|L].
        * apply ask_says in H as [H|(? & _ & H)]; [|discriminate]. apply tuple_says in H as (i & t & x & H1 & H2 & H).
          pose proof (nth_error_In _ _ H1) as I1. pose proof (nth_error_In _ _ H2) as I2. rewrite Forall_forall in Ho, IH.
          destruct (IH t I1 x m (Ho x I2) H) as (t' & w & H3 & H4). exists t', w. split; [eapply re_tup; eauto|exact H4].
        * injection H as <-. apply explained_here. apply co_tuple; auto using size_text; discriminate.
    - destruct (chosen ts) as [n|].
      + apply ask_says in H as [H|(? & _ & H)]; [|discriminate]. apply alternative_says in H as (t & Ht & H). rewrite Forall_forall in IH.
        destruct (IH t Ht v m Hv H) as (t' & w & H1 & H2). exists t', w. split; [econstructor; eauto|exact H2].
      + assert (G : forall n us, (forall t, In t us -> In t ts) -> (Forall (fun t => is_ E t v = Ok false) us -> Forall (fun t => is_ E t v = Ok false) ts) ->
          variant_said cc E as_said n us v = Says m -> explained (TVar ts) v m).
        { clear H. intros n us. revert n. induction us as [|t us IHu]; intros n Hs Hf H; cbn [variant_said] in H.
          - apply complain_says in H as (i & Hi & ->); [|exact Hv]. apply explained_here. constructor; auto.
          - apply ask_says in H as [H|(b & Hb & H)]; [discriminate|]. injection Hb as Hb. destruct b.
            + apply ask_says in H as [H|(? & _ & H)]; [|discriminate]. assert (Ht : In t ts) by (apply Hs; now left). rewrite Forall_forall in IH.
              destruct (IH t Ht v m Hv H) as (t' & w & H1 & H2). exists t', w. split; [econstructor; eauto|exact H2].
            + apply (IHu (S n)); auto. intros t' Ht'. apply Hs. now right. }
        exact (G O ts (fun t Ht => Ht) (fun h => h) H).
    - apply ask_says in H as [H|(l & Hl & H)]; [apply explained_here; now apply object_says|]. apply ask_says in H as [H|(? & _ & H)]; [|discriminate].
      destruct (object_done v l Hv Hl) as [-> Ho]. apply each_member_says in H as (k & x & Hx & H). rewrite Forall_forall in Ho.
      destruct (IH x m (Ho _ Hx) H) as (t' & w & H1 & H2). exists t', w. split; [econstructor; eauto|exact H2].
    - apply ask_says in H as [H|(? & _ & H)]; [|discriminate]. now apply enum_says.
    - destruct (fields_says fs v Hv (map (fun ft => f_default (fst ft)) fs)) as [F1 F2].
      destruct (fields_said E as_said fs v _) as [l [[[k|]| | | |]|m']]; cbn [ask] in H; try discriminate.
      + apply complain_says in H as (i & Hi & ->); [|exact Hv]. apply explained_here. constructor; [|exact Hi]. cbn [is_]. rewrite (F2 l k eq_refl). reflexivity.
      + injection H as ->. destruct (F1 l m eq_refl) as (f & t & w & H1 & H2 & H3 & H4). rewrite Forall_forall in IH.
        destruct (IH (f, t) H1 w m H3 H4) as (t' & w' & H5 & H6). exists t', w'. split; [|exact H6].
        exact (re_rec fs f t _ v w t' w' H1 (json_key_effective f) H2 H5).
    - unfold user_said in H. destruct (x_from x v (x_default x)) as [d [[]| | | |]] eqn:F; try discriminate.
      apply complain_says in H as (i & Hi & ->); [|exact Hv]. apply explained_here. econstructor; eauto.
  Qed.
End Proofs.
