(** * Theorems: the texts of exceptions. *)
From Verif Require Import Base Value Dump Spec Containers Num Enum Conv Api SpecApi SpecConv Heap SpecHeap Info SpecInfo Messages SpecMessages
  BaseProofs DumpProofs ContainerProofs ApiProofs NumProofs EnumProofs ConvProofs HeapSafety InfoProofs MessagesProofs.

(** ** Every exception of the library has a text *)
Section Own.
  Context (cc : compiler) (E : env) (names : bool -> N -> bytes).
  Notation as_said := (as_said cc E names).
  Definition mute {A} (r : res A) : Prop := r <> Throw JsonException.
  Lemma mute_bind {A B} (r : res A) (f : A -> res B) : mute r -> (forall a, r = Ok a -> mute (f a)) -> mute (bind r f).
  Proof. unfold mute. destruct r as [a|[]| | |]; cbn; auto; try discriminate. Qed.
  Lemma mute_get_str v : mute (get_str v). Proof. destruct v; discriminate. Qed.
  Lemma mute_get_arr v : mute (get_arr v). Proof. destruct v as [|? []|]; discriminate. Qed.
  Lemma mute_get_obj v : mute (get_obj v). Proof. destruct v as [| |? []]; discriminate. Qed.
  Lemma mute_array v : is_array v = true -> mute (as_array_c v).
  Proof. intros H. unfold as_array_c. rewrite H. apply mute_get_arr. Qed.
  Lemma mute_object v : is_object v = true -> mute (as_object_c v).
  Proof. intros H. unfold as_object_c. rewrite H. apply mute_get_obj. Qed.
  Lemma mute_find k v : mute (v_find_value_key k v).
  Proof. unfold v_find_value_key. destruct (is_object v) eqn:K; [|discriminate]. apply mute_bind; [now apply mute_object|discriminate]. Qed.
  Lemma mute_all {A} (f : A -> res bool) l : (forall x, mute (f x)) -> mute (allM f l).
  Proof. intros H. induction l as [|x l IH]; cbn; [discriminate|]. apply mute_bind; [auto|]. intros [] _; [exact IH|discriminate]. Qed.
  Lemma mute_all_members {A} (f : A -> res bool) l : (forall x, mute (f x)) -> mute (allM_members f l).
  Proof. intros H. induction l as [|[k x] l IH]; cbn; [discriminate|]. apply mute_bind; [auto|]. intros [] _; [exact IH|discriminate]. Qed.
  Lemma mute_is t : ours t -> forall v, mute (is_ E t v).
  Proof.
    induction t as [ | | | |sg w|p| | | | |t IH|t IH|t IH|ins t IH|n t IH|ts IH|ts IH|t IH|e|fs IH|x] using ty_ind'; intros Ho v; cbn [is_].
    all: try discriminate.
    all: try (assert (Ht : ours t) by now inversion Ho).
    - destruct (is_number v); [|discriminate]. apply mute_bind; [apply mute_get_str|discriminate].
    - destruct (is_number v); [|discriminate]. apply mute_bind; [apply mute_get_str|discriminate].
    - destruct (is_null v); [discriminate|auto].
    - destruct (is_null v); [discriminate|auto].
    - destruct (is_array v) eqn:K; [|discriminate]. apply mute_bind; [now apply mute_array|]. intros l _. apply mute_all; auto.
    - destruct (is_array v) eqn:K; [|discriminate]. apply mute_bind; [now apply mute_array|]. intros l _. apply mute_all; auto.
    - destruct (is_array v) eqn:K; [|discriminate]. apply mute_bind; [now apply mute_array|]. intros l _. destruct (Nat.eqb _ _); [|discriminate]. apply mute_all; auto.
    - destruct (is_array v) eqn:K; [|discriminate]. apply mute_bind; [now apply mute_array|]. intros l _. destruct (Nat.eqb _ _); [|discriminate].
      assert (Hts : Forall ours ts) by now inversion Ho. clear Ho. revert l. induction IH as [|t ts Ht _ IHt]; intros l; [discriminate|]. inversion Hts; subst.
      destruct l as [|x l]; [discriminate|]. cbn. apply mute_bind; [auto|]. intros [] _; [auto|discriminate].
    - assert (Hts : Forall ours ts) by now inversion Ho. clear Ho. induction IH as [|t ts Ht _ IHt]; [discriminate|]. inversion Hts; subst.
      cbn. apply mute_bind; [auto|]. intros [] _; [discriminate|auto].
    - destruct (is_object v) eqn:K; [|discriminate]. apply mute_bind; [now apply mute_object|]. intros l _. apply mute_all_members; auto.
    - unfold is_enum. destruct (is_string v); [apply mute_bind; [apply mute_get_str|discriminate]|].
      destruct (e_underlying e) as [[sg w]|]; [|discriminate]. destruct (negb _); [discriminate|]. apply mute_bind; [apply mute_get_str|discriminate].
    - apply mute_bind; [|discriminate]. assert (Hfs : Forall (fun ft => ours (snd ft)) fs) by now inversion Ho. clear Ho.
      induction IH as [|[f t] fs Ht _ IHt]; [discriminate|]. inversion Hfs; subst. cbn -[json_key v_find_value_key]. apply mute_bind; [apply mute_find|].
      intros [w|] _; [apply mute_bind; [auto|]; intros [] _; [auto|discriminate]|destruct (is_optional f); [auto|discriminate]].
    - inversion Ho.
  Qed.
  Lemma mute_copy v : mute (copy v).
  Proof.
    induction v as [t s|t|t l IH|t|t m IH] using value_ind'; try discriminate; cbn.
    - apply mute_bind; [|discriminate]. induction IH as [|x l Hx _ IHl]; [discriminate|]. cbn. apply mute_bind; [exact Hx|]. intros a _. apply mute_bind; [exact IHl|discriminate].
    - apply mute_bind; [|discriminate]. induction IH as [|[k x] l Hx _ IHl]; [discriminate|]. cbn. apply mute_bind; [exact Hx|]. intros a _. apply mute_bind; [exact IHl|discriminate].
  Qed.
  Lemma mute_copy_elems l : mute (copy_elems copy l).
  Proof. induction l as [|x l IH]; [discriminate|]. cbn. apply mute_bind; [apply mute_copy|]. intros a _. apply mute_bind; [exact IH|discriminate]. Qed.
  Lemma mute_copy_members l : mute (copy_members copy l).
  Proof. induction l as [|[k x] l IH]; [discriminate|]. cbn. apply mute_bind; [apply mute_copy|]. intros a _. apply mute_bind; [exact IH|discriminate]. Qed.
  (** no exception without a text *)
  Definition worded {A} (x : said A) : Prop := x <> Done (Throw JsonException).
  Lemma worded_done {A} (r : res A) : mute r -> worded (Done r).
  Proof. unfold worded, mute. congruence. Qed.
  Lemma worded_says {A} m : worded (@Says A m). Proof. discriminate. Qed.
  Lemma worded_ask {A B} (x : said A) (f : A -> said B) : worded x -> (forall a, x = Done (Ok a) -> worded (f a)) -> worded (ask x f).
  Proof. unfold worded. destruct x as [[a|[]| | |]|m]; cbn; auto; try discriminate. Qed.
  Lemma worded_complain {A} p v : worded (@complain cc A p v).
  Proof. unfold complain. destruct (value_info cc v) as [i|e| | |] eqn:I; try discriminate. exfalso. exact (info_no_throw cc v e I). Qed.
  Lemma worded_each {A B} (f : A -> said B) l : (forall x, worded (f x)) -> worded (each f l).
  Proof. intros H. induction l as [|x l IH]; [discriminate|]. cbn [each]. apply worded_ask; [auto|]. intros y _. apply worded_ask; [exact IH|discriminate]. Qed.
  Lemma worded_each_member {A B} (f : A -> said B) l : (forall x, worded (f x)) -> worded (each_member f l).
  Proof. intros H. induction l as [|[k x] l IH]; [discriminate|]. cbn [each_member]. apply worded_ask; [auto|]. intros y _. apply worded_ask; [exact IH|discriminate]. Qed.
  Lemma worded_array v : worded (array_said cc v).
  Proof. unfold array_said. destruct (is_array v); [apply worded_done, mute_get_arr|apply worded_complain]. Qed.
  Lemma worded_object v : worded (object_said cc v).
  Proof. unfold object_said. destruct (is_object v); [apply worded_done, mute_get_obj|apply worded_complain]. Qed.
  Lemma worded_string n v : worded (string_said cc n v).
  Proof. unfold string_said. destruct (is_string v); [apply worded_done, mute_get_str|apply worded_complain]. Qed.
  Lemma worded_boolean v : worded (boolean_said cc v).
  Proof.
    unfold boolean_said. destruct (is_boolean v); [|apply worded_complain]. apply worded_ask; [apply worded_done, mute_get_str|].
    intros s _. destruct (bytes_eqb _ _); [discriminate|]. destruct (bytes_eqb _ _); discriminate.
  Qed.
  Lemma worded_int sg w v : worded (int_said cc names sg w v).
  Proof.
    unfold int_said. destruct (is_number v); [|apply worded_complain]. apply worded_ask; [apply worded_done, mute_get_str|].
    intros s _. destruct (try_parse_integer _ _ _); discriminate.
  Qed.
  Lemma worded_float p v : worded (float_said cc E p v).
  Proof.
    unfold float_said. destruct (is_number v); [|apply worded_complain]. apply worded_ask; [apply worded_done, mute_get_str|].
    intros s _. destruct (float_parse _ _ _); discriminate.
  Qed.
  Lemma mute_to_enum e z : mute (to_enum e z).
  Proof. unfold to_enum. destruct (e_values e) as [[lo hi]|]; [|discriminate]. destruct (_ && _); discriminate. Qed.
  Lemma worded_enum e v : worded (enum_said cc names e v).
  Proof.
    unfold enum_said. destruct (is_string v).
    - apply worded_ask; [apply worded_done, mute_get_str|]. intros s _. destruct (string_to_enum e s); [discriminate|apply worded_complain].
    - destruct (is_number v); [|apply worded_complain]. destruct (e_underlying e) as [[sg w]|].
      + apply worded_ask; [apply worded_int|]. intros z _. apply worded_done, mute_to_enum.
      + apply worded_ask; [apply worded_boolean|]. intros z _. apply worded_done, mute_to_enum.
  Qed.
  Lemma worded_as t : ours t -> forall v, worded (as_said t v).
  Proof.
    induction t as [ | | | |sg w|p| | | | |t IH|t IH|t IH|ins t IH|n t IH|ts IH|ts IH|t IH|e|fs IH|x] using ty_ind'; intros Ho v; cbn [Messages.as_said].
    all: try (assert (Ht : ours t) by now inversion Ho).
    - apply worded_ask; [apply worded_done, mute_copy|discriminate].
    - apply worded_ask; [apply worded_array|]. intros l _. apply worded_ask; [apply worded_done, mute_copy_elems|discriminate].
    - apply worded_ask; [apply worded_object|]. intros l _. apply worded_ask; [apply worded_done, mute_copy_members|discriminate].
    - apply worded_ask; [apply worded_boolean|discriminate].
    - apply worded_ask; [apply worded_int|discriminate].
    - apply worded_ask; [apply worded_float|discriminate].
    - apply worded_ask; [apply worded_string|discriminate].
    - apply worded_ask; [apply worded_string|discriminate].
    - destruct (is_null v); [discriminate|apply worded_complain].
    - destruct (is_null v); [discriminate|apply worded_complain].
    - apply worded_ask; [auto|discriminate].
    - destruct (is_null v); [discriminate|]. apply worded_ask; [auto|discriminate].
    - apply worded_ask; [apply worded_array|]. intros l _. apply worded_ask; [apply worded_each; auto|discriminate].
    - apply worded_ask; [apply worded_array|]. intros l _. apply worded_ask; [apply worded_each; auto|discriminate].
    - apply worded_ask; [apply worded_array|]. intros l _. destruct (Nat.eqb _ _); [|discriminate]. apply worded_ask; [apply worded_each; auto|discriminate].
    - assert (Hts : Forall ours ts) by now inversion Ho. clear Ho.
      assert (G : forall l, worded (tuple_said as_said ts l)).
      { induction IH as [|t ts Ht _ IHt]; intros l; [discriminate|]. inversion Hts; subst. destruct l as [|x l]; [discriminate|]. cbn [tuple_said].
        apply worded_ask; [auto|]. intros d _. apply worded_ask; [auto|discriminate]. }
      assert (T : worded (asked l <- array_said cc v;
        if Nat.eqb (length l) (length ts) then asked r <- tuple_said as_said ts l; Done (Ok (DSeq r)) else Says (tuple_message (length ts) (length l)))).
      { apply worded_ask; [apply worded_array|]. intros l _. destruct (Nat.eqb _ _); [|discriminate]. apply worded_ask; [auto|discriminate]. }
      destruct ts as [|t [|t' ts]]; [exact T| |exact T]. inversion IH; inversion Hts; subst. apply worded_ask; [auto|discriminate].
    - assert (Hts : Forall ours ts) by now inversion Ho. clear Ho. destruct (chosen ts) as [n|].
      + apply worded_ask; [|discriminate]. revert n. induction IH as [|t ts Ht _ IHt]; intros n; [discriminate|]. inversion Hts; subst. destruct n; cbn [alternative_said]; auto.
      + generalize O. induction IH as [|t ts Ht _ IHt]; intros n; [apply worded_complain|]. inversion Hts; subst. cbn [variant_said].
        apply worded_ask; [apply worded_done, mute_is; auto|]. intros [] _; [|auto]. apply worded_ask; [auto|discriminate].
    - apply worded_ask; [apply worded_object|]. intros l _. apply worded_ask; [apply worded_each_member; auto|discriminate].
    - apply worded_ask; [apply worded_enum|discriminate].
    - assert (Hfs : Forall (fun ft => ours (snd ft)) fs) by now inversion Ho. clear Ho.
      assert (G : forall cur, worded (snd (fields_said E as_said fs v cur))).
      { induction IH as [|[f t] fs Ht _ IHt]; intros cur; [discriminate|]. inversion Hfs as [|? ? Hx Hr]; subst. cbn [snd] in *. destruct cur as [|c cur]; [discriminate|].
        cbn -[json_key v_find_value_key ask]. destruct (v_find_value_key (json_key f) v) as [[w|]|x| | |] eqn:F; try discriminate.
        - destruct (is_ E t w) as [[]|x| | |] eqn:I; try discriminate.
          + destruct (as_said t w) as [[d|x| | |]|m] eqn:A; try discriminate.
            * specialize (IHt Hr cur). destruct (fields_said E as_said fs v cur); exact IHt.
            * specialize (Ht Hx w). rewrite A in Ht. cbn. intros [= ->]. exact (Ht eq_refl).
          + cbn. intros [= ->]. exact (mute_is t Hx w I).
        - destruct (is_optional f); [|discriminate]. specialize (IHt Hr cur). destruct (fields_said E as_said fs v cur); exact IHt.
        - cbn. intros [= ->]. exact (mute_find _ _ F). }
      specialize (G (map (fun ft => f_default (fst ft)) fs)). destruct (fields_said E as_said fs v _) as [l [[[k|]|x| | |]|m]]; cbn [snd] in G; try discriminate.
      + apply worded_complain.
      + cbn. intros [= ->]. exact (G eq_refl).
    - inversion Ho.
  Qed.
  Theorem always_worded t v : ours t -> as_ E t v = Throw JsonException -> exists m, as_said t v = Says m.
  Proof.
    intros Ho H. rewrite <- (as_said_plainly cc E names) in H. pose proof (worded_as t Ho v) as W. destruct (as_said t v) as [r|m]; [|eauto].
    cbn in H. subst r. exfalso. exact (W eq_refl).
  Qed.
End Own.

(** ** The part that is described *)
Lemma reaches_path t v t' w : reaches t v t' w -> exists p, at_path p v w.
Proof.
  assert (E1 : forall (l : array) x p w, In x l -> at_path p x w -> exists p, at_path p (VArr Tarray (Some l)) w).
  { intros l x p w0 Hx Hp. apply In_nth_error in Hx as [n Hn]. exists (KInt (Z.of_nat n) :: p). econstructor; [|exact Hp]. constructor; [lia|]. now rewrite Nat2Z.id. }
  induction 1 as [t v|t v t' w _ IH|t v t' w _ IH|t l x t' w Hx _ [p IH]|ins t l x t' w Hx _ [p IH]|n t l x t' w _ Hx _ [p IH]|t v t' w _ IH
    |ts i t l x t' w _ _ Hx _ [p IH]|ts t v t' w _ _ IH|t m k x t' w Hx _ [p IH]|fs f t k v x t' w _ _ (m & -> & Hx) _ [p IH]|e sg w' s _|e s _]; eauto.
  - exists []. constructor.
  - apply nth_error_In in Hx. eauto.
  - exists (KStr k :: p). econstructor; [|exact IH]. now constructor.
  - exists (KStr k :: p). econstructor; [|exact IH]. now constructor.
  - exists []. constructor.
  - exists []. constructor.
Qed.
Lemma child_ok k v w : SpecConv.child k v w -> ok v -> ok w.
Proof.
  intros H Hv. destruct H as [k m w Hin|z l w _ Hn].
  - inversion Hv as [| | |? Hm Hk|]; subst. rewrite Forall_forall in Hm. exact (Hm _ Hin).
  - inversion Hv as [|? Hl| | |]; subst. rewrite Forall_forall in Hl. apply nth_error_In in Hn. auto.
Qed.
Lemma path_ok p v w : at_path p v w -> ok v -> ok w.
Proof. induction 1 as [|k ks v w x Hc _ IH]; intros Hv; auto. eauto using child_ok. Qed.
Lemma child_wf k v w : SpecConv.child k v w -> wf v -> wf w.
Proof.
  intros H Hv. destruct H as [k m w Hin|z l w _ Hn].
  - inversion Hv as [| | | | |? Hm Hk]; subst. rewrite Forall_forall in Hm. exact (Hm _ Hin).
  - inversion Hv as [| | | |? Hl|]; subst. rewrite Forall_forall in Hl. apply nth_error_In in Hn. auto.
Qed.
Lemma path_wf p v w : at_path p v w -> wf v -> wf w.
Proof. induction 1 as [|k ks v w x Hc _ IH]; intros Hv; auto. eauto using child_wf. Qed.
Theorem message_explained cc E names t v m : sound v -> as_said cc E names t v = Says m ->
  exists t' w p, reaches t v t' w /\ at_path p v w /\ complains E names t' w m.
Proof.
  intros Hv H. apply sound_okv in Hv. destruct (as_said_explained cc E names t v m Hv H) as (t' & w & Hr & Hc).
  destruct (reaches_path _ _ _ _ Hr) as [p Hp]. exists t', w, p. auto.
Qed.

(** ** Length *)
Lemma digits_bound n s : N.of_nat n < 2 ^ 64 -> writes_number n s -> (length s <= 20)%nat.
Proof.
  intros Hn (Hd & He & Hz). destruct Hz as [-> |(c & r & -> & Hc)]; [cbn; lia|]. cbn [length].
  destruct (Nat.le_gt_cases (length r) 19) as [|L]; [lia|exfalso].
  cbn [decimal] in He. inversion Hd; subst. unfold digit in *.
  assert (X : 10 ^ 20 <= 10 ^ N.of_nat (length r)) by (apply N.pow_le_mono_r; lia).
  assert (Y : 1 * 10 ^ N.of_nat (length r) <= (c - 48) * 10 ^ N.of_nat (length r)) by (apply N.mul_le_mono_r; lia).
  change (2 ^ 64) with 18446744073709551616 in Hn. change (10 ^ 20) with 100000000000000000000 in X. lia.
Qed.
Lemma tag_name_length k : (length (tag_name k) <= 7)%nat.
Proof. destruct k; vm_compute; lia. Qed.
Lemma describes_length v i : extent v < 2 ^ 64 -> describes v i -> (length i <= 130)%nat.
Proof.
  intros Hx H. destruct H as [t s _|t s x y _ _ Hs|l s Hs|m s Hs]; cbn [extent] in Hx.
  - rewrite app_length. pose proof (tag_name_length t). change (length (of_string "type=")) with 5%nat. lia.
  - rewrite !app_length. pose proof (tag_name_length t). change (length (of_string "type=")) with 5%nat. change (length (of_string ", value=")) with 8%nat.
    destruct Hs as [s0 L|a b L _]; [lia|]. rewrite app_length. change (length (of_string "...")) with 3%nat. lia.
  - rewrite app_length. apply digits_bound in Hs; [|exact Hx]. change (length (of_string "type=array, size=")) with 17%nat. lia.
  - rewrite app_length. apply digits_bound in Hs; [|exact Hx]. change (length (of_string "type=object, size=")) with 18%nat. lia.
Qed.
Lemma name_length names t n k : integer_names names -> wants names t n k -> (length n <= 18)%nat.
Proof.
  intros Hn H. destruct H; try (vm_compute; lia).
  specialize (Hn sg w). cbn in Hn. repeat destruct Hn as [<- |Hn]; try (vm_compute; lia).
Qed.
Ltac count := repeat match goal with |- context [length (of_string ?s)] => let n := eval vm_compute in (length (of_string s)) in change (length (of_string s)) with n end.
Lemma complaint_length E names t v m : integer_names names -> extent v < 2 ^ 64 -> arity t < 2 ^ 64 -> complains E names t v m ->
  (length m <= 250)%nat \/ exists k s, v = VStr k s /\ (k = Tnumber \/ k = Tboolean) /\ quotes s m.
Proof.
  intros Hn Hx Ha H. destruct H as [t n k v i Hw _ Hd|s _ _|t n s Hw _|e v i _ _ Hd|e s i _ Hd|n t l a b _ H1 H2|ts l a b _ _ H1 H2|ts v i _ Hd|fs v i _ Hd|x v i d _ Hd].
  - left. apply describes_length in Hd; [|exact Hx]. apply name_length in Hw; [|exact Hn]. pose proof (tag_name_length k). rewrite !app_length. count. lia.
  - right. exists Tboolean, s. splits; auto. exists (of_string "Parse error: invalid boolean value '"), (of_string "'"). splits; count; lia.
  - right. exists Tnumber, s. splits; auto. exists (of_string "Parse error: cannot convert number '"), (of_string "' to " ++ n). splits; [count; lia|].
    apply name_length in Hw; [|exact Hn]. rewrite app_length. count. lia.
  - left. apply describes_length in Hd; [|exact Hx]. rewrite !app_length. count. lia.
  - left. apply describes_length in Hd; [|exact Hx]. rewrite !app_length. count. lia.
  - left. cbn in Hx, Ha. apply digits_bound in H1; [|exact Ha]. apply digits_bound in H2; [|exact Hx]. rewrite !app_length. count. lia.
  - left. cbn in Hx, Ha. apply digits_bound in H1; [|exact Ha]. apply digits_bound in H2; [|exact Hx]. rewrite !app_length. count. lia.
  - left. apply describes_length in Hd; [|exact Hx]. rewrite !app_length. count. lia.
  - left. apply describes_length in Hd; [|exact Hx]. rewrite !app_length. count. lia.
  - left. apply describes_length in Hd; [|exact Hx]. rewrite !app_length. count. lia.
Qed.
Theorem message_length cc E names t v m : integer_names names -> sound v -> sizes_fit t v -> as_said cc E names t v = Says m ->
  (length m <= 250)%nat \/ exists p k s, at_path p v (VStr k s) /\ (k = Tnumber \/ k = Tboolean) /\ quotes s m.
Proof.
  intros Hn Hv Hs H. destruct (message_explained cc E names t v m Hv H) as (t' & w & p & Hr & Hp & Hc).
  destruct (Hs t' w Hr) as [H1 H2]. destruct (complaint_length E names t' w m Hn H1 H2 Hc) as [L|(k & s & -> & Hk & Hq)]; [now left|right]. exists p, k, s. auto.
Qed.

(** ** what() *)
Lemma c_str_clean s : Forall (fun c => 32 <= c) s -> c_str s = s.
Proof. induction 1 as [|c s Hc _ IH]; [reflexivity|]. cbn. replace (c =? 0) with false by lia. now rewrite IH. Qed.
Definition seen (s : bytes) : Prop := Forall (fun c => 32 <= c) s.
Lemma seen_app a b : seen a -> seen b -> seen (a ++ b).
Proof. intros Ha Hb. apply Forall_app. split; assumption. Qed.
Definition seenb (s : bytes) : bool := forallb (fun c => 32 <=? c) s.
Lemma seenb_spec s : seenb s = true -> seen s.
Proof. unfold seenb, seen. rewrite forallb_forall, Forall_forall. intros H c Hc. specialize (H c Hc). lia. Qed.
Lemma seen_tag k : seen (tag_name k). Proof. apply seenb_spec. destruct k; reflexivity. Qed.
Lemma seen_digits s : Forall digit s -> seen s.
Proof. apply Forall_impl. unfold digit. lia. Qed.
Lemma seen_shortened x y : shortened x y -> seen x -> seen y.
Proof. intros [s _|a b _ _] H; [exact H|]. apply Forall_app in H as [H _]. apply seen_app; [exact H|]. apply seenb_spec. reflexivity. Qed.
Lemma gnumber_seen s : gnumber s -> seen s.
Proof. intros H. eapply Forall_impl; [|exact (gnumber_word s H)]. cbn. intros c [Hc _]. lia. Qed.
Lemma describes_seen v i : wf v -> describes v i -> seen i.
Proof.
  intros Hv H. destruct H as [t s _|t s x y Ht Hx Hs|l s (Hs & _)|m s (Hs & _)].
  - apply seen_app; [apply seenb_spec; reflexivity|apply seen_tag].
  - apply seen_app; [apply seenb_spec; reflexivity|]. apply seen_app; [apply seen_tag|]. apply seen_app; [apply seenb_spec; reflexivity|].
    apply (seen_shortened x y Hs). inversion Hv as [|b|s' Hg|s'| |]; subst.
    + destruct Ht as [Ht|[Ht|Ht]]; discriminate.
    + cbn in Hx. injection Hx as <-. destruct b; apply seenb_spec; reflexivity.
    + cbn in Hx. injection Hx as <-. now apply gnumber_seen.
    + assert (X : x = [34] ++ escape_string s ++ [34]) by (change (Ok ([34] ++ escape_string s ++ [34]) = Ok x) in Hx; congruence). subst x.
      apply seen_app; [apply seenb_spec; reflexivity|]. apply seen_app; [apply escape_clean|apply seenb_spec; reflexivity].
  - apply seen_app; [apply seenb_spec; reflexivity|now apply seen_digits].
  - apply seen_app; [apply seenb_spec; reflexivity|now apply seen_digits].
Qed.
Lemma name_seen names t n k : integer_names names -> wants names t n k -> seen n.
Proof.
  intros Hn H. destruct H; try (apply seenb_spec; reflexivity).
  specialize (Hn sg w). cbn in Hn. repeat destruct Hn as [<- |Hn]; try (apply seenb_spec; reflexivity). destruct Hn.
Qed.
Lemma complaint_seen E names t v m : integer_names names -> wf v -> complains E names t v m -> seen m /\ m <> [].
Proof.
  intros Hn Hv H. split; [|destruct H; discriminate].
  destruct H as [t n k v i Hw _ Hd|s H1 H2|t n s Hw _|e v i _ _ Hd|e s i _ Hd|n t l a b _ (H1 & _) (H2 & _)|ts l a b _ _ (H1 & _) (H2 & _)|ts v i _ Hd|fs v i _ Hd|x v i d _ Hd];
    repeat apply seen_app; try (apply seenb_spec; reflexivity); eauto using describes_seen, name_seen, seen_tag, seen_digits.
  - inversion Hv as [|b| | | |]; subst. destruct b; congruence.
  - inversion Hv; subst. now apply gnumber_seen.
Qed.
Theorem message_shown cc E names t v m : integer_names names -> wf v -> as_said cc E names t v = Says m ->
  what m = m /\ Forall (fun c => 32 <= c) m.
Proof.
  intros Hn Hv H. destruct (message_explained cc E names t v m (wf_sound v Hv) H) as (t' & w & p & _ & Hp & Hc).
  destruct (complaint_seen E names t' w m Hn (path_wf p v w Hp Hv) Hc) as [Hs Hne]. split; [|exact Hs].
  unfold what. destruct m; [congruence|]. now apply c_str_clean.
Qed.

(** ** The containers as the source *)
Section Containers.
  Context (cc : compiler) (E : env) (names : bool -> N -> bytes).
  Notation as_said := (as_said cc E names).
  Lemma rec_given_plainly fs v m : plainly (rec_given cc E names fs v m) =
    match load_fields E (as_ E) fs v (map (fun ft => f_default (fst ft)) fs) with
    | (l, Ok None) => Ok (DRec l)
    | (_, Ok (Some _)) => Throw JsonException
    | (_, r) => do _ <- r; Fuel
    end.
  Proof.
    unfold rec_given. rewrite <- (fields_plainly cc E names fs v) by (apply Forall_forall; intros; apply as_said_plainly).
    destruct (fields_said _ _ fs v _) as [l [[[]| | | |]|]]; reflexivity.
  Qed.
  Lemma given_plainly {A} (r : A * res bool) m : plainly (given r m) =
    match r with (d, Ok true) => Ok d | (_, Ok false) => Throw JsonException | (_, r) => do _ <- r; Fuel end.
  Proof. destruct r as [d [[]| | | |]]; reflexivity. Qed.
  Theorem array_cast_same t l : from_array t \/ (exists fs, t = TRec fs) \/ (exists x, t = TExt x) \/ t = TValue -> sound (v_array l) ->
    plainly (array_cast cc E names t l) = as_ E t (v_array l).
  Proof.
    intros Ht Hs. assert (C : copy_elems copy l = Ok l) by (apply copy_elems_Ok; destruct Hs as (_ & Ho & _); now inversion Ho).
    destruct Ht as [Ht|[[fs ->]|[[x ->]| ->]]].
    - destruct t; try contradiction; cbn [array_cast as_ as_array_c is_array v_array type_of vtype_eqb get_arr bind].
      + rewrite plainly_ask. cbn [plainly]. destruct (copy_elems copy l); reflexivity.
      + rewrite plainly_ask, (each_plainly _ (as_ E t)) by (apply Forall_forall; intros; apply as_said_plainly). destruct (mapM _ l); reflexivity.
      + rewrite plainly_ask, (each_plainly _ (as_ E t)) by (apply Forall_forall; intros; apply as_said_plainly). destruct (mapM _ l); reflexivity.
      + destruct (Nat.eqb _ _); [|reflexivity]. rewrite plainly_ask, (each_plainly _ (as_ E t)) by (apply Forall_forall; intros; apply as_said_plainly). destruct (mapM _ l); reflexivity.
      + destruct ts as [|t [|t' ts]]; [|cbn in Ht; congruence|].
        * exact (as_said_plainly cc E names (TTup []) (v_array l)).
        * exact (as_said_plainly cc E names (TTup (t :: t' :: ts)) (v_array l)).
    - cbn [array_cast as_]. rewrite plainly_ask. cbn [plainly]. rewrite C. cbn [bind]. apply rec_given_plainly.
    - cbn [array_cast as_]. rewrite plainly_ask. cbn [plainly]. rewrite C. cbn [bind]. apply given_plainly.
    - cbn [array_cast as_]. rewrite plainly_ask. cbn [plainly copy v_array]. rewrite C. reflexivity.
  Qed.
  Lemma one_taken t l : plainly (array_cast cc E names (TTup [t]) l) = match l with [x] => do d <- as_ E t x; Ok (DSeq [d]) | _ => Throw JsonException end.
  Proof.
    destruct l as [|x [|y l]]; cbn [array_cast length Nat.eqb]; [reflexivity| |reflexivity].
    cbn [tuple_said]. rewrite plainly_ask, plainly_ask, as_said_plainly. destruct (as_ E t x); cbn [bind]; try reflexivity.
  Qed.
  Theorem one_tuple_same t l : plainly (array_cast cc E names (TTup [t]) l) = as_ E (TTup [t]) (v_array l) <->
    (exists x, l = [x] /\ as_ E t x = as_ E t (v_array l)) \/ (length l <> 1%nat /\ as_ E t (v_array l) = Throw JsonException).
  Proof.
    rewrite one_taken. change (as_ E (TTup [t]) (v_array l)) with (do d <- as_ E t (v_array l); Ok (DSeq [d])).
    destruct l as [|x [|y l]].
    - split; [|intros [(x & H & _)|(_ & ->)]; [discriminate|reflexivity]].
      intros H. right. split; [discriminate|]. destruct (as_ E t (v_array [])); cbn in H; congruence.
    - split; [|intros [(z & [= <-] & ->)|(H & _)]; [reflexivity|now elim H]].
      intros H. left. exists x. split; [reflexivity|]. destruct (as_ E t x), (as_ E t (v_array [x])); cbn in H; congruence.
    - split; [|intros [(z & H & _)|(_ & ->)]; [discriminate|reflexivity]].
      intros H. right. split; [discriminate|]. destruct (as_ E t (v_array (x :: y :: l))); cbn in H; congruence.
  Qed.
  Theorem object_cast_same t m : from_object t \/ (exists fs, t = TRec fs) \/ (exists x, t = TExt x) \/ t = TValue -> sound (v_object m) ->
    plainly (object_cast cc E names t m) = as_ E t (v_object m).
  Proof.
    intros Ht Hs. assert (C : copy_members copy m = Ok m) by (apply copy_members_Ok; destruct Hs as (_ & Ho & _); now inversion Ho).
    destruct Ht as [Ht|[[fs ->]|[[x ->]| ->]]].
    - destruct t; try contradiction; cbn [object_cast as_ as_object_c is_object v_object type_of vtype_eqb get_obj bind].
      + rewrite plainly_ask. cbn [plainly]. destruct (copy_members copy m); reflexivity.
      + rewrite plainly_ask, (each_member_plainly _ (as_ E t)) by (intros; apply as_said_plainly). destruct (mapM_members _ m); reflexivity.
    - cbn [object_cast as_]. rewrite plainly_ask. cbn [plainly]. rewrite C. cbn [bind]. apply rec_given_plainly.
    - cbn [object_cast as_]. rewrite plainly_ask. cbn [plainly]. rewrite C. cbn [bind]. apply given_plainly.
    - cbn [object_cast as_]. rewrite plainly_ask. cbn [plainly copy v_object]. rewrite C. reflexivity.
  Qed.
End Containers.
(** from_json of the user returns false: the text has the size *)
Theorem array_user_text cc E names x l d : sound (v_array l) -> x_from x (v_array l) (x_default x) = (d, Ok false) ->
  exists s, writes_number (length l) s /\
    array_cast cc E names (TExt x) l = Says (of_string "Deserialization failed: from_json() returned false for array, size=" ++ s).
Proof.
  intros Hs H. assert (C : copy_elems copy l = Ok l) by (apply copy_elems_Ok; destruct Hs as (_ & Ho & _); now inversion Ho).
  exists (to_string_N (N.of_nat (length l))). split; [apply size_text|]. cbn [array_cast]. rewrite C. cbn [ask]. rewrite H. reflexivity.
Qed.
Theorem object_user_text cc E names x m d : sound (v_object m) -> x_from x (v_object m) (x_default x) = (d, Ok false) ->
  exists s, writes_number (length m) s /\
    object_cast cc E names (TExt x) m = Says (of_string "Deserialization failed: from_json() returned false for object, size=" ++ s).
Proof.
  intros Hs H. assert (C : copy_members copy m = Ok m) by (apply copy_members_Ok; destruct Hs as (_ & Ho & _); now inversion Ho).
  exists (to_string_N (N.of_nat (length m))). split; [apply size_text|]. cbn [object_cast]. rewrite C. cbn [ask]. rewrite H. reflexivity.
Qed.
(** move_from_json: the text describes what is left of the value *)
Theorem moved_text cc E names left x f v d m : x_move_from x = Some f -> f v (x_default x) = (d, Ok false) -> sound (left x v) ->
  as_rv_said cc E names left (TExt x) v = Says m ->
  exists i, describes (left x v) i /\ m = of_string "Deserialization failed: move_from_json() returned false, " ++ i.
Proof.
  intros Hf Hd Hs. cbn [as_rv_said]. rewrite Hf. unfold user_said. rewrite Hd. intros H. apply complain_says in H; [exact H|now apply sound_okv].
Qed.
(** and of a container nothing is left *)
Theorem container_moved cc E names x f : x_move_from x = Some f ->
  (forall l, fst (array_move_user cc E names x l) = [] /\ plainly (snd (array_move_user cc E names x l)) = plainly (given (f (v_array l) (x_default x)) [])) /\
  (forall m, fst (object_move_user cc E names x m) = [] /\ plainly (snd (object_move_user cc E names x m)) = plainly (given (f (v_object m) (x_default x)) [])).
Proof.
  intros Hf. unfold array_move_user, object_move_user. rewrite Hf. split; intros l; (split; [reflexivity|]); cbn [snd]; rewrite !given_plainly; reflexivity.
Qed.
