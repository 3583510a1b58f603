(** * What the mutating calls and the statements do. *)
From Verif Require Import Base Value DumpProofs Containers Dump Api Spec SpecApi SpecEffects BaseProofs ContainerProofs ApiProofs StoreProofs.

(** ** Calls on one value *)
Lemma as_array_some v l : elements_of v = Some l -> as_array_m v = (VArr Tarray (Some l), Ok l).
Proof.
  destruct v as [[] [|c s]|[] [[|x l']|]|[] [[|x m]|]]; cbn; intros E; try discriminate; injection E as <-; reflexivity.
Qed.
Lemma as_object_some v m : members_of v = Some m -> as_object_m v = (VObj Tobject (Some m), Ok m).
Proof.
  destruct v as [[] [|c s]|[] [[|x l']|]|[] [[|x m']|]]; cbn; intros E; try discriminate; injection E as <-; reflexivity.
Qed.
Lemma as_array_none v : tag_ok v -> owned v -> elements_of v = None -> as_array_m v = (v, Throw JsonException).
Proof.
  intros T O. destruct v as [[] [|c s]|[] [[|x l']|]|[] [[|x m']|]]; cbn; intros E; try discriminate; try reflexivity; inversion T; subst; try inversion O; subst; try congruence; reflexivity.
Qed.
Lemma as_object_none v : tag_ok v -> owned v -> members_of v = None -> as_object_m v = (v, Throw JsonException).
Proof.
  intros T O. destruct v as [[] [|c s]|[] [[|x l']|]|[] [[|x m']|]]; cbn; intros E; try discriminate; try reflexivity; inversion T; subst; try inversion O; subst; try congruence; reflexivity.
Qed.
Lemma on_array_some {A} (f : array -> array * res A) v l : elements_of v = Some l -> on_array f v = (VArr Tarray (Some (fst (f l))), snd (f l)).
Proof. intros E. unfold on_array. rewrite (as_array_some v l E). cbv beta iota. now destruct (f l). Qed.
Lemma on_object_some {A} (f : object -> object * res A) v m : members_of v = Some m -> on_object f v = (VObj Tobject (Some (fst (f m))), snd (f m)).
Proof. intros E. unfold on_object. rewrite (as_object_some v m E). cbv beta iota. now destruct (f m). Qed.
Lemma on_array_none {A} (f : array -> array * res A) v : tag_ok v -> owned v -> elements_of v = None -> on_array f v = (v, Throw JsonException).
Proof. intros T O E. unfold on_array. now rewrite (as_array_none v T O E). Qed.
Lemma on_object_none {A} (f : object -> object * res A) v : tag_ok v -> owned v -> members_of v = None -> on_object f v = (v, Throw JsonException).
Proof. intros T O E. unfold on_object. now rewrite (as_object_none v T O E). Qed.
Lemma remove_nth_split {A} (l : list A) : forall n, remove_nth l n = firstn n l ++ skipn (n + 1) l.
Proof. induction l as [|x l IH]; intros [|n]; cbn; auto. now rewrite IH. Qed.
Lemma nthN_some {A} (l : list A) p x : nth_error l (N.to_nat p) = Some x -> nthN l p = Some x.
Proof.
  intros H. unfold nthN, size. assert (N.to_nat p < length l)%nat by (apply nth_error_Some; congruence).
  destruct (N.ltb_spec p (N.of_nat (length l))); [auto|lia].
Qed.
Lemma nthN_none {A} (l : list A) p : nth_error l (N.to_nat p) = None -> nthN l p = None.
Proof. unfold nthN. intros ->. now destruct (_ <? _). Qed.

Lemma array_calls v l : elements_of v = Some l ->
  as_array_m v = (VArr Tarray (Some l), Ok l) /\
  (forall x, v_emplace x v = (VArr Tarray (Some (l ++ [x])), Ok tt)) /\
  (forall p, v_erase_pos p v = (VArr Tarray (Some (firstn (N.to_nat p) l ++ skipn (N.to_nat p + 1) l)), Ok (p <? N.of_nat (length l)))) /\
  (forall p x, nth_error l (N.to_nat p) = Some x -> v_index_pos p v = (VArr Tarray (Some l), Ok x)) /\
  (forall p, nth_error l (N.to_nat p) = None -> snd (v_index_pos p v) = Ub) /\
  (forall a, Forall owned a -> v_plus_assign_c a v = (VArr Tarray (Some (l ++ a)), Ok tt)) /\
  (forall a, v_plus_assign_m a v = (VArr Tarray (Some (l ++ a)), Ok tt)) /\
  (forall a, Forall owned a -> v_plus_mc v a = Ok (VArr Tarray (Some (l ++ a)))) /\
  (forall a, v_plus_mm v a = Ok (VArr Tarray (Some (l ++ a)))).
Proof.
  intros E. splits; intros; unfold v_emplace, v_erase_pos, v_index_pos, v_plus_assign_c, v_plus_assign_m, v_plus_mc, v_plus_mm; rewrite ?(as_array_some v l E), ?(on_array_some _ v l E).
  - reflexivity.
  - reflexivity.
  - rewrite arr_erase_spec. cbn [ret fst snd]. unfold size. destruct (N.ltb_spec p (N.of_nat (length l))) as [H|H].
    + now rewrite remove_nth_split.
    + rewrite firstn_all2, skipn_all2, app_nil_r by lia. reflexivity.
  - cbn [fst snd]. unfold arr_index. now rewrite (nthN_some l p x).
  - cbn [fst snd]. unfold arr_index. now rewrite (nthN_none l p).
  - unfold arr_plus_assign_c, append_array. now rewrite copy_elems_Ok.
  - reflexivity.
  - cbn [snd bind]. unfold arr_plus_mc, append_array. now rewrite copy_elems_Ok.
  - reflexivity.
Qed.
Lemma array_calls_throw v : tag_ok v -> owned v -> elements_of v = None ->
  as_array_m v = (v, Throw JsonException) /\
  (forall x, v_emplace x v = (v, Throw JsonException)) /\
  (forall p, v_erase_pos p v = (v, Throw JsonException)) /\
  (forall p, v_index_pos p v = (v, Throw JsonException)) /\
  (forall a, v_plus_assign_c a v = (v, Throw JsonException)) /\
  (forall a, v_plus_assign_m a v = (v, Throw JsonException)) /\
  (forall a, v_plus_mc v a = Throw JsonException) /\
  (forall a, v_plus_mm v a = Throw JsonException).
Proof.
  intros T O E. splits; intros; unfold v_emplace, v_erase_pos, v_index_pos, v_plus_assign_c, v_plus_assign_m, v_plus_mc, v_plus_mm;
    rewrite ?(as_array_none v T O E), ?(on_array_none _ v T O E); reflexivity.
Qed.
Lemma rep_pairs m : sorted_keys m -> rep m (pairs m).
Proof. intros H. now split. Qed.
Lemma op_rep o m : obj_op_ok o -> sorted_keys m -> exists m', obj_do o m = Ok (m', snd (f_do o (pairs m))) /\ represents m' (fst (f_do o (pairs m))).
Proof. intros Ho Hs. destruct (obj_do_rep o m _ Ho (rep_pairs m Hs)) as (m' & E & R). exists m'. split; [exact E|now apply rep_represents]. Qed.
Lemma index_key_eq k v m : members_of v = Some m -> sorted_keys m ->
  v_index_key k v = (VObj Tobject (Some (obj_index k m)), obj_at k (obj_index k m)).
Proof.
  intros E Hs. unfold v_index_key. unfold as_object_m in *. pose proof (as_object_some v m E) as A. unfold as_object_m in A.
  destruct (coerce (v_object []) v) as [v1 r] eqn:C. destruct r as [[]| | | |]; injection A as -> A; try discriminate.
  now rewrite (on_object_some _ (VObj Tobject (Some m)) m).
Qed.
Lemma object_calls v m : members_of v = Some m -> sorted_keys m ->
  as_object_m v = (VObj Tobject (Some m), Ok m) /\
  (forall k x, exists m', v_emplace_kv k x v = (VObj Tobject (Some m'), Ok (negb (has (pairs m) k))) /\ represents m' (f_set k (Some x) (pairs m))) /\
  (forall k, exists m', v_erase_key k v = (VObj Tobject (Some m'), Ok (has (pairs m) k)) /\ represents m' (f_set k None (pairs m))) /\
  (forall k, exists m' x, v_index_key k v = (VObj Tobject (Some m'), Ok x) /\
     represents m' (if has (pairs m) k then pairs m else f_set k (Some (VStr Tnull [])) (pairs m)) /\
     x = match pairs m k with Some y => y | None => VStr Tnull [] end) /\
  (forall a, good_object a -> exists m', v_or_assign_c a v = (VObj Tobject (Some m'), Ok tt) /\ v_or_mc v a = Ok (VObj Tobject (Some m')) /\
     represents m' (f_over (pairs m) (pairs a))) /\
  (forall a, sorted_keys a -> exists m', v_or_assign_m a v = (VObj Tobject (Some m'), Ok tt) /\ v_or_mm v a = Ok (VObj Tobject (Some m')) /\
     represents m' (f_over (pairs m) (pairs a))).
Proof.
  intros E Hs. splits; intros; unfold v_emplace_kv, v_erase_key, v_or_assign_c, v_or_assign_m, v_or_mc, v_or_mm; rewrite ?(as_object_some v m E), ?(on_object_some _ v m E).
  - reflexivity.
  - destruct (op_rep (OEmplace k x) m I Hs) as (m' & E1 & R). exists m'. split; [|exact R]. cbn [obj_do f_do snd] in E1. injection E1 as E1. unfold ret, obj_emplace. cbn [fst snd]. now rewrite E1.
  - destruct (op_rep (OErase k) m I Hs) as (m' & E1 & R). exists m'. split; [|exact R]. cbn [obj_do f_do snd] in E1. injection E1 as E1. cbn [ret fst snd]. now rewrite E1.
  - destruct (op_rep (OIndex k) m I Hs) as (m' & E1 & R). rewrite (index_key_eq k v m E Hs). cbn [obj_do f_do fst snd] in E1, R. injection E1 as ->. eexists. eexists. splits.
    2: exact R. f_equal. destruct R as (_ & _ & _ & R & _). rewrite R. unfold has. destruct (pairs m k) as [y|] eqn:Ek; [now rewrite Ek|].
    rewrite f_set_spec, bytes_eqb_refl. reflexivity.
  - destruct H as [Ha Hb]. destruct (op_rep (OMerge a false) m) as (m' & E1 & R); [split; auto|auto|]. exists m'. cbn [obj_do] in E1.
    destruct (obj_or_assign_c m a) as [x| | | |] eqn:Ex; try discriminate. injection E1 as ->. cbn [snd bind fst]. splits; auto. unfold obj_or_mc. unfold obj_or_assign_c in Ex. now rewrite Ex.
  - destruct (op_rep (OMerge a true) m) as (m' & E1 & R); [split; [auto|discriminate]|auto|]. exists m'. cbn [obj_do] in E1.
    destruct (obj_or_assign_m m a) as [x| | | |] eqn:Ex; try discriminate. injection E1 as ->. cbn [snd bind fst]. splits; auto. unfold obj_or_assign_m in Ex. injection Ex as Ex. unfold obj_or_mm. rewrite <- Ex. reflexivity.
Qed.
Lemma object_calls_throw v : tag_ok v -> owned v -> members_of v = None ->
  as_object_m v = (v, Throw JsonException) /\
  (forall k x, v_emplace_kv k x v = (v, Throw JsonException)) /\
  (forall k, v_erase_key k v = (v, Throw JsonException)) /\
  (forall k, v_index_key k v = (v, Throw JsonException)) /\
  (forall a, v_or_assign_c a v = (v, Throw JsonException)) /\
  (forall a, v_or_assign_m a v = (v, Throw JsonException)) /\
  (forall a, v_or_mc v a = Throw JsonException) /\
  (forall a, v_or_mm v a = Throw JsonException).
Proof.
  intros T O E. splits; intros; unfold v_emplace_kv, v_erase_key, v_or_assign_c, v_or_assign_m, v_or_mc, v_or_mm;
    rewrite ?(as_object_none v T O E), ?(on_object_none _ v T O E); try reflexivity.
  unfold v_index_key. pose proof (as_object_none v T O E) as A. unfold as_object_m in A.
  destruct (coerce (v_object []) v) as [v1 r] eqn:C. destruct r as [[]| | | |]; cbn [bind] in A; injection A as -> A; try discriminate.
  - now rewrite (on_object_none _ v T O E).
  - now rewrite A.
Qed.
(** the const overloads of the operators, on a value that is not the container *)
Lemma const_operators v : tag_ok v -> owned v ->
  (is_array v = false -> forall a, v_plus_cc v a = Throw JsonException /\ v_plus_cm v a = Throw JsonException) /\
  (is_object v = false -> forall m, v_or_cc v m = Throw JsonException /\ v_or_cm v m = Throw JsonException).
Proof.
  intros T O. split; intros H a; unfold v_plus_cc, v_plus_cm, v_or_cc, v_or_cm, as_array_c, as_object_c; rewrite H;
    destruct v as [[] s|[] [l|]|[] [m|]]; try discriminate; try (inversion O; fail); split; reflexivity.
Qed.
Lemma clear_calls v : v_clear v = (VStr Tnull [], Ok tt) /\
  (forall l, elements_of v = Some l -> invoke MArrClear v = (VArr Tarray (Some []), Ok tt)) /\
  (forall m, members_of v = Some m -> invoke MObjClear v = (VObj Tobject (Some []), Ok tt)).
Proof.
  splits; intros; cbn [invoke]; unfold voidm.
  - now rewrite (on_array_some _ v l H).
  - now rewrite (on_object_some _ v m H).
Qed.

(** ** Replacing a part of the store *)
Lemma find_split {A} k (m : list (bytes * A)) x : map_find k m = Some x <-> exists a b, m = a ++ (k, x) :: b /\ ~ In k (map fst a).
Proof.
  induction m as [|(k0, y) m IH]; cbn; [split; [discriminate|intros ([|] & b & H & _); discriminate]|].
  destruct (bytes_eqb_spec k k0) as [->|Hk]; split.
  - intros [= ->]. exists [], m. auto.
  - intros ([|(k1, z) a] & b & H & Hn); injection H as -> ->; [auto|]. cbn in Hn. tauto.
  - intros F. apply IH in F as (a & b & -> & Hn). exists ((k0, y) :: a), b. split; auto. cbn. intros [H|H]; [congruence|tauto].
  - intros ([|(k1, z) a] & b & H & Hn).
    + injection H as -> -> ->. congruence.
    + injection H as -> -> ->. apply IH. exists a, b. split; auto. cbn in Hn. tauto.
Qed.
Lemma upd_nth_mid {A} (f : A -> A) a x b : upd_nth f (length a) (a ++ x :: b) = a ++ f x :: b.
Proof. induction a; cbn; congruence. Qed.
Lemma upd_key_mid {A} (f : A -> A) k a x b : ~ In k (map fst a) -> upd_key f k (a ++ (k, x) :: b) = a ++ (k, f x) :: b.
Proof.
  induction a as [|(k0, y) a IH]; cbn; intros H; [now rewrite bytes_eqb_refl|].
  destruct (bytes_eqb_spec k k0) as [->|]; [tauto|]. f_equal. apply IH. tauto.
Qed.
Lemma swapped_upd p x v v' : swapped p x v v' -> get_at p v <> None /\ v' = upd_at p (fun _ => x) v.
Proof.
  induction 1 as [x v|p x t a v v' b H [IH1 IH2]|p x t k a v v' b H [IH1 IH2] Hn]; cbn [get_at upd_at].
  - split; [discriminate|reflexivity].
  - rewrite nth_error_app2, Nat.sub_diag by lia. cbn [nth_error]. split; auto. now rewrite upd_nth_mid, <- IH2.
  - assert (F : map_find k (a ++ (k, v) :: b) = Some v) by (apply find_split; eauto). rewrite F. split; auto. now rewrite upd_key_mid, <- IH2.
Qed.
Lemma upd_swapped p x : forall v, get_at p v <> None -> swapped p x v (upd_at p (fun _ => x) v).
Proof.
  induction p as [|[k|n] p IH]; intros v H; cbn [get_at upd_at] in *; [constructor|..].
  - destruct v as [|t l|t [m|]]; try tauto. destruct (map_find k m) as [y|] eqn:F; [|tauto]. apply find_split in F as (a & b & -> & Hn).
    rewrite upd_key_mid by auto. constructor; auto.
  - destruct v as [|t [l|]|t m]; try tauto. destruct (nth_error l n) as [y|] eqn:F; [|tauto]. apply nth_error_split in F as (a & b & -> & <-).
    rewrite upd_nth_mid. constructor. auto.
Qed.
Lemma puts_write st l x st' : puts st l x st' <-> read st l <> None /\ st' = write st l x.
Proof.
  unfold read, write. split.
  - intros (a & v & b & v' & E & -> & -> & S). rewrite E, nth_error_app2, Nat.sub_diag by lia. cbn [nth_error]. apply swapped_upd in S as [H ->]. split; auto. now rewrite upd_nth_mid.
  - intros [H ->]. destruct (nth_error st (slot l)) as [v|] eqn:F; [|tauto]. apply nth_error_split in F as (a & b & -> & F). exists a, v, b, (upd_at (steps l) (fun _ => x) v).
    rewrite <- F, upd_nth_mid. splits; auto. now apply upd_swapped.
Qed.
Lemma puts_read st l x : puts st l x st <-> read st l = Some x.
Proof.
  rewrite puts_write. split.
  - intros [H E]. pose proof (read_write_same st l x) as R. rewrite <- E in R. destruct (read st l); [auto|tauto].
  - intros H. split; [congruence|]. symmetry. now apply write_same.
Qed.
Lemma puts_intro st l x y : read st l = Some y -> puts st l x (write st l x).
Proof. intros H. apply puts_write. split; [congruence|reflexivity]. Qed.
Lemma emptied_moved x y : emptied x y <-> y = moved x.
Proof. split; [now destruct 1|intros ->; destruct x; constructor]. Qed.
Lemma within_refl l : within l l = true.
Proof. apply within_spec. split; auto. exists []. now rewrite app_nil_r. Qed.
Lemma sub_write st l s x d : read st l = Some d -> write st (sub l s) x = write st l (upd_at [s] (fun _ => x) d).
Proof.
  intros R. unfold write, sub, read in *. cbn [slot steps]. destruct (nth_error st (slot l)) as [v|] eqn:F; [|discriminate].
  apply nth_error_split in F as (a & b & -> & F). rewrite <- F, !upd_nth_mid. do 2 f_equal. revert v R. clear. generalize (steps l) as p.
  induction p as [|[k|n] p IH]; intros v R; cbn [app get_at] in *.
  - now injection R as ->.
  - destruct v as [|t l'|t [m|]]; try discriminate. destruct (map_find k m) as [y|] eqn:E; [|discriminate].
    change (VObj t (Some (upd_key (upd_at (p ++ [s]) (fun _ => x)) k m)) = VObj t (Some (upd_key (upd_at p (fun _ => upd_at [s] (fun _ => x) d)) k m))).
    apply find_split in E as (a & b & -> & Hn). rewrite !upd_key_mid by auto. now rewrite (IH y R).
  - destruct v as [|t [l'|]|t m]; try discriminate. destruct (nth_error l' n) as [y|] eqn:E; [|discriminate].
    change (VArr t (Some (upd_nth (upd_at (p ++ [s]) (fun _ => x)) n l')) = VArr t (Some (upd_nth (upd_at p (fun _ => upd_at [s] (fun _ => x) d)) n l'))).
    apply nth_error_split in E as (a & b & -> & <-). rewrite !upd_nth_mid by auto. now rewrite (IH y R).
Qed.
Lemma sub_read st l s : read st (sub l s) = match read st l with Some d => get_at [s] d | None => None end.
Proof. unfold read, sub. cbn [slot steps]. destruct (nth_error st (slot l)); auto. apply get_at_app. Qed.

(** ** Expressions *)
Scheme yields_mut := Minimality for yields Sort Prop with yields_all_mut := Minimality for yields_all Sort Prop.
Combined Scheme yields_ind2 from yields_mut, yields_all_mut.
Lemma represents_unique m m' f : represents m f -> represents m' f -> m = m'.
Proof.
  intros (F & _ & _ & _ & _ & _ & _ & S) (F' & _ & _ & _ & _ & _ & _ & S'). apply map_find_ext; auto. intros k. unfold obj_find_value in *. congruence.
Qed.
Lemma of_list_find l : sorted_keys (obj_of_list l) /\ forall k, map_find k (obj_of_list l) = map_find k l.
Proof.
  unfold obj_of_list.
  assert (G : forall m, sorted_keys m -> sorted_keys (fold_left (fun m kv => fst (map_emplace (fst kv) (snd kv) m)) l m) /\
    forall k, map_find k (fold_left (fun m kv => fst (map_emplace (fst kv) (snd kv) m)) l m) = match map_find k m with Some x => Some x | None => map_find k l end).
  { induction l as [|(k0, x) l IH]; intros m Hs; cbn [fold_left fst snd map_find]; [split; auto; intros k; now destruct (map_find k m)|].
    destruct (IH _ (map_emplace_sorted k0 x m Hs)) as [S F]. split; [exact S|]. intros k. rewrite F, map_emplace_find by auto.
    destruct (bytes_eqb_spec k k0) as [->|]; [|reflexivity]. now destruct (map_find k0 m). }
  destruct (G [] sk_nil) as [S F]. split; [exact S|]. intros k. now rewrite F.
Qed.
Lemma of_list_represents l : represents (obj_of_list l) (pairs l).
Proof. apply rep_represents. destruct (of_list_find l). now split. Qed.
Lemma mbind_ok {A B} (x : M A) (f : A -> M B) st st1 a : x st = Done st1 (Ok a) -> mbind x f st = f a st1.
Proof. intros E. unfold mbind. now rewrite E. Qed.
Lemma mbind_inv {A B} (x : M A) (f : A -> M B) st st2 b : mbind x f st = Done st2 (Ok b) -> exists st1 a, x st = Done st1 (Ok a) /\ f a st1 = Done st2 (Ok b).
Proof. unfold mbind. destruct (x st) as [|st1 [a| | | |]]; try discriminate. eauto. Qed.
Lemma eval_members_list ev ms : forall st, eval_members ev ms st = match eval_list ev (map snd ms) st with
  | Stuck => Stuck | Done st' r => Done st' (do vs <- r; Ok (combine (map fst ms) vs)) end.
Proof.
  induction ms as [|(k, e) ms IH]; intros st; [reflexivity|]. cbn [map snd fst eval_members eval_list]. unfold mbind.
  destruct (ev e st) as [|st1 [v| | | |]]; try reflexivity. rewrite IH. destruct (eval_list ev (map snd ms) st1) as [|st2 [vs| | | |]]; reflexivity.
Qed.
Lemma combine_copy ks xs : length ks = length xs -> Forall owned xs -> copy_members copy (combine ks xs) = Ok (combine ks xs).
Proof.
  intros L H. apply copy_members_Ok. revert ks L. induction H as [|x xs Hx _ IH]; intros [|k ks] L; cbn; try discriminate; constructor; auto.
Qed.
Lemma yields_all_length st es xs st' : yields_all st es xs st' -> length es = length xs.
Proof. induction 1; cbn; auto. Qed.
Lemma yields_eval : (forall st e x st', yields st e x st' -> eval e st = Done st' (Ok x)) /\
  (forall st es xs st', yields_all st es xs st' -> eval_list eval es st = Done st' (Ok xs)).
Proof.
  apply yields_ind2; intros; cbn [eval eval_list]; try reflexivity.
  - apply puts_read in H. unfold copy_from, mbind, rd, mfail. rewrite H. now rewrite copy_owned.
  - apply puts_read in H. apply puts_write in H1 as [_ ->]. apply emptied_moved in H0 as ->. unfold take, mbind, rd, wr, mret. now rewrite H.
  - rewrite (mbind_ok _ _ _ _ _ H0). unfold mfail. rewrite copy_elems_Ok by auto. reflexivity.
  - rewrite (mbind_ok _ _ st st' (combine (map fst ms) xs)).
    + unfold mfail. rewrite combine_copy; auto; [|apply yields_all_length in H; rewrite map_length in *; auto]. cbv beta iota. unfold mbind, mret. do 4 f_equal.
      unfold v_object; do 2 f_equal; exact (represents_unique _ _ _ (of_list_represents _) H2).
    + rewrite eval_members_list, H0. reflexivity.
  - rewrite (mbind_ok _ _ _ _ _ H0), (mbind_ok _ _ _ _ _ H2). reflexivity.
Qed.
Lemma owned_combine (ks : list bytes) xs : length ks = length xs -> Forall (fun kv => owned (snd kv)) (combine ks xs) -> Forall owned xs.
Proof. revert ks. induction xs as [|x xs IH]; intros [|k ks] L H; cbn in *; try discriminate; constructor; inversion H; eauto. Qed.
Lemma eval_list_yields es : Forall (fun e => forall st x st', eval e st = Done st' (Ok x) -> yields st e x st') es ->
  forall st xs st', eval_list eval es st = Done st' (Ok xs) -> yields_all st es xs st'.
Proof.
  induction 1 as [|e es He _ IH]; intros st xs st' E; cbn [eval_list] in E.
  - injection E as <- <-. constructor.
  - apply mbind_inv in E as (st1 & x & E1 & E). apply mbind_inv in E as (st2 & ys & E2 & E). injection E as <- <-. econstructor; eauto.
Qed.
Lemma eval_yields e : forall st x st', eval e st = Done st' (Ok x) -> yields st e x st'.
Proof.
  induction e as [|b|s|s|t s|l|l|es IH|ms IH] using expr_ind'; intros st x st' E; cbn [eval] in E; try (injection E as <- <-; constructor).
  - destruct b; injection E as <- <-; constructor.
  - unfold copy_from, mbind, rd, mfail in E. destruct (read st l) as [v|] eqn:R; [|discriminate]. injection E as <- E. pose proof (copy_id _ _ E) as ->. constructor; [now apply puts_read|]. eapply copy_owned_inv; eauto.
  - unfold take, mbind, rd, wr, mret in E. destruct (read st l) as [v|] eqn:R; [|discriminate]. injection E as <- <-. econstructor; [now apply puts_read|now apply emptied_moved|]. eapply puts_intro; eauto.
  - apply mbind_inv in E as (st1 & xs & E1 & E). apply mbind_inv in E as (st2 & ys & E2 & E). injection E2 as <- E2. injection E as <- <-.
    pose proof (copy_elems_eq _ _ E2) as ->. constructor; [eapply eval_list_yields; eauto|]. eapply copy_elems_owned_inv; eauto.
  - apply mbind_inv in E as (st1 & xs & E1 & E). apply mbind_inv in E as (st2 & ys & E2 & E). injection E2 as <- E2. injection E as <- <-.
    pose proof (copy_members_eq _ _ E2) as ->. rewrite eval_members_list in E1. destruct (eval_list eval (map snd ms) st) as [|st3 [zs| | | |]] eqn:L; try discriminate.
    injection E1 as -> <-.
    assert (Y : yields_all st (map snd ms) zs st1). { eapply eval_list_yields; eauto. clear - IH. induction IH; cbn; constructor; auto. }
    econstructor; [exact Y| |apply of_list_represents]. apply (owned_combine (map fst ms)).
    + apply yields_all_length in Y. rewrite map_length in *. auto.
    + eapply copy_members_owned_inv; eauto.
Qed.
Lemma expression_value e st x st' : eval e st = Done st' (Ok x) <-> yields st e x st'.
Proof. split; [apply eval_yields|apply yields_eval]. Qed.
