(** * Proofs about the macros of jsonization.hpp. *)
From Verif Require Import Base Value Containers Conv Macro SpecMacro BaseProofs ContainerProofs.

(** ** Splitting *)
Definition no_comma (l : list token) : Prop := Forall (fun t => t <> Comma) l.

Lemma split_plain l : no_comma l -> forall cur r, split_commas cur (l ++ Comma :: r) = (cur ++ l) :: split_commas [] r.
Proof.
  induction 1 as [|t l Ht _ IH]; intros cur r; cbn [app split_commas].
  - now rewrite app_nil_r.
  - replace (cur ++ t :: l) with ((cur ++ [t]) ++ l) by (now rewrite <- app_assoc).
    rewrite <- IH. destruct t; congruence.
Qed.
Lemma split_last l : no_comma l -> forall cur, split_commas cur l = [cur ++ l].
Proof.
  induction 1 as [|t l Ht _ IH]; intros cur; cbn [split_commas].
  - now rewrite app_nil_r.
  - replace (cur ++ t :: l) with ((cur ++ [t]) ++ l) by (now rewrite <- app_assoc).
    rewrite <- IH. destruct t; congruence.
Qed.
Lemma expand_app l r : expand (l ++ r) = expand l ++ expand r.
Proof. induction l as [|t l IH]; [reflexivity|]. destruct t; cbn [app expand]; rewrite ?IH; reflexivity. Qed.

(** ** The arguments of a call *)
Definition tag_arg (t : tag) : list token := match t with TagOpt => [OptTag] | TagKey k => [KeyTag k] end.
Definition member_args (m : list tag * bytes) : list (list token) := map tag_arg (fst m) ++ [[Name (snd m)]].
Definition args_of (ms : list (list tag * bytes)) : list (list token) := flat_map member_args ms.

Lemma split_member m r : split_commas [] (expand (member_tokens m) ++ Comma :: r) = member_args m ++ split_commas [] r.
Proof.
  destruct m as [ts n]. unfold member_tokens, member_args. cbn [fst snd].
  induction ts as [|t ts IH]; [reflexivity|].
  destruct t; cbn [map tag_token app expand split_commas tag_arg]; rewrite IH; reflexivity.
Qed.
Lemma split_member_last m : split_commas [] (expand (member_tokens m)) = member_args m.
Proof.
  destruct m as [ts n]. unfold member_tokens, member_args. cbn [fst snd].
  induction ts as [|t ts IH]; [reflexivity|].
  destruct t; cbn [map tag_token app expand split_commas tag_arg]; rewrite IH; reflexivity.
Qed.
Lemma split_call ms : ms <> [] -> split_commas [] (expand (call_of ms)) = args_of ms.
Proof.
  induction ms as [|m ms IH]; [congruence|]. intros _. destruct ms as [|m' ms].
  - cbn [call_of args_of flat_map]. rewrite app_nil_r. apply split_member_last.
  - change (call_of (m :: m' :: ms)) with (member_tokens m ++ Comma :: call_of (m' :: ms)).
    rewrite expand_app. change (expand (Comma :: call_of (m' :: ms))) with (Comma :: expand (call_of (m' :: ms))).
    rewrite split_member, IH by discriminate. reflexivity.
Qed.
Lemma call_nonempty ms : ms <> [] -> expand (call_of ms) <> [].
Proof.
  intros H E. pose proof (split_call ms H) as S. rewrite E in S. cbn in S. destruct ms as [|[[|[|k] ts] n] ms]; [congruence| | |].
  all: cbn in S; discriminate.
Qed.
Lemma arguments_call ms : arguments (expand (call_of ms)) = args_of ms.
Proof.
  destruct ms as [|m ms]; [reflexivity|]. assert (m :: ms <> []) by discriminate.
  unfold arguments. destruct (expand (call_of (m :: ms))) eqn:E; [now apply call_nonempty in E|].
  rewrite <- E. now apply split_call.
Qed.
Lemma args_length ms : length (args_of ms) = size ms.
Proof.
  induction ms as [|m ms IH]; [reflexivity|].
  cbn [args_of flat_map size fold_right]. rewrite app_length. fold (args_of ms) (size ms). rewrite IH. unfold member_args.
  rewrite app_length, map_length. cbn [length]. lia.
Qed.

(** ** Counting *)
Lemma nth_down n k : (k <= n)%nat -> nth_error (down n) k = Some [Num (n - k)].
Proof.
  revert k. induction n as [|n IH]; intros [|k] H; [reflexivity|lia|reflexivity|]. cbn [down nth_error]. rewrite IH by lia. f_equal.
Qed.
Lemma count_small args : (length args <= max_args)%nat -> arg_count args = Some [Num (length args)].
Proof.
  intros H. unfold arg_count. rewrite nth_error_app2 by (cbn [length]; lia). cbn [length]. rewrite nth_down by lia. do 3 f_equal. lia.
Qed.
Lemma count_big args : (max_args < length args)%nat -> arg_count args = nth_error args max_args.
Proof. intros H. unfold arg_count. rewrite nth_error_app1 by (cbn [length]; lia). reflexivity. Qed.

Lemma for_each_all pred args : args <> [] -> for_each_n (length args) pred args = Some (flat_map pred args).
Proof.
  induction args as [|x args IH]; [congruence|]. intros _. destruct args as [|y args].
  - cbn. now rewrite app_nil_r.
  - specialize (IH ltac:(discriminate)). cbn [length] in IH |- *.
    change (for_each_n (S (S (length args))) pred (x :: y :: args)) with
      (match for_each_n (S (length args)) pred (y :: args) with Some l => Some (pred x ++ l) | None => None end).
    rewrite IH. reflexivity.
Qed.
Lemma args_arg ms x : In x (args_of ms) -> (exists s, x = [Name s]) \/ x = [OptTag] \/ exists k, x = [KeyTag k].
Proof.
  unfold args_of. intros H. apply in_flat_map in H as ([ts n] & _ & H). apply in_app_or in H as [H|[<-|[]]]; [|left; eauto].
  apply in_map_iff in H as ([|k] & <- & _); cbn [tag_arg]; eauto.
Qed.
Lemma for_each_call ms : for_each key_value (args_of ms) =
  if Nat.leb 1 (size ms) && Nat.leb (size ms) max_args then Some (flat_map key_value (args_of ms)) else None.
Proof.
  unfold for_each. rewrite <- args_length. destruct (Nat.leb (length (args_of ms)) max_args) eqn:L.
  - apply Nat.leb_le in L. rewrite count_small by exact L. rewrite (proj2 (Nat.leb_le _ _) L), andb_true_r.
    destruct (args_of ms) as [|x l] eqn:A; [reflexivity|]. apply for_each_all. discriminate.
  - apply Nat.leb_gt in L. rewrite andb_false_r, count_big by exact L. destruct (nth_error (args_of ms) max_args) as [x|] eqn:N; [|reflexivity].
    apply nth_error_In, args_arg in N as [[s ->]|[->|[k ->]]]; reflexivity.
Qed.

(** ** The pack *)
Definition arg_elem (x : list token) : elem :=
  match x with [Name s] => EVar s | [OptTag] => EOpt | [KeyTag k] => EOver k | _ => EEnd end.
Definition arg_elems (x : list token) : list elem := [EKey (stringize x); arg_elem x].

Lemma elems_pack args : (forall x, In x args -> (exists s, x = [Name s]) \/ x = [OptTag] \/ exists k, x = [KeyTag k]) ->
  elems_of (split_commas [] (flat_map key_value args ++ [EndTag])) = Some (flat_map arg_elems args ++ [EEnd]).
Proof.
  induction args as [|x args IH]; intros H; [reflexivity|].
  assert (IH' := IH (fun y Hy => H y (or_intror Hy))). clear IH.
  destruct (H x (or_introl eq_refl)) as [[s ->]|[->|[k ->]]]; cbn [flat_map key_value app split_commas elems_of elem_of arg_elems arg_elem];
    rewrite IH'; reflexivity.
Qed.
Definition elems_call (ms : list (list tag * bytes)) : list elem := flat_map arg_elems (args_of ms) ++ [EEnd].
Lemma pack_call ms : pack (call_of ms) = if Nat.leb 1 (size ms) && Nat.leb (size ms) max_args then Some (elems_call ms) else None.
Proof.
  unfold pack. rewrite arguments_call, for_each_call. destruct (_ && _); [|reflexivity]. apply elems_pack. intros x. apply args_arg.
Qed.

(** ** Overloads *)
Definition add_tag (st : state) (t : tag) : state :=
  match t with TagOpt => State true (s_key st) | TagKey k => State (s_opt st) (Some k) end.
Definition work_of (m : list tag * bytes) : work := Work (fold_left add_tag (fst m) no_state) (snd m) (snd m).

Lemma resolve_tags ts st r : ts <> [] ->
  resolve st (flat_map arg_elems (map tag_arg ts) ++ r) =
  resolve (Some (fold_left add_tag ts (match st with Some s => s | None => no_state end))) r.
Proof.
  revert st. induction ts as [|t ts IH]; [congruence|]. intros st _.
  set (s := match st with Some s => s | None => no_state end).
  assert (resolve st (flat_map arg_elems (map tag_arg (t :: ts)) ++ r) = resolve (Some (add_tag s t)) (flat_map arg_elems (map tag_arg ts) ++ r)) as -> by (destruct t; reflexivity).
  destruct ts as [|t' ts]; [reflexivity|]. rewrite IH by discriminate. reflexivity.
Qed.
Lemma resolve_member m r : resolve None (flat_map arg_elems (member_args m) ++ r) =
  match resolve None r with Some ws => Some (work_of m :: ws) | None => None end.
Proof.
  destruct m as [ts n]. unfold member_args, work_of. cbn [fst snd]. rewrite flat_map_app, <- app_assoc.
  destruct ts as [|t ts]; [reflexivity|]. rewrite resolve_tags by discriminate. reflexivity.
Qed.
Lemma resolve_call ms : resolve None (elems_call ms) = Some (map work_of ms).
Proof.
  unfold elems_call, args_of. induction ms as [|m ms IH]; [reflexivity|].
  cbn [flat_map map]. rewrite flat_map_app, <- app_assoc, resolve_member, IH. reflexivity.
Qed.
Lemma works_call ms : works (call_of ms) = if Nat.leb 1 (size ms) && Nat.leb (size ms) max_args then Some (map work_of ms) else None.
Proof. unfold works. rewrite pack_call. destruct (_ && _); [apply resolve_call|reflexivity]. Qed.

Lemma compiles_iff ms : (exists ws, works (call_of ms) = Some ws) <-> (1 <= size ms <= 64)%nat.
Proof.
  rewrite works_call. destruct (Nat.leb 1 (size ms) && Nat.leb (size ms) max_args) eqn:L.
  - apply andb_true_iff in L as [L1 L2]. apply Nat.leb_le in L1, L2. split; [intros _; split; [exact L1|exact L2]|eauto].
  - split; [intros (ws & [=])|]. intros [L1 L2]. apply Nat.leb_le in L1. assert (L3 : Nat.leb (size ms) max_args = true) by (apply Nat.leb_le; exact L2).
    rewrite L1, L3 in L. discriminate.
Qed.

(** ** The functions *)
Section Functions.
  Context (E : env) (type : bytes -> ty) (dflt : bytes -> data).
  Notation decl := (declared type dflt).

  Lemma state_of ts st : let s := fold_left add_tag ts st in
    s_opt s = fold_left (fun b t => match t with TagOpt => true | TagKey _ => b end) ts (s_opt st) /\
    s_key s = fold_left (fun k t => match t with TagOpt => k | TagKey k' => Some k' end) ts (s_key st).
  Proof. revert st. induction ts as [|t ts IH]; intros st; [now split|]. cbn [fold_left]. destruct t; [exact (IH (add_tag st TagOpt))|exact (IH (add_tag st (TagKey k)))]. Qed.
  Lemma key_of ts n d : work_key (Work (fold_left add_tag ts no_state) n n) = json_key (Field ts n d).
  Proof. unfold work_key, json_key, override_key. cbn [fst snd f_tags f_name]. now rewrite (proj2 (state_of ts no_state)). Qed.
  Lemma opt_of ts n d : s_opt (fold_left add_tag ts no_state) = is_optional (Field ts n d).
  Proof. unfold is_optional. cbn [f_tags]. now rewrite (proj1 (state_of ts no_state)). Qed.

  Lemma run_to_fields ms s : forall o, run_to E type (map work_of ms) s o = dump_fields (to_value E) (decl ms) (listed s ms) o.
  Proof.
    induction ms as [|[ts n] ms IH]; intros o; [reflexivity|].
    cbn [map run_to declared listed dump_fields fst snd]. change (work_of (ts, n)) with (Work (fold_left add_tag ts no_state) n n). cbv beta iota.
    rewrite <- (key_of ts n (dflt n)).
    destruct (to_value E (type n) (s n)); [|reflexivity..]. apply IH.
  Qed.
  Lemma run_check_fields ms v : run_check E type (map work_of ms) v = check_fields (is_ E) (decl ms) v.
  Proof.
    induction ms as [|[ts n] ms IH]; [reflexivity|].
    cbn [map run_check declared check_fields fst snd]. change (work_of (ts, n)) with (Work (fold_left add_tag ts no_state) n n). cbv beta iota.
    rewrite <- (key_of ts n (dflt n)), <- (opt_of ts n (dflt n)). fold (decl ms). rewrite <- IH. reflexivity.
  Qed.

  Lemma set_same x d s : set_member x d s x = d.
  Proof. unfold set_member. now rewrite (proj2 (bytes_eqb_eq x x) eq_refl). Qed.
  Lemma set_other x d s y : x <> y -> set_member x d s y = s y.
  Proof. intros H. unfold set_member. destruct (bytes_eqb x y) eqn:E1; [apply bytes_eqb_eq in E1; congruence|reflexivity]. Qed.
  Lemma run_from_frame ms v : forall s x, ~ In x (map snd ms) -> fst (run_from E type (map work_of ms) v s) x = s x.
  Proof.
    induction ms as [|[ts n] ms IH]; intros s x Hx; [reflexivity|]. cbn [map In snd] in Hx. cbn [map run_from].
    change (work_of (ts, n)) with (Work (fold_left add_tag ts no_state) n n). cbv beta iota.
    destruct (v_find_value_key _ v) as [[u|]|e| | |]; [| |reflexivity..].
    - destruct (is_ E (type n) u) as [[]|e| | |]; [|reflexivity..].
      destruct (as_ E (type n) u) as [d|e| | |]; [|reflexivity..].
      rewrite IH by tauto. apply set_other. intros H. apply Hx. now left.
    - destruct (s_opt _); [|reflexivity]. apply IH. tauto.
  Qed.
  Lemma listed_set x d s ms : ~ In x (map snd ms) -> listed (set_member x d s) ms = listed s ms.
  Proof.
    intros H. unfold listed. apply map_ext_in. intros m Hm. apply set_other. intros ->. apply H. now apply in_map.
  Qed.
  Lemma run_from_fields ms v : NoDup (map snd ms) -> forall s,
    let '(s', o) := run_from E type (map work_of ms) v s in load_fields E (as_ E) (decl ms) v (listed s ms) = (listed s' ms, o).
  Proof.
    induction ms as [|[ts n] ms IH]; intros N s; [reflexivity|].
    cbn [map snd] in N. inversion N as [|? ? Hn N' Ea]; subst. clear N. specialize (IH N').
    pose proof (fun s => run_from_frame ms v s n Hn) as Fr.
    cbn [map run_from declared listed load_fields fst snd].
    change (work_of (ts, n)) with (Work (fold_left add_tag ts no_state) n n). cbv beta iota.
    rewrite <- (key_of ts n (dflt n)), <- (opt_of ts n (dflt n)). fold (decl ms) (listed s ms).
    set (k := work_key _). destruct (v_find_value_key k v) as [[u|]|e| | |]; [| |reflexivity..].
    - destruct (is_ E (type n) u) as [[]|e| | |]; [|reflexivity..].
      destruct (as_ E (type n) u) as [d|e| | |]; [|reflexivity..].
      specialize (IH (set_member n d s)). specialize (Fr (set_member n d s)). rewrite listed_set in IH by exact Hn.
      destruct (run_from E type (map work_of ms) v (set_member n d s)) as [s' o]. rewrite IH. cbn [fst] in Fr. rewrite set_same in Fr. now rewrite Fr.
    - destruct (s_opt _); [|reflexivity].
      specialize (IH s). specialize (Fr s).
      destruct (run_from E type (map work_of ms) v s) as [s' o]. rewrite IH. cbn [fst] in Fr. now rewrite Fr.
  Qed.
End Functions.

Lemma macro_to E type dflt ms f : macro_to_json E type (call_of ms) = Some f ->
  forall s, f s = to_json E (declared type dflt ms) (listed s ms).
Proof.
  unfold macro_to_json. rewrite works_call. destruct (_ && _); [|discriminate]. intros [= <-] s.
  unfold to_json. cbn [to_value]. now rewrite run_to_fields with (dflt := dflt).
Qed.
Lemma macro_check E type dflt ms f : macro_check_json E type (call_of ms) = Some f ->
  forall v, f v = check_json E (declared type dflt ms) v.
Proof.
  unfold macro_check_json. rewrite works_call. destruct (_ && _); [|discriminate]. intros [= <-] v. apply run_check_fields.
Qed.
Lemma macro_from E type dflt ms f : macro_from_json E type (call_of ms) = Some f -> NoDup (map snd ms) ->
  forall v s, from_json E (declared type dflt ms) v (listed s ms) = (listed (fst (f v s)) ms, snd (f v s)) /\
    forall x, ~ In x (map snd ms) -> fst (f v s) x = s x.
Proof.
  unfold macro_from_json. rewrite works_call. destruct (_ && _); [|discriminate]. intros [= <-] N v s. split.
  - pose proof (run_from_fields E type dflt ms v N s) as H. destruct (run_from E type (map work_of ms) v s) as [s' o]. exact H.
  - intros x Hx. now apply run_from_frame.
Qed.

(** ** Calls of any other form do not compile *)
Definition single (x : list token) : Prop := exists t, x = [t].
Lemma nil_first r (P : Prop) : Forall single ([] :: r) -> P.
Proof. intros H. inversion H as [|? ? Hx _]; subst. destruct Hx as [t Ht]. discriminate Ht. Qed.
Lemma split_head cur l : exists x r, split_commas cur l = x :: r /\ (length cur <= length x)%nat.
Proof.
  revert cur. induction l as [|t l IH]; intros cur; [exists cur, []; split; [reflexivity|lia]|].
  destruct (IH (cur ++ [t])) as (x & r & E & L). rewrite app_length in L. cbn [length] in L.
  destruct t; cbn [split_commas]; try (exists x, r; split; [exact E|lia]). exists cur, (split_commas [] l). split; [reflexivity|lia].
Qed.
Lemma not_single cur l x : (2 <= length cur)%nat -> split_commas cur l = x -> Forall single x -> False.
Proof.
  intros L <- H. destruct (split_head cur l) as (y & r & E & Ly). rewrite E in H. inversion H as [|? ? [t ->] _]; subst. cbn [length] in Ly. lia.
Qed.
Lemma single_call n : forall call, (length call <= n)%nat -> Forall written call ->
  Forall single (split_commas [] (expand call)) -> exists ms, ms <> [] /\ call = call_of ms.
Proof.
  induction n as [|n IH]; intros call L W S.
  - destruct call; [|cbn in L; lia]. cbn in S. exact (nil_first _ _ S).
  - destruct call as [|t call]; [cbn in S; exact (nil_first _ _ S)|].
    inversion W as [|? ? Wt W']; subst. cbn [length] in L.
    assert (Tag : forall g, t = tag_token g -> Forall single (split_commas [] (expand call)) -> exists ms, ms <> [] /\ t :: call = call_of ms).
    { intros g -> S'. destruct (IH call ltac:(lia) W' S') as (ms & N & ->). destruct ms as [|[ts m] ms]; [congruence|].
      exists ((g :: ts, m) :: ms). split; [discriminate|]. destruct ms; reflexivity. }
    destruct t; try contradiction.
    + cbn in S. exact (nil_first _ _ S).
    + destruct call as [|t call].
      * exists [([], s)]. split; [discriminate|reflexivity].
      * destruct t.
        -- cbn [expand split_commas app] in S. inversion S as [|? ? _ S']; subst. inversion W' as [|? ? _ W2]; subst. cbn [length] in L.
           destruct (IH call ltac:(lia) W2 S') as (ms & N & ->). exists (([], s) :: ms). split; [discriminate|]. destruct ms; [congruence|reflexivity].
        -- exfalso. cbn [expand split_commas app] in S. eapply not_single; [|reflexivity|exact S]. cbn. lia.
        -- exfalso. cbn [expand split_commas app] in S. eapply not_single; [|reflexivity|exact S]. cbn. lia.
        -- exfalso. cbn [expand split_commas app] in S. eapply not_single; [|reflexivity|exact S]. cbn. lia.
        -- exfalso. cbn [expand split_commas app] in S. inversion S as [|? ? [t Ht] _]; subst. discriminate Ht.
        -- exfalso. cbn [expand split_commas app] in S. inversion S as [|? ? [t Ht] _]; subst. discriminate Ht.
        -- exfalso. cbn [expand split_commas app] in S. eapply not_single; [|reflexivity|exact S]. cbn. lia.
        -- exfalso. cbn [expand split_commas app] in S. eapply not_single; [|reflexivity|exact S]. cbn. lia.
        -- exfalso. cbn [expand split_commas app] in S. eapply not_single; [|reflexivity|exact S]. cbn. lia.
    + apply (Tag TagOpt eq_refl). cbn [expand split_commas app] in S. inversion S; assumption.
    + apply (Tag (TagKey k) eq_refl). cbn [expand split_commas app] in S. inversion S; assumption.
Qed.

(** tokens after the expansion *)
Definition expanded (t : token) : Prop := match t with Name _ | OptTag | KeyTag _ => True | _ => False end.
Lemma expand_tokens call : Forall written call -> Forall (fun t => expanded t \/ t = Comma) (expand call).
Proof.
  induction 1 as [|t call Ht _ IH]; [constructor|].
  destruct t; try contradiction; cbn [expand]; repeat (constructor; [(left; exact I) || (right; reflexivity)|]); exact IH.
Qed.
Lemma split_tokens l : Forall (fun t => expanded t \/ t = Comma) l -> forall cur, Forall expanded cur -> Forall (Forall expanded) (split_commas cur l).
Proof.
  induction 1 as [|t l Ht _ IH]; intros cur Hc; [now repeat constructor|].
  assert (Hx : expanded t -> Forall expanded (cur ++ [t])) by (intros; apply Forall_app; split; [exact Hc|now repeat constructor]).
  destruct t; cbn [split_commas]; destruct Ht as [Ht|Ht]; try contradiction; try discriminate; try (apply IH, Hx; exact Ht).
  constructor; [exact Hc|]. now apply IH.
Qed.
Lemma args_tokens call : Forall written call -> Forall (Forall expanded) (arguments (expand call)).
Proof.
  intros W. apply expand_tokens in W. unfold arguments. destruct (expand call); [constructor|]. apply split_tokens; [exact W|constructor].
Qed.
Lemma for_each_some call l : Forall written call -> for_each key_value (arguments (expand call)) = Some l ->
  arguments (expand call) <> [] /\ l = flat_map key_value (arguments (expand call)).
Proof.
  intros W. apply args_tokens in W. set (args := arguments (expand call)) in *. clearbody args. unfold for_each.
  destruct (Nat.leb (length args) max_args) eqn:L.
  - apply Nat.leb_le in L. rewrite count_small by exact L. rewrite (proj2 (Nat.leb_le _ _) L).
    destruct args as [|x args]; [discriminate|]. rewrite for_each_all by discriminate. intros [= <-]. split; [discriminate|reflexivity].
  - apply Nat.leb_gt in L. rewrite count_big by exact L. destruct (nth_error args max_args) as [x|] eqn:N; [|discriminate].
    apply nth_error_In in N. pose proof (proj1 (Forall_forall _ _) W x N) as Hx. destruct x as [|t [|t' x]]; [discriminate| |destruct t; discriminate].
    inversion Hx as [|? ? Ht _]; subst. destruct t; try contradiction; discriminate.
Qed.
Lemma elems_single args es : Forall (Forall expanded) args ->
  elems_of (split_commas [] (flat_map key_value args ++ [EndTag])) = Some es -> Forall single args.
Proof.
  revert es. induction args as [|x args IH]; intros es H Hs; [constructor|]. inversion H as [|? ? Hx H']; subst.
  assert (Nx : no_comma x) by (eapply Forall_impl; [|exact Hx]; intros [] Ht; (contradiction || discriminate)).
  cbn [flat_map] in Hs. unfold key_value in Hs at 1. cbn [app split_commas] in Hs.
  rewrite <- !app_assoc in Hs. cbn [app] in Hs. rewrite split_plain in Hs by exact Nx. cbn [elems_of elem_of app] in Hs.
  destruct (elem_of x) eqn:Ex; [|discriminate].
  destruct (elems_of (split_commas [] (flat_map key_value args ++ [EndTag]))) as [es'|] eqn:E'; [|discriminate].
  constructor; [|exact (IH _ H' eq_refl)]. destruct x as [|t [|t' x]]; [discriminate|now exists t|destruct t; discriminate].
Qed.

Lemma compiles_only call ws : Forall written call -> works call = Some ws -> exists ms, call = call_of ms.
Proof.
  intros W. unfold works, pack. destruct (for_each key_value (arguments (expand call))) as [l|] eqn:F; [|discriminate].
  destruct (for_each_some call l W F) as [N ->].
  destruct (elems_of _) as [es|] eqn:Es; [|discriminate]. intros _.
  pose proof (elems_single _ es (args_tokens call W) Es) as S. unfold arguments in S, N.
  destruct (expand call) eqn:Ec; [congruence|]. rewrite <- Ec in S.
  destruct (single_call (length call) call (le_n _) W S) as (ms & _ & ->). now exists ms.
Qed.
Lemma compiles call : Forall written call ->
  ((exists ws, works call = Some ws) <-> exists ms, call = call_of ms /\ (1 <= size ms <= 64)%nat).
Proof.
  intros W. split.
  - intros (ws & H). destruct (compiles_only call ws W H) as (ms & ->). exists ms. split; [reflexivity|]. apply compiles_iff. eauto.
  - intros (ms & -> & L). now apply compiles_iff.
Qed.
