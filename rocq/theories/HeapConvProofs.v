(** * The converting constructors on the heap make what [to_value] returns and free everything else. *)
From Verif Require Import Base Value Spec Packed Parser Containers Num Enum Conv Dump Api SpecApi BaseProofs ContainerProofs ConvProofs ApiProofs StoreProofs StatementProofs Heap SpecHeap HeapBase HeapSteps HeapOps HeapMoves HeapNodes HeapCalls HeapMerge HeapEval HeapJoin HeapParse HeapParseProofs HeapConv.
From Coq Require Import Permutation.

Definition fine {A} (r : res A) : Prop := match r with Ok _ | Throw _ => True | _ => False end.
Lemma fine_bind {A B} (r : res A) (f : A -> res B) : fine (bind r f) -> fine r.
Proof. destruct r; cbn; auto. Qed.
(** [m] makes the values that [r] returns temporaries, the last one the newest *)
Definition yields (m : hM unit) (r : res (list value)) : Prop := forall hs st, sim hs st -> fine r ->
  wp m hs (fun _ hs' => exists vs, r = Ok vs /\ upto (length st) [] [] hs hs' (st ++ vs)) (fun e hs' => (r = Throw e \/ oom hs e) /\ sim hs' st).
Definition makes (m : hM unit) (r : res value) : Prop := yields m (do v <- r; Ok [v]).

Lemma makes_wp m r hs st : makes m r -> sim hs st -> fine r ->
  wp m hs (fun _ hs' => exists v, r = Ok v /\ upto (length st) [] [] hs hs' (st ++ [v])) (fun e hs' => (r = Throw e \/ oom hs e) /\ sim hs' st).
Proof.
  intros M S F. eapply wp_mono; [apply (M hs st S)|..]; cbv beta.
  - destruct r; auto.
  - intros _ hs' (vs & E & U). destruct r as [v|e| | |]; try discriminate. injection E as <-. eauto.
  - intros e hs' [H S']. split; auto. destruct H as [H|H]; auto. left. destruct r; try discriminate. now injection H as ->.
Qed.
Lemma upto_then n hs hs1 hs2 st1 st2 n2 : upto n [] [] hs hs1 st1 -> upto n2 [] [] hs1 hs2 st2 -> (n <= n2)%nat -> upto n [] [] hs hs2 st2.
Proof. intros U V L. eapply upto_chain; [exact U|eapply upto_mono; [exact V|lia|incls..]|incls..]. Qed.
Lemma oom_upto n P W hs hs1 st e : upto n P W hs hs1 st -> oom hs1 e -> oom hs e.
Proof. intros U. apply oom_quiet, U. Qed.

Lemma y_tick m r : yields m r -> yields (tick ;; m) r.
Proof.
  intros H hs st S F. apply wp_bind. eapply wp_mono; [apply (tick_upto hs st (length st) [] [] S)|..]; cbv beta.
  - intros _ hs1 U1. eapply wp_mono; [apply (H hs1 st (upto_sim _ _ _ _ _ _ U1) F)|..]; cbv beta.
    + intros _ hs2 (vs & E & U2). exists vs. split; auto. eapply upto_then; eauto.
    + intros e hs2 [[E|O] S2]; split; auto. right. eapply oom_upto; eauto.
  - intros e hs1 [O S1]. auto.
Qed.
Lemma y_nil : yields (hret tt) (Ok []).
Proof. intros hs st S F. eapply wp_run; [reflexivity|]. exists []. split; auto. rewrite app_nil_r. now apply upto_refl. Qed.
Lemma y_cons c f m r : makes c f -> yields m r -> yields (c ;; on_throw m drop) (do v <- f; do vs <- r; Ok (v :: vs)).
Proof.
  intros C M hs st S F. apply wp_bind. eapply wp_mono; [apply (makes_wp _ _ _ _ C S (fine_bind _ _ F))|..]; cbv beta.
  - intros _ hs1 (v & -> & U1). cbn [bind] in *. eapply wp_catch with (E' := fun e hs' => (r = Throw e \/ oom hs1 e) /\ sim hs' (st ++ [v])).
    + eapply wp_mono; [apply (M hs1 _ (upto_sim _ _ _ _ _ _ U1) (fine_bind _ _ F))|..]; cbv beta; auto.
      intros _ hs2 (vs & -> & U2). exists (v :: vs). split; auto. rewrite <- app_assoc in U2. eapply upto_then; [exact U1|exact U2|rewrite app_length; lia].
    + intros e hs' [H S']. destruct (drop_upto _ _ _ S') as (hs2 & E2 & U2). exists hs2. split; auto. split; [|apply U2].
      destruct H as [->|O]; [left; reflexivity|right; eapply oom_upto; eauto].
  - intros e hs1 [[->|O] S1]; split; auto.
Qed.
Lemma build_each_ok {A} c (f : A -> res value) l : Forall (fun x => makes (c x) (f x)) l -> yields (build_each c l) (mapM f l).
Proof. induction 1 as [|x l Hx Hl IH]; cbn [build_each mapM]; [apply y_nil|now apply y_cons]. Qed.

(** the newest temporaries become a value *)
Definition packs (g : list hval -> node) (mk : addr -> hval) (vs : list value) (v : value) : Prop :=
  forall xs h' b fs, length xs = length vs -> nth_error h' b = Some (Some (g xs)) -> holds_all h' xs vs fs -> exists fs', Permutation fs' fs /\ holds h' (mk b) v (b :: fs').
Lemma node_upto (g : list hval -> node) mk v hs st vs n : sim hs (st ++ vs) -> length vs = n -> packs g mk vs v ->
  exists hs', (let! l := take_top n in let! b := alloc (g l) in push (mk b)) hs = HDone hs' (Ok tt) /\ upto (length st) [] [] hs hs' (st ++ [v]).
Proof.
  intros (f & S) Ln Hg. destruct (simf_split _ _ _ _ S) as (R & xs & f1 & f2 & E & -> & A & B & D & L).
  pose proof (holds_all_length _ _ _ _ B) as Lx. pose proof (holds_all_length _ _ _ _ A) as La. destruct hs as [R' h fl]. cbn in E, A, B, L. subst R'.
  destruct (make_node R xs h fl st vs f1 f2 (g xs) (mk (length h)) v A B D L) as (f' & S' & G).
  { intros h' Ag Hn. apply (Hg xs h' (length h) f2 Lx Hn). eapply holds_all_frame; eauto. }
  eexists. split.
  - unfold hbind. rewrite take_top_ok by lia. rewrite alloc_ok. cbn. reflexivity.
  - cbn. split; [eexists; exact S'|]. split; [|intros H; exact H]. apply keeps_all. intros l Ll.
    rewrite (resolve_agree R [mk (length h)] h (h ++ [Some (g xs)]) fl fl st f1 l A G Ll). symmetry. apply resolve_ext. lia.
Qed.
Lemma y_node m r n (g : list hval -> node) mk V : yields m r -> (forall vs, r = Ok vs -> length vs = n /\ packs g mk vs (V vs)) ->
  makes (m ;; let! l := take_top n in let! b := alloc (g l) in push (mk b)) (do vs <- r; Ok (V vs)).
Proof.
  intros M H hs st S F. apply wp_bind. eapply wp_mono; [apply (M hs st S (fine_bind _ _ (fine_bind _ _ F)))|..]; cbv beta.
  - intros _ hs1 (vs & E & U1). destruct (H vs E) as [Ln G]. destruct (node_upto g mk (V vs) hs1 st vs n (upto_sim _ _ _ _ _ _ U1) Ln G) as (hs2 & E2 & U2).
    eapply wp_run; [exact E2|]. exists [V vs]. rewrite E. split; auto. eapply upto_then; eauto.
  - intros e hs1 [[->|O] S1]; auto.
Qed.
Lemma y_wrap m r n (g : list hval -> node) mk V : yields m r -> (forall vs, r = Ok vs -> length vs = n /\ packs g mk vs (V vs)) ->
  makes (m ;; on_throw tick (drop_n n) ;; let! l := take_top n in let! b := alloc (g l) in push (mk b)) (do vs <- r; Ok (V vs)).
Proof.
  intros M H hs st S F. apply wp_bind. eapply wp_mono; [apply (M hs st S (fine_bind _ _ (fine_bind _ _ F)))|..]; cbv beta.
  - intros _ hs1 (vs & E & U1). destruct (H vs E) as [Ln G]. apply wp_bind. eapply wp_catch with (E' := fun e hs' => oom hs1 e /\ sim hs' (st ++ vs)).
    + eapply wp_mono; [apply (tick_upto hs1 (st ++ vs) (length st) [] [] (upto_sim _ _ _ _ _ _ U1))|..]; cbv beta; auto. intros _ hs2 U2.
      destruct (node_upto g mk (V vs) hs2 st vs n (upto_sim _ _ _ _ _ _ U2) Ln G) as (hs3 & E3 & U3).
      eapply wp_run; [exact E3|]. exists [V vs]. rewrite E. split; auto. eapply upto_then; [exact U1| |apply le_n]. eapply upto_then; eauto.
    + intros e hs' [O S']. destruct (drop_n_upto hs' st vs n Ln S') as (hs2 & E2 & U2). exists hs2. split; auto. split; [|apply U2]. right. eapply oom_upto; eauto.
  - intros e hs1 [[->|O] S1]; auto.
Qed.
Lemma packs_arr t vs : packs NArr (fun b => HArr t (Some b)) vs (VArr t (Some vs)).
Proof. intros xs h b fs L Hn Hx. exists fs. split; auto. econstructor; eauto. Qed.
Lemma packs_obj t ks vs : length vs = length ks -> packs (fun l => NObj (combine ks l)) (fun b => HObj t (Some b)) vs (VObj t (Some (combine ks vs))).
Proof. intros L xs h b fs Lx Hn Hx. exists fs. split; auto. apply (make_obj_ok ks vs xs); auto. lia. Qed.
Lemma packs_list ks vs : length vs = length ks -> NoDup ks -> packs (fun l => NObj (h_of_list (combine ks l))) (fun b => HObj Tobject (Some b)) vs (v_object (members ks vs)).
Proof.
  intros L D xs h b fs Lx Hn Hx. destruct (of_list_holds h ks xs vs fs [] [] [] Hx) as (f' & P & K & HH); auto; [lia|constructor|].
  exists f'. split; [exact P|]. now apply ho_obj with (m := h_of_list (combine ks xs)).
Qed.

(** ** Values outside the heap *)
Lemma mapM_length {A B} (f : A -> res B) l r : mapM f l = Ok r -> length r = length l.
Proof. revert r. induction l as [|x l IH]; intros r E; cbn in E; [now injection E as <-|]. destruct (f x); try discriminate. cbn in E. destruct (mapM f l) eqn:El; try discriminate. injection E as <-. cbn. now rewrite (IH _ eq_refl). Qed.
Lemma copy_elems_mapM c l : copy_elems c l = mapM c l.
Proof. reflexivity. Qed.
Lemma copy_members_mapM c m : copy_members c m = do vs <- mapM (fun kv => c (snd kv)) m; Ok (combine (map fst m) vs).
Proof. induction m as [|(k, x) m IH]; auto. cbn. rewrite IH. destruct (c x); auto. cbn. destruct (mapM _ m); auto. Qed.
Lemma push_makes x v : (forall h, holds h x v []) -> makes (push x) (Ok v).
Proof. intros H hs st S F. destruct (push_upto hs st x v S H) as (hs1 & E1 & U1). eapply wp_run; [exact E1|]. exists [v]. auto. Qed.
Lemma fail_makes : makes (hfail Ub) Ub.
Proof. intros hs st S []. Qed.
Definition copied_of (lax : bool) (v : value) : res value := if lax then Ok v else copy v.
Lemma mapM_Ok {A} (l : list A) : mapM (fun x => Ok x) l = Ok l.
Proof. induction l as [|x l IH]; auto. cbn. now rewrite IH. Qed.
Lemma mapM_snd (m : object) : mapM (fun kv => Ok (snd kv)) m = Ok (map snd m).
Proof. induction m as [|x l IH]; auto. cbn. now rewrite IH. Qed.
Lemma mapM_ext {A B} (f g : A -> res B) l : (forall x, f x = g x) -> mapM f l = mapM g l.
Proof. intros H. induction l as [|x l IH]; auto. cbn. now rewrite H, IH. Qed.
Lemma build_ok (lax : bool) v : makes (build (if lax then push else fun _ => hfail Ub) v) (copied_of lax v).
Proof.
  induction v as [t s|t|t l IH|t|t m IH] using value_ind'; cbn [build].
  - assert (E : copied_of lax (VStr t s) = Ok (VStr t s)) by (destruct lax; auto). rewrite E. apply y_tick, push_makes. constructor.
  - destruct lax; cbn [copied_of]; [apply push_makes; constructor|apply fail_makes].
  - assert (E : copied_of lax (VArr t (Some l)) = do vs <- mapM (copied_of lax) l; Ok (VArr t (Some vs))).
    { destruct lax; cbn; [|now rewrite copy_elems_mapM]. unfold copied_of. now rewrite mapM_Ok. }
    rewrite E. apply y_tick, y_tick. apply (y_node _ _ _ NArr (fun b => HArr t (Some b)) (fun vs => VArr t (Some vs))).
    + now apply build_each_ok.
    + intros vs Ev. apply mapM_length in Ev. split; auto. apply packs_arr.
  - destruct lax; cbn [copied_of]; [apply push_makes; constructor|apply fail_makes].
  - assert (E : copied_of lax (VObj t (Some m)) = do vs <- mapM (fun kv => copied_of lax (snd kv)) m; Ok (VObj t (Some (combine (map fst m) vs)))).
    { destruct lax; cbn [copied_of copy]; [|rewrite copy_members_mapM; now destruct (mapM _ m)]. rewrite mapM_snd. cbn. now rewrite combine_fst_snd. }
    rewrite E. apply y_tick. apply (y_node _ _ _ (fun l => NObj (combine (map fst m) l)) (fun b => HObj t (Some b)) (fun vs => VObj t (Some (combine (map fst m) vs)))).
    + apply build_each_ok. apply Forall_forall. intros kv I. apply y_tick, y_tick. rewrite Forall_forall in IH. now apply IH.
    + intros vs Ev. apply mapM_length in Ev. split; auto. apply packs_obj. now rewrite map_length.
Qed.
Lemma h_build_ok v : makes (h_build v) (copy v).
Proof. exact (build_ok false v). Qed.
Lemma h_given_ok v : makes (h_given v) (Ok v).
Proof. exact (build_ok true v). Qed.
Lemma h_text_ok r : (forall v, r = Ok v -> exists t s, v = VStr t s) -> makes (h_text r) r.
Proof.
  intros H hs st S F. unfold h_text. destruct r as [v|e| | |]; try destruct F.
  - destruct (H v eq_refl) as (t & s & ->). eapply wp_step; [reflexivity|].
    assert (P : makes (push (HStr t s)) (Ok (VStr t s))) by (apply push_makes; constructor).
    cbv iota beta. destruct (is_nil s); [eapply wp_step; [reflexivity|]; apply (P hs st S Logic.I)|apply (y_tick _ _ P hs st S Logic.I)].
  - unfold wp, reads, hbind, hfail. cbn. auto.
Qed.

(** ** Tuples and variants *)
Lemma h_tuple_ok to1 f ts : Forall (fun t => forall d, makes (to1 t d) (f t d)) ts -> forall l, yields (h_tuple to1 ts l) (to_tuple f ts l).
Proof.
  induction 1 as [|t ts Ht Hts IH]; intros [|d l]; cbn [h_tuple to_tuple]; try (intros hs st S []; fail).
  - apply y_nil.
  - apply y_tick. apply (y_cons (to1 t d) (f t d)); auto.
Qed.
Lemma to_tuple_length f ts : forall l r, to_tuple f ts l = Ok r -> length r = length l.
Proof.
  induction ts as [|t ts IH]; intros [|d l] r E; cbn in E; try discriminate; [now injection E as <-|].
  destruct (f t d); try discriminate. cbn in E. destruct (to_tuple f ts l) eqn:El; try discriminate. injection E as <-. cbn. now rewrite (IH _ _ El).
Qed.
Lemma h_variant_ok to1 f ts : Forall (fun t => forall d, makes (to1 t d) (f t d)) ts -> forall i d, makes (h_variant to1 ts i d) (to_variant f ts i d).
Proof. induction 1 as [|t ts Ht Hts IH]; intros [|i] d; cbn [h_variant to_variant]; auto; intros hs st S []. Qed.

(** ** Maps *)
Definition emplace_all (l : list (bytes * value)) (m : object) : object := fold_left (fun m kv => fst (map_emplace (fst kv) (snd kv) m)) l m.
Lemma emplace_old k (v : value) m : snd (map_emplace k v m) = false -> fst (map_emplace k v m) = m.
Proof.
  induction m as [|(k0, x) m IH]; cbn; [discriminate|]. destruct (map_emplace k v m) as [m' b]. cbn in IH.
  destruct (bytes_ltb k k0); [discriminate|]. destruct (bytes_eqb k k0); cbn; auto. intros ->. now rewrite IH.
Qed.
Lemma emplaced ks vs k v : length vs = length ks -> negb (snd (map_emplace k v (members ks vs))) = existsb (bytes_eqb k) ks.
Proof. refine (emplaced_iff (fun _ => Fuel) (fun _ => hfail Fuel) _ ks vs k v). intros cur base hs _ w c E. discriminate E. Qed.
Lemma members_last ks vs k v : length vs = length ks -> members (ks ++ [k]) (vs ++ [v]) = fst (map_emplace k v (members ks vs)).
Proof. refine (members_snoc (fun _ => Fuel) (fun _ => hfail Fuel) _ ks vs k v). intros cur base hs _ w c E. discriminate E. Qed.
Lemma h_members_ok c f l : (forall d, makes (c d) (f d)) -> forall ks vs hs st, length vs = length ks -> NoDup ks -> sim hs (st ++ vs) -> fine (mapM_members f l) ->
  wp (h_members c l ks) hs
    (fun ks' hs' => exists r vs', mapM_members f l = Ok r /\ length vs' = length ks' /\ NoDup ks' /\ members ks' vs' = emplace_all r (members ks vs) /\ upto (length st) [] [] hs hs' (st ++ vs'))
    (fun e hs' => (mapM_members f l = Throw e \/ oom hs e) /\ sim hs' (st ++ vs)).
Proof.
  intros Hc. induction l as [|(k, d) l IH]; intros ks vs hs st Ln D S F; cbn [h_members mapM_members] in *.
  - eapply wp_run; [reflexivity|]. exists [], vs. splits; auto. now apply upto_refl.
  - apply wp_bind. eapply wp_mono; [apply (tick_upto hs (st ++ vs) (length (st ++ vs)) [] [] S)|..]; cbv beta; [|intros e hs1 [O S1]; auto].
    intros _ hs1 U1. apply wp_bind. eapply wp_mono; [apply (tick_upto hs1 (st ++ vs) (length (st ++ vs)) [] [] (upto_sim _ _ _ _ _ _ U1))|..]; cbv beta.
    2:{ intros e hs2 [O S2]. split; auto. right. eapply oom_upto; eauto. }
    intros _ hs2 U2. pose proof (upto_then _ _ _ _ _ _ _ U1 U2 (le_n _)) as U12. clear U1 U2 hs1.
    apply wp_bind. eapply wp_mono; [apply (makes_wp _ _ _ _ (Hc d) (upto_sim _ _ _ _ _ _ U12) (fine_bind _ _ F))|..]; cbv beta.
    2:{ intros e hs3 [[->|O] S3]; split; auto. right. eapply oom_upto; eauto. }
    intros _ hs3 (v & Ev & U3). rewrite Ev in F |- *. cbn [bind] in F |- *. pose proof (upto_then _ _ _ _ _ _ _ U12 U3 (le_n _)) as U13. clear U12 U3 hs2.
    pose proof (emplaced ks vs k v Ln) as Ex. destruct (existsb (bytes_eqb k) ks) eqn:Eb.
    + destruct (drop_upto _ _ _ (upto_sim _ _ _ _ _ _ U13)) as (hs4 & E4 & U4). eapply wp_step; [exact E4|]. pose proof (upto_then _ _ _ _ _ _ _ U13 U4 (le_n _)) as U14.
      eapply wp_mono; [apply (IH ks vs hs4 st Ln D (upto_sim _ _ _ _ _ _ U14) (fine_bind _ _ F))|..]; cbv beta.
      * intros ks' hs5 (r & vs' & -> & L' & D' & M' & U5). exists ((k, v) :: r), vs'. splits; auto.
        -- rewrite M'. cbn. rewrite emplace_old; auto. now apply negb_true_iff.
        -- eapply upto_then; [eapply upto_mono; [exact U14| |incls..]|exact U5|apply le_n]. rewrite app_length. lia.
      * intros e hs5 [[->|O] S5]; split; auto. right. eapply oom_upto; eauto.
    + pose proof (upto_sim _ _ _ _ _ _ U13) as S3. rewrite <- app_assoc in S3.
      eapply wp_catch with (E' := fun e hs' => (mapM_members f l = Throw e \/ oom hs3 e) /\ sim hs' (st ++ vs ++ [v])).
      * eapply wp_mono; [apply (IH (ks ++ [k]) (vs ++ [v]) hs3 st)|..]; cbv beta; auto; [rewrite !app_length; cbn; lia|now apply nodup_snoc|exact (fine_bind _ _ F)|].
        intros ks' hs5 (r & vs' & -> & L' & D' & M' & U5). exists ((k, v) :: r), vs'. splits; auto.
        -- rewrite M', members_last by auto. reflexivity.
        -- eapply upto_then; [eapply upto_mono; [exact U13| |incls..]|exact U5|apply le_n]. rewrite app_length. lia.
      * intros e hs' [H S']. rewrite app_assoc in S'. destruct (drop_upto _ _ _ S') as (hs4 & E4 & U4). exists hs4. split; auto. split; [|apply U4].
        destruct H as [->|O]; [left; reflexivity|right; eapply oom_upto; eauto].
Qed.
Lemma h_map_ok c f l : (forall d, makes (c d) (f d)) -> makes (let! ks := h_members c l [] in h_wrap_object ks) (do r <- mapM_members f l; Ok (v_object (obj_of_list r))).
Proof.
  intros Hc hs st S F. apply wp_bind. eapply wp_mono; [apply (h_members_ok c f l Hc [] [] hs st)|..]; cbv beta; auto; [constructor|now rewrite app_nil_r|exact (fine_bind _ _ (fine_bind _ _ F))|..].
  - intros ks hs1 (r & vs & -> & Ln & D & M & U1). unfold h_wrap_object. change (members ks vs = obj_of_list r) in M. cbn [bind]. rewrite <- M.
    apply wp_bind. eapply wp_catch with (E' := fun e hs' => oom hs1 e /\ sim hs' (st ++ vs)).
    + eapply wp_mono; [apply (tick_upto hs1 (st ++ vs) (length st) [] [] (upto_sim _ _ _ _ _ _ U1))|..]; cbv beta; auto. intros _ hs2 U2.
      destruct (node_upto (fun l => NObj (h_of_list (combine ks l))) (fun b => HObj Tobject (Some b)) (v_object (members ks vs)) hs2 st vs (length ks) (upto_sim _ _ _ _ _ _ U2) Ln (packs_list _ _ Ln D)) as (hs3 & E3 & U3).
      eapply wp_run; [exact E3|]. eexists. split; [reflexivity|]. eapply upto_then; [exact U1| |apply le_n]. eapply upto_then; eauto.
    + intros e hs' [O S']. destruct (drop_n_upto hs' st vs (length ks) Ln S') as (hs2 & E2 & U2). exists hs2. split; auto. split; [|apply U2]. right. eapply oom_upto; eauto.
  - intros e hs1 [[->|O] S1]; rewrite app_nil_r in S1; auto.
Qed.

(** ** Structs *)
Lemma same_nth {A} (l : list A) : forall l', (forall i, nth_error l i = nth_error l' i) -> l = l'.
Proof.
  induction l as [|x l IH]; intros [|y l'] H; auto; try (specialize (H O); discriminate H).
  pose proof (H O) as H0. injection H0 as ->. f_equal. apply IH. intros i. exact (H (Datatypes.S i)).
Qed.
Lemma frame_all st st' : frame [] st st' -> st' = st.
Proof. intros [L F]. apply same_nth. intros i. apply F. intros []. Qed.
Lemma upto_above n n' P W hs hs' st : upto n' P W hs hs' st -> (n <= n')%nat -> (forall w, In w P \/ In w W -> (n <= slot w)%nat) -> upto n [] [] hs hs' st.
Proof.
  intros (S & [K1 K2] & Q) L H. assert (X : forall w l, (slot l < n)%nat -> (n <= slot w)%nat -> within w l = false).
  { intros w l A B. destruct (within w l) eqn:E; auto. apply within_spec in E as [E _]. lia. }
  split; auto. split; auto. split.
  - intros l pl A _ V. apply K1; auto; [lia|]. apply Forall_forall. intros w I C. apply strictly_inside_spec in C as [C _]. rewrite X in C; [discriminate|auto|apply H; auto].
  - intros l r A _ V. apply K2; auto; [lia|]. apply Forall_forall. intros w I. apply X; auto.
Qed.
(** insert_or_assign *)
Definition put_at (st : store) (d : loc) (k : bytes) (v : value) (ms : object) : store :=
  if obj_contains k ms then write st (sub d (Key k)) v else write st d (VObj Tobject (Some (map_assign k v ms))).
Lemma put_ok c r hs st d pd b ms k : makes c r -> fine r -> sim hs st -> read st d = Some (VObj Tobject (Some ms)) -> resolve hs d = Some (pd, HObj Tobject (Some b)) ->
  wp (h_put c b k) hs (fun _ hs' => exists v, r = Ok v /\ upto (length st) [sub d (Key k)] [sub d (Key k)] hs hs' (put_at st d k v ms))
    (fun e hs' => (r = Throw e \/ oom hs e) /\ sim hs' st).
Proof.
  intros C F S Rd Ed. pose proof (read_slot _ _ _ Rd) as Ld. destruct (obj_at_loc _ _ _ _ _ _ _ _ S Rd Ed) as (m & Nb & Km).
  unfold h_put. eapply wp_step; [apply obj_node_ok; exact Nb|]. unfold put_at, obj_contains. destruct (map_find k ms) as [w|] eqn:Fk.
  - destruct (find_some_keys _ _ _ _ Km Fk) as (y & Fy). rewrite Fy. apply wp_bind.
    eapply wp_mono; [apply (makes_wp _ _ _ _ C S F)|..]; cbv beta; auto. intros _ hs1 (v & -> & U1).
    assert (Rk : read st (sub d (Key k)) = Some w). { unfold read in *. cbn. destruct (nth_error st (slot d)); [|discriminate]. rewrite get_at_app, Rd. cbn. now rewrite Fk. }
    assert (V1 : vref hs1 (sub d (Key k)) (Mem b k)).
    { eapply upto_vref; [exact U1|exact Ld|constructor|]. eexists. eapply resolve_member; eauto. }
    destruct (assign_tmp_ok hs1 st v (sub d (Key k)) w (Mem b k) (upto_sim _ _ _ _ _ _ U1) Rk V1) as (hs2 & E2 & U2).
    eapply wp_run; [exact E2|]. exists v. split; auto. eapply upto_chain; [exact U1|exact U2|incls..].
  - destruct (map_find k m) as [y|] eqn:Fm. { rewrite (find_none_keys k ms m (eq_sym Km) Fk) in Fm. discriminate. }
    apply wp_bind. eapply wp_mono; [apply (tick_upto hs st (length st) [] [] S)|..]; cbv beta; [|intros e hs1 [O S1]; auto].
    intros _ hs1 U1. apply wp_bind. eapply wp_mono; [apply (tick_upto hs1 st (length st) [] [] (upto_sim _ _ _ _ _ _ U1))|..]; cbv beta.
    2:{ intros e hs2 [O S2]. split; auto. right. eapply oom_upto; eauto. }
    intros _ hs2 U2. pose proof (upto_then _ _ _ _ _ _ _ U1 U2 (le_n _)) as U12.
    apply wp_bind. eapply wp_mono; [apply (makes_wp _ _ _ _ C (upto_sim _ _ _ _ _ _ U12) F)|..]; cbv beta.
    2:{ intros e hs3 [[->|O] S3]; split; auto. right. eapply oom_upto; eauto. }
    intros _ hs3 (v & -> & U3). pose proof (upto_then _ _ _ _ _ _ _ U12 U3 (le_n _)) as U13.
    assert (Ed3 : resolve hs3 d = Some (pd, HObj Tobject (Some b))) by (eapply upto_res; [exact U13|exact Ld|constructor|exact Ed]).
    destruct (insert_upto hs3 st v d Tobject ms pd Tobject b k (upto_sim _ _ _ _ _ _ U13) Rd Ed3 Fk) as (hs4 & E4 & U4).
    eapply wp_run; [exact E4|]. exists v. split; auto. eapply upto_chain; [exact U13|exact U4|incls..].
Qed.
Lemma put_sorted st d k v ms : sorted_keys ms -> read st d = Some (VObj Tobject (Some ms)) -> put_at st d k v ms = write st d (v_object (map_assign k v ms)).
Proof.
  intros So Rd. unfold put_at, obj_contains. destruct (map_find k ms) as [w|] eqn:F; auto. apply write_member; auto. congruence.
Qed.
Lemma h_dump_fields_ok to1 f fs : Forall (fun ft => forall d, makes (to1 (snd ft) d) (f (snd ft) d)) fs -> forall l hs st o b, sorted_keys o ->
  sim hs (st ++ [v_object o]) -> resolve hs (Loc (length st) []) = Some (Root (length st), HObj Tobject (Some b)) -> fine (dump_fields f fs l o) ->
  wp (h_dump_fields to1 fs l b) hs (fun _ hs' => exists o', dump_fields f fs l o = Ok o' /\ upto (length st) [] [] hs hs' (st ++ [v_object o']))
    (fun e hs' => (dump_fields f fs l o = Throw e \/ oom hs e) /\ exists v', sim hs' (st ++ [v'])).
Proof.
  induction 1 as [|[fl t] fs Ht Hfs IH]; intros [|d l] hs st o b So S R F; cbn [h_dump_fields dump_fields] in *; try (destruct F; fail).
  - eapply wp_run; [reflexivity|]. exists o. split; auto. now apply upto_refl.
  - set (d0 := Loc (length st) []) in *. assert (Ld : (slot d0 < length (st ++ [v_object o]))%nat) by (rewrite app_length; cbn; lia).
    assert (Rd : read (st ++ [v_object o]) d0 = Some (VObj Tobject (Some o))) by (unfold read, d0; cbn; rewrite nth_error_app2, Nat.sub_diag by lia; reflexivity).
    apply wp_bind. eapply wp_mono; [apply (put_ok _ _ hs (st ++ [v_object o]) d0 _ b o (json_key fl) (Ht d) (fine_bind _ _ F) S Rd R)|..]; cbv beta.
    2:{ cbn [snd]. intros e hs1 [[E|O] S1]; [rewrite E|]; eauto. }
    cbn [snd]. intros _ hs1 (v & Ev & U1). rewrite Ev in F |- *. cbn [bind] in F |- *. set (k := json_key fl) in *. cbn [fst obj_emplace] in F |- *.
    assert (R1 : resolve hs1 d0 = Some (Root (length st), HObj Tobject (Some b))).
    { eapply upto_res; [exact U1|exact Ld| |exact R]. constructor; [apply HeapCalls.not_within_sub|constructor]. }
    rewrite put_sorted in U1 by auto. assert (W : write (st ++ [v_object o]) d0 (v_object (map_assign k v o)) = st ++ [v_object (map_assign k v o)]) by (unfold write, d0; cbn; now rewrite upd_nth_app).
    rewrite W in U1. clear W. apply (upto_above (length st)) in U1; [|rewrite app_length; lia|intros w [[<-|[]]|[<-|[]]]; cbn; lia].
    eapply wp_mono; [apply (IH l hs1 st (map_assign k v o) b)|..]; cbv beta; auto; [now apply map_assign_sorted|apply U1|..].
    + intros _ hs3 (o' & E3 & U3). exists o'. split; auto. eapply upto_then; eauto.
    + intros e hs3 [[E|O] S3]; split; auto. right. eapply oom_upto; eauto.
Qed.
Lemma h_struct_ok to1 f fs l : Forall (fun ft => forall d, makes (to1 (snd ft) d) (f (snd ft) d)) fs ->
  makes (let! b := alloc (NObj []) in push (HObj Tobject (Some b)) ;; h_finish (h_dump_fields to1 fs l b)) (do o <- dump_fields f fs l []; Ok (v_object o)).
Proof.
  intros H hs st S F. apply fine_bind, fine_bind in F.
  assert (T : take_top 0 hs = HDone hs (Ok [])) by (destruct hs as [R h fl]; pose proof (take_top_ok R [] h fl O eq_refl) as T; now rewrite app_nil_r in T).
  assert (X : forall Q E', wp (let! _ := take_top 0 in let! b := alloc (NObj []) in push (HObj Tobject (Some b)) ;; h_finish (h_dump_fields to1 fs l b)) hs Q E' ->
    wp (let! b := alloc (NObj []) in push (HObj Tobject (Some b)) ;; h_finish (h_dump_fields to1 fs l b)) hs Q E') by (intros Q E' W; unfold wp, hbind at 1 in W; now rewrite T in W).
  apply X. clear X T.
  apply (gather_ok (fun _ => NObj []) (fun b => HObj Tobject (Some b)) (v_object []) hs st [] O (fun b => h_finish (h_dump_fields to1 fs l b))).
  - now rewrite app_nil_r.
  - reflexivity.
  - intros [|x xs] h b fs' L Hn Hx; try discriminate. inversion Hx; subst. apply ho_obj with (m := []); auto.
  - intros b hs1 U1 R1. unfold h_finish. eapply wp_catch with (E' := fun e hs' => (dump_fields f fs l [] = Throw e \/ oom hs1 e) /\ exists v', sim hs' (st ++ [v'])).
    + apply wp_bind. eapply wp_mono; [apply (h_dump_fields_ok to1 f fs H l hs1 st [] b)|..]; cbv beta; auto; [constructor|apply U1|].
      intros _ hs2 (o & -> & U2). eapply wp_mono; [apply (tick_upto hs2 _ (length st) [] [] (upto_sim _ _ _ _ _ _ U2))|..]; cbv beta.
      * intros _ hs3 U3. exists [v_object o]. split; auto. eapply upto_then; [exact U1| |apply le_n]. eapply upto_then; eauto.
      * intros e hs3 [O S3]. split; eauto. right. eapply oom_upto; eauto.
    + intros e hs' (X & v' & S'). destruct (drop_upto _ _ _ S') as (hs2 & E2 & U2). exists hs2. split; auto. split; [|apply U2].
      destruct X as [->|O]; [left; reflexivity|right; eapply oom_upto; eauto].
Qed.

(** ** value(x) *)
Section Value.
  Context (E : env).
  Lemma wrap_array_ok m r n : yields m r -> (forall vs, r = Ok vs -> length vs = n) -> makes (m ;; h_wrap_array n) (do vs <- r; Ok (v_array vs)).
  Proof. intros M L. apply (y_wrap m r n NArr (fun b => HArr Tarray (Some b)) v_array M). intros vs Ev. split; auto. apply packs_arr. Qed.
  Lemma elems_ok (to1 : data -> hM unit) f l : (forall d, makes (to1 d) (f d)) -> makes (tick ;; build_each (fun d => tick ;; to1 d) l ;; h_wrap_array (length l)) (do r <- mapM f l; Ok (v_array r)).
  Proof.
    intros H. apply y_tick. apply wrap_array_ok; [|intros vs; apply mapM_length]. apply build_each_ok. apply Forall_forall. intros d _. apply y_tick. exact (H d).
  Qed.
  Theorem h_to_value_ok t : forall d, makes (h_to_value E t d) (to_value E t d).
  Proof.
    induction t as [| | | |sg w|p| | | | |t IH|t IH|t IH|lt t IH|n t IH|ts IH|ts IH|t IH|en|fs IH|x] using ty_ind'; intros d.
    1-10: destruct d; cbn [h_to_value]; try (apply h_text_ok; intros u0 Ev; cbn in Ev; first [discriminate Ev|injection Ev as <-; do 2 eexists; reflexivity]).
    - apply h_build_ok.
    - apply (h_build_ok (v_array l)).
    - apply (h_build_ok (v_object m)).
    - destruct d as [| | | | | | | |[d|]| | | | |]; cbn [h_to_value]; try (apply h_text_ok; intros u0 Ev; cbn in Ev; first [discriminate Ev|injection Ev as <-; do 2 eexists; reflexivity]). apply IH.
    - destruct d as [| | | | | | | |[d|]| | | | |]; cbn [h_to_value]; try (apply h_text_ok; intros u0 Ev; cbn in Ev; first [discriminate Ev|injection Ev as <-; do 2 eexists; reflexivity]). apply IH.
    - destruct d; cbn [h_to_value]; try (apply h_text_ok; intros u0 Ev; discriminate Ev). now apply elems_ok.
    - destruct d; cbn [h_to_value]; try (apply h_text_ok; intros u0 Ev; discriminate Ev). now apply elems_ok.
    - destruct d; cbn [h_to_value]; try (apply h_text_ok; intros u0 Ev; discriminate Ev). cbn [to_value]. destruct (Nat.eqb (length l) n); [now apply elems_ok|intros hs st S []].
    - destruct d; cbn [h_to_value]; try (apply h_text_ok; intros u0 Ev; discriminate Ev). apply y_tick. apply wrap_array_ok; [now apply h_tuple_ok|intros vs; apply to_tuple_length].
    - destruct d; cbn [h_to_value]; try (apply h_text_ok; intros u0 Ev; discriminate Ev). now apply h_variant_ok.
    - destruct d; cbn [h_to_value]; try (apply h_text_ok; intros u0 Ev; discriminate Ev). now apply h_map_ok.
    - destruct d; cbn [h_to_value]; apply h_text_ok; intros u0 Ev; cbn in Ev; try discriminate Ev. unfold v_enum in Ev.
      destruct (enum_as_number E); [injection Ev as <-; destruct (e_underlying en); do 2 eexists; reflexivity|].
      destruct (enum_to_string en z) as [s| | | |]; try discriminate Ev. cbn in Ev. destruct (is_nil s); [discriminate Ev|injection Ev as <-; do 2 eexists; reflexivity].
    - destruct d; cbn [h_to_value]; try (apply h_text_ok; intros u0 Ev; discriminate Ev). now apply h_struct_ok.
    - assert (Ex : makes (let! v := reads (x_to x d) in h_given v) (x_to x d)); [|destruct d; exact Ex].
      intros hs st S F. destruct (x_to x d) as [v|e| | |] eqn:Ev; try (destruct F; fail); [eapply wp_step; [reflexivity|]; exact (h_given_ok v hs st S F)|].
      unfold wp, reads, hbind, hfail. cbn. auto.
  Qed.
End Value.
