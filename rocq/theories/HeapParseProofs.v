(** * The parser on the heap builds what the parser of Parser.v returns and frees everything else. *)
From Verif Require Import Base Value Spec Packed Parser Containers Dump Api SpecApi BaseProofs ContainerProofs ApiProofs Heap SpecHeap HeapBase HeapSteps HeapOps HeapMoves HeapNodes HeapCalls HeapMerge HeapEval HeapParse.
From Coq Require Import Permutation.

(** [m] makes what [r] returns the newest temporary, above the values [base] *)
Definition builds (m : hM bytes) (r : res (value * bytes)) (base : store) (hs : hstate) : Prop :=
  forall v cur, r = Ok (v, cur) ->
  wp m hs (fun c hs' => c = cur /\ sim hs' (base ++ [v]) /\ quiet hs hs') (fun e hs' => oom hs e /\ sim hs' base).

Lemma b_reads {A} (r : res A) f g base hs : (forall a, builds (f a) (g a) base hs) -> builds (let! a := reads r in f a) (bind r g) base hs.
Proof. intros H v cur E. destruct r as [a|e| | |]; try discriminate. eapply wp_step; [reflexivity|]. exact (H a v cur E). Qed.
Lemma b_quiet m r base hs hs1 : quiet hs hs1 -> builds m r base hs1 -> wp m hs1
   (fun c hs' => forall v cur, r = Ok (v, cur) -> c = cur /\ sim hs' (base ++ [v]) /\ quiet hs hs')
   (fun e hs' => forall v cur, r = Ok (v, cur) -> oom hs e /\ sim hs' base) \/ forall v cur, r <> Ok (v, cur).
Proof.
  intros Q H. destruct r as [[v cur]|e| | |]; try (right; discriminate). left.
  eapply wp_mono; [exact (H v cur eq_refl)|..]; cbv beta.
  - intros c hs' (E & S & Q') v' cur' X. injection X as <- <-. splits; auto. eapply quiet_trans; eauto.
  - intros e hs' (O & S) v' cur' X. split; auto. eapply oom_quiet; eauto.
Qed.
(** a step that keeps the values, then [m] *)
Lemma b_step {A} (s : hM A) f r base hs : wp s hs (fun a hs1 => quiet hs hs1 /\ builds (f a) r base hs1) (fun e hs' => oom hs e /\ sim hs' base) -> builds (hbind s f) r base hs.
Proof.
  intros H v cur E. apply wp_bind. eapply wp_mono; [exact H|..]; cbv beta; auto. intros a hs1 [Q B].
  destruct (b_quiet _ _ _ _ _ Q B) as [W|N]; [|destruct (N v cur E)]. eapply wp_mono; [exact W|..]; cbv beta; intros x hs' X; exact (X v cur E).
Qed.
Lemma b_give_up n cur base vs hs : length vs = n -> sim hs (base ++ vs) -> builds (give_up n cur) (Ok (invalid_value, cur)) base hs.
Proof.
  intros Ln S v cur' E. injection E as <- <-. unfold give_up.
  destruct (push_upto hs (base ++ vs) h_invalid invalid_value S) as (hs1 & E1 & U1); [intros h; constructor|].
  eapply wp_step; [exact E1|]. pose proof (upto_sim _ _ _ _ _ _ U1) as S1. rewrite <- app_assoc in S1.
  destruct (bury_ok hs1 base vs invalid_value n Ln S1) as (hs2 & E2 & S2 & Q2 & _). eapply wp_step; [exact E2|].
  destruct (drop_n_upto hs2 _ vs n Ln S2) as (hs3 & E3 & U3). eapply wp_step; [exact E3|]. eapply wp_run; [reflexivity|].
  splits; [apply U3|]. eapply quiet_trans; [apply U1|]. eapply quiet_trans; [exact Q2|apply U3].
Qed.
Lemma b_give_up_0 cur base hs : sim hs base -> builds (give_up 0 cur) (Ok (invalid_value, cur)) base hs.
Proof. intros S. apply b_give_up with (vs := []); auto. now rewrite app_nil_r. Qed.
(** allocations while [vs] are owned by local variables *)
Definition mem (m : hM unit) : Prop := forall hs st, sim hs st -> wp m hs (fun _ hs1 => quiet hs hs1 /\ sim hs1 st) (fun e hs' => oom hs e /\ sim hs' st).
Lemma tick_mem : mem tick.
Proof. intros hs st S. eapply wp_mono; [apply (tick_upto hs st 0 [] [] S)|..]; cbv beta; auto. intros _ hs1 U. split; apply U. Qed.
Lemma seq_mem m m' : mem m -> mem m' -> mem (m ;; m').
Proof.
  intros H H' hs st S. apply wp_bind. eapply wp_mono; [apply (H hs st S)|..]; cbv beta; auto. intros _ hs1 [Q1 S1].
  eapply wp_mono; [apply (H' hs1 st S1)|..]; cbv beta.
  - intros _ hs2 [Q2 S2]. split; auto. eapply quiet_trans; eauto.
  - intros e hs2 [O S2]. split; auto. eapply oom_quiet; eauto.
Qed.
Lemma ticks_mem n : mem (ticks n).
Proof. induction n; cbn; [intros hs st S; eapply wp_run; [reflexivity|]; split; auto; intros H; exact H|]. apply seq_mem; auto. apply tick_mem. Qed.
Lemma guarded m n hs base vs : mem m -> length vs = n -> sim hs (base ++ vs) ->
  wp (on_throw m (drop_n n)) hs (fun _ hs1 => quiet hs hs1 /\ sim hs1 (base ++ vs)) (fun e hs' => oom hs e /\ sim hs' base).
Proof.
  intros M Ln S. eapply wp_catch; [apply (M hs _ S)|]. cbv beta. intros e hs' [O S1].
  destruct (drop_n_upto hs' base vs n Ln S1) as (hs2 & E2 & U2). exists hs2. split; auto. split; auto. apply U2.
Qed.
(** the elements become the elements of a new node *)
Lemma node_made hs base vs n (g : list hval -> node) mk v : sim hs (base ++ vs) -> length vs = n ->
  (forall xs h' b fs, length xs = length vs -> nth_error h' b = Some (Some (g xs)) -> holds_all h' xs vs fs -> exists fs', Permutation fs' fs /\ holds h' (mk b) v (b :: fs')) ->
  exists hs', (let! l := take_top n in let! b := alloc (g l) in push (mk b)) hs = HDone hs' (Ok tt) /\ sim hs' (base ++ [v]) /\ quiet hs hs'.
Proof.
  intros (f & Sf) Ln Hg. destruct (simf_split _ _ _ _ Sf) as (R & xs & f1 & f2 & E & -> & A & B & D & L).
  pose proof (holds_all_length _ _ _ _ B) as Lx. destruct hs as [R' h fl]. cbn in E, A, B, L. subst R'.
  destruct (make_node R xs h fl base vs f1 f2 (g xs) (mk (length h)) v A B D L) as (f' & S' & G).
  { intros h' Ag Hn. apply (Hg xs h' (length h) f2 Lx Hn). eapply holds_all_frame; eauto. }
  eexists. split.
  - unfold hbind. rewrite take_top_ok by lia. rewrite alloc_ok. cbn. reflexivity.
  - cbn. split; [eexists; exact S'|intros H; exact H].
Qed.
Lemma b_node m n (g : list hval -> node) mk v cur base vs hs : mem m -> length vs = n -> sim hs (base ++ vs) ->
  (forall xs h' b fs, length xs = length vs -> nth_error h' b = Some (Some (g xs)) -> holds_all h' xs vs fs -> exists fs', Permutation fs' fs /\ holds h' (mk b) v (b :: fs')) ->
  builds ((on_throw m (drop_n n) ;; let! l := take_top n in let! b := alloc (g l) in push (mk b)) ;; hret cur) (Ok (v, cur)) base hs.
Proof.
  intros M Ln S Hg v' cur' E. injection E as <- <-. apply wp_bind, wp_bind. eapply wp_mono; [apply (guarded m n hs base vs M Ln S)|..]; cbv beta; auto.
  intros _ hs1 [Q1 S1]. destruct (node_made hs1 base vs n g mk v S1 Ln Hg) as (hs2 & E2 & S2 & Q2).
  eapply wp_run; [exact E2|]. eapply wp_run; [reflexivity|]. splits; auto. eapply quiet_trans; eauto.
Qed.
Lemma b_fresh n mk v cur base hs : sim hs base -> (forall h' b, nth_error h' b = Some (Some n) -> holds h' (mk b) v [b]) ->
  builds (tick ;; let! b := alloc n in push (mk b) ;; hret cur) (Ok (v, cur)) base hs.
Proof.
  intros S Hg v' cur' E. injection E as <- <-. apply wp_bind. eapply wp_mono; [apply (tick_mem hs base S)|..]; cbv beta; auto.
  intros _ hs1 [Q1 S1]. destruct (node_made hs1 base [] 0 (fun _ => n) mk v) as (hs2 & E2 & S2 & Q2); auto; [now rewrite app_nil_r|..].
  { intros xs h' b fs _ Hn Hx. inversion Hx; subst. exists []. split; auto. }
  destruct hs1 as [R h fl]. unfold hbind in E2. 
  pose proof (take_top_ok R [] h fl 0 eq_refl) as Et. rewrite app_nil_r in Et. rewrite Et in E2. clear Et.
  eapply wp_step; [reflexivity|]. eapply wp_step; [exact E2|]. eapply wp_run; [reflexivity|]. splits; auto. eapply quiet_trans; eauto.
Qed.

Section Proofs.
  Context (jsonc : bool) (be : backend).
  Lemma b_array_close n cur base vs hs : length vs = n -> sim hs (base ++ vs) -> builds (h_array_close jsonc n cur) (array_close jsonc vs cur) base hs.
  Proof.
    intros Ln S. unfold h_array_close, array_close. apply b_reads. intros [ok c1]. destruct ok; cbn [negb]; [|now apply b_give_up with (vs := vs)].
    apply b_reads. intros c. destruct (c =? 93); [|now apply b_give_up with (vs := vs)]. apply b_reads. intros c2. unfold h_make_parsed_array.
    apply (b_node (tick ;; tick) n NArr (fun b => HArr Tarray (Some b)) (v_array vs) c2 base vs hs); auto.
    - apply seq_mem; apply tick_mem.
    - intros xs h' b fs Lx Hn Hx. exists fs. split; auto. now apply ho_arr with (l := xs).
  Qed.
  (** the members so far *)
  Definition members (ks : list bytes) (vs : list value) : object := obj_of_list (combine ks vs).
  Lemma b_object_close ks cur base vs hs : length vs = length ks -> NoDup ks -> sim hs (base ++ vs) ->
    builds (h_object_close jsonc ks cur) (object_close jsonc (members ks vs) cur) base hs.
  Proof.
    intros Ln D S. unfold h_object_close, object_close. apply b_reads. intros [ok c1]. destruct ok; cbn [negb]; [|now apply b_give_up with (vs := vs)].
    apply b_reads. intros c. destruct (c =? 125); [|now apply b_give_up with (vs := vs)]. apply b_reads. intros c2. unfold h_make_parsed_object.
    apply (b_node (ticks (length ks + length ks) ;; tick) (length ks) (fun l => NObj (h_of_list (combine ks l))) (fun b => HObj Tobject (Some b)) (v_object (members ks vs)) c2 base vs hs); auto.
    - apply seq_mem; [apply ticks_mem|apply tick_mem].
    - intros xs h' b fs Lx Hn Hx. destruct (of_list_holds h' ks xs vs fs [] [] [] Hx) as (f' & P & K & HH); auto; [lia|constructor|].
      exists f'. split; [exact P|]. now apply ho_obj with (m := h_of_list (combine ks xs)).
  Qed.
  Lemma top_ok hs st v : sim hs (st ++ [v]) -> exists x, top hs = HDone hs (Ok x) /\ h_valid x = valid v.
  Proof.
    intros (f & S). destruct (simf_split _ _ _ _ S) as (R & xs & f1 & f2 & E & -> & A & B & D & L).
    pose proof (holds_all_length _ _ _ _ B) as Lb. destruct xs as [|x []]; try discriminate. apply holds_all_one in B.
    exists x. destruct hs as [R' h fl]. cbn in E, B. subst R'. split.
    - unfold top, hbind. rewrite peek_top_ok by reflexivity. reflexivity.
    - unfold h_valid, valid. now rewrite (holds_tag_of _ _ _ _ B).
  Qed.

  Section Nested.
    Context (pv : bytes -> res (value * bytes)) (hpv : bytes -> hM bytes).
    Context (Hpv : forall cur base hs, sim hs base -> builds (hpv cur) (pv cur) base hs).
    (** a nested value, while [vs] are owned by local variables *)
    Lemma b_nested cur n base vs hs f g : length vs = n -> sim hs (base ++ vs) ->
      (forall hs1 v c1 x, sim hs1 (base ++ vs ++ [v]) -> h_valid x = valid v -> builds (f c1 x) (g (v, c1)) base hs1) ->
      builds (let! c1 := on_throw (hpv cur) (drop_n n) in let! x := top in f c1 x) (bind (pv cur) g) base hs.
    Proof.
      intros Ln S H v cur' E. destruct (pv cur) as [[v0 c0]|e| | |] eqn:Ev; try discriminate. cbn [bind] in E.
      revert v cur' E. change (builds (let! c1 := on_throw (hpv cur) (drop_n n) in let! x := top in f c1 x) (g (v0, c0)) base hs).
      apply b_step. eapply wp_catch; [eapply wp_mono; [apply (Hpv cur _ _ S v0 c0 Ev)|..]|]; cbv beta.
      - intros c hs1 (-> & S1 & Q1). split; auto. rewrite <- app_assoc in S1. rewrite app_assoc in S1.
        destruct (top_ok hs1 (base ++ vs) v0 S1) as (x & Ex & Hx). intros v cur' E. eapply wp_step; [exact Ex|].
        rewrite <- app_assoc in S1. exact (H hs1 v0 c0 x S1 Hx v cur' E).
      - intros e hs1 X. exact X.
      - cbv beta. intros e hs' [O S1]. destruct (drop_n_upto hs' base vs n Ln S1) as (hs2 & E2 & U2). exists hs2. split; auto. split; auto. apply U2.
    Qed.
    Lemma b_tick (m : hM bytes) r n base vs hs : length vs = n -> sim hs (base ++ vs) ->
      (forall hs1, sim hs1 (base ++ vs) -> builds m r base hs1) -> builds (on_throw tick (drop_n n) ;; m) r base hs.
    Proof.
      intros Ln S H. apply b_step. eapply wp_mono; [apply (guarded tick n hs base vs tick_mem Ln S)|..]; cbv beta; auto. intros _ hs1 [Q1 S1]. split; auto.
    Qed.
    Lemma b_array_loop f : forall cur n base vs hs, length vs = n -> sim hs (base ++ vs) -> builds (h_array_loop jsonc hpv f cur n) (array_loop jsonc pv f cur vs) base hs.
    Proof.
      induction f as [|f IH]; intros cur n base vs hs Ln S; [intros v c E; discriminate|]. cbn [h_array_loop array_loop].
      apply b_reads. intros [ok c1]. destruct ok; cbn [negb]; [|now apply b_give_up with (vs := vs)].
      apply b_reads. intros c. destruct (jsonc && (c =? 93)); [now apply b_array_close|].
      apply (b_nested c1 n base vs hs); auto. intros hs1 v c2 x S1 Hx. rewrite Hx.
      assert (Ls : length (vs ++ [v]) = Datatypes.S n) by (rewrite app_length; cbn; lia).
      destruct (valid v); cbn [negb]; [|now apply b_give_up with (vs := vs ++ [v])].
      apply b_reads. intros [ok c3]. destruct ok; cbn [negb]; [|now apply b_give_up with (vs := vs ++ [v])].
      apply b_tick with (vs := vs ++ [v]); auto. intros hs2 S2. cbv zeta. apply b_reads. intros c'. destruct (c' =? 44); [|now apply b_array_close].
      apply b_reads. intros c4. now apply IH.
    Qed.
    Lemma b_parse_array cur base hs : sim hs base -> builds (h_parse_array jsonc hpv cur) (parse_array jsonc pv cur) base hs.
    Proof.
      intros S. unfold h_parse_array, parse_array. apply b_reads. intros c. destruct (c =? 91); cbn [negb]; [|now apply b_give_up_0].
      apply b_reads. intros c1. apply b_reads. intros [ok c2]. destruct ok; cbn [negb]; [|now apply b_give_up_0].
      apply b_reads. intros c3. destruct (c3 =? 93).
      - apply b_reads. intros c4. apply (b_fresh (NArr []) (fun b => HArr Tarray (Some b))); auto. intros h' b Hn. apply ho_arr with (l := []); auto. constructor.
      - apply b_array_loop; auto. now rewrite app_nil_r.
    Qed.
    Lemma members_snoc ks vs k v : length vs = length ks -> members (ks ++ [k]) (vs ++ [v]) = fst (map_emplace k v (members ks vs)).
    Proof.
      intros L. unfold members, obj_of_list. assert (E : combine (ks ++ [k]) (vs ++ [v]) = combine ks vs ++ [(k, v)]).
      { revert vs L. induction ks as [|k0 ks IH]; intros [|v0 vs] L; try discriminate; auto. cbn. f_equal. apply IH. cbn in L. lia. }
      rewrite E, fold_left_app. reflexivity.
    Qed.
    Lemma members_keys ks : forall vs (m : object), length vs = length ks ->
      forall k, In k (map fst (fold_left (fun m kv => fst (map_emplace (fst kv) (snd kv) m)) (combine ks vs) m)) <-> In k ks \/ In k (map fst m).
    Proof.
      induction ks as [|k0 ks IH]; intros [|v0 vs] m L k; try discriminate; cbn; [tauto|]. rewrite IH by (cbn in L; lia). rewrite emplace_ins.
      destruct (emp_new k0 (map fst m)) eqn:En.
      - assert (K : In k (map fst m) <-> In k (firstn (ins_pos k0 (map fst m)) (map fst m)) \/ In k (skipn (ins_pos k0 (map fst m)) (map fst m))) by (now rewrite <- in_app_iff, firstn_skipn).
        rewrite map_ins. unfold ins. rewrite in_app_iff. cbn. tauto.
      - assert (I : In k0 (map fst m)). { destruct (in_dec (list_eq_dec N.eq_dec) k0 (map fst m)) as [I|I]; auto. apply emp_new_notin in I. congruence. }
        split; [tauto|]. intros [[->|H]|H]; auto.
    Qed.
    Lemma members_sorted ks vs : sorted_keys (members ks vs).
    Proof.
      unfold members, obj_of_list. assert (G : forall (l : list (bytes * value)) (m : object), sorted_keys m -> sorted_keys (fold_left (fun m kv => fst (map_emplace (fst kv) (snd kv) m)) l m)).
      { induction l as [|(k, x) l IH]; intros m Hs; cbn; auto. apply IH. now apply map_emplace_sorted. }
      apply G. constructor.
    Qed.
    Lemma emplaced_iff ks vs k v : length vs = length ks -> negb (snd (map_emplace k v (members ks vs))) = existsb (bytes_eqb k) ks.
    Proof.
      intros L. pose proof (members_keys ks vs [] L k) as K. cbn in K. fold (obj_of_list (combine ks vs)) in K. fold (members ks vs) in K.
      destruct (existsb (bytes_eqb k) ks) eqn:E.
      - apply existsb_exists in E as (k' & I & E). apply bytes_eqb_eq in E as <-. rewrite (map_emplace_snd k v _ (members_sorted ks vs)).
        destruct (map_find k (members ks vs)) eqn:F; auto. apply map_find_none in F. tauto.
      - rewrite emplace_new, emp_new_notin; auto. intros I. apply K in I as [I|[]]. assert (X : existsb (bytes_eqb k) ks = true); [|congruence]. apply existsb_exists. exists k. split; auto. now apply bytes_eqb_eq.
    Qed.
    Lemma nodup_snoc (ks : list bytes) k : NoDup ks -> existsb (bytes_eqb k) ks = false -> NoDup (ks ++ [k]).
    Proof.
      intros D E. apply (Permutation_NoDup (Permutation_cons_append ks k)). constructor; auto. intros I. assert (X : existsb (bytes_eqb k) ks = true); [|congruence]. apply existsb_exists. exists k. split; auto. now apply bytes_eqb_eq.
    Qed.
    Lemma b_object_loop f : forall cur ks base vs hs, length vs = length ks -> NoDup ks -> sim hs (base ++ vs) ->
      builds (h_object_loop jsonc be hpv f cur ks) (object_loop jsonc be pv f cur (members ks vs)) base hs.
    Proof.
      induction f as [|f IH]; intros cur ks base vs hs Ln D S; [intros v c E; discriminate|]. cbn [h_object_loop object_loop]. cbv zeta.
      apply b_reads. intros [ok c1]. destruct ok; cbn [negb]; [|now apply b_give_up with (vs := vs)].
      apply b_reads. intros c. destruct (jsonc && (c =? 125)); [now apply b_object_close|].
      apply b_tick with (vs := vs); auto. intros hs0 S0.
      apply b_reads. intros [[key|] c2]; [|now apply b_give_up with (vs := vs)].
      apply b_reads. intros [ok c3]. destruct ok; cbn [negb]; [|now apply b_give_up with (vs := vs)].
      apply b_reads. intros ch. destruct (ch =? 58); cbn [negb]; [|now apply b_give_up with (vs := vs)].
      apply b_reads. intros c4. apply b_reads. intros [ok c5]. destruct ok; cbn [negb]; [|now apply b_give_up with (vs := vs)].
      apply (b_nested c5 (length ks) base vs hs0); auto. intros hs1 v c6 x S1 Hx. rewrite Hx.
      assert (Ls : length (vs ++ [v]) = Datatypes.S (length ks)) by (rewrite app_length; cbn; lia).
      destruct (valid v); cbn [negb]; [|now apply b_give_up with (vs := vs ++ [v])].
      apply b_reads. intros [ok c7]. destruct ok; cbn [negb]; [|now apply b_give_up with (vs := vs ++ [v])].
      apply b_tick with (vs := vs ++ [v]); auto. intros hs2 S2.
      pose proof (emplaced_iff ks vs key v Ln) as En. pose proof (members_snoc ks vs key v Ln) as Em.
      destruct (map_emplace key v (members ks vs)) as [m' b]. cbn [fst snd] in En, Em. subst m'. rewrite En.
      destruct (existsb (bytes_eqb key) ks) eqn:Ex.
      - rewrite app_assoc in S2. destruct (drop_upto hs2 (base ++ vs) v S2) as (hs3 & E3 & U3). apply b_step. eapply wp_run; [exact E3|].
        split; [apply U3|]. apply b_give_up with (vs := vs); auto. exact (upto_sim _ _ _ _ _ _ U3).
      - assert (D' := nodup_snoc ks key D Ex). assert (L' : length (vs ++ [v]) = length (ks ++ [key])) by (rewrite !app_length; cbn; lia).
        apply b_reads. intros c'. destruct (c' =? 44); [|now apply b_object_close].
        apply b_reads. intros c8. now apply IH.
    Qed.
    Lemma b_parse_object cur base hs : sim hs base -> builds (h_parse_object jsonc be hpv cur) (parse_object jsonc be pv cur) base hs.
    Proof.
      intros S. unfold h_parse_object, parse_object. apply b_reads. intros c. destruct (c =? 123); cbn [negb]; [|now apply b_give_up_0].
      apply b_reads. intros c1. apply b_reads. intros [ok c2]. destruct ok; cbn [negb]; [|now apply b_give_up_0].
      apply b_reads. intros c3. destruct (c3 =? 125).
      - apply b_reads. intros c4. apply (b_fresh (NObj []) (fun b => HObj Tobject (Some b))); auto. intros h' b Hn. apply ho_obj with (m := []); auto. constructor.
      - apply (b_object_loop _ c2 [] base [] hs); auto; [constructor|]. now rewrite app_nil_r.
    Qed.
  End Nested.
  Definition scalar (r : res (value * bytes)) : Prop := forall v c, r = Ok (v, c) -> exists t s, v = VStr t s.
  Lemma b_scalar r base hs : scalar r -> sim hs base -> builds (h_scalar r) r base hs.
  Proof.
    intros Hr S v c E. destruct (Hr v c E) as (t & s & ->). subst r. unfold h_scalar. eapply wp_step; [reflexivity|]. cbv beta iota.
    clear Hr. assert (B : builds ((if is_nil s then hret tt else tick) ;; push (HStr t s) ;; hret c) (Ok (VStr t s, c)) base hs); [|exact (B _ _ eq_refl)].
    apply b_step. assert (K : forall hs1, sim hs1 base -> builds (push (HStr t s) ;; hret c) (Ok (VStr t s, c)) base hs1).
    { intros hs1 S1 v' c' E. injection E as <- <-. destruct (push_upto hs1 base (HStr t s) (VStr t s) S1) as (hs2 & E2 & U2); [intros h; constructor|].
      eapply wp_step; [exact E2|]. eapply wp_run; [reflexivity|]. splits; apply U2. }
    destruct (is_nil s).
    - eapply wp_run; [reflexivity|]. split; auto. intros H; exact H.
    - eapply wp_mono; [apply (tick_mem hs base S)|..]; cbv beta; auto. intros _ hs1 [Q1 S1]. auto.
  Qed.
  Lemma scalar_null cur : scalar (parse_null cur).
  Proof. intros v c. unfold parse_null. destruct (match_word null_string cur) as [[] c0]; intros E; injection E as <- <-; eexists _, _; reflexivity. Qed.
  Lemma scalar_boolean cur : scalar (parse_boolean cur).
  Proof.
    intros v c. unfold parse_boolean. destruct (deref cur) as [x|e| | |]; cbn [bind]; try discriminate.
    destruct (x =? 116); [destruct (match_word true_string cur) as [[] c0]|destruct (x =? 102); [destruct (match_word false_string cur) as [[] c0]|]]; intros E; injection E as <- <-; eexists _, _; reflexivity.
  Qed.
  Lemma scalar_number cur : scalar (parse_number cur).
  Proof.
    intros v c E. unfold parse_number in E. cbv zeta in E.
    repeat match type of E with
    | bind ?r _ = _ => let x := fresh "x" in let Hx := fresh "Hx" in destruct r as [x|?e| | |] eqn:Hx; cbn [bind] in E; try discriminate E; clear Hx
    | (let '(_, _) := ?p in _) = _ => destruct p
    | (if ?b then _ else _) = _ => destruct b
    | Ok _ = Ok _ => injection E as <- <-; eexists _, _; reflexivity
    end.
  Qed.
  Lemma scalar_string cur : scalar (parse_string be cur).
  Proof.
    intros v c E. unfold parse_string in E. destruct (parse_stdstring be cur) as [[[s|] c0]|e| | |]; cbn [bind] in E; try discriminate; injection E as <- <-; eexists _, _; reflexivity.
  Qed.
  Lemma b_parse_value d : forall cur base hs, sim hs base -> builds (h_parse_value jsonc be d cur) (parse_value jsonc be d cur) base hs.
  Proof.
    induction d as [|d IH]; intros cur base hs S; [intros v c E; discriminate|]. cbn [h_parse_value parse_value]. apply b_reads. intros c.
    destruct (c =? 110); [apply b_scalar; auto; apply scalar_null|].
    destruct ((c =? 116) || (c =? 102)); [apply b_scalar; auto; apply scalar_boolean|].
    destruct ((c =? 45) || isdigit c); [apply b_scalar; auto; apply scalar_number|].
    destruct (c =? 34).
    { apply b_step. eapply wp_mono; [apply (tick_mem hs base S)|..]; cbv beta; auto. intros _ hs1 [Q1 S1]. split; auto. apply b_scalar; auto. apply scalar_string. }
    destruct (c =? 91); [apply b_parse_array; auto|]. destruct (c =? 123); [apply b_parse_object; auto|]. now apply b_give_up_0.
  Qed.
  Theorem h_parse_ok s hs st o : sim hs st -> parse jsonc be s = Ok o ->
    wp (h_parse jsonc be s) hs (fun b hs' => quiet hs hs' /\ match o with Some v => b = true /\ sim hs' (st ++ [v]) | None => b = false /\ sim hs' st end)
      (fun e hs' => oom hs e /\ sim hs' st).
  Proof.
    intros S. unfold parse, parse_budget, h_parse. intros E. apply bind_ok in E as ([ok c1] & E1 & E). rewrite E1. eapply wp_step; [reflexivity|]. cbv beta iota in E |- *.
    destruct ok; cbn [negb] in E |- *; [|injection E as <-; eapply wp_run; [reflexivity|]; split; [intros H; exact H|auto]].
    destruct (push_upto hs st (HStr Tnull []) v_null S) as (hs1 & E2 & U1); [intros h; constructor|]. eapply wp_step; [exact E2|].
    pose proof (upto_sim _ _ _ _ _ _ U1) as S1. assert (Q1 : quiet hs hs1) by apply U1. clear E2 U1.
    apply bind_ok in E as (c & Ec & E). rewrite Ec. eapply wp_step; [reflexivity|]. cbv beta.
    destruct ((c =? 91) || (c =? 123)).
    2:{ injection E as <-. destruct (drop_upto hs1 st _ S1) as (hs2 & E2 & U2). eapply wp_step; [exact E2|]. eapply wp_run; [reflexivity|]. split; [eapply quiet_trans; [exact Q1|apply U2]|split; auto; apply U2]. }
    apply bind_ok in E as ([v c2] & Ev & E).
    assert (B : builds (if c =? 91 then h_parse_array jsonc (h_parse_value jsonc be (length s)) c1 else h_parse_object jsonc be (h_parse_value jsonc be (length s)) c1)
                       (if c =? 91 then parse_array jsonc (parse_value jsonc be (length s)) c1 else parse_object jsonc be (parse_value jsonc be (length s)) c1) (st ++ [v_null]) hs1).
    { destruct (c =? 91); [apply b_parse_array|apply b_parse_object]; auto; intros; now apply b_parse_value. }
    specialize (B v c2 Ev). apply wp_bind. eapply wp_catch; [eapply wp_mono; [exact B|..]|]; cbv beta.
    - intros c3 hs2 (-> & S2 & Q2). rewrite <- app_assoc in S2. destruct (bury_ok hs2 st [v_null] v 1 eq_refl S2) as (hs3 & E3 & S3 & Q3 & _). eapply wp_step; [exact E3|].
      destruct (drop_upto hs3 (st ++ [v]) v_null S3) as (hs4 & E4 & U4). eapply wp_step; [exact E4|]. pose proof (upto_sim _ _ _ _ _ _ U4) as S4.
      assert (Q : quiet hs hs4). { eapply quiet_trans; [exact Q1|]. eapply quiet_trans; [exact Q2|]. eapply quiet_trans; [exact Q3|apply U4]. } clear E3 E4 U4.
      destruct (top_ok hs4 st v S4) as (x & Ex & Hx). eapply wp_step; [exact Ex|]. cbv beta. rewrite Hx.
      destruct (drop_upto hs4 st v S4) as (hs5 & E5 & U5). assert (Q' : quiet hs hs5) by (eapply quiet_trans; [exact Q|apply U5]).
      cbv beta iota in E. destruct (valid v); cbn [negb] in E |- *.
      2:{ injection E as <-. eapply wp_step; [exact E5|]. eapply wp_run; [reflexivity|]. split; [exact Q'|split; auto; apply U5]. }
      apply bind_ok in E as ([ok c3] & E6 & E). rewrite E6. eapply wp_step; [reflexivity|]. cbv beta iota in E |- *. destruct ok; injection E as <-.
      + eapply wp_step; [exact E5|]. eapply wp_run; [reflexivity|]. split; [exact Q'|split; auto; apply U5].
      + eapply wp_run; [reflexivity|]. split; [exact Q|split; auto].
    - intros e hs2 X. exact X.
    - cbv beta. intros e hs2 [O S2]. destruct (drop_upto hs2 st _ S2) as (hs3 & E3 & U3). exists hs3. split; auto. split; [eapply oom_quiet; [exact Q1|exact O]|apply U3].
  Qed.
End Proofs.

(** ** Entry points *)
Definition or_none (b : bool) (o : option value) (st : store) (hs' : hstate) : Prop :=
  match o with Some v => b = true /\ sim hs' (st ++ [v]) | None => b = false /\ sim hs' st end.
Lemma h_stream_ok be cb wc src hs st o : sim hs st -> json_parse_stream be cb wc src = Ok o ->
  wp (h_parse_stream be cb wc src) hs (fun b hs' => quiet hs hs' /\ or_none b o st hs') (fun e hs' => oom hs e /\ sim hs' st).
Proof.
  intros S E. destruct src as [s|]; [|discriminate]. cbn [h_parse_stream json_parse_stream] in *. apply wp_bind. eapply wp_mono; [apply (tick_mem hs st S)|..]; cbv beta; auto.
  intros _ hs1 [Q1 S1]. assert (E' : parse wc be (if cb then strip_bom s else s) = Ok o) by (cbv zeta in E; destruct wc; exact E).
  eapply wp_mono; [apply (h_parse_ok wc be _ hs1 st o S1 E')|..]; cbv beta.
  - intros b hs2 [Q2 H]. split; [eapply quiet_trans; eauto|exact H].
  - intros e hs2 [O S2]. split; auto. eapply oom_quiet; eauto.
Qed.
Lemma h_open_ok be cb wc src hs st o : sim hs st -> json_open be cb wc src = Ok o ->
  wp (h_open be cb wc src) hs (fun b hs' => quiet hs hs' /\ or_none b o st hs') (fun e hs' => oom hs e /\ sim hs' st).
Proof.
  intros S E. unfold h_open. apply wp_bind. eapply wp_mono; [apply (tick_mem hs st S)|..]; cbv beta; auto. intros _ hs1 [Q1 S1].
  destruct src as [src|]; cbn [json_open] in E.
  - eapply wp_mono; [apply (h_stream_ok be cb wc src hs1 st o S1 E)|..]; cbv beta.
    + intros b hs2 [Q2 H]. split; [eapply quiet_trans; eauto|exact H].
    + intros e hs2 [O S2]. split; auto. eapply oom_quiet; eauto.
  - injection E as <-. eapply wp_run; [reflexivity|]. split; auto. split; auto.
Qed.
Lemma h_lit_jvalue_ok be s hs st v : sim hs st -> lit_jvalue be s = Ok v ->
  wp (h_lit_jvalue be s) hs (fun _ hs' => quiet hs hs' /\ sim hs' (st ++ [v])) (fun e hs' => oom hs e /\ sim hs' st).
Proof.
  intros S E. unfold lit_jvalue in E. apply bind_ok in E as (o & Eo & E). injection E as <-. unfold h_lit_jvalue. apply wp_bind.
  eapply wp_mono; [apply (h_parse_ok false be s hs st o S Eo)|..]; cbv beta; auto. intros b hs1 [Q1 H]. destruct o as [v|]; destruct H as [-> S1].
  - eapply wp_run; [reflexivity|]. auto.
  - destruct (push_upto hs1 st (HStr Tnull []) v_null S1) as (hs2 & E2 & U2); [intros h; constructor|]. eapply wp_run; [exact E2|]. split; [eapply quiet_trans; [exact Q1|apply U2]|apply U2].
Qed.
Lemma h_lit_ok t n mk (w : value) be s hs st v : sim hs st -> lit_jvalue be s = Ok v -> owned v ->
  (forall h b, nth_error h b = Some (Some n) -> holds h (mk b) w [b]) ->
  wp (h_lit t n mk be s) hs (fun _ hs' => quiet hs hs' /\ sim hs' (st ++ [if vtype_eqb (type_of v) t then v else w])) (fun e hs' => oom hs e /\ sim hs' st).
Proof.
  intros S E Ow Hw. unfold h_lit. apply wp_bind. eapply wp_mono; [apply (h_lit_jvalue_ok be s hs st v S E)|..]; cbv beta; auto. intros _ hs1 [Q1 S1].
  pose proof S1 as (f & Sf). destruct (simf_split _ _ _ _ Sf) as (R & xs & f1 & f2 & Er & -> & A & B & D & L).
  pose proof (holds_all_length _ _ _ _ B) as Lb. destruct xs as [|x []]; try discriminate. apply holds_all_one in B.
  assert (Et : top hs1 = HDone hs1 (Ok x)). { destruct hs1 as [R' h fl]. cbn in Er. subst R'. unfold top, hbind. rewrite peek_top_ok by reflexivity. reflexivity. }
  eapply wp_step; [exact Et|]. cbv beta. rewrite (holds_tag_of _ _ _ _ B). apply wp_bind.
  eapply wp_catch with (E' := fun e hs' => oom hs1 e /\ sim hs' (st ++ [v])).
  2:{ intros e hs2 [O S2]. destruct (drop_upto hs2 st v S2) as (hs3 & E3 & U3). exists hs3. split; [exact E3|]. split; [eapply oom_quiet; eauto|apply U3]. }
  set (r := if vtype_eqb (type_of v) t then v else w).
  assert (W : wp (if vtype_eqb (type_of v) t then let! f := enough in h_copy f x else tick ;; let! b := alloc n in push (mk b)) hs1
                (fun _ hs' => quiet hs1 hs' /\ sim hs' (st ++ [v] ++ [r])) (fun e hs' => oom hs1 e /\ sim hs' (st ++ [v]))).
  { unfold r. destruct (vtype_eqb (type_of v) t).
    - eapply wp_step; [reflexivity|]. eapply wp_mono; [apply (copy_ok (length (hp hs1)) x v f2) with (st := st ++ [v]) (fp := f1 ++ f2); auto|..]; cbv beta.
      + eapply fp_bound; [|eapply holds_live; exact B]. now apply nodup_app in D.
      + intros _ hs2 C. pose proof (copied_upto _ _ _ _ _ Sf C) as U. rewrite app_assoc. split; apply U.
      + intros e hs2 U. eapply undone_upto; eauto.
    - assert (Bf := b_fresh n mk w [] (st ++ [v]) hs1 S1 Hw w [] eq_refl). rewrite app_assoc.
      unfold wp in *. unfold hbind in *. destruct (tick hs1) as [|hs2 [a|e| | |]]; auto. cbn in *. destruct Bf as (_ & X & Y). auto. }
  eapply wp_mono; [exact W|..]; cbv beta; [|intros e hs2 X; exact X]. intros _ hs2 [Q2 S2]. destruct (bury_ok hs2 st [v] r 1 eq_refl S2) as (hs3 & E3 & S3 & Q3 & _). eapply wp_step; [exact E3|].
  destruct (drop_upto hs3 (st ++ [r]) v S3) as (hs4 & E4 & U4). eapply wp_run; [exact E4|]. split; [|apply U4].
  eapply quiet_trans; [exact Q1|]. eapply quiet_trans; [exact Q2|]. eapply quiet_trans; [exact Q3|apply U4].
Qed.
