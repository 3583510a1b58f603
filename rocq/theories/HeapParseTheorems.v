(** * Parsing on the heap: the outcomes. *)
From Verif Require Import Base Value Spec Packed Parser Containers Api SpecApi BaseProofs ParserProofs ParserComplete GrammarProofs PropsParse ConvProofs Heap SpecHeap HeapSteps HeapOps HeapParse HeapParseProofs.

Lemma outcome {A} (m : hM A) hs (Q : A -> hstate -> Prop) (E : exn -> hstate -> Prop) : wp m hs Q E ->
  exists hs' r, m hs = HDone hs' r /\ ((exists a, r = Ok a /\ Q a hs') \/ exists e, r = Throw e /\ E e hs').
Proof. unfold wp. destruct (m hs) as [|hs' [a|e| | |]]; try tauto; intros H; eexists _, _; split; try reflexivity; eauto. Qed.
Lemma parse_ends m hs st (o : option value) :
  wp m hs (fun b hs' => quiet hs hs' /\ or_none b o st hs') (fun e hs' => oom hs e /\ SpecHeap.sim hs' st) ->
  exists hs' r, m hs = HDone hs' r /\
    ((exists v, o = Some v /\ r = Ok true /\ SpecHeap.sim hs' (st ++ [v])) \/ (o = None /\ r = Ok false /\ SpecHeap.sim hs' st) \/
     (r = Throw BadAlloc /\ fails hs <> [] /\ SpecHeap.sim hs' st)).
Proof.
  intros W. destruct (outcome _ _ _ _ W) as (hs' & r & E & [(b & -> & _ & H)|(e & -> & [-> F] & S)]); exists hs'; eexists; (split; [exact E|]); [|tauto].
  destruct o as [v|]; destruct H as [-> S]; [left; eauto|tauto].
Qed.
Lemma heap_parse jsonc be s hs st : Forall is_byte s -> SpecHeap.sim hs st -> exists hs' r, h_parse jsonc be s hs = HDone hs' r /\
  ((exists v, parse jsonc be s = Ok (Some v) /\ r = Ok true /\ SpecHeap.sim hs' (st ++ [v])) \/
   (parse jsonc be s = Ok None /\ r = Ok false /\ SpecHeap.sim hs' st) \/
   (r = Throw BadAlloc /\ fails hs <> [] /\ SpecHeap.sim hs' st)).
Proof.
  intros Hb S. destruct (parse_total jsonc be s Hb) as (o & Ho & _). rewrite Ho.
  destruct (parse_ends _ hs st o (h_parse_ok jsonc be s hs st o S Ho)) as (hs' & r & E & H). exists hs', r. split; auto.
  destruct H as [(v & -> & H)|[(-> & H)|H]]; eauto.
Qed.
Lemma stream_total be cb wc src : (forall s, src = Seekable s -> Forall is_byte s) -> (exists o, json_parse_stream be cb wc src = Ok o) \/ (src = Unseekable /\ json_parse_stream be cb wc src = Throw LengthError).
Proof.
  destruct src as [s|]; cbn; [|auto]. intros Hb'. pose proof (Hb' s eq_refl) as Hb. clear Hb'. left. assert (Hb' : Forall is_byte (if cb then strip_bom s else s)) by (destruct cb; auto using strip_bom_bytes).
  destruct (parse_total wc be _ Hb') as (o & Ho & _). exists o. destruct wc; exact Ho.
Qed.
Lemma open_throws be cb wc file e : (forall s, file = Some (Seekable s) -> Forall is_byte s) -> (json_open be cb wc file = Throw e <-> file = Some Unseekable /\ e = LengthError).
Proof.
  intros Hb. split.
  - destruct file as [src|]; [|discriminate]. cbn [json_open]. intros E.
    destruct (stream_total be cb wc src) as [(o & E')|(-> & E')]; [intros s ->; now apply Hb|congruence|split; congruence].
  - intros [-> ->]. reflexivity.
Qed.
Lemma heap_stream be cb wc src hs st : (forall s, src = Seekable s -> Forall is_byte s) -> SpecHeap.sim hs st -> exists hs' r, h_parse_stream be cb wc src hs = HDone hs' r /\
  ((exists v, json_parse_stream be cb wc src = Ok (Some v) /\ r = Ok true /\ SpecHeap.sim hs' (st ++ [v])) \/
   (json_parse_stream be cb wc src = Ok None /\ r = Ok false /\ SpecHeap.sim hs' st) \/
   (json_parse_stream be cb wc src = Throw LengthError /\ r = Throw LengthError /\ SpecHeap.sim hs' st) \/
   (r = Throw BadAlloc /\ fails hs <> [] /\ SpecHeap.sim hs' st)).
Proof.
  intros Hb S. destruct (stream_total be cb wc src Hb) as [(o & Ho)|(-> & Ho)]; rewrite Ho.
  - destruct (parse_ends _ hs st o (h_stream_ok be cb wc src hs st o S Ho)) as (hs' & r & E & H). exists hs', r. split; auto.
    destruct H as [(v & -> & H)|[(-> & H)|H]]; eauto 6.
  - cbn. eexists _, _. split; [reflexivity|]. tauto.
Qed.
Lemma heap_open be cb wc file hs st : (forall s, file = Some (Seekable s) -> Forall is_byte s) -> SpecHeap.sim hs st -> exists hs' r, h_open be cb wc file hs = HDone hs' r /\
  ((exists v, json_open be cb wc file = Ok (Some v) /\ r = Ok true /\ SpecHeap.sim hs' (st ++ [v])) \/
   (json_open be cb wc file = Ok None /\ r = Ok false /\ SpecHeap.sim hs' st) \/
   (json_open be cb wc file = Throw LengthError /\ r = Throw LengthError /\ SpecHeap.sim hs' st) \/
   (r = Throw BadAlloc /\ fails hs <> [] /\ SpecHeap.sim hs' st)).
Proof.
  intros Hb S. assert (T : (exists o, json_open be cb wc file = Ok o) \/ file = Some Unseekable).
  { destruct file as [src|]; cbn; [|eauto]. destruct (stream_total be cb wc src) as [H|[-> _]]; auto. intros s ->. apply Hb. reflexivity. }
  destruct T as [(o & Ho)|Ef].
  - rewrite Ho. destruct (parse_ends _ hs st o (h_open_ok be cb wc file hs st o S Ho)) as (hs' & r & E & H). exists hs', r. split; auto.
    destruct H as [(v & -> & H)|[(-> & H)|H]]; eauto 6.
  - subst file. cbn. unfold h_open. pose proof (tick_mem hs st S) as W. destruct (outcome _ _ _ _ W) as (hs' & r & E & [(a & -> & Q & S1)|(e & -> & [-> F] & S1)]); unfold hbind; rewrite E; eexists _, _; (split; [reflexivity|]); tauto.
Qed.
Lemma lit_value be s : Forall is_byte s -> exists v, lit_jvalue be s = Ok v /\ owned v /\
  lit_jarray be s = Ok (match v with VArr _ (Some l) => l | _ => [] end) /\ lit_jobject be s = Ok (match v with VObj _ (Some m) => m | _ => [] end) /\
  (v = v_null \/ (exists l, v = VArr Tarray (Some l)) \/ exists m, v = VObj Tobject (Some m)).
Proof.
  intros Hb. destruct (literals be s Hb) as (A & B & C & D & E). destruct E as [E|[(l & E)|(m & E)]].
  - destruct (D E) as (X & Y & Z). exists v_null. splits; auto. constructor.
  - exists (VArr Tarray (Some l)). destruct (B l E) as [X Y]. splits; eauto. apply wf_owned. eapply parse_wf; eauto.
  - exists (VObj Tobject (Some m)). destruct (C m E) as [X Y]. splits; eauto. apply wf_owned. eapply parse_wf; eauto.
Qed.
Lemma heap_literals be s hs st : Forall is_byte s -> SpecHeap.sim hs st -> forall m w,
  (m = h_lit_jvalue /\ lit_jvalue be s = Ok w) \/ (m = h_lit_jarray /\ exists l, lit_jarray be s = Ok l /\ w = v_array l) \/ (m = h_lit_jobject /\ exists o, lit_jobject be s = Ok o /\ w = v_object o) ->
  exists hs' r, m be s hs = HDone hs' r /\ ((r = Ok tt /\ SpecHeap.sim hs' (st ++ [w])) \/ (r = Throw BadAlloc /\ fails hs <> [] /\ SpecHeap.sim hs' st)).
Proof.
  intros Hb S m w Hm. destruct (lit_value be s Hb) as (v & Hv & Ow & Ha & Ho & Sh).
  assert (W : wp (m be s) hs (fun _ hs' => quiet hs hs' /\ SpecHeap.sim hs' (st ++ [w])) (fun e hs' => oom hs e /\ SpecHeap.sim hs' st)).
  { destruct Hm as [[-> E]|[[-> (l & E & ->)]|[-> (l & E & ->)]]].
    - apply h_lit_jvalue_ok; auto.
    - rewrite Ha in E. injection E as <-. eapply wp_mono; [apply (h_lit_ok Tarray (NArr []) (fun b => HArr Tarray (Some b)) (v_array []) be s hs st v); auto|..]; cbv beta; auto.
      + intros h b Hn. apply ho_arr with (l := []); auto. constructor.
      + intros _ hs' H. destruct Sh as [->|[(l & ->)|(o & ->)]]; exact H.
    - rewrite Ho in E. injection E as <-. eapply wp_mono; [apply (h_lit_ok Tobject (NObj []) (fun b => HObj Tobject (Some b)) (v_object []) be s hs st v); auto|..]; cbv beta; auto.
      + intros h b Hn. apply ho_obj with (m := []); auto. constructor.
      + intros _ hs' H. destruct Sh as [->|[(l & ->)|(o & ->)]]; exact H. }
  destruct (outcome _ _ _ _ W) as (hs' & r & E & [([] & -> & _ & H)|(e & -> & [-> F] & H)]); exists hs'; eexists; (split; [exact E|]); tauto.
Qed.
