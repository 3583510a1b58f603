(** * Lemmas on streams (Stream.v). *)
From Verif Require StringProofs.
From Verif Require Import Base BaseProofs Value Packed Parser Dump Spec SpecStream Stream ParserComplete ParserProofs GrammarProofs PropsParse DumpProofs WordsProofs.

(** ** Trailing NUL bytes are not seen *)
Lemma nuls_in n c : In c (repeat 0 n) -> c = 0.
Proof. intros H. apply repeat_spec in H. exact H. Qed.
(** a prefix of [d ++ NULs] that does not end in a NUL is a prefix of [d] *)
Lemma split_nuls (p e d : bytes) n : p <> [] -> last p 0 <> 0 -> p ++ e = d ++ repeat 0 n ->
  exists e', d = p ++ e' /\ e = e' ++ repeat 0 n.
Proof.
  intros Np Hl E. apply app_eq_app in E as (l & [(-> & E)|(-> & E)]).
  - destruct l as [|c l]; [rewrite app_nil_r in *; exists []; now rewrite app_nil_r, E|]. exfalso. apply Hl. apply (nuls_in n).
    rewrite E. apply in_or_app. left. destruct (exists_last (l := c :: l) ltac:(discriminate)) as (x & y & F). rewrite F.
    rewrite app_assoc, last_last. apply in_or_app. right. now left.
  - exists l. auto.
Qed.
Lemma ws_last w : ws w -> w <> [] -> wschar (last w 0).
Proof.
  intros H N. destruct (exists_last N) as (x & c & ->). rewrite last_last. apply Forall_app in H as [_ H]. now inversion H.
Qed.
Lemma cws_last w : cws w -> w <> [] -> wschar (last w 0) \/ last w 0 = 47.
Proof.
  induction 1 as [|c w Hc _ IH|b w Hb _ IH|b w Hb _ IH]; intros N; [congruence|..].
  - destruct w as [|d w]; [now left|]. apply IH. discriminate.
  - destruct w as [|d w].
    + left. change ([47; 47] ++ b ++ [10] ++ []) with ([47; 47] ++ (b ++ [10])). rewrite app_assoc, last_last. unfold wschar. auto.
    + destruct (exists_last (l := d :: w) ltac:(discriminate)) as (x & c & E). rewrite E in *. rewrite last_last in IH.
      rewrite !app_assoc, last_last. apply IH. now destruct x.
  - destruct w as [|d w].
    + right. rewrite app_nil_r. change [42; 47] with ([42] ++ [47]). rewrite !app_assoc, last_last. reflexivity.
    + destruct (exists_last (l := d :: w) ltac:(discriminate)) as (x & c & E). rewrite E in *. rewrite last_last in IH.
      rewrite !app_assoc, last_last. apply IH. now destruct x.
Qed.
Lemma wsp_last jsonc w : wsp jsonc w -> w <> [] -> last w 0 <> 0.
Proof.
  intros H N. destruct jsonc; cbn in H.
  - destruct (cws_last w H N) as [W| ->]; [unfold wschar in W; lia|lia].
  - pose proof (ws_last w H N) as W. unfold wschar in W. lia.
Qed.
Lemma root_last W STR tc t j : gvalue W STR tc t j -> container j -> t <> [] /\ (last t 0 = 93 \/ last t 0 = 125).
Proof.
  intros H C. destruct H; try destruct C; (split; [discriminate|]); rewrite app_assoc, last_last; auto.
Qed.
Lemma last_app_ne {A} (a b : list A) d : b <> [] -> last (a ++ b) d = last b d.
Proof. intros N. destruct (exists_last N) as (x & c & ->). now rewrite app_assoc, !last_last. Qed.
Lemma no_newline_nuls b n : no_newline b <-> no_newline (b ++ repeat 0 n).
Proof.
  unfold no_newline. rewrite in_app_iff. split; [|tauto]. intros H [I|I]; auto. apply nuls_in in I. lia.
Qed.
Lemma no_close_nuls b n : no_close b <-> no_close (b ++ repeat 0 n).
Proof.
  unfold no_close. split; intros H x y E.
  - assert (Np : x ++ [42; 47] <> []) by (destruct x; discriminate).
    destruct (split_nuls (x ++ [42; 47]) y b n Np) as (e' & -> & _).
    + rewrite last_app_ne by discriminate. cbn. lia.
    + rewrite <- app_assoc. now rewrite E.
    + apply (H x e'). now rewrite <- app_assoc.
  - apply (H x (y ++ repeat 0 n)). rewrite E. now rewrite <- !app_assoc.
Qed.
Lemma stop_nuls jsonc e n : stop jsonc e <-> stop jsonc (e ++ repeat 0 n).
Proof.
  destruct n as [|n]; [now rewrite app_nil_r|]. destruct jsonc; cbn [stop].
  - unfold jsonc_stop. split.
    + intros [->|[(r & ->)|[(b & -> & Hb)|[->|[(c & r & -> & Hc)|(b & -> & Hb)]]]]].
      * right. left. eexists. reflexivity.
      * right. left. eexists. reflexivity.
      * right. right. left. exists (b ++ repeat 0 (S n)). split; [reflexivity|]. now apply no_newline_nuls.
      * right. right. right. right. left. exists 0, (repeat 0 n). split; [reflexivity|lia].
      * right. right. right. right. left. exists c, (r ++ repeat 0 (S n)). split; [reflexivity|exact Hc].
      * right. right. right. right. right. exists (b ++ repeat 0 (S n)). split; [reflexivity|]. now apply no_close_nuls.
    + destruct e as [|a [|b e]]; [now left|..].
      * intros [E|[(r & E)|[(b & E & Hb)|[E|[(c & r & E & Hc)|(b & E & Hb)]]]]]; try discriminate.
        -- injection E as -> _. right. left. eexists. reflexivity.
        -- injection E as -> _. right. right. right. now left.
      * intros [E|[(r & E)|[(b' & E & Hb)|[E|[(c & r & E & Hc)|(b' & E & Hb)]]]]]; try discriminate; cbn [app] in E; injection E; clear E; intros; subst.
        -- right. left. eexists. reflexivity.
        -- right. right. left. exists e. split; [reflexivity|]. apply (no_newline_nuls e (S n)). assumption.
        -- right. right. right. right. left. exists c, e. split; [reflexivity|exact Hc].
        -- right. right. right. right. right. exists e. split; [reflexivity|]. apply (no_close_nuls e (S n)). assumption.
  - unfold strict_stop. split.
    + intros [->|(r & [->| ->])]; right; eexists; [left; reflexivity|left; reflexivity|right; reflexivity].
    + destruct e as [|a e]; [now left|]. intros [E|(r & [E|E])]; [discriminate|..]; injection E as -> _; right; eexists; [left|right]; reflexivity.
Qed.
Lemma document_nuls STR jsonc d n j : document_of STR jsonc (d ++ repeat 0 n) j <-> document_of STR jsonc d j.
Proof.
  split; intros (w1 & t & w2 & e & E & Hw1 & Hw2 & He & Hc & Hg).
  - destruct (root_last _ _ _ _ _ Hg Hc) as [Nt Lt].
    assert (Np : w1 ++ t ++ w2 <> []) by (destruct w1, t; discriminate || congruence).
    assert (Lp : last (w1 ++ t ++ w2) 0 <> 0).
    { rewrite last_app_ne by (destruct t; discriminate || congruence). destruct (list_eq_dec N.eq_dec w2 []) as [->|Nw].
      - rewrite app_nil_r. lia.
      - rewrite last_app_ne by exact Nw. now apply (wsp_last jsonc). }
    destruct (split_nuls (w1 ++ t ++ w2) e d n Np Lp) as (e' & -> & ->); [now rewrite <- !app_assoc|].
    exists w1, t, w2, e'. rewrite <- !app_assoc. splits; auto. now apply (stop_nuls jsonc e' n).
  - subst d. exists w1, t, w2, (e ++ repeat 0 n). rewrite <- !app_assoc. splits; auto. now apply stop_nuls.
Qed.
Lemma accepted_nuls jsonc raw d n j : accepted_document jsonc raw (d ++ repeat 0 n) j <-> accepted_document jsonc raw d j.
Proof. exact (document_nuls (lstring raw) jsonc d n j). Qed.
Lemma bytes_nuls d n : Forall is_byte d -> Forall is_byte (d ++ repeat 0 n).
Proof. intros H. apply Forall_app. split; [exact H|]. apply Forall_forall. intros c I. apply nuls_in in I. subst. reflexivity. Qed.
(** two texts with the same accepted readings have the same outcome *)
Lemma same_scalar jsonc s s' : Forall is_byte s -> Forall is_byte s' ->
  (forall j, accepted_document jsonc false s j <-> accepted_document jsonc false s' j) -> parse jsonc BNone s = parse jsonc BNone s'.
Proof.
  intros Hb Hb' H. destruct (parse_total jsonc BNone s Hb) as ([v|] & E & _), (parse_total jsonc BNone s' Hb') as ([v'|] & E' & _); rewrite E, E'; try reflexivity.
  - apply parse_exact in E as (j & A & D & ->); auto. apply H in A. rewrite <- E'. symmetry. apply parse_exact; auto. eauto.
  - apply parse_exact in E as (j & A & D & ->); auto. apply H in A. rewrite <- E'. symmetry. apply parse_exact; auto. eauto.
  - apply parse_exact in E' as (j & A & D & ->); auto. apply H in A. rewrite <- E. apply parse_exact; auto. eauto.
Qed.
Lemma same_paired jsonc be s s' : Forall is_byte s -> Forall is_byte s' -> surrogates_paired s -> surrogates_paired s' ->
  (forall j, accepted_document jsonc false s j <-> accepted_document jsonc false s' j) -> parse jsonc be s = parse jsonc be s'.
Proof.
  intros Hb Hb' Hp Hp' H. rewrite (backend_paired jsonc be BNone s Hb Hp), (backend_paired jsonc be BNone s' Hb' Hp'). now apply same_scalar.
Qed.
Lemma hexdig_pos c v : hexdig c v -> 48 <= c.
Proof. destruct 1; lia. Qed.
Lemma paired_nuls d n : surrogates_paired d -> surrogates_paired (d ++ repeat 0 n).
Proof.
  intros H a h hi b E Hh Hs.
  assert (Np : a ++ 92 :: 117 :: h <> []) by (destruct a; discriminate).
  destruct (split_nuls (a ++ 92 :: 117 :: h) b d n Np) as (b' & Ed & ->).
  - change (a ++ 92 :: 117 :: h) with (a ++ [92; 117] ++ h). rewrite app_assoc. inversion Hh as [c3 c2 c1 c0 v3 v2 v1 v0 H3 H2 H1 H0]; subst.
    rewrite last_app_ne by discriminate. cbn. apply hexdig_pos in H0. lia.
  - rewrite <- app_assoc. now rewrite E.
  - destruct (H a h hi b') as (h2 & lo & b2 & -> & H2 & Hl); auto.
    + rewrite Ed. now rewrite <- app_assoc.
    + exists h2, lo, (b2 ++ repeat 0 n). splits; auto. cbn [app]. now rewrite <- app_assoc.
Qed.

(** ** CR LF and LF are the same to the parser *)
Definition heads10 (s : bytes) : bool := match s with d :: _ => d =? 10 | [] => false end.
Lemma crlf_cons c r : crlf (c :: r) = if (c =? 13) && heads10 r then crlf r else c :: crlf r.
Proof. reflexivity. Qed.
Lemma crlf_app a b : last a 0 <> 13 \/ heads10 b = false -> crlf (a ++ b) = crlf a ++ crlf b.
Proof.
  intros H. induction a as [|c a IH]; [reflexivity|]. change ((c :: a) ++ b) with (c :: (a ++ b)). rewrite !crlf_cons.
  destruct a as [|d a].
  - cbn [app heads10]. destruct H as [H|H]; [cbn in H; destruct (c =? 13) eqn:E; [lia|]|rewrite H]; rewrite ?andb_false_r, ?andb_false_l; reflexivity.
  - change (heads10 ((d :: a) ++ b)) with (d =? 10). change (heads10 (d :: a)) with (d =? 10). rewrite IH by (destruct H as [H|H]; [left; exact H|now right]).
    destruct ((c =? 13) && (d =? 10)); reflexivity.
Qed.
Lemma crlf_id s : ~ In 13 s -> crlf s = s.
Proof.
  induction s as [|c s IH]; [reflexivity|]. intros H. rewrite crlf_cons. assert (c <> 13) by (intros ->; apply H; now left).
  replace (c =? 13) with false by lia. cbn. rewrite IH; auto. intros I. apply H. now right.
Qed.
Lemma crlf_in c s : In c (crlf s) -> In c s.
Proof.
  induction s as [|d s IH]; [auto|]. rewrite crlf_cons. destruct ((d =? 13) && heads10 s); [right; auto|]. intros [->|I]; [now left|right; auto].
Qed.
Lemma crlf_in_inv c s : c <> 13 -> In c s -> In c (crlf s).
Proof.
  intros N. induction s as [|d s IH]; [auto|]. rewrite crlf_cons. intros [->|I].
  - replace (c =? 13) with false by lia. now left.
  - destruct ((d =? 13) && heads10 s); [|right]; auto.
Qed.
(** taking a text apart before or after the translation *)
Lemma crlf_split s : forall a b, crlf s = a ++ b -> exists a' b', s = a' ++ b' /\ crlf a' = a /\ crlf b' = b.
Proof.
  induction s as [|c s IH]; intros a b E.
  - symmetry in E. apply app_eq_nil in E as [-> ->]. exists [], []. auto.
  - rewrite crlf_cons in E. destruct ((c =? 13) && heads10 s) eqn:T.
    + destruct (IH a b E) as (a' & b' & -> & <- & <-). destruct a' as [|d a'].
      * exists [], (c :: b'). cbn [app] in *. splits; auto. rewrite crlf_cons, T. reflexivity.
      * exists (c :: d :: a'), b'. splits; auto. rewrite crlf_cons. cbn [heads10 app] in *. now rewrite T.
    + destruct a as [|d a]; cbn [app] in E.
      * exists [], (c :: s). splits; auto. rewrite crlf_cons, T. exact E.
      * injection E as <- E. destruct (IH a b E) as (a' & b' & -> & <- & <-). exists (c :: a'), b'. splits; auto.
        rewrite crlf_cons. replace ((c =? 13) && heads10 a') with false; [reflexivity|]. symmetry. destruct a' as [|d a']; [now rewrite andb_false_r|exact T].
Qed.
Lemma crlf_inv_id s t : crlf s = t -> ~ In 10 t -> s = t.
Proof.
  intros <- H. assert (H' : ~ In 10 s) by (intros I; apply H; apply crlf_in_inv; [lia|exact I]). clear H.
  induction s as [|c s IH]; [reflexivity|]. rewrite crlf_cons. replace (heads10 s) with false; [rewrite andb_false_r; f_equal; apply IH; intros I; apply H'; now right|].
  destruct s as [|d s]; [reflexivity|]. cbn. symmetry. apply N.eqb_neq. intros ->. apply H'. right. now left.
Qed.
Lemma crlf_close b x y : crlf b = x ++ [42; 47] ++ y -> exists x' y', b = x' ++ [42; 47] ++ y'.
Proof.
  intros E. apply crlf_split in E as (x' & z & -> & _ & E). exists x'.
  assert (Z : exists y', z = 42 :: 47 :: y'); [|destruct Z as (y' & ->); now exists y'].
  destruct z as [|c z]; [discriminate|]. rewrite crlf_cons in E.
  destruct ((c =? 13) && heads10 z) eqn:T.
  - destruct z as [|d z]; [discriminate|]. cbn [heads10] in T. rewrite crlf_cons in E. replace (d =? 13) with false in E by lia. cbn [andb] in E.
    injection E as -> _. rewrite andb_comm in T. discriminate.
  - injection E as -> E. destruct z as [|d z]; [discriminate|]. rewrite crlf_cons in E. destruct ((d =? 13) && heads10 z) eqn:T'.
    + destruct z as [|f z]; [discriminate|]. cbn [heads10] in T'. rewrite crlf_cons in E. replace (f =? 13) with false in E by lia. cbn [andb] in E.
      injection E as -> _. rewrite andb_comm in T'. discriminate.
    + injection E as -> _. now exists z.
Qed.
Lemma close_crlf b x y : b = x ++ [42; 47] ++ y -> exists x' y', crlf b = x' ++ [42; 47] ++ y'.
Proof.
  intros ->. rewrite crlf_app by (now right). exists (crlf x), (crlf y). reflexivity.
Qed.
Lemma no_close_crlf b : no_close b <-> no_close (crlf b).
Proof.
  unfold no_close. split; intros H x y E.
  - apply crlf_close in E as (x' & y' & E). exact (H x' y' E).
  - apply close_crlf in E as (x' & y' & E). exact (H x' y' E).
Qed.
Lemma no_newline_crlf b : no_newline b <-> no_newline (crlf b).
Proof. unfold no_newline. split; intros H I; apply H; [now apply crlf_in|apply crlf_in_inv; [lia|exact I]]. Qed.
(** a line of a comment *)
Lemma crlf_line b w : no_newline b -> exists b', no_newline b' /\ crlf (b ++ [10] ++ w) = b' ++ [10] ++ crlf w.
Proof.
  intros H. change (b ++ [10] ++ w) with (b ++ ([10] ++ w)). rewrite app_assoc. rewrite crlf_app by (left; rewrite last_last; lia).
  destruct (list_eq_dec N.eq_dec b []) as [->|Nb]; [exists []; auto|].
  destruct (exists_last Nb) as (x & c & ->). destruct (N.eq_dec c 13) as [->|Nc].
  - exists (crlf x). split; [apply (proj1 (no_newline_crlf x)); unfold no_newline in *; rewrite in_app_iff in H; tauto|].
    rewrite <- app_assoc. cbn [app]. rewrite crlf_app by now right. rewrite <- app_assoc. reflexivity.
  - exists (crlf (x ++ [c])). split; [exact (proj1 (no_newline_crlf _) H)|]. rewrite (crlf_app (x ++ [c]) [10]) by (left; now rewrite last_last). now rewrite <- app_assoc.
Qed.
Lemma ws_crlf w : ws w <-> ws (crlf w).
Proof.
  unfold ws. rewrite !Forall_forall. split; intros H c I.
  - apply H. now apply crlf_in.
  - destruct (N.eq_dec c 13) as [->|N]; [unfold wschar; auto|]. apply H. now apply crlf_in_inv.
Qed.
Lemma cws_app a b : cws a -> cws b -> cws (a ++ b).
Proof.
  induction 1 as [|c w Hc _ IH|x w Hb _ IH|x w Hb _ IH]; intros H.
  - exact H.
  - cbn. constructor; auto.
  - repeat rewrite <- app_assoc. exact (cws_line x (w ++ b) Hb (IH H)).
  - repeat rewrite <- app_assoc. exact (cws_block x (w ++ b) Hb (IH H)).
Qed.
Lemma cws_to_crlf w : cws w -> cws (crlf w).
Proof.
  induction 1 as [|c w Hc _ IH|b w Hb _ IH|b w Hb _ IH].
  - constructor.
  - rewrite crlf_cons. destruct ((c =? 13) && heads10 w); auto. now constructor.
  - change ([47; 47] ++ b ++ [10] ++ w) with ([47; 47] ++ (b ++ [10] ++ w)). rewrite crlf_app by (left; cbn; lia).
    destruct (crlf_line b w Hb) as (b' & Hb' & ->). now apply (cws_line b' (crlf w)).
  - change ([47; 42] ++ b ++ [42; 47] ++ w) with ([47; 42] ++ (b ++ ([42; 47] ++ w))). rewrite crlf_app by (left; cbn; lia).
    rewrite crlf_app by now right. rewrite (crlf_app [42; 47]) by (left; cbn; lia). apply (cws_block (crlf b) (crlf w)); auto. now apply (proj1 (no_close_crlf b)).
Qed.
Lemma crlf_one s c : crlf s = [c] -> c <> 10 -> s = [c].
Proof. intros E H. apply crlf_inv_id in E; auto. intros [I|[]]. auto. Qed.
Lemma crlf_nil s : crlf s = [] -> s = [].
Proof.
  intros E. apply crlf_inv_id in E; [exact E|intros []].
Qed.
Lemma crlf_10 s : crlf s = [10] -> s = [10] \/ s = [13; 10].
Proof.
  intros E. assert (I : In 10 s) by (apply crlf_in; rewrite E; now left). destruct (in_split _ _ I) as (a & b & ->).
  destruct (list_eq_dec N.eq_dec a []) as [->|Na].
  - cbn [app] in *. rewrite crlf_cons in E. cbn [N.eqb Pos.eqb andb] in E. injection E as E. apply crlf_nil in E. subst b. now left.
  - destruct (exists_last Na) as (x & c & ->). destruct (N.eq_dec c 13) as [->|Nc].
    + rewrite <- app_assoc in E. cbn [app] in E. rewrite crlf_app in E by now right. rewrite !crlf_cons in E. cbn [N.eqb Pos.eqb andb heads10] in E.
      assert (L := f_equal (@length N) E). rewrite app_length in L. cbn [length] in L. assert (Lx : crlf x = []) by (apply length_zero_iff_nil; lia). assert (Lb : crlf b = []) by (apply length_zero_iff_nil; lia).
      apply crlf_nil in Lx. apply crlf_nil in Lb. subst. now right.
    + rewrite crlf_app in E by (left; now rewrite last_last). rewrite crlf_cons in E. cbn [N.eqb Pos.eqb andb] in E.
      assert (L := f_equal (@length N) E). rewrite app_length in L. cbn [length] in L. assert (Lx : crlf (x ++ [c]) = []) by (apply length_zero_iff_nil; lia).
      apply crlf_nil in Lx. destruct x; discriminate.
Qed.
Lemma cws_from_crlf w' : cws w' -> forall w, crlf w = w' -> cws w.
Proof.
  induction 1 as [|c w Hc _ IH|b w Hb _ IH|b w Hb _ IH]; intros s E.
  - apply crlf_nil in E. subst s. constructor.
  - change (c :: w) with ([c] ++ w) in E. apply crlf_split in E as (a & b & -> & Ea & Eb). apply cws_app; [|now apply IH].
    assert (W : ws a) by (apply ws_crlf; rewrite Ea; constructor; [exact Hc|constructor]). clear -W. induction W; constructor; auto.
  - apply crlf_split in E as (a & r & -> & Ea & E). apply crlf_split in E as (b' & r2 & -> & Eb & E). apply crlf_split in E as (n & w' & -> & En & Ew).
    apply crlf_inv_id in Ea; [|cbn; lia]. subst a.
    assert (Hb' : no_newline b') by (apply (proj2 (no_newline_crlf b')); now rewrite Eb).
    destruct (crlf_10 _ En) as [->| ->].
    + apply (cws_line b' w'); auto.
    + change ([47; 47] ++ b' ++ [13; 10] ++ w') with ([47; 47] ++ b' ++ [13] ++ [10] ++ w'). rewrite (app_assoc b' [13]).
      apply (cws_line (b' ++ [13]) w'); auto. unfold no_newline in *. rewrite in_app_iff. intros [I|[I|[]]]; [auto|discriminate].
  - apply crlf_split in E as (a & r & -> & Ea & E). apply crlf_split in E as (b' & r2 & -> & Eb & E). apply crlf_split in E as (n & w' & -> & En & Ew).
    apply crlf_inv_id in Ea; [|cbn; lia]. apply crlf_inv_id in En; [|cbn; lia]. subst a n.
    apply (cws_block b' w'); auto. apply (proj2 (no_close_crlf b')). now rewrite Eb.
Qed.
Lemma wsp_crlf jsonc w : wsp jsonc w <-> wsp jsonc (crlf w).
Proof. destruct jsonc; cbn; [split; [apply cws_to_crlf|intros H; exact (cws_from_crlf _ H w eq_refl)]|apply ws_crlf]. Qed.
(** texts of values and string literals start and end with neither CR nor LF *)
Definition solid (t : bytes) : Prop := t <> [] /\ heads10 t = false /\ last t 0 <> 13.
Lemma clean_solid t : t <> [] -> Forall (fun c => 32 <= c) t -> solid t.
Proof.
  intros N H. split; [exact N|]. split.
  - destruct t as [|c t]; [reflexivity|]. inversion H; subst. cbn. lia.
  - destruct (exists_last N) as (x & c & ->). rewrite last_last. apply Forall_app in H as [_ H]. inversion H; subst. lia.
Qed.
Lemma clean_crlf t : Forall (fun c => 32 <= c) t -> crlf t = t.
Proof. intros H. apply crlf_id. intros I. rewrite Forall_forall in H. apply H in I. lia. Qed.
Lemma clean_inv s t : crlf s = t -> Forall (fun c => 32 <= c) t -> s = t.
Proof. intros E H. apply (crlf_inv_id _ _ E). intros I. rewrite Forall_forall in H. apply H in I. lia. Qed.
Lemma gnumber_clean t : gnumber t -> Forall (fun c => 32 <= c) t.
Proof. intros H. apply gnumber_word in H. eapply Forall_impl; [|exact H]. cbn. intros c Hc. lia. Qed.
Lemma lstring_ne raw t s : lstring raw t s -> t <> [].
Proof. intros (b & -> & _). discriminate. Qed.
Ltac clean_lit := repeat (apply Forall_cons; [vm_compute; discriminate|]); apply Forall_nil.
Lemma value_solid W (STR : bytes -> bytes -> Prop) tc t j : (forall t s, STR t s -> lstring true t s) -> gvalue W STR tc t j -> solid t.
Proof.
  intros HS. destruct 1; try (apply clean_solid; [discriminate|clean_lit]); try (split; [discriminate|split; [reflexivity|rewrite app_assoc, last_last; lia]]).
  - apply clean_solid; [now apply gnumber_nonempty|now apply gnumber_clean].
  - apply clean_solid; [now apply (lstring_ne true t s), HS|now apply (lstring_clean true t s), HS].
Qed.
Lemma string_solid raw t s : lstring raw t s -> solid t.
Proof. intros H. apply clean_solid; [now apply (lstring_ne raw t s)|now apply (lstring_clean raw t s)]. Qed.
Lemma crlf_before a t r : solid t -> crlf (a ++ t ++ r) = crlf a ++ crlf t ++ crlf r.
Proof.
  intros (N & H & L). rewrite crlf_app by (right; destruct t; [congruence|exact H]). now rewrite (crlf_app t r) by auto.
Qed.
Lemma crlf_char a c r : c <> 10 -> c <> 13 -> crlf (a ++ [c] ++ r) = crlf a ++ [c] ++ crlf r.
Proof.
  intros H H'. rewrite crlf_before; [|split; [discriminate|split; [cbn; lia|exact H']]]. rewrite (crlf_id [c]); auto. intros [E|[]]; auto.
Qed.
Section Crlf.
  Context (jsonc : bool) (STR : bytes -> bytes -> Prop) (HS : forall t s, STR t s -> lstring true t s).
  Local Notation W := (wsp jsonc).
  Lemma str_crlf t s : STR t s -> crlf t = t.
  Proof. intros H. apply clean_crlf. now apply (lstring_clean true t s), HS. Qed.
  Lemma w_crlf w : W w -> W (crlf w).
  Proof. apply wsp_crlf. Qed.
  Lemma grammar_crlf :
    (forall t j, gvalue W STR jsonc t j -> gvalue W STR jsonc (crlf t) j) /\
    (forall t l, gelems W STR jsonc t l -> gelems W STR jsonc (crlf t) l) /\
    (forall t m, gmembers W STR jsonc t m -> gmembers W STR jsonc (crlf t) m).
  Proof.
    apply grammar_ind; try (intros; apply gv_null); try (intros; apply gv_true); try (intros; apply gv_false).
    - intros s H. rewrite clean_crlf by now apply gnumber_clean. now apply gv_num.
    - intros t s H. rewrite (str_crlf t s H). now apply gv_str.
    - intros w H. change ([91] ++ w ++ [93]) with ([] ++ [91] ++ w ++ [93]). rewrite crlf_char by lia. rewrite crlf_app by (right; reflexivity). apply gv_arr0. now apply w_crlf.
    - intros t l _ H. change ([91] ++ t ++ [93]) with ([] ++ [91] ++ t ++ [93]). rewrite crlf_char by lia. rewrite crlf_app by (right; reflexivity). now apply gv_arr.
    - intros w H. change ([123] ++ w ++ [125]) with ([] ++ [123] ++ w ++ [125]). rewrite crlf_char by lia. rewrite crlf_app by (right; reflexivity). apply gv_obj0. now apply w_crlf.
    - intros t l _ H. change ([123] ++ t ++ [125]) with ([] ++ [123] ++ t ++ [125]). rewrite crlf_char by lia. rewrite crlf_app by (right; reflexivity). now apply gv_obj.
    - intros w1 t w2 j H1 Hv Hv' H2. rewrite crlf_before by exact (value_solid _ _ _ _ _ HS Hv). apply ge_last; auto using w_crlf.
    - intros w1 t w2 w3 j Ht H1 Hv Hv' H2 H3. rewrite crlf_before by exact (value_solid _ _ _ _ _ HS Hv). rewrite crlf_char by lia. apply ge_trail; auto using w_crlf.
    - intros w1 t w2 j ts l H1 Hv Hv' H2 He He'. rewrite crlf_before by exact (value_solid _ _ _ _ _ HS Hv). rewrite crlf_char by lia. apply ge_cons; auto using w_crlf.
    - intros w1 kt w2 w3 t w4 k j H1 Hk H2 H3 Hv Hv' H4. rewrite crlf_before by exact (string_solid _ _ _ (HS _ _ Hk)). rewrite (str_crlf kt k Hk). rewrite crlf_char by lia.
      rewrite crlf_before by exact (value_solid _ _ _ _ _ HS Hv). apply gm_last; auto using w_crlf.
    - intros w1 kt w2 w3 t w4 w5 k j Ht H1 Hk H2 H3 Hv Hv' H4 H5. rewrite crlf_before by exact (string_solid _ _ _ (HS _ _ Hk)). rewrite (str_crlf kt k Hk). rewrite crlf_char by lia.
      rewrite crlf_before by exact (value_solid _ _ _ _ _ HS Hv). rewrite crlf_char by lia. apply gm_trail; auto using w_crlf.
    - intros w1 kt w2 w3 t w4 k j ts m H1 Hk H2 H3 Hv Hv' H4 He He'. rewrite crlf_before by exact (string_solid _ _ _ (HS _ _ Hk)). rewrite (str_crlf kt k Hk). rewrite crlf_char by lia.
      rewrite crlf_before by exact (value_solid _ _ _ _ _ HS Hv). rewrite crlf_char by lia. apply gm_cons; auto using w_crlf.
  Qed.
  Lemma w_uncrlf w w' : crlf w = w' -> W w' -> W w.
  Proof. intros <-. apply wsp_crlf. Qed.
  Ltac part E := let a := fresh "a" in let r := fresh "r" in let Ea := fresh "Ea" in
    apply crlf_split in E as (a & r & -> & Ea & E).
  Ltac byte E := apply crlf_one in E; [rewrite E|discriminate].
  Lemma grammar_uncrlf :
    (forall t j, gvalue W STR jsonc t j -> forall s, crlf s = t -> gvalue W STR jsonc s j) /\
    (forall t l, gelems W STR jsonc t l -> forall s, crlf s = t -> gelems W STR jsonc s l) /\
    (forall t m, gmembers W STR jsonc t m -> forall s, crlf s = t -> gmembers W STR jsonc s m).
  Proof.
    apply grammar_ind.
    - intros s E. apply clean_inv in E; [subst; apply gv_null|clean_lit].
    - intros s E. apply clean_inv in E; [subst; apply gv_true|clean_lit].
    - intros s E. apply clean_inv in E; [subst; apply gv_false|clean_lit].
    - intros t H s E. apply clean_inv in E; [subst; now apply gv_num|now apply gnumber_clean].
    - intros t k H s E. apply clean_inv in E; [subst; now apply gv_str|now apply (lstring_clean true t k), HS].
    - intros w H s E. part E. part E. byte Ea. byte E. apply gv_arr0. eapply w_uncrlf; eauto.
    - intros t l _ H s E. part E. part E. byte Ea. byte E. apply gv_arr. auto.
    - intros w H s E. part E. part E. byte Ea. byte E. apply gv_obj0. eapply w_uncrlf; eauto.
    - intros t l _ H s E. part E. part E. byte Ea. byte E. apply gv_obj. auto.
    - intros w1 t w2 j H1 _ Hv H2 s E. part E. part E. apply ge_last; eauto using w_uncrlf.
    - intros w1 t w2 w3 j Ht H1 _ Hv H2 H3 s E. part E. part E. part E. part E. byte Ea2. apply ge_trail; eauto using w_uncrlf.
    - intros w1 t w2 j ts l H1 _ Hv H2 _ He s E. part E. part E. part E. part E. byte Ea2. apply ge_cons; eauto using w_uncrlf.
    - intros w1 kt w2 w3 t w4 k j H1 Hk H2 H3 _ Hv H4 s E. do 6 part E. byte Ea2. apply clean_inv in Ea0; [rewrite Ea0|now apply (lstring_clean true kt k), HS]. apply gm_last; eauto using w_uncrlf.
    - intros w1 kt w2 w3 t w4 w5 k j Ht H1 Hk H2 H3 _ Hv H4 H5 s E. do 8 part E. byte Ea2. byte Ea6. apply clean_inv in Ea0; [rewrite Ea0|now apply (lstring_clean true kt k), HS]. apply gm_trail; eauto using w_uncrlf.
    - intros w1 kt w2 w3 t w4 k j ts m H1 Hk H2 H3 _ Hv H4 _ He s E. do 8 part E. byte Ea2. byte Ea6. apply clean_inv in Ea0; [rewrite Ea0|now apply (lstring_clean true kt k), HS]. apply gm_cons; eauto using w_uncrlf.
  Qed.
End Crlf.
Lemma crlf_prefix p s r : crlf s = p ++ r -> ~ In 10 p -> exists r', s = p ++ r' /\ crlf r' = r.
Proof.
  intros E H. apply crlf_split in E as (a & b & -> & Ea & Eb). apply crlf_inv_id in Ea; [|exact H]. subst a. eauto.
Qed.
Lemma crlf_head c r : exists d r', crlf (c :: r) = d :: r' /\ (d = c \/ d = 10).
Proof.
  rewrite crlf_cons. destruct ((c =? 13) && heads10 r) eqn:T; [|eauto]. destruct r as [|d r]; [now rewrite andb_false_r in T|]. cbn [heads10] in T.
  rewrite crlf_cons. replace (d =? 13) with false by lia. cbn [andb]. exists d, (crlf r). split; [reflexivity|lia].
Qed.
Lemma stop_crlf jsonc e : stop jsonc e <-> stop jsonc (crlf e).
Proof.
  assert (S47 : forall r, crlf (47 :: r) = 47 :: crlf r) by reflexivity.
  assert (S0 : forall r, crlf (0 :: r) = 0 :: crlf r) by reflexivity.
  destruct jsonc; cbn [stop].
  - unfold jsonc_stop. split.
    + intros [->|[(r & ->)|[(b & -> & Hb)|[->|[(c & r & -> & Hc)|(b & -> & Hb)]]]]].
      * now left.
      * right. left. rewrite S0. eauto.
      * right. right. left. exists (crlf b). split; [reflexivity|]. now apply (proj1 (no_newline_crlf b)).
      * right. right. right. now left.
      * right. right. right. right. left. rewrite S47. destruct (crlf_head c r) as (d & r' & -> & Hd). exists d, r'. split; [reflexivity|]. lia.
      * right. right. right. right. right. exists (crlf b). split; [reflexivity|]. now apply (proj1 (no_close_crlf b)).
    + intros [E|[(r & E)|[(b & E & Hb)|[E|[(c & r & E & Hc)|(b & E & Hb)]]]]].
      * left. now apply crlf_nil.
      * apply (crlf_prefix [0] e r) in E as (r' & -> & _); [|cbn; lia]. right. left. now exists r'.
      * apply crlf_prefix in E as (r' & -> & <-); [|cbn; lia]. right. right. left. exists r'. split; [reflexivity|]. now apply (proj2 (no_newline_crlf r')).
      * apply crlf_one in E; [|lia]. right. right. right. now left.
      * apply (crlf_prefix [47] e (c :: r)) in E as (r' & -> & E); [|cbn; lia]. right. right. right. right. left.
        destruct r' as [|d r']; [discriminate|]. exists d, r'. split; [reflexivity|]. rewrite crlf_cons in E. destruct ((d =? 13) && heads10 r') eqn:T; [lia|]. injection E as -> _. exact Hc.
      * apply crlf_prefix in E as (r' & -> & <-); [|cbn; lia]. right. right. right. right. right. exists r'. split; [reflexivity|]. now apply (proj2 (no_close_crlf r')).
  - unfold strict_stop. split.
    + intros [->|(r & [->| ->])]; [now left|..]; right; [exists (crlf r); left|exists (crlf r); right]; reflexivity.
    + intros [E|(r & [E|E])]; [left; now apply crlf_nil|..].
      * apply (crlf_prefix [0] e r) in E as (r' & -> & _); [|cbn; lia]. right. exists r'. now left.
      * apply (crlf_prefix [47] e r) in E as (r' & -> & _); [|cbn; lia]. right. exists r'. now right.
Qed.
Lemma stop_head jsonc e : stop jsonc e -> heads10 e = false.
Proof.
  destruct jsonc; cbn [stop].
  - intros [->|[(r & ->)|[(b & -> & Hb)|[->|[(c & r & -> & Hc)|(b & -> & Hb)]]]]]; reflexivity.
  - intros [->|(r & [->| ->])]; reflexivity.
Qed.
Lemma document_crlf (STR : bytes -> bytes -> Prop) jsonc s j : (forall t s, STR t s -> lstring true t s) -> document_of STR jsonc s j <-> document_of STR jsonc (crlf s) j.
Proof.
  intros HS. split; intros (w1 & t & w2 & e & E & Hw1 & Hw2 & He & Hc & Hg).
  - subst s. exists (crlf w1), (crlf t), (crlf w2), (crlf e). rewrite crlf_before by exact (value_solid _ _ _ _ _ HS Hg).
    rewrite crlf_app by (right; exact (stop_head jsonc e He)). splits; auto; [now apply (proj1 (wsp_crlf jsonc w1))|now apply (proj1 (wsp_crlf jsonc w2))|now apply (proj1 (stop_crlf jsonc e))|].
    now apply (proj1 (grammar_crlf jsonc STR HS)).
  - apply crlf_split in E as (a & r & -> & Ea & E). apply crlf_split in E as (t' & r2 & -> & Et & E). apply crlf_split in E as (b & e' & -> & Eb & Ee).
    exists a, t', b, e'. subst. splits; auto; [now apply (proj2 (wsp_crlf jsonc a))|now apply (proj2 (wsp_crlf jsonc b))|now apply (proj2 (stop_crlf jsonc e'))|].
    exact (proj1 (grammar_uncrlf jsonc STR HS) _ _ Hg t' eq_refl).
Qed.
Lemma lstring_raw raw t s : lstring raw t s -> lstring true t s.
Proof. destruct raw; auto. intros (b & -> & H). exists b. split; [reflexivity|]. now apply StringProofs.lchars_weaken. Qed.
Lemma accepted_crlf jsonc raw s j : accepted_document jsonc raw s j <-> accepted_document jsonc raw (crlf s) j.
Proof. exact (document_crlf (lstring raw) jsonc s j (lstring_raw raw)). Qed.
Lemma bytes_crlf s : Forall is_byte s -> Forall is_byte (crlf s).
Proof. rewrite !Forall_forall. intros H c I. apply H. now apply crlf_in. Qed.
Lemma hex4_no10 h cp : hex4 h cp -> ~ In 10 h.
Proof.
  destruct 1 as [a b c d a' b' c' d' Ha Hb Hc Hd]. apply hexdig_pos in Ha, Hb, Hc, Hd. cbn. lia.
Qed.
Lemma paired_crlf s : surrogates_paired s -> surrogates_paired (crlf s).
Proof.
  intros H a h hi b E Hh Hs. apply crlf_split in E as (a' & z & -> & Ea & E).
  apply (crlf_prefix (92 :: 117 :: h) z b) in E as (b' & -> & <-).
  - destruct (H a' h hi b' eq_refl Hh Hs) as (h2 & lo & b2 & -> & H2 & Hl). exists h2, lo, (crlf b2). splits; auto.
    change (crlf ((92 :: 117 :: h2) ++ b2) = (92 :: 117 :: h2) ++ crlf b2). rewrite (crlf_app (92 :: 117 :: h2) b2). 2: { left. inversion H2 as [x y z w x' y' z' w' Hx Hy Hz Hw]; subst. apply hexdig_pos in Hw. cbn. lia. }
    f_equal. apply crlf_id. inversion H2 as [x y z w x' y' z' w' Hx Hy Hz Hw]; subst. apply hexdig_pos in Hx, Hy, Hz, Hw. cbn. lia.
  - intros [I|[I|I]]; [discriminate|discriminate|]. exact (hex4_no10 h hi Hh I).
Qed.
Lemma strip_bom_crlf s : strip_bom (crlf s) = crlf (strip_bom s).
Proof.
  assert (Bo : forall r, strip_bom (239 :: 187 :: 191 :: r) = r) by reflexivity.
  assert (No : forall s, (forall r, s <> [239; 187; 191] ++ r) -> strip_bom s = s).
  { intros [|a [|b [|c t]]] H; try reflexivity. cbn [strip_bom]. destruct ((a =? 239) && (b =? 187) && (c =? 191)) eqn:T; [|reflexivity].
    destruct (H t). cbn. repeat f_equal; lia. }
  destruct (list_eq_dec N.eq_dec (firstn 3 s) [239; 187; 191]) as [E|N].
  - assert (S : s = [239; 187; 191] ++ skipn 3 s) by (rewrite <- E; symmetry; apply firstn_skipn). rewrite S. reflexivity.
  - rewrite (No s), (No (crlf s)); auto; intros r E; apply N.
    + apply (crlf_prefix [239; 187; 191] s r) in E as (r' & -> & _); [reflexivity|cbn; lia].
    + now rewrite E.
Qed.
Lemma strip_bom_nuls s n : strip_bom (s ++ repeat 0 n) = strip_bom s ++ repeat 0 n.
Proof.
  destruct s as [|a [|b [|c t]]].
  - destruct n as [|[|[|n]]]; reflexivity.
  - destruct n as [|[|n]]; try reflexivity. cbn [app repeat strip_bom]. replace (0 =? 187) with false by reflexivity. now rewrite andb_false_r.
  - destruct n as [|n]; try reflexivity. cbn [app repeat strip_bom]. replace (0 =? 191) with false by reflexivity. now rewrite andb_false_r.
  - cbn [app strip_bom]. now destruct ((a =? 239) && (b =? 187) && (c =? 191)).
Qed.
Lemma paired_suffix a s : surrogates_paired (a ++ s) -> surrogates_paired s.
Proof. intros H x h hi b -> Hh Hs. apply (H (a ++ x) h hi b); auto. now rewrite app_assoc. Qed.
Lemma paired_strip s : surrogates_paired s -> surrogates_paired (strip_bom s).
Proof.
  intros H. destruct s as [|a [|b [|c t]]]; auto. cbn [strip_bom]. destruct ((a =? 239) && (b =? 187) && (c =? 191)); auto. exact (paired_suffix [a; b; c] t H).
Qed.
(** the outcome does not depend on the NULs behind the text, nor on the line ends *)
Lemma same_doc jsonc be s s' : Forall is_byte s -> Forall is_byte s' ->
  (be = BNone \/ (exists st, step be = Some st /\ (st <= 8)%nat) \/ surrogates_paired s /\ surrogates_paired s') ->
  (forall (STR : bytes -> bytes -> Prop) j, (forall t s, STR t s -> lstring true t s) -> document_of STR jsonc s j <-> document_of STR jsonc s' j) -> parse jsonc be s = parse jsonc be s'.
Proof.
  intros Hb Hb' [->|[(st & Hst & H8)|[H H']]] A.
  - apply same_scalar; auto. intros j. exact (A (lstring false) j (lstring_raw false)).
  - apply (words_same jsonc be st); auto. intros j. apply A. apply bstring_lstring.
  - apply same_paired; auto. intros j. exact (A (lstring false) j (lstring_raw false)).
Qed.
Lemma stream_nuls be cb wc d n : Forall is_byte d -> plain_for be d ->
  json_parse_stream be cb wc (Seekable (d ++ repeat 0 n)) = json_parse_stream be cb wc (Seekable d).
Proof.
  intros Hb P. assert (K : forall d, Forall is_byte d -> plain_for be d -> parse wc be (d ++ repeat 0 n) = parse wc be d).
  { clear d Hb P. intros d Hb P. apply same_doc; auto using bytes_nuls; [destruct P as [|[|]]; auto using paired_nuls|]. intros STR j _. apply document_nuls. }
  assert (M : forall s, json_parse_stream be cb wc (Seekable s) = parse wc be (if cb then strip_bom s else s)) by (intros; cbn; now destruct wc).
  rewrite !M. destruct cb; [rewrite strip_bom_nuls|]; apply K; auto using strip_bom_bytes. destruct P as [|[|]]; [now left|right; now left|right; right; now apply paired_strip].
Qed.
Lemma stream_crlf be cb wc s : Forall is_byte s -> plain_for be s ->
  json_parse_stream be cb wc (Seekable (crlf s)) = json_parse_stream be cb wc (Seekable s).
Proof.
  intros Hb P. assert (K : forall d, Forall is_byte d -> plain_for be d -> parse wc be (crlf d) = parse wc be d).
  { clear s Hb P. intros d Hb P. apply same_doc; auto using bytes_crlf; [destruct P as [|[|]]; auto using paired_crlf|]. intros STR j HS. symmetry. now apply document_crlf. }
  assert (M : forall s, json_parse_stream be cb wc (Seekable s) = parse wc be (if cb then strip_bom s else s)) by (intros; cbn; now destruct wc).
  rewrite !M. destruct cb; [rewrite strip_bom_crlf|]; apply K; auto using strip_bom_bytes. destruct P as [|[|]]; [now left|right; now left|right; right; now apply paired_strip].
Qed.
