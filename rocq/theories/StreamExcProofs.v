(** * Proofs about streams whose exceptions are on. *)
From Verif Require Import Base Value Packed Parser Dump Spec SpecStream Stream StreamExc BaseProofs StreamProofs StreamTheorems.

Lemma parse_exc m be cb wc i r i' : parse_istream be cb wc i = (r, i') ->
  parse_istream_exc m be cb wc i = (if raises m i' then Failure else Gave r, i').
Proof.
  unfold parse_istream, parse_istream_exc, tell_end.
  destruct i as [sz del pos e f sk]. unfold seek_end, seek_beg, with_state. cbn [ifail iseekable ipos ieof isize ideliver].
  destruct f; cbn [ifail ieof isize ideliver ipos iseekable].
  { intros H. injection H as <- <-. unfold raises. cbn [ieof ifail]. rewrite andb_false_r. cbn [orb]. destruct (on_fail m); reflexivity. }
  destruct sk; cbn [ifail ieof isize ideliver ipos iseekable].
  2:{ intros H. injection H as <- <-. unfold raises. cbn [ieof ifail]. rewrite andb_false_r. cbn [orb]. destruct (on_fail m); reflexivity. }
  unfold raises at 1 2 3. cbn [ieof ifail]. rewrite !andb_false_r. cbn [orb].
  destruct (read_n _ _) as [got i1] eqn:E. intros H. injection H as <- <-. destruct (raises m i1); reflexivity.
Qed.
Lemma parse_exc_off be cb wc i : parse_istream_exc no_mask be cb wc i = (Gave (fst (parse_istream be cb wc i)), snd (parse_istream be cb wc i)).
Proof. destruct (parse_istream be cb wc i) as [r i'] eqn:E. rewrite (parse_exc _ _ _ _ _ _ _ E). reflexivity. Qed.
Lemma parse_exc_whole m be cb wc i : ifail i = false -> iseekable i = true -> length (ideliver i) = isize i ->
  parse_istream_exc m be cb wc i = (Gave (json_parse_stream be cb wc (Seekable (ideliver i))), with_state (isize i) false false i).
Proof.
  intros F S L. rewrite (parse_exc m be cb wc i _ _ (istream_whole be cb wc i F S L)). unfold raises, with_state. cbn [ieof ifail]. now rewrite !andb_false_r.
Qed.
Lemma parse_state be cb wc i : ifail (snd (parse_istream be cb wc i)) = ifail i || negb (iseekable i) || (length (ideliver i) <? isize i)%nat /\
  ieof (snd (parse_istream be cb wc i)) = negb (ifail i) && iseekable i && (length (ideliver i) <? isize i)%nat.
Proof.
  unfold parse_istream, tell_end. destruct i as [sz del pos e f sk]. unfold seek_end, seek_beg, with_state. cbn [ifail iseekable ipos ieof isize ideliver].
  destruct f; [split; reflexivity|]. destruct sk; [|split; reflexivity]. cbn [ifail ieof isize ideliver ipos iseekable orb negb andb].
  unfold read_n. cbn [ifail ieof isize ideliver ipos iseekable orb]. cbn [skipn fst snd with_state ifail ieof].
  rewrite firstn_length. assert ((Nat.min sz (length del) <? sz)%nat = (length del <? sz)%nat) as ->; [|split; reflexivity].
  destruct (Nat.ltb_spec (Nat.min sz (length del)) sz), (Nat.ltb_spec (length del) sz); try reflexivity; lia.
Qed.
(** when the exception is thrown *)
Lemma parse_exc_failure m be cb wc i :
  fst (parse_istream_exc m be cb wc i) = Failure <->
  (on_fail m = true /\ (ifail i = true \/ iseekable i = false)) \/
  ((on_fail m = true \/ on_eof m = true) /\ ifail i = false /\ iseekable i = true /\ (length (ideliver i) < isize i)%nat).
Proof.
  destruct (parse_istream be cb wc i) as [r i'] eqn:E. rewrite (parse_exc _ _ _ _ _ _ _ E). cbn [fst]. pose proof (parse_state be cb wc i) as [A B]. rewrite E in A, B. cbn [snd] in A, B.
  unfold raises. rewrite A, B. destruct (Nat.ltb_spec (length (ideliver i)) (isize i)); destruct (ifail i), (iseekable i), (on_eof m), (on_fail m); cbn [orb andb negb];
    (split; [intros H1; try discriminate H1; intuition (try discriminate; try lia)|intros H1; try reflexivity; exfalso; intuition (try discriminate; try lia)]).
Qed.

(** ** Output *)
Lemma put_bad t o : ogood o = false -> put t o = o.
Proof. intros H. unfold put. now rewrite H. Qed.
Lemma width_good w o : ogood (set_width w o) = ogood o.
Proof. reflexivity. Qed.
Lemma insert_exc_ok m v o o' : insert_value v o = Ok o' ->
  exists o1, insert_value_exc m v o = (if on_fail m && negb (ogood o') then Failure else Gave (Ok tt), o1) /\
    written o1 = written o' /\ ogood o1 = ogood o' /\ oroom o1 = oroom o' /\ (on_fail m && negb (ogood o') = false -> o1 = o') /\
    (on_fail m && negb (ogood o') = true -> owidth o1 = owidth o).
Proof.
  unfold insert_value, insert_value_exc. destruct (dumps (Some 4) v) as [t| | | |]; cbn [bind]; try discriminate. intros H. injection H as <-.
  unfold ostream_insert, insert_exc. destruct (ogood o) eqn:G; cbn [negb].
  2:{ rewrite G. cbn [negb]. rewrite andb_true_r. eexists. split; [reflexivity|]. repeat split; auto. }
  set (pad := repeat (ofill o) (N.to_nat (owidth o) - length t)).
  assert (W : forall s x, owidth (put s x) = owidth x) by (intros s x; unfold put; destruct (negb (ogood x)); [reflexivity|destruct (oroom x); reflexivity]).
  assert (X : forall a b, exists o1,
    (if raises_out m (put a o) then (Failure, put a o) else if raises_out m (put b (put a o)) then (Failure, put b (put a o)) else (Gave (Ok tt), set_width 0 (put b (put a o)))) =
      (if on_fail m && negb (ogood (set_width 0 (put b (put a o)))) then Failure else Gave (Ok tt), o1) /\
    written o1 = written (set_width 0 (put b (put a o))) /\ ogood o1 = ogood (set_width 0 (put b (put a o))) /\ oroom o1 = oroom (set_width 0 (put b (put a o))) /\
    (on_fail m && negb (ogood (set_width 0 (put b (put a o)))) = false -> o1 = set_width 0 (put b (put a o))) /\
    (on_fail m && negb (ogood (set_width 0 (put b (put a o)))) = true -> owidth o1 = owidth o)).
  { intros a b. unfold raises_out. rewrite width_good. destruct (ogood (put a o)) eqn:Ga; cbn [negb]; rewrite ?andb_false_r, ?andb_true_r.
    - destruct (on_fail m && negb (ogood (put b (put a o)))) eqn:Eb; eexists; (split; [reflexivity|]); repeat split; try discriminate; try reflexivity. intros _. now rewrite !W.
    - rewrite (put_bad b _ Ga). rewrite Ga. cbn [negb]. rewrite andb_true_r. destruct (on_fail m); eexists; (split; [reflexivity|]); (split; [reflexivity|]); (split; [first [exact Ga|rewrite width_good; exact Ga|reflexivity]|]); (split; [reflexivity|]); (split; intros Hx; try discriminate Hx; try reflexivity). apply W. }
  destruct (oleft o); apply X.
Qed.
Lemma insert_exc_throws m v o e : dumps (Some 4) v = Throw e -> insert_value_exc m v o = (Gave (Throw e), o).
Proof. intros H. unfold insert_value_exc. now rewrite H. Qed.
Lemma parse_exc_same m be cb wc i r i' : parse_istream be cb wc i = (r, i') ->
  parse_istream_exc m be cb wc i = (Failure, i') \/ parse_istream_exc m be cb wc i = (Gave r, i').
Proof. intros H. rewrite (parse_exc _ _ _ _ _ _ _ H). destruct (raises m i'); auto. Qed.
