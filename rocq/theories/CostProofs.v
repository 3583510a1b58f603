(** * The step counter changes nothing, and stays within the bound. *)
From Verif Require Import Base BaseProofs Value Packed Parser Cost SpecCost.

(** ** Erasure *)
Lemma fst_cbind {A B} (m : cost A) (f : A -> cost B) :
  fst (cbind m f) = bind (fst m) (fun a => fst (f a)).
Proof. unfold cbind. destruct m as [[a| | | | ] n]; reflexivity. Qed.
Lemma fst_tick {A} n (m : cost A) : fst (tick n m) = fst m.
Proof. reflexivity. Qed.
Lemma bind_ext {A B} (r r' : res A) (f g : A -> res B) :
  r = r' -> (forall a, f a = g a) -> bind r f = bind r' g.
Proof. intros -> H. destruct r'; cbn; auto. Qed.
Lemma bind_okl {A B} (a : A) (f : A -> res B) r : f a = r -> bind (Ok a) f = r.
Proof. intros <-. reflexivity. Qed.

Lemma drop_digits_er cur : fst (drop_digits_c cur) = Ok (drop_digits cur).
Proof.
  induction cur as [|c r IH]; cbn [drop_digits_c drop_digits]; rewrite fst_tick; [reflexivity|].
  destruct (isdigit c); [exact IH|reflexivity].
Qed.
Lemma skip_digit_er cur : fst (skip_digit_c cur) = Ok (skip_digit cur).
Proof.
  unfold skip_digit_c, skip_digit. rewrite fst_tick. destruct cur as [|c r]; [reflexivity|].
  destruct (isdigit c); [|reflexivity].
  rewrite fst_cbind, drop_digits_er. reflexivity.
Qed.
Lemma comment_loop_er line cur : fst (comment_loop_c line cur) = Ok (comment_loop line cur).
Proof.
  induction cur as [|c r IH]; cbn [comment_loop_c comment_loop]; rewrite fst_tick; [reflexivity|].
  destruct (c =? 10); [destruct line; [reflexivity|exact IH]|].
  destruct (c =? 42); [|exact IH].
  destruct r as [|c' r']; [exact IH|].
  destruct (negb line && (c' =? 47)); [reflexivity|exact IH].
Qed.
Lemma match_word_er w : forall cur, fst (match_word_c w cur) = Ok (match_word w cur).
Proof.
  induction w as [|ch w IH]; intros cur; cbn [match_word_c match_word]; rewrite fst_tick; [reflexivity|].
  destruct cur as [|c r]; [reflexivity|]. destruct (c =? ch); [apply IH|reflexivity].
Qed.

Ltac er0 :=
  match goal with
  | |- fst (tick _ _) = _ => rewrite fst_tick
  | |- fst (ret _) = _ => reflexivity
  | |- fst (stop _) = _ => reflexivity
  | |- fst (deref_c _) = _ => reflexivity
  | |- fst (advance_c _) = _ => reflexivity
  | |- fst (cbind (append_c ?a ?b) _) = _ => rewrite fst_cbind; apply bind_okl
  | |- fst (cbind (push_back_c ?a ?b) _) = _ => rewrite fst_cbind; apply bind_okl
  | |- fst (cbind (emplace_c ?k ?v ?m) _) = _ =>
      rewrite fst_cbind; apply bind_okl; destruct (map_emplace k v m)
  | |- fst (cbind (skip_digit_c ?c) _) = _ =>
      rewrite fst_cbind, skip_digit_er; apply bind_okl; destruct (skip_digit c)
  | |- fst (cbind (match_word_c ?w ?c) _) = _ =>
      rewrite fst_cbind, match_word_er; apply bind_okl; destruct (match_word w c)
  | |- fst (cbind _ _) = bind _ _ => rewrite fst_cbind; apply bind_ext; [try reflexivity|intros ?]
  | |- fst (if ?b then _ else _) = _ => destruct b
  | |- fst (match ?x with _ => _ end) = _ => destruct x
  | |- fst (let x := ?e in _) = _ => cbv zeta
  end.
Ltac er := repeat er0.

Lemma skip_comment_er cur : fst (skip_comment_c cur) = skip_comment cur.
Proof.
  unfold skip_comment_c, skip_comment. er; apply comment_loop_er.
Qed.
Lemma accel_loop_er be st f : forall cur, fst (accel_loop_c be st f cur) = accel_loop be st f cur.
Proof.
  induction f as [|f IH]; intros cur; cbn [accel_loop_c accel_loop]; [reflexivity|]. er.
  - unfold load_block_c, load_block. er.
  - unfold advance_by_c, advance_by. er.
  - unfold advance_by_c, advance_by. er.
  - apply IH.
Qed.
Lemma skip_accel_er be cur : fst (skip_accel_c be cur) = skip_accel be cur.
Proof. unfold skip_accel_c, skip_accel. er. apply accel_loop_er. Qed.
Lemma hex_loop_er n : forall cp cur, fst (hex_loop_c n cp cur) = hex_loop n cp cur.
Proof.
  induction n as [|n IH]; intros cp cur; cbn [hex_loop_c hex_loop]; [reflexivity|]. er. apply IH.
Qed.
Lemma skip_unicode_er cur ph r : fst (skip_unicode_escape_c cur ph r) = skip_unicode_escape cur ph r.
Proof. unfold skip_unicode_escape_c, skip_unicode_escape. er. apply hex_loop_er. Qed.
Lemma str_loop_er be f : forall cur result beg ph,
  fst (str_loop_c be f cur result beg ph) = str_loop be f cur result beg ph.
Proof.
  induction f as [|f IH]; intros; cbn [str_loop_c str_loop]; [reflexivity|].
  er; try apply skip_accel_er; try apply skip_unicode_er; try apply IH.
Qed.
Lemma parse_stdstring_er be cur : fst (parse_stdstring_c be cur) = parse_stdstring be cur.
Proof. unfold parse_stdstring_c, parse_stdstring. er. apply str_loop_er. Qed.
Lemma parse_null_er cur : fst (parse_null_c cur) = parse_null cur.
Proof. unfold parse_null_c, parse_null. er. Qed.
Lemma parse_boolean_er cur : fst (parse_boolean_c cur) = parse_boolean cur.
Proof. unfold parse_boolean_c, parse_boolean. er. Qed.
Lemma parse_number_er cur : fst (parse_number_c cur) = parse_number cur.
Proof. unfold parse_number_c, parse_number. er. apply skip_digit_er. Qed.
Lemma parse_string_er be cur : fst (parse_string_c be cur) = parse_string be cur.
Proof. unfold parse_string_c, parse_string. er. apply parse_stdstring_er. Qed.

Section Erase.
  Context (jsonc : bool) (be : backend).
  Lemma ws_loop_er f : forall cur, fst (ws_loop_c jsonc f cur) = ws_loop jsonc f cur.
  Proof.
    induction f as [|f IH]; intros cur; cbn [ws_loop_c ws_loop]; [reflexivity|].
    er; try apply IH. apply skip_comment_er.
  Qed.
  Lemma skip_ws_er cur : fst (skip_ws_c jsonc cur) = skip_ws jsonc cur.
  Proof. unfold skip_ws_c, skip_ws. rewrite fst_tick. apply ws_loop_er. Qed.
  Lemma array_close_er r cur : fst (array_close_c jsonc r cur) = array_close jsonc r cur.
  Proof. unfold array_close_c, array_close. er. apply skip_ws_er. Qed.
  Lemma object_close_er r cur : fst (object_close_c jsonc r cur) = object_close jsonc r cur.
  Proof. unfold object_close_c, object_close. er. apply skip_ws_er. Qed.
  Section Nested.
    Context (pvc : bytes -> cost (value * bytes)) (pv : bytes -> res (value * bytes)).
    Context (Hpv : forall cur, fst (pvc cur) = pv cur).
    Lemma array_loop_er f : forall cur r,
      fst (array_loop_c jsonc pvc f cur r) = array_loop jsonc pv f cur r.
    Proof.
      induction f as [|f IH]; intros; cbn [array_loop_c array_loop]; [reflexivity|].
      er; try apply skip_ws_er; try apply array_close_er; try apply Hpv; apply IH.
    Qed.
    Lemma parse_array_er cur : fst (parse_array_c jsonc pvc cur) = parse_array jsonc pv cur.
    Proof. unfold parse_array_c, parse_array. er; try apply skip_ws_er; apply array_loop_er. Qed.
    Lemma object_loop_er f : forall cur r,
      fst (object_loop_c jsonc be pvc f cur r) = object_loop jsonc be pv f cur r.
    Proof.
      induction f as [|f IH]; intros; cbn [object_loop_c object_loop]; [reflexivity|].
      er; try apply skip_ws_er; try apply object_close_er; try apply Hpv;
        try apply parse_stdstring_er; apply IH.
    Qed.
    Lemma parse_object_er cur : fst (parse_object_c jsonc be pvc cur) = parse_object jsonc be pv cur.
    Proof. unfold parse_object_c, parse_object. er; try apply skip_ws_er; apply object_loop_er. Qed.
  End Nested.
  Lemma parse_value_er d : forall cur,
    fst (parse_value_c jsonc be d cur) = parse_value jsonc be d cur.
  Proof.
    induction d as [|d IH]; intros cur; cbn [parse_value_c parse_value]; [reflexivity|].
    er; auto using parse_null_er, parse_boolean_er, parse_number_er, parse_string_er.
    - apply parse_array_er; exact IH.
    - apply parse_object_er; exact IH.
  Qed.
  Lemma parse_c_erases s : fst (parse_c jsonc be s) = parse jsonc be s.
  Proof.
    unfold parse_c, parse, parse_budget_c, parse_budget. er; try apply skip_ws_er.
    - apply parse_array_er; apply parse_value_er.
    - apply parse_object_er; apply parse_value_er.
  Qed.
End Erase.

(** ** Bounds *)
Definition cw {A} (m : cost A) (Q : A -> N -> Prop) : Prop :=
  match fst m with Ok a => Q a (snd m) | _ => True end.
Lemma cw_ret {A} (a : A) (Q : A -> N -> Prop) : Q a 0 -> cw (ret a) Q.
Proof. exact (fun H => H). Qed.
Lemma cw_stop {A} (r : res A) (Q : A -> N -> Prop) : (forall a, r <> Ok a) -> cw (stop r) Q.
Proof. unfold cw, stop. cbn. destruct r as [a| | | | ]; intros H; [destruct (H a eq_refl)|exact I..]. Qed.
Lemma cw_tick {A} n (m : cost A) (Q : A -> N -> Prop) : cw m (fun a c => Q a (n + c)) -> cw (tick n m) Q.
Proof. exact (fun H => H). Qed.
Lemma cw_bind {A B} (m : cost A) (f : A -> cost B) (Q : B -> N -> Prop) :
  cw m (fun a c => cw (f a) (fun b c' => Q b (c + c'))) -> cw (cbind m f) Q.
Proof. unfold cw, cbind. destruct m as [[a| | | | ] n]; cbn; auto. Qed.
Lemma cw_mono {A} (m : cost A) (P Q : A -> N -> Prop) :
  cw m P -> (forall a c, P a c -> Q a c) -> cw m Q.
Proof. unfold cw. destruct (fst m); auto. Qed.
Lemma cw_deref cur (Q : N -> N -> Prop) :
  (forall c r, cur = c :: r -> Q c 1) -> cw (deref_c cur) Q.
Proof. unfold cw, deref_c. cbn. destruct cur as [|c r]; cbn; eauto. Qed.
Lemma cw_advance cur (Q : bytes -> N -> Prop) :
  (forall c r, cur = c :: r -> Q r 1) -> cw (advance_c cur) Q.
Proof. unfold cw, advance_c. cbn. destruct cur as [|c r]; cbn; eauto. Qed.
Lemma cw_append s t (Q : bytes -> N -> Prop) :
  Q (s ++ t) (1 + N.of_nat (length t)) -> cw (append_c s t) Q.
Proof. exact (fun H => H). Qed.
Lemma cw_push l v (Q : array -> N -> Prop) : Q (l ++ [v]) 1 -> cw (push_back_c l v) Q.
Proof. exact (fun H => H). Qed.
Lemma cw_emplace k v m (Q : object * bool -> N -> Prop) :
  Q (map_emplace k v m) (emplace_cost k (length m)) -> cw (emplace_c k v m) Q.
Proof. exact (fun H => H). Qed.

Definition ln (s : bytes) : N := N.of_nat (length s).
Lemma ln_cons c r : ln (c :: r) = 1 + ln r.
Proof. unfold ln. cbn [length]. lia. Qed.
Lemma ln_nil : ln [] = 0.
Proof. reflexivity. Qed.
Lemma length_slice beg cur : (length (slice beg cur) <= length beg - length cur)%nat.
Proof. unfold slice. rewrite firstn_length. lia. Qed.

Lemma cw_drop_digits cur :
  cw (drop_digits_c cur) (fun cur' c => ln cur' <= ln cur /\ c + 2 * ln cur' <= 2 * ln cur + 2).
Proof.
  induction cur as [|d r IH]; cbn [drop_digits_c].
  - apply cw_tick, cw_ret. rewrite ln_nil. lia.
  - apply cw_tick. destruct (isdigit d).
    + eapply cw_mono; [exact IH|]. intros a c H. cbn beta in *. rewrite ln_cons. lia.
    + apply cw_ret. rewrite ln_cons. lia.
Qed.
Lemma cw_skip_digit cur :
  cw (skip_digit_c cur) (fun '(ok, cur') c => ln cur' <= ln cur /\
     (ok = true -> ln cur' < ln cur) /\ c + 2 * ln cur' <= 2 * ln cur + 4).
Proof.
  unfold skip_digit_c. apply cw_tick. destruct cur as [|d r].
  - apply cw_ret. repeat split; try easy; lia.
  - destruct (isdigit d).
    + apply cw_bind. eapply cw_mono; [apply cw_drop_digits|]. intros cur' c H. cbn beta in *.
      apply cw_ret. rewrite !ln_cons. repeat split; intros; lia.
    + apply cw_ret. rewrite !ln_cons. repeat split; try easy; lia.
Qed.
Ltac exactW W := eapply cw_mono; [exact W|intros [? ?] ? HH; exact HH].
Lemma cw_comment_loop line cur :
  cw (comment_loop_c line cur) (fun '(ok, cur') c => ln cur' <= ln cur /\ c + 3 * ln cur' <= 3 * ln cur + 3).
Proof.
  induction cur as [|d r IH]; cbn [comment_loop_c].
  - apply cw_tick, cw_ret. rewrite ln_nil. lia.
  - assert (W : cw (comment_loop_c line r) (fun '(ok, cur') c => ln cur' <= ln (d :: r)
       /\ (3 + c) + 3 * ln cur' <= 3 * ln (d :: r) + 3)).
    { eapply cw_mono; [exact IH|]. intros [ok cur'] c H. cbn beta iota in *. rewrite ln_cons. lia. }
    apply cw_tick. destruct (d =? 10).
    + destruct line; [apply cw_ret; rewrite ln_cons; lia|exactW W].
    + destruct (d =? 42); [|exactW W]. destruct r as [|d' r']; [exactW W|].
      destruct (negb line && (d' =? 47)); [|exactW W]. apply cw_ret. rewrite !ln_cons. lia.
Qed.
Ltac norm :=
  repeat match goal with
  | H : _ :: _ = _ :: _ |- _ => injection H; clear H; intros; subst
  | H : ?x = _ :: _ |- _ => subst x
  end.
Ltac step1 :=
  match goal with
  | |- cw (tick _ _) _ => apply cw_tick
  | |- cw (ret _) _ => apply cw_ret
  | |- cw (stop _) _ => apply cw_stop; discriminate
  | |- cw (cbind (deref_c _) _) _ => apply cw_bind, cw_deref; intros ? ? ?; norm
  | |- cw (cbind (advance_c _) _) _ => apply cw_bind, cw_advance; intros ? ? ?; norm
  | |- cw (cbind (append_c _ _) _) _ => apply cw_bind, cw_append
  | |- cw (cbind (push_back_c _ _) _) _ => apply cw_bind, cw_push
  | |- cw (if ?b then _ else _) _ => destruct b eqn:?
  end.
Lemma cw_skip_comment cur :
  cw (skip_comment_c cur) (fun '(ok, cur') c => ln cur' <= ln cur /\
    (ok = true -> ln cur' < ln cur) /\ c + 3 * ln cur' <= 3 * ln cur + 4).
Proof.
  unfold skip_comment_c. repeat step1; rewrite ?ln_cons; try (repeat split; try easy; lia).
  - eapply cw_mono; [apply cw_comment_loop|]. intros [ok cur'] c H. cbn beta iota in *.
    repeat split; intros; lia.
  - eapply cw_mono; [apply cw_comment_loop|]. intros [ok cur'] c H. cbn beta iota in *.
    repeat split; intros; lia.
Qed.
Lemma step_bound be st : step be = Some st -> (4 <= st <= 32)%nat.
Proof. destruct be; cbn; intros E; first [discriminate E|injection E as <-; lia]. Qed.
Lemma cw_load n cur (Q : bytes -> N -> Prop) : Q (firstn n cur) (N.of_nat n) -> cw (load_block_c n cur) Q.
Proof. intros H. unfold load_block_c. step1. step1; [step1|]. step1. rewrite N.add_0_r. exact H. Qed.
Lemma cw_advance_by n cur (Q : bytes -> N -> Prop) :
  ((n <= length cur)%nat -> Q (skipn n cur) 1) -> cw (advance_by_c n cur) Q.
Proof. intros H. unfold advance_by_c. step1. step1; [step1|]. step1. apply H. lia. Qed.
Lemma cw_accel_loop be st f : (4 <= st <= 32)%nat -> forall cur,
  cw (accel_loop_c be st f cur) (fun cur' c => ln cur' <= ln cur /\ c + 2 * ln cur' <= 2 * ln cur + 33).
Proof.
  intros Hst. induction f as [|f IH]; intros cur; cbn [accel_loop_c]; [step1|].
  step1; [|step1; lia].
  apply cw_bind, cw_load. destruct (scan be (firstn st cur)) as [i|].
  - apply cw_advance_by. intros Hi. unfold ln in *. rewrite skipn_length. lia.
  - apply cw_bind, cw_advance_by. intros Hi. eapply cw_mono; [apply IH|].
    intros cur' c [H1 H2]. unfold ln in *. rewrite skipn_length in H1, H2. lia.
Qed.
Lemma cw_skip_accel be cur :
  cw (skip_accel_c be cur) (fun '(_, cur') c => ln cur' <= ln cur /\ c + 2 * ln cur' <= 2 * ln cur + 33).
Proof.
  unfold skip_accel_c. destruct (step be) as [st|] eqn:E; [|step1; lia].
  apply cw_bind. eapply cw_mono; [apply cw_accel_loop; exact (step_bound _ _ E)|].
  intros cur' c H. cbn beta in *. step1. lia.
Qed.
Lemma cw_hex_loop n : forall cp cur,
  cw (hex_loop_c n cp cur) (fun '(o, cur') c => ln cur' <= ln cur /\
    (o <> None -> ln cur' + N.of_nat n = ln cur) /\ c <= 2 * N.of_nat n).
Proof.
  induction n as [|n IH]; intros cp cur; cbn [hex_loop_c].
  - step1. repeat split; intros; lia.
  - step1. step1; [step1; rewrite ln_cons; repeat split; try easy; lia|].
    step1. destruct (hex_value c0) as [d|].
    + eapply cw_mono; [apply IH|]. intros [o cur'] c' (A1 & A2 & A3). cbn beta iota in *. rewrite !ln_cons in *.
      repeat split; [lia|intros Ho; specialize (A2 Ho); lia|lia].
    + step1. rewrite !ln_cons. repeat split; try easy; lia.
Qed.
Lemma length_utf8_emit cp : (length (utf8_emit cp) <= 4)%nat.
Proof. unfold utf8_emit. repeat match goal with |- context [if ?b then _ else _] => destruct b end; cbn; lia. Qed.
Lemma cw_unicode cur ph result :
  cw (skip_unicode_escape_c cur ph result) (fun '(ok, cur', ph', result') c =>
    ln cur' <= ln cur /\ (ok = true -> ln cur' + 4 = ln cur) /\
    (length result' <= length result + 4)%nat /\ c <= 13).
Proof.
  unfold skip_unicode_escape_c. apply cw_bind. eapply cw_mono; [apply cw_hex_loop|].
  intros [o cur'] c (H1 & H2 & H3). cbn beta iota in *. destruct o as [cp|].
  2: { step1. repeat split; try easy; lia. }
  assert (ln cur' + 4 = ln cur) by (apply H2; discriminate).
  repeat step1; cbv zeta; repeat step1;
    try (match goal with |- context [utf8_emit ?x] => pose proof (length_utf8_emit x) end);
    rewrite ?app_length; repeat split; try easy; try lia.
Qed.
Ltac fin :=
  unfold ln in *; cbn [length] in *; rewrite ?app_length in *; cbn [length] in *;
  repeat match goal with
  | |- _ /\ _ => split
  | |- forall _, _ => intros
  end; subst; try discriminate; lia.

Lemma cw_str_loop be f : forall cur result beg ph, (length cur <= length beg)%nat ->
  cw (str_loop_c be f cur result beg ph) (fun '(o, cur') c =>
    ln cur' <= ln cur /\
    (forall s, o = Some s -> (length s + length cur' + 1 <= length result + length beg)%nat) /\
    c + 60 * ln cur' <= 60 * ln cur + (ln beg - ln cur) + 60).
Proof.
  induction f as [|f IH]; intros cur result beg ph Hb; cbn [str_loop_c]; [step1|].
  step1. step1; [step1; fin|].
  apply cw_bind. eapply cw_mono; [apply cw_skip_accel|]. intros [more cur1] k1 [L1 K1].
  cbn beta iota in *. step1; [step1; fin|].
  step1. step1; [step1; fin|]. pose proof (length_slice beg (c :: r)) as Hs. cbn [length] in Hs.
  step1.
  - (* an escape *)
    step1. step1. step1; [step1; fin|]. step1. step1; [step1; fin|]. step1.
    + apply cw_bind. eapply cw_mono; [apply cw_unicode|].
      intros [[[ok cur2] ph2] result2] k2 (L2 & L2' & R2 & K2). cbn beta iota in *.
      step1; [step1; fin|]. destruct ok; [|discriminate]. specialize (L2' eq_refl).
      step1. eapply cw_mono; [apply IH; lia|]. intros [o cur3] k3 (L3 & S3 & K3).
      cbn beta iota in *. unfold ln in *. cbn [length] in *. rewrite app_length in R2.
      split; [lia|]. split; [intros s E; specialize (S3 s E); lia|lia].
    + match goal with |- context [simple_escape ?x] => destruct (simple_escape x) as [e|] end; [|step1; fin].
      step1. step1. eapply cw_mono; [apply IH; lia|]. intros [o cur3] k3 (L3 & S3 & K3).
      cbn beta iota in *. unfold ln in *. rewrite !app_length in S3. cbn [length] in *.
      split; [lia|]. split; [intros s E; specialize (S3 s E); lia|lia].
  - step1.
    + step1; [step1; fin|]. step1. step1. step1.
      unfold ln in *. cbn [length] in *. split; [lia|].
      split; [intros s E; injection E as <-; rewrite app_length; lia|lia].
    + step1; [step1; fin|]. step1; [step1; fin|]. step1.
      eapply cw_mono; [apply IH; unfold ln in *; cbn [length] in *; lia|].
      intros [o cur3] k3 (L3 & S3 & K3). cbn beta iota in *. unfold ln in *. cbn [length] in *.
      split; [lia|]. split; [intros s E; specialize (S3 s E); lia|lia].
Qed.
Lemma cw_stdstring be cur :
  cw (parse_stdstring_c be cur) (fun '(o, cur') c =>
    ln cur' <= ln cur /\
    (forall s, o = Some s -> (length s + length cur' + 2 <= length cur)%nat) /\
    c + 60 * ln cur' <= 60 * ln cur + 62).
Proof.
  unfold parse_stdstring_c. step1. step1; [|step1; fin]. step1.
  eapply cw_mono; [apply cw_str_loop; lia|]. intros [o cur3] k3 (L3 & S3 & K3).
  cbn beta iota in *. unfold ln in *. cbn [length] in *.
  split; [lia|]. split; [intros s E; specialize (S3 s E); lia|lia].
Qed.
Lemma cw_match_word w : forall cur,
  cw (match_word_c w cur) (fun '(ok, cur') c => ln cur' <= ln cur /\
    (ok = true -> ln cur' + ln w = ln cur) /\ c <= ln w + 1).
Proof.
  induction w as [|ch w IH]; intros cur; cbn [match_word_c].
  - step1. step1. fin.
  - step1. destruct cur as [|c r]; [step1; fin|]. step1; [|step1; fin].
    eapply cw_mono; [apply IH|]. intros [ok cur'] k (L & S & K). cbn beta iota in *.
    unfold ln in *. cbn [length] in *. split; [lia|]. split; [intros E; specialize (S E); lia|lia].
Qed.

(** What a sub-parser returns and costs: at least one byte is used up by a valid
    value, whose size is at most one more than the bytes used. *)
Definition scalar_post (cur : bytes) (p : value * bytes) (c : N) : Prop :=
  ln (snd p) <= ln cur /\
  (valid (fst p) = true -> ln (snd p) < ln cur /\
     N.of_nat (vsize (fst p)) + ln (snd p) <= ln cur + 1) /\
  c + 60 * ln (snd p) <= 60 * ln cur + 65.
Ltac post :=
  unfold scalar_post, v_number, v_string; cbn [fst snd];
  change (vsize (v_bool true)) with 5%nat; change (vsize (v_bool false)) with 6%nat;
  change (vsize v_null) with 1%nat;
  repeat match goal with |- _ /\ _ => split | |- _ -> _ => intros end;
  try discriminate; unfold ln in *; cbn [length vsize] in *; lia.
Lemma cw_null cur : cw (parse_null_c cur) (scalar_post cur).
Proof.
  unfold parse_null_c. apply cw_bind. eapply cw_mono; [apply cw_match_word|].
  intros [ok cur'] k (L & S & K). cbn beta iota in *.
  change (ln null_string) with 4 in *. step1. destruct ok; [specialize (S eq_refl)|]; post.
Qed.
Lemma cw_boolean cur : cw (parse_boolean_c cur) (scalar_post cur).
Proof.
  unfold parse_boolean_c. step1. step1; [|step1; [|step1; post]].
  - apply cw_bind. eapply cw_mono; [apply cw_match_word|].
    intros [ok cur'] k (L & S & K). cbn beta iota in *.
    change (ln true_string) with 4 in *. step1. destruct ok; [specialize (S eq_refl)|]; post.
  - apply cw_bind. eapply cw_mono; [apply cw_match_word|].
    intros [ok cur'] k (L & S & K). cbn beta iota in *.
    change (ln false_string) with 5 in *. step1. destruct ok; [specialize (S eq_refl)|]; post.
Qed.
Lemma cw_minus cur b (Q : bytes -> N -> Prop) :
  (forall r k, ln r <= ln cur -> k + 2 * ln r <= 2 * ln cur + 1 -> Q r k) ->
  cw (if b : bool then advance_c cur else ret cur) Q.
Proof.
  intros H. destruct b.
  - apply cw_advance. intros c r ->. apply H; rewrite ln_cons; lia.
  - step1. apply H; lia.
Qed.
Lemma cw_number cur : cw (parse_number_c cur) (scalar_post cur).
Proof.
  unfold parse_number_c. step1. apply cw_bind, cw_minus. intros cur1 k1 L1 K1. cbv zeta.
  match goal with |- cw (if ?b then _ else _) _ => destruct b eqn:? end; [step1; post|].
  apply cw_bind. eapply cw_mono; [apply cw_skip_digit|].
  intros [ok cur2] k2 (L2 & S2 & K2). cbn beta iota in *. step1; [step1; post|].
  destruct ok; [|discriminate]. specialize (S2 eq_refl).
  step1. apply cw_bind.
  eapply cw_mono with (P := fun '(_, cur') k => ln cur' <= ln (c0 :: r0) /\ k + 2 * ln cur' <= 2 * ln (c0 :: r0) + 5).
  { destruct (c0 =? 46); [|step1; lia]. step1. eapply cw_mono; [apply cw_skip_digit|].
    intros [ok' cur3] k3 (L3 & S3 & K3). cbn beta iota in *. rewrite ln_cons. lia. }
  intros [ok cur3] k3 [L3 K3]. cbn beta iota in *. step1; [step1; post|]. step1. step1.
  - step1. step1; [step1; post|]. step1. apply cw_bind, cw_minus. intros cur5 k5 L5 K5.
    apply cw_bind. eapply cw_mono; [apply cw_skip_digit|].
    intros [ok6 cur6] k6 (L6 & S6 & K6). cbn beta iota in *. step1; [step1; post|].
    step1. step1.
    match goal with |- context [slice ?a ?b] => pose proof (length_slice a b) end. cbn [app] in *. post.
  - step1. step1.
    match goal with |- context [slice ?a ?b] => pose proof (length_slice a b) end. cbn [app] in *. post.
Qed.
Lemma cw_string be cur : cw (parse_string_c be cur) (scalar_post cur).
Proof.
  unfold parse_string_c. apply cw_bind. eapply cw_mono; [apply cw_stdstring|].
  intros [o cur'] k (L & S & K). cbn beta iota in *. destruct o as [s|]; step1.
  - specialize (S s eq_refl). unfold v_string. post.
  - post.
Qed.

Definition asz (l : array) : nat := list_sum (map vsize l).
Definition osz (l : object) : nat :=
  list_sum (map (fun '(k, x) => 1 + length k + vsize x)%nat l).
Lemma asz_snoc l v : asz (l ++ [v]) = (asz l + vsize v)%nat.
Proof. unfold asz. rewrite map_app, list_sum_app. cbn. lia. Qed.
Lemma osz_cons k v m : osz ((k, v) :: m) = (1 + length k + vsize v + osz m)%nat.
Proof. reflexivity. Qed.
Lemma emplace_osz k v m :
  (osz (fst (map_emplace k v m)) <= osz m + (1 + length k + vsize v))%nat /\
  (length (fst (map_emplace k v m)) <= S (length m))%nat.
Proof.
  induction m as [|[k' v'] m [IH1 IH2]]; cbn [map_emplace].
  - split; [cbn [fst]; rewrite osz_cons; lia|cbn; lia].
  - destruct (bytes_ltb k k'); [split; [cbn [fst]; rewrite osz_cons; lia|cbn; lia]|].
    destruct (bytes_eqb k k'); [split; cbn [fst length]; lia|].
    destruct (map_emplace k v m) as [r b]. cbn [fst] in *. split; [|cbn [length]; lia].
    rewrite !osz_cons. lia.
Qed.
Lemma scale_up a A c l l' b : a <= A -> l' <= l -> c + a * l' <= a * l + b -> c + A * l' <= A * l + b.
Proof. intros. nia. Qed.

Section Bounds.
  Context (jsonc : bool) (be : backend) (N0 : N).
  Definition keyc : N := 2 * N.log2 (N0 + 1) + 1.
  Definition rate : N := 180 + 2 * keyc.

  Lemma cw_ws_loop f : forall cur,
    cw (ws_loop_c jsonc f cur) (fun '(_, cur') c => ln cur' <= ln cur /\ c + 12 * ln cur' <= 12 * ln cur + 10).
  Proof.
    induction f as [|f IH]; intros cur; cbn [ws_loop_c]; [step1|].
    destruct cur as [|x r]; [step1; lia|]. step1. step1; [|step1; [step1|step1; step1; lia]].
    - eapply cw_mono; [apply IH|]. intros [o cur'] k H. cbn beta iota in *. rewrite ln_cons. lia.
    - apply cw_bind. eapply cw_mono; [apply cw_skip_comment|].
      intros [ok cur'] k (L & S & K). cbn beta iota in *. step1; [|step1; lia].
      specialize (S eq_refl). eapply cw_mono; [apply IH|]. intros [o cur2] k2 H. cbn beta iota in *. lia.
    - step1. lia.
  Qed.
  Lemma cw_ws cur (Q : bool * bytes -> N -> Prop) :
    (forall ok cur' k, ln cur' <= ln cur -> k + rate * ln cur' <= rate * ln cur + 11 -> Q (ok, cur') k) ->
    cw (skip_ws_c jsonc cur) Q.
  Proof.
    intros H. unfold skip_ws_c. step1. eapply cw_mono; [apply cw_ws_loop|].
    intros [ok cur'] k [L K]. cbn beta iota in *. apply H; [exact L|].
    apply (scale_up 12); [unfold rate; lia|exact L|lia].
  Qed.
  Definition value_post (cur : bytes) (p : value * bytes) (c : N) : Prop :=
    ln (snd p) <= ln cur /\
    (valid (fst p) = true -> ln (snd p) < ln cur /\
       N.of_nat (vsize (fst p)) + ln (snd p) <= ln cur + 1) /\
    c + rate * ln (snd p) <= rate * ln cur + 67.
  Ltac inval := repeat match goal with |- _ /\ _ => split | |- valid invalid_value = true -> _ => discriminate end.

  (** after the opening bracket: [n] is the size of what has been read before *)
  Definition close_post (n : nat) (pend : N) (cur : bytes) (p : value * bytes) (c : N) : Prop :=
    ln (snd p) <= ln cur /\
    (valid (fst p) = true -> N.of_nat (vsize (fst p)) + ln (snd p) <= ln cur + N.of_nat n + 1) /\
    c + rate * ln (snd p) <= rate * ln cur + 115 + pend.
  (** what is still to be paid for the elements and members that were read *)
  Definition apend (r : array) : N := 3 * N.of_nat (length r).
  Fixpoint opend (r : object) : N :=
    match r with [] => 0 | (k, _) :: r => 3 + N.of_nat (length k) + keyc * (N.of_nat (length k) + 1) + opend r end.
  Lemma apend_snoc r v : apend (r ++ [v]) = apend r + 3.
  Proof. unfold apend. rewrite app_length. cbn [length]. lia. Qed.
  Lemma opend_emplace k v r :
    opend (fst (map_emplace k v r)) <= opend r + (3 + N.of_nat (length k) + keyc * (N.of_nat (length k) + 1)).
  Proof.
    induction r as [|[k' v'] r IH]; cbn [map_emplace].
    - cbn [fst opend]. lia.
    - destruct (bytes_ltb k k'); [cbn [fst opend]; lia|].
      destruct (bytes_eqb k k'); [cbn [fst opend]; lia|].
      destruct (map_emplace k v r) as [r' b]. cbn [fst opend] in *. lia.
  Qed.
  Lemma emplace_keyc k m : N.of_nat m <= N0 -> emplace_cost k m <= keyc * (N.of_nat (length k) + 1).
  Proof.
    intros H. unfold emplace_cost, keyc. apply N.mul_le_mono_r.
    assert (N.log2 (N.of_nat m + 1) <= N.log2 (N0 + 1)) by (apply N.log2_le_mono; lia). lia.
  Qed.
  Lemma handing_pend r : forall m, N.of_nat m + N.of_nat (length r) <= N0 -> object_handing m r <= opend r + 3.
  Proof.
    induction r as [|[k v] r IH]; intros m Hm; cbn [object_handing opend length] in *; [lia|].
    specialize (IH (S m)). pose proof (emplace_keyc k m). lia.
  Qed.
  Lemma cw_array_close r cur :
    cw (array_close_c jsonc r cur) (fun p c =>
      ln (snd p) <= ln cur /\
      (valid (fst p) = true -> ln (snd p) + 1 <= ln cur /\ vsize (fst p) = S (asz r)) /\
      c + rate * ln (snd p) <= rate * ln cur + 16 + apend r).
  Proof.
    assert (HP : array_handing r = apend r + 3) by (unfold array_handing, apend; lia).
    unfold array_close_c. apply cw_bind, cw_ws. intros ok cur1 k1 L1 K1. cbn beta iota.
    step1; [step1; cbn [fst snd]; inval; lia|]. step1. step1; [|step1; cbn [fst snd]; inval; lia].
    step1. step1. step1. cbn [fst snd]. rewrite ln_cons in *. split; [lia|]. split; [intros _; split; [lia|reflexivity]|].
    lia.
  Qed.
  Lemma cw_object_close r cur : N.of_nat (length r) <= N0 ->
    cw (object_close_c jsonc r cur) (fun p c =>
      ln (snd p) <= ln cur /\
      (valid (fst p) = true -> ln (snd p) + 1 <= ln cur /\ vsize (fst p) = S (osz r)) /\
      c + rate * ln (snd p) <= rate * ln cur + 16 + opend r).
  Proof.
    intros Hr. pose proof (handing_pend r 0 ltac:(lia)) as HP.
    unfold object_close_c. apply cw_bind, cw_ws. intros ok cur1 k1 L1 K1. cbn beta iota.
    step1; [step1; cbn [fst snd]; inval; lia|]. step1. step1; [|step1; cbn [fst snd]; inval; lia].
    step1. step1. step1. cbn [fst snd]. rewrite ln_cons in *. split; [lia|]. split; [intros _; split; [lia|reflexivity]|].
    lia.
  Qed.
  Lemma rate_big : 180 <= rate.
  Proof. unfold rate. lia. Qed.

  Section Nested.
    Context (pv : bytes -> cost (value * bytes)).
    Context (Hpv : forall cur, ln cur <= N0 -> cw (pv cur) (value_post cur)).

    Lemma cw_array_loop f : forall cur r, ln cur <= N0 ->
      cw (array_loop_c jsonc pv f cur r) (close_post (asz r) (apend r) cur).
    Proof.
      pose proof rate_big as RB.
      induction f as [|f IH]; intros cur r HN; cbn [array_loop_c]; [step1|]. unfold close_post.
      step1. apply cw_bind, cw_ws. intros ok cur1 k1 L1 K1. cbn beta iota.
      step1; [step1; cbn [fst snd]; inval; lia|]. step1. step1.
      { eapply cw_mono; [apply cw_array_close|]. intros [v cur2] k2 (L2 & V2 & K2).
        cbn [fst snd] in *. split; [lia|]. split; [intros V; specialize (V2 V); lia|lia]. }
      apply cw_bind. eapply cw_mono; [apply Hpv; lia|].
      intros [v cur2] k2 (L2 & V2 & K2). cbn [fst snd] in *. cbn beta iota.
      step1; [step1; cbn [fst snd]; inval; lia|].
      destruct V2 as [V2 V3]; [destruct (valid v); [reflexivity|discriminate]|].
      apply cw_bind, cw_ws. intros ok3 cur3 k3 L3 K3. cbn beta iota.
      step1; [step1; cbn [fst snd]; inval; lia|]. step1. step1. step1.
      - step1. eapply cw_mono; [apply IH; rewrite !ln_cons in *; lia|].
        intros [w cur4] k4 (L4 & V4 & K4). cbn [fst snd] in *. rewrite asz_snoc in V4. rewrite apend_snoc in K4.
        rewrite !ln_cons in *. split; [lia|].
        split; [intros V; specialize (V4 V); lia|lia].
      - eapply cw_mono; [apply cw_array_close|].
        intros [w cur4] k4 (L4 & V4 & K4). cbn [fst snd] in *. rewrite asz_snoc in V4. rewrite apend_snoc in K4.
        split; [lia|]. split; [intros V; specialize (V4 V); lia|lia].
    Qed.
    Lemma cw_parse_array cur : ln cur <= N0 ->
      cw (parse_array_c jsonc pv cur) (fun p c =>
        ln (snd p) <= ln cur /\
        (valid (fst p) = true -> ln (snd p) < ln cur /\ N.of_nat (vsize (fst p)) + ln (snd p) <= ln cur) /\
        c + rate * ln (snd p) <= rate * ln cur + 60).
    Proof.
      intros HN. pose proof rate_big as RB. unfold parse_array_c. step1. step1; [step1; cbn [fst snd]; inval; lia|].
      step1. rewrite !ln_cons in *.
      apply cw_bind, cw_ws. intros ok cur1 k1 L1 K1. cbn beta iota.
      step1; [step1; cbn [fst snd]; inval; lia|]. step1. step1.
      - step1. step1. cbn [fst snd]. rewrite !ln_cons in *. change (vsize (v_array [])) with 1%nat.
        repeat split; lia.
      - eapply cw_mono; [apply cw_array_loop; lia|].
        intros [w cur4] k4 (L4 & V4 & K4). cbn [fst snd] in *. change (asz []) with 0%nat in V4. change (apend []) with 0 in K4.
        split; [lia|]. split; [intros V; specialize (V4 V); lia|lia].
    Qed.
    Lemma cw_object_loop f : forall cur r, ln cur + N.of_nat (length r) <= N0 ->
      cw (object_loop_c jsonc be pv f cur r) (close_post (osz r) (opend r) cur).
    Proof.
      pose proof rate_big as RB.
      induction f as [|f IH]; intros cur r HN; cbn [object_loop_c]; [step1|]. unfold close_post.
      step1. apply cw_bind, cw_ws. intros ok cur1 k1 L1 K1. cbn beta iota.
      step1; [step1; cbn [fst snd]; inval; lia|]. step1. step1.
      { eapply cw_mono; [apply cw_object_close; rewrite ?ln_cons in *; lia|]. intros [v cur2] k2 (L2 & V2 & K2).
        cbn [fst snd] in *. split; [lia|]. split; [intros V; specialize (V2 V); lia|lia]. }
      apply cw_bind. eapply cw_mono; [apply cw_stdstring|].
      intros [o cur2] k2 (L2 & S2 & K2). cbn beta iota in *.
      remember (c :: r0) as cur0 eqn:Ec0.
      assert (K2' : k2 + keyc * (ln cur0 - ln cur2) + keyc * (ln cur0 - ln cur2) + 20 * (ln cur0 - ln cur2) + rate * ln cur2 <= rate * ln cur0 + 62)
        by (unfold rate; nia).
      clear Ec0. destruct o as [key|]; [|step1; cbn [fst snd]; inval; lia].
      specialize (S2 key eq_refl).
      apply cw_bind, cw_ws. intros ok3 cur3 k3 L3 K3. cbn beta iota.
      step1; [step1; cbn [fst snd]; inval; lia|]. step1. step1; [step1; cbn [fst snd]; inval; lia|].
      step1. rewrite !ln_cons in *.
      apply cw_bind, cw_ws. intros ok4 cur4 k4 L4 K4. cbn beta iota.
      step1; [step1; cbn [fst snd]; inval; lia|].
      apply cw_bind. eapply cw_mono; [apply Hpv; lia|].
      intros [v cur5] k5 (L5 & V5 & K5). cbn [fst snd] in *. cbn beta iota.
      step1; [step1; cbn [fst snd]; inval; lia|].
      destruct V5 as [V5 V5']; [destruct (valid v); [reflexivity|discriminate]|].
      apply cw_bind, cw_ws. intros ok6 cur6 k6 L6 K6. cbn beta iota.
      step1; [step1; cbn [fst snd]; inval; lia|].
      apply cw_bind, cw_emplace. pose proof (emplace_osz key v r) as [O1 O2].
      pose proof (opend_emplace key v r) as O3.
      assert (KK : keyc * (N.of_nat (length key) + 1) <= keyc * (ln cur0 - ln cur2))
        by (apply N.mul_le_mono_l; unfold ln in *; lia).
      pose proof (emplace_keyc key (length r) ltac:(lia)) as KE.
      destruct (map_emplace key v r) as [r' emplaced] eqn:Er. cbn [fst] in *. cbn beta iota.
      assert (S2' : N.of_nat (length key) + ln cur2 + 2 <= ln cur0) by (unfold ln in *; lia).
      step1; [step1; cbn [fst snd]; inval; lia|]. step1. step1.
      - step1. rewrite !ln_cons in *. eapply cw_mono; [apply IH; lia|].
        intros [w cur8] k8 (L8 & V8 & K8). cbn [fst snd] in *.
        split; [lia|]. split; [intros V; specialize (V8 V); lia|lia].
      - eapply cw_mono; [apply cw_object_close; rewrite ?ln_cons in *; lia|].
        intros [w cur8] k8 (L8 & V8 & K8). cbn [fst snd] in *.
        split; [lia|]. split; [intros V; specialize (V8 V); lia|lia].
    Qed.
    Lemma cw_parse_object cur : ln cur <= N0 ->
      cw (parse_object_c jsonc be pv cur) (fun p c =>
        ln (snd p) <= ln cur /\
        (valid (fst p) = true -> ln (snd p) < ln cur /\ N.of_nat (vsize (fst p)) + ln (snd p) <= ln cur) /\
        c + rate * ln (snd p) <= rate * ln cur + 60).
    Proof.
      intros HN. pose proof rate_big as RB. unfold parse_object_c. step1. step1; [step1; cbn [fst snd]; inval; lia|].
      step1. rewrite !ln_cons in *.
      apply cw_bind, cw_ws. intros ok cur1 k1 L1 K1. cbn beta iota.
      step1; [step1; cbn [fst snd]; inval; lia|]. step1. step1.
      - step1. step1. cbn [fst snd]. rewrite !ln_cons in *. change (vsize (v_object [])) with 1%nat.
        repeat split; lia.
      - eapply cw_mono; [apply cw_object_loop; cbn [length]; lia|].
        intros [w cur4] k4 (L4 & V4 & K4). cbn [fst snd] in *. change (osz []) with 0%nat in V4. change (opend []) with 0 in K4.
        split; [lia|]. split; [intros V; specialize (V4 V); lia|lia].
    Qed.
  End Nested.
  Lemma value_of_scalar (m : cost (value * bytes)) cur :
    cw m (scalar_post cur) -> cw m (fun p c => value_post cur p (1 + (1 + c)) ).
  Proof.
    intros H. eapply cw_mono; [exact H|]. intros p c (L & V & K).
    split; [exact L|]. split; [exact V|].
    apply (scale_up 60); [pose proof rate_big; lia|exact L|lia].
  Qed.
  Lemma cw_parse_value d : forall cur, ln cur <= N0 ->
    cw (parse_value_c jsonc be d cur) (value_post cur).
  Proof.
    induction d as [|d IH]; intros cur HN; cbn [parse_value_c]; [step1|].
    step1. step1.
    step1; [apply value_of_scalar, cw_null|].
    step1; [apply value_of_scalar, cw_boolean|].
    step1; [apply value_of_scalar, cw_number|].
    step1; [apply value_of_scalar, cw_string|].
    step1.
    { eapply cw_mono; [apply cw_parse_array; [exact IH|exact HN]|].
      intros [v cur2] k2 (L2 & V2 & K2). unfold value_post. cbn [fst snd] in *.
      split; [lia|]. split; [intros V; specialize (V2 V); lia|lia]. }
    step1.
    { eapply cw_mono; [apply cw_parse_object; [exact IH|exact HN]|].
      intros [v cur2] k2 (L2 & V2 & K2). unfold value_post. cbn [fst snd] in *.
      split; [lia|]. split; [intros V; specialize (V2 V); lia|lia]. }
    step1. unfold value_post. cbn [fst snd]. inval; lia.
  Qed.
End Bounds.

(** The work of parsing [n] bytes, and the size of the result. *)
Lemma cw_parse jsonc be s :
  cw (parse_c jsonc be s) (fun o c =>
    (forall v, o = Some v -> (vsize v <= length s)%nat) /\
    c <= rate (ln s) * ln s + 100).
Proof.
  pose proof (rate_big (ln s)) as RB.
  unfold parse_c, parse_budget_c. apply cw_bind, (cw_ws jsonc (ln s)). intros ok cur1 k1 L1 K1.
  cbn beta iota. step1; [step1; split; [discriminate|lia]|].
  step1. step1; [|step1; split; [discriminate|lia]].
  apply cw_bind.
  eapply cw_mono with (P := fun p k => ln (snd p) <= ln (c :: r) /\
    (valid (fst p) = true -> N.of_nat (vsize (fst p)) + ln (snd p) <= ln (c :: r)) /\
    k + rate (ln s) * ln (snd p) <= rate (ln s) * ln (c :: r) + 60).
  { destruct (c =? 91).
    - eapply cw_mono; [apply cw_parse_array; [intros; apply cw_parse_value; assumption|exact L1]|].
      intros p k (L & V & K). split; [exact L|]. split; [intros E; apply V; exact E|exact K].
    - eapply cw_mono; [apply cw_parse_object; [intros; apply cw_parse_value; assumption|exact L1]|].
      intros p k (L & V & K). split; [exact L|]. split; [intros E; apply V; exact E|exact K]. }
  intros [v cur2] k2 (L2 & V2 & K2). cbn [fst snd] in *. cbn beta iota.
  step1; [step1; split; [discriminate|lia]|].
  apply cw_bind, (cw_ws jsonc (ln s)). intros ok3 cur3 k3 L3 K3. cbn beta iota.
  step1; step1; (split; [|lia]); intros w E; [discriminate|]. injection E as <-.
  destruct (valid v); [|discriminate]. specialize (V2 eq_refl). unfold ln in *. lia.
Qed.
