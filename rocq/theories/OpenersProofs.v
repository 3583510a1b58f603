(** * The parser needs no more levels than the text opens brackets. *)
From Verif Require Import Base Value Packed Parser Spec SpecDepth BaseProofs PackedProofs LexProofs StringProofs ParserProofs GrammarProofs.

Lemma openers_app a b : openers (a ++ b) = (openers a + openers b)%nat.
Proof. unfold openers. now rewrite filter_app, app_length. Qed.
Lemma openers_cons c r : openers (c :: r) = ((if opening c then 1 else 0) + openers r)%nat.
Proof. unfold openers. cbn [filter]. now destruct (opening c). Qed.

Section Enough.
  Context (jsonc : bool) (be : backend).
  Definition calm (d : nat) : Prop := forall cur, Forall is_byte cur -> (openers cur < d)%nat -> parse_value jsonc be d cur <> Stack.
  Lemma rest_after d cur v r : Forall is_byte cur -> parse_value jsonc be d cur = Ok (v, r) -> valid v = true -> Forall is_byte r /\ (openers r <= openers cur)%nat.
  Proof.
    intros Hb E V. destruct cur as [|c cur].
    { destruct d; cbn in E; discriminate. }
    pose proof (parse_value_wp jsonc be d (c :: cur) ltac:(discriminate) Hb) as W. rewrite E in W. destruct (W V) as (t & j & Et & _). cbn [snd] in Et.
    rewrite Et in *. split; [eapply Forall_app_r; eauto|]. rewrite openers_app. lia.
  Qed.
  Lemma array_calm d : calm d -> forall fuel cur acc, Forall is_byte cur -> (openers cur < d)%nat -> array_loop jsonc (parse_value jsonc be d) fuel cur acc <> Stack.
  Proof.
    intros C. induction fuel as [|f IH]; intros cur acc Hb Ho; [discriminate|]. cbn [array_loop].
    destruct (skip_ws_cases jsonc cur) as [(w & c & r & -> & _ & _ & ->)|(w & e & r & -> & _ & _ & ->)]; cbn [bind negb]; [|discriminate].
    apply Forall_app_r in Hb. rewrite openers_app in Ho. cbn [deref bind].
    destruct (jsonc && (c =? 93)). { destruct (array_close_cases jsonc acc (c :: r)) as [(? & ? & _ & _ & ->)|(? & ->)]; discriminate. }
    destruct (parse_value jsonc be d (c :: r)) as [[v cur2]|e| | |] eqn:E; cbn [bind]; try discriminate.
    2: { exfalso. exact (C (c :: r) Hb ltac:(lia) E). }
    destruct (valid v) eqn:V; cbn [negb]; [|discriminate]. destruct (rest_after d _ _ _ Hb E V) as [Hb2 Ho2].
    destruct (skip_ws_cases jsonc cur2) as [(w2 & c2 & r2 & -> & _ & _ & ->)|(w2 & e2 & r2 & -> & _ & _ & ->)]; cbn [bind negb]; [|discriminate].
    apply Forall_app_r in Hb2. rewrite openers_app in Ho2. cbn [deref bind]. destruct (N.eqb_spec c2 44) as [->|_].
    - cbn [advance bind]. apply IH; [now inversion Hb2|]. rewrite (openers_cons 44) in Ho2. lia.
    - destruct (array_close_cases jsonc (acc ++ [v]) (c2 :: r2)) as [(? & ? & _ & _ & ->)|(? & ->)]; discriminate.
  Qed.
  Lemma object_calm d : calm d -> forall fuel cur acc, Forall is_byte cur -> (openers cur < d)%nat -> object_loop jsonc be (parse_value jsonc be d) fuel cur acc <> Stack.
  Proof.
    intros C. induction fuel as [|f IH]; intros cur acc Hb Ho; [discriminate|]. cbn [object_loop].
    destruct (skip_ws_cases jsonc cur) as [(w & c & r & -> & _ & _ & ->)|(w & e & r & -> & _ & _ & ->)]; cbn [bind negb]; [|discriminate].
    apply Forall_app_r in Hb. rewrite openers_app in Ho. cbn [deref bind].
    destruct (jsonc && (c =? 125)). { destruct (object_close_cases jsonc acc (c :: r)) as [(? & ? & _ & _ & ->)|(? & ->)]; discriminate. }
    destruct (parse_stdstring_cases be c r Hb) as [(t & k & r' & Er & _ & ->)|(r' & ->)]; cbn [bind]; [|discriminate].
    rewrite Er, openers_app in *. apply Forall_app_r in Hb.
    destruct (skip_ws_cases jsonc r') as [(w1 & c1 & r1 & -> & _ & _ & ->)|(w1 & e1 & r1 & -> & _ & _ & ->)]; cbn [bind negb]; [|discriminate].
    apply Forall_app_r in Hb. rewrite openers_app in Ho. cbn [deref bind]. destruct (N.eqb_spec c1 58) as [->|_]; cbn [negb]; [|discriminate].
    cbn [advance bind]. rewrite (openers_cons 58) in Ho. assert (Hb1 : Forall is_byte r1) by now inversion Hb.
    destruct (skip_ws_cases jsonc r1) as [(w3 & c3 & r3 & -> & _ & _ & ->)|(w3 & e3 & r3 & -> & _ & _ & ->)]; cbn [bind negb]; [|discriminate].
    apply Forall_app_r in Hb1. rewrite openers_app in Ho.
    destruct (parse_value jsonc be d (c3 :: r3)) as [[v cur2]|e| | |] eqn:E; cbn [bind]; try discriminate.
    2: { exfalso. exact (C (c3 :: r3) Hb1 ltac:(lia) E). }
    destruct (valid v) eqn:V; cbn [negb]; [|discriminate]. destruct (rest_after d _ _ _ Hb1 E V) as [Hb2 Ho2].
    destruct (skip_ws_cases jsonc cur2) as [(w2 & c2 & r2 & -> & _ & _ & ->)|(w2 & e2 & r2 & -> & _ & _ & ->)]; cbn [bind negb]; [|discriminate].
    apply Forall_app_r in Hb2. rewrite openers_app in Ho2. destruct (map_emplace k v acc) as [m' fresh]. destruct fresh; cbn [negb]; [|discriminate].
    cbn [deref bind]. destruct (N.eqb_spec c2 44) as [->|_].
    - cbn [advance bind]. apply IH; [now inversion Hb2|]. rewrite (openers_cons 44) in Ho2. lia.
    - destruct (object_close_cases jsonc m' (c2 :: r2)) as [(? & ? & _ & _ & ->)|(? & ->)]; discriminate.
  Qed.
  Lemma parse_array_calm d r : calm d -> Forall is_byte r -> (openers r < d)%nat -> parse_array jsonc (parse_value jsonc be d) (91 :: r) <> Stack.
  Proof.
    intros C Hb Ho. unfold parse_array. cbn [deref bind N.eqb Pos.eqb negb advance].
    destruct (skip_ws_cases jsonc r) as [(w & c & r1 & -> & _ & _ & ->)|(w & e & r1 & -> & _ & _ & ->)]; cbn [bind negb]; [|discriminate].
    apply Forall_app_r in Hb. rewrite openers_app in Ho. cbn [deref bind]. destruct (c =? 93); [discriminate|]. apply array_calm; auto. lia.
  Qed.
  Lemma parse_object_calm d r : calm d -> Forall is_byte r -> (openers r < d)%nat -> parse_object jsonc be (parse_value jsonc be d) (123 :: r) <> Stack.
  Proof.
    intros C Hb Ho. unfold parse_object. cbn [deref bind N.eqb Pos.eqb negb advance].
    destruct (skip_ws_cases jsonc r) as [(w & c & r1 & -> & _ & _ & ->)|(w & e & r1 & -> & _ & _ & ->)]; cbn [bind negb]; [|discriminate].
    apply Forall_app_r in Hb. rewrite openers_app in Ho. cbn [deref bind]. destruct (c =? 125); [discriminate|]. apply object_calm; auto. lia.
  Qed.
  Lemma value_calm : forall d, calm d.
  Proof.
    induction d as [|d IH]; intros cur Hb Ho; [lia|]. cbn [parse_value]. destruct cur as [|c r]; [discriminate|]. cbn [deref bind].
    destruct (N.eqb_spec c 110) as [->|_].
    { unfold parse_null. destruct (match_word null_string (110 :: r)) as [[] ?]; discriminate. }
    destruct ((c =? 116) || (c =? 102)).
    { unfold parse_boolean. cbn [deref bind]. destruct (c =? 116); [destruct (match_word true_string (c :: r)) as [[] ?]; discriminate|].
      destruct (c =? 102); [destruct (match_word false_string (c :: r)) as [[] ?]; discriminate|discriminate]. }
    destruct ((c =? 45) || isdigit c).
    { destruct (parse_number_cases c r) as [(? & ? & ? & _ & _ & ->)|(? & ->)]; discriminate. }
    destruct (N.eqb_spec c 34) as [->|_].
    { unfold parse_string. destruct (parse_stdstring_cases be 34 r Hb) as [(? & ? & ? & _ & _ & ->)|(? & ->)]; discriminate. }
    assert (Hr : Forall is_byte r) by now inversion Hb. rewrite openers_cons in Ho. unfold opening in Ho.
    destruct (N.eqb_spec c 91) as [->|_]; [apply parse_array_calm; auto; cbn in Ho; lia|].
    destruct (N.eqb_spec c 123) as [->|_]; [apply parse_object_calm; auto; cbn in Ho; lia|discriminate].
  Qed.
  Lemma budget_calm d s : Forall is_byte s -> (openers s <= d)%nat -> parse_budget jsonc be d s <> Stack.
  Proof.
    intros Hb Ho. unfold parse_budget.
    destruct (skip_ws_cases jsonc s) as [(w & c & r & -> & _ & _ & ->)|(w & e & r & -> & _ & _ & ->)]; cbn [bind negb]; [|discriminate].
    apply Forall_app_r in Hb. rewrite openers_app, openers_cons in Ho. unfold opening in Ho. cbn [deref bind]. destruct ((c =? 91) || (c =? 123)) eqn:E; [|discriminate].
    assert (Hr : Forall is_byte r) by now inversion Hb.
    assert (N : (if c =? 91 then parse_array jsonc (parse_value jsonc be d) (c :: r) else parse_object jsonc be (parse_value jsonc be d) (c :: r)) <> Stack).
    { destruct (N.eqb_spec c 91) as [->|]; [apply parse_array_calm; auto using value_calm; lia|].
      assert (c = 123) as -> by lia. apply parse_object_calm; auto using value_calm; lia. }
    destruct (if c =? 91 then _ else _) as [[v cur]|e| | |]; cbn [bind]; try discriminate; [|congruence].
    destruct (negb (valid v)); [discriminate|].
    destruct (skip_ws_cases jsonc cur) as [(? & ? & ? & -> & _ & _ & ->)|(? & ? & ? & -> & _ & _ & ->)]; discriminate.
  Qed.
End Enough.
Theorem openers_enough jsonc be d s : Forall is_byte s -> (openers s <= d)%nat -> parse_budget jsonc be d s = parse jsonc be s.
Proof.
  intros Hb Ho. pose proof (budget_calm jsonc be d s Hb Ho) as N. destruct (parse_total jsonc be s Hb) as (o & E & _).
  destruct (Nat.le_ge_cases d (length s)) as [L|L].
  - destruct (parse_budget_mono jsonc be d (length s) s L) as [H|H]; [congruence|exact H].
  - destruct (parse_budget_mono jsonc be (length s) d s L) as [H|H]; unfold parse in *; congruence.
Qed.
(** no fewer would do *)
Lemma nest_one jsonc be : forall d, parse_value jsonc be d (repeat 91 d ++ [49]) = Stack.
Proof.
  induction d as [|d IH]; [reflexivity|].
  change (repeat 91 (S d) ++ [49]) with (91 :: repeat 91 d ++ [49]).
  cbn [parse_value deref bind N.eqb Pos.eqb orb]. change (isdigit 91) with false. cbv iota.
  unfold parse_array. cbn [deref bind N.eqb Pos.eqb negb advance].
  destruct d as [|d]; cbn [repeat app] in *; rewrite skip_ws_nows by (unfold token, wschar; lia); cbn [bind negb deref N.eqb Pos.eqb];
  cbn [array_loop]; rewrite skip_ws_nows by (unfold token, wschar; lia); cbn [bind negb deref N.eqb Pos.eqb];
  rewrite andb_false_r; rewrite IH; reflexivity.
Qed.
Theorem openers_needed jsonc be d : openers (repeat 91 (S d) ++ [49]) = S d /\ parse_budget jsonc be d (repeat 91 (S d) ++ [49]) = Stack.
Proof.
  split.
  { rewrite openers_app. replace (openers [49]) with 0%nat by reflexivity. induction d as [|d IH]; [reflexivity|]. cbn [repeat]. rewrite openers_cons. cbn [repeat] in IH. cbn. cbn in IH. lia. }
  unfold parse_budget. change (repeat 91 (S d) ++ [49]) with (91 :: repeat 91 d ++ [49]).
  rewrite skip_ws_nows by (unfold token, wschar; lia). cbn [bind negb deref N.eqb Pos.eqb orb].
  unfold parse_array. cbn [deref bind N.eqb Pos.eqb negb advance].
  pose proof (nest_one jsonc be d) as IH.
  destruct d as [|d]; cbn [repeat app] in *; rewrite skip_ws_nows by (unfold token, wschar; lia); cbn [bind negb deref N.eqb Pos.eqb];
  cbn [array_loop]; rewrite skip_ws_nows by (unfold token, wschar; lia); cbn [bind negb deref N.eqb Pos.eqb];
  rewrite andb_false_r; rewrite IH; reflexivity.
Qed.
