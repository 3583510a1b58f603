(** * Exactly which texts of strict mode are read the same with comments allowed. *)
From Verif Require Import Base Value Packed Parser Spec BaseProofs PackedProofs LexProofs StringProofs ParserProofs GrammarProofs.

Theorem strict_jsonc_exactly be s v : Forall is_byte s -> parse false be s = Ok (Some v) ->
  exists j w1 t r, s = w1 ++ t ++ r /\ ws w1 /\ container j /\ gvalue ws (lstring (raw_ok be)) false t j /\ v = inject j /\
    ((exists w e, r = w ++ e /\ cws w /\ jsonc_stop e) /\ parse true be s = Ok (Some v) \/
     ~ (exists w e, r = w ++ e /\ cws w /\ jsonc_stop e) /\ parse true be s = Ok None).
Proof.
  intros Hb H.
  unfold parse, parse_budget in H |- *.
  destruct (skip_ws_cases false s) as [(w1 & c & r & -> & Hw1 & Hc & E)|(w1 & e & r & -> & Hw1 & He & E)];
    rewrite E in H; cbn [bind negb] in H; [|discriminate].
  rewrite (skip_ws_sim _ _ E). cbn [deref bind negb] in *.
  destruct ((c =? 91) || (c =? 123)) eqn:Ec; [|discriminate].
  set (d := length (w1 ++ c :: r)) in *.
  set (x := if c =? 91 then parse_array false (parse_value false be d) (c :: r) else parse_object false be (parse_value false be d) (c :: r)) in *.
  assert (Hsim : sim x (if c =? 91 then parse_array true (parse_value true be d) (c :: r) else parse_object true be (parse_value true be d) (c :: r))).
  { unfold x. destruct (c =? 91); [apply parse_array_sim|apply parse_object_sim]; auto using pv93; apply parse_value_sim. }
  assert (Hwp : wp x (pv_post false be (c :: r)) (d < length (c :: r))%nat).
  { apply Forall_app_r in Hb. subst x. destruct (N.eqb_spec c 91) as [->|Hn].
    - eapply wp_mono; [apply (parse_array_wp false be d); auto|auto|cbn [length]; lia].
    - assert (c = 123) as -> by lia.
      eapply wp_mono; [apply (parse_object_wp false be d); auto|auto|cbn [length]; lia]. }
  destruct x as [[v0 cur]| | | |] eqn:Ex; cbn [bind] in H; try discriminate. cbn [wp] in Hwp.
  destruct (valid v0) eqn:Ev; cbn [negb] in H; [|discriminate].
  rewrite (Hsim _ _ eq_refl Ev). cbn [bind]. rewrite Ev. cbn [negb].
  destruct (Hwp Ev) as (t & j & Et & Hg & Hdj & Ej). cbn [fst snd] in *.
  destruct (skip_ws_cases false cur) as [(w2 & c2 & r2 & Ecur & Hw2 & Hc2 & E2)|(w2 & e & r2 & Ecur & Hw2 & He & E2)];
    rewrite E2 in H; cbn [bind] in H; [discriminate|]. injection H as ->.
  assert (Hcont : container j).
  { assert (Hcc : c = 91 \/ c = 123) by lia. clear - Hcc Et Hg.
    destruct Hg as [| | |s Hs|t s (b & -> & _)|w' Hw'|t l Hl|w' Hw'|t m Hm]; cbn; auto;
      try (cbn in Et; injection Et as -> _; lia).
    destruct (gnumber_head _ Hs) as (x1 & y1 & -> & Hx). cbn in Et. injection Et as <- _. unfold digit in Hx. lia. }
  exists j, w1, t, cur. rewrite Et. repeat (split; [solve [auto]|]).
  destruct (skip_ws_cases true cur) as [(w3 & c3 & r3 & E3 & Hw3 & Hc3 & Es)|(w3 & e3 & r3 & E3 & Hw3 & He3 & Es)]; rewrite Es; cbn [bind].
  - right. split; [|reflexivity]. intros (w & e' & Er & Hw & He'). subst cur. destruct (skip_ws_stop true w e' Hw He') as (r' & Q). rewrite <- Er in Q. congruence.
  - left. split; [|reflexivity]. exists w3, e3. auto.
Qed.
