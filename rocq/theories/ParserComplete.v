(** * Completeness of the parser: every grammatical text is accepted with the denoted value. *)
From Verif Require Import Base Value Packed Parser Spec BaseProofs PackedProofs LexProofs StringProofs ParserProofs.
From Coq Require ListDec.
Ltac Zify.zify_post_hook ::= Z.div_mod_to_equations.

Definition mdepth (l : list json) : nat := fold_right (fun x n => Nat.max (depth x) n) O l.
Definition odepth (m : list (bytes * json)) : nat := fold_right (fun kv n => Nat.max (depth (snd kv)) n) O m.

Lemma NoDup_app_l {A} (a b : list A) : NoDup (a ++ b) -> NoDup a.
Proof.
  induction a as [|x a IH]; intros H; [constructor|]. inversion_clear H.
  constructor; auto. intros Hx. apply H0, in_or_app; auto.
Qed.
Lemma distinct_dec j : distinct j \/ ~ distinct j.
Proof.
  induction j as [| | | |l IH|m IH] using json_ind'; try (left; constructor; fail).
  - assert (Forall distinct l \/ ~ Forall distinct l) as [H|H].
    { induction IH as [|x l [Hx|Hx] _ [Hl|Hl]]; [left; auto|left; auto|right|right|right]; inversion 1; auto. }
    + left. now constructor.
    + right. now inversion 1.
  - assert (Forall (fun kv => distinct (snd kv)) m \/ ~ Forall (fun kv => distinct (snd kv)) m) as [H|H].
    { induction IH as [|x l [Hx|Hx] _ [Hl|Hl]]; [left; auto|left; auto|right|right|right]; inversion 1; auto. }
    + destruct (ListDec.NoDup_dec bytes_eq_dec (map fst m)) as [N|N].
      * left. now constructor.
      * right. now inversion 1.
    + right. now inversion 1.
Qed.
Lemma nodup_one (acc : list (bytes * json)) k j : NoDup (map fst acc) ->
  (NoDup (map fst (acc ++ [(k, j)])) /\ Forall (fun kv => distinct (snd kv)) [(k, j)]) <-> distinct j /\ ~ In k (map fst acc).
Proof.
  intros Hn. rewrite map_app. cbn [map fst]. split.
  - intros [A B]. split; [now inversion B|]. apply NoDup_remove_2 in A. now rewrite app_nil_r in A.
  - intros [A B]. split; [now apply NoDup_snoc|auto].
Qed.
Lemma wsp_numstop jsonc w c r : wsp jsonc w -> numstop c -> exists c' r', w ++ c :: r = c' :: r' /\ numstop c'.
Proof.
  unfold wsp. destruct w as [|x w]; cbn; [eauto|].
  intros Hw _. exists x, (w ++ c :: r). split; [reflexivity|]. unfold numstop, digit.
  destruct jsonc.
  - inversion Hw as [|? ? Hx _|b ? _ _|b ? _ _]; subst; unfold wschar in *; lia.
  - inversion Hw as [|? ? Hx _]; subst. unfold wschar in Hx. lia.
Qed.
Section Complete.
  Context (jsonc : bool) (be : backend) (STR : nat -> bytes -> bytes -> Prop).
  Context (Hshape : forall n t s, STR n t s -> exists body, t = 34 :: body).
  Context (Hok : forall t s r, STR (length r) t s -> Forall is_byte (t ++ r) -> parse_stdstring be (t ++ r) = Ok (Some s, r)).
  Let W := wsp jsonc.
  Ltac at_pos := match goal with
    | H : pvalue _ _ _ ?n ?t ?j |- pvalue _ _ _ ?m ?t ?j => replace m with n; [exact H|]
    | H : STR ?n ?t ?j |- STR ?m ?t ?j => replace m with n; [exact H|]
    end; repeat (rewrite app_length || cbn [length app]); lia.

  Ltac plen := repeat (rewrite app_length || cbn [length app]); lia.
  Lemma gvalue_head n t j : pvalue W STR jsonc n t j ->
    exists c r, t = c :: r /\ token c /\ c <> 93 /\ c <> 125.
  Proof.
    unfold token, wschar.
    destruct 1 as [| | |n s H|n t s H|n w Hw|n t l H|n w Hw|n t m H].
    5: destruct (Hshape _ _ _ H) as (body & ->).
    1-3, 5-9: cbn; do 2 eexists; splits; lia.
    destruct (gnumber_head s H) as (c & r & -> & Hc). exists c, r. unfold digit in Hc. splits; lia.
  Qed.
  (** The loops do not depend on the white space in front, and take at most one
      iteration per element and one more. *)
  Lemma array_loop_ws pv f w c r acc : W w -> token c ->
    array_loop jsonc pv f (w ++ c :: r) acc = array_loop jsonc pv f (c :: r) acc.
  Proof.
    intros Hw Hc. destruct f as [|f]; [reflexivity|]. cbn [array_loop].
    rewrite skip_ws_token, skip_ws_nows by auto. reflexivity.
  Qed.
  Lemma object_loop_ws pv f w c r acc : W w -> token c ->
    object_loop jsonc be pv f (w ++ c :: r) acc = object_loop jsonc be pv f (c :: r) acc.
  Proof.
    intros Hw Hc. destruct f as [|f]; [reflexivity|]. cbn [object_loop].
    rewrite skip_ws_token, skip_ws_nows by auto. reflexivity.
  Qed.
  Lemma gelems_shape n t l : pelems W STR jsonc n t l -> exists w c r, t = w ++ c :: r /\ W w /\ token c /\ c <> 93
    /\ (length l <= S (length r))%nat.
  Proof.
    induction 1 as [n w1 t w2 j A B C|n w1 t w2 w3 j A B C D F|n w1 t w2 j ts l A B C D IH];
      destruct (gvalue_head _ _ _ ltac:(eassumption)) as (x & y & -> & Hx & Hx93 & _); eexists w1, x, _; splits; auto.
    1-2: cbn; lia.
    destruct IH as (w & c & r & -> & _ & _ & _ & IH). repeat (rewrite app_length; cbn [length]). lia.
  Qed.
  Lemma gmembers_shape n t m : pmembers W STR jsonc n t m -> exists w c r, t = w ++ c :: r /\ W w /\ token c /\ c <> 125
    /\ (length m <= S (length r))%nat.
  Proof.
    assert (T : token 34) by (unfold token, wschar; lia).
    induction 1 as [n w1 kt w2 w3 t w4 k j A K|n w1 kt w2 w3 t w4 w5 k j Z A K|n w1 kt w2 w3 t w4 k j ts m A K B C D E F IH];
      destruct (Hshape _ _ _ K) as (kb & ->);
      eexists w1, 34, _; splits; auto; try lia.
    1-2: cbn; lia.
    destruct IH as (w & c & r & -> & _ & _ & _ & IH). repeat (rewrite app_length; cbn [length]). lia.
  Qed.

  (** what may follow a value: a number has to be delimited *)
  Definition follows (j : json) (r : bytes) : Prop :=
    container j \/ exists c r', r = c :: r' /\ numstop c.
  (** [P] decides between success with [v] and the invalid value. *)
  Definition outc (P : Prop) (x : res (value * bytes)) (v : value) (r : bytes) : Prop :=
    (P -> x = Ok (v, r)) /\ (~ P -> exists r', x = Ok (invalid_value, r')).
  Definition mdistinct (m : list (bytes * json)) : Prop := Forall (fun kv => distinct (snd kv)) m.
  Definition PV (n : nat) (t : bytes) (j : json) : Prop := forall d r, length r = n -> (depth j <= d)%nat -> follows j r ->
    Forall is_byte (t ++ r) -> outc (distinct j) (parse_value jsonc be d (t ++ r)) (inject j) r.
  Definition PE (n : nat) (t : bytes) (l : list json) : Prop := forall d fuel acc r, S (length r) = n -> (mdepth l <= d)%nat ->
    (length l < fuel)%nat -> Forall is_byte (t ++ 93 :: r) ->
    outc (Forall distinct l) (array_loop jsonc (parse_value jsonc be d) fuel (t ++ 93 :: r) acc)
         (v_array (acc ++ map inject l)) r.
  Definition PM (n : nat) (t : bytes) (m : list (bytes * json)) : Prop := forall d fuel acc r, S (length r) = n -> (odepth m <= d)%nat ->
    (length m < fuel)%nat -> Forall is_byte (t ++ 125 :: r) -> NoDup (map fst acc) ->
    outc (NoDup (map fst (acc ++ m)) /\ mdistinct m)
      (object_loop jsonc be (parse_value jsonc be d) fuel (t ++ 125 :: r) (sort_members (map inj_member acc)))
      (v_object (sort_members (map inj_member (acc ++ m)))) r.
  Lemma outc_iff P Q x v r : (P <-> Q) -> outc P x v r -> outc Q x v r.
  Proof. intros H [A B]. split; intros K; [apply A|apply B]; tauto. Qed.
  Lemma outc_yes (P : Prop) x v r : P -> x = Ok (v, r) -> outc P x v r.
  Proof. split; tauto. Qed.
  Lemma outc_no (P : Prop) x v r : ~ P -> (exists r', x = Ok (invalid_value, r')) -> outc P x v r.
  Proof. split; tauto. Qed.

  Lemma token93 : token 93. Proof. unfold token, wschar. lia. Qed.
  Lemma token125 : token 125. Proof. unfold token, wschar. lia. Qed.
  Lemma token44 : token 44. Proof. unfold token, wschar. lia. Qed.
  Lemma token58 : token 58. Proof. unfold token, wschar. lia. Qed.
  Lemma token34 : token 34. Proof. unfold token, wschar. lia. Qed.
  Lemma numstop93 : numstop 93. Proof. unfold numstop, digit. lia. Qed.
  Lemma numstop125 : numstop 125. Proof. unfold numstop, digit. lia. Qed.
  Lemma numstop44 : numstop 44. Proof. unfold numstop, digit. lia. Qed.

  Lemma array_close_ok acc w r : W w -> array_close jsonc acc (w ++ 93 :: r) = Ok (v_array acc, r).
  Proof.
    intros Hw. unfold array_close. rewrite skip_ws_token by (auto using token93). reflexivity.
  Qed.
  Lemma object_close_ok acc w r : W w -> object_close jsonc acc (w ++ 125 :: r) = Ok (v_object acc, r).
  Proof.
    intros Hw. unfold object_close. rewrite skip_ws_token by (auto using token125). reflexivity.
  Qed.

  (** One element, up to the token after it. *)
  Lemma elem_step n w1 t w2 j c r d f acc : W w1 -> pvalue W STR jsonc n t j -> PV n t j -> length (w2 ++ c :: r) = n -> W w2 ->
    token c -> numstop c -> (depth j <= d)%nat -> Forall is_byte (w1 ++ t ++ w2 ++ c :: r) ->
    (distinct j ->
      array_loop jsonc (parse_value jsonc be d) (S f) (w1 ++ t ++ w2 ++ c :: r) acc
      = if c =? 44 then array_loop jsonc (parse_value jsonc be d) f r (acc ++ [inject j])
        else array_close jsonc (acc ++ [inject j]) (c :: r)) /\
    (~ distinct j -> exists r',
      array_loop jsonc (parse_value jsonc be d) (S f) (w1 ++ t ++ w2 ++ c :: r) acc = Ok (invalid_value, r')).
  Proof.
    intros Hw1 Hg IH Hn Hw2 Hc Hnc Hd Hb. destruct (gvalue_head _ _ _ Hg) as (x & y & Et & Hx & Hx93 & _).
    cbn [array_loop]. rewrite Et. cbn [app]. rewrite skip_ws_token by auto. cbn [bind negb deref].
    apply N.eqb_neq in Hx93. rewrite Hx93, andb_false_r.
    apply Forall_app_r in Hb. destruct (wsp_numstop jsonc w2 c r Hw2 Hnc) as (c' & r' & E & Hn').
    change (x :: y ++ w2 ++ c :: r) with ((x :: y) ++ w2 ++ c :: r). rewrite <- Et, E in *.
    destruct (IH d (c' :: r')) as [IHy IHn]; [congruence|auto|right; eauto|auto|]. split; intros Hdj.
    - rewrite IHy by auto. cbn [bind]. rewrite valid_inject. cbn [negb]. rewrite <- E.
      rewrite skip_ws_token by auto. cbn [bind negb deref advance]. reflexivity.
    - destruct (IHn Hdj) as (r2 & ->). cbn. eauto.
  Qed.
  Lemma member_step n w1 kt k w2 w3 t w4 j c r d f acc : W w1 -> STR (length (w2 ++ [58] ++ w3 ++ t ++ w4 ++ c :: r)) kt k -> W w2 -> W w3 ->
    pvalue W STR jsonc n t j -> PV n t j -> length (w4 ++ c :: r) = n -> W w4 ->
    token c -> numstop c -> (depth j <= d)%nat ->
    Forall is_byte (w1 ++ kt ++ w2 ++ [58] ++ w3 ++ t ++ w4 ++ c :: r) ->
    NoDup (map fst acc) ->
    (distinct j -> ~ In k (map fst acc) ->
      object_loop jsonc be (parse_value jsonc be d) (S f) (w1 ++ kt ++ w2 ++ [58] ++ w3 ++ t ++ w4 ++ c :: r)
         (sort_members (map inj_member acc))
      = if c =? 44 then object_loop jsonc be (parse_value jsonc be d) f r (sort_members (map inj_member (acc ++ [(k, j)])))
        else object_close jsonc (sort_members (map inj_member (acc ++ [(k, j)]))) (c :: r)) /\
    (~ distinct j \/ In k (map fst acc) -> exists r',
      object_loop jsonc be (parse_value jsonc be d) (S f) (w1 ++ kt ++ w2 ++ [58] ++ w3 ++ t ++ w4 ++ c :: r)
         (sort_members (map inj_member acc)) = Ok (invalid_value, r')).
  Proof.
    intros Hw1 Hk Hw2 Hw3 Hg IH Hn Hw4 Hc Hnc Hd Hb Hnd.
    destruct (gvalue_head _ _ _ Hg) as (x & y & Et & Hx & Hx93 & _).
    assert (Ek : exists ky, kt = 34 :: ky) by (exact (Hshape _ _ _ Hk)). destruct Ek as (ky & Ek).
    cbn [object_loop]. rewrite Ek. cbn [app]. rewrite skip_ws_token by (auto using token34). cbn [bind negb deref].
    change (34 =? 125) with false. rewrite andb_false_r.
    apply Forall_app_r in Hb.
    change (34 :: ky ++ ?x) with ((34 :: ky) ++ x). rewrite <- Ek.
    rewrite (Hok kt k) by auto. cbn [bind].
    apply Forall_app_r, Forall_app_r in Hb. cbn [app] in Hb. apply Forall_inv_tail, Forall_app_r in Hb.
    rewrite skip_ws_token by (auto using token58). cbn [bind negb deref N.eqb Pos.eqb advance].
    rewrite Et. cbn [app]. rewrite skip_ws_token by auto. cbn [bind negb].
    destruct (wsp_numstop jsonc w4 c r Hw4 Hnc) as (c' & r' & E & Hn').
    change (x :: y ++ w4 ++ c :: r) with ((x :: y) ++ w4 ++ c :: r). rewrite <- Et, E in *.
    destruct (IH d (c' :: r')) as [IHy IHn]; [congruence|auto|right; eauto|auto|].
    assert (Hsrt : sorted_keys (sort_members (map inj_member acc))).
    { apply sort_members_sorted. now rewrite map_inj_keys. }
    destruct (distinct_dec j) as [Hdj|Hdj].
    - rewrite IHy by auto. cbn [bind]. rewrite valid_inject. cbn [negb]. rewrite <- E.
      rewrite skip_ws_token by auto. cbn [bind negb]. split.
      + intros _ Hni. rewrite map_emplace_new; auto.
        * rewrite map_app. cbn [map]. change (inj_member (k, j)) with (k, inject j).
          rewrite sort_members_app_one by (now rewrite map_inj_keys). cbn [negb deref bind advance]. reflexivity.
        * rewrite in_sort_keys. now rewrite map_inj_keys.
      + intros [?|Hin]; [contradiction|]. rewrite map_emplace_old; [cbn; eauto|auto|].
        rewrite in_sort_keys. now rewrite map_inj_keys.
    - destruct (IHn Hdj) as (r2 & ->). cbn. split; [contradiction|eauto].
  Qed.

  Theorem complete :
    (forall n t j, pvalue W STR jsonc n t j -> PV n t j) /\
    (forall n t l, pelems W STR jsonc n t l -> PE n t l) /\
    (forall n t m, pmembers W STR jsonc n t m -> PM n t m).
  Proof.
    apply positions_ind.
    - intros n d r Hn Hd _ _. apply outc_yes; [constructor|]. destruct d; [cbn in Hd; lia|]. reflexivity.
    - intros n d r Hn Hd _ _. apply outc_yes; [constructor|]. destruct d; [cbn in Hd; lia|]. reflexivity.
    - intros n d r Hn Hd _ _. apply outc_yes; [constructor|]. destruct d; [cbn in Hd; lia|]. reflexivity.
    - intros n s Hs d r0 Hn Hd [[]|(c & r & -> & Hc)] _. apply outc_yes; [constructor|]. destruct d; [cbn in Hd; lia|].
      pose proof (parse_number_ok s c r Hs Hc) as Q. destruct (gnumber_head s Hs) as (x & y & -> & Hx).
      cbn [parse_value app deref bind] in *. unfold digit in Hx.
      assert ((x =? 110) = false) as -> by lia. assert (((x =? 116) || (x =? 102)) = false) as -> by lia.
      assert (((x =? 45) || isdigit x) = true) as -> by (unfold isdigit; lia). exact Q.
    - intros n t s Hs d r Hn Hd Hc Hb. apply outc_yes; [constructor|]. destruct d; [cbn in Hd; lia|].
      assert (Ek : exists ky, t = 34 :: ky) by (exact (Hshape _ _ _ Hs)). destruct Ek as (ky & Ek).
      subst n. pose proof (Hok t s r Hs Hb) as Q. rewrite Ek in Q |- *.
      cbn [parse_value app deref bind N.eqb Pos.eqb orb] in *. change (isdigit 34) with false. cbv iota.
      unfold parse_string. rewrite Q. reflexivity.
    - intros n w Hw d r Hn Hd Hc Hb. apply outc_yes; [repeat constructor|]. destruct d; [cbn in Hd; lia|].
      cbn [parse_value app deref bind N.eqb Pos.eqb orb]. change (isdigit 91) with false. cbv iota.
      unfold parse_array. cbn [app deref bind N.eqb Pos.eqb negb advance]. rewrite <- app_assoc. cbn [app].
      rewrite skip_ws_token by (auto using token93). reflexivity.
    - intros n t l Hl IH d r Hn Hd Hc Hb. destruct d as [|d]; [cbn in Hd; lia|].
      cbn [parse_value app deref bind N.eqb Pos.eqb orb]. change (isdigit 91) with false. cbv iota.
      unfold parse_array. cbn [app deref bind N.eqb Pos.eqb negb advance]. rewrite <- app_assoc. cbn [app].
      cbn [app] in Hb. rewrite <- app_assoc in Hb. cbn [app] in Hb. apply Forall_inv_tail in Hb.
      destruct (gelems_shape _ _ _ Hl) as (w & x & y & -> & Hw & Hx & Hx93 & Hlen).
      pose proof (IH d (S (length (x :: y ++ 93 :: r))) [] r) as Q.
      rewrite <- !app_assoc in Q |- *. rewrite <- app_assoc in Hb. cbn [app] in *.
      rewrite array_loop_ws in Q by auto. rewrite skip_ws_token by auto. cbn [bind negb deref].
      apply N.eqb_neq in Hx93. rewrite Hx93.
      apply (outc_iff (Forall distinct l)); [split; [now constructor|now inversion 1]|]. apply Q; auto.
      + cbn in Hd. unfold mdepth. lia.
      + cbn [length]. rewrite app_length. lia.
    - intros n w Hw d r Hn Hd Hc Hb. apply outc_yes; [repeat constructor|]. destruct d; [cbn in Hd; lia|].
      cbn [parse_value app deref bind N.eqb Pos.eqb orb]. change (isdigit 123) with false. cbv iota.
      unfold parse_object. cbn [app deref bind N.eqb Pos.eqb negb advance]. rewrite <- app_assoc. cbn [app].
      rewrite skip_ws_token by (auto using token125). reflexivity.
    - intros n t m Hm IH d r Hn Hd Hc Hb. destruct d as [|d]; [cbn in Hd; lia|].
      cbn [parse_value app deref bind N.eqb Pos.eqb orb]. change (isdigit 123) with false. cbv iota.
      unfold parse_object. cbn [app deref bind N.eqb Pos.eqb negb advance]. rewrite <- app_assoc. cbn [app].
      cbn [app] in Hb. rewrite <- app_assoc in Hb. cbn [app] in Hb. apply Forall_inv_tail in Hb.
      destruct (gmembers_shape _ _ _ Hm) as (w & x & y & -> & Hw & Hx & Hx93 & Hlen).
      pose proof (IH d (S (length (x :: y ++ 125 :: r))) [] r) as Q.
      rewrite <- !app_assoc in Q |- *. rewrite <- app_assoc in Hb. cbn [app map sort_members] in *.
      rewrite object_loop_ws in Q by auto. rewrite skip_ws_token by auto. cbn [bind negb deref].
      apply N.eqb_neq in Hx93. rewrite Hx93.
      apply (outc_iff (NoDup (map fst m) /\ mdistinct m)); [split; [intros []; now constructor|now inversion 1]|].
      apply Q; auto.
      + cbn in Hd. unfold odepth. lia.
      + cbn [length]. rewrite app_length. lia.
      + constructor.
    - (* last element *)
      intros n w1 t w2 j Hw1 Hg IH Hw2 d fuel acc r Hn Hd Hf Hb. destruct fuel as [|f]; [lia|].
      repeat rewrite <- app_assoc in *.
      destruct (elem_step _ w1 t w2 j 93 r d f acc Hw1 Hg IH) as [Y Nn]; auto using token93, numstop93; [plen|cbn in Hd; lia|].
      apply (outc_iff (distinct j)); [split; [auto|now inversion 1]|]. split; [|exact Nn].
      intros Hdj. rewrite Y by auto.
      cbn [N.eqb Pos.eqb]. apply (array_close_ok _ [] r). apply wsp_nil.
    - (* last element and comma *)
      intros n w1 t w2 w3 j Htc Hw1 Hg IH Hw2 Hw3 d fuel acc r Hn Hd Hf Hb. destruct fuel as [|[|f]]; [lia|cbn in Hf; lia|].
      repeat rewrite <- app_assoc in *. cbn [app] in *.
      destruct (elem_step _ w1 t w2 j 44 (w3 ++ 93 :: r) d (S f) acc Hw1 Hg IH) as [Y Nn]; auto using token44, numstop44; [plen|cbn in Hd; lia|].
      apply (outc_iff (distinct j)); [split; [auto|now inversion 1]|]. split; [|exact Nn].
      intros Hdj. rewrite Y by auto.
      change (44 =? 44) with true. cbv iota.
      cbn [array_loop]. rewrite skip_ws_token by (auto using token93). cbn [bind negb deref].
      rewrite Htc. cbn [andb N.eqb Pos.eqb]. rewrite <- Htc. apply (array_close_ok _ [] r). apply wsp_nil.
    - (* element *)
      intros n w1 t w2 j ts l Hw1 Hg IH Hw2 Hl IHl d fuel acc r Hn Hd Hf Hb. destruct fuel as [|f]; [lia|].
      repeat rewrite <- app_assoc in *. cbn [app] in *. cbn [mdepth fold_right] in Hd. fold (mdepth l) in Hd.
      destruct (elem_step _ w1 t w2 j 44 (ts ++ 93 :: r) d f acc Hw1 Hg IH) as [Y Nn]; auto using token44, numstop44; [plen|lia|].
      destruct (distinct_dec j) as [Hdj|Hdj]; [|apply outc_no; [now inversion 1|auto]].
      rewrite Y by auto. change (44 =? 44) with true. cbv iota.
      apply (outc_iff (Forall distinct l)); [split; [now constructor|now inversion 1]|].
      replace (acc ++ map inject (j :: l)) with ((acc ++ [inject j]) ++ map inject l) by (rewrite <- app_assoc; reflexivity).
      apply IHl.
      + exact Hn.
      + lia.
      + cbn in Hf. lia.
      + do 3 apply Forall_app_r in Hb. now apply Forall_inv_tail in Hb.
    - (* last member *)
      intros n w1 kt w2 w3 t w4 k j Hw1 Hk Hw2 Hw3 Hg IH Hw4 d fuel acc r Hn Hd Hf Hb Hnd. destruct fuel as [|f]; [lia|].
      repeat rewrite <- app_assoc in *.
      destruct (member_step _ w1 kt k w2 w3 t w4 j 125 r d f acc Hw1 ltac:(at_pos) Hw2 Hw3 Hg IH) as [Y Nn]; auto using token125, numstop125; [plen|cbn in Hd; lia|].
      apply (outc_iff (distinct j /\ ~ In k (map fst acc))); [now rewrite nodup_one by auto|].
      split; [|intros H; apply Nn; destruct (in_dec bytes_eq_dec k (map fst acc)); tauto]. intros [Hdj Hni]. rewrite Y by auto.
      cbn [N.eqb Pos.eqb]. apply (object_close_ok _ [] r). apply wsp_nil.
    - intros n w1 kt w2 w3 t w4 w5 k j Htc Hw1 Hk Hw2 Hw3 Hg IH Hw4 Hw5 d fuel acc r Hn Hd Hf Hb Hnd.
      destruct fuel as [|[|f]]; [lia|cbn in Hf; lia|].
      repeat rewrite <- app_assoc in *. change ([44] ++ w5 ++ 125 :: r) with (44 :: w5 ++ 125 :: r) in *.
      destruct (member_step _ w1 kt k w2 w3 t w4 j 44 (w5 ++ 125 :: r) d (S f) acc Hw1 ltac:(at_pos) Hw2 Hw3 Hg IH) as [Y Nn]; auto using token44, numstop44; [plen|cbn in Hd; lia|].
      apply (outc_iff (distinct j /\ ~ In k (map fst acc))); [now rewrite nodup_one by auto|].
      split; [|intros H; apply Nn; destruct (in_dec bytes_eq_dec k (map fst acc)); tauto]. intros [Hdj Hni]. rewrite Y by auto.
      change (44 =? 44) with true. cbv iota.
      cbn [object_loop]. rewrite skip_ws_token by (auto using token125). cbn [bind negb deref].
      rewrite Htc. cbn [andb N.eqb Pos.eqb]. rewrite <- Htc. apply (object_close_ok _ [] r). apply wsp_nil.
    - intros n w1 kt w2 w3 t w4 k j ts m Hw1 Hk Hw2 Hw3 Hg IH Hw4 Hm IHm d fuel acc r Hn Hd Hf Hb Hnd.
      destruct fuel as [|f]; [lia|].
      cbn [odepth fold_right snd] in Hd. fold (odepth m) in Hd.
      assert (Ea : acc ++ (k, j) :: m = (acc ++ [(k, j)]) ++ m) by (rewrite <- app_assoc; reflexivity).
      repeat rewrite <- app_assoc in Hb.
      replace ((w1 ++ kt ++ w2 ++ [58] ++ w3 ++ t ++ w4 ++ [44] ++ ts) ++ 125 :: r)
        with (w1 ++ kt ++ w2 ++ [58] ++ w3 ++ t ++ w4 ++ 44 :: ts ++ 125 :: r)
        by (repeat (rewrite <- app_assoc; cbn [app]); reflexivity).
      change ([44] ++ ts ++ 125 :: r) with (44 :: ts ++ 125 :: r) in Hb.
      destruct (member_step _ w1 kt k w2 w3 t w4 j 44 (ts ++ 125 :: r) d f acc Hw1 ltac:(at_pos) Hw2 Hw3 Hg IH) as [Y Nn]; auto using token44, numstop44; [plen|lia|].
      rewrite Ea.
      destruct (distinct_dec j) as [Hdj|Hdj]; [|apply outc_no; [intros [_ H]; inversion H; auto|auto]].
      destruct (in_dec bytes_eq_dec k (map fst acc)) as [Hin|Hni].
      { apply outc_no; [|auto]. intros [H _]. rewrite map_app in H. apply NoDup_app_l in H.
        rewrite map_app in H. cbn in H. apply NoDup_remove_2 in H. rewrite app_nil_r in H. auto. }
      rewrite Y by auto. change (44 =? 44) with true. cbv iota.
      apply (outc_iff (NoDup (map fst ((acc ++ [(k, j)]) ++ m)) /\ mdistinct m)).
      { split; intros [A B]; split; auto; [now constructor|now inversion B]. }
      apply IHm; auto.
      + lia.
      + cbn in Hf. lia.
      + do 7 apply Forall_app_r in Hb. now apply Forall_inv_tail in Hb.
      + rewrite map_app. apply NoDup_snoc; auto.
  Qed.

  Theorem parse_value_complete t j d r : pvalue W STR jsonc (length r) t j -> (depth j <= d)%nat -> follows j r ->
    Forall is_byte (t ++ r) -> outc (distinct j) (parse_value jsonc be d (t ++ r)) (inject j) r.
  Proof. intros Hg. exact (proj1 complete (length r) t j Hg d r eq_refl). Qed.

  Theorem pp_complete s j : Forall is_byte s -> pdocument W STR jsonc (stop jsonc) s j ->
    (distinct j -> parse jsonc be s = Ok (Some (inject j))) /\
    (~ distinct j -> parse jsonc be s = Ok None).
  Proof.
    intros Hb (w1 & t & w2 & e & -> & Hw1 & Hw2 & He & Hc & Hg).
    set (s := w1 ++ t ++ w2 ++ e) in *.
    assert (Hbig : (distinct j -> parse_budget jsonc be (Nat.max (length s) (depth j)) s = Ok (Some (inject j)))
                 /\ (~ distinct j -> parse_budget jsonc be (Nat.max (length s) (depth j)) s = Ok None)).
    { unfold parse_budget.
      pose proof (parse_value_complete t j (S (Nat.max (length s) (depth j))) (w2 ++ e) Hg ltac:(lia) (or_introl Hc)
                    (Forall_app_r _ _ _ Hb)) as Q.
      destruct (gvalue_head _ _ _ Hg) as (x & y & Et & Hx & _ & _).
      assert (Hxc : (x = 91 \/ x = 123)).
      { destruct Hg; cbn in *; try contradiction; injection Et as <- _; auto. }
      replace (skip_ws jsonc s) with (Ok (true, t ++ w2 ++ e)).
      2: { subst s. rewrite Et. cbn [app]. symmetry. now apply skip_ws_token. }
      rewrite Et in Q |- *. destruct (skip_ws_stop jsonc w2 e Hw2 He) as (r & Hr).
      destruct Hxc as [-> | ->]; cbn [parse_value app deref bind N.eqb Pos.eqb orb negb] in *;
        [change (isdigit 91) with false in Q|change (isdigit 123) with false in Q]; cbv iota in Q;
        destruct Q as [Y Nn]; split; intros H.
      1, 3: rewrite (Y H); cbn [bind]; rewrite valid_inject; cbn [negb]; rewrite Hr; reflexivity.
      all: destruct (Nn H) as (r2 & ->); reflexivity. }
    destruct (parse_total jsonc be s Hb) as (o & Ho & _).
    destruct (parse_budget_mono jsonc be (length s) (Nat.max (length s) (depth j)) s) as [E|E]; [lia| |].
    - unfold parse in Ho. congruence.
    - unfold parse in *. rewrite E. exact Hbig.
  Qed.
End Complete.
Theorem parse_complete_raw jsonc be rw : takes be rw -> forall s j, Forall is_byte s -> accepted_document jsonc rw s j ->
  (distinct j -> parse jsonc be s = Ok (Some (inject j))) /\
  (~ distinct j -> parse jsonc be s = Ok None).
Proof.
  intros Tk s j Hb H. apply (pp_complete jsonc be (fun _ => lstring rw)); auto.
  - intros n t x (body & -> & _). eauto.
  - intros t x r. now apply parse_stdstring_ok.
  - now apply pdocument_const.
Qed.
Lemma takes_scalar be : takes be false.
Proof. left. reflexivity. Qed.
Theorem parse_complete jsonc be s j : Forall is_byte s -> accepted_document jsonc false s j ->
  (distinct j -> parse jsonc be s = Ok (Some (inject j))) /\
  (~ distinct j -> parse jsonc be s = Ok None).
Proof. exact (parse_complete_raw jsonc be false (takes_scalar be) s j). Qed.
