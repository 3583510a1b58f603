(** * The parser: safety, termination, soundness and completeness with respect to the grammar. *)
From Verif Require Import Base Value Packed Parser Spec BaseProofs PackedProofs LexProofs StringProofs.
Ltac Zify.zify_post_hook ::= Z.div_mod_to_equations.

Lemma valid_inject j : valid (inject j) = true.
Proof. destruct j; reflexivity. Qed.

Definition inj_member (kv : bytes * json) : bytes * value := (fst kv, inject (snd kv)).
Lemma map_inj_keys m : map fst (map inj_member m) = map fst m.
Proof. induction m as [|[k v] m IH]; cbn; [reflexivity|]. now rewrite IH. Qed.

Lemma gnumber_nonempty t : gnumber t -> t <> [].
Proof. intros H. destruct (gnumber_head t H) as (c & r & -> & _). discriminate. Qed.
Section NonEmpty.
  Context (W : bytes -> Prop) (STR : nat -> bytes -> bytes -> Prop) (tc : bool).
  Context (Hshape : forall n t s, STR n t s -> exists body, t = 34 :: body).
  Lemma pvalue_nonempty n t j : pvalue W STR tc n t j -> t <> [].
  Proof.
    destruct 1 as [| | |n s H|n t s H|n w Hw|n t l H|n w Hw|n t m H]; try discriminate.
    - now apply gnumber_nonempty.
    - destruct (Hshape _ _ _ H) as (body & ->). discriminate.
  Qed.
End NonEmpty.

Section Sound.
  Context (jsonc : bool) (be : backend) (STR : nat -> bytes -> bytes -> Prop).
  (** literals: those of [STR], whatever the number of bytes behind them *)
  Context (Hshape : forall n t s, STR n t s -> exists body, t = 34 :: body).
  Context (Hcases : forall c r, Forall is_byte (c :: r) ->
    (exists t s r', c :: r = t ++ r' /\ STR (length r') t s /\ parse_stdstring be (c :: r) = Ok (Some s, r'))
    \/ exists r', parse_stdstring be (c :: r) = Ok (None, r')).
  Let W := wsp jsonc.
  Ltac at_pos := match goal with
    | H : pvalue _ _ _ ?n ?t ?j |- pvalue _ _ _ ?m ?t ?j => replace m with n; [exact H|]
    | H : STR ?n ?t ?j |- STR ?m ?t ?j => replace m with n; [exact H|]
    end; repeat (rewrite app_length || cbn [length app]); lia.

  Definition pp_post (cur : bytes) (p : value * bytes) : Prop :=
    valid (fst p) = true -> exists t j, cur = t ++ snd p /\ pvalue W STR jsonc (length (snd p)) t j /\ distinct j /\ fst p = inject j.
  Definition pv_spec (d : nat) (pv : bytes -> res (value * bytes)) : Prop :=
    forall cur, cur <> [] -> Forall is_byte cur -> wp (pv cur) (pp_post cur) (d < length cur)%nat.

  Lemma invalid_post cur r : pp_post cur (invalid_value, r).
  Proof. intros H. discriminate. Qed.

  (** array *)
  Definition arr_post (cur : bytes) (acc : array) (p : value * bytes) : Prop :=
    valid (fst p) = true -> exists body l, cur = body ++ 93 :: snd p
      /\ ((l = [] /\ jsonc = true /\ W body) \/ pelems W STR jsonc (S (length (snd p))) body l)
      /\ Forall distinct l
      /\ fst p = v_array (acc ++ map inject l).
  Lemma arr_invalid cur acc r : arr_post cur acc (invalid_value, r).
  Proof. intros H. discriminate. Qed.

  Lemma array_close_cases acc cur :
    (exists w r, cur = w ++ 93 :: r /\ W w /\ array_close jsonc acc cur = Ok (v_array acc, r))
    \/ exists r, array_close jsonc acc cur = Ok (invalid_value, r).
  Proof.
    unfold array_close. destruct (skip_ws_cases jsonc cur) as [(w & c & r & -> & Hw & Hc & ->)|(w & e & r & -> & Hw & He & ->)];
      cbn [bind negb]; [|right; eauto].
    cbn [deref bind]. destruct (N.eqb_spec c 93) as [->|]; [|right; eauto].
    cbn [advance bind]. left. eauto 8.
  Qed.
  Lemma object_close_cases acc cur :
    (exists w r, cur = w ++ 125 :: r /\ W w /\ object_close jsonc acc cur = Ok (v_object acc, r))
    \/ exists r, object_close jsonc acc cur = Ok (invalid_value, r).
  Proof.
    unfold object_close. destruct (skip_ws_cases jsonc cur) as [(w & c & r & -> & Hw & Hc & ->)|(w & e & r & -> & Hw & He & ->)];
      cbn [bind negb]; [|right; eauto].
    cbn [deref bind]. destruct (N.eqb_spec c 125) as [->|]; [|right; eauto].
    cbn [advance bind]. left. eauto 8.
  Qed.

  Lemma array_loop_wp d pv : pv_spec d pv -> forall fuel cur acc,
    (length cur < fuel)%nat -> Forall is_byte cur ->
    wp (array_loop jsonc pv fuel cur acc) (arr_post cur acc) (d < length cur)%nat.
  Proof.
    intros Hpv. induction fuel as [|f IH]; intros cur acc Hl Hb; [lia|]. cbn [array_loop].
    destruct (skip_ws_cases jsonc cur) as [(w & c & r & -> & Hw & Hc & ->)|(w & e & r & -> & Hw & He & ->)];
      cbn [bind negb]; [|apply arr_invalid].
    cbn [deref bind].
    destruct (jsonc && (c =? 93)) eqn:Ej.
    - apply andb_true_iff in Ej as [Ej E93]. apply N.eqb_eq in E93 as ->.
      unfold array_close. rewrite skip_ws_nows by auto. cbn [bind negb deref N.eqb Pos.eqb advance].
      intros _. exists w, []. cbn [fst snd map]. splits; auto. now rewrite app_nil_r.
    - assert (Hb1 : Forall is_byte (c :: r)) by (eapply Forall_app_r; eauto).
      assert (Hw1 : W w) by exact Hw.
      rewrite app_length in Hl.
      apply wp_bind. eapply wp_mono; [apply Hpv; [discriminate|exact Hb1]| |].
      2: { intros H. rewrite app_length. lia. }
      intros [val cur1] Hval. unfold pp_post in Hval. cbn [fst snd] in Hval. cbv beta iota.
      destruct (valid val) eqn:Ev; cbn [negb]; [|apply arr_invalid].
      destruct (Hval eq_refl) as (t & j & E1 & Hg & Hdj & ->). clear Hval.
      pose proof (pvalue_nonempty _ _ _ Hshape _ _ _ Hg) as Hne.
      assert (Hlt : (length cur1 < length (c :: r))%nat).
      { rewrite E1, app_length. destruct t; [congruence|cbn; lia]. }
      rewrite E1 in Hb1 |- *. apply Forall_app_r in Hb1.
      destruct (skip_ws_cases jsonc cur1) as [(w2 & c2 & r2 & -> & Hw2 & Hc2 & ->)|(w2 & e & r2 & -> & Hw2 & He & ->)];
        cbn [bind negb]; [|apply arr_invalid].
      cbn [deref bind].
      destruct (N.eqb_spec c2 44) as [->|Hc44].
      + cbn [advance bind]. eapply wp_mono; [apply IH| |].
        * rewrite app_length in Hlt. cbn [length] in *. lia.
        * apply Forall_app_r in Hb1. inversion Hb1; auto.
        * intros [v cur'] Hp Hv. destruct (Hp Hv) as (body & l & -> & HB & HD & ->). cbn [fst snd] in *.
          exists (w ++ t ++ w2 ++ [44] ++ body), (j :: l). splits.
          -- rewrite <- !app_assoc. reflexivity.
          -- right. destruct HB as [(-> & Htc & HW)|HB].
             ++ apply pe_trail; auto; at_pos.
             ++ apply pe_cons; auto; at_pos.
          -- constructor; auto.
          -- cbn [map]. rewrite <- app_assoc. reflexivity.
        * intros H. rewrite !app_length. cbn [length]. lia.
      + destruct (array_close_cases (acc ++ [inject j]) (c2 :: r2)) as [(w3 & r3 & E3 & Hw3 & ->)|(r3 & ->)]; [|apply arr_invalid].
        assert (w3 = []) as -> by (eapply wsp_token_no; eauto). cbn [app] in E3. injection E3 as -> ->.
        intros _. cbn [fst snd]. exists (w ++ t ++ w2), [j]. splits.
        * rewrite <- !app_assoc. reflexivity.
        * right. apply pe_last; auto; at_pos.
        * repeat constructor; auto.
  Qed.
  Lemma gelems_head n body l : pelems W STR jsonc n body l ->
    exists w1 rest, body = w1 ++ rest /\ W w1 /\ rest <> []
      /\ forall w, W w -> pelems W STR jsonc n (w ++ rest) l.
  Proof.
    destruct 1 as [n w1 t w2 j A B|n w1 t w2 w3 j A A' B|n w1 t w2 j ts l A B];
      pose proof (pvalue_nonempty _ _ _ Hshape _ _ _ B) as Hne; eexists w1, _; splits; auto.
    1, 3, 5: destruct t; [congruence|discriminate].
    - intros w Hw. now apply pe_last.
    - intros w Hw. now apply pe_trail.
    - intros w Hw. now apply pe_cons.
  Qed.
  Lemma pp_array_wp d pv : pv_spec d pv -> forall r, Forall is_byte (91 :: r) ->
    wp (parse_array jsonc pv (91 :: r)) (pp_post (91 :: r)) (d < length r)%nat.
  Proof.
    intros Hpv r Hb. unfold parse_array. cbn [deref bind N.eqb Pos.eqb negb advance].
    assert (Hb0 : Forall is_byte r) by (inversion Hb; auto).
    destruct (skip_ws_cases jsonc r) as [(w & c & r1 & -> & Hw & Hc & ->)|(w & e & r1 & -> & Hw & He & ->)];
      cbn [bind negb]; [|apply invalid_post].
    cbn [deref bind]. destruct (N.eqb_spec c 93) as [->|Hc93].
    - cbn [advance bind]. intros _. exists ([91] ++ w ++ [93]), (JArr []). splits.
      + cbn. rewrite <- app_assoc. reflexivity.
      + apply pv_arr0. exact Hw.
      + repeat constructor.
    - eapply wp_mono; [apply (array_loop_wp d pv Hpv); [lia|eapply Forall_app_r; eauto]| |].
      + intros [v cur'] Hp Hv. destruct (Hp Hv) as (body & l & E & HB & HD & ->). cbn [fst snd] in *.
        rewrite E. destruct HB as [(-> & Htc & HW)|HB].
        * (* impossible: the loop was entered on a token other than the bracket *)
          assert (body = []) as -> by (eapply wsp_token_no; eauto). cbn in E. congruence.
        * destruct (gelems_head _ _ _ HB) as (w1 & rest & -> & Hw1 & Hne & Hre).
          assert (w1 = []) as -> by (rewrite <- app_assoc in E; eapply wsp_token_no; eauto).
          exists ([91] ++ (w ++ rest) ++ [93]), (JArr l). splits.
          -- cbn. rewrite <- !app_assoc. reflexivity.
          -- apply pv_arr; auto.
          -- constructor; auto.
      + intros H. rewrite app_length. lia.
  Qed.

  (** object *)
  Definition obj_post (cur : bytes) (acc : list (bytes * json)) (p : value * bytes) : Prop :=
    valid (fst p) = true -> exists body m, cur = body ++ 125 :: snd p
      /\ ((m = [] /\ jsonc = true /\ W body) \/ pmembers W STR jsonc (S (length (snd p))) body m)
      /\ NoDup (map fst (acc ++ m)) /\ Forall (fun kv => distinct (snd kv)) m
      /\ fst p = v_object (sort_members (map inj_member (acc ++ m))).
  Lemma obj_invalid cur acc r : obj_post cur acc (invalid_value, r).
  Proof. intros H. discriminate. Qed.
  Lemma NoDup_snoc (l : list bytes) k : NoDup l -> ~ In k l -> NoDup (l ++ [k]).
  Proof. intros H Hk. apply NoDup_Add with (a := k) (l := l); [|auto]. rewrite <- (app_nil_r l) at 1. apply Add_app. Qed.

  Lemma object_loop_wp d pv : pv_spec d pv -> forall fuel cur acc,
    (length cur < fuel)%nat -> Forall is_byte cur -> NoDup (map fst acc) ->
    wp (object_loop jsonc be pv fuel cur (sort_members (map inj_member acc))) (obj_post cur acc) (d < length cur)%nat.
  Proof.
    intros Hpv. induction fuel as [|f IH]; intros cur acc Hl Hb Hnd; [lia|]. cbn [object_loop].
    destruct (skip_ws_cases jsonc cur) as [(w & c & r & -> & Hw & Hc & ->)|(w & e & r & -> & Hw & He & ->)];
      cbn [bind negb]; [|apply obj_invalid].
    cbn [deref bind].
    destruct (jsonc && (c =? 125)) eqn:Ej.
    - apply andb_true_iff in Ej as [Ej E93]. apply N.eqb_eq in E93 as ->.
      unfold object_close. rewrite skip_ws_nows by auto. cbn [bind negb deref N.eqb Pos.eqb advance].
      intros _. exists w, []. cbn [fst snd]. rewrite app_nil_r. splits; auto.
    - assert (Hb1 : Forall is_byte (c :: r)) by (eapply Forall_app_r; eauto).
      rewrite app_length in Hl.
      destruct (Hcases c r Hb1) as [(kt & k & r1 & E1 & Hk & ->)|(r1 & ->)]; cbn [bind]; [|apply obj_invalid].
      assert (Hlt1 : (length r1 < length (c :: r))%nat).
      { rewrite E1, app_length. destruct (Hshape _ _ _ Hk) as (kb & ->). cbn. lia. }
      rewrite E1 in Hb1 |- *. apply Forall_app_r in Hb1.
      destruct (skip_ws_cases jsonc r1) as [(w2 & c2 & r2 & -> & Hw2 & Hc2 & ->)|(w2 & e & r2 & -> & Hw2 & He & ->)];
        cbn [bind negb]; [|apply obj_invalid].
      cbn [deref bind]. destruct (N.eqb_spec c2 58) as [->|]; cbn [negb]; [|apply obj_invalid].
      cbn [advance bind].
      assert (Hb2 : Forall is_byte r2) by (apply Forall_app_r in Hb1; inversion Hb1; auto). clear Hb1.
      destruct (skip_ws_cases jsonc r2) as [(w3 & c3 & r3 & -> & Hw3 & Hc3 & ->)|(w3 & e & r3 & -> & Hw3 & He & ->)];
        cbn [bind negb]; [|apply obj_invalid].
      apply Forall_app_r in Hb2.
      repeat (rewrite app_length in Hlt1; cbn [length] in Hlt1).
      apply wp_bind. eapply wp_mono; [apply Hpv; [discriminate|exact Hb2]| |].
      2: { intros H. repeat (rewrite app_length; cbn [length]). cbn [length] in H. lia. }
      intros [val cur1] Hval. unfold pp_post in Hval. cbn [fst snd] in Hval. cbv beta iota.
      destruct (valid val) eqn:Ev; cbn [negb]; [|apply obj_invalid].
      destruct (Hval eq_refl) as (t & j & E3 & Hg & Hdj & ->). clear Hval.
      assert (Hlt3 : (length cur1 < S (length r3))%nat).
      { change (S (length r3)) with (length (c3 :: r3)). rewrite E3, app_length.
        pose proof (pvalue_nonempty _ _ _ Hshape _ _ _ Hg). destruct t; [congruence|cbn; lia]. }
      rewrite E3 in Hb2, Hk |- *. apply Forall_app_r in Hb2.
      destruct (skip_ws_cases jsonc cur1) as [(w4 & c4 & r4 & -> & Hw4 & Hc4 & ->)|(w4 & e & r4 & -> & Hw4 & He & ->)];
        cbn [bind negb]; [|apply obj_invalid].
      apply Forall_app_r in Hb2. rewrite app_length in Hlt3. cbn [length] in Hlt3.
      assert (Hsrt : sorted_keys (sort_members (map inj_member acc))).
      { apply sort_members_sorted. now rewrite map_inj_keys. }
      destruct (in_dec bytes_eq_dec k (map fst acc)) as [Hin|Hni].
      { rewrite map_emplace_old; [cbn [negb]; apply obj_invalid|auto|]. apply in_sort_keys. now rewrite map_inj_keys. }
      rewrite map_emplace_new; [cbn [negb]|auto|rewrite in_sort_keys; now rewrite map_inj_keys].
      assert (Hnd' : NoDup (map fst (acc ++ [(k, j)]))) by (rewrite map_app; apply NoDup_snoc; auto).
      assert (Hins : insert_member k (inject j) (sort_members (map inj_member acc)) = sort_members (map inj_member (acc ++ [(k, j)]))).
      { rewrite map_app. symmetry. apply sort_members_app_one. now rewrite map_inj_keys. }
      rewrite Hins. cbn [deref bind].
      destruct (N.eqb_spec c4 44) as [->|Hc44].
      + cbn [advance bind]. eapply wp_mono; [apply IH| |]; [|inversion Hb2; auto|exact Hnd'| |].
        * cbn [length] in *. lia.
        * intros [v cur'] Hp Hv. destruct (Hp Hv) as (body & m & -> & HB & Hn & HD & ->). cbn [fst snd] in *.
          exists (w ++ kt ++ w2 ++ [58] ++ w3 ++ t ++ w4 ++ [44] ++ body), ((k, j) :: m).
          assert (Ea : (acc ++ [(k, j)]) ++ m = acc ++ (k, j) :: m) by (rewrite <- app_assoc; reflexivity).
          rewrite Ea in Hn |- *. splits; auto.
          -- repeat (rewrite <- app_assoc; cbn [app]). reflexivity.
          -- right. destruct HB as [(-> & Htc & HW)|HB].
             ++ apply pm_trail; auto; at_pos.
             ++ apply pm_cons; auto; at_pos.
        * intros H. repeat (rewrite app_length; cbn [length]). lia.
      + destruct (object_close_cases (sort_members (map inj_member (acc ++ [(k, j)]))) (c4 :: r4)) as [(w5 & r5 & E5 & Hw5 & ->)|(r5 & ->)]; [|apply obj_invalid].
        assert (w5 = []) as -> by (eapply wsp_token_no; eauto). cbn [app] in E5. injection E5 as -> ->.
        intros _. cbn [fst snd]. exists (w ++ kt ++ w2 ++ [58] ++ w3 ++ t ++ w4), [(k, j)]. splits; auto.
        * repeat (rewrite <- app_assoc; cbn [app]). reflexivity.
        * right. apply pm_last; auto; at_pos.
  Qed.
  Lemma gmembers_head n body m : pmembers W STR jsonc n body m ->
    exists w1 rest, body = w1 ++ rest /\ W w1 /\ rest <> []
      /\ forall w, W w -> pmembers W STR jsonc n (w ++ rest) m.
  Proof.
    destruct 1 as [n w1 kt w2 w3 t w4 k j|n w1 kt w2 w3 t w4 w5 k j|n w1 kt w2 w3 t w4 k j ts m];
      eexists w1, _; splits; auto.
    1, 3, 5: match goal with H : STR _ _ _ |- _ => destruct (Hshape _ _ _ H) as (kb & ->); discriminate end.
    - intros w Hw. now apply pm_last.
    - intros w Hw. now apply pm_trail.
    - intros w Hw. now apply pm_cons.
  Qed.
  Lemma pp_object_wp d pv : pv_spec d pv -> forall r, Forall is_byte (123 :: r) ->
    wp (parse_object jsonc be pv (123 :: r)) (pp_post (123 :: r)) (d < length r)%nat.
  Proof.
    intros Hpv r Hb. unfold parse_object. cbn [deref bind N.eqb Pos.eqb negb advance].
    assert (Hb0 : Forall is_byte r) by (inversion Hb; auto).
    destruct (skip_ws_cases jsonc r) as [(w & c & r1 & -> & Hw & Hc & ->)|(w & e & r1 & -> & Hw & He & ->)];
      cbn [bind negb]; [|apply invalid_post].
    cbn [deref bind]. destruct (N.eqb_spec c 125) as [->|Hc93].
    - cbn [advance bind]. intros _. exists ([123] ++ w ++ [125]), (JObj []). splits.
      + cbn. rewrite <- app_assoc. reflexivity.
      + apply pv_obj0. exact Hw.
      + repeat constructor.
    - eapply wp_mono; [apply (object_loop_wp d pv Hpv _ _ []); [lia|eapply Forall_app_r; eauto|constructor]| |].
      + intros [v cur'] Hp Hv. destruct (Hp Hv) as (body & m & E & HB & Hn & HD & ->). cbn [fst snd] in *.
        rewrite E. destruct HB as [(-> & Htc & HW)|HB].
        * assert (body = []) as -> by (eapply wsp_token_no; eauto). cbn in E. congruence.
        * destruct (gmembers_head _ _ _ HB) as (w1 & rest & -> & Hw1 & Hne & Hre).
          assert (w1 = []) as -> by (rewrite <- app_assoc in E; eapply wsp_token_no; eauto).
          exists ([123] ++ (w ++ rest) ++ [125]), (JObj m). splits.
          -- cbn. rewrite <- !app_assoc. reflexivity.
          -- apply pv_obj; auto.
          -- constructor; auto.
      + intros H. rewrite app_length. lia.
  Qed.

  Theorem pp_value_wp : forall d, pv_spec d (parse_value jsonc be d).
  Proof.
    induction d as [|d IH]; intros cur Hne Hb.
    { destruct cur; [congruence|]. cbn. lia. }
    cbn [parse_value]. destruct cur as [|c r]; [congruence|]. cbn [deref bind].
    destruct (N.eqb_spec c 110) as [->|_].
    { unfold parse_null. destruct (match_word_cases null_string (110 :: r)) as [(r' & -> & ->)|(r' & ->)]; [|apply invalid_post].
      intros _. exists null_string, JNull. splits; [apply pv_null|constructor]. }
    destruct ((c =? 116) || (c =? 102)) eqn:E2.
    { unfold parse_boolean. cbn [deref bind]. destruct (N.eqb_spec c 116) as [->|_].
      { destruct (match_word_cases true_string (116 :: r)) as [(r' & -> & ->)|(r' & ->)]; [|apply invalid_post].
        intros _. exists true_string, (JBool true). splits; [apply pv_true|constructor]. }
      destruct (N.eqb_spec c 102) as [->|]; [|apply invalid_post].
      destruct (match_word_cases false_string (102 :: r)) as [(r' & -> & ->)|(r' & ->)]; [|apply invalid_post].
      intros _. exists false_string, (JBool false). splits; [apply pv_false|constructor]. }
    destruct ((c =? 45) || isdigit c) eqn:E3.
    { destruct (parse_number_cases c r) as [(t & x & r' & -> & Hn & ->)|(r' & ->)]; [|apply invalid_post].
      intros _. exists t, (JNum t). splits; [apply pv_num, Hn|constructor]. }
    destruct (N.eqb_spec c 34) as [->|_].
    { unfold parse_string. destruct (Hcases 34 r Hb) as [(t & s & r' & -> & Hs & ->)|(r' & ->)];
        cbn [bind]; [|apply invalid_post].
      intros _. exists t, (JStr s). splits; [apply pv_str, Hs|constructor]. }
    destruct (N.eqb_spec c 91) as [->|_].
    { eapply wp_mono; [apply (pp_array_wp d); auto|auto|cbn [length]; lia]. }
    destruct (N.eqb_spec c 123) as [->|_].
    { eapply wp_mono; [apply (pp_object_wp d); auto|auto|cbn [length]; lia]. }
    apply invalid_post.
  Qed.

  (** every input: a defined outcome, and only grammatical texts are accepted *)
  Theorem pp_budget_wp d s : Forall is_byte s ->
    wp (parse_budget jsonc be d s)
       (fun o => match o with None => True | Some v => exists j, pdocument W STR jsonc (stop jsonc) s j /\ distinct j /\ v = inject j end)
       (d < length s)%nat.
  Proof.
    intros Hb. unfold parse_budget.
    destruct (skip_ws_cases jsonc s) as [(w & c & r & -> & Hw & Hc & ->)|(w & e & r & -> & Hw & He & ->)];
      cbn [bind negb]; [|exact I].
    cbn [deref bind]. destruct ((c =? 91) || (c =? 123)) eqn:E; [|exact I].
    apply Forall_app_r in Hb. apply wp_bind.
    eapply wp_mono with (P := fun p => pp_post (c :: r) p /\ (valid (fst p) = true -> forall n t j, c :: r = t ++ snd p -> pvalue W STR jsonc n t j -> container j))
                        (S := (d < length r)%nat).
    - destruct (N.eqb_spec c 91) as [->|Hn].
      + eapply wp_mono; [apply (pp_array_wp d _ (pp_value_wp d)); auto| |auto].
        intros p Hp. split; auto. intros _ n t j Et Hg. destruct Hg as [| | |n s Hs|n t s Hs|n w' Hw'|n t l Hl|n w' Hw'|n t m Hm]; cbn; auto; try discriminate.
        2: { destruct (Hshape _ _ _ Hs) as (b & ->). discriminate. }
        destruct (gnumber_head _ Hs) as (x & y & -> & Hx). cbn in Et. injection Et as <- _. unfold digit in Hx. lia.
      + assert (c = 123) as -> by lia.
        eapply wp_mono; [apply (pp_object_wp d _ (pp_value_wp d)); auto| |auto].
        intros p Hp. split; auto. intros _ n t j Et Hg. destruct Hg as [| | |n s Hs|n t s Hs|n w' Hw'|n t l Hl|n w' Hw'|n t m Hm]; cbn; auto; try discriminate.
        2: { destruct (Hshape _ _ _ Hs) as (b & ->). discriminate. }
        destruct (gnumber_head _ Hs) as (x & y & -> & Hx). cbn in Et. injection Et as <- _. unfold digit in Hx. lia.
    - intros [v cur] [Hp Hcont]. cbn [fst snd] in *. cbv beta iota. destruct (valid v) eqn:Ev; cbn [negb]; [|exact I].
      destruct (Hp Ev) as (t & j & E1 & Hg & Hdj & Ej). cbn [fst snd] in *.
      destruct (skip_ws_cases jsonc cur) as [(w2 & c2 & r2 & -> & Hw2 & Hc2 & ->)|(w2 & e & r2 & -> & Hw2 & He & ->)];
        cbn [bind]; [exact I|].
      exists j. split; [|split; [exact Hdj|exact Ej]]. rewrite E1. exists w, t, w2, e. splits; auto. eapply Hcont; eauto.
    - rewrite app_length. cbn [length]. lia.
  Qed.
  Theorem pp_total s : Forall is_byte s ->
    exists o, parse jsonc be s = Ok o /\
      match o with None => True | Some v => exists j, pdocument W STR jsonc (stop jsonc) s j /\ distinct j /\ v = inject j end.
  Proof.
    intros Hb. pose proof (pp_budget_wp (length s) s Hb) as H. unfold parse.
    destruct (parse_budget jsonc be (length s) s) as [o|e| | |]; cbn in H; try contradiction; [eauto|lia].
  Qed.
End Sound.

(** ** Literals that do not depend on what follows *)
Scheme pvalue_mut := Induction for pvalue Sort Prop
  with pelems_mut := Induction for pelems Sort Prop
  with pmembers_mut := Induction for pmembers Sort Prop.
Combined Scheme positions_ind from pvalue_mut, pelems_mut, pmembers_mut.
Scheme gvalue_mut := Induction for gvalue Sort Prop
  with gelems_mut := Induction for gelems Sort Prop
  with gmembers_mut := Induction for gmembers Sort Prop.
Combined Scheme grammar_ind from gvalue_mut, gelems_mut, gmembers_mut.
Section Constant.
  Context (W : bytes -> Prop) (STR : bytes -> bytes -> Prop) (tc : bool).
  Lemma positions_grammar :
    (forall n t j, pvalue W (fun _ => STR) tc n t j -> gvalue W STR tc t j) /\
    (forall n t l, pelems W (fun _ => STR) tc n t l -> gelems W STR tc t l) /\
    (forall n t m, pmembers W (fun _ => STR) tc n t m -> gmembers W STR tc t m).
  Proof. apply positions_ind; intros; [constructor|constructor|constructor|now constructor..]. Qed.
  Lemma grammar_positions :
    (forall t j, gvalue W STR tc t j -> forall n, pvalue W (fun _ => STR) tc n t j) /\
    (forall t l, gelems W STR tc t l -> forall n, pelems W (fun _ => STR) tc n t l) /\
    (forall t m, gmembers W STR tc t m -> forall n, pmembers W (fun _ => STR) tc n t m).
  Proof. apply grammar_ind; intros; constructor; solve [auto]. Qed.
  Lemma pvalue_const n t j : pvalue W (fun _ => STR) tc n t j <-> gvalue W STR tc t j.
  Proof. split; intros H; [now apply positions_grammar in H|now apply grammar_positions]. Qed.
End Constant.
Lemma pdocument_const jsonc raw s j :
  pdocument (wsp jsonc) (fun _ => lstring raw) jsonc (stop jsonc) s j <-> accepted_document jsonc raw s j.
Proof.
  split; intros (w1 & t & w2 & e & H1 & H2 & H3 & H4 & H5 & H6); exists w1, t, w2, e; splits; auto;
    now apply pvalue_const in H6 || apply pvalue_const.
Qed.
Section SoundConst.
  Context (jsonc : bool) (be : backend).
  Let W := wsp jsonc.
  Let STR := lstring (raw_ok be).
  Lemma lstring_shape (n : nat) t s : lstring (raw_ok be) t s -> exists body, t = 34 :: body.
  Proof. intros (body & -> & _). eauto. Qed.
  Definition pv_post (cur : bytes) (p : value * bytes) : Prop :=
    valid (fst p) = true -> exists t j, cur = t ++ snd p /\ gvalue W STR jsonc t j /\ distinct j /\ fst p = inject j.
  Lemma post_const cur p : pp_post jsonc (fun _ => STR) cur p -> pv_post cur p.
  Proof. intros H V. destruct (H V) as (t & j & A & B & C). apply pvalue_const in B. exists t, j. auto. Qed.
  Let cases := parse_stdstring_cases be.
  Theorem parse_value_wp d cur : cur <> [] -> Forall is_byte cur ->
    wp (parse_value jsonc be d cur) (pv_post cur) (d < length cur)%nat.
  Proof.
    intros Hn Hb. eapply wp_mono; [apply (pp_value_wp jsonc be (fun _ => STR) lstring_shape cases d cur Hn Hb)|apply post_const|auto].
  Qed.
  Lemma parse_array_wp d r : Forall is_byte (91 :: r) ->
    wp (parse_array jsonc (parse_value jsonc be d) (91 :: r)) (pv_post (91 :: r)) (d < length r)%nat.
  Proof.
    intros Hb. eapply wp_mono; [apply (pp_array_wp jsonc be (fun _ => STR) lstring_shape cases d _ (pp_value_wp jsonc be (fun _ => STR) lstring_shape cases d) r Hb)|apply post_const|auto].
  Qed.
  Lemma parse_object_wp d r : Forall is_byte (123 :: r) ->
    wp (parse_object jsonc be (parse_value jsonc be d) (123 :: r)) (pv_post (123 :: r)) (d < length r)%nat.
  Proof.
    intros Hb. eapply wp_mono; [apply (pp_object_wp jsonc be (fun _ => STR) lstring_shape cases d _ (pp_value_wp jsonc be (fun _ => STR) lstring_shape cases d) r Hb)|apply post_const|auto].
  Qed.
  Theorem parse_budget_wp d s : Forall is_byte s ->
    wp (parse_budget jsonc be d s)
       (fun o => match o with None => True | Some v => exists j, accepted_document jsonc (raw_ok be) s j /\ distinct j /\ v = inject j end)
       (d < length s)%nat.
  Proof.
    intros Hb. eapply wp_mono; [apply (pp_budget_wp jsonc be (fun _ => STR) lstring_shape cases d s Hb)| |auto].
    intros [v|]; [|auto]. intros (j & A & B). apply pdocument_const in A. eauto.
  Qed.
  Theorem parse_total s : Forall is_byte s ->
    exists o, parse jsonc be s = Ok o /\
      match o with None => True | Some v => exists j, accepted_document jsonc (raw_ok be) s j /\ distinct j /\ v = inject j end.
  Proof.
    intros Hb. pose proof (parse_budget_wp (length s) s Hb) as H. unfold parse.
    destruct (parse_budget jsonc be (length s) s) as [o|e| | |]; cbn in H; try contradiction; [eauto|lia].
  Qed.
End SoundConst.

(** ** A larger stack never changes a finished outcome *)
Definition refines {A} (x y : res A) : Prop := x = Stack \/ x = y.
Lemma refines_refl {A} (x : res A) : refines x x. Proof. right; reflexivity. Qed.
Lemma refines_bind {A B} (x y : res A) (f g : A -> res B) :
  refines x y -> (forall a, refines (f a) (g a)) -> refines (bind x f) (bind y g).
Proof. intros [-> | ->] H; [left; reflexivity|]. destruct y; cbn; try (right; reflexivity). apply H. Qed.
Section Mono.
  Context (jsonc : bool) (be : backend) (pv pv' : bytes -> res (value * bytes)).
  Context (Hpv : forall cur, refines (pv cur) (pv' cur)).
  Ltac rf := repeat first
    [ match goal with
      | |- refines ?x ?x => exact (refines_refl x)
      | |- refines (pv ?c) (pv' ?c) => exact (Hpv c)
      | |- refines (bind _ _) (bind _ _) => apply refines_bind; [|intros ?]
      | |- refines (if ?b then _ else _) (if ?b then _ else _) => destruct b
      | |- refines (match ?x with _ => _ end) (match ?x with _ => _ end) => destruct x
      end ].
  Lemma array_loop_mono : forall fuel cur acc, refines (array_loop jsonc pv fuel cur acc) (array_loop jsonc pv' fuel cur acc).
  Proof. induction fuel as [|f IH]; intros cur acc; [apply refines_refl|]. cbn [array_loop]. rf; auto. Qed.
  Lemma object_loop_mono : forall fuel cur acc, refines (object_loop jsonc be pv fuel cur acc) (object_loop jsonc be pv' fuel cur acc).
  Proof. induction fuel as [|f IH]; intros cur acc; [apply refines_refl|]. cbn [object_loop]. rf; auto. Qed.
  Lemma parse_array_mono cur : refines (parse_array jsonc pv cur) (parse_array jsonc pv' cur).
  Proof. unfold parse_array. rf; auto using array_loop_mono. Qed.
  Lemma parse_object_mono cur : refines (parse_object jsonc be pv cur) (parse_object jsonc be pv' cur).
  Proof. unfold parse_object. rf; auto using object_loop_mono. Qed.
End Mono.
Lemma parse_value_mono jsonc be : forall d d' cur, (d <= d')%nat ->
  refines (parse_value jsonc be d cur) (parse_value jsonc be d' cur).
Proof.
  induction d as [|d IH]; intros d' cur Hd; [left; reflexivity|].
  destruct d' as [|d']; [lia|]. cbn [parse_value].
  apply refines_bind; [apply refines_refl|]. intros c.
  repeat match goal with |- refines (if ?b then _ else _) (if ?b then _ else _) => destruct b; try match goal with |- refines ?x ?x => exact (refines_refl x) end end.
  - apply parse_array_mono. intros cur'. apply IH. lia.
  - apply parse_object_mono. intros cur'. apply IH. lia.
Qed.
Lemma parse_budget_mono jsonc be d d' s : (d <= d')%nat ->
  refines (parse_budget jsonc be d s) (parse_budget jsonc be d' s).
Proof.
  intros Hd. unfold parse_budget. apply refines_bind; [apply refines_refl|]. intros [ok cur].
  destruct (negb ok); [apply refines_refl|]. apply refines_bind; [apply refines_refl|]. intros c.
  destruct ((c =? 91) || (c =? 123)); [|apply refines_refl].
  apply refines_bind; [|intros ?; apply refines_refl].
  destruct (c =? 91); [apply parse_array_mono|apply parse_object_mono]; intros cur'; now apply parse_value_mono.
Qed.
