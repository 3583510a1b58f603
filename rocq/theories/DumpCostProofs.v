(** * Serialization: the counter changes nothing, and stays within the bound. *)
From Verif Require Import Base BaseProofs Value Packed Parser Dump Cost DumpCost SpecCost CostProofs DumpProofs CostTheorems.
Open Scope N_scope.

Definition runs (m : cost bytes) (r : res bytes) (out : bytes) (B : N) : Prop :=
  fst m = bind r (fun t => Ok (out ++ t)) /\ snd m <= B.
Definition andthen (r : res bytes) (g : res bytes) : res bytes := do t <- r; do u <- g; Ok (t ++ u).
Lemma r_seq m f r g out B B' : runs m r out B -> (forall o, runs (f o) g o B') -> runs (cbind m f) (andthen r g) out (B + B').
Proof.
  intros [E H] K. unfold runs, andthen. rewrite fst_cbind, E. unfold cbind. rewrite E. destruct r as [t|e| | |]; cbn [bind fst snd] in *; try (split; [reflexivity|cbn; lia]).
  destruct (K (out ++ t)) as [E' H']. rewrite E'. split; [destruct g; cbn; [now rewrite app_assoc|..]; reflexivity|]. unfold tick. cbn. lia.
Qed.
Lemma r_eq m r r' out B B' : runs m r out B -> r = r' -> B <= B' -> runs m r' out B'.
Proof. intros [E H] <- L. split; auto. lia. Qed.
Lemma r_tick n m r out B : runs m r out B -> runs (tick n m) r out (n + B).
Proof. intros [E H]. split; [exact E|]. unfold tick. cbn. lia. Qed.
Lemma r_append out t : runs (append_c out t) (Ok t) out (1 + ln t).
Proof. split; [reflexivity|]. cbn. unfold ln. lia. Qed.
Lemma r_ret out : runs (ret out) (Ok []) out 0.
Proof. split; [cbn; now rewrite app_nil_r|cbn; lia]. Qed.
Lemma r_stop (r : res bytes) out : (forall t, r <> Ok t) -> runs (stop r) r out 0.
Proof. intros H. split; [|cbn; lia]. destruct r; cbn; try reflexivity. destruct (H a eq_refl). Qed.
Lemma then_ok r (g : res bytes) : andthen r g = bind r (fun t => bind g (fun u => Ok (t ++ u))).
Proof. reflexivity. Qed.

Lemma r_escape cur : forall pre out, runs (escape_c cur (pre ++ cur) out) (Ok (pre ++ concat (map esc1 cur))) out (ln pre + 16 * ln cur + 2).
Proof.
  induction cur as [|c r IH]; intros pre out; cbn [escape_c map concat].
  - eapply r_eq; [apply r_tick, r_append| |].
    + f_equal. rewrite app_nil_r. unfold slice. cbn [length]. rewrite Nat.sub_0_r. now rewrite firstn_all, ?app_nil_r.
    + unfold slice, ln. cbn [length]. rewrite app_nil_r, Nat.sub_0_r, firstn_all. lia.
  - assert (Sl : slice (pre ++ c :: r) (c :: r) = pre). { unfold slice. rewrite app_length, Nat.add_sub. rewrite firstn_app, Nat.sub_diag, firstn_all. cbn. now rewrite app_nil_r. }
    assert (L : ln (c :: r) = 1 + ln r) by (unfold ln; cbn [length]; lia).
    unfold esc1 at 1. destruct (escape_letter c) as [e|] eqn:El.
    + eapply r_eq; [apply r_tick; eapply r_seq; [apply r_append|intros o]; eapply r_seq; [apply r_append|intros o1]; eapply r_seq; [apply r_append|intros o2]; apply (IH [] o2)|..].
      * rewrite Sl. cbn. rewrite <- ?app_assoc. reflexivity.
      * rewrite Sl, L. unfold ln. cbn [length]. lia.
    + destruct (c <? 32) eqn:Ec.
      * eapply r_eq; [apply r_tick; eapply r_seq; [apply r_append|intros o]; eapply r_seq; [apply r_append|intros o1]; eapply r_seq; [apply r_append|intros o2]; eapply r_seq; [apply r_append|intros o3]; apply (IH [] o3)|..].
        -- rewrite Sl. cbn. rewrite <- ?app_assoc. reflexivity.
        -- rewrite Sl, L. unfold ln. cbn [length]. lia.
      * eapply r_eq; [apply r_tick; replace (pre ++ c :: r) with ((pre ++ [c]) ++ r) by (rewrite <- app_assoc; reflexivity); apply (IH (pre ++ [c]) out)|..].
        -- rewrite <- app_assoc. reflexivity.
        -- rewrite L. unfold ln. rewrite app_length. cbn [length]. lia.
Qed.
Lemma r_quoted s out : runs (quoted_c s out) (Ok ([34] ++ escape_string s ++ [34])) out (16 * ln s + 6).
Proof.
  eapply r_eq; [eapply r_seq; [apply r_append|intros o]; eapply r_seq; [apply (r_escape s [])|intros o1]; apply r_append|..].
  - rewrite escape_string_spec. reflexivity.
  - unfold ln. cbn [length]. lia.
Qed.
Lemma r_comma {A} (r : list A) out : runs (comma_c r out) (Ok (match r with [] => [] | _ => [44] end)) out 2.
Proof. destruct r; [eapply r_eq; [apply r_tick, r_ret|reflexivity|lia]|eapply r_eq; [apply r_append|reflexivity|unfold ln; cbn; lia]]. Qed.
Ltac bound := cbn [length]; unfold ln in *; cbn [length]; lia.
Lemma r_dump v : forall out B, 24 * N.of_nat (vsize v) <= B + 8 -> runs (dump_c v out) (dump v) out B.
Proof.
  assert (P : forall v, (1 <= vsize v)%nat) by (intros; apply vsize_pos).
  assert (Nl : forall n out B, 24 * N.of_nat (vsize n) <= B + 8 -> runs (tick 2 (append_c out null_string)) (Ok null_string) out B).
  { intros n out B L. eapply r_eq; [apply r_tick, r_append|reflexivity|]. pose proof (P n). change (ln null_string) with 4. lia. }
  assert (St : forall v e out B, 24 * N.of_nat (vsize v) <= B + 8 -> runs (tick 2 (stop (Throw e))) (Throw e) out B).
  { intros w e out B L. eapply r_eq; [apply r_tick, r_stop; discriminate|reflexivity|]. pose proof (P w). lia. }
  induction v using value_ind'; intros out B HB; cbn [dump_c dump].
  - destruct t; try (eapply St; exact HB); (eapply r_eq; [apply r_tick; first [apply r_append|apply r_quoted]|reflexivity|]); cbn [vsize] in HB; unfold ln in *; try (change (length null_string) with 4%nat); lia.
  - destruct t; try (eapply St; exact HB); try (eapply Nl; exact HB). eapply r_eq; [apply r_tick, r_stop; discriminate|reflexivity|cbn in HB; lia].
  - destruct t; try (eapply St; exact HB); try (eapply Nl; exact HB). rewrite vsize_arr in HB. unfold dump_array_c, dump_array_with.
    assert (G : forall o, runs (dump_elems_c dump_c l o) (dump_elems dump l) o (24 * N.of_nat (asz l) + 2)).
    { clear out HB. induction H as [|v l Hv _ IH]; intros o; cbn [dump_elems_c dump_elems].
      - eapply r_eq; [apply r_tick, r_ret|reflexivity|]. lia.
      - eapply r_eq; [apply r_tick; eapply r_seq; [apply (Hv o (24 * N.of_nat (vsize v) - 8)); pose proof (P v); lia|intros o1]; eapply r_seq; [apply r_comma|intros o2]; apply IH|..].
        + unfold andthen. destruct (dump v); cbn; auto. destruct (dump_elems dump l); cbn; auto.
        + rewrite asz_cons. pose proof (P v). lia. }
    eapply r_eq; [apply r_tick; eapply r_seq; [apply r_append|intros o]; eapply r_seq; [apply G|intros o1]; apply r_append|..].
    + unfold andthen. destruct (dump_elems dump l); cbn; reflexivity.
    + bound.
  - destruct t; try (eapply St; exact HB); try (eapply (Nl (VObj Tnull None)); exact HB). eapply r_eq; [apply r_tick, r_stop; discriminate|reflexivity|cbn in HB; lia].
  - destruct t; try (eapply St; exact HB); try (eapply (Nl (VObj Tnull (Some m))); exact HB). rewrite vsize_obj in HB. unfold dump_object_c, dump_object_with.
    assert (G : forall o, runs (dump_members_c dump_c m o) (dump_members dump m) o (24 * N.of_nat (osz m) + 4)).
    { clear out HB. induction H as [|[k v] l Hv _ IH]; intros o; cbn [dump_members_c dump_members].
      - eapply r_eq; [apply r_tick, r_ret|reflexivity|]. lia.
      - cbn [snd] in Hv. eapply r_eq; [apply r_tick; eapply r_seq; [apply r_quoted|intros o0]; eapply r_seq; [apply r_append|intros o3]; eapply r_seq; [apply (Hv o3 (24 * N.of_nat (vsize v) - 8)); pose proof (P v); lia|intros o1]; eapply r_seq; [apply r_comma|intros o2]; apply IH|..].
        + unfold andthen. cbn [bind]. destruct (dump v); cbn [bind]; auto. destruct (dump_members dump l); cbn [bind]; auto. f_equal. cbn. rewrite <- !app_assoc. reflexivity.
        + rewrite osz_cons. pose proof (P v). bound. }
    eapply r_eq; [apply r_tick; eapply r_seq; [apply r_append|intros o]; eapply r_seq; [apply G|intros o1]; apply r_append|..].
    + unfold andthen. destruct (dump_members dump m); cbn; reflexivity.
    + bound.
Qed.
Lemma r_spaces out n K : n <= K -> runs (append_c out (spaces n)) (Ok (spaces n)) out (1 + K).
Proof. intros L. eapply r_eq; [apply r_append|reflexivity|]. pose proof (spaces_length n). unfold ln. lia. Qed.
Lemma r_format w v : forall t out K B, w * (t + N.of_nat (vdepth v)) <= K -> (26 + 2 * K) * N.of_nat (vsize v) <= B + 8 + K ->
  runs (format_c w t v out) (format_to w t v) out B.
Proof.
  assert (P : forall v, (1 <= vsize v)%nat) by (intros; apply vsize_pos).
  assert (Du : forall v out K B, (26 + 2 * K) * N.of_nat (vsize v) <= B + 8 + K -> runs (tick 2 (dump_c v out)) (dump v) out B).
  { intros n out K B L. pose proof (P n). eapply r_eq; [apply r_tick, (r_dump n out (24 * N.of_nat (vsize n) - 8)); lia|reflexivity|]. assert (Q : K * 1 <= K * N.of_nat (vsize n)) by (apply N.mul_le_mono_l; lia). rewrite N.mul_add_distr_r in L. lia. }
  assert (St : forall v e out K B, (26 + 2 * K) * N.of_nat (vsize v) <= B + 8 + K -> runs (tick 2 (stop (Throw e))) (Throw e) out B).
  { intros n e out K B L. eapply r_eq; [apply r_tick, r_stop; discriminate|reflexivity|]. pose proof (P n). assert (Q : (26 + 2 * K) * 1 <= (26 + 2 * K) * N.of_nat (vsize n)) by (apply N.mul_le_mono_l; lia). lia. }
  induction v using value_ind'; intros n out K B HK HB; cbn [format_c format_to].
  - destruct t; try (eapply Du; exact HB); eapply St; exact HB.
  - destruct t; try (eapply Du; exact HB); try (eapply St; exact HB). eapply r_eq; [apply r_tick, r_stop; discriminate|reflexivity|cbn [vsize] in HB; lia].
  - destruct t; try (eapply Du; exact HB); try (eapply St; exact HB). rewrite vsize_arr in HB. rewrite vdepth_arr in HK. unfold format_array_c, format_array_with.
    assert (HK' : w * (n + 1 + N.of_nat (list_max (map vdepth l))) <= K) by nia.
    assert (G : forall o, runs (format_elems_c (format_c w (n + 1)) w n l o) (format_elems (format_to w (n + 1)) w n l) o ((26 + 2 * K) * N.of_nat (asz l) + 2)).
    { clear out HB HK. induction H as [|v l Hv _ IH]; intros o; cbn [format_elems_c format_elems].
      - eapply r_eq; [apply r_tick, r_ret|reflexivity|]. lia.
      - cbn [map] in HK'. rewrite list_max_cons in HK'.
        assert (K1 : w * (n + 1) <= K) by nia. assert (K2 : w * (n + 1 + N.of_nat (vdepth v)) <= K) by nia. assert (K3 : w * (n + 1 + N.of_nat (list_max (map vdepth l))) <= K) by nia.
        eapply r_eq; [apply r_tick; eapply r_seq; [apply (r_spaces _ _ K); exact K1|intros o1]; eapply r_seq; [apply (Hv (n + 1) o1 K ((26 + 2 * K) * N.of_nat (vsize v) - 8 - K)); [exact K2|pose proof (P v); nia]|intros o2]; eapply r_seq; [apply r_comma|intros o3]; eapply r_seq; [apply r_append|intros o4]; apply (IH K3)|..].
        + unfold andthen. cbn [bind]. destruct (format_to w (n + 1) v); cbn [bind]; auto. destruct (format_elems (format_to w (n + 1)) w n l); cbn [bind]; auto.
        + rewrite asz_cons. pose proof (P v). assert (Q : (26 + 2 * K) * 1 <= (26 + 2 * K) * N.of_nat (vsize v)) by (apply N.mul_le_mono_l; lia). unfold ln. cbn [length]. lia. }
    assert (K1 : w * n <= K) by nia.
    eapply r_eq; [apply r_tick; eapply r_seq; [apply r_append|intros o]; eapply r_seq; [apply r_append|intros o0]; eapply r_seq; [apply G|intros o1]; eapply r_seq; [apply (r_spaces _ _ K); exact K1|intros o2]; apply r_append|..].
    + unfold andthen. cbn [bind]. destruct (format_elems (format_to w (n + 1)) w n l); cbn [bind]; reflexivity.
    + unfold ln. cbn [length]. lia.
  - destruct t; try (eapply Du; exact HB); try (eapply St; exact HB). eapply r_eq; [apply r_tick, r_stop; discriminate|reflexivity|cbn [vsize] in HB; lia].
  - destruct t; try (eapply Du; exact HB); try (eapply St; exact HB). rewrite vsize_obj in HB. rewrite vdepth_obj in HK. unfold format_object_c, format_object_with.
    assert (HK' : w * (n + 1 + N.of_nat (list_max (map (fun '(_, x) => vdepth x) m))) <= K) by nia.
    assert (G : forall o, runs (format_members_c (format_c w (n + 1)) w n m o) (format_members (format_to w (n + 1)) w n m) o ((26 + 2 * K) * N.of_nat (osz m) + 4)).
    { clear out HB HK. induction H as [|[k v] l Hv _ IH]; intros o; cbn [format_members_c format_members].
      - eapply r_eq; [apply r_tick, r_ret|reflexivity|]. lia.
      - cbn [map] in HK'. cbn [snd] in Hv. rewrite list_max_cons in HK'.
        assert (K1 : w * (n + 1) <= K) by nia. assert (K2 : w * (n + 1 + N.of_nat (vdepth v)) <= K) by nia. assert (K3 : w * (n + 1 + N.of_nat (list_max (map (fun '(_, x) => vdepth x) l))) <= K) by nia.
        eapply r_eq; [apply r_tick; eapply r_seq; [apply (r_spaces _ _ K); exact K1|intros o1]; eapply r_seq; [apply r_quoted|intros o5]; eapply r_seq; [apply r_append|intros o6]; eapply r_seq; [apply r_append|intros o7]; eapply r_seq; [apply (Hv (n + 1) o7 K ((26 + 2 * K) * N.of_nat (vsize v) - 8 - K)); [exact K2|pose proof (P v); nia]|intros o2]; eapply r_seq; [apply r_comma|intros o3]; eapply r_seq; [apply r_append|intros o4]; apply (IH K3)|..].
        + unfold andthen. cbn [bind]. destruct (format_to w (n + 1) v); cbn [bind]; auto. destruct (format_members (format_to w (n + 1)) w n l); cbn [bind]; auto. f_equal. cbn. rewrite <- !app_assoc. reflexivity.
        + rewrite osz_cons. pose proof (P v). assert (Q : (26 + 2 * K) * 1 <= (26 + 2 * K) * N.of_nat (vsize v)) by (apply N.mul_le_mono_l; lia).
          assert (Q' : 26 * N.of_nat (length k) <= (26 + 2 * K) * N.of_nat (length k)) by (apply N.mul_le_mono_r; lia). unfold ln. cbn [length]. lia. }
    assert (K1 : w * n <= K) by nia.
    eapply r_eq; [apply r_tick; eapply r_seq; [apply r_append|intros o]; eapply r_seq; [apply r_append|intros o0]; eapply r_seq; [apply G|intros o1]; eapply r_seq; [apply (r_spaces _ _ K); exact K1|intros o2]; apply r_append|..].
    + unfold andthen. cbn [bind]. destruct (format_members (format_to w (n + 1)) w n m); cbn [bind]; reflexivity.
    + unfold ln. cbn [length]. lia.
Qed.
Theorem dumps_time indent v : fst (dumps_c indent v) = dumps indent v /\
  snd (dumps_c indent v) <= (26 + 2 * match indent with Some w => w * N.of_nat (vdepth v) | None => 0 end) * N.of_nat (vsize v).
Proof.
  assert (R : forall r : res bytes, bind r (fun t => Ok ([] ++ t)) = r) by (intros []; reflexivity).
  pose proof (vsize_pos v) as P. unfold dumps_c. destruct indent as [w|]; cbn [dumps].
  - destruct (r_format w v 0 [] (w * N.of_nat (vdepth v)) ((26 + 2 * (w * N.of_nat (vdepth v))) * N.of_nat (vsize v) - 2)) as [E H]; [lia|nia|].
    rewrite R in E. split; [exact E|]. unfold tick. cbn [snd]. assert (2 <= (26 + 2 * (w * N.of_nat (vdepth v))) * N.of_nat (vsize v)) by nia. lia.
  - destruct (r_dump v [] (24 * N.of_nat (vsize v))) as [E H]; [lia|]. rewrite R in E. split; [exact E|]. unfold tick. cbn [snd]. lia.
Qed.
