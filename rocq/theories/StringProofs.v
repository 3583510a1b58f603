(** * String literals: exact behaviour of parse_stdstring. *)
From Verif Require Import Base Value Packed Parser Spec BaseProofs PackedProofs.
Ltac Zify.zify_post_hook ::= Z.div_mod_to_equations.

(** ** Hexadecimal digits *)
Lemma hexdig_lt c d : hexdig c d -> d < 16.
Proof. destruct 1; lia. Qed.
Lemma hex_value_spec c d : hex_value c = Some d <-> hexdig c d.
Proof.
  unfold hex_value, isxdigit, isdigit. split.
  - destruct ((48 <=? c) && (c <=? 57)) eqn:E1; cbn [orb negb].
    + intros [= <-]. apply hex_dec. lia.
    + destruct ((97 <=? c) && (c <=? 102)) eqn:E2; cbn [orb negb].
      * intros [= <-]. replace (c - 97 + 10) with (c - 87) by lia. apply hex_low. lia.
      * destruct ((65 <=? c) && (c <=? 70)) eqn:E3; cbn [orb negb]; [|discriminate].
        intros [= <-]. replace (c - 65 + 10) with (c - 55) by lia. apply hex_up. lia.
  - destruct 1.
    + assert (((48 <=? c) && (c <=? 57)) = true) as -> by lia. reflexivity.
    + assert (((48 <=? c) && (c <=? 57)) = false) as -> by lia.
      assert (((97 <=? c) && (c <=? 102)) = true) as -> by lia. cbn. f_equal. lia.
    + assert (((48 <=? c) && (c <=? 57)) = false) as -> by lia.
      assert (((97 <=? c) && (c <=? 102)) = false) as -> by lia.
      assert (((65 <=? c) && (c <=? 70)) = true) as -> by lia. cbn. f_equal. lia.
Qed.
Lemma lor_low a n b : b < 2 ^ n -> N.lor (N.shiftl a n) b = a * 2 ^ n + b.
Proof.
  intros H. assert (N.land (N.shiftl a n) b = 0) as L.
  { apply N.bits_inj_iff. intros i. rewrite N.land_spec, N.bits_0.
    destruct (N.lt_ge_cases i n) as [Hi|Hi].
    - rewrite N.shiftl_spec_low by auto. reflexivity.
    - rewrite <- (N.mod_small b (2 ^ n)) by auto. rewrite N.mod_pow2_bits_high by auto. apply andb_false_r. }
  rewrite <- N.lxor_lor by auto. rewrite <- N.add_nocarry_lxor by auto.
  rewrite N.shiftl_mul_pow2. reflexivity.
Qed.
Lemma hex_step cp d : cp < 4096 -> d < 16 -> N.lor (N.shiftl cp 4 mod 65536) d = cp * 16 + d.
Proof.
  intros Hc Hd. rewrite N.mod_small.
  - apply (lor_low cp 4 d). exact Hd.
  - rewrite N.shiftl_mul_pow2. change (2 ^ 4) with 16. lia.
Qed.
Lemma hex_loop_ok x a b c d r cp : hex4 [a; b; c; d] cp ->
  hex_loop 4 0 (x :: a :: b :: c :: d :: r) = Ok (Some cp, d :: r).
Proof.
  inversion 1 as [? ? ? ? a' b' c' d' Ha Hb Hc Hd]; subst.
  pose proof (hexdig_lt _ _ Ha). pose proof (hexdig_lt _ _ Hb).
  pose proof (hexdig_lt _ _ Hc). pose proof (hexdig_lt _ _ Hd).
  apply hex_value_spec in Ha, Hb, Hc, Hd.
  cbn [hex_loop advance bind at_end deref]. rewrite Ha, Hb, Hc, Hd.
  rewrite (hex_step 0 a') by lia. rewrite (hex_step (0 * 16 + a') b') by lia.
  rewrite (hex_step ((0 * 16 + a') * 16 + b') c') by lia.
  rewrite (hex_step (((0 * 16 + a') * 16 + b') * 16 + c') d') by lia. do 3 f_equal. lia.
Qed.
Lemma hex_loop_cases x rest :
  (exists a b c d r cp, rest = a :: b :: c :: d :: r /\ hex4 [a; b; c; d] cp
      /\ hex_loop 4 0 (x :: rest) = Ok (Some cp, d :: r))
  \/ exists r, hex_loop 4 0 (x :: rest) = Ok (None, r).
Proof.
  destruct rest as [|a rest]; [right; cbn; eauto|].
  destruct (hex_value a) as [a'|] eqn:Ha;
    [|right; cbn [hex_loop advance bind at_end deref]; rewrite Ha; eauto].
  destruct rest as [|b rest]; [right; cbn [hex_loop advance bind at_end deref]; rewrite Ha; cbn; eauto|].
  destruct (hex_value b) as [b'|] eqn:Hb;
    [|right; cbn [hex_loop advance bind at_end deref]; rewrite Ha, Hb; eauto].
  destruct rest as [|c rest]; [right; cbn [hex_loop advance bind at_end deref]; rewrite Ha, Hb; cbn; eauto|].
  destruct (hex_value c) as [c'|] eqn:Hc;
    [|right; cbn [hex_loop advance bind at_end deref]; rewrite Ha, Hb, Hc; eauto].
  destruct rest as [|d rest]; [right; cbn [hex_loop advance bind at_end deref]; rewrite Ha, Hb, Hc; cbn; eauto|].
  destruct (hex_value d) as [d'|] eqn:Hd;
    [|right; cbn [hex_loop advance bind at_end deref]; rewrite Ha, Hb, Hc, Hd; eauto].
  apply hex_value_spec in Ha, Hb, Hc, Hd.
  left. exists a, b, c, d, rest, (a' * 4096 + b' * 256 + c' * 16 + d').
  assert (H : hex4 [a; b; c; d] (a' * 4096 + b' * 256 + c' * 16 + d')) by (constructor; auto).
  splits; auto. apply hex_loop_ok, H.
Qed.
Lemma hex4_shape h cp : hex4 h cp -> exists a b c d, h = [a; b; c; d].
Proof. destruct 1; eauto. Qed.
Lemma hex4_lt h cp : hex4 h cp -> cp < 65536.
Proof.
  destruct 1 as [a b c d a' b' c' d' Ha Hb Hc Hd].
  apply hexdig_lt in Ha, Hb, Hc, Hd. lia.
Qed.
Lemma hexdig_fun c d d' : hexdig c d -> hexdig c d' -> d = d'.
Proof. intros H H'. apply hex_value_spec in H, H'. congruence. Qed.
Lemma hex4_fun h cp cp' : hex4 h cp -> hex4 h cp' -> cp = cp'.
Proof.
  intros H H'. inversion H as [? ? ? ? ? ? ? ? A B C D]; subst.
  inversion H' as [? ? ? ? ? ? ? ? A' B' C' D']; subst.
  rewrite (hexdig_fun _ _ _ A A'), (hexdig_fun _ _ _ B B'), (hexdig_fun _ _ _ C C'), (hexdig_fun _ _ _ D D'). reflexivity.
Qed.

(** ** UTF-8 emission *)
Lemma lor_sweep : forallb (fun y => (N.lor y 128 =? 128 + y)) (map N.of_nat (seq 0 64))
  && forallb (fun y => (N.lor y 192 =? 192 + y)) (map N.of_nat (seq 0 32))
  && forallb (fun y => (N.lor y 224 =? 224 + y)) (map N.of_nat (seq 0 16))
  && forallb (fun y => (N.lor y 240 =? 240 + y)) (map N.of_nat (seq 0 8)) = true.
Proof. vm_compute. reflexivity. Qed.
Lemma in_below n x : x < N.of_nat n -> In x (map N.of_nat (seq 0 n)).
Proof. intros H. apply in_map_iff. exists (N.to_nat x). split; [apply N2Nat.id|apply in_seq; lia]. Qed.
Lemma lor_128 y : y < 64 -> N.lor y 128 = 128 + y.
Proof.
  intros H. pose proof lor_sweep as S. rewrite !andb_true_iff in S. destruct S as (((S & _) & _) & _).
  rewrite forallb_forall in S. apply N.eqb_eq, S, in_below, H.
Qed.
Lemma lor_192 y : y < 32 -> N.lor y 192 = 192 + y.
Proof.
  intros H. pose proof lor_sweep as S. rewrite !andb_true_iff in S. destruct S as (((_ & S) & _) & _).
  rewrite forallb_forall in S. apply N.eqb_eq, S, in_below, H.
Qed.
Lemma lor_224 y : y < 16 -> N.lor y 224 = 224 + y.
Proof.
  intros H. pose proof lor_sweep as S. rewrite !andb_true_iff in S. destruct S as ((_ & S) & _).
  rewrite forallb_forall in S. apply N.eqb_eq, S, in_below, H.
Qed.
Lemma lor_240 y : y < 8 -> N.lor y 240 = 240 + y.
Proof.
  intros H. pose proof lor_sweep as S. rewrite !andb_true_iff in S. destruct S as (_ & S).
  rewrite forallb_forall in S. apply N.eqb_eq, S, in_below, H.
Qed.
Lemma land_63 x : N.land x 63 = x mod 64. Proof. apply (N.land_ones x 6). Qed.
Lemma land_31 x : N.land x 31 = x mod 32. Proof. apply (N.land_ones x 5). Qed.
Lemma land_15 x : N.land x 15 = x mod 16. Proof. apply (N.land_ones x 4). Qed.
Lemma land_7 x : N.land x 7 = x mod 8. Proof. apply (N.land_ones x 3). Qed.
Lemma mod_lt_N x n : n <> 0 -> x mod n < n. Proof. apply N.mod_lt. Qed.
Lemma utf8_emit_spec cp : cp < 2097152 -> utf8_emit cp = utf8 cp.
Proof.
  intros H. unfold utf8_emit, utf8. rewrite !land_63, !land_31, !land_15, !land_7.
  rewrite !N.shiftr_div_pow2. change (2 ^ 6) with 64. change (2 ^ 12) with 4096. change (2 ^ 18) with 262144.
  rewrite !lor_128, lor_192, lor_224, lor_240 by (apply mod_lt_N; discriminate).
  destruct (N.leb_spec cp 127) as [L1|L1], (N.ltb_spec cp 128) as [M1|M1]; try lia; [reflexivity|].
  destruct (N.leb_spec cp 2047) as [L2|L2], (N.ltb_spec cp 2048) as [M2|M2]; try lia.
  { rewrite (N.mod_small (cp / 64)) by (apply N.div_lt_upper_bound; lia). reflexivity. }
  destruct (N.leb_spec cp 65535) as [L3|L3], (N.ltb_spec cp 65536) as [M3|M3]; try lia.
  { rewrite (N.mod_small (cp / 4096)) by (apply N.div_lt_upper_bound; lia). reflexivity. }
  rewrite (N.mod_small (cp / 262144)) by (apply N.div_lt_upper_bound; lia). reflexivity.
Qed.

(** ** Accelerated skipping *)
Lemma unescaped_special c : unescaped c <-> ~ special c.
Proof. unfold unescaped, special. lia. Qed.
Lemma step_pos be st : step be = Some st -> (0 < st)%nat.
Proof. destruct be; cbn; intros [= <-]; lia. Qed.
Lemma accel_loop_spec be st : step be = Some st -> forall fuel cur,
  (length cur < fuel)%nat -> Forall is_byte cur ->
  exists mid cur', accel_loop be st fuel cur = Ok cur' /\ cur = mid ++ cur' /\ Forall unescaped mid.
Proof.
  intros Hst. pose proof (step_pos be st Hst) as Hpos.
  induction fuel as [|f IH]; intros cur Hl Hb; [lia|]. cbn [accel_loop].
  destruct (Nat.leb_spec st (length cur)) as [Hs|Hs]; [|exists [], cur; auto].
  unfold load_block, advance_by. destruct (Nat.ltb_spec (length cur) st) as [?|_]; [lia|]. cbn [bind].
  assert (Hlen : length (firstn st cur) = st) by (rewrite firstn_length; lia).
  assert (Hbk : Forall is_byte (firstn st cur)).
  { rewrite <- (firstn_skipn st cur) in Hb. eapply Forall_app_l; eauto. }
  pose proof (scan_spec_all be st _ Hst Hlen Hbk) as Hsc.
  destruct (scan be (firstn st cur)) as [i|]; cbn [scan_spec] in Hsc.
  - destruct Hsc as [Hi Hf]. rewrite Hlen in Hi.
    destruct (Nat.ltb_spec (length cur) (N.to_nat i)) as [?|_]; [lia|].
    exists (firstn (N.to_nat i) cur), (skipn (N.to_nat i) cur). splits.
    + symmetry. apply firstn_skipn.
    + rewrite firstn_firstn, Nat.min_l in Hf by lia.
      eapply Forall_impl; [|exact Hf]. intros c Hc. now apply unescaped_special.
  - cbn [bind]. destruct (IH (skipn st cur)) as (mid & cur' & E & Ec & Hm).
    + rewrite skipn_length. lia.
    + rewrite <- (firstn_skipn st cur) in Hb. eapply Forall_app_r; eauto.
    + exists (firstn st cur ++ mid), cur'. splits; auto.
      * rewrite <- app_assoc, <- Ec. symmetry. apply firstn_skipn.
      * apply Forall_app. split; auto. eapply Forall_impl; [|exact Hsc]. intros c Hc. now apply unescaped_special.
Qed.
Lemma skip_accel_spec be cur : cur <> [] -> Forall is_byte cur ->
  exists mid cur', skip_accel be cur = Ok (negb (at_end cur'), cur') /\ cur = mid ++ cur'
    /\ Forall unescaped mid /\ (step be = None -> mid = []).
Proof.
  intros Hn Hb. unfold skip_accel. destruct (step be) as [st|] eqn:E.
  - destruct (accel_loop_spec be st E (S (length cur)) cur) as (mid & cur' & A & B & C); auto.
    rewrite A. cbn [bind]. exists mid, cur'. splits; auto. discriminate.
  - exists [], cur. splits; auto. destruct cur; [congruence|reflexivity].
Qed.

(** ** The string loop *)
Definition ph_opt (ph : N) : option N := if ph =? 0 then None else Some ph.
Definition raw_ok (be : backend) : bool := match step be with None => false | Some _ => true end.

Lemma esc_simple l c : simple_escape l = Some c <-> esc l c.
Proof.
  unfold simple_escape. split.
  - repeat match goal with |- (if ?a =? ?b then _ else _) = _ -> _ => destruct (N.eqb_spec a b); [subst; intros [= <-]; constructor|] end.
    discriminate.
  - destruct 1; reflexivity.
Qed.
Lemma esc_not_u l c : esc l c -> l <> 117.
Proof. destruct 1; discriminate. Qed.

Lemma lchars_raws raw ph mid : Forall unescaped mid -> (mid = [] \/ ph = None \/ raw = true) -> forall t s,
  lchars raw ph t s -> lchars raw ph (mid ++ t) (mid ++ s).
Proof.
  induction 1 as [|c mid Hc _ IH]; intros Ho t s H; cbn; auto.
  assert (Ho' : ph = None \/ raw = true) by (destruct Ho as [?|?]; [discriminate|auto]).
  constructor; auto.
Qed.
Lemma lchars_raw_inv raw ph c t s : unescaped c -> lchars raw ph (c :: t) s ->
  exists s', s = c :: s' /\ lchars raw ph t s' /\ (ph = None \/ raw = true).
Proof.
  intros (H1 & H2 & H3) H. inversion H; subst; try congruence. eauto.
Qed.

(** *** skip_unicode_escape *)
Lemma unicode_cases x rest ph result : (ph = 0 \/ high_surrogate ph) ->
  (exists h d r cp, rest = h ++ r /\ hex4 h cp /\
     ( (high_surrogate cp /\ ph = 0 /\
          skip_unicode_escape (x :: rest) ph result = Ok (true, d :: r, cp, result))
     \/ (low_surrogate cp /\ high_surrogate ph /\
          skip_unicode_escape (x :: rest) ph result
          = Ok (true, d :: r, 0, result ++ utf8 (65536 + (ph - 55296) * 1024 + (cp - 56320))))
     \/ (~ surrogate cp /\
          skip_unicode_escape (x :: rest) ph result = Ok (true, d :: r, ph, result ++ utf8 cp))))
  \/ exists r p s, skip_unicode_escape (x :: rest) ph result = Ok (false, r, p, s).
Proof.
  intros Hph. unfold skip_unicode_escape.
  destruct (hex_loop_cases x rest) as [(a & b & c & d & r & cp & -> & Hh & ->)|(r & ->)]; cbn [bind].
  2: { right. eauto. }
  pose proof (hex4_lt _ _ Hh) as Hcp.
  destruct ((55296 <=? cp) && (cp <=? 56319)) eqn:E1.
  - destruct (N.eqb_spec ph 0) as [->|Hp]; cbn [negb]; [|right; eauto].
    left. exists [a; b; c; d], d, r, cp. splits; auto. left. unfold high_surrogate. splits; auto; lia.
  - destruct ((56320 <=? cp) && (cp <=? 57343)) eqn:E2.
    + destruct (N.eqb_spec ph 0) as [->|Hp]; [right; eauto|].
      destruct Hph as [?|Hph]; [contradiction|]. unfold high_surrogate in Hph.
      destruct (N.ltb_spec ph 55296) as [?|_]; [lia|].
      left. exists [a; b; c; d], d, r, cp. splits; auto. right. left.
      unfold low_surrogate, high_surrogate. splits; try lia.
      rewrite (lor_low (ph - 55296) 10 (cp - 56320)) by (change (2 ^ 10) with 1024; lia).
      change (2 ^ 10) with 1024. rewrite utf8_emit_spec by lia.
    replace ((ph - 55296) * 1024 + (cp - 56320) + 65536) with (65536 + (ph - 55296) * 1024 + (cp - 56320)) by lia. reflexivity.
    + left. exists [a; b; c; d], d, r, cp. splits; auto. right. right.
      unfold surrogate. splits; [lia|]. rewrite utf8_emit_spec by lia. reflexivity.
Qed.
Lemma unicode_high x h r cp result : hex4 h cp -> high_surrogate cp ->
  exists d, skip_unicode_escape (x :: h ++ r) 0 result = Ok (true, d :: r, cp, result).
Proof.
  intros Hh Hs. destruct (hex4_shape _ _ Hh) as (a & b & c & d & ->). exists d.
  unfold skip_unicode_escape. cbn [app]. rewrite (hex_loop_ok _ _ _ _ _ _ _ Hh). cbn [bind].
  unfold high_surrogate in Hs.
  assert (((55296 <=? cp) && (cp <=? 56319)) = true) as -> by lia. reflexivity.
Qed.
Lemma unicode_low x h r cp ph result : hex4 h cp -> low_surrogate cp -> high_surrogate ph ->
  exists d, skip_unicode_escape (x :: h ++ r) ph result
            = Ok (true, d :: r, 0, result ++ utf8 (65536 + (ph - 55296) * 1024 + (cp - 56320))).
Proof.
  intros Hh Hs Hp. destruct (hex4_shape _ _ Hh) as (a & b & c & d & ->). exists d.
  unfold skip_unicode_escape. cbn [app]. rewrite (hex_loop_ok _ _ _ _ _ _ _ Hh). cbn [bind].
  unfold low_surrogate, high_surrogate in *.
  assert (((55296 <=? cp) && (cp <=? 56319)) = false) as -> by lia.
  assert (((56320 <=? cp) && (cp <=? 57343)) = true) as -> by lia.
  assert ((ph =? 0) = false) as -> by lia. assert ((ph <? 55296) = false) as -> by lia.
  rewrite (lor_low (ph - 55296) 10 (cp - 56320)) by (change (2 ^ 10) with 1024; lia).
  change (2 ^ 10) with 1024. rewrite utf8_emit_spec by lia.
    replace ((ph - 55296) * 1024 + (cp - 56320) + 65536) with (65536 + (ph - 55296) * 1024 + (cp - 56320)) by lia. reflexivity.
Qed.
Lemma unicode_plain x h r cp ph result : hex4 h cp -> ~ surrogate cp ->
  exists d, skip_unicode_escape (x :: h ++ r) ph result = Ok (true, d :: r, ph, result ++ utf8 cp).
Proof.
  intros Hh Hs. destruct (hex4_shape _ _ Hh) as (a & b & c & d & ->). exists d.
  unfold skip_unicode_escape. cbn [app]. rewrite (hex_loop_ok _ _ _ _ _ _ _ Hh). cbn [bind].
  pose proof (hex4_lt _ _ Hh). unfold surrogate in *.
  assert (((55296 <=? cp) && (cp <=? 56319)) = false) as -> by lia.
  assert (((56320 <=? cp) && (cp <=? 57343)) = false) as -> by lia.
  rewrite utf8_emit_spec by lia. reflexivity.
Qed.

(** *** Soundness *)
Lemma str_loop_sound be : forall fuel cur result raw ph,
  (length cur < fuel)%nat -> Forall is_byte cur -> (ph = 0 \/ high_surrogate ph) ->
  exists so cur', str_loop be fuel cur result (raw ++ cur) ph = Ok (so, cur') /\
    match so with
    | None => True
    | Some s => exists body out, cur = body ++ 34 :: cur'
        /\ lchars (raw_ok be) (ph_opt ph) body out /\ s = result ++ raw ++ out
    end.
Proof.
  induction fuel as [|f IH]; intros cur result raw ph Hl Hb Hph; [lia|]. cbn [str_loop].
  destruct cur as [|c0 cur0] eqn:Ecur; [cbn [at_end]; do 2 eexists; split; [reflexivity|exact I]|].
  rewrite <- Ecur in *. assert (Hne : cur <> []) by congruence.
  assert (at_end cur = false) as -> by (subst; reflexivity).
  clear c0 cur0 Ecur.
  destruct (skip_accel_spec be cur Hne Hb) as (mid & cur1 & -> & -> & Hmid & Hnone). cbn [bind].
  destruct cur1 as [|c cur1]; cbn [at_end negb]; [do 2 eexists; split; [reflexivity|exact I]|].
  cbn [deref bind].
  assert (Hraw : mid = [] \/ ph_opt ph = None \/ raw_ok be = true).
  { unfold raw_ok. destruct (step be); auto. }
  assert (Hb1 : Forall is_byte cur1) by (apply Forall_app_r in Hb; inversion Hb; auto).
  assert (Hl1 : (length cur1 < f)%nat) by (rewrite app_length in Hl; cbn in Hl; lia).
  destruct ((c =? 9) || (c =? 13) || (c =? 10)); [do 2 eexists; split; [reflexivity|exact I]|].
  destruct (N.eqb_spec c 92) as [->|Hc92].
  - (* backslash *)
    rewrite app_assoc, slice_app. cbn [advance bind].
    destruct cur1 as [|l cur2]; cbn [at_end]; [do 2 eexists; split; [reflexivity|exact I]|].
    cbn [deref bind].
    destruct (negb (ph =? 0) && negb (l =? 117)) eqn:Epl; [do 2 eexists; split; [reflexivity|exact I]|].
    destruct (N.eqb_spec l 117) as [->|Hl117].
    + destruct (unicode_cases 117 cur2 ph (result ++ raw ++ mid) Hph)
        as [(h & d & r & cp & -> & Hh & [(Hs & -> & ->)|[(Hs & Hp & ->)|(Hs & ->)]])|(r & p & s & ->)];
        cbn [bind negb]; [| | |do 2 eexists; split; [reflexivity|exact I]]; cbn [advance bind].
      * (* high surrogate *)
        destruct (IH r (result ++ raw ++ mid) [] cp) as (so & cur' & E & HP); auto.
        { cbn in Hl1. rewrite app_length in Hl1. lia. }
        { inversion Hb1; eapply Forall_app_r; eauto. }
        cbn [app] in E. exists so, cur'. split; [exact E|].
        destruct so as [s|]; auto. destruct HP as (body & out & -> & Hlc & ->).
        exists (mid ++ 92 :: 117 :: h ++ body), (mid ++ out). splits.
        -- rewrite <- !app_assoc. cbn. rewrite <- !app_assoc. reflexivity.
        -- apply lchars_raws; auto. cbn. apply (lc_high _ h cp); auto.
           unfold ph_opt in Hlc. unfold high_surrogate in Hs. assert ((cp =? 0) = false) as Ez by lia. rewrite Ez in Hlc. exact Hlc.
        -- rewrite <- !app_assoc. reflexivity.
      * (* low surrogate *)
        destruct (IH r (result ++ raw ++ mid ++ utf8 (65536 + (ph - 55296) * 1024 + (cp - 56320))) [] 0) as (so & cur' & E & HP); auto.
        { cbn in Hl1. rewrite app_length in Hl1. lia. }
        { inversion Hb1; eapply Forall_app_r; eauto. }
        cbn [app] in E. exists so, cur'. split; [rewrite <- !app_assoc; exact E|].
        destruct so as [s|]; auto. destruct HP as (body & out & -> & Hlc & ->).
        exists (mid ++ 92 :: 117 :: h ++ body), (mid ++ utf8 (65536 + (ph - 55296) * 1024 + (cp - 56320)) ++ out). splits.
        -- rewrite <- !app_assoc. cbn. rewrite <- !app_assoc. reflexivity.
        -- apply lchars_raws; auto.
           assert (ph_opt ph = Some ph) as ->.
           { unfold ph_opt. unfold high_surrogate in Hp. assert ((ph =? 0) = false) as -> by lia. reflexivity. }
           apply lc_low; auto.
        -- rewrite <- !app_assoc. reflexivity.
      * (* other *)
        destruct (IH r (result ++ raw ++ mid ++ utf8 cp) [] ph) as (so & cur' & E & HP); auto.
        { cbn in Hl1. rewrite app_length in Hl1. lia. }
        { inversion Hb1; eapply Forall_app_r; eauto. }
        cbn [app] in E. exists so, cur'. split; [rewrite <- !app_assoc; exact E|].
        destruct so as [s|]; auto. destruct HP as (body & out & -> & Hlc & ->).
        exists (mid ++ 92 :: 117 :: h ++ body), (mid ++ utf8 cp ++ out). splits.
        -- rewrite <- !app_assoc. cbn. rewrite <- !app_assoc. reflexivity.
        -- apply lchars_raws; auto. apply lc_uni; auto.
        -- rewrite <- !app_assoc. reflexivity.
    + destruct (simple_escape l) as [e|] eqn:Ee; [|do 2 eexists; split; [reflexivity|exact I]].
      cbn [advance bind].
      destruct (IH cur2 ((result ++ raw ++ mid) ++ [e]) [] ph) as (so & cur' & E & HP); auto.
      { cbn in Hl1. lia. }
      { inversion Hb1; auto. }
      cbn [app] in E. exists so, cur'. split; [exact E|].
      destruct so as [s|]; auto. destruct HP as (body & out & -> & Hlc & ->).
      assert (ph = 0) as -> by (destruct (N.eqb_spec ph 0); [auto|cbn in Epl; discriminate]).
      exists (mid ++ 92 :: l :: body), (mid ++ e :: out). splits.
      * rewrite <- !app_assoc. reflexivity.
      * apply lchars_raws; auto. apply lc_esc; [now apply esc_simple|exact Hlc].
      * rewrite <- !app_assoc. reflexivity.
  - destruct (N.eqb_spec c 34) as [->|Hc34].
    + destruct (N.eqb_spec ph 0) as [->|Hp]; cbn [negb]; [|do 2 eexists; split; [reflexivity|exact I]].
      rewrite app_assoc, slice_app. cbn [advance bind].
      do 2 eexists. split; [reflexivity|]. exists mid, mid. splits.
      rewrite <- (app_nil_r mid). apply lchars_raws; auto. apply lc_nil.
    + destruct (N.eqb_spec ph 0) as [->|Hp]; cbn [negb]; [|do 2 eexists; split; [reflexivity|exact I]].
      destruct (N.ltb_spec c 32) as [?|Hc32]; [do 2 eexists; split; [reflexivity|exact I]|].
      cbn [advance bind].
      destruct (IH cur1 result (raw ++ mid ++ [c]) 0) as (so & cur' & E & HP); auto.
      exists so, cur'. split.
      { rewrite <- !app_assoc in E. exact E. }
      destruct so as [s|]; auto. destruct HP as (body & out & -> & Hlc & ->).
      exists (mid ++ c :: body), (mid ++ c :: out). splits.
      * rewrite <- !app_assoc. reflexivity.
      * apply lchars_raws; auto. apply lc_raw; auto. unfold unescaped. auto.
      * rewrite <- !app_assoc. reflexivity.
Qed.

Lemma parse_stdstring_cases be c r : Forall is_byte (c :: r) ->
  (exists t s r', c :: r = t ++ r' /\ lstring (raw_ok be) t s /\ parse_stdstring be (c :: r) = Ok (Some s, r'))
  \/ exists r', parse_stdstring be (c :: r) = Ok (None, r').
Proof.
  intros Hb. unfold parse_stdstring. cbn [deref bind advance].
  destruct (N.eqb_spec c 34) as [->|]; [|right; eauto].
  destruct (str_loop_sound be (S (length r)) r [] [] 0) as (so & r' & E & HP); auto; [inversion Hb; auto|].
  cbn [app] in E. rewrite E. destruct so as [s|]; [|right; eauto].
  destruct HP as (body & out & -> & Hlc & ->). left.
  exists (34 :: body ++ [34]), out, r'. splits.
  - cbn. rewrite <- app_assoc. reflexivity.
  - exists body. auto.
Qed.

(** *** Completeness: what the scalar scanner accepts, every backend accepts *)
Lemma unescaped_prefix mid : forall body c' r x, Forall unescaped mid -> ~ unescaped c' ->
  body ++ c' :: r = mid ++ x -> exists body', body = mid ++ body' /\ x = body' ++ c' :: r.
Proof.
  induction mid as [|m mid IH]; intros body c' r x Hm Hc E; cbn in *; [eauto|].
  inversion_clear Hm. destruct body as [|b body]; cbn in E; injection E as -> E; [contradiction|].
  destruct (IH body c' r x) as (body' & -> & ->); auto. eauto.
Qed.
Lemma lchars_raws_inv rw ph mid : Forall unescaped mid -> forall t s, lchars rw ph (mid ++ t) s ->
  exists s', s = mid ++ s' /\ lchars rw ph t s'.
Proof.
  induction 1 as [|c mid Hc _ IH]; intros t s H; cbn in *; [eauto|].
  apply lchars_raw_inv in H; auto. destruct H as (s' & -> & H & _).
  destruct (IH _ _ H) as (s'' & -> & H'). eauto.
Qed.
(** the scanner takes all of [lchars rw]: without raw characters after a high surrogate, or with exact blocks so short
    that one can always be loaded before the low one *)
Definition takes (be : backend) (rw : bool) : Prop :=
  rw = false \/ (exact_backend be /\ exists st, step be = Some st /\ (st <= 8)%nat).
Lemma accel_loop_stops be st : step be = Some st -> exact_backend be -> forall fuel cur cur',
  Forall is_byte cur -> accel_loop be st fuel cur = Ok cur' ->
  (length cur' < st)%nat \/ exists c x, cur' = c :: x /\ special c.
Proof.
  intros Hst He. induction fuel as [|f IH]; intros cur cur' Hb H; cbn [accel_loop] in H; [discriminate|].
  destruct (Nat.leb_spec st (length cur)) as [Hs|Hs]; [|injection H as <-; auto].
  unfold load_block, advance_by in H. destruct (Nat.ltb_spec (length cur) st) as [?|_]; [lia|]. cbn [bind] in H.
  assert (Hlen : length (firstn st cur) = st) by (rewrite firstn_length; lia).
  assert (Hbk : Forall is_byte (firstn st cur)).
  { rewrite <- (firstn_skipn st cur) in Hb. eapply Forall_app_l; eauto. }
  pose proof (scan_exact_all be st _ Hst Hlen Hbk He) as Hsc.
  destruct (scan be (firstn st cur)) as [i|]; cbn [scan_exact] in Hsc.
  - destruct Hsc as (c & Hn & Hc & _). destruct (Nat.ltb_spec (length cur) (N.to_nat i)); [discriminate|]. injection H as <-.
    right. destruct (nth_error_split _ _ Hn) as (l1 & l2 & E & E1). rewrite <- (firstn_skipn st cur), E, <- E1, <- app_assoc.
    rewrite skipn_app, skipn_all, Nat.sub_diag. cbn. eauto.
  - cbn [bind] in H. apply IH in H; auto. rewrite <- (firstn_skipn st cur) in Hb. eapply Forall_app_r; eauto.
Qed.
Lemma pending_long rw ph body out : lchars rw ph body out -> ph <> None -> (6 <= length body)%nat.
Proof.
  induction 1 as [|ph c t s Hc Ho Ht IH|l c t s He Ht IH|ph h cp t s Hh Hs Ht IH|h hi t s Hh Hs Ht IH|hi h lo t s Hh Hs Ht IH]; intros Hp; try congruence; cbn [length].
  - specialize (IH Hp). lia.
  - destruct (hex4_shape _ _ Hh) as (a & b & c & d & ->). cbn. lia.
  - destruct (hex4_shape _ _ Hh) as (a & b & c & d & ->). cbn. lia.
Qed.
Lemma accel_past be rw ph c t s r cur : takes be rw -> Forall is_byte cur -> unescaped c -> lchars rw ph (c :: t) s -> ph <> None ->
  skip_accel be cur <> Ok (true, c :: t ++ 34 :: r).
Proof.
  intros T Hb Hc HL Hp H. destruct (lchars_raw_inv _ _ _ _ _ Hc HL) as (s' & -> & HL' & Hr).
  destruct Hr as [?|Hr]; [contradiction|]. destruct T as [?|(He & st & Hst & H8)]; [congruence|].
  unfold skip_accel in H. rewrite Hst in H.
  destruct (accel_loop be st (S (length cur)) cur) as [cur'| | | |] eqn:E; try discriminate. cbn [bind] in H.
  injection H as _ ->. pose proof (pending_long _ _ _ _ HL' Hp).
  destruct (accel_loop_stops be st Hst He _ _ _ Hb E) as [L|(c' & x & [= <- _] & Hs)].
  - cbn [length] in L. rewrite app_length in L. cbn in L. lia.
  - now apply unescaped_special in Hc.
Qed.
Lemma str_loop_complete be rw : takes be rw -> forall fuel body out r result raw ph,
  (length (body ++ 34%N :: r) < fuel)%nat -> Forall is_byte (body ++ 34 :: r) -> (ph = 0 \/ high_surrogate ph) ->
  lchars rw (ph_opt ph) body out ->
  str_loop be fuel (body ++ 34 :: r) result (raw ++ body ++ 34 :: r) ph = Ok (Some (result ++ raw ++ out), r).
Proof.
  intros T. induction fuel as [|f IH]; intros body out r result raw ph Hl Hb Hph HL; [lia|]. cbn [str_loop].
  assert (Hne : body ++ 34 :: r <> []) by (destruct body; discriminate).
  assert (at_end (body ++ 34 :: r) = false) as -> by (destruct body; reflexivity).
  destruct (skip_accel_spec be _ Hne Hb) as (mid & cur1 & Ea & Ec & Hmid & _). pose proof Hb as Hb0. rewrite Ea. cbn [bind].
  destruct (unescaped_prefix mid body 34 r cur1) as (body' & -> & ->); auto.
  { unfold unescaped. intros (_ & H & _). auto. }
  assert (at_end (body' ++ 34 :: r) = false) as Ee by (destruct body'; reflexivity). rewrite Ee in Ea |- *. cbn [negb] in Ea |- *.
  destruct (lchars_raws_inv _ _ _ Hmid _ _ HL) as (out' & -> & HL'). clear HL Ec Hne.
  rewrite <- app_assoc in Hl, Hb |- *. apply Forall_app_r in Hb. rewrite app_length in Hl.
  rewrite (app_assoc raw mid).
  inversion HL' as [|ph' c t s Hc Ho Ht|l c t s He Ht|ph' h cp t s Hh Hs Ht|h hi t s Hh Hs Ht|hi h lo t s Hh Hs Ht]; subst; cbn [app].
  - (* end *)
    assert (ph = 0) as ->.
    { unfold ph_opt in *. destruct (N.eqb_spec ph 0); [auto|discriminate]. }
    cbn [deref bind N.eqb Pos.eqb orb negb advance]. rewrite slice_app. rewrite !app_nil_r. reflexivity.
  - (* raw *)
    assert (ph = 0) as ->.
    { destruct (N.eqb_spec ph 0) as [|Np]; [auto|]. exfalso. apply (accel_past be rw (ph_opt ph) c t (c :: s) r _ T Hb0 Hc HL'); [|exact Ea].
      unfold ph_opt. apply N.eqb_neq in Np. rewrite Np. discriminate. }
    destruct Hc as (C1 & C2 & C3). cbn [deref bind advance].
    assert (((c =? 9) || (c =? 13) || (c =? 10)) = false) as -> by lia.
    apply N.eqb_neq in C2, C3. rewrite C2, C3. cbn [N.eqb negb].
    assert ((c <? 32) = false) as -> by lia.
    pose proof (IH t s r result ((raw ++ mid) ++ [c]) 0) as Q. repeat rewrite <- app_assoc in Q. repeat rewrite <- app_assoc. cbn [app] in Q.
    apply Q; auto; [cbn in Hl; lia|inversion Hb; auto].
  - (* simple escape *)
    assert (ph = 0) as ->.
    { unfold ph_opt in *. destruct (N.eqb_spec ph 0); [auto|discriminate]. }
    cbn [deref bind advance N.eqb Pos.eqb orb at_end negb andb]. rewrite slice_app.
    pose proof (esc_not_u _ _ He) as Hu. apply N.eqb_neq in Hu. rewrite Hu.
    apply esc_simple in He. rewrite He. cbn [bind].
    pose proof (IH t s r ((result ++ (raw ++ mid)) ++ [c]) [] 0) as Q. cbn [app] in Q.
    rewrite Q; auto.
    + rewrite <- !app_assoc. reflexivity.
    + cbn in Hl. lia.
    + inversion Hb as [|? ? ? Hb']; inversion Hb'; auto.
  - (* unicode *)
    cbn [deref bind advance N.eqb Pos.eqb orb at_end negb andb]. rewrite andb_false_r. rewrite slice_app.
    rewrite <- app_assoc. destruct (unicode_plain 117 h (t ++ 34 :: r) cp ph (result ++ raw ++ mid) Hh Hs) as (d & E).
    rewrite E. cbn [bind negb advance].
    pose proof (IH t s r ((result ++ (raw ++ mid)) ++ utf8 cp) [] ph) as Q. cbn [app] in Q.
    rewrite Q; auto.
    + rewrite <- !app_assoc. reflexivity.
    + cbn in Hl. rewrite !app_length in *. lia.
    + inversion Hb as [|? ? ? Hb']; inversion Hb' as [|? ? ? Hb'']. rewrite <- app_assoc in Hb''. eapply Forall_app_r; eauto.
  - (* high *)
    assert (ph = 0) as ->.
    { unfold ph_opt in *. destruct (N.eqb_spec ph 0); [auto|discriminate]. }
    cbn [deref bind advance N.eqb Pos.eqb orb at_end negb andb]. rewrite slice_app.
    rewrite <- app_assoc. destruct (unicode_high 117 h (t ++ 34 :: r) hi (result ++ raw ++ mid) Hh Hs) as (d & E).
    rewrite E. cbn [bind negb advance].
    pose proof (IH t out' r (result ++ (raw ++ mid)) [] hi) as Q. cbn [app] in Q.
    rewrite Q; auto.
    + rewrite <- !app_assoc. reflexivity.
    + cbn in Hl. rewrite !app_length in *. lia.
    + inversion Hb as [|? ? ? Hb']; inversion Hb' as [|? ? ? Hb'']. rewrite <- app_assoc in Hb''. eapply Forall_app_r; eauto.
    + unfold ph_opt. unfold high_surrogate in Hs. assert ((hi =? 0) = false) as -> by lia. exact Ht.
  - (* low *)
    assert (Some hi = ph_opt ph) as Eph by auto.
    unfold ph_opt in Eph. destruct (N.eqb_spec ph 0) as [|Hp0]; [discriminate|]. injection Eph as <-.
    destruct Hph as [?|Hph]; [contradiction|].
    cbn [deref bind advance N.eqb Pos.eqb orb at_end negb andb]. try rewrite andb_false_r. rewrite slice_app.
    rewrite <- app_assoc. destruct (unicode_low 117 h (t ++ 34 :: r) lo hi (result ++ raw ++ mid) Hh Hs Hph) as (d & E).
    rewrite E. cbn [bind negb advance].
    match goal with |- context [utf8 ?x] => set (u := utf8 x) end.
    pose proof (IH t s r ((result ++ (raw ++ mid)) ++ u) [] 0) as Q. cbn [app] in Q.
    rewrite Q; auto.
    + rewrite <- !app_assoc. reflexivity.
    + cbn in Hl. rewrite !app_length in *. lia.
    + inversion Hb as [|? ? ? Hb']; inversion Hb' as [|? ? ? Hb'']. rewrite <- app_assoc in Hb''. eapply Forall_app_r; eauto.
Qed.
Lemma parse_stdstring_ok be rw t s r : takes be rw -> lstring rw t s -> Forall is_byte (t ++ r) ->
  parse_stdstring be (t ++ r) = Ok (Some s, r).
Proof.
  intros T (body & -> & HL) Hb. unfold parse_stdstring. cbn [app deref bind advance]. change (34 =? 34) with true. cbv iota.
  cbn [app] in Hb. rewrite <- app_assoc in Hb |- *. cbn [app] in *.
  pose proof (str_loop_complete be rw T (S (length (body ++ 34 :: r))) body s r [] [] 0) as Q. cbn [app] in Q.
  apply Q; auto. inversion Hb; auto.
Qed.
Lemma gchars_lchars raw t s : gchars t s -> lchars raw None t s.
Proof.
  induction 1.
  - constructor.
  - apply lc_raw; auto.
  - apply lc_esc; auto.
  - apply lc_uni; auto.
  - apply (lc_high raw h1 hi); auto. apply lc_low; auto.
Qed.
Lemma gstring_lstring raw t s : gstring t s -> lstring raw t s.
Proof. intros (body & -> & H). exists body. split; auto using gchars_lchars. Qed.
Lemma lchars_weaken ph t s : lchars false ph t s -> lchars true ph t s.
Proof.
  induction 1; [apply lc_nil|apply lc_raw|apply lc_esc|apply lc_uni|eapply lc_high|apply lc_low]; eauto.
Qed.
