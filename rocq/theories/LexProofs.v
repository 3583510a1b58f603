(** * White space, comments, numbers and keywords: exact behaviour of the scanners. *)
From Verif Require Import Base Value Packed Parser Spec BaseProofs.
Ltac Zify.zify_post_hook ::= Z.div_mod_to_equations.

(** ** Comments *)
Lemma no_close_nil : no_close [].
Proof. intros x y H. destruct x; discriminate. Qed.
Lemma no_close_cons c b : no_close (c :: b) <-> no_close b /\ ~ (c = 42 /\ exists r, b = 47 :: r).
Proof.
  unfold no_close. split.
  - intros H. split.
    + intros x y E. apply (H (c :: x) y). cbn. rewrite E. reflexivity.
    + intros (-> & r & ->). apply (H [] r). reflexivity.
  - intros (H1 & H2) x y E. destruct x as [|x0 x]; cbn in E.
    + injection E as -> ->. apply H2. eauto.
    + injection E as -> E. apply (H1 x y). exact E.
Qed.
Lemma no_newline_cons c b : no_newline (c :: b) <-> c <> 10 /\ no_newline b.
Proof. unfold no_newline; cbn. split; [tauto|]. intros (H1 & H2) [H|H]; auto. Qed.

Lemma comment_line_end b r : no_newline b -> comment_loop true (b ++ 10 :: r) = (true, r).
Proof.
  induction b as [|c b IH]; intros H; [reflexivity|].
  apply no_newline_cons in H. destruct H as [Hc H]. cbn [app comment_loop].
  apply N.eqb_neq in Hc. rewrite Hc. rewrite IH by auto.
  destruct (c =? 42); [|reflexivity]. destruct (b ++ 10 :: r); reflexivity.
Qed.
Lemma comment_line_eof b : no_newline b -> comment_loop true b = (true, []).
Proof.
  induction b as [|c b IH]; intros H; [reflexivity|].
  apply no_newline_cons in H. destruct H as [Hc H]. cbn [comment_loop].
  apply N.eqb_neq in Hc. rewrite Hc, IH by auto. destruct (c =? 42); [|reflexivity]. destruct b; reflexivity.
Qed.
Lemma comment_block_end b r : no_close b -> comment_loop false (b ++ 42 :: 47 :: r) = (true, r).
Proof.
  induction b as [|c b IH]; intros H; [reflexivity|].
  apply no_close_cons in H. destruct H as [H Hn]. cbn [app comment_loop].
  rewrite IH by auto.
  destruct (c =? 10); [reflexivity|]. destruct (N.eqb_spec c 42) as [->|]; [|reflexivity].
  destruct b as [|d b]; [reflexivity|]. cbn [app negb andb].
  destruct (N.eqb_spec d 47) as [->|]; [|reflexivity]. exfalso; eauto.
Qed.
Lemma comment_block_eof b : no_close b -> comment_loop false b = (false, []).
Proof.
  induction b as [|c b IH]; intros H; [reflexivity|].
  apply no_close_cons in H. destruct H as [H Hn]. cbn [comment_loop]. rewrite IH by auto.
  destruct (c =? 10); [reflexivity|]. destruct (N.eqb_spec c 42) as [->|]; [|reflexivity].
  destruct b as [|d b]; [reflexivity|]. cbn [negb andb].
  destruct (N.eqb_spec d 47) as [->|]; [|reflexivity]. exfalso; eauto.
Qed.
Lemma line_split cur : (exists b r, cur = b ++ 10 :: r /\ no_newline b) \/ no_newline cur.
Proof.
  induction cur as [|c cur IH]; [right; intros []|].
  destruct (N.eq_dec c 10) as [->|Hc]; [left; exists [], cur; split; auto; unfold no_newline; auto|].
  destruct IH as [(b & r & -> & Hb)|H].
  - left. exists (c :: b), r. split; [reflexivity|]. now apply no_newline_cons.
  - right. now apply no_newline_cons.
Qed.
Lemma block_split cur : (exists b r, cur = b ++ 42 :: 47 :: r /\ no_close b) \/ no_close cur.
Proof.
  induction cur as [|c cur IH]; [right; apply no_close_nil|].
  assert (D : (c = 42 /\ exists r, cur = 47 :: r) \/ ~ (c = 42 /\ exists r, cur = 47 :: r)).
  { destruct (N.eq_dec c 42); [|tauto]. destruct cur as [|d cur].
    - right; intros (_ & r & E); discriminate.
    - destruct (N.eq_dec d 47) as [->|]; [left; eauto|right; intros (_ & r & E); congruence]. }
  destruct D as [(-> & r & ->)|D].
  - left. exists [], r. split; [reflexivity|apply no_close_nil].
  - destruct IH as [(b & r & -> & Hb)|H].
    + left. exists (c :: b), r. split; [reflexivity|]. apply no_close_cons. split; auto.
      intros (-> & r' & E). apply D. split; auto. rewrite E. cbn. eauto.
    + right. apply no_close_cons. split; auto.
Qed.

(** ** skip_whitespace *)
Definition token (c : N) : Prop := ~ wschar c /\ c <> 47 /\ c <> 0.
Lemma wschar_b c : (c =? 32) || (c =? 9) || (c =? 13) || (c =? 10) = true <-> wschar c.
Proof. unfold wschar. rewrite !orb_true_iff, !N.eqb_eq. tauto. Qed.
Lemma wschar_bf c : (c =? 32) || (c =? 9) || (c =? 13) || (c =? 10) = false <-> ~ wschar c.
Proof. rewrite <- wschar_b. destruct (_ || _); split; congruence. Qed.
Lemma token_dec c : token c \/ wschar c \/ c = 47 \/ c = 0.
Proof.
  unfold token, wschar.
  destruct (N.eq_dec c 32), (N.eq_dec c 9), (N.eq_dec c 10), (N.eq_dec c 13), (N.eq_dec c 47), (N.eq_dec c 0); tauto.
Qed.

Section Ws.
  Context (jsonc : bool).

  Lemma wsp_nil : wsp jsonc [].
  Proof. destruct jsonc; constructor. Qed.
  Lemma wsp_char c w : wschar c -> wsp jsonc w -> wsp jsonc (c :: w).
  Proof. destruct jsonc; cbn; intros; constructor; auto. Qed.

  Lemma ws_loop_token fuel c r : (0 < fuel)%nat -> token c -> ws_loop jsonc fuel (c :: r) = Ok (true, c :: r).
  Proof.
    intros Hf (H1 & H2 & H3). destruct fuel as [|f]; [lia|]. cbn [ws_loop].
    apply wschar_bf in H1. rewrite H1. apply N.eqb_neq in H2, H3. rewrite H2, H3. reflexivity.
  Qed.
  Lemma ws_loop_char f c r : wschar c -> ws_loop jsonc (S f) (c :: r) = ws_loop jsonc f r.
  Proof. intros H. cbn [ws_loop]. apply wschar_b in H. rewrite H. reflexivity. Qed.
  Lemma ws_loop_line f b r : jsonc = true -> no_newline b ->
    ws_loop jsonc (S f) (47 :: 47 :: b ++ 10 :: r) = ws_loop jsonc f r.
  Proof.
    intros Hj Hb. subst. cbn [ws_loop].
    change ((47 =? 32) || (47 =? 9) || (47 =? 13) || (47 =? 10)) with false. cbn [N.eqb Pos.eqb].
    cbn [skip_comment at_end deref bind negb advance N.eqb Pos.eqb].
    rewrite comment_line_end by auto. reflexivity.
  Qed.
  Lemma ws_loop_block f b r : jsonc = true -> no_close b ->
    ws_loop jsonc (S f) (47 :: 42 :: b ++ 42 :: 47 :: r) = ws_loop jsonc f r.
  Proof.
    intros Hj Hb. subst. cbn [ws_loop].
    change ((47 =? 32) || (47 =? 9) || (47 =? 13) || (47 =? 10)) with false. cbn [N.eqb Pos.eqb].
    cbn [skip_comment at_end deref bind negb advance N.eqb Pos.eqb].
    rewrite comment_block_end by auto. reflexivity.
  Qed.
  Lemma ws_loop_wsp w : wsp jsonc w -> forall fuel r, (length (w ++ r) < fuel)%nat ->
    exists f', (length r < f')%nat /\ ws_loop jsonc fuel (w ++ r) = ws_loop jsonc f' r.
  Proof.
    intros Hw. unfold wsp in Hw. destruct jsonc eqn:J.
    - induction Hw as [|c w Hc Hw IH|b w Hb Hw IH|b w Hb Hw IH]; intros fuel r Hl.
      + exists fuel. split; auto.
      + destruct fuel as [|f]; cbn [app length] in Hl; [lia|].
        destruct (IH f r) as (f' & Hf & E); [lia|]. exists f'. split; auto.
        rewrite <- E. cbn [app ws_loop]. apply wschar_b in Hc. rewrite Hc. reflexivity.
      + destruct fuel as [|f]; [cbn in Hl; lia|].
        destruct (IH f r) as (f' & Hf & E).
        { rewrite !app_length in *. cbn [length] in Hl. lia. }
        exists f'. split; auto. rewrite <- E. rewrite <- !app_assoc. cbn [app].
        rewrite <- J. rewrite ws_loop_line by auto. reflexivity.
      + destruct fuel as [|f]; [cbn in Hl; lia|].
        destruct (IH f r) as (f' & Hf & E).
        { rewrite !app_length in *. cbn [length] in Hl. lia. }
        exists f'. split; auto. rewrite <- E. rewrite <- !app_assoc. cbn [app].
        rewrite <- J. rewrite ws_loop_block by auto. reflexivity.
    - induction Hw as [|c w Hc Hw IH]; intros fuel r Hl.
      + exists fuel. split; auto.
      + destruct fuel as [|f]; cbn [app length] in Hl; [lia|].
        destruct (IH f r) as (f' & Hf & E); [lia|]. exists f'. split; auto.
        rewrite <- E. cbn [app ws_loop]. apply wschar_b in Hc. rewrite Hc. reflexivity.
  Qed.
  Lemma skip_ws_token w c r : wsp jsonc w -> token c -> skip_ws jsonc (w ++ c :: r) = Ok (true, c :: r).
  Proof.
    intros Hw Hc. unfold skip_ws. destruct (ws_loop_wsp w Hw (S (length (w ++ c :: r))) (c :: r)) as (f & Hf & ->); [lia|].
    apply ws_loop_token; auto. cbn in Hf. lia.
  Qed.
  Lemma ws_loop_stop f e : (length e < f)%nat -> stop jsonc e -> exists r, ws_loop jsonc f e = Ok (false, r).
  Proof.
    intros Hf. destruct f as [|f]; [lia|]. unfold stop. destruct jsonc.
    - intros [->|[(r & ->)|[(b & -> & Hb)|[->|[(c & r & -> & H1 & H2)|(b & -> & Hb)]]]]].
      + cbn. eauto.
      + cbn. eauto.
      + cbn [app ws_loop]. change ((47 =? 32) || (47 =? 9) || (47 =? 13) || (47 =? 10)) with false.
        cbn [N.eqb Pos.eqb skip_comment at_end deref bind negb advance]. rewrite comment_line_eof by auto.
        destruct f as [|f]; [cbn in Hf; lia|]. cbn. eauto.
      + cbn. eauto.
      + cbn [ws_loop]. change ((47 =? 32) || (47 =? 9) || (47 =? 13) || (47 =? 10)) with false.
        cbn [skip_comment at_end deref bind negb advance].
        change (47 =? 47) with true. cbn [negb at_end bind].
        apply N.eqb_neq in H1, H2. rewrite H1, H2. cbn. eauto.
      + cbn [app ws_loop]. change ((47 =? 32) || (47 =? 9) || (47 =? 13) || (47 =? 10)) with false.
        cbn [N.eqb Pos.eqb skip_comment at_end deref bind negb advance]. rewrite comment_block_eof by auto. cbn. eauto.
    - intros [->|(r & [->| ->])]; cbn; eauto.
  Qed.
  Lemma skip_ws_stop w e : wsp jsonc w -> stop jsonc e -> exists r, skip_ws jsonc (w ++ e) = Ok (false, r).
  Proof.
    intros Hw He. unfold skip_ws. destruct (ws_loop_wsp w Hw (S (length (w ++ e))) e) as (f & Hf & ->); [lia|].
    apply ws_loop_stop; auto.
  Qed.
  (** every text splits into white space followed by a token or by a stop *)
  Lemma ws_split cur : (exists w c r, cur = w ++ c :: r /\ wsp jsonc w /\ token c)
                    \/ (exists w e, cur = w ++ e /\ wsp jsonc w /\ stop jsonc e).
  Proof.
    remember (length cur) as n eqn:Hn. revert cur Hn.
    induction n as [n IH] using lt_wf_ind. intros cur ->.
    destruct cur as [|c cur].
    { right. exists [], []. splits; auto using wsp_nil. unfold stop. destruct jsonc; left; auto. }
    destruct (token_dec c) as [H|[H|[->| ->]]].
    - left. exists [], c, cur. auto using wsp_nil.
    - destruct (IH (length cur) ltac:(cbn; lia) cur eq_refl) as [(w & d & r & -> & Hw & Hd)|(w & e & -> & Hw & He)].
      + left. exists (c :: w), d, r. auto using wsp_char.
      + right. exists (c :: w), e. auto using wsp_char.
    - destruct jsonc eqn:J.
      + destruct cur as [|d cur].
        { right. exists [], [47]. split; [reflexivity|]. split; [constructor|]. unfold stop, jsonc_stop. auto. }
        destruct (N.eq_dec d 47) as [->|Hd]; [|destruct (N.eq_dec d 42) as [->|Hd']].
        * destruct (line_split cur) as [(b & r & -> & Hb)|Hb].
          -- destruct (IH (length r) ltac:(cbn; rewrite app_length; cbn; lia) r eq_refl) as [(w & x & r' & -> & Hw & Hx)|(w & e & -> & Hw & He)].
             ++ left. exists ([47; 47] ++ b ++ [10] ++ w), x, r'. splits; try apply Hx.
                ** rewrite <- !app_assoc. reflexivity.
                ** apply cws_line; auto.
             ++ right. exists ([47; 47] ++ b ++ [10] ++ w), e. split; [|split; [apply cws_line|]; auto].
                rewrite <- !app_assoc. reflexivity.
          -- right. exists [], (47 :: 47 :: cur). splits; [constructor|]. unfold stop, jsonc_stop. right. right. left.
             exists cur. auto.
        * destruct (block_split cur) as [(b & r & -> & Hb)|Hb].
          -- destruct (IH (length r) ltac:(cbn; rewrite app_length; cbn; lia) r eq_refl) as [(w & x & r' & -> & Hw & Hx)|(w & e & -> & Hw & He)].
             ++ left. exists ([47; 42] ++ b ++ [42; 47] ++ w), x, r'. splits; try apply Hx.
                ** rewrite <- !app_assoc. reflexivity.
                ** apply cws_block; auto.
             ++ right. exists ([47; 42] ++ b ++ [42; 47] ++ w), e. split; [|split; [apply cws_block|]; auto].
                rewrite <- !app_assoc. reflexivity.
          -- right. exists [], (47 :: 42 :: cur). splits; [constructor|]. unfold stop, jsonc_stop.
             do 5 right. exists cur. auto.
        * right. exists [], (47 :: d :: cur). splits; [constructor|]. unfold stop, jsonc_stop.
          do 4 right. left. exists d, cur. auto.
      + right. exists [], (47 :: cur). splits; [constructor|]. right. eauto.
    - right. exists [], (0 :: cur). split; [reflexivity|]. split; [apply wsp_nil|].
      unfold stop. destruct jsonc; right; eauto. 
  Qed.
  Lemma skip_ws_cases cur :
    (exists w c r, cur = w ++ c :: r /\ wsp jsonc w /\ token c /\ skip_ws jsonc cur = Ok (true, c :: r))
    \/ (exists w e r, cur = w ++ e /\ wsp jsonc w /\ stop jsonc e /\ skip_ws jsonc cur = Ok (false, r)).
  Proof.
    destruct (ws_split cur) as [(w & c & r & -> & Hw & Hc)|(w & e & -> & Hw & He)].
    - left. exists w, c, r. auto using skip_ws_token.
    - right. destruct (skip_ws_stop w e Hw He) as [r Hr]. eauto 8.
  Qed.
  Lemma skip_ws_nows c r : token c -> skip_ws jsonc (c :: r) = Ok (true, c :: r).
  Proof. intros H. apply (skip_ws_token [] c r); auto using wsp_nil. Qed.
  Lemma wsp_token_no w c r t : wsp jsonc w -> token c -> c :: r = w ++ t -> w = [].
  Proof.
    intros Hw (H1 & H2 & _) E. unfold wsp in Hw. destruct jsonc.
    - destruct Hw; auto; cbn in E; injection E as -> _; congruence || contradiction.
    - destruct Hw; auto; cbn in E; injection E as -> _. contradiction.
  Qed.
End Ws.

(** ** Digits and numbers *)
Lemma isdigit_spec c : isdigit c = true <-> digit c.
Proof. unfold isdigit, digit. rewrite andb_true_iff, !N.leb_le. tauto. Qed.
Lemma isdigit_false c : isdigit c = false <-> ~ digit c.
Proof. rewrite <- isdigit_spec. destruct (isdigit c); split; congruence. Qed.
Definition nodigit (l : bytes) : Prop := match l with c :: _ => ~ digit c | [] => True end.
Lemma drop_digits_app ds r : Forall digit ds -> nodigit r -> drop_digits (ds ++ r) = r.
Proof.
  induction 1 as [|c ds Hc _ IH]; intros Hr; cbn.
  - destruct r as [|c r]; [reflexivity|]. cbn. cbn in Hr. apply isdigit_false in Hr. rewrite Hr. reflexivity.
  - apply isdigit_spec in Hc. rewrite Hc. auto.
Qed.
Lemma digits_split cur : exists ds r, cur = ds ++ r /\ Forall digit ds /\ nodigit r.
Proof.
  induction cur as [|c cur IH]; [exists [], []; cbn; auto|].
  destruct (isdigit c) eqn:E.
  - destruct IH as (ds & r & -> & Hd & Hr). exists (c :: ds), r. apply isdigit_spec in E. auto.
  - exists [], (c :: cur). apply isdigit_false in E. cbn. auto.
Qed.
Lemma skip_digit_ok d ds c r : digit d -> Forall digit ds -> ~ digit c ->
  skip_digit (d :: ds ++ c :: r) = (true, c :: r).
Proof.
  intros Hd Hds Hc. cbn. apply isdigit_spec in Hd. rewrite Hd, drop_digits_app; auto.
Qed.
Lemma skip_digit_cases cur :
  (exists d ds c r, cur = d :: ds ++ c :: r /\ digit d /\ Forall digit ds /\ ~ digit c
                    /\ skip_digit cur = (true, c :: r))
  \/ exists r, skip_digit cur = (false, r).
Proof.
  destruct (digits_split cur) as (ds & r & -> & Hd & Hr).
  destruct Hd as [|d ds Hd Hds]; cbn [app].
  - right. destruct r as [|c r]; cbn; [eauto|]. cbn in Hr. apply isdigit_false in Hr. rewrite Hr. eauto.
  - destruct r as [|c r].
    + right. rewrite app_nil_r. cbn. apply isdigit_spec in Hd. rewrite Hd.
      rewrite <- (app_nil_r ds), drop_digits_app by (cbn; auto). cbn. eauto.
    + left. exists d, ds, c, r. split; [reflexivity|]. split; [auto|]. split; [auto|]. split; [auto|]. apply skip_digit_ok; auto.
Qed.

(** characters that cannot continue a number *)
Definition numstop (c : N) : Prop := ~ digit c /\ c <> 46 /\ c <> 101 /\ c <> 69.

Lemma gint_shape i : gint i -> exists d ds, i = d :: ds /\ digit d /\ Forall digit ds /\ (d = 48 -> ds = []).
Proof.
  destruct 1 as [|c ds Hc Hds].
  - exists 48, []. unfold digit. splits; auto; lia.
  - exists c, ds. unfold digit. splits; auto; lia.
Qed.
Lemma shape_gint d ds : digit d -> Forall digit ds -> (d = 48 -> ds = []) -> gint (d :: ds).
Proof.
  unfold digit. intros Hd Hds H. destruct (N.eq_dec d 48) as [->|].
  - rewrite H by auto. constructor.
  - constructor; auto. lia.
Qed.

Definition lead0 (cur : bytes) : bool :=
  match cur with c0 :: c1 :: _ => (c0 =? 48) && isdigit c1 | _ => false end.
(** the part of parse_number after the sign *)
Definition number_tail (first cur : bytes) : res (value * bytes) :=
  if lead0 cur then Ok (invalid_value, cur)
  else
    let '(ok, cur) := skip_digit cur in
    if negb ok then Ok (invalid_value, cur)
    else
      do c <- deref cur;
      do (ok, cur) <-
        (if c =? 46 then do cur <- advance cur; Ok (skip_digit cur) else Ok (true, cur));
      if negb ok then Ok (invalid_value, cur)
      else
        do c <- deref cur;
        if (c =? 101) || (c =? 69) then
          do cur <- advance cur;
          if at_end cur then Ok (invalid_value, cur)
          else
            do c <- deref cur;
            do cur <- (if (c =? 43) || (c =? 45) then advance cur else Ok cur);
            let '(ok, cur) := skip_digit cur in
            if negb ok then Ok (invalid_value, cur)
            else Ok (v_number (slice first cur), cur)
        else Ok (v_number (slice first cur), cur).
Lemma parse_number_tail cur : parse_number cur =
  match cur with
  | [] => Ub
  | c :: r => if c =? 45 then number_tail cur r else number_tail cur cur
  end.
Proof. destruct cur as [|c r]; [reflexivity|]. unfold parse_number. cbn [deref bind advance]. destruct (c =? 45); reflexivity. Qed.

Definition exp_part (first cur : bytes) : res (value * bytes) :=
        do c <- deref cur;
        if (c =? 101) || (c =? 69) then
          do cur <- advance cur;
          if at_end cur then Ok (invalid_value, cur)
          else
            do c <- deref cur;
            do cur <- (if (c =? 43) || (c =? 45) then advance cur else Ok cur);
            let '(ok, cur) := skip_digit cur in
            if negb ok then Ok (invalid_value, cur)
            else Ok (v_number (slice first cur), cur)
        else Ok (v_number (slice first cur), cur).
Definition frac_part (first cur : bytes) : res (value * bytes) :=
      do c <- deref cur;
      do (ok, cur) <-
        (if c =? 46 then do cur <- advance cur; Ok (skip_digit cur) else Ok (true, cur));
      if negb ok then Ok (invalid_value, cur)
      else exp_part first cur.

Lemma skip_digit_notstart c r : ~ digit c -> skip_digit (c :: r) = (false, c :: r).
Proof. intros H. cbn. apply isdigit_false in H. rewrite H. reflexivity. Qed.

Lemma exp_part_cases p c r :
  (exists e d r', c :: r = e ++ d :: r' /\ gexp e /\ ~ digit d /\
     exp_part (p ++ c :: r) (c :: r) = Ok (v_number (p ++ e), d :: r'))
  \/ (exists r', exp_part (p ++ c :: r) (c :: r) = Ok (invalid_value, r')) \/ digit c.
Proof.
  destruct (isdigit c) eqn:Dc; [right; right; now apply isdigit_spec|]. apply isdigit_false in Dc.
  unfold exp_part. cbn [deref bind advance].
  destruct ((c =? 101) || (c =? 69)) eqn:E.
  2: { left. exists [], c, r. splits; auto; [constructor|]. rewrite slice_app, app_nil_r. reflexivity. }
  assert (He : c = 101 \/ c = 69) by (apply orb_true_iff in E; rewrite !N.eqb_eq in E; exact E).
  destruct r as [|s r]; cbn [at_end deref bind]; [right; left; eauto|].
  destruct ((s =? 43) || (s =? 45)) eqn:Es.
  - cbn [advance bind]. destruct (skip_digit_cases r) as [(d & ds & x & r' & -> & Hd & Hds & Hx & ->)|(r' & ->)]; cbn [negb].
    + left. exists (c :: [s] ++ d :: ds), x, r'. splits; [ |auto|].
      * apply gexp_some; auto. apply orb_true_iff in Es. rewrite !N.eqb_eq in Es. destruct Es as [-> | ->]; auto.
      * replace (p ++ c :: s :: d :: ds ++ x :: r') with ((p ++ c :: [s] ++ d :: ds) ++ x :: r')
          by (rewrite <- app_assoc; reflexivity).
        rewrite slice_app. reflexivity.
    + right; left; eauto.
  - cbn [bind]. destruct (skip_digit_cases (s :: r)) as [(d & ds & x & r' & Eq & Hd & Hds & Hx & ->)|(r' & ->)]; cbn [negb].
    + rewrite Eq. left. exists (c :: [] ++ d :: ds), x, r'. splits; [ |auto|].
      * apply gexp_some; auto.
      * replace (p ++ c :: d :: ds ++ x :: r') with ((p ++ c :: [] ++ d :: ds) ++ x :: r')
          by (rewrite <- app_assoc; reflexivity).
        rewrite slice_app. reflexivity.
    + right; left; eauto.
Qed.
Lemma frac_part_cases p c r : ~ digit c ->
  (exists f e d r', c :: r = f ++ e ++ d :: r' /\ gfrac f /\ gexp e /\ ~ digit d /\
     frac_part (p ++ c :: r) (c :: r) = Ok (v_number (p ++ f ++ e), d :: r'))
  \/ (exists r', frac_part (p ++ c :: r) (c :: r) = Ok (invalid_value, r')).
Proof.
  intros Dc. unfold frac_part. cbn [deref bind advance]. destruct (N.eqb_spec c 46) as [->|Hc].
  - cbn [bind]. destruct (skip_digit_cases r) as [(d & ds & x & r' & -> & Hd & Hds & Hx & ->)|(r' & ->)]; cbn [negb bind].
    + destruct (exp_part_cases (p ++ 46 :: d :: ds) x r') as [(e & y & r'' & E & He & Hy & Q)|[(r'' & Q)|Hb]]; [| |contradiction].
      * left. exists (46 :: d :: ds), e, y, r''. rewrite <- app_assoc in Q. cbn [app] in Q. splits; auto.
        -- cbn [app]. rewrite E. reflexivity.
        -- constructor; auto.
        -- rewrite Q. do 3 f_equal. rewrite <- app_assoc. reflexivity.
      * right. rewrite <- app_assoc in Q. cbn [app] in Q. eauto.
    + right; eauto.
  - cbn [bind negb]. destruct (exp_part_cases p c r) as [(e & y & r'' & E & He & Hy & Q)|[(r'' & Q)|Hb]]; [| |contradiction].
    + left. exists [], e, y, r''. splits; auto. constructor.
    + right; eauto.
Qed.
Lemma number_tail_cases p cur :
  (exists i f e d r', cur = i ++ f ++ e ++ d :: r' /\ gint i /\ gfrac f /\ gexp e /\ ~ digit d /\
     number_tail (p ++ cur) cur = Ok (v_number (p ++ i ++ f ++ e), d :: r'))
  \/ (exists r', number_tail (p ++ cur) cur = Ok (invalid_value, r')).
Proof.
  change (number_tail (p ++ cur) cur) with
    (if lead0 cur then Ok (invalid_value, cur)
     else let '(ok, cur') := skip_digit cur in
          if negb ok then Ok (invalid_value, cur') else frac_part (p ++ cur) cur').
  destruct (lead0 cur) eqn:L; [right; eauto|].
  destruct (skip_digit_cases cur) as [(d & ds & x & r' & -> & Hd & Hds & Hx & ->)|(r' & ->)]; cbn [negb]; [|right; eauto].
  assert (Hi : gint (d :: ds)).
  { apply shape_gint; auto. intros ->. destruct Hds as [|d1 ds Hd1]; auto. cbn in L. apply isdigit_spec in Hd1.
    rewrite Hd1 in L. discriminate. }
  destruct (frac_part_cases (p ++ d :: ds) x r') as [(f & e & y & r'' & E & Hf & He & Hy & Q)|(r'' & Q)]; auto;
    rewrite <- app_assoc in Q; cbn [app] in Q.
  - left. exists (d :: ds), f, e, y, r''. splits; auto.
    + cbn [app]. rewrite E. reflexivity.
    + rewrite Q. do 3 f_equal. rewrite <- app_assoc. reflexivity.
  - right; eauto.
Qed.
Lemma parse_number_cases c r :
  (exists t d r', c :: r = t ++ d :: r' /\ gnumber t /\ parse_number (c :: r) = Ok (v_number t, d :: r'))
  \/ (exists r', parse_number (c :: r) = Ok (invalid_value, r')).
Proof.
  rewrite parse_number_tail. destruct (N.eqb_spec c 45) as [->|Hc].
  - destruct (number_tail_cases [45] r) as [(i & f & e & d & r' & -> & Hi & Hf & He & Hd & Q)|(r' & Q)]; cbn [app] in Q.
    + left. exists ([45] ++ i ++ f ++ e), d, r'. splits.
      * rewrite <- !app_assoc. reflexivity.
      * constructor; auto.
      * exact Q.
    + right; eauto.
  - destruct (number_tail_cases [] (c :: r)) as [(i & f & e & d & r' & E & Hi & Hf & He & Hd & Q)|(r' & Q)]; cbn [app] in Q.
    + left. exists ([] ++ i ++ f ++ e), d, r'. splits.
      * rewrite E. rewrite <- !app_assoc. reflexivity.
      * constructor; auto.
      * exact Q.
    + right; eauto.
Qed.

(** completeness *)
Lemma exp_part_ok p e c r : gexp e -> numstop c ->
  exp_part (p ++ e ++ c :: r) (e ++ c :: r) = Ok (v_number (p ++ e), c :: r).
Proof.
  intros He (Hd & _ & H1 & H2). destruct He as [|e sg d ds He Hsg Hdd Hds].
  - unfold exp_part. cbn [app deref bind]. apply N.eqb_neq in H1, H2. rewrite H1, H2. cbn [orb].
    rewrite slice_app, app_nil_r. reflexivity.
  - unfold exp_part. cbn [app deref bind advance].
    assert (((e =? 101) || (e =? 69)) = true) as -> by (destruct He as [-> | ->]; reflexivity).
    replace (p ++ e :: (sg ++ d :: ds) ++ c :: r) with ((p ++ e :: sg ++ d :: ds) ++ c :: r)
      by (rewrite <- app_assoc; reflexivity).
    rewrite <- app_assoc. cbn [app].
    assert (Hnd : ((d =? 43) || (d =? 45)) = false).
    { unfold digit in Hdd. apply orb_false_iff. rewrite !N.eqb_neq. lia. }
    destruct Hsg as [->|[->| ->]]; cbn [app at_end deref bind advance].
    + rewrite Hnd. cbn [bind]. rewrite skip_digit_ok by auto. cbn [negb]. rewrite slice_app. reflexivity.
    + cbn [N.eqb Pos.eqb orb bind]. rewrite skip_digit_ok by auto. cbn [negb]. rewrite slice_app. reflexivity.
    + cbn [N.eqb Pos.eqb orb bind]. rewrite skip_digit_ok by auto. cbn [negb]. rewrite slice_app. reflexivity.
Qed.
Lemma gexp_nodigit e c r : gexp e -> numstop c -> exists x y, e ++ c :: r = x :: y /\ ~ digit x /\ x <> 46.
Proof.
  intros He (Hd & H0 & _). destruct He as [|e sg d ds He Hsg Hdd Hds].
  - exists c, r. auto.
  - exists e, ((sg ++ d :: ds) ++ c :: r). splits; destruct He as [-> | ->]; unfold digit; lia.
Qed.
Lemma frac_part_ok p f e c r : gfrac f -> gexp e -> numstop c ->
  frac_part (p ++ f ++ e ++ c :: r) (f ++ e ++ c :: r) = Ok (v_number (p ++ f ++ e), c :: r).
Proof.
  intros Hf He Hc. destruct (gexp_nodigit e c r He Hc) as (x & y & E & Hx & Hx46).
  destruct Hf as [|d ds Hd Hds]; unfold frac_part; cbn [app].
  - rewrite <- (exp_part_ok p e c r He Hc). rewrite E. cbn [deref bind]. apply N.eqb_neq in Hx46. rewrite Hx46. reflexivity.
  - cbn [deref bind advance N.eqb Pos.eqb]. rewrite E. rewrite skip_digit_ok by auto. cbn [negb]. rewrite <- E.
    pose proof (exp_part_ok (p ++ 46 :: d :: ds) e c r He Hc) as Q. rewrite <- !app_assoc in Q. exact Q.
Qed.
Lemma number_tail_ok p i f e c r : gint i -> gfrac f -> gexp e -> numstop c ->
  number_tail (p ++ i ++ f ++ e ++ c :: r) (i ++ f ++ e ++ c :: r) = Ok (v_number (p ++ i ++ f ++ e), c :: r).
Proof.
  intros Hi Hf He Hc.
  assert (exists x y, f ++ e ++ c :: r = x :: y /\ ~ digit x) as (x & y & E & Hx).
  { destruct Hf as [|d ds Hd Hds].
    - destruct (gexp_nodigit e c r He Hc) as (x & y & E & Hx & _). eauto.
    - cbn. do 2 eexists. split; [reflexivity|]. unfold digit; lia. }
  destruct (gint_shape i Hi) as (d & ds & -> & Hd & Hds & H0).
  set (cur := (d :: ds) ++ f ++ e ++ c :: r).
  change (number_tail (p ++ cur) cur) with
    (if lead0 cur then Ok (invalid_value, cur)
     else let '(ok, cur') := skip_digit cur in
          if negb ok then Ok (invalid_value, cur') else frac_part (p ++ cur) cur').
  assert (lead0 cur = false) as ->.
  { unfold cur. rewrite E. destruct (N.eq_dec d 48) as [->|Hd'].
    - rewrite H0 by auto. cbn. apply isdigit_false. exact Hx.
    - cbn. apply N.eqb_neq in Hd'. rewrite Hd'. destruct (ds ++ x :: y); reflexivity. }
  unfold cur. rewrite E. cbn [app]. rewrite skip_digit_ok by auto. cbn [negb]. rewrite <- E.
  pose proof (frac_part_ok (p ++ d :: ds) f e c r Hf He Hc) as Q. rewrite <- !app_assoc in Q. exact Q.
Qed.
Lemma parse_number_ok t c r : gnumber t -> numstop c -> parse_number (t ++ c :: r) = Ok (v_number t, c :: r).
Proof.
  intros [m i f e Hm Hi Hf He] Hc. rewrite parse_number_tail.
  destruct Hm as [-> | ->].
  - cbn [app]. pose proof (number_tail_ok [] i f e c r Hi Hf He Hc) as Q. cbn [app] in Q.
    rewrite <- !app_assoc. destruct (gint_shape i Hi) as (d & ds & -> & Hd & Hds & H0). cbn [app] in *.
    destruct (N.eqb_spec d 45) as [->|]; [unfold digit in Hd; lia|]. exact Q.
  - cbn [app]. pose proof (number_tail_ok [45] i f e c r Hi Hf He Hc) as Q. cbn [app] in Q.
    rewrite <- !app_assoc. exact Q.
Qed.
Lemma gnumber_head t : gnumber t -> exists c r, t = c :: r /\ (c = 45 \/ digit c).
Proof.
  intros [m i f e Hm Hi Hf He]. destruct (gint_shape i Hi) as (d & ds & -> & Hd & _).
  destruct Hm as [-> | ->]; cbn [app]; eauto.
Qed.

(** ** Keywords *)
Lemma match_word_ok w r : match_word w (w ++ r) = (true, r).
Proof. induction w as [|c w IH]; cbn; [reflexivity|]. rewrite N.eqb_refl. exact IH. Qed.
Lemma match_word_cases w : forall cur,
  (exists r, cur = w ++ r /\ match_word w cur = (true, r)) \/ exists r, match_word w cur = (false, r).
Proof.
  induction w as [|c w IH]; intros cur; cbn; [left; eauto|].
  destruct cur as [|d cur]; [right; eauto|].
  destruct (N.eqb_spec d c) as [->|]; [|right; eauto].
  destruct (IH cur) as [(r & -> & E)|(r & E)]; rewrite E; [left|right]; eauto.
Qed.
