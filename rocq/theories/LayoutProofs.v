(** * The pretty-printer produces the layout of SpecLayout.v. *)
From Verif Require Import Base Value Dump Spec BaseProofs DumpProofs SpecLayout.

Lemma spaces_blanks n : n < 2 ^ 64 -> spaces n = blanks n.
Proof. intros H. unfold spaces, blanks, size_mod. now rewrite N.mod_small. Qed.
Lemma layout_plain n d h r b : Forall (fun c => c <> 34 /\ c <> 92) h -> layout n Inside d b (h ++ r) = h ++ layout n Inside d (match h with [] => b | _ => false end) r.
Proof.
  intros H. revert b. induction H as [|c h [H1 H2] _ IH]; intros b; [reflexivity|]. cbn [app layout].
  destruct (N.eqb_spec c 34); [contradiction|]. destruct (N.eqb_spec c 92); [contradiction|]. rewrite IH. destruct h; reflexivity.
Qed.
Lemma layout_inside n d s b b' : layout n Inside d b s = layout n Inside d b' s.
Proof. destruct s; reflexivity. Qed.
Lemma layout_chars n d t s : gchars t s -> forall b r, layout n Inside d b (t ++ 34 :: r) = t ++ 34 :: layout n Outside d false r.
Proof.
  induction 1 as [|c t s Hc H IH|l c t s Hl H IH|h cp t s Hh Hs H IH|h1 hi h2 lo t s H1 H2 Hhi Hlo H IH]; intros b r.
  - reflexivity.
  - destruct Hc as (_ & Hq & Hb). change ((c :: t) ++ 34 :: r) with ([c] ++ (t ++ 34 :: r)). rewrite layout_plain, IH by auto. reflexivity.
  - cbn [app layout]. now rewrite IH.
  - change ((92 :: 117 :: h ++ t) ++ 34 :: r) with (92 :: 117 :: (h ++ t) ++ 34 :: r). cbn [layout]. cbn [N.eqb Pos.eqb].
    rewrite <- app_assoc, layout_plain, IH by eauto using hex4_plain. cbn [app]. now rewrite <- app_assoc.
  - change ((92 :: 117 :: h1 ++ 92 :: 117 :: h2 ++ t) ++ 34 :: r) with (92 :: 117 :: (h1 ++ 92 :: 117 :: h2 ++ t) ++ 34 :: r).
    cbn [layout]. cbn [N.eqb Pos.eqb].
    rewrite <- app_assoc, layout_plain by eauto using hex4_plain. cbn [app layout N.eqb Pos.eqb].
    rewrite <- app_assoc, layout_plain, IH by eauto using hex4_plain. repeat (rewrite <- app_assoc; cbn [app]). reflexivity.
Qed.
Definition ind (n d : N) (b : bool) : bytes := if b then blanks (n * d) else [].
(** [lays n d t t']: at depth [d] the compact text [t'] is laid out as [t] *)
Definition lays (n d : N) (t t' : bytes) : Prop :=
  forall b r, layout n Outside d b (t' ++ r) = ind n d b ++ t ++ layout n Outside d false r.
Lemma lays_string n d s : lays n d ([34] ++ escape_string s ++ [34]) ([34] ++ escape_string s ++ [34]).
Proof.
  intros b r. change (([34] ++ escape_string s ++ [34]) ++ r) with (34 :: (escape_string s ++ [34]) ++ r). rewrite <- app_assoc. cbn [layout app]. cbn [N.eqb Pos.eqb orb].
  rewrite (layout_chars _ _ _ _ (escape_gchars s)). unfold ind. rewrite <- app_assoc. reflexivity.
Qed.
Definition wordc (c : N) : Prop := c <> 34 /\ c <> 44 /\ c <> 58 /\ c <> 91 /\ c <> 93 /\ c <> 123 /\ c <> 125.
Lemma lays_word n d c t : wordc c -> Forall wordc t -> lays n d (c :: t) (c :: t).
Proof.
  intros Hc Ht b r. assert (S : forall c b r, wordc c -> layout n Outside d b (c :: r) = ind n d b ++ c :: layout n Outside d false r).
  { clear. intros c b r (H1 & H2 & H3 & H4 & H5 & H6 & H7). cbn [layout]. destruct (N.eqb_spec c 34); [tauto|]. destruct (N.eqb_spec c 44); [tauto|]. destruct (N.eqb_spec c 58); [tauto|].
    destruct (N.eqb_spec c 91); [tauto|]. destruct (N.eqb_spec c 93); [tauto|]. destruct (N.eqb_spec c 123); [tauto|]. destruct (N.eqb_spec c 125); [tauto|]. reflexivity. }
  change ((c :: t) ++ r) with (c :: (t ++ r)). rewrite S by auto. f_equal. cbn [app]. f_equal.
  induction Ht as [|x t Hx _ IH]; [reflexivity|]. cbn [app]. rewrite S by auto. cbn [ind app]. now rewrite IH.
Qed.
Lemma gnumber_wordc s : gnumber s -> Forall wordc s.
Proof.
  intros H. unfold wordc.
  assert (D1 : forall c, digit c -> wordc c) by (unfold digit, wordc; lia).
  assert (D : forall l, Forall digit l -> Forall wordc l) by (intros l; apply Forall_impl; exact D1).
  destruct H as [m i f e Hm Hi Hf He]. repeat (apply Forall_app; split).
  - destruct Hm as [-> | ->]; repeat constructor; lia.
  - destruct Hi; constructor; try (unfold wordc; lia); auto; apply D1; unfold digit; lia.
  - destruct Hf; constructor; try (unfold wordc; lia); auto.
  - destruct He as [|e sg c ds He Hsg Hc Hds]; constructor; [unfold wordc; lia|]. apply Forall_app. split; auto.
    destruct Hsg as [-> | [-> | ->]]; repeat constructor; lia.
Qed.
Lemma lays_scalar n d t : t <> [] -> Forall wordc t -> lays n d t t.
Proof. intros Ht H. destruct t as [|c t]; [tauto|]. apply Forall_cons_iff in H as [H1 H2]. now apply lays_word. Qed.
Lemma gnumber_ne s : gnumber s -> s <> [].
Proof. intros [m i f e Hm Hi Hf He] E. apply app_eq_nil in E as [_ E]. apply app_eq_nil in E as [E _]. destruct Hi; discriminate. Qed.

Lemma layout_open n d b c r : c = 91 \/ c = 123 -> layout n Outside d b (c :: r) = ind n d b ++ [c; 10] ++ layout n Outside (d + 1) true r.
Proof. intros [-> | ->]; reflexivity. Qed.
Lemma layout_close n d b c r : c = 93 \/ c = 125 -> layout n Outside (d + 1) b (c :: r) = (if b then [] else [10]) ++ blanks (n * d) ++ [c] ++ layout n Outside d false r.
Proof. intros H. assert (E : layout n Outside (d + 1) b (c :: r) = (if b then [] else [10]) ++ blanks (n * (d + 1 - 1)) ++ c :: layout n Outside (d + 1 - 1) false r) by (destruct H as [-> | ->]; reflexivity).
  rewrite E, N.add_sub. reflexivity. Qed.
Lemma layout_comma n d b r : layout n Outside d b (44 :: r) = [44; 10] ++ layout n Outside d true r.
Proof. reflexivity. Qed.
Lemma layout_colon n d b r : layout n Outside d b (58 :: r) = [58; 32] ++ layout n Outside d false r.
Proof. reflexivity. Qed.

Lemma lays_format v : wf v -> forall k n d t t', nested k v -> n * (d + k) < 2 ^ 64 -> format_to n d v = Ok t -> dump v = Ok t' -> lays n d t t'.
Proof.
  induction v as [t s|t|t l IH|t|t m IH] using value_ind'; intros H k n d x x' Hk Hn E E'.
  - replace x with x' by (inversion H; subst; cbn [format_to] in E; congruence). clear E. inversion H; subst; cbn [dump] in E'; injection E' as <-.
    + apply lays_scalar; [discriminate|]. unfold null_string. cbn. unfold wordc. repeat (apply Forall_cons; [lia|]); apply Forall_nil.
    + destruct b; (apply lays_scalar; [discriminate|]); cbn; unfold wordc; repeat (apply Forall_cons; [lia|]); apply Forall_nil.
    + apply lays_scalar; [now apply gnumber_ne|now apply gnumber_wordc].
    + apply lays_string.
  - inversion H.
  - inversion H; subst. inversion Hk as [|k' ? ? Hf|]; subst. cbn [format_to dump] in E, E'.
    apply bind_ok in E. destruct E as (y & E & F). injection F as <-.
    apply bind_ok in E'. destruct E' as (y' & E' & F). injection F as <-.
    intros b r. rewrite (spaces_blanks (n * d)) by nia. change (91 :: y' ++ [93]) with ([91] ++ y' ++ [93]). rewrite <- !app_assoc. cbn [app]. rewrite layout_open by auto. f_equal. cbn [app]. do 2 f_equal. 
    assert (G : forall r, layout n Outside (d + 1) true (y' ++ 93 :: r) = y ++ blanks (n * d) ++ 93 :: layout n Outside d false r); [|repeat (rewrite <- app_assoc; cbn [app]); apply G]. clear r b.
    assert (Hn' : n * (d + 1 + k') < 2 ^ 64) by (replace (d + 1 + k') with (d + (k' + 1)) by lia; exact Hn).
    clear H Hk. revert y y' E E'. induction l as [|v l IHl]; cbn [format_elems dump_elems]; intros y y' E E' r.
    { injection E as <-. injection E' as <-. cbn [app]. rewrite layout_close by auto. reflexivity. }
    apply bind_ok in E. destruct E as (x & E1 & E). apply bind_ok in E. destruct E as (z & E2 & E). injection E as <-.
    apply bind_ok in E'. destruct E' as (x' & E1' & E'). apply bind_ok in E'. destruct E' as (z' & E2' & E'). injection E' as <-.
    fcons. rewrite <- !app_assoc. match goal with K : wf v -> _ |- _ => rewrite (K ltac:(assumption) k' n (d + 1) x x') by auto end.
    unfold ind. rewrite spaces_blanks by nia. rewrite <- ?app_assoc. do 2 f_equal. destruct l as [|v2 l].
    + injection E2 as <-. injection E2' as <-. cbn [app]. rewrite layout_close by auto. reflexivity.
    + cbn [app]. rewrite layout_comma. cbn [app]. do 2 f_equal. apply IHl; auto.
  - inversion H.
  - inversion H; subst. inversion Hk as [| |k' ? ? Hf]; subst. cbn [format_to dump] in E, E'.
    apply bind_ok in E. destruct E as (y & E & F). injection F as <-.
    apply bind_ok in E'. destruct E' as (y' & E' & F). injection F as <-.
    intros b r. rewrite (spaces_blanks (n * d)) by nia. rewrite <- ?app_assoc. cbn [app]. rewrite <- ?app_assoc. rewrite layout_open by auto. f_equal. cbn [app]. do 2 f_equal.
    assert (G : forall r, layout n Outside (d + 1) true (y' ++ 125 :: r) = y ++ blanks (n * d) ++ 125 :: layout n Outside d false r); [|repeat (rewrite <- app_assoc; cbn [app]); apply G]. clear r b.
    assert (Hn' : n * (d + 1 + k') < 2 ^ 64) by (replace (d + 1 + k') with (d + (k' + 1)) by lia; exact Hn).
    match goal with K : sorted_keys _ |- _ => clear H Hk K end. revert y y' E E'. induction m as [|[k v] l IHl]; cbn [format_members dump_members]; intros y y' E E' r.
    { injection E as <-. injection E' as <-. cbn [app]. rewrite layout_close by auto. reflexivity. }
    apply bind_ok in E. destruct E as (x & E1 & E). apply bind_ok in E. destruct E as (z & E2 & E). injection E as <-.
    apply bind_ok in E'. destruct E' as (x' & E1' & E'). apply bind_ok in E'. destruct E' as (z' & E2' & E'). injection E' as <-.
    fcons. cbn [snd] in *. rewrite !key_text. rewrite <- ?app_assoc.
    pose proof (lays_string n (d + 1) k true) as L. rewrite <- ?app_assoc in L. specialize (L ([58] ++ x' ++ match l with [] => [] | _ :: _ => [44] end ++ z' ++ 125 :: r)).
    rewrite <- ?app_assoc in L. rewrite L. clear L. unfold ind. rewrite spaces_blanks by nia. rewrite <- ?app_assoc. do 4 f_equal.
    cbn [app]. rewrite layout_colon. cbn [app]. do 2 f_equal. 
    match goal with K : wf v -> _ |- _ => rewrite (K ltac:(assumption) k' n (d + 1) x x') by auto end. cbn [ind app]. rewrite <- ?app_assoc. f_equal. destruct l as [|v2 l].
    + injection E2 as <-. injection E2' as <-. cbn [app]. rewrite layout_close by auto. reflexivity.
    + cbn [app]. rewrite layout_comma. cbn [app]. do 2 f_equal. apply IHl; auto.
Qed.
Lemma pretty_layout n k v : wf v -> nested k v -> n * k < 2 ^ 64 -> exists t t', dumps (Some n) v = Ok t /\ dumps None v = Ok t' /\ t = layout n Outside 0 true t'.
Proof.
  intros H Hk Hn. destruct (dumps_grammar v (Some n) H) as (t & E & _). destruct (dumps_grammar v None H) as (t' & E' & _). exists t, t'. splits; auto.
  pose proof (lays_format v H k n 0 t t' Hk Hn E E' true []) as L. cbn [layout] in L. rewrite !app_nil_r in L. unfold ind in L. rewrite N.mul_0_r in L. cbn in L. auto.
Qed.
(** ** Escaping, byte by byte *)
Lemma escape_app s s' : escape_string (s ++ s') = escape_string s ++ escape_string s'.
Proof. now rewrite !escape_string_spec, map_app, concat_app. Qed.
Lemma escape_id s : Forall (fun c => 32 <= c /\ c <> 34 /\ c <> 92) s -> escape_string s = s.
Proof.
  rewrite escape_string_spec. induction 1 as [|c s (H1 & H2 & H3) _ IH]; [reflexivity|]. cbn [map concat]. rewrite IH. unfold esc1, escape_letter.
  repeat match goal with |- context [c =? ?x] => destruct (N.eqb_spec c x); [lia|] end. destruct (N.ltb_spec c 32); [lia|]. reflexivity.
Qed.
