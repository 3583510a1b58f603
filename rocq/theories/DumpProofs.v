(** * Serialization: the output is grammatical, clean, and reads back. *)
From Verif Require Import Base Value Packed Parser Dump Spec BaseProofs PackedProofs LexProofs StringProofs ParserProofs ParserComplete GrammarProofs Utf8Proofs PropsParse GrammarDet.
From Coq Require Import Permutation.

(** ** Escaping, byte by byte *)
Definition esc1 (c : N) : bytes :=
  match escape_letter c with
  | Some e => [92; e]
  | None => if c <? 32 then [92; 117; 48; 48; hex_digit (N.shiftr c 4); hex_digit (N.land c 15)] else [c]
  end.
Lemma escape_loop_spec cur : forall pre result,
  escape_loop cur (pre ++ cur) result = result ++ pre ++ concat (map esc1 cur).
Proof.
  induction cur as [|c r IH]; intros pre result; cbn [escape_loop map concat].
  - now rewrite slice_app, app_nil_r.
  - unfold esc1. destruct (escape_letter c) as [e|].
    + rewrite slice_app. pose proof (IH [] (result ++ pre ++ [92; e])) as H. cbn [app] in H. rewrite H.
      now rewrite <- !app_assoc.
    + destruct (c <? 32).
      * rewrite slice_app.
        pose proof (IH [] (result ++ pre ++ [92; 117; 48; 48; hex_digit (N.shiftr c 4); hex_digit (N.land c 15)])) as H.
        cbn [app] in H. rewrite H. now rewrite <- !app_assoc.
      * specialize (IH (pre ++ [c]) result). rewrite <- app_assoc in IH. cbn [app] in IH. rewrite IH.
        now rewrite <- !app_assoc.
Qed.
Lemma escape_string_spec s : escape_string s = concat (map esc1 s).
Proof. unfold escape_string. apply (escape_loop_spec s [] []). Qed.

Lemma hex_digit_spec n : n < 16 -> hexdig (hex_digit n) n.
Proof.
  intros H. unfold hex_digit. destruct (N.ltb_spec n 10).
  - replace n with (48 + n - 48) at 2 by lia. apply hex_dec. lia.
  - replace n with (97 + n - 10 - 87) at 2 by lia. apply hex_low. lia.
Qed.
Lemma nibbles c : N.shiftr c 4 = c / 16 /\ N.land c 15 = c mod 16.
Proof. split; [apply (N.shiftr_div_pow2 c 4)|apply (N.land_ones c 4)]. Qed.
Lemma esc1_gchars c t s : gchars t s -> gchars (esc1 c ++ t) (c :: s).
Proof.
  intros H. unfold esc1, escape_letter.
  destruct (N.eqb_spec c 34) as [->|H34]; [apply gc_esc; [constructor|exact H]|].
  destruct (N.eqb_spec c 92) as [->|H92]; [apply gc_esc; [constructor|exact H]|].
  destruct (N.eqb_spec c 8) as [->|?]; [apply gc_esc; [constructor|exact H]|].
  destruct (N.eqb_spec c 12) as [->|?]; [apply gc_esc; [constructor|exact H]|].
  destruct (N.eqb_spec c 10) as [->|?]; [apply gc_esc; [constructor|exact H]|].
  destruct (N.eqb_spec c 13) as [->|?]; [apply gc_esc; [constructor|exact H]|].
  destruct (N.eqb_spec c 9) as [->|?]; [apply gc_esc; [constructor|exact H]|].
  destruct (N.ltb_spec c 32) as [Hc|Hc].
  - destruct (nibbles c) as [-> ->].
    replace (c :: s) with (utf8 c ++ s) by (unfold utf8; destruct (N.ltb_spec c 128); [reflexivity|lia]).
    apply (gc_uni [48; 48; hex_digit (c / 16); hex_digit (c mod 16)] c); auto.
    + pose proof (N.div_mod c 16). pose proof (N.mod_lt c 16). assert (c / 16 < 16) by (apply N.div_lt_upper_bound; lia).
      replace c with (0 * 4096 + 0 * 256 + (c / 16) * 16 + c mod 16) at 3 by lia.
      apply hex4_intro; [apply (hex_dec 48); lia|apply (hex_dec 48); lia|apply hex_digit_spec; lia|apply hex_digit_spec; lia].
    + unfold surrogate. lia.
  - apply gc_raw; [unfold unescaped; lia|exact H].
Qed.
Lemma escape_gchars s : gchars (escape_string s) s.
Proof.
  rewrite escape_string_spec. induction s as [|c s IH]; cbn [map concat]; [constructor|]. now apply esc1_gchars.
Qed.
Lemma quoted_gstring s : gstring ([34] ++ escape_string s ++ [34]) s.
Proof. exists (escape_string s). split; [reflexivity|apply escape_gchars]. Qed.

(** ** The document of a value *)
Fixpoint project (v : value) : json :=
  match v with
  | VStr Tboolean s => JBool (bytes_eqb s (of_string "true"))
  | VStr Tnumber s => JNum s
  | VStr Tstring s => JStr s
  | VStr _ _ => JNull
  | VArr _ (Some l) => JArr (map project l)
  | VArr _ None => JNull
  | VObj _ (Some m) => JObj (map (fun kv => (fst kv, project (snd kv))) m)
  | VObj _ None => JNull
  end.
Lemma map_id_Forall {A} (f : A -> A) l : Forall (fun x => f x = x) l -> map f l = l.
Proof. induction 1; cbn; congruence. Qed.
Lemma inject_project v : wf v -> inject (project v) = v.
Proof.
  induction v as [t s|t|t l IH|t|t m IH] using value_ind'; intros H; inversion H; subst; cbn [project inject]; auto.
  - now destruct b.
  - do 2 f_equal. rewrite map_map. apply map_id_Forall. rewrite Forall_forall in *. auto.
  - do 2 f_equal. rewrite map_map. cbn [fst snd].
    rewrite map_id_Forall; [now apply sort_members_id|].
    rewrite Forall_forall in *. intros [k x] Hin. cbn [fst snd]. f_equal. apply (IH _ Hin).
    match goal with Hw : forall x, In x m -> wf _ |- _ => exact (Hw _ Hin) end.
Qed.
Lemma distinct_project v : wf v -> distinct (project v).
Proof.
  induction v as [t s|t|t l IH|t|t m IH] using value_ind'; intros H; inversion H; subst; cbn [project]; try constructor.
  - rewrite Forall_map. rewrite Forall_forall in *. auto.
  - rewrite map_map. cbn [fst]. now apply sorted_NoDup.
  - rewrite Forall_map. cbn [snd]. rewrite Forall_forall in *. intros kv Hin. auto.
Qed.
Lemma root_project v : root v -> container (project v).
Proof. intros [[l ->]|[m ->]]; exact I. Qed.

(** ** Grammaticality *)
Lemma ws_nil' : ws []. Proof. constructor. Qed.
Lemma ws_spaces n : ws (spaces n).
Proof. unfold spaces. apply Forall_forall. intros c Hc. apply repeat_spec in Hc. subst. now left. Qed.
Lemma ws_nl w : ws w -> ws ([10] ++ w).
Proof. intros H. constructor; [|exact H]. unfold wschar. auto. Qed.
Lemma nl_ws : ws [10]. Proof. apply (ws_nl []), ws_nil'. Qed.
Lemma sp_ws : ws [32]. Proof. repeat constructor. Qed.
#[local] Hint Resolve ws_nil' ws_spaces ws_nl nl_ws sp_ws : core.
Notation GV := (gvalue ws gstring false).
Notation GE := (gelems ws gstring false).
Notation GM := (gmembers ws gstring false).

Lemma dump_elems_grammar (f : value -> res bytes) l :
  Forall (fun v => exists t, f v = Ok t /\ GV t (project v)) l -> exists t, dump_elems f l = Ok t /\
  (l = [] /\ t = [] \/ GE t (map project l)).
Proof.
  induction 1 as [|v l (t & E & G) _ (ts & Es & Gs)]; [exists []; auto|].
  cbn [dump_elems map]. rewrite E, Es. cbn [bind]. eexists. split; [reflexivity|]. right.
  destruct Gs as [[-> ->]|Gs].
  - cbn [map app]. rewrite app_nil_r. replace t with ([] ++ t ++ []) by (cbn; now rewrite app_nil_r). apply ge_last; auto.
  - destruct l as [|v' l]; [inversion Gs|]. apply (ge_cons ws gstring false [] t []); auto.
Qed.
Lemma dump_members_grammar (f : value -> res bytes) m :
  Forall (fun kv => exists t, f (snd kv) = Ok t /\ GV t (project (snd kv))) m -> exists t, dump_members f m = Ok t /\
  (m = [] /\ t = [] \/ GM t (map (fun kv => (fst kv, project (snd kv))) m)).
Proof.
  induction 1 as [|[k v] m (t & E & G) _ (ts & Es & Gs)]; [exists []; auto|].
  cbn [dump_members map fst snd] in *. rewrite E, Es. cbn [bind]. eexists. split; [reflexivity|]. right.
  replace ([34] ++ escape_string k ++ [34; 58] ++ t ++ match m with [] => [] | _ => [44] end ++ ts)
    with ([] ++ ([34] ++ escape_string k ++ [34]) ++ [] ++ [58] ++ [] ++ t ++ match m with [] => [] | _ => [44] end ++ ts)
    by (cbn [app]; rewrite <- app_assoc; reflexivity).
  destruct Gs as [[-> ->]|Gs].
  - cbn [map]. apply gm_last; auto using quoted_gstring.
  - destruct m as [|v' m]; [inversion Gs|].
    apply (gm_cons ws gstring false [] _ [] [] t [] k _ ts _); auto using quoted_gstring.
Qed.
Lemma dump_grammar v : wf v -> exists t, dump v = Ok t /\ GV t (project v).
Proof.
  induction v as [t s|t|t l IH|t|t m IH] using value_ind'; intros H; inversion H; subst.
  - eexists. split; [reflexivity|constructor].
  - exists (of_string (if b then "true" else "false")). split; [reflexivity|]. destruct b; cbn; constructor.
  - eexists. split; [reflexivity|]. now constructor.
  - eexists. split; [reflexivity|]. apply gv_str, quoted_gstring.
  - cbn [dump project]. unfold dump_array_with. destruct (dump_elems_grammar dump l) as (ts & -> & G).
    { rewrite Forall_forall in *. auto. }
    cbn [bind]. eexists. split; [reflexivity|]. destruct G as [[-> ->]|G]; [apply (gv_arr0 ws gstring false []); auto|now apply gv_arr].
  - cbn [dump project]. unfold dump_object_with. destruct (dump_members_grammar dump m) as (ts & -> & G).
    { rewrite Forall_forall in *. auto. }
    cbn [bind]. eexists. split; [reflexivity|]. destruct G as [[-> ->]|G]; [apply (gv_obj0 ws gstring false []); auto|now apply gv_obj].
Qed.

(** Pretty printing: the body of a container, after the newline and before the last indentation. *)
Lemma format_elems_grammar (f : value -> res bytes) n k l :
  Forall (fun v => exists t, f v = Ok t /\ GV t (project v)) l -> exists t, format_elems f n k l = Ok t /\
  (l = [] /\ t = [] \/ forall w1 w2, ws w1 -> ws w2 -> GE (w1 ++ t ++ w2) (map project l)).
Proof.
  induction 1 as [|v l (t & E & G) _ (ts & Es & Gs)]; [exists []; auto|].
  cbn [format_elems map]. rewrite E, Es. cbn [bind]. eexists. split; [reflexivity|]. right. intros w1 w2 H1 H2.
  set (sp := spaces (n * (k + 1))). assert (Hsp : ws sp) by apply ws_spaces.
  destruct Gs as [[-> ->]|Gs].
  - cbn [map app]. replace (w1 ++ (sp ++ t ++ [10]) ++ w2) with ((w1 ++ sp) ++ t ++ ([10] ++ w2)) by (now rewrite <- !app_assoc).
    apply ge_last; [apply Forall_app|exact G|]; auto.
  - destruct l as [|v' l]; [specialize (Gs [] [] ws_nil' ws_nil'); inversion Gs|].
    replace (w1 ++ (sp ++ t ++ [44] ++ [10] ++ ts) ++ w2) with ((w1 ++ sp) ++ t ++ [] ++ [44] ++ ([10] ++ ts ++ w2)) by (rewrite <- !app_assoc; reflexivity).
    apply ge_cons; [apply Forall_app; auto|exact G|auto|]. apply (Gs [10]); auto.
Qed.
Lemma format_members_grammar (f : value -> res bytes) n i m :
  Forall (fun kv => exists t, f (snd kv) = Ok t /\ GV t (project (snd kv))) m -> exists t, format_members f n i m = Ok t /\
  (m = [] /\ t = [] \/ forall w1 w2, ws w1 -> ws w2 -> GM (w1 ++ t ++ w2) (map (fun kv => (fst kv, project (snd kv))) m)).
Proof.
  induction 1 as [|[k v] m (t & E & G) _ (ts & Es & Gs)]; [exists []; auto|].
  cbn [format_members map fst snd] in *. rewrite E, Es. cbn [bind]. eexists. split; [reflexivity|]. right. intros w1 w2 H1 H2.
  set (sp := spaces (n * (i + 1))). assert (Hsp : ws sp) by apply ws_spaces.
  assert (H32 : ws [32]) by (repeat constructor).
  destruct Gs as [[-> ->]|Gs].
  - cbn [map]. replace (w1 ++ (sp ++ [34] ++ escape_string k ++ [34; 58; 32] ++ t ++ [] ++ [10] ++ []) ++ w2)
      with ((w1 ++ sp) ++ ([34] ++ escape_string k ++ [34]) ++ [] ++ [58] ++ [32] ++ t ++ ([10] ++ w2))
      by (cbn [app]; repeat (rewrite <- app_assoc; cbn [app]); reflexivity).
    apply gm_last; auto using quoted_gstring. apply Forall_app; auto.
  - destruct m as [|v' m]; [specialize (Gs [] [] ws_nil' ws_nil'); inversion Gs|].
    replace (w1 ++ (sp ++ [34] ++ escape_string k ++ [34; 58; 32] ++ t ++ [44] ++ [10] ++ ts) ++ w2)
      with ((w1 ++ sp) ++ ([34] ++ escape_string k ++ [34]) ++ [] ++ [58] ++ [32] ++ t ++ [] ++ [44] ++ ([10] ++ ts ++ w2))
      by (cbn [app]; repeat (rewrite <- app_assoc; cbn [app]); reflexivity).
    apply gm_cons; [apply Forall_app; auto|apply quoted_gstring|auto|auto|auto|auto|apply (Gs [10]); auto].
Qed.
Lemma format_grammar v : wf v -> forall n k, exists t, format_to n k v = Ok t /\ GV t (project v).
Proof.
  induction v as [t s|t|t l IH|t|t m IH] using value_ind'; intros H n k.
  - destruct (dump_grammar _ H) as (x & E & G). exists x. inversion H; subst; auto.
  - inversion H.
  - inversion H; subst. cbn [format_to project]. unfold format_array_with.
    destruct (format_elems_grammar (format_to n (k + 1)) n k l) as (ts & -> & G).
    { rewrite Forall_forall in *. auto. }
    cbn [bind]. eexists. split; [reflexivity|]. destruct G as [[-> ->]|G].
    + cbn [app map]. apply (gv_arr0 ws gstring false ([10] ++ spaces (n * k))); auto.
    + replace ([91; 10] ++ ts ++ spaces (n * k) ++ [93]) with ([91] ++ ([10] ++ ts ++ spaces (n * k)) ++ [93]) by (cbn [app]; now rewrite <- app_assoc).
      apply gv_arr, (G [10]); auto.
  - inversion H.
  - inversion H; subst. cbn [format_to project]. unfold format_object_with.
    destruct (format_members_grammar (format_to n (k + 1)) n k m) as (ts & -> & G).
    { rewrite Forall_forall in *. auto. }
    cbn [bind]. eexists. split; [reflexivity|]. destruct G as [[-> ->]|G].
    + cbn [app map]. apply (gv_obj0 ws gstring false ([10] ++ spaces (n * k))); auto.
    + replace ([123; 10] ++ ts ++ spaces (n * k) ++ [125]) with ([123] ++ ([10] ++ ts ++ spaces (n * k)) ++ [125]) by (cbn [app]; now rewrite <- app_assoc).
      apply gv_obj, (G [10]); auto.
Qed.
Lemma dumps_grammar v n : wf v -> exists t, dumps n v = Ok t /\ GV t (project v).
Proof. destruct n as [n|]; [intros H; now apply format_grammar|apply dump_grammar]. Qed.

(** ** Properties of the text that are closed under concatenation *)
Section Closed.
  Context (P Q : bytes -> Prop).
  Context (Q0 : Q []) (Qapp : forall a b, Q a -> Q b -> Q (a ++ b)).
  Context (Qc : forall c, 32 <= c < 127 -> Q [c]) (Qs : forall s, P s -> Q (escape_string s)).
  Lemma Qall s : Forall (fun c => 32 <= c < 127) s -> Q s.
  Proof. induction 1 as [|c s Hc _ IH]; auto. apply (Qapp [c]); auto. Qed.
  Lemma Qnum s : gnumber s -> Q s.
  Proof.
    intros H. apply Qall.
    assert (D : forall l, Forall digit l -> Forall (fun c => 32 <= c < 127) l).
    { intros l Hl. eapply Forall_impl; [|exact Hl]. unfold digit. lia. }
    assert (D1 : forall c, digit c -> 32 <= c < 127) by (unfold digit; lia).
    destruct H as [m i f e Hm Hi Hf He]. repeat (apply Forall_app; split).
    - destruct Hm as [-> | ->]; repeat constructor; lia.
    - destruct Hi; constructor; auto; lia.
    - destruct Hf; constructor; auto; lia.
    - destruct He as [|e sg c ds He Hsg Hc Hds]; constructor; [lia|]. apply Forall_app. split; auto.
      destruct Hsg as [-> | [-> | ->]]; repeat constructor; lia.
  Qed.
  Lemma Qws n : Q (spaces n).
  Proof. apply Qall. unfold spaces. apply Forall_forall. intros c Hc. apply repeat_spec in Hc. lia. Qed.
  Lemma Qcons c s : 32 <= c < 127 -> Q s -> Q (c :: s).
  Proof. intros Hc. apply (Qapp [c]); auto. Qed.
  Lemma Qnlc s : Q [10] -> Q s -> Q (10 :: s).
  Proof. intros Hc. apply (Qapp [10]); auto. Qed.
  Ltac qa := repeat first [assumption | apply Q0 | apply Qs; assumption | apply Qws | apply Qcons; [lia|] | apply Qnlc; [assumption|] | apply Qapp].
  Lemma quote_closed s : P s -> Q ([34] ++ escape_string s ++ [34]).
  Proof. intros H. qa. Qed.
  Lemma dump_elems_closed (f : value -> res bytes) l t : Forall (fun v => forall t, f v = Ok t -> Q t) l -> dump_elems f l = Ok t -> Q t.
  Proof.
    intros H. revert t. induction H as [|v l Hv _ IH]; cbn [dump_elems]; intros t E; [injection E as <-; auto|].
    apply bind_ok in E. destruct E as (x & E1 & E). apply bind_ok in E. destruct E as (y & E2 & E). injection E as <-.
    pose proof (Hv _ E1). pose proof (IH _ E2). destruct l; qa.
  Qed.
  Lemma dump_members_closed (f : value -> res bytes) m t : Forall (fun kv => P (fst kv) /\ forall t, f (snd kv) = Ok t -> Q t) m ->
    dump_members f m = Ok t -> Q t.
  Proof.
    intros H. revert t. induction H as [|[k v] l [Hk Hv] _ IH]; cbn [dump_members]; intros t E; [injection E as <-; auto|].
    apply bind_ok in E. destruct E as (x & E1 & E). apply bind_ok in E. destruct E as (y & E2 & E). injection E as <-.
    cbn [fst snd] in *. pose proof (Hv _ E1). pose proof (IH _ E2). destruct l; qa.
  Qed.
  Lemma format_elems_closed (f : value -> res bytes) n i l t : Q [10] -> Forall (fun v => forall t, f v = Ok t -> Q t) l ->
    format_elems f n i l = Ok t -> Q t.
  Proof.
    intros Hn H. revert t. induction H as [|v l Hv _ IH]; cbn [format_elems]; intros t E; [injection E as <-; auto|].
    apply bind_ok in E. destruct E as (x & E1 & E). apply bind_ok in E. destruct E as (y & E2 & E). injection E as <-.
    pose proof (Hv _ E1). pose proof (IH _ E2). destruct l; qa.
  Qed.
  Lemma format_members_closed (f : value -> res bytes) n i m t : Q [10] -> Forall (fun kv => P (fst kv) /\ forall t, f (snd kv) = Ok t -> Q t) m ->
    format_members f n i m = Ok t -> Q t.
  Proof.
    intros Hn H. revert t. induction H as [|[k v] l [Hk Hv] _ IH]; cbn [format_members]; intros t E; [injection E as <-; auto|].
    apply bind_ok in E. destruct E as (x & E1 & E). apply bind_ok in E. destruct E as (y & E2 & E). injection E as <-.
    cbn [fst snd] in *. pose proof (Hv _ E1). pose proof (IH _ E2). destruct l; qa.
  Qed.
  Lemma dump_closed v : wf v -> all_vstrings P v -> forall t, dump v = Ok t -> Q t.
  Proof.
    induction v as [t s|t|t l IH|t|t m IH] using value_ind'; intros H HP x E; inversion H; subst; cbn [dump] in E.
    - injection E as <-. unfold null_string. cbn. qa.
    - injection E as <-. destruct b; cbn; qa.
    - injection E as <-. now apply Qnum.
    - injection E as <-. inversion HP; subst; [congruence|]. now apply quote_closed.
    - inversion HP; subst. apply bind_ok in E. destruct E as (y & E & F). injection F as <-.
      apply dump_elems_closed in E; [qa|]. rewrite Forall_forall in *. intros v Hv. apply IH; auto.
    - inversion HP; subst. apply bind_ok in E. destruct E as (y & E & F). injection F as <-.
      apply dump_members_closed in E; [qa|]. rewrite Forall_forall in *. intros v Hv.
      match goal with Hs : forall x, In x m -> P _ /\ _ |- _ => destruct (Hs _ Hv) end. split; [assumption|]. apply IH; auto.
  Qed.
  Lemma format_closed v : Q [10] -> wf v -> all_vstrings P v -> forall n k t, format_to n k v = Ok t -> Q t.
  Proof.
    intros Hn. induction v as [t s|t|t l IH|t|t m IH] using value_ind'; intros H HP n i x E.
    - apply (dump_closed _ H HP x). inversion H; subst; exact E.
    - inversion H.
    - inversion H; inversion HP; subst. cbn [format_to] in E. apply bind_ok in E. destruct E as (y & E & F). injection F as <-.
      apply format_elems_closed in E; auto; [|].
      + apply (Qapp [91; 10]); [apply (Qapp [91]); qa|qa].
      + rewrite Forall_forall in *. intros v Hv. apply IH; auto.
    - inversion H.
    - inversion H; inversion HP; subst. cbn [format_to] in E. apply bind_ok in E. destruct E as (y & E & F). injection F as <-.
      apply format_members_closed in E; auto; [|].
      + apply (Qapp [123; 10]); [apply (Qapp [123]); qa|qa].
      + rewrite Forall_forall in *. intros v Hv.
      match goal with Hs : forall x, In x m -> P _ /\ _ |- _ => destruct (Hs _ Hv) end. split; [assumption|]. apply IH; auto.
  Qed.
End Closed.
Lemma esc1_cases c : esc1 c = [c] /\ 32 <= c \/ Forall (fun x => 32 <= x < 127) (esc1 c) /\ c < 128.
Proof.
  unfold esc1, escape_letter.
  destruct (N.eqb_spec c 34) as [->|H34]; [right; split; [repeat constructor; lia|lia]|].
  destruct (N.eqb_spec c 92) as [->|H92]; [right; split; [repeat constructor; lia|lia]|].
  destruct (N.eqb_spec c 8) as [->|?]; [right; split; [repeat constructor; lia|lia]|].
  destruct (N.eqb_spec c 12) as [->|?]; [right; split; [repeat constructor; lia|lia]|].
  destruct (N.eqb_spec c 10) as [->|?]; [right; split; [repeat constructor; lia|lia]|].
  destruct (N.eqb_spec c 13) as [->|?]; [right; split; [repeat constructor; lia|lia]|].
  destruct (N.eqb_spec c 9) as [->|?]; [right; split; [repeat constructor; lia|lia]|].
  destruct (N.ltb_spec c 32) as [Hc|Hc]; [|left; auto]. right. split; [|lia].
  destruct (nibbles c) as [-> ->]. pose proof (N.mod_lt c 16). assert (c / 16 < 16) by (apply N.div_lt_upper_bound; lia).
  assert (D : forall n, n < 16 -> 32 <= hex_digit n < 127) by (intros k Hk; unfold hex_digit; destruct (k <? 10) eqn:E; lia).
  repeat constructor; try lia; apply D; lia.
Qed.
Lemma escape_bytes s : Forall is_byte s -> Forall is_byte (escape_string s).
Proof.
  rewrite escape_string_spec. induction 1 as [|c s Hc _ IH]; cbn [map concat]; [constructor|]. apply Forall_app. split; auto.
  destruct (esc1_cases c) as [[-> _]|[H _]]; [auto|]. eapply Forall_impl; [|exact H]. unfold is_byte. lia.
Qed.
Lemma escape_clean s : Forall (fun c => 32 <= c) (escape_string s).
Proof.
  rewrite escape_string_spec. induction s as [|c s IH]; cbn [map concat]; [constructor|]. apply Forall_app. split; auto.
  destruct (esc1_cases c) as [[-> H]|[H _]]; [auto|]. eapply Forall_impl; [|exact H]. cbn. lia.
Qed.
Lemma escape_utf8 s : utf8_valid s -> utf8_valid (escape_string s).
Proof.
  intros H. rewrite escape_string_spec. enough (forall pre, utf8_valid (pre ++ s) -> utf8_valid (pre ++ concat (map esc1 s))) by (now apply (H0 [])).
  clear H. induction s as [|c s IH]; intros pre H; cbn [map concat]; [exact H|].
  destruct (esc1_cases c) as [[-> _]|[Hf Hc]].
  - specialize (IH (pre ++ [c])). rewrite <- !app_assoc in IH. auto.
  - apply utf8_split in H; auto. destruct H as [H1 H2]. apply utf8_valid_app; auto. apply utf8_valid_app; [|now apply (IH [])].
    apply utf8_valid_asciis. eapply Forall_impl; [|exact Hf]. cbn. lia.
Qed.
Lemma dumps_bytes v n t : wf v -> all_vstrings (Forall is_byte) v -> dumps n v = Ok t -> Forall is_byte t.
Proof.
  intros H HP. destruct n as [n|]; cbn [dumps].
  - apply (format_closed (Forall is_byte) (Forall is_byte)); auto using escape_bytes.
    + intros a b Ha Hb. apply Forall_app. auto.
    + intros c Hc. constructor; [unfold is_byte; lia|constructor].
    + constructor; [unfold is_byte; lia|constructor].
  - apply (dump_closed (Forall is_byte) (Forall is_byte)); auto using escape_bytes.
    + intros a b Ha Hb. apply Forall_app. auto.
    + intros c Hc. constructor; [unfold is_byte; lia|constructor].
Qed.
Lemma dumps_utf8 v n t : wf v -> all_vstrings utf8_valid v -> dumps n v = Ok t -> utf8_valid t.
Proof.
  intros H HP. destruct n as [n|]; cbn [dumps].
  - apply (format_closed utf8_valid utf8_valid); auto using escape_utf8, utf8_valid_app, utf8_valid_nil.
    + intros c Hc. apply utf8_valid_ascii. lia.
    + apply utf8_valid_ascii. lia.
  - apply (dump_closed utf8_valid utf8_valid); auto using escape_utf8, utf8_valid_app, utf8_valid_nil.
    intros c Hc. apply utf8_valid_ascii. lia.
Qed.
Lemma all_vstrings_True v : wf v -> all_vstrings (fun _ => True) v.
Proof.
  induction v as [t s|t|t l IH|t|t m IH] using value_ind'; intros H; inversion H; subst; try (constructor; discriminate).
  - now constructor.
  - constructor. rewrite Forall_forall in *. auto.
  - constructor. rewrite Forall_forall in *. auto.
Qed.
Lemma dump_clean v t : wf v -> dump v = Ok t -> Forall (fun c => 32 <= c) t.
Proof.
  intros H. apply (dump_closed (fun _ => True) (Forall (fun c => 32 <= c))); auto using escape_clean, all_vstrings_True.
  - intros a b Ha Hb. apply Forall_app. auto.
  - intros c Hc. constructor; [lia|constructor].
Qed.
Lemma format_clean v n t : wf v -> dumps (Some n) v = Ok t -> Forall (fun c => 32 <= c \/ c = 10) t.
Proof.
  intros H. apply (format_closed (fun _ => True) (Forall (fun c => 32 <= c \/ c = 10))); auto using all_vstrings_True.
  - intros a b Ha Hb. apply Forall_app. auto.
  - intros c Hc. constructor; [lia|constructor].
  - intros s _. eapply Forall_impl; [|apply escape_clean]. cbn. auto.
Qed.

(** ** Round trips *)
Lemma ws_jsonc jsonc t j : GV t j -> gvalue (wsp jsonc) gstring jsonc t j.
Proof.
  apply gvalue_weaken; [intros w; apply ws_wsp|auto|discriminate].
Qed.
Lemma round_trip jsonc be n v : wf v -> all_vstrings (Forall is_byte) v -> root v ->
  exists t, dumps n v = Ok t /\ parse jsonc be t = Ok (Some v).
Proof.
  intros H HP Hr. destruct (dumps_grammar v n H) as (t & E & G). exists t. split; auto.
  pose proof (dumps_bytes v n t H HP E) as Hb. rewrite <- (inject_project v H).
  apply parse_complete; auto using distinct_project.
  apply (gdoc_accepted jsonc false t _ [] t [] []); auto using wsp_nil, root_project, ws_jsonc.
  - now rewrite !app_nil_r.
  - destruct jsonc; left; reflexivity.
Qed.
Lemma dumps_document n v : wf v -> root v -> exists t, dumps n v = Ok t /\ rfc_document t (project v).
Proof.
  intros H Hr. destruct (dumps_grammar v n H) as (t & E & G). exists t. split; auto.
  exists [], t, []. splits; auto using root_project. now rewrite app_nil_r.
Qed.
Lemma truncated jsonc be n v t p q : wf v -> all_vstrings (Forall is_byte) v -> root v -> dumps n v = Ok t ->
  t = p ++ q -> q <> [] -> parse jsonc be p = Ok None.
Proof.
  intros H HP Hr E Et Hq. destruct (dumps_grammar v n H) as (t' & E' & G). rewrite E in E'. injection E' as <-.
  eapply prefix_rejected; eauto using ws_jsonc, root_project, dumps_bytes.
Qed.
Lemma dumps_injective n v v' t : wf v -> wf v' -> dumps n v = Ok t -> dumps n v' = Ok t -> v = v'.
Proof.
  intros H H' E E'.
  destruct (dumps_grammar v n H) as (t1 & E1 & G). rewrite E in E1. injection E1 as <-.
  destruct (dumps_grammar v' n H') as (t1 & E1 & G'). rewrite E' in E1. injection E1 as <-.
  assert (A : forall j, GV t j -> rfc_document ([91] ++ t ++ [93]) (JArr [j])).
  { intros j Gj. exists [], ([91] ++ t ++ [93]), []. splits; auto; [now rewrite app_nil_r|exact I|].
    replace t with ([] ++ t ++ []) by (cbn; now rewrite app_nil_r). apply gv_arr, ge_last; auto. }
  assert (Ej : JArr [project v] = JArr [project v']) by (eapply rfc_fun; eauto).
  injection Ej as Ej. rewrite <- (inject_project v H), <- (inject_project v' H'). congruence.
Qed.

(** ** Pretty and compact output *)
Lemma compact_plain h r : Forall (fun c => c <> 34 /\ c <> 92) h -> compact Inside (h ++ r) = h ++ compact Inside r.
Proof.
  induction 1 as [|c h [H1 H2] _ IH]; [reflexivity|]. cbn [app compact]. rewrite <- IH.
  destruct (N.eqb_spec c 34); [contradiction|]. destruct (N.eqb_spec c 92); [contradiction|]. reflexivity.
Qed.
Lemma hex4_plain h cp : hex4 h cp -> Forall (fun c => c <> 34 /\ c <> 92) h.
Proof.
  intros [a b c d a' b' c' d' Ha Hb Hc Hd].
  assert (D : forall x y, hexdig x y -> x <> 34 /\ x <> 92) by (intros x y [? ?|? ?|? ?]; lia).
  repeat (constructor; [eapply D; eassumption|]). constructor.
Qed.
Lemma compact_chars t s : gchars t s -> forall r, compact Inside (t ++ 34 :: r) = t ++ 34 :: compact Outside r.
Proof.
  induction 1 as [|c t s Hc H IH|l c t s Hl H IH|h cp t s Hh Hs H IH|h1 hi h2 lo t s H1 H2 Hhi Hlo H IH]; intros r.
  - reflexivity.
  - destruct Hc as (_ & Hq & Hb). change ((c :: t) ++ 34 :: r) with ([c] ++ (t ++ 34 :: r)). rewrite compact_plain, IH by auto. reflexivity.
  - cbn [app compact]. now rewrite IH.
  - change ((92 :: 117 :: h ++ t) ++ 34 :: r) with (92 :: 117 :: (h ++ t) ++ 34 :: r). cbn [compact]. cbn [N.eqb Pos.eqb].
    rewrite <- app_assoc, compact_plain, IH by eauto using hex4_plain. cbn [app]. now rewrite <- app_assoc.
  - change ((92 :: 117 :: h1 ++ 92 :: 117 :: h2 ++ t) ++ 34 :: r) with (92 :: 117 :: (h1 ++ 92 :: 117 :: h2 ++ t) ++ 34 :: r).
    cbn [compact]. cbn [N.eqb Pos.eqb].
    rewrite <- app_assoc, compact_plain by eauto using hex4_plain. cbn [app compact N.eqb Pos.eqb].
    rewrite <- app_assoc, compact_plain, IH by eauto using hex4_plain. repeat (rewrite <- app_assoc; cbn [app]). reflexivity.
Qed.
Lemma compact_string s r : compact Outside (([34] ++ escape_string s ++ [34]) ++ r) = ([34] ++ escape_string s ++ [34]) ++ compact Outside r.
Proof.
  cbn [app compact]. cbn [N.eqb Pos.eqb orb]. rewrite <- !app_assoc. cbn [app].
  now rewrite (compact_chars _ _ (escape_gchars s)).
Qed.
Lemma compact_ws w r : ws w -> compact Outside (w ++ r) = compact Outside r.
Proof.
  induction 1 as [|c w Hc _ IH]; [reflexivity|]. cbn [app compact]. unfold wschar in Hc. rewrite IH.
  destruct Hc as [-> | [-> | [-> | ->]]]; reflexivity.
Qed.
Lemma compact_word t r : Forall (fun c => 32 < c /\ c <> 34) t -> compact Outside (t ++ r) = t ++ compact Outside r.
Proof.
  induction 1 as [|c t [H1 H2] _ IH]; [reflexivity|]. cbn [app compact]. rewrite <- IH.
  destruct (N.eqb_spec c 32); [lia|]. destruct (N.eqb_spec c 9); [lia|]. destruct (N.eqb_spec c 10); [lia|].
  destruct (N.eqb_spec c 13); [lia|]. destruct (N.eqb_spec c 34); [lia|]. reflexivity.
Qed.
Lemma gnumber_word s : gnumber s -> Forall (fun c => 32 < c /\ c <> 34) s.
Proof.
  intros H.
  assert (D : forall l, Forall digit l -> Forall (fun c => 32 < c /\ c <> 34) l).
  { intros l Hl. eapply Forall_impl; [|exact Hl]. unfold digit. lia. }
  assert (D1 : forall c, digit c -> 32 < c /\ c <> 34) by (unfold digit; lia).
  destruct H as [m i f e Hm Hi Hf He]. repeat (apply Forall_app; split).
  - destruct Hm as [-> | ->]; repeat constructor; lia.
  - destruct Hi; constructor; auto; lia.
  - destruct Hf; constructor; auto; lia.
  - destruct He as [|e sg c ds He Hsg Hc Hds]; constructor; [lia|]. apply Forall_app. split; auto.
    destruct Hsg as [-> | [-> | ->]]; repeat constructor; lia.
Qed.
(** [same t t']: [t'] is what remains of [t] in any context. *)
Definition same (t t' : bytes) : Prop := forall r, compact Outside (t ++ r) = t' ++ compact Outside r.
Lemma same_app a a' b b' : same a a' -> same b b' -> same (a ++ b) (a' ++ b').
Proof. intros Ha Hb r. now rewrite <- !app_assoc, Ha, Hb. Qed.
Lemma same_ws w b b' : ws w -> same b b' -> same (w ++ b) b'.
Proof. intros Hw Hb r. now rewrite <- app_assoc, compact_ws, Hb. Qed.
Lemma same_nil : same [] []. Proof. intros r. reflexivity. Qed.
Lemma same_word t : Forall (fun c => 32 < c /\ c <> 34) t -> same t t.
Proof. intros H r. now apply compact_word. Qed.
Lemma same_string s : same ([34] ++ escape_string s ++ [34]) ([34] ++ escape_string s ++ [34]).
Proof. intros r. apply compact_string. Qed.
Ltac word := cbn; repeat (apply Forall_cons; [lia|]); apply Forall_nil.
Ltac fcons := repeat match goal with H : Forall _ (_ :: _) |- _ => apply Forall_cons_iff in H; destruct H end.
Definition sep {A} (l : list A) : bytes := match l with [] => [] | _ => [44] end.
Lemma same_sep {A} (l : list A) : same (sep l) (sep l).
Proof. destruct l; [apply same_nil|]. apply same_word; word. Qed.
Lemma key_text k x : 34 :: escape_string k ++ 34 :: 58 :: x = ([34] ++ escape_string k ++ [34]) ++ [58] ++ x.
Proof. cbn [app]. rewrite <- app_assoc. reflexivity. Qed.
Lemma compact_dump v : wf v -> forall t, dump v = Ok t -> same t t.
Proof.
  induction v as [t s|t|t l IH|t|t m IH] using value_ind'; intros H x E; inversion H; subst; cbn [dump] in E.
  - injection E as <-. apply same_word. word.
  - injection E as <-. apply same_word. destruct b; word.
  - injection E as <-. apply same_word. now apply gnumber_word.
  - injection E as <-. apply same_string.
  - apply bind_ok in E. destruct E as (y & E & F). injection F as <-.
    apply (same_app [91] [91]); [apply same_word; word|].
    apply same_app; [|apply same_word; word].
    clear H. revert y E. induction l as [|v l IHl]; cbn [dump_elems]; intros y E; [injection E as <-; apply same_nil|].
    apply bind_ok in E. destruct E as (x & E1 & E). apply bind_ok in E. destruct E as (z & E2 & E). injection E as <-.
    fcons. apply same_app; [auto|]. apply same_app; [apply same_sep|]. auto.
  - apply bind_ok in E. destruct E as (y & E & F). injection F as <-.
    apply (same_app [123] [123]); [apply same_word; word|].
    apply same_app; [|apply same_word; word].
    match goal with K : sorted_keys _ |- _ => clear H K end. revert y E. induction m as [|[k v] l IHl]; cbn [dump_members]; intros y E; [injection E as <-; apply same_nil|].
    apply bind_ok in E. destruct E as (x & E1 & E). apply bind_ok in E. destruct E as (z & E2 & E). injection E as <-.
    fcons. cbn [snd] in *.
    rewrite !key_text.
    apply same_app; [apply same_string|]. apply same_app; [apply same_word; word|].
    apply same_app; [auto|]. apply same_app; [apply same_sep|]. auto.
Qed.
Lemma compact_format v : wf v -> forall n k t t', format_to n k v = Ok t -> dump v = Ok t' -> same t t'.
Proof.
  induction v as [t s|t|t l IH|t|t m IH] using value_ind'; intros H n i x x' E E'.
  - replace x with x' by (inversion H; subst; cbn [format_to] in E; congruence). eapply compact_dump; eauto.
  - inversion H.
  - inversion H; subst. cbn [format_to dump] in E, E'.
    apply bind_ok in E. destruct E as (y & E & F). injection F as <-.
    apply bind_ok in E'. destruct E' as (y' & E' & F). injection F as <-.
    apply (same_app [91] [91]); [apply same_word; word|]. apply (same_ws [10]); [apply nl_ws|].
    apply same_app; [|apply same_ws; [auto|apply same_word; word]].
    clear H. revert y y' E E'. induction l as [|v l IHl]; cbn [format_elems dump_elems]; intros y y' E E'.
    { injection E as <-. injection E' as <-. apply same_nil. }
    apply bind_ok in E. destruct E as (x & E1 & E). apply bind_ok in E. destruct E as (z & E2 & E). injection E as <-.
    apply bind_ok in E'. destruct E' as (x' & E1' & E'). apply bind_ok in E'. destruct E' as (z' & E2' & E'). injection E' as <-.
    fcons. apply same_ws; [auto|]. apply same_app; [eauto|].
    apply same_app; [apply same_sep|]. apply (same_ws [10]); [apply nl_ws|]. auto.
  - inversion H.
  - inversion H; subst. cbn [format_to dump] in E, E'.
    apply bind_ok in E. destruct E as (y & E & F). injection F as <-.
    apply bind_ok in E'. destruct E' as (y' & E' & F). injection F as <-.
    apply (same_app [123] [123]); [apply same_word; word|]. apply (same_ws [10]); [apply nl_ws|].
    apply same_app; [|apply same_ws; [auto|apply same_word; word]].
    match goal with K : sorted_keys _ |- _ => clear H K end. revert y y' E E'. induction m as [|[k v] l IHl]; cbn [format_members dump_members]; intros y y' E E'.
    { injection E as <-. injection E' as <-. apply same_nil. }
    apply bind_ok in E. destruct E as (x & E1 & E). apply bind_ok in E. destruct E as (z & E2 & E). injection E as <-.
    apply bind_ok in E'. destruct E' as (x' & E1' & E'). apply bind_ok in E'. destruct E' as (z' & E2' & E'). injection E' as <-.
    fcons. cbn [snd] in *. apply same_ws; [auto|].
    rewrite !key_text.
    apply same_app; [apply same_string|]. apply same_app; [apply same_word; word|].
    apply (same_ws [32]); [apply sp_ws|]. apply same_app; [eauto|]. apply same_app; [apply same_sep|]. apply (same_ws [10]); [apply nl_ws|]. auto.
Qed.
Lemma pretty_compact n v : wf v -> exists t t', dumps (Some n) v = Ok t /\ dumps None v = Ok t' /\
  compact Outside t = t' /\ compact Outside t' = t'.
Proof.
  intros H. destruct (dumps_grammar v (Some n) H) as (t & E & _). destruct (dumps_grammar v None H) as (t' & E' & _).
  exists t, t'. splits; auto.
  - pose proof (compact_format v H n 0 t t' E E' []) as S. cbn [compact] in S. now rewrite !app_nil_r in S.
  - pose proof (compact_dump v H t' E' []) as S. cbn [compact] in S. now rewrite !app_nil_r in S.
Qed.

(** ** Escaping *)
Lemma escape_injective s s' : escape_string s = escape_string s' -> s = s'.
Proof.
  intros E. assert (G : JStr s = JStr s'); [|congruence].
  assert (D : forall x, rfc_document ([91] ++ ([34] ++ escape_string x ++ [34]) ++ [93]) (JArr [JStr x])).
  { intros x. exists [], ([91] ++ ([34] ++ escape_string x ++ [34]) ++ [93]), []. splits; auto; [now rewrite app_nil_r|exact I|].
    replace ([34] ++ escape_string x ++ [34]) with ([] ++ ([34] ++ escape_string x ++ [34]) ++ []) by (now rewrite app_nil_r).
    apply gv_arr, ge_last; auto. apply gv_str, quoted_gstring. }
  pose proof (D s) as D1. pose proof (D s') as D2. rewrite <- E in D2. pose proof (rfc_fun _ _ _ D1 D2) as F. congruence.
Qed.
Definition emplace_all (m : list (bytes * value)) : object :=
  fold_left (fun acc kv => fst (map_emplace (fst kv) (snd kv) acc)) m [].
Lemma emplace_all_sorted m : NoDup (map fst m) -> emplace_all m = sort_members m.
Proof.
  unfold emplace_all. rewrite <- fold_left_rev_right. revert m. intros m. induction m as [|[k v] m IH] using rev_ind; [reflexivity|].
  intros H. rewrite rev_app_distr. cbn [rev app fold_right fst snd].
  rewrite map_app in H. cbn [map fst] in H.
  assert (Hn : NoDup (map fst m)) by (apply NoDup_remove_1 in H; now rewrite app_nil_r in H).
  assert (Hk : ~ In k (map fst m)) by (apply NoDup_remove_2 in H; now rewrite app_nil_r in H).
  rewrite IH by auto. rewrite sort_members_app_one by auto.
  rewrite map_emplace_new; [reflexivity|now apply sort_members_sorted|].
  intros Hin. apply Hk. eapply Permutation_in; [|exact Hin]. apply Permutation_map. symmetry. apply sort_members_perm.
Qed.
Lemma member_order (m m' : list (bytes * value)) : NoDup (map fst m) -> Permutation m m' ->
  emplace_all m = emplace_all m'.
Proof.
  intros H P. assert (H' : NoDup (map fst m')) by (eapply Permutation_NoDup; [|exact H]; now apply Permutation_map).
  rewrite !emplace_all_sorted by auto. apply sorted_perm_eq.
  - now apply sort_members_sorted.
  - now apply sort_members_sorted.
  - etransitivity; [symmetry; apply sort_members_perm|]. etransitivity; [exact P|]. apply sort_members_perm.
Qed.

(** ** Statements *)
Lemma out_utf8 n v : wf v -> all_vstrings utf8_valid v -> exists t, dumps n v = Ok t /\ utf8_valid t.
Proof. intros H HP. destruct (dumps_grammar v n H) as (t & E & _). eauto using dumps_utf8. Qed.
Lemma out_clean v : wf v -> exists t, dumps None v = Ok t /\ Forall (fun c => 32 <= c) t.
Proof. intros H. destruct (dumps_grammar v None H) as (t & E & _). eauto using dump_clean. Qed.
Lemma out_clean_pretty n v : wf v -> exists t, dumps (Some n) v = Ok t /\ Forall (fun c => 32 <= c \/ c = 10) t.
Proof. intros H. destruct (dumps_grammar v (Some n) H) as (t & E & _). eauto using format_clean. Qed.
Lemma compact_round_trip jsonc be v : wf v -> all_vstrings (Forall is_byte) v -> root v ->
  exists t, dumps None v = Ok t /\ parse jsonc be t = Ok (Some v).
Proof. exact (round_trip jsonc be None v). Qed.
Lemma pretty_round_trip jsonc be n v : wf v -> all_vstrings (Forall is_byte) v -> root v ->
  exists t, dumps (Some n) v = Ok t /\ parse jsonc be t = Ok (Some v).
Proof. exact (round_trip jsonc be (Some n) v). Qed.
Lemma array_object_dumps n : (forall l, array_dumps n l = dumps n (v_array l)) /\ (forall m, object_dumps n m = dumps n (v_object m)).
Proof. split; intros; destruct n; reflexivity. Qed.
Lemma canonical n v v' : wf v -> wf v' -> (dumps n v = dumps n v' <-> v = v').
Proof.
  intros H H'. split; [|now intros ->]. intros E. destruct (dumps_grammar v n H) as (t & E1 & _).
  eapply (dumps_injective n v v' t); auto. congruence.
Qed.
Lemma order_independent (m m' : list (bytes * value)) n : NoDup (map fst m) -> Permutation m m' ->
  object_dumps n (emplace_all m) = object_dumps n (emplace_all m').
Proof. intros H P. now rewrite (member_order m m' H P). Qed.
Lemma dumps_is_json n v : wf v -> exists t j, dumps n v = Ok t /\ gvalue ws gstring false t j /\ distinct j /\ inject j = v /\
  (root v -> rfc_document t j).
Proof.
  intros H. destruct (dumps_grammar v n H) as (t & E & G). exists t, (project v). splits; auto using distinct_project, inject_project.
  intros Hr. exists [], t, []. splits; auto using root_project. now rewrite app_nil_r.
Qed.
Lemma escape_parses jsonc be s : Forall is_byte s ->
  parse jsonc be ([91; 34] ++ escape_string s ++ [34; 93]) = Ok (Some (VArr Tarray (Some [VStr Tstring s]))).
Proof.
  intros H. destruct (compact_round_trip jsonc be (VArr Tarray (Some [VStr Tstring s]))) as (t & E & P).
  - repeat constructor.
  - apply avs_arr. constructor; [|constructor]. now apply avs_str.
  - left. eauto.
  - rewrite <- P. f_equal. injection E as <-. cbn [app]. rewrite app_nil_r. now rewrite <- app_assoc.
Qed.
