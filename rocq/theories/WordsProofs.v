(** * What builds with words of at most eight bytes accept does not depend on how many bytes follow *)
From Verif Require Import Base Value Packed Parser Spec BaseProofs PackedProofs LexProofs StringProofs ParserProofs ParserComplete BlockProofs.
Ltac Zify.zify_post_hook ::= Z.div_mod_to_equations.

(** pending: an escape of six bytes comes *)
Lemma bchars_six big st n hi t s : bchars big st n (Some hi) (92 :: t) s -> (5 <= length t)%nat.
Proof.
  intros H. remember (Some hi) as ph eqn:P. remember (92 :: t) as u eqn:U. revert t U. induction H; intros t' U; try discriminate P.
  - injection U as <-. cbn [length]. rewrite app_length. destruct H. cbn [length]. lia.
  - injection U as <-. cbn [length]. rewrite app_length. destruct H. cbn [length]. lia.
  - destruct x as [|a x]; [cbn in U; apply IHbchars; auto|]. injection U as -> _. inversion H as [|? ? Ha]; subst. exfalso. unfold unescaped in Ha. lia.
Qed.
Lemma bchars_any big st n n' : (0 < st)%nat -> (st <= 8)%nat -> (2 <= n')%nat -> forall ph t s, bchars big st n ph t s -> bchars big st n' ph t s.
Proof.
  intros P L N ph t s H. induction H; try (econstructor; eassumption).
  apply bc_block; auto. apply bchars_six in IHbchars. rewrite app_length. cbn [length].
  set (m := (length x + S (length t) + n')%nat). pose proof (Nat.div_mod_eq m st). pose proof (Nat.mod_upper_bound m st). lia.
Qed.
Lemma bstring_any big st n n' t s : (0 < st)%nat -> (st <= 8)%nat -> (1 <= n')%nat -> bstring big st n t s -> bstring big st n' t s.
Proof. intros P L N (body & -> & H). exists body. split; auto. eapply bchars_any; [| | |exact H]; auto; lia. Qed.
Lemma lchars_block hi x t s : Forall unescaped x -> lchars true (Some hi) t s -> lchars true (Some hi) (x ++ t) (x ++ s).
Proof. induction 1 as [|c x Hc Hx IH]; intros H; cbn [app]; auto. apply lc_raw; auto. Qed.
Lemma bchars_lchars big st n ph t s : bchars big st n ph t s -> lchars true ph t s.
Proof.
  induction 1; [apply lc_nil|apply lc_raw; auto|now apply lc_esc|now apply lc_uni|eapply lc_high; eauto|now apply lc_low|now apply lchars_block].
Qed.
Lemma bstring_lstring big st n t s : bstring big st n t s -> lstring true t s.
Proof. intros (body & -> & H). exists body. split; auto. eapply bchars_lchars; eauto. Qed.

(** literals inside a container: something follows *)
Section Inside.
  Context (W : bytes -> Prop) (STR STR' : nat -> bytes -> bytes -> Prop) (tc : bool).
  Context (HS : forall n t s, (1 <= n)%nat -> STR n t s -> STR' n t s).
  Lemma positions_inside :
    (forall n t j, pvalue W STR tc n t j -> (1 <= n)%nat \/ container j -> pvalue W STR' tc n t j) /\
    (forall n t l, pelems W STR tc n t l -> (1 <= n)%nat -> pelems W STR' tc n t l) /\
    (forall n t m, pmembers W STR tc n t m -> (1 <= n)%nat -> pmembers W STR' tc n t m).
  Proof.
    apply positions_ind; intros.
    - apply pv_null.
    - apply pv_true.
    - apply pv_false.
    - now apply pv_num.
    - apply pv_str. apply HS; auto. match goal with X : _ \/ container _ |- _ => destruct X as [X|X]; [exact X|destruct X] end.
    - now apply pv_arr0.
    - apply pv_arr. match goal with X : _ -> pelems _ _ _ _ _ _ |- _ => apply X; lia end.
    - now apply pv_obj0.
    - apply pv_obj. match goal with X : _ -> pmembers _ _ _ _ _ _ |- _ => apply X; lia end.
    - apply pe_last; auto. match goal with X : _ -> pvalue _ _ _ _ _ _ |- _ => apply X; left; lia end.
    - apply pe_trail; auto. match goal with X : _ -> pvalue _ _ _ _ _ _ |- _ => apply X; left; lia end.
    - apply pe_cons; auto. match goal with X : _ -> pvalue _ _ _ _ _ _ |- _ => apply X; left; lia end.
    - apply pm_last; auto; [apply HS; [lia|assumption]|]. match goal with X : _ -> pvalue _ _ _ _ _ _ |- _ => apply X; left; lia end.
    - apply pm_trail; auto; [apply HS; [lia|assumption]|]. match goal with X : _ -> pvalue _ _ _ _ _ _ |- _ => apply X; left; lia end.
    - apply pm_cons; auto; [apply HS; [lia|assumption]|]. match goal with X : _ -> pvalue _ _ _ _ _ _ |- _ => apply X; left; lia end.
  Qed.
End Inside.
(** documents whose literals do not depend on what follows *)
Definition document_of (STR : bytes -> bytes -> Prop) (jsonc : bool) (s : bytes) (j : json) : Prop :=
  exists w1 t w2 e, s = w1 ++ t ++ w2 ++ e /\ wsp jsonc w1 /\ wsp jsonc w2 /\ stop jsonc e /\
    container j /\ gvalue (wsp jsonc) STR jsonc t j.
Lemma words_document jsonc big st s j : (0 < st)%nat -> (st <= 8)%nat ->
  block_document jsonc big st s j <-> document_of (bstring big st 1) jsonc s j.
Proof.
  intros P L. split; intros (w1 & t & w2 & e & H1 & H2 & H3 & H4 & H5 & H6); exists w1, t, w2, e; splits; auto.
  - apply (pvalue_const (wsp jsonc) (bstring big st 1) jsonc (length (w2 ++ e))). eapply positions_inside; [|exact H6|auto].
    intros n a b _. apply bstring_any; auto.
  - eapply positions_inside; [|apply pvalue_const, H6|auto]. intros n a b N. apply bstring_any; auto.
Qed.
Lemma words_exact jsonc be st s v : step be = Some st -> (st <= 8)%nat -> Forall is_byte s ->
  parse jsonc be s = Ok (Some v) <-> exists j, document_of (bstring (big_words be) st 1) jsonc s j /\ distinct j /\ v = inject j.
Proof.
  intros S L B. rewrite (block_exact jsonc be st S s v B). pose proof (step_pos be st S) as P.
  split; intros (j & D & H); exists j; (split; [now apply words_document|exact H]).
Qed.
Lemma words_same jsonc be st s s' : step be = Some st -> (st <= 8)%nat -> Forall is_byte s -> Forall is_byte s' ->
  (forall j, document_of (bstring (big_words be) st 1) jsonc s j <-> document_of (bstring (big_words be) st 1) jsonc s' j) ->
  parse jsonc be s = parse jsonc be s'.
Proof.
  intros S L B B' H. pose proof (words_exact jsonc be st s) as X. pose proof (words_exact jsonc be st s') as X'.
  destruct (parse_total jsonc be s B) as ([v|] & E & _), (parse_total jsonc be s' B') as ([v'|] & E' & _); rewrite E, E'; try reflexivity.
  - apply X in E as (j & A & D & ->); auto. rewrite <- E'. symmetry. apply X'; auto. exists j. now rewrite <- H.
  - apply X in E as (j & A & D & ->); auto. rewrite <- E'. symmetry. apply X'; auto. exists j. now rewrite <- H.
  - apply X' in E' as (j & A & D & ->); auto. rewrite <- E. apply X; auto. exists j. now rewrite H.
Qed.
