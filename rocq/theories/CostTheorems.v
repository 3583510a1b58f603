(** * Bounds on the time and space of parsing and on the text written. *)
From Verif Require Import Base Value Packed Parser Dump Cost Spec SpecCost BaseProofs CostProofs ParserProofs DumpProofs PropsParse.
Open Scope N_scope.

Lemma parse_time jsonc be s : Forall is_byte s -> exists o c,
  parse_c jsonc be s = (Ok o, c) /\ parse jsonc be s = Ok o /\
  c <= (4 * N.log2 (N.of_nat (length s) + 1) + 182) * N.of_nat (length s) + 100.
Proof.
  intros Hs. destruct (terminates jsonc be s Hs) as (o & Ho & _).
  assert (E : parse jsonc be s = Ok o) by (apply Ho; lia).
  pose proof (cw_parse jsonc be s) as W. pose proof (parse_c_erases jsonc be s) as R.
  rewrite E in R. unfold cw in W. rewrite R in W. destruct W as [_ W].
  exists o, (snd (parse_c jsonc be s)). split; [destruct (parse_c jsonc be s); cbn [fst] in R; subst; reflexivity|].
  split; [exact E|]. unfold rate, keyc in W. fold (ln s).
  replace (4 * N.log2 (ln s + 1) + 182) with (180 + 2 * (2 * N.log2 (ln s + 1) + 1)) by lia. exact W.
Qed.
Lemma parse_space jsonc be s v : parse jsonc be s = Ok (Some v) -> (vsize v <= length s)%nat.
Proof.
  intros E. pose proof (cw_parse jsonc be s) as W. pose proof (parse_c_erases jsonc be s) as R.
  rewrite E in R. unfold cw in W. rewrite R in W. destruct W as [W _]. apply W. reflexivity.
Qed.

(** ** The length of the text written *)
Lemma esc1_length c : (length (esc1 c) <= 6)%nat.
Proof.
  unfold esc1. repeat match goal with |- context [if ?b then _ else _] => destruct b
    | |- context [match ?x with _ => _ end] => destruct x end; cbn; lia.
Qed.
Lemma escape_length s : (length (escape_string s) <= 6 * length s)%nat.
Proof.
  rewrite escape_string_spec. induction s as [|c s IH]; cbn [map concat length]; [lia|].
  rewrite app_length. pose proof (esc1_length c). lia.
Qed.
Lemma asz_cons v l : asz (v :: l) = (vsize v + asz l)%nat.
Proof. reflexivity. Qed.
Lemma vsize_arr t l : vsize (VArr t (Some l)) = S (asz l).
Proof. reflexivity. Qed.
Lemma vsize_obj t l : vsize (VObj t (Some l)) = S (osz l).
Proof. reflexivity. Qed.
Lemma vsize_pos v : (1 <= vsize v)%nat.
Proof. destruct v as [? ?|? [?|]|? [?|]]; cbn; lia. Qed.
Lemma comma_length {A} (r : list A) : (length (match r with [] => [] | _ => [44%N] end) <= 1)%nat.
Proof. destruct r; cbn; lia. Qed.
Ltac lens := repeat progress (cbn [app length]; rewrite ?app_length).
Ltac binds H :=
  repeat match type of H with
  | bind _ _ = Ok _ => apply bind_ok in H; let x := fresh "x" in let Hx := fresh "Hx" in
      destruct H as [x [Hx H]]
  end.
Lemma dump_length v : forall s, dump v = Ok s -> (length s + 1 <= 6 * vsize v)%nat.
Proof.
  induction v using value_ind'; intros out Hd; cbn [dump] in Hd.
  - destruct t; try discriminate; injection Hd as <-; cbn [vsize];
      [change (length null_string) with 4%nat; lia|lia| |lia].
    cbn [app length]. rewrite app_length. cbn [length]. pose proof (escape_length s). lia.
  - destruct t; try discriminate; try (injection Hd as <-; cbn; lia).
  - destruct t; try discriminate; try (injection Hd as <-; cbn; lia).
    unfold dump_array_with in Hd. binds Hd. injection Hd as <-.
    rewrite vsize_arr. cbn [app length]. rewrite !app_length. cbn [length].
    assert (G : (length x <= 6 * asz l)%nat); [|lia].
    clear -H Hx. revert x Hx. induction H as [|v l Hv _ IH]; intros x Hx; cbn [dump_elems] in Hx.
    + injection Hx as <-. cbn. lia.
    + binds Hx. injection Hx as <-. rewrite asz_cons, !app_length.
      pose proof (comma_length l). specialize (Hv _ Hx0). specialize (IH _ Hx1). lia.
  - destruct t; try discriminate; try (injection Hd as <-; cbn; lia).
  - destruct t; try discriminate; try (injection Hd as <-; cbn; lia).
    unfold dump_object_with in Hd. binds Hd. injection Hd as <-.
    rewrite vsize_obj. cbn [app length]. rewrite !app_length. cbn [length].
    assert (G : (length x <= 6 * osz m)%nat); [|lia].
    clear -H Hx. revert x Hx. induction H as [|[k v] l Hv _ IH]; intros x Hx; cbn [dump_members] in Hx.
    + injection Hx as <-. cbn. lia.
    + binds Hx. injection Hx as <-. rewrite osz_cons. lens.
      pose proof (comma_length l). cbn [snd] in Hv; specialize (Hv _ Hx0). specialize (IH _ Hx1).
      pose proof (escape_length k). lia.
Qed.

Lemma spaces_length n : N.of_nat (length (spaces n)) <= n.
Proof.
  unfold spaces. rewrite repeat_length. rewrite N2Nat.id. apply N.mod_le. discriminate.
Qed.
Lemma vdepth_arr t l : vdepth (VArr t (Some l)) = S (list_max (map vdepth l)).
Proof. reflexivity. Qed.
Lemma vdepth_obj t l : vdepth (VObj t (Some l)) = S (list_max (map (fun '(_, x) => vdepth x) l)).
Proof. reflexivity. Qed.
Lemma list_max_cons a l : list_max (a :: l) = Nat.max a (list_max l).
Proof. reflexivity. Qed.
Lemma format_length w v : forall t s K, format_to w t v = Ok s -> w * (t + N.of_nat (vdepth v)) <= K ->
  N.of_nat (length s) + K + 2 <= (8 + 2 * K) * N.of_nat (vsize v).
Proof.
  assert (D : forall v s K, dump v = Ok s -> N.of_nat (length s) + K + 2 <= (8 + 2 * K) * N.of_nat (vsize v)).
  { intros u s K Hd. pose proof (dump_length u s Hd) as H. pose proof (vsize_pos u). nia. }
  induction v using value_ind'; intros n out K Hf HK; cbn [format_to] in Hf.
  - destruct t; try discriminate; exact (D _ _ _ Hf).
  - destruct t; try discriminate; exact (D _ _ _ Hf).
  - destruct t; try discriminate; try exact (D _ _ _ Hf).
    unfold format_array_with in Hf. binds Hf. injection Hf as <-.
    rewrite vsize_arr. cbn [app length]. rewrite !app_length. cbn [length].
    rewrite vdepth_arr in HK. pose proof (spaces_length (w * n)) as S1.
    assert (G : N.of_nat (length x) <= (8 + 2 * K) * N.of_nat (asz l)); [|nia].
    assert (HK' : w * (n + 1 + N.of_nat (list_max (map vdepth l))) <= K) by nia.
    clear -H Hx HK'. revert x Hx HK'. induction H as [|v l Hv _ IH]; intros x Hx HK; cbn [format_elems] in Hx.
    + injection Hx as <-. cbn. lia.
    + binds Hx. injection Hx as <-. rewrite asz_cons. lens.
      cbn [map] in HK. rewrite list_max_cons in HK.
      pose proof (comma_length l). pose proof (spaces_length (w * (n + 1))) as S2.
      specialize (Hv _ _ K Hx0). specialize (IH _ Hx1).
      assert (w * (n + 1) <= K) by nia.
      assert (w * (n + 1 + N.of_nat (vdepth v)) <= K) by nia.
      assert (w * (n + 1 + N.of_nat (list_max (map vdepth l))) <= K) by nia.
      specialize (Hv ltac:(assumption)). specialize (IH ltac:(assumption)). lia.
  - destruct t; try discriminate; exact (D _ _ _ Hf).
  - destruct t; try discriminate; try exact (D _ _ _ Hf).
    unfold format_object_with in Hf. binds Hf. injection Hf as <-.
    rewrite vsize_obj. cbn [app length]. rewrite !app_length. cbn [length].
    rewrite vdepth_obj in HK. pose proof (spaces_length (w * n)) as S1.
    assert (G : N.of_nat (length x) <= (8 + 2 * K) * N.of_nat (osz m)); [|nia].
    assert (HK' : w * (n + 1 + N.of_nat (list_max (map (fun '(_, x) => vdepth x) m))) <= K) by nia.
    clear -H Hx HK'. revert x Hx HK'. induction H as [|[k v] l Hv _ IH]; intros x Hx HK; cbn [format_members] in Hx.
    + injection Hx as <-. cbn. lia.
    + binds Hx. injection Hx as <-. rewrite osz_cons. lens.
      cbn [map] in HK. rewrite list_max_cons in HK.
      pose proof (comma_length l). pose proof (spaces_length (w * (n + 1))) as S2.
      cbn [snd] in Hv. specialize (Hv _ _ K Hx0). specialize (IH _ Hx1).
      pose proof (escape_length k).
      assert (w * (n + 1) <= K) by nia.
      assert (w * (n + 1 + N.of_nat (vdepth v)) <= K) by nia.
      assert (w * (n + 1 + N.of_nat (list_max (map (fun '(_, x) => vdepth x) l))) <= K) by nia.
      specialize (Hv ltac:(assumption)). specialize (IH ltac:(assumption)). nia.
Qed.
Lemma dumps_length indent v s : dumps indent v = Ok s ->
  N.of_nat (length s) <=
    (8 + 2 * match indent with Some w => w * N.of_nat (vdepth v) | None => 0 end) * N.of_nat (vsize v).
Proof.
  destruct indent as [w|]; cbn [dumps]; intros H.
  - pose proof (format_length w v 0 s (w * N.of_nat (vdepth v)) H). lia.
  - pose proof (dump_length v s H). lia.
Qed.
