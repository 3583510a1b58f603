(** * Proofs about enum reflection. *)
From Verif Require Import Base Value Containers Num Enum Conv Spec SpecConv BaseProofs NumProofs.

Lemma name_is_valid_spec n : name_is_valid n = true <-> ascii_identifier n.
Proof.
  unfold ascii_identifier, letter, digit. destruct n as [|c r]; cbn [name_is_valid].
  - split; [discriminate|]. intros (? & ? & ? & _). discriminate.
  - rewrite andb_true_iff, forallb_forall. unfold is_alnum_, is_alpha_. split.
    + intros [H1 H2]. exists c, r. splits; auto; [lia|].
      apply Forall_forall. intros x Hx. apply H2 in Hx. lia.
    + intros (c' & r' & [= <- <-] & H1 & H2). rewrite Forall_forall in H2. split; [lia|].
      intros x Hx. apply H2 in Hx. lia.
Qed.
Lemma lower_spec a b : lower a = lower b <-> same_letter a b.
Proof. unfold lower, same_letter. destruct ((65 <=? a) && (a <=? 90)) eqn:E, ((65 <=? b) && (b <=? 90)) eqn:E'; lia. Qed.
Lemma iequals_spec a : forall b, iequals a b = true <-> same_name a b.
Proof.
  unfold iequals, same_name. intros b. destruct (Nat.eqb (length a) (length b)) eqn:E.
  - apply Nat.eqb_eq in E. revert b E. induction a as [|x a IH]; intros [|y b] E; cbn in *; try discriminate.
    + split; auto.
    + destruct (lower x =? lower y) eqn:El.
      * rewrite IH by lia. apply N.eqb_eq, lower_spec in El. split; intros H; [constructor; auto|now inversion H].
      * split; [discriminate|]. inversion 1; subst. apply N.eqb_neq in El. rewrite lower_spec in El. tauto.
  - split; [discriminate|]. intros H. apply Nat.eqb_neq in E. exfalso. apply E.
    clear E. induction H; cbn; auto.
Qed.
Lemma same_name_refl n : same_name n n.
Proof. induction n; constructor; auto. now left. Qed.
Lemma same_name_sym a b : same_name a b -> same_name b a.
Proof. induction 1; constructor; auto. unfold same_letter in *. lia. Qed.
Lemma same_name_trans a b c : same_name a b -> same_name b c -> same_name a c.
Proof.
  intros H. revert c. unfold same_name. induction H as [|x y l l' H1 H2 IH]; intros c Hc; inversion Hc as [|? z ? l'' H3 H4]; subst; constructor.
  - rewrite <- lower_spec in *. congruence.
  - now apply IH.
Qed.

(** ** Names out of the compiler's text *)
Lemma bytes_index_none c s : ~ In c s -> bytes_index c s = None.
Proof.
  induction s as [|x s IH]; cbn; auto. intros H. destruct (x =? c) eqn:E; [apply N.eqb_eq in E; tauto|].
  rewrite IH; tauto.
Qed.
Lemma bytes_index_at c a b : ~ In c a -> bytes_index c (a ++ c :: b) = Some (length a).
Proof.
  induction a as [|x a IH]; cbn; intros H; [now rewrite N.eqb_refl|].
  destruct (x =? c) eqn:E; [apply N.eqb_eq in E; tauto|]. now rewrite IH by tauto.
Qed.
Lemma last_index_none c s : ~ In c s -> bytes_last_index c s = None.
Proof. intros H. unfold bytes_last_index. rewrite bytes_index_none; auto. now rewrite <- in_rev. Qed.
Lemma last_index_at c a b : ~ In c b -> bytes_last_index c (a ++ c :: b) = Some (length a).
Proof.
  intros H. unfold bytes_last_index. rewrite rev_app_distr. cbn [rev]. rewrite <- app_assoc. cbn [app].
  rewrite bytes_index_at by now rewrite <- in_rev. f_equal. rewrite app_length, rev_length. cbn [length]. lia.
Qed.
Lemma after_colon_at a b : ~ In 58 b -> after_colon (a ++ 58 :: b) = b.
Proof.
  intros H. unfold after_colon. rewrite last_index_at by auto.
  rewrite skipn_app, skipn_all2 by lia. replace (length a + 1 - length a)%nat with 1%nat by lia. reflexivity.
Qed.
Lemma after_colon_none b : ~ In 58 b -> after_colon b = b.
Proof. intros H. unfold after_colon. now rewrite last_index_none. Qed.
(** the text after the last colon, in general *)
Lemma after_colon_suffix a b : ~ In 58 b -> exists a', after_colon (a ++ b) = a' ++ b.
Proof.
  intros H. unfold after_colon, bytes_last_index.
  destruct (in_dec N.eq_dec 58 a) as [Hi|Hi].
  - apply in_rev in Hi. apply in_split in Hi as (x & y & Hxy).
    assert (Hs : exists a1 a2, a = a1 ++ 58 :: a2 /\ ~ In 58 a2).
    { clear - Hxy. assert (In 58 a) by (apply in_rev; rewrite Hxy; apply in_elt). clear Hxy x y.
      induction a as [|z a IH]; [easy|]. destruct (in_dec N.eq_dec 58 a) as [Hi|Hi].
      - destruct (IH Hi) as (a1 & a2 & -> & Hn). exists (z :: a1), a2. auto.
      - destruct H as [->|H]; [|tauto]. exists [], a. auto. }
    destruct Hs as (a1 & a2 & -> & Hn). exists a2.
    rewrite <- app_assoc. cbn [app].
    pose proof (last_index_at 58 a1 (a2 ++ b)) as L. unfold bytes_last_index in L. rewrite L by (rewrite in_app_iff; tauto).
    rewrite skipn_app, skipn_all2 by lia. replace (length a1 + 1 - length a1)%nat with 1%nat by lia. reflexivity.
  - exists a. rewrite bytes_index_none; auto. rewrite <- in_rev, in_app_iff. tauto.
Qed.
Lemma starts_with_app p r : starts_with p (p ++ r) = true.
Proof. induction p as [|c p IH]; auto. cbn. now rewrite N.eqb_refl. Qed.
Lemma cut_mid a b c : cut (a ++ b ++ c) (length a) (length a + length b) = b.
Proof.
  unfold cut. destruct (Nat.ltb_spec (length a + length b) (length a)); [lia|].
  rewrite skipn_app, skipn_all, Nat.sub_diag. cbn [app skipn].
  replace (length a + length b - length a)%nat with (length b + 0)%nat by lia. rewrite firstn_app_2. cbn. now rewrite app_nil_r.
Qed.
(** a text without an equality sign does not contain the marker *)
Lemma find_marker t : forall x y r, ~ In 61 t -> x <> 61 -> y <> 61 ->
  find_str (of_string "V = ") (t ++ x :: y :: r) = option_map (Nat.add (length t)) (find_str (of_string "V = ") (x :: y :: r)).
Proof.
  induction t as [|a t IH]; intros x y r Ht Hx Hy; cbn [app length].
  - destruct (find_str _ _); reflexivity.
  - assert (E : starts_with (of_string "V = ") (a :: t ++ x :: y :: r) = false).
    { cbn in Ht. destruct t as [|b [|c t]]; cbn -[N.eqb] in *.
      - destruct (86 =? a), (32 =? x); cbn [andb]; auto. destruct (N.eqb_spec 61 y); [congruence|]. reflexivity.
      - destruct (86 =? a), (32 =? b); cbn [andb]; auto. destruct (N.eqb_spec 61 x); [congruence|]. reflexivity.
      - destruct (86 =? a), (32 =? b); cbn [andb]; auto. destruct (N.eqb_spec 61 c); [exfalso; apply Ht; auto|]. reflexivity. }
    change (find_str (of_string "V = ") (a :: t ++ x :: y :: r)) with
      (if starts_with (of_string "V = ") (a :: t ++ x :: y :: r) then Some 0%nat
       else match find_str (of_string "V = ") (t ++ x :: y :: r) with Some n => Some (S n) | None => None end).
    rewrite E, IH by (cbn in *; tauto). destruct (find_str _ (x :: y :: r)); reflexivity.
Qed.
Lemma find_marker_skip pre x : ~ In 86 pre ->
  find_str (of_string "V = ") (pre ++ x) = option_map (Nat.add (length pre)) (find_str (of_string "V = ") x).
Proof.
  induction pre as [|a pre IH]; intros H; cbn [app length].
  - destruct (find_str _ _); reflexivity.
  - change (find_str (of_string "V = ") (a :: pre ++ x)) with
      (if (86 =? a) && starts_with (of_string " = ") (pre ++ x) then Some 0%nat
       else match find_str (of_string "V = ") (pre ++ x) with Some n => Some (S n) | None => None end).
    destruct (N.eqb_spec 86 a) as [Ea|_]; [exfalso; apply H; now left|]. cbn [andb]. rewrite IH by (cbn in H; tauto).
    destruct (find_str _ x); reflexivity.
Qed.
(** decided on literals *)
Lemma not_in_dec c s : forallb (fun x => negb (x =? c)) s = true -> ~ In c s.
Proof. rewrite forallb_forall. intros H Hi. apply H in Hi. rewrite N.eqb_refl in Hi. discriminate. Qed.
Lemma to_string_Z_chars z : Forall (fun c => digit c \/ c = 45) (to_string_Z z).
Proof.
  unfold to_string_Z. destruct (z <? 0)%Z.
  - constructor; [now right|]. eapply Forall_impl; [|exact (proj1 (to_string_N_spec _))]. now left.
  - eapply Forall_impl; [|exact (proj1 (to_string_N_spec _))]. now left.
Qed.
Lemma identifier_chars n c : ascii_identifier n -> In c n -> letter c \/ c = 95 \/ digit c.
Proof.
  intros (x & r & -> & Hx & Hr) [->|H]; [tauto|]. rewrite Forall_forall in Hr. auto.
Qed.
Section Text.
  Context (e : enum) (Hp : printable e) (Hid : forall n z, enumerator e n z -> ascii_identifier n).

  Lemma first_name_in z n : first_name z (e_decl e) = Some n -> enumerator e n z.
  Proof.
    unfold enumerator. induction (e_decl e) as [|[m y] d IH]; cbn; [discriminate|].
    destruct (z =? y)%Z eqn:E; [|auto]. intros [= ->]. apply Z.eqb_eq in E. subst. now left.
  Qed.
  Lemma value_text_plain z : ~ In 59 (value_text e z).
  Proof.
    destruct Hp as (H1 & _ & H3 & _). unfold value_text. destruct (first_name z (e_decl e)) as [n|] eqn:E.
    - rewrite in_app_iff. intros [H|H]; [tauto|]. apply (identifier_chars n) in H; [|eapply Hid; eapply first_name_in; eauto].
      unfold letter, digit in H. lia.
    - pose proof (to_string_Z_chars z) as Hc. rewrite Forall_forall in Hc.
      change (~ In 59 ([40] ++ e_type e ++ [41] ++ to_string_Z z)).
      rewrite !in_app_iff. intros [H|[H|[H|H]]]; [cbn in H; lia|tauto|cbn in H; lia|]. apply Hc in H. unfold digit in H. lia.
  Qed.
  Lemma pretty_gcc z : e_cc e = GCC -> e_name e z = after_colon (value_text e z).
  Proof.
    intros Hc. unfold e_name, instance_text. rewrite Hc. destruct Hp as (_ & H2 & _).
    set (pre := of_string "constexpr std::string_view json::_reflection::name() [with E = ").
    set (v := value_text e z).
    pose proof (value_text_plain z : ~ In 59 v) as Hv.
    unfold name_of_pretty.
    assert (Hf : find_str (of_string "V = ") (pre ++ e_type e ++ of_string "; E V = " ++ v ++ of_string "; std::string_view = std::basic_string_view<char>]")
                 = Some (length (pre ++ e_type e ++ of_string "; E "))).
    { rewrite find_marker_skip by (apply not_in_dec; reflexivity).
      change (of_string "; E V = " ++ v ++ of_string "; std::string_view = std::basic_string_view<char>]")
        with (59 :: 32 :: [69; 32; 86; 32; 61; 32] ++ v ++ of_string "; std::string_view = std::basic_string_view<char>]").
      rewrite find_marker by (auto; discriminate). cbn -[pre Nat.add]. f_equal. rewrite !app_length. reflexivity. }
    rewrite Hf.
    assert (Hl : bytes_last_index 93 (pre ++ e_type e ++ of_string "; E V = " ++ v ++ of_string "; std::string_view = std::basic_string_view<char>]")
                 = Some (length (pre ++ e_type e ++ of_string "; E V = " ++ v ++ of_string "; std::string_view = std::basic_string_view<char>"))).
    { replace (pre ++ e_type e ++ of_string "; E V = " ++ v ++ of_string "; std::string_view = std::basic_string_view<char>]")
        with ((pre ++ e_type e ++ of_string "; E V = " ++ v ++ of_string "; std::string_view = std::basic_string_view<char>") ++ 93 :: [])
        by (rewrite <- !app_assoc; reflexivity).
      now apply last_index_at. }
    rewrite Hl.
    set (w := v ++ of_string "; std::string_view = std::basic_string_view<char>").
    replace (cut _ _ _) with w.
    2:{ symmetry. replace (pre ++ e_type e ++ of_string "; E V = " ++ v ++ of_string "; std::string_view = std::basic_string_view<char>]")
        with ((pre ++ e_type e ++ of_string "; E V = ") ++ w ++ of_string "]") by (subst w; rewrite <- !app_assoc; reflexivity).
      replace (length (pre ++ e_type e ++ of_string "; E ") + 4)%nat with (length (pre ++ e_type e ++ of_string "; E V = ")) by (rewrite !app_length; cbn [length of_string]; lia).
      replace (length (pre ++ e_type e ++ of_string "; E V = " ++ w)) with (length (pre ++ e_type e ++ of_string "; E V = ") + length w)%nat
        by (rewrite !app_length; lia).
      apply cut_mid. }
    subst w. change (of_string "; std::string_view = std::basic_string_view<char>") with (59 :: of_string " std::string_view = std::basic_string_view<char>").
    rewrite bytes_index_at by auto. cbv zeta.
    replace (length v) with (length v + 0)%nat by lia. rewrite firstn_app_2. cbn [firstn]. now rewrite app_nil_r.
  Qed.
  Lemma pretty_clang z : e_cc e = Clang -> e_name e z = after_colon (value_text e z).
  Proof.
    intros Hc. unfold e_name, instance_text. rewrite Hc. destruct Hp as (_ & H2 & _).
    set (pre := of_string "std::string_view json::_reflection::name() [E = ").
    set (v := value_text e z).
    pose proof (value_text_plain z : ~ In 59 v) as Hv.
    unfold name_of_pretty.
    assert (Hf : find_str (of_string "V = ") (pre ++ e_type e ++ of_string ", V = " ++ v ++ of_string "]")
                 = Some (length (pre ++ e_type e ++ of_string ", "))).
    { rewrite find_marker_skip by (apply not_in_dec; reflexivity).
      change (of_string ", V = " ++ v ++ of_string "]") with (44 :: 32 :: [86; 32; 61; 32] ++ v ++ of_string "]").
      rewrite find_marker by (auto; discriminate). cbn -[pre Nat.add]. f_equal. rewrite !app_length. reflexivity. }
    rewrite Hf.
    replace (pre ++ e_type e ++ of_string ", V = " ++ v ++ of_string "]") with ((pre ++ e_type e ++ of_string ", V = ") ++ v ++ 93 :: [])
      by (rewrite <- !app_assoc; reflexivity).
    assert (Hl : bytes_last_index 93 ((pre ++ e_type e ++ of_string ", V = ") ++ v ++ 93 :: [])
                 = Some (length (pre ++ e_type e ++ of_string ", V = ") + length v)%nat).
    { rewrite app_assoc, last_index_at by easy. now rewrite app_length. }
    rewrite Hl.
    replace (length (pre ++ e_type e ++ of_string ", ") + 4)%nat with (length (pre ++ e_type e ++ of_string ", V = ")) by (rewrite !app_length; cbn [length of_string]; lia).
    rewrite cut_mid. cbv zeta. now rewrite bytes_index_none.
  Qed.
  Lemma funcsig_msvc z : e_cc e = MSVC -> exists a, e_name e z = after_colon (a ++ value_text e z).
  Proof.
    intros Hc. unfold e_name, instance_text. rewrite Hc.
    set (v := value_text e z). unfold name_of_funcsig.
    set (p1 := of_string "class std::basic_string_view<char").
    set (p2 := of_string "struct std::char_traits<char> > __cdecl json::_reflection::name<enum ").
    exists (p2 ++ e_type e ++ of_string ",").
    change (of_string "class std::basic_string_view<char,struct std::char_traits<char> > __cdecl json::_reflection::name<enum ") with (p1 ++ 44 :: p2).
    rewrite <- app_assoc. cbn [app]. rewrite bytes_index_at by (apply not_in_dec; reflexivity).
    set (w := p2 ++ e_type e ++ of_string "," ++ v).
    replace (p1 ++ 44 :: p2 ++ e_type e ++ of_string "," ++ v ++ of_string ">(void) noexcept") with ((p1 ++ [44]) ++ w ++ 62 :: of_string "(void) noexcept")
      by (subst w; rewrite <- !app_assoc; reflexivity).
    replace (length p1 + 1)%nat with (length (p1 ++ [44%N])) by (rewrite app_length; reflexivity).
    rewrite skipn_app, skipn_all, Nat.sub_diag. cbn [skipn app].
    replace (skip_spaces _) with 0%nat by reflexivity. rewrite Nat.add_0_r.
    assert (Hl : bytes_last_index 62 ((p1 ++ [44]) ++ w ++ 62 :: of_string "(void) noexcept") = Some (length (p1 ++ [44%N]) + length w)%nat).
    { rewrite app_assoc, last_index_at by (apply not_in_dec; reflexivity). now rewrite app_length. }
    rewrite Hl, cut_mid. subst w. now rewrite <- !app_assoc.
  Qed.
  Lemma e_name_some n z : first_name z (e_decl e) = Some n -> e_name e z = n.
  Proof.
    intros Hn. pose proof (Hid _ _ (first_name_in _ _ Hn)) as Hi.
    assert (Hc : ~ In 58 n). { intros H. apply (identifier_chars n) in H; auto. unfold letter, digit in H. lia. }
    assert (Hs : forall a s, e_scope e = s ++ of_string "::" -> after_colon (a ++ value_text e z) = n).
    { intros a s Es. unfold value_text. rewrite Hn, Es.
      replace (a ++ (s ++ of_string "::") ++ n) with ((a ++ s ++ [58]) ++ 58 :: n) by (rewrite <- !app_assoc; reflexivity).
      now apply after_colon_at. }
    destruct Hp as (_ & _ & _ & [[H0 Hm]|[s Es]]).
    - assert (Hv : value_text e z = n) by (unfold value_text; rewrite Hn, H0; reflexivity).
      destruct (e_cc e) eqn:Ec; [rewrite pretty_gcc|rewrite pretty_clang|congruence]; auto; rewrite Hv; now apply after_colon_none.
    - destruct (e_cc e) eqn:Ec; [rewrite pretty_gcc by auto; exact (Hs [] s Es)|rewrite pretty_clang by auto; exact (Hs [] s Es)|].
      destruct (funcsig_msvc z Ec) as [a ->]. eauto.
  Qed.
  Lemma cast_invalid a z : first_name z (e_decl e) = None -> name_is_valid (after_colon (a ++ value_text e z)) = false.
  Proof.
    intros Hn. unfold value_text. rewrite Hn.
    replace (a ++ of_string "(" ++ e_type e ++ of_string ")" ++ to_string_Z z) with ((a ++ of_string "(" ++ e_type e) ++ 41 :: to_string_Z z)
      by (rewrite <- !app_assoc; reflexivity).
    destruct (after_colon_suffix (a ++ of_string "(" ++ e_type e) (41 :: to_string_Z z)) as [a' ->].
    { intros [H|H]; [discriminate|]. pose proof (to_string_Z_chars z) as Hc. rewrite Forall_forall in Hc. apply Hc in H. unfold digit in H. lia. }
    destruct (name_is_valid _) eqn:Ev; auto. apply name_is_valid_spec in Ev.
    exfalso. assert (H : In 41 (a' ++ 41 :: to_string_Z z)) by apply in_elt. apply (identifier_chars _ _ Ev) in H. unfold letter, digit in H. lia.
  Qed.
  Lemma e_name_none z : first_name z (e_decl e) = None -> name_is_valid (e_name e z) = false.
  Proof.
    intros Hn. destruct (e_cc e) eqn:Ec; [rewrite pretty_gcc by auto; exact (cast_invalid [] z Hn)|rewrite pretty_clang by auto; exact (cast_invalid [] z Hn)|].
    destruct (funcsig_msvc z Ec) as [a ->]. now apply cast_invalid.
  Qed.
End Text.

(** ** Conversions of integers *)
Lemma wrap_fits sg w z : 1 <= w -> fits sg w (wrap sg w z) /\ exists k, (wrap sg w z = z + k * 2 ^ Z.of_N w)%Z.
Proof.
  intros Hw. unfold wrap, fits. assert (Hm : (0 < 2 ^ Z.of_N w)%Z) by (apply Z.pow_pos_nonneg; lia).
  assert (Hh : (2 ^ Z.of_N w = 2 * 2 ^ (Z.of_N w - 1))%Z) by (rewrite <- Z.pow_succ_r by lia; f_equal; lia).
  destruct sg.
  - set (h := (2 ^ (Z.of_N w - 1))%Z) in *. pose proof (Z.mod_pos_bound (z + h) _ Hm). split; [lia|].
    exists (- ((z + h) / 2 ^ Z.of_N w))%Z. pose proof (Z.div_mod (z + h) (2 ^ Z.of_N w)). lia.
  - pose proof (Z.mod_pos_bound z _ Hm). split; [lia|].
    exists (- (z / 2 ^ Z.of_N w))%Z. pose proof (Z.div_mod z (2 ^ Z.of_N w)). lia.
Qed.
Lemma fits_unique sg w x y k : 1 <= w -> fits sg w x -> fits sg w y -> (x = y + k * 2 ^ Z.of_N w)%Z -> x = y.
Proof.
  intros Hw. unfold fits. assert (Hm : (0 < 2 ^ Z.of_N w)%Z) by (apply Z.pow_pos_nonneg; lia).
  assert (Hh : (2 ^ Z.of_N w = 2 * 2 ^ (Z.of_N w - 1))%Z) by (rewrite <- Z.pow_succ_r by lia; f_equal; lia).
  set (m := (2 ^ Z.of_N w)%Z) in *. set (h := (2 ^ (Z.of_N w - 1))%Z) in *. clearbody m h.
  destruct sg; intros H1 H2 H3; (assert (k = 0)%Z by nia); lia.
Qed.
Lemma wrap_same sg w z : 1 <= w -> fits sg w z -> wrap sg w z = z.
Proof. intros Hw H. destruct (wrap_fits sg w z Hw) as [H1 [k H2]]. eapply fits_unique; eauto. Qed.
Lemma e_cast_converts e i : (forall sg w, e_underlying e = Some (sg, w) -> 1 <= w) -> forall z, converts e i z <-> z = e_cast e i.
Proof.
  intros Hw z. unfold converts, e_cast. destruct (e_underlying e) as [[sg w]|].
  - specialize (Hw sg w eq_refl). destruct (wrap_fits sg w i Hw) as [H1 [k H2]]. split.
    + intros [H3 [k' H4]]. eapply fits_unique with (k := (k' - k)%Z); eauto. lia.
    + intros ->. eauto.
  - destruct (Z.eqb_spec i 0); lia.
Qed.
Lemma e_cast_same e z : (forall sg w, e_underlying e = Some (sg, w) -> 1 <= w) -> representable e z -> e_cast e z = z.
Proof.
  intros Hw. unfold representable, e_cast. destruct (e_underlying e) as [[sg w]|].
  - intros H. apply wrap_same; eauto.
  - intros [-> | ->]; reflexivity.
Qed.

Lemma first_name_some z d : forall n a b, d = a ++ (n, z) :: b -> (forall n', ~ In (n', z) a) -> first_name z d = Some n.
Proof.
  intros n a b -> Ha. induction a as [|[n' z'] a IH]; cbn.
  - now rewrite Z.eqb_refl.
  - destruct (z =? z')%Z eqn:E; [apply Z.eqb_eq in E; subst; exfalso; eapply Ha; now left|].
    apply IH. intros n'' H. eapply Ha. right. eauto.
Qed.
Lemma first_name_none z d : (forall n, ~ In (n, z) d) -> first_name z d = None.
Proof.
  induction d as [|[n z'] d IH]; cbn; auto. intros H. destruct (z =? z')%Z eqn:E.
  - apply Z.eqb_eq in E. subst. exfalso. eapply H. now left.
  - apply IH. intros n' H'. eapply H. right; eauto.
Qed.
Lemma main_name_ex e z : (exists n, enumerator e n z) -> exists n, main_name e n z.
Proof.
  unfold enumerator, main_name. induction (e_decl e) as [|[n' z'] d IH]; intros [n H]; [easy|].
  destruct (Z.eq_dec z' z) as [->|Hz].
  - exists n', [], d. split; auto.
  - destruct H as [[= -> ->]|H]; [congruence|].
    destruct IH as (m & a & b & -> & Hn); [eauto|].
    exists m, ((n', z') :: a), b. split; auto. intros n'' X. destruct X as [X|X]; [injection X as E1 E2; congruence|]. eapply Hn; eauto.
Qed.
Lemma main_name_enumerator e n z : main_name e n z -> enumerator e n z.
Proof. intros (a & b & E & _). unfold enumerator. rewrite E. apply in_or_app. right. now left. Qed.
Lemma enumerator_dec e z : (exists n, enumerator e n z) \/ (forall n, ~ enumerator e n z).
Proof.
  unfold enumerator. induction (e_decl e) as [|[n' z'] d [[n H]|H]].
  - right. auto.
  - left. exists n. now right.
  - destruct (Z.eq_dec z' z) as [->|]; [left; exists n'; now left|right].
    intros m X. destruct X as [X|X]; [injection X as E1 E2; congruence|]. eapply H; eauto.
Qed.

Section Ordinary.
  Context (e : enum) (Ho : ordinary e).

  Lemma name_at_main n i : main_name e n (e_cast e i) -> name_at e i = n.
  Proof.
    intros H. unfold name_at. pose proof (or_names e Ho _ _ (main_name_enumerator _ _ _ H)) as Hid.
    destruct H as (a & b & E & Hn).
    rewrite (e_name_some e (or_text e Ho) (or_names e Ho) n) by exact (first_name_some _ _ n a b E Hn).
    apply name_is_valid_spec in Hid. now rewrite Hid.
  Qed.
  Lemma name_at_none i : (forall n, ~ enumerator e n (e_cast e i)) -> name_at e i = [].
  Proof.
    intros H. unfold name_at. rewrite (e_name_none e (or_text e Ho) (or_names e Ho)); [reflexivity|].
    apply first_name_none. exact H.
  Qed.
  Lemma identifier_ne n : ascii_identifier n -> n <> [].
  Proof. intros (c & r & -> & _). discriminate. Qed.
  Lemma name_at_cases i : (exists n, main_name e n (e_cast e i) /\ name_at e i = n /\ n <> []) \/
    ((forall n, ~ enumerator e n (e_cast e i)) /\ name_at e i = []).
  Proof.
    destruct (enumerator_dec e (e_cast e i)) as [H|H].
    - left. apply main_name_ex in H as [n H]. exists n. splits; auto; [now apply name_at_main|].
      apply identifier_ne. eapply or_names; eauto. eapply main_name_enumerator; eauto.
    - right. split; auto. now apply name_at_none.
  Qed.
  (** [z] matches the text *)
  Definition matches (s : bytes) (z : Z) : Prop := exists n, main_name e n z /\ same_name n s.
  Lemma test_spec s i : negb (is_nil (name_at e i)) && iequals (name_at e i) s = true <-> matches s (e_cast e i).
  Proof.
    destruct (name_at_cases i) as [(n & Hm & -> & Hne)|[Hn ->]].
    - rewrite andb_true_iff, iequals_spec. unfold matches. split.
      + intros [_ H]. eauto.
      + intros (n' & Hm' & H). rewrite <- (name_at_main _ _ Hm'), (name_at_main _ _ Hm) in H. split; auto. now destruct n.
    - split; [discriminate|]. intros (n' & Hm' & _). exfalso. eapply Hn. eapply main_name_enumerator; eauto.
  Qed.
  Lemma loop_spec s n : forall z0,
    match string_to_enum_loop e s z0 n with
    | Some z => exists i, z = e_cast e i /\ (z0 <= i < z0 + Z.of_nat n)%Z /\ matches s z /\ forall i', (z0 <= i' < i)%Z -> ~ matches s (e_cast e i')
    | None => forall i', (z0 <= i' < z0 + Z.of_nat n)%Z -> ~ matches s (e_cast e i')
    end.
  Proof.
    induction n as [|n IH]; intros z0; cbn [string_to_enum_loop].
    - intros z' H. lia.
    - destruct (_ && _) eqn:E.
      + apply test_spec in E. exists z0. splits; auto; try lia. all: intros; lia.
      + assert (Hz : ~ matches s (e_cast e z0)) by (rewrite <- test_spec; congruence).
        specialize (IH (z0 + 1)%Z). destruct (string_to_enum_loop _ _ _ _).
        * destruct IH as (i & H0 & H1 & H2 & H3). exists i. splits; auto; try lia.
          intros z' Hz'. destruct (Z.eq_dec z' z0) as [->|]; auto. apply H3. lia.
        * intros z' Hz'. destruct (Z.eq_dec z' z0) as [->|]; auto. apply IH. lia.
  Qed.
  Lemma string_to_enum_spec s :
    match string_to_enum e s with
    | Some z => reflected e z /\ matches s z
    | None => forall z, reflected e z -> ~ matches s z
    end.
  Proof.
    unfold string_to_enum, reflected, in_reflection_range. pose proof (loop_spec s (Z.to_nat (e_range e)) (e_lo e)) as H.
    unfold e_range in *. destruct (string_to_enum_loop _ _ _ _).
    - destruct H as (i & -> & H1 & H2 & _). split; auto. exists i. split; [lia|]. apply e_cast_converts; [exact (or_width e Ho)|auto].
    - intros z (i & Hi & Hc). apply e_cast_converts in Hc; [subst|exact (or_width e Ho)]. apply H. lia.
  Qed.
  (** the first match in the order of the range is taken *)
  Lemma string_to_enum_first s z : string_to_enum e s = Some z ->
    exists i, converts e i z /\ in_reflection_range e i /\ forall i' z', in_reflection_range e i' -> (i' < i)%Z -> converts e i' z' -> ~ matches s z'.
  Proof.
    intros E. unfold string_to_enum, in_reflection_range in *. pose proof (loop_spec s (Z.to_nat (e_range e)) (e_lo e)) as H.
    rewrite E in H. unfold e_range in H. destruct H as (i & -> & H1 & H2 & H3). exists i.
    splits; try lia; [now apply e_cast_converts; [exact (or_width e Ho)|]|].
    intros i' z' Hi' Hlt Hc. apply e_cast_converts in Hc; [subst|exact (or_width e Ho)]. apply H3. lia.
  Qed.
  Lemma in_range_int z : in_reflection_range e z -> to_int z = z.
  Proof. intros H. destruct Ho. unfold in_reflection_range in *. apply wrap_same; [lia|]. unfold fits. cbn -[Z.pow] in *. change (2 ^ (Z.of_N 32 - 1))%Z with (2 ^ 31)%Z. lia. Qed.
  Lemma in_range_reflected z : in_reflection_range e z -> representable e z -> reflected e z.
  Proof. intros H1 H2. exists z. split; auto. apply e_cast_converts; [exact (or_width e Ho)|]. symmetry. apply e_cast_same; auto. exact (or_width e Ho). Qed.
  Lemma enum_to_string_main n z : main_name e n z -> in_reflection_range e z -> enum_to_string e z = Ok n.
  Proof.
    intros Hm Hr. unfold enum_to_string. rewrite in_range_int by auto.
    pose proof (or_values e Ho _ _ (main_name_enumerator _ _ _ Hm)) as Hrep.
    pose proof (e_cast_same e z (or_width e Ho) Hrep) as Hcast.
    destruct Ho. unfold in_reflection_range in *. unfold in_int, int_min, int_max.
    change (2 ^ (Z.of_N 32 - 1))%Z with 2147483648%Z. change (2 ^ 31)%Z with 2147483648%Z in *.
    assert (A : ((- (2147483648) <=? z - e_lo e)%Z && (z - e_lo e <=? 2147483648 - 1)%Z) = true) by lia.
    assert (B : ((0 <=? z - e_lo e)%Z && (z - e_lo e <? e_range e)%Z) = true) by (unfold e_range; lia).
    rewrite A, B. cbn [negb].
    rewrite Z.sub_add. rewrite (name_at_main n z); auto. now rewrite Hcast.
  Qed.
  Lemma enum_round_trip n z :
    distinct_enumerators e -> main_name e n z -> in_reflection_range e z ->
    enum_to_string e z = Ok n /\ string_to_enum e n = Some z /\ n <> [].
  Proof.
    intros Hn Hm Hr. pose proof (main_name_enumerator _ _ _ Hm) as He.
    assert (Hre : reflected e z) by (apply in_range_reflected; [auto|eapply or_values; eauto]).
    splits.
    - now apply enum_to_string_main.
    - pose proof (string_to_enum_spec n) as H. destruct (string_to_enum e n) as [z'|].
      + destruct H as (Hr' & (n' & Hm' & Hs)). f_equal. exact (Hn _ _ _ _ Hm' Hm Hr' Hre Hs).
      + exfalso. apply (H z Hre). exists n. split; auto. apply same_name_refl.
    - apply identifier_ne. eapply or_names; eauto.
  Qed.
End Ordinary.

(** as_enum and is_enum on the different kinds of values *)
Lemma is_enum_ok e v : wf v -> exists b, is_enum e v = Ok b.
Proof.
  intros H. unfold is_enum. destruct H; cbn -[try_parse_integer string_to_enum]; destruct (e_underlying e) as [[sg w]|]; cbn -[try_parse_integer string_to_enum]; eauto.
Qed.
Lemma to_enum_total e sg w z : total_enum e -> e_underlying e = Some (sg, w) -> fits sg w z -> to_enum e z = Ok z.
Proof.
  intros Ht Hu Hf. unfold to_enum, total_enum in *. rewrite Hu in Ht. destruct (e_values e) as [[lo hi]|]; auto.
  specialize (Ht z Hf). now replace ((lo <=? z)%Z && (z <=? hi)%Z) with true by lia.
Qed.
Lemma enum_exact e v : total_enum e -> wf v ->
  (is_enum e v = Ok true /\ exists z, as_enum e v = Ok z) \/ (is_enum e v = Ok false /\ as_enum e v = Throw JsonException).
Proof.
  intros Ht Hv. assert (Hu : exists sg w, e_underlying e = Some (sg, w)).
  { unfold total_enum in Ht. destruct (e_underlying e) as [[sg w]|]; [eauto|easy]. }
  destruct Hu as (sg & w & Hu). unfold is_enum, as_enum. rewrite Hu.
  destruct Hv; cbn -[try_parse_integer string_to_enum as_int]; auto.
  - unfold as_int, parse_integer. cbn -[try_parse_integer]. destruct (try_parse_integer sg w s) eqn:E; auto.
    left. split; auto. apply try_parse_spec in E as [_ E]. exists z. cbn [bind]. eapply to_enum_total; eauto.
  - destruct (string_to_enum e s); eauto.
Qed.
