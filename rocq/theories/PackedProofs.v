(** * Proofs about the block-scan backends. *)
From Verif Require Import Base Value Packed Spec.
Ltac Zify.zify_post_hook ::= Z.div_mod_to_equations.

Definition special_b (c : N) : bool := (c <? 32) || (c =? 34) || (c =? 92).
Lemma special_b_spec c : special_b c = true <-> special c.
Proof. unfold special_b, special. rewrite !orb_true_iff, N.ltb_lt, !N.eqb_eq. tauto. Qed.

(** index of the first element satisfying p *)
Fixpoint first_idx {A} (p : A -> bool) (l : list A) : option nat :=
  match l with
  | [] => None
  | x :: r => if p x then Some O else option_map S (first_idx p r)
  end.
Lemma first_idx_none {A} (p : A -> bool) l : first_idx p l = None -> forall x, In x l -> p x = false.
Proof.
  induction l as [|y l IH]; cbn; [tauto|].
  destruct (p y) eqn:E; [discriminate|]. destruct (first_idx p l); [discriminate|].
  intros _ x [<-|Hx]; auto.
Qed.
Lemma first_idx_some {A} (p : A -> bool) l i : first_idx p l = Some i ->
  (i < length l)%nat /\ (forall x, In x (firstn i l) -> p x = false)
  /\ exists x, nth_error l i = Some x /\ p x = true.
Proof.
  revert i; induction l as [|y l IH]; cbn; [discriminate|]. intros i.
  destruct (p y) eqn:E.
  - intros [= <-]. cbn. repeat split; [lia|tauto|eauto].
  - destruct (first_idx p l) as [k|]; [|discriminate]. intros [= <-].
    destruct (IH k eq_refl) as (H1 & H2 & H3). cbn. repeat split; [lia| |exact H3].
    intros x [<-|Hx]; auto.
Qed.
Lemma first_idx_map {A B} (f : A -> B) p l : first_idx p (map f l) = first_idx (fun x => p (f x)) l.
Proof. induction l as [|x l IH]; cbn; [reflexivity|]. rewrite IH. reflexivity. Qed.
Lemma first_idx_ext {A} (p q : A -> bool) l : (forall x, In x l -> p x = q x) -> first_idx p l = first_idx q l.
Proof.
  induction l as [|x l IH]; cbn; intros H; [reflexivity|].
  rewrite (H x), IH; auto.
Qed.

(** ** Words as lists of bytes *)
Lemma le_word_lt bs : Forall is_byte bs -> le_word bs < 256 ^ N.of_nat (length bs).
Proof.
  induction 1 as [|b bs Hb _ IH]; cbn [le_word length]; [reflexivity|].
  rewrite Nat2N.inj_succ, N.pow_succ_r'. unfold is_byte in *. lia.
Qed.

Section Bitop.
  Context (op : N -> N -> N) (f : bool -> bool -> bool).
  Context (Hop : forall a b n, N.testbit (op a b) n = f (N.testbit a n) (N.testbit b n)).
  Context (H0 : f false false = false).
  Lemma testbit_split a A n : a < 256 ->
    N.testbit (a + 256 * A) n = if n <? 8 then N.testbit a n else N.testbit A (n - 8).
  Proof.
    intros Ha. destruct (N.ltb_spec n 8) as [Hn|Hn].
    - assert (E : a = (a + 256 * A) mod 2 ^ 8) by (change (2 ^ 8) with 256; lia).
      rewrite E at 2. rewrite N.mod_pow2_bits_low; auto.
    - assert (E : A = N.shiftr (a + 256 * A) 8) by (rewrite N.shiftr_div_pow2; change (2 ^ 8) with 256; lia).
      rewrite E at 2. rewrite N.shiftr_spec by lia. f_equal. lia.
  Qed.
  Lemma op_byte a b : a < 256 -> b < 256 -> op a b < 256.
  Proof.
    intros Ha Hb.
    assert (E : op a b = (op a b) mod 2 ^ 8).
    { apply N.bits_inj_iff; intros n. destruct (N.lt_ge_cases n 8) as [Hn|Hn].
      - rewrite N.mod_pow2_bits_low; auto.
      - rewrite N.mod_pow2_bits_high by auto. rewrite Hop.
        rewrite <- (N.mod_small a (2 ^ 8)), <- (N.mod_small b (2 ^ 8)) by auto.
        rewrite !N.mod_pow2_bits_high by auto. exact H0. }
    rewrite E. apply N.mod_lt. discriminate.
  Qed.
  Lemma op_split a A b B : a < 256 -> b < 256 ->
    op (a + 256 * A) (b + 256 * B) = op a b + 256 * op A B.
  Proof.
    intros Ha Hb. apply N.bits_inj_iff; intros n.
    rewrite Hop, !testbit_split by (auto using op_byte).
    destruct (n <? 8); rewrite Hop; reflexivity.
  Qed.
  Lemma op_words xs : forall ys, length xs = length ys -> Forall is_byte xs -> Forall is_byte ys ->
    op 0 0 = 0 ->
    op (le_word xs) (le_word ys) = le_word (map2 op xs ys).
  Proof.
    induction xs as [|x xs IH]; intros [|y ys] Hl Hx Hy Hz; cbn in Hl; try discriminate; cbn [le_word map2].
    - exact Hz.
    - inversion_clear Hx; inversion_clear Hy. rewrite op_split by auto. f_equal. f_equal. auto.
  Qed.
End Bitop.

Lemma land_words xs ys : length xs = length ys -> Forall is_byte xs -> Forall is_byte ys ->
  N.land (le_word xs) (le_word ys) = le_word (map2 N.land xs ys).
Proof. intros. apply (op_words N.land andb); auto using N.land_spec. Qed.
Lemma lor_words xs ys : length xs = length ys -> Forall is_byte xs -> Forall is_byte ys ->
  N.lor (le_word xs) (le_word ys) = le_word (map2 N.lor xs ys).
Proof. intros. apply (op_words N.lor orb); auto using N.lor_spec. Qed.
Lemma lxor_words xs ys : length xs = length ys -> Forall is_byte xs -> Forall is_byte ys ->
  N.lxor (le_word xs) (le_word ys) = le_word (map2 N.lxor xs ys).
Proof. intros. apply (op_words N.lxor xorb); auto using N.lxor_spec. Qed.
Lemma land_byte a b : a < 256 -> b < 256 -> N.land a b < 256.
Proof. apply (op_byte N.land andb); auto using N.land_spec. Qed.
Lemma lor_byte a b : a < 256 -> b < 256 -> N.lor a b < 256.
Proof. apply (op_byte N.lor orb); auto using N.lor_spec. Qed.
Lemma lxor_byte a b : a < 256 -> b < 256 -> N.lxor a b < 256.
Proof. apply (op_byte N.lxor xorb); auto using N.lxor_spec. Qed.

Lemma map2_length f a : forall b, length a = length b -> length (map2 f a b) = length a.
Proof. induction a; intros [|]; cbn; intros; try discriminate; auto. Qed.
Lemma map2_bytes f a : (forall x y, x < 256 -> y < 256 -> f x y < 256) -> forall b,
  Forall is_byte a -> Forall is_byte b -> Forall is_byte (map2 f a b).
Proof.
  intros Hf. induction a as [|x a IH]; intros [|y b] Ha Hb; cbn; auto.
  inversion_clear Ha; inversion_clear Hb. constructor; [apply Hf|]; auto.
Qed.
Lemma map2_repeat f a n : map2 f a (repeat n (length a)) = map (fun x => f x n) a.
Proof. induction a; cbn; [reflexivity|]; f_equal; auto. Qed.
Lemma map2_map (f : N -> N -> N) (g h : N -> N) a : map2 f (map g a) (map h a) = map (fun x => f (g x) (h x)) a.
Proof. induction a; cbn; [reflexivity|]; f_equal; auto. Qed.
Lemma repeat_bytes n k : n < 256 -> Forall is_byte (repeat n k).
Proof. intros H; induction k; cbn; constructor; auto. Qed.
Lemma le_word_repeat n k : le_word (repeat n k) = le_word (repeat 1 k) * n.
Proof. induction k as [|k IH]; cbn [repeat le_word]; [lia|]. rewrite IH. lia. Qed.
Lemma le_word_app a b : le_word (a ++ b) = le_word a + 256 ^ N.of_nat (length a) * le_word b.
Proof.
  induction a as [|x a IH]; cbn [app le_word length]; [rewrite N.pow_0_r; lia|].
  rewrite IH, Nat2N.inj_succ, N.pow_succ_r'. lia.
Qed.

(** subtraction of the same byte n from every byte, with borrow b *)
Fixpoint subb (n b : N) (xs : list N) : list N :=
  match xs with
  | [] => []
  | x :: r => ((x + 512 - n - b) mod 256) :: subb n (if x <? n + b then 1 else 0) r
  end.
Lemma subb_length n xs : forall b, length (subb n b xs) = length xs.
Proof. induction xs; cbn; intros; auto. Qed.
Lemma subb_bytes n xs : forall b, Forall is_byte (subb n b xs).
Proof. induction xs; cbn [subb]; intros; constructor; auto. unfold is_byte. apply N.mod_lt. discriminate. Qed.

Lemma le_word_subb n xs : n < 256 -> Forall is_byte xs -> forall b, b <= 1 ->
  (le_word xs + 256 ^ N.of_nat (length xs) - le_word (repeat n (length xs)) - b)
    mod 256 ^ N.of_nat (length xs) = le_word (subb n b xs).
Proof.
  intros Hn. induction 1 as [|x xs Hx Hxs IH]; intros b Hb; cbn [le_word length repeat subb].
  - change (256 ^ N.of_nat 0) with 1. rewrite N.mod_1_r. reflexivity.
  - rewrite Nat2N.inj_succ, N.pow_succ_r'.
    set (M := 256 ^ N.of_nat (length xs)) in *.
    set (X := le_word xs) in *. set (Y := le_word (repeat n (length xs))) in *.
    assert (HY : Y < M). { unfold Y, M. rewrite <- (repeat_length n (length xs)) at 2. apply le_word_lt, repeat_bytes, Hn. }
    set (c := if x <? n + b then 1 else 0).
    assert (Hc : c <= 1) by (unfold c; destruct (x <? n + b); lia).
    specialize (IH c Hc). rewrite <- IH.
    unfold is_byte in Hx.
    assert (E : x + 256 * X + 256 * M - (n + 256 * Y) - b
                = (x + 512 - n - b) mod 256 + 256 * (X + M - Y - c)).
    { unfold c. clear IH c Hc. clearbody M X Y. destruct (N.ltb_spec x (n + b)) as [L|L].
      - rewrite <- (N.mod_unique (x + 512 - n - b) 256 1 (x + 256 - n - b)) by lia. lia.
      - rewrite <- (N.mod_unique (x + 512 - n - b) 256 2 (x - n - b)) by lia. lia. }
    rewrite E.
    assert (HM : M <> 0) by lia.
    rewrite N.add_mod by lia. rewrite N.mul_mod_distr_l by lia.
    rewrite (N.mod_small ((x + 512 - n - b) mod 256)) by lia.
    apply N.mod_small.
    assert ((X + M - Y - c) mod M < M) by (apply N.mod_lt; lia).
    assert ((x + 512 - n - b) mod 256 < 256) by (apply N.mod_lt; lia). lia.
Qed.

Lemma wmod_eq w : wmod w = 256 ^ N.of_nat w.
Proof. unfold wmod, wbits. rewrite N.pow_mul_r. reflexivity. Qed.

(** per-byte flags of [less] (and of the zero test) *)
Definition flag (x y : N) : N := N.land (N.land y (N.lxor x 255)) 128.
Fixpoint less_flags (n b : N) (xs : list N) : list N :=
  match xs with
  | [] => []
  | x :: r => flag x ((x + 512 - n - b) mod 256) :: less_flags n (if x <? n + b then 1 else 0) r
  end.
Lemma less_flags_length n xs : forall b, length (less_flags n b xs) = length xs.
Proof. induction xs; cbn; intros; auto. Qed.
Lemma less_flags_map2 n xs : forall b, less_flags n b xs = map2 flag xs (subb n b xs).
Proof. induction xs as [|x xs IH]; intros b; cbn [less_flags subb map2]; [reflexivity|]. f_equal. apply IH. Qed.

Lemma flag_sweep : forallb (fun x => forallb (fun y =>
   flag x y =? (if (x <? 128) && (128 <=? y) then 128 else 0)) (map N.of_nat (seq 0 256))) (map N.of_nat (seq 0 256)) = true.
Proof. vm_compute. reflexivity. Qed.
Lemma in_bytes x : x < 256 -> In x (map N.of_nat (seq 0 256)).
Proof. intros H. apply in_map_iff. exists (N.to_nat x). split; [apply N2Nat.id|apply in_seq; lia]. Qed.
Lemma flag_eq x y : x < 256 -> y < 256 -> flag x y = if (x <? 128) && (128 <=? y) then 128 else 0.
Proof.
  intros Hx Hy. pose proof flag_sweep as H. rewrite forallb_forall in H.
  specialize (H x (in_bytes x Hx)). cbv beta in H. rewrite forallb_forall in H.
  specialize (H y (in_bytes y Hy)). cbv beta in H. apply N.eqb_eq in H. exact H.
Qed.

Section WordFacts.
  Context (w : nat) (Hw : ones_word w = le_word (repeat 1 w)).

  Lemma ones_mul n : ones_word w * n = le_word (repeat n w).
  Proof. rewrite Hw. symmetry. apply le_word_repeat. Qed.
  Lemma wtrunc_ones n : n < 256 -> wtrunc w (ones_word w * n) = le_word (repeat n w).
  Proof.
    intros H. unfold wtrunc. rewrite ones_mul, wmod_eq. apply N.mod_small.
    rewrite <- (repeat_length n w) at 2. apply le_word_lt, repeat_bytes, H.
  Qed.
  Lemma wnot_words xs : length xs = w -> Forall is_byte xs ->
    wnot w (le_word xs) = le_word (map (fun x => N.lxor x 255) xs).
  Proof.
    intros Hl Hx. unfold wnot.
    assert (E : N.ones (wbits w) = le_word (repeat 255 w)).
    { rewrite N.ones_equiv. fold (wmod w). clear. unfold wmod, wbits.
      induction w as [|k IH]; [reflexivity|].
      cbn [repeat le_word]. rewrite <- IH. replace (8 * N.of_nat (S k)) with (8 + 8 * N.of_nat k) by lia.
      rewrite N.pow_add_r. change (2 ^ 8) with 256.
      assert (2 ^ (8 * N.of_nat k) <> 0) by (apply N.pow_nonzero; lia). lia. }
    rewrite E, lxor_words; [|rewrite repeat_length; auto|auto|apply repeat_bytes; lia].
    rewrite <- Hl, map2_repeat. reflexivity.
  Qed.
  Lemma highs_words : highs_word w = le_word (repeat 128 w).
  Proof. unfold highs_word. apply ones_mul. Qed.

  Lemma flags_words xs n : length xs = w -> Forall is_byte xs -> n < 256 ->
    N.land (N.land (wsub w (le_word xs) (le_word (repeat n w))) (wnot w (le_word xs))) (highs_word w)
    = le_word (less_flags n 0 xs).
  Proof.
    intros Hl Hx Hn. unfold wsub. rewrite wmod_eq, <- Hl.
    rewrite <- (N.sub_0_r (_ - le_word (repeat n _))), le_word_subb by (auto; lia).
    rewrite Hl, wnot_words, highs_words by auto.
    assert (HB : Forall is_byte (map (fun x => N.lxor x 255) xs)).
    { apply Forall_forall. intros y Hy. apply in_map_iff in Hy. destruct Hy as (x & <- & Hin).
      rewrite Forall_forall in Hx. apply lxor_byte; [apply Hx, Hin|lia]. }
    rewrite land_words; [|rewrite map_length, subb_length; auto|apply subb_bytes|auto].
    rewrite land_words; [|rewrite map2_length; rewrite ?map_length, ?subb_length, ?repeat_length; auto
                         |apply map2_bytes; auto using land_byte, subb_bytes
                         |apply repeat_bytes; lia].
    f_equal. rewrite less_flags_map2, <- Hl. clear. generalize 0 as b.
    induction xs as [|x xs IH]; intros b; cbn [subb map map2 length repeat]; [reflexivity|].
    rewrite IH. reflexivity.
  Qed.
  Lemma w_less_words xs n : length xs = w -> Forall is_byte xs -> n < 256 ->
    w_less w (le_word xs) n = le_word (less_flags n 0 xs).
  Proof. intros. unfold w_less. rewrite wtrunc_ones by auto. apply flags_words; auto. Qed.
  Lemma w_equal_words xs n : length xs = w -> Forall is_byte xs -> n < 256 ->
    w_equal w (le_word xs) n = le_word (less_flags 1 0 (map (fun x => N.lxor x n) xs)).
  Proof.
    intros Hl Hx Hn. unfold w_equal, w_is_zero_memberwise.
    rewrite wtrunc_ones by auto.
    rewrite lxor_words; [|rewrite repeat_length; auto|auto|apply repeat_bytes; auto].
    rewrite <- Hl, map2_repeat, Hl.
    rewrite <- (N.mul_1_r (ones_word w)), ones_mul. apply flags_words.
    - rewrite map_length. exact Hl.
    - apply Forall_forall. intros y Hy. apply in_map_iff in Hy. destruct Hy as (x & <- & Hin).
      rewrite Forall_forall in Hx. apply lxor_byte; [apply Hx, Hin|lia].
    - lia.
  Qed.
End WordFacts.

Lemma less_flags_bytes n xs : forall b, Forall is_byte xs -> Forall (fun f => f = 0 \/ f = 128) (less_flags n b xs).
Proof.
  induction xs as [|x xs IH]; intros b Hx; cbn [less_flags]; constructor; inversion_clear Hx; auto.
  rewrite flag_eq; [|assumption|apply N.mod_lt; discriminate]. destruct (_ && _); auto.
Qed.

(** the combined flags of one block *)
Definition block_flags (xs : list N) : list N :=
  map2 N.lor (map2 N.lor (less_flags 32 0 xs) (less_flags 1 0 (map (fun x => N.lxor x 34) xs)))
       (less_flags 1 0 (map (fun x => N.lxor x 92) xs)).
Fixpoint gen_flags (b1 b2 b3 : N) (xs : list N) : list N :=
  match xs with
  | [] => []
  | x :: r =>
      let y := N.lxor x 34 in let z := N.lxor x 92 in
      N.lor (N.lor (flag x ((x + 512 - 32 - b1) mod 256)) (flag y ((y + 512 - 1 - b2) mod 256)))
            (flag z ((z + 512 - 1 - b3) mod 256))
      :: gen_flags (if x <? 32 + b1 then 1 else 0) (if y <? 1 + b2 then 1 else 0)
                   (if z <? 1 + b3 then 1 else 0) r
  end.
Lemma gen_flags_eq xs : forall b1 b2 b3,
  map2 N.lor (map2 N.lor (less_flags 32 b1 xs) (less_flags 1 b2 (map (fun x => N.lxor x 34) xs)))
       (less_flags 1 b3 (map (fun x => N.lxor x 92) xs)) = gen_flags b1 b2 b3 xs.
Proof. induction xs as [|x xs IH]; intros; cbn [less_flags map map2 gen_flags]; [reflexivity|]. f_equal. apply IH. Qed.

(** what one byte contributes, for every byte and every borrow state (finite sweep) *)
Definition byte_flag (x b1 b2 b3 : N) : N :=
  let y := N.lxor x 34 in let z := N.lxor x 92 in
  N.lor (N.lor (flag x ((x + 512 - 32 - b1) mod 256)) (flag y ((y + 512 - 1 - b2) mod 256)))
        (flag z ((z + 512 - 1 - b3) mod 256)).
Lemma byte_flag_sweep : forallb (fun x => forallb (fun b1 => forallb (fun b2 => forallb (fun b3 =>
    let f := byte_flag x b1 b2 b3 in
    ((f =? 0) || (f =? 128)) && (negb (special_b x) || (f =? 128))
    && (negb ((b1 =? 0) && (b2 =? 0) && (b3 =? 0)) ||
        (eqb (f =? 128) (special_b x) &&
         ((f =? 128) || (negb (x <? 32 + b1) && negb (N.lxor x 34 <? 1 + b2) && negb (N.lxor x 92 <? 1 + b3))))))
   [0;1]) [0;1]) [0;1]) (map N.of_nat (seq 0 256)) = true.
Proof. vm_compute. reflexivity. Qed.
Lemma byte_flag_facts x b1 b2 b3 : x < 256 -> b1 <= 1 -> b2 <= 1 -> b3 <= 1 ->
  let f := byte_flag x b1 b2 b3 in
  (f = 0 \/ f = 128) /\ (special x -> f = 128) /\
  (b1 = 0 -> b2 = 0 -> b3 = 0 -> (f = 128 -> special x) /\
     (f = 0 -> (x <? 32 + b1) = false /\ (N.lxor x 34 <? 1 + b2) = false /\ (N.lxor x 92 <? 1 + b3) = false)).
Proof.
  intros Hx H1 H2 H3 f. pose proof byte_flag_sweep as H. rewrite forallb_forall in H.
  specialize (H x (in_bytes x Hx)). cbv beta in H.
  assert (B : forall b, b <= 1 -> In b [0;1]). { intros b Hb. assert (b = 0 \/ b = 1) as [->| ->] by lia; cbn; auto. }
  rewrite forallb_forall in H. specialize (H b1 (B _ H1)). cbv beta in H.
  rewrite forallb_forall in H. specialize (H b2 (B _ H2)). cbv beta in H.
  rewrite forallb_forall in H. specialize (H b3 (B _ H3)). cbv beta zeta in H. fold f in H.
  rewrite !andb_true_iff, !orb_true_iff in H. destruct H as ((Ha & Hb) & Hc).
  split; [|split].
  - destruct Ha as [Ha|Ha]; apply N.eqb_eq in Ha; auto.
  - intros Hs. apply special_b_spec in Hs. destruct Hb as [Hb|Hb]; [rewrite Hs in Hb; discriminate|now apply N.eqb_eq].
  - intros -> -> ->. destruct Hc as [Hc|Hc]; [discriminate|].
    apply andb_true_iff in Hc. destruct Hc as [Hc Hd]. apply eqb_prop in Hc. split.
    + intros E. apply special_b_spec. rewrite <- Hc, E. reflexivity.
    + intros E. rewrite E in Hd. cbn in Hd. rewrite !andb_true_iff, !negb_true_iff in Hd. tauto.
Qed.
Lemma gen_flags_cons x r b1 b2 b3 : gen_flags b1 b2 b3 (x :: r) = byte_flag x b1 b2 b3 ::
   gen_flags (if x <? 32 + b1 then 1 else 0) (if N.lxor x 34 <? 1 + b2 then 1 else 0)
                   (if N.lxor x 92 <? 1 + b3 then 1 else 0) r.
Proof. reflexivity. Qed.
Lemma borrow_le1 (b : bool) : (if b then 1 else 0) <= 1.
Proof. destruct b; lia. Qed.

Lemma gen_flags_vals xs : Forall is_byte xs -> forall b1 b2 b3, b1 <= 1 -> b2 <= 1 -> b3 <= 1 ->
  Forall2 (fun x f => (f = 0 \/ f = 128) /\ (special x -> f = 128)) xs (gen_flags b1 b2 b3 xs).
Proof.
  induction 1 as [|x xs Hx _ IH]; intros; [constructor|].
  rewrite gen_flags_cons. constructor.
  - destruct (byte_flag_facts x b1 b2 b3) as (A & B & _); auto.
  - apply IH; apply borrow_le1.
Qed.
Lemma gen_flags_first xs : Forall is_byte xs ->
  first_idx (fun f => negb (f =? 0)) (gen_flags 0 0 0 xs) = first_idx special_b xs.
Proof.
  induction 1 as [|x xs Hx _ IH]; [reflexivity|].
  rewrite gen_flags_cons. cbn [first_idx].
  destruct (byte_flag_facts x 0 0 0) as (A & B & C); auto; try lia.
  destruct C as [C D]; auto.
  destruct A as [A|A].
  - destruct D as (D1 & D2 & D3); auto. rewrite D1, D2, D3, IH, A.
    assert (special_b x = false) as ->; [|reflexivity].
    destruct (special_b x) eqn:E; [|reflexivity]. apply special_b_spec in E. rewrite B in A; [discriminate|exact E].
  - rewrite A. apply C, special_b_spec in A. rewrite A. reflexivity.
Qed.
Lemma gen_flags_length xs : forall b1 b2 b3, length (gen_flags b1 b2 b3 xs) = length xs.
Proof. induction xs; intros; cbn; auto. Qed.

(** trailing zeros of a word of 0/128 bytes *)
Definition fb (f : N) : Prop := f = 0 \/ f = 128.
Lemma le_word_zero fl : le_word fl = 0 <-> Forall (fun f => f = 0) fl.
Proof.
  induction fl as [|f fl IH]; cbn [le_word]; [split; auto|].
  split; [intros H|intros H; inversion_clear H].
  - constructor; [lia|]. apply IH. lia.
  - apply IH in H1. lia.
Qed.
Lemma ctz_words w fl : Forall fb fl -> forall i, first_idx (fun f => negb (f =? 0)) fl = Some i ->
  countr_zero w (le_word fl) = 8 * N.of_nat i + 7.
Proof.
  induction 1 as [|f fl Hf Hfl IH]; intros i; cbn [first_idx]; [discriminate|].
  destruct Hf as [-> | ->]; cbn [N.eqb negb].
  - destruct (first_idx _ fl) as [k|] eqn:E; [|discriminate]. cbn [option_map].
    intros [= <-]. specialize (IH k eq_refl). cbn [le_word].
    destruct (le_word fl) as [|p] eqn:W.
    + apply le_word_zero in W. apply first_idx_some in E. destruct E as (_ & _ & x & Hx & Hp).
      apply nth_error_In in Hx. rewrite Forall_forall in W. rewrite (W x Hx) in Hp. discriminate.
    + change (countr_zero w (0 + 256 * N.pos p)) with (1 + (1 + (1 + (1 + (1 + (1 + (1 + (1 + ctz_pos p)))))))).
      cbn [countr_zero] in IH. rewrite IH, Nat2N.inj_succ. lia.
  - intros [= <-]. cbn [le_word]. destruct (le_word fl) as [|p]; reflexivity.
Qed.
Lemma clz_words fl : Forall fb fl -> forall i, first_idx (fun f => negb (f =? 0)) (rev fl) = Some i ->
  countl_zero (length fl) (le_word fl) = 8 * N.of_nat i.
Proof.
  intros H. unfold countl_zero, wbits. rewrite <- (rev_involutive fl) in H |- *.
  set (gl := rev fl) in *. rewrite rev_length. rewrite rev_involutive. clearbody gl. clear fl.
  induction gl as [|g gl IH]; intros i; cbn [first_idx]; [discriminate|].
  cbn [rev] in H |- *. apply Forall_app in H. destruct H as [H Hg]. inversion_clear Hg.
  rewrite le_word_app, rev_length. cbn [le_word length].
  destruct H0 as [-> | ->]; cbn [N.eqb negb].
  - destruct (first_idx _ gl) as [k|] eqn:E; [|discriminate]. cbn [option_map]. intros [= <-].
    specialize (IH H k eq_refl).
    replace (256 ^ N.of_nat (length gl) * (0 + 256 * 0)) with 0 by lia. rewrite N.add_0_r.
    apply first_idx_some in E. destruct E as (Hk & _ & _).
    assert (N.size (le_word (rev gl)) <= 8 * N.of_nat (length gl)).
    { assert (B : le_word (rev gl) < 256 ^ N.of_nat (length gl)).
      { rewrite <- rev_length. apply le_word_lt. eapply Forall_impl; [|exact H].
        intros a [-> | ->]; unfold is_byte; lia. }
      change 256 with (2 ^ 8) in B. rewrite <- N.pow_mul_r in B.
      destruct (N.eq_dec (le_word (rev gl)) 0) as [->|Hz]; [cbn; lia|].
      rewrite N.size_log2 by exact Hz. apply N.log2_lt_pow2 in B; lia. }
    rewrite !Nat2N.inj_succ. lia.
  - intros [= <-].
    assert (E : N.size (le_word (rev gl) + 256 ^ N.of_nat (length gl) * (128 + 256 * 0))
                = 8 * N.of_nat (S (length gl))); [|rewrite E; lia].
    assert (B : le_word (rev gl) < 256 ^ N.of_nat (length gl)).
    { rewrite <- rev_length. apply le_word_lt. eapply Forall_impl; [|exact H].
      intros a [-> | ->]; unfold is_byte; lia. }
    assert (P : 256 ^ N.of_nat (length gl) <> 0) by (apply N.pow_nonzero; lia).
    rewrite N.size_log2 by lia.
    change 256 with (2 ^ 8) in *. rewrite <- N.pow_mul_r in *.
    rewrite (N.log2_unique' _ (8 * N.of_nat (length gl) + 7) (le_word (rev gl))); try lia.
    + rewrite N.pow_add_r. change (2 ^ 7) with 128. lia.
    + rewrite N.pow_add_r. change (2 ^ 7) with 128. lia.
Qed.

Lemma Forall2_nth {A B} (R : A -> B -> Prop) xs ys : Forall2 R xs ys -> forall i x y,
  nth_error xs i = Some x -> nth_error ys i = Some y -> R x y.
Proof. induction 1; intros [|i] a b; cbn; try discriminate; [intros [= <-] [= <-]; auto|eauto]. Qed.

Lemma scan_exact_spec blk r : scan_exact blk r -> scan_spec blk r.
Proof.
  destruct r as [i|]; cbn; auto. intros (c & Hc & _ & H). split; auto.
  apply nth_error_Some. rewrite Hc. discriminate.
Qed.
Lemma scan_exact_first blk r :
  r = option_map N.of_nat (first_idx special_b blk) -> scan_exact blk r.
Proof.
  intros ->. destruct (first_idx special_b blk) as [i|] eqn:E; cbn [option_map scan_exact].
  - apply first_idx_some in E. destruct E as (H1 & H2 & x & H3 & H4). rewrite Nat2N.id.
    exists x. repeat split; auto; [now apply special_b_spec|].
    apply Forall_forall. intros c Hc Hs. apply special_b_spec in Hs. rewrite H2 in Hs; [discriminate|exact Hc].
  - apply Forall_forall. intros c Hc Hs. apply special_b_spec in Hs.
    rewrite (first_idx_none _ _ E c Hc) in Hs. discriminate.
Qed.

Lemma fb_bytes fl : Forall fb fl -> Forall is_byte fl.
Proof. intros H. eapply Forall_impl; [|exact H]. intros a [-> | ->]; unfold is_byte; lia. Qed.
Lemma xor_bytes n xs : n < 256 -> Forall is_byte xs -> Forall is_byte (map (fun x => N.lxor x n) xs).
Proof.
  intros Hn Hx. apply Forall_forall. intros y Hy. apply in_map_iff in Hy. destruct Hy as (x & <- & Hin).
  rewrite Forall_forall in Hx. apply lxor_byte; [apply Hx, Hin|exact Hn].
Qed.
Lemma word_result w xs : ones_word w = le_word (repeat 1 w) -> length xs = w -> Forall is_byte xs ->
  w_or (w_or (w_less w (le_word xs) 32) (w_equal w (le_word xs) 34)) (w_equal w (le_word xs) 92)
  = le_word (gen_flags 0 0 0 xs).
Proof.
  intros Hw Hl Hx.
  rewrite w_less_words, !w_equal_words by (auto; lia). unfold w_or.
  assert (F : forall n ys, Forall is_byte ys -> Forall is_byte (less_flags n 0 ys)).
  { intros n ys Hy. apply fb_bytes, less_flags_bytes, Hy. }
  rewrite lor_words; [|rewrite !less_flags_length, map_length; auto| |]; auto using xor_bytes.
  2: { apply F, xor_bytes; auto; lia. }
  rewrite lor_words.
  - rewrite gen_flags_eq. reflexivity.
  - rewrite map2_length; rewrite !less_flags_length, ?map_length; auto.
  - apply map2_bytes; auto using lor_byte. apply F, xor_bytes; auto; lia.
  - apply F, xor_bytes; auto; lia.
Qed.
Lemma gen_flags_fb xs : Forall is_byte xs -> Forall fb (gen_flags 0 0 0 xs).
Proof.
  intros Hx. pose proof (gen_flags_vals xs Hx 0 0 0) as H.
  assert (H' : Forall2 (fun x f => (f = 0 \/ f = 128) /\ (special x -> f = 128)) xs (gen_flags 0 0 0 xs)) by (apply H; lia).
  clear H. revert H'. generalize (gen_flags 0 0 0 xs) as ys. clear Hx.
  induction xs as [|x xs IH]; intros ys H; inversion_clear H; constructor; [apply H0|apply IH; auto].
Qed.

Lemma word_scan_le w xs : ones_word w = le_word (repeat 1 w) -> length xs = w -> Forall is_byte xs ->
  scan_exact xs (w_scan w true xs).
Proof.
  intros Hw Hl Hx. apply scan_exact_first. unfold w_scan, load. rewrite word_result by auto.
  unfold w_is_all_zero, w_first_nonzero. rewrite <- gen_flags_first by auto.
  destruct (N.eqb_spec (le_word (gen_flags 0 0 0 xs)) 0) as [E|E].
  - apply le_word_zero in E. destruct (first_idx _ _) as [i|] eqn:F; [|reflexivity].
    apply first_idx_some in F. destruct F as (_ & _ & f & Hf & Hn).
    apply nth_error_In in Hf. rewrite Forall_forall in E. rewrite (E f Hf) in Hn. discriminate.
  - destruct (first_idx _ _) as [i|] eqn:F.
    + rewrite (ctz_words w _ (gen_flags_fb xs Hx) i F). cbn [option_map]. f_equal. lia.
    + exfalso. apply E, le_word_zero, Forall_forall. intros f Hf.
      pose proof (first_idx_none _ _ F f Hf) as G. cbv beta in G. apply negb_false_iff, N.eqb_eq in G. exact G.
Qed.
Lemma word_scan_be w xs : ones_word w = le_word (repeat 1 w) -> length xs = w -> Forall is_byte xs ->
  scan_spec xs (w_scan w false xs).
Proof.
  intros Hw Hl Hx. unfold w_scan, load.
  assert (Hr : Forall is_byte (rev xs)) by (apply Forall_rev; auto).
  rewrite word_result by (rewrite ?rev_length; auto).
  set (fl := gen_flags 0 0 0 (rev xs)).
  assert (Hfb : Forall fb fl) by (apply gen_flags_fb; auto).
  assert (H2 : Forall2 (fun x f => (f = 0 \/ f = 128) /\ (special x -> f = 128)) xs (rev fl)).
  { pose proof (gen_flags_vals (rev xs) Hr 0 0 0) as G.
    assert (G' : Forall2 (fun x f => (f = 0 \/ f = 128) /\ (special x -> f = 128)) (rev xs) fl) by (apply G; lia).
    clear - G'. revert G'. generalize fl. intros l H.
    rewrite <- (rev_involutive xs). induction H; cbn; [constructor|]. apply Forall2_app; auto. }
  unfold w_is_all_zero, w_first_nonzero.
  destruct (N.eqb_spec (le_word fl) 0) as [E|E].
  - apply le_word_zero in E. cbn [scan_spec].
    apply Forall_forall. intros c Hc Hs. apply In_nth_error in Hc. destruct Hc as [i Hi].
    assert (Hlen : length xs = length (rev fl)) by (clear - H2; induction H2; cbn; auto).
    destruct (nth_error (rev fl) i) as [f|] eqn:Hf.
    + assert (f = 0). { apply nth_error_In in Hf. rewrite Forall_forall in E. apply E. now apply in_rev. }
      destruct (Forall2_nth _ _ _ H2 i c f Hi Hf) as [_ Q]. rewrite Q in H; [discriminate|exact Hs].
    + apply nth_error_None in Hf. rewrite <- Hlen in Hf. apply nth_error_None in Hf. congruence.
  - assert (exists i, first_idx (fun f => negb (f =? 0)) (rev fl) = Some i) as [i Fi].
    { destruct (first_idx _ (rev fl)) as [i|] eqn:F; [eauto|]. exfalso. apply E, le_word_zero, Forall_forall.
      intros f Hf. apply in_rev in Hf. pose proof (first_idx_none _ _ F f Hf) as G. cbv beta in G.
      apply negb_false_iff, N.eqb_eq in G. exact G. }
    assert (Hw' : length fl = w) by (unfold fl; rewrite gen_flags_length, rev_length; auto).
    rewrite <- Hw' at 1. rewrite (clz_words fl Hfb i Fi).
    replace (8 * N.of_nat i / 8) with (N.of_nat i) by lia. cbn [scan_spec]. rewrite Nat2N.id.
    apply first_idx_some in Fi. destruct Fi as (G1 & G2 & _). rewrite rev_length in G1. split; [lia|].
    clear - H2 G2. revert i G2. induction H2 as [|x f xs fs [_ Hf] _ IH]; intros i G2; [destruct i; constructor|].
    destruct i as [|i]; cbn; constructor.
    + intros Hs. specialize (G2 f (or_introl eq_refl)). rewrite Hf in G2; [discriminate|exact Hs].
    + apply IH. intros y Hy. apply G2. right. exact Hy.
Qed.

(** ** SIMD *)
Lemma set1_repeat l n : set1 l n = repeat n (length l).
Proof. induction l; cbn; [reflexivity|]; f_equal; auto. Qed.
Lemma set1_map (f : N -> N) l n : set1 (map f l) n = map (fun _ => n) l.
Proof. unfold set1. rewrite map_map. reflexivity. Qed.
Lemma map2_set1 f l n : map2 f l (set1 l n) = map (fun x => f x n) l.
Proof. rewrite set1_repeat. apply map2_repeat. Qed.
Lemma map_id_N (l : list N) : map (fun x => x) l = l.
Proof. apply map_id. Qed.
Lemma x86_less_map l n : x86_less l n = map (fun x => N.land (N.lxor (if N.max x n =? x then 255 else 0) 255) 255) l.
Proof.
  unfold x86_less, max_epu8, cmpeq_epi8, andnot. rewrite map2_set1.
  rewrite <- (map_id_N l) at 2. rewrite map2_map. unfold set1. rewrite map2_map. reflexivity.
Qed.
Lemma x86_equal_map l n : x86_equal l n = map (fun x => if x =? n then 255 else 0) l.
Proof. unfold x86_equal, cmpeq_epi8. apply map2_set1. Qed.
Lemma x86_result l :
  or_si (or_si (x86_less l 32) (x86_equal l 34)) (x86_equal l 92)
  = map (fun x => if special_b x then 255 else 0) l.
Proof.
  rewrite x86_less_map, !x86_equal_map. unfold or_si. rewrite map2_map, map2_map.
  apply map_ext. intros x. unfold special_b.
  assert ((N.max x 32 =? x) = negb (x <? 32)) as ->.
  { destruct (N.eqb_spec (N.max x 32) x), (N.ltb_spec x 32); cbn; lia. }
  destruct (x <? 32), (x =? 34), (x =? 92); reflexivity.
Qed.
Lemma neon_result l :
  or_si (or_si (neon_less l 32) (neon_equal l 34)) (neon_equal l 92)
  = map (fun x => if special_b x then 255 else 0) l.
Proof.
  unfold neon_less, neon_equal, cmpeq_epi8, or_si. rewrite !map2_set1, map2_map, map2_map.
  apply map_ext. intros x. unfold special_b.
  destruct (x <? 32), (x =? 34), (x =? 92); reflexivity.
Qed.

Lemma testz_map l : testz (map (fun x => if special_b x then 255 else 0) l) = negb (existsb special_b l).
Proof.
  unfold testz. induction l as [|x l IH]; cbn [map forallb existsb]; [reflexivity|].
  rewrite IH. destruct (special_b x); cbn; auto.
Qed.
Lemma existsb_first l : existsb special_b l = match first_idx special_b l with Some _ => true | None => false end.
Proof.
  induction l as [|x l IH]; cbn; [reflexivity|]. destruct (special_b x); cbn; [reflexivity|].
  rewrite IH. destruct (first_idx special_b l); reflexivity.
Qed.
Lemma cmp0_map l : cmpeq_epi8 (map (fun x => if special_b x then 255 else 0) l)
                     (set1 (map (fun x => if special_b x then 255 else 0) l) 0)
                   = map (fun x => if special_b x then 0 else 255) l.
Proof.
  unfold cmpeq_epi8. rewrite map2_set1, map_map. apply map_ext. intros x. destruct (special_b x); reflexivity.
Qed.
Lemma movemask_lt l : movemask l < 2 ^ N.of_nat (length l).
Proof.
  induction l as [|x l IH]; cbn [movemask length]; [cbn; lia|].
  rewrite Nat2N.inj_succ, N.pow_succ_r'. destruct (N.testbit x 7); cbn [N.b2n]; lia.
Qed.
Lemma odd_b2n b m : N.odd (N.b2n b + 2 * m) = b.
Proof. rewrite N.add_comm, N.odd_add, N.odd_mul. destruct b; reflexivity. Qed.
Lemma div2_b2n b m : N.div2 (N.b2n b + 2 * m) = m.
Proof. rewrite N.div2_div. destruct b; cbn [N.b2n]; lia. Qed.
Lemma countr_one_first l : forall bits i, (length l <= bits)%nat -> first_idx special_b l = Some i ->
  countr_one bits (movemask (map (fun x => if special_b x then 0 else 255) l)) = N.of_nat i.
Proof.
  induction l as [|x l IH]; intros bits i Hb; cbn [first_idx]; [discriminate|].
  cbn [length] in Hb. destruct bits as [|bits]; [lia|].
  cbn [map movemask countr_one]. rewrite odd_b2n, div2_b2n.
  destruct (special_b x) eqn:E.
  - intros [= <-]. reflexivity.
  - destruct (first_idx special_b l) as [k|]; [|discriminate]. cbn [option_map]. intros [= <-].
    change (N.testbit 255 7) with true. cbv iota.
    rewrite (IH bits k) by (auto; lia). lia.
Qed.
Lemma movemask_all l : movemask (map (fun x => if special_b x then 0 else 255) l) = 2 ^ N.of_nat (length l) - 1
  <-> first_idx special_b l = None.
Proof.
  induction l as [|x l IH]; [cbn; tauto|].
  cbn [map movemask length first_idx]. rewrite Nat2N.inj_succ, N.pow_succ_r'.
  pose proof (movemask_lt (map (fun x => if special_b x then 0 else 255) l)) as B. rewrite map_length in B.
  destruct (special_b x) eqn:E.
  - change (N.b2n (N.testbit 0 7)) with 0. split; [lia|discriminate].
  - change (N.b2n (N.testbit 255 7)) with 1.
    destruct (first_idx special_b l) as [k|]; cbn [option_map] in *.
    + split; [|discriminate]. intros H. destruct IH as [IH _]. exfalso.
      assert (Some k = None) by (apply IH; lia). discriminate.
    + split; [reflexivity|]. intros _. destruct IH as [_ IH]. specialize (IH eq_refl). lia.
Qed.
Lemma x86_scan_exact mbits az l : N.of_nat (length l) = mbits -> mbits <= 32 ->
  (az (map (fun x => if special_b x then 255 else 0) l) = true <-> first_idx special_b l = None) ->
  scan_exact l (x86_scan mbits az l).
Proof.
  intros Hl Hm Haz. apply scan_exact_first. unfold x86_scan. rewrite x86_result.
  destruct (az _) eqn:A.
  - destruct Haz as [Haz _]. rewrite Haz by reflexivity. reflexivity.
  - destruct (first_idx special_b l) as [i|] eqn:F.
    + unfold x86_first_nonzero. rewrite cmp0_map.
      rewrite N.mod_small.
      2: { pose proof (movemask_lt (map (fun x => if special_b x then 0 else 255) l)) as B.
           rewrite map_length, Hl in B. exact B. }
      rewrite (countr_one_first l 32 i) by (auto; lia). reflexivity.
    + destruct Haz as [_ Haz]. discriminate (Haz eq_refl).
Qed.
Lemma testz_iff l : testz (map (fun x => if special_b x then 255 else 0) l) = true <-> first_idx special_b l = None.
Proof.
  rewrite testz_map, existsb_first. destruct (first_idx special_b l); cbn; split; congruence.
Qed.
Lemma sse2_iff l : length l = 16%nat ->
  sse2_all_zero (map (fun x => if special_b x then 255 else 0) l) = true <-> first_idx special_b l = None.
Proof.
  intros Hl. unfold sse2_all_zero. rewrite cmp0_map. rewrite N.eqb_eq, N.mod_small.
  - rewrite <- movemask_all, Hl. reflexivity.
  - pose proof (movemask_lt (map (fun x => if special_b x then 0 else 255) l)) as B.
    rewrite map_length, Hl in B. exact B.
Qed.

(** NEON: the narrowing shift turns 16 lanes of 0/255 into 16 nibbles (finite sweep over 2^16 masks) *)
Fixpoint all_masks (n : nat) : list (list bool) :=
  match n with O => [[]] | S n' => flat_map (fun m => [false :: m; true :: m]) (all_masks n') end.
Lemma all_masks_in m : In m (all_masks (length m)).
Proof.
  induction m as [|b m IH]; cbn; [auto|]. apply in_flat_map. exists m. split; [exact IH|].
  destruct b; cbn; auto.
Qed.
Definition neon_idx (m : list bool) : N :=
  N.shiftr (countr_one 64 (le_word (shrn4 (map (fun b : bool => if b then 0 else 255) m)))) 2.
Lemma neon_sweep : forallb (fun m => match first_idx (fun b => b) m with
    | Some i => neon_idx m =? N.of_nat i | None => true end) (all_masks 16) = true.
Proof. vm_compute. reflexivity. Qed.
Lemma neon_first l i : length l = 16%nat -> first_idx special_b l = Some i ->
  neon_first_nonzero (map (fun x => if special_b x then 255 else 0) l) = N.of_nat i.
Proof.
  intros Hl F. unfold neon_first_nonzero, neon_equal. rewrite cmp0_map.
  pose proof neon_sweep as H. rewrite forallb_forall in H.
  specialize (H (map special_b l)).
  assert (In (map special_b l) (all_masks 16)) as Hin.
  { rewrite <- Hl, <- (map_length special_b l). apply all_masks_in. }
  specialize (H Hin). cbv beta in H.
  assert (F' : first_idx (fun b => b) (map special_b l) = Some i) by (rewrite first_idx_map; exact F).
  rewrite F' in H. apply N.eqb_eq in H.
  unfold neon_idx in H. rewrite map_map in H. exact H.
Qed.
Lemma neon_all_zero_iff l : neon_all_zero (map (fun x => if special_b x then 255 else 0) l) = true
  <-> first_idx special_b l = None.
Proof.
  unfold neon_all_zero. induction l as [|x l IH]; cbn [map fold_right first_idx]; [tauto|].
  destruct (special_b x) eqn:E.
  - rewrite N.eqb_eq. split; [lia|discriminate].
  - rewrite N.max_0_l, IH. destruct (first_idx special_b l); cbn; split; congruence.
Qed.
Lemma neon_scan_exact l : length l = 16%nat -> scan_exact l (neon_scan l).
Proof.
  intros Hl. apply scan_exact_first. unfold neon_scan. rewrite neon_result.
  destruct (neon_all_zero _) eqn:A.
  - apply neon_all_zero_iff in A. rewrite A. reflexivity.
  - destruct (first_idx special_b l) as [i|] eqn:F.
    + rewrite (neon_first l i) by auto. reflexivity.
    + apply neon_all_zero_iff in F. congruence.
Qed.

(** ** All backends *)
Lemma scan_exact_all be st blk : step be = Some st -> length blk = st -> Forall is_byte blk ->
  exact_backend be -> scan_exact blk (scan be blk).
Proof.
  destruct be as [|[]|[]| | | |]; cbn [step scan exact_backend]; intros [= <-] Hl Hb He; try contradiction.
  - apply word_scan_le; auto.
  - apply word_scan_le; auto.
  - apply x86_scan_exact; [rewrite Hl; reflexivity|lia|apply sse2_iff; auto].
  - apply x86_scan_exact; [rewrite Hl; reflexivity|lia|apply testz_iff].
  - apply x86_scan_exact; [rewrite Hl; reflexivity|lia|apply testz_iff].
  - apply neon_scan_exact; auto.
Qed.
Lemma scan_spec_all be st blk : step be = Some st -> length blk = st -> Forall is_byte blk ->
  scan_spec blk (scan be blk).
Proof.
  intros Hs Hl Hb.
  destruct (match be with BU32 false | BU64 false => false | _ => true end) eqn:E.
  - apply scan_exact_spec. eapply scan_exact_all; eauto. destruct be as [|[]|[]| | | |]; cbn in *; auto; discriminate.
  - destruct be as [|[]|[]| | | |]; cbn in *; try discriminate; injection Hs as <-; apply word_scan_be; auto.
Qed.
