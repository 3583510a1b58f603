(** * A block scan that may be undefined makes parsing undefined, or changes nothing. *)
From Verif Require Import Base Value Packed Parser Source Spec SpecSource BaseProofs SourceProofs.

Definition less {A} (a b : res A) : Prop := a = Ub \/ a = b.
Lemma less_refl {A} (a : res A) : less a a.
Proof. right. reflexivity. Qed.
Lemma less_bind {A B} (a b : res A) (f g : A -> res B) :
  less a b -> (forall x, less (f x) (g x)) -> less (bind a f) (bind b g).
Proof. intros [->| ->] H; [left; reflexivity|]. destruct b; cbn [bind]; try (right; reflexivity). apply H. Qed.
Ltac same := lazymatch goal with |- less ?a ?b => constr_eq a b; exact (less_refl a) end.
Ltac less1 :=
  lazymatch goal with
  | x : (_ * _)%type |- _ => destruct x
  | |- less (bind _ _) (bind _ _) => apply less_bind; [|intros]
  | |- less (if ?b then _ else _) (if ?b' then _ else _) => destruct b
  | |- less (match ?o with Some _ => _ | None => _ end) _ => destruct o
  | |- less (let '(_, _) := ?o in _) _ => destruct o
  end.
Section Less.
  Context (low : N -> N) (accel accel' : bytes -> res (bool * bytes)) (jsonc : bool).
  Context (Hacc : forall cur, less (accel cur) (accel' cur)).
  Lemma less_str_loop fuel : forall cur result beg ph,
    less (t_str_loop low accel fuel cur result beg ph) (t_str_loop low accel' fuel cur result beg ph).
  Proof.
    induction fuel as [|f IH]; intros; [apply less_refl|]. cbn [t_str_loop].
    repeat first [same|less1|apply Hacc|apply IH].
  Qed.
  Lemma less_stdstring cur : less (t_parse_stdstring low accel cur) (t_parse_stdstring low accel' cur).
  Proof. unfold t_parse_stdstring. repeat first [same|less1|apply less_str_loop]. Qed.
  Lemma less_string cur : less (t_parse_string low accel cur) (t_parse_string low accel' cur).
  Proof. unfold t_parse_string. repeat first [same|less1|apply less_stdstring]. Qed.
  Section Nested.
    Context (pv pv' : bytes -> res (value * bytes)) (Hpv : forall cur, less (pv cur) (pv' cur)).
    Lemma less_array_loop fuel : forall cur acc, less (array_loop jsonc pv fuel cur acc) (array_loop jsonc pv' fuel cur acc).
    Proof.
      induction fuel as [|f IH]; intros; [apply less_refl|]. cbn [array_loop]. repeat first [same|less1|apply Hpv|apply IH].
    Qed.
    Lemma less_array cur : less (parse_array jsonc pv cur) (parse_array jsonc pv' cur).
    Proof. unfold parse_array. repeat first [same|less1|apply less_array_loop]. Qed.
    Lemma less_object_loop fuel : forall cur acc,
      less (t_object_loop low accel jsonc pv fuel cur acc) (t_object_loop low accel' jsonc pv' fuel cur acc).
    Proof.
      induction fuel as [|f IH]; intros; [apply less_refl|]. cbn [t_object_loop].
      repeat first [same|less1|apply Hpv|apply IH|apply less_stdstring].
    Qed.
    Lemma less_object cur : less (t_parse_object low accel jsonc pv cur) (t_parse_object low accel' jsonc pv' cur).
    Proof. unfold t_parse_object. repeat first [same|less1|apply less_object_loop]. Qed.
  End Nested.
  Lemma less_value d : forall cur, less (t_parse_value low accel jsonc d cur) (t_parse_value low accel' jsonc d cur).
  Proof.
    induction d as [|d IH]; intros; [apply less_refl|]. cbn [t_parse_value].
    repeat first [same|less1|apply less_string|apply less_array, IH|apply less_object, IH].
  Qed.
  Lemma less_parse s : less (t_parse low accel jsonc s) (t_parse low accel' jsonc s).
  Proof.
    unfold t_parse, t_parse_budget.
    repeat first [same|less1|apply less_array, less_value|apply less_object, less_value].
  Qed.
End Less.

Lemma deque_loop_less be off n st : forall fuel cur, less (deque_loop be off n st fuel cur) (accel_loop be st fuel cur).
Proof.
  induction fuel as [|f IH]; intros; [apply less_refl|]. cbn [deque_loop accel_loop].
  less1; [|apply less_refl]. apply less_bind; [|intros; repeat first [same|less1|apply IH]].
  unfold deque_load. destruct (_ <? _)%nat; [left; reflexivity|apply less_refl].
Qed.
Lemma deque_less jsonc be off s : Forall is_byte s ->
  deque_parse jsonc be off s = Ub \/ deque_parse jsonc be off s = parse jsonc be s.
Proof.
  intros Hb.
  assert (E : t_parse (fun c => c) (skip_accel be) jsonc s = parse jsonc be s).
  { apply (same_parse (fun c => c) (skip_accel be) jsonc be (Forall is_byte)); [|auto|auto|auto|exact Hb].
    intros r t [p ->]. apply Forall_app_r. }
  rewrite <- E. unfold deque_parse.
  apply (less_parse (fun c => c) (deque_accel be off (length s)) (skip_accel be) jsonc).
  intros cur. unfold deque_accel, skip_accel. destruct (step be) as [st|]; [|apply less_refl].
  apply less_bind; [apply deque_loop_less|intros; apply less_refl].
Qed.
