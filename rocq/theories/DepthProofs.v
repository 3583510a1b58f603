(** * A budget that suffices, and one that does not. *)
From Verif Require Import Base Value Packed Parser Dump Containers Spec SpecApi Depth SpecDepth BaseProofs.
From Coq Require Import Lia.

Lemma list_max_in (l : list nat) x : In x l -> (x <= list_max l)%nat.
Proof.
  induction l as [|y l IH]; [contradiction|]. intros [->|H].
  - change (list_max (x :: l)) with (Nat.max x (list_max l)). lia.
  - specialize (IH H). change (list_max (y :: l)) with (Nat.max y (list_max l)). lia.
Qed.
Lemma list_max_cons x l : list_max (x :: l) = Nat.max x (list_max l).
Proof. reflexivity. Qed.
Lemma height_pos v : (1 <= height v)%nat.
Proof. destruct v as [|t [l|]|t [m|]]; cbn [height]; lia. Qed.
Lemma height_arr t l d : (height (VArr t (Some l)) <= S d)%nat <-> Forall (fun v => (height v <= d)%nat) l.
Proof.
  cbn [height]. rewrite <- Nat.succ_le_mono, list_max_le, Forall_map. reflexivity.
Qed.
Lemma height_obj t m d : (height (VObj t (Some m)) <= S d)%nat <-> Forall (fun kv => (height (snd kv) <= d)%nat) m.
Proof.
  cbn [height]. rewrite <- Nat.succ_le_mono, list_max_le, Forall_map. reflexivity.
Qed.

(** ** Running out of the budget is the only difference *)
Definition sub {A} (r r' : res A) : Prop := r = r' \/ r = Stack.
Lemma sub_refl {A} (r : res A) : sub r r.
Proof. left. reflexivity. Qed.
Lemma sub_bind {A B} (x y : res A) (f g : A -> res B) :
  sub x y -> (forall a, sub (f a) (g a)) -> sub (bind x f) (bind y g).
Proof. intros [->| ->] H; [|right; reflexivity]. destruct y; cbn; [apply H|left; reflexivity..]. Qed.
Lemma bind_inv {A B} (x : res A) (f : A -> res B) b : bind x f = Ok b -> exists a, x = Ok a /\ f a = Ok b.
Proof. destruct x; cbn; intros H; [eauto|discriminate H..]. Qed.
Ltac inv H := apply bind_inv in H; let a := fresh "a" in let E := fresh "E" in destruct H as (a & E & H).

Section Loops.
  Context (f g : value -> res bytes).
  Section Less.
    Context (H : forall v, sub (f v) (g v)).
    Lemma dump_elems_sub l : sub (dump_elems f l) (dump_elems g l).
    Proof.
      induction l as [|v l IH]; cbn [dump_elems]; [apply sub_refl|].
      apply sub_bind; [apply H|]. intros a. apply sub_bind; [exact IH|]. intros; apply sub_refl.
    Qed.
    Lemma dump_members_sub m : sub (dump_members f m) (dump_members g m).
    Proof.
      induction m as [|[k v] l IH]; cbn [dump_members]; [apply sub_refl|].
      apply sub_bind; [apply H|]. intros a. apply sub_bind; [exact IH|]. intros; apply sub_refl.
    Qed.
    Lemma format_elems_sub i n l : sub (format_elems f i n l) (format_elems g i n l).
    Proof.
      induction l as [|v l IH]; cbn [format_elems]; [apply sub_refl|].
      apply sub_bind; [apply H|]. intros a. apply sub_bind; [exact IH|]. intros; apply sub_refl.
    Qed.
    Lemma format_members_sub i n m : sub (format_members f i n m) (format_members g i n m).
    Proof.
      induction m as [|[k v] l IH]; cbn [format_members]; [apply sub_refl|].
      apply sub_bind; [apply H|]. intros a. apply sub_bind; [exact IH|]. intros; apply sub_refl.
    Qed.
  End Less.
  Lemma dump_elems_same l : Forall (fun v => f v = g v) l -> dump_elems f l = dump_elems g l.
  Proof. induction 1 as [|v l E H IH]; cbn [dump_elems]; [reflexivity|]. rewrite E, IH. reflexivity. Qed.
  Lemma dump_members_same m : Forall (fun kv => f (snd kv) = g (snd kv)) m -> dump_members f m = dump_members g m.
  Proof. induction 1 as [|[k v] l E H IH]; cbn [dump_members]; [reflexivity|]. cbn [snd] in E. rewrite E, IH. reflexivity. Qed.
  Lemma format_elems_same i n l : Forall (fun v => f v = g v) l -> format_elems f i n l = format_elems g i n l.
  Proof. induction 1 as [|v l E H IH]; cbn [format_elems]; [reflexivity|]. rewrite E, IH. reflexivity. Qed.
  Lemma format_members_same i n m :
    Forall (fun kv => f (snd kv) = g (snd kv)) m -> format_members f i n m = format_members g i n m.
  Proof. induction 1 as [|[k v] l E H IH]; cbn [format_members]; [reflexivity|]. cbn [snd] in E. rewrite E, IH. reflexivity. Qed.
  Definition fine (v : value) : Prop := exists s, f v = Ok s.
  Lemma dump_elems_fine l : forall s, dump_elems f l = Ok s -> Forall fine l.
  Proof.
    induction l as [|v l IH]; intros s Hs; [constructor|]. cbn [dump_elems] in Hs. inv Hs. inv Hs.
    constructor; [exists a; assumption|eapply IH; eassumption].
  Qed.
  Lemma dump_members_fine m : forall s, dump_members f m = Ok s -> Forall (fun kv => fine (snd kv)) m.
  Proof.
    induction m as [|[k v] l IH]; intros s Hs; [constructor|]. cbn [dump_members] in Hs. inv Hs. inv Hs.
    constructor; [exists a; assumption|eapply IH; eassumption].
  Qed.
  Lemma format_elems_fine i n l : forall s, format_elems f i n l = Ok s -> Forall fine l.
  Proof.
    induction l as [|v l IH]; intros s Hs; [constructor|]. cbn [format_elems] in Hs. inv Hs. inv Hs.
    constructor; [exists a; assumption|eapply IH; eassumption].
  Qed.
  Lemma format_members_fine i n m : forall s, format_members f i n m = Ok s -> Forall (fun kv => fine (snd kv)) m.
  Proof.
    induction m as [|[k v] l IH]; intros s Hs; [constructor|]. cbn [format_members] in Hs. inv Hs. inv Hs.
    constructor; [exists a; assumption|eapply IH; eassumption].
  Qed.
End Loops.

(** ** Serialization *)
Lemma dump_d_sub d : forall v, sub (dump_d d v) (dump v).
Proof.
  induction d as [|d IH]; intros v; cbn [dump_d]; [right; reflexivity|].
  destruct v as [t s|t p|t p]; [apply sub_refl| |]; destruct t; cbn [dump]; try apply sub_refl;
    (destruct p as [l|]; [|apply sub_refl]); apply sub_bind; intros; try apply sub_refl.
  - apply dump_elems_sub, IH.
  - apply dump_members_sub, IH.
Qed.
Lemma dump_d_enough d : forall v, (height v <= d)%nat -> dump_d d v = dump v.
Proof.
  induction d as [|d IH]; intros v H; [pose proof (height_pos v); lia|]. cbn [dump_d].
  destruct v as [t s|t [l|]|t [m|]]; [reflexivity| | | |]; destruct t; cbn [dump]; try reflexivity.
  - unfold dump_array_with. rewrite (dump_elems_same _ dump); [reflexivity|].
    apply height_arr in H. eapply Forall_impl; [|exact H]. intros a. apply IH.
  - unfold dump_object_with. rewrite (dump_members_same _ dump); [reflexivity|].
    apply height_obj in H. eapply Forall_impl; [|exact H]. intros a. apply IH.
Qed.
Lemma dump_d_needs d : forall v s, tag_ok v -> dump_d d v = Ok s -> (height v <= d)%nat.
Proof.
  induction d as [|d IH]; intros v s T H; [discriminate H|]. cbn [dump_d] in H.
  inversion T as [t x A B|l F|  |m F| ]; subst; try discriminate H; [cbn [height]; lia| |].
  - apply height_arr. inv H. apply dump_elems_fine in E. rewrite Forall_forall in *. intros v Hv.
    destruct (E v Hv) as (s' & Hs'). exact (IH v s' (F v Hv) Hs').
  - apply height_obj. inv H. apply dump_members_fine in E. rewrite Forall_forall in *. intros v Hv.
    destruct (E v Hv) as (s' & Hs'). exact (IH _ s' (F v Hv) Hs').
Qed.
Lemma format_d_sub i d : forall n v, sub (format_d i n d v) (format_to i n v).
Proof.
  induction d as [|d IH]; intros n v; [right; reflexivity|].
  destruct v as [t s|t p|t p]; destruct t; cbn [format_d format_to]; try apply sub_refl; try apply (dump_d_sub (S d));
    (destruct p as [l|]; [|apply sub_refl]); apply sub_bind; intros; try apply sub_refl.
  - apply format_elems_sub, IH.
  - apply format_members_sub, IH.
Qed.
Lemma format_d_enough i d : forall n v, (height v <= d)%nat -> format_d i n d v = format_to i n v.
Proof.
  induction d as [|d IH]; intros n v H; [pose proof (height_pos v); lia|].
  destruct v as [t s|t [l|]|t [m|]]; destruct t; cbn [format_d format_to]; try reflexivity; try (apply (dump_d_enough (S d)); exact H).
  - unfold format_array_with. rewrite (format_elems_same _ (format_to i (n + 1))); [reflexivity|].
    apply height_arr in H. eapply Forall_impl; [|exact H]. intros a. apply IH.
  - unfold format_object_with. rewrite (format_members_same _ (format_to i (n + 1))); [reflexivity|].
    apply height_obj in H. eapply Forall_impl; [|exact H]. intros a. apply IH.
Qed.
Lemma format_d_needs i d : forall n v s, tag_ok v -> format_d i n d v = Ok s -> (height v <= d)%nat.
Proof.
  induction d as [|d IH]; intros n v s T H; [discriminate H|].
  inversion T as [t x A B|l F|  |m F| ]; subst; try discriminate H; [cbn [height]; lia| |]; cbn [format_d] in H.
  - apply height_arr. inv H. apply format_elems_fine in E. rewrite Forall_forall in *. intros v Hv.
    destruct (E v Hv) as (s' & Hs'). exact (IH _ v s' (F v Hv) Hs').
  - apply height_obj. inv H. apply format_members_fine in E. rewrite Forall_forall in *. intros v Hv.
    destruct (E v Hv) as (s' & Hs'). exact (IH _ _ s' (F v Hv) Hs').
Qed.
Lemma sub_exact {A} (r r' : res A) (d n : nat) (P : Prop) :
  sub r r' -> ((n <= d)%nat -> r = r') -> (forall s, P -> r = Ok s -> (n <= d)%nat) ->
  forall s, P -> r' = Ok s -> r = if (n <=? d)%nat then Ok s else Stack.
Proof.
  intros S H1 H2 s HP E. destruct (n <=? d)%nat eqn:C.
  - rewrite H1; [exact E|]. apply Nat.leb_le. exact C.
  - destruct S as [S|S]; [|exact S]. rewrite E in S. apply Nat.leb_gt in C. specialize (H2 s HP S). lia.
Qed.
Lemma dumps_depth indent d v s : tag_ok v -> dumps indent v = Ok s ->
  dumps_d indent d v = if (height v <=? d)%nat then Ok s else Stack.
Proof.
  destruct indent as [i|]; unfold dumps, dumps_d; intros T E.
  - exact (sub_exact _ _ d (height v) _ (format_d_sub i d 0 v) (format_d_enough i d 0 v)
             (fun s => format_d_needs i d 0 v s) s T E).
  - exact (sub_exact _ _ d (height v) _ (dump_d_sub d v) (dump_d_enough d v) (fun s => dump_d_needs d v s) s T E).
Qed.
Lemma dumps_enough indent d v : (height v <= d)%nat -> dumps_d indent d v = dumps indent v.
Proof. destruct indent; [apply format_d_enough|apply dump_d_enough]. Qed.

(** ** Copies *)
Lemma copy_elems_sub f g l : (forall v, sub (f v) (g v)) -> sub (copy_elems f l) (copy_elems g l).
Proof.
  intros H. induction l as [|v l IH]; cbn [copy_elems]; [apply sub_refl|].
  apply sub_bind; [apply H|]. intros a. apply sub_bind; [exact IH|]. intros; apply sub_refl.
Qed.
Lemma copy_members_sub f g m : (forall v, sub (f v) (g v)) -> sub (copy_members f m) (copy_members g m).
Proof.
  intros H. induction m as [|[k v] l IH]; cbn [copy_members]; [apply sub_refl|].
  apply sub_bind; [apply H|]. intros a. apply sub_bind; [exact IH|]. intros; apply sub_refl.
Qed.
Lemma copy_elems_same f g l : Forall (fun v => f v = g v) l -> copy_elems f l = copy_elems g l.
Proof. induction 1 as [|v l E H IH]; cbn [copy_elems]; [reflexivity|]. rewrite E, IH. reflexivity. Qed.
Lemma copy_members_same f g m : Forall (fun kv => f (snd kv) = g (snd kv)) m -> copy_members f m = copy_members g m.
Proof. induction 1 as [|[k v] l E H IH]; cbn [copy_members]; [reflexivity|]. cbn [snd] in E. rewrite E, IH. reflexivity. Qed.
Lemma copy_elems_fine f l : forall s, copy_elems f l = Ok s -> Forall (fun v => exists w, f v = Ok w) l.
Proof.
  induction l as [|v l IH]; intros s Hs; [constructor|]. cbn [copy_elems] in Hs. inv Hs. inv Hs.
  constructor; [exists a; assumption|eapply IH; eassumption].
Qed.
Lemma copy_members_fine f m : forall s, copy_members f m = Ok s -> Forall (fun kv => exists w, f (snd kv) = Ok w) m.
Proof.
  induction m as [|[k v] l IH]; intros s Hs; [constructor|]. cbn [copy_members] in Hs. inv Hs. inv Hs.
  constructor; [exists a; assumption|eapply IH; eassumption].
Qed.
Lemma copy_d_sub d : forall v, sub (copy_d d v) (copy v).
Proof.
  induction d as [|d IH]; intros v; [right; reflexivity|].
  destruct v as [t s|t [l|]|t [m|]]; cbn [copy_d copy]; try apply sub_refl; apply sub_bind; intros; try apply sub_refl.
  - apply copy_elems_sub, IH.
  - apply copy_members_sub, IH.
Qed.
Lemma copy_d_enough d : forall v, (height v <= d)%nat -> copy_d d v = copy v.
Proof.
  induction d as [|d IH]; intros v H; [pose proof (height_pos v); lia|].
  destruct v as [t s|t [l|]|t [m|]]; cbn [copy_d copy]; try reflexivity.
  - rewrite (copy_elems_same _ copy); [reflexivity|].
    apply height_arr in H. eapply Forall_impl; [|exact H]. intros a. apply IH.
  - rewrite (copy_members_same _ copy); [reflexivity|].
    apply height_obj in H. eapply Forall_impl; [|exact H]. intros a. apply IH.
Qed.
Lemma copy_d_needs d : forall v w, copy_d d v = Ok w -> (height v <= d)%nat.
Proof.
  induction d as [|d IH]; intros v w H; [discriminate H|].
  destruct v as [t s|t [l|]|t [m|]]; cbn [copy_d] in H; try discriminate H; [cbn [height]; lia| |].
  - apply height_arr. inv H. apply copy_elems_fine in E. eapply Forall_impl; [|exact E]. intros x (w' & Hw). exact (IH _ _ Hw).
  - apply height_obj. inv H. apply copy_members_fine in E. eapply Forall_impl; [|exact E]. intros x (w' & Hw). exact (IH _ _ Hw).
Qed.
Lemma copy_depth d v w : copy v = Ok w -> copy_d d v = if (height v <=? d)%nat then Ok w else Stack.
Proof.
  intros E. exact (sub_exact _ _ d (height v) True (copy_d_sub d v) (copy_d_enough d v) (fun s _ => copy_d_needs d v s) w Logic.I E).
Qed.

(** ** Comparison *)
Lemma eq_elems_sub f g l : (forall v w, sub (f v w) (g v w)) -> forall r, sub (eq_elems f l r) (eq_elems g l r).
Proof.
  intros H. induction l as [|v l IH]; intros [|w r]; cbn [eq_elems]; try apply sub_refl.
  apply sub_bind; [apply H|]. intros []; [apply IH|apply sub_refl].
Qed.
Lemma eq_members_sub f g l : (forall v w, sub (f v w) (g v w)) -> forall r, sub (eq_members f l r) (eq_members g l r).
Proof.
  intros H. induction l as [|[k v] l IH]; intros [|[k' w] r]; cbn [eq_members]; try apply sub_refl.
  destruct (bytes_eqb k k'); [|apply sub_refl].
  apply sub_bind; [apply H|]. intros []; [apply IH|apply sub_refl].
Qed.
Lemma v_eq_d_sub d : forall v w, sub (v_eq_d d v w) (v_eq v w).
Proof.
  induction d as [|d IH]; intros v w; [right; reflexivity|].
  destruct v as [t s|t p|t p]; cbn [v_eq_d v_eq]; destruct (negb _); try apply sub_refl; cbn [type_of]; destruct t; try apply sub_refl;
    (destruct p as [l|]; [|apply sub_refl]); apply sub_bind; intros; try apply sub_refl.
  - unfold eq_array. destruct (Nat.eqb _ _); [apply eq_elems_sub, IH|apply sub_refl].
  - unfold eq_object. destruct (Nat.eqb _ _); [apply eq_members_sub, IH|apply sub_refl].
Qed.
Lemma eq_elems_same f g l : forall r, (forall v w, In v l -> In w r -> f v w = g v w) -> eq_elems f l r = eq_elems g l r.
Proof.
  induction l as [|v l IH]; intros [|w r] H; cbn [eq_elems]; try reflexivity.
  rewrite (H v w (or_introl eq_refl) (or_introl eq_refl)). destruct (g v w) as [[]| | | | ]; cbn; try reflexivity.
  apply IH. intros a b Ha Hb. apply H; right; assumption.
Qed.
Lemma eq_members_same f g l : forall r,
  (forall v w, In v l -> In w r -> f (snd v) (snd w) = g (snd v) (snd w)) -> eq_members f l r = eq_members g l r.
Proof.
  induction l as [|[k v] l IH]; intros [|[k' w] r] H; cbn [eq_members]; try reflexivity.
  destruct (bytes_eqb k k'); [|reflexivity].
  pose proof (H (k, v) (k', w) (or_introl eq_refl) (or_introl eq_refl)) as E. cbn [snd] in E. rewrite E.
  destruct (g v w) as [[]| | | | ]; cbn; try reflexivity.
  apply IH. intros a b Ha Hb. apply H; right; assumption.
Qed.
(** the shallower of the two decides *)
Lemma v_eq_d_enough d : forall v w, (height v <= d \/ height w <= d)%nat -> v_eq_d d v w = v_eq v w.
Proof.
  induction d as [|d IH]; intros v w H; [pose proof (height_pos v); pose proof (height_pos w); lia|].
  destruct v as [t s|t p|t p]; cbn [v_eq_d v_eq]; destruct (negb _); try reflexivity; cbn [type_of]; destruct t; try reflexivity;
    (destruct p as [l|]; [|reflexivity]).
  - destruct w as [t' s'|t' [r|]|t' [m|]]; cbn [get_arr bind]; try reflexivity.
    unfold eq_array. destruct (Nat.eqb _ _); [|reflexivity]. apply eq_elems_same. intros a b Ha Hb. apply IH.
    rewrite !height_arr, !Forall_forall in H. destruct H as [H|H]; [left; exact (H a Ha)|right; exact (H b Hb)].
  - destruct w as [t' s'|t' [r|]|t' [m|]]; cbn [get_obj bind]; try reflexivity.
    unfold eq_object. destruct (Nat.eqb _ _); [|reflexivity]. apply eq_members_same. intros a b Ha Hb. apply IH.
    rewrite !height_obj, !Forall_forall in H. destruct H as [H|H]; [left; exact (H a Ha)|right; exact (H b Hb)].
Qed.
Lemma eq_elems_true f l : forall r, eq_elems f l r = Ok true -> (length l <= length r)%nat ->
  Forall (fun v => exists w, f v w = Ok true) l.
Proof.
  induction l as [|v l IH]; intros r H L; [constructor|]. destruct r as [|w r]; [cbn in L; lia|].
  cbn [eq_elems] in H. inv H. destruct a; [|discriminate H]. constructor; [exists w; exact E|].
  apply (IH r H). cbn in L. lia.
Qed.
Lemma eq_members_true f l : forall r, eq_members f l r = Ok true -> (length l <= length r)%nat ->
  Forall (fun v => exists w, f (snd v) w = Ok true) l.
Proof.
  induction l as [|[k v] l IH]; intros r H L; [constructor|]. destruct r as [|[k' w] r]; [cbn in L; lia|].
  cbn [eq_members] in H. destruct (bytes_eqb k k'); [|discriminate H]. inv H. destruct a; [|discriminate H].
  constructor; [exists w; exact E|]. apply (IH r H). cbn in L. lia.
Qed.
Lemma v_eq_d_needs d : forall v w, tag_ok v -> v_eq_d d v w = Ok true -> (height v <= d)%nat.
Proof.
  induction d as [|d IH]; intros v w T H; [discriminate H|]. cbn [v_eq_d] in H.
  destruct (negb _); [discriminate H|].
  inversion T as [t x A B|l F|  |m F| ]; subst; cbn [type_of] in H; try discriminate H; [cbn [height]; lia| |].
  - apply height_arr. inv H. unfold eq_array in H. destruct (Nat.eqb _ _) eqn:L; [|discriminate H]. apply Nat.eqb_eq in L.
    apply eq_elems_true in H; [|lia]. rewrite Forall_forall in *. intros x Hx. destruct (H x Hx) as (y & Hy).
    exact (IH x y (F x Hx) Hy).
  - apply height_obj. inv H. unfold eq_object in H. destruct (Nat.eqb _ _) eqn:L; [|discriminate H]. apply Nat.eqb_eq in L.
    apply eq_members_true in H; [|lia]. rewrite Forall_forall in *. intros x Hx. destruct (H x Hx) as (y & Hy).
    exact (IH _ y (F x Hx) Hy).
Qed.
Lemma eq_depth d v w : tag_ok v -> v_eq v w = Ok true -> v_eq_d d v w = if (height v <=? d)%nat then Ok true else Stack.
Proof.
  intros T E. destruct (height v <=? d)%nat eqn:C.
  - rewrite v_eq_d_enough; [exact E|]. left. apply Nat.leb_le. exact C.
  - destruct (v_eq_d_sub d v w) as [H|H]; [|exact H]. rewrite E in H. apply v_eq_d_needs in H; [|exact T].
    apply Nat.leb_gt in C. lia.
Qed.

(** ** Destruction *)
Lemma each_d_ok {A} (f : A -> res unit) l : each_d f l = Ok tt <-> Forall (fun x => f x = Ok tt) l.
Proof.
  induction l as [|x l IH]; cbn [each_d]; [split; [constructor|reflexivity]|]. split; intros H.
  - inv H. destruct a. constructor; [exact E|apply IH, H].
  - inversion H as [|? ? E F]; subst. rewrite E. cbn. apply IH, F.
Qed.
Lemma each_d_cases {A} (f : A -> res unit) l : Forall (fun x => f x = Ok tt \/ f x = Stack) l ->
  each_d f l = Ok tt \/ each_d f l = Stack.
Proof.
  induction 1 as [|x l [E|E] H IH]; cbn [each_d]; [left; reflexivity| |]; rewrite E; cbn; [exact IH|right; reflexivity].
Qed.
Lemma destroy_cases d : forall v, destroy_d d v = Ok tt \/ destroy_d d v = Stack.
Proof.
  induction d as [|d IH]; intros v; [right; reflexivity|].
  destruct v as [t s|t [l|]|t [m|]]; cbn [destroy_d]; try (left; reflexivity); apply each_d_cases, Forall_forall; intros; apply IH.
Qed.
Lemma destroy_iff d : forall v, destroy_d d v = Ok tt <-> (height v <= d)%nat.
Proof.
  induction d as [|d IH]; intros v; [split; intros H; [discriminate H|pose proof (height_pos v); lia]|].
  destruct v as [t s|t [l|]|t [m|]]; cbn [destroy_d]; try (split; intros; [cbn [height]; lia|reflexivity]).
  - rewrite height_arr, each_d_ok. split; intros H; (eapply Forall_impl; [|exact H]); intros a; apply IH.
  - rewrite height_obj, each_d_ok. split; intros H; (eapply Forall_impl; [|exact H]); intros a; apply IH.
Qed.
Lemma destroy_depth d v : destroy_d d v = if (height v <=? d)%nat then Ok tt else Stack.
Proof.
  destruct (height v <=? d)%nat eqn:C.
  - apply destroy_iff. apply Nat.leb_le. exact C.
  - destruct (destroy_cases d v) as [H|H]; [|exact H]. apply destroy_iff in H. apply Nat.leb_gt in C. lia.
Qed.
