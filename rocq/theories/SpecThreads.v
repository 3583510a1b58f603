(** * Programs that share variables. *)
From Verif Require Import Base Value Containers Dump Api SpecApi Heap SpecHeap.

(** A program counts its own variables 0, 1, ...; [tab] says which variables of the whole store they are. *)
Definition ren (tab : list nat) (i : nat) : nat := nth i tab O.
Definition ren_loc (tab : list nat) (l : loc) : loc := Loc (ren tab (slot l)) (steps l).
Fixpoint ren_expr (tab : list nat) (e : expr) : expr :=
  match e with
  | ECopy l => ECopy (ren_loc tab l)
  | EMove l => EMove (ren_loc tab l)
  | EArr es => EArr (map (ren_expr tab) es)
  | EObj ms => EObj (map (fun ke => (fst ke, ren_expr tab (snd ke))) ms)
  | _ => e
  end.
Definition ren_arg (tab : list nat) (a : arg) : arg :=
  match a with Tmp e => Tmp (ren_expr tab e) | CRef l => CRef (ren_loc tab l) | MRef l => MRef (ren_loc tab l) end.
Definition ren_cmd (tab : list nat) (c : cmd) : cmd :=
  match c with
  | CNew e => CNew (ren_expr tab e)
  | CAssign d a => CAssign (ren_loc tab d) (ren_arg tab a)
  | CEmplace d a => CEmplace (ren_loc tab d) (ren_arg tab a)
  | CEmplaceKey d k a => CEmplaceKey (ren_loc tab d) k (ren_arg tab a)
  | COr d s mv => COr (ren_loc tab d) (ren_loc tab s) mv
  | CPlus d s mv => CPlus (ren_loc tab d) (ren_loc tab s) mv
  | COrNew l s ml mr => COrNew (ren_loc tab l) (ren_loc tab s) ml mr
  | CPlusNew l s ml mr => CPlusNew (ren_loc tab l) (ren_loc tab s) ml mr
  | CInvoke l m => CInvoke (ren_loc tab l) m
  | CAsk l q => CAsk (ren_loc tab l) q
  | CEq a b => CEq (ren_loc tab a) (ren_loc tab b)
  end.
(** the variables a command names *)
Definition uses (c : cmd) : list nat := map slot (refs c ++ cmd_copies c).
(** through the table, [g] looks like [st] *)
Definition shows (tab : list nat) (g st : store) : Prop := map (nth_error g) tab = map (@Some value) st.
(** the variables made since there were [n] *)
Definition made (n : nat) (g : store) : list nat := seq n (length g - n).

(** ** Threads: each statement of one is executed at once, in any order. *)
Record thread : Type := Thread { names : list nat; code : list cmd; said : list (res unit) }.
Inductive turn : store -> list thread -> store -> list thread -> Prop :=
| tu_step g a tab c cs rs b g' r : Forall (fun i => i < length tab)%nat (uses c) -> exec (ren_cmd tab c) g = Done g' r ->
    turn g (a ++ Thread tab (c :: cs) rs :: b) g' (a ++ Thread (tab ++ made (length g) g') cs (rs ++ [r]) :: b).
Inductive turns : store -> list thread -> store -> list thread -> Prop :=
| ts_done g ts : turns g ts g ts
| ts_turn g ts g1 ts1 g2 ts2 : turn g ts g1 ts1 -> turns g1 ts1 g2 ts2 -> turns g ts g2 ts2.
(** a program that runs alone *)
Inductive alone : store -> list cmd -> store -> list (res unit) -> Prop :=
| al_nil st : alone st [] st []
| al_step st c st1 r cs st2 rs : exec c st = Done st1 r -> alone st1 cs st2 rs -> alone st (c :: cs) st2 (r :: rs).
(** What one thread changes, no other thread knows. Variables that nobody changes may be shared. *)
Definition race_free (ts : list thread) : Prop :=
  forall i j t u k, i <> j -> nth_error ts i = Some t -> nth_error ts j = Some u -> In k (flat_map writes (code t)) ->
    (k < length (names t))%nat -> ~ In (ren (names t) k) (names u).
(** the tables name variables that exist, each once *)
Definition placed (g : store) (ts : list thread) : Prop :=
  Forall (fun t => NoDup (names t) /\ Forall (fun i => i < length g)%nat (names t) /\ said t = []) ts.

(** the other variables replaced by null *)
Definition only (U : list nat) (st : store) : store :=
  map (fun iv => if in_dec Nat.eq_dec (fst iv) U then snd iv else v_null) (combine (seq 0 (length st)) st).
(** the same heap with nodes that have been deleted *)
Definition fewer (h h' : heap) : Prop := forall a, nth_error h' a = nth_error h a \/ (nth_error h' a = Some None /\ nth_error h a <> None).
