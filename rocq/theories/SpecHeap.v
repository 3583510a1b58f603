(** * Vocabulary for the properties of the heap model. *)
From Verif Require Import Base Value Containers Dump Api SpecApi Heap.

Definition live (h : heap) (a : addr) : Prop := exists n, nth_error h a = Some (Some n).
(** [holds h x v fp]: in the heap [h], [x] is the root of the tree [v], whose nodes are at the
    addresses [fp] (with repetition, if a node is shared) *)
Section Holds.
  Context (h : heap).
  Inductive holds : hval -> value -> list addr -> Prop :=
  | ho_str t s : holds (HStr t s) (VStr t s) []
  | ho_arr_null t : holds (HArr t None) (VArr t None) []
  | ho_obj_null t : holds (HObj t None) (VObj t None) []
  | ho_arr t a l vs fp : nth_error h a = Some (Some (NArr l)) -> holds_all l vs fp ->
      holds (HArr t (Some a)) (VArr t (Some vs)) (a :: fp)
  | ho_obj t a m ms fp : nth_error h a = Some (Some (NObj m)) -> map fst m = map fst ms ->
      holds_all (map snd m) (map snd ms) fp -> holds (HObj t (Some a)) (VObj t (Some ms)) (a :: fp)
  with holds_all : list hval -> list value -> list addr -> Prop :=
  | ho_nil : holds_all [] [] []
  | ho_cons x v fp l vs fps : holds x v fp -> holds_all l vs fps -> holds_all (x :: l) (v :: vs) (fp ++ fps).
End Holds.
(** The variables hold the values of the store; every live node belongs to exactly one of
    them, exactly once: nothing is shared and nothing has leaked. *)
Definition sim (hs : hstate) (st : store) : Prop :=
  exists fp, holds_all (hp hs) (roots hs) st fp /\ NoDup fp /\ forall a, live (hp hs) a -> In a fp.

(** The command moves a value into a part of itself. *)
Definition moves_into_part (c : cmd) : Prop :=
  match c with
  | CAssign dst (MRef src) => strictly_inside src dst
  | CEmplace dst (MRef src) => within src dst = true
  | CEmplaceKey dst k (MRef src) => within src dst = true
  | COr dst src true | CPlus dst src true => strictly_inside src dst
  | COrNew lhs src true true | CPlusNew lhs src true true => strictly_inside src lhs
  | _ => False
  end.
(** the variables a command may modify: through the reference it is called on, or by moving *)
Fixpoint expr_moves (e : expr) : list nat :=
  match e with
  | EMove l => [slot l]
  | EArr es => flat_map expr_moves es
  | EObj ms => flat_map (fun ke => expr_moves (snd ke)) ms
  | _ => []
  end.
Definition arg_moves (a : arg) : list nat :=
  match a with Tmp e => expr_moves e | CRef _ => [] | MRef l => [slot l] end.
Definition writes (c : cmd) : list nat :=
  match c with
  | CNew e => expr_moves e
  | CAssign dst a | CEmplace dst a | CEmplaceKey dst _ a => slot dst :: arg_moves a
  | COr dst src _ | CPlus dst src _ => [slot dst; slot src]
  | COrNew lhs src ml _ | CPlusNew lhs src ml _ => if ml then [slot lhs; slot src] else [slot src]
  | CInvoke l _ => [slot l]
  | CAsk _ _ | CEq _ _ => []
  end.
(** the references a command is given *)
Definition arg_refs (a : arg) : list loc := match a with Tmp _ => [] | CRef l | MRef l => [l] end.
Definition refs (c : cmd) : list loc :=
  match c with
  | CNew _ => []
  | CAssign dst a | CEmplace dst a | CEmplaceKey dst _ a => dst :: arg_refs a
  | COr dst src _ | CPlus dst src _ => [dst; src]
  | COrNew lhs src _ _ | CPlusNew lhs src _ _ => [lhs; src]
  | CInvoke l _ | CAsk l _ => [l]
  | CEq a b => [a; b]
  end.
Definition refs_valid (st : store) (c : cmd) : Prop := Forall (fun l => read st l <> None) (refs c).
(** no other variable changes; none disappears *)
Definition unchanged (W : list nat) (st st' : store) : Prop :=
  (length st <= length st')%nat /\ forall i v, nth_error st i = Some v -> ~ In i W -> nth_error st' i = Some v.
(** a run of a program on the heap; the program catches every exception *)
Inductive hhistory : hstate -> list cmd -> hstate -> Prop :=
| hh_nil hs : hhistory hs [] hs
| hh_step hs c hs1 r cs hs2 :
    hexec c hs = HDone hs1 r -> r <> Ub -> hhistory hs1 cs hs2 -> hhistory hs (c :: cs) hs2.
(** a program on the trees whose references name values and which moves nothing into a part
    of itself *)
Inductive sound_history : store -> list cmd -> store -> Prop :=
| sh_nil st : sound_history st [] st
| sh_step st c st1 r cs st2 : refs_valid st c -> ~ moves_into_part c -> exec c st = Done st1 r -> r <> Ub ->
    sound_history st1 cs st2 -> sound_history st (c :: cs) st2.
(** The command is such a step for the values the variables hold. *)
Definition legal (hs : hstate) (c : cmd) : Prop :=
  exists st st' r, sim hs st /\ refs_valid st c /\ ~ moves_into_part c /\ exec c st = Done st' r /\ r <> Ub.
(** A run on the heap, with any allocation failures; the program catches std::bad_alloc. *)
Inductive legal_run : hstate -> list cmd -> hstate -> Prop :=
| lr_nil hs : legal_run hs [] hs
| lr_step hs c hs1 r cs hs2 : legal hs c -> hexec c hs = HDone hs1 r -> legal_run hs1 cs hs2 -> legal_run hs (c :: cs) hs2.
(** neither is part of the other *)
Definition apart (a b : loc) : Prop := within a b = false /\ within b a = false.
(** the values a command may modify, see [writes] *)
Fixpoint expr_takes (e : expr) : list loc :=
  match e with
  | EMove l => [l]
  | EArr es => flat_map expr_takes es
  | EObj ms => flat_map (fun ke => expr_takes (snd ke)) ms
  | _ => []
  end.
Definition arg_takes (a : arg) : list loc :=
  match a with Tmp e => expr_takes e | CRef _ => [] | MRef l => [l] end.
Definition targets (c : cmd) : list loc :=
  match c with
  | CNew e => expr_takes e
  | CAssign dst a | CEmplace dst a => dst :: arg_takes a
  | CEmplaceKey dst _ a => dst :: arg_takes a
  | COr dst src _ | CPlus dst src _ => [dst; src]
  | COrNew lhs src ml _ | CPlusNew lhs src ml _ => if ml then [lhs; src] else [src]
  | CInvoke l _ => [l]
  | CAsk _ _ | CEq _ _ => []
  end.
(** every reference a command is given, also inside the expression of a temporary *)
Fixpoint expr_copies (e : expr) : list loc :=
  match e with
  | ECopy l | EMove l => [l]
  | EArr es => flat_map expr_copies es
  | EObj ms => flat_map (fun ke => expr_copies (snd ke)) ms
  | _ => []
  end.
Definition arg_copies (a : arg) : list loc := match a with Tmp e => expr_copies e | _ => [] end.
Definition cmd_copies (c : cmd) : list loc :=
  match c with
  | CNew e => expr_copies e
  | CAssign _ a | CEmplace _ a | CEmplaceKey _ _ a => arg_copies a
  | _ => []
  end.
Definition names_exist (st : store) (c : cmd) : Prop := Forall (fun l => read st l <> None) (refs c ++ cmd_copies c).
(** tags, pointers and member names as the constructors leave them *)
Definition sound (v : value) : Prop := tag_ok v /\ owned v /\ keys_ok v.
(** the discipline of a program that moves nothing; [clean_run]: additionally its references
    name values and its calls are no misuse *)
Definition moves_nothing (c : cmd) : Prop :=
  cmd_literals (fun t _ => t <> Tarray /\ t <> Tobject) c /\ cmd_no_move c /\ ~ copies_into_part c.
Inductive clean_run : hstate -> list cmd -> hstate -> Prop :=
| cr_nil hs : clean_run hs [] hs
| cr_step hs st c hs1 r cs hs2 : sim hs st -> names_exist st c -> ~ misuse st c -> hexec c hs = HDone hs1 r ->
    clean_run hs1 cs hs2 -> clean_run hs (c :: cs) hs2.
(** With sound values before it, the command fails with std::bad_alloc and leaves a value whose
    tag does not match its payload. *)
Definition tag_lost_by (c : cmd) : Prop :=
  exists hs st hs' st', sim hs st /\ Forall sound st /\ legal hs c /\
    hexec c hs = HDone hs' (Throw BadAlloc) /\ sim hs' st' /\ ~ Forall tag_ok st'.
