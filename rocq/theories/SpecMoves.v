(** * Programs that move values and do not touch what they have moved from. *)
From Verif Require Import Base Value Containers Api SpecApi Heap SpecHeap.

(** the reference names a value that has not been moved from; parts of it may have been *)
Definition present (st : store) (l : loc) : Prop :=
  exists v, read st l = Some v /\ match v with VArr _ None | VObj _ None => False | _ => True end.
(** the reference names a value no part of which has been moved from *)
Definition whole (st : store) (l : loc) : Prop := exists v, read st l = Some v /\ owned v.
(** the references in an expression; [true]: the value is moved from *)
Fixpoint expr_refs (e : expr) : list (loc * bool) :=
  match e with
  | ECopy l => [(l, false)]
  | EMove l => [(l, true)]
  | EArr es => flat_map expr_refs es
  | EObj ms => flat_map (fun ke => expr_refs (snd ke)) ms
  | _ => []
  end.
(** nothing that is moved from is mentioned a second time *)
Definition moved_once (us : list (loc * bool)) : Prop :=
  ForallOrdPairs (fun a b => snd a = true \/ snd b = true -> apart (fst a) (fst b)) us.
(** The elements of an initializer list are copied. *)
Definition expr_ready (st : store) (e : expr) : Prop :=
  moved_once (expr_refs e) /\
  match e with
  | EMove l => read st l <> None
  | _ => Forall (fun u => whole st (fst u)) (expr_refs e)
  end.
Definition arg_ready (st : store) (dst : loc) (a : arg) : Prop :=
  match a with
  | Tmp e => expr_ready st e /\ Forall (fun l => within l dst = false) (expr_takes e)
  | CRef l => whole st l
  | MRef l => read st l <> None
  end.
(** the value at [dst] is replaced by what is moved out of a part of it; see C38 *)
Definition part_ready (st : store) (dst : loc) (a : arg) : Prop :=
  match a with
  | MRef src => strictly_inside dst src -> exists d w, read st dst = Some d /\ read st src = Some w /\ same_alternative d w = true
  | _ => True
  end.
Definition deep (q : query) : bool := match q with QCopy | QDumps _ => true | _ => false end.
(** Whatever the command reads has not been moved from. A value that has been can be assigned to,
    moved and cleared. *)
Definition ready (st : store) (c : cmd) : Prop :=
  match c with
  | CNew e => expr_ready st e
  | CAssign dst a => read st dst <> None /\ arg_ready st dst a /\ part_ready st dst a
  | CEmplace dst a => present st dst /\ arg_ready st dst a
  | CEmplaceKey dst k a => present st dst /\ arg_ready st dst a /\ part_ready st (sub dst (Key k)) a
  | COr dst src mv | CPlus dst src mv =>
      present st dst /\ (if mv then present st src else whole st src)
  | COrNew lhs src ml mr | CPlusNew lhs src ml mr =>
      (if ml then present st lhs else whole st lhs) /\ (if mr then present st src else whole st src)
  | CInvoke l MClear => read st l <> None
  | CInvoke l _ => present st l
  | CAsk l q => if deep q then whole st l else present st l
  | CEq a b => whole st a /\ whole st b
  end.
(** what such programs are made of *)
Definition careful (c : cmd) : Prop :=
  cmd_literals (fun t _ => t <> Tarray /\ t <> Tobject) c /\ ~ copies_into_part c /\ ~ moves_into_part c.
Inductive careful_run : hstate -> list cmd -> hstate -> Prop :=
| cf_nil hs : careful_run hs [] hs
| cf_step hs st c hs1 r cs hs2 : sim hs st -> ready st c -> ~ misuse st c -> hexec c hs = HDone hs1 r ->
    careful_run hs1 cs hs2 -> careful_run hs (c :: cs) hs2.
(** No part of the value has been moved from, as far as that can be seen: no null pointer, and no number or
    boolean without a text. *)
Inductive no_leftover : value -> Prop :=
| nl_str t s : (t = Tnumber \/ t = Tboolean -> s <> []) -> no_leftover (VStr t s)
| nl_arr t l : Forall no_leftover l -> no_leftover (VArr t (Some l))
| nl_obj t m : Forall (fun kv => no_leftover (snd kv)) m -> no_leftover (VObj t (Some m)).
