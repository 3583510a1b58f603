(** * What a reading function may do when memory runs out. Definitions only. *)
From Verif Require Import Base Value Enum Conv Faults.

(** No failure in the list: *)
Definition enough (s : list bool) : Prop := ~ In true s.
(** The outcome is the one there would be with unlimited memory, or else memory did run out and bad_alloc is thrown. *)
Definition same_or_bad_alloc {A} (spec : res A) (s : list bool) (o : outcome A) : Prop :=
  o = Res spec \/ (o = Res (Throw BadAlloc) /\ ~ enough s).
(** A run that was given the list [s] and has left [s'] of it: every request it made was met; the last one failed, and none before it. *)
Definition all_met (s s' : list bool) : Prop := exists p, enough p /\ s = p ++ s'.
Definition last_failed (s s' : list bool) : Prop := exists p, enough p /\ s = p ++ true :: s'.
(** A request that fails ends the run, with bad_alloc or the program. *)
Definition noticed {A} (s s' : list bool) (o : outcome A) : Prop :=
  all_met s s' \/ (last_failed s s' /\ (o = Res (Throw BadAlloc) \/ o = Ended)).
(** The fields of a struct some of which have been given new values, from the first one on. *)
Definition assigned_up_to (n : nat) (old new : list data) : list data := firstn n new ++ skipn n old.

Section Ends.
  Context (short : nat).
  (** data that own memory: characters that do not fit into the string, elements, members, what a pointer or std::optional has *)
  Fixpoint holds_memory (d : data) : bool :=
    match d with
    | DStr s | DJson (VStr _ s) => Nat.ltb short (length s)
    | DJson (VArr _ _) | DJson (VObj _ _) => true
    | DArr (_ :: _) | DSeq (_ :: _) => true
    | DObj (_ :: _) | DMap (_ :: _) => true
    | DOpt o => match o with Some _ => true | None => false end
    | DAlt _ d' => holds_memory d'
    | DRec l => existsb holds_memory l
    | _ => false
    end.
  (** Types whose is<T>() requests memory: structs with a key that does not fit into a std::string without, or with members
      that own memory from the start; classes with functions of their own; what is made of these. *)
  Fixpoint is_requests (t : ty) : bool :=
    match t with
    | TRec fs =>
        existsb holds_memory (map (fun ft => f_default (fst ft)) fs) || existsb (fun ft => (short <? length (json_key (fst ft)))%nat || is_requests (snd ft)) fs
    | TExt _ => true
    | TOpt t' | TPtr t' | TVec t' | TColl _ t' | TFix _ t' | TMap t' => is_requests t'
    | TTup ts | TVar ts => existsb is_requests ts
    | _ => false
    end.
  (** Types whose as<T>() asks is<U>() of such a type U: a member of a struct, an alternative of a std::variant *)
  Fixpoint as_asks (t : ty) : bool :=
    match t with
    | TRec fs => existsb (fun ft => is_requests (snd ft) || as_asks (snd ft)) fs
    | TVar ts => existsb (fun t' => is_requests t' || as_asks t') ts
    | TOpt t' | TPtr t' | TVec t' | TColl _ t' | TFix _ t' | TMap t' => as_asks t'
    | TTup ts => existsb as_asks ts
    | _ => false
    end.
End Ends.
