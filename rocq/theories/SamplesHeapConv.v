(** * Samples for converting data on the heap. *)
From Verif Require Import Base Value Conv Enum Api Heap HeapConv SamplesApi SamplesConv SamplesHeap SamplesHeapParse.

(** struct { int id; std::map<std::string, std::vector<Color>> flags; }; the last colour may have no name *)
Definition p_type : ty := TRec [(f_id, TInt true 32); (f_flags, TMap (TVec (TEnum color)))].
Definition p_data (c : Z) : data :=
  DRec [DInt 7; DMap [(ka, DSeq [DInt 2; DInt 7]); (kb, DSeq [DInt c])]].
(** all patterns in which one of the first [n] allocations fails *)
Fixpoint one_failure (n : nat) : list (list bool) := match n with O => [] | S n' => [true] :: map (cons false) (one_failure n') end.
Definition fails_clean (m : hM unit) (fl : list bool) : bool :=
  match m (two_heap_failing fl) with HDone _ (Throw BadAlloc) => Nat.eqb (alive (m (two_heap_failing fl))) 3 | _ => false end.
