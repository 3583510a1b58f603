(** * What converting C++ data to a value may do to the heap. *)
From Verif Require Import Base Value Conv Api Heap.

(** [r]: what the conversion gives without a heap. Either it succeeds, or it throws what [r] throws or std::bad_alloc. *)
Definition converted (r : res value) (hs : hstate) (out : hout unit) (success : value -> hstate -> Prop) (failure : hstate -> Prop) : Prop :=
  exists hs' a, out = HDone hs' a /\
    ((exists v, r = Ok v /\ a = Ok tt /\ success v hs') \/
     (exists e, r = Throw e /\ a = Throw e /\ failure hs') \/
     (a = Throw BadAlloc /\ fails hs <> [] /\ failure hs')).
(** the data have the type and hold no value whose pointer is null *)
Definition convertible (r : res value) : Prop := (exists v, r = Ok v) \/ (exists e, r = Throw e).
