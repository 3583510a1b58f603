(** * Samples for parsing on the heap. *)
From Verif Require Import Base Value Spec Heap.

(** the number of live nodes *)
Definition alive {A} (o : hout A) : nat := match o with HDone hs _ => length (filter (fun n => match n with Some _ => true | None => false end) (hp hs)) | HStuck => 0%nat end.
Definition doc (k : string) : bytes := of_string "{""a"": [1, [], ""x""], """ ++ of_string k ++ of_string """: 2}".
Lemma doc_bytes : Forall is_byte (doc "b").
Proof. apply Forall_forall. intros b H. apply N.ltb_lt. revert b H. apply forallb_forall. vm_compute. reflexivity. Qed.
