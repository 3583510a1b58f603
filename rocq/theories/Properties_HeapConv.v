(** * C72: converting C++ data to a value when memory runs out *)
From Verif Require Import Base Value Conv Enum Api Spec SpecApi SpecEffects Heap SpecHeap HeapConv SpecHeapConv HeapConvTheorems SamplesApi SamplesConv SamplesHeap SamplesHeapParse SamplesHeapConv.

(** C72. json::value x(data): whatever allocations fail, one more value is made that shares nothing with the
    others; or what the conversion throws, or std::bad_alloc, is thrown and
    everything that had been built is freed. *)
Theorem C72_construct : forall E t d hs st, sim hs st -> convertible (to_value E t d) ->
  converted (to_value E t d) hs (h_to_value E t d hs) (fun v hs' => sim hs' (st ++ [v])) (fun hs' => sim hs' st).
Proof. exact data_new. Qed.
Print Assumptions C72_construct.
(** x = data: x has the new value or the old one *)
Theorem C72_assign : forall E dst t d hs st w, sim hs st -> read st dst = Some w -> convertible (to_value E t d) ->
  converted (to_value E t d) hs (h_assign_data E dst t d hs) (fun v hs' => exists st', puts st dst v st' /\ sim hs' st') (fun hs' => sim hs' st).
Proof. exact data_assigned. Qed.
Print Assumptions C72_assign.
(** x.emplace(data): the element is appended, or the elements are as they were and x is an array, perhaps one without pointer *)
Theorem C72_emplace : forall E dst t d hs st w l, sim hs st -> read st dst = Some w -> elements_of w = Some l -> convertible (to_value E t d) ->
  converted (to_value E t d) hs (h_emplace_data E dst t d hs) (fun v hs' => exists st', puts st dst (VArr Tarray (Some (l ++ [v]))) st' /\ sim hs' st')
    (fun hs' => exists x st', (x = VArr Tarray (Some l) \/ x = set_tag Tarray w) /\ puts st dst x st' /\ sim hs' st').
Proof. exact data_emplaced. Qed.
Print Assumptions C72_emplace.
(** x.emplace(key, data): likewise for members *)
Theorem C72_emplace_key : forall E dst k t d hs st w m, sim hs st -> read st dst = Some w -> members_of w = Some m -> sorted_keys m -> convertible (to_value E t d) ->
  converted (to_value E t d) hs (h_emplace_key_data E dst k t d hs)
    (fun v hs' => exists m' st', represents m' (f_set k (Some v) (pairs m)) /\ puts st dst (VObj Tobject (Some m')) st' /\ sim hs' st')
    (fun hs' => exists x st', (x = VObj Tobject (Some m) \/ x = set_tag Tobject w) /\ puts st dst x st' /\ sim hs' st').
Proof. exact data_inserted. Qed.
Print Assumptions C72_emplace_key.
(** x[key] = data: when it fails no member has been added *)
Theorem C72_index_assign : forall E dst k t d hs st w m, sim hs st -> read st dst = Some w -> members_of w = Some m -> sorted_keys m -> convertible (to_value E t d) ->
  converted (to_value E t d) hs (h_index_assign_data E dst k t d hs)
    (fun v hs' => exists m' st', represents m' (f_set k (Some v) (pairs m)) /\ puts st dst (VObj Tobject (Some m')) st' /\ sim hs' st')
    (fun hs' => exists x st', (x = w \/ x = VObj Tobject (Some m) \/ x = set_tag Tobject w) /\ puts st dst x st' /\ sim hs' st').
Proof. exact data_indexed. Qed.
Print Assumptions C72_index_assign.

(** A struct of an int and a map of vectors of an enumeration: 3 nodes become 7, and 3 again when the last
    enumerator has no name, or when any one of the 21 allocations fails. *)
Example C72_case : sim (two_heap_failing []) two_store /\ convertible (to_value env_names p_type (p_data 1)) /\
  alive (h_to_value env_names p_type (p_data 1) (two_heap_failing [])) = 7%nat.
Proof. split; [apply two_sim|]. split; [left; eexists; vm_compute; reflexivity|vm_compute; reflexivity]. Qed.
Example C72_thrown_case : convertible (to_value env_names p_type (p_data 99)) /\
  alive (h_to_value env_names p_type (p_data 99) (two_heap_failing [])) = 3%nat /\
  (exists hs, h_to_value env_names p_type (p_data 99) (two_heap_failing []) = HDone hs (Throw JsonException)).
Proof. split; [right; eexists; vm_compute; reflexivity|]. split; [vm_compute; reflexivity|]. eexists. vm_compute. reflexivity. Qed.
Example C72_failing_case :
  forallb (fails_clean (h_to_value env_names p_type (p_data 1))) (one_failure 21) = true /\
  forallb (fails_clean (h_assign_data env_names (at_root 0) p_type (p_data 1))) (one_failure 21) = true.
Proof. vm_compute. auto. Qed.
(** targets of the other statements: an array, an object, and null, which becomes either *)
Example C72_target_case :
  (exists v l, read two_store (Loc 0 [Key kb]) = Some v /\ elements_of v = Some l) /\
  (exists w m, read two_store (at_root 0) = Some w /\ members_of w = Some m /\ m <> [] /\ sorted_keys m) /\
  (exists w, read two_store (at_root 1) = Some w /\ elements_of w = Some [] /\ members_of w = Some []).
Proof.
  split; [eexists _, _; split; reflexivity|]. split; [|eexists; repeat split; reflexivity].
  eexists _, _. split; [reflexivity|]. split; [reflexivity|]. split; [discriminate|repeat constructor].
Qed.
(** in each of them an allocation can fail, and the failure loses nothing *)
Example C72_target_failing_case :
  alive (h_emplace_data env_names (Loc 0 [Key kb]) p_type (p_data 1) (two_heap_failing [])) = 7%nat /\
  alive (h_emplace_key_data env_names (at_root 0) ka p_type (p_data 1) (two_heap_failing [])) = 6%nat /\
  alive (h_index_assign_data env_names (at_root 0) n12 p_type (p_data 1) (two_heap_failing [])) = 7%nat /\
  forallb (fails_clean (h_emplace_data env_names (Loc 0 [Key kb]) p_type (p_data 1))) (one_failure 21) = true /\
  forallb (fails_clean (h_emplace_key_data env_names (at_root 0) n12 p_type (p_data 1))) (one_failure 21) = true /\
  forallb (fails_clean (h_index_assign_data env_names (at_root 0) n12 p_type (p_data 1))) (one_failure 21) = true.
Proof. repeat (split; [vm_compute; reflexivity|]). vm_compute. reflexivity. Qed.
