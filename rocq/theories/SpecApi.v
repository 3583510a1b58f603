(** * Vocabulary for the properties of containers and of histories. *)
From Verif Require Import Base Value Containers Dump Api Spec.

(** The payload matches the type tag, at every depth (a null pointer of the right kind matches). *)
Inductive tag_ok : value -> Prop :=
| tk_str t s : t <> Tarray -> t <> Tobject -> tag_ok (VStr t s)
| tk_arr l : Forall tag_ok l -> tag_ok (VArr Tarray (Some l))
| tk_arr_null : tag_ok (VArr Tarray None)
| tk_obj m : Forall (fun kv => tag_ok (snd kv)) m -> tag_ok (VObj Tobject (Some m))
| tk_obj_null : tag_ok (VObj Tobject None).
(** No null pointer at any depth: nothing was moved away. *)
Inductive owned : value -> Prop :=
| ow_str t s : owned (VStr t s)
| ow_arr t l : Forall owned l -> owned (VArr t (Some l))
| ow_obj t m : Forall (fun kv => owned (snd kv)) m -> owned (VObj t (Some m)).
(** Member names strictly increase, at every depth. *)
Inductive keys_ok : value -> Prop :=
| ko_str t s : keys_ok (VStr t s)
| ko_arr t l : Forall keys_ok l -> keys_ok (VArr t (Some l))
| ko_arr_null t : keys_ok (VArr t None)
| ko_obj t m : Forall (fun kv => keys_ok (snd kv)) m -> sorted_keys m -> keys_ok (VObj t (Some m))
| ko_obj_null t : keys_ok (VObj t None).

(** ** Commands *)
(** [l] lies strictly inside [a] *)
Definition strictly_inside (a l : loc) : Prop :=
  slot l = slot a /\ exists s p, steps l = steps a ++ s :: p.
(** The command assigns, by copy, a value to a part of itself. *)
Definition copies_into_part (c : cmd) : Prop :=
  match c with
  | CAssign dst (CRef src) => strictly_inside src dst
  | CEmplaceKey dst k (CRef src) => strictly_inside src (sub dst (Key k))
  | COr dst src false => strictly_inside src dst
  | COrNew lhs src true false => strictly_inside src lhs
  | _ => False
  end.
(** Every literal of the expression satisfies [A tag text]. *)
Inductive literals (A : vtype -> bytes -> Prop) : expr -> Prop :=
| li_null : literals A ENull
| li_bool b : literals A (EBool b)
| li_num s : A Tnumber s -> literals A (ENum s)
| li_str s : literals A (EStr s)
| li_raw t s : A t s -> literals A (ERaw t s)
| li_copy l : literals A (ECopy l)
| li_move l : literals A (EMove l)
| li_arr es : Forall (literals A) es -> literals A (EArr es)
| li_obj ms : Forall (fun ke => literals A (snd ke)) ms -> literals A (EObj ms).
(** No part of any value is moved away. *)
Inductive no_move : expr -> Prop :=
| nm_null : no_move ENull
| nm_bool b : no_move (EBool b)
| nm_num s : no_move (ENum s)
| nm_str s : no_move (EStr s)
| nm_raw t s : no_move (ERaw t s)
| nm_copy l : no_move (ECopy l)
| nm_arr es : Forall no_move es -> no_move (EArr es)
| nm_obj ms : Forall (fun ke => no_move (snd ke)) ms -> no_move (EObj ms).
Definition arg_all (E : expr -> Prop) (mv : Prop) (a : arg) : Prop :=
  match a with Tmp e => E e | CRef _ => True | MRef _ => mv end.
Definition cmd_all (E : expr -> Prop) (mv : Prop) (c : cmd) : Prop :=
  match c with
  | CNew e => E e
  | CAssign _ a | CEmplace _ a | CEmplaceKey _ _ a => arg_all E mv a
  | COr _ _ b | CPlus _ _ b | COrNew _ _ _ b | CPlusNew _ _ _ b => if b then mv else True
  | _ => True
  end.
Definition cmd_literals (A : vtype -> bytes -> Prop) : cmd -> Prop := cmd_all (literals A) True.
Definition cmd_no_move : cmd -> Prop := cmd_all no_move False.
(** The command hands the library something its documentation or the C++ standard excludes:
    a position that does not exist, an iterator of another container, an array appended to
    itself, an object merged with a part of itself or, if it is empty, with itself. *)
Definition no_element (st : store) (l : loc) (n : N) : Prop :=
  forall a, read st l = Some (VArr Tarray (Some a)) -> N.of_nat (length a) <= n.
Definition misuse (st : store) (c : cmd) : Prop :=
  match c with
  | CInvoke l (MIndexPos n) => no_element st l n
  | CInvoke l (MArrEraseIter n) => exists m, n = m + 1 /\ no_element st l m
  | CInvoke l (MObjEraseIter (Some k)) =>
      forall m, read st l = Some (VObj Tobject (Some m)) -> map_find k m = None
  | COr dst src _ => strictly_inside dst src \/ (dst = src /\ exists v, read st src = Some v /\ v_empty v = Ok true)
  | CPlus dst src _ => dst = src
  | COrNew lhs src true _ => strictly_inside lhs src \/ (lhs = src /\ exists v, read st src = Some v /\ v_empty v = Ok true)
  | CPlusNew lhs src true _ => lhs = src
  | _ => False
  end.

(** The text of a scalar is the JSON text of a value of that type (a string may hold any bytes). *)
Definition scalar_text (t : vtype) (s : bytes) : Prop :=
  (t = Tnull /\ s = []) \/ (t = Tboolean /\ (s = of_string "true" \/ s = of_string "false")) \/ (t = Tnumber /\ gnumber s) \/ t = Tstring.

(** ** Finite maps and sequences, for C23 and C24 *)
Definition fmap := bytes -> option value.
Definition f_empty : fmap := fun _ => None.
Definition f_set (k : bytes) (x : option value) (f : fmap) : fmap :=
  fun k' => if list_eq_dec N.eq_dec k k' then x else f k'.
Definition f_over (f g : fmap) : fmap := fun k => match g k with Some v => Some v | None => f k end.
(** operations of json::object; a merge operand is given by its (key, value) pairs *)
Inductive obj_op : Type :=
| OEmplace (k : bytes) (v : value)      (* emplace, insert: result [was new] *)
| OIndex (k : bytes)                    (* operator[] *)
| OErase (k : bytes)                    (* erase(key): result [was present] *)
| OEraseFound (k : bytes)               (* erase(find(key)), find gives end() if there is none: result [was present] *)
| OClear
| OMerge (m : object) (mv : bool).      (* operator|=, const object& and object&& *)
Definition obj_do (o : obj_op) (m : object) : res (object * bool) :=
  match o with
  | OEmplace k v => Ok (obj_emplace k v m)
  | OIndex k => Ok (obj_index k m, true)
  | OErase k => Ok (obj_erase k m)
  | OEraseFound k => Ok (obj_erase_iter (if obj_contains k m then Some k else None) m)
  | OClear => Ok (obj_clear m, true)
  | OMerge r mv => do m' <- (if mv then obj_or_assign_m m r else obj_or_assign_c m r); Ok (m', true)
  end.
Fixpoint obj_run (os : list obj_op) (m : object) : res (object * list bool) :=
  match os with
  | [] => Ok (m, [])
  | o :: r => do (m1, b) <- obj_do o m; do (m2, bs) <- obj_run r m1; Ok (m2, b :: bs)
  end.
Definition has (f : fmap) (k : bytes) : bool := match f k with Some _ => true | None => false end.
Definition pairs (m : object) : fmap := fun k => map_find k m.
Definition f_do (o : obj_op) (f : fmap) : fmap * bool :=
  match o with
  | OEmplace k v => (f_set k (Some v) f, negb (has f k))
  | OIndex k => (if has f k then f else f_set k (Some v_null) f, true)
  | OErase k | OEraseFound k => (f_set k None f, has f k)
  | OClear => (f_empty, true)
  | OMerge m _ => (f_over f (pairs m), true)
  end.
Fixpoint f_run (os : list obj_op) (f : fmap) : fmap * list bool :=
  match os with
  | [] => (f, [])
  | o :: r => let '(f1, b) := f_do o f in let '(f2, bs) := f_run r f1 in (f2, b :: bs)
  end.
(** a merge operand is an object: distinct keys; for the copying overload nothing in it
    was moved away *)
Definition obj_op_ok (o : obj_op) : Prop :=
  match o with
  | OMerge m mv => sorted_keys m /\ (mv = false -> Forall (fun kv => owned (snd kv)) m)
  | _ => True
  end.
(** the object answers like the finite map *)
Definition represents (m : object) (f : fmap) : Prop :=
  (forall k, obj_find_value k m = f k) /\
  (forall k, obj_contains k m = has f k) /\
  (forall k, obj_exists k m = has f k) /\
  (forall k, obj_at k m = match f k with Some v => Ok v | None => Throw OutOfRange end) /\
  (forall k v, In (k, v) m <-> f k = Some v) /\
  (obj_empty m = true <-> forall k, f k = None) /\
  (exists ks, NoDup ks /\ (forall k, In k ks <-> f k <> None) /\ obj_size m = N.of_nat (length ks)) /\
  sorted_keys m.

(** an object as constructed: sorted distinct keys, nothing moved away *)
Definition good_object (m : object) : Prop := sorted_keys m /\ Forall (fun kv => owned (snd kv)) m.

(** a sequence: its length and its elements *)
Record aseq : Type := Seq { len : N; elt : N -> option value }.
Definition seq_of (l : list value) : aseq := Seq (N.of_nat (length l)) (fun i => nth_error l (N.to_nat i)).
Definition s_empty : aseq := Seq 0 (fun _ => None).
Definition s_append (a b : aseq) : aseq :=
  Seq (len a + len b) (fun i => if i <? len a then elt a i else elt b (i - len a)).
Definition s_push (v : value) (a : aseq) : aseq :=
  Seq (len a + 1) (fun i => if i <? len a then elt a i else if i =? len a then Some v else None).
Definition s_erase (p : N) (a : aseq) : aseq :=
  if p <? len a then Seq (len a - 1) (fun i => if i <? p then elt a i else elt a (i + 1)) else a.
Inductive arr_op : Type :=
| APush (v : value)                     (* emplace_back, push_back *)
| AErase (p : N)                        (* erase(size_t) *)
| AEraseIter (p : N)                    (* erase(begin() + p), p <= size() *)
| AClear
| APlus (l : array) (mv : bool).        (* operator+=, const array& and array&& *)
Definition arr_do (o : arr_op) (l : array) : res (array * bool) :=
  match o with
  | APush v => Ok (arr_emplace_back v l, true)
  | AErase p => Ok (arr_erase p l)
  | AEraseIter p => if size l <? p then Ub else Ok (arr_erase_iter p l)
  | AClear => Ok (arr_clear l, true)
  | APlus r mv => do l' <- (if mv then arr_plus_assign_m l r else arr_plus_assign_c l r); Ok (l', true)
  end.
Fixpoint arr_run (os : list arr_op) (l : array) : res (array * list bool) :=
  match os with
  | [] => Ok (l, [])
  | o :: r => do (l1, b) <- arr_do o l; do (l2, bs) <- arr_run r l1; Ok (l2, b :: bs)
  end.
Definition s_do (o : arr_op) (a : aseq) : aseq * bool :=
  match o with
  | APush v => (s_push v a, true)
  | AErase p | AEraseIter p => (s_erase p a, p <? len a)
  | AClear => (s_empty, true)
  | APlus l _ => (s_append a (seq_of l), true)
  end.
Fixpoint s_run (os : list arr_op) (a : aseq) : aseq * list bool :=
  match os with
  | [] => (a, [])
  | o :: r => let '(a1, b) := s_do o a in let '(a2, bs) := s_run r a1 in (a2, b :: bs)
  end.
(** an iterator given to erase belongs to the array, a copied operand was not moved away *)
Fixpoint arr_ops_ok (os : list arr_op) (a : aseq) : Prop :=
  match os with
  | [] => True
  | o :: r =>
      match o with
      | AEraseIter p => p <= len a
      | APlus l mv => mv = false -> Forall owned l
      | _ => True
      end /\ arr_ops_ok r (fst (s_do o a))
  end.
(** the array answers like the sequence; iteration visits the list of the model in order *)
Definition arr_represents (l : array) (a : aseq) : Prop :=
  arr_size l = len a /\
  (arr_empty l = true <-> len a = 0) /\
  (forall p, arr_contains p l = (p <? len a)) /\
  (forall p, arr_exists p l = (p <? len a)) /\
  (forall p, arr_find_value p l = elt a p) /\
  (forall p, arr_at p l = match elt a p with Some v => Ok v | None => Throw OutOfRange end) /\
  (forall p, p < len a -> exists v, elt a p = Some v /\ arr_index p l = Ok v) /\
  (forall n, nth_error l n = elt a (N.of_nat n)).

(** ** Equality, for C36 *)
(** built by the constructors or the parser, nothing moved away, no invalid part *)
Inductive comparable : value -> Prop :=
| cb_null s : comparable (VStr Tnull s)
| cb_str t s : t = Tboolean \/ t = Tnumber \/ t = Tstring -> comparable (VStr t s)
| cb_arr l : Forall comparable l -> comparable (VArr Tarray (Some l))
| cb_obj m : Forall (fun kv => comparable (snd kv)) m -> comparable (VObj Tobject (Some m)).
(** same type and same contents *)
Inductive same_value : value -> value -> Prop :=
| sv_null s s' : same_value (VStr Tnull s) (VStr Tnull s')
| sv_str t s : t = Tboolean \/ t = Tnumber \/ t = Tstring -> same_value (VStr t s) (VStr t s)
| sv_arr l l' : Forall2 same_value l l' -> same_value (VArr Tarray (Some l)) (VArr Tarray (Some l'))
| sv_obj m m' : Forall2 (fun a b => fst a = fst b /\ same_value (snd a) (snd b)) m m' ->
    same_value (VObj Tobject (Some m)) (VObj Tobject (Some m')).
