(** * Making values of C++ data on a heap with failing allocations.

    The converting constructors of Conv.v ([to_value]) on the heap of Heap.v: the value made becomes a temporary. The
    elements made so far, owned by the vector (map) of a json::array (json::object) under construction, are
    temporaries below it. Any growth of a vector, any node of a map with its key, any text and any
    json::array or json::object may need an allocation; the code allocates less often where a capacity was reserved,
    a text is short or a text is moved, which is the case of allocations that do not fail. JSON values inside the data
    are outside the heap; they are copied.
    Model only. *)
From Verif Require Import Base Value Packed Parser Containers Num Enum Conv Api Heap HeapParse.

(** value(const value& ), value_impl.hpp:80-84, deep_copy, 1102-1120, of a value outside the heap; see h_copy *)
Section BuildEach.
  Context {A : Type} (c : A -> hM unit).
  Fixpoint build_each (l : list A) : hM unit :=
    match l with [] => hret tt | x :: r => c x ;; on_throw (build_each r) drop end.
End BuildEach.
(** [null]: what to do with a value whose pointer is null *)
Section Build.
  Context (null : hval -> hM unit).
  Fixpoint build (v : value) : hM unit :=
    match v with
    | VStr t s => tick ;; push (HStr t s)
    | VArr t None => null (HArr t None)
    | VObj t None => null (HObj t None)
    | VArr t (Some l) =>
        tick ;; tick ;;
        build_each build l ;;
        let! l' := take_top (length l) in
        let! b := alloc (NArr l') in
        push (HArr t (Some b))
    | VObj t (Some m) =>
        tick ;;
        build_each (fun kv => tick ;; tick ;; build (snd kv)) m ;;
        let! l' := take_top (length m) in
        let! b := alloc (NObj (combine (map fst m) l')) in
        push (HObj t (Some b))
    end.
End Build.
(** deep_copy, value_impl.hpp:1102-1120, goes through the pointer *)
Definition h_build : value -> hM unit := build (fun _ => hfail Ub).
(** a value that a to_json outside the library returns; how that makes it is not known, here it is made like a copy *)
Definition h_given : value -> hM unit := build push.

Section HeapConv.
  Context (E : env).
  (** a value that holds a text, value_impl.hpp:88-178; value(nullptr), value(std::monostate) and value() allocate nothing *)
  Definition h_text (r : res value) : hM unit :=
    let! v := reads r in
    match v with
    | VStr t s => (if is_nil s then hret tt else tick) ;; push (HStr t s)
    | _ => hfail Ub                               (* no such result *)
    end.
  (** value(array&& ), value_impl.hpp:182-186, of a json::array with the [n] newest temporaries *)
  Definition h_wrap_array (n : nat) : hM unit :=
    on_throw tick (drop_n n) ;;
    let! l := take_top n in
    let! b := alloc (NArr l) in
    push (HArr Tarray (Some b)).
  (** value(object&& ), value_impl.hpp:194-198, of a json::object with these keys and the newest temporaries *)
  Definition h_wrap_object (ks : list bytes) : hM unit :=
    on_throw tick (drop_n (length ks)) ;;
    let! l := take_top (length ks) in
    let! b := alloc (NObj (h_of_list (combine ks l))) in
    push (HObj Tobject (Some b)).
  Section Members.
    Context (c : data -> hM unit).
    (** the loop of object(const map_t& ), object_impl.hpp:45-47: std::map::emplace makes the node, with the key
        and the value, before it looks for the key; if that is there, the node is destroyed. The keys inserted. *)
    Fixpoint h_members (l : list (bytes * data)) (ks : list bytes) : hM (list bytes) :=
      match l with
      | [] => hret ks
      | (k, d) :: r =>
          tick ;; tick ;; c d ;;
          if existsb (bytes_eqb k) ks then drop ;; h_members r ks
          else on_throw (h_members r (ks ++ [k])) drop
      end.
  End Members.
  (** map::insert_or_assign(k, x) on the map of the object at [b], object_impl.hpp:108-119; [c] makes a value of x. If
      the key is there, value& operator=(value&& ) is called with a temporary; if not, the node is made, in it the value *)
  Definition h_put (c : hM unit) (b : addr) (k : bytes) : hM unit :=
    let! m := obj_node b in
    match map_find k m with
    | Some _ => c ;; h_assign (Mem b k) HTmp
    | None => tick ;; tick ;; c ;; insert_top b k
    end.
  Section To.
    Context (to1 : ty -> data -> hM unit).
    (** the loops of the constructors of array, array_impl.hpp:51-54, 84-86: emplace_back makes room and the element *)
    Definition h_elems (t : ty) : list data -> hM unit := build_each (fun d => tick ;; to1 t d).
    (** construct_from_tuple_helper, array_impl.hpp:523-528 *)
    Fixpoint h_tuple (ts : list ty) (l : list data) : hM unit :=
      match ts, l with
      | [], [] => hret tt
      | t :: ts', d :: l' => tick ;; to1 t d ;; on_throw (h_tuple ts' l') drop
      | _, _ => hfail Fuel
      end.
    (** std::visit, value_impl.hpp:1129-1148 *)
    Fixpoint h_variant (ts : list ty) (i : nat) (d : data) : hM unit :=
      match ts, i with
      | t :: _, O => to1 t d
      | _ :: ts', S i' => h_variant ts' i' d
      | [], _ => hfail Fuel
      end.
    (** dumper::_to_json, jsonization.hpp:47-82, on the json::object at [b] *)
    Fixpoint h_dump_fields (fs : list (field * ty)) (l : list data) (b : addr) : hM unit :=
      match fs, l with
      | [], [] => hret tt
      | (f, t) :: fs', d :: l' =>
          h_put (to1 t d) b (json_key f) ;; h_dump_fields fs' l' b
      | _, _ => hfail Fuel
      end.
  End To.
  (** see [to_value] *)
  Fixpoint h_to_value (t : ty) (d : data) {struct t} : hM unit :=
    match t, d with
    | TValue, DJson v => h_build v
    | TArr, DArr l => h_build (v_array l)
    | TObj, DObj m => h_build (v_object m)
    | TOpt t', DOpt (Some d') | TPtr t', DOpt (Some d') => h_to_value t' d'
    | TVec t', DSeq l | TColl _ t', DSeq l => tick ;; h_elems h_to_value t' l ;; h_wrap_array (length l)
    | TFix n t', DSeq l =>
        if Nat.eqb (length l) n then tick ;; h_elems h_to_value t' l ;; h_wrap_array (length l) else hfail Fuel
    | TTup ts, DSeq l => tick ;; h_tuple h_to_value ts l ;; h_wrap_array (length l)
    | TVar ts, DAlt i d' => h_variant h_to_value ts i d'
    | TMap t', DMap m => let! ks := h_members (h_to_value t') m [] in h_wrap_object ks
    | TRec fs, DRec l =>
        let! b := alloc (NObj []) in
        push (HObj Tobject (Some b)) ;;
        h_finish (h_dump_fields h_to_value fs l b)
    | TExt x, _ => let! v := reads (x_to x d) in h_given v
    | _, _ => h_text (to_value E t d)
    end.

  (** ** Statements that convert an argument. *)
  (** dst = x: value(x) is a temporary, then value_impl.hpp:854 *)
  Definition h_assign_data (dst : loc) (t : ty) (d : data) : hM unit :=
    h_to_value t d ;; let! p := at_loc dst in h_assign p HTmp.
  (** dst.emplace(x), value_impl.hpp:741-755: as_array().emplace_back(x), which makes room before it makes the value *)
  Definition h_emplace_data (dst : loc) (t : ty) (d : data) : hM unit :=
    let! p := at_loc dst in
    let! b := h_as_array p in
    tick ;; h_to_value t d ;; append_top b 1.
  (** dst.emplace(k, x): as_object().emplace(k, x) *)
  Definition h_emplace_key_data (dst : loc) (k : bytes) (t : ty) (d : data) : hM unit :=
    let! p := at_loc dst in
    let! b := h_as_object p in
    h_put (h_to_value t d) b k.
  (** dst[k] = x: the right operand of an assignment comes first (C++17) *)
  Definition h_index_assign_data (dst : loc) (k : bytes) (t : ty) (d : data) : hM unit :=
    h_to_value t d ;;
    on_throw (let! p := at_loc dst in h_invoke (MIndexKey k) p) drop ;;
    let! q := at_loc (sub dst (Key k)) in h_assign q HTmp.
End HeapConv.
