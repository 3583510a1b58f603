(** * The same histories on a heap with addresses, explicit destruction and failing allocations.

    Api.v describes values as trees, so that copies are deep and nothing dangles by
    construction, except where Api.v says otherwise. Here a value holds the address of the
    array or object it owns (value.hpp:46: array_ptr and object_ptr are std::unique_ptr); a
    reference [value&] is a place: a variable, an element of the array at an address or a
    member of the object at an address. A place is determined once, when the reference is
    formed, and used as it is even if the structure around it changes. Reading, writing or
    deleting at an address that was deleted is [Ub]. Addresses are not reused.

    Simplified: the json::array (json::object) object and the storage of its std::vector
    (std::map) are one node of the heap, so references to elements survive reallocation of
    the vector (the operations below never use one after it); strings are part of the value
    that holds them, but allocating one can fail. Model only. *)
From Verif Require Import Base Value Containers Dump Api.

Definition addr := nat.
(** value.hpp:46, 671-672: [_type] and [_raw_data] *)
Inductive hval : Type :=
| HStr (t : vtype) (s : bytes)
| HArr (t : vtype) (p : option addr)
| HObj (t : vtype) (p : option addr).
(** array.hpp:302, object.hpp:236 *)
Inductive node : Type := NArr (l : list hval) | NObj (m : list (bytes * hval)).
(** [None]: deleted *)
Definition heap := list (option node).
(** [roots]: the variables and temporaries, the latter at the end; [fails]: for each
    allocation to come, whether operator new throws std::bad_alloc (no entry: it does not) *)
Record hstate : Type := HS { roots : list hval; hp : heap; fails : list bool }.
Inductive place : Type := Root (i : nat) | Elem (a : addr) (n : nat) | Mem (a : addr) (k : bytes).

Inductive hout (A : Type) : Type := HStuck | HDone (hs : hstate) (r : res A).
Arguments HStuck {A}.
Arguments HDone {A} hs r.
Definition hM (A : Type) := hstate -> hout A.
Definition hret {A} (a : A) : hM A := fun hs => HDone hs (Ok a).
Definition hfail {A} (r : res A) : hM A := fun hs => HDone hs r.
Definition hbind {A B} (x : hM A) (f : A -> hM B) : hM B :=
  fun hs => match x hs with
  | HStuck => HStuck
  | HDone hs' (Ok a) => f a hs'
  | HDone hs' (Throw e) => HDone hs' (Throw e)
  | HDone hs' Ub => HDone hs' Ub
  | HDone hs' Stack => HDone hs' Stack
  | HDone hs' Fuel => HDone hs' Fuel
  end.
Notation "'let!' x := e 'in' f" := (hbind e (fun x => f))
  (at level 200, x pattern, e at level 100, f at level 200, right associativity).
Notation "e ;; f" := (hbind e (fun _ => f)) (at level 100, right associativity).
(** stack unwinding: [c] runs if [m] throws *)
Definition on_throw {A} (m : hM A) (c : hM unit) : hM A :=
  fun hs => match m hs with
  | HDone hs' (Throw e) => (c ;; hfail (Throw e)) hs'
  | r => r
  end.

(** ** Memory *)
(** operator new *)
Definition tick : hM unit := fun hs =>
  match fails hs with
  | [] => HDone hs (Ok tt)
  | b :: r => HDone (HS (roots hs) (hp hs) r) (if b then Throw BadAlloc else Ok tt)
  end.
Definition alloc (n : node) : hM addr := fun hs =>
  HDone (HS (roots hs) (hp hs ++ [Some n]) (fails hs)) (Ok (length (hp hs))).
Definition node_at (a : addr) : hM node := fun hs =>
  match nth_error (hp hs) a with Some (Some n) => HDone hs (Ok n) | _ => HDone hs Ub end.
Definition set_node (a : addr) (n : node) : hM unit := fun hs =>
  match nth_error (hp hs) a with
  | Some (Some _) => HDone (HS (roots hs) (upd_nth (fun _ => Some n) a (hp hs)) (fails hs)) (Ok tt)
  | _ => HDone hs Ub
  end.
(** operator delete *)
Definition release (a : addr) : hM unit := fun hs =>
  match nth_error (hp hs) a with
  | Some (Some _) => HDone (HS (roots hs) (upd_nth (fun _ => None) a (hp hs)) (fails hs)) (Ok tt)
  | _ => HDone hs Ub
  end.
Definition arr_node (a : addr) : hM (list hval) :=
  let! n := node_at a in match n with NArr l => hret l | NObj _ => hfail Ub end.
Definition obj_node (a : addr) : hM (list (bytes * hval)) :=
  let! n := node_at a in match n with NObj m => hret m | NArr _ => hfail Ub end.
Definition get_pl (p : place) : hM hval :=
  match p with
  | Root i => fun hs => match nth_error (roots hs) i with Some x => HDone hs (Ok x) | None => HDone hs Ub end
  | Elem a n => let! l := arr_node a in match nth_error l n with Some x => hret x | None => hfail Ub end
  | Mem a k => let! m := obj_node a in match map_find k m with Some x => hret x | None => hfail Ub end
  end.
Definition put_pl (p : place) (x : hval) : hM unit :=
  get_pl p ;;
  match p with
  | Root i => fun hs => HDone (HS (upd_nth (fun _ => x) i (roots hs)) (hp hs) (fails hs)) (Ok tt)
  | Elem a n => let! l := arr_node a in set_node a (NArr (upd_nth (fun _ => x) n l))
  | Mem a k => let! m := obj_node a in set_node a (NObj (upd_key (fun _ => x) k m))
  end.

(** ** Temporaries *)
Definition push (x : hval) : hM unit := fun hs => HDone (HS (roots hs ++ [x]) (hp hs) (fails hs)) (Ok tt).
Definition take_top (n : nat) : hM (list hval) := fun hs =>
  if (n <=? length (roots hs))%nat then
    HDone (HS (firstn (length (roots hs) - n) (roots hs)) (hp hs) (fails hs))
          (Ok (skipn (length (roots hs) - n) (roots hs)))
  else HDone hs Ub.
Definition peek_top (n : nat) : hM (list hval) := fun hs =>
  HDone hs (Ok (skipn (length (roots hs) - n) (roots hs))).
Definition pop : hM hval := let! l := take_top 1 in match l with [x] => hret x | _ => hfail Ub end.
(** the newest temporary is the result of an expression that made the [n] below it *)
Definition bury (n : nat) : hM unit := fun hs =>
  let k := (length (roots hs) - S n)%nat in
  let r := skipn k (roots hs) in
  HDone (HS (firstn k (roots hs) ++ skipn n r ++ firstn n r) (hp hs) (fails hs)) (Ok tt).

(** ** Destructors: value, std::unique_ptr, json::array, json::object (all defaulted) *)
Section Each.
  Context (f : hval -> hM unit).
  Fixpoint each (l : list hval) : hM unit :=
    match l with [] => hret tt | x :: r => f x ;; each r end.
End Each.
Fixpoint h_free (fuel : nat) (x : hval) : hM unit :=
  match x with
  | HStr _ _ | HArr _ None | HObj _ None => hret tt
  | HArr _ (Some a) =>
      match fuel with
      | O => hfail Fuel
      | S f => let! l := arr_node a in each (h_free f) l ;; release a
      end
  | HObj _ (Some a) =>
      match fuel with
      | O => hfail Fuel
      | S f => let! m := obj_node a in each (h_free f) (map snd m) ;; release a
      end
  end.
(** enough for every tree in the heap *)
Definition enough : hM nat := fun hs => HDone hs (Ok (length (hp hs))).
Definition drop : hM unit := let! x := pop in let! f := enough in h_free f x.
Fixpoint drop_n (n : nat) : hM unit := match n with O => hret tt | S n' => drop ;; drop_n n' end.

(** ** value(const value&), value_impl.hpp:80-84, deep_copy, 1102-1120
    The copy becomes a temporary; what an exception leaves unfinished is destroyed. The
    allocations: the text of a string; the array object and the storage of its vector; the
    object, and for each member its tree node and its key. *)
Section CopyEach.
  Context (c : hval -> hM unit).
  Fixpoint copy_each (l : list hval) : hM unit :=
    match l with [] => hret tt | x :: r => c x ;; on_throw (copy_each r) drop end.
End CopyEach.
Fixpoint h_copy (fuel : nat) (x : hval) : hM unit :=
  match x with
  | HStr t s => tick ;; push (HStr t s)
  | HArr _ None | HObj _ None => hfail Ub
  | HArr t (Some a) =>
      match fuel with
      | O => hfail Fuel
      | S f =>
          let! l := arr_node a in
          tick ;; tick ;;
          copy_each (h_copy f) l ;;
          let! l' := take_top (length l) in
          let! b := alloc (NArr l') in
          push (HArr t (Some b))
      end
  | HObj t (Some a) =>
      match fuel with
      | O => hfail Fuel
      | S f =>
          let! m := obj_node a in
          tick ;;
          copy_each (fun y => tick ;; tick ;; h_copy f y) (map snd m) ;;
          let! l' := take_top (length m) in
          let! b := alloc (NObj (combine (map fst m) l')) in
          push (HObj t (Some b))
      end
  end.
Definition copy_pl (p : place) : hM unit :=
  let! x := get_pl p in let! f := enough in h_copy f x.

(** ** Moves *)
Definition h_tag (x : hval) : vtype := match x with HStr t _ => t | HArr t _ => t | HObj t _ => t end.
Definition h_set_tag (t : vtype) (x : hval) : hval :=
  match x with HStr _ s => HStr t s | HArr _ p => HArr t p | HObj _ p => HObj t p end.
Definition h_moved (x : hval) : hval :=
  match x with HStr t _ => HStr t [] | HArr t _ => HArr t None | HObj t _ => HObj t None end.
Definition h_same_alternative (x y : hval) : bool :=
  match x, y with
  | HStr _ _, HStr _ _ | HArr _ _, HArr _ _ | HObj _ _, HObj _ _ => true
  | _, _ => false
  end.
(** value(value&&), value_impl.hpp:86: the new temporary takes over what is at [p] *)
Definition take_pl (p : place) : hM unit :=
  let! x := get_pl p in push x ;; put_pl p (h_moved x).
(** store the newest temporary at [p] and make what was there a temporary *)
Definition swap_in (p : place) : hM unit :=
  let! x := pop in let! y := get_pl p in push y ;; put_pl p x.
Definition retag_top (t : vtype) : hM unit := let! x := pop in push (h_set_tag t x).

(** operator=(const value&), value_impl.hpp:846-852 *)
Definition h_copy_assign (d s : place) : hM unit :=
  let! y := get_pl s in
  let! x := get_pl d in
  put_pl d (h_set_tag (h_tag y) x) ;;
  copy_pl s ;;
  retag_top (h_tag y) ;;
  swap_in d ;; drop.
(** operator=(value&&) = default, value_impl.hpp:854: the tag, then the move assignment of
    std::variant. Same alternative: std::string::operator=(std::string&&), which empties the
    source (libstdc++), or unique_ptr::operator=(unique_ptr&&): reset(release()), which
    installs the pointer before it deletes the old one. Different alternatives: the old one
    is destroyed, then the new one is constructed from the source. *)
Definition h_move_assign (d s : place) : hM unit :=
  let! y := get_pl s in
  let! x := get_pl d in
  put_pl d (h_set_tag (h_tag y) x) ;;
  if h_same_alternative x y then
    match y with
    | HStr t txt => put_pl d (HStr t txt) ;; put_pl s (HStr t [])
    | _ => take_pl s ;; swap_in d ;; drop
    end
  else
    push (HStr (h_tag y) []) ;; swap_in d ;; drop ;;
    take_pl s ;; swap_in d ;; drop.

(** ** References *)
Definition child (h : heap) (s : step) (x : hval) : option (place * hval) :=
  match s, x with
  | Key k, HObj _ (Some a) =>
      match nth_error h a with
      | Some (Some (NObj m)) => match map_find k m with Some y => Some (Mem a k, y) | None => None end
      | _ => None
      end
  | Idx n, HArr _ (Some a) =>
      match nth_error h a with
      | Some (Some (NArr l)) => match nth_error l n with Some y => Some (Elem a n, y) | None => None end
      | _ => None
      end
  | _, _ => None
  end.
Fixpoint walk (h : heap) (p : path) (r : place * hval) : option (place * hval) :=
  match p with
  | [] => Some r
  | s :: p' => match child h s (snd r) with Some r' => walk h p' r' | None => None end
  end.
Definition resolve (hs : hstate) (l : loc) : option (place * hval) :=
  match nth_error (roots hs) (slot l) with
  | Some x => walk (hp hs) (steps l) (Root (slot l), x)
  | None => None
  end.
(** form a reference; the program holds no dangling one *)
Definition at_loc (l : loc) : hM place := fun hs =>
  match resolve hs l with Some (p, _) => HDone hs (Ok p) | None => HStuck end.

(** ** Constructors, see [eval] of Api.v *)
Section HEval.
  Context (ev : expr -> hM unit).
  Fixpoint eval_each (es : list expr) : hM unit :=
    match es with [] => hret tt | e :: r => ev e ;; on_throw (eval_each r) drop end.
  Fixpoint eval_values (ms : list (bytes * expr)) : hM unit :=
    match ms with [] => hret tt | (_, e) :: r => ev e ;; on_throw (eval_values r) drop end.
End HEval.
(** the first pair for each key *)
Fixpoint first_keys {A} (seen : list bytes) (l : list (bytes * A)) : list (bytes * A) :=
  match l with
  | [] => []
  | (k, x) :: r => if existsb (bytes_eqb k) seen then first_keys seen r else (k, x) :: first_keys (k :: seen) r
  end.
Definition h_of_list (l : list (bytes * hval)) : list (bytes * hval) :=
  fold_left (fun m kv => fst (map_emplace (fst kv) (snd kv) m)) l [].
(** array(initializer_list), array_impl.hpp:29-32, then value(array&&), value_impl.hpp:182-186:
    copies of the [n] temporaries go into the vector; the temporaries are destroyed *)
Definition h_make_array (n : nat) : hM unit :=
  on_throw (let! l := peek_top n in
            tick ;;
            let! f := enough in copy_each (h_copy f) l ;;
            on_throw tick (drop_n n) ;;
            let! l' := take_top n in
            let! b := alloc (NArr l') in
            push (HArr Tarray (Some b)))
           (drop_n n) ;;
  bury n ;; drop_n n.
(** object(initializer_list), object_impl.hpp:31-34, then value(object&&), value_impl.hpp:194-198:
    the range constructor of std::map copies a pair only if its key is new *)
Definition h_make_object (ks : list bytes) : hM unit :=
  let n := length ks in
  on_throw (let! l := peek_top n in
            let m := first_keys [] (combine ks l) in
            let! f := enough in copy_each (fun y => tick ;; tick ;; h_copy f y) (map snd m) ;;
            on_throw tick (drop_n (length m)) ;;
            let! l' := take_top (length m) in
            let! b := alloc (NObj (h_of_list (combine (map fst m) l'))) in
            push (HObj Tobject (Some b)))
           (drop_n n) ;;
  bury n ;; drop_n n.
Fixpoint h_eval (e : expr) : hM unit :=
  match e with
  | ENull => push (HStr Tnull [])
  | EBool b => tick ;; push (HStr Tboolean (if b then true_string else false_string))
  | ENum s => tick ;; push (HStr Tnumber s)
  | EStr s => tick ;; push (HStr Tstring s)
  | ERaw t s => tick ;; push (HStr t s)
  | ECopy l => let! p := at_loc l in copy_pl p
  | EMove l => let! p := at_loc l in take_pl p
  | EArr es => eval_each h_eval es ;; h_make_array (length es)
  | EObj ms => eval_values h_eval ms ;; h_make_object (map fst ms)
  end.

(** ** as_array(), as_object(), value_impl.hpp:640-666 *)
Definition h_empty (x : hval) : hM bool :=
  match h_tag x with
  | Tnull => hret true
  | Tstring => match x with HStr _ s => hret (is_nil s) | _ => hfail (Throw BadVariant) end
  | Tarray => match x with
              | HArr _ (Some a) => let! l := arr_node a in hret (is_nil l)
              | HArr _ None => hfail Ub
              | _ => hfail (Throw BadVariant)
              end
  | Tobject => match x with
               | HObj _ (Some a) => let! m := obj_node a in hret (is_nil m)
               | HObj _ None => hfail Ub
               | _ => hfail (Throw BadVariant)
               end
  | _ => hret false
  end.
Definition h_type_error {A} (x : hval) : hM A :=
  match x with
  | HArr Tarray None | HObj Tobject None => hfail Ub
  | _ => hfail (Throw JsonException)
  end.
(** the tag is set before the allocation *)
Definition h_coerce (t : vtype) (n : node) (mk : addr -> hval) (p : place) : hM unit :=
  let! x := get_pl p in
  let! b := h_empty x in
  if (b : bool) then
    put_pl p (h_set_tag t x) ;; tick ;;
    let! a := alloc n in push (mk a) ;; swap_in p ;; drop
  else hret tt.
Definition coerce_array : place -> hM unit := h_coerce Tarray (NArr []) (fun a => HArr Tarray (Some a)).
Definition coerce_object : place -> hM unit := h_coerce Tobject (NObj []) (fun a => HObj Tobject (Some a)).
Definition h_as_array (p : place) : hM addr :=
  coerce_array p ;;
  let! x := get_pl p in
  if vtype_eqb (h_tag x) Tarray then
    match x with HArr _ (Some a) => hret a | HArr _ None => hfail Ub | _ => hfail (Throw BadVariant) end
  else h_type_error x.
Definition h_as_object (p : place) : hM addr :=
  coerce_object p ;;
  let! x := get_pl p in
  if vtype_eqb (h_tag x) Tobject then
    match x with HObj _ (Some a) => hret a | HObj _ None => hfail Ub | _ => hfail (Throw BadVariant) end
  else h_type_error x.

(** ** Nodes: the newest temporaries become elements, elements become temporaries *)
Definition append_top (a : addr) (n : nat) : hM unit :=
  let! x := take_top n in let! l := arr_node a in set_node a (NArr (l ++ x)).
Definition insert_top (a : addr) (k : bytes) : hM unit :=
  let! x := pop in let! m := obj_node a in set_node a (NObj (map_assign k x m)).
Definition extract (a : addr) (n : nat) : hM unit :=
  let! l := arr_node a in
  match nth_error l n with
  | Some x => push x ;; set_node a (NArr (remove_nth l n))
  | None => hfail Ub
  end.
Definition extract_key (a : addr) (k : bytes) : hM unit :=
  let! m := obj_node a in
  match map_find k m with
  | Some x => push x ;; set_node a (NObj (fst (map_erase k m)))
  | None => hfail Ub
  end.
(** [mv]: what stays in the array (moved-from elements, or nothing) *)
Definition explode (a : addr) (mv : list hval -> list hval) : hM nat :=
  let! l := arr_node a in each push l ;; set_node a (NArr (mv l)) ;; hret (length l).
Definition explode_obj (a : addr) : hM nat :=
  let! m := obj_node a in each push (map snd m) ;; set_node a (NObj []) ;; hret (length m).

(** ** Arguments of type value: the newest temporary, a const reference, an rvalue reference *)
Inductive harg : Type := HTmp | HRef (p : place) | HMove (p : place).
Definition h_construct (a : harg) : hM unit :=
  match a with HTmp => hret tt | HRef p => copy_pl p | HMove p => take_pl p end.
Definition h_assign (d : place) (a : harg) : hM unit :=
  match a with HTmp => swap_in d ;; drop | HRef s => h_copy_assign d s | HMove s => h_move_assign d s end.
(** value::emplace(x), value_impl.hpp:741-755: as_array().emplace_back(x) *)
Definition h_emplace (d : place) (a : harg) : hM unit :=
  let! b := h_as_array d in tick ;; h_construct a ;; append_top b 1.
(** map::insert_or_assign on the map of the object at an address (object_impl.hpp:108-119) *)
Definition h_insert (b : addr) (k : bytes) (a : harg) : hM unit :=
  let! m := obj_node b in
  match map_find k m with
  | Some _ => h_assign (Mem b k) a
  | None => tick ;; tick ;; h_construct a ;; insert_top b k
  end.
Definition h_emplace_key (d : place) (k : bytes) (a : harg) : hM unit :=
  let! b := h_as_object d in h_insert b k a.
(** value::operator|=, value_impl.hpp:1039-1049, merge_object(_move), object_impl.hpp:9-21: the
    iterator reads the map at [c] before each step and to advance *)
Fixpoint h_merge (b c : addr) (mv : bool) (ks : list bytes) : hM unit :=
  match ks with
  | [] => hret tt
  | k :: r =>
      get_pl (Mem c k) ;;
      h_insert b k (if mv then HMove (Mem c k) else HRef (Mem c k)) ;;
      obj_node c ;;
      h_merge b c mv r
  end.
Definition h_or_into (d s : place) (mv : bool) : hM addr :=
  let! c := h_as_object s in
  let! b := h_as_object d in
  let! m := obj_node c in
  h_merge b c mv (map fst m) ;; hret b.
Definition h_or (d s : place) (mv : bool) : hM unit := h_or_into d s mv ;; hret tt.
(** value::operator+=, value_impl.hpp:1083-1093, append_array(_move), array_impl.hpp:9-19 *)
Definition h_append (b c : addr) (mv : bool) : hM unit :=
  tick ;;
  if mv then let! n := explode c (map h_moved) in append_top b n
  else let! l := arr_node c in let! f := enough in copy_each (h_copy f) l ;; append_top b (length l).
Definition h_plus_into (d s : place) (mv : bool) : hM addr :=
  let! c := h_as_array s in
  let! b := h_as_array d in
  if Nat.eqb b c then hfail Ub else h_append b c mv ;; hret b.
Definition h_plus (d s : place) (mv : bool) : hM unit := h_plus_into d s mv ;; hret tt.
(** value::operator|, operator+, value_impl.hpp:1007-1037, 1051-1081, object_impl.hpp:286-310,
    array_impl.hpp:376-400, see [or_new] of Api.v. The json::object (json::array) the operator of
    the container returns is a temporary, here already with the tag of the result; the map
    (vector) of an rvalue on the left moves into it. std::make_unique then allocates; if that
    throws the temporary is destroyed with all it holds. *)
Definition h_const_array (p : place) : hM addr :=
  let! x := get_pl p in
  if vtype_eqb (h_tag x) Tarray then
    match x with HArr _ (Some a) => hret a | HArr _ None => hfail Ub | _ => hfail (Throw BadVariant) end
  else h_type_error x.
Definition h_const_object (p : place) : hM addr :=
  let! x := get_pl p in
  if vtype_eqb (h_tag x) Tobject then
    match x with HObj _ (Some a) => hret a | HObj _ None => hfail Ub | _ => hfail (Throw BadVariant) end
  else h_type_error x.
Definition h_finish (m : hM unit) : hM unit := on_throw (m ;; tick) drop.
Definition h_or_new (d s : place) (ml mr : bool) : hM unit :=
  if ml then
    let! b := h_or_into d s mr in
    let! m := obj_node b in
    let! n := explode_obj b in
    let! l := take_top n in
    let! t := alloc (NObj (combine (map fst m) l)) in
    push (HObj Tobject (Some t)) ;;
    h_finish (hret tt)
  else
    let! c := h_as_object s in
    let! b := h_const_object d in
    let! m := obj_node b in
    let! f := enough in
    copy_each (fun y => tick ;; tick ;; h_copy f y) (map snd m) ;;
    let! l := take_top (length m) in
    let! t := alloc (NObj (combine (map fst m) l)) in
    push (HObj Tobject (Some t)) ;;
    h_finish (let! r := obj_node c in h_merge t c mr (map fst r)).
Definition h_plus_new (d s : place) (ml mr : bool) : hM unit :=
  if ml then
    let! b := h_plus_into d s mr in
    let! n := explode b (fun _ => []) in
    let! l := take_top n in
    let! t := alloc (NArr l) in
    push (HArr Tarray (Some t)) ;;
    h_finish (hret tt)
  else
    let! c := h_as_array s in
    let! b := h_const_array d in
    let! l0 := arr_node b in
    let! f := enough in
    tick ;;
    copy_each (h_copy f) l0 ;;
    let! l := take_top (length l0) in
    let! t := alloc (NArr l) in
    push (HArr Tarray (Some t)) ;;
    h_finish (h_append t c mr).

(** ** Methods, see [invoke] of Api.v *)
Definition h_erase (a : addr) (n : N) : hM unit :=
  let! l := arr_node a in if n <? size l then extract a (N.to_nat n) ;; drop else hret tt.
Definition h_invoke (m : method) (p : place) : hM unit :=
  match m with
  | MAsArray => h_as_array p ;; hret tt
  | MAsObject => h_as_object p ;; hret tt
  | MIndexPos n => let! a := h_as_array p in let! l := arr_node a in if n <? size l then hret tt else hfail Ub
  | MIndexKey k =>
      coerce_object p ;;
      let! a := h_as_object p in
      let! m := obj_node a in
      let '(m', fresh) := map_emplace k (HStr Tnull []) m in
      if (fresh : bool) then tick ;; tick ;; set_node a (NObj m') else hret tt
  | MErasePos n => let! a := h_as_array p in h_erase a n
  | MEraseKey k =>
      let! a := h_as_object p in
      let! m := obj_node a in
      match map_find k m with Some _ => extract_key a k ;; drop | None => hret tt end
  | MClear => push (HStr Tnull []) ;; swap_in p ;; drop
  | MArrClear => let! a := h_as_array p in let! n := explode a (fun _ => []) in drop_n n
  | MObjClear => let! a := h_as_object p in let! n := explode_obj a in drop_n n
  | MArrEraseIter n =>
      let! a := h_as_array p in
      let! l := arr_node a in
      if size l <? n then hfail Ub else h_erase a n
  | MObjEraseIter k =>
      let! a := h_as_object p in
      match k with
      | Some x =>
          let! m := obj_node a in
          match map_find x m with Some _ => extract_key a x ;; drop | None => hfail Ub end
      | None => hret tt
      end
  end.
(** the tree a query can see *)
Section Load.
  Context (ld : hval -> hM value).
  Fixpoint load_each (l : list hval) : hM (list value) :=
    match l with [] => hret [] | x :: r => let! v := ld x in let! vs := load_each r in hret (v :: vs) end.
End Load.
Fixpoint h_load (fuel : nat) (x : hval) : hM value :=
  match x with
  | HStr t s => hret (VStr t s)
  | HArr t None => hret (VArr t None)
  | HObj t None => hret (VObj t None)
  | HArr t (Some a) =>
      match fuel with
      | O => hfail Fuel
      | S f => let! l := arr_node a in let! vs := load_each (h_load f) l in hret (VArr t (Some vs))
      end
  | HObj t (Some a) =>
      match fuel with
      | O => hfail Fuel
      | S f => let! m := obj_node a in let! vs := load_each (h_load f) (map snd m) in hret (VObj t (Some (combine (map fst m) vs)))
      end
  end.
Definition load_pl (p : place) : hM value :=
  let! x := get_pl p in let! f := enough in h_load f x.

(** ** Commands, see [cmd] of Api.v. A temporary is evaluated first; it is destroyed if the
    call throws. *)
Definition with_arg (a : arg) (body : harg -> hM unit) : hM unit :=
  match a with
  | Tmp e => h_eval e ;; on_throw (body HTmp) drop
  | CRef l => let! p := at_loc l in body (HRef p)
  | MRef l => let! p := at_loc l in body (HMove p)
  end.
Definition hexec (c : cmd) : hM unit :=
  match c with
  | CNew e => h_eval e
  | CAssign dst a => with_arg a (fun x => let! d := at_loc dst in h_assign d x)
  | CEmplace dst a => with_arg a (fun x => let! d := at_loc dst in h_emplace d x)
  | CEmplaceKey dst k a => with_arg a (fun x => let! d := at_loc dst in h_emplace_key d k x)
  | COr dst src mv => let! s := at_loc src in let! d := at_loc dst in h_or d s mv
  | CPlus dst src mv => let! s := at_loc src in let! d := at_loc dst in h_plus d s mv
  | COrNew lhs src ml mr => let! s := at_loc src in let! d := at_loc lhs in h_or_new d s ml mr
  | CPlusNew lhs src ml mr => let! s := at_loc src in let! d := at_loc lhs in h_plus_new d s ml mr
  | CInvoke l m => let! p := at_loc l in h_invoke m p
  | CAsk l q => let! p := at_loc l in let! v := load_pl p in hfail (ask q v)
  | CEq a b =>
      let! p := at_loc a in let! q := at_loc b in
      let! v := load_pl p in let! w := load_pl q in hfail (do _ <- v_eq v w; Ok tt)
  end.
