(** * Histories of operations on a set of values.

    The state is the list of the values the program owns directly; a reference
    [value&] is a location: a slot and a path of keys and positions. A standalone
    [json::array] ([json::object]) variable is a slot holding an array (object).
    A reference that does not dangle names, at every moment, the value at some
    path, so a history over locations covers held references too. Model only. *)
From Verif Require Import Base Value Containers Dump.

Inductive step : Type := Key (k : bytes) | Idx (n : nat).
Definition path := list step.
Record loc : Type := Loc { slot : nat; steps : path }.
Definition store := list value.

(** follow a path through the payloads *)
Fixpoint get_at (p : path) (v : value) : option value :=
  match p with
  | [] => Some v
  | Key k :: p' =>
      match v with
      | VObj _ (Some m) => match map_find k m with Some x => get_at p' x | None => None end
      | _ => None
      end
  | Idx n :: p' =>
      match v with
      | VArr _ (Some l) => match nth_error l n with Some x => get_at p' x | None => None end
      | _ => None
      end
  end.
Section Upd.
  Context {A : Type} (f : A -> A).
  Fixpoint upd_nth (n : nat) (l : list A) : list A :=
    match l, n with
    | [], _ => []
    | x :: r, O => f x :: r
    | x :: r, S n' => x :: upd_nth n' r
    end.
  Fixpoint upd_key (k : bytes) (m : list (bytes * A)) : list (bytes * A) :=
    match m with
    | [] => []
    | (k', x) :: r => if bytes_eqb k k' then (k', f x) :: r else (k', x) :: upd_key k r
    end.
End Upd.
Fixpoint upd_at (p : path) (f : value -> value) (v : value) : value :=
  match p with
  | [] => f v
  | Key k :: p' => match v with VObj t (Some m) => VObj t (Some (upd_key (upd_at p' f) k m)) | _ => v end
  | Idx n :: p' => match v with VArr t (Some l) => VArr t (Some (upd_nth (upd_at p' f) n l)) | _ => v end
  end.
Definition read (st : store) (l : loc) : option value :=
  match nth_error st (slot l) with Some v => get_at (steps l) v | None => None end.
Definition write (st : store) (l : loc) (v : value) : store :=
  upd_nth (upd_at (steps l) (fun _ => v)) (slot l) st.

Definition step_eqb (a b : step) : bool :=
  match a, b with
  | Key k, Key k' => bytes_eqb k k'
  | Idx n, Idx n' => Nat.eqb n n'
  | _, _ => false
  end.
Fixpoint path_prefix (p q : path) : bool :=
  match p, q with
  | [], _ => true
  | a :: p', b :: q' => step_eqb a b && path_prefix p' q'
  | _, _ => false
  end.
(** the value at [a] is, or contains, the value at [b] *)
Definition within (a b : loc) : bool := Nat.eqb (slot a) (slot b) && path_prefix (steps a) (steps b).
Definition same (a b : loc) : bool := within a b && within b a.
Definition sub (l : loc) (s : step) : loc := Loc (slot l) (steps l ++ [s]).

(** ** Effects: [Stuck] if a location names no value (a dangling reference, not the
    library's doing); otherwise the final store and the outcome. *)
Inductive out (A : Type) : Type := Stuck | Done (st : store) (r : res A).
Arguments Stuck {A}.
Arguments Done {A} st r.
Definition M (A : Type) := store -> out A.
Definition mret {A} (a : A) : M A := fun st => Done st (Ok a).
Definition mfail {A} (r : res A) : M A := fun st => Done st r.
Definition mbind {A B} (x : M A) (f : A -> M B) : M B :=
  fun st => match x st with
  | Stuck => Stuck
  | Done st' (Ok a) => f a st'
  | Done st' (Throw e) => Done st' (Throw e)
  | Done st' Ub => Done st' Ub
  | Done st' Stack => Done st' Stack
  | Done st' Fuel => Done st' Fuel
  end.
Notation "'run' x <- e ; f" := (mbind e (fun x => f))
  (at level 200, x pattern, e at level 100, f at level 200, right associativity).
Definition rd (l : loc) : M value := fun st => match read st l with Some v => Done st (Ok v) | None => Stuck end.
Definition wr (l : loc) (v : value) : M unit := fun st => Done (write st l v) (Ok tt).
(** a member function on the value at a location *)
Definition call {A} (l : loc) (f : value -> value * res A) : M A :=
  fun st => match read st l with
  | Some v => let '(v', r) := f v in Done (write st l v') r
  | None => Stuck
  end.

Definition set_tag (t : vtype) (v : value) : value :=
  match v with VStr _ s => VStr t s | VArr _ p => VArr t p | VObj _ p => VObj t p end.
Definition same_alternative (v w : value) : bool :=
  match v, w with
  | VStr _ _, VStr _ _ | VArr _ _, VArr _ _ | VObj _ _, VObj _ _ => true
  | _, _ => false
  end.

(** ** Copy and move *)
(** value(const value&), value_impl.hpp:80-84 *)
Definition copy_from (src : loc) : M value := run v <- rd src; mfail (copy v).
(** value(value&&), value_impl.hpp:86 *)
Definition take (src : loc) : M value := run v <- rd src; run _ <- wr src (moved v); mret v.
(** operator=(const value&), value_impl.hpp:846-852: the tag is assigned first, then the
    payload of [src] (read after that) is copied, then the payload is assigned *)
Definition copy_assign (dst src : loc) : M unit :=
  run d <- rd dst;
  run w <- rd src;
  run _ <- wr dst (set_tag (type_of w) d);
  run c <- copy_from src;
  wr dst (set_tag (type_of w) c).
(** operator=(value&&) = default, value_impl.hpp:854: tag, then std::variant move
    assignment. Equal alternatives: move assignment of the alternative (unique_ptr:
    reset(release())); different ones: emplace, which destroys the old alternative first.
    - onto itself: a unique_ptr is unchanged, a string is left empty (libstdc++);
    - from a part of [dst]: with different alternatives the source is destroyed first;
    - from a value containing [dst]: the payload of [src] ends up owned by a part of
      itself, which nothing reaches any more. *)
Definition move_assign (dst src : loc) : M unit :=
  run d <- rd dst;
  run w <- rd src;
  if same dst src then wr dst (match w with VStr t _ => VStr t [] | _ => w end)
  else if within dst src then (if same_alternative d w then wr dst w else mfail Ub)
  else if within src dst then wr src (moved w)
  else run _ <- wr src (moved w); wr dst w.

(** ** Rvalues built by the constructors, value_impl.hpp:78-204, 1095-1101 *)
Inductive expr : Type :=
| ENull                              (* value(), value(nullptr), value(monostate) *)
| EBool (b : bool)                   (* value(bool) *)
| ENum (s : bytes)                   (* value(int) ... value(long double), text from to_basic_string *)
| EStr (s : bytes)                   (* value(std::string), const char*, string_view *)
| ERaw (t : vtype) (s : bytes)       (* value(value_type, std::string) *)
| ECopy (l : loc)                    (* value(const value&) *)
| EMove (l : loc)                    (* value(value&&) *)
| EArr (es : list expr)              (* value(array{...}) *)
| EObj (ms : list (bytes * expr)).   (* value(object{...}), value{{k, v}, ...} *)
Section Eval.
  Context (ev : expr -> M value).
  Fixpoint eval_list (es : list expr) : M array :=
    match es with
    | [] => mret []
    | e :: r => run v <- ev e; run vs <- eval_list r; mret (v :: vs)
    end.
  Fixpoint eval_members (ms : list (bytes * expr)) : M object :=
    match ms with
    | [] => mret []
    | (k, e) :: r => run v <- ev e; run vs <- eval_members r; mret ((k, v) :: vs)
    end.
End Eval.
(** The elements of an initializer_list are const: array(initializer_list)
    (array_impl.hpp:29-32) and object(initializer_list) (object_impl.hpp:31-34) copy them. *)
Fixpoint eval (e : expr) : M value :=
  match e with
  | ENull => mret v_null
  | EBool b => mret (v_bool b)
  | ENum s => mret (v_number s)
  | EStr s => mret (v_string s)
  | ERaw t s => mret (VStr t s)
  | ECopy l => copy_from l
  | EMove l => take l
  | EArr es => run vs <- eval_list eval es; run vs' <- mfail (copy_elems copy vs); mret (v_array vs')
  | EObj ms => run vs <- eval_members eval ms; run vs' <- mfail (copy_members copy vs); mret (v_object (obj_of_list vs'))
  end.

(** An argument of type value: a temporary, an lvalue or an xvalue. *)
Inductive arg : Type := Tmp (e : expr) | CRef (l : loc) | MRef (l : loc).
(** A temporary is evaluated before the call. *)
Definition prepare (a : arg) : M (option value) :=
  match a with Tmp e => run v <- eval e; mret (Some v) | _ => mret None end.
(** construct a value from the argument *)
Definition construct (a : arg) (t : option value) : M value :=
  match a, t with
  | Tmp _, Some v => mret v
  | CRef l, _ => copy_from l
  | MRef l, _ => take l
  | Tmp _, None => mret v_null (* not used *)
  end.
(** assign the argument to the value at [dst] *)
Definition assign (dst : loc) (a : arg) (t : option value) : M unit :=
  match a, t with
  | Tmp _, Some v => run _ <- rd dst; wr dst v
  | CRef l, _ => copy_assign dst l
  | MRef l, _ => move_assign dst l
  | Tmp _, None => mret tt (* not used *)
  end.

(** ** Mutators with an argument *)
(** value::emplace(x): as_array().emplace_back(x), value_impl.hpp:741-755. If the argument
    is an xvalue that contains the array, the array now owns itself and is unreachable. *)
Definition emplace_back (dst : loc) (a : arg) (t : option value) : M unit :=
  run _ <- call dst as_array_m;
  run v <- construct a t;
  match a with
  | MRef src => if within src dst then mret tt
                else call dst (fun d => on_array (fun l => (arr_emplace_back v l, Ok tt)) d)
  | _ => call dst (fun d => on_array (fun l => (arr_emplace_back v l, Ok tt)) d)
  end.
(** map::insert_or_assign on the object at [dst] (object_impl.hpp:108-119) *)
Definition insert_or_assign (dst : loc) (k : bytes) (a : arg) (t : option value) : M unit :=
  run m <- call dst as_object_m;
  if obj_contains k m then assign (sub dst (Key k)) a t
  else
    run v <- construct a t;
    match a with
    | MRef src => if within src dst then mret tt
                  else call dst (fun d => on_object (fun m => (map_assign k v m, Ok tt)) d)
    | _ => call dst (fun d => on_object (fun m => (map_assign k v m, Ok tt)) d)
    end.
(** value::operator|=, value_impl.hpp:1039-1049 with merge_object(_move),
    object_impl.hpp:9-21: the loop iterates over the map at [src] while assigning into the
    one at [dst]; overwriting a member that contains [src] destroys the map it iterates over.
    as_object() replaces an object that is empty, also when it is the operand itself. *)
Fixpoint merge_loop (dst src : loc) (mv : bool) (ks : list bytes) : M unit :=
  match ks with
  | [] => mret tt
  | k :: r =>
      run w <- rd (sub src (Key k));
      if negb (same dst src) && within (sub dst (Key k)) src then mfail Ub
      else
        fun st =>
          match read st dst with
          | Some _ =>
              (run _ <- insert_or_assign dst k (if mv then MRef (sub src (Key k)) else CRef (sub src (Key k))) None;
               merge_loop dst src mv r) st
          | None => (* [dst] was moved into itself by an earlier iteration and is unreachable *)
              if mv then (run _ <- take (sub src (Key k)); merge_loop dst src mv r) st else Stuck
          end
  end.
Definition or_assign (dst src : loc) (mv : bool) : M unit :=
  run m0 <- call src as_object_m;
  if same dst src && is_nil m0 then mfail Ub
  else
    run _ <- call dst as_object_m;
    run m <- (run w <- rd src; mfail (as_object_c w));
    merge_loop dst src mv (map fst m).
(** value::operator+=, value_impl.hpp:1083-1093 with append_array(_move),
    array_impl.hpp:9-19: vector::insert of the range of [src] at the end of [dst]. The range
    must not be part of the vector itself. *)
Definition plus_assign (dst src : loc) (mv : bool) : M unit :=
  run _ <- call src as_array_m;
  run _ <- call dst as_array_m;
  if same dst src then mfail Ub
  else
    run l <- (run w <- rd src; mfail (as_array_c w));
    if mv then
      run _ <- wr src (v_array (map moved l));
      if within src dst then mret tt
      else call dst (fun d => on_array (fun x => (x ++ l, Ok tt)) d)
    else
      run l' <- mfail (copy_elems copy l);
      call dst (fun d => on_array (fun x => (x ++ l', Ok tt)) d).
(** [value x = lhs | src.as_object();] and [value x = lhs + src.as_array();],
    value_impl.hpp:1007-1037, 1051-1081 with object_impl.hpp:286-310 and array_impl.hpp:376-400.
    [ml]: the left operand is an rvalue, std::move(lhs), [mr]: so is the right one. An lvalue on
    the left is copied, and the right operand merged into (appended to) the copy. An rvalue on
    the left is merged into where it is; its map (vector) then moves to the result, which leaves
    an empty object (array). If both are rvalues and [lhs] is part of [src] the loop moves the
    object into itself; taking its map out afterwards undoes that: the result is as if the map
    had been taken first. The result is a new variable. *)
Definition push_value (v : value) : M unit := fun st => Done (st ++ [v]) (Ok tt).
Definition or_new (lhs src : loc) (ml mr : bool) : M unit :=
  if ml then
    if mr && within src lhs && negb (same lhs src) then
      run _ <- call src as_object_m;
      run m <- call lhs as_object_m;
      run _ <- wr lhs (v_object []);
      run r <- (run w <- rd src; mfail (as_object_c w));
      run _ <- wr src (v_object (snd (merge_object_move m r)));
      push_value (v_object (fst (merge_object_move m r)))
    else
      run _ <- or_assign lhs src mr;
      run m <- (run w <- rd lhs; mfail (as_object_c w));
      run _ <- wr lhs (v_object []);
      push_value (v_object m)
  else
    run _ <- call src as_object_m;
    run m <- (run w <- rd lhs; mfail (as_object_c w));
    run m' <- mfail (copy_members copy m);
    fun st =>
      (run _ <- push_value (v_object m');
       run r <- (run w <- rd src; mfail (as_object_c w));
       merge_loop (Loc (length st) []) src mr (map fst r)) st.
Definition plus_new (lhs src : loc) (ml mr : bool) : M unit :=
  if ml then
    if mr && within src lhs && negb (same lhs src) then
      run _ <- call src as_array_m;
      run l <- call lhs as_array_m;
      run _ <- wr lhs (v_array []);
      run r <- (run w <- rd src; mfail (as_array_c w));
      run _ <- wr src (v_array (snd (append_array_move l r)));
      push_value (v_array (fst (append_array_move l r)))
    else
      run _ <- plus_assign lhs src mr;
      run l <- (run w <- rd lhs; mfail (as_array_c w));
      run _ <- wr lhs (v_array []);
      push_value (v_array l)
  else
    run _ <- call src as_array_m;
    run l <- (run w <- rd lhs; mfail (as_array_c w));
    run l' <- mfail (copy_elems copy l);
    run r <- (run w <- rd src; mfail (as_array_c w));
    if mr then
      run _ <- wr src (v_array (snd (append_array_move l' r)));
      push_value (v_array (fst (append_array_move l' r)))
    else
      run x <- mfail (append_array l' r);
      push_value (v_array x).

(** ** Commands *)
Inductive method : Type :=
| MAsArray | MAsObject                     (* as_array(), as_object() *)
| MIndexPos (n : N) | MIndexKey (k : bytes)    (* operator[] *)
| MErasePos (n : N) | MEraseKey (k : bytes)    (* erase *)
| MClear                                   (* clear *)
| MArrClear | MObjClear                    (* as_array().clear(), as_object().clear() *)
| MArrEraseIter (n : N)                    (* as_array().erase(begin() + n) *)
| MObjEraseIter (k : option bytes).        (* as_object().erase(iterator) *)
Definition voidm {A} (p : value * res A) : value * res unit := (fst p, do _ <- snd p; Ok tt).
Definition invoke (m : method) (v : value) : value * res unit :=
  match m with
  | MAsArray => voidm (as_array_m v)
  | MAsObject => voidm (as_object_m v)
  | MIndexPos n => voidm (v_index_pos n v)
  | MIndexKey k => voidm (v_index_key k v)
  | MErasePos n => voidm (v_erase_pos n v)
  | MEraseKey k => voidm (v_erase_key k v)
  | MClear => v_clear v
  | MArrClear => voidm (on_array (fun l => (arr_clear l, Ok tt)) v)
  | MObjClear => voidm (on_object (fun m => (obj_clear m, Ok tt)) v)
  | MArrEraseIter n =>
      voidm (on_array (fun l => if size l <? n then (l, Ub) else ret (arr_erase_iter n l)) v)
  | MObjEraseIter k =>
      voidm (on_object (fun m => match k with
                                 | Some x => if obj_contains x m then ret (obj_erase_iter k m) else (m, Ub)
                                 | None => ret (obj_erase_iter k m)
                                 end) v)
  end.
Inductive query : Type :=
| QEmpty | QContainsKey (k : bytes) | QContainsPos (n : N) | QAtKey (k : bytes) | QAtPos (n : N)
| QFindKey (k : bytes) | QFindPos (n : N) | QAsBoolean | QAsString | QAsArray | QAsObject
| QCopy | QDumps (indent : option N).
Definition ask (q : query) (v : value) : res unit :=
  match q with
  | QEmpty => do _ <- v_empty v; Ok tt
  | QContainsKey k => do _ <- v_contains_key k v; Ok tt
  | QContainsPos n => do _ <- v_contains_pos n v; Ok tt
  | QAtKey k => do _ <- v_at_key k v; Ok tt
  | QAtPos n => do _ <- v_at_pos n v; Ok tt
  | QFindKey k => do _ <- v_find_value_key k v; Ok tt
  | QFindPos n => do _ <- v_find_value_pos n v; Ok tt
  | QAsBoolean => do _ <- as_boolean v; Ok tt
  | QAsString => do _ <- as_string v; Ok tt
  | QAsArray => do _ <- as_array_c v; Ok tt
  | QAsObject => do _ <- as_object_c v; Ok tt
  | QCopy => do _ <- copy v; Ok tt
  | QDumps i => do _ <- dumps i v; Ok tt
  end.
Inductive cmd : Type :=
| CNew (e : expr)                          (* value x = e; *)
| CAssign (dst : loc) (a : arg)            (* dst = a; *)
| CEmplace (dst : loc) (a : arg)           (* dst.emplace(a); *)
| CEmplaceKey (dst : loc) (k : bytes) (a : arg)  (* dst.emplace(k, a); dst.as_object().insert(k, a); *)
| COr (dst src : loc) (mv : bool)          (* dst |= src.as_object(); dst |= std::move(src.as_object()); *)
| CPlus (dst src : loc) (mv : bool)        (* dst += src.as_array(); dst += std::move(src.as_array()); *)
| COrNew (lhs src : loc) (ml mr : bool)    (* value x = lhs | src.as_object(); see [or_new] *)
| CPlusNew (lhs src : loc) (ml mr : bool)  (* value x = lhs + src.as_array(); *)
| CInvoke (l : loc) (m : method)
| CAsk (l : loc) (q : query)
| CEq (a b : loc).                         (* a == b *)
Definition exec (c : cmd) : M unit :=
  match c with
  | CNew e => run v <- eval e; fun st => Done (st ++ [v]) (Ok tt)
  | CAssign dst a => run t <- prepare a; assign dst a t
  | CEmplace dst a => run t <- prepare a; emplace_back dst a t
  | CEmplaceKey dst k a => run t <- prepare a; insert_or_assign dst k a t
  | COr dst src mv => or_assign dst src mv
  | CPlus dst src mv => plus_assign dst src mv
  | COrNew lhs src ml mr => or_new lhs src ml mr
  | CPlusNew lhs src ml mr => plus_new lhs src ml mr
  | CInvoke l m => call l (invoke m)
  | CAsk l q => run v <- rd l; mfail (ask q v)
  | CEq a b => run v <- rd a; run w <- rd b; run _ <- mfail (v_eq v w); mret tt
  end.
(** A history: every command finds its references valid and does not end in undefined
    behaviour; exceptions are caught by the program and the history goes on. *)
Inductive history : store -> list cmd -> store -> Prop :=
| h_nil st : history st [] st
| h_ok st c st1 r cs st2 :
    exec c st = Done st1 r -> r <> Ub -> history st1 cs st2 -> history st (c :: cs) st2.
