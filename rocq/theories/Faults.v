(** * Allocations that fail, in functions that only read values: to_string, format, dumps, operator<<, value_info,
      is<T>(), as<T>() const&, find and from_json. Model only.

    Other models have unbounded memory, or ([Heap.v]) change values. Here a run is given a list that says, for each
    request for memory in turn, whether it fails; when the list is used up no more fail. A place where the code may
    request memory consults the list once, however many requests it really makes: one failing request among several has the same effect. *)
From Verif Require Import Base Value Dump Containers Num Enum Conv Info Stream.

(** ** Writing into a std::string *)
(** what the string holds then, the rest of the list, and the outcome *)
Definition writer := bytes -> list bool -> bytes * list bool * res unit.
Definition stop (r : res unit) : writer := fun out s => (out, s, r).
Definition andthen (w w' : writer) : writer := fun out s =>
  match w out s with
  | (out', s', Ok _) => w' out' s'
  | x => x
  end.
Infix ";;" := andthen (at level 61, right associativity).

Section Writers.
  (** std::string::max_size() *)
  Context (limit : N).
  (** std::string::append: throws length_error if the result is too long, bad_alloc if there is no memory for it; then
      the string is as before *)
  Definition append (t : bytes) : writer := fun out s =>
    if limit <? N.of_nat (length out) + N.of_nat (length t) then (out, s, Throw LengthError)
    else
      match s with
      | true :: s' => (out, s', Throw BadAlloc)
      | false :: s' => (out ++ t, s', Ok tt)
      | [] => (out ++ t, [], Ok tt)
      end.
  (** append(n, ' ') with n of type size_t *)
  Definition append_spaces (n : N) : writer := fun out s =>
    if limit <? N.of_nat (length out) + n mod size_mod then (out, s, Throw LengthError)
    else
      match s with
      | true :: s' => (out, s', Throw BadAlloc)
      | false :: s' => (out ++ spaces n, s', Ok tt)
      | [] => (out ++ spaces n, [], Ok tt)
      end.
  (** push_back *)
  Definition push (c : N) : writer := append [c].
  (** throw exception(... + value_info()): a text is made *)
  Definition complain : writer := fun out s =>
    match s with
    | true :: s' => (out, s', Throw BadAlloc)
    | false :: s' => (out, s', Throw JsonException)
    | [] => (out, [], Throw JsonException)
    end.

  (** append_escaped_string, utils.hpp:394-444 *)
  Fixpoint emit_escaped (cur beg : bytes) : writer :=
    match cur with
    | [] => append (slice beg cur)
    | ch :: r =>
        match escape_letter ch with
        | Some e => append (slice beg cur);; push 92;; push e;; emit_escaped r r
        | None =>
            if ch <? 32 then
              append (slice beg cur);; append [92; 117; 48; 48];; push (hex_digit (N.shiftr ch 4));;
              push (hex_digit (N.land ch 15));; emit_escaped r r
            else emit_escaped r beg
        end
    end.

  Section Bodies.
    Context (f : value -> writer).
    (** the loop of array::dump_to, array_impl.hpp:205-210 *)
    Fixpoint emit_elems (l : array) : writer :=
      match l with
      | [] => stop (Ok tt)
      | v :: r => f v;; (match r with [] => stop (Ok tt) | _ => push 44 end);; emit_elems r
      end.
    (** array::dump_to, array_impl.hpp:202-212 *)
    Definition emit_array_with (l : array) : writer := push 91;; emit_elems l;; push 93.
    (** the loop of object::dump_to, object_impl.hpp:131-141 *)
    Fixpoint emit_members (l : object) : writer :=
      match l with
      | [] => stop (Ok tt)
      | (k, v) :: r =>
          push 34;; emit_escaped k k;; push 34;; push 58;; f v;;
          (match r with [] => stop (Ok tt) | _ => push 44 end);; emit_members r
      end.
    (** object::dump_to, object_impl.hpp:128-143 *)
    Definition emit_object_with (l : object) : writer := push 123;; emit_members l;; push 125.
    (** the loop of array::format_to, array_impl.hpp:225-232 *)
    Fixpoint lay_elems (indent times : N) (l : array) : writer :=
      match l with
      | [] => stop (Ok tt)
      | v :: r =>
          append_spaces (indent * (times + 1));; f v;;
          (match r with [] => stop (Ok tt) | _ => push 44 end);; push 10;; lay_elems indent times r
      end.
    (** array::format_to, array_impl.hpp:221-235 *)
    Definition lay_array_with (indent times : N) (l : array) : writer :=
      push 91;; push 10;; lay_elems indent times l;; append_spaces (indent * times);; push 93.
    (** the loop of object::format_to, object_impl.hpp:156-169 *)
    Fixpoint lay_members (indent times : N) (l : object) : writer :=
      match l with
      | [] => stop (Ok tt)
      | (k, v) :: r =>
          append_spaces (indent * (times + 1));; push 34;; emit_escaped k k;; push 34;; push 58;; push 32;; f v;;
          (match r with [] => stop (Ok tt) | _ => push 44 end);; push 10;; lay_members indent times r
      end.
    (** object::format_to, object_impl.hpp:152-172 *)
    Definition lay_object_with (indent times : N) (l : object) : writer :=
      push 123;; push 10;; lay_members indent times l;; append_spaces (indent * times);; push 125.
  End Bodies.

  (** value::dump_to, value_impl.hpp:769-793 *)
  Fixpoint emit (v : value) : writer :=
    match type_of v with
    | Tnull => append null_string
    | Tboolean | Tnumber =>
        match v with VStr _ s => append s | _ => stop (Throw BadVariant) end
    | Tstring =>
        push 34;;
        (match v with VStr _ s => emit_escaped s s | _ => stop (Throw BadVariant) end);;
        push 34
    | Tarray =>
        match v with
        | VArr _ (Some l) => emit_array_with emit l
        | VArr _ None => stop Ub
        | _ => stop (Throw BadVariant)
        end
    | Tobject =>
        match v with
        | VObj _ (Some m) => emit_object_with emit m
        | VObj _ None => stop Ub
        | _ => stop (Throw BadVariant)
        end
    | Tinvalid => complain
    end.
  (** value::format_to, value_impl.hpp:802-820 *)
  Fixpoint lay (indent times : N) (v : value) : writer :=
    match type_of v with
    | Tnull | Tboolean | Tnumber | Tstring => emit v
    | Tarray =>
        match v with
        | VArr _ (Some l) => lay_array_with (lay indent (times + 1)) indent times l
        | VArr _ None => stop Ub
        | _ => stop (Throw BadVariant)
        end
    | Tobject =>
        match v with
        | VObj _ (Some m) => lay_object_with (lay indent (times + 1)) indent times m
        | VObj _ None => stop Ub
        | _ => stop (Throw BadVariant)
        end
    | Tinvalid => complain
    end.

  (** std::string str; ...(str); return str *)
  Definition collect (w : writer) (s : list bool) : list bool * res bytes :=
    let '(out, s', r) := w [] s in (s', do _ <- r; Ok out).
  (** dumps, to_string, format, value_impl.hpp:762-767, 795-800, 822-831; array_impl.hpp:195-200, 237-245; object_impl.hpp:121-126, 174-182 *)
  Definition try_dumps (indent : option N) (v : value) : list bool -> list bool * res bytes :=
    collect (match indent with Some n => lay n 0 v | None => emit v end).
  Definition try_array_dumps (indent : option N) (l : array) : list bool -> list bool * res bytes :=
    collect (match indent with Some n => lay_array_with (lay n 1) n 0 l | None => emit_array_with emit l end).
  Definition try_object_dumps (indent : option N) (m : object) : list bool -> list bool * res bytes :=
    collect (match indent with Some n => lay_object_with (lay n 1) n 0 m | None => emit_object_with emit m end).
  (** operator<<, value_impl.hpp:1122-1126: the stream then, and the outcome *)
  Definition try_insert (v : value) (o : ostream) (s : list bool) : list bool * (ostream * res unit) :=
    match try_dumps (Some 4) v s with
    | (s', Ok t) => (s', (ostream_insert t o, Ok tt))
    | (s', r) => (s', (o, do _ <- r; Ok tt))
    end.
End Writers.

(** ** Functions that may end the program *)
(** [Ended]: std::terminate was called, because an exception left a function declared noexcept. *)
Inductive outcome (A : Type) : Type := Res (r : res A) | Ended.
Arguments Res {A} r.
Arguments Ended {A}.
Definition M (A : Type) := list bool -> list bool * outcome A.
Definition now {A} (r : res A) : M A := fun s => (s, Res r).
Definition bindM {A B} (m : M A) (f : A -> M B) : M B := fun s =>
  match m s with
  | (s', Res (Ok a)) => f a s'
  | (s', Res (Throw e)) => (s', Res (Throw e))
  | (s', Res Ub) => (s', Res Ub)
  | (s', Res Stack) => (s', Res Stack)
  | (s', Res Fuel) => (s', Res Fuel)
  | (s', Ended) => (s', Ended)
  end.
Notation "'let*' x := e 'in' f" := (bindM e (fun x => f))
  (at level 200, x pattern, e at level 100, f at level 200, right associativity).
(** a place that may request memory *)
Definition request : M unit := fun s =>
  match s with
  | true :: s' => (s', Res (Throw BadAlloc))
  | false :: s' => (s', Res (Ok tt))
  | [] => ([], Res (Ok tt))
  end.
(** noexcept *)
Definition noexcept {A} (m : M A) : M A := fun s =>
  match m s with
  | (s', Res (Throw _)) => (s', Ended)
  | x => x
  end.
(** a json::exception is thrown with a text *)
Definition with_text {A} (r : res A) : M A :=
  match r with
  | Throw JsonException => let* _ := request in now (Throw JsonException)
  | r => now r
  end.

Section Reading.
  (** std::string::max_size(), and how many characters a std::string holds without requesting memory: 15 in libstdc++ and
      Microsoft's library, 22 in libc++ *)
  Context (limit : N) (short : nat).
  (** making a std::string *)
  Definition text (s : bytes) : M unit := if (length s <=? short)%nat then now (Ok tt) else request.

  (** ** type_name and value_info, value_impl.hpp:367-405 *)
  Definition try_type_name (cc : compiler) (v : value) : M bytes :=
    noexcept (let* n := now (type_name cc v) in let* _ := text n in now (Ok n)).
  Definition try_info_body (cc : compiler) (v : value) : M bytes :=
    let* n := try_type_name cc v in
    let info := of_string "type=" ++ n in
    let* _ := text info in
    match type_of v with
    | Tnull | Tinvalid => now (Ok info)
    | Tboolean | Tnumber | Tstring =>
        let* s := (fun l => let '(l', r) := try_dumps limit None v l in (l', Res r)) in
        if Nat.ltb 100 (length s) then
          let part := firstn 100 s in
          let* _ := text part in
          let* _ := text (of_string ", value=" ++ part) in
          let* _ := text (of_string ", value=" ++ part ++ of_string "...") in
          let all := info ++ of_string ", value=" ++ part ++ of_string "..." in
          let* _ := text all in now (Ok all)
        else
          let* _ := text (of_string ", value=" ++ s) in
          let all := info ++ of_string ", value=" ++ s in
          let* _ := text all in now (Ok all)
    | Tarray =>
        let* l := now (as_array_c v) in
        let n := to_string_N (N.of_nat (length l)) in
        let* _ := text n in
        let* _ := text (of_string ", size=" ++ n) in
        let all := info ++ of_string ", size=" ++ n in
        let* _ := text all in now (Ok all)
    | Tobject =>
        let* m := now (as_object_c v) in
        let n := to_string_N (N.of_nat (length m)) in
        let* _ := text n in
        let* _ := text (of_string ", size=" ++ n) in
        let all := info ++ of_string ", size=" ++ n in
        let* _ := text all in now (Ok all)
    end.
  Definition try_value_info (cc : compiler) (v : value) : M bytes :=
    noexcept (fun s =>
      match try_info_body cc v s with
      | (s', Res (Throw _)) =>
          (let* n := try_type_name cc v in
           let* _ := text (of_string "type=" ++ n) in now (Ok (of_string "type=" ++ n))) s'
      | x => x
      end).

  (** ** is<T>() *)
  (** Does an object own memory? Of a tuple or std::array, or a std::optional, only its elements; that is not distinguished from a
      container or a smart pointer. *)
  Fixpoint owns (d : data) : bool :=
    match d with
    | DStr s => (short <? length s)%nat
    | DJson (VStr _ s) => (short <? length s)%nat
    | DJson _ => true
    | DArr l => negb (is_nil l)
    | DObj m => negb (is_nil m)
    | DOpt (Some _) => true
    | DSeq l => negb (is_nil l)
    | DMap m => negb (is_nil m)
    | DAlt _ d' => owns d'
    | DRec l => existsb owns l
    | _ => false
    end.
  (** value_t temp {}; value_t dst {} *)
  Definition fresh (l : list data) : M unit := if existsb owns l then request else now (Ok tt).
  Definition defaults (fs : list (field * ty)) : list data := map (fun ft => f_default (fst ft)) fs.

  Section All.
    Context {A : Type} (f : A -> M bool).
    Fixpoint try_all (l : list A) : M bool :=
      match l with [] => now (Ok true) | x :: r => let* b := f x in if b then try_all r else now (Ok false) end.
  End All.
  Section Is.
    Context (is1 : ty -> value -> M bool).
    Fixpoint try_is_tuple (ts : list ty) (l : array) : M bool :=
      match ts, l with
      | t :: ts', v :: l' => let* b := is1 t v in if b then try_is_tuple ts' l' else now (Ok false)
      | _, _ => now (Ok true)
      end.
    Fixpoint try_is_variant (ts : list ty) (v : value) : M bool :=
      match ts with
      | [] => now (Ok false)
      | t :: ts' => let* b := is1 t v in if b then now (Ok true) else try_is_variant ts' v
      end.
    (** checker::_check_json, jsonization.hpp:84-138: find_value makes a std::string of the key, and error_key = key another *)
    Fixpoint try_check_fields (fs : list (field * ty)) (v : value) : M (option bytes) :=
      match fs with
      | [] => now (Ok None)
      | (f, t) :: fs' =>
          let k := json_key f in
          let* _ := text k in
          let* o := now (v_find_value_key k v) in
          match o with
          | Some w =>
              let* b := is1 t w in
              if b then try_check_fields fs' v else let* _ := text k in now (Ok (Some k))
          | None =>
              if is_optional f then try_check_fields fs' v else let* _ := text k in now (Ok (Some k))
          end
      end.
  End Is.

  Context (E : env).
  (** is<T>(), value_impl.hpp:259-340, is_tuple_helper and is_variant_helper, 668-679: all are noexcept. A check_json of the user's own may request
      memory. What std::stod throws is caught in can_parse_floating, be it bad_alloc. *)
  Fixpoint try_is (t : ty) (v : value) {struct t} : M bool :=
    noexcept
      match t with
      | TRec fs =>
          let* _ := fresh (defaults fs) in
          let* e := try_check_fields try_is fs v in
          now (Ok (match e with None => true | Some _ => false end))
      | TOpt t' | TPtr t' => if is_null v then now (Ok true) else try_is t' v
      | TVec t' | TColl _ t' =>
          if is_array v then let* l := now (as_array_c v) in try_all (try_is t') l else now (Ok false)
      | TFix n t' =>
          if is_array v then
            let* l := now (as_array_c v) in if Nat.eqb (length l) n then try_all (try_is t') l else now (Ok false)
          else now (Ok false)
      | TTup ts =>
          if is_array v then
            let* l := now (as_array_c v) in
            if Nat.eqb (length l) (length ts) then noexcept (try_is_tuple try_is ts l) else now (Ok false)
          else now (Ok false)
      | TVar ts => noexcept (try_is_variant try_is ts v)
      | TMap t' =>
          if is_object v then
            let* m := now (as_object_c v) in try_all (fun kv => try_is t' (snd kv)) m
          else now (Ok false)
      | TExt x => let* _ := request in now (x_check x v)
      | TValue | TArr | TObj | TBool | TInt _ _ | TFlt _ | TStr | TView | TNullptr | TMono | TEnum _ => now (is_ E t v)
      end.

  (** ** as<T>() const& *)
  Section Map.
    Context {A B : Type} (f : A -> M B).
    (** array::as, array_impl.hpp:430-473: the elements are added one by one; [grows]: adding one may request memory *)
    Fixpoint try_map (grows : bool) (l : list A) : M (list B) :=
      match l with
      | [] => now (Ok [])
      | x :: r =>
          let* y := f x in
          let* _ := (if grows then request else now (Ok tt)) in
          let* r' := try_map grows r in now (Ok (y :: r'))
      end.
    (** object::as, object_impl.hpp:340-353: emplace copies the key and makes a node *)
    Fixpoint try_map_members (l : list (bytes * A)) : M (list (bytes * B)) :=
      match l with
      | [] => now (Ok [])
      | (k, x) :: r =>
          let* y := f x in let* _ := request in let* r' := try_map_members r in now (Ok ((k, y) :: r'))
      end.
  End Map.
  Section As.
    Context (as1 : ty -> value -> M data).
    Fixpoint try_as_tuple (ts : list ty) (l : array) : M (list data) :=
      match ts, l with
      | t :: ts', v :: l' => let* d := as1 t v in let* r := try_as_tuple ts' l' in now (Ok (d :: r))
      | _, _ => now (Ok [])
      end.
    Fixpoint try_as_variant (n : nat) (ts : list ty) (v : value) : M data :=
      match ts with
      | [] => with_text (type_error v)
      | t :: ts' =>
          let* b := try_is t v in
          if b then let* d := as1 t v in now (Ok (DAlt n d)) else try_as_variant (S n) ts' v
      end.
    Fixpoint try_as_alternative (ts : list ty) (n : nat) (v : value) : M data :=
      match ts, n with
      | t :: _, O => as1 t v
      | _ :: ts', S n' => try_as_alternative ts' n' v
      | [], _ => now Fuel
      end.
    (** loader::_from_json, jsonization.hpp:140-196: the fields then, the rest of the list, and the outcome. A field is assigned by
        moving, which is taken not to throw. *)
    Fixpoint try_load_fields (fs : list (field * ty)) (v : value) (cur : list data) (s : list bool) :
        list data * (list bool * outcome (option bytes)) :=
      match fs, cur with
      | [], _ => ([], (s, Res (Ok None)))
      | (f, t) :: fs', c :: cur' =>
          let k := json_key f in
          let found : M (option value) := let* _ := text k in now (v_find_value_key k v) in
          let missing : M (option bytes) := let* _ := text k in now (Ok (Some k)) in
          match found s with
          | (s1, Res (Ok (Some w))) =>
              match try_is t w s1 with
              | (s2, Res (Ok true)) =>
                  match as1 t w s2 with
                  | (s3, Res (Ok d)) => let '(r, o) := try_load_fields fs' v cur' s3 in (d :: r, o)
                  | (s3, Res o) => (c :: cur', (s3, Res (do _ <- o; Ok None)))
                  | (s3, Ended) => (c :: cur', (s3, Ended))
                  end
              | (s2, Res (Ok false)) => (c :: cur', missing s2)
              | (s2, Res o) => (c :: cur', (s2, Res (do _ <- o; Ok None)))
              | (s2, Ended) => (c :: cur', (s2, Ended))
              end
          | (s1, Res (Ok None)) =>
              if is_optional f then let '(r, o) := try_load_fields fs' v cur' s1 in (c :: r, o)
              else (c :: cur', missing s1)
          | (s1, Res o) => (c :: cur', (s1, Res (do _ <- o; Ok None)))
          | (s1, Ended) => (c :: cur', (s1, Ended))
          end
      | _ :: _, [] => ([], (s, Res Fuel))
      end.
  End As.
  Definition try_ext_as (x : ext) (v : value) : M data :=
    let* _ := request in with_text (ext_as x (x_from x) v).
  (** as() const& and the conversion operators, as [as_] in Conv.v. Value-initialized results whose elements are of types of the user may request memory. *)
  Fixpoint try_as (t : ty) (v : value) {struct t} : M data :=
    match t with
    | TValue => let* _ := request in let* c := now (copy v) in now (Ok (DJson c))
    | TRec fs =>
        let* _ := fresh (defaults fs) in
        (fun s =>
          match try_load_fields try_as fs v (defaults fs) s with
          | (l, (s', Res (Ok None))) => (s', Res (Ok (DRec l)))
          | (_, (s', Res (Ok (Some _)))) => with_text (type_error v) s'
          | (_, (s', Res r)) => (s', Res (do _ <- r; Fuel))
          | (_, (s', Ended)) => (s', Ended)
          end)
    | TStr => let* s := with_text (as_string v) in let* _ := text s in now (Ok (DStr s))
    | TArr => let* l := with_text (as_array_c v) in let* _ := request in let* l' := now (copy_elems copy l) in now (Ok (DArr l'))
    | TObj => let* m := with_text (as_object_c v) in let* _ := request in let* m' := now (copy_members copy m) in now (Ok (DObj m'))
    | TOpt t' => let* d := try_as t' v in now (Ok (DOpt (Some d)))
    | TPtr t' =>
        if is_null v then now (Ok (DOpt None))
        else let* d := try_as t' v in let* _ := request in now (Ok (DOpt (Some d)))
    | TVec t' =>
        let* l := with_text (as_array_c v) in
        let* _ := request in let* r := try_map (try_as t') true l in now (Ok (DSeq r))
    | TColl ins t' =>
        let* l := with_text (as_array_c v) in
        let* _ := request in let* r := try_map (try_as t') true l in now (Ok (DSeq (coll_of ins r)))
    | TFix n t' =>
        let* l := with_text (as_array_c v) in
        if Nat.eqb (length l) n then
          let* _ := request in let* r := try_map (try_as t') false l in now (Ok (DSeq r))
        else with_text (Throw JsonException)
    | TTup [t'] => let* d := try_as t' v in now (Ok (DSeq [d]))
    | TTup ts =>
        let* l := with_text (as_array_c v) in
        if Nat.eqb (length l) (length ts) then
          let* _ := request in let* r := try_as_tuple try_as ts l in now (Ok (DSeq r))
        else with_text (Throw JsonException)
    | TVar ts =>
        match chosen ts with
        | Some n => let* d := try_as_alternative try_as ts n v in now (Ok (DAlt n d))
        | None => let* _ := request in try_as_variant try_as O ts v
        end
    | TMap t' =>
        let* m := with_text (as_object_c v) in let* r := try_map_members (try_as t') m in now (Ok (DMap r))
    | TExt x => try_ext_as x v
    | TBool | TInt _ _ | TFlt _ | TView | TNullptr | TMono | TEnum _ => with_text (as_ E t v)
    end.
  (** from_json of a struct, jsonization.hpp:450-462 *)
  Definition try_from_json (fs : list (field * ty)) (v : value) (cur : list data) : list bool -> list data * (list bool * outcome (option bytes)) :=
    try_load_fields try_as fs v cur.
  (** find<T>(pos), find<T>(key), value_impl.hpp:470-482 *)
  Definition try_found (t : ty) (o : option value) : M (option data) :=
    match o with
    | None => now (Ok None)
    | Some w => let* b := try_is t w in if b then let* d := try_as t w in now (Ok (Some d)) else now (Ok None)
    end.
  Definition try_find_pos (t : ty) (pos : N) (v : value) : M (option data) :=
    let* o := now (v_find_value_pos pos v) in try_found t o.
  (** the key is a std::string of the caller *)
  Definition try_find_key (t : ty) (k : bytes) (v : value) : M (option data) :=
    let* o := now (v_find_value_key k v) in try_found t o.
  (** default_or_string, utils.hpp:147-156, makes a std::string or copies the default *)
  Definition try_default (t : ty) (d : data) : M data :=
    match t with
    | TNullptr => now Ub
    | _ => let* _ := request in now (Ok d)
    end.
  (** json_value_or_default, utils.hpp:158-171 *)
  Definition try_or_default (t : ty) (v : value) (d : data) : M data :=
    let* b := try_is t v in
    if b then try_as (if returns_string t then TStr else t) v else try_default t d.
  (** get, as [v_get] in Conv.v: looking up a key may make a std::string of it *)
  Definition try_conditional (t : ty) (d : data) : M data :=
    match t with
    | TNullptr => now Ub
    | TView => now (Ok d)
    | _ => let* _ := request in now (Ok d)
    end.
  Fixpoint try_get (t : ty) (d : data) (ks : list key) (v : value) {struct ks} : M data :=
    match ks with
    | [] => now Fuel
    | KStr k :: rest =>
        if is_object v then
          let* x :=
            (let* m := with_text (as_object_c v) in
             let* _ := text k in
             match map_find k m with
             | None => try_default t d
             | Some w => if is_nil rest then try_or_default t w d else try_get t d rest w
             end) in
          now (conditional_container t (Ok x))
        else try_conditional t d
    | KInt z :: rest =>
        if is_array v then
          let* x :=
            (let* l := with_text (as_array_c v) in
             match arr_find_value (to_size_t z) l with
             | None => try_default t d
             | Some w => if is_nil rest then try_or_default t w d else try_get t d rest w
             end) in
          now (conditional_container t (Ok x))
        else try_conditional t d
    end.
End Reading.
