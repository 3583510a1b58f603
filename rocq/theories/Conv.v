(** * Conversions between json::value and C++ types, get/find with defaults, and
    MEO_JSONIZATION. Model only.

    [ty] is the universe of C++ types; [data] the objects of these types. Which member of
    the overload set a conversion selects is a matter of the C++ rules; the choices made
    here are listed in DESIGN.md. *)
From Verif Require Import Base Value Containers Num Enum.

Inductive data : Type :=
| DBool (b : bool)
| DInt (z : Z)                         (* integers and enumerations *)
| DFlt (x : N)                         (* the bit pattern of a floating-point number *)
| DStr (s : bytes)                     (* std::string, std::string_view *)
| DUnit                                (* nullptr, std::monostate *)
| DJson (v : value)
| DArr (l : array)
| DObj (m : object)
| DOpt (d : option data)               (* std::optional, std::shared_ptr, std::unique_ptr *)
| DSeq (l : list data)                 (* vector, array, tuple, pair *)
| DAlt (i : nat) (d : data)            (* std::variant *)
| DMap (m : list (bytes * data))       (* std::map<std::string, T>, in its order *)
| DRec (l : list data)                 (* a struct, by fields *)
| DGone.                               (* valid but unspecified: moved from *)

(** next_is_optional_t and next_override_key_t, jsonization.hpp:12-19, 471-472 *)
Inductive tag : Type := TagOpt | TagKey (k : bytes).
(** an argument of MEO_JSONIZATION: the tags before the member, its name, and the value
    it has in a value-initialized struct *)
Record field : Type := Field { f_tags : list tag; f_name : bytes; f_default : data }.

(** A class with to_json, check_json and from_json of its own, as members or in a specialization of
    ext::jsonization, utils.hpp:23-34: the functions are whatever the user wrote. A function that
    fills an object gives what it leaves in the object, and its result. *)
Record ext : Type := Ext {
  x_to : data -> res value;                     (* to_json *)
  x_check : value -> res bool;                  (* check_json *)
  x_from : value -> data -> data * res bool;    (* from_json *)
  x_move_from : option (value -> data -> data * res bool);   (* move_from_json, if there is one *)
  x_move_to : bool;                             (* is there a move_to_json, which does as to_json? *)
  x_default : data;                             (* the value-initialized object *)
}.

Inductive ty : Type :=
| TValue | TArr | TObj                 (* json::value, json::array, json::object *)
| TBool
| TInt (sg : bool) (w : N)
| TFlt (p : N)                         (* float, double, long double: 24, 53, 64 bits of precision *)
| TStr | TView                         (* std::string, std::string_view *)
| TNullptr | TMono                     (* std::nullptr_t, std::monostate *)
| TOpt (t : ty)                        (* std::optional *)
| TPtr (t : ty)                        (* std::shared_ptr, std::unique_ptr *)
| TVec (t : ty)                        (* std::vector, std::list, std::deque *)
| TColl (ins : data -> list data -> list data) (t : ty)   (* any other container, given by its emplace: std::set, std::multiset, unordered *)
| TFix (n : nat) (t : ty)              (* std::array *)
| TTup (ts : list ty)                  (* std::tuple, std::pair *)
| TVar (ts : list ty)                  (* std::variant, alternatives all different *)
| TMap (t : ty)                        (* std::map<std::string, T> *)
| TEnum (e : enum)
| TRec (fs : list (field * ty))        (* a struct with MEO_JSONIZATION *)
| TExt (x : ext).

(** What the build and the C++ library supply. *)
Record env : Type := Env {
  enum_as_number : bool;                        (* MEOJSON_ENUM_AS_NUMBER *)
  float_text : N -> N -> bytes;                 (* to_basic_string, utils.hpp:477-491 *)
  float_parse : N -> bytes -> option N;         (* parse_floating, can_parse_floating: value_impl.hpp:30-75 *)
}.

(** ** Loops *)
Section Loops.
  Context {A B : Type} (f : A -> res B).
  Fixpoint mapM (l : list A) : res (list B) :=
    match l with [] => Ok [] | x :: r => do y <- f x; do r' <- mapM r; Ok (y :: r') end.
  Fixpoint mapM_members (l : list (bytes * A)) : res (list (bytes * B)) :=
    match l with [] => Ok [] | (k, x) :: r => do y <- f x; do r' <- mapM_members r; Ok ((k, y) :: r') end.
End Loops.
Section All.
  Context {A : Type} (f : A -> res bool).
  (** array::all, array_impl.hpp:247-256 *)
  Fixpoint allM (l : list A) : res bool :=
    match l with [] => Ok true | x :: r => do b <- f x; if b then allM r else Ok false end.
  (** object::all, object_impl.hpp:184-193 *)
  Fixpoint allM_members (l : list (bytes * A)) : res bool :=
    match l with [] => Ok true | (_, x) :: r => do b <- f x; if b then allM_members r else Ok false end.
End All.

(** state of the recursion over the tags, jsonization.hpp:21-25, 69-81 *)
Definition is_optional (f : field) : bool :=
  fold_left (fun b t => match t with TagOpt => true | TagKey _ => b end) (f_tags f) false.
Definition override_key (f : field) : option bytes :=
  fold_left (fun k t => match t with TagOpt => k | TagKey k' => Some k' end) (f_tags f) None.
Definition json_key (f : field) : bytes :=
  match override_key f with Some k => k | None => f_name f end.

Section Is.
  Context (is1 : ty -> value -> res bool).
  (** is_tuple_helper, value_impl.hpp:668-673, for equal sizes *)
  Fixpoint is_tuple (ts : list ty) (l : array) : res bool :=
    match ts, l with
    | t :: ts', v :: l' => do b <- is1 t v; if b then is_tuple ts' l' else Ok false
    | _, _ => Ok true
    end.
  (** is_variant_helper, 675-679 *)
  Fixpoint is_variant (ts : list ty) (v : value) : res bool :=
    match ts with
    | [] => Ok false
    | t :: ts' => do b <- is1 t v; if b then Ok true else is_variant ts' v
    end.
  (** checker::_check_json, jsonization.hpp:84-138; [None]: true, [Some k]: false with error_key = k *)
  Fixpoint check_fields (fs : list (field * ty)) (v : value) : res (option bytes) :=
    match fs with
    | [] => Ok None
    | (f, t) :: fs' =>
        do o <- v_find_value_key (json_key f) v;
        match o with
        | Some w => do b <- is1 t w; if b then check_fields fs' v else Ok (Some (json_key f))
        | None => if is_optional f then check_fields fs' v else Ok (Some (json_key f))
        end
    end.
End Is.

Section Conv.
  Context (E : env).

  (** is<T>(), value_impl.hpp:259-340. The function is noexcept: a [Throw] here ends the program. *)
  Fixpoint is_ (t : ty) (v : value) {struct t} : res bool :=
    match t with
    | TValue => Ok true
    | TRec fs => do e <- check_fields is_ fs v; Ok (match e with None => true | Some _ => false end)
    | TBool => Ok (is_boolean v)
    | TMono | TNullptr => Ok (is_null v)
    | TOpt t' | TPtr t' => if is_null v then Ok true else is_ t' v
    | TEnum e => is_enum e v
    | TInt sg w =>
        if is_number v then
          do s <- get_str v; Ok (match try_parse_integer sg w s with Some _ => true | None => false end)
        else Ok false
    | TFlt p =>
        if is_number v then
          do s <- get_str v; Ok (match float_parse E p s with Some _ => true | None => false end)
        else Ok false
    | TStr | TView => Ok (is_string v)
    | TArr => Ok (is_array v)
    | TVec t' | TColl _ t' => if is_array v then do l <- as_array_c v; allM (is_ t') l else Ok false
    | TFix n t' =>
        if is_array v then do l <- as_array_c v; if Nat.eqb (length l) n then allM (is_ t') l else Ok false
        else Ok false
    | TTup ts =>
        if is_array v then
          do l <- as_array_c v; if Nat.eqb (length l) (length ts) then is_tuple is_ ts l else Ok false
        else Ok false
    | TVar ts => is_variant is_ ts v
    | TObj => Ok (is_object v)
    | TMap t' => if is_object v then do m <- as_object_c v; allM_members (is_ t') m else Ok false
    | TExt x => x_check x v
    end.
  (** check_json of a struct, jsonization.hpp:436-448 *)
  Definition check_json (fs : list (field * ty)) (v : value) : res (option bytes) := check_fields is_ fs v.

  (** ** as<T>() const& and (T)v for an lvalue v *)
  Section As.
    Context (as1 : ty -> value -> res data).
    (** as_tuple_helper, array_impl.hpp:537-542, for equal sizes *)
    Fixpoint as_tuple (ts : list ty) (l : array) : res (list data) :=
      match ts, l with
      | t :: ts', v :: l' => do d <- as1 t v; do r <- as_tuple ts' l'; Ok (d :: r)
      | _, _ => Ok []
      end.
    (** to_variant_helper, move_to_variant_helper, value_impl.hpp:1150-1168 *)
    Fixpoint as_variant (n : nat) (ts : list ty) (v : value) : res data :=
      match ts with
      | [] => type_error v
      | t :: ts' =>
          do b <- is_ t v;
          if b then do d <- as1 t v; Ok (DAlt n d) else as_variant (S n) ts' v
      end.
    (** the alternative [n] from the value *)
    Fixpoint as_alternative (ts : list ty) (n : nat) (v : value) : res data :=
      match ts, n with
      | t :: _, O => as1 t v
      | _ :: ts', S n' => as_alternative ts' n' v
      | [], _ => Fuel
      end.
    (** loader::_from_json, jsonization.hpp:140-196: fields are assigned one after the other.
        The final fields, and [None] for true or [Some k] for false with error_key = k. *)
    Fixpoint load_fields (fs : list (field * ty)) (v : value) (cur : list data) : list data * res (option bytes) :=
      match fs, cur with
      | [], _ => ([], Ok None)
      | (f, t) :: fs', c :: cur' =>
          match v_find_value_key (json_key f) v with
          | Ok (Some w) =>
              match is_ t w with
              | Ok true =>
                  match as1 t w with
                  | Ok d => let '(r, o) := load_fields fs' v cur' in (d :: r, o)
                  | o => (c :: cur', do _ <- o; Ok None)
                  end
              | Ok false => (c :: cur', Ok (Some (json_key f)))
              | o => (c :: cur', do _ <- o; Ok None)
              end
          | Ok None =>
              if is_optional f then let '(r, o) := load_fields fs' v cur' in (c :: r, o)
              else (c :: cur', Ok (Some (json_key f)))
          | o => (c :: cur', do _ <- o; Ok None)
          end
      | _ :: _, [] => ([], Fuel)        (* ill-typed *)
      end.
  End As.
  (** ** Alternatives of a std::variant that take a json::value by themselves *)
  Definition is_value (t : ty) : bool := match t with TValue => true | _ => false end.
  Section Chosen.
    Context (imp : ty -> bool).
    Fixpoint count (ts : list ty) : nat :=
      match ts with [] => O | t :: r => if imp t then S (count r) else count r end.
    Fixpoint position (ts : list ty) : option nat :=
      match ts with
      | [] => None
      | t :: r => if imp t then Some O else match position r with Some n => Some (S n) | None => None end
      end.
  End Chosen.
  (** Does json::value convert to the type implicitly? Its conversion operators are explicit; but
      std::optional<T>, std::tuple<T> and std::variant have constructors for what converts to T. *)
  Fixpoint implicit (t : ty) : bool :=
    match t with
    | TValue => true
    | TOpt t' => implicit t'
    | TTup [t'] => implicit t'
    | TVar ts => existsb is_value ts || Nat.eqb (count implicit ts) 1
    | _ => false
    end.
  (** The alternative that the converting constructor of std::variant selects by overload
      resolution: json::value itself; else the one implicit alternative, if there is exactly one. *)
  Definition chosen (ts : list ty) : option nat :=
    match position is_value ts with
    | Some n => Some n
    | None => if Nat.eqb (count implicit ts) 1 then position implicit ts else None
    end.
  (** std::set::emplace: nothing if there is an equivalent element *)
  Fixpoint set_insert (lt : data -> data -> bool) (x : data) (s : list data) : list data :=
    match s with
    | [] => [x]
    | y :: r => if lt x y then x :: y :: r else if lt y x then y :: set_insert lt x r else y :: r
    end.
  (** std::multiset::emplace: after the equivalent elements *)
  Fixpoint multi_insert (lt : data -> data -> bool) (x : data) (s : list data) : list data :=
    match s with
    | [] => [x]
    | y :: r => if lt x y then x :: y :: r else y :: multi_insert lt x r
    end.
  (** the loop over the elements, array_impl.hpp:445-460, 491-506 *)
  Definition coll_of (ins : data -> list data -> list data) (l : list data) : list data :=
    fold_left (fun s x => ins x s) l [].
  (** value_impl.hpp:688-701: from_json on a value-initialized object *)
  Definition ext_as (x : ext) (f : value -> data -> data * res bool) (v : value) : res data :=
    match f v (x_default x) with
    | (d, Ok true) => Ok d
    | (_, Ok false) => type_error v
    | (_, r) => do _ <- r; Fuel
    end.
  (** as() const&, value_impl.hpp:681-704, which ends in static_cast<T>( *this ); conversion
      operators value.hpp:448-648, value_impl.hpp:883-971, 1170-1182; array::as const&,
      array_impl.hpp:430-473; object::as const&, object_impl.hpp:340-353.
      - std::optional: its converting constructor is preferred to the operator of value;
      - a tuple of one element: likewise;
      - a std::variant with an alternative that takes a json::value: likewise. *)
  Fixpoint as_ (t : ty) (v : value) {struct t} : res data :=
    match t with
    | TValue => do c <- copy v; Ok (DJson c)
    | TRec fs =>
        match load_fields as_ fs v (map (fun ft => f_default (fst ft)) fs) with
        | (l, Ok None) => Ok (DRec l)
        | (_, Ok (Some _)) => type_error v
        | (_, r) => do _ <- r; Fuel
        end
    | TBool => do b <- as_boolean v; Ok (DBool b)
    | TMono | TNullptr => if is_null v then Ok DUnit else type_error v
    | TOpt t' => do d <- as_ t' v; Ok (DOpt (Some d))
    | TPtr t' => if is_null v then Ok (DOpt None) else do d <- as_ t' v; Ok (DOpt (Some d))
    | TEnum e => do z <- as_enum e v; Ok (DInt z)
    | TInt sg w => do z <- as_int sg w v; Ok (DInt z)
    | TFlt p =>
        if is_number v then
          do s <- get_str v; match float_parse E p s with Some x => Ok (DFlt x) | None => Throw JsonException end
        else type_error v
    | TStr | TView => do s <- as_string v; Ok (DStr s)
    | TArr => do l <- as_array_c v; do l' <- copy_elems copy l; Ok (DArr l')
    | TVec t' => do l <- as_array_c v; do r <- mapM (as_ t') l; Ok (DSeq r)
    | TColl ins t' => do l <- as_array_c v; do r <- mapM (as_ t') l; Ok (DSeq (coll_of ins r))
    | TFix n t' =>
        do l <- as_array_c v;
        if Nat.eqb (length l) n then do r <- mapM (as_ t') l; Ok (DSeq r) else Throw JsonException
    | TTup [t'] => do d <- as_ t' v; Ok (DSeq [d])
    | TTup ts =>
        do l <- as_array_c v;
        if Nat.eqb (length l) (length ts) then do r <- as_tuple as_ ts l; Ok (DSeq r) else Throw JsonException
    | TVar ts =>
        match chosen ts with
        | Some n => do d <- as_alternative as_ ts n v; Ok (DAlt n d)
        | None => as_variant as_ O ts v
        end
    | TObj => do m <- as_object_c v; do m' <- copy_members copy m; Ok (DObj m')
    | TMap t' => do m <- as_object_c v; do r <- mapM_members (as_ t') m; Ok (DMap r)
    | TExt x => ext_as x (x_from x) v
    end.
  (** from_json of a struct, jsonization.hpp:450-462 *)
  Definition from_json (fs : list (field * ty)) (v : value) (cur : list data) : list data * res (option bytes) :=
    load_fields as_ fs v cur.

  (** ** std::move(v).as<T>() and (T)std::move(v) *)
  (** as() &&, value_impl.hpp:706-729: ends in static_cast<T>( *this ), and *this is an lvalue.
      If move_from_json fails, the message describes what it has left of the value: taken to be
      a value that can be described. *)
  Definition as_rv (t : ty) (v : value) : res data :=
    match t with
    | TValue => Ok (DJson v)
    | TExt x => ext_as x (match x_move_from x with Some f => f | None => x_from x end) v
    | _ => as_ t v
    end.
  (** the && operators, value.hpp:522-648; array::as &&, array_impl.hpp:475-521; object::as &&,
      object_impl.hpp:355-368. There is no conversion of an rvalue to std::string_view. json::array is a
      collection and json::object a map: for an rvalue the templates are better than
      operator array() const and operator object() const, value.hpp:476-478. *)
  Fixpoint cast_rv (t : ty) (v : value) {struct t} : res data :=
    match t with
    | TValue => Ok (DJson v)
    | TOpt t' => do d <- cast_rv t' v; Ok (DOpt (Some d))
    | TPtr t' => if is_null v then Ok (DOpt None) else do d <- cast_rv t' v; Ok (DOpt (Some d))
    | TVec t' => do l <- snd (as_array_m v); do r <- mapM (as_rv t') l; Ok (DSeq r)
    | TColl ins t' => do l <- snd (as_array_m v); do r <- mapM (as_rv t') l; Ok (DSeq (coll_of ins r))
    | TFix n t' =>
        do l <- snd (as_array_m v);
        if Nat.eqb (length l) n then do r <- mapM (as_rv t') l; Ok (DSeq r) else Throw JsonException
    | TTup [t'] => do d <- cast_rv t' v; Ok (DSeq [d])
    | TTup ts =>
        do l <- snd (as_array_m v);
        if Nat.eqb (length l) (length ts) then do r <- as_tuple as_rv ts l; Ok (DSeq r) else Throw JsonException
    | TVar ts =>
        match chosen ts with
        | Some n => do d <- as_alternative cast_rv ts n v; Ok (DAlt n d)
        | None => as_variant as_rv O ts v
        end
    | TMap t' => do m <- snd (as_object_m v); do r <- mapM_members (as_rv t') m; Ok (DMap r)
    | TExt _ => as_rv t v
    | TArr => do l <- snd (as_array_m v); Ok (DArr l)
    | TObj => do m <- snd (as_object_m v); Ok (DObj m)
    | TBool | TInt _ _ | TFlt _ | TStr | TView | TNullptr | TMono | TEnum _ | TRec _ => as_ t v
    end.

  (** ** value(x) *)
  Section To.
    Context (to1 : ty -> data -> res value).
    (** construct_from_tuple_helper, array_impl.hpp:523-528 *)
    Fixpoint to_tuple (ts : list ty) (l : list data) : res array :=
      match ts, l with
      | [], [] => Ok []
      | t :: ts', d :: l' => do v <- to1 t d; do r <- to_tuple ts' l'; Ok (v :: r)
      | _, _ => Fuel
      end.
    (** std::visit, value_impl.hpp:1129-1148 *)
    Fixpoint to_variant (ts : list ty) (i : nat) (d : data) : res value :=
      match ts, i with
      | t :: _, O => to1 t d
      | _ :: ts', S i' => to_variant ts' i' d
      | [], _ => Fuel
      end.
    (** dumper::_to_json, jsonization.hpp:47-82 *)
    Fixpoint dump_fields (fs : list (field * ty)) (l : list data) (o : object) : res object :=
      match fs, l with
      | [], [] => Ok o
      | (f, t) :: fs', d :: l' =>
          do v <- to1 t d; dump_fields fs' l' (fst (obj_emplace (json_key f) v o))
      | _, _ => Fuel
      end.
  End To.
  (** value constructors, value.hpp:48-222, value_impl.hpp:78-204; array constructors,
      array_impl.hpp:39-133; object constructors, object_impl.hpp:36-62. [Fuel]: the datum
      does not have the type. *)
  Fixpoint to_value (t : ty) (d : data) {struct t} : res value :=
    match t, d with
    | TValue, DJson v => copy v
    | TArr, DArr l => do l' <- copy_elems copy l; Ok (v_array l')
    | TObj, DObj m => do m' <- copy_members copy m; Ok (v_object m')
    | TBool, DBool b => Ok (v_bool b)
    | TInt _ _, DInt z => Ok (v_int z)
    | TFlt p, DFlt x => Ok (v_number (float_text E p x))
    | TStr, DStr s | TView, DStr s => Ok (v_string s)
    | TNullptr, DUnit | TMono, DUnit => Ok v_null
    | TOpt _, DOpt None | TPtr _, DOpt None => Ok v_null
    | TOpt t', DOpt (Some d') | TPtr t', DOpt (Some d') => to_value t' d'
    | TVec t', DSeq l | TColl _ t', DSeq l => do r <- mapM (to_value t') l; Ok (v_array r)
    | TFix n t', DSeq l =>
        if Nat.eqb (length l) n then do r <- mapM (to_value t') l; Ok (v_array r) else Fuel
    | TTup ts, DSeq l => do r <- to_tuple to_value ts l; Ok (v_array r)
    | TVar ts, DAlt i d' => to_variant to_value ts i d'
    | TMap t', DMap m => do r <- mapM_members (to_value t') m; Ok (v_object (obj_of_list r))
    | TEnum e, DInt z => v_enum (enum_as_number E) e z
    | TRec fs, DRec l => do o <- dump_fields to_value fs l []; Ok (v_object o)
    | TExt x, _ => x_to x d
    | _, _ => Fuel
    end.
  (** to_json of a struct, jsonization.hpp:427-434 *)
  Definition to_json (fs : list (field * ty)) (l : list data) : res value := to_value (TRec fs) (DRec l).

  (** ** get(keys..., default) *)
  (** a key: a string, or an integer, which becomes a size_t *)
  Inductive key : Type := KStr (s : bytes) | KInt (z : Z).
  Definition to_size_t (z : Z) : N := Z.to_N (z mod 2 ^ 64).
  (** should_return_string, utils.hpp:144-145; literals and const char* are [TStr] *)
  Definition returns_string (t : ty) : bool :=
    match t with TStr | TView | TNullptr => true | _ => false end.
  (** default_or_string, utils.hpp:147-156. std::string(nullptr) is undefined. *)
  Definition default_or_string (t : ty) (d : data) : res data :=
    match t with TNullptr => Ub | _ => Ok d end.
  (** json_value_or_default, utils.hpp:158-171 *)
  Definition json_value_or_default (t : ty) (v : value) (d : data) : res data :=
    do b <- is_ t v;
    if b then as_ (if returns_string t then TStr else t) v else default_or_string t d.
  (** the conditional expressions in value::get_helper, value_impl.hpp:439-468: both operands
      are brought to one type. For std::string_view and std::string that is std::string_view,
      and the temporary string dies before the view is returned; for nullptr_t it is
      std::string. *)
  Definition conditional_container (t : ty) (r : res data) : res data :=
    do d <- r; match t with TView => Ub | _ => Ok d end.
  Definition conditional_default (t : ty) (d : data) : res data :=
    match t with TNullptr => Ub | _ => Ok d end.
  (** value::get_helper; array::get_helper, array_impl.hpp:271-289; object::get_helper,
      object_impl.hpp:208-228 (inlined). At least one key. *)
  Fixpoint v_get (t : ty) (d : data) (ks : list key) (v : value) {struct ks} : res data :=
    match ks with
    | [] => Fuel
    | KStr k :: rest =>
        if is_object v then
          conditional_container t
            (do m <- as_object_c v;
             match map_find k m with
             | None => default_or_string t d
             | Some w => if is_nil rest then json_value_or_default t w d else v_get t d rest w
             end)
        else conditional_default t d
    | KInt z :: rest =>
        if is_array v then
          conditional_container t
            (do l <- as_array_c v;
             match arr_find_value (to_size_t z) l with
             | None => default_or_string t d
             | Some w => if is_nil rest then json_value_or_default t w d else v_get t d rest w
             end)
        else conditional_default t d
    end.
  (** object::get, object_impl.hpp:195-228; array::get, array_impl.hpp:258-289 *)
  Definition obj_get (t : ty) (d : data) (k : bytes) (rest : list key) (m : object) : res data :=
    match map_find k m with
    | None => default_or_string t d
    | Some w => if is_nil rest then json_value_or_default t w d else v_get t d rest w
    end.
  Definition arr_get (t : ty) (d : data) (z : Z) (rest : list key) (l : array) : res data :=
    match arr_find_value (to_size_t z) l with
    | None => default_or_string t d
    | Some w => if is_nil rest then json_value_or_default t w d else v_get t d rest w
    end.
  (** find<T>(pos), find<T>(key): value_impl.hpp:470-482, array_impl.hpp:291-299,
      object_impl.hpp:230-238 *)
  Definition found (t : ty) (o : option value) : res (option data) :=
    match o with
    | None => Ok None
    | Some w => do b <- is_ t w; if b then do d <- as_ t w; Ok (Some d) else Ok None
    end.
  Definition v_find_pos (t : ty) (pos : N) (v : value) : res (option data) :=
    do o <- v_find_value_pos pos v; found t o.
  Definition v_find_key (t : ty) (k : bytes) (v : value) : res (option data) :=
    do o <- v_find_value_key k v; found t o.
  Definition arr_find (t : ty) (pos : N) (l : array) : res (option data) := found t (arr_find_value pos l).
  Definition obj_find (t : ty) (k : bytes) (m : object) : res (option data) := found t (obj_find_value k m).
End Conv.

(** ** What building a value leaves in the source object *)
(** how the source is named: an rvalue, a variable, a const variable, a const rvalue (the elements
    of a std::set that is an rvalue) *)
Inductive category : Type := Rvalue | Lvalue | Const | ConstRvalue.
Section After.
  Context (after1 : ty -> data -> data).
  Fixpoint after_tuple (ts : list ty) (l : list data) : list data :=
    match ts, l with t :: ts', d :: l' => after1 t d :: after_tuple ts' l' | _, _ => l end.
  Fixpoint after_variant (ts : list ty) (i : nat) (d : data) : data :=
    match ts, i with
    | t :: _, O => after1 t d
    | _ :: ts', S i' => after_variant ts' i' d
    | [], _ => d
    end.
  Fixpoint after_fields (fs : list (field * ty)) (l : list data) : list data :=
    match fs, l with (_, t) :: fs', d :: l' => after1 t d :: after_fields fs' l' | _, _ => l end.
End After.
(** The constructor template value(wrapper_t&&), value.hpp:138-148, is a forwarding reference: it
    is selected for a non-const variable, and moves from what the wrapper holds. A const
    shared_ptr or unique_ptr still gives access to a non-const object. *)
Fixpoint after (c : category) (t : ty) (d : data) {struct t} : data :=
  let elements := match c with Rvalue => Rvalue | ConstRvalue => ConstRvalue | _ => Const end in
  let parts := match c with Rvalue => Rvalue | _ => Const end in
  match t, d with
  | TOpt t', DOpt (Some d') =>
      DOpt (Some (after (match c with Const => Const | ConstRvalue => ConstRvalue | _ => Rvalue end) t' d'))
  | TPtr t', DOpt (Some d') =>
      DOpt (Some (after (match c with Const => Lvalue | _ => Rvalue end) t' d'))
  | TVec t', DSeq l => DSeq (map (after elements t') l)
  | TColl _ t', DSeq l =>
      DSeq (map (after (match c with Rvalue | ConstRvalue => ConstRvalue | _ => Const end) t') l)
  | TFix _ t', DSeq l => DSeq (map (after parts t') l)
  | TTup ts, DSeq l => DSeq (after_tuple (after parts) ts l)
  | TVar ts, DAlt i d' => DAlt i (after_variant (after parts) ts i d')
  | TMap t', DMap m => DMap (map (fun kd => (fst kd, after elements t' (snd kd))) m)
  | TRec fs, DRec l => DRec (after_fields (after Const) fs l)
  | TStr, _ | TValue, _ | TArr, _ | TObj, _ => match c with Rvalue => DGone | _ => d end
  | TExt x, _ => match c with Rvalue => if x_move_to x then DGone else d | _ => d end
  | _, _ => d
  end.
