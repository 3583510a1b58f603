(** * The texts of the exceptions of the library. Model only.

    [as_] of Conv.v says when as<T>() ends in a json::exception; the functions here are the same functions with
    the text that the exception carries. An exception that a function of the user throws has the text of the
    user: it stays a [Throw]. *)
From Verif Require Import Base Value Containers Num Enum Conv Info.

Inductive said (A : Type) : Type :=
| Done (r : res A)
| Says (m : bytes).                    (* throw exception(m) *)
Arguments Done {A} r. Arguments Says {A} m.

Definition ask {A B} (x : said A) (f : A -> said B) : said B :=
  match x with
  | Done (Ok a) => f a
  | Done (Throw e) => Done (Throw e)
  | Done Ub => Done Ub
  | Done Stack => Done Stack
  | Done Fuel => Done Fuel
  | Says m => Says m
  end.
Notation "'asked' x <- e ; f" := (ask e (fun x => f)) (at level 200, x pattern, e at level 100, f at level 200).
(** the outcome without the text *)
Definition plainly {A} (x : said A) : res A := match x with Done r => r | Says _ => Throw JsonException end.

(** what(), exception.hpp:27: a C string ends at its first zero *)
Fixpoint c_str (s : bytes) : bytes :=
  match s with [] => [] | c :: r => if c =? 0 then [] else c :: c_str r end.
Definition what (m : bytes) : bytes := match m with [] => of_string "Unknown exception" | _ => c_str m end.

(** the names of float, double, long double, value_impl.hpp:572-600 *)
Definition float_name (p : N) : bytes :=
  of_string (if p =? 24 then "float" else if p =? 53 then "double" else "long double").
(** value_impl.hpp:27, 53 *)
Definition number_message (s name : bytes) : bytes :=
  of_string "Parse error: cannot convert number '" ++ s ++ of_string "' to " ++ name.
(** array_impl.hpp:436, 481 and 463, 510 *)
Definition size_message (n m : nat) : bytes :=
  of_string "Array size mismatch: expected=" ++ to_string_N (N.of_nat n) ++ of_string ", actual=" ++ to_string_N (N.of_nat m).
Definition tuple_message (n m : nat) : bytes :=
  of_string "Array size mismatch for tuple conversion: expected=" ++ to_string_N (N.of_nat n) ++
  of_string ", actual=" ++ to_string_N (N.of_nat m).

Section Loops.
  Context {A B : Type} (f : A -> said B).
  Fixpoint each (l : list A) : said (list B) :=
    match l with [] => Done (Ok []) | x :: r => asked y <- f x; asked r' <- each r; Done (Ok (y :: r')) end.
  Fixpoint each_member (l : list (bytes * A)) : said (list (bytes * B)) :=
    match l with
    | [] => Done (Ok [])
    | (k, x) :: r => asked y <- f x; asked r' <- each_member r; Done (Ok ((k, y) :: r'))
    end.
End Loops.

Section Messages.
  (** [names]: integer, unsigned, long, ... as written in value_impl.hpp:512-570 for the type of that width *)
  Context (cc : compiler) (E : env) (names : bool -> N -> bytes).

  (** throw exception(p + value_info()) *)
  Definition complain {A} (p : bytes) (v : value) : said A :=
    match value_info cc v with
    | Ok i => Says (p ++ i)
    | r => Done (do _ <- r; Fuel)
    end.
  Definition cannot_convert (name expected : bytes) : bytes :=
    of_string "Type error: cannot convert to " ++ name ++ of_string ", expected=" ++ expected ++ of_string ", ".

  (** as_boolean, value_impl.hpp:494-510 *)
  Definition boolean_said (v : value) : said bool :=
    if is_boolean v then
      asked s <- Done (get_str v);
      if bytes_eqb s true_string then Done (Ok true)
      else if bytes_eqb s false_string then Done (Ok false)
      else Says (of_string "Parse error: invalid boolean value '" ++ s ++ of_string "'")
    else complain (cannot_convert (of_string "boolean") (of_string "boolean")) v.
  (** as_integer ... as_unsigned_long_long, 512-570; parse_integer, 19-28 *)
  Definition int_said (sg : bool) (w : N) (v : value) : said Z :=
    if is_number v then
      asked s <- Done (get_str v);
      match try_parse_integer sg w s with Some z => Done (Ok z) | None => Says (number_message s (names sg w)) end
    else complain (cannot_convert (names sg w) (of_string "number")) v.
  (** as_float, as_double, as_long_double, 572-600; parse_floating, 30-54 *)
  Definition float_said (p : N) (v : value) : said N :=
    if is_number v then
      asked s <- Done (get_str v);
      match float_parse E p s with Some x => Done (Ok x) | None => Says (number_message s (float_name p)) end
    else complain (cannot_convert (float_name p) (of_string "number")) v.
  (** as_string, as_string_view, 602-620 *)
  Definition string_said (name : bytes) (v : value) : said bytes :=
    if is_string v then Done (get_str v) else complain (cannot_convert name (of_string "string")) v.
  (** as_array() const, as_object() const, 622-638 *)
  Definition array_said (v : value) : said array :=
    if is_array v then Done (get_arr v) else complain (cannot_convert (of_string "array") (of_string "array")) v.
  Definition object_said (v : value) : said object :=
    if is_object v then Done (get_obj v) else complain (cannot_convert (of_string "object") (of_string "object")) v.
  (** operator enum_t() const, value.hpp:483-500 *)
  Definition enum_said (e : enum) (v : value) : said Z :=
    if is_string v then
      asked s <- Done (get_str v);
      match string_to_enum e s with
      | Some z => Done (Ok z)
      | None => complain (of_string "Cannot convert to enum: invalid enum string value, ") v
      end
    else if is_number v then
      match e_underlying e with
      | Some (sg, w) => asked z <- int_said sg w v; Done (to_enum e z)
      | None => asked b <- boolean_said v; Done (to_enum e (if b then 1 else 0)%Z)
      end
    else complain (of_string "Cannot convert to enum: expected string or number type, ") v.
  (** value.hpp:507, 519, 531; value_impl.hpp:690, 697, 715, 722 *)
  Definition from_json_failed : bytes := of_string "Deserialization failed: from_json() returned false, ".
  Definition move_from_json_failed : bytes := of_string "Deserialization failed: move_from_json() returned false, ".

  Section As.
    Context (as1 : ty -> value -> said data).
    (** as_tuple_helper, array_impl.hpp:537-542 *)
    Fixpoint tuple_said (ts : list ty) (l : array) : said (list data) :=
      match ts, l with
      | t :: ts', v :: l' => asked d <- as1 t v; asked r <- tuple_said ts' l'; Done (Ok (d :: r))
      | _, _ => Done (Ok [])
      end.
    (** to_variant_helper, value_impl.hpp:1150-1159 *)
    Fixpoint variant_said (n : nat) (ts : list ty) (v : value) : said data :=
      match ts with
      | [] => complain (of_string "Type error: cannot convert to any variant alternative, ") v
      | t :: ts' =>
          asked b <- Done (is_ E t v);
          if b then asked d <- as1 t v; Done (Ok (DAlt n d)) else variant_said (S n) ts' v
      end.
    Fixpoint alternative_said (ts : list ty) (n : nat) (v : value) : said data :=
      match ts, n with
      | t :: _, O => as1 t v
      | _ :: ts', S n' => alternative_said ts' n' v
      | [], _ => Done Fuel
      end.
    (** loader::_from_json, jsonization.hpp:140-196, as [load_fields] of Conv.v *)
    Fixpoint fields_said (fs : list (field * ty)) (v : value) (cur : list data) : list data * said (option bytes) :=
      match fs, cur with
      | [], _ => ([], Done (Ok None))
      | (f, t) :: fs', c :: cur' =>
          match v_find_value_key (json_key f) v with
          | Ok (Some w) =>
              match is_ E t w with
              | Ok true =>
                  match as1 t w with
                  | Done (Ok d) => let '(r, o) := fields_said fs' v cur' in (d :: r, o)
                  | o => (c :: cur', asked _ <- o; Done (Ok None))
                  end
              | Ok false => (c :: cur', Done (Ok (Some (json_key f))))
              | o => (c :: cur', Done (do _ <- o; Ok None))
              end
          | Ok None =>
              if is_optional f then let '(r, o) := fields_said fs' v cur' in (c :: r, o)
              else (c :: cur', Done (Ok (Some (json_key f))))
          | o => (c :: cur', Done (do _ <- o; Ok None))
          end
      | _ :: _, [] => ([], Done Fuel)   (* ill-typed *)
      end.
  End As.
  (** from_json of the user on a value-initialized object; [p] and [w]: what the message says if it returns false *)
  Definition user_said (x : ext) (f : value -> data -> data * res bool) (p : bytes) (w v : value) : said data :=
    match f v (x_default x) with
    | (d, Ok true) => Done (Ok d)
    | (_, Ok false) => complain p w
    | (_, r) => Done (do _ <- r; Fuel)
    end.
  (** as() const&, with the choices of [as_] of Conv.v; nullptr_t and monostate, value_impl.hpp:953-971 *)
  Fixpoint as_said (t : ty) (v : value) {struct t} : said data :=
    match t with
    | TValue => asked c <- Done (copy v); Done (Ok (DJson c))
    | TRec fs =>
        match fields_said as_said fs v (map (fun ft => f_default (fst ft)) fs) with
        | (l, Done (Ok None)) => Done (Ok (DRec l))
        | (_, Done (Ok (Some _))) => complain from_json_failed v
        | (_, r) => asked _ <- r; Done Fuel
        end
    | TBool => asked b <- boolean_said v; Done (Ok (DBool b))
    | TMono => if is_null v then Done (Ok DUnit) else complain (cannot_convert (of_string "monostate") (of_string "null")) v
    | TNullptr => if is_null v then Done (Ok DUnit) else complain (cannot_convert (of_string "nullptr_t") (of_string "null")) v
    | TOpt t' => asked d <- as_said t' v; Done (Ok (DOpt (Some d)))
    | TPtr t' => if is_null v then Done (Ok (DOpt None)) else asked d <- as_said t' v; Done (Ok (DOpt (Some d)))
    | TEnum e => asked z <- enum_said e v; Done (Ok (DInt z))
    | TInt sg w => asked z <- int_said sg w v; Done (Ok (DInt z))
    | TFlt p => asked x <- float_said p v; Done (Ok (DFlt x))
    | TStr => asked s <- string_said (of_string "string") v; Done (Ok (DStr s))
    | TView => asked s <- string_said (of_string "string_view") v; Done (Ok (DStr s))
    | TArr => asked l <- array_said v; asked l' <- Done (copy_elems copy l); Done (Ok (DArr l'))
    | TVec t' => asked l <- array_said v; asked r <- each (as_said t') l; Done (Ok (DSeq r))
    | TColl ins t' => asked l <- array_said v; asked r <- each (as_said t') l; Done (Ok (DSeq (coll_of ins r)))
    | TFix n t' =>
        asked l <- array_said v;
        if Nat.eqb (length l) n then asked r <- each (as_said t') l; Done (Ok (DSeq r))
        else Says (size_message n (length l))
    | TTup [t'] => asked d <- as_said t' v; Done (Ok (DSeq [d]))
    | TTup ts =>
        asked l <- array_said v;
        if Nat.eqb (length l) (length ts) then asked r <- tuple_said as_said ts l; Done (Ok (DSeq r))
        else Says (tuple_message (length ts) (length l))
    | TVar ts =>
        match chosen ts with
        | Some n => asked d <- alternative_said as_said ts n v; Done (Ok (DAlt n d))
        | None => variant_said as_said O ts v
        end
    | TObj => asked m <- object_said v; asked m' <- Done (copy_members copy m); Done (Ok (DObj m'))
    | TMap t' => asked m <- object_said v; asked r <- each_member (as_said t') m; Done (Ok (DMap r))
    | TExt x => user_said x (x_from x) from_json_failed v v
    end.
  (** as() &&, value_impl.hpp:706-729: if move_from_json returns false, the text describes what it has left,
      [left x v] *)
  Definition as_rv_said (left : ext -> value -> value) (t : ty) (v : value) : said data :=
    match t with
    | TValue => Done (Ok (DJson v))
    | TExt x =>
        match x_move_from x with
        | Some f => user_said x f move_from_json_failed (left x v) v
        | None => user_said x (x_from x) from_json_failed v v
        end
    | _ => as_said t v
    end.

  (** as_array(), as_object(), 640-666 *)
  Definition array_taken (v : value) : said array :=
    let '(v1, r) := coerce (v_array []) v in asked _ <- Done r; array_said v1.
  Definition object_taken (v : value) : said object :=
    let '(v1, r) := coerce (v_object []) v in asked _ <- Done r; object_said v1.
  (** (T)std::move(v), with the choices of [cast_rv] of Conv.v *)
  Fixpoint cast_rv_said (left : ext -> value -> value) (t : ty) (v : value) {struct t} : said data :=
    match t with
    | TValue => Done (Ok (DJson v))
    | TOpt t' => asked d <- cast_rv_said left t' v; Done (Ok (DOpt (Some d)))
    | TPtr t' => if is_null v then Done (Ok (DOpt None)) else asked d <- cast_rv_said left t' v; Done (Ok (DOpt (Some d)))
    | TVec t' => asked l <- array_taken v; asked r <- each (as_rv_said left t') l; Done (Ok (DSeq r))
    | TColl ins t' => asked l <- array_taken v; asked r <- each (as_rv_said left t') l; Done (Ok (DSeq (coll_of ins r)))
    | TFix n t' =>
        asked l <- array_taken v;
        if Nat.eqb (length l) n then asked r <- each (as_rv_said left t') l; Done (Ok (DSeq r))
        else Says (size_message n (length l))
    | TTup [t'] => asked d <- cast_rv_said left t' v; Done (Ok (DSeq [d]))
    | TTup ts =>
        asked l <- array_taken v;
        if Nat.eqb (length l) (length ts) then asked r <- tuple_said (as_rv_said left) ts l; Done (Ok (DSeq r))
        else Says (tuple_message (length ts) (length l))
    | TVar ts =>
        match chosen ts with
        | Some n => asked d <- alternative_said (cast_rv_said left) ts n v; Done (Ok (DAlt n d))
        | None => variant_said (as_rv_said left) O ts v
        end
    | TMap t' => asked m <- object_taken v; asked r <- each_member (as_rv_said left t') m; Done (Ok (DMap r))
    | TExt _ => as_rv_said left t v
    | TArr => asked l <- array_taken v; Done (Ok (DArr l))
    | TObj => asked m <- object_taken v; Done (Ok (DObj m))
    | TBool | TInt _ _ | TFlt _ | TStr | TView | TNullptr | TMono | TEnum _ | TRec _ => as_said t v
    end.

  (** ** json::array and json::object as the source *)
  (** array.hpp:234-265, object.hpp:165-196: from_json is given a json::value made from the container: a copy, or for
      an rvalue the container itself, which is then empty. The text has the size of the container afterwards. *)
  Definition container_failed (call what : bytes) (n : nat) : bytes :=
    of_string "Deserialization failed: " ++ call ++ of_string "() returned false for " ++ what ++ of_string ", size=" ++
    to_string_N (N.of_nat n).
  Definition given {A} (r : A * res bool) (m : bytes) : said A :=
    match r with
    | (d, Ok true) => Done (Ok d)
    | (_, Ok false) => Says m
    | (_, r) => Done (do _ <- r; Fuel)
    end.
  Definition rec_given (fs : list (field * ty)) (v : value) (m : bytes) : said data :=
    match fields_said as_said fs v (map (fun ft => f_default (fst ft)) fs) with
    | (l, Done (Ok None)) => Done (Ok (DRec l))
    | (_, Done (Ok (Some _))) => Says m
    | (_, r) => asked _ <- r; Done Fuel
    end.
  (** (T)arr for an lvalue: array.hpp:234-254, 267-278; array::as const&, array_impl.hpp:430-473. Tuples of one
      element are not here: the constructor of std::tuple may be preferred. *)
  Definition array_cast (t : ty) (l : array) : said data :=
    match t with
    | TValue => asked l' <- Done (copy_elems copy l); Done (Ok (DJson (v_array l')))
    | TArr => asked l' <- Done (copy_elems copy l); Done (Ok (DArr l'))
    | TVec t' => asked r <- each (as_said t') l; Done (Ok (DSeq r))
    | TColl ins t' => asked r <- each (as_said t') l; Done (Ok (DSeq (coll_of ins r)))
    | TFix n t' =>
        if Nat.eqb (length l) n then asked r <- each (as_said t') l; Done (Ok (DSeq r))
        else Says (size_message n (length l))
    | TTup ts =>
        if Nat.eqb (length l) (length ts) then asked r <- tuple_said as_said ts l; Done (Ok (DSeq r))
        else Says (tuple_message (length ts) (length l))
    | TRec fs =>
        asked l' <- Done (copy_elems copy l);
        rec_given fs (v_array l') (container_failed (of_string "from_json") (of_string "array") (length l))
    | TExt x =>
        asked l' <- Done (copy_elems copy l);
        given (x_from x (v_array l') (x_default x)) (container_failed (of_string "from_json") (of_string "array") (length l))
    | _ => Done Fuel                                      (* does not compile *)
    end.
  (** (T)obj for an lvalue: object.hpp:165-185, 198-209; object::as const&, object_impl.hpp:340-353 *)
  Definition object_cast (t : ty) (m : object) : said data :=
    match t with
    | TValue => asked m' <- Done (copy_members copy m); Done (Ok (DJson (v_object m')))
    | TObj => asked m' <- Done (copy_members copy m); Done (Ok (DObj m'))
    | TMap t' => asked r <- each_member (as_said t') m; Done (Ok (DMap r))
    | TRec fs =>
        asked m' <- Done (copy_members copy m);
        rec_given fs (v_object m') (container_failed (of_string "from_json") (of_string "object") (length m))
    | TExt x =>
        asked m' <- Done (copy_members copy m);
        given (x_from x (v_object m') (x_default x)) (container_failed (of_string "from_json") (of_string "object") (length m))
    | _ => Done Fuel                                      (* does not compile *)
    end.
  (** (T)std::move(arr), (T)std::move(obj) for a T with move_from_json: array.hpp:256-265, object.hpp:187-196. The
      container is moved into a json::value before the call. *)
  Definition array_move_user (x : ext) (l : array) : array * said data :=
    match x_move_from x with
    | Some f => ([], given (f (v_array l) (x_default x)) (container_failed (of_string "move_from_json") (of_string "array") 0))
    | None => (l, array_cast (TExt x) l)
    end.
  Definition object_move_user (x : ext) (m : object) : object * said data :=
    match x_move_from x with
    | Some f => ([], given (f (v_object m) (x_default x)) (container_failed (of_string "move_from_json") (of_string "object") 0))
    | None => (m, object_cast (TExt x) m)
    end.

  (** ** The other texts *)
  (** value(enum_t), value.hpp:82-95: the value that is described is the empty string just made *)
  Definition enum_value_said (e : enum) (z : Z) : said value :=
    if enum_as_number E then Done (v_enum true e z)
    else
      asked s <- Done (enum_to_string e z);
      if is_nil s then complain (of_string "Cannot convert to enum: unknown enum value, ") (v_string s)
      else Done (Ok (v_string s)).
  (** the default branches of dump_to, format_to and operator==, value_impl.hpp:790-791, 817-818, 873-874 *)
  Definition unknown_type {A} (v : value) : said A := complain (of_string "Internal error: unknown value type, ") v.
End Messages.
