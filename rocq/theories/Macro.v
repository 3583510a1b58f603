(** * The macros of jsonization.hpp and the recursion over their argument pack. Model only.

    A macro call is a list of tokens. Only what the macros look at is told apart; names and keys
    are byte strings. Member names that are macros themselves are not modelled. *)
From Verif Require Import Base Value Containers Conv.

Inductive token : Type :=
| Comma
| Name (s : bytes)                     (* an identifier *)
| Num (n : nat)                        (* a number written by _MEOJSON_ARG_COUNT *)
| Lit (s : bytes)                      (* a string literal made by # *)
| OptMacro                             (* MEO_OPT *)
| KeyMacro (k : bytes)                 (* MEO_KEY of this key *)
| OptTag                               (* next_is_optional_t {} *)
| KeyTag (k : bytes)                   (* next_override_key_t { key } *)
| EndTag.                              (* va_arg_end {} *)

(** MEO_OPT and MEO_KEY, jsonization.hpp:471-472: both end in a comma. The arguments of a macro are
    expanded before they are inserted, so that the macros called inside see the new commas. *)
Fixpoint expand (l : list token) : list token :=
  match l with
  | [] => []
  | OptMacro :: r => OptTag :: Comma :: expand r
  | KeyMacro k :: r => KeyTag k :: Comma :: expand r
  | t :: r => t :: expand r
  end.

(** the arguments of a call: between commas *)
Fixpoint split_commas (cur l : list token) : list (list token) :=
  match l with
  | [] => [cur]
  | Comma :: r => cur :: split_commas [] r
  | t :: r => split_commas (cur ++ [t]) r
  end.
(** what "..." stands for: without tokens, no arguments *)
Definition arguments (l : list token) : list (list token) :=
  match l with [] => [] | _ => split_commas [] l end.

(** the numbers 64, 63, ..., 0 of _MEOJSON_ARG_COUNT, jsonization.hpp:281-349 *)
Fixpoint down (n : nat) : list (list token) :=
  match n with O => [[Num O]] | S n' => [Num n] :: down n' end.
(** the greatest number of arguments, 281-349 *)
Definition max_args : nat := 64.
(** _MEOJSON_ARG_COUNT and _MEOJSON_ARG_COUNT1, 281-418: the parameter after _0 ... _64.
    [None]: not enough arguments. *)
Definition arg_count (args : list (list token)) : option (list token) :=
  nth_error (([Num O] :: args) ++ down max_args) (S max_args).

(** #x after the expansion of x, _MEOJSON_STRINGIZE, 206-208. The spelling of a tag does not matter
    (the parameter is unnamed, 70, 77): an empty literal. *)
Definition stringize (x : list token) : bytes := match x with [Name s] => s | _ => [] end.
(** _MEOJSON_KEY_VALUE, 425 *)
Definition key_value (x : list token) : list token := Lit (stringize x) :: Comma :: x ++ [Comma].

(** _MEOJSON_FOR_EACH_1 ... _MEOJSON_FOR_EACH_64, 216-279. [None]: no such macro, or called with
    the wrong number of arguments. *)
Fixpoint for_each_n (n : nat) (pred : list token -> list token) (args : list (list token)) : option (list token) :=
  match n, args with
  | S O, [x] => Some (pred x)
  | S (S _ as n'), x :: rest =>
      match for_each_n n' pred (match rest with [] => [[]] | _ => rest end) with
      | Some l => Some (pred x ++ l)
      | None => None
      end
  | _, _ => None
  end.
(** _MEOJSON_FOR_EACH_ and _MEOJSON_FOR_EACH, 420-422: the number is pasted to the name of the macro;
    there is a macro of that name for the numbers up to 64 *)
Definition for_each (pred : list token -> list token) (args : list (list token)) : option (list token) :=
  match arg_count args with
  | Some [Num n] => if Nat.leb n max_args then for_each_n n pred args else None
  | _ => None
  end.

(** an argument of _to_json, _check_json, _from_json after the first ones *)
Inductive elem : Type :=
| EKey (s : bytes)                     (* a string literal *)
| EVar (s : bytes)                     (* the member of this name *)
| EOpt | EOver (k : bytes) | EEnd.
Definition elem_of (x : list token) : option elem :=
  match x with
  | [Lit s] => Some (EKey s)
  | [Name s] => Some (EVar s)
  | [OptTag] => Some EOpt
  | [KeyTag k] => Some (EOver k)
  | [EndTag] => Some EEnd
  | _ => None
  end.
Fixpoint elems_of (l : list (list token)) : option (list elem) :=
  match l with
  | [] => Some []
  | x :: r => match elem_of x, elems_of r with Some e, Some es => Some (e :: es) | _, _ => None end
  end.
(** The argument pack in the bodies written by MEO_TOJSON, MEO_CHECKJSON, MEO_FROMJSON, 428-464, called
    directly or through MEO_JSONIZATION, 466-469. [None]: does not compile. *)
Definition pack (call : list token) : option (list elem) :=
  match for_each key_value (arguments (expand call)) with
  | Some l => elems_of (split_commas [] (l ++ [EndTag]))
  | None => None
  end.

(** ** The overload sets *)
(** next_state_t, jsonization.hpp:21-25 *)
Record state : Type := State { s_opt : bool; s_key : option bytes }.
Definition no_state : state := State false None.

(** What an instance of the overload set does with one member: the state, the key, the name. The
    overloads differ in this only. *)
Inductive work : Type := Work (st : state) (key name : bytes).
(** 63-66, 97-99, 153-155: the override takes the place of the key *)
Definition work_key (w : work) : bytes :=
  let '(Work st k _) := w in match s_key st with Some k' => k' | None => k end.

(** Which overloads are called, 49-81, 86-137, 142-195: the members in the order they are reached.
    Without a state, the first argument is the end or a key. With one, a key and then a member or a
    tag. [None]: no overload takes the arguments. *)
Fixpoint resolve (st : option state) (l : list elem) : option (list work) :=
  match l with
  | EEnd :: r => match st, r with None, [] => Some [] | _, _ => None end
  | EKey k :: r =>
      let s := match st with Some s => s | None => no_state end in
      match r with
      | EVar x :: r' =>
          match resolve None r' with Some ws => Some (Work s k x :: ws) | None => None end
      | EOpt :: r' => resolve (Some (State true (s_key s))) r'
      | EOver k' :: r' => resolve (Some (State (s_opt s) (Some k'))) r'
      | _ => None
      end
  | _ => None
  end.

Section Run.
  Context (E : env) (type : bytes -> ty).
  (** a struct: its members by name *)
  Definition struct : Type := bytes -> data.
  Definition set_member (x : bytes) (d : data) (s : struct) : struct :=
    fun y => if bytes_eqb x y then d else s y.
  (** dumper::_to_json, 58-68 *)
  Fixpoint run_to (ws : list work) (s : struct) (o : object) : res object :=
    match ws with
    | [] => Ok o
    | Work _ _ x as w :: r =>
        do v <- to_value E (type x) (s x); run_to r s (fst (obj_emplace (work_key w) v o))
    end.
  (** checker::_check_json, 95-118 *)
  Fixpoint run_check (ws : list work) (v : value) : res (option bytes) :=
    match ws with
    | [] => Ok None
    | Work st _ x as w :: r =>
        do o <- v_find_value_key (work_key w) v;
        match o with
        | Some u => do b <- is_ E (type x) u; if b then run_check r v else Ok (Some (work_key w))
        | None => if s_opt st then run_check r v else Ok (Some (work_key w))
        end
    end.
  (** loader::_from_json, 151-175 *)
  Fixpoint run_from (ws : list work) (v : value) (s : struct) : struct * res (option bytes) :=
    match ws with
    | [] => (s, Ok None)
    | Work st _ x as w :: r =>
        match v_find_value_key (work_key w) v with
        | Ok (Some u) =>
            match is_ E (type x) u with
            | Ok true =>
                match as_ E (type x) u with
                | Ok d => run_from r v (set_member x d s)
                | o => (s, do _ <- o; Ok None)
                end
            | Ok false => (s, Ok (Some (work_key w)))
            | o => (s, do _ <- o; Ok None)
            end
        | Ok None => if s_opt st then run_from r v s else (s, Ok (Some (work_key w)))
        | o => (s, do _ <- o; Ok None)
        end
    end.
  (** The functions written by the macro, 428-464. [None]: does not compile. *)
  Definition works (call : list token) : option (list work) :=
    match pack call with Some l => resolve None l | None => None end.
  Definition macro_to_json (call : list token) : option (struct -> res value) :=
    match works call with Some ws => Some (fun s => do o <- run_to ws s []; Ok (v_object o)) | None => None end.
  Definition macro_check_json (call : list token) : option (value -> res (option bytes)) :=
    match works call with Some ws => Some (run_check ws) | None => None end.
  Definition macro_from_json (call : list token) : option (value -> struct -> struct * res (option bytes)) :=
    match works call with Some ws => Some (run_from ws) | None => None end.
End Run.
