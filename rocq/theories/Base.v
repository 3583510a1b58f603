(** * Base: bytes, cursors and outcomes.

    Conventions used by the whole model.

    - A byte ([char] read as [unsigned char]) is an [N]; a byte string
      ([std::string], [std::string_view], the input buffer) is a [list N].
      The model never needs [c < 256]; theorems that do say so.
    - A cursor [_cur] into the buffer (include/parser/parser.hpp:57-58) is the
      list of bytes in [_cur, _end): the parser only ever moves it forward.
    - [res] is the outcome of running C++ code. *)
From Coq Require Export Ascii String.
From Coq Require Export NArith ZArith Lia Bool Arith List.
From Coq Require Export ZifyBool ZifyNat ZifyN.
Export ListNotations.
#[global] Set Warnings "-abstract-large-number".
Open Scope N_scope.
Open Scope list_scope.
Infix "++" := app (right associativity, at level 60) : list_scope.

Definition bytes := list N.

(** Text of a Coq string literal as bytes (only used to write constants). *)
Fixpoint of_string (s : string) : bytes :=
  match s with
  | EmptyString => []
  | String c s' => N_of_ascii c :: of_string s'
  end.

(** Exceptions the modelled code can throw. *)
Inductive exn : Type :=
| JsonException     (* json::exception, include/common/exception.hpp *)
| OutOfRange        (* std::out_of_range, from vector::at / map::at *)
| BadVariant        (* std::bad_variant_access, from std::get *)
| BadAlloc          (* std::bad_alloc *)
| LengthError.      (* std::length_error *)

(** Outcome of a computation. [Ub]: undefined behaviour was executed (reading
    at or past [_end], dereferencing a null [unique_ptr], ...). [Stack]: the
    recursion budget given to the parser is exhausted. [Fuel]: an iteration
    bound of the model is exhausted; proved unreachable. *)
Inductive res (A : Type) : Type :=
| Ok (a : A)
| Throw (e : exn)
| Ub
| Stack
| Fuel.
Arguments Ok {A} a.
Arguments Throw {A} e.
Arguments Ub {A}.
Arguments Stack {A}.
Arguments Fuel {A}.

Definition bind {A B} (x : res A) (f : A -> res B) : res B :=
  match x with
  | Ok a => f a
  | Throw e => Throw e
  | Ub => Ub
  | Stack => Stack
  | Fuel => Fuel
  end.
Notation "'do' x <- e ; f" := (bind e (fun x => f))
  (at level 200, x pattern, e at level 100, f at level 200, right associativity).

(** [*_cur] *)
Definition deref (cur : bytes) : res N :=
  match cur with c :: _ => Ok c | [] => Ub end.
(** [++_cur] *)
Definition advance (cur : bytes) : res bytes :=
  match cur with _ :: r => Ok r | [] => Ub end.
(** [_cur == _end] *)
Definition at_end (cur : bytes) : bool :=
  match cur with [] => true | _ => false end.
(** [std::string(beg, cur)] / [append(beg, cur)], [cur] reachable from [beg]. *)
Definition slice (beg cur : bytes) : bytes :=
  firstn (length beg - length cur) beg.

(** [std::isdigit] on an unsigned char. *)
Definition isdigit (c : N) : bool := (48 <=? c) && (c <=? 57).
(** [std::isxdigit] on an unsigned char, "C" locale. *)
Definition isxdigit (c : N) : bool :=
  isdigit c || ((97 <=? c) && (c <=? 102)) || ((65 <=? c) && (c <=? 70)).

(** Unsigned lexicographic comparison, [std::string::operator<]
    ([char_traits<char>::compare]); the order of [std::map<std::string,_>]. *)
Fixpoint bytes_ltb (a b : bytes) : bool :=
  match a, b with
  | _, [] => false
  | [], _ :: _ => true
  | x :: a', y :: b' => if x <? y then true else if y <? x then false else bytes_ltb a' b'
  end.
Fixpoint bytes_eqb (a b : bytes) : bool :=
  match a, b with
  | [], [] => true
  | x :: a', y :: b' => (x =? y) && bytes_eqb a' b'
  | _, _ => false
  end.
