(** * The recursive functions on values with a budget of nested levels.

    Each function of Dump.v and Containers.v that calls itself on the elements or members of a value, line by line,
    with the number [d] of nested values it may still enter: every level takes a bounded number of activations
    (dump_to of the value and of its array or object, say). With none left the outcome is [Stack].
    parse_budget in Parser.v is the same for the parser. Model only. *)
From Verif Require Import Base Value Dump Containers.

(** value::dump_to, value_impl.hpp:769-793 *)
Fixpoint dump_d (d : nat) (v : value) : res bytes :=
  match d with
  | O => Stack
  | S d' =>
      match v with
      | VStr t s => dump v
      | VArr t p =>
          match t with
          | Tnull => Ok null_string
          | Tarray => match p with Some l => dump_array_with (dump_d d') l | None => Ub end
          | Tboolean | Tnumber | Tstring | Tobject => Throw BadVariant
          | Tinvalid => Throw JsonException
          end
      | VObj t p =>
          match t with
          | Tnull => Ok null_string
          | Tobject => match p with Some l => dump_object_with (dump_d d') l | None => Ub end
          | Tboolean | Tnumber | Tstring | Tarray => Throw BadVariant
          | Tinvalid => Throw JsonException
          end
      end
  end.
(** value::format_to, value_impl.hpp:802-820; dump_to of the same value is on the same level *)
Fixpoint format_d (indent times : N) (d : nat) (v : value) : res bytes :=
  match d with
  | O => Stack
  | S d' =>
      match v with
      | VStr t s =>
          match t with
          | Tarray | Tobject => Throw BadVariant
          | _ => dump_d d v
          end
      | VArr t p =>
          match t with
          | Tarray =>
              match p with
              | Some l => format_array_with (format_d indent (times + 1) d') indent times l
              | None => Ub
              end
          | Tobject => Throw BadVariant
          | _ => dump_d d v
          end
      | VObj t p =>
          match t with
          | Tobject =>
              match p with
              | Some l => format_object_with (format_d indent (times + 1) d') indent times l
              | None => Ub
              end
          | Tarray => Throw BadVariant
          | _ => dump_d d v
          end
      end
  end.
(** value::dumps, value_impl.hpp:822-831 *)
Definition dumps_d (indent : option N) (d : nat) (v : value) : res bytes :=
  match indent with
  | Some n => format_d n 0 d v
  | None => dump_d d v
  end.
(** value(const value& ), value_impl.hpp:80-84, deep_copy, 1102-1120 *)
Fixpoint copy_d (d : nat) (v : value) : res value :=
  match d with
  | O => Stack
  | S d' =>
      match v with
      | VStr t s => Ok (VStr t s)
      | VArr t (Some l) => do l' <- copy_elems (copy_d d') l; Ok (VArr t (Some l'))
      | VObj t (Some m) => do m' <- copy_members (copy_d d') m; Ok (VObj t (Some m'))
      | VArr _ None | VObj _ None => Ub
      end
  end.
(** operator==, value_impl.hpp:856-876 *)
Fixpoint v_eq_d (d : nat) (v w : value) : res bool :=
  match d with
  | O => Stack
  | S d' =>
      if negb (vtype_eqb (type_of v) (type_of w)) then Ok false
      else match type_of v with
      | Tnull => Ok true
      | Tboolean | Tnumber | Tstring => Ok (raw_eq v w)
      | Tarray =>
          match v with
          | VArr _ (Some l) => do r <- get_arr w; eq_array (v_eq_d d') l r
          | VArr _ None => Ub
          | _ => Throw BadVariant
          end
      | Tobject =>
          match v with
          | VObj _ (Some m) => do r <- get_obj w; eq_object (v_eq_d d') m r
          | VObj _ None => Ub
          | _ => Throw BadVariant
          end
      | Tinvalid => Throw JsonException
      end
  end.
(** ~value, value_impl.hpp:206: the variant destroys the array or object, which destroys its elements *)
Section Each.
  Context {A : Type} (f : A -> res unit).
  Fixpoint each_d (l : list A) : res unit := match l with [] => Ok tt | x :: r => do _ <- f x; each_d r end.
End Each.
Fixpoint destroy_d (d : nat) (v : value) : res unit :=
  match d with
  | O => Stack
  | S d' =>
      match v with
      | VArr _ (Some l) => each_d (destroy_d d') l
      | VObj _ (Some m) => each_d (fun kv => destroy_d d' (snd kv)) m
      | _ => Ok tt
      end
  end.
