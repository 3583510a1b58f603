(** * Representation of json::value, json::array, json::object. *)
From Verif Require Import Base.

(** include/common/value.hpp:33-44, [enum class value_type]. *)
Inductive vtype : Type :=
| Tinvalid | Tnull | Tboolean | Tstring | Tnumber | Tarray | Tobject.

(** include/common/value.hpp:46, 671-672: [_type] and
    [_raw_data : std::variant<std::string, array_ptr, object_ptr>].
    The constructor is the active alternative of the variant, [t] the type tag;
    [None] is a null [std::unique_ptr] (a moved-from value).
    [json::array] is [std::vector<value>] (array.hpp:24, 302): a list.
    [json::object] is [std::map<std::string, value>] (object.hpp:23, 236): a
    list of pairs kept sorted by key (see [map_*] below). *)
Inductive value : Type :=
| VStr (t : vtype) (s : bytes)
| VArr (t : vtype) (p : option (list value))
| VObj (t : vtype) (p : option (list (bytes * value))).

Definition array := list value.
Definition object := list (bytes * value).

(** [type()], value_impl.hpp:362-365. *)
Definition type_of (v : value) : vtype :=
  match v with VStr t _ => t | VArr t _ => t | VObj t _ => t end.

Definition vtype_eqb (a b : vtype) : bool :=
  match a, b with
  | Tinvalid, Tinvalid | Tnull, Tnull | Tboolean, Tboolean | Tstring, Tstring
  | Tnumber, Tnumber | Tarray, Tarray | Tobject, Tobject => true
  | _, _ => false
  end.

(** Constructors.  A default-constructed variant holds an empty string. *)
(** value(), value.hpp:671-672 and value_impl.hpp:78; value(nullptr_t), value(monostate) 166-174 *)
Definition v_null : value := VStr Tnull [].
(** invalid_value(), parser_impl.hpp:682-685 *)
Definition invalid_value : value := VStr Tinvalid [].
(** [_utils::true_string] etc., utils.hpp:461-474 *)
Definition true_string : bytes := of_string "true".
Definition false_string : bytes := of_string "false".
Definition null_string : bytes := of_string "null".
(** value(bool), value_impl.hpp:88-92 *)
Definition v_bool (b : bool) : value := VStr Tboolean (if b then true_string else false_string).
(** value(value_type::number, string), value_impl.hpp:1095-1101 as used at parser_impl.hpp:160 *)
Definition v_number (s : bytes) : value := VStr Tnumber s.
(** value(std::string), value_impl.hpp:154-158 *)
Definition v_string (s : bytes) : value := VStr Tstring s.
(** value(array&&), value_impl.hpp:182-186 *)
Definition v_array (a : array) : value := VArr Tarray (Some a).
(** value(object&&), value_impl.hpp:194-198 *)
Definition v_object (o : object) : value := VObj Tobject (Some o).

(** valid(), value_impl.hpp:208-211 *)
Definition valid (v : value) : bool := negb (vtype_eqb (type_of v) Tinvalid).

(** ** std::map<std::string, T> as a sorted association list. *)
Section Map.
  Context {A : Type}.
  (** map::find *)
  Fixpoint map_find (k : bytes) (m : list (bytes * A)) : option A :=
    match m with
    | [] => None
    | (k', v) :: m' => if bytes_eqb k k' then Some v else map_find k m'
    end.
  (** map::emplace / map::insert: keeps an existing entry; the boolean says
      whether an insertion took place. *)
  Fixpoint map_emplace (k : bytes) (v : A) (m : list (bytes * A)) : list (bytes * A) * bool :=
    match m with
    | [] => ([(k, v)], true)
    | (k', v') :: m' =>
        if bytes_ltb k k' then ((k, v) :: m, true)
        else if bytes_eqb k k' then (m, false)
        else let '(r, b) := map_emplace k v m' in ((k', v') :: r, b)
    end.
  (** map::insert_or_assign: overwrites an existing entry. *)
  Fixpoint map_assign (k : bytes) (v : A) (m : list (bytes * A)) : list (bytes * A) :=
    match m with
    | [] => [(k, v)]
    | (k', v') :: m' =>
        if bytes_ltb k k' then (k, v) :: m
        else if bytes_eqb k k' then (k', v) :: m'
        else (k', v') :: map_assign k v m'
    end.
  (** map::erase(key), result: number of erased elements > 0 *)
  Fixpoint map_erase (k : bytes) (m : list (bytes * A)) : list (bytes * A) * bool :=
    match m with
    | [] => ([], false)
    | (k', v') :: m' =>
        if bytes_eqb k k' then (m', true)
        else let '(r, b) := map_erase k m' in ((k', v') :: r, b)
    end.
End Map.
