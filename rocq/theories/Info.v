(** * type_name and value_info: include/common/value_impl.hpp:367-405. Model only. *)
From Verif Require Import Base Value Dump Containers Num Enum.

(** enum class value_type : char, value.hpp:33-44, as the compiler [cc] prints it *)
Definition value_type_enum (cc : compiler) : enum :=
  EnumOf (Some (true, 8)) None
    [(of_string "invalid", 0%Z); (of_string "null", 1%Z); (of_string "boolean", 2%Z); (of_string "string", 3%Z);
     (of_string "number", 4%Z); (of_string "array", 5%Z); (of_string "object", 6%Z);
     (of_string "_MEOJSON_ENUM_MIN", 0%Z); (of_string "_MEOJSON_ENUM_MAX", 6%Z)]
    0 6 cc (of_string "json::value::value_type") (of_string "json::value::value_type::").
Definition type_code (t : vtype) : Z :=
  match t with
  | Tinvalid => 0 | Tnull => 1 | Tboolean => 2 | Tstring => 3 | Tnumber => 4 | Tarray => 5 | Tobject => 6
  end%Z.
(** type_name, 367-371 *)
Definition type_name (cc : compiler) (v : value) : res bytes :=
  do n <- enum_to_string (value_type_enum cc) (type_code (type_of v));
  Ok (if is_nil n then of_string "unknown" else n).
(** the try block of value_info, 375-401 *)
Definition info_body (cc : compiler) (v : value) : res bytes :=
  do n <- type_name cc v;
  let info := of_string "type=" ++ n in
  match type_of v with
  | Tnull | Tinvalid => Ok info
  | Tboolean | Tnumber | Tstring =>
      do s <- dump v;
      Ok (info ++ of_string ", value=" ++ (if Nat.ltb 100 (length s) then firstn 100 s ++ of_string "..." else s))
  | Tarray => do l <- as_array_c v; Ok (info ++ of_string ", size=" ++ to_string_N (N.of_nat (length l)))
  | Tobject => do m <- as_object_c v; Ok (info ++ of_string ", size=" ++ to_string_N (N.of_nat (length m)))
  end.
(** value_info, 373-405: catch (...) *)
Definition value_info (cc : compiler) (v : value) : res bytes :=
  match info_body cc v with
  | Throw _ => do n <- type_name cc v; Ok (of_string "type=" ++ n)
  | r => r
  end.
