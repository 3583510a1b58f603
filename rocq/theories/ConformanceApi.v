(** * The project's own tests, continued: containers, conversions and the sample program

    As in Conformance.v: tests of the model on the inputs of /repo/test, not theorems. *)
From Verif Require Import Base Value Packed Parser Dump Containers Num Enum Conv Float Api SamplesConv SamplesFloat Conformance.
Open Scope N_scope.
Open Scope list_scope.

Definition rarr (l : list value) : array := l.
Definition robj (l : list (string * value)) : object := obj_of_list (map (fun p => (t (fst p), snd p)) l).
Definition ints (l : list Z) : array := map int l.
Definition dints (l : list Z) : data := DSeq (map DInt l).
Definition int_lt (a b : data) : bool := match a, b with DInt x, DInt y => (x <? y)%Z | _, _ => false end.
Definition str_lt (a b : data) : bool := match a, b with DStr x, DStr y => bytes_ltb x y | _, _ => false end.
Definition ok {A} (p : A * res bool) : A * bool := (fst p, match snd p with Ok b => b | _ => false end).
(** what a sequence of commands leaves in the variables *)
Fixpoint after_all (cs : list cmd) (st : store) : option store :=
  match cs with
  | [] => Some st
  | c :: r => match exec c st with Done st' (Ok _) => after_all r st' | _ => None end
  end.
Definition var (n : nat) : loc := Loc n [].
Definition at_ (n : nat) (ks : list string) : loc := Loc n (map (fun k => Key (t k)) ks).
Definition lit_ (e : expr) : arg := Tmp e.
Definition es (x : string) : expr := EStr (t x).
Definition ei (z : Z) : expr := ENum (to_string_Z z).
Definition eo (l : list (string * expr)) : expr := EObj (map (fun p => (t (fst p), snd p)) l).
Definition ed (x : string) : expr := ENum (float_to_string cfg_default 53 (decode 53 (dbl x))).

(** ** array_test.cpp *)
(** array_test.cpp:24-89 *)
Example array_constructors :
  arr_size [] = 0 /\
  arr_size (arr_of_size 10) = 10 /\
  arr_index 9 (arr_of_size 10) = Ok v_null /\
  to_value E (TVec tint) (dints [1; 2; 3; 4; 5]%Z) = Ok (arr (ints [1; 2; 3; 4; 5]%Z)) /\
  to_value E (TVec TStr) (DSeq [DStr (t "a"); DStr (t "b"); DStr (t "c")]) = Ok (arr [str "a"; str "b"; str "c"]) /\
  to_value E (TColl (set_insert int_lt) tint) (DSeq (coll_of (set_insert int_lt) [DInt 3; DInt 1; DInt 2])) = Ok (arr (ints [1; 2; 3]%Z)).
Proof. compute_it. Qed.

Definition acc : array := [int 1; int 2; str "three"; num "4.5"; v_bool true; v_null].
(** 91-163 *)
Example array_access :
  arr_empty acc = false /\
  arr_size acc = 6 /\
  arr_contains 0 acc = true /\
  arr_contains 5 acc = true /\
  arr_contains 6 acc = false /\
  arr_exists 2 acc = true /\
  arr_exists 10 acc = false /\
  (do v <- arr_at 0 acc; as_integer v) = Ok 1%Z /\
  (do v <- arr_at 2 acc; as_string v) = Ok (t "three") /\
  (do v <- arr_index 1 acc; as_integer v) = Ok 2%Z /\
  (do v <- arr_index 4 acc; as_boolean v) = Ok true /\
  arr_get E tint (DInt 999) 0 [] acc = Ok (DInt 1) /\
  arr_get E tint (DInt 999) 100 [] acc = Ok (DInt 999) /\
  arr_find E tint 0 acc = Ok (Some (DInt 1)) /\
  arr_find E TValue 20 acc = Ok None /\
  allM (is_ E tint) (ints [1; 2; 3; 4; 5]%Z) = Ok true /\
  allM (is_ E tint) [int 1; str "two"; int 3] = Ok false.
Proof. compute_it. Qed.

(** 165-227 *)
Example array_modification :
  arr_emplace_back (num "3.3") (arr_emplace_back (str "two") (arr_emplace_back (int 1) [])) = [int 1; str "two"; num "3.3"] /\
  arr_erase 2 (ints [1; 2; 3; 4; 5]%Z) = (ints [1; 2; 4; 5]%Z, true) /\
  arr_erase 10 (ints [1; 2; 4; 5]%Z) = (ints [1; 2; 4; 5]%Z, false) /\
  arr_erase_iter 1 (ints [10; 20; 30]%Z) = (ints [10; 30]%Z, true) /\
  arr_clear (ints [10; 20; 30]%Z) = [].
Proof. compute_it. Qed.

(** 321-382 *)
Example array_operators :
  v_eq (arr (ints [1; 2; 3]%Z)) (arr (ints [1; 2; 3]%Z)) = Ok true /\
  v_eq (arr (ints [1; 2; 3]%Z)) (arr (ints [1; 2; 4]%Z)) = Ok false /\
  v_neq (arr (ints [1; 2; 3]%Z)) (arr (ints [1; 2; 3]%Z)) = Ok false /\
  v_neq (arr (ints [1; 2; 3]%Z)) (arr (ints [1; 2; 4]%Z)) = Ok true /\
  arr_plus_cc (ints [1; 2]%Z) (ints [3; 4]%Z) = Ok (ints [1; 2; 3; 4]%Z) /\
  arr_plus_assign_m (ints [1; 2]%Z) (ints [3; 4; 5]%Z) = Ok (ints [1; 2; 3; 4; 5]%Z).
Proof. compute_it. Qed.

(** 384-457 *)
Example array_serialization :
  parses (t "[1, ""hello"", true, null, {""key"": ""value""}]") (arr [int 1; str "hello"; v_bool true; v_null; obj [("key"%string, str "value")]]) /\
  as_ E (TVec tint) (arr (ints [1; 2; 3; 4; 5]%Z)) = Ok (dints [1; 2; 3; 4; 5]%Z) /\
  as_ E (TVec (TVec tint)) (arr [arr (ints [1; 2]%Z); arr (ints [3; 4]%Z); arr (ints [5; 6]%Z)]) = Ok (DSeq [dints [1; 2]%Z; dints [3; 4]%Z; dints [5; 6]%Z]) /\
  dumps None (arr [int 1; str "two"; num "3.14"; v_bool true; v_null; arr [str "nested"; str "array"]; obj [("nested"%string, str "object")]]) = Ok (t "[1,""two"",3.140000,true,null,[""nested"",""array""],{""nested"":""object""}]").
Proof. compute_it. Qed.

(** ** object_test.cpp *)
(** object_test.cpp:24-71 *)
Example object_constructors :
  to_value E (TMap tint) (DMap [(t "a", DInt 1); (t "b", DInt 2); (t "c", DInt 3)]) = Ok (obj [("a", int 1); ("b", int 2); ("c", int 3)]%string) /\
  to_value E (TMap TStr) (DMap [(t "x", DStr (t "hello")); (t "y", DStr (t "world"))]) = Ok (obj [("x", str "hello"); ("y", str "world")]%string).
Proof. compute_it. Qed.

Definition person : object := robj [("name", str "Alice"); ("age", int 30); ("city", str "NYC"); ("active", v_bool true)]%string.
(** 73-141 *)
Example object_access :
  obj_size person = 4 /\
  obj_contains (t "name") person = true /\
  obj_contains (t "country") person = false /\
  obj_exists (t "city") person = true /\
  obj_exists (t "unknown") person = false /\
  (do v <- obj_at (t "name") person; as_string v) = Ok (t "Alice") /\
  obj_at (t "unknown") person = Throw OutOfRange /\
  obj_get E TStr (DStr (t "Unknown")) (t "name") [] person = Ok (DStr (t "Alice")) /\
  obj_get E tint (DInt 50000) (t "salary") [] person = Ok (DInt 50000) /\
  obj_find E TStr (t "city") person = Ok (Some (DStr (t "NYC"))) /\
  obj_find E TValue (t "unknown") person = Ok None /\
  allM_members (is_ E tint) (robj [("a", int 1); ("b", int 2); ("c", int 3)]%string) = Ok true /\
  allM_members (is_ E tint) (robj [("a", int 1); ("b", str "two")]%string) = Ok false.
Proof. compute_it. Qed.

Definition filled : object := fst (obj_emplace (t "key4") (num "3.14") (fst (obj_emplace (t "key3") (v_bool true) (fst (obj_emplace (t "key2") (int 42) (fst (obj_emplace (t "key1") (str "value1") []))))))).
(** 143-208 *)
Example object_modification :
  filled = robj [("key1", str "value1"); ("key2", int 42); ("key3", v_bool true); ("key4", num "3.14")]%string /\
  obj_index (t "key5") filled = filled ++ [(t "key5", v_null)] /\
  obj_erase (t "key3") filled = (robj [("key1", str "value1"); ("key2", int 42); ("key4", num "3.14")]%string, true) /\
  obj_erase (t "nonexistent") filled = (filled, false) /\
  obj_erase_iter (Some (t "key1")) filled = (tl filled, true) /\
  obj_clear filled = [].
Proof. compute_it. Qed.

(** 258-321 *)
Example object_operators :
  v_eq (obj [("a", int 1); ("b", int 2)]%string) (obj [("a", int 1); ("b", int 2)]%string) = Ok true /\
  v_eq (obj [("a", int 1); ("b", int 2)]%string) (obj [("a", int 1); ("b", int 3)]%string) = Ok false /\
  obj_or_cc (robj [("a", int 1); ("b", int 2)]%string) (robj [("b", int 3); ("c", int 4)]%string) = Ok (robj [("a", int 1); ("b", int 3); ("c", int 4)]%string) /\
  obj_or_assign_m (robj [("x", int 10)]%string) (robj [("y", int 20); ("z", int 30)]%string) = Ok (robj [("x", int 10); ("y", int 20); ("z", int 30)]%string).
Proof. compute_it. Qed.

(** 323-387 *)
Example object_serialization :
  parses (t "{""key1"": ""value1"", ""key2"": 42, ""key3"": true}") (obj [("key1", str "value1"); ("key2", int 42); ("key3", v_bool true)]%string) /\
  as_ E (TMap tint) (obj [("a", int 1); ("b", int 2); ("c", int 3)]%string) = Ok (DMap [(t "a", DInt 1); (t "b", DInt 2); (t "c", DInt 3)]).
Proof. compute_it. Qed.

(** ** value_test.cpp *)
(** enum class Color { Red = 1, Green = 2, Blue = 3 }, local to a function, as GCC prints it *)
Definition local_color : enum :=
  EnumOf (Some (true, 32)) None [(t "Red", 1%Z); (t "Green", 2%Z); (t "Blue", 3%Z)] (-128) 128 GCC
    (t "test_value_constructors()::Color") (t "test_value_constructors()::Color::").

(** value_test.cpp:48-160 *)
Example value_constructors :
  type_of v_null = Tnull /\
  as_boolean (v_bool true) = Ok true /\
  as_boolean (v_bool false) = Ok false /\
  to_value E (TFlt 24) (DFlt 1078523331) = Ok (v_number (t "3.140000")) /\
  to_value E (TFlt 53) (DFlt (dbl "3.14159")) = Ok (v_number (t "3.141590")) /\
  as_string (str "hello") = Ok (t "hello") /\
  copy (obj [("key1", int 1); ("key2", str "value2")]%string) = Ok (obj [("key1", int 1); ("key2", str "value2")]%string) /\
  to_value E (TEnum local_color) (DInt 1) = Ok (str "Red") /\
  to_value (std_env true cfg_default) (TEnum local_color) (DInt 1) = Ok (int 1).
Proof. compute_it. Qed.

Definition kinds : list value := [v_null; v_bool true; int 42; num "3.14"; str "hello"; arr (ints [1; 2; 3]%Z); obj [("key"%string, str "value")]].
(** 162-314 *)
Example value_type_checks :
  map is_null kinds = [true; false; false; false; false; false; false] /\
  map is_boolean kinds = [false; true; false; false; false; false; false] /\
  map is_number kinds = [false; false; true; true; false; false; false] /\
  map is_string kinds = [false; false; false; false; true; false; false] /\
  map is_array kinds = [false; false; false; false; false; true; false] /\
  map is_object kinds = [false; false; false; false; false; false; true] /\
  forallb valid kinds = true /\
  map v_empty [str ""; arr []; obj []; str "hello"; arr (ints [1; 2; 3]%Z); obj [("key"%string, str "value")]] = [Ok true; Ok true; Ok true; Ok false; Ok false; Ok false] /\
  map type_of kinds = [Tnull; Tboolean; Tnumber; Tnumber; Tstring; Tarray; Tobject] /\
  is_ E TBool (v_bool true) = Ok true /\
  is_ E tint (int 42) = Ok true /\
  is_ E tint (num "1.2") = Ok false /\
  is_ E tunsigned (int (-1)) = Ok false /\
  is_ E tunsigned (VStr Tnumber (t "4294967296")) = Ok false /\
  is_ E TStr (str "hello") = Ok true.
Proof. compute_it. Qed.

Definition five : value := arr [int 1; int 2; int 3; str "four"; int 5].
Definition alice : value := obj [("name", str "Alice"); ("age", int 30); ("city", str "NYC")]%string.
Definition bob : value := obj [("user", obj [("info", obj [("name", str "Bob")])])]%string.
(** 316-465 *)
Example value_access :
  v_contains_pos 0 five = Ok true /\
  v_contains_pos 4 five = Ok true /\
  v_contains_pos 5 five = Ok false /\
  v_exists_pos 5 five = Ok false /\
  (do v <- v_at_pos 0 five; as_integer v) = Ok 1%Z /\
  (do v <- v_at_pos 3 five; as_string v) = Ok (t "four") /\
  v_find_pos E tint 0 five = Ok (Some (DInt 1)) /\
  v_find_value_pos 10 five = Ok None /\
  v_find_pos E TValue 10 five = Ok None /\
  v_contains_key (t "name") alice = Ok true /\
  v_contains_key (t "country") alice = Ok false /\
  v_exists_key (t "city") alice = Ok true /\
  (do v <- at_key "name" alice; as_string v) = Ok (t "Alice") /\
  (do v <- at_key "age" alice; as_integer v) = Ok 30%Z /\
  v_find_key E TStr (t "name") alice = Ok (Some (DStr (t "Alice"))) /\
  v_find_value_key (t "country") alice = Ok None /\
  v_get E tint (DInt 0) [KStr (t "age")] alice = Ok (DInt 30) /\
  v_get E tint (DInt 25) [KStr (t "unknown")] alice = Ok (DInt 25) /\
  v_get E TStr (DStr (t "Unknown")) [KStr (t "user"); KStr (t "info"); KStr (t "name")] bob = Ok (DStr (t "Bob")) /\
  v_get E TStr (DStr (t "N/A")) [KStr (t "user"); KStr (t "info"); KStr (t "age")] bob = Ok (DStr (t "N/A")) /\
  arr_erase_iter 0 [int 1] = ([], true) /\
  arr_erase_iter 0 [] = ([], false) /\
  obj_erase_iter (Some (t "key")) (robj [("key"%string, int 1)]) = ([], true) /\
  obj_erase_iter None [] = ([], false).
Proof. compute_it. Qed.

(** 467-622 *)
Example value_conversions :
  map (fun p => as_int (fst p) (snd p) (int 42)) [(true, 32); (true, 64); (false, 32); (false, 64)] = [Ok 42; Ok 42; Ok 42; Ok 42]%Z /\
  as_integer (num "1.2") = Throw JsonException /\
  as_int false 32 (int (-1)) = Throw JsonException /\
  as_integer (VStr Tnumber (t "2147483648")) = Throw JsonException /\
  as_int false 32 (VStr Tnumber (t "4294967296")) = Throw JsonException /\
  as_ E (TFlt 53) (num "3.14159") = Ok (DFlt (dbl "3.14159")) /\
  as_ E (TFlt 24) (v_number (t "3.140000")) = Ok (DFlt 1078523331) /\
  as_ E (TMap tint) (obj [("a", int 1); ("b", int 2)]%string) = Ok (DMap [(t "a", DInt 1); (t "b", DInt 2)]).
Proof. compute_it. Qed.

(** 624-715 *)
Example value_operators :
  v_index_pos 2 (arr (ints [1; 2; 3]%Z)) = (arr (ints [1; 2; 3]%Z), Ok (int 3)) /\
  after_all [CNew (EArr [ei 1; ei 2; ei 3]); CAssign (Loc 0 [Idx 1]) (lit_ (ei 20))] [] = Some [arr (ints [1; 20; 3]%Z)] /\
  after_all [CNew (eo [("a", ei 1); ("b", ei 2)]%string); CInvoke (var 0) (MIndexKey (t "c")); CAssign (at_ 0 ["c"%string]) (lit_ (ei 3))] [] = Some [obj [("a", int 1); ("b", int 2); ("c", int 3)]%string] /\
  v_eq (int 42) (int 42) = Ok true /\
  v_eq (int 42) (int 43) = Ok false /\
  v_neq (int 42) (int 43) = Ok true /\
  v_or_cc (obj [("a", int 1); ("b", int 2)]%string) (robj [("b", int 3); ("c", int 4)]%string) = Ok (obj [("a", int 1); ("b", int 3); ("c", int 4)]%string) /\
  v_or_assign_m (robj [("y"%string, int 2)]) (obj [("x"%string, int 1)]) = (obj [("x", int 1); ("y", int 2)]%string, Ok tt) /\
  v_plus_cc (arr (ints [1; 2]%Z)) (ints [3; 4]%Z) = Ok (arr (ints [1; 2; 3; 4]%Z)) /\
  v_plus_assign_m (ints [3; 4]%Z) (arr (ints [1; 2]%Z)) = (arr (ints [1; 2; 3; 4]%Z), Ok tt) /\
  after_all [CNew (ei 123); CNew ENull; CAssign (var 1) (CRef (var 0))] [] = Some [int 123; int 123].
Proof. compute_it. Qed.

(** 717-815 *)
Example value_modification :
  after_all [CNew (EArr []); CEmplace (var 0) (lit_ (ei 1)); CEmplace (var 0) (lit_ (ei 2)); CEmplace (var 0) (lit_ (es "three"))] [] = Some [arr [int 1; int 2; str "three"]] /\
  after_all [CNew (eo []); CEmplaceKey (var 0) (t "key1") (lit_ (es "value1")); CEmplaceKey (var 0) (t "key2") (lit_ (ei 42))] [] = Some [obj [("key1", str "value1"); ("key2", int 42)]%string] /\
  v_erase_pos 2 (arr (ints [1; 2; 3; 4; 5]%Z)) = (arr (ints [1; 2; 4; 5]%Z), Ok true) /\
  v_erase_pos 10 (arr (ints [1; 2; 4; 5]%Z)) = (arr (ints [1; 2; 4; 5]%Z), Ok false) /\
  v_erase_key (t "b") (obj [("a", int 1); ("b", int 2); ("c", int 3)]%string) = (obj [("a", int 1); ("c", int 3)]%string, Ok true) /\
  v_erase_key (t "d") (obj [("a", int 1); ("c", int 3)]%string) = (obj [("a", int 1); ("c", int 3)]%string, Ok false) /\
  v_empty (fst (v_clear (arr (ints [1; 2; 3]%Z)))) = Ok true /\
  v_empty (fst (v_clear (obj [("a"%string, int 1)]))) = Ok true.
Proof. compute_it. Qed.

(** 817-1025 *)
Example value_extended :
  to_value E TMono DUnit = Ok v_null /\
  is_ E TMono v_null = Ok true /\
  is_ E TMono (int 42) = Ok false /\
  is_ E TNullptr v_null = Ok true /\
  is_ E TNullptr (int 42) = Ok false /\
  as_ E TMono v_null = Ok DUnit /\
  as_ E TMono (int 42) = Throw JsonException /\
  as_ E TNullptr v_null = Ok DUnit /\
  as_ E TNullptr (int 42) = Throw JsonException /\
  as_ E TView (str "hello world") = Ok (DStr (t "hello world")) /\
  as_ E TView (int 42) = Throw JsonException /\
  map (to_value E (TVar [TMono; tint; TStr])) [DAlt 0 DUnit; DAlt 1 (DInt 42); DAlt 2 (DStr (t "test"))] = [Ok v_null; Ok (int 42); Ok (str "test")].
Proof. compute_it. Qed.

(** ** smart_ptr_test.cpp *)
(** smart_ptr_test.cpp:24-378 *)
Example smart_pointers :
  to_value E (TPtr tint) (DOpt (Some (DInt 42))) = Ok (int 42) /\
  to_value E (TPtr tint) (DOpt None) = Ok v_null /\
  to_value E (TPtr TStr) (DOpt (Some (DStr (t "hello")))) = Ok (str "hello") /\
  to_value E (TPtr TBool) (DOpt (Some (DBool true))) = Ok (v_bool true) /\
  map (is_ E (TPtr tint)) [int 42; v_null; str "hello"] = [Ok true; Ok true; Ok false] /\
  map (is_ E (TPtr TStr)) [str "hello"; int 42] = [Ok true; Ok false] /\
  as_ E (TPtr tint) (int 100) = Ok (DOpt (Some (DInt 100))) /\
  as_rv E (TPtr tint) (int 200) = Ok (DOpt (Some (DInt 200))) /\
  cast_rv E (TPtr tint) (int 200) = Ok (DOpt (Some (DInt 200))) /\
  as_ E (TPtr tint) v_null = Ok (DOpt None) /\
  as_ E (TPtr TStr) (str "test") = Ok (DOpt (Some (DStr (t "test")))) /\
  to_value E (TPtr (TVec tint)) (DOpt (Some (dints [1; 2; 3]%Z))) = Ok (arr (ints [1; 2; 3]%Z)) /\
  as_ E (TPtr (TVec tint)) (arr (ints [4; 5; 6]%Z)) = Ok (DOpt (Some (dints [4; 5; 6]%Z))) /\
  is_ E (TPtr (TVec tint)) (arr (ints [1; 2; 3]%Z)) = Ok true.
Proof. compute_it. Qed.

(** ** enum_test.cpp *)
Definition test_color : enum := Enum "Color" (Some (true, 32)) None [(t "Red", 1%Z); (t "Green", 2%Z); (t "Blue", 4%Z)] (-128) 128.
Definition direction : enum := Enum "Direction" (Some (true, 32)) None [(t "Up", 0%Z); (t "Down", 1%Z); (t "Left", 2%Z); (t "Right", 3%Z)] (-128) 128.

(** enum_test.cpp:39-224 *)
Example enums :
  to_value E (TEnum test_color) (DInt 1) = Ok (str "Red") /\
  to_value E (TEnum direction) (DInt 2) = Ok (str "Left") /\
  is_ E (TEnum test_color) (str "Green") = Ok true /\
  as_ E (TEnum test_color) (str "Green") = Ok (DInt 2) /\
  is_ E (TEnum test_color) (str "blue") = Ok true /\
  as_ E (TEnum test_color) (str "blue") = Ok (DInt 4) /\
  is_ E (TEnum test_color) (str "Purple") = Ok false /\
  as_ E (TEnum test_color) (str "Purple") = Throw JsonException /\
  to_value E (TEnum test_color) (DInt 3) = Throw JsonException /\
  is_ E (TEnum test_color) (int 2) = Ok true /\
  as_ E (TEnum test_color) (int 2) = Ok (DInt 2) /\
  to_value E (TEnum status_enum) (DInt 101) = Ok (str "Running") /\
  is_ E (TEnum status_enum) (str "Paused") = Ok true /\
  as_ E (TEnum status_enum) (str "Paused") = Ok (DInt 102) /\
  is_ E (TEnum status_enum) (str "stopped") = Ok true /\
  as_ E (TEnum status_enum) (str "stopped") = Ok (DInt 103) /\
  is_ E (TEnum status_enum) (int 103) = Ok true /\
  as_ E (TEnum status_enum) (int 103) = Ok (DInt 103) /\
  to_value E (TEnum status_enum) (DInt 100) = Ok (str "Idle") /\
  to_value E (TEnum status_enum) (DInt 103) = Ok (str "Stopped").
Proof. compute_it. Qed.

(** ** serializing_test.cpp *)
Definition key (n : nat) (k : string) : cmd := CInvoke (var n) (MIndexKey (t k)).
(** root[k] = e *)
Definition set_key (k : string) (e : expr) : list cmd := [key 0 k; CAssign (at_ 0 [k]) (lit_ e)].
(** lines 36-59: root is variable 0; the operands of |= and += are further variables *)
Definition serializing : list cmd :=
  [CNew ENull] ++ set_key "hello" (es "meojson") ++ set_key "Pi" (ed "3.1416") ++ set_key "null" ENull ++
  set_key "obj" (eo [("obj_key1", es "Hi"); ("obj_key2", ei 123); ("obj_key3", EBool true)]%string) ++
  [key 0 "obj"; CEmplaceKey (at_ 0 ["obj"%string]) (t "obj_key4") (lit_ (ei 789));
   key 0 "obj"; CEmplaceKey (at_ 0 ["obj"%string]) (t "obj_key5") (lit_ (eo [("key4 child", es "i am object value")]%string));
   key 0 "another_obj"; CInvoke (at_ 0 ["another_obj"%string]) (MIndexKey (t "child"));
   CInvoke (at_ 0 ["another_obj"; "child"]%string) (MIndexKey (t "grand"));
   CAssign (at_ 0 ["another_obj"; "child"; "grand"]%string) (lit_ (es "i am grand"));
   CNew (eo [("obj_key6", es "i am string"); ("obj_key7", EArr [es "i"; es "am"; es "array"])]%string);
   key 0 "obj"; COr (at_ 0 ["obj"%string]) (var 1) true] ++
  set_key "arr" (EArr [ei 1; ei 2; ei 3]) ++
  [key 0 "arr"; CEmplace (at_ 0 ["arr"%string]) (lit_ (ei 4)); key 0 "arr"; CEmplace (at_ 0 ["arr"%string]) (lit_ (ei 5));
   CNew (EArr [ei 6; ei 7]); key 0 "arr"; CPlus (at_ 0 ["arr"%string]) (var 2) true] ++
  set_key "str" (es "hello").
Definition root : value := match after_all serializing [] with Some (v :: _) => v | _ => invalid_value end.

(** serializing_test.cpp:32-152 *)
Example serializing_root :
  dumps None root = Ok (t "{""Pi"":3.141600,""another_obj"":{""child"":{""grand"":""i am grand""}},""arr"":[1,2,3,4,5,6,7],""hello"":""meojson"",""null"":null,""obj"":{""obj_key1"":""Hi"",""obj_key2"":123,""obj_key3"":true,""obj_key4"":789,""obj_key5"":{""key4 child"":""i am object value""},""obj_key6"":""i am string"",""obj_key7"":[""i"",""am"",""array""]},""str"":""hello""}") /\
  (do v <- at_key "str" root; as_string v) = Ok (t "hello") /\
  v_get E TArr (DArr []) [KStr (t "arr")] root = Ok (DArr (ints [1; 2; 3; 4; 5; 6; 7]%Z)) /\
  (do v <- at_key "arr" root; do l <- as_array_c v; allM (is_ E tint) l) = Ok true /\
  as_ E (TVec tint) (arr (ints [1; 2; 3; 4; 5]%Z)) = Ok (dints [1; 2; 3; 4; 5]%Z) /\
  to_value E (TColl (set_insert str_lt) TStr) (DSeq [DStr (t "a"); DStr (t "bb" ++ [10; 10] ++ t "b"); DStr (t "cc" ++ [9])]) = Ok (arr [str "a"; v_string (t "bb" ++ [10; 10] ++ t "b"); v_string (t "cc" ++ [9])]) /\
  to_value E (TVec (TVec (TColl (set_insert int_lt) tint))) (DSeq [DSeq [dints [1; 2; 3]%Z; dints [4; 5]%Z]; DSeq [dints [6]%Z; dints [7; 8]%Z]]) = Ok (arr [arr [arr (ints [1; 2; 3]%Z); arr (ints [4; 5]%Z)]; arr [arr (ints [6]%Z); arr (ints [7; 8]%Z)]]) /\
  dumps None (str "1a\n") = Ok (t """1a\\n""") /\
  dumps None (v_string (t "2a" ++ [10])) = Ok (t """2a\n""") /\
  dumps None (v_string (t "a" ++ [1; 0] ++ t "b")) = Ok (t """a" ++ [92] ++ t "u0001" ++ [92] ++ t "u0000b""") /\
  parses (t "{""control"":" ++ t """a" ++ [92] ++ t "u0001" ++ [92] ++ t "u0000b""" ++ t "}") (obj [("control"%string, v_string (t "a" ++ [1; 0] ++ t "b"))]).
Proof. compute_it. Qed.

(** 154-349 *)
Definition third : ext :=
  Ext (fun d => match d with DInt z => Ok (int z) | _ => Fuel end) (fun v => Ok (is_number v))
      (fun v d => match as_integer v with Ok z => (DInt z, Ok true) | Throw e => (d, Throw e) | _ => (d, Ub) end) None false (DInt 0).
Definition crazy : ty := TMap (TVec (TMap (TVec tint))).
Definition crazy_data : data :=
  DMap [(t "key_1", DSeq [DMap [(t "inner_key_1", dints [7; 8; 9]%Z)]; DMap [(t "inner_key_2", dints [10]%Z)]])].
Definition w_enum : enum := Enum "jsonizing()::MyStruct::W" (Some (true, 32)) None [(t "A", 0%Z); (t "B", 1%Z); (t "C", 2%Z)] (-128) 128.
Definition var_t : ty := TVar [TBool; TStr; TFix 4 tint].
Definition f (k : string) (d : data) : field := Field [] (t k) d.
Definition fo (k : string) (d : data) : field := Field [TagOpt] (t k) d.
Definition my_struct : list (field * ty) :=
  [(f "str1" (DStr []), TStr); (f "str2" (DStr []), TStr); (f "str3" (DStr []), TStr); (f "vec" (DSeq []), TVec (TFlt 53));
   (f "map" (DMap []), crazy); (f "arr" (dints [0; 0; 0; 0; 0]%Z), TFix 5 tint); (f "w" (DInt 0), TEnum w_enum); (f "var" (DAlt 0 (DBool false)), var_t)].
Definition mine : data :=
  DRec [DStr (t "Hello"); DStr (t "World"); DStr (t "!"); DSeq [DFlt (dbl "0.5")]; crazy_data; dints [0; 0; 0; 0; 0]%Z; DInt 2; DAlt 0 (DBool false)].
Definition opt_test : ty := TRec [(fo "a" (DInt 0), tint); (fo "b" (DInt 0), tint); (fo "o" (DOpt (Some (DInt 5))), TOpt tint)].

Example jsonizing :
  (do v <- to_value E (TExt third) (DInt 100); as_ E (TExt third) v) = Ok (DInt 100) /\
  (do v <- to_value E (TRec my_struct) mine; as_ E (TRec my_struct) v) = Ok mine /\
  (do v <- to_value E (TRec my_struct) mine; dumps None v) = Ok (t "{""arr"":[0,0,0,0,0],""map"":{""key_1"":[{""inner_key_1"":[7,8,9]},{""inner_key_2"":[10]}]},""str1"":""Hello"",""str2"":""World"",""str3"":""!"",""var"":false,""vec"":[0.500000],""w"":""C""}") /\
  is_ E opt_test (obj []) = Ok true /\
  as_ E opt_test (obj [("a"%string, int 10)]) = Ok (DRec [DInt 10; DInt 0; DOpt (Some (DInt 5))]) /\
  is_ E (TFix 10 tint) (arr (ints [1; 2; 3; 4; 5; 6; 7; 8; 9; 10]%Z)) = Ok true /\
  as_ E (TFix 10 tint) (arr (ints [1; 2; 3; 4; 5; 6; 7; 8; 9; 10]%Z)) = Ok (dints [1; 2; 3; 4; 5; 6; 7; 8; 9; 10]%Z) /\
  is_ E (TFix 5 tint) (arr (ints [1; 2; 3; 4; 5; 6; 7; 8; 9; 10]%Z)) = Ok false /\
  as_ E (TTup [tint; TStr]) (arr [int 1; str "aaabbbccc"]) = Ok (DSeq [DInt 1; DStr (t "aaabbbccc")]) /\
  is_ E (TTup [tint; TStr]) (arr [int 1; str "aaabbbccc"]) = Ok true /\
  to_value E (TTup [tint; TStr]) (DSeq [DInt 1; DStr (t "aaabbbccc")]) = Ok (arr [int 1; str "aaabbbccc"]) /\
  to_value E var_t (DAlt 1 (DStr (t "abc"))) = Ok (str "abc") /\
  as_ E var_t (str "abc") = Ok (DAlt 1 (DStr (t "abc"))) /\
  is_ E var_t (str "abc") = Ok true /\
  as_rv E (TTup [tint; TArr]) (arr [int 1; arr (ints [2; 3]%Z)]) = Ok (DSeq [DInt 1; DArr (ints [2; 3]%Z)]).
Proof. compute_it. Qed.

(** ** sample/sample.cpp: the outputs in its comments *)
(** lines 24-47 *)
Definition sample_serializing : list cmd :=
  [CNew ENull] ++ set_key "pi" (ed "3.14") ++ set_key "happy" (EBool true) ++
  [key 0 "answer"; CInvoke (at_ 0 ["answer"%string]) (MIndexKey (t "everything")); CAssign (at_ 0 ["answer"; "everything"]%string) (lit_ (ei 42))] ++
  set_key "object" (eo [("currency", es "USD"); ("value", ed "42.99")]%string) ++
  set_key "set" (EArr [ei 1; ei 2; ei 3]) ++
  set_key "map" (eo [("key_1", EArr [eo [("inner_key_1", EArr [ei 7; ei 8; ei 9])]; eo [("inner_key_2", EArr [ei 10])]])]%string).
Definition sample : value := match after_all sample_serializing [] with Some [v] => v | _ => invalid_value end.
Definition sample_struct : list (field * ty) := [(f "x" (DInt 0), tint); (f "vec" (DSeq []), TVec (TFlt 53)); (f "map" (DMap []), crazy)].
Definition sample_mine : data := DRec [DInt 0; DSeq [DFlt (dbl "0.5")]; crazy_data].
Definition outter : list (field * ty) := [(f "outter_a" (DInt 10), tint); (f "my_vec" (DSeq []), TVec (TRec sample_struct))].
Definition optional_fields : ty :=
  TRec [(f "a" (DInt 0), tint); (fo "b" (DFlt 0), TFlt 53); (fo "c" (DSeq []), TVec tint);
        (Field [TagKey (t "delete")] (t "delete_") (DBool false), TBool); (fo "focus" (DOpt None), TOpt tint)].
Definition content : bytes := t "
{
    ""repo"": ""meojson"",
    ""author"": {
        ""MistEO"": ""https://github.com/MistEO"",
        ""ChingCdesu"": ""https://github.com/ChingCdesu""
    },
    ""list"": [ 1, 2, 3 ],
    ""str"": ""abc\n123"",
    ""num"": 3.1416,
    ""A_obj"": {
        ""B_arr"": [
            { ""C_str"": ""i am a distraction"" },
            { ""C_str"": ""you found me!"" }
        ]
    },
    ""my_type"": { ""i"": 99 }
}".

Example sample_outputs :
  dumps None sample = Ok (t "{""answer"":{""everything"":42},""happy"":true,""map"":{""key_1"":[{""inner_key_1"":[7,8,9]},{""inner_key_2"":[10]}]},""object"":{""currency"":""USD"",""value"":42.990000},""pi"":3.140000,""set"":[1,2,3]}") /\
  (do v <- at_key "pi" sample; as_ E (TFlt 53) v) = Ok (DFlt (dbl "3.14")) /\
  (do v <- at_key "set" sample; as_ E (TColl (set_insert int_lt) tint) v) = Ok (dints [1; 2; 3]%Z) /\
  (do v <- at_key "map" sample; as_ E crazy v) = Ok crazy_data /\
  (do v <- at_key "happy" sample; is_ E (TVec tint) v) = Ok false /\
  (do v <- to_value E (TRec sample_struct) sample_mine; dumps None v) = Ok (t "{""map"":{""key_1"":[{""inner_key_1"":[7,8,9]},{""inner_key_2"":[10]}]},""vec"":[0.500000],""x"":0}") /\
  (do v <- to_value E (TRec outter) (DRec [DInt 10; DSeq [sample_mine]]); dumps None v) = Ok (t "{""my_vec"":[{""map"":{""key_1"":[{""inner_key_1"":[7,8,9]},{""inner_key_2"":[10]}]},""vec"":[0.500000],""x"":0}],""outter_a"":10}") /\
  as_ E optional_fields (obj [("a", int 100); ("delete", v_bool true); ("focus", int 5)]%string) = Ok (DRec [DInt 100; DFlt 0; DSeq []; DBool true; DOpt (Some (DInt 5))]) /\
  (do v <- to_value E (TEnum test_color) (DInt 1); dumps None v) = Ok (t """Red""") /\
  (do v <- at_key "repo" (doc content); as_string v) = Ok (t "meojson") /\
  (do v <- at_key "author" (doc content); as_object_c v) = Ok [(t "ChingCdesu", str "https://github.com/ChingCdesu"); (t "MistEO", str "https://github.com/MistEO")] /\
  v_get E TStr (DStr (t "default_value")) [KStr (t "maybe_exists")] (doc content) = Ok (DStr (t "default_value")) /\
  v_get E TStr (DStr (t "default_value")) [KStr (t "A_obj"); KStr (t "B_arr"); KInt 1; KStr (t "C_str")] (doc content) = Ok (DStr (t "you found me!")) /\
  v_find_key E (TFlt 53) (t "num") (doc content) = Ok (Some (DFlt (dbl "3.1416"))) /\
  v_get E (TRec [(f "i" (DInt 0), tint)]) (DRec [DInt 0]) [KStr (t "my_type")] (doc content) = Ok (DRec [DInt 99]) /\
  (do v <- at_key "list" (doc content); as_ E (TVec tint) v) = Ok (dints [1; 2; 3]%Z) /\
  (do v <- lit_jvalue BSse2 (t "{""hi"":""literals""}"); do w <- at_key "hi" v; dumps None w) = Ok (t """literals""").
Proof. compute_it. Qed.
