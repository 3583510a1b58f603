(** * The project's own tests, run on the model

    Each Example transcribes assertions of /repo/test (and the outputs written in comments of
    /repo/sample/sample.cpp) and evaluates the model on their inputs. These are tests of the model,
    not theorems about it: they show that it computes what the project's authors expect of the code
    on the inputs they chose. Assertions about streams, iterators and addresses are left out. *)
From Verif Require Import Base Value Packed Parser Dump Containers Num Enum Conv Float Api SamplesConv SamplesFloat.
Open Scope N_scope.
Open Scope list_scope.

Definition t (x : string) : bytes := of_string x.
Definition backends : list backend := [BNone; BU32 true; BU64 true; BSse2; BSse41; BAvx2; BNeon].
(** json::parse and json::parsec, with every backend that reports exact positions *)
Definition parses (s : bytes) (v : value) : Prop := map (fun be => json_parse be s) backends = map (fun _ => Ok (Some v)) backends.
Definition rejects (s : bytes) : Prop := map (fun be => json_parse be s) backends = map (fun _ => Ok None) backends.
Definition parses_c (s : bytes) (v : value) : Prop := map (fun be => json_parsec be s) backends = map (fun _ => Ok (Some v)) backends.
(** the value of a document *)
Definition doc (s : bytes) : value := match json_parse BNone s with Ok (Some v) => v | _ => invalid_value end.
Definition str (x : string) : value := v_string (t x).
Definition int (z : Z) : value := v_int z.
Definition arr (l : list value) : value := v_array l.
Definition obj (l : list (string * value)) : value := v_object (obj_of_list (map (fun p => (t (fst p), snd p)) l)).
(** names as strings, doubles with six digits, the C locale *)
Definition E : env := std_env false cfg_default.
Definition as_integer (v : value) : res Z := as_int true 32 v.
Definition tint : ty := TInt true 32.
Definition tunsigned : ty := TInt false 32.
Definition at_key (k : string) (v : value) : res value := v_at_key (t k) v.
(** the double nearest to a decimal number *)
Definition dbl (x : string) : N := match parse_floating cfg_default 53 (t x) with Some f => encode 53 f | None => 0 end.
Definition num (x : string) : value := match to_value E (TFlt 53) (DFlt (dbl x)) with Ok v => v | _ => invalid_value end.
Ltac compute_it :=
  repeat match goal with |- _ /\ _ => split | |- parses _ _ => unfold parses | |- rejects _ => unfold rejects | |- parses_c _ _ => unfold parses_c end;
  vm_compute; reflexivity.

(** ** parse_test.cpp *)

(** parse_test.cpp:17-26 *)
Example normal_json :
  parses (t "{}") (obj []).
Proof. compute_it. Qed.

(** 28-49 *)
Example wrong_json :
  rejects (t "{""key"": 1, ""key"": 2}") /\
  rejects (t "{\") /\
  rejects (t "{\**").
Proof. compute_it. Qed.

(** 51-109 *)
Example string_control_characters :
  rejects (t "{""key"":""" ++ [1] ++ t """}") /\
  rejects (t "{""key"":""" ++ [10] ++ t """}") /\
  rejects (t "{""key"":""" ++ [9] ++ t """}") /\
  rejects (t "{""key"":""" ++ [13] ++ t """}") /\
  parses (t "{""key"":""" ++ [92] ++ t "u0001""}") (obj [("key"%string, v_string [1])]) /\
  parses (t "{""newline"":""\n"",""tab"":""\t"",""carriage_return"":""\r""}") (obj [("newline"%string, v_string [10]); ("tab"%string, v_string [9]); ("carriage_return"%string, v_string [13])]) /\
  dumps None (doc (t "{""newline"":""\n"",""tab"":""\t"",""carriage_return"":""\r""}")) = Ok (t "{""carriage_return"":""\r"",""newline"":""\n"",""tab"":""\t""}").
Proof. compute_it. Qed.

(** 111-126 *)
Example jsonc_trail_comma :
  parses_c (t "{ ""key"": 1, }") (obj [("key"%string, int 1)]) /\
  parses_c (t "[ 1, 2, ]") (arr [int 1; int 2]).
Proof. compute_it. Qed.

(** 128-152 *)
Example jsonc_comment :
  parses_c (t "
/*123//321
123*/{ ""key""://456/*789
 1, }
/* trail */
// 111
") (obj [("key"%string, int 1)]) /\
  parses_c (t "{}//") (obj []).
Proof. compute_it. Qed.

(** ** unicode_test.cpp and precision_test.cpp *)
(** unicode_test.cpp:6-24 *)
Example unicode :
  parses (t "{ ""test"": ""abc" ++ [92] ++ t "u9a8fdef" ++ [92] ++ t "ud83d" ++ [92] ++ t "udca9ghi"" }") (obj [("test"%string, v_string (t "abc" ++ [0xe9; 0xaa; 0x8f] ++ t "def" ++ [0xf0; 0x9f; 0x92; 0xa9] ++ t "ghi"))]).
Proof. compute_it. Qed.

(** precision_test.cpp:7-29, which presumes MEOJSON_KEEP_FLOATING_PRECISION *)
Example precision_test : forall E', E' = std_env false cfg_keep ->
  (do v <- to_value E' (TFlt 53) (DFlt (dbl "3.141592653589793"));
   do s <- dumps None (obj [("double"%string, v)]);
   do o <- json_parse BNone s;
   match o with Some w => do x <- at_key "double" w; as_ E' (TFlt 53) x | None => Throw JsonException end)
  = Ok (DFlt (dbl "3.141592653589793")).
Proof. intros E' ->. vm_compute. reflexivity. Qed.
(** and fails without: 3.141593 *)
Example precision_lost :
  (do v <- to_value E (TFlt 53) (DFlt (dbl "3.141592653589793")); dumps None v) = Ok (t "3.141593").
Proof. compute_it. Qed.

(** ** jsonc_test.cpp *)
(** jsonc_test.cpp:20-75 *)
Example jsonc_comments :
  parses_c (t "
        {
            // This is a comment
            ""key1"": ""value1"",
            ""key2"": 42 // Another comment
        }
    ") (obj [("key1"%string, str "value1"); ("key2"%string, int 42)]) /\
  parses_c (t "
        {
            /* This is a
               multi-line comment */
            ""key1"": ""value1"",
            ""key2"": /* inline comment */ 42
        }
    ") (obj [("key1"%string, str "value1"); ("key2"%string, int 42)]) /\
  parses_c (t "
        /* Header comment */
        {
            ""key1"": ""value1"", // Line comment
            /* Block comment */ ""key2"": 42
        }
        // Trailing comment
    ") (obj [("key1"%string, str "value1"); ("key2"%string, int 42)]).
Proof. compute_it. Qed.

(** 77-127 *)
Example jsonc_trailing_commas :
  parses_c (t "{
        ""key1"": ""value1"",
        ""key2"": ""value2"",
    }") (obj [("key1"%string, str "value1"); ("key2"%string, str "value2")]) /\
  parses_c (t "[
        1,
        2,
        3,
    ]") (arr [int 1; int 2; int 3]) /\
  parses_c (t "{
        ""array"": [1, 2, 3,],
        ""object"": {""a"": 1, ""b"": 2,},
    }") (obj [("array"%string, arr [int 1; int 2; int 3]); ("object"%string, obj [("a"%string, int 1); ("b"%string, int 2)])]).
Proof. compute_it. Qed.

(** 129-162 *)
Example jsonc_extended_syntax :
  parses_c (t "{
        ""key1"": ""value1"",
        ""key2"": 42,
        ""key3"": [1, 2, 3]
    }") (obj [("key1"%string, str "value1"); ("key2"%string, int 42); ("key3"%string, arr [int 1; int 2; int 3])]) /\
  rejects (t "{""key"": 1,}") /\
  parses_c (t "{""key"": 1,}") (obj [("key"%string, int 1)]).
Proof. compute_it. Qed.

(** 164-258 *)
Definition deep : value :=
  obj [("level1", obj [("level2", obj [("level3", obj [("level4", arr [int 1; int 2; int 3]); ("value", str "deep")])])])]%string.
Definition large_array : value := arr (map (fun n => int (Z.of_nat n)) (seq 0 1000)).
Definition large_object : value :=
  v_object (obj_of_list (map (fun n => (t "key" ++ to_string_Z (Z.of_nat n), int (Z.of_nat n))) (seq 0 100))).
Definition mixed : value :=
  obj [("null", v_null); ("bool_true", v_bool true); ("bool_false", v_bool false); ("int", int 42);
       ("float", num "3.14159"); ("string", str "hello world"); ("empty_string", str "");
       ("empty_array", arr []); ("empty_object", obj []);
       ("array", arr [int 1; str "two"; num "3.0"; v_bool true; v_null]);
       ("object", obj [("nested", str "value")])]%string.
Definition roundtrip (v : value) : res (option value) := do s <- dumps None v; json_parse BAvx2 s.
Example complex_serialization :
  roundtrip deep = Ok (Some deep) /\
  v_get E TStr (DStr []) [KStr (t "level1"); KStr (t "level2"); KStr (t "level3"); KStr (t "value")] deep = Ok (DStr (t "deep")) /\
  roundtrip large_array = Ok (Some large_array) /\ (do l <- as_array_c large_array; Ok (arr_size l)) = Ok 1000 /\
  roundtrip large_object = Ok (Some large_object) /\ (do m <- as_object_c large_object; Ok (obj_size m)) = Ok 100 /\
  roundtrip mixed = Ok (Some mixed) /\
  (do v <- at_key "null" mixed; Ok (is_null v)) = Ok true /\
  (do v <- at_key "bool_true" mixed; as_boolean v) = Ok true /\
  (do v <- at_key "bool_false" mixed; as_boolean v) = Ok false /\
  (do v <- at_key "int" mixed; as_integer v) = Ok 42%Z /\
  (do v <- at_key "string" mixed; as_string v) = Ok (t "hello world") /\
  (do v <- at_key "empty_array" mixed; v_empty v) = Ok true /\
  (do v <- at_key "empty_object" mixed; v_empty v) = Ok true.
Proof. compute_it. Qed.

(** 260-315 *)
Example complex_deserialization :
  parses (t "{""emoji"": ""😀"", ""chinese"": ""你好"", ""japanese"": ""こんにちは""}") (obj [("emoji", str "😀"); ("chinese", str "你好"); ("japanese", str "こんにちは")]%string) /\
  parses (t "{""newline"": ""line1\nline2"", ""tab"": ""col1\tcol2"", ""quote"": ""He said \""hello\""""}") (obj [("newline"%string, v_string (t "line1" ++ [10] ++ t "line2")); ("tab"%string, v_string (t "col1" ++ [9] ++ t "col2")); ("quote"%string, str "He said ""hello""")]) /\
  parses (t "{
        ""zero"": 0,
        ""negative"": -42,
        ""float"": 3.14159,
        ""scientific"": 1.23e10,
        ""negative_scientific"": -1.23e-10
    }") (obj [("zero", int 0); ("negative", int (-42)); ("float", v_number (t "3.14159")); ("scientific", v_number (t "1.23e10")); ("negative_scientific", v_number (t "-1.23e-10"))]%string) /\
  parses (t "[null, true, false, 42, ""string"", [], {}]") (arr [v_null; v_bool true; v_bool false; int 42; str "string"; arr []; obj []]).
Proof. compute_it. Qed.

Definition specials : value :=
  obj [("empty", str ""); ("space", str " "); ("newline", v_string [10]); ("tab", v_string [9]); ("backslash", v_string [92]); ("quote", v_string [34])]%string.
Definition format_test : value := obj [("a", int 1); ("b", arr [int 1; int 2; int 3])]%string.

(** 317-427 *)
Example edge_cases :
  parses (t "{}") (obj []) /\
  parses (t "[]") (arr []) /\
  v_empty (obj []) = Ok true /\
  v_empty (arr []) = Ok true /\
  rejects (t "null") /\
  rejects (t "true") /\
  rejects (t "42") /\
  rejects (t """hello""") /\
  parses (t "  " ++ [10] ++ [9] ++ t " {  ""key""  :  ""value""  }  " ++ [10] ++ [9] ++ t "  ") (obj [("key"%string, str "value")]) /\
  roundtrip specials = Ok (Some specials) /\
  rejects (t "{""key"": 1, ""key"": 2}") /\
  rejects (t "{key: value}") /\
  rejects (t "[1, 2, 3,]") /\
  rejects (t "{""key"": }") /\
  dumps None format_test = Ok (t "{""a"":1,""b"":[1,2,3]}") /\
  (do s <- dumps None format_test; do s2 <- dumps (Some 2) format_test; do s4 <- dumps (Some 4) format_test; Ok ((length s <? length s2)%nat && (length s <? length s4)%nat)) = Ok true.
Proof. compute_it. Qed.
