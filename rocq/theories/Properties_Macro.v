(** * Properties of the macros MEO_JSONIZATION, MEO_TOJSON, MEO_CHECKJSON, MEO_FROMJSON: C63.
    Statements only; each is closed by a lemma of MacroProofs.v. [call_of ms] is the call that lists
    the members [ms], each with the tags written before it. *)
From Verif Require Import Base Value Containers Num Enum Conv Macro SpecMacro MacroProofs SamplesConv SamplesMacro.

(** C63: what compiles: the calls that list members, with 1 to 64 members and tags *)
Theorem C63_compiles : forall call, Forall written call ->
  ((exists ws, works call = Some ws) <-> exists ms, call = call_of ms /\ (1 <= size ms <= 64)%nat).
Proof. exact compiles. Qed.
Print Assumptions C63_compiles.
Example C63_case : Forall written (call_of call3) /\ size call3 = 6%nat /\ works (call_of call3) <> None /\
  works (call_of call3 ++ [Comma]) = None /\ works (call_of call3 ++ [Comma; OptMacro]) = None.
Proof. split; [repeat constructor|]. split; [reflexivity|]. split; [vm_compute; discriminate|]. split; reflexivity. Qed.

(** the functions they write treat every member once, in order, with its own tags *)
Theorem C63_to_json : forall E type dflt ms f, macro_to_json E type (call_of ms) = Some f ->
  forall s, f s = to_json E (declared type dflt ms) (listed s ms).
Proof. exact macro_to. Qed.
Print Assumptions C63_to_json.
Example C63_to_json_case : match macro_to_json env_names ints (call_of call3) with
  | Some f => f one = Ok (v_object [(of_string "a", v_int 1); (of_string "b", v_int 1); (of_string "delete", v_int 1)])
  | None => False
  end.
Proof. vm_compute. reflexivity. Qed.
Theorem C63_check_json : forall E type dflt ms f, macro_check_json E type (call_of ms) = Some f ->
  forall v, f v = check_json E (declared type dflt ms) v.
Proof. exact macro_check. Qed.
Print Assumptions C63_check_json.
Example C63_check_json_case : match macro_check_json env_names ints (call_of call3) with
  | Some f => f (v_object [(of_string "a", v_int 1)]) = Ok None /\ f (v_object [(of_string "b", v_int 1)]) = Ok (Some (of_string "a"))
  | None => False
  end.
Proof. vm_compute. split; reflexivity. Qed.
Theorem C63_from_json : forall E type dflt ms f, macro_from_json E type (call_of ms) = Some f -> NoDup (map snd ms) ->
  forall v s, from_json E (declared type dflt ms) v (listed s ms) = (listed (fst (f v s)) ms, snd (f v s)) /\
    forall x, ~ In x (map snd ms) -> fst (f v s) x = s x.
Proof. exact macro_from. Qed.
Print Assumptions C63_from_json.
Example C63_from_json_case : NoDup (map snd call3) /\ match macro_from_json env_names ints (call_of call3) with
  | Some f => listed (fst (f (v_object [(of_string "a", v_int 5); (of_string "delete", v_int 7)]) one)) call3 = [DInt 5; DInt 1; DInt 7]
  | None => False
  end.
Proof. split; [exact call3_names|]. vm_compute. reflexivity. Qed.
