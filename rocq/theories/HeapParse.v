(** * The parser on a heap with failing allocations.

    The functions of Parser.v that own values, parser_impl.hpp:17-78 and 163-301, on the heap
    of Heap.v: what they read is left to Parser.v, what they allocate and destroy is here.
    A local vector (map) of values is represented by temporaries, its elements in the order
    of insertion. Any growth of a vector and any text may need an allocation; a text that
    is built in several steps counts as one, since nothing is owned in between.
    Model only. *)
From Verif Require Import Base Value Packed Parser Containers Api Heap.

Section HeapParse.
  Context (jsonc : bool) (be : backend).
  Definition reads {A} (r : res A) : hM A := hfail r.
  Definition top : hM hval := let! l := peek_top 1 in match l with [x] => hret x | _ => hfail Ub end.
  (** invalid_value(), parser_impl.hpp:682-685: value(value_type::invalid, var_t()) *)
  Definition h_invalid : hval := HStr Tinvalid [].
  Definition h_valid (x : hval) : bool := negb (vtype_eqb (h_tag x) Tinvalid).
  (** return invalid_value(), with [n] values owned by local variables: the result is constructed,
      then the variables are destroyed *)
  Definition give_up (n : nat) (cur : bytes) : hM bytes :=
    push h_invalid ;; bury n ;; drop_n n ;; hret cur.
  Fixpoint ticks (n : nat) : hM unit := match n with O => hret tt | S n' => tick ;; ticks n' end.

  (** return array(std::move(result)), parser_impl.hpp:227. array(collection_t&& ), array_impl.hpp:89-103:
      the vector is reserved, the elements are moved, each is in one of the vectors; then
      value(array&& ), value_impl.hpp:182-186 *)
  Definition h_make_parsed_array (n : nat) : hM unit :=
    on_throw (tick ;; tick) (drop_n n) ;;
    let! l := take_top n in
    let! b := alloc (NArr l) in
    push (HArr Tarray (Some b)).
  (** return object(std::move(result)), parser_impl.hpp:300. object(map_t&& ), object_impl.hpp:56-62: a node
      and a copy of the key for each member, whose value is moved; then value(object&& ),
      value_impl.hpp:194-198 *)
  Definition h_make_parsed_object (ks : list bytes) : hM unit :=
    on_throw (ticks (length ks + length ks) ;; tick) (drop_n (length ks)) ;;
    let! l := take_top (length ks) in
    let! b := alloc (NObj (h_of_list (combine ks l))) in
    push (HObj Tobject (Some b)).
  (** parser_impl.hpp:220-227 *)
  Definition h_array_close (n : nat) (cur : bytes) : hM bytes :=
    let! (ok, cur) := reads (skip_ws jsonc cur) in
    if negb ok then give_up n cur
    else
      let! c := reads (deref cur) in
      if c =? 93 then let! cur := reads (advance cur) in h_make_parsed_array n ;; hret cur
      else give_up n cur.
  (** parser_impl.hpp:293-300 *)
  Definition h_object_close (ks : list bytes) (cur : bytes) : hM bytes :=
    let! (ok, cur) := reads (skip_ws jsonc cur) in
    if negb ok then give_up (length ks) cur
    else
      let! c := reads (deref cur) in
      if c =? 125 then let! cur := reads (advance cur) in h_make_parsed_object ks ;; hret cur
      else give_up (length ks) cur.

  Section Nested.
    Context (pv : bytes -> hM bytes).          (* parse_value: the value becomes a temporary *)
    (** parser_impl.hpp:190-218; [n] elements so far *)
    Fixpoint h_array_loop (fuel : nat) (cur : bytes) (n : nat) : hM bytes :=
      match fuel with
      | O => hfail Fuel
      | S f =>
          let! (ok, cur) := reads (skip_ws jsonc cur) in
          if negb ok then give_up n cur
          else
            let! c := reads (deref cur) in
            if jsonc && (c =? 93) then h_array_close n cur
            else
              let! cur := on_throw (pv cur) (drop_n n) in
              let! val := top in
              if negb (h_valid val) then give_up (S n) cur
              else
                let! (ok, cur) := reads (skip_ws jsonc cur) in
                if negb ok then give_up (S n) cur
                else
                  on_throw tick (drop_n (S n)) ;;                          (* emplace_back, 210 *)
                  let! c := reads (deref cur) in
                  if c =? 44 then let! cur := reads (advance cur) in h_array_loop f cur (S n)
                  else h_array_close (S n) cur
      end.
    (** parser_impl.hpp:173-228 *)
    Definition h_parse_array (cur : bytes) : hM bytes :=
      let! c := reads (deref cur) in
      if negb (c =? 91) then give_up 0 cur
      else
        let! cur := reads (advance cur) in
        let! (ok, cur) := reads (skip_ws jsonc cur) in
        if negb ok then give_up 0 cur
        else
          let! c := reads (deref cur) in
          if c =? 93 then
            let! cur := reads (advance cur) in
            tick ;; let! b := alloc (NArr []) in push (HArr Tarray (Some b)) ;; hret cur
          else h_array_loop (S (length cur)) cur 0.
    (** parser_impl.hpp:247-291; the keys so far. std::map::emplace makes the node, with the key and the
        value, before it looks for the key; if that is there, the node is destroyed *)
    Fixpoint h_object_loop (fuel : nat) (cur : bytes) (ks : list bytes) : hM bytes :=
      match fuel with
      | O => hfail Fuel
      | S f =>
          let n := length ks in
          let! (ok, cur) := reads (skip_ws jsonc cur) in
          if negb ok then give_up n cur
          else
            let! c := reads (deref cur) in
            if jsonc && (c =? 125) then h_object_close ks cur
            else
              on_throw tick (drop_n n) ;;                                  (* the text of the key *)
              let! (ko, cur) := reads (parse_stdstring be cur) in
              match ko with
              | None => give_up n cur
              | Some key =>
                  let! (ok, cur) := reads (skip_ws jsonc cur) in
                  if negb ok then give_up n cur
                  else
                    let! c := reads (deref cur) in
                    if negb (c =? 58) then give_up n cur
                    else
                      let! cur := reads (advance cur) in
                      let! (ok, cur) := reads (skip_ws jsonc cur) in
                      if negb ok then give_up n cur
                      else
                        let! cur := on_throw (pv cur) (drop_n n) in
                        let! val := top in
                        if negb (h_valid val) then give_up (S n) cur
                        else
                          let! (ok, cur) := reads (skip_ws jsonc cur) in
                          if negb ok then give_up (S n) cur
                          else
                            on_throw tick (drop_n (S n)) ;;
                            if existsb (bytes_eqb key) ks then drop ;; give_up n cur
                            else
                              let! c := reads (deref cur) in
                              if c =? 44 then let! cur := reads (advance cur) in h_object_loop f cur (ks ++ [key])
                              else h_object_close (ks ++ [key]) cur
              end
      end.
    (** parser_impl.hpp:230-301 *)
    Definition h_parse_object (cur : bytes) : hM bytes :=
      let! c := reads (deref cur) in
      if negb (c =? 123) then give_up 0 cur
      else
        let! cur := reads (advance cur) in
        let! (ok, cur) := reads (skip_ws jsonc cur) in
        if negb ok then give_up 0 cur
        else
          let! c := reads (deref cur) in
          if c =? 125 then
            let! cur := reads (advance cur) in
            tick ;; let! b := alloc (NObj []) in push (HObj Tobject (Some b)) ;; hret cur
          else h_object_loop (S (length cur)) cur [].
  End Nested.

  (** parse_null, parse_boolean, parse_number, parse_string, parser_impl.hpp:80-171: the text of a value
      that is not null may be allocated *)
  Definition h_scalar (r : res (value * bytes)) : hM bytes :=
    let! (v, cur) := reads r in
    match v with
    | VStr t s => (if is_nil s then hret tt else tick) ;; push (HStr t s) ;; hret cur
    | _ => hfail Ub                               (* no such result *)
    end.
  (** parser_impl.hpp:48-78 *)
  Fixpoint h_parse_value (d : nat) (cur : bytes) : hM bytes :=
    match d with
    | O => hfail Stack
    | S d' =>
        let! c := reads (deref cur) in
        if c =? 110 then h_scalar (parse_null cur)
        else if (c =? 116) || (c =? 102) then h_scalar (parse_boolean cur)
        else if (c =? 45) || isdigit c then h_scalar (parse_number cur)
        else if c =? 34 then tick ;; h_scalar (parse_string be cur)
        else if c =? 91 then h_parse_array (h_parse_value d') cur
        else if c =? 123 then h_parse_object (h_parse_value d') cur
        else give_up 0 cur
    end.
  (** parser_impl.hpp:17-46: [true] if the optional has a value, which is then a temporary. The
      assignment at 27 and 30 destroys the null that result_value was made with. *)
  Definition h_parse (s : bytes) : hM bool :=
    let! (ok, cur) := reads (skip_ws jsonc s) in
    if negb ok then hret false
    else
      push (HStr Tnull []) ;;
      let! c := reads (deref cur) in
      if (c =? 91) || (c =? 123) then
        let! cur := on_throw (if c =? 91 then h_parse_array (h_parse_value (length s)) cur
                              else h_parse_object (h_parse_value (length s)) cur) drop in
        bury 1 ;; drop ;;
        let! v := top in
        if negb (h_valid v) then drop ;; hret false
        else
          let! (ok, _) := reads (skip_ws jsonc cur) in
          if ok then drop ;; hret false else hret true
      else drop ;; hret false.
End HeapParse.

(** ** Public entry points *)
(** parse(std::istream&, check_bom, with_comments), parser_impl.hpp:610-632: the text of the file is allocated,
    with a size that is too large for std::string if the stream cannot be sought *)
Definition h_parse_stream (be : backend) (check_bom with_comments : bool) (st : stream) : hM bool :=
  match st with
  | Unseekable => hfail (Throw LengthError)
  | Seekable s =>
      tick ;;
      h_parse with_comments be (if check_bom then strip_bom s else s)
  end.
(** open(path, ...), parser_impl.hpp:634-644: the buffer of the std::ifstream *)
Definition h_open (be : backend) (check_bom with_comments : bool) (file : option stream) : hM bool :=
  tick ;;
  match file with
  | None => hret false
  | Some st => h_parse_stream be check_bom with_comments st
  end.
(** _json, _jvalue, parser_impl.hpp:659-667: parse(...).value_or(value()), which moves *)
Definition h_lit_jvalue (be : backend) (s : bytes) : hM unit :=
  let! b := h_parse false be s in
  if (b : bool) then hret tt else push (HStr Tnull []).
(** _jarray, _jobject, parser_impl.hpp:669-679: the conditional operator has operands of types array& and array, so
    val.as_array() is copied. The resulting json::array is represented by a value that holds
    it; the copy of the model allocates the json::array, which in the code is the result object. *)
Definition h_lit (t : vtype) (n : node) (mk : addr -> hval) (be : backend) (s : bytes) : hM unit :=
  h_lit_jvalue be s ;;
  let! x := top in
  on_throw (if vtype_eqb (h_tag x) t then let! f := enough in h_copy f x
            else tick ;; let! b := alloc n in push (mk b)) drop ;;
  bury 1 ;; drop.
Definition h_lit_jarray : backend -> bytes -> hM unit := h_lit Tarray (NArr []) (fun b => HArr Tarray (Some b)).
Definition h_lit_jobject : backend -> bytes -> hM unit := h_lit Tobject (NObj []) (fun b => HObj Tobject (Some b)).
