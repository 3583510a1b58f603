(** * The parser with a step counter: the functions of Parser.v, line by line,
    each also counting the work it does.

    One unit is charged for every read of [*_cur], every [++_cur], every byte a
    string is extended by, every byte of a block loaded by the block scans,
    every call and every turn of a loop.  Everything else between two charges is a
    bounded number of comparisons and assignments.  Growing a std::string or a
    std::vector<value> is amortised constant per element: value's move
    constructor is noexcept (value.hpp:51, value_impl.hpp:80), so growing a
    vector moves its elements.  std::map::emplace on [m] elements
    compares keys at most [2 log2 (m + 1) + 1] times (the height of a red-black
    tree), and a comparison reads at most the bytes of the new key and one more.
    A value, a node of a map or a string is destroyed at most once; that is charged
    with its construction.

    That the counter changes nothing else is [parse_c_erases] in CostProofs.v. *)
From Verif Require Import Base Value Packed Parser.

(** An outcome and the work done so far. *)
Definition cost (A : Type) : Type := res A * N.
Definition ret {A} (a : A) : cost A := (Ok a, 0).
Definition stop {A} (r : res A) : cost A := (r, 0).
Definition tick {A} (n : N) (m : cost A) : cost A := (fst m, n + snd m).
Definition cbind {A B} (m : cost A) (f : A -> cost B) : cost B :=
  match fst m with
  | Ok a => tick (snd m) (f a)
  | Throw e => (Throw e, snd m)
  | Ub => (Ub, snd m)
  | Stack => (Stack, snd m)
  | Fuel => (Fuel, snd m)
  end.
Notation "'tdo' x <- e ; f" := (cbind e (fun x => f))
  (at level 200, x pattern, e at level 100, f at level 200, right associativity).

(** [*_cur] and [++_cur] *)
Definition deref_c (cur : bytes) : cost N := (deref cur, 1).
Definition advance_c (cur : bytes) : cost bytes := (advance cur, 1).
(** std::string::append, push_back; std::string(first, last) is an append to nothing *)
Definition append_c (s t : bytes) : cost bytes := (Ok (s ++ t), 1 + N.of_nat (length t)).
(** vector::emplace_back *)
Definition push_back_c (l : array) (v : value) : cost array := (Ok (l ++ [v]), 1).
(** map::emplace *)
Definition emplace_cost (k : bytes) (m : nat) : N :=
  (2 * N.log2 (N.of_nat m + 1) + 1) * (N.of_nat (length k) + 1).
Definition emplace_c (k : bytes) (v : value) (m : object) : cost (object * bool) :=
  (Ok (map_emplace k v m), emplace_cost k (length m)).
(** return array(std::move(result)), parser_impl.hpp:227, 207. std::vector<value> is not json::array: array(collection_t&& ),
    array_impl.hpp:89-103, reserves a vector and moves the elements one by one; value(array&& ), value_impl.hpp:182-186,
    then moves the vector. *)
Definition array_handing (l : array) : N := 3 + 3 * N.of_nat (length l).
(** return object(std::move(result)), parser_impl.hpp:300, 278: object(map_t&& ), object_impl.hpp:56-62, emplaces the members
    one by one into another map, copying the names; [m] are there. The result has the same members in
    the same order. *)
Fixpoint object_handing (m : nat) (l : object) : N :=
  match l with
  | [] => 3
  | (k, _) :: r => 3 + N.of_nat (length k) + emplace_cost k m + object_handing (S m) r
  end.

(** parser_impl.hpp:583-585 *)
Fixpoint drop_digits_c (cur : bytes) : cost bytes :=
  match cur with
  | c :: r => tick 2 (if isdigit c then drop_digits_c r else ret cur)
  | [] => tick 1 (ret [])
  end.
(** skip_digit, parser_impl.hpp:572-593 *)
Definition skip_digit_c (cur : bytes) : cost (bool * bytes) :=
  tick 2
  match cur with
  | c :: r =>
      if isdigit c then tdo cur' <- drop_digits_c r; ret (negb (at_end cur'), cur')
      else ret (false, cur)
  | [] => ret (false, cur)
  end.
(** The loop of skip_comment, parser_impl.hpp:548-566 *)
Fixpoint comment_loop_c (line : bool) (cur : bytes) : cost (bool * bytes) :=
  tick 3
  match cur with
  | [] => ret (line, [])
  | c :: r =>
      if c =? 10 then (if line then ret (true, r) else comment_loop_c line r)
      else if c =? 42 then
        match r with
        | c' :: r' => if negb line && (c' =? 47) then ret (true, r') else comment_loop_c line r
        | [] => comment_loop_c line r
        end
      else comment_loop_c line r
  end.

(** skip_comment, parser_impl.hpp:521-570 *)
Definition skip_comment_c (cur : bytes) : cost (bool * bytes) :=
  if at_end cur then ret (false, cur)
  else
    tdo c <- deref_c cur;
    if negb (c =? 47) then ret (false, cur)
    else
      tdo cur <- advance_c cur;
      if at_end cur then ret (false, cur)
      else
        tdo c <- deref_c cur;
        tdo cur <- advance_c cur;
        if c =? 47 then comment_loop_c true cur
        else if c =? 42 then comment_loop_c false cur
        else ret (false, cur).

(** skip_string_literal_with_accel, parser_impl.hpp:464-488. A block of
    [n] bytes is charged [n]. *)
Definition load_block_c (n : nat) (cur : bytes) : cost bytes :=
  tick (N.of_nat n) (if (length cur <? n)%nat then stop Ub else ret (firstn n cur)).
Definition advance_by_c (n : nat) (cur : bytes) : cost bytes :=
  tick 1 (if (length cur <? n)%nat then stop Ub else ret (skipn n cur)).
Fixpoint accel_loop_c (be : backend) (st : nat) (fuel : nat) (cur : bytes) : cost bytes :=
  match fuel with
  | O => stop Fuel
  | S f =>
      if (st <=? length cur)%nat then
        tdo blk <- load_block_c st cur;
        match scan be blk with
        | None => tdo cur <- advance_by_c st cur; accel_loop_c be st f cur
        | Some i => advance_by_c (N.to_nat i) cur
        end
      else ret cur
  end.
(** [if constexpr (sizeof( *_cur) == 1 && accel_traits::available)], 318-322: the
    boolean is false when the scan ran to [_end]. *)
Definition skip_accel_c (be : backend) (cur : bytes) : cost (bool * bytes) :=
  match step be with
  | None => ret (true, cur)
  | Some st => tdo cur <- accel_loop_c be st (S (length cur)) cur; ret (negb (at_end cur), cur)
  end.

(** The four-digit loop, parser_impl.hpp:398-421; [n] iterations remain. On
    entry the cursor is on the character before the next digit. *)
Fixpoint hex_loop_c (n : nat) (cp : N) (cur : bytes) : cost (option N * bytes) :=
  match n with
  | O => ret (Some cp, cur)
  | S n' =>
      tdo cur <- advance_c cur;
      if at_end cur then ret (None, cur)
      else
        tdo c <- deref_c cur;
        match hex_value c with
        | None => ret (None, cur)
        | Some d => hex_loop_c n' (N.lor (N.shiftl cp 4 mod 65536) d) cur
        end
  end.
(** skip_unicode_escape, parser_impl.hpp:394-462. Returns success, cursor (on the
    last hex digit), pair_high and the string. Shifting the negative number
    [pair_high - 0xD800] would be undefined: [Ub]. *)
Definition skip_unicode_escape_c (cur : bytes) (ph : N) (result : bytes)
  : cost (bool * bytes * N * bytes) :=
  tdo (cpo, cur) <- hex_loop_c 4 0 cur;
  match cpo with
  | None => ret (false, cur, ph, result)
  | Some cp =>
      if (55296 <=? cp) && (cp <=? 56319) then
        if negb (ph =? 0) then ret (false, cur, ph, result)
        else ret (true, cur, cp, result)
      else if (56320 <=? cp) && (cp <=? 57343) then
        if ph =? 0 then ret (false, cur, ph, result)
        else if ph <? 55296 then stop Ub
        else
          let ext := N.lor (N.shiftl (ph - 55296) 10) (cp - 56320) + 65536 in
          tdo result <- append_c result (utf8_emit ext); ret (true, cur, 0, result)
      else tdo result <- append_c result (utf8_emit cp); ret (true, cur, ph, result)
  end.

(** The loop of parse_stdstring, parser_impl.hpp:317-391. *)
Fixpoint str_loop_c (be : backend) (fuel : nat) (cur result beg : bytes) (ph : N)
  : cost (option bytes * bytes) :=
  match fuel with
  | O => stop Fuel
  | S f =>
      tick 1
      (if at_end cur then ret (None, cur)                                  (* 317, 391 *)
      else
        tdo (more, cur) <- skip_accel_c be cur;
        if negb more then ret (None, cur)                                  (* 319-321 *)
        else
          tdo c <- deref_c cur;
          if (c =? 9) || (c =? 13) || (c =? 10) then ret (None, cur)       (* 324-327 *)
          else if c =? 92 then                                            (* 328-372 *)
            tdo result <- append_c result (slice beg cur);
            tdo cur <- advance_c cur;
            if at_end cur then ret (None, cur)
            else
              tdo c <- deref_c cur;
              if negb (ph =? 0) && negb (c =? 117) then ret (None, cur)
              else if c =? 117 then
                tdo (ok, cur, ph, result) <- skip_unicode_escape_c cur ph result;
                if negb ok then ret (None, cur)
                else
                  tdo cur <- advance_c cur;
                  str_loop_c be f cur result cur ph
              else
                match simple_escape c with
                | None => ret (None, cur)
                | Some e =>
                    tdo result <- append_c result [e];
                    tdo cur <- advance_c cur;
                    str_loop_c be f cur result cur ph
                end
          else if c =? 34 then                                            (* 373-379 *)
            if negb (ph =? 0) then ret (None, cur)
            else
              tdo result <- append_c result (slice beg cur);
              tdo cur <- advance_c cur;
              ret (Some result, cur)
          else                                                            (* 380-388 *)
            if negb (ph =? 0) then ret (None, cur)
            else if c <? 32 then ret (None, cur)
            else
              tdo cur <- advance_c cur;
              str_loop_c be f cur result beg ph)
  end.

(** parse_stdstring, parser_impl.hpp:303-392 *)
Definition parse_stdstring_c (be : backend) (cur : bytes) : cost (option bytes * bytes) :=
  tdo c <- deref_c cur;
  if c =? 34 then
    tdo cur <- advance_c cur;
    str_loop_c be (S (length cur)) cur [] cur 0
  else ret (None, cur).

(** The keyword loops, parser_impl.hpp:83-90, 100-107, 110-117 *)
Fixpoint match_word_c (w cur : bytes) : cost (bool * bytes) :=
  tick 1
  match w with
  | [] => ret (true, cur)
  | ch :: w' =>
      match cur with
      | c :: r => if c =? ch then match_word_c w' r else ret (false, cur)
      | [] => ret (false, cur)
      end
  end.
(** parse_null, parser_impl.hpp:80-93 *)
Definition parse_null_c (cur : bytes) : cost (value * bytes) :=
  tdo (ok, cur) <- match_word_c null_string cur;
  ret (if ok then v_null else invalid_value, cur).
(** parse_boolean, parser_impl.hpp:95-122 *)
Definition parse_boolean_c (cur : bytes) : cost (value * bytes) :=
  tdo c <- deref_c cur;
  if c =? 116 then
    tdo (ok, cur) <- match_word_c true_string cur;
    ret (if ok then v_bool true else invalid_value, cur)
  else if c =? 102 then
    tdo (ok, cur) <- match_word_c false_string cur;
    ret (if ok then v_bool false else invalid_value, cur)
  else ret (invalid_value, cur).

(** parse_number, parser_impl.hpp:124-161 *)
Definition parse_number_c (cur : bytes) : cost (value * bytes) :=
  let first := cur in
  tdo c <- deref_c cur;
  tdo cur <- (if c =? 45 then advance_c cur else ret cur);
  let leading_zero :=                                     (* 133 *)
    match cur with
    | c0 :: c1 :: _ => (c0 =? 48) && isdigit c1
    | _ => false
    end in
  if leading_zero then ret (invalid_value, cur)
  else
    tdo (ok, cur) <- skip_digit_c cur;
    if negb ok then ret (invalid_value, cur)
    else
      tdo c <- deref_c cur;
      tdo (ok, cur) <-
        (if c =? 46 then tdo cur <- advance_c cur; skip_digit_c cur else ret (true, cur));
      if negb ok then ret (invalid_value, cur)
      else
        tdo c <- deref_c cur;
        if (c =? 101) || (c =? 69) then
          tdo cur <- advance_c cur;
          if at_end cur then ret (invalid_value, cur)
          else
            tdo c <- deref_c cur;
            tdo cur <- (if (c =? 43) || (c =? 45) then advance_c cur else ret cur);
            tdo (ok, cur) <- skip_digit_c cur;
            if negb ok then ret (invalid_value, cur)
            else tdo s <- append_c [] (slice first cur); ret (v_number s, cur)
        else tdo s <- append_c [] (slice first cur); ret (v_number s, cur).

(** parse_string, parser_impl.hpp:163-171 *)
Definition parse_string_c (be : backend) (cur : bytes) : cost (value * bytes) :=
  tdo (so, cur) <- parse_stdstring_c be cur;
  match so with
  | None => ret (invalid_value, cur)
  | Some s => ret (v_string s, cur)
  end.

Section Structure.
  Context (jsonc : bool) (be : backend).

  (** skip_whitespace, parser_impl.hpp:490-519 *)
  Fixpoint ws_loop_c (fuel : nat) (cur : bytes) : cost (bool * bytes) :=
    match fuel with
    | O => stop Fuel
    | S f =>
        match cur with
        | [] => ret (false, cur)
        | c :: r =>
            tick 2 (if (c =? 32) || (c =? 9) || (c =? 13) || (c =? 10) then ws_loop_c f r
            else if c =? 47 then
              if jsonc then
                tdo (ok, cur) <- skip_comment_c cur;
                if ok then ws_loop_c f cur else ret (false, cur)
              else ret (false, cur)
            else if c =? 0 then ret (false, cur)
            else ret (true, cur))
        end
    end.
  Definition skip_ws_c (cur : bytes) : cost (bool * bytes) := tick 1 (ws_loop_c (S (length cur)) cur).

  (** After the loop of parse_array, parser_impl.hpp:220-227 *)
  Definition array_close_c (result : array) (cur : bytes) : cost (value * bytes) :=
    tdo (ok, cur) <- skip_ws_c cur;
    if negb ok then ret (invalid_value, cur)
    else
      tdo c <- deref_c cur;
      if c =? 93 then tdo cur <- advance_c cur; tick (array_handing result) (ret (v_array result, cur))
      else ret (invalid_value, cur).

  (** After the loop of parse_object, parser_impl.hpp:293-300 *)
  Definition object_close_c (result : object) (cur : bytes) : cost (value * bytes) :=
    tdo (ok, cur) <- skip_ws_c cur;
    if negb ok then ret (invalid_value, cur)
    else
      tdo c <- deref_c cur;
      if c =? 125 then tdo cur <- advance_c cur; tick (object_handing 0 result) (ret (v_object result, cur))
      else ret (invalid_value, cur).

  Section Nested.
    Context (pv : bytes -> cost (value * bytes)).     (* parse_value *)

    (** The element loop of parse_array, parser_impl.hpp:191-218 *)
    Fixpoint array_loop_c (fuel : nat) (cur : bytes) (result : array) : cost (value * bytes) :=
      match fuel with
      | O => stop Fuel
      | S f =>
          tick 1 (
          tdo (ok, cur) <- skip_ws_c cur;
          if negb ok then ret (invalid_value, cur)
          else
            tdo c <- deref_c cur;
            if jsonc && (c =? 93) then array_close_c result cur                      (* 197-201 *)
            else
              tdo (val, cur) <- pv cur;
              if negb (valid val) then ret (invalid_value, cur)
              else
                tdo (ok, cur) <- skip_ws_c cur;
                if negb ok then ret (invalid_value, cur)
                else
                  tdo result <- push_back_c result val;
                  tdo c <- deref_c cur;
                  if c =? 44 then tdo cur <- advance_c cur; array_loop_c f cur result
                  else array_close_c result cur)
      end.
    (** parse_array, parser_impl.hpp:173-228 *)
    Definition parse_array_c (cur : bytes) : cost (value * bytes) :=
      tdo c <- deref_c cur;
      if negb (c =? 91) then ret (invalid_value, cur)
      else
        tdo cur <- advance_c cur;
        tdo (ok, cur) <- skip_ws_c cur;
        if negb ok then ret (invalid_value, cur)
        else
          tdo c <- deref_c cur;
          if c =? 93 then tdo cur <- advance_c cur; ret (v_array [], cur)
          else array_loop_c (S (length cur)) cur [].

    (** The member loop of parse_object, parser_impl.hpp:248-291 *)
    Fixpoint object_loop_c (fuel : nat) (cur : bytes) (result : object) : cost (value * bytes) :=
      match fuel with
      | O => stop Fuel
      | S f =>
          tick 1 (
          tdo (ok, cur) <- skip_ws_c cur;
          if negb ok then ret (invalid_value, cur)
          else
            tdo c <- deref_c cur;
            if jsonc && (c =? 125) then object_close_c result cur                     (* 254-258 *)
            else
              tdo (ko, cur) <- parse_stdstring_c be cur;
              match ko with
              | None => ret (invalid_value, cur)
              | Some key =>
                  tdo (ok, cur) <- skip_ws_c cur;
                  if negb ok then ret (invalid_value, cur)
                  else
                    tdo c <- deref_c cur;
                    if negb (c =? 58) then ret (invalid_value, cur)
                    else
                      tdo cur <- advance_c cur;
                      tdo (ok, cur) <- skip_ws_c cur;
                      if negb ok then ret (invalid_value, cur)
                      else
                        tdo (val, cur) <- pv cur;
                        if negb (valid val) then ret (invalid_value, cur)
                        else
                          tdo (ok, cur) <- skip_ws_c cur;
                          if negb ok then ret (invalid_value, cur)
                          else
                            tdo (result, emplaced) <- emplace_c key val result;
                            if negb emplaced then ret (invalid_value, cur)
                            else
                              tdo c <- deref_c cur;
                              if c =? 44 then tdo cur <- advance_c cur; object_loop_c f cur result
                              else object_close_c result cur
              end)
      end.
    (** parse_object, parser_impl.hpp:230-301 *)
    Definition parse_object_c (cur : bytes) : cost (value * bytes) :=
      tdo c <- deref_c cur;
      if negb (c =? 123) then ret (invalid_value, cur)
      else
        tdo cur <- advance_c cur;
        tdo (ok, cur) <- skip_ws_c cur;
        if negb ok then ret (invalid_value, cur)
        else
          tdo c <- deref_c cur;
          if c =? 125 then tdo cur <- advance_c cur; ret (v_object [], cur)
          else object_loop_c (S (length cur)) cur [].
  End Nested.

  (** parse_value, parser_impl.hpp:48-78. [d] is the remaining budget of nested
      parse_value activations. *)
  Fixpoint parse_value_c (d : nat) (cur : bytes) : cost (value * bytes) :=
    match d with
    | O => stop Stack
    | S d' =>
        tick 1 (
        tdo c <- deref_c cur;
        if c =? 110 then parse_null_c cur
        else if (c =? 116) || (c =? 102) then parse_boolean_c cur
        else if (c =? 45) || isdigit c then parse_number_c cur
        else if c =? 34 then parse_string_c be cur
        else if c =? 91 then parse_array_c (parse_value_c d') cur
        else if c =? 123 then parse_object_c (parse_value_c d') cur
        else ret (invalid_value, cur))
    end.

  (** parse(), parser_impl.hpp:17-46, with a recursion budget [d]. *)
  Definition parse_budget_c (d : nat) (cur : bytes) : cost (option value) :=
    tdo (ok, cur) <- skip_ws_c cur;
    if negb ok then ret None
    else
      tdo c <- deref_c cur;
      if (c =? 91) || (c =? 123) then
        tdo (v, cur) <- (if c =? 91 then parse_array_c (parse_value_c d) cur
                        else parse_object_c (parse_value_c d) cur);
        if negb (valid v) then ret None
        else
          tdo (ok, _) <- skip_ws_c cur;
          if ok then ret None else ret (Some v)
      else ret None.

  (** parser::parse(content), parser_impl.hpp:12-15 *)
  Definition parse_c (s : bytes) : cost (option value) := parse_budget_c (length s) s.
End Structure.
