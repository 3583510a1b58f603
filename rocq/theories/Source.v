(** * The parser for other kinds of sources: include/parser/parser_impl.hpp.

    parser<accept_jsonc, parsing_t, accel_traits> accepts any [parsing_t] with random-access
    const iterators: std::wstring, std::u16string, std::u32string, std::deque<char>, ... The
    functions below are the ones of Parser.v that depend on it.
    - [low] is [static_cast<unsigned char>( *_cur)], also the conversion of code units to [char]
      by [std::string(first, _cur)] and [append(no_escape_beg, _cur)];
    - [accel] is lines 318-322, the call of skip_string_literal_with_accel.
    A code unit is an [N] (negative ones as in two's complement); comparisons with character
    literals see the whole unit. Model only. *)
From Verif Require Import Base Value Packed Parser.

Section Template.
  Context (low : N -> N) (accel : bytes -> res (bool * bytes)) (jsonc : bool).

  (** skip_digit, parser_impl.hpp:572-593 *)
  Fixpoint t_drop_digits (cur : bytes) : bytes :=
    match cur with
    | c :: r => if isdigit (low c) then t_drop_digits r else cur
    | [] => []
    end.
  Definition t_skip_digit (cur : bytes) : bool * bytes :=
    match cur with
    | c :: r =>
        if isdigit (low c) then let cur' := t_drop_digits r in (negb (at_end cur'), cur')
        else (false, cur)
    | [] => (false, cur)
    end.

  (** One hexadecimal digit, parser_impl.hpp:403-420 *)
  Definition t_hex_value (c : N) : option N :=
    if negb (isxdigit (low c)) then None
    else if (48 <=? c) && (c <=? 57) then Some (c - 48)
    else if (97 <=? c) && (c <=? 102) then Some (c - 97 + 10)
    else if (65 <=? c) && (c <=? 70) then Some (c - 65 + 10)
    else None.
  (** parser_impl.hpp:398-421 *)
  Fixpoint t_hex_loop (n : nat) (cp : N) (cur : bytes) : res (option N * bytes) :=
    match n with
    | O => Ok (Some cp, cur)
    | S n' =>
        do cur <- advance cur;
        if at_end cur then Ok (None, cur)
        else
          do c <- deref cur;
          match t_hex_value c with
          | None => Ok (None, cur)
          | Some d => t_hex_loop n' (N.lor (N.shiftl cp 4 mod 65536) d) cur
          end
    end.
  (** skip_unicode_escape, parser_impl.hpp:394-462 *)
  Definition t_skip_unicode_escape (cur : bytes) (ph : N) (result : bytes)
    : res (bool * bytes * N * bytes) :=
    do (cpo, cur) <- t_hex_loop 4 0 cur;
    match cpo with
    | None => Ok (false, cur, ph, result)
    | Some cp =>
        if (55296 <=? cp) && (cp <=? 56319) then
          if negb (ph =? 0) then Ok (false, cur, ph, result)
          else Ok (true, cur, cp, result)
        else if (56320 <=? cp) && (cp <=? 57343) then
          if ph =? 0 then Ok (false, cur, ph, result)
          else if ph <? 55296 then Ub
          else
            let ext := N.lor (N.shiftl (ph - 55296) 10) (cp - 56320) + 65536 in
            Ok (true, cur, 0, result ++ utf8_emit ext)
        else Ok (true, cur, ph, result ++ utf8_emit cp)
    end.

  (** The loop of parse_stdstring, parser_impl.hpp:317-391 *)
  Fixpoint t_str_loop (fuel : nat) (cur result beg : bytes) (ph : N)
    : res (option bytes * bytes) :=
    match fuel with
    | O => Fuel
    | S f =>
        if at_end cur then Ok (None, cur)
        else
          do (more, cur) <- accel cur;
          if negb more then Ok (None, cur)
          else
            do c <- deref cur;
            if (c =? 9) || (c =? 13) || (c =? 10) then Ok (None, cur)
            else if c =? 92 then
              let result := result ++ map low (slice beg cur) in
              do cur <- advance cur;
              if at_end cur then Ok (None, cur)
              else
                do c <- deref cur;
                if negb (ph =? 0) && negb (c =? 117) then Ok (None, cur)
                else if c =? 117 then
                  do (ok, cur, ph, result) <- t_skip_unicode_escape cur ph result;
                  if negb ok then Ok (None, cur)
                  else
                    do cur <- advance cur;
                    t_str_loop f cur result cur ph
                else
                  match simple_escape c with
                  | None => Ok (None, cur)
                  | Some e =>
                      do cur <- advance cur;
                      t_str_loop f cur (result ++ [e]) cur ph
                  end
            else if c =? 34 then
              if negb (ph =? 0) then Ok (None, cur)
              else
                let result := result ++ map low (slice beg cur) in
                do cur <- advance cur;
                Ok (Some result, cur)
            else
              if negb (ph =? 0) then Ok (None, cur)
              else if low c <? 32 then Ok (None, cur)
              else
                do cur <- advance cur;
                t_str_loop f cur result beg ph
    end.
  (** parse_stdstring, parser_impl.hpp:303-392 *)
  Definition t_parse_stdstring (cur : bytes) : res (option bytes * bytes) :=
    do c <- deref cur;
    if c =? 34 then
      do cur <- advance cur;
      t_str_loop (S (length cur)) cur [] cur 0
    else Ok (None, cur).
  (** parse_string, parser_impl.hpp:163-171 *)
  Definition t_parse_string (cur : bytes) : res (value * bytes) :=
    do (so, cur) <- t_parse_stdstring cur;
    match so with
    | None => Ok (invalid_value, cur)
    | Some s => Ok (v_string s, cur)
    end.

  (** parse_number, parser_impl.hpp:124-161 *)
  Definition t_parse_number (cur : bytes) : res (value * bytes) :=
    let first := cur in
    do c <- deref cur;
    do cur <- (if c =? 45 then advance cur else Ok cur);
    let leading_zero :=
      match cur with
      | c0 :: c1 :: _ => (c0 =? 48) && isdigit (low c1)
      | _ => false
      end in
    if leading_zero then Ok (invalid_value, cur)
    else
      let '(ok, cur) := t_skip_digit cur in
      if negb ok then Ok (invalid_value, cur)
      else
        do c <- deref cur;
        do (ok, cur) <-
          (if c =? 46 then do cur <- advance cur; Ok (t_skip_digit cur) else Ok (true, cur));
        if negb ok then Ok (invalid_value, cur)
        else
          do c <- deref cur;
          if (c =? 101) || (c =? 69) then
            do cur <- advance cur;
            if at_end cur then Ok (invalid_value, cur)
            else
              do c <- deref cur;
              do cur <- (if (c =? 43) || (c =? 45) then advance cur else Ok cur);
              let '(ok, cur) := t_skip_digit cur in
              if negb ok then Ok (invalid_value, cur)
              else Ok (v_number (map low (slice first cur)), cur)
          else Ok (v_number (map low (slice first cur)), cur).

  Section Nested.
    Context (pv : bytes -> res (value * bytes)).     (* parse_value *)
    (** The member loop of parse_object, parser_impl.hpp:248-291; parse_array does not depend
        on the kind of source: Parser.v *)
    Fixpoint t_object_loop (fuel : nat) (cur : bytes) (result : object) : res (value * bytes) :=
      match fuel with
      | O => Fuel
      | S f =>
          do (ok, cur) <- skip_ws jsonc cur;
          if negb ok then Ok (invalid_value, cur)
          else
            do c <- deref cur;
            if jsonc && (c =? 125) then object_close jsonc result cur
            else
              do (ko, cur) <- t_parse_stdstring cur;
              match ko with
              | None => Ok (invalid_value, cur)
              | Some key =>
                  do (ok, cur) <- skip_ws jsonc cur;
                  if negb ok then Ok (invalid_value, cur)
                  else
                    do c <- deref cur;
                    if negb (c =? 58) then Ok (invalid_value, cur)
                    else
                      do cur <- advance cur;
                      do (ok, cur) <- skip_ws jsonc cur;
                      if negb ok then Ok (invalid_value, cur)
                      else
                        do (val, cur) <- pv cur;
                        if negb (valid val) then Ok (invalid_value, cur)
                        else
                          do (ok, cur) <- skip_ws jsonc cur;
                          if negb ok then Ok (invalid_value, cur)
                          else
                            let '(result, emplaced) := map_emplace key val result in
                            if negb emplaced then Ok (invalid_value, cur)
                            else
                              do c <- deref cur;
                              if c =? 44 then do cur <- advance cur; t_object_loop f cur result
                              else object_close jsonc result cur
              end
      end.
    (** parse_object, parser_impl.hpp:230-301 *)
    Definition t_parse_object (cur : bytes) : res (value * bytes) :=
      do c <- deref cur;
      if negb (c =? 123) then Ok (invalid_value, cur)
      else
        do cur <- advance cur;
        do (ok, cur) <- skip_ws jsonc cur;
        if negb ok then Ok (invalid_value, cur)
        else
          do c <- deref cur;
          if c =? 125 then do cur <- advance cur; Ok (v_object [], cur)
          else t_object_loop (S (length cur)) cur [].
  End Nested.

  (** parse_value, parser_impl.hpp:48-78: the case labels see the whole code unit *)
  Fixpoint t_parse_value (d : nat) (cur : bytes) : res (value * bytes) :=
    match d with
    | O => Stack
    | S d' =>
        do c <- deref cur;
        if c =? 110 then parse_null cur
        else if (c =? 116) || (c =? 102) then parse_boolean cur
        else if (c =? 45) || ((48 <=? c) && (c <=? 57)) then t_parse_number cur
        else if c =? 34 then t_parse_string cur
        else if c =? 91 then parse_array jsonc (t_parse_value d') cur
        else if c =? 123 then t_parse_object (t_parse_value d') cur
        else Ok (invalid_value, cur)
    end.

  (** parse(), parser_impl.hpp:17-46 *)
  Definition t_parse_budget (d : nat) (cur : bytes) : res (option value) :=
    do (ok, cur) <- skip_ws jsonc cur;
    if negb ok then Ok None
    else
      do c <- deref cur;
      if (c =? 91) || (c =? 123) then
        do (v, cur) <- (if c =? 91 then parse_array jsonc (t_parse_value d) cur
                        else t_parse_object (t_parse_value d) cur);
        if negb (valid v) then Ok None
        else
          do (ok, _) <- skip_ws jsonc cur;
          if ok then Ok None else Ok (Some v)
      else Ok None.
  Definition t_parse (s : bytes) : res (option value) := t_parse_budget (length s) s.
End Template.

(** static_cast<unsigned char> *)
Definition to_char (c : N) : N := c mod 256.

(** json::parse and json::parsec on std::wstring, std::u16string, std::u32string: no block scan,
    [sizeof( *_cur) != 1] at line 318 *)
Definition wide_parse (jsonc : bool) (s : list N) : res (option value) :=
  t_parse to_char (fun cur => Ok (true, cur)) jsonc s.

(** json::parse and json::parsec on std::deque<char>: the block scan runs, sizeof( *_cur) == 1.
    A deque keeps its elements in nodes of [node] characters (libstdc++: 512); [off] is the
    position of the first element in its node and [n] the size. load_unaligned(&( *_cur)),
    line 471, reads [st] characters from one node: beyond its end it is [Ub]. *)
Definition node : nat := 512.
Definition deque_load (off n st : nat) (cur : bytes) : res bytes :=
  if (node <? (off + (n - length cur)) mod node + st)%nat then Ub else load_block st cur.
Fixpoint deque_loop (be : backend) (off n st : nat) (fuel : nat) (cur : bytes) : res bytes :=
  match fuel with
  | O => Fuel
  | S f =>
      if (st <=? length cur)%nat then
        do blk <- deque_load off n st cur;
        match scan be blk with
        | None => do cur <- advance_by st cur; deque_loop be off n st f cur
        | Some i => advance_by (N.to_nat i) cur
        end
      else Ok cur
  end.
Definition deque_accel (be : backend) (off n : nat) (cur : bytes) : res (bool * bytes) :=
  match step be with
  | None => Ok (true, cur)
  | Some st => do cur <- deque_loop be off n st (S (length cur)) cur; Ok (negb (at_end cur), cur)
  end.
Definition deque_parse (jsonc : bool) (be : backend) (off : nat) (s : bytes) : res (option value) :=
  t_parse (fun c => c) (deque_accel be off (length s)) jsonc s.
