(** * The parser: include/parser/parser_impl.hpp, function by function.

    [jsonc] is the template parameter [accept_jsonc], [be] the template
    parameter [accel_traits] (parser.hpp:19). [parsing_t] is a contiguous
    one-byte-character range (std::string, std::string_view, const char pointers).

    Every function returns the new cursor next to its result, also on failure. *)
From Verif Require Import Base Value Packed.

(** [while (_cur != _end && isdigit( *_cur)) ++_cur], parser_impl.hpp:583-585 *)
Fixpoint drop_digits (cur : bytes) : bytes :=
  match cur with
  | c :: r => if isdigit c then drop_digits r else cur
  | [] => []
  end.

(** skip_digit, parser_impl.hpp:572-593 *)
Definition skip_digit (cur : bytes) : bool * bytes :=
  match cur with
  | c :: r =>
      if isdigit c then let cur' := drop_digits r in (negb (at_end cur'), cur')
      else (false, cur)
  | [] => (false, cur)
  end.

(** The loop of skip_comment, parser_impl.hpp:548-566; [line] is t == comment_type::line. *)
Fixpoint comment_loop (line : bool) (cur : bytes) : bool * bytes :=
  match cur with
  | [] => (line, [])                                   (* 568-569 *)
  | c :: r =>
      if c =? 10 then (if line then (true, r) else comment_loop line r)
      else if c =? 42 then
        match r with
        | c' :: r' => if negb line && (c' =? 47) then (true, r') else comment_loop line r
        | [] => comment_loop line r
        end
      else comment_loop line r
  end.

(** skip_comment, parser_impl.hpp:521-570 *)
Definition skip_comment (cur : bytes) : res (bool * bytes) :=
  if at_end cur then Ok (false, cur)
  else
    do c <- deref cur;
    if negb (c =? 47) then Ok (false, cur)
    else
      do cur <- advance cur;
      if at_end cur then Ok (false, cur)
      else
        do c <- deref cur;
        do cur <- advance cur;
        if c =? 47 then Ok (comment_loop true cur)
        else if c =? 42 then Ok (comment_loop false cur)
        else Ok (false, cur).

(** skip_string_literal_with_accel, parser_impl.hpp:464-488. Loading a block
    that does not lie inside the buffer, or moving past [_end], is [Ub]. *)
Definition load_block (n : nat) (cur : bytes) : res bytes :=
  if (length cur <? n)%nat then Ub else Ok (firstn n cur).
Definition advance_by (n : nat) (cur : bytes) : res bytes :=
  if (length cur <? n)%nat then Ub else Ok (skipn n cur).
Fixpoint accel_loop (be : backend) (st : nat) (fuel : nat) (cur : bytes) : res bytes :=
  match fuel with
  | O => Fuel
  | S f =>
      if (st <=? length cur)%nat then
        do blk <- load_block st cur;
        match scan be blk with
        | None => do cur <- advance_by st cur; accel_loop be st f cur
        | Some i => advance_by (N.to_nat i) cur
        end
      else Ok cur
  end.
(** [if constexpr (sizeof( *_cur) == 1 && accel_traits::available)], 318-322: the
    boolean is false when the scan ran to [_end]. *)
Definition skip_accel (be : backend) (cur : bytes) : res (bool * bytes) :=
  match step be with
  | None => Ok (true, cur)
  | Some st => do cur <- accel_loop be st (S (length cur)) cur; Ok (negb (at_end cur), cur)
  end.

(** One hexadecimal digit, parser_impl.hpp:409-420; None is [return false]. *)
Definition hex_value (c : N) : option N :=
  if negb (isxdigit c) then None
  else if (48 <=? c) && (c <=? 57) then Some (c - 48)
  else if (97 <=? c) && (c <=? 102) then Some (c - 97 + 10)
  else if (65 <=? c) && (c <=? 70) then Some (c - 65 + 10)
  else None.
(** The four-digit loop, parser_impl.hpp:398-421; [n] iterations remain. On
    entry the cursor is on the character before the next digit. *)
Fixpoint hex_loop (n : nat) (cp : N) (cur : bytes) : res (option N * bytes) :=
  match n with
  | O => Ok (Some cp, cur)
  | S n' =>
      do cur <- advance cur;
      if at_end cur then Ok (None, cur)
      else
        do c <- deref cur;
        match hex_value c with
        | None => Ok (None, cur)
        | Some d => hex_loop n' (N.lor (N.shiftl cp 4 mod 65536) d) cur
        end
  end.
(** UTF-8 emission, parser_impl.hpp:440-459 *)
Definition utf8_emit (cp : N) : bytes :=
  if cp <=? 127 then [cp]
  else if cp <=? 2047 then
    [N.lor (N.land (N.shiftr cp 6) 31) 192; N.lor (N.land cp 63) 128]
  else if cp <=? 65535 then
    [N.lor (N.land (N.shiftr cp 12) 15) 224;
     N.lor (N.land (N.shiftr cp 6) 63) 128; N.lor (N.land cp 63) 128]
  else
    [N.lor (N.land (N.shiftr cp 18) 7) 240; N.lor (N.land (N.shiftr cp 12) 63) 128;
     N.lor (N.land (N.shiftr cp 6) 63) 128; N.lor (N.land cp 63) 128].
(** skip_unicode_escape, parser_impl.hpp:394-462. Returns success, cursor (on the
    last hex digit), pair_high and the string. Shifting the negative number
    [pair_high - 0xD800] would be undefined: [Ub]. *)
Definition skip_unicode_escape (cur : bytes) (ph : N) (result : bytes)
  : res (bool * bytes * N * bytes) :=
  do (cpo, cur) <- hex_loop 4 0 cur;
  match cpo with
  | None => Ok (false, cur, ph, result)
  | Some cp =>
      if (55296 <=? cp) && (cp <=? 56319) then
        if negb (ph =? 0) then Ok (false, cur, ph, result)
        else Ok (true, cur, cp, result)
      else if (56320 <=? cp) && (cp <=? 57343) then
        if ph =? 0 then Ok (false, cur, ph, result)
        else if ph <? 55296 then Ub
        else
          let ext := N.lor (N.shiftl (ph - 55296) 10) (cp - 56320) + 65536 in
          Ok (true, cur, 0, result ++ utf8_emit ext)
      else Ok (true, cur, ph, result ++ utf8_emit cp)
  end.

(** The simple escapes, parser_impl.hpp:337-360. *)
Definition simple_escape (c : N) : option N :=
  if c =? 34 then Some 34            (* backslash quote *)
  else if c =? 92 then Some 92       (* \\ *)
  else if c =? 47 then Some 47       (* \/ *)
  else if c =? 98 then Some 8        (* \b *)
  else if c =? 102 then Some 12      (* \f *)
  else if c =? 110 then Some 10      (* \n *)
  else if c =? 114 then Some 13      (* \r *)
  else if c =? 116 then Some 9       (* \t *)
  else None.

(** The loop of parse_stdstring, parser_impl.hpp:317-391. *)
Fixpoint str_loop (be : backend) (fuel : nat) (cur result beg : bytes) (ph : N)
  : res (option bytes * bytes) :=
  match fuel with
  | O => Fuel
  | S f =>
      if at_end cur then Ok (None, cur)                                   (* 317, 391 *)
      else
        do (more, cur) <- skip_accel be cur;
        if negb more then Ok (None, cur)                                  (* 319-321 *)
        else
          do c <- deref cur;
          if (c =? 9) || (c =? 13) || (c =? 10) then Ok (None, cur)       (* 324-327 *)
          else if c =? 92 then                                            (* 328-372 *)
            let result := result ++ slice beg cur in
            do cur <- advance cur;
            if at_end cur then Ok (None, cur)
            else
              do c <- deref cur;
              if negb (ph =? 0) && negb (c =? 117) then Ok (None, cur)
              else if c =? 117 then
                do (ok, cur, ph, result) <- skip_unicode_escape cur ph result;
                if negb ok then Ok (None, cur)
                else
                  do cur <- advance cur;
                  str_loop be f cur result cur ph
              else
                match simple_escape c with
                | None => Ok (None, cur)
                | Some e =>
                    do cur <- advance cur;
                    str_loop be f cur (result ++ [e]) cur ph
                end
          else if c =? 34 then                                            (* 373-379 *)
            if negb (ph =? 0) then Ok (None, cur)
            else
              let result := result ++ slice beg cur in
              do cur <- advance cur;
              Ok (Some result, cur)
          else                                                            (* 380-388 *)
            if negb (ph =? 0) then Ok (None, cur)
            else if c <? 32 then Ok (None, cur)
            else
              do cur <- advance cur;
              str_loop be f cur result beg ph
  end.

(** parse_stdstring, parser_impl.hpp:303-392 *)
Definition parse_stdstring (be : backend) (cur : bytes) : res (option bytes * bytes) :=
  do c <- deref cur;
  if c =? 34 then
    do cur <- advance cur;
    str_loop be (S (length cur)) cur [] cur 0
  else Ok (None, cur).

(** The keyword loops, parser_impl.hpp:83-90, 100-107, 110-117 *)
Fixpoint match_word (w cur : bytes) : bool * bytes :=
  match w with
  | [] => (true, cur)
  | ch :: w' =>
      match cur with
      | c :: r => if c =? ch then match_word w' r else (false, cur)
      | [] => (false, cur)
      end
  end.
(** parse_null, parser_impl.hpp:80-93 *)
Definition parse_null (cur : bytes) : res (value * bytes) :=
  let '(ok, cur) := match_word null_string cur in
  Ok (if ok then v_null else invalid_value, cur).
(** parse_boolean, parser_impl.hpp:95-122 *)
Definition parse_boolean (cur : bytes) : res (value * bytes) :=
  do c <- deref cur;
  if c =? 116 then
    let '(ok, cur) := match_word true_string cur in
    Ok (if ok then v_bool true else invalid_value, cur)
  else if c =? 102 then
    let '(ok, cur) := match_word false_string cur in
    Ok (if ok then v_bool false else invalid_value, cur)
  else Ok (invalid_value, cur).

(** parse_number, parser_impl.hpp:124-161 *)
Definition parse_number (cur : bytes) : res (value * bytes) :=
  let first := cur in
  do c <- deref cur;
  do cur <- (if c =? 45 then advance cur else Ok cur);
  let leading_zero :=                                     (* 133 *)
    match cur with
    | c0 :: c1 :: _ => (c0 =? 48) && isdigit c1
    | _ => false
    end in
  if leading_zero then Ok (invalid_value, cur)
  else
    let '(ok, cur) := skip_digit cur in
    if negb ok then Ok (invalid_value, cur)
    else
      do c <- deref cur;
      do (ok, cur) <-
        (if c =? 46 then do cur <- advance cur; Ok (skip_digit cur) else Ok (true, cur));
      if negb ok then Ok (invalid_value, cur)
      else
        do c <- deref cur;
        if (c =? 101) || (c =? 69) then
          do cur <- advance cur;
          if at_end cur then Ok (invalid_value, cur)
          else
            do c <- deref cur;
            do cur <- (if (c =? 43) || (c =? 45) then advance cur else Ok cur);
            let '(ok, cur) := skip_digit cur in
            if negb ok then Ok (invalid_value, cur)
            else Ok (v_number (slice first cur), cur)
        else Ok (v_number (slice first cur), cur).

(** parse_string, parser_impl.hpp:163-171 *)
Definition parse_string (be : backend) (cur : bytes) : res (value * bytes) :=
  do (so, cur) <- parse_stdstring be cur;
  match so with
  | None => Ok (invalid_value, cur)
  | Some s => Ok (v_string s, cur)
  end.

Section Structure.
  Context (jsonc : bool) (be : backend).

  (** skip_whitespace, parser_impl.hpp:490-519 *)
  Fixpoint ws_loop (fuel : nat) (cur : bytes) : res (bool * bytes) :=
    match fuel with
    | O => Fuel
    | S f =>
        match cur with
        | [] => Ok (false, cur)
        | c :: r =>
            if (c =? 32) || (c =? 9) || (c =? 13) || (c =? 10) then ws_loop f r
            else if c =? 47 then
              if jsonc then
                do (ok, cur) <- skip_comment cur;
                if ok then ws_loop f cur else Ok (false, cur)
              else Ok (false, cur)
            else if c =? 0 then Ok (false, cur)
            else Ok (true, cur)
        end
    end.
  Definition skip_ws (cur : bytes) : res (bool * bytes) := ws_loop (S (length cur)) cur.

  (** After the loop of parse_array, parser_impl.hpp:220-227 *)
  Definition array_close (result : array) (cur : bytes) : res (value * bytes) :=
    do (ok, cur) <- skip_ws cur;
    if negb ok then Ok (invalid_value, cur)
    else
      do c <- deref cur;
      if c =? 93 then do cur <- advance cur; Ok (v_array result, cur)
      else Ok (invalid_value, cur).

  (** After the loop of parse_object, parser_impl.hpp:293-300 *)
  Definition object_close (result : object) (cur : bytes) : res (value * bytes) :=
    do (ok, cur) <- skip_ws cur;
    if negb ok then Ok (invalid_value, cur)
    else
      do c <- deref cur;
      if c =? 125 then do cur <- advance cur; Ok (v_object result, cur)
      else Ok (invalid_value, cur).

  Section Nested.
    Context (pv : bytes -> res (value * bytes)).     (* parse_value *)

    (** The element loop of parse_array, parser_impl.hpp:191-218 *)
    Fixpoint array_loop (fuel : nat) (cur : bytes) (result : array) : res (value * bytes) :=
      match fuel with
      | O => Fuel
      | S f =>
          do (ok, cur) <- skip_ws cur;
          if negb ok then Ok (invalid_value, cur)
          else
            do c <- deref cur;
            if jsonc && (c =? 93) then array_close result cur                      (* 197-201 *)
            else
              do (val, cur) <- pv cur;
              if negb (valid val) then Ok (invalid_value, cur)
              else
                do (ok, cur) <- skip_ws cur;
                if negb ok then Ok (invalid_value, cur)
                else
                  let result := result ++ [val] in
                  do c <- deref cur;
                  if c =? 44 then do cur <- advance cur; array_loop f cur result
                  else array_close result cur
      end.
    (** parse_array, parser_impl.hpp:173-228 *)
    Definition parse_array (cur : bytes) : res (value * bytes) :=
      do c <- deref cur;
      if negb (c =? 91) then Ok (invalid_value, cur)
      else
        do cur <- advance cur;
        do (ok, cur) <- skip_ws cur;
        if negb ok then Ok (invalid_value, cur)
        else
          do c <- deref cur;
          if c =? 93 then do cur <- advance cur; Ok (v_array [], cur)
          else array_loop (S (length cur)) cur [].

    (** The member loop of parse_object, parser_impl.hpp:248-291 *)
    Fixpoint object_loop (fuel : nat) (cur : bytes) (result : object) : res (value * bytes) :=
      match fuel with
      | O => Fuel
      | S f =>
          do (ok, cur) <- skip_ws cur;
          if negb ok then Ok (invalid_value, cur)
          else
            do c <- deref cur;
            if jsonc && (c =? 125) then object_close result cur                     (* 254-258 *)
            else
              do (ko, cur) <- parse_stdstring be cur;
              match ko with
              | None => Ok (invalid_value, cur)
              | Some key =>
                  do (ok, cur) <- skip_ws cur;
                  if negb ok then Ok (invalid_value, cur)
                  else
                    do c <- deref cur;
                    if negb (c =? 58) then Ok (invalid_value, cur)
                    else
                      do cur <- advance cur;
                      do (ok, cur) <- skip_ws cur;
                      if negb ok then Ok (invalid_value, cur)
                      else
                        do (val, cur) <- pv cur;
                        if negb (valid val) then Ok (invalid_value, cur)
                        else
                          do (ok, cur) <- skip_ws cur;
                          if negb ok then Ok (invalid_value, cur)
                          else
                            let '(result, emplaced) := map_emplace key val result in
                            if negb emplaced then Ok (invalid_value, cur)
                            else
                              do c <- deref cur;
                              if c =? 44 then do cur <- advance cur; object_loop f cur result
                              else object_close result cur
              end
      end.
    (** parse_object, parser_impl.hpp:230-301 *)
    Definition parse_object (cur : bytes) : res (value * bytes) :=
      do c <- deref cur;
      if negb (c =? 123) then Ok (invalid_value, cur)
      else
        do cur <- advance cur;
        do (ok, cur) <- skip_ws cur;
        if negb ok then Ok (invalid_value, cur)
        else
          do c <- deref cur;
          if c =? 125 then do cur <- advance cur; Ok (v_object [], cur)
          else object_loop (S (length cur)) cur [].
  End Nested.

  (** parse_value, parser_impl.hpp:48-78. [d] is the remaining budget of nested
      parse_value activations. *)
  Fixpoint parse_value (d : nat) (cur : bytes) : res (value * bytes) :=
    match d with
    | O => Stack
    | S d' =>
        do c <- deref cur;
        if c =? 110 then parse_null cur
        else if (c =? 116) || (c =? 102) then parse_boolean cur
        else if (c =? 45) || isdigit c then parse_number cur
        else if c =? 34 then parse_string be cur
        else if c =? 91 then parse_array (parse_value d') cur
        else if c =? 123 then parse_object (parse_value d') cur
        else Ok (invalid_value, cur)
    end.

  (** parse(), parser_impl.hpp:17-46, with a recursion budget [d]. *)
  Definition parse_budget (d : nat) (cur : bytes) : res (option value) :=
    do (ok, cur) <- skip_ws cur;
    if negb ok then Ok None
    else
      do c <- deref cur;
      if (c =? 91) || (c =? 123) then
        do (v, cur) <- (if c =? 91 then parse_array (parse_value d) cur
                        else parse_object (parse_value d) cur);
        if negb (valid v) then Ok None
        else
          do (ok, _) <- skip_ws cur;
          if ok then Ok None else Ok (Some v)
      else Ok None.

  (** parser<accept_jsonc, parsing_t, accel_traits>::parse(content),
      parser_impl.hpp:12-15: the budget is the number of input bytes, shown
      sufficient in ParserProofs.v. *)
  Definition parse (s : bytes) : res (option value) := parse_budget (length s) s.
End Structure.

(** ** Public entry points *)
(** json::parse(content) and json::parsec(content), parser_impl.hpp:599-603, 646-650.
    [be] is the build-time backend, packed_bytes_trait_max. *)
Definition json_parse (be : backend) (s : bytes) : res (option value) := parse false be s.
Definition json_parsec (be : backend) (s : bytes) : res (option value) := parse true be s.
(** std::string_view { const char* }: the bytes before the first NUL. [buf] is the
    memory from the pointer on; without a NUL in it, strlen runs off: [Ub]. *)
Fixpoint cstr (buf : bytes) : res bytes :=
  match buf with
  | [] => Ub
  | c :: r => if c =? 0 then Ok [] else do s <- cstr r; Ok (c :: s)
  end.
(** parse(const char* ), parser_impl.hpp:605-608; parsec(const char* ), 652-655 *)
Definition json_parse_cstr (be : backend) (buf : bytes) : res (option value) :=
  do s <- cstr buf; json_parse be s.
Definition json_parsec_cstr (be : backend) (buf : bytes) : res (option value) :=
  do s <- cstr buf; json_parsec be s.
(** A std::istream as seen by parse: its whole content if it can be sought, or
    a stream on which seekg/tellg fail (failbit set, pipes): tellg returns -1. *)
Inductive stream : Type :=
| Seekable (content : bytes)
| Unseekable.
(** The BOM check, parser_impl.hpp:620-630 *)
Definition strip_bom (s : bytes) : bytes :=
  match s with
  | b0 :: b1 :: b2 :: r => if (b0 =? 239) && (b1 =? 187) && (b2 =? 191) then r else s
  | _ => s
  end.
(** parse(std::istream&, check_bom, with_comments), parser_impl.hpp:610-632.
    With tellg() == -1, std::string(size_t(-1), 0) at 616 throws std::length_error.
    Not modelled: text-mode translation (Windows), a file changing while it is read. *)
Definition json_parse_stream (be : backend) (check_bom with_comments : bool) (st : stream)
  : res (option value) :=
  match st with
  | Unseekable => Throw LengthError
  | Seekable s =>
      let s := if check_bom then strip_bom s else s in
      if with_comments then json_parsec be s else json_parse be s
  end.
(** open(path, ...), parser_impl.hpp:634-644; [file]: the stream if the file can be opened. *)
Definition json_open (be : backend) (check_bom with_comments : bool) (file : option stream)
  : res (option value) :=
  match file with
  | None => Ok None
  | Some st => json_parse_stream be check_bom with_comments st
  end.
(** optional<value>::value_or(value()) *)
Definition or_null (o : option value) : value := match o with Some v => v | None => v_null end.
(** operator""_json, _jvalue, parser_impl.hpp:659-667 (in the comment: two quotes) *)
Definition lit_jvalue (be : backend) (s : bytes) : res value :=
  do o <- json_parse be s; Ok (or_null o).
(** _jarray, parser_impl.hpp:669-673. is_array() is a test of the tag
    (value_impl.hpp:240-243), as_array() dereferences the pointer. *)
Definition lit_jarray (be : backend) (s : bytes) : res array :=
  do o <- json_parse be s;
  match or_null o with
  | VArr Tarray (Some l) => Ok l
  | VArr Tarray None => Ub
  | VStr Tarray _ | VObj Tarray _ => Throw BadVariant
  | _ => Ok []
  end.
(** _jobject, parser_impl.hpp:675-679 *)
Definition lit_jobject (be : backend) (s : bytes) : res object :=
  do o <- json_parse be s;
  match or_null o with
  | VObj Tobject (Some l) => Ok l
  | VObj Tobject None => Ub
  | VStr Tobject _ | VArr Tobject _ => Throw BadVariant
  | _ => Ok []
  end.
