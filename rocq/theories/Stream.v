(** * Streams: operator<< (value_impl.hpp:1122-1126, array_impl.hpp:424-428, object_impl.hpp:334-338), and
    parse(std::istream& ) and open (parser_impl.hpp:610-644) with the state of the stream.

    The standard library's part is [ostream_insert] (operator<< of std::string) and [seek_end], [tell], [seek_beg],
    [read_n] (members of std::istream), as the C++17 standard specifies them. Stream exceptions are off (the
    default; see StreamExc.v). Model only. *)
From Verif Require Import Base Value Packed Parser Dump.

(** ** Output *)
(** A std::ostream: what went into its buffer, the fields width, fill and adjustfield, its state, and how many bytes the buffer
    still takes ([None]: any number). *)
Record ostream : Type := {
  written : bytes;
  owidth : N;
  ofill : N;
  oleft : bool;                  (* adjustfield == left; otherwise padding comes first *)
  ogood : bool;
  oroom : option nat
}.
(** A stream on which nothing was written; with [room] = None a std::ostringstream after setw, setfill and left or right. *)
Definition fresh_out (w f : N) (left : bool) (room : option nat) : ostream :=
  {| written := []; owidth := w; ofill := f; oleft := left; ogood := true; oroom := room |}.
(** streambuf::sputn and the setting of badbit when it takes less than it is given *)
Definition put (t : bytes) (o : ostream) : ostream :=
  if negb (ogood o) then o
  else
    match oroom o with
    | None => {| written := written o ++ t; owidth := owidth o; ofill := ofill o; oleft := oleft o;
                 ogood := true; oroom := None |}
    | Some r => {| written := written o ++ firstn r t; owidth := owidth o; ofill := ofill o; oleft := oleft o;
                   ogood := (length t <=? r)%nat; oroom := Some (r - length t)%nat |}
    end.
Definition set_width (w : N) (o : ostream) : ostream :=
  {| written := written o; owidth := w; ofill := ofill o; oleft := oleft o; ogood := ogood o; oroom := oroom o |}.
(** operator<<(std::ostream&, const std::string& ) *)
Definition ostream_insert (t : bytes) (o : ostream) : ostream :=
  if negb (ogood o) then o
  else
    let pad := repeat (ofill o) (N.to_nat (owidth o) - length t) in
    let o := if oleft o then put pad (put t o) else put t (put pad o) in
    set_width 0 o.
(** [out << val.format()], value_impl.hpp:1122-1126; format() has indent = 4, value.hpp:413 *)
Definition insert_value (v : value) (o : ostream) : res ostream :=
  do t <- dumps (Some 4) v; Ok (ostream_insert t o).
(** array_impl.hpp:424-428, array.hpp:149 *)
Definition insert_array (l : array) (o : ostream) : res ostream :=
  do t <- array_dumps (Some 4) l; Ok (ostream_insert t o).
(** object_impl.hpp:334-338, object.hpp:105 *)
Definition insert_object (m : object) (o : ostream) : res ostream :=
  do t <- object_dumps (Some 4) m; Ok (ostream_insert t o).
(** [out << a << b << ...] *)
Fixpoint insert_all (l : list value) (o : ostream) : res ostream :=
  match l with
  | [] => Ok o
  | v :: l => do o <- insert_value v o; insert_all l o
  end.

(** ** Input *)
(** A std::istream over a file of [isize] bytes. [ideliver] is what read delivers from the beginning of the file to
    its end: in text mode on Windows, and of a file that was cut after its size was asked for, it
    is less than the file's size. *)
Record istream : Type := {
  isize : nat;
  ideliver : bytes;
  ipos : nat;                    (* how much of [ideliver] was read *)
  ieof : bool;
  ifail : bool;                  (* failbit or badbit *)
  iseekable : bool
}.
Definition with_state (pos : nat) (e f : bool) (i : istream) : istream :=
  {| isize := isize i; ideliver := ideliver i; ipos := pos; ieof := e; ifail := f; iseekable := iseekable i |}.
(** seekg(0, std::ios::end): clears eofbit; then nothing if fail(); failbit if the buffer cannot seek *)
Definition seek_end (i : istream) : istream :=
  if ifail i then with_state (ipos i) false true i
  else if iseekable i then with_state (length (ideliver i)) false false i
  else with_state (ipos i) false true i.
(** seekg(0, std::ios::beg) *)
Definition seek_beg (i : istream) : istream :=
  if ifail i then with_state (ipos i) false true i
  else if iseekable i then with_state 0 false false i
  else with_state (ipos i) false true i.
(** tellg() behind the last byte: -1 ([None]) if fail() *)
Definition tell_end (i : istream) : option nat := if ifail i then None else Some (isize i).
(** read(buf, n): the bytes delivered; eofbit and failbit if they are fewer than [n] *)
Definition read_n (n : nat) (i : istream) : bytes * istream :=
  if ifail i || ieof i then ([], with_state (ipos i) (ieof i) true i)
  else
    let got := firstn n (skipn (ipos i) (ideliver i)) in
    let short := (length got <? n)%nat in
    (got, with_state (ipos i + length got) short short i).
(** parse(std::istream&, check_bom, with_comments), parser_impl.hpp:610-632: the outcome, and what it leaves of the stream.
    std::string(file_size, 0) is overwritten from its start by what read delivers. *)
Definition parse_istream (be : backend) (check_bom with_comments : bool) (i : istream)
  : res (option value) * istream :=
  let i := seek_end i in
  let size := tell_end i in
  let i := seek_beg i in
  match size with
  | None => (Throw LengthError, i)
  | Some n =>
      let '(got, i) := read_n n i in
      let s := got ++ repeat 0 (n - length got) in
      let s := if check_bom then strip_bom s else s in
      ((if with_comments then json_parsec be s else json_parse be s), i)
  end.

(** What text mode on Windows delivers of a file: CR LF becomes LF (Ctrl-Z, which ends the text there, is left out). *)
Fixpoint crlf (s : bytes) : bytes :=
  match s with
  | [] => []
  | c :: r => if (c =? 13) && match r with d :: _ => d =? 10 | [] => false end then crlf r else c :: crlf r
  end.
(** What text mode on Windows stores of a text: LF becomes CR LF. *)
Fixpoint to_disk (s : bytes) : bytes :=
  match s with
  | [] => []
  | c :: r => if c =? 10 then 13 :: 10 :: to_disk r else c :: to_disk r
  end.
(** std::ifstream ifs(path, std::ios::in), parser_impl.hpp:637, on a file with these bytes *)
Definition opened (text : bool) (s : bytes) : istream :=
  {| isize := length s; ideliver := if text then crlf s else s; ipos := 0; ieof := false; ifail := false;
     iseekable := true |}.
(** open(path, ...), parser_impl.hpp:634-644, on a file with these bytes *)
Definition open_file (be : backend) (check_bom with_comments text : bool) (s : bytes) : res (option value) :=
  fst (parse_istream be check_bom with_comments (opened text s)).
