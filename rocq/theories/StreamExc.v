(** * Streams whose exceptions are on: operator<< and parse(std::istream& ) of Stream.v for streams on which the program
    called exceptions(mask).

    A member that sets a bit of the mask, or clears bits while one of the mask stays set (std::basic_ios::clear), throws
    std::ios_base::failure, which nothing in the library catches. Simplified: failbit and badbit are one, in the state
    ([ifail], [ogood]) and in the mask. Model only. *)
From Verif Require Import Base Value Packed Parser Dump Stream.

(** exceptions(): eofbit, and failbit with badbit *)
Record mask : Type := { on_eof : bool; on_fail : bool }.
Definition no_mask : mask := {| on_eof := false; on_fail := false |}.
(** how a call ends *)
Inductive ends (A : Type) : Type := Gave (r : res A) | Failure.
Arguments Gave {A} r.
Arguments Failure {A}.

(** ** Input: parse(std::istream&, check_bom, with_comments), parser_impl.hpp:610-632 *)
(** what clear(state) looks at *)
Definition raises (m : mask) (i : istream) : bool := (on_eof m && ieof i) || (on_fail m && ifail i).
Definition parse_istream_exc (m : mask) (be : backend) (check_bom with_comments : bool) (i : istream)
  : ends (option value) * istream :=
  let i := seek_end i in                                   (* clears eofbit; may set failbit *)
  if raises m i then (Failure, i)
  else
    let size := tell_end i in                              (* of a failed stream: sets failbit again *)
    if raises m i then (Failure, i)
    else
      let i := seek_beg i in
      if raises m i then (Failure, i)
      else
        match size with
        | None => (Gave (Throw LengthError), i)
        | Some n =>
            let '(got, i) := read_n n i in
            if raises m i then (Failure, i)
            else
              let s := got ++ repeat 0 (n - length got) in
              let s := if check_bom then strip_bom s else s in
              (Gave (if with_comments then json_parsec be s else json_parse be s), i)
        end.

(** ** Output: operator<<, value_impl.hpp:1122-1126; format() is called before the stream is touched. The width is reset last,
    so an exception leaves it as it was (libstdc++). *)
Definition raises_out (m : mask) (o : ostream) : bool := on_fail m && negb (ogood o).
Definition insert_exc (m : mask) (t : bytes) (o : ostream) : ends unit * ostream :=
  if negb (ogood o) then ((if on_fail m then Failure else Gave (Ok tt)), o)   (* the sentry sets failbit *)
  else
    let pad := repeat (ofill o) (N.to_nat (owidth o) - length t) in
    let '(a, b) := if oleft o then (t, pad) else (pad, t) in
    let o := put a o in
    if raises_out m o then (Failure, o)
    else
      let o := put b o in
      if raises_out m o then (Failure, o) else (Gave (Ok tt), set_width 0 o).
Definition insert_value_exc (m : mask) (v : value) (o : ostream) : ends unit * ostream :=
  match dumps (Some 4) v with
  | Ok t => insert_exc m t o
  | Throw e => (Gave (Throw e), o)
  | Ub => (Gave Ub, o)
  | Stack => (Gave Stack, o)
  | Fuel => (Gave Fuel, o)
  end.
