(** * Independent specification: JSON (RFC 8259), JSONC, UTF-8, well-formed values.

    Nothing here refers to the parser or the serializer. *)
From Verif Require Import Base Value.

(** ** Abstract JSON documents; members in source order. *)
Inductive json : Type :=
| JNull
| JBool (b : bool)
| JNum (lexeme : bytes)
| JStr (s : bytes)
| JArr (l : list json)
| JObj (m : list (bytes * json)).

(** Strict unsigned lexicographic order on byte strings. *)
Inductive blt : bytes -> bytes -> Prop :=
| blt_nil c s : blt [] (c :: s)
| blt_lt c1 c2 s1 s2 : c1 < c2 -> blt (c1 :: s1) (c2 :: s2)
| blt_eq c s1 s2 : blt s1 s2 -> blt (c :: s1) (c :: s2).

(** Members sorted by name: insertion sort. *)
Section SortMembers.
  Context {A : Type}.
  Fixpoint insert_member (k : bytes) (v : A) (m : list (bytes * A)) : list (bytes * A) :=
    match m with
    | [] => [(k, v)]
    | (k', v') :: m' => if bytes_ltb k k' then (k, v) :: m else (k', v') :: insert_member k v m'
    end.
  Fixpoint sort_members (m : list (bytes * A)) : list (bytes * A) :=
    match m with
    | [] => []
    | (k, v) :: m' => insert_member k v (sort_members m')
    end.
End SortMembers.

(** The in-memory value a document denotes. *)
Fixpoint inject (j : json) : value :=
  match j with
  | JNull => VStr Tnull []
  | JBool b => VStr Tboolean (of_string (if b then "true" else "false"))
  | JNum s => VStr Tnumber s
  | JStr s => VStr Tstring s
  | JArr l => VArr Tarray (Some (map inject l))
  | JObj m => VObj Tobject (Some (sort_members (map (fun kv => (fst kv, inject (snd kv))) m)))
  end.

(** Nesting depth. *)
Fixpoint depth (j : json) : nat :=
  match j with
  | JArr l => S (fold_right (fun x n => Nat.max (depth x) n) O l)
  | JObj m => S (fold_right (fun kv n => Nat.max (depth (snd kv)) n) O m)
  | _ => 1%nat
  end.

(** ** Numbers (RFC 8259 section 6) *)
Definition digit (c : N) : Prop := 48 <= c <= 57.
Inductive gint : bytes -> Prop :=
| gint_zero : gint [48]
| gint_pos c ds : 49 <= c <= 57 -> Forall digit ds -> gint (c :: ds).
Inductive gfrac : bytes -> Prop :=
| gfrac_none : gfrac []
| gfrac_some c ds : digit c -> Forall digit ds -> gfrac (46 :: c :: ds).
Inductive gexp : bytes -> Prop :=
| gexp_none : gexp []
| gexp_some e sg c ds : (e = 101 \/ e = 69) -> (sg = [] \/ sg = [43] \/ sg = [45]) ->
    digit c -> Forall digit ds -> gexp (e :: sg ++ c :: ds).
Inductive gnumber : bytes -> Prop :=
| gnumber_intro m i f e : (m = [] \/ m = [45]) -> gint i -> gfrac f -> gexp e ->
    gnumber (m ++ i ++ f ++ e).

(** ** UTF-8 (RFC 3629), by arithmetic *)
Definition utf8 (cp : N) : bytes :=
  if cp <? 128 then [cp]
  else if cp <? 2048 then [192 + cp / 64; 128 + cp mod 64]
  else if cp <? 65536 then [224 + cp / 4096; 128 + cp / 64 mod 64; 128 + cp mod 64]
  else [240 + cp / 262144; 128 + cp / 4096 mod 64; 128 + cp / 64 mod 64; 128 + cp mod 64].
Definition high_surrogate (c : N) : Prop := 55296 <= c <= 56319.   (* D800-DBFF *)
Definition low_surrogate (c : N) : Prop := 56320 <= c <= 57343.    (* DC00-DFFF *)
Definition surrogate (c : N) : Prop := 55296 <= c <= 57343.
Definition scalar_value (c : N) : Prop := c <= 1114111 /\ ~ surrogate c.
(** Valid UTF-8: a sequence of encoded scalar values. *)
Definition utf8_valid (s : bytes) : Prop :=
  exists cps, Forall scalar_value cps /\ s = concat (map utf8 cps).

(** ** Strings (RFC 8259 section 7) *)
Inductive hexdig : N -> N -> Prop :=                       (* character, value *)
| hex_dec c : 48 <= c <= 57 -> hexdig c (c - 48)
| hex_low c : 97 <= c <= 102 -> hexdig c (c - 87)
| hex_up c : 65 <= c <= 70 -> hexdig c (c - 55).
Inductive hex4 : bytes -> N -> Prop :=
| hex4_intro a b c d a' b' c' d' :
    hexdig a a' -> hexdig b b' -> hexdig c c' -> hexdig d d' ->
    hex4 [a; b; c; d] (a' * 4096 + b' * 256 + c' * 16 + d').
Inductive esc : N -> N -> Prop :=                          (* letter, denoted byte *)
| esc_quote : esc 34 34 | esc_back : esc 92 92 | esc_slash : esc 47 47
| esc_b : esc 98 8 | esc_f : esc 102 12 | esc_n : esc 110 10
| esc_r : esc 114 13 | esc_t : esc 116 9.
(** a character that stands for itself *)
Definition unescaped (c : N) : Prop := 32 <= c /\ c <> 34 /\ c <> 92.

(** [gchars t s]: the text [t] between the quotes denotes the byte string [s].
    Surrogate escapes only as an adjacent high-low pair. *)
Inductive gchars : bytes -> bytes -> Prop :=
| gc_nil : gchars [] []
| gc_raw c t s : unescaped c -> gchars t s -> gchars (c :: t) (c :: s)
| gc_esc l c t s : esc l c -> gchars t s -> gchars (92 :: l :: t) (c :: s)
| gc_uni h cp t s : hex4 h cp -> ~ surrogate cp -> gchars t s ->
    gchars (92 :: 117 :: h ++ t) (utf8 cp ++ s)
| gc_pair h1 hi h2 lo t s :
    hex4 h1 hi -> hex4 h2 lo -> high_surrogate hi -> low_surrogate lo -> gchars t s ->
    gchars (92 :: 117 :: h1 ++ 92 :: 117 :: h2 ++ t)
           (utf8 (65536 + (hi - 55296) * 1024 + (lo - 56320)) ++ s).
Definition gstring (t s : bytes) : Prop := exists body, t = 34 :: body ++ [34] /\ gchars body s.

(** [lchars raw ph t s]: what the implementation accepts. [ph] is the pending high
    surrogate, if any. Non-surrogate unicode escapes may stand between the two
    halves of a pair; with [raw] even plain characters may. *)
Inductive lchars (raw : bool) : option N -> bytes -> bytes -> Prop :=
| lc_nil : lchars raw None [] []
| lc_raw ph c t s : unescaped c -> (ph = None \/ raw = true) -> lchars raw ph t s ->
    lchars raw ph (c :: t) (c :: s)
| lc_esc l c t s : esc l c -> lchars raw None t s -> lchars raw None (92 :: l :: t) (c :: s)
| lc_uni ph h cp t s : hex4 h cp -> ~ surrogate cp -> lchars raw ph t s ->
    lchars raw ph (92 :: 117 :: h ++ t) (utf8 cp ++ s)
| lc_high h hi t s : hex4 h hi -> high_surrogate hi -> lchars raw (Some hi) t s ->
    lchars raw None (92 :: 117 :: h ++ t) s
| lc_low hi h lo t s : hex4 h lo -> low_surrogate lo -> lchars raw None t s ->
    lchars raw (Some hi) (92 :: 117 :: h ++ t)
           (utf8 (65536 + (hi - 55296) * 1024 + (lo - 56320)) ++ s).
Definition lstring (raw : bool) (t s : bytes) : Prop :=
  exists body, t = 34 :: body ++ [34] /\ lchars raw None body s.

(** Every escape of a high surrogate in the text is directly followed by one of a low surrogate. *)
Definition surrogates_paired (s : bytes) : Prop :=
  forall a h hi b, s = a ++ 92 :: 117 :: h ++ b -> hex4 h hi -> high_surrogate hi ->
  exists h2 lo b', b = 92 :: 117 :: h2 ++ b' /\ hex4 h2 lo /\ low_surrogate lo.

(** ** White space *)
Definition wschar (c : N) : Prop := c = 32 \/ c = 9 \/ c = 10 \/ c = 13.
Definition ws (w : bytes) : Prop := Forall wschar w.
(** comment bodies *)
Definition no_newline (b : bytes) : Prop := ~ In 10 b.
Definition no_close (b : bytes) : Prop := forall x y, b <> x ++ [42; 47] ++ y.
(** JSONC white space: white space characters, line comments with their newline, block comments *)
Inductive cws : bytes -> Prop :=
| cws_nil : cws []
| cws_char c w : wschar c -> cws w -> cws (c :: w)
| cws_line b w : no_newline b -> cws w -> cws ([47; 47] ++ b ++ [10] ++ w)
| cws_block b w : no_close b -> cws w -> cws ([47; 42] ++ b ++ [42; 47] ++ w).
Definition wsp (jsonc : bool) : bytes -> Prop := if jsonc then cws else ws.

(** ** Values. Parameters: white space, string literals, trailing commas. *)
Section Grammar.
  Context (W : bytes -> Prop) (STR : bytes -> bytes -> Prop) (tc : bool).
  Inductive gvalue : bytes -> json -> Prop :=
  | gv_null : gvalue (of_string "null") JNull
  | gv_true : gvalue (of_string "true") (JBool true)
  | gv_false : gvalue (of_string "false") (JBool false)
  | gv_num s : gnumber s -> gvalue s (JNum s)
  | gv_str t s : STR t s -> gvalue t (JStr s)
  | gv_arr0 w : W w -> gvalue ([91] ++ w ++ [93]) (JArr [])
  | gv_arr t l : gelems t l -> gvalue ([91] ++ t ++ [93]) (JArr l)
  | gv_obj0 w : W w -> gvalue ([123] ++ w ++ [125]) (JObj [])
  | gv_obj t m : gmembers t m -> gvalue ([123] ++ t ++ [125]) (JObj m)
  with gelems : bytes -> list json -> Prop :=
  | ge_last w1 t w2 j : W w1 -> gvalue t j -> W w2 -> gelems (w1 ++ t ++ w2) [j]
  | ge_trail w1 t w2 w3 j : tc = true -> W w1 -> gvalue t j -> W w2 -> W w3 ->
      gelems (w1 ++ t ++ w2 ++ [44] ++ w3) [j]
  | ge_cons w1 t w2 j ts l : W w1 -> gvalue t j -> W w2 -> gelems ts l ->
      gelems (w1 ++ t ++ w2 ++ [44] ++ ts) (j :: l)
  with gmembers : bytes -> list (bytes * json) -> Prop :=
  | gm_last w1 kt w2 w3 t w4 k j :
      W w1 -> STR kt k -> W w2 -> W w3 -> gvalue t j -> W w4 ->
      gmembers (w1 ++ kt ++ w2 ++ [58] ++ w3 ++ t ++ w4) [(k, j)]
  | gm_trail w1 kt w2 w3 t w4 w5 k j :
      tc = true -> W w1 -> STR kt k -> W w2 -> W w3 -> gvalue t j -> W w4 -> W w5 ->
      gmembers (w1 ++ kt ++ w2 ++ [58] ++ w3 ++ t ++ w4 ++ [44] ++ w5) [(k, j)]
  | gm_cons w1 kt w2 w3 t w4 k j ts m :
      W w1 -> STR kt k -> W w2 -> W w3 -> gvalue t j -> W w4 -> gmembers ts m ->
      gmembers (w1 ++ kt ++ w2 ++ [58] ++ w3 ++ t ++ w4 ++ [44] ++ ts) ((k, j) :: m).
End Grammar.

(** No object has two members of the same name. *)
Inductive distinct : json -> Prop :=
| dn_null : distinct JNull
| dn_bool b : distinct (JBool b)
| dn_num s : distinct (JNum s)
| dn_str s : distinct (JStr s)
| dn_arr l : Forall distinct l -> distinct (JArr l)
| dn_obj m : NoDup (map fst m) -> Forall (fun kv => distinct (snd kv)) m -> distinct (JObj m).

Definition container (j : json) : Prop :=
  match j with JArr _ | JObj _ => True | _ => False end.

(** RFC 8259 documents with an array or object root and paired surrogates. *)
Definition rfc_document (s : bytes) (j : json) : Prop :=
  exists w1 t w2, s = w1 ++ t ++ w2 /\ ws w1 /\ ws w2 /\ container j /\ gvalue ws gstring false t j.
(** JSONC documents; the last line comment may end at the end of the text. *)
Definition tail_comment (w : bytes) : Prop :=
  w = [] \/ exists b, w = [47; 47] ++ b /\ no_newline b.
Definition jsonc_document (s : bytes) (j : json) : Prop :=
  exists w1 t w2 e, s = w1 ++ t ++ w2 ++ e /\ cws w1 /\ cws w2 /\ tail_comment e /\
    container j /\ gvalue cws gstring true t j.

(** The texts in which the implementation stops looking after the root value
    (besides the end): what it takes for the end of the document. *)
Definition strict_stop (e : bytes) : Prop :=
  e = [] \/ exists r, e = 0 :: r \/ e = 47 :: r.
Definition jsonc_stop (e : bytes) : Prop :=
  e = [] \/ (exists r, e = 0 :: r) \/
  (exists b, e = [47; 47] ++ b /\ no_newline b) \/       (* comment ends with the text *)
  e = [47] \/ (exists c r, e = 47 :: c :: r /\ c <> 47 /\ c <> 42) \/
  (exists b, e = [47; 42] ++ b /\ no_close b).            (* unterminated comment *)
Definition stop (jsonc : bool) : bytes -> Prop := if jsonc then jsonc_stop else strict_stop.

(** The documents the implementation accepts when names are distinct, up to [raw] (see [lchars]). *)
Definition accepted_document (jsonc raw : bool) (s : bytes) (j : json) : Prop :=
  exists w1 t w2 e, s = w1 ++ t ++ w2 ++ e /\ wsp jsonc w1 /\ wsp jsonc w2 /\ stop jsonc e /\
    container j /\ gvalue (wsp jsonc) (lstring raw) jsonc t j.

(** ** What the builds with block scans accept. A block scan reads [st] bytes at a time and needs that many up to the
    end of the text, so that it matters how many bytes follow. *)
(** [bchars big st n ph t s]: as [lchars], [n] bytes follow after [t]. Between the halves of a pair, plain characters are
    taken if they lie in the whole blocks that fit into the text from the end of the last escape on. [big]: words of a
    big-endian machine, whose flag for a backslash spreads to a closing bracket in front of it in the same block. *)
Inductive bchars (big : bool) (st n : nat) : option N -> bytes -> bytes -> Prop :=
| bc_nil : bchars big st n None [] []
| bc_raw c t s : unescaped c -> bchars big st n None t s -> bchars big st n None (c :: t) (c :: s)
| bc_esc l c t s : esc l c -> bchars big st n None t s -> bchars big st n None (92 :: l :: t) (c :: s)
| bc_uni ph h cp t s : hex4 h cp -> ~ surrogate cp -> bchars big st n ph t s ->
    bchars big st n ph (92 :: 117 :: h ++ t) (utf8 cp ++ s)
| bc_high h hi t s : hex4 h hi -> high_surrogate hi -> bchars big st n (Some hi) t s ->
    bchars big st n None (92 :: 117 :: h ++ t) s
| bc_low hi h lo t s : hex4 h lo -> low_surrogate lo -> bchars big st n None t s ->
    bchars big st n (Some hi) (92 :: 117 :: h ++ t)
           (utf8 (65536 + (hi - 55296) * 1024 + (lo - 56320)) ++ s)
| bc_block hi x t s : Forall unescaped x ->
    (length x <= st * ((length (x ++ 92%N :: t) + n) / st))%nat ->
    (big = true -> last x 0 = 93 -> (length x mod st = 0)%nat) ->
    bchars big st n (Some hi) (92 :: t) s -> bchars big st n (Some hi) (x ++ 92 :: t) (x ++ s).
(** a literal followed by [n] bytes *)
Definition bstring (big : bool) (st n : nat) (t s : bytes) : Prop :=
  exists body, t = 34 :: body ++ [34] /\ bchars big st (S n) None body s.

(** The grammar above for literals that depend on how many bytes follow: [pvalue n t j] says that [t], with [n] bytes
    after it, stands for [j]. *)
Section Positions.
  Context (W : bytes -> Prop) (STR : nat -> bytes -> bytes -> Prop) (tc : bool).
  Inductive pvalue : nat -> bytes -> json -> Prop :=
  | pv_null n : pvalue n (of_string "null") JNull
  | pv_true n : pvalue n (of_string "true") (JBool true)
  | pv_false n : pvalue n (of_string "false") (JBool false)
  | pv_num n s : gnumber s -> pvalue n s (JNum s)
  | pv_str n t s : STR n t s -> pvalue n t (JStr s)
  | pv_arr0 n w : W w -> pvalue n ([91] ++ w ++ [93]) (JArr [])
  | pv_arr n t l : pelems (S n) t l -> pvalue n ([91] ++ t ++ [93]) (JArr l)
  | pv_obj0 n w : W w -> pvalue n ([123] ++ w ++ [125]) (JObj [])
  | pv_obj n t m : pmembers (S n) t m -> pvalue n ([123] ++ t ++ [125]) (JObj m)
  with pelems : nat -> bytes -> list json -> Prop :=
  | pe_last n w1 t w2 j : W w1 -> pvalue (length w2 + n) t j -> W w2 -> pelems n (w1 ++ t ++ w2) [j]
  | pe_trail n w1 t w2 w3 j : tc = true -> W w1 -> pvalue (length (w2 ++ [44] ++ w3) + n) t j -> W w2 -> W w3 ->
      pelems n (w1 ++ t ++ w2 ++ [44] ++ w3) [j]
  | pe_cons n w1 t w2 j ts l : W w1 -> pvalue (length (w2 ++ [44] ++ ts) + n) t j -> W w2 -> pelems n ts l ->
      pelems n (w1 ++ t ++ w2 ++ [44] ++ ts) (j :: l)
  with pmembers : nat -> bytes -> list (bytes * json) -> Prop :=
  | pm_last n w1 kt w2 w3 t w4 k j :
      W w1 -> STR (length (w2 ++ [58] ++ w3 ++ t ++ w4) + n) kt k -> W w2 -> W w3 ->
      pvalue (length w4 + n) t j -> W w4 ->
      pmembers n (w1 ++ kt ++ w2 ++ [58] ++ w3 ++ t ++ w4) [(k, j)]
  | pm_trail n w1 kt w2 w3 t w4 w5 k j :
      tc = true -> W w1 -> STR (length (w2 ++ [58] ++ w3 ++ t ++ w4 ++ [44] ++ w5) + n) kt k -> W w2 -> W w3 ->
      pvalue (length (w4 ++ [44] ++ w5) + n) t j -> W w4 -> W w5 ->
      pmembers n (w1 ++ kt ++ w2 ++ [58] ++ w3 ++ t ++ w4 ++ [44] ++ w5) [(k, j)]
  | pm_cons n w1 kt w2 w3 t w4 k j ts m :
      W w1 -> STR (length (w2 ++ [58] ++ w3 ++ t ++ w4 ++ [44] ++ ts) + n) kt k -> W w2 -> W w3 ->
      pvalue (length (w4 ++ [44] ++ ts) + n) t j -> W w4 -> pmembers n ts m ->
      pmembers n (w1 ++ kt ++ w2 ++ [58] ++ w3 ++ t ++ w4 ++ [44] ++ ts) ((k, j) :: m).
  (** documents: [stop] says where the implementation stops looking *)
  Definition pdocument (stop : bytes -> Prop) (s : bytes) (j : json) : Prop :=
    exists w1 t w2 e, s = w1 ++ t ++ w2 ++ e /\ W w1 /\ W w2 /\ stop e /\ container j /\
      pvalue (length (w2 ++ e)) t j.
End Positions.
(** The documents that builds with blocks of [st] bytes accept when names are distinct. *)
Definition block_document (jsonc big : bool) (st : nat) : bytes -> json -> Prop :=
  pdocument (wsp jsonc) (bstring big st) jsonc (stop jsonc).

(** ** Well-formed values: tag and payload agree, no null pointer, names strictly sorted,
    booleans and numbers have proper texts, at every depth. *)
Inductive sorted_keys {A : Type} : list (bytes * A) -> Prop :=
| sk_nil : sorted_keys []
| sk_one k v : sorted_keys [(k, v)]
| sk_cons k v k' v' m : blt k k' -> sorted_keys ((k', v') :: m) ->
    sorted_keys ((k, v) :: (k', v') :: m).
Inductive wf : value -> Prop :=
| wf_null : wf (VStr Tnull [])
| wf_bool b : wf (VStr Tboolean (of_string (if b : bool then "true" else "false")))
| wf_num s : gnumber s -> wf (VStr Tnumber s)
| wf_str s : wf (VStr Tstring s)
| wf_arr l : Forall wf l -> wf (VArr Tarray (Some l))
| wf_obj m : Forall (fun kv => wf (snd kv)) m -> sorted_keys m -> wf (VObj Tobject (Some m)).

Definition root (v : value) : Prop := (exists l, v = VArr Tarray (Some l)) \/ exists m, v = VObj Tobject (Some m).

(** Every string and every member name, at every depth. *)
Inductive all_strings (P : bytes -> Prop) : json -> Prop :=
| as_null : all_strings P JNull
| as_bool b : all_strings P (JBool b)
| as_num s : all_strings P (JNum s)
| as_str s : P s -> all_strings P (JStr s)
| as_arr l : Forall (all_strings P) l -> all_strings P (JArr l)
| as_obj m : Forall (fun kv => P (fst kv) /\ all_strings P (snd kv)) m -> all_strings P (JObj m).
Inductive all_vstrings (P : bytes -> Prop) : value -> Prop :=
| avs_other t s : t <> Tstring -> all_vstrings P (VStr t s)
| avs_str s : P s -> all_vstrings P (VStr Tstring s)
| avs_arr t l : Forall (all_vstrings P) l -> all_vstrings P (VArr t (Some l))
| avs_obj t m : Forall (fun kv => P (fst kv) /\ all_vstrings P (snd kv)) m -> all_vstrings P (VObj t (Some m)).

(** [x] occurs in [t]. *)
Definition infix (x t : bytes) : Prop := exists a b, t = a ++ x ++ b.

(** ** Bytes and block scans *)
Definition is_byte (c : N) : Prop := c < 256.
(** bytes at which a string scan has to stop *)
Definition special (c : N) : Prop := c < 32 \/ c = 34 \/ c = 92.
(** [scan_spec blk r]: r = None means nothing special in the block; Some i lies inside
    the block and nothing special lies before it. [scan_exact]: moreover i is special. *)
Definition scan_spec (blk : bytes) (r : option N) : Prop :=
  match r with
  | None => Forall (fun c => ~ special c) blk
  | Some i => (N.to_nat i < length blk)%nat /\ Forall (fun c => ~ special c) (firstn (N.to_nat i) blk)
  end.
Definition scan_exact (blk : bytes) (r : option N) : Prop :=
  match r with
  | None => Forall (fun c => ~ special c) blk
  | Some i => exists c, nth_error blk (N.to_nat i) = Some c /\ special c
                /\ Forall (fun c => ~ special c) (firstn (N.to_nat i) blk)
  end.

(** Words of a big-endian machine: a run of the byte one above (space, number sign, closing bracket) that ends in a byte to
    stop at is flagged as a whole. [flagged s]: so is the first byte of [s]. *)
Definition flagged (s : bytes) : Prop :=
  exists e k c r, s = repeat e k ++ c :: r /\ ((e = 32 /\ c < 32) \/ (e = 35 /\ c = 34) \/ (e = 93 /\ c = 92)).
Definition scan_big (blk : bytes) (r : option N) : Prop :=
  match r with
  | None => forall i, ~ flagged (skipn i blk)
  | Some i => flagged (skipn (N.to_nat i) blk) /\ forall k, (k < N.to_nat i)%nat -> ~ flagged (skipn k blk)
  end.

(** ** Insignificant white space: everything white outside string literals. *)
Inductive lexst : Type := Outside | Inside | Escaped.
Fixpoint compact (st : lexst) (s : bytes) : bytes :=
  match s with
  | [] => []
  | c :: r =>
      match st with
      | Outside =>
          if (c =? 32) || (c =? 9) || (c =? 10) || (c =? 13) then compact Outside r
          else c :: compact (if c =? 34 then Inside else Outside) r
      | Inside => c :: compact (if c =? 34 then Outside else if c =? 92 then Escaped else Inside) r
      | Escaped => c :: compact Inside r
      end
  end.
