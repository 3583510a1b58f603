(** * Block-scan backends: include/parser/packed_bytes*.hpp, bitops.hpp

    Every backend provides [step], [load_unaligned], [less], [equal],
    [bitwise_or], [is_all_zero] and [first_nonzero_byte]; the parser combines
    them in [skip_string_literal_with_accel] (parser_impl.hpp:471-485). *)
From Verif Require Import Base.

(** ** Word backends (packed_bytes.hpp:43-128)

    [w] is the word width in bytes (8 or 4). All arithmetic is modulo 2^(8w). *)
Section Word.
  Context (w : nat) (little : bool).   (* little: endianness of the machine *)

  Definition wbits : N := 8 * N.of_nat w.
  Definition wmod : N := 2 ^ wbits.
  Definition wtrunc (x : N) : N := x mod wmod.
  (** unsigned subtraction with wrap-around; operands are below 2^bits *)
  Definition wsub (x y : N) : N := (x + wmod - y) mod wmod.
  (** bitwise complement *)
  Definition wnot (x : N) : N := N.lxor x (N.ones wbits).

  (** memcpy of w bytes into an integer, packed_bytes.hpp:49-54, 92-97. The first
      byte in memory is the least significant one on a little-endian machine. *)
  Fixpoint le_word (bs : bytes) : N :=
    match bs with [] => 0 | b :: r => b + 256 * le_word r end.
  Definition load (bs : bytes) : N := le_word (if little then bs else rev bs).

  (** 0x0101...01: UINT64_C(0x0101010101010101) for w=8 (packed_bytes.hpp:58,63,70);
      for w=4 written ~UINT32_C(0)/255 (101,114) or 0x01010101 (106). *)
  Definition ones_word : N := (wmod - 1) / 255.
  (** 0x8080...80; for w=4 also written ~UINT32_C(0)/255*128 (101) *)
  Definition highs_word : N := ones_word * 128.

  (** packed_bytes.hpp:56-59 and 99-102 *)
  Definition w_less (x n : N) : N :=
    N.land (N.land (wsub x (wtrunc (ones_word * n))) (wnot x)) highs_word.
  (** packed_bytes.hpp:61-64 and 104-108 *)
  Definition w_is_zero_memberwise (v : N) : N :=
    N.land (N.land (wsub v ones_word) (wnot v)) highs_word.
  (** packed_bytes.hpp:66, 110 *)
  Definition w_is_all_zero (v : N) : bool := v =? 0.
  (** packed_bytes.hpp:68-71, 112-115 *)
  Definition w_equal (x n : N) : N :=
    w_is_zero_memberwise (N.lxor x (wtrunc (ones_word * n))).
  (** packed_bytes.hpp:73, 117 *)
  Definition w_or (a b : N) : N := N.lor a b.

  (** bitops.hpp:37-56 [countr_zero]: number of trailing zero bits, the width if x = 0 *)
  Fixpoint ctz_pos (p : positive) : N :=
    match p with xO p' => 1 + ctz_pos p' | _ => 0 end.
  Definition countr_zero (x : N) : N :=
    match x with 0 => wbits | Npos p => ctz_pos p end.
  (** bitops.hpp:26-51 [countl_zero]: leading zero bits in a word of wbits bits *)
  Definition countl_zero (x : N) : N := wbits - N.size x.
  (** packed_bytes.hpp:75-83, 119-127 *)
  Definition w_first_nonzero (x : N) : N :=
    if little then countr_zero x / 8 else countl_zero x / 8.

  (** The scan of one block, parser_impl.hpp:472-484: [None] when the block has
      no flagged byte ([is_all_zero]), else the index to advance by. *)
  Definition w_scan (blk : bytes) : option N :=
    let pack := load blk in
    let result := w_less pack 32 in
    let result := w_or result (w_equal pack 34) in
    let result := w_or result (w_equal pack 92) in
    if w_is_all_zero result then None else Some (w_first_nonzero result).
End Word.

(** ** SIMD backends: a vector register is a list of 8-bit lanes. *)
Section Simd.
  (** number of mask bits the backend's [first_nonzero_byte] works on *)
  Definition lanes := list N.
  Definition set1 (l : lanes) (n : N) : lanes := map (fun _ => n) l.        (* _mm_set1_epi8 *)
  Fixpoint map2 (f : N -> N -> N) (a b : lanes) : lanes :=
    match a, b with x :: a', y :: b' => f x y :: map2 f a' b' | _, _ => [] end.
  Definition max_epu8 := map2 N.max.                                          (* _mm_max_epu8 *)
  Definition cmpeq_epi8 := map2 (fun x y => if x =? y then 255 else 0).       (* _mm_cmpeq_epi8 *)
  Definition andnot := map2 (fun x y => N.land (N.lxor x 255) y).             (* _mm_andnot_si128 *)
  Definition or_si := map2 N.lor.                                             (* _mm_or_si128 *)
  (** _mm_movemask_epi8: bit i is the top bit of lane i *)
  Fixpoint movemask (l : lanes) : N :=
    match l with [] => 0 | x :: r => N.b2n (N.testbit x 7) + 2 * movemask r end.
  (** bitops.hpp:112-125 [countr_one(x) = countr_zero(~x)] on a word of [bits] bits.
      Written as the trailing-ones count, [bits] when all of them are set. *)
  Fixpoint countr_one (bits : nat) (x : N) : N :=
    match bits with
    | O => 0
    | S b => if N.odd x then 1 + countr_one b (N.div2 x) else 0
    end.

  (** packed_bytes_x86.hpp:26-34 (SSE) and 88-96 (AVX2) *)
  Definition x86_less (x : lanes) (n : N) : lanes :=
    let bcast := set1 x n in
    let all1 := set1 x 255 in
    let max_with_n := max_epu8 x bcast in
    let is_greater_or_equal := cmpeq_epi8 max_with_n x in
    andnot is_greater_or_equal all1.
  (** packed_bytes_x86.hpp:36-39, 98-101 *)
  Definition x86_equal (x : lanes) (n : N) : lanes := cmpeq_epi8 x (set1 x n).
  (** packed_bytes_x86.hpp:47-49 and 107: testz(x,x) — every bit of x is zero *)
  Definition testz (x : lanes) : bool := forallb (fun l => N.land l l =? 0) x.
  (** packed_bytes_x86.hpp:52-54: the SSE2 path of is_all_zero *)
  Definition sse2_all_zero (x : lanes) : bool :=
    movemask (cmpeq_epi8 x (set1 x 0)) mod 2 ^ 16 =? 65535.
  (** packed_bytes_x86.hpp:58-63 (mask cast to uint16_t then uint32_t) and 109-115
      (uint32_t): [mbits] is the width of the first cast; countr_one is the
      32-bit one. *)
  Definition x86_first_nonzero (mbits : N) (x : lanes) : N :=
    countr_one 32 (movemask (cmpeq_epi8 x (set1 x 0)) mod 2 ^ mbits).

  Definition x86_scan (mbits : N) (all_zero : lanes -> bool) (blk : lanes) : option N :=
    let result := x86_less blk 32 in
    let result := or_si result (x86_equal blk 34) in
    let result := or_si result (x86_equal blk 92) in
    if all_zero result then None else Some (x86_first_nonzero mbits result).

  (** packed_bytes_arm.hpp (MEOJSON_ENABLE_NEON, arm64 path only; the 32-bit ARM
      path of is_all_zero calls intrinsics with wrong arity and does not compile). *)
  (** vcltq_u8, packed_bytes_arm.hpp:24-29 *)
  Definition neon_less (x : lanes) (n : N) : lanes :=
    map2 (fun a b => if a <? b then 255 else 0) x (set1 x n).
  (** vceqq_u8, packed_bytes_arm.hpp:31 *)
  Definition neon_equal (x : lanes) (n : N) : lanes := cmpeq_epi8 x (set1 x n).
  (** vmaxvq_u8(x) == 0, packed_bytes_arm.hpp:40 *)
  Definition neon_all_zero (x : lanes) : bool := fold_right N.max 0 x =? 0.
  (** vshrn_n_u16(cmp, 4), packed_bytes_arm.hpp:52: each pair of lanes is one
      16-bit lane (little-endian), shifted right by 4 and truncated to 8 bits. *)
  Fixpoint shrn4 (x : lanes) : lanes :=
    match x with
    | a :: b :: r => (N.shiftr (a + 256 * b) 4 mod 256) :: shrn4 r
    | _ => []
    end.
  (** packed_bytes_arm.hpp:48-55 *)
  Definition neon_first_nonzero (x : lanes) : N :=
    let cmp := neon_equal x 0 in
    let mask64 := le_word (shrn4 cmp) in
    N.shiftr (countr_one 64 mask64) 2.
  Definition neon_scan (blk : lanes) : option N :=
    let result := neon_less blk 32 in
    let result := or_si result (neon_equal blk 34) in
    let result := or_si result (neon_equal blk 92) in
    if neon_all_zero result then None else Some (neon_first_nonzero result).
End Simd.

(** ** Selection of the backend: packed_bytes_trait_max, packed_bytes.hpp:145-151
    (and the parser's [accel_traits] template parameter, parser.hpp:19). *)
Inductive backend : Type :=
| BNone                      (* packed_bytes_trait_none: available = false *)
| BU32 (little : bool)
| BU64 (little : bool)
| BSse2                      (* SSE2-only build *)
| BSse41
| BAvx2
| BNeon.

(** [accel_traits::step]; [None] when not available *)
Definition step (b : backend) : option nat :=
  match b with
  | BNone => None
  | BU32 _ => Some 4%nat
  | BU64 _ => Some 8%nat
  | BSse2 | BSse41 | BNeon => Some 16%nat
  | BAvx2 => Some 32%nat
  end.

Definition scan (b : backend) (blk : bytes) : option N :=
  match b with
  | BNone => None
  | BU32 e => w_scan 4 e blk
  | BU64 e => w_scan 8 e blk
  | BSse2 => x86_scan 16 sse2_all_zero blk
  | BSse41 => x86_scan 16 testz blk
  | BAvx2 => x86_scan 32 testz blk
  | BNeon => neon_scan blk
  end.

(** Backends whose reported index is exact: all but big-endian words. *)
Definition exact_backend (be : backend) : Prop :=
  match be with BU32 false | BU64 false => False | _ => True end.
(** the others: words loaded on a big-endian machine *)
Definition big_words (be : backend) : bool :=
  match be with BU32 little | BU64 little => negb little | _ => false end.
(** Builds told apart by what they read: without blocks, words of four or eight bytes on a little-endian machine, words on a
    big-endian one by size, vectors by size. *)
Inductive build_class : Type := Scalar | Words | BigWords (st : nat) | Vectors (st : nat).
Definition class_of (be : backend) : build_class :=
  match be with
  | BNone => Scalar
  | BU32 true | BU64 true => Words
  | BU32 false => BigWords 4
  | BU64 false => BigWords 8
  | BSse2 | BSse41 | BNeon => Vectors 16
  | BAvx2 => Vectors 32
  end.
