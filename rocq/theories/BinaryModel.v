(** * Model of binary.h and bit.h (without ETL_USING_STL && C++20, where the
    functions are the code below and not the ones of <bit>).

    A value of an unsigned type of w bits is a number 0 <= x < 2^w; arithmetic
    is done in the (promoted) type and the result converted to the type by [tr w].
    A value of a signed type is a number -2^(w-1) <= x < 2^(w-1), [sg w] is the
    conversion to it; >> on a negative value is arithmetic. *)
From Coq Require Import List Arith Bool ZArith.
Import ListNotations.
Local Open Scope Z_scope.

Notation "x &&& y" := (Z.land x y) (at level 40, left associativity).
Notation "x ||| y" := (Z.lor x y) (at level 50, left associativity).
Notation "x ^^^ y" := (Z.lxor x y) (at level 46, left associativity).
Notation "x << y" := (Z.shiftl x y) (at level 36, left associativity).
Notation "x >> y" := (Z.shiftr x y) (at level 36, left associativity).

(** conversion to an unsigned / signed type of w bits *)
Definition tr (w x : Z) : Z := x mod 2 ^ w.
Definition sg (w x : Z) : Z := let u := x mod 2 ^ w in if u <? 2 ^ (w - 1) then u else u - 2 ^ w.

(** binary.h: 88-104 *)
Fixpoint max_value_for_nbits (n : nat) : Z :=
  match n with O => 0 | S k => (1 << Z.of_nat k) ||| max_value_for_nbits k end.

(** binary.h: 116-127, unsigned T *)
Definition rotate_left1 (w x : Z) : Z := let SHIFT := w - 1 in tr w ((x << 1) ||| (x >> SHIFT)).
(** binary.h: 134-154, unsigned T *)
Definition rotate_left (w x distance : Z) : Z :=
  let distance := distance mod w in
  let SHIFT := w - distance in
  if SHIFT =? w then x else tr w ((x << distance) ||| (x >> SHIFT)).
(** binary.h: 161-172 *)
Definition rotate_right1 (w x : Z) : Z := let SHIFT := w - 1 in tr w ((x >> 1) ||| (x << SHIFT)).
(** binary.h: 179-199 *)
Definition rotate_right (w x distance : Z) : Z :=
  let distance := distance mod w in
  let SHIFT := w - distance in
  if SHIFT =? w then x else tr w ((x >> distance) ||| (x << SHIFT)).
(** binary.h: 207-223; size_t(-distance) for distance > min *)
Definition rotate (w x distance : Z) : Z :=
  if 0 <? distance then rotate_left w x distance else rotate_right w x (- distance).
(** the same code for a signed T: x may be negative; << on the promoted value keeps the low bits *)
Definition rotate_left_signed (w x distance : Z) : Z :=
  let distance := distance mod w in
  let SHIFT := w - distance in
  if SHIFT =? w then x else sg w ((x << distance) ||| (x >> SHIFT)).
Definition rotate_right_signed (w x distance : Z) : Z :=
  let distance := distance mod w in
  let SHIFT := w - distance in
  if SHIFT =? w then x else sg w ((x >> distance) ||| (x << SHIFT)).

(** binary.h: 230-235 *)
Definition binary_to_gray (w x : Z) : Z := tr w ((x >> 1) ^^^ x).
Definition binary_to_gray_signed (w x : Z) : Z := sg w ((x >> 1) ^^^ x).

(** binary.h: 242-263: the loop runs while [value] >= 2^nbits - 1; [fuel] bounds it
    (64 iterations shift any value out when nbits >= 1) *)
Fixpoint fold_loop (nbits : nat) (fuel : nat) (folded value : Z) : Z :=
  match fuel with
  | O => folded ^^^ (value &&& (2 ^ Z.of_nat nbits - 1))
  | S f =>
      if max_value_for_nbits nbits <=? value
      then fold_loop nbits f (folded ^^^ (value &&& (2 ^ Z.of_nat nbits - 1))) (value >> Z.of_nat nbits)
      else folded ^^^ (value &&& (2 ^ Z.of_nat nbits - 1))
  end.
Definition fold_bits (nbits : nat) (value : Z) : Z := fold_loop nbits 64 0 value.

(** binary.h: 313-324: TReturn signed of wr bits, TValue unsigned of wv bits;
    1 <= nbits < wv (or = wv when TValue is promoted: 8 and 16 bits) *)
Definition sign_extend (wr value nbits : Z) : Z :=
  let mask := 1 << (nbits - 1) in
  let value := value &&& ((1 << nbits) - 1) in
  sg wr ((value ^^^ mask) - mask).
(** binary.h: 333-344 *)
Definition sign_extend_shift (wr value nbits shift : Z) : Z :=
  let mask := 1 << (nbits - 1) in
  let value := (value >> shift) &&& ((1 << nbits) - 1) in
  sg wr ((value ^^^ mask) - mask).

(** binary.h: 376-399 *)
Definition binary_fill (wr wv x : Z) : Z := tr wr (x * ((2 ^ wr - 1) / (2 ^ wv - 1))).
(** binary.h: 407-428 *)
Definition has_zero_byte (w x : Z) : bool :=
  let mask := binary_fill w 8 127 in
  let temp := tr w (Z.lnot ((((x &&& mask) + mask) ||| x) ||| mask)) in
  negb (temp =? 0).
(** binary.h: 435-448 *)
Definition has_byte_n (w x n : Z) : bool := has_zero_byte w (x ^^^ binary_fill w 8 n).
(** binary.h: 458-473 *)
Definition binary_merge (first second mask : Z) : Z := second ^^^ ((second ^^^ first) &&& mask).

(** binary.h: 487-497 *)
Definition reverse_bits_8 (v : Z) : Z :=
  let v := ((v &&& 0xAA) >> 1) ||| ((v &&& 0x55) << 1) in
  let v := ((v &&& 0xCC) >> 2) ||| ((v &&& 0x33) << 2) in
  tr 8 ((v >> 4) ||| ((v &&& 0x0F) << 4)).
(** binary.h: 538-549 *)
Definition reverse_bits_16 (v : Z) : Z :=
  let v := ((v &&& 0xAAAA) >> 1) ||| ((v &&& 0x5555) << 1) in
  let v := ((v &&& 0xCCCC) >> 2) ||| ((v &&& 0x3333) << 2) in
  let v := ((v &&& 0xF0F0) >> 4) ||| ((v &&& 0x0F0F) << 4) in
  tr 16 ((v >> 8) ||| ((v &&& 0xFF) << 8)).
(** binary.h: 591-603 *)
Definition reverse_bits_32 (v : Z) : Z :=
  let v := ((v &&& 0xAAAAAAAA) >> 1) ||| ((v &&& 0x55555555) << 1) in
  let v := ((v &&& 0xCCCCCCCC) >> 2) ||| ((v &&& 0x33333333) << 2) in
  let v := ((v &&& 0xF0F0F0F0) >> 4) ||| ((v &&& 0x0F0F0F0F) << 4) in
  let v := ((v &&& 0xFF00FF00) >> 8) ||| ((v &&& 0x00FF00FF) << 8) in
  tr 32 ((v >> 16) ||| ((v &&& 0xFFFF) << 16)).
(** binary.h: 648-661 *)
Definition reverse_bits_64 (v : Z) : Z :=
  let v := ((v &&& 0xAAAAAAAAAAAAAAAA) >> 1) ||| ((v &&& 0x5555555555555555) << 1) in
  let v := ((v &&& 0xCCCCCCCCCCCCCCCC) >> 2) ||| ((v &&& 0x3333333333333333) << 2) in
  let v := ((v &&& 0xF0F0F0F0F0F0F0F0) >> 4) ||| ((v &&& 0x0F0F0F0F0F0F0F0F) << 4) in
  let v := ((v &&& 0xFF00FF00FF00FF00) >> 8) ||| ((v &&& 0x00FF00FF00FF00FF) << 8) in
  let v := ((v &&& 0xFFFF0000FFFF0000) >> 16) ||| ((v &&& 0x0000FFFF0000FFFF) << 16) in
  tr 64 ((v >> 32) ||| ((v &&& 0xFFFFFFFF) << 32)).
(** binary.h: 500-511, 552-564, 606-620, 664-679 have the same formulas for a constant *)
Definition reverse_bits (w x : Z) : Z :=
  if w =? 8 then reverse_bits_8 x else if w =? 16 then reverse_bits_16 x
  else if w =? 32 then reverse_bits_32 x else reverse_bits_64 x.
(** binary.h: 708-716 *)
Definition reverse_bits_signed (w x : Z) : Z := sg w (reverse_bits w (tr w x)).
(** binary.h: 517-528: reverse_bits_const<int8_t, v>: value2 >> 4U is arithmetic *)
Definition reverse_bits_const_int8 (v : Z) : Z :=
  let value1 := sg 8 (((v &&& 0xAA) >> 1) ||| ((v &&& 0x55) << 1)) in
  let value2 := sg 8 (((value1 &&& 0xCC) >> 2) ||| ((value1 &&& 0x33) << 2)) in
  sg 8 ((value2 >> 4) ||| ((value2 &&& 0x0F) << 4)).

(** binary.h: 723-785 *)
Definition reverse_bytes_16 (v : Z) : Z := tr 16 ((v >> 8) ||| (v << 8)).
Definition reverse_bytes_32 (v : Z) : Z :=
  let v := ((v &&& 0xFF00FF00) >> 8) ||| ((v &&& 0x00FF00FF) << 8) in
  tr 32 ((v >> 16) ||| (v << 16)).
Definition reverse_bytes_64 (v : Z) : Z :=
  let v := ((v &&& 0xFF00FF00FF00FF00) >> 8) ||| ((v &&& 0x00FF00FF00FF00FF) << 8) in
  let v := ((v &&& 0xFFFF0000FFFF0000) >> 16) ||| ((v &&& 0x0000FFFF0000FFFF) << 16) in
  tr 64 ((v >> 32) ||| (v << 32)).
Definition reverse_bytes (w x : Z) : Z :=
  if w =? 8 then x else if w =? 16 then reverse_bytes_16 x
  else if w =? 32 then reverse_bytes_32 x else reverse_bytes_64 x.
(** binary.h: 793-801 *)
Definition reverse_bytes_signed (w x : Z) : Z := sg w (reverse_bytes w (tr w x)).

(** binary.h: 808-874 *)
Definition xshift (k v : Z) : Z := v ^^^ (v >> k).
Definition gray_to_binary (w v : Z) : Z :=
  if w =? 8 then xshift 1 (xshift 2 (xshift 4 v))
  else if w =? 16 then xshift 1 (xshift 2 (xshift 4 (xshift 8 v)))
  else if w =? 32 then xshift 1 (xshift 2 (xshift 4 (xshift 8 (xshift 16 v))))
  else xshift 1 (xshift 2 (xshift 4 (xshift 8 (xshift 16 (xshift 32 v))))).
(** binary.h: 881-889 *)
Definition gray_to_binary_signed (w x : Z) : Z := sg w (gray_to_binary w (tr w x)).

(** binary.h: 896-912 *)
Definition count_bits_8 (v : Z) : Z :=
  let c := tr 32 (v - ((v >> 1) &&& 0x55)) in
  let c := ((c >> 2) &&& 0x33) + (c &&& 0x33) in
  tr 8 (((c >> 4) + c) &&& 0x0F).
(** binary.h: 919-936 *)
Definition count_bits_16 (v : Z) : Z :=
  let c := tr 32 (v - ((v >> 1) &&& 0x5555)) in
  let c := ((c >> 2) &&& 0x3333) + (c &&& 0x3333) in
  let c := ((c >> 4) + c) &&& 0x0F0F in
  tr 8 (((c >> 8) + c) &&& 0x00FF).
(** binary.h: 942-960 *)
Definition count_bits_32 (v : Z) : Z :=
  let c := tr 32 (v - ((v >> 1) &&& 0x55555555)) in
  let c := tr 32 (((c >> 2) &&& 0x33333333) + (c &&& 0x33333333)) in
  let c := tr 32 ((c >> 4) + c) &&& 0x0F0F0F0F in
  let c := tr 32 ((c >> 8) + c) &&& 0x00FF00FF in
  tr 8 (tr 32 ((c >> 16) + c) &&& 0x0000FF).
(** binary.h: 967-986 *)
Definition count_bits_64 (v : Z) : Z :=
  let c := tr 64 (v - ((v >> 1) &&& 0x5555555555555555)) in
  let c := tr 64 (((c >> 2) &&& 0x3333333333333333) + (c &&& 0x3333333333333333)) in
  let c := tr 64 ((c >> 4) + c) &&& 0x0F0F0F0F0F0F0F0F in
  let c := tr 64 ((c >> 8) + c) &&& 0x00FF00FF00FF00FF in
  let c := tr 64 ((c >> 16) + c) &&& 0x0000FFFF0000FFFF in
  tr 8 (tr 64 ((c >> 32) + c) &&& 0x00000000FFFFFFFF).
Definition count_bits (w x : Z) : Z :=
  if w =? 8 then count_bits_8 x else if w =? 16 then count_bits_16 x
  else if w =? 32 then count_bits_32 x else count_bits_64 x.
(** binary.h: 993-1001 *)
Definition count_bits_signed (w x : Z) : Z := count_bits w (tr w x).

(** binary.h: 1008-1066 *)
Definition parity_8 (v : Z) : Z := let v := xshift 4 v &&& 0x0F in (0x6996 >> v) &&& 1.
Definition parity_16 (v : Z) : Z := let v := xshift 4 (xshift 8 v) &&& 0x0F in (0x6996 >> v) &&& 1.
Definition parity_32 (v : Z) : Z := let v := xshift 4 (xshift 8 (xshift 16 v)) &&& 0x0F in (0x6996 >> v) &&& 1.
Definition parity_64 (v : Z) : Z := let v := xshift 4 (xshift 8 (xshift 16 (xshift 32 v))) &&& 0x0F in (0x69966996 >> v) &&& 1.
Definition parity (w x : Z) : Z :=
  if w =? 8 then parity_8 x else if w =? 16 then parity_16 x else if w =? 32 then parity_32 x else parity_64 x.

(** The counting functions share the shape: a first test, then a sequence of
    [if ((value & mask) == want) { value shift= k; count += k; }], and a final correction.
    [step] is one such statement; (mask, k) are the literals of the source. *)
Definition step_r (zeros : bool) (st : Z * Z) (vc : Z * Z) : Z * Z :=
  let (mask, k) := st in let (v, c) := vc in
  if (v &&& mask) =? (if zeros then 0 else mask) then (v >> k, c + k) else (v, c).
Definition step_l (w : Z) (zeros : bool) (st : Z * Z) (vc : Z * Z) : Z * Z :=
  let (mask, k) := st in let (v, c) := vc in
  if (v &&& mask) =? (if zeros then 0 else mask) then (tr w (v << k), c + k) else (v, c).
Definition steps (step : Z * Z -> Z * Z -> Z * Z) (l : list (Z * Z)) (vc : Z * Z) : Z * Z :=
  fold_left (fun a st => step st a) l vc.

(** binary.h: 1097-1128, 1146-1183, 1200-1243, 1261-1310 *)
Definition ctz_steps (w : Z) : list (Z * Z) :=
  if w =? 8 then [(0xF, 4); (0x3, 2); (0x1, 1)]
  else if w =? 16 then [(0xFF, 8); (0xF, 4); (0x3, 2); (0x1, 1)]
  else if w =? 32 then [(0xFFFF, 16); (0xFF, 8); (0xF, 4); (0x3, 2); (0x1, 1)]
  else [(0xFFFFFFFF, 32); (0xFFFF, 16); (0xFF, 8); (0xF, 4); (0x3, 2); (0x1, 1)].
Definition count_trailing_zeros (w v : Z) : Z :=
  if (v &&& 1) =? 0
  then let (v', c) := steps (step_r true) (ctz_steps w) (v, 1) in c - (v' &&& 1)
  else 0.
(** binary.h: 1343-1374, 1392-1429, 1446-1489, 1507-1550 *)
Definition cto_steps (w : Z) : list (Z * Z) :=
  if w =? 8 then [(0xF, 4); (0x3, 2); (0x1, 1)]
  else if w =? 16 then [(0xFF, 8); (0xF, 4); (0x3, 2); (0x1, 1)]
  else if w =? 32 then [(0xFFFF, 16); (0xFF, 8); (0xF, 4); (0x3, 2); (0x1, 1)]
  else [(0xFFFF, 16); (0xFF, 8); (0xF, 4); (0x3, 2); (0x1, 1)].
Definition count_trailing_ones (w v : Z) : Z :=
  if (v &&& 1) =? 0 then 0
  else let (v', c) := steps (step_r false) (cto_steps w) (v, 1) in c - (if (v' &&& 1) =? 0 then 1 else 0).
(** binary.h: 1583-1614, 1632-1669, 1686-1729, 1747-1796 *)
Definition clz_steps (w : Z) : list (Z * Z) :=
  if w =? 8 then [(0xF0, 4); (0xC0, 2); (0x80, 1)]
  else if w =? 16 then [(0xFF00, 8); (0xF000, 4); (0xC000, 2); (0x8000, 1)]
  else if w =? 32 then [(0xFFFF0000, 16); (0xFF000000, 8); (0xF0000000, 4); (0xC0000000, 2); (0x80000000, 1)]
  else [(0xFFFFFFFFF0000000, 32); (0xFFFF000000000000, 16); (0xFF00000000000000, 8); (0xF000000000000000, 4);
        (0xC000000000000000, 2); (0x8000000000000000, 1)].
Definition top (w : Z) : Z := if w =? 8 then 0x80 else if w =? 16 then 0x8000 else if w =? 32 then 0x80000000 else 0x8000000000000000.
Definition count_leading_zeros (w v : Z) : Z :=
  if (v &&& top w) =? 0
  then let (v', c) := steps (step_l w true) (clz_steps w) (v, 1) in c - (if (v' &&& top w) =? top w then 1 else 0)
  else 0.
(** binary.h: 1829-1860, 1878-1915, 1932-1975, 1993-2042; the shifts of the first
    steps at 32 and 64 bits are 8 in the source *)
Definition clo_steps (w : Z) : list (Z * Z) :=
  if w =? 8 then [(0xF0, 4); (0xC0, 2); (0x80, 1)]
  else if w =? 16 then [(0xFF00, 8); (0xF000, 4); (0xC000, 2); (0x8000, 1)]
  else if w =? 32 then [(0xFFFF0000, 8); (0xFF000000, 8); (0xF0000000, 4); (0xC0000000, 2); (0x80000000, 1)]
  else [(0xFFFFFFFF00000000, 8); (0xFFFF000000000000, 8); (0xFF00000000000000, 8); (0xF000000000000000, 4);
        (0xC000000000000000, 2); (0x8000000000000000, 1)].
Definition count_leading_ones (w v : Z) : Z :=
  if (v &&& top w) =? 0 then 0
  else let (v', c) := steps (step_l w false) (clo_steps w) (v, 1) in c - (if (v' &&& top w) =? 0 then 1 else 0).
(** binary.h: 1319-1327, 1559-1567, 1805-1813 (calls count_trailing_ones), 2051-2059 *)
Definition count_trailing_zeros_signed (w x : Z) : Z := count_trailing_zeros w (tr w x).
Definition count_trailing_ones_signed (w x : Z) : Z := count_trailing_ones w (tr w x).
Definition count_leading_zeros_signed (w x : Z) : Z := count_trailing_ones w (tr w x).
Definition count_leading_ones_signed (w x : Z) : Z := count_leading_ones w (tr w x).

(** binary.h: 2066-2098 *)
Definition first_set_bit_position (w x : Z) : Z := count_trailing_zeros w x.
Definition first_clear_bit_position (w x : Z) : Z := count_trailing_zeros w (tr w (Z.lnot x)).

(** binary.h: 2105-2122 *)
Definition binary_interleave_8 (first second : Z) : Z :=
  let f := (first ||| (first << 4)) &&& 0x0F0F in
  let f := (f ||| (f << 2)) &&& 0x3333 in
  let f := (f ||| (f << 1)) &&& 0x5555 in
  let s := (second ||| (second << 4)) &&& 0x0F0F in
  let s := (s ||| (s << 2)) &&& 0x3333 in
  let s := (s ||| (s << 1)) &&& 0x5555 in
  tr 16 (f ||| (s << 1)).
(** binary.h: 2129-2148 *)
Definition binary_interleave_16 (first second : Z) : Z :=
  let f := tr 32 (first ||| (first << 8)) &&& 0x00FF00FF in
  let f := tr 32 (f ||| (f << 4)) &&& 0x0F0F0F0F in
  let f := tr 32 (f ||| (f << 2)) &&& 0x33333333 in
  let f := tr 32 (f ||| (f << 1)) &&& 0x55555555 in
  let s := tr 32 (second ||| (second << 8)) &&& 0x00FF00FF in
  let s := tr 32 (s ||| (s << 4)) &&& 0x0F0F0F0F in
  let s := tr 32 (s ||| (s << 2)) &&& 0x33333333 in
  let s := tr 32 (s ||| (s << 1)) &&& 0x55555555 in
  tr 32 (f ||| (s << 1)).
(** binary.h: 2155-2176 *)
Definition binary_interleave_32 (first second : Z) : Z :=
  let f := tr 64 (first ||| (first << 16)) &&& 0x0000FFFF0000FFFF in
  let f := tr 64 (f ||| (f << 8)) &&& 0x00FF00FF00FF00FF in
  let f := tr 64 (f ||| (f << 4)) &&& 0x0F0F0F0F0F0F0F0F in
  let f := tr 64 (f ||| (f << 2)) &&& 0x3333333333333333 in
  let f := tr 64 (f ||| (f << 1)) &&& 0x5555555555555555 in
  let s := tr 64 (second ||| (second << 16)) &&& 0x0000FFFF0000FFFF in
  let s := tr 64 (s ||| (s << 8)) &&& 0x00FF00FF00FF00FF in
  let s := tr 64 (s ||| (s << 4)) &&& 0x0F0F0F0F0F0F0F0F in
  let s := tr 64 (s ||| (s << 2)) &&& 0x3333333333333333 in
  let s := tr 64 (s ||| (s << 1)) &&& 0x5555555555555555 in
  tr 64 (f ||| (s << 1)).
Definition binary_interleave (w first second : Z) : Z :=
  if w =? 8 then binary_interleave_8 first second else if w =? 16 then binary_interleave_16 first second
  else binary_interleave_32 first second.
(** binary.h: 2183-2189: a signed T of w bits: the arguments are cut to 16 bits
    and the result converted to T *)
Definition binary_interleave_signed (w first second : Z) : Z :=
  sg w (binary_interleave_16 (tr 16 first) (tr 16 second)).

(** binary.h: 2196-2211 *)
Definition is_odd (w x : Z) : bool := negb ((tr w x &&& 1) =? 0).
Definition is_even (w x : Z) : bool := (tr w x &&& 1) =? 0.

(** binary.h: 2238-2244, 2262-2268 (unsigned T) *)
Definition make_lsb_mask (w nbits : Z) : Z := if nbits =? 0 then 0 else tr w (2 ^ w - 1) >> (w - nbits).
Definition make_msb_mask (w nbits : Z) : Z := if nbits =? 0 then 0 else tr w ((2 ^ w - 1) << (w - nbits)).
(** binary.h: 2215-2234, 2248-2277 *)
Definition lsb_mask (w : Z) (nbits : nat) : Z := tr w (max_value_for_nbits nbits).
Definition msb_mask (w : Z) (nbits : nat) : Z := reverse_bits w (lsb_mask w nbits).

(** bit.h: 95-99 *)
Definition has_single_bit (w x : Z) : bool := (x &&& tr w (x - 1)) =? 0.
(** bit.h: 148-158 *)
Definition bit_width (w x : Z) : Z := w - count_leading_zeros w x.
(** bit.h: 164-180; the shifted value must be representable (as for std::bit_ceil) *)
Definition bit_ceil (w x : Z) : Z := if x =? 0 then 1 else tr w (1 << bit_width w (x - 1)).
(** bit.h: 186-202 *)
Definition bit_floor (w x : Z) : Z := if x =? 0 then 0 else tr w (1 << (bit_width w x - 1)).
(** bit.h: 208-238 *)
Definition rotl (w x n : Z) : Z := if n <? 0 then rotate_right w x (- n) else rotate_left w x n.
Definition rotr (w x n : Z) : Z := if n <? 0 then rotate_left w x (- n) else rotate_right w x n.
