(** * Model of etl::bitset (private/bitset_new.h).

    A bitset<N, TElement> with a TElement of W bits (W = 8, 16, 32, 64) owns an array of
    [nelem W N] elements; an element is a number 0 <= x < 2^W.  One element: the "Single"
    implementation (207-853), more: the "Multi" implementation (870-1836).
    Reading or writing outside the array and shifting by the width of the promoted operand or
    more are [Undefined]; a failing ETL_ASSERT is [Overflow] (exceptions configuration).
    Simplifications: [p >> log2(W)] and [p & (W-1)] are written p / W and p mod W (W is a
    power of two); positions are nat (size_t never wraps, except in [extract], which has Z). *)
From Coq Require Import List Bool Arith ZArith.
From Verif Require Import BinaryModel.
Import ListNotations.

Inductive res (A : Type) := Ok (a : A) | Overflow | Undefined.
Arguments Ok {A} a. Arguments Overflow {A}. Arguments Undefined {A}.
Definition rbind {A B} (r : res A) (k : A -> res B) : res B :=
  match r with Ok a => k a | Overflow => Overflow | Undefined => Undefined end.
Notation "'do!' x <- a ; b" := (rbind a (fun x => b)) (at level 200, x pattern, a at level 100, b at level 200, right associativity).

Definition zw (W : nat) : Z := Z.of_nat W.

(** private/bitset_new.h: 1854 *)
Definition nelem (W N : nat) : nat := if N mod W =? 0 then N / W else N / W + 1.
(** private/bitset_new.h: 174-180 (bitset_impl_common::All_Set_Element) *)
Definition all_set (W : nat) : Z := (2 ^ zw W - 1)%Z.
(** private/bitset_new.h: 1869 *)
Definition top_shift (W N : nat) : nat := (W - (nelem W N * W - N)) mod W.
(** private/bitset_new.h: 1873 *)
Definition top_mask (W N : nat) : Z :=
  if top_shift W N =? 0 then all_set W else tr (zw W) (Z.lnot (all_set W << Z.of_nat (top_shift W N))).

(** C++ [expr.shift]: an 8 or 16 bit operand is promoted to int (32 bits); the result is
    converted back to the element type *)
Definition shl (W : nat) (x : Z) (s : nat) : res Z :=
  if s <? Nat.max 32 W then Ok (tr (zw W) (x << Z.of_nat s)) else Undefined.
Definition shr (W : nat) (x : Z) (s : nat) : res Z :=
  if s <? Nat.max 32 W then Ok (tr (zw W) (x >> Z.of_nat s)) else Undefined.
Definition inv (W : nat) (x : Z) : Z := tr (zw W) (Z.lnot x).

(** array accesses *)
Definition rd (ws : list Z) (i : nat) : res Z := match nth_error ws i with Some v => Ok v | None => Undefined end.
Fixpoint upd (ws : list Z) (i : nat) (v : Z) : list Z :=
  match ws, i with [], _ => [] | _ :: r, O => v :: r | x :: r, S j => x :: upd r j v end.
Definition wr (ws : list Z) (i : nat) (v : Z) : res (list Z) := if i <? List.length ws then Ok (upd ws i v) else Undefined.

(** ** Multi *)
(** private/bitset_new.h: 895-901 *)
Definition m_test (W : nat) (ws : list Z) (p : nat) : res bool :=
  do! mask <- shl W 1 (p mod W); do! v <- rd ws (p / W); Ok (negb (v &&& mask =? 0)%Z).
(** private/bitset_new.h: 909-919 *)
Fixpoint m_count (W : nat) (ws : list Z) : Z :=
  match ws with [] => 0%Z | v :: r => (count_bits (zw W) v + m_count W r)%Z end.
(** private/bitset_new.h: 927-946; (the array is not empty) *)
Fixpoint m_all (W : nat) (ws : list Z) (top : Z) : bool :=
  match ws with
  | [] => true
  | [v] => ((v &&& top) =? top)%Z
  | v :: r => if negb (v =? all_set W)%Z then false else m_all W r top
  end.
(** private/bitset_new.h: 954-965 *)
Fixpoint m_none (ws : list Z) : bool :=
  match ws with [] => true | v :: r => if negb (v =? 0)%Z then false else m_none r end.
(** private/bitset_new.h: 973-987 *)
Fixpoint m_any (ws : list Z) : bool :=
  match ws with [] => false | v :: r => if negb (v =? 0)%Z then true else m_any r end.
(** private/bitset_new.h: 995-1004 *)
Fixpoint m_set_all (W : nat) (ws : list Z) (top : Z) : list Z :=
  match ws with [] => [] | [_] => [(all_set W &&& top)%Z] | _ :: r => all_set W :: m_set_all W r top end.
(** private/bitset_new.h: 1012-1025 (and 1035-1047, 1057-1068) *)
Definition m_set (W : nat) (ws : list Z) (p : nat) (value : bool) : res (list Z) :=
  do! bit <- shl W 1 (p mod W); do! v <- rd ws (p / W);
  wr ws (p / W) (if value then (v ||| bit)%Z else (v &&& inv W bit)%Z).
(** private/bitset_new.h: 1231-1237 *)
Definition m_reset (W : nat) (ws : list Z) (p : nat) : res (list Z) :=
  do! bit <- shl W 1 (p mod W); do! v <- rd ws (p / W); wr ws (p / W) (v &&& inv W bit)%Z.
(** private/bitset_new.h: 1217-1222 *)
Definition m_reset_all (ws : list Z) : list Z := map (fun _ => 0%Z) ws.
(** private/bitset_new.h: 1092-1094: elements [i ..] := 0 *)
Fixpoint m_clear_from (ws : list Z) (i : nat) : list Z :=
  match ws, i with [], _ => [] | _ :: r, O => 0%Z :: m_clear_from r 0 | x :: r, S j => x :: m_clear_from r j end.
(** private/bitset_new.h: 1098-1102: set_position(--i, *text++ == '1') *)
Fixpoint m_from_loop (W : nat) (ws : list Z) (i : nat) (text : list bool) : res (list Z) :=
  match i with
  | O => Ok ws
  | S k => match text with
           | [] => Undefined
           | c :: t => do! ws' <- m_set W ws k c; m_from_loop W ws' k t
           end
  end.
(** private/bitset_new.h: 1077-1102; a character is modelled by whether it is '1'; None = null pointer *)
Definition m_from_string (W N : nat) (ws : list Z) (text : option (list bool)) : res (list Z) :=
  match text with
  | None => Ok (m_reset_all ws)
  | Some t =>
      let len := List.length t in
      let index := Nat.min (List.length ws - 1) (len / W) in
      m_from_loop W (m_clear_from ws index) (Nat.min N len) t
  end.
(** private/bitset_new.h: 1246-1264, T unsigned of wt bits *)
Fixpoint m_value_loop (W : nat) (wt : nat) (ws : list Z) (shift : nat) (v : Z) : Z :=
  match ws with
  | [] => v
  | x :: r => m_value_loop W wt r (shift + W) (v ||| tr (zw wt) (tr (zw wt) x << Z.of_nat shift))%Z
  end.
Definition m_value (W wt : nat) (ws : list Z) : Z :=
  if List.length ws * W <=? wt then m_value_loop W wt ws 0 0 else 0%Z.
(** private/bitset_new.h: 1621-1627 *)
Definition m_not (W : nat) (ws : list Z) : list Z := map (inv W) ws.
(** private/bitset_new.h: 1443-1446 *)
Definition m_flip_all (W : nat) (ws : list Z) : list Z := m_not W ws.
(** private/bitset_new.h: 1454-1460 *)
Definition m_flip (W : nat) (ws : list Z) (p : nat) : res (list Z) :=
  do! bit <- shl W 1 (p mod W); do! v <- rd ws (p / W); wr ws (p / W) (v ^^^ bit)%Z.
(** private/bitset_new.h: 1570-1578, 1587-1595, 1604-1612 *)
Fixpoint m_map2 (f : Z -> Z -> Z) (l r : list Z) : list Z :=
  match l, r with x :: l', y :: r' => f x y :: m_map2 f l' r' | _, _ => [] end.
Definition m_and := m_map2 Z.land.
Definition m_or := m_map2 Z.lor.
Definition m_xor := m_map2 Z.lxor.
(** [1 << bit] in int, converted to the element type (1481, W <= 16: bit < 16) *)
Definition int_one_shl (W : nat) (s : nat) : res Z :=
  if s <? 32 then Ok (tr (zw W) (sg 32 (1 << Z.of_nat s))) else Undefined.
(** private/bitset_new.h: 1493-1504, the loop inside one element; [todo] bounds it by the
    Bits_Per_Element - bit iterations *)
Fixpoint m_find_bits (W N : nat) (state : bool) (value mask : Z) (position : nat) (todo : nat) : option nat * nat * nat :=
  match todo with
  | O => (None, position, 0)
  | S k =>
      if position <? N
      then if Bool.eqb (negb (value &&& mask =? 0)%Z) state then (Some position, position, S k)
           else m_find_bits W N state value (tr (zw W) (mask << 1)) (S position) k
      else (None, position, S k)
  end.
(** private/bitset_new.h: 1484-1519, over the elements from [index] on *)
Fixpoint m_find_loop (W N : nat) (state : bool) (ws : list Z) (position bit : nat) (mask : Z) : option nat :=
  match ws with
  | [] => None
  | value :: r =>
      if (state && negb (value =? 0)%Z) || (negb state && negb (value =? all_set W)%Z)
      then match m_find_bits W N state value mask position (W - bit) with
           | (Some q, _, _) => Some q
           | (None, position', rest) => m_find_loop W N state r (position' + rest) 0 1
           end
      else m_find_loop W N state r (position + (W - bit)) 0 1
  end.
(** private/bitset_new.h: 1471-1519 *)
Definition m_find (W N : nat) (ws : list Z) (state : bool) (position : nat) : res (option nat) :=
  do! mask <- int_one_shl W (position mod W);
  Ok (m_find_loop W N state (skipn (position / W) ws) position (position mod W) mask).
(** private/bitset_new.h: 1528-1545: the characters for positions i-1, i-2, ..., 0 *)
Fixpoint m_text {C} (test : nat -> res bool) (zero one : C) (i : nat) : res (list C) :=
  match i with
  | O => Ok []
  | S k => do! t <- test k; do! r <- m_text test zero one k; Ok ((if t : bool then one else zero) :: r)
  end.
(** private/bitset_new.h: 1670-1680; [k] = src_index + 1 *)
Fixpoint m_shl_loop (W : nat) (lsb_mask msb_mask : Z) (lsb_shift msb_shift : nat) (k dst : nat) (ws : list Z) : res (nat * list Z) :=
  match k with
  | O => Ok (dst, ws)
  | S src =>
      do! v <- rd ws src; do! msb <- shr W (v &&& msb_mask)%Z msb_shift;
      do! d <- rd ws dst; do! ws1 <- wr ws dst (d ||| msb)%Z;
      match dst with
      | O => Undefined
      | S dst' =>
          do! v2 <- rd ws1 src; do! lsb <- shl W (v2 &&& lsb_mask)%Z lsb_shift;
          do! ws2 <- wr ws1 dst' lsb;
          m_shl_loop W lsb_mask msb_mask lsb_shift msb_shift src dst' ws2
      end
  end.
(** private/bitset_new.h: 1688-1690 *)
Fixpoint m_zero_below (ws : list Z) (k : nat) : list Z :=
  match ws, k with x :: r, S j => 0%Z :: m_zero_below r j | _, _ => ws end.
(** private/bitset_new.h: 1636-1690 *)
Definition m_shift_left (W N : nat) (ws : list Z) (shift : nat) : res (list Z) :=
  if N <=? shift then Ok (m_reset_all ws)
  else
    let n := List.length ws in
    let split := W - shift mod W in
    let src := n - shift / W - 1 in
    let dst := n - 1 in
    let lsb_shift := W - split in
    let msb_shift := split in
    do! lsb_mask <- shr W (all_set W) (W - split);
    let msb_mask := (all_set W - lsb_mask)%Z in
    do! lsb_shifted <- shl W lsb_mask lsb_shift;
    do! v <- rd ws src; do! lsb <- shl W (v &&& lsb_mask)%Z lsb_shift;
    do! ws1 <- wr ws dst lsb;
    do! (dst', ws2) <- m_shl_loop W lsb_mask msb_mask lsb_shift msb_shift src dst ws1;
    do! d <- rd ws2 dst'; do! ws3 <- wr ws2 dst' (d &&& lsb_shifted)%Z;
    Ok (m_zero_below ws3 dst').
(** private/bitset_new.h: 1729-1740; [k] = number_of_elements - 1 - src_index *)
Fixpoint m_shr_loop (W : nat) (lsb_mask msb_mask : Z) (lsb_shift msb_shift : nat) (k src dst : nat) (ws : list Z) : res (nat * nat * list Z) :=
  match k with
  | O => Ok (src, dst, ws)
  | S k' =>
      do! v <- rd ws src; do! msb <- shr W (v &&& msb_mask)%Z msb_shift;
      let src := S src in
      do! v2 <- rd ws src; do! lsb <- shl W (v2 &&& lsb_mask)%Z lsb_shift;
      do! ws1 <- wr ws dst (lsb ||| msb)%Z;
      m_shr_loop W lsb_mask msb_mask lsb_shift msb_shift k' src (S dst) ws1
  end.
(** private/bitset_new.h: 1700-1756 *)
Definition m_shift_right (W N : nat) (ws : list Z) (shift : nat) : res (list Z) :=
  if N <=? shift then Ok (m_reset_all ws)
  else
    let n := List.length ws in
    let split := shift mod W in
    let src := shift / W in
    let lsb_shift := W - split in
    let msb_shift := split in
    do! lsb_mask <- shr W (all_set W) (W - split);
    let msb_mask := (all_set W - lsb_mask)%Z in
    do! msb_shifted <- shr W msb_mask msb_shift;
    do! (src', dst', ws1) <- m_shr_loop W lsb_mask msb_mask lsb_shift msb_shift (n - 1 - src) src 0 ws;
    do! v <- rd ws1 src'; do! msb <- shr W (v &&& msb_mask)%Z msb_shift;
    do! ws2 <- wr ws1 dst' msb;
    do! d <- rd ws2 dst'; do! ws3 <- wr ws2 dst' (d &&& msb_shifted)%Z;
    Ok (m_clear_from ws3 (S dst')).
(** private/bitset_new.h: 1766-1770 (etl::equal) *)
Fixpoint m_equal (l r : list Z) : bool :=
  match l, r with x :: l', y :: r' => if negb (x =? y)%Z then false else m_equal l' r' | _, _ => true end.
(** private/bitset_new.h: 1804-1823, W < 64: value is an unsigned long long *)
Fixpoint m_init_loop (W : nat) (ws : list Z) (value : Z) : list Z :=
  match ws with
  | [] => []
  | _ :: r => if negb (value =? 0)%Z then (value &&& all_set W)%Z :: m_init_loop W r (value >> zw W) else m_clear_from ws 0
  end.
(** private/bitset_new.h: 1780-1793 (W = 64) and 1804-1823 (W < 64) *)
Definition m_init (W : nat) (ws : list Z) (value : Z) : list Z :=
  if W =? 64 then match ws with [] => [] | _ :: r => value :: m_clear_from r 0 end else m_init_loop W ws value.

(** ** Single *)
(** private/bitset_new.h: 521-525 *)
Definition s_test (W : nat) (x : Z) (p : nat) : res bool := do! mask <- shl W 1 p; Ok (negb (x &&& mask =? 0)%Z).
(** private/bitset_new.h: 238-250 *)
Definition s_set (W : nat) (x : Z) (p : nat) (value : bool) : res Z :=
  do! mask <- shl W 1 p; Ok (if value then (x ||| mask)%Z else (x &&& inv W mask)%Z).
(** private/bitset_new.h: 312-316 *)
Definition s_reset (W : nat) (x : Z) (p : nat) : res Z := do! mask <- shl W 1 p; Ok (x &&& inv W mask)%Z.
(** private/bitset_new.h: 637-641 *)
Definition s_flip (W : nat) (x : Z) (p : nat) : res Z := do! mask <- shl W 1 p; Ok (x ^^^ mask)%Z.
(** private/bitset_new.h: 340-347 *)
Fixpoint s_from_loop (W : nat) (x mask : Z) (n : nat) (text : list bool) : res Z :=
  match n with
  | O => Ok x
  | S k => match text with
           | [] => Undefined
           | c :: t => s_from_loop W (if c then (x ||| mask)%Z else x) (mask >> 1) k t
           end
  end.
(** private/bitset_new.h: 324-347; string_length - 1U wraps to the largest size_t for an empty text: the shift is undefined *)
Definition s_from_string (W N : nat) (text : option (list bool)) : res Z :=
  match text with
  | None => Ok 0%Z
  | Some t =>
      let len := Nat.min N (List.length t) in
      do! mask <- (if len =? 0 then Undefined else shl W 1 (len - 1));
      s_from_loop W 0 mask len t
  end.
(** private/bitset_new.h: 678-710; 1U << position in unsigned int *)
Fixpoint s_find_loop (W N : nat) (state : bool) (value mask : Z) (bit : nat) (todo : nat) : option nat :=
  match todo with
  | O => None
  | S k => if bit <? N
           then if Bool.eqb (negb (value &&& mask =? 0)%Z) state then Some bit
                else s_find_loop W N state value (tr (zw W) (mask << 1)) (S bit) k
           else None
  end.
Definition s_find (W N : nat) (x : Z) (state : bool) (position : nat) : res (option nat) :=
  if position <? N then
    do! mask <- (if position <? 32 then Ok (tr (zw W) (tr 32 (1 << Z.of_nat position))) else Undefined);
    Ok (if (state && negb (x =? 0)%Z) || (negb state && negb (x =? all_set W)%Z)
        then s_find_loop W N state x mask position (N - position) else None)
  else Ok None.
(** private/bitset_new.h: 782-793, 802-813 *)
Definition s_shift_left (W N : nat) (x : Z) (s : nat) : res Z := if N <=? s then Ok 0%Z else shl W x s.
Definition s_shift_right (W N : nat) (x : Z) (s : nat) : res Z := if N <=? s then Ok 0%Z else shr W x s.

(** ** class bitset: dispatch on the storage model (1859, 2010-2030: Single iff one element) *)
Definition single (ws : list Z) : option Z := match ws with [x] => Some x | _ => None end.
Notation "'on1' ws x => a 'else' b" := (match single ws with Some x => a | None => b end) (at level 200, ws at level 0, x name, a at level 200, b at level 200).
Definition one (r : res Z) : res (list Z) := do! v <- r; Ok [v].

(** private/bitset_new.h: 2041-2043 *)
Definition bs_new (W N : nat) : list Z := m_reset_all (repeat 0%Z (nelem W N)).
(** private/bitset_new.h: 2059-2062, 839; value an unsigned long long *)
Definition bs_of_value (W N : nat) (value : Z) : list Z :=
  let ws := bs_new W N in on1 ws x => [tr (zw W) value] else m_init W ws value.
(** private/bitset_new.h: 2118-2122, 230 *)
Definition bs_set_all (W N : nat) (ws : list Z) : list Z :=
  on1 ws x => [(all_set W &&& top_mask W N)%Z] else m_set_all W ws (top_mask W N).
(** private/bitset_new.h: 2129-2135 *)
Definition bs_set (W N : nat) (ws : list Z) (p : nat) (v : bool) : res (list Z) :=
  if p <? N then on1 ws x => one (s_set W x p v) else m_set W ws p v else Overflow.
(** private/bitset_new.h: 2069-2102, 2169-2253 *)
Definition bs_from_string (W N : nat) (ws : list Z) (text : option (list bool)) : res (list Z) :=
  on1 ws x => one (s_from_string W N text) else m_from_string W N ws text.
(** private/bitset_new.h: 2328-2332, 303 *)
Definition bs_reset_all (ws : list Z) : list Z := on1 ws x => [0%Z] else m_reset_all ws.
(** private/bitset_new.h: 2338-2344 *)
Definition bs_reset (W N : nat) (ws : list Z) (p : nat) : res (list Z) :=
  if p <? N then on1 ws x => one (s_reset W x p) else m_reset W ws p else Overflow.
(** private/bitset_new.h: 2351-2355 *)
Definition bs_test (W N : nat) (ws : list Z) (p : nat) : res bool :=
  if p <? N then on1 ws x => s_test W x p else m_test W ws p else Overflow.
(** private/bitset_new.h: 2523-2525: no check *)
Definition bs_index (W : nat) (ws : list Z) (p : nat) : res bool := on1 ws x => s_test W x p else m_test W ws p.
(** private/bitset_new.h: 2439-2441, 536 *)
Definition bs_count (W : nat) (ws : list Z) : Z := on1 ws x => count_bits (zw W) x else m_count W ws.
(** private/bitset_new.h: 2447-2449, 548 *)
Definition bs_all (W N : nat) (ws : list Z) : bool :=
  on1 ws x => ((x &&& top_mask W N) =? top_mask W N)%Z else m_all W ws (top_mask W N).
(** private/bitset_new.h: 2465-2467, 572; 2483-2485, 595 *)
Definition bs_none (ws : list Z) : bool := on1 ws x => (x =? 0)%Z else m_none ws.
Definition bs_any (ws : list Z) : bool := on1 ws x => negb (x =? 0)%Z else m_any ws.
(** private/bitset_new.h: 2501-2505, 618; 2640-2646 *)
Definition bs_flip_all (W : nat) (ws : list Z) : list Z := on1 ws x => [inv W x] else m_flip_all W ws.
Definition bs_not (W : nat) (ws : list Z) : list Z := bs_flip_all W ws.
(** private/bitset_new.h: 2511-2517 *)
Definition bs_flip (W N : nat) (ws : list Z) (p : nat) : res (list Z) :=
  if p <? N then on1 ws x => one (s_flip W x p) else m_flip W ws p else Overflow.
(** private/bitset_new.h: 2544-2547, 650-667; the result string is large enough *)
Definition bs_text {C} (W N : nat) (ws : list Z) (zero one : C) : res (list C) := m_text (bs_index W ws) zero one N.
(** private/bitset_new.h: 2555-2568 *)
Definition bs_find_next (W N : nat) (ws : list Z) (state : bool) (p : nat) : res (option nat) :=
  on1 ws x => s_find W N x state p else m_find W N ws state p.
Definition bs_find_first (W N : nat) (ws : list Z) (state : bool) : res (option nat) := bs_find_next W N ws state 0.
(** private/bitset_new.h: 2574-2634, 736, 749, 762 *)
Definition bs_and (l r : list Z) : list Z := match single l, single r with Some x, Some y => [(x &&& y)%Z] | _, _ => m_and l r end.
Definition bs_or (l r : list Z) : list Z := match single l, single r with Some x, Some y => [(x ||| y)%Z] | _, _ => m_or l r end.
Definition bs_xor (l r : list Z) : list Z := match single l, single r with Some x, Some y => [(x ^^^ y)%Z] | _, _ => m_xor l r end.
(** private/bitset_new.h: 2652-2658, 2681-2687 *)
Definition bs_shl (W N : nat) (ws : list Z) (s : nat) : res (list Z) :=
  on1 ws x => one (s_shift_left W N x s) else m_shift_left W N ws s.
Definition bs_shr (W N : nat) (ws : list Z) (s : nat) : res (list Z) :=
  on1 ws x => one (s_shift_right W N x s) else m_shift_right W N ws s.
(** private/bitset_new.h: 2664-2675, 2693-2704 *)
Definition bs_shl_assign (W N : nat) (ws : list Z) (s : nat) : res (list Z) :=
  if N <=? s then Ok (bs_reset_all ws) else bs_shl W N ws s.
Definition bs_shr_assign (W N : nat) (ws : list Z) (s : nat) : res (list Z) :=
  if N <=? s then Ok (bs_reset_all ws) else bs_shr W N ws s.
(** private/bitset_new.h: 2710-2720, 826 *)
Definition bs_eq (l r : list Z) : bool := match single l, single r with Some x, Some y => (x =? y)%Z | _, _ => m_equal l r end.
(** private/bitset_new.h: 2261-2267, 460; T unsigned of wt bits; the static assert [wt >= allocated bits] *)
Definition bs_value (W wt : nat) (ws : list Z) : Z := on1 ws x => tr (zw wt) x else m_value W wt ws.
(** private/bitset_new.h: 2308-2322, unsigned long and unsigned long long of 64 bits *)
Definition bs_to_ullong (W N : nat) (ws : list Z) : res Z := if N <=? 64 then Ok (bs_value W 64 ws) else Overflow.

(** ** extract *)
(** private/bitset_new.h: 1296-1304; [k] bounds the loop by the number of elements *)
Fixpoint m_extract_loop (W : nat) (wt : nat) (ws : list Z) (k : nat) (value : Z) (element_index : Z) (length : nat) : res (Z * Z * nat) :=
  if W <=? length then
    match k with
    | O => Undefined
    | S k' =>
        do! v <- (if (element_index <? 0)%Z then Undefined else rd ws (Z.to_nat element_index));
        let value := tr (zw wt) (value ||| v) in
        let length := length - W in
        do! value <- (if W <=? length then shl wt value W else Ok value);
        m_extract_loop W wt ws k' value (element_index - 1) length
    end
  else Ok (value, element_index, length).
(** private/bitset_new.h: 1273-1315; the returned type has wt bits *)
Definition m_extract_multi (W wt : nat) (ws : list Z) (element_index : Z) (active length : nat) : res Z :=
  do! (value, element_index, length) <-
    (if active <? W then
       do! v <- rd ws (Z.to_nat element_index);
       let value := tr (zw wt) (v &&& make_lsb_mask (zw W) (Z.of_nat active)) in
       let length := length - active in
       do! value <- (if W <=? length then shl wt value W else Ok value);
       Ok (value, (element_index - 1)%Z, length)
     else Ok (0%Z, element_index, length));
  do! (value, element_index, length) <- m_extract_loop W wt ws (S (List.length ws)) value element_index length;
  if length =? 0 then Ok value
  else
    do! value <- shl wt value length;
    do! v <- (if (element_index <? 0)%Z then Undefined else rd ws (Z.to_nat element_index));
    do! w <- shr W v (W - length);
    Ok (tr (zw wt) (value ||| (w &&& make_lsb_mask (zw W) (Z.of_nat length)))).
(** private/bitset_new.h: 1325-1355 (and 1365-1393); the indices are int, here Z; length > 0 *)
Definition m_extract_buffer (W wt : nat) (ws : list Z) (position length : nat) : res Z :=
  let msb := (position + length - 1) / W in
  let lsb := position / W in
  if msb =? lsb then
    do! v <- rd ws msb; do! s <- shr W v (position mod W);
    Ok (tr (zw wt) s &&& make_lsb_mask (zw wt) (Z.of_nat length))%Z
  else m_extract_multi W wt ws (Z.of_nat msb) (position + length - msb * W) length.
(** private/bitset_new.h: 469-485 *)
Definition s_extract (W wt : nat) (x : Z) (position length : nat) : res Z :=
  do! s <- shr W x (position mod W);
  Ok (tr (zw wt) s &&& make_lsb_mask (zw wt) (Z.of_nat length))%Z.
(** private/bitset_new.h: 480-485, 1408-1415: T signed *)
Definition extend (wt : nat) (is_signed : bool) (length : nat) (value : Z) : Z :=
  if is_signed then sg (zw wt) (if length =? wt then value else sign_extend (zw wt) value (Z.of_nat length)) else value.
(** private/bitset_new.h: 2276-2283; position + length is computed in size_t (64 bits); the
    case length = 0 (position + length - 1 below zero) is not modelled: Undefined *)
Definition bs_extract (W N wt : nat) (is_signed : bool) (ws : list Z) (position length : Z) : res Z :=
  if (length <=? Z.of_nat wt)%Z then
    if (tr 64 (position + length) <=? Z.of_nat N)%Z then
      if (length =? 0)%Z then Undefined
      else if (Z.of_nat (N + wt) <? position)%Z then Undefined (* far outside the array *)
      else
        do! v <- (on1 ws x => s_extract W wt x (Z.to_nat position) (Z.to_nat length)
                  else m_extract_buffer W wt ws (Z.to_nat position) (Z.to_nat length));
        Ok (extend wt is_signed (Z.to_nat length) v)
    else Overflow
  else Overflow.
