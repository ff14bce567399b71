(** * Model of bit_stream.h: bit_stream, bit_stream_writer, bit_stream_reader.

    [None] is undefined behaviour (an access outside the buffer, a division by
    zero, a shift by the width of the type or more).  A byte is a number 0..255
    (char or unsigned char: only bit operations are applied to it).  size_t is
    taken mod 2^64. *)
From Coq Require Import List Arith Bool ZArith.
From Verif Require Import Util BinaryModel.
Import ListNotations.
Local Open Scope Z_scope.

Definition size_t (x : Z) : Z := x mod 2 ^ 64.
(** the members of all three classes: bit_stream.h: 516-520, 973-979, 1350-1355;
    [pdata] is the whole buffer of length_chars bytes *)
Record stream : Type := { pdata : list Z; bits_available_in_char : Z; char_index : nat; bits_available : Z }.
Definition length_chars (s : stream) : Z := Z.of_nat (List.length (pdata s)).
(** bit_stream.h: 112-117, 589-594, 1107-1112 *)
Definition restart (s : stream) : stream :=
  {| pdata := pdata s; bits_available_in_char := 8; char_index := 0; bits_available := size_t (8 * length_chars s) |}.
(** bit_stream.h: 64-89, 540-584, 1038-1102: all constructors set the buffer and call restart *)
Definition make (buffer : list Z) : stream := restart {| pdata := buffer; bits_available_in_char := 8; char_index := 0; bits_available := 0 |}.
(** bit_stream.h: 503-514, 960-971, 1337-1348 *)
Definition step (nbits : Z) (s : stream) : stream :=
  let a := bits_available_in_char s - nbits in
  {| pdata := pdata s;
     bits_available_in_char := if a =? 0 then 8 else a;
     char_index := if a =? 0 then S (char_index s) else char_index s;
     bits_available := size_t (bits_available s - nbits) |}.

Fixpoint upd (l : list Z) (i : nat) (x : Z) : option (list Z) :=
  match l, i with
  | [], _ => None
  | _ :: r, O => Some (x :: r)
  | a :: r, S j => match upd r j x with Some r' => Some (a :: r') | None => None end
  end.
(** bit_stream.h: 408-418, 920-930 *)
Definition write_chunk (chunk nbits : Z) (s : stream) : option stream :=
  match nth_error (pdata s) (char_index s) with
  | None => None
  | Some b =>
      let b := if bits_available_in_char s =? 8 then 0 else b in
      match upd (pdata s) (char_index s) (b ||| chunk) with
      | None => None
      | Some d => Some (step nbits {| pdata := d; bits_available_in_char := bits_available_in_char s; char_index := char_index s; bits_available := bits_available s |})
      end
  end.
(** the loop that writes the low [nbits] bits of a value of a type of w bits, most
    significant bit first: bit_stream.h: 349-361 (w = 32), 384-395 (w = 64), 898-909
    (any T).  [fuel] bounds the iterations (each takes at least one bit). *)
Fixpoint put_loop (w : Z) (fuel : nat) (value nbits : Z) (s : stream) : option stream :=
  if nbits =? 0 then Some s else
  match fuel with
  | O => None
  | S f =>
      let mask_width := Z.min nbits (bits_available_in_char s) in
      let nbits := nbits - mask_width in
      if w <=? nbits then None else
      let mask := tr w (((1 << mask_width) - 1) << nbits) in
      let chunk := tr w (((value &&& mask) >> nbits) << (bits_available_in_char s - mask_width)) in
      match write_chunk (tr 8 chunk) mask_width s with
      | None => None
      | Some s => put_loop w f value nbits s
      end
  end.
(** bit_stream.h: 423-445, 1298-1319 *)
Definition get_chunk (nbits : Z) (s : stream) : option (Z * stream) :=
  match nth_error (pdata s) (char_index s) with
  | None => None
  | Some value =>
      let value := tr 8 (value >> (bits_available_in_char s - nbits)) in
      let mask := if nbits =? 8 then 255 else tr 8 ((1 << nbits) - 1) in
      Some (value &&& mask, step nbits s)
  end.
(** bit_stream.h: 236-245 (chunk_t of T), 1271-1279: w is the width of T *)
Fixpoint get_loop (w : Z) (fuel : nat) (value nbits : Z) (s : stream) : option (Z * stream) :=
  if nbits =? 0 then Some (value, s) else
  match fuel with
  | O => None
  | S f =>
      let mask_width := Z.min nbits (bits_available_in_char s) in
      match get_chunk mask_width s with
      | None => None
      | Some (chunk, s) =>
          let nbits := nbits - mask_width in
          if Z.max w 32 <=? nbits then None else get_loop w f (value ||| tr w (chunk << nbits)) nbits s
      end
  end.
(** bit_stream.h: 450-457, 1324-1331 *)
Definition get_bit (s : stream) : option (bool * stream) :=
  match nth_error (pdata s) (char_index s) with
  | None => None
  | Some b => Some (negb ((b &&& (1 << (bits_available_in_char s - 1))) =? 0), step 1 s)
  end.

(** ** bit_stream *)
(** bit_stream.h: 122-125, 297-308, 313-316 *)
Definition at_end (s : stream) : bool := bits_available s =? 0.
Definition size (s : stream) : Z := Z.of_nat (char_index s) + (if bits_available_in_char s =? 8 then 0 else 1).
Definition bits (s : stream) : Z := size_t (length_chars s * 8 - bits_available s).
(** bit_stream.h: 339-368 (w = 32), 374-402 (w = 64); pdata is not null *)
Definition put_integral (w value nbits : Z) (s : stream) : option (bool * stream) :=
  if nbits <=? bits_available s
  then match put_loop w 256 value nbits s with Some s' => Some (true, s') | None => None end
  else Some (false, s).
(** bit_stream.h: 130-145 *)
Definition put_bool (b : bool) (s : stream) : option (bool * stream) :=
  if 0 <? bits_available s
  then match put_integral 32 (if b then 1 else 0) 1 s with Some (_, s') => Some (true, s') | None => None end
  else Some (false, s).
(** bit_stream.h: 150-172: types up to 32 bits go through uint32_t, 64 bit types through uint64_t *)
Definition put (w value nbits : Z) (s : stream) : option (bool * stream) :=
  if w =? 64 then put_integral 64 (tr 64 value) nbits s else put_integral 32 (tr 32 value) nbits s.
(** bit_stream.h: 178-196: a floating point value is its object representation;
    [bytes] are its bytes most significant first (to_bytes, 483-497) *)
Fixpoint put_float (bytes : list Z) (s : stream) : option (bool * stream) :=
  match bytes with
  | [] => Some (true, s)
  | b :: r =>
      match put_integral 32 b 8 s with
      | None => None
      | Some (ok, s) => match put_float r s with None => None | Some (ok', s) => Some (ok && ok', s) end
      end
  end.
(** bit_stream.h: 201-216; [old] is the value of the caller's variable before the call *)
Definition get_bool (old : bool) (s : stream) : option (bool * bool * stream) :=
  if 0 <? bits_available s then match get_bit s with Some (b, s) => Some (true, b, s) | None => None end
  else Some (false, old, s).
(** bit_stream.h: 222-259: T of w bits, signed or not.  The value loop works on the
    bits of T; [conv] gives the value of type T. *)
Definition conv (w : Z) (is_signed : bool) (x : Z) : Z := if is_signed then sg w x else tr w x.
Definition get (w : Z) (is_signed : bool) (old nbits : Z) (s : stream) : option (bool * Z * stream) :=
  let ext v := if is_signed && negb (nbits =? w) then (if nbits =? 0 then None else if w <? nbits then None else Some (sign_extend w (tr w v) nbits)) else Some v in
  if nbits <=? bits_available s then
    match get_loop w 256 0 nbits s with
    | None => None
    | Some (v, s) => match ext (conv w is_signed v) with Some v => Some (true, v, s) | None => None end
    end
  else match ext old with Some v => Some (false, v, s) | None => None end.
(** bit_stream.h: 264-292: the bytes read, most significant first *)
Fixpoint get_bytes (n : nat) (s : stream) : option (list Z * stream) :=
  match n with
  | O => Some ([], s)
  | S m =>
      match get 8 false 0 8 s with
      | Some (_, b, s) => match get_bytes m s with Some (r, s) => Some (b :: r, s) | None => None end
      | None => None
      end
  end.
Definition get_float (sizeof : nat) (old : list Z) (s : stream) : option (bool * list Z * stream) :=
  if 8 * Z.of_nat sizeof <=? bits_available s
  then match get_bytes sizeof s with Some (l, s) => Some (true, l, s) | None => None end
  else Some (false, old, s).

(** ** bit_stream_writer *)
Inductive endian : Type := little | big.
(** bit_stream.h: 529-979; [callback] : a callback is set; [calls] : the data given to it so far *)
Record writer : Type := { ws : stream; stream_endianness : endian; callback : bool; calls : list (list Z) }.
Definition set_ws (s : stream) (x : writer) : writer := {| ws := s; stream_endianness := stream_endianness x; callback := callback x; calls := calls x |}.
Definition make_writer (e : endian) (cb : bool) (buffer : list Z) : writer := {| ws := make buffer; stream_endianness := e; callback := cb; calls := [] |}.
Definition w_restart (x : writer) : writer := set_ws (restart (ws x)) x.
(** bit_stream.h: 599-624 *)
Definition capacity_bytes (x : writer) : Z := length_chars (ws x).
Definition capacity_bits (x : writer) : Z := size_t (length_chars (ws x) * 8).
Definition w_empty (x : writer) : bool := bits_available (ws x) =? length_chars (ws x).
Definition w_full (x : writer) : bool := bits_available (ws x) =? 0.
(** bit_stream.h: 708-764 *)
Definition w_size_bytes (x : writer) : Z := size (ws x).
Definition available_bits (x : writer) : Z := bits_available (ws x).
Definition w_size_bits (x : writer) : Z := size_t (capacity_bits x - available_bits x).
(** available(nbits) divides by nbits *)
Definition available (nbits : Z) (x : writer) : option Z := if nbits =? 0 then None else Some (bits_available (ws x) / nbits).
(** bit_stream.h: 936-954: [bits_available_in_char != 0U] is always true *)
Definition flush_full_bytes (x : writer) : option writer :=
  let s := ws x in
  match char_index s with
  | O => Some x
  | S _ =>
      let out := firstn (char_index s) (pdata s) in
      if Nat.ltb (List.length (pdata s)) (char_index s) then None else
      let avail := size_t (8 * length_chars s) in
      if negb (bits_available_in_char s =? 0) then
        match nth_error (pdata s) (char_index s) with
        | None => None
        | Some b =>
            match upd (pdata s) 0 b with
            | None => None
            | Some d => Some {| ws := {| pdata := d; bits_available_in_char := bits_available_in_char s; char_index := 0; bits_available := size_t (avail - (8 - bits_available_in_char s)) |};
                                stream_endianness := stream_endianness x; callback := callback x; calls := calls x ++ [out] |}
            end
        end
      else Some {| ws := {| pdata := pdata s; bits_available_in_char := bits_available_in_char s; char_index := 0; bits_available := avail |};
                   stream_endianness := stream_endianness x; callback := callback x; calls := calls x ++ [out] |}
  end.
(** bit_stream.h: 886-915; T unsigned of w bits *)
Definition write_data (w value nbits : Z) (x : writer) : option writer :=
  let nbits := if w <? nbits then w else nbits in
  let value :=
    match stream_endianness x with
    | little => if Z.max w 32 <=? w - nbits then None else Some (reverse_bits w value >> (w - nbits))
    | big => Some value
    end in
  match value with
  | None => None
  | Some value =>
      match put_loop w 256 value nbits (ws x) with
      | None => None
      | Some s => let x := set_ws s x in if callback x then flush_full_bytes x else Some x
      end
  end.
(** bit_stream.h: 629-648 *)
Definition write_bool (b : bool) (x : writer) : option (bool * writer) :=
  match available 1 x with
  | None => None
  | Some n => if 0 <? n then match write_data 8 (if b then 1 else 0) 1 x with Some x => Some (true, x) | None => None end else Some (false, x)
  end.
(** bit_stream.h: 653-677; T of w bits, [value] of type T converted to the unsigned type *)
Definition write (w value nbits : Z) (x : writer) : option (bool * writer) :=
  match available nbits x with
  | None => None
  | Some n => if 0 <? n then match write_data w (tr w value) nbits x with Some x => Some (true, x) | None => None end else Some (false, x)
  end.
(** bit_stream.h: 684-703: the second statement of the loop uses the value of
    bits_available_in_char after the step *)
Fixpoint w_skip_loop (fuel : nat) (nbits : Z) (s : stream) : option (Z * stream) :=
  if bits_available_in_char s <? nbits then
    match fuel with
    | O => None
    | S f => let s := step (bits_available_in_char s) s in w_skip_loop f (size_t (nbits - bits_available_in_char s)) s
    end
  else Some (nbits, s).
Definition w_skip (fuel : nat) (nbits : Z) (x : writer) : option (bool * writer) :=
  if nbits <=? available_bits x then
    match w_skip_loop fuel nbits (ws x) with
    | None => None
    | Some (n, s) => Some (true, set_ws (if n =? 0 then s else step n s) x)
    end
  else Some (false, x).
(** bit_stream.h: 849-861 *)
Definition flush (x : writer) : option writer :=
  if callback x then
    let s := ws x in
    match flush_full_bytes (set_ws {| pdata := pdata s; bits_available_in_char := bits_available_in_char s; char_index := 1; bits_available := bits_available s |} x) with
    | Some x => Some (w_restart x)
    | None => None
    end
  else Some x.
(** bit_stream.h: 793-828 *)
Definition used_data (x : writer) : list Z := firstn (Z.to_nat (w_size_bytes x)) (pdata (ws x)).

(** ** bit_stream_reader: the stream and the endianness *)
(** bit_stream.h: 1118-1139 *)
Definition read_bool (s : stream) : option (option bool * stream) :=
  if 0 <? bits_available s then match get_bit s with Some (b, s) => Some (Some b, s) | None => None end else Some (None, s).
(** bit_stream.h: 1262-1293; T unsigned of w bits; sign_extend<T, T> (binary.h: 313-324) stays in T *)
Definition read_value (e : endian) (w nbits : Z) (is_signed : bool) (s : stream) : option (Z * stream) :=
  let nbits := if w <? nbits then w else nbits in
  match get_loop w 256 0 nbits s with
  | None => None
  | Some (value, s) =>
      let value :=
        match e with
        | little => if Z.max w 32 <=? w - nbits then None else Some (reverse_bits w (tr w (value << (w - nbits))))
        | big => Some value
        end in
      match value with
      | None => None
      | Some value =>
          if is_signed && negb (nbits =? w)
          then if nbits =? 0 then None else
               let mask := tr w (1 << (nbits - 1)) in
               let v := value &&& tr w ((1 << nbits) - 1) in
               Some (tr w ((v ^^^ mask) - mask), s)
          else Some (value, s)
      end
  end.
(** bit_stream.h: 1144-1171; T of w bits *)
Definition read (e : endian) (w : Z) (is_signed : bool) (nbits : Z) (s : stream) : option (option Z * stream) :=
  if nbits <=? bits_available s
  then match read_value e w nbits is_signed s with Some (v, s) => Some (Some (conv w is_signed v), s) | None => None end
  else Some (None, s).
(** bit_stream.h: 1234-1253 *)
Fixpoint r_skip_loop (fuel : nat) (nbits : Z) (s : stream) : option (Z * stream) :=
  if bits_available_in_char s <? nbits then
    match fuel with
    | O => None
    | S f => r_skip_loop f (size_t (nbits - bits_available_in_char s)) (step (bits_available_in_char s) s)
    end
  else Some (nbits, s).
Definition r_skip (nbits : Z) (s : stream) : option (bool * stream) :=
  if nbits <=? bits_available s then
    match r_skip_loop (S (List.length (pdata s))) nbits s with
    | None => None
    | Some (n, s) => Some (true, if n =? 0 then s else step n s)
    end
  else Some (false, s).
