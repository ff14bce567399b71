(** * Model of byte_stream.h: byte_stream_writer, byte_stream_reader.

    [None] is an access outside the buffer.  Bytes are numbers 0..255.  Values of
    an integral type of n bytes (1, 2, 4 or 8) are numbers; a floating point value is
    taken as the unsigned number with the same object representation.  The byte order
    of the machine ([platform]) is a parameter. *)
From Coq Require Import List Arith Bool ZArith.
From Verif Require Import Util BinaryModel BitStreamModel ByteStreamSpec.
Import ListNotations.
Local Open Scope Z_scope.

(** the object representation of a value of n bytes: the least significant byte first on a little endian machine *)
Fixpoint le_bytes (n : nat) (v : Z) : list Z := match n with O => [] | S m => v mod 256 :: le_bytes m (v / 256) end.
Definition object_bytes (platform : endian) (n : nat) (v : Z) : list Z := match platform with little => le_bytes n v | big => rev (le_bytes n v) end.
Fixpoint of_le (l : list Z) : Z := match l with [] => 0 | b :: r => b + 256 * of_le r end.
Definition object_value (platform : endian) (is_signed : bool) (l : list Z) : Z :=
  let x := of_le (match platform with little => l | big => rev l end) in
  if is_signed then sg (8 * Z.of_nat (List.length l)) x else x.

Definition endian_eqb (a b : endian) : bool := match a, b with little, little | big, big => true | _, _ => false end.
(** byte_stream.h: 468-480, 842-854 *)
Definition copy_value (platform stream : endian) (source : list Z) : list Z := if endian_eqb stream platform then source else rev source.

(** the buffer with [bs] stored at index i *)
Definition store (l : list Z) (i : nat) (bs : list Z) : option (list Z) :=
  if Nat.leb (i + List.length bs) (List.length l) then Some (firstn i l ++ bs ++ skipn (i + List.length bs) l) else None.
Definition load (l : list Z) (i n : nat) : option (list Z) :=
  if Nat.leb (i + n) (List.length l) then Some (firstn n (skipn i l)) else None.

(** byte_stream.h: 482-486; [current] is pcurrent - pdata; [calls] is what the callback got *)
Record bwriter : Type := { data : list Z; current : nat; wendian : endian; has_callback : bool; bcalls : list (list Z) }.
(** byte_stream.h: 69-125 *)
Definition make_bwriter (e : endian) (cb : bool) (buffer : list Z) : bwriter := {| data := buffer; current := 0; wendian := e; has_callback := cb; bcalls := [] |}.
(** byte_stream.h: 366-410 *)
Definition b_capacity (x : bwriter) : Z := Z.of_nat (List.length (data x)).
Definition b_size_bytes (x : bwriter) : Z := Z.of_nat (current x).
Definition b_available (n : nat) (x : bwriter) : Z := size_t (b_capacity x - b_size_bytes x) / Z.of_nat n.
Definition b_full (x : bwriter) : bool := b_size_bytes x =? b_capacity x.
Definition b_empty (x : bwriter) : bool := b_size_bytes x =? 0.
(** byte_stream.h: 460-465 *)
Definition b_step (n : nat) (x : bwriter) : option bwriter :=
  if has_callback x then
    match load (data x) (current x) n with
    | None => None
    | Some l => Some {| data := data x; current := current x + n; wendian := wendian x; has_callback := true; bcalls := bcalls x ++ [l] |}
    end
  else Some {| data := data x; current := current x + n; wendian := wendian x; has_callback := has_callback x; bcalls := bcalls x |}.
Definition b_store (bs : list Z) (x : bwriter) : option bwriter :=
  match store (data x) (current x) bs with
  | None => None
  | Some d => Some {| data := d; current := current x; wendian := wendian x; has_callback := has_callback x; bcalls := bcalls x |}
  end.
(** byte_stream.h: 440-457: for one byte static_cast<char>, else copy_value of the object *)
Definition to_bytes (platform : endian) (n : nat) (v : Z) (x : bwriter) : option bwriter :=
  let bs := if Nat.eqb n 1 then [v mod 256] else copy_value platform (wendian x) (object_bytes platform n v) in
  match b_store bs x with None => None | Some x => b_step n x end.
(** byte_stream.h: 130-148: no step, hence no callback *)
Definition write_bool_b (b : bool) (x : bwriter) : option (bool * bwriter) :=
  if 0 <? b_available 1 x then
    match b_store [if b then 1 else 0] x with
    | None => None
    | Some x => Some (true, {| data := data x; current := S (current x); wendian := wendian x; has_callback := has_callback x; bcalls := bcalls x |})
    end
  else Some (false, x).
(** byte_stream.h: 153-175 *)
Definition write_b (platform : endian) (n : nat) (v : Z) (x : bwriter) : option (bool * bwriter) :=
  if 0 <? b_available n x then match to_bytes platform n v x with Some x => Some (true, x) | None => None end else Some (false, x).
(** byte_stream.h: 180-239: write(span) and write(pointer, length) *)
Fixpoint to_bytes_all (platform : endian) (n : nat) (vs : list Z) (x : bwriter) : option bwriter :=
  match vs with [] => Some x | v :: r => match to_bytes platform n v x with None => None | Some x => to_bytes_all platform n r x end end.
Definition write_span (platform : endian) (n : nat) (vs : list Z) (x : bwriter) : option (bool * bwriter) :=
  if Z.of_nat (List.length vs) <=? b_available n x then match to_bytes_all platform n vs x with Some x => Some (true, x) | None => None end else Some (false, x).
(** byte_stream.h: 246-257 *)
Definition skip_b (n : nat) (k : nat) (x : bwriter) : option (bool * bwriter) :=
  if Z.of_nat k <=? b_available n x then match b_step (k * n) x with Some x => Some (true, x) | None => None end else Some (false, x).
(** byte_stream.h: 262-265 *)
Definition restart_b (k : nat) (x : bwriter) : bwriter := {| data := data x; current := k; wendian := wendian x; has_callback := has_callback x; bcalls := bcalls x |}.
(** byte_stream.h: 318-345 *)
Definition used_data_b (x : bwriter) : list Z := firstn (current x) (data x).
Definition free_data_b (x : bwriter) : list Z := skipn (current x) (data x).

(** byte_stream.h: 856-859 *)
Record breader : Type := { rdata : list Z; rcurrent : nat; rendian : endian }.
Definition make_breader (e : endian) (buffer : list Z) : breader := {| rdata := buffer; rcurrent := 0; rendian := e |}.
(** byte_stream.h: 800-813 *)
Definition r_available (n : nat) (x : breader) : Z := size_t (Z.of_nat (List.length (rdata x)) - Z.of_nat (rcurrent x)) / Z.of_nat n.
Definition set_rcurrent (k : nat) (x : breader) : breader := {| rdata := rdata x; rcurrent := k; rendian := rendian x |}.
(** byte_stream.h: 819-839 *)
Definition from_bytes (platform : endian) (n : nat) (is_signed : bool) (x : breader) : option (Z * breader) :=
  match load (rdata x) (rcurrent x) n with
  | None => None
  | Some l =>
      let v := if Nat.eqb n 1 then (if is_signed then sg 8 (of_le l) else of_le l) else object_value platform is_signed (copy_value platform (rendian x) l) in
      Some (v, set_rcurrent (rcurrent x + n) x)
  end.
(** byte_stream.h: 571-594; read<bool>: static_cast<bool>(char) *)
Definition read_b (platform : endian) (n : nat) (is_signed : bool) (x : breader) : option (option Z * breader) :=
  if 0 <? r_available n x then match from_bytes platform n is_signed x with Some (v, x) => Some (Some v, x) | None => None end else Some (None, x).
Definition read_bool_b (platform : endian) (x : breader) : option (option bool * breader) :=
  if 0 <? r_available 1 x then match from_bytes platform 1 false x with Some (v, x) => Some (Some (negb (v =? 0)), x) | None => None end else Some (None, x).
(** byte_stream.h: 599-629: a span of n one byte elements of the buffer itself *)
Definition read_bytes (k : nat) (x : breader) : option (option (list Z) * breader) :=
  if Z.of_nat k <=? r_available 1 x
  then match load (rdata x) (rcurrent x) k with Some l => Some (Some l, set_rcurrent (rcurrent x + k) x) | None => None end
  else Some (None, x).
(** byte_stream.h: 634-695: read into a range of k elements *)
Fixpoint from_bytes_all (platform : endian) (n : nat) (is_signed : bool) (k : nat) (x : breader) : option (list Z * breader) :=
  match k with
  | O => Some ([], x)
  | S j => match from_bytes platform n is_signed x with
           | None => None
           | Some (v, x) => match from_bytes_all platform n is_signed j x with Some (r, x) => Some (v :: r, x) | None => None end
           end
  end.
Definition read_span (platform : endian) (n : nat) (is_signed : bool) (k : nat) (x : breader) : option (option (list Z) * breader) :=
  if Z.of_nat k <=? r_available n x
  then match from_bytes_all platform n is_signed k x with Some (l, x) => Some (Some l, x) | None => None end
  else Some (None, x).
(** byte_stream.h: 702-722 *)
Definition r_skip_b (n k : nat) (x : breader) : bool * breader :=
  if Z.of_nat k <=? r_available n x then (true, set_rcurrent (rcurrent x + k * n) x) else (false, x).
Definition r_restart_b (k : nat) (x : breader) : breader := set_rcurrent k x.

(** ** histories of calls (the driver; not code of the library) *)

Definition w_op_b (platform : endian) (o : wop) (x : bwriter) : option (bool * bwriter) :=
  match o with
  | Witem (Ibool b) => write_bool_b b x
  | Witem (Ival n _ v) => write_b platform n v x
  | Witem (Ispan n _ vs) => write_span platform n vs x
  | Wskip n k => skip_b n k x
  | Wrestart k => Some (true, restart_b k x)
  end.
Fixpoint w_ops_b (platform : endian) (os : list wop) (x : bwriter) : option (list bool * bwriter) :=
  match os with
  | [] => Some ([], x)
  | o :: r => match w_op_b platform o x with
              | None => None
              | Some (a, x) => match w_ops_b platform r x with Some (l, x) => Some (a :: l, x) | None => None end
              end
  end.
Definition r_op_b (platform : endian) (o : rop) (x : breader) : option (rres * breader) :=
  match o with
  | Rbool => match read_bool_b platform x with None => None | Some (Some b, x) => Some (Abool b, x) | Some (None, x) => Some (Nothing, x) end
  | Rval n s => match read_b platform n s x with None => None | Some (Some v, x) => Some (Aval v, x) | Some (None, x) => Some (Nothing, x) end
  | Rspan n s k => match read_span platform n s k x with None => None | Some (Some v, x) => Some (Aspan v, x) | Some (None, x) => Some (Nothing, x) end
  | Rbytes k => match read_bytes k x with None => None | Some (Some v, x) => Some (Aspan v, x) | Some (None, x) => Some (Nothing, x) end
  | Rskip n k => let '(b, x) := r_skip_b n k x in Some (if b then Adone else Nothing, x)
  | Rrestart k => Some (Adone, r_restart_b k x)
  end.
Fixpoint r_ops_b (platform : endian) (os : list rop) (x : breader) : option (list rres * breader) :=
  match os with
  | [] => Some ([], x)
  | o :: r => match r_op_b platform o x with
              | None => None
              | Some (a, x) => match r_ops_b platform r x with Some (l, x) => Some (a :: l, x) | None => None end
              end
  end.
