(** * A byte stream as a list of bytes and a position.  Independent of the code. *)
From Coq Require Import List Arith Bool ZArith.
Import ListNotations.
Local Open Scope Z_scope.

(** the bytes of a number in n bytes, in the byte order of the stream *)
Definition stream_bytes (big_endian : bool) (n : nat) (v : Z) : list Z :=
  let lsb_first := map (fun i => (v / 256 ^ Z.of_nat i) mod 256) (seq 0 n) in if big_endian then rev lsb_first else lsb_first.
Definition in_type (n : nat) (is_signed : bool) (v : Z) : Prop :=
  if is_signed then - 2 ^ (8 * Z.of_nat n - 1) <= v < 2 ^ (8 * Z.of_nat n - 1) else 0 <= v < 2 ^ (8 * Z.of_nat n).
Definition size_ok (n : nat) : Prop := (n = 1 \/ n = 2 \/ n = 4 \/ n = 8)%nat.

(** an item written: a bool, a value, or a range of values *)
Inductive item : Type := Ibool (b : bool) | Ival (n : nat) (is_signed : bool) (v : Z) | Ispan (n : nat) (is_signed : bool) (vs : list Z).
Definition item_ok (i : item) : Prop :=
  match i with
  | Ibool _ => True
  | Ival n s v => size_ok n /\ in_type n s v
  | Ispan n s vs => size_ok n /\ Forall (in_type n s) vs
  end.
Definition item_bytes (big_endian : bool) (i : item) : list Z :=
  match i with
  | Ibool b => [if b then 1 else 0]
  | Ival n _ v => stream_bytes big_endian n v
  | Ispan n _ vs => flat_map (stream_bytes big_endian n) vs
  end.
(** writing at a position: accepted iff it fits, everything else unchanged *)
Definition overwrite (B : list Z) (p : nat) (bs : list Z) : list Z := firstn p B ++ bs ++ skipn (p + List.length bs) B.
Definition spec_write (big_endian : bool) (i : item) (st : list Z * nat) : bool * (list Z * nat) :=
  let '(B, p) := st in
  let bs := item_bytes big_endian i in
  if Nat.leb (p + List.length bs) (List.length B) then (true, (overwrite B p bs, (p + List.length bs)%nat)) else (false, (B, p)).

(** ** writer operations: an item, a skip over k elements of n bytes, a restart at a position *)
Inductive wop : Type := Witem (i : item) | Wskip (n k : nat) | Wrestart (k : nat).
Definition wop_ok (capacity : nat) (o : wop) : Prop :=
  match o with Witem i => item_ok i | Wskip n _ => size_ok n | Wrestart k => (k <= capacity)%nat end.
Definition spec_wop (big_endian : bool) (o : wop) (st : list Z * nat) : bool * (list Z * nat) :=
  match o with
  | Witem i => spec_write big_endian i st
  | Wskip n k => if Nat.leb (snd st + k * n) (List.length (fst st)) then (true, (fst st, (snd st + k * n)%nat)) else (false, st)
  | Wrestart k => (true, (fst st, k))
  end.
Fixpoint spec_wops (big_endian : bool) (os : list wop) (st : list Z * nat) : list bool * (list Z * nat) :=
  match os with
  | [] => ([], st)
  | o :: r => let '(a, st) := spec_wop big_endian o st in let '(l, st) := spec_wops big_endian r st in (a :: l, st)
  end.
(** what the callback is given by one accepted operation at (B, p): one call for each value written,
    one call for a skip.  The code gives none for a bool. *)
Definition op_calls (big_endian : bool) (o : wop) (st : list Z * nat) : list (list Z) :=
  match o with
  | Witem (Ibool _) => []
  | Witem (Ival n _ v) => [stream_bytes big_endian n v]
  | Witem (Ispan n _ vs) => map (stream_bytes big_endian n) vs
  | Wskip n k => [firstn (k * n) (skipn (snd st) (fst st))]
  | Wrestart _ => []
  end.
Fixpoint spec_calls (big_endian : bool) (os : list wop) (st : list Z * nat) : list (list Z) :=
  match os with
  | [] => []
  | o :: r => let '(a, st') := spec_wop big_endian o st in (if a then op_calls big_endian o st else []) ++ spec_calls big_endian r st'
  end.

(** ** reader operations *)
Inductive rop : Type := Rbool | Rval (n : nat) (is_signed : bool) | Rspan (n : nat) (is_signed : bool) (k : nat) | Rbytes (k : nat) | Rskip (n k : nat) | Rrestart (k : nat).
Definition rop_ok (length : nat) (o : rop) : Prop :=
  match o with Rbool => True | Rval n _ => size_ok n | Rspan n _ _ => size_ok n | Rbytes _ => True | Rskip n _ => size_ok n | Rrestart k => (k <= length)%nat end.
Inductive rres : Type := Nothing | Abool (b : bool) | Aval (v : Z) | Aspan (vs : list Z) | Adone.
(** the number whose bytes these are *)
Definition number (big_endian is_signed : bool) (l : list Z) : Z :=
  let u := fold_right (fun b x => b + 256 * x) 0 (if big_endian then rev l else l) in
  let w := 8 * Z.of_nat (List.length l) in
  if is_signed && (2 ^ (w - 1) <=? u) then u - 2 ^ w else u.
(** the k consecutive groups of n bytes *)
Fixpoint groups (n k : nat) (l : list Z) : list (list Z) := match k with O => [] | S j => firstn n l :: groups n j (skipn n l) end.
Definition rop_size (o : rop) : nat := match o with Rbool => 1 | Rval n _ => n | Rspan n _ k => k * n | Rbytes k => k | Rskip n k => k * n | Rrestart _ => 0 end.
Definition spec_rop (big_endian : bool) (B : list Z) (o : rop) (p : nat) : rres * nat :=
  match o with
  | Rrestart k => (Adone, k)
  | _ =>
      if Nat.leb (p + rop_size o) (List.length B) then
        let l := firstn (rop_size o) (skipn p B) in
        (match o with
         | Rbool => Abool (negb (number big_endian false l =? 0))
         | Rval _ s => Aval (number big_endian s l)
         | Rspan n s k => Aspan (map (number big_endian s) (groups n k l))
         | Rbytes _ => Aspan l
         | _ => Adone
         end, (p + rop_size o)%nat)
      else (Nothing, p)
  end.
Fixpoint spec_rops (big_endian : bool) (B : list Z) (os : list rop) (p : nat) : list rres * nat :=
  match os with
  | [] => ([], p)
  | o :: r => let '(a, p) := spec_rop big_endian B o p in let '(l, p) := spec_rops big_endian B r p in (a :: l, p)
  end.
(** reading an item back *)
Definition item_read (i : item) : rop := match i with Ibool _ => Rbool | Ival n s _ => Rval n s | Ispan n s vs => Rspan n s (List.length vs) end.
Definition item_value (i : item) : rres := match i with Ibool b => Abool b | Ival _ _ v => Aval v | Ispan _ _ vs => Aspan vs end.
