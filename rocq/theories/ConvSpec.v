(** Specification of the conversions between integers and texts. *)
From Coq Require Import ZArith List Bool.
From Verif Require Import ConvModel.
Import ListNotations.
Open Scope Z_scope.

(** the value of a character as a digit of the radix: 0-9, then a-f or A-F *)
Definition digit (radix c : Z) : option Z :=
  let d := if (48 <=? c) && (c <=? 57) then c - 48
           else if (97 <=? c) && (c <=? 102) then c - 87
           else if (65 <=? c) && (c <=? 70) then c - 55
           else radix in
  if d <? radix then Some d else None.
(** the number written by digits, most significant first *)
Definition number (radix : Z) (ds : list Z) : Z := fold_left (fun a d => a * radix + d) ds 0.
(** the leading characters that are digits, and the rest *)
Fixpoint leading (radix : Z) (text : list Z) : list Z * list Z :=
  match text with
  | [] => ([], [])
  | c :: t => match digit radix c with
              | Some d => let (ds, rest) := leading radix t in (d :: ds, rest)
              | None => ([], text)
              end
  end.
(** range of the type with w bits *)
Definition low (w : Z) (signed : bool) : Z := if signed then - 2 ^ (w - 1) else 0.
Definition high (w : Z) (signed : bool) : Z := if signed then 2 ^ (w - 1) - 1 else 2 ^ w - 1.
Definition fits (w : Z) (signed : bool) (v : Z) : Prop := low w signed <= v <= high w signed.
(** in the other bases a text without a minus sign may use all the w bits of a signed type *)
Definition largest (w : Z) (signed : bool) (radix : Z) (negative : bool) : Z :=
  if negative then - low w signed else if radix =? 10 then high w signed else 2 ^ w - 1.
(** the value of the type with the same bit pattern *)
Definition same_bits (w : Z) (signed : bool) (n : Z) : Z :=
  if signed && (2 ^ (w - 1) <=? n) then n - 2 ^ w else n.

(** what the text means *)
Definition parse (w : Z) (signed : bool) (radix : Z) (text : list Z) : conv :=
  let '(negative, body) :=
    match text with
    | c :: t => if c =? 45 then (true, t) else if c =? 43 then (false, t) else (false, text)
    | [] => (false, [])
    end in
  match body with
  | [] => Invalid_Format
  | _ =>
      if negative && negb signed then Signed_To_Unsigned
      else
        let (ds, rest) := leading radix body in
        if largest w signed radix negative <? number radix ds then Overflow
        else match rest with
             | [] => Value (if negative then - number radix ds else same_bits w signed (number radix ds))
             | _ => Invalid_Format
             end
  end.

(** [ds] are the digits of n: no leading zero, one digit for 0 *)
Definition digits_of (radix n : Z) (ds : list Z) : Prop :=
  number radix ds = n /\ Forall (fun d => 0 <= d < radix) ds /\ ds <> [] /\ (n <> 0 -> hd 0 ds <> 0) /\ (n = 0 -> ds = [0]).
(** characters of digits *)
Definition chars (up : bool) (ds : list Z) : list Z :=
  map (fun d => if d <? 10 then d + 48 else if up then d + 55 else d + 87) ds.
(** padded to the width *)
Definition padded (f : fmt) (t : list Z) : list Z :=
  let gap := repeat (fill f) (fwidth f - List.length t)%nat in
  if left_just f then t ++ gap else gap ++ t.
(** the prefix that shows the base *)
Definition prefix (f : fmt) : list Z :=
  if show_base f then
    if base f =? 2 then [48; if upper f then 66 else 98]
    else if base f =? 8 then [48]
    else if base f =? 16 then [48; if upper f then 88 else 120]
    else []
  else [].

(** denominated integers: v / 10^e rounded (half away from zero) to p decimals, as an integer number of
    10^-p *)
Definition rounded (v : Z) (e p : nat) : Z :=
  let unit := 10 ^ Z.of_nat (e - p) in (2 * Z.abs v + unit) / (2 * unit).
