(** private/to_string_helper.h (integers, booleans, denominated integers), basic_format_spec.h and
    to_arithmetic.h (integers). A text is the list of its character codes. The destination string is
    large enough (no truncation); floating point conversions are not modelled. *)
From Coq Require Import ZArith List Bool.
From Verif Require Import Util BinaryModel.
Import ListNotations.
Open Scope Z_scope.

(** basic_format_spec.h: 209-256: base, width and precision are uint_least8_t *)
Record fmt := mkfmt { base : Z; fwidth : nat; prec : nat; upper : bool; left_just : bool; boolalpha : bool; show_base : bool; fill : Z }.
Definition default_fmt : fmt := mkfmt 10 0 0 false false false false 32.

(** private/to_string_helper.h: 70-89; [before] is what the string held before [position] *)
Definition add_alignment (before text : list Z) (f : fmt) : list Z :=
  if (List.length text <? fwidth f)%nat then
    let fill_length := (fwidth f - List.length text)%nat in
    if left_just f then before ++ text ++ repeat (fill f) fill_length
    else before ++ repeat (fill f) fill_length ++ text
  else before ++ text.
(** private/to_string_helper.h: 95-137 *)
Definition add_boolean (value : bool) (str : list Z) (f : fmt) (append : bool) : list Z :=
  let str := if append then str else [] in
  add_alignment str
    (if boolalpha f then (if value then [116; 114; 117; 101] else [102; 97; 108; 115; 101])
     else if value then [49] else [48]) f.
(** private/to_string_helper.h: 175: 'A' + (r - 10), 'a' + (r - 10) or '0' + r *)
Definition digit_char (up : bool) (r : Z) : Z := if 9 <? r then (if up then 65 + (r - 10) else 97 + (r - 10)) else 48 + r.
(** private/to_string_helper.h: 172-177: % and / truncate towards zero; the characters are pushed least
    significant first. None: [fuel] used up *)
Fixpoint digits_loop (fuel : nat) (value : Z) (f : fmt) : option (list Z) :=
  if value =? 0 then Some []
  else match fuel with
       | O => None
       | S k => match digits_loop k (Z.quot value (base f)) f with
                | None => None
                | Some r => Some (digit_char (upper f) (Z.abs (Z.rem value (base f))) :: r)
                end
       end.
(** private/to_string_helper.h: 143-221; value of a 32 or 64 bit type *)
Definition add_integral (value : Z) (str : list Z) (f : fmt) (append negative : bool) : option (list Z) :=
  let str := if append then str else [] in
  if value =? 0 then
    Some (add_alignment str ((if (base f =? 10) && negative then [45] else []) ++ [48]) f)
  else
    match digits_loop 64 value f with
    | None => None
    | Some ds =>
        let ds := ds ++ (if (base f =? 10) && negative then [45] else []) in
        let ds := ds ++ (if show_base f then
                           if base f =? 2 then [(if upper f then 66 else 98); 48]
                           else if base f =? 8 then [48]
                           else if base f =? 16 then [(if upper f then 88 else 120); 48]
                           else []
                         else []) in
        Some (add_alignment str (rev ds) f)
    end.
(** private/to_string_helper.h: 530-554. [is64]: T is int64_t or uint64_t; every other integral type
    (also long long where int64_t is long) is converted to 32 bits *)
Definition to_string (is64 signed : bool) (value : Z) (str : list Z) (f : fmt) (append : bool) : option (list Z) :=
  let v := if is64 then value else if signed then sg 32 value else tr 32 value in
  add_integral v str f append (signed && (value <? 0)).

(** private/to_string_helper.h: 250-289 *)
Definition add_integral_and_fractional (integral fractional : Z) (str : list Z) (fi ff : fmt) (negative : bool) : option (list Z) :=
  match add_integral integral str fi true negative with
  | None => None
  | Some s => if (0 <? prec ff)%nat then add_integral fractional (s ++ [46]) ff true false else Some s
  end.
(** the loop 384-387 (and 415-418): n multiplications by 10 in w bits *)
Fixpoint times10 (w : Z) (n : nat) (x : Z) : Z := match n with O => x | S k => times10 w k (tr w (x * 10)) end.
(** the loop 429-432 *)
Fixpoint over10 (n : nat) (x : Z) : Z := match n with O => x | S k => over10 k (x / 10) end.
(** absolute.h: 73-92 (T of w bits) *)
Definition absolute_unsigned (w : Z) (signed : bool) (v : Z) : Z :=
  if signed then if v =? - 2 ^ (w - 1) then (2 ^ w - 1) / 2 + 1 else if v <? 0 then tr w (- v) else tr w v else v.
(** private/to_string_helper.h: 364-437; working_t is unsigned of w bits (32 or 64) *)
Definition add_integral_denominated (w : Z) (signed : bool) (value : Z) (e : nat) (str : list Z) (f : fmt) (append : bool) : option (list Z) :=
  let str := if append then str else [] in
  let denominator := times10 w e 1 in
  let abs_value := absolute_unsigned w signed value in
  let shown := if (e <? prec f)%nat then e else prec f in
  let fi := mkfmt 10 0 (prec f) (upper f) (left_just f) (boolalpha f) (show_base f) (fill f) in
  let ff := mkfmt 10 shown shown (upper f) false (boolalpha f) (show_base f) 48 in
  let abs_value := if (shown <? e)%nat then tr w (abs_value + times10 32 (e - shown - 1) 5) else abs_value in
  let integral := abs_value / denominator in
  let fractional := over10 (e - shown) (abs_value mod denominator) in
  match add_integral_and_fractional integral fractional [] fi ff (signed && (value <? 0)) with
  | None => None
  | Some text => Some (add_alignment str text f)
  end.

(** ** to_arithmetic.h *)
(** to_arithmetic.h: 58-66 *)
Inductive conv := Value (v : Z) | Invalid_Radix | Invalid_Format | Signed_To_Unsigned | Overflow.
(** to_arithmetic.h: 309-326: static_cast<char> (8 bits, signed) and to_lower *)
Definition convert (c : Z) : Z := let c := sg 8 c in if (65 <=? c) && (c <=? 90) then c + 32 else c.
(** to_arithmetic.h: 232-266 *)
Definition is_valid (c radix : Z) : bool :=
  if radix =? 2 then (48 <=? c) && (c <=? 49)
  else if radix =? 8 then (48 <=? c) && (c <=? 55)
  else if radix =? 10 then (48 <=? c) && (c <=? 57)
  else if radix =? 16 then ((48 <=? c) && (c <=? 57)) || ((97 <=? c) && (c <=? 102))
  else false.
(** to_arithmetic.h: 272-303 *)
Definition digit_value (c radix : Z) : Z :=
  if (radix =? 2) || (radix =? 8) || (radix =? 10) then c - 48
  else if radix =? 16 then (if (48 <=? c) && (c <=? 57) then c - 48 else (c - 97) + 10)
  else 0.
(** to_arithmetic.h: 388-429 and the loop 698-702; the accumulator type is unsigned of wa bits *)
Fixpoint accumulate (wa radix maximum : Z) (text : list Z) (v : Z) : conv :=
  match text with
  | [] => Value v
  | c :: t =>
      let c := convert c in
      if is_valid c radix then
        let old := v in
        let v := tr wa (v * radix) in
        if v / radix =? old then
          let digit := digit_value c radix in
          if v <=? tr wa (maximum - digit) then accumulate wa radix maximum t (tr wa (v + digit)) else Overflow
        else Overflow
      else Invalid_Format
  end.
(** to_arithmetic.h: 361-367 *)
Definition is_valid_radix (radix : Z) : bool := (radix =? 2) || (radix =? 8) || (radix =? 10) || (radix =? 16).
(** to_arithmetic.h: 335-353 *)
Definition remove_sign (text : list Z) : bool * list Z :=
  match text with
  | [] => (false, [])
  | c :: t => if (convert c =? 43) || (convert c =? 45) then (convert c =? 45, t) else (false, text)
  end.
(** to_arithmetic.h: 652-678 *)
Definition acc_bits (w : Z) : Z := if w =? 64 then 64 else 32.
(** to_arithmetic.h: 724-784; TValue has w bits *)
Definition to_arithmetic (w : Z) (signed : bool) (text : list Z) (radix : Z) : conv :=
  if is_valid_radix radix then
    let (is_negative, view) := remove_sign text in
    match view with
    | [] => Invalid_Format
    | _ =>
        if is_negative && negb signed then Signed_To_Unsigned
        else
          let maximum :=
            if is_negative then absolute_unsigned w signed (- 2 ^ (w - 1))
            else if radix =? 10 then (if signed then 2 ^ (w - 1) - 1 else 2 ^ w - 1)
            else 2 ^ w - 1 in
          match accumulate (acc_bits w) radix maximum view 0 with
          | Value a =>
              let uvalue := tr w a in
              Value (if is_negative then sg w (0 - uvalue) else if signed then sg w uvalue else uvalue)
          | e => e
          end
    end
  else Invalid_Radix.
