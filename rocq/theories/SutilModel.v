(** string_utilities.h. A string is its text and its capacity; what its members erase, insert, replace and find do is taken from the theorems C11 and C47
    about basic_string.h and written as the operations on the text below. A character is a number, a zero terminated text is the list of its characters (none is zero).
    A view is an offset into the characters it refers to, and a size. npos is None. None as the result of a function: undefined, or no end. *)
From Coq Require Import ZArith List Bool Arith.
Import ListNotations.
Definition chr := Z.
Definition text := list chr.
Definition among (cs : text) (c : chr) : bool := existsb (Z.eqb c) cs.
(** basic_string.h: 2117-2379 (and the same members of string_view.h): position of the first / last character that is / is not one of cs *)
Fixpoint first_by (p : chr -> bool) (l : text) (i : nat) : option nat := match l with [] => None | c :: l => if p c then Some i else first_by p l (S i) end.
Definition find_first_of (l cs : text) : option nat := first_by (among cs) l 0.
Definition find_first_not_of (l cs : text) : option nat := first_by (fun c => negb (among cs c)) l 0.
Definition last_by (p : chr -> bool) (l : text) : option nat := option_map (fun i => List.length l - 1 - i) (first_by p (rev l) 0).
Definition find_last_of (l cs : text) : option nat := last_by (among cs) l.
Definition find_last_not_of (l cs : text) : option nat := last_by (fun c => negb (among cs c)) l.
(** npos + 1 wraps to 0 *)
Definition plus1 (o : option nat) : nat := match o with Some p => S p | None => O end.
(** basic_string.h: 1282-1290: erase(position, length), length is limited; npos is larger than any length *)
Definition erase (l : text) (position : nat) (n : option nat) : option text :=
  if Nat.leb position (List.length l) then
    let n := match n with Some n => Nat.min n (List.length l - position) | None => List.length l - position end in Some (firstn position l ++ skipn (position + n) l)
  else None.
(** basic_string.h: 1328-1345: erase(first, last) *)
Definition erase_range (l : text) (a b : nat) : option text := if Nat.leb a b && Nat.leb b (List.length l) then Some (firstn a l ++ skipn b l) else None.

(** 130-134, 141-144 *)
Definition trim_from_left (s cs : text) : option text := erase s 0 (find_first_not_of s cs).
(** " \t\n\r\f\v", 72-78 *)
Definition whitespace : text := [32; 9; 10; 13; 12; 11]%Z.
Definition trim_whitespace_left (s : text) : option text := trim_from_left s whitespace.
(** 180-192 *)
Definition trim_left (s cs : text) : option text := match find_first_of s cs with None => Some [] | Some p => erase s 0 (Some p) end.
(** 221-224, 231-234 *)
Definition trim_from_right (s cs : text) : option text := erase s (plus1 (find_last_not_of s cs)) None.
Definition trim_whitespace_right (s : text) : option text := trim_from_right s whitespace.
(** 269-286 *)
Definition trim_right (s cs : text) : option text :=
  match find_last_of s cs with None => Some [] | Some p => if negb (Nat.eqb (S p) (List.length s)) then erase s (S p) None else Some s end.
(** 314-318, 325-328; 371-375 *)
Definition trim_from (s cs : text) : option text := match trim_from_left s cs with Some s => trim_from_right s cs | None => None end.
Definition trim_whitespace (s : text) : option text := trim_from s whitespace.
Definition trim (s cs : text) : option text := match trim_left s cs with Some s => trim_right s cs | None => None end.

(** string_view(pointer, distance(pointer, end)): offset and size; the argument view is the whole of l *)
Definition between (l : text) (b e : nat) : option (nat * nat) := if Nat.leb b e && Nat.leb e (List.length l) then Some (b, e - b) else None.
(** 151-163 *)
Definition trim_from_view_left (l cs : text) : option (nat * nat) := between l (match find_first_not_of l cs with Some f => f | None => List.length l end) (List.length l).
(** 199-214 *)
Definition trim_view_left (l cs : text) : option (nat * nat) := match find_first_of l cs with Some f => between l f (List.length l) | None => between l 0 0 end.
(** 241-253: last is never npos, because 1 has been added *)
Definition trim_from_view_right (l cs : text) : option (nat * nat) := between l 0 (plus1 (find_last_not_of l cs)).
(** 292-307 *)
Definition trim_view_right (l cs : text) : option (nat * nat) := between l 0 (plus1 (find_last_of l cs)).
(** 335-354 *)
Definition trim_from_view (l cs : text) : option (nat * nat) := between l (match find_first_not_of l cs with Some f => f | None => O end) (plus1 (find_last_not_of l cs)).
(** 382-401 *)
Definition trim_view (l cs : text) : option (nat * nat) := between l (match find_first_of l cs with Some f => f | None => O end) (plus1 (find_last_of l cs)).

(** 407-412 *)
Definition left_n (s : text) (n : nat) : option text := let n := if Nat.ltb (List.length s) n then List.length s else n in erase_range s n (List.length s).
(** 418-423: *view.begin() is a reference to a character, there is none in an empty view *)
Definition left_n_view (l : text) (n : nat) : option (nat * nat) := let n := if Nat.ltb (List.length l) n then List.length l else n in match l with [] => None | _ => between l 0 n end.
(** 429-434 *)
Definition right_n (s : text) (n : nat) : option text := let n := if Nat.ltb (List.length s) n then List.length s else n in erase_range s 0 (List.length s - n).
(** 440-445 *)
Definition right_n_view (l : text) (n : nat) : option (nat * nat) := let n := if Nat.ltb (List.length l) n then List.length l else n in between l (List.length l - n) (List.length l).
(** 452-455, etl::reverse swaps the ends until they meet (C32) *)
Definition reverse (s : text) : text := rev s.
(** 461-470: etl::replace puts [new] for every [old] *)
Definition replace_char (old new : chr) (s : text) : text := map (fun c => if Z.eqb c old then new else c) s.
Fixpoint replace_characters (s : text) (pairs : list (chr * chr)) : text := match pairs with [] => s | (a, b) :: pairs => replace_characters (replace_char a b s) pairs end.

(** basic_string.h: 2680-2698, find of a text from a position *)
Fixpoint prefix (n l : text) : bool := match n, l with [], _ => true | c :: n, d :: l => Z.eqb c d && prefix n l | _, [] => false end.
Fixpoint search (n l : text) (i : nat) : option nat := if prefix n l then Some i else match l with [] => None | _ :: l => search n l (S i) end.
Definition find (l n : text) (pos : nat) : option nat :=
  if Nat.ltb (List.length l) (pos + List.length n) then None
  else match search n (skipn pos l) pos with Some i => if Nat.eqb i (List.length l) then None else Some i | None => None end.
Section Cap.
Variable cap : nat.
(** basic_string.h: 1836-1850: replace(position, length, s, n), what does not fit is dropped *)
Definition replace (l : text) (position n : nat) (new : text) : text := firstn cap (firstn position l ++ new ++ skipn (position + n) l).
(** 485-495 *)
Fixpoint replace_loop (f : nat) (s old new : text) (position : nat) : option text :=
  match f with
  | O => None
  | S f => match find s old position with None => Some s | Some p => replace_loop f (replace s p (List.length old) new) old new (p + List.length new) end
  end.
(** 476-499 *)
Fixpoint replace_strings (f : nat) (s : text) (pairs : list (text * text)) : option text :=
  match pairs with [] => Some s | (a, b) :: pairs => match replace_loop f s a b 0 with Some s => replace_strings f s pairs | None => None end end.
(** insert(position, n, c): C11, what does not fit is dropped *)
Definition insert_fill (l : text) (position n : nat) (c : chr) : text := firstn cap (firstn position l ++ repeat c n ++ skipn position l).
(** 763-772 *)
Definition pad_left (s : text) (required_size : nat) (c : chr) : text :=
  let required_size := Nat.min required_size cap in if Nat.ltb (List.length s) required_size then insert_fill s 0 (required_size - List.length s) c else s.
(** 778-787 *)
Definition pad_right (s : text) (required_size : nat) (c : chr) : text :=
  let required_size := Nat.min required_size cap in if Nat.ltb (List.length s) required_size then insert_fill s (List.length s) (required_size - List.length s) c else s.
(** 793-814 *)
Inductive direction := LEFT | RIGHT.
Definition pad (s : text) (required_size : nat) (d : direction) (c : chr) : text := match d with LEFT => pad_left s required_size c | RIGHT => pad_right s required_size c end.
End Cap.

(** 505-545 and 551-599: the forms for iterators; [l] is the text between first and last, the result the position (the length for last) *)
Fixpoint it_first (p : chr -> bool) (l : text) : nat := match l with [] => O | c :: l => if p c then O else S (it_first p l) end.
Definition it_find_first_of (l cs : text) : nat := it_first (among cs) l.
Definition it_find_first_not_of (l cs : text) : nat := it_first (fun c => negb (among cs c)) l.
(** 605-651 and 657-703: do { --itr; ... } while (itr != end), [i] is itr *)
Fixpoint it_last (p : chr -> bool) (l : text) (i : nat) : option nat :=
  match i with O => None | S i => match nth_error l i with Some c => if p c then Some i else match i with O => Some (List.length l) | _ => it_last p l i end | None => None end end.
Definition it_find_last_by (p : chr -> bool) (l : text) : option nat := match l with [] => Some O | _ => it_last p l (List.length l) end.
Definition it_find_last_of (l cs : text) : option nat := it_find_last_by (among cs) l.
Definition it_find_last_not_of (l cs : text) : option nat := it_find_last_by (fun c => negb (among cs c)) l.

(** 717-757, get_token. [input] is None if data() is a null pointer, [last] is None if there is no last view or its data() is null. The loop goes round again
    only over empty tokens. The outer option: None if the loop does not end within f rounds or a view outside the input is made *)
Fixpoint token_loop (f : nat) (input delimiters : text) (last : option (nat * nat)) (position : nat) (ignore_empty_tokens : bool) : option (option (nat * nat)) :=
  match f with
  | O => None
  | S f =>
    let position := match last with Some (b, n) => b + n + 1 | None => position end in
    if match last with Some _ => Nat.ltb (List.length input) position | None => false end then Some None
    else match between input position (position + it_find_first_of (skipn position input) delimiters) with
         | None => None
         | Some (b, n) => if negb (Nat.eqb n 0) || negb ignore_empty_tokens then Some (Some (b, n)) else token_loop f input delimiters (Some (b, n)) position ignore_empty_tokens
         end
  end.
Definition get_token (f : nat) (input : option text) (delimiters : text) (last : option (nat * nat)) (ignore_empty_tokens : bool) : option (option (nat * nat)) :=
  match input with None => Some None | Some input => token_loop f input delimiters last 0 ignore_empty_tokens end.
(** the way it is used: call it with the last token until there is none; n bounds the number of calls *)
Fixpoint all_tokens (n f : nat) (input : option text) (delimiters : text) (last : option (nat * nat)) (ignore_empty_tokens : bool) : option (list (nat * nat)) :=
  match n with
  | O => None
  | S n => match get_token f input delimiters last ignore_empty_tokens with
           | None => None
           | Some None => Some []
           | Some (Some t) => option_map (cons t) (all_tokens n f input delimiters (Some t) ignore_empty_tokens)
           end
  end.
