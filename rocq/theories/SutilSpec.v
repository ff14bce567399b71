(** What the string utilities mean. Only text and chr come from the model. *)
From Coq Require Import ZArith List Bool Arith.
From Verif Require Import SutilModel.
Import ListNotations.
(** t is l without the leading characters of cs *)
Definition StripLeft (cs l t : text) : Prop := exists a, l = a ++ t /\ Forall (fun c => In c cs) a /\ (forall c t', t = c :: t' -> ~ In c cs).
Definition StripRight (cs l t : text) : Prop := exists b, l = t ++ b /\ Forall (fun c => In c cs) b /\ (forall c t', t = t' ++ [c] -> ~ In c cs).
(** t is what is left of l from the first character of cs on; nothing if there is none *)
Definition FromDelimiter (cs l t : text) : Prop :=
  exists a, l = a ++ t /\ Forall (fun c => ~ In c cs) a /\ (forall c t', t = c :: t' -> In c cs) \/ t = [] /\ Forall (fun c => ~ In c cs) l.
Definition ToDelimiter (cs l t : text) : Prop :=
  exists b, l = t ++ b /\ Forall (fun c => ~ In c cs) b /\ (forall c t', t = t' ++ [c] -> In c cs) \/ t = [] /\ Forall (fun c => ~ In c cs) l.
(** the part of l that a view shows *)
Definition shown (l : text) (v : nat * nat) : text := firstn (snd v) (skipn (fst v) l).
(** the pieces of a text that is cut at every delimiter; a text with k delimiters has k + 1 pieces *)
Inductive Pieces (cs : text) : text -> list text -> Prop :=
| pieces_last t : Forall (fun c => ~ In c cs) t -> Pieces cs t [t]
| pieces_more t c l ts : Forall (fun c => ~ In c cs) t -> In c cs -> Pieces cs l ts -> Pieces cs (t ++ c :: l) (t :: ts).
(** every leftmost occurrence of old is replaced, going on behind it *)
Definition occurs_at (old l : text) (i : nat) : Prop := exists a b, l = a ++ old ++ b /\ List.length a = i.
Inductive Replaced (old new : text) : text -> text -> Prop :=
| replaced_none l : (forall i, ~ occurs_at old l i) -> Replaced old new l l
| replaced_more a b b' : (forall i, i < List.length a -> ~ occurs_at old (a ++ old ++ b) i) -> Replaced old new b b' -> Replaced old new (a ++ old ++ b) (a ++ new ++ b').
(** one pair after the other *)
Inductive ReplacedAll : list (text * text) -> text -> text -> Prop :=
| all_nil l : ReplacedAll [] l l
| all_cons old new ps l l' l'' : Replaced old new l l' -> ReplacedAll ps l' l'' -> ReplacedAll ((old, new) :: ps) l l''.
