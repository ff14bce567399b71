(** What the user of a stack knows: the list of its elements, the top one last *)
From Coq Require Import List Arith Bool.
From Verif Require Import StackModel.
Import ListNotations.

Section Spec.
Variables (T : Type) (SIZE_MAX CAPACITY : nat) (checked triv : bool).
Inductive call := push_ (v : T) | pop_ | clear_ | reverse_ | assign_ (other : stack T).
(** the values an initialised other stack holds *)
Definition holds (o : stack T) (l : list T) : Prop := firstn (current_size T o) (buf T o) = map Some l.
(** effect of a call on the list; true: it is an error *)
Inductive effect : list T -> call -> list T -> bool -> Prop :=
| e_push l v : length l < CAPACITY -> effect l (push_ v) (l ++ [v]) false
| e_push_full l v : length l = CAPACITY -> effect l (push_ v) l true
| e_pop l v : effect (l ++ [v]) pop_ l false
| e_pop_empty : effect [] pop_ [] true
| e_clear l : effect l clear_ [] false
| e_reverse l : effect l reverse_ (rev l) false
| e_assign l o lo : holds o lo -> length lo <= CAPACITY -> effect l (assign_ o) lo false
| e_assign_full l o lo : holds o lo -> CAPACITY < length lo -> effect l (assign_ o) (firstn CAPACITY lo) true.
(** the call of the code *)
Definition run (s : stack T) (c : call) : outcome (stack T) :=
  match c with push_ v => push T CAPACITY checked triv s v | pop_ => pop T SIZE_MAX checked s | clear_ => clear T SIZE_MAX triv s | reverse_ => reverse T s | assign_ o => clone T SIZE_MAX CAPACITY checked triv s o end.
(** any number of calls from the construction on: the state s, and the list l a user has computed *)
Inductive history : stack T -> list T -> Prop :=
| h_ctor : history (ctor T CAPACITY) []
| h_ok s l c s' l' : history s l -> effect l c l' false -> run s c = Ok _ s' -> history s' l'
| h_error s l c s' l' : history s l -> effect l c l' true -> run s c = Error _ s' -> history s' l'.
End Spec.
