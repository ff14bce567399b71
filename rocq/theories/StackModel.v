(** stack.h: istack<T> / stack<T, SIZE>. A slot of the buffer is Some v while it holds an object and None while it is raw memory; every construction and destruction is checked: the outcome Ub is an access outside
    the buffer, a read or destruction of raw memory, or a construction over a living object. Simplification: exceptions of the constructors of T are not modelled; moving and copying leave the same value. *)
From Coq Require Import List Arith Bool.
Import ListNotations.

Section Model.
Variables (T : Type) (SIZE_MAX : nat).
(** stack.h: 202-204, 528; the buffer has CAPACITY slots, 631 *)
Record stack := Stk { top_index : nat; current_size : nat; buf : list (option T) }.
Inductive outcome (A : Type) := Ok (s : A) | Error (s : A) | Ub.   (* Error: ETL_ASSERT failed; the state that it leaves *)
Arguments Ok {A}. Arguments Error {A}. Arguments Ub {A}.
Variables (CAPACITY : nat) (checked : bool) (triv : bool).   (* ETL_CHECK_PUSH_POP; is_trivially_destructible<T> *)

Fixpoint set_slot (b : list (option T)) (i : nat) (v : option T) : list (option T) := match b, i with [], _ => [] | _ :: t, 0 => v :: t | x :: t, S i => x :: set_slot t i v end.
(** ::new (&p_buffer[i]) T(v); stack.h: 260, 275 *)
Definition construct (s : stack) (v : T) : outcome stack :=
  match nth_error (buf s) (top_index s) with Some None => Ok (Stk (top_index s) (current_size s) (set_slot (buf s) (top_index s) (Some v)))
  | Some (Some _) => if triv then Ok (Stk (top_index s) (current_size s) (set_slot (buf s) (top_index s) (Some v))) else Ub | None => Ub end.
(** p_buffer[top_index].~T(); stack.h: 404, 418 *)
Definition destroy (s : stack) : outcome stack :=
  match nth_error (buf s) (top_index s) with Some (Some _) => Ok (Stk (top_index s) (current_size s) (set_slot (buf s) (top_index s) None)) | _ => Ub end.
(** stack.h: 159-164 *)
Definition ctor : stack := Stk 0 0 (repeat None CAPACITY).
(** stack.h: 115-152 *)
Definition empty (s : stack) : bool := Nat.eqb (current_size s) 0.
Definition full (s : stack) : bool := Nat.eqb (current_size s) CAPACITY.
Definition size (s : stack) : nat := current_size s.
Definition available (s : stack) : nat := CAPACITY - current_size s.
(** stack.h: 176-180 *)
Definition add_in (s : stack) : stack := Stk (current_size s) (S (current_size s)) (buf s).
(** stack.h: 185-190; the decrements of a size_t wrap *)
Definition dec (n : nat) : nat := match n with 0 => SIZE_MAX | S n => n end.
Definition del_out (s : stack) : stack := Stk (dec (top_index s)) (dec (current_size s)) (buf s).
(** stack.h: 254-261, 269-276, 286-295 *)
Definition push (s : stack) (v : T) : outcome stack := if checked && full s then Error s else construct (add_in s) v.
(** stack.h: 244-247, 386-389 *)
Definition top (s : stack) : option T := match nth_error (buf s) (top_index s) with Some x => x | None => None end.
(** stack.h: 413-420 *)
Definition pop (s : stack) : outcome stack := if checked && empty s then Error s else match destroy s with Ok s => Ok (del_out s) | r => r end.
(** stack.h: 425-429; None: a read of raw memory *)
Definition pop_into (s : stack) : option T * outcome stack := match top s with Some v => (Some v, pop s) | None => (None, Ub) end.
(** stack.h: 394-408; a trivially destructible object may stay in its slot: the slots are simply reused *)
Fixpoint clear_loop (n : nat) (s : stack) : outcome stack :=
  if Nat.ltb 0 (current_size s) then match n with 0 => Ub | S n => match destroy s with Ok s => clear_loop n (del_out s) | r => r end end else Ok s.
Definition clear (s : stack) : outcome stack := if triv then Ok (Stk 0 0 (buf s)) else clear_loop (current_size s) s.
(** algorithm.h: 343-356: b < --e; stack.h: 446-449. A raw slot is never read *)
Fixpoint reverse_loop (n : nat) (b : list (option T)) (i e : nat) : option (list (option T)) :=
  match e with 0 => None | S e => if Nat.ltb i e then match n with 0 => None | S n =>
    match nth_error b i, nth_error b e with Some (Some x), Some (Some y) => reverse_loop n (set_slot (set_slot b i (Some y)) e (Some x)) (S i) e | _, _ => None end end else Some b end.
Definition reverse (s : stack) : outcome stack :=
  if Nat.eqb 0 (current_size s) then Ok s else match reverse_loop (current_size s) (buf s) 0 (current_size s) with Some b => Ok (Stk (top_index s) (current_size s) b) | None => Ub end.
(** stack.h: 485-495, 501-511, 454-463: the stack is assigned from another one *)
Fixpoint push_all (s : stack) (l : list (option T)) : outcome stack :=
  match l with [] => Ok s | None :: _ => Ub | Some v :: l => match push s v with Ok s => push_all s l | r => r end end.
Definition clone (s other : stack) : outcome stack := match clear s with Ok s => push_all s (firstn (current_size other) (buf other)) | r => r end.
End Model.
