(** * Specification of a bounded sequence (property C10), independent of the code. *)
From Coq Require Import List Arith Bool String.
Import ListNotations.

(** Operations of etl::vector, with positions given as distances from begin(). *)
Inductive vop (T : Type) :=
| OpPushBack (x : T) | OpEmplaceBack (x : T) | OpPopBack
| OpInsert (p : nat) (x : T) | OpInsertMove (p : nat) (x : T) | OpEmplace (p : nat) (x : T)
| OpInsertN (p n : nat) (x : T) | OpInsertRange (p : nat) (xs : list T)
| OpErase (p : nat) | OpEraseRange (p q : nat)
| OpResize (n : nat) (x : T) | OpAssignN (n : nat) (x : T) | OpAssignRange (xs : list T)
| OpFill (x : T) | OpClear.
Arguments OpPushBack {T}. Arguments OpEmplaceBack {T}. Arguments OpPopBack {T}.
Arguments OpInsert {T}. Arguments OpInsertMove {T}. Arguments OpEmplace {T}.
Arguments OpInsertN {T}. Arguments OpInsertRange {T}. Arguments OpErase {T}.
Arguments OpEraseRange {T}. Arguments OpResize {T}. Arguments OpAssignN {T}.
Arguments OpAssignRange {T}. Arguments OpFill {T}. Arguments OpClear {T}.

Section Spec.
  Context {T : Type}.
  Variable cap : nat.

  (** insert [xs] before position [p] *)
  Definition ins (l : list T) (p : nat) (xs : list T) : list T := firstn p l ++ xs ++ skipn p l.
  (** remove positions [p, q) *)
  Definition del (l : list T) (p q : nat) : list T := firstn p l ++ skipn q l.

  (** the positions an operation is given must be valid *)
  Definition valid (l : list T) (o : vop T) : Prop :=
    match o with
    | OpInsert p _ | OpInsertMove p _ | OpEmplace p _ | OpInsertN p _ _ | OpInsertRange p _ => p <= List.length l
    | OpErase p => p < List.length l
    | OpEraseRange p q => p <= q <= List.length l
    | _ => True
    end.

  Inductive outcome := Content (l : list T) | Error (e : string).

  Definition bounded (l : list T) : outcome :=
    if List.length l <=? cap then Content l else Error "vector_full".

  (** what the operation does to the mathematical sequence [l] *)
  Definition spec (l : list T) (o : vop T) : outcome :=
    match o with
    | OpPushBack x | OpEmplaceBack x => bounded (l ++ [x])
    | OpPopBack => match l with [] => Error "vector_empty" | _ => Content (removelast l) end
    | OpInsert p x | OpInsertMove p x | OpEmplace p x => bounded (ins l p [x])
    | OpInsertN p n x => bounded (ins l p (repeat x n))
    | OpInsertRange p xs => bounded (ins l p xs)
    | OpErase p => Content (del l p (p + 1))
    | OpEraseRange p q => Content (del l p q)
    | OpResize n x => bounded (firstn n l ++ repeat x (n - List.length l))
    | OpAssignN n x => bounded (repeat x n)
    | OpAssignRange xs => bounded xs
    | OpFill x => Content (map (fun _ => x) l)
    | OpClear => Content []
    end.

  (** the position an operation returns, if it returns one *)
  Definition spec_ret (o : vop T) : option nat :=
    match o with
    | OpInsert p _ | OpInsertMove p _ | OpEmplace p _ | OpErase p | OpEraseRange p _ => Some p
    | _ => None
    end.

  (** a whole history: an operation that reports an error changes nothing *)
  Fixpoint spec_run (l : list T) (os : list (vop T)) : list T :=
    match os with
    | [] => l
    | o :: r => spec_run (match spec l o with Content l' => l' | Error _ => l end) r
    end.
End Spec.
