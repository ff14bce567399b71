(** * Specification of a bounded double-ended sequence (property C09), independent
    of the code: positions are distances from the first element. *)
From Coq Require Import List Arith Bool String.
From Verif Require Import Cmd.
Import ListNotations.

Inductive dop (T : Type) :=
| PushBack (x : T) | PushFront (x : T) | PopBack | PopFront
| Insert (p : nat) (x : T) | Emplace (p : nat) (x : T)
| InsertN (p n : nat) (x : T) | InsertRange (p : nat) (xs : list T)
| Erase (p : nat) | EraseRange (p q : nat)
| Resize (n : nat) (x : T) | AssignN (n : nat) (x : T) | AssignRange (xs : list T)
| Fill (x : T) | Clear
| At (i : nat) | Index (i : nat) | Front | Back | Iterate | ReverseIterate
| Size | Available | IsEmpty | IsFull.
Arguments PushBack {T}. Arguments PushFront {T}. Arguments PopBack {T}. Arguments PopFront {T}.
Arguments Insert {T}. Arguments Emplace {T}. Arguments InsertN {T}. Arguments InsertRange {T}.
Arguments Erase {T}. Arguments EraseRange {T}. Arguments Resize {T}. Arguments AssignN {T}.
Arguments AssignRange {T}. Arguments Fill {T}. Arguments Clear {T}. Arguments At {T}.
Arguments Index {T}. Arguments Front {T}. Arguments Back {T}. Arguments Iterate {T}.
Arguments ReverseIterate {T}. Arguments Size {T}. Arguments Available {T}.
Arguments IsEmpty {T}. Arguments IsFull {T}.

(** what a call gives back *)
Inductive dres (T : Type) :=
| RUnit | RPos (p : nat) | RElem (x : T) | RList (l : list T) | RNat (n : nat) | RBool (b : bool).
Arguments RUnit {T}. Arguments RPos {T}. Arguments RElem {T}. Arguments RList {T}.
Arguments RNat {T}. Arguments RBool {T}.

Section Spec.
  Context {T : Type}.
  (** capacity; [SZ]: modulus of the unsigned count type; [chk]: push/pop checking
      is switched on; [quiet]: an element that is move-assigned to itself keeps its value *)
  Variables (cap SZ : nat) (chk : bool) (quiet : Prop).

  (** insert [xs] before position [p]; remove positions [p, q) *)
  Definition ins (l : list T) (p : nat) (xs : list T) : list T := firstn p l ++ xs ++ skipn p l.
  Definition del (l : list T) (p q : nat) : list T := firstn p l ++ skipn q l.

  (** What the caller must respect: positions in range; no access to elements
      that do not exist; an insertion of nothing, or erasure of nothing, only for
      element types that tolerate self move assignment or at the ends; counts that
      do not wrap; without push/pop checking, no push on a full deque and no pop of
      an empty one. *)
  Definition allowed (o : dop T) (l : list T) : Prop :=
    match o with
    | Insert p _ | Emplace p _ => p <= List.length l
    | PushBack _ | PushFront _ => chk = true \/ List.length l < cap
    | PopBack | PopFront => chk = true \/ l <> []
    | AssignRange xs => chk = true \/ List.length xs <= cap
    | InsertN p n _ => p <= List.length l /\ List.length l + n < SZ /\ (n = 0 -> quiet \/ p = 0 \/ p = List.length l)
    | InsertRange p xs => p <= List.length l /\ (xs = [] -> quiet \/ p = 0 \/ p = List.length l)
    | Erase p => p < List.length l
    | EraseRange p q => p <= q <= List.length l /\ (p = q -> quiet \/ p = 0 \/ p = List.length l)
    | Index i => i < List.length l
    | Front | Back => l <> []
    | _ => True
    end.

  Definition fits (r : dres T) (l l' : list T) : obs (dres T) * list T :=
    if List.length l' <=? cap then (Returned r, l') else (Threw "deque_full", l).

  (** what a call observes, and the sequence afterwards *)
  Definition spec (o : dop T) (l : list T) : obs (dres T) * list T :=
    match o with
    | PushBack x => fits RUnit l (l ++ [x])
    | PushFront x => fits RUnit l (x :: l)
    | PopBack => match l with [] => (Threw "deque_empty", l) | _ => (Returned RUnit, removelast l) end
    | PopFront => match l with [] => (Threw "deque_empty", l) | _ => (Returned RUnit, tl l) end
    | Insert p x | Emplace p x => fits (RPos p) l (ins l p [x])
    | InsertN p n x => fits (RPos p) l (ins l p (repeat x n))
    | InsertRange p xs => fits (RPos p) l (ins l p xs)
    | Erase p => (Returned (RPos p), del l p (p + 1))
    | EraseRange p q => (Returned (RPos p), del l p q)
    | Resize n x => fits RUnit l (firstn n l ++ repeat x (n - List.length l))
    | AssignN n x => fits RUnit l (repeat x n)
    | AssignRange xs => fits RUnit (firstn cap xs) xs
    | Fill x => (Returned RUnit, map (fun _ => x) l)
    | Clear => (Returned RUnit, [])
    | At i => match nth_error l i with
              | Some x => (Returned (RElem x), l) | None => (Threw "deque_out_of_bounds", l) end
    | Index i => match nth_error l i with
                 | Some x => (Returned (RElem x), l) | None => (Threw "unreachable", l) end
    | Front => match l with x :: _ => (Returned (RElem x), l) | [] => (Threw "unreachable", l) end
    | Back => match rev l with x :: _ => (Returned (RElem x), l) | [] => (Threw "unreachable", l) end
    | Iterate => (Returned (RList l), l)
    | ReverseIterate => (Returned (RList (rev l)), l)
    | Size => (Returned (RNat (List.length l)), l)
    | Available => (Returned (RNat (cap - List.length l)), l)
    | IsEmpty => (Returned (RBool (List.length l =? 0)), l)
    | IsFull => (Returned (RBool (List.length l =? cap)), l)
    end.

  (** a whole history *)
  Fixpoint spec_hist (os : list (dop T)) (l : list T) : list (obs (dres T)) * list T :=
    match os with
    | [] => ([], l)
    | o :: r => let '(x, l1) := spec o l in let '(y, l2) := spec_hist r l1 in (x :: y, l2)
    end.
  Fixpoint all_allowed (os : list (dop T)) (l : list T) : Prop :=
    match os with [] => True | o :: r => allowed o l /\ all_allowed r (snd (spec o l)) end.
End Spec.
