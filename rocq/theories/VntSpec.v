(** What a program using variants / expecteds sees: each variable holds one
    alternative (its index) with a value; independently of the code. *)
From Coq Require Import List String Bool Arith.
From Verif Require Import Cmd.
Import ListNotations.

(** Types are named by numbers; a variant has a list of them. *)
Inductive vop (V : Type) :=
| VNew (i : nat) | VNewVal (i t : nat) (v : V) | VNewIdx (i k : nat) (v : V) | VNewFrom (move : bool) (i j : nat) | VDrop (i : nat)
| VEmplaceT (i t : nat) (v : V) | VEmplaceI (i k : nat) (v : V) | VSetVal (i t : nat) (v : V) | VSetHeld (i j k : nat)
| VSet (move : bool) (i j : nat) | VSwap (i j : nat)
| VIndex (i : nat) | VValueless (i : nat) | VHoldsT (i t : nat) | VHoldsI (i k : nat) | VSame (i j : nat)
| VGetI (i k : nat) | VGetT (i t : nat) | VGetIf (i k : nat) | VGetRv (i k : nat) | VVisit (i : nat).
Arguments VNew {V}. Arguments VNewVal {V}. Arguments VNewIdx {V}. Arguments VNewFrom {V}. Arguments VDrop {V}.
Arguments VEmplaceT {V}. Arguments VEmplaceI {V}. Arguments VSetVal {V}. Arguments VSetHeld {V}. Arguments VSet {V}. Arguments VSwap {V}.
Arguments VIndex {V}. Arguments VValueless {V}. Arguments VHoldsT {V}. Arguments VHoldsI {V}. Arguments VSame {V}.
Arguments VGetI {V}. Arguments VGetT {V}. Arguments VGetIf {V}. Arguments VGetRv {V}. Arguments VVisit {V}.
Inductive vres (V : Type) := VUnit | VBool (b : bool) | VNat (n : nat) | VVal (v : V) | VPtr (p : option V) | VSeen (k : nat) (v : V).
Arguments VUnit {V}. Arguments VBool {V}. Arguments VNat {V}. Arguments VVal {V}. Arguments VPtr {V}. Arguments VSeen {V}.

Section Spec.
Context {V : Type}.
Variable moved : V -> V.
(** the default value of a type *)
Variable dflt : nat -> V.
(** the types of the alternatives *)
Variable TS : list nat.

(** [is_first k t]: alternative k is the first of type t *)
Definition is_first (k t : nat) : bool :=
  match nth_error TS k with Some u => (u =? t) && negb (existsb (Nat.eqb t) (firstn k TS)) | None => false end.
Definition first_of (t : nat) : option nat := find (fun k => is_first k t) (seq 0 (List.length TS)).

Definition vmap := nat -> option (nat * V).
Definition vset (a : vmap) (i : nat) (x : option (nat * V)) : vmap := fun j => if j =? i then x else a j.
Definition vdone (a : vmap) : option (obs (vres V) * vmap) := Some (Returned VUnit, a).
Definition vans (r : vres V) (a : vmap) : option (obs (vres V) * vmap) := Some (Returned r, a).
Definition bad_type : string := "variant_incorrect_type".
(** a constructor of a variable: if the element constructor throws the variable does not come to life *)
Definition make (t : bool) (a : vmap) (i k : nat) (v : V) : option (obs (vres V) * vmap) :=
  if t then Some (Threw "T"%string, a) else vdone (vset a i (Some (k, v))).
(** a new value for a live variable: throwing constructors are not covered *)
Definition change_ (t : bool) (a : vmap) : option (obs (vres V) * vmap) := if t then None else vdone a.
Definition vspec_op (t : bool) (o : vop V) (a : vmap) : option (obs (vres V) * vmap) :=
  match o with
  | VNew i => match a i with None => make t a i 0 (dflt (nth 0 TS 0)) | _ => None end
  | VNewVal i u v => match a i, first_of u with None, Some k => make t a i k v | _, _ => None end
  | VNewIdx i k v => match a i with None => if k <? List.length TS then make t a i k v else None | _ => None end
  | VNewFrom mv i j =>
      match a i, a j with
      | None, Some (k, v) =>
          if t then Some (Threw "T"%string, a)
          else vdone (let b := vset a i (Some (k, v)) in if mv then vset b j (Some (k, moved v)) else b)
      | _, _ => None
      end
  | VDrop i => match a i with Some _ => vdone (vset a i None) | None => None end
  | VEmplaceT i u v | VSetVal i u v =>
      match a i, first_of u with Some _, Some k => change_ t (vset a i (Some (k, v))) | _, _ => None end
  | VEmplaceI i k v => match a i with Some _ => if k <? List.length TS then change_ t (vset a i (Some (k, v))) else None | None => None end
  | VSetHeld i j k =>
      match a i, a j with
      | Some _, Some (l, v) =>
          if k =? l then
            (if i =? j then None else match first_of (nth k TS 0) with Some m => change_ t (vset a i (Some (m, v))) | None => None end)
          else if k <? List.length TS then Some (Threw bad_type, a) else None
      | _, _ => None
      end
  | VSet mv i j =>
      match a i, a j with
      | Some _, Some (k, v) =>
          if i =? j then vdone a
          else change_ t (let b := vset a i (Some (k, v)) in if mv then vset b j (Some (k, moved v)) else b)
      | _, _ => None
      end
  | VSwap i j => match a i, a j with Some x, Some y => change_ t (vset (vset a i (Some y)) j (Some x)) | _, _ => None end
  | VIndex i => match a i with Some (k, _) => vans (VNat k) a | None => None end
  | VValueless i => match a i with Some _ => vans (VBool false) a | None => None end
  | VHoldsT i u => match a i, first_of u with Some (k, _), Some m => vans (VBool (k =? m)) a | _, _ => None end
  | VHoldsI i m => match a i with Some (k, _) => vans (VBool (k =? m)) a | None => None end
  | VSame i j => match a i, a j with Some (k, _), Some (m, _) => vans (VBool (k =? m)) a | _, _ => None end
  | VGetI i m =>
      match a i with
      | Some (k, v) => if m <? List.length TS then (if k =? m then vans (VVal v) a else Some (Threw bad_type, a)) else None
      | None => None
      end
  | VGetT i u =>
      match a i, first_of u with
      | Some (k, v), Some m => if k =? m then vans (VVal v) a else Some (Threw bad_type, a)
      | _, _ => None
      end
  | VGetIf i m =>
      match a i with
      | Some (k, v) => if m <? List.length TS then vans (VPtr (if k =? m then Some v else None)) a else None
      | None => None
      end
  | VGetRv i m =>
      (* get<m>(std::move(v)): covered only for the alternative held *)
      match a i with Some (k, v) => if k =? m then vans (VVal v) a else None | None => None end
  | VVisit i => match a i with Some (k, v) => vans (VSeen k v) a | None => None end
  end.
Definition vspec (c : bool * vop V) (a : vmap) : option (obs (vres V) * vmap) := vspec_op (fst c) (snd c) a.
Definition vnothing : vmap := fun _ => None.
End Spec.
Arguments vmap : clear implicits.

(** ** expected<T, E>: holds a value or an error *)
Inductive eop (V : Type) :=
| ENew (i : nat) | ENewVal (i : nat) (v : V) | ENewErr (i : nat) (e : V) | ENewUnexpect (i : nat) (e : V)
| ENewFrom (move : bool) (i j : nat) | EDrop (i : nat)
| ESetVal (i : nat) (v : V) | ESetErr (i : nat) (e : V) | ESet (move : bool) (i j : nat) | EEmplace (i : nat) (v : V) | ESwap (i j : nat)
| EHas (i : nat) | EValue (i : nat) | EError (i : nat) | EDeref (i : nat) | EValueOr (i : nat) (v : V) | EEq (i j : nat).
Arguments ENew {V}. Arguments ENewVal {V}. Arguments ENewErr {V}. Arguments ENewUnexpect {V}. Arguments ENewFrom {V}. Arguments EDrop {V}.
Arguments ESetVal {V}. Arguments ESetErr {V}. Arguments ESet {V}. Arguments EEmplace {V}. Arguments ESwap {V}.
Arguments EHas {V}. Arguments EValue {V}. Arguments EError {V}. Arguments EDeref {V}. Arguments EValueOr {V}. Arguments EEq {V}.
Section ESpec.
Context {V : Type}.
Variable moved : V -> V.
Variable dval : V.
Variable eqv eqe : V -> V -> bool.
(** the value and the error type are different *)
Variable distinct : bool.
(** inl v: a value; inr e: an error *)
Definition emap := nat -> option (V + V).
Definition eset (a : emap) (i : nat) (x : option (V + V)) : emap := fun j => if j =? i then x else a j.
Definition emoved (x : V + V) : V + V := match x with inl v => inl (moved v) | inr e => inr (moved e) end.
Definition edone (a : emap) : option (obs (vres V) * emap) := Some (Returned VUnit, a).
Definition eans (r : vres V) (a : emap) : option (obs (vres V) * emap) := Some (Returned r, a).
Definition emake (t : bool) (a : emap) (i : nat) (x : V + V) : option (obs (vres V) * emap) :=
  match a i with None => if t then Some (Threw "T"%string, a) else edone (eset a i (Some x)) | Some _ => None end.
Definition echange (t : bool) (a : emap) (i : nat) (x : V + V) : option (obs (vres V) * emap) :=
  match a i with Some _ => if t then None else edone (eset a i (Some x)) | None => None end.
Definition espec_op (t : bool) (o : eop V) (a : emap) : option (obs (vres V) * emap) :=
  match o with
  | ENew i => emake t a i (inl dval)
  | ENewVal i v => emake t a i (inl v)
  | ENewErr i e => emake t a i (inr e)
  | ENewUnexpect i e => if distinct then emake t a i (inr e) else None
  | ENewFrom mv i j =>
      match a i, a j with
      | None, Some x => if t then Some (Threw "T"%string, a)
                        else edone (let b := eset a i (Some x) in if mv then eset b j (Some (emoved x)) else b)
      | _, _ => None
      end
  | EDrop i => match a i with Some _ => edone (eset a i None) | None => None end
  | ESetVal i v | EEmplace i v => echange t a i (inl v)
  | ESetErr i e => echange t a i (inr e)
  | ESet mv i j =>
      match a i, a j with
      | Some _, Some x =>
          if i =? j then edone a
          else if t then None else edone (let b := eset a i (Some x) in if mv then eset b j (Some (emoved x)) else b)
      | _, _ => None
      end
  | ESwap i j => match a i, a j with Some x, Some y => if t then None else edone (eset (eset a i (Some y)) j (Some x)) | _, _ => None end
  | EHas i => match a i with Some x => eans (VBool (match x with inl _ => true | inr _ => false end)) a | None => None end
  | EValue i => match a i with Some (inl v) => eans (VVal v) a | Some (inr _) => Some (Threw bad_type, a) | None => None end
  | EError i => match a i with Some (inr e) => eans (VVal e) a | Some (inl _) => Some (Threw bad_type, a) | None => None end
  | EDeref i => match a i with Some (inl v) => eans (VVal v) a | Some (inr _) => Some (Threw "expected_invalid"%string, a) | None => None end
  | EValueOr i v => match a i with Some x => eans (VVal (match x with inl u => u | inr _ => v end)) a | None => None end
  | EEq i j =>
      match a i, a j with
      | Some (inl u), Some (inl v) => eans (VBool (eqv u v)) a
      | Some (inr u), Some (inr v) => eans (VBool (eqe u v)) a
      | Some _, Some _ => eans (VBool false) a
      | _, _ => None
      end
  end.
Definition espec (c : bool * eop V) (a : emap) : option (obs (vres V) * emap) := espec_op (fst c) (snd c) a.
Definition enothing : emap := fun _ => None.
End ESpec.
Arguments emap : clear implicits.
