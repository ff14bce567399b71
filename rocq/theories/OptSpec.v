(** What a program using optionals sees: a map from its variables to "holds v"
    or "holds nothing", independently of the code. *)
From Coq Require Import List String Bool Arith.
From Verif Require Import Cmd.
Import ListNotations.

Inductive cmpop := CEq | CNe | CLt | CLe | CGt | CGe.
Inductive operand (T : Type) := OVar (i : nat) | ONull | OVal (v : T).
Arguments OVar {T}. Arguments ONull {T}. Arguments OVal {T}.
Inductive oop (T : Type) :=
| New (i : nat) | NewVal (i : nat) (v : T) | NewCopy (i j : nat) | Drop (i : nat)
| SetNull (i : nat) | SetOpt (move : bool) (i j : nat) | SetVal (i : nat) (v : T) | SetHeld (i j : nat)
| Emplace (i : nat) (v : T) | Emplace03 (i : nat) (v : T) | Reset (i : nat) | Swap (i j : nat)
| HasValue (i : nat) | Value (i : nat) | ValueOr (i : nat) (v : T)
| Cmp (c : cmpop) (l r : operand T).
Arguments New {T}. Arguments NewVal {T}. Arguments NewCopy {T}. Arguments Drop {T}. Arguments SetNull {T}.
Arguments SetOpt {T}. Arguments SetVal {T}. Arguments SetHeld {T}. Arguments Emplace {T}. Arguments Emplace03 {T}.
Arguments Reset {T}. Arguments Swap {T}. Arguments HasValue {T}. Arguments Value {T}. Arguments ValueOr {T}. Arguments Cmp {T}.
Inductive ores (T : Type) := RUnit | RBool (b : bool) | RVal (v : T).
Arguments RUnit {T}. Arguments RBool {T}. Arguments RVal {T}.

Section Spec.
Context {T : Type}.
Variable moved : T -> T.
Variable cmpT : T -> T -> comparison.
(** T is a fundamental type: its constructors do not throw, and assigning the
    held value to its own optional is allowed *)
Variable fund : bool.

(** [None]: no such variable; [Some None]: empty; [Some (Some v)]: holds v *)
Definition amap := nat -> option (option T).
Definition aset (a : amap) (i : nat) (x : option (option T)) : amap := fun j => if j =? i then x else a j.
(** nothing is less than something *)
Definition ocmp (x y : option T) : comparison :=
  match x, y with None, None => Eq | None, Some _ => Lt | Some _, None => Gt | Some u, Some v => cmpT u v end.
Definition test (c : cmpop) (r : comparison) : bool :=
  match c, r with
  | CEq, Eq | CLt, Lt | CGt, Gt => true
  | CNe, (Lt | Gt) | CLe, (Lt | Eq) | CGe, (Gt | Eq) => true
  | _, _ => false
  end.
Definition operand_value (a : amap) (o : operand T) : option (option T) :=
  match o with OVar i => a i | ONull => Some None | OVal v => Some (Some v) end.
Definition has_var (o : operand T) : bool := match o with OVar _ => true | _ => false end.

Definition done (a : amap) : option (obs (ores T) * amap) := Some (Returned RUnit, a).
Definition answer (r : ores T) (a : amap) : option (obs (ores T) * amap) := Some (Returned r, a).
(** A new object is put into variable i, whose content was [old].  If the
    constructor of T throws ([t]) nothing changes - provided the variable was
    empty: [None] stands for the case that the specification does not cover. *)
Definition put (t : bool) (old : option T) (a a' : amap) : option (obs (ores T) * amap) :=
  if t then (if fund then None else match old with None => Some (Threw "T"%string, a) | Some _ => None end) else done a'.
Definition spec_op (t : bool) (o : oop T) (a : amap) : option (obs (ores T) * amap) :=
  match o with
  | New i => match a i with None => done (aset a i (Some None)) | Some _ => None end
  | NewVal i v => match a i with None => put t None a (aset a i (Some (Some v))) | Some _ => None end
  | NewCopy i j =>
      match a i, a j with
      | None, Some None => done (aset a i (Some None))
      | None, Some (Some v) => put t None a (aset a i (Some (Some v)))
      | _, _ => None
      end
  | Drop i => match a i with Some _ => done (aset a i None) | None => None end
  | SetNull i | Reset i => match a i with Some _ => done (aset a i (Some None)) | None => None end
  | SetOpt mv i j =>
      match a i, a j with
      | Some x, Some y =>
          if i =? j then done a else
          match y with
          | None => done (aset a i (Some None))
          | Some v => put t x a (let b := aset a i (Some (Some v)) in
                                 if mv && negb fund then aset b j (Some (Some (moved v))) else b)
          end
      | _, _ => None
      end
  | SetVal i v | Emplace i v => match a i with Some x => put t x a (aset a i (Some (Some v))) | None => None end
  | SetHeld i j =>
      match a i, a j with
      | Some x, Some None => Some (Threw "optional_invalid"%string, a)
      | Some x, Some (Some v) =>
          if (i =? j) && negb fund then None else put t x a (aset a i (Some (Some v)))
      | _, _ => None
      end
  | Emplace03 i v =>
      match a i with
      | Some x => if t then (if fund then None else Some (Threw "T"%string, aset a i (Some None)))
                  else done (aset a i (Some (Some v)))
      | None => None
      end
  | Swap i j =>
      match a i, a j with
      | Some x, Some y => if t then None else done (aset (aset a i (Some y)) j (Some x))
      | _, _ => None
      end
  | HasValue i => match a i with Some x => answer (RBool (match x with Some _ => true | None => false end)) a | None => None end
  | Value i =>
      match a i with
      | Some (Some v) => answer (RVal v) a
      | Some None => Some (Threw "optional_invalid"%string, a)
      | None => None
      end
  | ValueOr i v => match a i with Some x => answer (RVal (match x with Some u => u | None => v end)) a | None => None end
  | Cmp c l r =>
      if has_var l || has_var r then
        match operand_value a l, operand_value a r with
        | Some x, Some y => answer (RBool (test c (ocmp x y))) a
        | _, _ => None
        end
      else None
  end.
Definition spec (c : bool * oop T) (a : amap) : option (obs (ores T) * amap) := spec_op (fst c) (snd c) a.
Definition nothing : amap := fun _ => None.
End Spec.
Arguments amap : clear implicits.

(** A history a program may perform without provoking exceptions of T: live
    variables are used, dead ones are created, and no optional is assigned its
    own content by reference. *)
Section Scoped.
Context {T : Type}.
Variable fund : bool.
Definition live := nat -> bool.
Definition lset (l : live) (i : nat) (b : bool) : live := fun j => if j =? i then b else l j.
Definition scoped_op (l : live) (o : oop T) : option live :=
  match o with
  | New i | NewVal i _ => if l i then None else Some (lset l i true)
  | NewCopy i j => if negb (l i) && l j then Some (lset l i true) else None
  | Drop i => if l i then Some (lset l i false) else None
  | SetNull i | SetVal i _ | Emplace i _ | Emplace03 i _ | Reset i | HasValue i | Value i | ValueOr i _ =>
      if l i then Some l else None
  | SetOpt _ i j | Swap i j => if l i && l j then Some l else None
  | SetHeld i j => if l i && l j && (fund || negb (i =? j)) then Some l else None
  | Cmp _ (OVar i) (OVar j) => if l i && l j then Some l else None
  | Cmp _ (OVar i) _ | Cmp _ _ (OVar i) => if l i then Some l else None
  | Cmp _ _ _ => None
  end.
Fixpoint scoped (l : live) (h : list (oop T)) : Prop :=
  match h with [] => True | o :: r => match scoped_op l o with Some l' => scoped l' r | None => False end end.
End Scoped.
