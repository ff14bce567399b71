(** * A forward list as a sequence (independent of the code).
    Position 0 is before_begin(), position k is the k-th element, position length + 1 is end(). *)
From Coq Require Import List Arith Bool.
From Verif Require Import SortSpec ListSpec.
Import ListNotations.
Section Spec.
  Context {A : Type}.
  Inductive fop : Type :=
  | FpushFront (v : A) | FpopFront | FinsertAfter (k : nat) (v : A) | FinsertAfterN (k n : nat) (v : A) | FinsertAfterRange (k : nat) (vs : list A)
  | FeraseAfter (k : nat) | FeraseAfterRange (a b : nat) | Fresize (n : nat) (v : A) | Fclear | Fassign (vs : list A) | FassignN (n : nat) (v : A)
  | FremoveIf (p : A -> bool) | Funique (eq : A -> A -> bool) | Freverse | Fsort (lt : A -> A -> bool)
  | FmoveAfter (f t : nat) | FmoveAfterRange (a b t : nat)
  | Ffront | Fsize | Fempty | Ffull | Favailable | Fall.
  (** [Rat x]: an iterator at an element of value x, or end(); [Rfull], [Rempty]: the exceptions of the list, [Rpool]: the pool's *)
  Inductive fres : Type := Rok | Rfull | Rempty | Rpool | Rat (x : option A) | Rv (x : A) | Rn (n : nat) | Rb (b : bool) | Rl (l : list A).
  Variable cap : nat.       (** nodes of the pool *)
  Variable others : nat.    (** nodes of the pool used by others (0 unless the pool is shared) *)
  Variable check : bool.    (** ETL_CHECK_PUSH_POP *)
  Definition room (l : list A) : nat := cap - others - length l.
  (** as many of [vs] as there is room for, after position k *)
  Definition f_add (k : nat) (vs l : list A) : list A := ins k (firstn (room l) vs) l.
  Definition fits (vs l : list A) (e : fres) : fres := if length vs <=? room l then Rok else e.
  Definition f_step (o : fop) (l : list A) : fres * list A :=
    match o with
    | FpushFront v => if room l =? 0 then (if check then Rfull else Rpool, l) else (Rok, v :: l)
    | FpopFront => match l with [] => (if check then Rempty else Rok, l) | _ :: r => (Rok, r) end
    | FinsertAfter k v => if room l =? 0 then (Rfull, l) else (Rat (Some v), ins k [v] l)
    (* FINDING: n copies, or as many as there is room for: no error unless there is no room at all *)
    | FinsertAfterN k n v => if room l =? 0 then (Rfull, l) else (Rat (nth_error (f_add k (repeat v n) l) (if n =? 0 then k - 1 else k)), f_add k (repeat v n) l)
    | FinsertAfterRange k vs => (fits vs l Rpool, f_add k vs l)
    | FeraseAfter k => (Rat (nth_error l (S k)), cut k (S k) l)
    | FeraseAfterRange a b => if a =? b then (Rat None, l) else (Rat (nth_error l (b - 1)), cut a (b - 1) l)
    | Fresize n v => if cap <? n then (Rfull, l)
                     else if n <=? length l then (Rok, firstn n l)
                     else (fits (repeat v (n - length l)) l (match l with [] => Rpool | _ => Rfull end), f_add (length l) (repeat v (n - length l)) l)
    | Fclear => (Rok, [])
    | Fassign vs => (fits vs [] Rfull, f_add 0 vs [])
    | FassignN n v => if cap <? n then (Rfull, l) else (fits (repeat v n) [] Rpool, f_add 0 (repeat v n) [])
    | FremoveIf p => (Rok, filter (fun x => negb (p x)) l)
    | Funique eq => (Rok, match l with [] => [] | x :: r => x :: uniques (fun a b => eq b a) x r end)
    | Freverse => (Rok, rev l)
    | Fsort lt => (Rok, stable_sort lt l)
    | FmoveAfter f t => (Rok, if f =? t then l else if t <? f then ins t (seg f (S f) l) (cut f (S f) l) else ins (t - 1) (seg f (S f) l) (cut f (S f) l))
    (* FINDING: nothing moves when the target is the end of the range *)
    | FmoveAfterRange a b t => (Rok, if (a =? t) || (b =? t) then l
                                     else if t <? a then ins t (seg a (b - 1) l) (cut a (b - 1) l) else ins (t - (b - 1 - a)) (seg a (b - 1) l) (cut a (b - 1) l))
    | Ffront => (match l with x :: _ => Rv x | [] => Rok end, l)
    | Fsize => (Rn (length l), l)
    | Fempty => (Rb (match l with [] => true | _ => false end), l)
    | Ffull => (Rb (room l =? 0), l)
    | Favailable => (Rn (room l), l)
    | Fall => (Rl l, l)
    end.
  (** what a caller has to respect *)
  Definition allowed (o : fop) (l : list A) : Prop :=
    match o with
    | FinsertAfter k _ | FinsertAfterRange k _ => k <= length l
    | FinsertAfterN k n _ => k <= length l /\ (n = 0 -> 0 < k)   (* otherwise before_begin() is returned *)
    | FeraseAfter k => k <= length l
    | FeraseAfterRange a b => a <= b <= S (length l) /\ a <= length l
    | Fsort lt => strict_weak_order lt
    | FmoveAfter f t => f < length l /\ t <= length l /\ t <> S f            (* FINDING: t = f + 1 breaks the list *)
    | FmoveAfterRange a b t => S a < b <= S (length l) /\ t <= length l /\ (t <= a \/ b <= t)   (* FINDING: b = a + 1 breaks the list *)
    | Ffront => l <> []
    | _ => True
    end.
  Fixpoint f_steps (os : list fop) (l : list A) : list fres * list A :=
    match os with [] => ([], l) | o :: r => let (x, l) := f_step o l in let (xs, l) := f_steps r l in (x :: xs, l) end.
  Fixpoint all_allowed (os : list fop) (l : list A) : Prop :=
    match os with [] => True | o :: r => allowed o l /\ all_allowed r (snd (f_step o l)) end.
End Spec.
Arguments fop : clear implicits.
Arguments fres : clear implicits.
