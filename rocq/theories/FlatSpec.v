(** * Bounded ordered (multi)sets and (multi)maps.  Independent of the code.

    An element [e] has the key [key e]; keys are ordered by [lt].  For a set the key of an
    element is the element.  The state is the list of the elements in iteration order;
    an iterator is a position in it, the end is the position [length l]. *)
From Coq Require Import List Arith Bool.
From Verif Require Import SortSpec.
Import ListNotations.

Inductive flavour : Type := Set_ | Map_.
Section Spec.
  Context {E K : Type}.
  Variable key : E -> K.
  Variable lt : K -> K -> bool.
  Variable N : nat.            (** capacity *)
  Variable unique : bool.      (** set and map, or multiset and multimap *)
  Variable fl : flavour.
  Variable mk : K -> E.        (** operator[]: the element made from a key and a default value *)

  Inductive fop : Type :=
  | Finsert (e : E) | Femplace (e : E) | FinsertRange (es : list E) | Fassign (es : list E)
  | FeraseKey (k : K) | FeraseAt (i : nat) | FeraseRange (a b : nat) | Fclear
  | Ffind (k : K) | Fcontains (k : K) | Fcount (k : K) | FlowerBound (k : K) | FupperBound (k : K) | FequalRange (k : K)
  | Fat (k : K) | Findex (k : K) | Fcontents | Fsize | Fempty | Ffull | Favailable.
  Inductive fres : Type :=
  | Rit (i : nat) | Ritb (i : nat) (inserted : bool) | Rrange (a b : nat) | Rn (n : nat) | Rb (b : bool) | Re (e : E) | Rl (l : list E) | Runit | Rfull | Rout_of_bounds.

  Definition same_key (k : K) (e : E) : bool := equivalent lt (key e) k.
  (** how many elements come before [k], how many do not come after it *)
  Definition before (k : K) (l : list E) : nat := List.length (filter (fun x => lt (key x) k) l).
  Definition upto (k : K) (l : list E) : nat := List.length (filter (fun x => negb (lt k (key x))) l).
  Definition present (k : K) (l : list E) : bool := existsb (same_key k) l.
  (** a new element goes behind the elements that are not greater *)
  Definition inserted (e : E) (l : list E) : list E :=
    filter (fun x => negb (lt (key e) (key x))) l ++ e :: filter (fun x => lt (key e) (key x)) l.
  Definition s_insert (e : E) (l : list E) : fres * list E :=
    if unique && present (key e) l then (Ritb (before (key e) l) false, l)
    else if List.length l <? N then (Ritb (upto (key e) l) true, inserted e l) else (Rfull, l).
  (** emplace reports a full container even if the key is present; flat_set reports the end for a present key *)
  Definition s_emplace (e : E) (l : list E) : fres * list E :=
    if negb (List.length l <? N) then (Rfull, l)
    else if unique && present (key e) l then (Ritb (match fl with Set_ => List.length l | Map_ => before (key e) l end) false, l)
    else (Ritb (upto (key e) l) true, inserted e l).
  Fixpoint s_insert_all (es : list E) (l : list E) : fres * list E :=
    match es with
    | [] => (Runit, l)
    | e :: r => match s_insert e l with (Rfull, l') => (Rfull, l') | (_, l') => s_insert_all r l' end
    end.
  Definition s_find (k : K) (l : list E) : nat := if present k l then before k l else List.length l.
  (** [None]: a call the client must not make (an iterator that does not point to an element) *)
  Definition s_op (o : fop) (l : list E) : option (fres * list E) :=
    match o with
    | Finsert e => Some (s_insert e l)
    | Femplace e => Some (s_emplace e l)
    | FinsertRange es => Some (s_insert_all es l)
    | Fassign es => Some (if List.length es <=? N then s_insert_all es [] else (Rfull, l))
    | FeraseKey k => Some (Rn (List.length (filter (same_key k) l)), filter (fun x => negb (same_key k x)) l)
    | FeraseAt i => if i <? List.length l then Some (Rit i, firstn i l ++ skipn (S i) l) else None
    | FeraseRange a b => if (a <=? b) && (b <=? List.length l) then Some (Rit a, firstn a l ++ skipn b l) else None
    | Fclear => Some (Runit, [])
    | Ffind k => Some (Rit (s_find k l), l)
    | Fcontains k => Some (Rb (present k l), l)
    | Fcount k => Some (Rn (List.length (filter (same_key k) l)), l)
    | FlowerBound k => Some (Rit (before k l), l)
    | FupperBound k => Some (Rit (upto k l), l)
    | FequalRange k => Some (Rrange (before k l) (upto k l), l)
    | Fat k => Some (match find (same_key k) l with Some e => Re e | None => Rout_of_bounds end, l)
    | Findex k => Some (match find (same_key k) l with
                        | Some e => (Re e, l)
                        | None => if List.length l <? N then (Re (mk k), inserted (mk k) l) else (Rfull, l)
                        end)
    | Fcontents => Some (Rl l, l)
    | Fsize => Some (Rn (List.length l), l)
    | Fempty => Some (Rb (List.length l =? 0), l)
    | Ffull => Some (Rb (List.length l =? N), l)
    | Favailable => Some (Rn (N - List.length l), l)
    end.
  Fixpoint s_ops (os : list fop) (l : list E) : option (list fres * list E) :=
    match os with
    | [] => Some ([], l)
    | o :: r => match s_op o l with
                | Some (x, l') => match s_ops r l' with Some (xs, l'') => Some (x :: xs, l'') | None => None end
                | None => None
                end
    end.
  (** ascending by key; strictly for the unique containers *)
  Definition ordered (l : list E) : Prop :=
    forall i j a b, i < j -> nth_error l i = Some a -> nth_error l j = Some b -> if unique then lt (key a) (key b) = true else lt (key b) (key a) = false.
End Spec.
Arguments fop : clear implicits.
Arguments fres : clear implicits.
