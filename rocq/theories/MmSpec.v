(** * Bounded multimaps and multisets: the sorted list.  Independent of the code.

    The state is the list of the elements in iteration order; an iterator is a position in it. *)
From Coq Require Import List Arith Bool.
From Verif Require Import SortSpec FlatSpec.
Import ListNotations.

Section Spec.
  Context {E K : Type}.
  Variable key : E -> K.
  Variable lt : K -> K -> bool.
  Variable N : nat.
  (** position [i] holds the first of the elements with its key *)
  Definition first_of_its_key (i : nat) (l : list E) : bool :=
    match nth_error l i with Some e => forallb (fun x => lt (key x) (key e)) (firstn i l) | None => false end.
  (** [None]: a call the client must not make, or one the theorem does not speak about: erase(iterator) and
      erase(first, last) are covered when the (first) iterator is at the first of the elements with its key *)
  Definition u_op (o : fop E K) (l : list E) : option (fres E * list E) :=
    match o with
    | Finsert e => Some (s_insert key lt N false e l)
    | Femplace _ | Fat _ | Findex _ => None
    | FinsertRange es => Some (s_insert_all key lt N false es l)
    | Fassign es => Some (s_insert_all key lt N false es [])
    | FeraseKey k => Some (Rn (List.length (filter (same_key key lt k) l)), filter (fun x => negb (same_key key lt k x)) l)
    | FeraseAt i => if first_of_its_key i l then Some (Rit i, firstn i l ++ skipn (S i) l) else None
    | FeraseRange a b => if (a <=? b) && (b <=? List.length l) && ((a =? b) || first_of_its_key a l) then Some (Rit a, firstn a l ++ skipn b l) else None
    | Fclear => Some (Runit, [])
    | Ffind k => Some (Rit (s_find key lt k l), l)
    | Fcontains k => Some (Rb (present key lt k l), l)
    | Fcount k => Some (Rn (List.length (filter (same_key key lt k) l)), l)
    | FlowerBound k => Some (Rit (before key lt k l), l)
    | FupperBound k => Some (Rit (upto key lt k l), l)
    | FequalRange k => Some (Rrange (before key lt k l) (upto key lt k l), l)
    | Fcontents => Some (Rl l, l)
    | Fsize => Some (Rn (List.length l), l)
    | Fempty => Some (Rb (List.length l =? 0), l)
    | Ffull => Some (Rb (List.length l =? N), l)
    | Favailable => Some (Rn (N - List.length l), l)
    end.
  Fixpoint u_ops (os : list (fop E K)) (l : list E) : option (list (fres E) * list E) :=
    match os with
    | [] => Some ([], l)
    | o :: r => match u_op o l with
                | Some (x, l') => match u_ops r l' with Some (xs, l'') => Some (x :: xs, l'') | None => None end
                | None => None
                end
    end.
End Spec.
