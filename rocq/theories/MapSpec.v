(** * The bounded ordered map and set, by the operations of FlatSpec.v.  Independent of the code.

    It differs from the specification of the flat containers only in what a full container does:
    the insertion into a full map reports the exception even if the key is present, the one into a full set does not. *)
From Coq Require Import List Arith Bool.
From Verif Require Import SortSpec FlatSpec.
Import ListNotations.

Section Spec.
  Context {E K : Type}.
  Variable key : E -> K.
  Variable lt : K -> K -> bool.
  Variable N : nat.
  Variable fl : flavour.
  Variable mk : K -> E.
  Definition t_insert (e : E) (l : list E) : fres E * list E :=
    match fl with
    | Set_ => s_insert key lt N true e l
    | Map_ => if List.length l <? N then s_insert key lt N true e l else (Rfull, l)
    end.
  Fixpoint t_insert_all (es : list E) (l : list E) : fres E * list E :=
    match es with
    | [] => (Runit, l)
    | e :: r => match t_insert e l with (Rfull, l') => (Rfull, l') | (_, l') => t_insert_all r l' end
    end.
  Definition t_op (o : fop E K) (l : list E) : option (fres E * list E) :=
    match o with
    | Finsert e => Some (t_insert e l)
    | Femplace _ => None
    | FinsertRange es => Some (t_insert_all es l)
    | Fassign es => Some (t_insert_all es [])
    | Fat _ | Findex _ => match fl with Set_ => None | Map_ => s_op key lt N true fl mk o l end
    | _ => s_op key lt N true fl mk o l
    end.
  Fixpoint t_ops (os : list (fop E K)) (l : list E) : option (list (fres E) * list E) :=
    match os with
    | [] => Some ([], l)
    | o :: r => match t_op o l with
                | Some (x, l') => match t_ops r l' with Some (xs, l'') => Some (x :: xs, l'') | None => None end
                | None => None
                end
    end.
End Spec.
