(** * Bounded hash maps and sets as finite maps.  Independent of the code.

    The contents are a list of elements with distinct keys, in no meaningful order: the results of a program may differ
    from those of the specification by the order of the elements it lists ([same_result]).  An iterator result is
    reported as the element it points to, [None] for the end. *)
From Coq Require Import List Arith Bool Permutation.
From Verif Require Import FlatSpec.
Import ListNotations.

Section Spec.
  Context {E K : Type}.
  Variable key : E -> K.
  Variable keq : K -> K -> bool.     (** key equality *)
  Variable N : nat.                  (** capacity *)
  Variable fl : flavour.             (** unordered_set or unordered_map *)
  Variable mk : K -> E.              (** operator[]: the element made from a key and a default value *)

  Inductive uop : Type :=
  | Uinsert (e : E) | UinsertRange (es : list E) | Uassign (es : list E)
  | UeraseKey (k : K) | UeraseFound (k : K) | Uclear
  | Ufind (k : K) | Ucontains (k : K) | Ucount (k : K) | UequalRange (k : K)
  | Uat (k : K) | Uindex (k : K) | Ucontents | Usize | Uempty | Ufull | Uavailable.
  Inductive ures : Type :=
  | Uit (o : option E) | Uitb (o : option E) (inserted : bool) | Un (n : nat) | Ub (b : bool) | Ue (e : E) | Ul (l : list E)
  | Uunit | Ufull_error | Urange_error | Ualloc_error.

  Definition has_key (k : K) (e : E) : bool := keq k (key e).
  Definition lookup (k : K) (l : list E) : option E := find (has_key k) l.
  Definition remove_key (k : K) (l : list E) : list E := filter (fun e => negb (has_key k e)) l.
  (** a set that is full still accepts a key it has; a map does not *)
  Definition u_insert (e : E) (l : list E) : ures * list E :=
    match lookup (key e) l with
    | Some x => if List.length l <? N then (Uitb None false, l)
                else match fl with Set_ => (Uitb (Some x) false, l) | Map_ => (Ufull_error, l) end
    | None => if List.length l <? N then (Uitb (Some e) true, l ++ [e]) else (Ufull_error, l)
    end.
  Fixpoint u_insert_all (es : list E) (l : list E) : ures * list E :=
    match es with
    | [] => (Uunit, l)
    | e :: r => match u_insert e l with (Ufull_error, l') => (Ufull_error, l') | (_, l') => u_insert_all r l' end
    end.
  Definition u_op (o : uop) (l : list E) : option (ures * list E) :=
    match o with
    | Uinsert e => Some (u_insert e l)
    | UinsertRange es => Some (u_insert_all es l)
    | Uassign es => Some (u_insert_all es [])
    | UeraseKey k => Some (Un (match lookup k l with Some _ => 1 | None => 0 end), remove_key k l)
    | UeraseFound k => match lookup k l with Some _ => Some (Uunit, remove_key k l) | None => None end
    | Uclear => Some (Uunit, [])
    | Ufind k => Some (Uit (lookup k l), l)
    | Ucontains k => Some (Ub (match lookup k l with Some _ => true | None => false end), l)
    | Ucount k => Some (Un (match lookup k l with Some _ => 1 | None => 0 end), l)
    | UequalRange k => Some (Ul (match lookup k l with Some x => [x] | None => [] end), l)
    | Uat k => match fl with Set_ => None | Map_ => Some (match lookup k l with Some x => Ue x | None => Urange_error end, l) end
    | Uindex k => match fl with
                  | Set_ => None
                  | Map_ => Some (match lookup k l with
                                  | Some x => (Ue x, l)
                                  | None => if List.length l <? N then (Ue (mk k), l ++ [mk k]) else (Ualloc_error, l)
                                  end)
                  end
    | Ucontents => Some (Ul l, l)
    | Usize => Some (Un (List.length l), l)
    | Uempty => Some (Ub (List.length l =? 0), l)
    | Ufull => Some (Ub (List.length l =? N), l)
    | Uavailable => Some (Un (N - List.length l), l)
    end.
  Fixpoint u_ops (os : list uop) (l : list E) : option (list ures * list E) :=
    match os with
    | [] => Some ([], l)
    | o :: r => match u_op o l with
                | Some (x, l') => match u_ops r l' with Some (xs, l'') => Some (x :: xs, l'') | None => None end
                | None => None
                end
    end.
  Definition same_result (a b : ures) : Prop :=
    match a, b with Ul x, Ul y => Permutation x y | _, _ => a = b end.
  (** no two elements have the same key *)
  Fixpoint distinct (l : list E) : Prop :=
    match l with [] => True | e :: r => (forall x, In x r -> keq (key e) (key x) = false) /\ distinct r end.
End Spec.
Arguments uop : clear implicits.
Arguments ures : clear implicits.
(** the key equality is an equivalence and the hash function respects it *)
Record hashable {K : Type} (keq : K -> K -> bool) (hash : K -> nat) : Prop := {
  keq_refl : forall a, keq a a = true;
  keq_sym : forall a b, keq a b = true -> keq b a = true;
  keq_trans : forall a b c, keq a b = true -> keq b c = true -> keq a c = true;
  hash_keq : forall a b, keq a b = true -> hash a = hash b }.
