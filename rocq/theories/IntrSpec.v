(** Specification of the intrusive links and containers: a chain of nodes is a list of addresses. *)
From Coq Require Import List Arith.
From Verif Require Import Dll IntrModel.
Import ListNotations.

(** The nodes of [l], in this order, are linked both ways, and the ends lead to [t]. With t = 0 (null) this is
    a null terminated chain; otherwise t is the terminal node of a circular list, itself linked to both ends. *)
Definition through (h : links) (t : nat) (l : list nat) : Prop :=
  NoDup (t :: l) /\ ~ In 0 l /\
  (t <> 0 -> nxt h t = hd t l /\ prv h t = last l t) /\
  (forall p x q, l = p ++ x :: q -> nxt h x = hd t q /\ prv h x = last p t).
(** a segment: neighbours are linked both ways, nothing is said about its ends *)
Definition segment (h : links) (m : list nat) : Prop :=
  m <> [] /\ NoDup m /\ ~ In 0 m /\ forall p x y q, m = p ++ x :: y :: q -> nxt h x = y /\ prv h y = x.
(** a node that belongs to nothing *)
Definition loose (h : links) (x : nat) : Prop := nxt h x = 0 /\ prv h x = 0.
(** only the links of nodes in [s] differ (the "node" 0 does not count) *)
Definition only (s : list nat) (h h' : links) : Prop := forall y, y <> 0 -> ~ In y s -> nxt h' y = nxt h y /\ prv h' y = prv h y.
(** nothing in common *)
Definition apart (a b : list nat) : Prop := forall x, In x a -> In x b -> False.

(** forward links: the nodes of [l] in this order, then [t] *)
Definition forward (n : nat -> nat) (t : nat) (l : list nat) : Prop :=
  NoDup (t :: l) /\ ~ In 0 l /\ forall p x q, l = p ++ x :: q -> n x = hd t q.
Definition f_only (s : list nat) (n n' : nat -> nat) : Prop := forall y, ~ In y s -> n' y = n y.

(** the intrusive_list object [l] holds the nodes [xs]: they form a ring through its terminal node, and its size is their number *)
Definition holds (h : links) (l : ilist) (xs : list nat) : Prop := trm l <> 0 /\ through h (trm l) xs /\ isize l = length xs.
(** an intrusive_stack holds [xs], the top first; an intrusive_queue holds [xs], the front first *)
Definition s_holds (term : nat) (s : stack) (xs : list nat) : Prop :=
  term <> 0 /\ snext s term = 0 /\ forward (snext s) term xs /\ p_top s = hd term xs /\ ssize s = length xs.
Definition q_holds (term : nat) (s : queue) (xs : list nat) : Prop :=
  term <> 0 /\ qnext s term = hd term xs /\ forward (qnext s) term xs /\ (xs <> [] -> p_back s = last xs 0) /\ qsize s = length xs.
