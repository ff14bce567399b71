(** * Shared messages as a user sees them.  Independent of the code. *)
From Coq Require Import List Arith Bool.
From Verif Require Import Slots.
Import ListNotations.
(** Handle variables are numbered; a variable holds nothing yet ([None]), an empty handle ([Some None]) or a handle of the message in block [b] ([Some (Some b)]).
    Block [b] is a persistent message (not in any pool) if [persistent b]. *)
Notation var := (option (option nat)).
Inductive hop : Type :=
| Hcreate (h : nat) (block : option nat)    (** allocate from the pool; the pool hands out that block, or has none left *)
| Hwrap (h b : nat)                         (** handle of a persistent message *)
| Hcopy (h from : nat) | Hmove (h from : nat) | Hassign (h from : nat) | HmoveAssign (h from : nat) | Hdestroy (h : nat) | Hcount (h : nat) | Hvalid (h : nat).
Inductive hres : Type := Hreleased (bs : list nat) | Hn (n : nat) | Hb (b : bool) | Halloc_failure.
Definition get (s : list var) (h : nat) : var := match nth_error s h with Some v => v | None => None end.
(** the number of handles of the message in block [b] *)
Definition refs (b : nat) (s : list var) : nat := List.length (filter (fun v => match v with Some (Some c) => Nat.eqb c b | _ => false end) s).
Section Spec.
  Variable persistent : nat -> bool.
  (** what happens to the message a variable referred to, when the variables have become [s] *)
  Definition gone (v : var) (s : list var) : list nat :=
    match v with Some (Some b) => if negb (persistent b) && Nat.eqb (refs b s) 0 then [b] else [] | _ => [] end.
  Definition h_step (o : hop) (s : list var) : hres * list var :=
    match o with
    | Hcreate h (Some b) => (Hreleased [], upd s h (Some (Some b)))
    | Hcreate h None => (Halloc_failure, s)
    | Hwrap h b => (Hreleased [], upd s h (Some (Some b)))
    | Hcopy h f => (Hreleased [], upd s h (get s f))
    | Hmove h f => (Hreleased [], upd (upd s f (Some None)) h (get s f))
    | Hassign h f => let s' := upd s h (get s f) in (Hreleased (gone (get s h) s'), s')
    | HmoveAssign h f => if Nat.eqb h f then (Hreleased [], s) else let s' := upd (upd s f (Some None)) h (get s f) in (Hreleased (gone (get s h) s'), s')
    | Hdestroy h => let s' := upd s h None in (Hreleased (gone (get s h) s'), s')
    | Hcount h => (Hn (match get s h with Some (Some b) => if persistent b then 1 else refs b s | _ => 0 end), s)
    | Hvalid h => (Hb (match get s h with Some (Some _) => true | _ => false end), s)
    end.
  (** what a program may do: construct only in an unused variable, use only existing variables, and copy, assign or ask for the count only with non-empty handles;
      the pool hands out blocks that are free *)
  Definition allowed (o : hop) (s : list var) : Prop :=
    match o with
    | Hcreate h b => nth_error s h = Some None /\ match b with Some b => persistent b = false /\ refs b s = 0 | None => True end
    | Hwrap h b => nth_error s h = Some None /\ persistent b = true
    | Hcopy h f => nth_error s h = Some None /\ exists b, nth_error s f = Some (Some (Some b))
    | Hmove h f => nth_error s h = Some None /\ exists p, nth_error s f = Some (Some p)
    | Hassign h f => (exists b, nth_error s h = Some (Some (Some b))) /\ exists b, nth_error s f = Some (Some (Some b))
    | HmoveAssign h f => (exists b, nth_error s h = Some (Some (Some b))) /\ exists p, nth_error s f = Some (Some p)
    | Hdestroy h | Hvalid h => exists p, nth_error s h = Some (Some p)
    | Hcount h => exists b, nth_error s h = Some (Some (Some b))
    end.
  Fixpoint h_steps (os : list hop) (s : list var) : list hres * list var :=
    match os with [] => ([], s) | o :: r => let (x, s) := h_step o s in let (xs, s) := h_steps r s in (x :: xs, s) end.
  Fixpoint all_allowed (os : list hop) (s : list var) : Prop :=
    match os with [] => True | o :: r => allowed o s /\ all_allowed r (snd (h_step o s)) end.
End Spec.
