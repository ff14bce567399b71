(** * State machines as a user sees them.  Independent of the code.

    A state is a number below [n].  What the user's state classes do is arbitrary: [b_process], [b_enter] and [b_exit] change the
    user's data W in any way and return any id.  What is observed is the sequence of calls. *)
From Coq Require Import List Arith Bool.
Import ListNotations.

Inductive call (Ms : Type) : Type := Process (s : nat) (m : Ms) | Exit (s : nat) | Enter (s : nat).
Arguments Process {Ms}. Arguments Exit {Ms}. Arguments Enter {Ms}.
Inductive status : Type := Done | Bad_state_id | Not_started | Null_state | Change_forbidden.
Record behaviour (W Ms : Type) : Type := {
  b_process : nat -> Ms -> W -> W * nat;
  b_enter : nat -> W -> W * nat;
  b_exit : nat -> W -> W }.
Arguments b_process {W Ms}. Arguments b_enter {W Ms}. Arguments b_exit {W Ms}.

Section Fsm.
  Context {W Ms : Type}.
  Variable B : behaviour W Ms.
  Variable n : nat.         (** the number of states *)
  Variable max : nat.       (** the largest fsm_state_id_t *)
  (** the three special ids *)
  Definition no_state_change : nat := max.
  Definition pass_to_parent : nat := max - 1.
  Definition self_transition : nat := max - 2.

  (** entering [t], and what follows from what its enter action asks for *)
  Inductive arrives : nat -> W -> list (call Ms) -> status -> nat -> W -> Prop :=
  | a_stay t w w' r : b_enter B t w = (w', r) -> r = t \/ r = no_state_change \/ r = self_transition -> arrives t w [Enter t] Done t w'
  | a_bad t w w' r : b_enter B t w = (w', r) -> n <= r -> r <> t -> r <> no_state_change -> r <> self_transition -> arrives t w [Enter t] Bad_state_id t w'
  | a_go t w w' r tr st u w'' : b_enter B t w = (w', r) -> r < n -> r <> t -> arrives r (b_exit B t w') tr st u w'' -> arrives t w (Enter t :: Exit t :: tr) st u w''.
  (** a message in state [s] *)
  Inductive receives (m : Ms) : nat -> W -> list (call Ms) -> status -> nat -> W -> Prop :=
  | r_stay s w w' r : b_process B s m w = (w', r) -> r = s \/ r = no_state_change -> r <> self_transition -> receives m s w [Process s m] Done s w'
  | r_self s w w' r : b_process B s m w = (w', r) -> r = self_transition -> receives m s w [Process s m; Exit s; Enter s] Done s (fst (b_enter B s (b_exit B s w')))
  | r_bad s w w' r : b_process B s m w = (w', r) -> n <= r -> r <> s -> r <> no_state_change -> r <> self_transition -> receives m s w [Process s m] Bad_state_id s w'
  | r_go s w w' r tr st u w'' : b_process B s m w = (w', r) -> r < n -> r <> s -> arrives r (b_exit B s w') tr st u w'' -> receives m s w (Process s m :: Exit s :: tr) st u w''.
  (** the states that start() runs through: entered one after the other, none of them exited *)
  Inductive starts : nat -> W -> list (call Ms) -> status -> nat -> W -> Prop :=
  | s_stay t w w' r : b_enter B t w = (w', r) -> r = t \/ r = no_state_change -> starts t w [Enter t] Done t w'
  | s_bad t w w' r : b_enter B t w = (w', r) -> n <= r -> r <> no_state_change -> starts t w [Enter t] Bad_state_id t w'
  | s_go t w w' r tr st u w'' : b_enter B t w = (w', r) -> r < n -> r <> t -> starts r w' tr st u w'' -> starts t w (Enter t :: tr) st u w''.

  Inductive op : Type := Start (enter : bool) | Receive (m : Ms) | Reset (exit : bool) | State_id | Is_started.
  Inductive answer : Type := Aunit | Aid (i : nat) | Ab (b : bool).
  (** the state of a machine: [None] when it is not started *)
  Inductive does : op -> option nat * W -> list (call Ms) -> status -> answer -> option nat * W -> Prop :=
  | d_start w tr st u w' : starts 0 w tr st u w' -> does (Start true) (None, w) tr st Aunit (Some u, w')
  | d_start_quiet w : does (Start false) (None, w) [] Done Aunit (Some 0, w)
  | d_start_again e s w : does (Start e) (Some s, w) [] Done Aunit (Some s, w)
  | d_receive m s w tr st u w' : receives m s w tr st u w' -> does (Receive m) (Some s, w) tr st Aunit (Some u, w')
  | d_receive_not m w : does (Receive m) (None, w) [] Not_started Aunit (None, w)
  | d_reset s w : does (Reset true) (Some s, w) [Exit s] Done Aunit (None, b_exit B s w)
  | d_reset_quiet c w : does (Reset false) (c, w) [] Done Aunit (None, w)
  | d_reset_not e w : does (Reset e) (None, w) [] Done Aunit (None, w)
  | d_id s w : does State_id (Some s, w) [] Done (Aid s) (Some s, w)
  | d_id_not w : does State_id (None, w) [] Null_state Aunit (None, w)
  | d_is c w : does Is_started (c, w) [] Done (Ab (match c with Some _ => true | None => false end)) (c, w).
  Inductive history : list op -> option nat * W -> list (list (call Ms) * status * answer) -> option nat * W -> Prop :=
  | h_nil x : history [] x [] x
  | h_cons o os x y z tr st a r : does o x tr st a y -> history os y r z -> history (o :: os) x ((tr, st, a) :: r) z.

  (** the exit and enter calls of a trace lead from being in [s] to being in [u]: each state is left before the next is entered *)
  Inductive leads : nat -> list (call Ms) -> nat -> Prop :=
  | l_here s : leads s [] s
  | l_process s m tr u : leads s tr u -> leads s (Process s m :: tr) u
  | l_move s t tr u : leads t tr u -> leads s (Exit s :: Enter t :: tr) u.
End Fsm.
Arguments op : clear implicits.
