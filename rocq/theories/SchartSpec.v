(** * State charts as a user understands them (independent of the code).

    A chart is a list of transitions and a list of states.  Callbacks are named by numbers; what they do to the world [S]
    (the user's object, and anything it reaches) is arbitrary: [act] for actions (they get the parameter of the event), [hook]
    for entry and exit callbacks, [ask] for guards, which may have effects of their own. *)
From Coq Require Import List Arith Bool.
Import ListNotations.

Record trans := Trans { t_cur : nat; t_event : nat; t_next : nat; t_action : option nat; t_guard : option nat; t_any : bool }.
Record stat := Stat { s_id : nat; s_entry : option nat; s_exit : option nat }.
(** the transition is for this event and this state *)
Definition applies (e s : nat) (t : trans) : Prop := t_event t = e /\ (t_any t = true \/ t_cur t = s).
Section World.
  Context {S P : Type}.
  Variable act : nat -> P -> S -> S.
  Variable hook : nat -> S -> S.
  Variable ask : nat -> S -> S * bool.
  (** [picks e s ts w r w']: going through the transitions ts in order in the world w, asking the guards of those that apply, the first
      one that applies and whose guard, if any, says yes is r; w' is the world afterwards *)
  Inductive picks (e s : nat) : list trans -> S -> option trans -> S -> Prop :=
  | picks_none w : picks e s [] w None w
  | picks_other t ts w r w' : ~ applies e s t -> picks e s ts w r w' -> picks e s (t :: ts) w r w'
  | picks_free t ts w : applies e s t -> t_guard t = None -> picks e s (t :: ts) w (Some t) w
  | picks_yes t ts w g w' : applies e s t -> t_guard t = Some g -> ask g w = (w', true) -> picks e s (t :: ts) w (Some t) w'
  | picks_no t ts w g w1 r w' : applies e s t -> t_guard t = Some g -> ask g w = (w1, false) -> picks e s ts w1 r w' -> picks e s (t :: ts) w r w'.
  Definition opt_hook (c : option nat) (w : S) : S := match c with Some h => hook h w | None => w end.
  Definition opt_act (c : option nat) (p : P) (w : S) : S := match c with Some a => act a p w | None => w end.
  (** the entry (exit) callback of state s: that of the first state in the list with this id *)
  Fixpoint entry_of (ss : list stat) (s : nat) : option nat := match ss with [] => None | x :: r => if Nat.eqb (s_id x) s then s_entry x else entry_of r s end.
  Fixpoint exit_of (ss : list stat) (s : nat) : option nat := match ss with [] => None | x :: r => if Nat.eqb (s_id x) s then s_exit x else exit_of r s end.
  (** an event in state s: the picked transition's action, then, only if the state changes, the exit and the entry callback *)
  Definition reacts (ts : list trans) (ss : list stat) (e : nat) (p : P) (s : nat) (w : S) (s' : nat) (w' : S) : Prop :=
    exists r w1, picks e s ts w r w1 /\
      match r with
      | None => s' = s /\ w' = w1
      | Some t => s' = t_next t /\
          let w2 := opt_act (t_action t) p w1 in
          w' = if Nat.eqb s (t_next t) then w2 else opt_hook (entry_of ss (t_next t)) (opt_hook (exit_of ss s) w2)
      end.
End World.
