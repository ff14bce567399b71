(** * Hierarchical state machines as a user sees them.  Independent of the code. *)
From Coq Require Import List Arith Bool.
From Verif Require Import FsmSpec.
Import ListNotations.

Section Hierarchy.
  Variable parent : nat -> option nat.
  Variable default : nat -> option nat.    (** the first child added *)
  (** a state and its ancestors, innermost first *)
  Inductive lineage : nat -> list nat -> Prop :=
  | lin_top s : parent s = None -> lineage s [s]
  | lin_up s p l : parent s = Some p -> lineage p l -> lineage s (s :: l).
  (** the chain of children below a state, outermost first *)
  Inductive below (child : nat -> option nat) : nat -> list nat -> Prop :=
  | b_none s : child s = None -> below child s []
  | b_some s c l : child s = Some c -> below child c l -> below child s (c :: l).
  (** a hierarchy that is a forest of height at most [H] *)
  Record hierarchy (H : nat) : Prop := {
    hi_depth : exists depth : nat -> nat, (forall s p, parent s = Some p -> depth s = S (depth p)) /\ (forall s, depth s < H);
    hi_default : forall s c, default s = Some c -> parent c = Some s;
    hi_child : forall s c, parent c = Some s -> default s <> None }.
  Definition mem (l : list nat) (x : nat) : bool := existsb (Nat.eqb x) l.
  (** moving from [s] to [t]: [ls] and [lt] are their lineages *)
  Definition to_exit (ls lt : list nat) : list nat := filter (fun x => negb (mem lt x)) ls.
  Definition to_enter (ls lt : list nat) (t : nat) : list nat :=
    if mem ls t then [t]       (* an ancestor of s, or s: it is entered although it was not exited *)
    else rev (filter (fun x => negb (mem ls x)) lt).

  Context {W Ms : Type}.
  Variable B : behaviour W Ms.
  Variable n max : nat.
  Fixpoint exit_all (l : list nat) (w : W) : W := match l with [] => w | x :: r => exit_all r (b_exit B x w) end.
  (** enter actions in order, up to the first that asks for a change, which is forbidden; [k]: how many were called *)
  Inductive enter_all : list nat -> W -> nat -> status -> W -> Prop :=
  | e_nil w : enter_all [] w 0 Done w
  | e_ok x l w w' k st w'' : b_enter B x w = (w', no_state_change max) -> enter_all l w' k st w'' -> enter_all (x :: l) w (S k) st w''
  | e_bad x l w w' r : b_enter B x w = (w', r) -> r <> no_state_change max -> enter_all (x :: l) w 1 Change_forbidden w'.

  (** the machine: current state, the child each state remembers as its active one, the user's data *)
  Definition hstate : Type := option nat * (nat -> option nat) * W.
  Definition activate (l : list nat) (act : nat -> option nat) : nat -> option nat :=
    fold_left (fun act x => match parent x with Some p => fun y => if Nat.eqb y p then Some x else act y | None => act end) l act.
  Definition innermost (l : list nat) (t : nat) : nat := List.last l t.

  (** a transition from [s] to [t] *)
  Inductive moves (s t : nat) (act : nat -> option nat) (w : W) : list (call Ms) -> status -> nat -> (nat -> option nat) -> W -> Prop :=
  | m_move ls lt inner d k st w' : lineage s ls -> lineage t lt -> below act s inner -> below default t d ->
      enter_all (to_enter ls lt t ++ d) (exit_all (rev inner ++ to_exit ls lt) w) k st w' ->
      moves s t act w (map Exit (rev inner ++ to_exit ls lt) ++ map Enter (firstn k (to_enter ls lt t ++ d))) st (match st with Done => innermost d t | _ => t end)
        (activate (if mem ls t then tl (firstn k (to_enter ls lt t ++ d)) else firstn k (to_enter ls lt t ++ d)) act) w'.
  Inductive hdoes : op Ms -> hstate -> list (call Ms) -> status -> answer -> hstate -> Prop :=
  | hd_start act w lt d k st w' : lineage 0 lt -> below default 0 d -> enter_all (rev lt ++ d) w k st w' ->
      hdoes (Start true) (None, act, w) (map Enter (firstn k (rev lt ++ d))) st Aunit (Some (match st with Done => innermost d 0 | _ => 0 end), activate (firstn k (rev lt ++ d)) act, w')
  | hd_start_quiet act w : hdoes (Start false) (None, act, w) [] Done Aunit (Some 0, act, w)
  | hd_start_again e s act w : hdoes (Start e) (Some s, act, w) [] Done Aunit (Some s, act, w)
  | hd_receive_stay m s act w w' r : b_process B s m w = (w', r) -> r = s \/ r = no_state_change max -> hdoes (Receive m) (Some s, act, w) [Process s m] Done Aunit (Some s, act, w')
  | hd_receive_bad m s act w w' r : b_process B s m w = (w', r) -> n <= r -> r <> no_state_change max -> hdoes (Receive m) (Some s, act, w) [Process s m] Bad_state_id Aunit (Some s, act, w')
  | hd_receive_move m s act w w' t tr st u act' w'' : b_process B s m w = (w', t) -> t < n -> t <> s -> moves s t act w' tr st u act' w'' ->
      hdoes (Receive m) (Some s, act, w) (Process s m :: tr) st Aunit (Some u, act', w'')
  | hd_receive_not m act w : hdoes (Receive m) (None, act, w) [] Not_started Aunit (None, act, w)
  | hd_reset s act w ls inner : lineage s ls -> below act s inner -> hdoes (Reset true) (Some s, act, w) (map Exit (rev inner ++ ls)) Done Aunit (None, act, exit_all (rev inner ++ ls) w)
  | hd_reset_quiet c act w : hdoes (Reset false) (c, act, w) [] Done Aunit (None, act, w)
  | hd_reset_not e act w : hdoes (Reset e) (None, act, w) [] Done Aunit (None, act, w)
  | hd_id s act w : hdoes State_id (Some s, act, w) [] Done (Aid s) (Some s, act, w)
  | hd_id_not act w : hdoes State_id (None, act, w) [] Null_state Aunit (None, act, w)
  | hd_is c act w : hdoes Is_started (c, act, w) [] Done (Ab (match c with Some _ => true | None => false end)) (c, act, w).
  Inductive hhistory : list (op Ms) -> hstate -> list (list (call Ms) * status * answer) -> hstate -> Prop :=
  | hh_nil x : hhistory [] x [] x
  | hh_cons o os x y z tr st a r : hdoes o x tr st a y -> hhistory os y r z -> hhistory (o :: os) x ((tr, st, a) :: r) z.

  (** the states one is inside of, innermost first, as the calls go by: a state is entered from inside its parent, the innermost is exited first *)
  Definition is_top (st : list nat) (p : option nat) : bool := match st, p with x :: _, Some y => Nat.eqb x y | [], None => true | _, _ => false end.
  Fixpoint inside (st : list nat) (tr : list (call Ms)) : option (list nat) :=
    match tr with
    | [] => Some st
    | Process _ _ :: r => inside st r
    | Enter x :: r => if is_top st (parent x) then inside (x :: st) r else None
    | Exit x :: r => match st with y :: st' => if Nat.eqb x y then inside st' r else None | [] => None end
    end.

  (** offering a message to a state class and its ancestors: [handles] is the class's on_event for that message type (None: no such type),
      [unknown] its on_event_unknown *)
  Variable handles : nat -> Ms -> W -> option (W * nat).
  Variable unknown : nat -> Ms -> W -> W * nat.
  Inductive offered (m : Ms) : list nat -> W -> W -> nat -> Prop :=
  | o_handled s l w w' r : handles s m w = Some (w', r) -> r <> pass_to_parent max -> offered m (s :: l) w w' r
  | o_passed s s' l w w1 w' r : handles s m w = Some (w1, pass_to_parent max) -> offered m (s' :: l) w1 w' r -> offered m (s :: s' :: l) w w' r
  | o_not s s' l w w' r : handles s m w = None -> offered m (s' :: l) w w' r -> offered m (s :: s' :: l) w w' r
  | o_passed_top s w w1 w' r : handles s m w = Some (w1, pass_to_parent max) -> unknown s m w1 = (w', r) -> offered m [s] w w' r
  | o_not_top s w w' r : handles s m w = None -> unknown s m w = (w', r) -> offered m [s] w w' r.
End Hierarchy.
