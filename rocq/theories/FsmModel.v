(** * Model of fsm.h: class fsm.

    The states are the entries of state_list; set_states has checked that entry i is not null and has the id i, so a pointer to a state
    is its index.  The user's virtual functions are [B] and may do anything except call the machine again.
    The result lists the calls made.  [None]: the do-while loop did not end within [fuel] rounds.
    The configuration has exceptions: a failed assertion ends the call, the members keep what was stored in them. *)
From Coq Require Import List Arith Bool.
From Verif Require Import FsmSpec.
Import ListNotations.

(** fsm.h: 365-379: set_states; [nulls] and [ids] describe the entries.  size is not truncated here: size <= max *)
Inductive set_result : Type := Set_ok | State_list | Null_entry | Order.
Fixpoint check_entries (i : nat) (entries : list (option nat)) : set_result :=
  match entries with
  | [] => Set_ok
  | e :: r => match e with
              | None => Null_entry
              | Some id => if Nat.eqb id i then check_entries (S i) r else Order
              end
  end.
Definition set_states (max : nat) (entries : list (option nat)) : set_result :=
  if negb (0 <? length entries) then State_list
  else if negb (length entries <? no_state_change max) then State_list
  else check_entries 0 entries.

Section Fsm.
  Context {W Ms : Type}.
  Variable B : behaviour W Ms.
  Variable n : nat.
  Variable max : nat.
  (** fsm.h: 343-357, 548-550: p_state and the user's data *)
  Definition machine : Type := option nat * W.

  (** fsm.h: 535-546 *)
  Definition have_changed_state (s id : nat) : bool := negb (Nat.eqb id s) && negb (Nat.eqb id (no_state_change max)) && negb (Nat.eqb id (self_transition max)).
  Definition is_self_transition (id : nat) : bool := Nat.eqb id (self_transition max).
  (** fsm.h: 428-440 *)
  Fixpoint change_loop (fuel : nat) (p next : nat) (w : W) : option (list (call Ms) * status * machine) :=
    match fuel with
    | 0 => None
    | S fuel =>
      let w := b_exit B p w in
      let s := next in
      let wr := b_enter B s w in
      if have_changed_state s (snd wr)
      then if snd wr <? n
           then if Nat.eqb (snd wr) s then Some ([Exit p; Enter s], Done, (Some s, fst wr))
                else match change_loop fuel s (snd wr) (fst wr) with
                     | Some (tr, st, x) => Some (Exit p :: Enter s :: tr, st, x)
                     | None => None
                     end
           else Some ([Exit p; Enter s], Bad_state_id, (Some s, fst wr))
      else Some ([Exit p; Enter s], Done, (Some s, fst wr))
    end.
  (** fsm.h: 417-452 *)
  Definition receive (fuel : nat) (m : Ms) (x : machine) : option (list (call Ms) * status * machine) :=
    match x with
    | (Some s, w) =>
      let wr := b_process B s m w in
      if have_changed_state s (snd wr)
      then if snd wr <? n
           then match change_loop fuel s (snd wr) (fst wr) with
                | Some (tr, st, x) => Some (Process s m :: tr, st, x)
                | None => None
                end
           else Some ([Process s m], Bad_state_id, (Some s, fst wr))
      else if is_self_transition (snd wr)
      then let w := b_exit B s (fst wr) in Some ([Process s m; Exit s; Enter s], Done, (Some s, fst (b_enter B s w)))
      else Some ([Process s m], Done, (Some s, fst wr))
    | (None, w) => Some ([], Not_started, x)
    end.
  (** fsm.h: 400-409 *)
  Fixpoint start_loop (fuel : nat) (p : nat) (w : W) : option (list (call Ms) * status * machine) :=
    match fuel with
    | 0 => None
    | S fuel =>
      let last := p in
      let wr := b_enter B p w in
      if negb (Nat.eqb (snd wr) (no_state_change max))
      then if snd wr <? n
           then let p := snd wr in
                if negb (Nat.eqb last p)
                then match start_loop fuel p (fst wr) with Some (tr, st, x) => Some (Enter last :: tr, st, x) | None => None end
                else Some ([Enter last], Done, (Some p, fst wr))
           else Some ([Enter last], Bad_state_id, (Some p, fst wr))
      else Some ([Enter last], Done, (Some p, fst wr))
    end.
  (** fsm.h: 387-412 *)
  Definition start (fuel : nat) (enter : bool) (x : machine) : option (list (call Ms) * status * machine) :=
    match x with
    | (None, w) => if enter then start_loop fuel 0 w else Some ([], Done, (Some 0, w))
    | _ => Some ([], Done, x)
    end.
  (** fsm.h: 504-512 *)
  Definition reset (exit : bool) (x : machine) : list (call Ms) * status * machine :=
    match x with
    | (Some s, w) => if exit then ([Exit s], Done, (None, b_exit B s w)) else ([], Done, (None, w))
    | (None, w) => ([], Done, (None, w))
    end.
  Definition fsm_op (fuel : nat) (o : op Ms) (x : machine) : option (list (call Ms) * status * answer * machine) :=
    match o with
    | Start e => match start fuel e x with Some (tr, st, y) => Some (tr, st, Aunit, y) | None => None end
    | Receive m => match receive fuel m x with Some (tr, st, y) => Some (tr, st, Aunit, y) | None => None end
    | Reset e => Some (fst (fst (reset e x)), snd (fst (reset e x)), Aunit, snd (reset e x))
    (* fsm.h: 468-472 *)
    | State_id => match fst x with Some s => Some ([], Done, Aid s, x) | None => Some ([], Null_state, Aunit, x) end
    (* fsm.h: 495-498 *)
    | Is_started => Some ([], Done, Ab (match fst x with Some _ => true | None => false end), x)
    end.
  Fixpoint fsm_ops (fuel : nat) (os : list (op Ms)) (x : machine) : option (list (list (call Ms) * status * answer) * machine) :=
    match os with
    | [] => Some ([], x)
    | o :: r => match fsm_op fuel o x with
                | Some (tr, st, a, y) => match fsm_ops fuel r y with Some (l, z) => Some ((tr, st, a) :: l, z) | None => None end
                | None => None
                end
    end.
End Fsm.
