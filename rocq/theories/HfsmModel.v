(** * Model of hfsm.h and of fsm_state::process_event (fsm.h).

    The parent and default-child pointers are fixed (add_child_state, set_child_states build them); the active-child pointers are a map.
    A pointer to a state is its index, null is [None].  Every result is [None] when a loop or recursion did not end within its fuel or a null
    pointer was dereferenced.  The user's functions do not call the machine.  Exceptions as in FsmModel.v. *)
From Coq Require Import List Arith Bool.
From Verif Require Import FsmSpec FsmModel HfsmSpec.
Import ListNotations.

Definition opt_eqb (a b : option nat) : bool := match a, b with Some x, Some y => Nat.eqb x y | None, None => true | _, _ => false end.
Section Hfsm.
  Context {W Ms : Type}.
  Variable B : behaviour W Ms.
  Variables n max : nat.
  Variable parent : nat -> option nat.
  Variable default : nat -> option nat.

  (** hfsm.h: 167-178 *)
  Fixpoint get_depth (fuel : nat) (s : option nat) : option nat :=
    match s with
    | None => Some 0
    | Some x => match fuel with 0 => None | S f => match get_depth f (parent x) with Some d => Some (S d) | None => None end end
    end.
  (** hfsm.h: 183-192 *)
  Fixpoint adjust_depth (s : option nat) (offset : nat) : option (option nat) :=
    match offset with
    | 0 => Some s
    | S k => match s with Some x => adjust_depth (parent x) k | None => None end
    end.
  (** hfsm.h: 155-161 *)
  Fixpoint climb (fuel : nat) (s1 s2 : option nat) : option (option nat) :=
    if opt_eqb s1 s2 then Some s1
    else match fuel with
         | 0 => None
         | S f => match s1, s2 with Some a, Some b => climb f (parent a) (parent b) | _, _ => None end
         end.
  (** hfsm.h: 139-162 *)
  Definition common_ancestor (fuel : nat) (s1 s2 : option nat) : option (option nat) :=
    match get_depth fuel s1, get_depth fuel s2 with
    | Some d1, Some d2 =>
      if d2 <? d1
      then match adjust_depth s1 (d1 - d2) with Some s1 => climb fuel s1 s2 | None => None end
      else match adjust_depth s2 (d2 - d1) with Some s2 => climb fuel s1 s2 | None => None end
    | _, _ => None
    end.
  Definition set_active (act : nat -> option nat) (p c : nat) : nat -> option nat := fun y => if Nat.eqb y p then Some c else act y.
  Definition out : Type := list (call Ms) * status * nat * (nat -> option nat) * W.
  (** hfsm.h: 220-226 *)
  Fixpoint default_loop (fuel : nat) (t : nat) (act : nat -> option nat) (w : W) : option out :=
    match default t with
    | None => Some ([], Done, t, act, w)
    | Some c =>
      match fuel with
      | 0 => None
      | S f =>
        match parent c with
        | None => None
        | Some p =>
          let act := set_active act p c in
          let wr := b_enter B c w in
          if Nat.eqb (no_state_change max) (snd wr)
          then match default_loop f c act (fst wr) with
               | Some (tr, st, i, act, w) => Some (Enter c :: tr, st, i, act, w)
               | None => None
               end
          else Some ([Enter c], Change_forbidden, c, act, fst wr)
        end
      end
    end.
  (** hfsm.h: 197-232.  The id returned is that of the state reached, No_State_Change without activate_default_children *)
  Fixpoint do_enters (fuel : nat) (root : option nat) (t : nat) (defaults : bool) (act : nat -> option nat) (w : W) : option out :=
    match fuel with
    | 0 => None
    | S f =>
      let pre : option out :=
        match parent t with
        | Some p =>
          if negb (opt_eqb root (Some t))
          then match (if negb (opt_eqb (Some p) root) then do_enters f root p false act w else Some ([], Done, 0, act, w)) with
               | Some (tr, Done, i, act, w) => Some (tr, Done, i, set_active act p t, w)
               | r => r
               end
          else Some ([], Done, 0, act, w)
        | None => Some ([], Done, 0, act, w)
        end in
      match pre with
      | Some (tr, Done, _, act, w) =>
        let wr := b_enter B t w in
        if Nat.eqb (no_state_change max) (snd wr)
        then if defaults
             then match default_loop fuel t act (fst wr) with
                  | Some (tr', st, i, act, w) => Some (tr ++ Enter t :: tr', st, i, act, w)
                  | None => None
                  end
             else Some (tr ++ [Enter t], Done, no_state_change max, act, fst wr)
        else Some (tr ++ [Enter t], Change_forbidden, t, act, fst wr)
      | r => r
      end
    end.
  (** hfsm.h: 242-245 *)
  Fixpoint descend (fuel : nat) (act : nat -> option nat) (s : nat) : option nat :=
    match act s with
    | None => Some s
    | Some c => match fuel with 0 => None | S f => descend f act c end
    end.
  (** hfsm.h: 248-252 *)
  Fixpoint exit_up (fuel : nat) (root : option nat) (s : option nat) (w : W) : option (list (call Ms) * W) :=
    if opt_eqb s root then Some ([], w)
    else match fuel, s with
         | S f, Some x => match exit_up f root (parent x) (b_exit B x w) with Some (tr, w) => Some (Exit x :: tr, w) | None => None end
         | _, _ => None
         end.
  (** hfsm.h: 237-253 *)
  Definition do_exits (fuel : nat) (root : option nat) (s : nat) (act : nat -> option nat) (w : W) : option (list (call Ms) * W) :=
    match descend fuel act s with Some x => exit_up fuel root (Some x) w | None => None end.

  Definition hmachine : Type := option nat * (nat -> option nat) * W.
  (** hfsm.h: 60-78 *)
  Definition hstart (fuel : nat) (enter : bool) (x : hmachine) : option (list (call Ms) * status * hmachine) :=
    match x with
    | (None, act, w) =>
      if enter
      then match do_enters fuel None 0 true act w with
           | Some (tr, Done, i, act, w) => Some (tr, Done, (if Nat.eqb i (no_state_change max) then Some 0 else Some i, act, w))
           | Some (tr, st, i, act, w) => Some (tr, st, (Some 0, act, w))
           | None => None
           end
      else Some ([], Done, (Some 0, act, w))
    | _ => Some ([], Done, x)
    end.
  (** hfsm.h: 84-92 *)
  Definition hreset (fuel : nat) (exit : bool) (x : hmachine) : option (list (call Ms) * status * hmachine) :=
    match x with
    | (Some s, act, w) =>
      if exit then match do_exits fuel None s act w with Some (tr, w) => Some (tr, Done, (None, act, w)) | None => None end
      else Some ([], Done, (None, act, w))
    | (None, act, w) => Some ([], Done, (None, act, w))
    end.
  (** hfsm.h: 99-132 *)
  Definition hreceive (fuel : nat) (m : Ms) (x : hmachine) : option (list (call Ms) * status * hmachine) :=
    match x with
    | (Some s, act, w) =>
      let wr := b_process B s m w in
      if negb (Nat.eqb (snd wr) (no_state_change max))
      then if snd wr <? n
           then let next := snd wr in
                if negb (Nat.eqb next s)
                then match common_ancestor fuel (Some s) (Some next) with
                     | Some root =>
                       match do_exits fuel root s act (fst wr) with
                       | Some (tr1, w) =>
                         match do_enters fuel root next true act w with
                         | Some (tr2, Done, i, act, w) =>
                           if negb (Nat.eqb i (no_state_change max))
                           then if i <? n then Some (Process s m :: tr1 ++ tr2, Done, (Some i, act, w)) else Some (Process s m :: tr1 ++ tr2, Bad_state_id, (Some next, act, w))
                           else Some (Process s m :: tr1 ++ tr2, Done, (Some next, act, w))
                         | Some (tr2, st, i, act, w) => Some (Process s m :: tr1 ++ tr2, st, (Some next, act, w))
                         | None => None
                         end
                       | None => None
                       end
                     | None => None
                     end
                else Some ([Process s m], Done, (Some s, act, fst wr))
           else Some ([Process s m], Bad_state_id, (Some s, act, fst wr))
      else Some ([Process s m], Done, (Some s, act, fst wr))
    | (None, act, w) => Some ([], Not_started, x)
    end.
  Definition h_op (fuel : nat) (o : op Ms) (x : hmachine) : option (list (call Ms) * status * answer * hmachine) :=
    match o with
    | Start e => match hstart fuel e x with Some (tr, st, y) => Some (tr, st, Aunit, y) | None => None end
    | Receive m => match hreceive fuel m x with Some (tr, st, y) => Some (tr, st, Aunit, y) | None => None end
    | Reset e => match hreset fuel e x with Some (tr, st, y) => Some (tr, st, Aunit, y) | None => None end
    | State_id => match fst (fst x) with Some s => Some ([], Done, Aid s, x) | None => Some ([], Null_state, Aunit, x) end
    | Is_started => Some ([], Done, Ab (match fst (fst x) with Some _ => true | None => false end), x)
    end.
  Fixpoint h_ops (fuel : nat) (os : list (op Ms)) (x : hmachine) : option (list (list (call Ms) * status * answer) * hmachine) :=
    match os with
    | [] => Some ([], x)
    | o :: r => match h_op fuel o x with
                | Some (tr, st, a, y) => match h_ops fuel r y with Some (l, z) => Some ((tr, st, a) :: l, z) | None => None end
                | None => None
                end
    end.

  (** ** fsm_state::process_event *)
  Variable handles : nat -> Ms -> W -> option (W * nat).
  Variable unknown : nat -> Ms -> W -> W * nat.
  (** fsm.h: 593-605 (C++17) *)
  Fixpoint process_event17 (fuel : nat) (s : nat) (m : Ms) (w : W) : option (W * nat) :=
    match fuel with
    | 0 => None
    | S f =>
      let h := handles s m w in
      let was_handled := match h with Some _ => true | None => false end in
      let w := match h with Some wr => fst wr | None => w end in
      let id := match h with Some wr => snd wr | None => 0 end in
      if negb was_handled || Nat.eqb id (pass_to_parent max)
      then match parent s with Some p => process_event17 f p m w | None => Some (unknown s m w) end
      else Some (w, id)
    end.
  (** fsm.h: 663-690 (before C++17; the same for every number of message types) *)
  Fixpoint process_event03 (fuel : nat) (s : nat) (m : Ms) (w : W) : option (W * nat) :=
    match fuel with
    | 0 => None
    | S f =>
      match (match handles s m w with
             | Some wr => Some wr
             | None => match parent s with Some p => process_event03 f p m w | None => Some (unknown s m w) end
             end) with
      | Some (w, id) =>
        if negb (Nat.eqb id (pass_to_parent max)) then Some (w, id)
        else match parent s with Some p => process_event03 f p m w | None => Some (w, no_state_change max) end
      | None => None
      end
    end.
End Hfsm.
