(** * Model of state_chart.h.

    The four classes (state_chart_ct, state_chart_ctp, state_chart<TObject, TParameter>, state_chart<TObject, void>) have the same bodies;
    the first two take the sizes of the tables as template parameters (size_t), the last two store them in uint_least8_t.
    Identifiers are uint_least8_t; here natural numbers.  Callbacks are named by numbers and are arbitrary functions on the
    configuration: the world AND the chart's own members, so that a callback that calls process_event or start is included.
    The tables are constant while an event is processed (set_transition_table from inside a callback is not modelled). *)
From Coq Require Import List Arith Bool.
From Verif Require Import Util Slots SortModel AlgoModel SchartSpec.
Import ListNotations.

(** state_chart.h: 863-865, 1113-1115, 414, 611: the tables and their stored sizes *)
Record tables := Tables { trs : list trans; trn : nat; sts : list stat; stn : nat }.
(** state_chart.h: 230-236, 422-429 *)
Definition ct_tables (t : list trans) (s : list stat) : tables := Tables t (List.length t) s (List.length s).
(** state_chart.h: 639-653, 660-677, 895-931: the sizes are truncated to uint_least8_t *)
Definition rt_tables (t : list trans) (s : list stat) : tables := Tables t (Nat.modulo (List.length t) 256) s (Nat.modulo (List.length s) 256).
Definition tr_seen (T : tables) : list trans := firstn (trn T) (trs T).
Definition st_seen (T : tables) : list stat := firstn (stn T) (sts T).

Section Schart.
  Context {S P : Type}.
  (** state_chart.h: 187, 222, 414: current_state_id, started, and the user's world *)
  Record cfg := Cfg { cur : nat; started : bool; world : S }.
  Variable act : nat -> P -> cfg -> cfg.
  Variable hook : nat -> cfg -> cfg.
  Variable ask : nat -> cfg -> cfg * bool.
  Variable T : tables.
  (** state_chart.h: 371-374, 568-571, 796-806, 1046-1056; 402-405 *)
  Definition find_state (id : nat) : option nat := find_if (st_seen T) (fun s => Nat.eqb (s_id s) id).
  (** the entry / exit callback is called if the state was found and the pointer is not null *)
  Definition call_state (get : stat -> option nat) (id : nat) (c : cfg) : option cfg :=
    do s <- find_state id;
    if Nat.eqb s (List.length (st_seen T)) then Some c
    else do x <- nth_error (st_seen T) s; Some (match get x with Some h => hook h c | None => c end).
  (** state_chart.h: 277-296, 470-489, 700-719, 954-973 *)
  Definition start (on_entry_initial : bool) (c : cfg) : option cfg :=
    if negb (started c)
    then do c <- (if on_entry_initial then call_state s_entry (cur c) c else Some c);
         Some (Cfg (cur c) true (world c))
    else Some c.
  (** state_chart.h: 385-388, 582-585 *)
  Definition is_transition (e s : nat) (t : trans) : bool := Nat.eqb (t_event t) e && (t_any t || Nat.eqb (t_cur t) s).
  (** state_chart.h: 303-362, 496-559, 726-789, 980-1039: [t] is the table position *)
  Fixpoint event_loop (fuel : nat) (e : nat) (p : P) (t : nat) (c : cfg) : option cfg :=
    match fuel with
    | 0 => None
    | Datatypes.S f =>
        let ts := tr_seen T in let n := List.length ts in
        if Nat.eqb t n then Some c
        else do t <- find_loop (n - t) ts (is_transition e (cur c)) t;
             if Nat.eqb t n then event_loop f e p t c
             else do x <- nth_error ts t;
                  let '(c, go) := match t_guard x with None => (c, true) | Some g => ask g c end in
                  if go
                  then let c := match t_action x with None => c | Some a => act a p c end in
                       do c <- (if negb (Nat.eqb (cur c) (t_next x))
                                then do c <- call_state s_exit (cur c) c;
                                     let c := Cfg (t_next x) (started c) (world c) in
                                     call_state s_entry (cur c) c
                                else Some c);
                       event_loop f e p n c
                  else event_loop f e p (t + 1) c
    end.
  Definition process_event (e : nat) (p : P) (c : cfg) : option cfg :=
    if started c then event_loop (Datatypes.S (Datatypes.S (List.length (tr_seen T)))) e p 0 c else Some c.
End Schart.
Arguments cfg : clear implicits.
