(** * C48: state charts. *)
From Coq Require Import List Arith Bool Lia.
From Verif Require Import Util Slots SortModel AlgoSpec AlgoModel AlgoProofs SchartSpec SchartModel SchartProofs.
Import ListNotations.

(** One event, for all tables of the compile-time classes, callbacks that do not call the chart, and worlds: the first transition in table
    order that applies and whose guard agrees decides; its action, the exit callback of the old and the entry callback of the new state are
    called in this order, exactly once, the latter two only if the state changes; nothing else happens. *)
Theorem C48_process_event : forall (S P : Type) (act : nat -> P -> S -> S) hook ask ts ss e p (c : cfg S), started c = true ->
  exists c', process_event (l_act act) (l_hook hook) (l_ask ask) (ct_tables ts ss) e p c = Some c' /\ started c' = true /\
    reacts act hook ask ts ss e p (cur c) (world c) (cur c') (world c').
Proof.
  intros S P act hook ask ts ss e p c Hs. unfold process_event. rewrite Hs.
  assert (tr_seen (ct_tables ts ss) = ts) as Et by apply firstn_all. assert (st_seen (ct_tables ts ss) = ss) as Es by apply firstn_all.
  destruct (event_loop_ok act hook ask (ct_tables ts ss) e p (Datatypes.S (Datatypes.S (length (tr_seen (ct_tables ts ss))))) 0 c) as (r & w1 & c' & E1 & E2 & E3 & E4); [lia|lia|lia|].
  exists c'. rewrite Et, Es in *. conj; [exact E1|congruence|]. exists r, w1. split; [exact E3|exact E4].
Qed.
Print Assumptions C48_process_event.
(** the reaction is determined by the tables, the event, the state and the world *)
Theorem C48_deterministic : forall (S P : Type) (act : nat -> P -> S -> S) hook ask ts ss e p s w s1 w1 s2 w2,
  reacts act hook ask ts ss e p s w s1 w1 -> reacts act hook ask ts ss e p s w s2 w2 -> s1 = s2 /\ w1 = w2.
Proof.
  intros S P act hook ask ts ss e p s w s1 w1 s2 w2 (r & u & Hp & Hr) (r' & u' & Hp' & Hr'). destruct (picks_det ask e s ts w r u Hp r' u' Hp') as (-> & ->). destruct r as [t|]; cbv zeta in *; destruct Hr, Hr'; subst; now split.
Qed.
(** the classes with run-time tables: the same for tables of fewer than 256 entries *)
Theorem C48_process_event_runtime : forall (S P : Type) (act : nat -> P -> S -> S) hook ask ts ss e p (c : cfg S),
  length ts < 256 -> length ss < 256 -> started c = true ->
  exists c', process_event (l_act act) (l_hook hook) (l_ask ask) (rt_tables ts ss) e p c = Some c' /\ started c' = true /\
    reacts act hook ask ts ss e p (cur c) (world c) (cur c') (world c').
Proof.
  intros S P act hook ask ts ss e p c Lt Ls Hs. assert (rt_tables ts ss = ct_tables ts ss) as -> by (unfold rt_tables, ct_tables; now rewrite !Nat.mod_small).
  now apply C48_process_event.
Qed.
Print Assumptions C48_process_event_runtime.
(** FINDING: the size of a run-time table is kept in uint_least8_t: of a table of 256 + k entries only the first k are ever looked at *)
Theorem C48_table_size_refuted : forall (S P : Type) (act : nat -> P -> cfg S -> cfg S) hook ask ts more ss e p (c : cfg S),
  length ts < 256 -> length more = 256 ->
  process_event act hook ask (rt_tables (ts ++ more) ss) e p c = process_event act hook ask (rt_tables ts ss) e p c.
Proof.
  intros S P act hook ask ts more ss e p c Lt Lm.
  assert (tr_seen (rt_tables (ts ++ more) ss) = tr_seen (rt_tables ts ss)) as E.
  { unfold tr_seen, rt_tables. cbn [trn trs]. rewrite app_length, Lm. replace (length ts + 256) with (length ts + 1 * 256) by lia. rewrite Nat.mod_add, Nat.mod_small by lia. now rewrite firstn_app, Nat.sub_diag, firstn_O, app_nil_r, !firstn_all. }
  unfold process_event. destruct (started c); [|reflexivity]. rewrite E.
  assert (forall fuel t d, event_loop act hook ask (rt_tables (ts ++ more) ss) fuel e p t d = event_loop act hook ask (rt_tables ts ss) fuel e p t d) as K; [|apply K].
  assert (forall get id d, call_state hook (rt_tables (ts ++ more) ss) get id d = call_state hook (rt_tables ts ss) get id d) as C by reflexivity.
  induction fuel as [|f IH]; intros t d; [reflexivity|]. cbn [event_loop]. cbv zeta. rewrite E. destruct (Nat.eqb t _); [reflexivity|].
  destruct (find_loop _ _ _ _) as [i|]; [|reflexivity]. cbn [obind]. destruct (Nat.eqb i _); [apply IH|]. destruct (nth_error _ i) as [x|]; [|reflexivity]. cbn [obind].
  destruct (match t_guard x with None => (d, true) | Some g => ask g d end) as (c1 & [|]); [|apply IH].
  set (c2 := match t_action x with None => c1 | Some a => act a p c1 end).
  assert (forall o : option (cfg S), (do c0 <- o; event_loop act hook ask (rt_tables (ts ++ more) ss) f e p (length (tr_seen (rt_tables ts ss))) c0) = (do c0 <- o; event_loop act hook ask (rt_tables ts ss) f e p (length (tr_seen (rt_tables ts ss))) c0)) as K by (intros [?|]; [apply IH|reflexivity]).
  rewrite K. reflexivity.
Qed.
Print Assumptions C48_table_size_refuted.

(** start: once, and it calls the entry callback of the initial state if wanted; before it events are ignored *)
Theorem C48_start : forall (S : Type) hook ts ss b (c : cfg S),
  exists c', start (l_hook hook) (ct_tables ts ss) b c = Some c' /\ cur c' = cur c /\ started c' = true /\
    world c' = if negb (started c) && b then opt_hook hook (entry_of ss (cur c)) (world c) else world c.
Proof. intros S hook ts ss b c. destruct (start_ok hook (ct_tables ts ss) b c) as (c' & E). unfold st_seen in E. cbn [stn sts ct_tables] in E. rewrite firstn_all in E. now exists c'. Qed.
Print Assumptions C48_start.
Theorem C48_not_started : forall (S P : Type) (act : nat -> P -> cfg S -> cfg S) hook ask T e p c, started c = false -> process_event act hook ask T e p c = Some c.
Proof. intros S P act hook ask T e p c H. unfold process_event. now rewrite H. Qed.

(** ** The life of a chart.  The world is the list of entry and exit callbacks called so far and a rest that actions, guards and
    callbacks change as they like. *)
Section Life.
  Context {G P : Type}.
  Notation world_t := (list nat * G)%type.
  Variable act : nat -> P -> world_t -> G.
  Variable hook : nat -> world_t -> G.
  Variable ask : nat -> world_t -> G * bool.
  Definition r_act a p (w : world_t) : world_t := (fst w, act a p w).
  Definition r_hook h (w : world_t) : world_t := (fst w ++ [h], hook h w).
  Definition r_ask g (w : world_t) : world_t * bool := ((fst w, fst (ask g w)), snd (ask g w)).
  Variables (ts : list trans) (ss : list stat).
  Definition opt_list (c : option nat) : list nat := match c with Some h => [h] | None => [] end.
  (** [path s l s']: l is what is called on the way from state s to state s' along transitions of the table that change the state *)
  Inductive path : nat -> list nat -> nat -> Prop :=
  | path_nil s : path s [] s
  | path_step s l m t : path s l m -> In t ts -> (t_any t = true \/ t_cur t = m) -> m <> t_next t ->
      path s (l ++ opt_list (exit_of ss m) ++ opt_list (entry_of ss (t_next t))) (t_next t).
  Fixpoint run (evs : list (nat * P)) (c : cfg world_t) : option (cfg world_t) :=
    match evs with [] => Some c | (e, p) :: r => do c <- process_event (l_act r_act) (l_hook r_hook) (l_ask r_ask) (ct_tables ts ss) e p c; run r c end.
  Lemma picks_trace e s l w r w' : picks r_ask e s l w r w' -> fst w' = fst w.
  Proof. induction 1 as [| | |t l w g w' A B Cc|t l w g w1 r w' A B Cc Hp IH]; auto; unfold r_ask in Cc; injection Cc as <- _; [reflexivity|exact IH]. Qed.
  Lemma hook_trace c w : fst (opt_hook r_hook c w) = fst w ++ opt_list c.
  Proof. destruct c; cbn; [reflexivity|now rewrite app_nil_r]. Qed.
  Lemma run_path init : forall evs c l0 l, started c = true -> fst (world c) = l0 ++ l -> path init l (cur c) ->
    exists c' l', run evs c = Some c' /\ started c' = true /\ fst (world c') = l0 ++ l' /\ path init l' (cur c').
  Proof.
    induction evs as [|(e & p) evs IH]; intros c l0 l Hs Hw Hp; [exists c, l; now conj|]. cbn [run].
    destruct (C48_process_event world_t P r_act r_hook r_ask ts ss e p c Hs) as (c1 & E1 & E2 & r & w1 & Pk & Rt). rewrite E1. cbn [obind].
    pose proof (picks_trace _ _ _ _ _ _ Pk) as Tr. destruct r as [t|].
    - destruct Rt as (Ec & Ew). cbv zeta in Ew. destruct (picks_in r_ask e (cur c) ts _ _ _ Pk t eq_refl) as (Hin & _ & Ap).
      assert (fst (opt_act r_act (t_action t) p w1) = l0 ++ l) as Ta by (destruct (t_action t); cbn; exact (eq_trans Tr Hw)).
      destruct (Nat.eqb_spec (cur c) (t_next t)) as [En|En].
      + apply (IH c1 l0 l E2); [now rewrite Ew|]. now rewrite Ec, <- En.
      + apply (IH c1 l0 (l ++ opt_list (exit_of ss (cur c)) ++ opt_list (entry_of ss (t_next t))) E2); [rewrite Ew, !hook_trace, Ta; now rewrite <- !app_assoc|]. rewrite Ec. now apply path_step.
    - destruct Rt as (Ec & Ew). apply (IH c1 l0 l E2); [rewrite Ew; exact (eq_trans Tr Hw)|now rewrite Ec].
  Qed.
End Life.
(** After start() and any events: the entry and exit callbacks called are the entry of the initial state followed by exit / entry pairs along a
    path of the table that ends in get_state_id(): no state is left without having been entered last, none is entered twice without exit. *)
Theorem C48_life : forall (G P : Type) (act : nat -> P -> (list nat * G) -> G) hook ask ts ss (c : cfg (list nat * G)) evs, started c = false -> fst (world c) = [] ->
  exists c1 c' l, start (l_hook (r_hook hook)) (ct_tables ts ss) true c = Some c1 /\ run act hook ask ts ss evs c1 = Some c' /\
    fst (world c') = opt_list (entry_of ss (cur c)) ++ l /\ path ts ss (cur c) l (cur c').
Proof.
  intros G P act hook ask ts ss c evs Hs Hw. destruct (C48_start _ (r_hook hook) ts ss true c) as (c1 & E1 & E2 & E3 & E4). rewrite Hs in E4. cbn [negb andb] in E4.
  destruct (run_path act hook ask ts ss (cur c) evs c1 (opt_list (entry_of ss (cur c))) [] E3) as (c' & l & R1 & _ & R3 & R4).
  - rewrite E4, hook_trace, Hw. cbn. now rewrite app_nil_r.
  - rewrite E2. constructor.
  - exists c1, c', l. now conj.
Qed.
Print Assumptions C48_life.
(** every state ever reached is the initial one or the target of a transition in the table *)
Theorem C48_states : forall ts ss s l s', path ts ss s l s' -> s' = s \/ exists t, In t ts /\ s' = t_next t.
Proof. intros ts ss s l s' H. destruct H as [|s l m t H Hin Ha Hn]; [now left|right; now exists t]. Qed.
Print Assumptions C48_states.
Example life_case :
  let ts := [Trans 0 7 1 (Some 50) (Some 60) false; Trans 0 7 2 None None false; Trans 0 8 0 None None true] in
  let ss := [Stat 0 (Some 10) (Some 20); Stat 1 (Some 11) (Some 21); Stat 2 (Some 12) (Some 22)] in
  let act := fun (_ p : nat) (w : list nat * nat) => snd w + p in let hook := fun (_ : nat) (w : list nat * nat) => snd w in let ask := fun g (w : (list nat * nat)) => (snd w, false) in
  exists c1 c', start (l_hook (r_hook hook)) (ct_tables ts ss) true (Cfg 0 false ([], 0)) = Some c1 /\ run act hook ask ts ss [(7, 3); (9, 0); (8, 1); (8, 2); (7, 0)] c1 = Some c' /\ cur c' = 2 /\ fst (world c') = [10; 20; 12; 22; 10; 20; 12].
Proof. cbv zeta. eexists. eexists. conj; vm_compute; reflexivity. Qed.

(** ** Callbacks that call the chart: processing always ends; but FINDING: an event processed inside an exit callback is undone: the outer call then
    overwrites the state the inner one reached, which was entered and is never left *)
Theorem C48_terminates : forall (S P : Type) (act : nat -> P -> cfg S -> cfg S) hook ask T e p c, exists c', process_event act hook ask T e p c = Some c'.
Proof.
  intros S P act hook ask T e p c. unfold process_event. destruct (started c); [|now exists c].
  assert (forall get id d, exists d', call_state hook T get id d = Some d') as Cs.
  { intros get id d. unfold call_state, find_state. destruct (find_if_ok (fun s => Nat.eqb (s_id s) id) (st_seen T)) as (i & -> & Hi & _ & _). cbn [obind].
    destruct (Nat.eqb_spec i (length (st_seen T))) as [_|Ne]; [now exists d|]. destruct (nth_error (st_seen T) i) eqn:E; [|apply nth_error_None in E; lia]. cbn [obind]. eexists. reflexivity. }
  assert (forall fuel t d, length (tr_seen T) + 2 <= fuel + t -> 0 < fuel -> t <= length (tr_seen T) -> exists d', event_loop act hook ask T fuel e p t d = Some d') as K; [|apply K; lia].
  induction fuel as [|f IH]; intros t d Hf H0 Ht; [lia|]. cbn [event_loop]. cbv zeta. destruct (Nat.eqb_spec t (length (tr_seen T))) as [_|Ne]; [now exists d|].
  destruct (find_loop_ok (is_transition e (cur d)) (skipn t (tr_seen T)) (firstn t (tr_seen T)) []) as (i & Hi & Li & _ & _). rewrite app_nil_r, firstn_skipn in Hi. rewrite skipn_length in Li. rewrite firstn_length, Nat.min_l, skipn_length in Hi by lia. rewrite Hi. cbn [obind].
  destruct (Nat.eqb_spec (t + i) (length (tr_seen T))) as [E|E]; [apply IH; lia|]. destruct (nth_error (tr_seen T) (t + i)) as [x|] eqn:Ex; [|apply nth_error_None in Ex; lia]. cbn [obind].
  destruct (match t_guard x with None => (d, true) | Some g => ask g d end) as (c1 & [|]); [|apply IH; lia].
  set (c2 := match t_action x with None => c1 | Some a => act a p c1 end). destruct (Nat.eqb (cur c2) (t_next x)); cbn [negb obind]; [apply IH; lia|].
  destruct (Cs s_exit (cur c2) c2) as (c3 & ->). cbn [obind]. destruct (Cs s_entry (cur (Cfg (t_next x) (started c3) (world c3))) (Cfg (t_next x) (started c3) (world c3))) as (c4 & ->). cbn [obind]. apply IH; lia.
Qed.
Print Assumptions C48_terminates.
Theorem C48_reentry_refuted :
  let T := ct_tables [Trans 0 1 1 None None false; Trans 0 2 2 None None false] [Stat 0 None (Some 20); Stat 1 (Some 11) None; Stat 2 (Some 12) (Some 22)] in
  let plain h (c : cfg (list nat)) := Cfg (cur c) (started c) (world c ++ [h]) in
  let noact (_ _ : nat) (c : cfg (list nat)) := c in let noask (_ : nat) (c : cfg (list nat)) := (c, true) in
  (* the exit callback of state 0 sends event 2 *)
  let hook h c := if Nat.eqb h 20 then match process_event noact plain noask T 2 0 c with Some c => c | None => c end else plain h c in
  exists c', process_event noact hook noask T 1 0 (Cfg 0 true []) = Some c' /\ cur c' = 1 /\ world c' = [20; 12; 11].
Proof. cbv zeta. eexists. conj; reflexivity. Qed.
Print Assumptions C48_reentry_refuted.
