(** C35: scheduler. *)
From Coq Require Import List Bool Arith Sorted Permutation Lia.
From Verif Require Import Util SortModel AlgoSpec AlgoProps SchedModel SchedSpec.
Import ListNotations.

Section P.
  Variables (T Wd : Type) (request : T -> Wd -> nat) (process : T -> Wd -> Wd).

  Lemma seq_single_ok tasks : forall w idle, exists tr,
    once T Wd request process tasks w tr /\
    seq_single T Wd request process tasks w idle = (run_all T Wd process tr w, tr, match tr with [] => idle | _ => false end).
  Proof using .
    induction tasks as [|t r IH]; intros w idle; cbn [seq_single].
    - exists []. split; [constructor|reflexivity].
    - destruct (Nat.ltb_spec 0 (request t w)) as [L|L].
      + destruct (IH (process t w) false) as (tr & O & E). rewrite E. exists (t :: tr). split; [now constructor|].
        cbn [run_all fold_left]. f_equal. destruct tr; reflexivity.
      + destruct (IH w idle) as (tr & O & E). rewrite E. exists tr. split; [constructor; [lia|exact O]|reflexivity].
  Qed.
  Lemma drain_ok fuel : forall t w w' tr, drain T Wd request process fuel t w = Some (w', tr) ->
    w' = run_all T Wd process tr w /\ request t w' = 0 /\
    forall r tr', drained T Wd request process r w' tr' -> drained T Wd request process (t :: r) w (tr ++ tr').
  Proof using .
    induction fuel as [|f IH]; intros t w w' tr E; cbn [drain] in E; destruct (Nat.ltb_spec 0 (request t w)) as [L|L].
    - discriminate.
    - injection E as <- <-. cbn [run_all fold_left app]. conj; [reflexivity|lia|]. intros. constructor; [lia|assumption].
    - destruct (drain T Wd request process f t (process t w)) as [[w1 tr1]|] eqn:Q; [|discriminate]. injection E as <- <-.
      destruct (IH _ _ _ _ Q) as (A & B & C). conj; [exact A|exact B|]. intros r tr' D. cbn [app]. apply dr_run; [exact L|]. now apply C.
    - injection E as <- <-. cbn [run_all fold_left app]. conj; [reflexivity|lia|]. intros. constructor; [lia|assumption].
  Qed.
  Lemma run_all_app a b w : run_all T Wd process (a ++ b) w = run_all T Wd process b (run_all T Wd process a w).
  Proof using . unfold run_all. apply fold_left_app. Qed.
  Lemma seq_multiple_ok fuel tasks : forall w idle w' tr i, seq_multiple T Wd request process fuel tasks w idle = Some (w', tr, i) ->
    drained T Wd request process tasks w tr /\ w' = run_all T Wd process tr w /\ i = match tr with [] => idle | _ => false end.
  Proof using .
    induction tasks as [|t r IH]; intros w idle w' tr i E; cbn [seq_multiple] in E.
    - injection E as <- <- <-. conj; [constructor|reflexivity|reflexivity].
    - destruct (drain T Wd request process fuel t w) as [[w1 tr1]|] eqn:Q; [|discriminate].
      destruct (drain_ok _ _ _ _ _ Q) as (A & B & C).
      destruct (seq_multiple T Wd request process fuel r w1 _) as [[[w2 tr2] i2]|] eqn:Q2; [|discriminate]. injection E as <- <- <-.
      destruct (IH _ _ _ _ _ Q2) as (A2 & B2 & C2). conj.
      + now apply C.
      + rewrite run_all_app. now rewrite <- A.
      + subst i2. destruct tr1, tr2; reflexivity.
  Qed.
  (** it ends, with enough fuel, whenever a complete execution exists *)
  Lemma drained_split ts w tr : drained T Wd request process ts w tr -> forall t r, ts = t :: r ->
    exists tr1 tr2, tr = tr1 ++ tr2 /\ drained T Wd request process r (run_all T Wd process tr1 w) tr2 /\
      forall fuel, List.length tr1 <= fuel -> drain T Wd request process fuel t w = Some (run_all T Wd process tr1 w, tr1).
  Proof using .
    induction 1 as [w|t r w tr H1 H2 IH|t r w tr H1 H2 IH]; intros t' r' E; [discriminate| |]; injection E as <- <-.
    - destruct (IH t r eq_refl) as (tr1 & tr2 & -> & D & F). exists (t :: tr1), tr2. conj; [reflexivity|exact D|].
      intros fuel HF. cbn [List.length] in HF. destruct fuel as [|f]; [lia|]. cbn [drain]. apply Nat.ltb_lt in H1. rewrite H1.
      rewrite F by lia. reflexivity.
    - exists [], tr. conj; [reflexivity|exact H2|]. intros fuel _. destruct fuel; cbn [drain]; rewrite H1; reflexivity.
  Qed.
  Lemma drained_ends tasks : forall w tr, drained T Wd request process tasks w tr -> forall fuel idle, List.length tr <= fuel ->
    exists i, seq_multiple T Wd request process fuel tasks w idle = Some (run_all T Wd process tr w, tr, i).
  Proof using .
    induction tasks as [|t r IH]; intros w tr D fuel idle HF.
    - inversion D; subst. eexists. reflexivity.
    - destruct (drained_split _ _ _ D t r eq_refl) as (tr1 & tr2 & -> & D2 & F). rewrite app_length in HF. cbn [seq_multiple].
      rewrite F by lia. destruct (IH _ _ D2 fuel (match tr1 with [] => idle | _ => false end) ltac:(lia)) as (i & E). rewrite E.
      eexists. now rewrite run_all_app.
  Qed.
  Lemma highest_ok tasks w :
    (exists t, first_with_work T Wd request tasks w t /\ highest T Wd request process tasks w = (process t w, [t], false)) \/
    (no_work T Wd request tasks w /\ highest T Wd request process tasks w = (w, [], true)).
  Proof using .
    induction tasks as [|t r IH]; cbn [highest].
    - right. split; [constructor|reflexivity].
    - destruct (Nat.ltb_spec 0 (request t w)) as [L|L].
      + left. exists t. split; [exists [], r; conj; auto|reflexivity].
      + destruct IH as [(u & (a & b & -> & F & P) & E)|[F E]].
        * left. exists u. split; [|exact E]. exists (t :: a), b. conj; [reflexivity|constructor; [lia|exact F]|exact P].
        * right. split; [constructor; [lia|exact F]|exact E].
  Qed.
  Lemma most_loop_ok w r : forall done idx mi mw idle, idx = List.length done ->
    (idle = true -> mw = 0) -> (idle = false -> exists t a b, done = a ++ t :: b /\ mi = List.length a /\ mw = request t w /\ 0 < mw /\
       Forall (fun u => request u w < mw) a /\ Forall (fun u => request u w <= mw) b) ->
    Forall (fun u => request u w <= mw) done ->
    let (mi', idle') := most_loop T Wd request r w idx mi mw idle in
    (idle' = true -> no_work T Wd request (done ++ r) w) /\
    (idle' = false -> exists t, nth_error (done ++ r) mi' = Some t /\ most T Wd request (done ++ r) w t).
  Proof using .
    induction r as [|t r IH]; intros done idx mi mw idle Hi H0 H1 HA; cbn [most_loop].
    - rewrite app_nil_r. split.
      + intros ->. specialize (H0 eq_refl). subst mw. eapply Forall_impl; [|exact HA]. intros u Hu. cbv beta in Hu. lia.
      + intros ->. destruct (H1 eq_refl) as (t & a & b & -> & -> & -> & P & F1 & F2). exists t.
        split; [rewrite nth_error_app2, Nat.sub_diag by lia; reflexivity|]. exists a, b. auto.
    - replace (done ++ t :: r) with ((done ++ [t]) ++ r) by (now rewrite <- app_assoc).
      destruct (Nat.ltb_spec mw (request t w)) as [L|L].
      + apply IH; [rewrite app_length; cbn [List.length]; lia|discriminate| |].
        * intros _. exists t, done, []. conj; auto; [lia|]. eapply Forall_impl; [|exact HA]. intros u Hu. cbv beta in Hu. lia.
        * apply Forall_app. split; [eapply Forall_impl; [|exact HA]; intros u Hu; cbv beta in Hu; lia|constructor; [lia|constructor]].
      + apply IH; [rewrite app_length; cbn [List.length]; lia|exact H0| |].
        * intros Q. destruct (H1 Q) as (t' & a & b & -> & -> & -> & P & F1 & F2). exists t', a, (b ++ [t]). conj; auto.
          -- now rewrite <- app_assoc.
          -- apply Forall_app. split; [exact F2|constructor; [lia|constructor]].
        * apply Forall_app. split; [exact HA|constructor; [lia|constructor]].
  Qed.
End P.

(** sequential single: a pass calls each task that asks for work at its turn exactly once, in list
    order, calls nothing else, and is idle exactly when it called nothing *)
Theorem C35_sequential_single : forall T Wd (request : T -> Wd -> nat) process tasks w, exists tr,
  once T Wd request process tasks w tr /\
  seq_single T Wd request process tasks w true = (run_all T Wd process tr w, tr, match tr with [] => true | _ => false end).
Proof. intros. apply seq_single_ok. Qed.
Print Assumptions C35_sequential_single.

(** the pass of [once] is unique, keeps the order, runs no task twice, and runs nothing exactly when
    nobody has work *)
Theorem C35_once_facts : forall T Wd (request : T -> Wd -> nat) process tasks w tr,
  once T Wd request process tasks w tr ->
  (forall tr', once T Wd request process tasks w tr' -> tr' = tr) /\
  (NoDup tasks -> NoDup tr) /\ (forall t, In t tr -> In t tasks) /\
  (tr = [] <-> no_work T Wd request tasks w).
Proof.
  intros T Wd request process tasks w tr H.
  assert (I : forall tasks w tr, once T Wd request process tasks w tr -> forall t, In t tr -> In t tasks).
  { clear. induction 1 as [w|t r w tr H1 H2 IH|t r w tr H1 H2 IH]; intros u; cbn [In]; [auto| |intros; right; auto].
    intros [<-|Hu]; [now left|right; auto]. }
  split; [|split; [|split; [exact (I _ _ _ H)|]]].
  - induction H as [w|t r w tr H1 H2 IH|t r w tr H1 H2 IH]; intros tr' H'; inversion H'; subst; auto; try lia. f_equal. auto.
  - induction H as [w|t r w tr H1 H2 IH|t r w tr H1 H2 IH]; intros ND; [constructor| |]; inversion ND; subst; auto.
    constructor; auto. intros Q. apply (I _ _ _ H2) in Q. contradiction.
  - split.
    + intros E. induction H as [w|t r w tr H1 H2 IH|t r w tr H1 H2 IH]; [constructor|discriminate|]. constructor; auto. now apply IH.
    + intros E. induction H as [w|t r w tr H1 H2 IH|t r w tr H1 H2 IH]; [reflexivity| |].
      * inversion E; subst. lia.
      * inversion E; subst. now apply IH.
Qed.
Print Assumptions C35_once_facts.

(** sequential multiple: every pass that ends has run each task, in list order, until it asked for no
    more; it ends exactly when that takes finitely many calls *)
Theorem C35_sequential_multiple : forall T Wd (request : T -> Wd -> nat) process tasks w,
  (forall fuel w' tr i, seq_multiple T Wd request process fuel tasks w true = Some (w', tr, i) ->
     drained T Wd request process tasks w tr /\ w' = run_all T Wd process tr w /\ (i = true <-> tr = [])) /\
  (forall tr, drained T Wd request process tasks w tr ->
     exists i, seq_multiple T Wd request process (List.length tr) tasks w true = Some (run_all T Wd process tr w, tr, i)).
Proof.
  intros. split.
  - intros fuel w' tr i E. destruct (seq_multiple_ok _ _ _ _ _ _ _ _ _ _ _ E) as (A & B & C). split; [exact A|split; [exact B|]]. subst i. destruct tr; split; congruence.
  - intros tr D. now apply drained_ends.
Qed.
Print Assumptions C35_sequential_multiple.

(** highest priority: the first task (the list is in priority order) with work is run, nothing else;
    idle exactly when no task has work *)
Theorem C35_highest_priority : forall T Wd (request : T -> Wd -> nat) process tasks w,
  (exists t, first_with_work T Wd request tasks w t /\ highest T Wd request process tasks w = (process t w, [t], false)) \/
  (no_work T Wd request tasks w /\ highest T Wd request process tasks w = (w, [], true)).
Proof. intros. apply highest_ok. Qed.
Print Assumptions C35_highest_priority.

(** most work: a task with the greatest request (the first of them) is run, nothing else *)
Theorem C35_most_work : forall T Wd (request : T -> Wd -> nat) process tasks w,
  (exists t, most T Wd request tasks w t /\ most_work T Wd request process tasks w = Some (process t w, [t], false)) \/
  (no_work T Wd request tasks w /\ most_work T Wd request process tasks w = Some (w, [], true)).
Proof.
  intros T Wd request process tasks w.
  pose proof (most_loop_ok T Wd request w tasks [] 0 0 0 true eq_refl ltac:(auto) ltac:(discriminate) ltac:(constructor)) as K.
  unfold most_work. destruct (most_loop T Wd request tasks w 0 0 0 true) as [mi idle]. cbn [app] in K. destruct K as [K1 K2].
  destruct idle; cbn [negb].
  - right. split; [now apply K1|reflexivity].
  - left. destruct (K2 eq_refl) as (t & E & M). exists t. split; [exact M|]. now rewrite E.
Qed.
Print Assumptions C35_most_work.

(** ** add_task *)
Lemma filter_nil {A} (f : A -> bool) l : Forall (fun x => f x = false) l -> filter f l = [].
Proof. induction 1 as [|x l H _ IH]; cbn [filter]; [reflexivity|]. now rewrite H. Qed.
Lemma sorted_app {A} (R : A -> A -> Prop) a b : StronglySorted R a -> StronglySorted R b -> (forall x y, In x a -> In y b -> R x y) -> StronglySorted R (a ++ b).
Proof.
  induction 1 as [|x a H1 IH H2]; intros Hb Hab; cbn [app]; [exact Hb|]. constructor.
  - apply IH; [exact Hb|]. intros; apply Hab; [now right|assumption].
  - apply Forall_app. split; [exact H2|]. apply Forall_forall. intros y Hy. apply Hab; [now left|exact Hy].
Qed.
Lemma sorted_app_inv {A} (R : A -> A -> Prop) a b : StronglySorted R (a ++ b) -> StronglySorted R a /\ StronglySorted R b.
Proof.
  induction a as [|x a IH]; cbn [app]; intros H; [split; [constructor|exact H]|]. inversion H as [|? ? H1 H2]; subst.
  destruct (IH H1) as [A1 A2]. split; [constructor; [exact A1|]|exact A2]. apply Forall_app in H2. apply H2.
Qed.
Lemma add_ok T (prio : T -> nat) max added l t : by_priority T prio added l -> List.length l <> max ->
  exists l', add_task T prio max l t = Added T l' /\ by_priority T prio (added ++ [t]) l'.
Proof.
  intros (P & So & St) Hm. unfold add_task. apply Nat.eqb_neq in Hm. rewrite Hm. cbn [negb].
  assert (Pa : AlgoSpec.partitioned (fun x => negb (prio x <? prio t)) l).
  { clear P St Hm. induction So as [|x l H1 IH H2].
    - exists [], []. conj; auto.
    - destruct IH as (a & b & E & F1 & F2). destruct (prio x <? prio t) eqn:Q.
      + exists [], (x :: l). conj; [reflexivity|constructor|]. apply Nat.ltb_lt in Q. apply Forall_forall. intros y [<-|Hy]; apply negb_false_iff, Nat.ltb_lt; [exact Q|].
        rewrite Forall_forall in H2. specialize (H2 y Hy). lia.
      + exists (x :: a), b. conj; [now rewrite E|constructor; [now rewrite Q|exact F1]|exact F2]. }
  destruct (C32_upper_bound T (fun v x => prio x <? prio v) l t Pa) as (i & E & Li & F1 & F2). rewrite E. eexists. split; [reflexivity|].
  unfold insert_at. pose proof (firstn_skipn i l) as FS. set (a := firstn i l) in *. set (b := skipn i l) in *. clearbody a b. subst l.
  apply sorted_app_inv in So as So2. destruct So2 as [Sa Sb].
  assert (Fa : forall x, In x a -> prio t <= prio x) by (intros x Hx; rewrite Forall_forall in F1; specialize (F1 x Hx); cbv beta in F1; apply Nat.ltb_ge in F1; exact F1).
  assert (Fb : forall x, In x b -> prio x < prio t) by (intros x Hx; rewrite Forall_forall in F2; specialize (F2 x Hx); cbv beta in F2; apply Nat.ltb_lt in F2; exact F2).
  split; [|split].
  - rewrite P. rewrite <- app_assoc. apply Permutation_app_head. symmetry. apply Permutation_cons_append.
  - apply sorted_app; [exact Sa| |].
    + constructor; [exact Sb|]. apply Forall_forall. intros y Hy. specialize (Fb y Hy). lia.
    + intros x y Hx [<-|Hy]; [now apply Fa|]. specialize (Fa x Hx). specialize (Fb y Hy). lia.
  - intros p. specialize (St p). rewrite !filter_app in *. cbn [filter]. rewrite <- St. destruct (Nat.eqb_spec (prio t) p) as [<-|].
    + rewrite (filter_nil _ b); [now rewrite app_nil_r|]. apply Forall_forall. intros y Hy. specialize (Fb y Hy). apply Nat.eqb_neq. lia.
    + now rewrite app_nil_r.
Qed.
Lemma add_list_ok T (prio : T -> nat) max ts : forall added l, by_priority T prio added l -> List.length l + List.length ts <= max ->
  exists l', add_task_list T prio max l (map Some ts) = (Added T l', l') /\ by_priority T prio (added ++ ts) l' /\ List.length l' = List.length l + List.length ts.
Proof.
  induction ts as [|t ts IH]; intros added l B Hm; cbn [map add_task_list List.length] in *.
  - exists l. rewrite app_nil_r, Nat.add_0_r. auto.
  - destruct (add_ok T prio max added l t B ltac:(lia)) as (l1 & E & B1). rewrite E.
    assert (L1 : List.length l1 = S (List.length l)).
    { destruct B as (P & _). destruct B1 as (P1 & _). apply Permutation_length in P, P1. rewrite app_length in P1. cbn [List.length] in P1. lia. }
    destruct (IH _ _ B1 ltac:(lia)) as (l2 & E2 & B2 & L2). exists l2. rewrite <- app_assoc in B2. cbn [app] in B2. conj; [exact E2|exact B2|lia].
Qed.

(** However the tasks are added, the list is in order of descending priority, tasks of equal priority
    in the order in which they were added, nothing lost; adding to a full list raises the error. *)
Theorem C35_add_tasks : forall T (prio : T -> nat) max (ts : list T),
  (List.length ts <= max ->
     exists l, add_task_list T prio max [] (map Some ts) = (Added T l, l) /\ by_priority T prio ts l /\ List.length l = List.length ts) /\
  (List.length ts = max -> forall t more, exists l,
     add_task_list T prio max [] (map Some ts ++ Some t :: more) = (TooMany T, l) /\ by_priority T prio ts l) /\
  (List.length ts <= max -> forall more, exists l,
     add_task_list T prio max [] (map Some ts ++ None :: more) = (NullTask T l, l) /\ by_priority T prio ts l).
Proof.
  intros T prio max ts. assert (B0 : by_priority T prio [] []) by (split; [constructor|split; [constructor|reflexivity]]).
  assert (AP : forall a b l l', add_task_list T prio max l (map Some a) = (Added T l', l') -> add_task_list T prio max l (map Some a ++ b) = add_task_list T prio max l' b).
  { induction a as [|t a IH]; intros b l l' E; cbn [map add_task_list app] in *; [injection E as <-; reflexivity|].
    destruct (add_task T prio max l t); try discriminate. now apply IH. }
  conj.
  - intros H. destruct (add_list_ok T prio max ts [] [] B0 H) as (l & E & B & L). exists l. auto.
  - intros H t more. destruct (add_list_ok T prio max ts [] [] B0 ltac:(cbn [List.length]; lia)) as (l & E & B & L). exists l.
    rewrite (AP _ _ _ _ E). cbn [add_task_list]. unfold add_task. cbn [List.length] in L. replace (List.length l =? max) with true by (symmetry; apply Nat.eqb_eq; lia).
    cbn [negb]. split; [reflexivity|exact B].
  - intros H more. destruct (add_list_ok T prio max ts [] [] B0 H) as (l & E & B & L). exists l. rewrite (AP _ _ _ _ E). cbn [add_task_list]. split; [reflexivity|exact B].
Qed.
Print Assumptions C35_add_tasks.

(** start: until exit_scheduler has been called, each iteration with the scheduler running makes one
    pass, then calls the watchdog callback, then, if the pass was idle, the idle callback; an iteration
    while it is not running does nothing. When start returns, exit was requested. *)
Inductive started T Wd (exit_ running : Wd -> bool) wd idl (pass : list T -> Wd -> option (Wd * list T * bool)) (tasks : list T)
  : Wd -> list (ev T) -> Wd -> Prop :=
| st_exit : forall w, exit_ w = true -> started T Wd exit_ running wd idl pass tasks w [] w
| st_paused : forall w es w', exit_ w = false -> running w = false ->
    started T Wd exit_ running wd idl pass tasks w es w' -> started T Wd exit_ running wd idl pass tasks w es w'
| st_pass : forall w w1 tr idle es w', exit_ w = false -> running w = true -> pass tasks w = Some (w1, tr, idle) ->
    let w2 := match wd with Some f => f w1 | None => w1 end in
    let w3 := match idl with Some f => if idle then f w2 else w2 | None => w2 end in
    started T Wd exit_ running wd idl pass tasks w3 es w' ->
    started T Wd exit_ running wd idl pass tasks w
      (map (Run T) tr ++ (match wd with Some _ => [Watchdog T] | None => [] end) ++
       (match idl with Some _ => if idle then [Idle T] else [] | None => [] end) ++ es) w'.
Theorem C35_start : forall T Wd exit_ running wd idl pass (tasks : list T) fuel (w : Wd) w' es,
  loop T Wd exit_ running wd idl pass fuel tasks w = Some (w', es, true) ->
  started T Wd exit_ running wd idl pass tasks w es w' /\ exit_ w' = true.
Proof.
  intros T Wd exit_ running wd idl pass tasks. induction fuel as [|f IH]; intros w w' es E; cbn [loop] in E; destruct (exit_ w) eqn:X.
  - injection E as <- <-. split; [now constructor|exact X].
  - discriminate.
  - injection E as <- <-. split; [now constructor|exact X].
  - destruct (iteration T Wd running wd idl pass tasks w) as [[w1 e1]|] eqn:I; [|discriminate].
    destruct (loop T Wd exit_ running wd idl pass f tasks w1) as [[[w2 e2] b]|] eqn:L; [|discriminate]. injection E as <- <- ->.
    destruct (IH _ _ _ L) as [A B]. split; [|exact B]. unfold iteration in I. destruct (running w) eqn:R.
    + destruct (pass tasks w) as [[[w3 tr] idle]|] eqn:P; [|discriminate].
      pose proof (st_pass T Wd exit_ running wd idl pass tasks w w3 tr idle e2 w2 X R P) as K. cbv zeta in K.
      unfold opt_call in I. destruct wd as [g|], idl as [h|], idle; injection I as <- <-; rewrite <- ?app_assoc; cbn [app] in *; apply K; exact A.
    + injection I as <- <-. cbn [app]. apply st_paused; assumption.
Qed.
Print Assumptions C35_start.

(** FINDING: exit_scheduler is permanent: once called (even before start), start returns at once and
    no task is ever run again. *)
Theorem C35_restart_refuted : forall T Wd exit_ running wd idl pass (tasks : list T) fuel (w : Wd),
  exit_ w = true -> loop T Wd exit_ running wd idl pass fuel tasks w = Some (w, [], true).
Proof. intros T Wd exit_ running wd idl pass tasks [|fuel] w E; cbn [loop]; now rewrite E. Qed.
Print Assumptions C35_restart_refuted.

(** three tasks holding work counters; the work of a task is decremented when it is processed *)
Definition ex_req (t : nat) (w : list nat) : nat := nth t w 0.
Definition ex_proc (t : nat) (w : list nat) : list nat := map (fun i => if i =? t then nth i w 0 - 1 else nth i w 0) (seq 0 (List.length w)).
Example C35_nonvacuous :
  seq_single nat (list nat) ex_req ex_proc [0; 1; 2] [2; 0; 3] true = ([1; 0; 2], [0; 2], false) /\
  seq_multiple nat (list nat) ex_req ex_proc 10 [0; 1; 2] [2; 0; 3] true = Some ([0; 0; 0], [0; 0; 2; 2; 2], false) /\
  highest nat (list nat) ex_req ex_proc [1; 2; 0] [2; 0; 3] = ([2; 0; 2], [2], false) /\
  most_work nat (list nat) ex_req ex_proc [0; 1; 2] [2; 0; 3] = Some ([2; 0; 2], [2], false) /\
  add_task_list nat (fun t => t / 10) 4 [] [Some 12; Some 30; Some 11; Some 25] = (Added nat [30; 25; 12; 11], [30; 25; 12; 11]) /\
  loop nat (list nat) (fun w => forallb (Nat.eqb 0) w) (fun _ => true) None (Some (fun w => w))
    (fun l w => Some (highest nat (list nat) ex_req ex_proc l w)) 10 [0; 1] [1; 1] = Some ([0; 0], [Run nat 0; Run nat 1], true).
Proof. vm_compute. auto 10. Qed.
