From Coq Require Import List Arith Bool Lia.
From Verif Require Import Util Slots SortModel AlgoSpec AlgoModel AlgoProofs HeapProofs SchartSpec SchartModel.
Import ListNotations.

Lemma is_transition_ok e s t : is_transition e s t = true <-> applies e s t.
Proof. unfold is_transition, applies. rewrite andb_true_iff, orb_true_iff, !Nat.eqb_eq. reflexivity. Qed.
Section Proofs.
  Context {S P : Type}.
  Variable act : nat -> P -> S -> S.
  Variable hook : nat -> S -> S.
  Variable ask : nat -> S -> S * bool.
  (** callbacks that do not call the chart *)
  Definition l_act (a : nat) (p : P) (c : cfg S) : cfg S := Cfg (cur c) (started c) (act a p (world c)).
  Definition l_hook (h : nat) (c : cfg S) : cfg S := Cfg (cur c) (started c) (hook h (world c)).
  Definition l_ask (g : nat) (c : cfg S) : cfg S * bool := let '(w, b) := ask g (world c) in (Cfg (cur c) (started c) w, b).
  Variable T : tables.
  Definition nth_get (get : stat -> option nat) : list stat -> nat -> option nat :=
    fix go (ss : list stat) (s : nat) := match ss with [] => None | x :: r => if Nat.eqb (s_id x) s then get x else go r s end.
  Lemma nth_get_first get s : forall l i, first_position (fun x => Nat.eqb (s_id x) s) l i ->
    nth_get get l s = match nth_error l i with Some x => get x | None => None end.
  Proof using.
    induction l as [|x l IH]; intros i (Hi & Hno & Hy); [now destruct i|]. cbn [nth_get]. destruct (Nat.eqb (s_id x) s) eqn:E.
    - destruct i as [|i]; [reflexivity|]. rewrite (Hno 0 x ltac:(lia) eq_refl) in E. discriminate.
    - destruct i as [|i]; [rewrite (Hy x eq_refl) in E; discriminate|]. cbn [nth_error]. apply IH. unfold first_position. conj; [cbn in Hi; lia|intros j y Hj; exact (Hno (Datatypes.S j) y ltac:(lia))|exact Hy].
  Qed.
  Lemma call_state_ok get id c : call_state l_hook T get id c = Some (Cfg (cur c) (started c) (opt_hook hook (nth_get get (st_seen T) id) (world c))).
  Proof using.
    unfold call_state, find_state. destruct (find_if_ok (fun s => Nat.eqb (s_id s) id) (st_seen T)) as (i & -> & F). cbn [obind]. rewrite (nth_get_first get id _ _ F). destruct F as (Hi & _ & _).
    destruct (Nat.eqb_spec i (List.length (st_seen T))) as [->|Ne].
    - rewrite (proj2 (nth_error_None _ _)) by lia. cbn. now destruct c.
    - destruct (nth_error (st_seen T) i) as [x|] eqn:E; [|apply nth_error_None in E; lia]. cbn [obind]. destruct (get x); cbn; [reflexivity|now destruct c].
  Qed.
  Lemma entry_get l s : nth_get s_entry l s = entry_of l s.
  Proof using. induction l as [|x l IH]; [reflexivity|]. cbn. now rewrite IH. Qed.
  Lemma exit_get l s : nth_get s_exit l s = exit_of l s.
  Proof using. induction l as [|x l IH]; [reflexivity|]. cbn. now rewrite IH. Qed.
  Lemma picks_skip e s ts : forall i w r w', i <= List.length ts -> (forall j x, j < i -> nth_error ts j = Some x -> ~ applies e s x) ->
    picks ask e s (skipn i ts) w r w' -> picks ask e s ts w r w'.
  Proof using.
    induction ts as [|t ts IH]; intros i w r w' Hi Hno Hp; [now destruct i|]. destruct i as [|i]; [exact Hp|]. apply picks_other; [exact (Hno 0 t ltac:(lia) eq_refl)|].
    apply (IH i); [cbn in Hi; lia|intros j x Hj; exact (Hno (Datatypes.S j) x ltac:(lia))|exact Hp].
  Qed.
  Lemma event_loop_ok e p : forall fuel t c, List.length (tr_seen T) + 2 <= fuel + t -> 0 < fuel -> t <= List.length (tr_seen T) ->
    exists r w1 c', event_loop l_act l_hook l_ask T fuel e p t c = Some c' /\ started c' = started c /\ picks ask e (cur c) (skipn t (tr_seen T)) (world c) r w1 /\
      match r with
      | None => cur c' = cur c /\ world c' = w1
      | Some x => cur c' = t_next x /\
          let w2 := opt_act act (t_action x) p w1 in
          world c' = if Nat.eqb (cur c) (t_next x) then w2 else opt_hook hook (entry_of (st_seen T) (t_next x)) (opt_hook hook (exit_of (st_seen T) (cur c)) w2)
      end.
  Proof using.
    induction fuel as [|f IH]; intros t c Hf H0 Ht; [lia|]. cbn [event_loop]. cbv zeta. set (ts := tr_seen T) in *. destruct (Nat.eqb_spec t (List.length ts)) as [->|Ne].
    { exists None, (world c), c. conj; try reflexivity. rewrite skipn_all. constructor. }
    destruct (find_loop_ok (is_transition e (cur c)) (skipn t ts) (firstn t ts) []) as (i & Hi & F). rewrite app_nil_r, firstn_skipn in Hi. rewrite firstn_length, Nat.min_l, skipn_length in Hi by lia. rewrite Hi. cbn [obind].
    destruct F as (Li & Hno & Hy). rewrite skipn_length in Li.
    assert (forall j x, j < i -> nth_error (skipn t ts) j = Some x -> ~ applies e (cur c) x) as Hno'.
    { intros j x Hj E A. apply is_transition_ok in A. rewrite (Hno j x Hj E) in A. discriminate. }
    destruct (Nat.eqb_spec (t + i) (List.length ts)) as [E|E].
    { rewrite E. destruct f as [|f]; [lia|]. cbn [event_loop]. cbv zeta. fold ts. rewrite Nat.eqb_refl. exists None, (world c), c. conj; try reflexivity.
      apply (picks_skip e (cur c) _ i); [rewrite skipn_length; lia|exact Hno'|]. rewrite skipn_all2 by (rewrite skipn_length; lia). constructor. }
    destruct (nth_error ts (t + i)) as [x|] eqn:Ex; [|apply nth_error_None in Ex; lia]. cbn [obind].
    assert (applies e (cur c) x) as Ax by (apply is_transition_ok, Hy; rewrite nth_error_skipn; exact Ex).
    assert (skipn i (skipn t ts) = x :: skipn (t + i + 1) ts) as Sk.
    { rewrite skipn_skipn'. replace (i + t) with (t + i) by lia. clear - Ex. revert Ex. generalize (t + i). induction ts as [|y ts IH]; intros k Ex; [now destruct k|]. destruct k as [|k]; [cbn in Ex; injection Ex as ->; reflexivity|]. exact (IH k Ex). }
    assert (forall d, event_loop l_act l_hook l_ask T f e p (List.length ts) d = Some d) as Stop.
    { intros d. destruct f as [|f]; [lia|]. cbn [event_loop]. cbv zeta. fold ts. now rewrite Nat.eqb_refl. }
    assert (forall w, let c1 := Cfg (cur c) (started c) w in
        exists c', (do c0 <- (if negb (Nat.eqb (cur (match t_action x with None => c1 | Some a => l_act a p c1 end)) (t_next x))
                              then do c0 <- call_state l_hook T s_exit (cur (match t_action x with None => c1 | Some a => l_act a p c1 end)) (match t_action x with None => c1 | Some a => l_act a p c1 end);
                                   call_state l_hook T s_entry (cur (Cfg (t_next x) (started c0) (world c0))) (Cfg (t_next x) (started c0) (world c0))
                              else Some (match t_action x with None => c1 | Some a => l_act a p c1 end));
                    event_loop l_act l_hook l_ask T f e p (List.length ts) c0) = Some c' /\ started c' = started c /\ cur c' = t_next x /\
          let w2 := opt_act act (t_action x) p w in
          world c' = if Nat.eqb (cur c) (t_next x) then w2 else opt_hook hook (entry_of (st_seen T) (t_next x)) (opt_hook hook (exit_of (st_seen T) (cur c)) w2)) as Go.
    { intros w c1. replace (match t_action x with None => c1 | Some a => l_act a p c1 end) with (Cfg (cur c) (started c) (opt_act act (t_action x) p w)) by (unfold c1; now destruct (t_action x)). cbn [cur].
      destruct (Nat.eqb_spec (cur c) (t_next x)) as [En|En]; cbn [negb].
      - cbn [obind]. rewrite Stop. eexists. conj; [reflexivity|reflexivity|exact En|reflexivity].
      - rewrite call_state_ok. cbn [obind cur started world]. rewrite call_state_ok. cbn [obind cur started world]. rewrite Stop, entry_get, exit_get. eexists. conj; reflexivity. }
    destruct (t_guard x) as [g|] eqn:Eg.
    - cbn [l_ask]. unfold l_ask. destruct (ask g (world c)) as (w1 & [|]) eqn:Ea.
      + destruct (Go w1) as (c' & E1 & E2 & E3 & E4). exists (Some x), w1, c'. conj; [exact E1|exact E2| |exact E3|exact E4].
        apply (picks_skip e (cur c) _ i); [rewrite skipn_length; lia|exact Hno'|]. rewrite Sk. now apply picks_yes with (g := g).
      + destruct (IH (t + i + 1) (Cfg (cur c) (started c) w1)) as (r & w2 & c' & E1 & E2 & E3 & E4); [lia|lia|lia|]. exists r, w2, c'. conj; [exact E1|exact E2| |exact E4].
        apply (picks_skip e (cur c) _ i); [rewrite skipn_length; lia|exact Hno'|]. rewrite Sk. now apply picks_no with (g := g) (w1 := w1).
    - destruct (Go (world c)) as (c' & E1 & E2 & E3 & E4). exists (Some x), (world c), c'. conj; [|exact E2| |exact E3|exact E4].
      + replace (Cfg (cur c) (started c) (world c)) with c in E1 by now destruct c. exact E1.
      + apply (picks_skip e (cur c) _ i); [rewrite skipn_length; lia|exact Hno'|]. rewrite Sk. now apply picks_free.
  Qed.
  Lemma picks_det e s ts : forall w r w', picks ask e s ts w r w' -> forall r2 w2, picks ask e s ts w r2 w2 -> r2 = r /\ w2 = w'.
  Proof using.
    induction 1; intros r2 w2 HH; inversion HH; subst; try contradiction; try congruence; auto.
    all: repeat match goal with A : ask ?g ?w = _, B : ask ?g' ?w = _ |- _ => assert (g = g') by congruence; subst; rewrite A in B; injection B as; subst end; try congruence; auto.
  Qed.
  Lemma picks_in e s ts : forall w r w', picks ask e s ts w r w' -> forall t, r = Some t -> In t ts /\ applies e s t.
  Proof using. induction 1; intros t0 E; try discriminate; try (injection E as <-; split; [now left|assumption]); destruct (IHpicks t0 E); split; [now right|assumption|now right|assumption]. Qed.
  Lemma start_ok b c : exists c', start l_hook T b c = Some c' /\ cur c' = cur c /\ started c' = true /\
    world c' = if negb (started c) && b then opt_hook hook (entry_of (st_seen T) (cur c)) (world c) else world c.
  Proof using.
    unfold start. destruct (started c) eqn:Es; cbn [negb andb].
    - now exists c.
    - destruct b; [rewrite call_state_ok, entry_get|]; cbn [obind]; eexists; conj; reflexivity.
  Qed.
End Proofs.
