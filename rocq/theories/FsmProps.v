(** * C26: the flat state machine *)
From Coq Require Import List Arith Bool Lia.
From Verif Require Import Util FsmSpec FsmModel.
Import ListNotations.

Section P.
  Context {W Ms : Type}.
  Variable B : behaviour W Ms.
  Variables n max : nat.
  Hypothesis Hn : 0 < n.
  Hypothesis Hmax : n <= self_transition max.
  Hypothesis Hmax2 : 2 <= max.
  Notation loop := (change_loop B n max).

  Lemma changed_iff s id : have_changed_state max s id = true <-> id <> s /\ id <> no_state_change max /\ id <> self_transition max.
  Proof. unfold have_changed_state. rewrite !andb_true_iff, !negb_true_iff, !Nat.eqb_neq. tauto. Qed.
  Lemma changed_not s id : have_changed_state max s id = false <-> id = s \/ id = no_state_change max \/ id = self_transition max.
  Proof. unfold have_changed_state. rewrite !andb_false_iff, !negb_false_iff, !Nat.eqb_eq. tauto. Qed.
  Lemma special_ge : n <= no_state_change max /\ n <= self_transition max.
  Proof. unfold self_transition, no_state_change in *. lia. Qed.

  Lemma loop_sound : forall fuel p t w tr st x, loop fuel p t w = Some (tr, st, x) ->
    exists tr' u w', tr = Exit p :: tr' /\ x = (Some u, w') /\ arrives B n max t (b_exit B p w) tr' st u w'.
  Proof.
    induction fuel as [|fuel IH]; intros p t w tr st x H; [discriminate|]. cbn [change_loop] in H. cbv zeta in H.
    destruct (b_enter B t (b_exit B p w)) as (w1 & r) eqn:Ee. cbn [fst snd] in H.
    destruct (have_changed_state max t r) eqn:C.
    - apply changed_iff in C as (C1 & C2 & C3). destruct (Nat.ltb_spec r n) as [L|L].
      + destruct (Nat.eqb_spec r t) as [E|_]; [contradiction|]. destruct (loop fuel t r w1) as [[[tr1 st1] x1]|] eqn:El; [|discriminate]. injection H as <- <- <-.
        destruct (IH _ _ _ _ _ _ El) as (tr2 & u & w2 & -> & -> & A). do 3 eexists. conj; try reflexivity. eapply a_go; eassumption.
      + injection H as <- <- <-. do 3 eexists. conj; try reflexivity. eapply a_bad; eassumption.
    - apply changed_not in C. injection H as <- <- <-. do 3 eexists. conj; try reflexivity. eapply a_stay; eassumption.
  Qed.
  Lemma loop_complete t w tr st u w' : arrives B n max t w tr st u w' -> forall p w0, b_exit B p w0 = w -> exists fuel, forall k, fuel <= k -> loop k p t w0 = Some (Exit p :: tr, st, (Some u, w')).
  Proof.
    pose proof special_ge as (G1 & G2).
    induction 1 as [t w w' r Ee Hr|t w w' r Ee L C1 C2 C3|t w w' r tr st u w'' Ee L C A IH]; intros p w0 E0.
    - exists 1. intros [|k] Hk; [lia|]. cbn [change_loop]. cbv zeta. rewrite E0, Ee. cbn [fst snd]. replace (have_changed_state max t r) with false by (symmetry; now apply changed_not). reflexivity.
    - exists 1. intros [|k] Hk; [lia|]. cbn [change_loop]. cbv zeta. rewrite E0, Ee. cbn [fst snd]. replace (have_changed_state max t r) with true by (symmetry; now apply changed_iff).
      replace (r <? n) with false by (symmetry; apply Nat.ltb_ge; lia). reflexivity.
    - destruct (IH t w' eq_refl) as (fuel & IH'). exists (S fuel). intros [|k] Hk; [lia|]. cbn [change_loop]. cbv zeta. rewrite E0, Ee. cbn [fst snd].
      replace (have_changed_state max t r) with true by (symmetry; apply changed_iff; lia).
      replace (r <? n) with true by (symmetry; apply Nat.ltb_lt; lia). replace (Nat.eqb r t) with false by (symmetry; now apply Nat.eqb_neq). rewrite IH' by lia. reflexivity.
  Qed.
  Lemma start_sound : forall fuel t w tr st x, t < n -> start_loop B n max fuel t w = Some (tr, st, x) -> exists u w', x = (Some u, w') /\ starts B n max t w tr st u w'.
  Proof.
    induction fuel as [|fuel IH]; intros t w tr st x Ht H; [discriminate|]. cbn [start_loop] in H. cbv zeta in H. destruct (b_enter B t w) as (w1 & r) eqn:Ee. cbn [fst snd] in H.
    destruct (Nat.eqb_spec r (no_state_change max)) as [E|E]; cbn [negb] in H.
    - injection H as <- <- <-. do 2 eexists. split; [reflexivity|]. eapply s_stay; [eassumption|tauto].
    - destruct (Nat.ltb_spec r n) as [L|L].
      + destruct (Nat.eqb_spec t r) as [E'|E']; cbn [negb] in H.
        * injection H as <- <- <-. subst r. do 2 eexists. split; [reflexivity|]. eapply s_stay; [eassumption|tauto].
        * destruct (start_loop B n max fuel r w1) as [[[tr1 st1] x1]|] eqn:El; [|discriminate]. injection H as <- <- <-. destruct (IH _ _ _ _ _ L El) as (u & w2 & -> & A).
          do 2 eexists. split; [reflexivity|]. eapply s_go; [eassumption|assumption|congruence|eassumption].
      + injection H as <- <- <-. do 2 eexists. split; [reflexivity|]. eapply s_bad; eassumption.
  Qed.
  Lemma start_complete t w tr st u w' : starts B n max t w tr st u w' -> t < n -> exists fuel, forall k, fuel <= k -> start_loop B n max k t w = Some (tr, st, (Some u, w')).
  Proof.
    pose proof special_ge as (G1 & G2).
    induction 1 as [t w w' r Ee Hr|t w w' r Ee L C2|t w w' r tr st u w'' Ee L C A IH]; intros Ht.
    - exists 1. intros [|k] Hk; [lia|]. cbn [start_loop]. cbv zeta. rewrite Ee. cbn [fst snd]. destruct Hr as [->| ->].
      + replace (Nat.eqb t (no_state_change max)) with false by (symmetry; apply Nat.eqb_neq; lia). cbn [negb]. replace (t <? n) with true by (symmetry; apply Nat.ltb_lt; lia). rewrite Nat.eqb_refl. reflexivity.
      + rewrite Nat.eqb_refl. reflexivity.
    - exists 1. intros [|k] Hk; [lia|]. cbn [start_loop]. cbv zeta. rewrite Ee. cbn [fst snd]. replace (Nat.eqb r (no_state_change max)) with false by (symmetry; now apply Nat.eqb_neq). cbn [negb].
      replace (r <? n) with false by (symmetry; apply Nat.ltb_ge; lia). reflexivity.
    - destruct (IH L) as (fuel & IH'). exists (S fuel). intros [|k] Hk; [lia|]. cbn [start_loop]. cbv zeta. rewrite Ee. cbn [fst snd].
      replace (Nat.eqb r (no_state_change max)) with false by (symmetry; apply Nat.eqb_neq; lia). cbn [negb]. replace (r <? n) with true by (symmetry; apply Nat.ltb_lt; lia).
      replace (Nat.eqb t r) with false by (symmetry; apply Nat.eqb_neq; congruence). cbn [negb]. rewrite IH' by lia. reflexivity.
  Qed.
  Definition in_range (x : option nat * W) : Prop := match fst x with Some s => s < n | None => True end.
  Lemma arrives_range t w tr st u w' : arrives B n max t w tr st u w' -> t < n -> u < n.
  Proof. induction 1; auto. Qed.
  Lemma starts_range t w tr st u w' : starts B n max t w tr st u w' -> t < n -> u < n.
  Proof. induction 1; auto. Qed.
  Lemma does_range o x tr st a y : does B n max o x tr st a y -> in_range x -> in_range y.
  Proof.
    destruct 1; unfold in_range; cbn [fst]; intros Hx; try exact I; try assumption; try lia.
    - eapply starts_range; eassumption.
    - match goal with H : receives _ _ _ _ _ _ _ _ _ _ |- _ => destruct H; try assumption end. eapply arrives_range; eassumption.
  Qed.
  Lemma op_sound fuel o x tr st a y : in_range x -> fsm_op B n max fuel o x = Some (tr, st, a, y) -> does B n max o x tr st a y.
  Proof.
    pose proof special_ge as (G1 & G2). destruct x as ([s|] & w); unfold in_range; cbn [fst]; intros Hx H; destruct o as [e|m|e| |]; cbn [fsm_op start receive reset fst snd] in H; cbv zeta in H.
    - injection H as <- <- <- <-. constructor.
    - destruct (b_process B s m w) as (w1 & r) eqn:Ep. cbn [fst snd] in H. destruct (have_changed_state max s r) eqn:C.
      + apply changed_iff in C as (C1 & C2 & C3). destruct (Nat.ltb_spec r n) as [L|L].
        * destruct (loop fuel s r w1) as [[[tr1 st1] x1]|] eqn:El; [|discriminate]. injection H as <- <- <- <-. destruct (loop_sound _ _ _ _ _ _ _ El) as (tr2 & u & w2 & -> & -> & A).
          constructor. eapply r_go; eassumption.
        * injection H as <- <- <- <-. constructor. eapply r_bad; eassumption.
      + apply changed_not in C. unfold is_self_transition in H. destruct (Nat.eqb_spec r (self_transition max)) as [E|E].
        * injection H as <- <- <- <-. constructor. eapply r_self; eassumption.
        * injection H as <- <- <- <-. constructor. eapply r_stay; try eassumption. tauto.
    - destruct e; injection H as <- <- <- <-; constructor.
    - injection H as <- <- <- <-; constructor.
    - injection H as <- <- <- <-. apply d_is with (c := Some s).
    - destruct e.
      + destruct (start_loop B n max fuel 0 w) as [[[tr1 st1] x1]|] eqn:El; [|discriminate]. injection H as <- <- <- <-. destruct (start_sound _ _ _ _ _ _ Hn El) as (u & w2 & -> & A). now constructor.
      + injection H as <- <- <- <-; constructor.
    - injection H as <- <- <- <-; constructor.
    - injection H as <- <- <- <-; constructor.
    - injection H as <- <- <- <-; constructor.
    - injection H as <- <- <- <-. apply d_is with (c := None).
  Qed.
  Lemma op_complete o x tr st a y : in_range x -> does B n max o x tr st a y -> exists fuel, forall k, fuel <= k -> fsm_op B n max k o x = Some (tr, st, a, y).
  Proof.
    pose proof special_ge as (G1 & G2). intros Hx D. destruct D as [w tr st u w' S'|w|e s w|m s w tr st u w' R|m w|s w|c w|e w|s w|w|c w]; try (exists 0; intros k _; reflexivity).
    - destruct (start_complete _ _ _ _ _ _ S' Hn) as (fuel & K). exists fuel. intros k Hk. cbn [fsm_op start]. now rewrite (K k Hk).
    - unfold in_range in Hx. cbn [fst] in Hx. destruct R as [s w w' r Ep Hr C|s w w' r Ep ->|s w w' r Ep L C1 C2 C3|s w w' r tr st u w'' Ep L C A].
      + exists 0. intros k _. cbn [fsm_op receive]. cbv zeta. rewrite Ep. cbn [fst snd]. replace (have_changed_state max s r) with false by (symmetry; apply changed_not; tauto).
        unfold is_self_transition. replace (Nat.eqb r (self_transition max)) with false by (symmetry; now apply Nat.eqb_neq). reflexivity.
      + exists 0. intros k _. cbn [fsm_op receive]. cbv zeta. rewrite Ep. cbn [fst snd]. replace (have_changed_state max s (self_transition max)) with false by (symmetry; apply changed_not; tauto).
        unfold is_self_transition. rewrite Nat.eqb_refl. reflexivity.
      + exists 0. intros k _. cbn [fsm_op receive]. cbv zeta. rewrite Ep. cbn [fst snd]. replace (have_changed_state max s r) with true by (symmetry; apply changed_iff; tauto).
        replace (r <? n) with false by (symmetry; now apply Nat.ltb_ge). reflexivity.
      + destruct (loop_complete _ _ _ _ _ _ A s w' eq_refl) as (fuel & K). exists fuel. intros k Hk. cbn [fsm_op receive]. cbv zeta. rewrite Ep. cbn [fst snd].
        replace (have_changed_state max s r) with true by (symmetry; apply changed_iff; lia). replace (r <? n) with true by (symmetry; now apply Nat.ltb_lt). now rewrite (K k Hk).
    - exists 0. intros k _. destruct c; reflexivity.
  Qed.
End P.

(** A history of calls makes exactly the calls of the user's functions, gives exactly the answers and ends in exactly the state that
    FsmSpec.v says; and it ends (for some number of rounds of the loops) exactly when FsmSpec.v gives it an end. *)
Theorem C26_history : forall {W Ms : Type} (B : behaviour W Ms) (n max : nat), 0 < n -> 2 <= max -> n <= self_transition max ->
  forall os w r z, history B n max os (None, w) r z <-> exists fuel, fsm_ops B n max fuel os (None, w) = Some (r, z).
Proof.
  intros W Ms B n max Hn H2 Hmax os w r z.
  assert (forall os x r z, in_range n x -> (history B n max os x r z <-> exists fuel, forall k, fuel <= k -> fsm_ops B n max k os x = Some (r, z)) /\ (forall fuel, fsm_ops B n max fuel os x = Some (r, z) -> history B n max os x r z)) as G.
  { clear os w r z. induction os as [|o os IH]; intros x r z Hx.
    - assert (forall fuel, fsm_ops B n max fuel [] x = Some (r, z) -> history B n max [] x r z) as Q by (intros f H; injection H as <- <-; constructor).
      split; [|exact Q]. split; [intros H; inversion H; subst; now exists 0|intros (f & H); exact (Q f (H f (Nat.le_refl _)))].
    - assert (forall fuel, fsm_ops B n max fuel (o :: os) x = Some (r, z) -> history B n max (o :: os) x r z) as Q.
      { intros f H. cbn [fsm_ops] in H. destruct (fsm_op B n max f o x) as [[[[tr st] a] y]|] eqn:Eo; [|discriminate]. destruct (fsm_ops B n max f os y) as [[l z']|] eqn:El; [|discriminate]. injection H as <- <-.
        pose proof (op_sound B n max Hn Hmax H2 f o x tr st a y Hx Eo) as D. econstructor; [exact D|]. apply (proj2 (IH y l z' (does_range B n max Hn _ _ _ _ _ _ D Hx)) f El). }
      split; [|exact Q]. split; [|intros (f & H); exact (Q f (H f (Nat.le_refl _)))].
      intros H. inversion H as [|? ? ? y ? tr st a r' D Hh]; subst. destruct (op_complete B n max Hn Hmax H2 o x tr st a y Hx D) as (f1 & K1).
      destruct (proj1 (proj1 (IH y r' z (does_range B n max Hn _ _ _ _ _ _ D Hx))) Hh) as (f2 & K2). exists (f1 + f2). intros k Hk. cbn [fsm_ops]. rewrite K1, K2 by lia. reflexivity. }
  destruct (G os (None, w) r z I) as (G1 & G2). split.
  - intros H. apply G1 in H as (f & H). exists f. apply H. lia.
  - intros (f & H). exact (G2 f H).
Qed.

(** What a message does, read off the calls: first the current state's process_event, then from each state its exit before the enter of the next;
    a call that completes and made a transition ends with the enter action of the state the machine is then in, and that action asked for no change. *)
Theorem C26_receive_order : forall {W Ms : Type} (B : behaviour W Ms) (n max : nat) m s w tr st u w', receives B n max m s w tr st u w' ->
  leads s tr u /\ (exists tr', tr = Process s m :: tr' /\ (forall x y, ~ In (Process x y) tr')) /\
  (st = Done -> u <> s -> exists tr' w0, tr = tr' ++ [Enter u] /\ fst (b_enter B u w0) = w' /\ (snd (b_enter B u w0) = u \/ snd (b_enter B u w0) = no_state_change max \/ snd (b_enter B u w0) = self_transition max)).
Proof.
  intros W Ms B n max m s w tr st u w' R.
  assert (forall t w tr st u w', arrives B n max t w tr st u w' -> (forall s, leads s (Exit s :: tr) u) /\ (forall x y, ~ In (@Process Ms x y) tr) /\
    (st = Done -> exists tr' w0, tr = tr' ++ [Enter u] /\ fst (b_enter B u w0) = w' /\ (snd (b_enter B u w0) = u \/ snd (b_enter B u w0) = no_state_change max \/ snd (b_enter B u w0) = self_transition max))) as G.
  { clear. induction 1 as [t w w' r Ee Hr|t w w' r Ee L C1 C2 C3|t w w' r tr st u w'' Ee L C A IH].
    - conj; [intros s; do 2 constructor|intros x y [H|[]]; discriminate|]. intros _. exists [], w. rewrite Ee. cbn. tauto.
    - conj; [intros s; do 2 constructor|intros x y [H|[]]; discriminate|]. discriminate.
    - destruct IH as (IH1 & IH2 & IH3). conj.
      + intros s. constructor. apply IH1.
      + intros x y [H|[H|H]]; try discriminate. exact (IH2 x y H).
      + intros E. destruct (IH3 E) as (tr' & w0 & -> & Q). exists (Enter t :: Exit t :: tr'), w0. split; [reflexivity|exact Q]. }
  destruct R as [s w w' r Ep Hr C|s w w' r Ep ->|s w w' r Ep L C1 C2 C3|s w w' r tr st u w'' Ep L C A].
  - conj; [do 2 constructor|exists []; split; [reflexivity|intros ? ? []]|congruence].
  - conj; [do 3 constructor|exists [Exit s; Enter s]; split; [reflexivity|intros x y [H|[H|[]]]; discriminate]|congruence].
  - conj; [do 2 constructor|exists []; split; [reflexivity|intros ? ? []]|congruence].
  - destruct (G _ _ _ _ _ _ A) as (G1 & G2 & G3). conj.
    + constructor. apply G1.
    + exists (Exit s :: tr). split; [reflexivity|]. intros x y [H|H]; [discriminate|exact (G2 x y H)].
    + intros E _. destruct (G3 E) as (tr' & w0 & -> & Q). exists (Process s m :: Exit s :: tr'), w0. split; [reflexivity|exact Q].
Qed.
(** An id that is no state raises the exception; the machine stays in the state it was in and no exit or enter action has been called for it. *)
Theorem C26_bad_id : forall {W Ms : Type} (B : behaviour W Ms) (n max : nat) fuel m s w w' r, s < n -> n <= self_transition max -> 2 <= max ->
  b_process B s m w = (w', r) -> n <= r -> r <> no_state_change max -> r <> self_transition max ->
  receive B n max fuel m (Some s, w) = Some ([Process s m], Bad_state_id, (Some s, w')).
Proof.
  intros W Ms B n max fuel m s w w' r Hs H1 H2 Ep L C2 C3. cbn [receive]. cbv zeta. rewrite Ep. cbn [fst snd]. replace (have_changed_state max s r) with true by (symmetry; apply changed_iff; lia).
  replace (r <? n) with false by (symmetry; now apply Nat.ltb_ge). reflexivity.
Qed.
(** set_states accepts exactly the lists in which entry i is the state with the id i. *)
Theorem C26_set_states : forall max entries, set_states max entries = Set_ok <-> 0 < length entries < max /\ (forall i e, nth_error entries i = Some e -> e = Some i).
Proof.
  intros max entries. unfold set_states, no_state_change. assert (forall i, check_entries i entries = Set_ok <-> forall j e, nth_error entries j = Some e -> e = Some (i + j)) as G.
  { induction entries as [|[id|] l IH]; intros i; cbn [check_entries].
    - split; [intros _ [|j] e He; discriminate|reflexivity].
    - destruct (Nat.eqb_spec id i) as [->|N].
      + rewrite IH. split; intros H [|j] e He; cbn in He.
        * injection He as <-. f_equal. lia.
        * rewrite (H j e He). f_equal. lia.
        * rewrite (H 1 e He). f_equal; lia.
        * rewrite (H (S (S j)) e He). f_equal. lia.
      + split; [discriminate|]. intros H. specialize (H 0 (Some id) eq_refl). injection H as H. lia.
    - split; [discriminate|]. intros H. specialize (H 0 None eq_refl). discriminate. }
  destruct (Nat.ltb_spec 0 (length entries)), (Nat.ltb_spec (length entries) max); cbn [negb]; try (split; [discriminate|lia]).
  rewrite G. split; [intros H'; split; [lia|exact H']|intros (_ & H'); exact H'].
Qed.

(** ** FINDINGS *)
(** two states; the enter action of 0 asks for 1, and (when the data is true) that of 1 for 0 *)
Definition two (ping : bool) : behaviour unit nat :=
  {| b_process := fun s m w => (w, m); b_enter := fun s w => (w, match s with 0 => 1 | _ => if ping then 0 else 255 end); b_exit := fun _ w => w |}.
(** start() leaves the first state without calling its exit action. *)
Theorem C26_start_exits_refuted : ~ (forall (B : behaviour unit nat) n max w tr u w', 0 < n -> n <= self_transition max -> 2 <= max ->
   starts B n max 0 w tr Done u w' -> leads 0 tr u \/ exists tr', tr = Enter 0 :: tr' /\ leads 0 tr' u).
Proof.
  intros H. specialize (H (two false) 2 255 tt [Enter 0; Enter 1] 1 tt ltac:(lia) ltac:(cbn; lia) ltac:(lia)).
  destruct H as [H|(tr' & E & H)].
  - eapply s_go; [reflexivity|lia|lia|]. eapply s_stay; [reflexivity|right; reflexivity].
  - inversion H.
  - injection E as <-. inversion H.
Qed.
(** receive() need not return: enter actions that keep asking for each other's state are followed for ever. *)
Theorem C26_terminates_refuted : ~ (forall (B : behaviour unit nat) n max m s w, 0 < n -> n <= self_transition max -> s < n -> exists fuel r, receive B n max fuel m (Some s, w) = Some r).
Proof.
  intros H. destruct (H (two true) 2 255 0 1 tt) as (fuel & r & E); try (cbn; lia).
  assert (forall f p t, t < 2 -> change_loop (two true) 2 255 f p t tt = None) as G.
  { induction f as [|f IH]; intros p t Ht; [reflexivity|]. destruct t as [|[|t]]; [| |lia]; cbn [change_loop two b_enter b_exit fst snd]; cbv zeta; cbn.
    - rewrite (IH 0 1) by lia. reflexivity.
    - rewrite (IH 1 0) by lia. reflexivity. }
  cbn in E. rewrite G in E by lia. discriminate.
Qed.
(** the change asked for by the enter action is ignored after a self transition *)
Theorem C26_self_transition_enter_ignored : exists (B : behaviour unit nat) fuel, receive B 2 255 fuel 253 (Some 0, tt) = Some ([Process 0 253; Exit 0; Enter 0], Done, (Some 0, tt)) /\ snd (b_enter B 0 tt) = 1.
Proof. exists (two false), 0. split; reflexivity. Qed.
(** set_states accepts 254 states with 8 bit ids, but the id of the last one is Self_Transition: it cannot be reached. *)
Theorem C26_last_id_refuted : set_states 255 (map Some (seq 0 254)) = Set_ok /\
  exists (B : behaviour unit nat), b_process B 0 7 tt = (tt, 253) /\ receive B 254 255 5 7 (Some 0, tt) = Some ([Process 0 7; Exit 0; Enter 0], Done, (Some 0, tt)).
Proof.
  split; [reflexivity|]. exists {| b_process := fun s m w => (w, 253); b_enter := fun s w => (w, 255); b_exit := fun _ w => w |}. split; reflexivity.
Qed.

(** ** a concrete case: message 1 moves 0 to 1, whose enter action moves on to 2 *)
Definition three : behaviour (list nat) nat :=
  {| b_process := fun s m w => (m :: w, m); b_enter := fun s w => (100 + s :: w, if Nat.eqb s 1 then 2 else 255); b_exit := fun s w => (200 + s :: w) |}.
Example C26_case : fsm_ops three 3 255 5 [Start true; Receive 1; Receive 253; Receive 9; Reset true; Receive 1] (None, []) =
  Some ([([Enter 0], Done, Aunit); ([Process 0 1; Exit 0; Enter 1; Exit 1; Enter 2], Done, Aunit); ([Process 2 253; Exit 2; Enter 2], Done, Aunit); ([Process 2 9], Bad_state_id, Aunit); ([Exit 2], Done, Aunit); ([], Not_started, Aunit)],
        (None, [202; 9; 102; 202; 253; 102; 201; 101; 200; 1; 100])).
Proof. reflexivity. Qed.
Example C26_case_bounds : 0 < 3 /\ 2 <= 255 /\ 3 <= self_transition 255.
Proof. cbn. lia. Qed.

Print Assumptions C26_history.
Print Assumptions C26_receive_order.
Print Assumptions C26_bad_id.
Print Assumptions C26_set_states.
Print Assumptions C26_start_exits_refuted.
Print Assumptions C26_terminates_refuted.
Print Assumptions C26_last_id_refuted.
