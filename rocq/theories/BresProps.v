(** C58: bresenham_line. [small]: the coordinates are int16_t values and the line is at most 10922 units long in each direction, so that the working values fit in int16_t. *)
From Coq Require Import ZArith List Lia.
From Verif Require Import BresModel BresSpec BresProofs.
Import ListNotations.
Local Open Scope Z_scope.

Definition same_distances fx fy lx ly : Prop := dist fx lx = dist fy ly /\ dist fx lx <> 0.

(** the loop over a line is a function of the line *)
Theorem C58_loop_deterministic : forall l ps l' qs l'', loop l ps l' -> loop l qs l'' -> ps = qs /\ l' = l''.
Proof. intros. eapply loop_det; eauto. Qed.

(** A line whose two distances differ (or that is one point): the loop ends; it gives size() points, a connected chain from the first to the last point.
    On the first pass they are less than one unit behind the exact line (at most m/D, or one half if that is more) and at most one half before it;
    on the second and every later pass they are within one half unit of it, and the state of the line is the same after each pass. *)
Theorem C58_passes : forall fx fy lx ly, small fx fy lx ly -> ~ same_distances fx fy lx ly ->
  exists ps1 ps2 l', loop (begin (initialise fx fy lx ly)) ps1 l' /\ loop (begin l') ps2 l' /\
    Z.of_nat (length ps1) = size (initialise fx fy lx ly) /\ length ps2 = length ps1 /\
    chain fx fy lx ly (Z.max (major fx fy lx ly) (2 * minor fx fy lx ly)) ps1 /\ chain fx fy lx ly (major fx fy lx ly) ps2.
Proof.
  intros fx fy lx ly Hs Hd. rewrite fresh by exact Hs. rewrite begin_state. set (D := major fx fy lx ly). set (m := minor fx fy lx ly).
  pose proof (dist_nonneg fx lx) as N1. pose proof (dist_nonneg fy ly) as N2.
  assert (Hm : 0 <= m <= D) by (unfold m, D, minor, major; lia).
  assert (Sz : forall c b f, size (state fx fy lx ly c b f) = D + 1).
  { intros c b f. unfold size, y_is_major_axis, state. cbn [dx dy]. destruct (major_cases fx fy lx ly) as [(L & E & _)|(L & E & _)]; fold D in E; rewrite E; destruct (Z.ltb_spec (2 * dist fx lx) (2 * dist fy ly)); try lia; rewrite Z.mul_comm, Z.quot_mul by lia; reflexivity. }
  rewrite Sz. destruct (Z.eq_dec D 0) as [D0|DN].
  - assert (E1 : dist fx lx = 0) by (unfold D, major in D0; lia). assert (E2 : dist fy ly = 0) by (unfold D, major in D0; lia).
    assert (X : lx = fx) by (unfold dist in E1; lia). assert (Y : ly = fy) by (unfold dist in E2; lia). subst lx ly.
    assert (Pt : point fx fy fx fy 0 0 = (fx, fy)) by (unfold point; destruct (_ <? _); f_equal; lia).
    assert (Ch : forall s, D <= s -> chain fx fy fx fy s [(fx, fy)]).
    { intros s Hs'. exists (fun _ => 0). fold D m. rewrite D0. cbn [Z.to_nat seq map]. split; [reflexivity|]. split; [lia|]. split; [intros; lia|]. split; [intros; lia|]. cbn. now rewrite Pt. }
    exists [(fx, fy)], [(fx, fy)], (state fx fy fx fy (fx, fy) (2 * m - D) false).
    assert (L : loop (state fx fy fx fy (fx, fy) (2 * m - D) false) [(fx, fy)] (state fx fy fx fy (fx, fy) (2 * m - D) false)) by (apply loop_last; reflexivity).
    split; [exact L|]. split; [rewrite begin_state; exact L|]. split; [rewrite D0; reflexivity|]. split; [reflexivity|]. split; apply Ch; lia.
  - assert (G1 : good D m false) by (split; [lia|]; split; [lia|]; left; split; [reflexivity|]; unfold same_distances in Hd; unfold m, D, minor, major in *; lia).
    assert (G2 : good D m (0 <=? 2 * m - D)) by (split; [lia|]; split; [lia|]; right; reflexivity).
    exists (points fx fy lx ly false 0 (S (Z.to_nat D))), (points fx fy lx ly (0 <=? 2 * m - D) 0 (S (Z.to_nat D))), (state fx fy lx ly (lx, ly) (2 * m - D) (0 <=? 2 * m - D)).
    split; [apply (pass fx fy lx ly Hs false G1)|]. split; [rewrite begin_state; apply (pass fx fy lx ly Hs _ G2)|].
    split; [unfold points; rewrite map_length, seq_length; lia|]. split; [unfold points; now rewrite !map_length, !seq_length|]. split.
    + pose proof (chain_points fx fy lx ly false G1) as (q & C1 & C2 & C3 & C4 & C5). exists q. repeat (split; [assumption|]). split; [|exact C5].
      intros k Hk. specialize (C4 k Hk). fold D m in C4. unfold slack in C4. fold D m. destruct (Bool.eqb _ _); lia.
    + pose proof (chain_points fx fy lx ly _ G2) as C. fold D m in C. unfold slack in C. rewrite Bool.eqb_reflx in C. exact C.
Qed.

(** the flag that asks for a step of the shorter axis is cleared at the start and not set again by begin(): if the shorter distance is at least half of the longer one,
    the first step of the first pass is wrong (it should go diagonally, as it does on the second pass), and two loops over the same line give different points *)
Theorem C58_first_pass_refuted : forall fx fy lx ly, small fx fy lx ly -> ~ same_distances fx fy lx ly -> 0 < major fx fy lx ly <= 2 * minor fx fy lx ly ->
  forall ps1 l1 ps2 l2, loop (begin (initialise fx fy lx ly)) ps1 l1 -> loop (begin l1) ps2 l2 ->
  (exists r1, ps1 = (fx, fy) :: point fx fy lx ly 1 0 :: r1) /\ (exists r2, ps2 = (fx, fy) :: point fx fy lx ly 1 1 :: r2) /\ ps1 <> ps2.
Proof.
  intros fx fy lx ly Hs Hd Hh ps1 l1 ps2 l2 H1 H2. rewrite fresh in H1 by exact Hs. rewrite begin_state in H1. set (D := major fx fy lx ly) in *. set (m := minor fx fy lx ly) in *.
  pose proof (dist_nonneg fx lx) as N1. pose proof (dist_nonneg fy ly) as N2. assert (Hm : 0 <= m <= D) by (unfold m, D, minor, major; lia).
  assert (G1 : good D m false) by (split; [lia|]; split; [lia|]; left; split; [reflexivity|]; unfold same_distances in Hd; unfold m, D, minor, major in *; lia).
  assert (G2 : good D m (0 <=? 2 * m - D)) by (split; [lia|]; split; [lia|]; right; reflexivity).
  destruct (loop_det _ _ _ (pass fx fy lx ly Hs false G1) _ _ H1) as (<- & <-). fold D m in H2. rewrite begin_state in H2.
  destruct (loop_det _ _ _ (pass fx fy lx ly Hs _ G2) _ _ H2) as (<- & _). fold D m.
  unfold points. destruct (Z.to_nat D) as [|n] eqn:En; [lia|]. cbn [seq map]. fold D m.
  assert (T : (0 <=? 2 * m - D) = true) by (apply Z.leb_le; lia). rewrite T.
  assert (E1 : q_of (at_ D m false 1) = 0) by reflexivity. assert (E2 : q_of (at_ D m true 1) = 1) by reflexivity. rewrite E1, E2.
  assert (P0 : forall f, point fx fy lx ly (Z.of_nat 0) (q_of (at_ D m f 0)) = (fx, fy)) by (intros f; change (Z.of_nat 0) with 0; unfold point; cbn [at_ Nat.iter nat_rect q_of fst]; destruct (_ <? _); f_equal; lia).
  rewrite !P0. split; [eauto|]. split; [eauto|]. intros E. injection E as E _. apply point_major in E. lia.
Qed.

(** exactly diagonal lines: the last point is never reached, the loop runs past it for ever *)
Theorem C58_diagonal_refuted : forall fx fy lx ly, small fx fy lx ly -> same_distances fx fy lx ly ->
  forall ps l', ~ loop (begin (initialise fx fy lx ly)) ps l'.
Proof.
  intros fx fy lx ly Hs (He & Hn). rewrite fresh by exact Hs. rewrite begin_state. set (n := dist fx lx) in *.
  assert (Mj : major fx fy lx ly = n) by (unfold major; lia). assert (Mn : minor fx fy lx ly = n) by (unfold minor; lia). rewrite Mj, Mn.
  destruct Hs as (A1 & A2 & A3 & A4 & A5 & A6). pose proof (dist_nonneg fx lx). unfold in16 in *.
  pose proof (towards_dist fx lx) as T1. pose proof (towards_dist fy ly) as T2. rewrite <- He in T2. fold n in T1.
  set (J := fun l : line => exists k, l = state fx fy lx ly (i16 (fx + towards fx lx * k), i16 (fy + towards fy ly * (k - 1))) (3 * n) true).
  assert (Jn : forall l, J l -> coordinate l <> last l /\ J (next l)).
  { intros l (k & ->). split.
    - unfold state. cbn [coordinate last]. intros E. injection E as E1 E2. rewrite <- (i16_id lx ltac:(lia)) in E1 at 2. rewrite <- (i16_id ly ltac:(lia)) in E2 at 2. apply i16_eq in E1. apply i16_eq in E2.
      destruct E1 as (z1 & E1), E2 as (z2 & E2). destruct (towards_cases fx lx) as [X|X]; destruct (towards_cases fy ly) as [Y|Y]; rewrite X, Y in *; lia.
    - exists (k + 1). unfold next, state, y_is_major_axis. cbn [coordinate dx dy do_minor_increment x_increment y_increment balance first last].
      fold n. rewrite <- He. rewrite Z.ltb_irrefl. rewrite !i16_add. rewrite ?(i16_id (3 * n - 2 * n)) by lia. rewrite (i16_id (3 * n - 2 * n + 2 * n)) by lia. f_equal; [f_equal; f_equal; lia|lia|apply Z.leb_le; lia]. }
  assert (JL : forall l ps l', loop l ps l' -> ~ J l).
  { induction 1 as [l E|l ps l' E _ IH]; intros HJ; destruct (Jn l HJ) as (N & HJ'); [contradiction|exact (IH HJ')]. }
  intros ps l' L. inversion L as [l E|l ps' l'' E Lt]; subst.
  - unfold state in E. cbn [coordinate last] in E. injection E as E1 E2. unfold n, dist in Hn. lia.
  - apply (JL _ _ _ Lt). exists 1. unfold next, state, y_is_major_axis. cbn [coordinate dx dy do_minor_increment x_increment y_increment balance first last].
    fold n. rewrite <- He. rewrite Z.ltb_irrefl. rewrite (i16_id (2 * n - n + 2 * n)) by lia. f_equal; [f_equal; [f_equal; lia|]|lia|apply Z.leb_le; lia].
    rewrite i16_id by lia. lia.
Qed.

(** longer lines: the doubled distance does not fit in int16_t; a horizontal line of 20000 units leaves itself with the first step and claims to have one point *)
Theorem C58_long_refuted : size (initialise 0 0 20000 0) = 1 /\ coordinate (next (begin (initialise 0 0 20000 0))) = (0, 1).
Proof. vm_compute. split; reflexivity. Qed.

(** a loop that is left early: the next one starts with the old balance and misses the last point *)
Definition steps (n : nat) (l : line) : line := Nat.iter n next l.
Theorem C58_abandoned_pass_refuted : let l := begin (initialise 0 0 5 3) in
  coordinate (steps 5 (begin (steps 5 l))) = (5, 3) /\ coordinate (steps 5 (begin (steps 1 l))) <> (5, 3).
Proof. vm_compute. split; [reflexivity|discriminate]. Qed.

Example C58_example : small (-5) (-3) 5 3 /\ ~ same_distances (-5) (-3) 5 3 /\ 0 < major (-5) (-3) 5 3 <= 2 * minor (-5) (-3) 5 3.
Proof. repeat split; try (vm_compute; discriminate); try reflexivity. intros (E & _). vm_compute in E. discriminate. Qed.
Example C58_example_points : exists l', loop (begin (initialise 0 0 4 2)) [(0, 0); (1, 0); (2, 1); (3, 2); (4, 2)] l'.
Proof. eexists. apply loop_next; [discriminate|]. apply loop_next; [discriminate|]. apply loop_next; [discriminate|]. apply loop_next; [discriminate|]. apply loop_last. reflexivity. Qed.
Example C58_example_diagonal : small 0 0 3 3 /\ same_distances 0 0 3 3.
Proof. repeat split; vm_compute; discriminate. Qed.
Print Assumptions C58_loop_deterministic.
Print Assumptions C58_passes.
Print Assumptions C58_first_pass_refuted.
Print Assumptions C58_diagonal_refuted.
Print Assumptions C58_long_refuted.
Print Assumptions C58_abandoned_pass_refuted.
