(** C68: pseudo_moving_average stays between its inputs and within N + 1 units of the exact filter. *)
From Coq Require Import ZArith List Lia Psatz.
From Verif Require Import PmaSpec PmaModel.
Import ListNotations.
Open Scope Z_scope.
Section P.
Variables (tmin tmax N S lo hi : Z).
Hypothesis N_ok : 1 <= N.
Hypothesis S_ok : 1 <= S.
(** the products fit into T *)
Hypothesis low_fits : tmin <= Z.min 0 lo * (S * (N + 1)).
Hypothesis high_fits : Z.max 0 hi * (S * (N + 1)) <= tmax.

Lemma fit_ok : forall x, Z.min 0 lo * (S * (N + 1)) <= x <= Z.max 0 hi * (S * (N + 1)) -> fit tmin tmax x = Some x.
Proof using low_fits high_fits. intros x H. unfold fit. rewrite (proj2 (Z.leb_le tmin x)), (proj2 (Z.leb_le x tmax)) by lia. reflexivity. Qed.

Lemma add_ok : forall a v, S * lo <= a <= S * hi -> lo <= v <= hi ->
  exists a' r, add tmin tmax N S a v = Some a' /\ S * lo <= a' <= S * hi /\ a' * (N + 1) = a * N + S * v - r /\ - N <= r <= N.
Proof using All.
  intros a v Ha Hv.
  assert (L : Z.min 0 lo <= 0 /\ Z.min 0 lo <= lo) by lia.
  assert (H : 0 <= Z.max 0 hi /\ hi <= Z.max 0 hi) by lia.
  set (l := Z.min 0 lo) in *. set (h := Z.max 0 hi) in *.
  assert (A1 : S * l <= a <= S * h) by nia.
  assert (A2 : S * l * N <= a * N <= S * h * N) by nia.
  assert (A3 : S * l <= S * v <= S * h) by nia.
  unfold add. rewrite fit_ok by nia. simpl. rewrite fit_ok by nia. simpl. rewrite fit_ok by nia. simpl.
  set (x := a * N + S * v).
  assert (X : S * lo * (N + 1) <= x <= S * hi * (N + 1)) by (unfold x; nia).
  exists (Z.quot x (N + 1)), (Z.rem x (N + 1)).
  pose proof (Z.quot_rem x (N + 1) ltac:(lia)) as Q.
  pose proof (Z.rem_bound_abs x (N + 1) ltac:(lia)) as B.
  split; [reflexivity|]. split; [|split; [lia|lia]].
  rewrite <- (Z.quot_mul (S * lo) (N + 1)), <- (Z.quot_mul (S * hi) (N + 1)) by lia.
  split; apply Z.quot_le_mono; lia.
Qed.

Lemma adds_ok : forall vs old a init, S * lo <= a <= S * hi -> Forall (fun v => lo <= v <= hi) vs ->
  Z.abs (a * (N + 1) ^ Z.of_nat (length old) - exact_numerator N S init old) < (N + 1) * (N + 1) ^ Z.of_nat (length old) ->
  exists a', adds tmin tmax N S a vs = Some a' /\ S * lo <= a' <= S * hi /\
    Z.abs (a' * (N + 1) ^ Z.of_nat (length (rev vs ++ old)) - exact_numerator N S init (rev vs ++ old)) < (N + 1) * (N + 1) ^ Z.of_nat (length (rev vs ++ old)).
Proof using All.
  induction vs as [|v vs IH]; intros old a init Ha F E; simpl.
  - eauto.
  - inversion F; subst. destruct (add_ok a v Ha) as (a' & r & -> & B & Q & R); [assumption|]. simpl.
    destruct (IH (v :: old) a' init B H2) as (b & Eb & Bb & Xb).
    + simpl length. rewrite Nat2Z.inj_succ, Z.pow_succ_r by lia. simpl.
      set (p := (N + 1) ^ Z.of_nat (length old)) in *.
      assert (P : 0 < p) by (apply Z.pow_pos_nonneg; lia).
      set (e := exact_numerator N S init old) in *.
      replace (a' * ((N + 1) * p) - (e * N + S * v * p)) with (N * (a * p - e) - r * p) by nia.
      set (d := a * p - e) in *. nia.
    + exists b. rewrite <- app_assoc. auto.
Qed.

(** C68: no addition overflows, the average stays between the least and the greatest input (scaled) whatever the
    order and number of the values, and it differs from the exact filter by less than N + 1. *)
Theorem C68_average : forall initial values, lo <= initial <= hi -> Forall (fun v => lo <= v <= hi) values ->
  exists average, run tmin tmax N S initial values = Some average /\
    S * lo <= value average <= S * hi /\
    Z.abs (value average * (N + 1) ^ Z.of_nat (length values) - exact_numerator N S initial (rev values)) < (N + 1) * (N + 1) ^ Z.of_nat (length values).
Proof using All.
  intros initial values Hi F. unfold run, ctor.
  assert (I : S * lo <= initial * S <= S * hi) by nia.
  assert (fit tmin tmax (initial * S) = Some (initial * S)) as ->.
  { apply fit_ok. assert (L : Z.min 0 lo <= 0 /\ Z.min 0 lo <= lo) by lia.
    assert (H : 0 <= Z.max 0 hi /\ hi <= Z.max 0 hi) by lia.
    set (l := Z.min 0 lo) in *. set (h := Z.max 0 hi) in *.
    assert (S * l <= initial * S <= S * h) by nia. nia. }
  simpl. destruct (adds_ok values [] (initial * S) initial I F) as (b & Eb & Bb & Xb).
  - simpl. replace (initial * S * 1 - S * initial) with 0 by lia. lia.
  - exists b. rewrite app_nil_r, rev_length in Xb. auto.
Qed.
End P.

(** C68: a constant input keeps its own average. *)
Theorem C68_constant : forall tmin tmax N S v n, 1 <= N -> 1 <= S -> tmin <= Z.min 0 v * (S * (N + 1)) -> Z.max 0 v * (S * (N + 1)) <= tmax ->
  run tmin tmax N S v (repeat v n) = Some (S * v).
Proof.
  intros tmin tmax N S v n HN HS L H.
  destruct (C68_average tmin tmax N S v v HN HS L H v (repeat v n)) as (a & E & B & _); [lia| |].
  - apply Forall_forall. intros x I. apply repeat_spec in I. lia.
  - rewrite E. f_equal. unfold value in B. lia.
Qed.

(** Refuted: "the average approaches a constant input". Without scaling, an average of 0 stays 0 for ever when the
    input is constantly N (or less): each step adds less than one unit and the fraction is thrown away. *)
Theorem C68_stuck_refuted : forall tmax N v n, 1 <= N -> 0 <= v <= N -> N <= tmax ->
  run 0 tmax N 1 0 (repeat v n) = Some 0.
Proof.
  intros tmax N v n HN Hv Ht. unfold run, ctor, fit. simpl. rewrite (proj2 (Z.leb_le 0 tmax)) by lia. simpl.
  induction n as [|n IH]; [reflexivity|]. simpl.
  assert (add 0 tmax N 1 0 v = Some 0) as ->; [|exact IH].
  assert (F0 : fit 0 tmax 0 = Some 0) by (unfold fit; rewrite (proj2 (Z.leb_le 0 tmax)) by lia; reflexivity).
  assert (Fv : fit 0 tmax v = Some v) by (unfold fit; rewrite (proj2 (Z.leb_le 0 v)), (proj2 (Z.leb_le v tmax)) by lia; reflexivity).
  unfold add. rewrite Z.mul_0_l, Z.mul_1_l, F0. unfold bind at 1. rewrite Fv. unfold bind at 1. rewrite Z.add_0_l, Fv. unfold bind.
  f_equal. apply Z.quot_small. lia.
Qed.

(** a concrete case that meets the hypotheses: int16_t, 9 samples, scale 10, values between -100 and 200 *)
Example C68_case : run (-32768) 32767 9 10 0 [100; -100; 200; 150] = Some 321.
Proof. reflexivity. Qed.
Example C68_case_fits : -32768 <= Z.min 0 (-100) * (10 * (9 + 1)) /\ Z.max 0 200 * (10 * (9 + 1)) <= 32767.
Proof. vm_compute. split; discriminate. Qed.

Print Assumptions C68_average.
Print Assumptions C68_constant.
Print Assumptions C68_stuck_refuted.
