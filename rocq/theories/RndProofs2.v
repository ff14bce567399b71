(** Random numbers: the multiplicative generators and the shift register *)
From Coq Require Import NArith ZArith Lia List Znumtheory.
From Verif Require Import RndModel RndProofs RndFermat RndPrime.
Import ListNotations.
Local Open Scope N_scope.

(** ** pcg: the state is x -> a x + 1 modulo 2^64 *)
Definition pcg_step (v : N) : N := fst (pcg_next v).
Fixpoint aff (k : nat) : N * N := match k with O => (pcg_multiplier, pcg_increment) | S k => let (a, c) := aff k in (u64 (a * a), u64 (a * c + c)) end.
Lemma u64_lt n : u64 n < 18446744073709551616. Proof. apply N.mod_lt. discriminate. Qed.
Lemma u64_mul_add a v c : u64 (a * v + c) = u64 (u64 a * u64 v + u64 c).
Proof.
  unfold u64. rewrite (N.add_mod (a * v)) by discriminate. rewrite (N.mul_mod a v) by discriminate.
  rewrite <- (N.mod_mod c) at 1 by discriminate. rewrite <- N.add_mod by discriminate. reflexivity.
Qed.
Lemma u64_u64 a : u64 (u64 a) = u64 a. Proof. apply N.mod_mod. discriminate. Qed.
Lemma pcg_double k : forall v, N.iter (2 ^ N.of_nat k) pcg_step v = u64 (fst (aff k) * v + snd (aff k)).
Proof.
  induction k as [|k IH]; intros v.
  - cbn [N.of_nat aff fst snd]. rewrite N.pow_0_r. change (N.iter 1 pcg_step v) with (pcg_step v). unfold pcg_step, pcg_next. cbn [fst]. now rewrite N.mul_comm.
  - replace (2 ^ N.of_nat (S k)) with (2 ^ N.of_nat k + 2 ^ N.of_nat k) by (rewrite Nat2N.inj_succ, N.pow_succ_r'; lia). rewrite iter_add, !IH. cbn [aff]. destruct (aff k) as [a c]. cbn [fst snd].
    rewrite (u64_mul_add a (u64 _) c), u64_u64, <- u64_mul_add.
    rewrite (u64_mul_add (u64 (a * a)) v), !u64_u64, <- u64_mul_add. f_equal. lia.
Qed.
Lemma aff64 : aff 64 = (1, 0). Proof. vm_compute. reflexivity. Qed.
Lemma aff63 : aff 63 = (1, 9223372036854775808). Proof. vm_compute. reflexivity. Qed.
Lemma prime_2 : prime 2. Proof. exact Znumtheory.prime_2. Qed.
Lemma pcg_period v : v < 18446744073709551616 -> forall i j, N.iter i pcg_step v = N.iter j pcg_step v <-> i mod 2 ^ 64 = j mod 2 ^ 64.
Proof.
  intros Hv. apply period_exact; [discriminate| |].
  - change (2 ^ 64) with (2 ^ N.of_nat 64). rewrite pcg_double. rewrite aff64. cbn [fst snd]. rewrite N.mul_1_l, N.add_0_r. apply N.mod_small. exact Hv.
  - intros d D E. destruct (N.eq_dec d (2 ^ 64)) as [|Hne]; [auto|exfalso].
    destruct (proper_divisor (repeat 2 64) d) as (p & I & (k & K)); [|exact D|exact Hne|].
    { apply Forall_forall. intros x Hx. apply repeat_spec in Hx. subst. exact prime_2. }
    apply repeat_spec in I. subst p. replace (product (repeat 2 64) / 2) with (2 ^ N.of_nat 63) in K by (vm_compute; reflexivity).
    pose proof (iter_mult pcg_step d v E k) as X. rewrite <- K, pcg_double in X. rewrite aff63 in X. cbn [fst snd] in X. rewrite N.mul_1_l in X.
    unfold u64 in X. pose proof (N.div_mod (v + 9223372036854775808) 18446744073709551616 ltac:(discriminate)) as Q. rewrite X in Q. 
    set (q := (v + 9223372036854775808) / 18446744073709551616) in *. clearbody q. lia.
Qed.

(** ** multiply with carry: a step is a division by 65536 modulo p = 65536 a - 1 *)
Section Mwc.
Variables a p : N.
Hypothesis Ha : 1 < a < 65536.
Hypothesis Hp : p = 65536 * a - 1.
Lemma split16 v : v = 65536 * N.shiftr v 16 + N.land v 65535.
Proof using. rewrite N.shiftr_div_pow2. change 65535 with (N.ones 16). rewrite N.land_ones. exact (N.div_mod v 65536 ltac:(discriminate)). Qed.
Lemma land_lt v : N.land v 65535 < 65536. Proof using. change 65535 with (N.ones 16). rewrite N.land_ones. apply N.mod_lt. discriminate. Qed.
Lemma half_spec v : v < 4294967296 -> 65536 * mwc_half a v = v + p * N.land v 65535 /\ mwc_half a v < 4294967296.
Proof.
  intros Hv. unfold mwc_half. pose proof (split16 v) as S. pose proof (land_lt v) as L. set (l := N.land v 65535) in *. set (h := N.shiftr v 16) in *. clearbody l h.
  assert (h < 65536) by lia. rewrite u32_id by nia. nia.
Qed.
Lemma half_le v : v < p -> mwc_half a v < p.
Proof. intros Hv. destruct (half_spec v ltac:(nia)) as (E & _). pose proof (land_lt v). nia. Qed.
Lemma half_pos v : 0 < v < 4294967296 -> 0 < mwc_half a v.
Proof. intros Hv. destruct (half_spec v ltac:(lia)) as (E & _). nia. Qed.
(** after three steps any seed is on the cycle *)
Lemma half_shrink v : p <= v < 4294967296 -> mwc_half a v <= p \/ mwc_half a v - p <= (v - p) / 65536.
Proof.
  intros Hv. destruct (half_spec v ltac:(lia)) as (E & _). pose proof (land_lt v) as L. destruct (N.le_gt_cases (mwc_half a v) p) as [|G]; [left; auto|right].
  apply N.div_le_lower_bound; [discriminate|]. set (l := N.land v 65535) in *. clearbody l. nia.
Qed.
Lemma half_p : mwc_half a p = p.
Proof.
  destruct (half_spec p ltac:(nia)) as (E & _). assert (N.land p 65535 = 65535).
  { change 65535 with (N.ones 16) at 1. rewrite N.land_ones. change (2 ^ 16) with 65536. symmetry. apply (N.mod_unique p 65536 (a - 1)); nia. }
  rewrite H in E. nia.
Qed.
Definition on_cycle (v : N) : Prop := 0 < v < p.
Lemma enter v : 0 < v < 4294967296 -> v mod p <> 0 -> on_cycle (N.iter 3 (mwc_half a) v).
Proof.
  intros Hv Hm. assert (P0 : p <> 0) by nia.
  assert (M : forall w, 0 < w < 4294967296 -> w mod p <> 0 -> 0 < mwc_half a w < 4294967296 /\ mwc_half a w mod p <> 0).
  { intros w Hw Hwm. destruct (half_spec w ltac:(lia)) as (E & L). pose proof (half_pos w Hw). split; [lia|]. intros X. apply Hwm. apply N.mod_divide in X; [|exact P0]. destruct X as (k & X). rewrite X in E.
    apply N.mod_divide; [exact P0|]. exists (65536 * k - N.land w 65535). nia. }
  assert (St : forall w, on_cycle w -> on_cycle (mwc_half a w)) by (intros w (W1 & W2); split; [apply half_pos; nia|apply half_le; exact W2]).
  change (N.iter 3 (mwc_half a) v) with (mwc_half a (mwc_half a (mwc_half a v))).
  destruct (M v Hv Hm) as (A1 & B1). destruct (M _ A1 B1) as (A2 & B2). destruct (M _ A2 B2) as (A3 & B3).
  assert (Np : forall w, w mod p <> 0 -> w <> p) by (intros w X ->; apply X; apply N.mod_same; exact P0).
  destruct (N.lt_ge_cases v p) as [L|L]; [apply St, St, St; split; lia|].
  destruct (half_shrink v ltac:(lia)) as [L1|L1]; [apply St, St; split; [lia|]; pose proof (Np _ B1); lia|].
  destruct (N.lt_ge_cases (mwc_half a v) p) as [G|G]; [apply St, St; split; lia|].
  destruct (half_shrink _ (conj G (proj2 A1))) as [L2|L2]; [apply St; split; [lia|]; pose proof (Np _ B2); lia|].
  destruct (N.lt_ge_cases (mwc_half a (mwc_half a v)) p) as [G2|G2]; [apply St; split; lia|]. exfalso.
  assert ((v - p) / 65536 < 65536) by (apply N.div_lt_upper_bound; lia).
  assert ((mwc_half a v - p) / 65536 = 0) by (apply N.div_small; lia). pose proof (Np _ B2). lia.
Qed.
(** the q-th step, q the order of 65536 *)
Lemma iter_half v k : v < 4294967296 -> (65536 ^ k * N.iter k (mwc_half a) v) mod p = v mod p /\ N.iter k (mwc_half a) v < 4294967296.
Proof.
  intros Hv. assert (P0 : p <> 0) by nia. induction k as [|k (IH & L)] using N.peano_ind.
  - split; [|exact Hv]. change (N.iter 0 (mwc_half a) v) with v. now rewrite N.pow_0_r, N.mul_1_l.
  - rewrite N.iter_succ. destruct (half_spec _ L) as (E & L2). split; [|exact L2]. rewrite N.pow_succ_r', (N.mul_comm 65536), <- N.mul_assoc, E, N.mul_add_distr_l.
    replace (65536 ^ k * (p * N.land (N.iter k (mwc_half a) v) 65535)) with (65536 ^ k * N.land (N.iter k (mwc_half a) v) 65535 * p) by lia. rewrite N.mod_add by exact P0. exact IH.
Qed.
Lemma cycle_iter k v : on_cycle v -> on_cycle (N.iter k (mwc_half a) v).
Proof. intros H. apply N.iter_invariant; [|exact H]. intros w (W1 & W2). split; [apply half_pos; nia|apply half_le; exact W2]. Qed.
Variable q : N.
Hypothesis Hq : prime (Z.of_N q).
Hypothesis Ord : 65536 ^ q mod p = 1.
Hypothesis Cop : N.gcd 65535 p = 1.
Lemma half_period v : on_cycle v -> forall i j, N.iter i (mwc_half a) v = N.iter j (mwc_half a) v <-> i mod q = j mod q.
Proof.
  intros C. pose proof (prime_ge_2 _ Hq) as G. assert (P0 : p <> 0) by nia.
  apply period_exact; [lia| |].
  - destruct (iter_half v q) as (E & _); [destruct C; nia|]. pose proof (cycle_iter q v C) as (L1 & L2). rewrite N.mul_mod, Ord in E by exact P0. rewrite N.mul_1_l, N.mod_mod in E by exact P0.
    destruct C as (C1 & C2). rewrite !N.mod_small in E; auto.
  - intros d (k & D) E. destruct (prime_divisors _ Hq (Z.of_N d)) as [X|[X|[X|X]]]; try lia; [exists (Z.of_N k); lia|]. assert (d = 1) by lia. subst d.
    exfalso. change (mwc_half a v = v) in E. destruct C as (C1 & C2). destruct (half_spec v ltac:(nia)) as (S & _). rewrite E in S.
    assert (Y : (p | 65535 * v)) by (exists (N.land v 65535); lia). apply N.gauss in Y; [|rewrite N.gcd_comm; exact Cop]. destruct Y as (c & Y). assert (1 <= c) by (destruct (N.eq_dec c 0) as [->|]; lia). assert (1 * p <= c * p) by (apply N.mul_le_mono_r; lia). lia.
Qed.
End Mwc.

(** ** the shift register *)
Lemma lsfr_even v : N.even (snd (lsfr_next v)) = true.
Proof.
  unfold lsfr_next. cbn [snd]. set (w := N.shiftr v 1). change (N.land w 1) with (N.land w (N.ones 1)). rewrite N.land_ones. change (2 ^ 1) with 2.
  rewrite <- N.negb_odd. destruct (N.eqb_spec (w mod 2) 1) as [E|E].
  - rewrite <- N.bit0_odd, N.lxor_spec, N.bit0_odd. rewrite <- N.bit0_mod in E. rewrite <- N.bit0_odd. change (N.testbit lsfr_polynomial 0) with true. destruct (N.testbit w 0); [reflexivity|discriminate].
  - rewrite <- N.bit0_odd. rewrite <- N.bit0_mod in E. destruct (N.testbit w 0); [contradiction E; reflexivity|reflexivity].
Qed.
