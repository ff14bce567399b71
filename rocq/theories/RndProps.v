(** C57: the pseudo random number generators of random.h.
    after n g: the generator after n calls of operator(); output n g: the (n+1)-th number it produces *)
From Coq Require Import NArith ZArith Lia List Znumtheory.
From Verif Require Import RndModel RndProofs RndProofs2 RndPrime RndXor.
Import ListNotations.
Local Open Scope N_scope.

Definition after (n : N) (g : gen) : gen := N.iter n (fun g => fst (next g)) g.
Definition output (n : N) (g : gen) : N := snd (next (after n g)).

(** range(low, high): an admissible interval that is not the whole of uint32_t gives low plus the next number modulo the size of the interval:
    never outside, every value of it reachable, and the generator moves by exactly one number *)
Theorem C57_range : forall g low high, low <= high -> high < 2 ^ 32 -> high - low <> 2 ^ 32 - 1 ->
  exists r, range g low high = (fst (next g), Some r) /\ low <= r <= high /\ r = low + snd (next g) mod (high - low + 1).
Proof.
  intros g low high H1 H2 H3. unfold range. destruct (next g) as [g' n]. cbn [fst snd]. rewrite range_of_spec by assumption.
  eexists. split; [reflexivity|]. pose proof (N.mod_lt n (high - low + 1) ltac:(lia)). set (m := n mod _) in *. clearbody m. split; [lia|reflexivity].
Qed.
(** the whole of uint32_t: the program divides by zero, whatever the generator *)
Theorem C57_range_full_refuted : forall g, snd (range g 0 (2 ^ 32 - 1)) = None.
Proof. intros g. unfold range. destruct (next g). reflexivity. Qed.

(** random_xorshift: from every seed all 2^128 - 1 states other than zero are passed before one comes again *)
Lemma after_xorshift n x : after n (Xorshift x) = Xorshift (N.iter n step x).
Proof. unfold after. induction n as [|n IH] using N.peano_ind; [reflexivity|]. rewrite !N.iter_succ, IH. unfold step. cbn [next]. destruct (xorshift_next _). reflexivity. Qed.
Lemma seed_ok seed : ok (xorshift_seed seed).
Proof. repeat split; apply u32_lt. Qed.
Lemma seed_nonzero seed : seed < 2 ^ 32 -> xorshift_seed seed <> vzero.
Proof.
  intros H E. unfold xorshift_seed, vzero in E. injection E as E0 E1 _ _. unfold u32 in *. 
  apply N.mod_divide in E0; [|discriminate]. apply N.mod_divide in E1; [|discriminate]. destruct E0 as (a & Ea), E1 as (b & Eb). change (2 ^ 32) with 4294967296 in H. lia.
Qed.
Theorem C57_xorshift_period : forall seed, seed < 2 ^ 32 -> forall i j,
  after i (initialise KXorshift seed) = after j (initialise KXorshift seed) <-> i mod (2 ^ 128 - 1) = j mod (2 ^ 128 - 1).
Proof.
  intros seed H i j. cbn [initialise]. rewrite !after_xorshift. change (2 ^ 128 - 1) with full. rewrite <- (xorshift_period (xorshift_seed seed)) by (apply seed_ok || (apply seed_nonzero; exact H)).
  split; [intros E; injection E; auto|intros ->; reflexivity].
Qed.

(** random_pcg: period 2^64 from every seed *)
Theorem C57_pcg_period : forall seed, seed < 2 ^ 32 -> forall i j,
  after i (initialise KPcg seed) = after j (initialise KPcg seed) <-> i mod 2 ^ 64 = j mod 2 ^ 64.
Proof.
  intros seed H i j. assert (A : forall n v, after n (Pcg v) = Pcg (N.iter n pcg_step v)).
  { intros n v. unfold after. induction n as [|n IH] using N.peano_ind; [reflexivity|]. rewrite !N.iter_succ, IH. unfold pcg_step. cbn [next]. destruct (pcg_next _). reflexivity. }
  cbn [initialise]. rewrite !A. rewrite <- (pcg_period (pcg_seed seed)).
  - split; [intros E; injection E; auto|intros ->; reflexivity].
  - unfold pcg_seed. change 18446744073709551616 with (2 ^ 64). change (2 ^ 32) with 4294967296 in H.
    assert (S32 : N.shiftl seed 32 < 2 ^ 64) by (rewrite N.shiftl_mul_pow2; change (2 ^ 64) with (4294967296 * 2 ^ 32); change (2 ^ 32) with 4294967296; nia).
    assert (E : N.lor seed (N.shiftl seed 32) = N.lor seed (N.shiftl seed 32) mod 2 ^ 64).
    { apply N.bits_inj. intros n. destruct (N.lt_ge_cases n 64) as [L|L]; [rewrite N.mod_pow2_bits_low by exact L; reflexivity|]. rewrite N.mod_pow2_bits_high, N.lor_spec by exact L.
      rewrite <- (N.mod_small (N.shiftl seed 32) (2 ^ 64)) by exact S32. rewrite N.mod_pow2_bits_high by exact L.
      rewrite <- (N.mod_small seed (2 ^ 64)) by (change (2 ^ 64) with 18446744073709551616; lia). rewrite N.mod_pow2_bits_high by exact L. reflexivity. }
    rewrite E. apply N.mod_lt. discriminate.
Qed.

(** random_mwc: two multiply-with-carry halves with moduli p1 = 36969*2^16 - 1 and p2 = 18000*2^16 - 1 *)
Definition p1 : N := 36969 * 2 ^ 16 - 1.
Definition p2 : N := 18000 * 2 ^ 16 - 1.
Lemma after_mwc n a b : after n (Mwc (a, b)) = Mwc (N.iter n (mwc_half 36969) a, N.iter n (mwc_half 18000) b).
Proof. unfold after. induction n as [|n IH] using N.peano_ind; [reflexivity|]. rewrite !N.iter_succ, IH. reflexivity. Qed.
Lemma q1_prime : prime (Z.of_N 1211400191). Proof. apply (prime_small (N.to_nat 34805)); [reflexivity|vm_compute; reflexivity|vm_compute; reflexivity]. Qed.
Lemma q2_prime : prime (Z.of_N 589823999). Proof. apply (prime_small (N.to_nat 24286)); [reflexivity|vm_compute; reflexivity|vm_compute; reflexivity]. Qed.
Definition pow_mod (m : N) : positive -> N := fix go p := match p with xH => 65536 mod m | xO p => let s := go p in (s * s) mod m | xI p => let s := go p in ((s * s) mod m * 65536) mod m end.
Lemma pow_mod_spec m p : m <> 0 -> pow_mod m p = 65536 ^ Npos p mod m.
Proof.
  intros Hm. induction p as [p IH|p IH|]; cbn [pow_mod].
  - rewrite IH. replace (N.pos p~1) with (N.succ (N.pos p + N.pos p)) by lia. rewrite N.pow_succ_r', N.pow_add_r. rewrite <- N.mul_mod by exact Hm. rewrite N.mul_mod_idemp_l by exact Hm. f_equal. apply N.mul_comm.
  - rewrite IH. replace (N.pos p~0) with (N.pos p + N.pos p) by lia. rewrite N.pow_add_r, <- N.mul_mod by exact Hm. reflexivity.
  - now rewrite N.pow_1_r.
Qed.
Lemma half1_period v : on_cycle p1 v -> forall i j, N.iter i (mwc_half 36969) v = N.iter j (mwc_half 36969) v <-> i mod 1211400191 = j mod 1211400191.
Proof.
  apply (half_period 36969 p1); [lia|reflexivity|exact q1_prime| |vm_compute; reflexivity].
  rewrite <- (pow_mod_spec p1) by discriminate. vm_compute. reflexivity.
Qed.
Lemma half2_period v : on_cycle p2 v -> forall i j, N.iter i (mwc_half 18000) v = N.iter j (mwc_half 18000) v <-> i mod 589823999 = j mod 589823999.
Proof.
  apply (half_period 18000 p2); [lia|reflexivity|exact q2_prime| |vm_compute; reflexivity].
  rewrite <- (pow_mod_spec p2) by discriminate. vm_compute. reflexivity.
Qed.
(** for every seed that neither modulus divides the sequence of states is periodic from the third call on, with period (p1-1)/2 * (p2-1)/2, about 2^59.3 *)
Theorem C57_mwc_period : forall seed, seed < 2 ^ 32 -> seed mod p1 <> 0 -> seed mod p2 <> 0 -> forall i j,
  after (i + 3) (initialise KMwc seed) = after (j + 3) (initialise KMwc seed) <-> i mod ((p1 - 1) / 2 * ((p2 - 1) / 2)) = j mod ((p1 - 1) / 2 * ((p2 - 1) / 2)).
Proof.
  intros seed H M1 M2 i j. assert (0 < seed) by (destruct seed; [exfalso; apply M1; reflexivity|reflexivity]). change (2 ^ 32) with 4294967296 in H.
  cbn [initialise]. rewrite !after_mwc, !iter_add.
  pose proof (enter 36969 p1 ltac:(lia) eq_refl seed ltac:(lia) M1) as C1. pose proof (enter 18000 p2 ltac:(lia) eq_refl seed ltac:(lia) M2) as C2.
  pose proof (half1_period _ C1 i j) as P1. pose proof (half2_period _ C2 i j) as P2.
  set (x1 := N.iter i _ (N.iter 3 (mwc_half 36969) seed)) in *. set (y1 := N.iter j _ (N.iter 3 (mwc_half 36969) seed)) in *.
  set (x2 := N.iter i _ (N.iter 3 (mwc_half 18000) seed)) in *. set (y2 := N.iter j _ (N.iter 3 (mwc_half 18000) seed)) in *. clearbody x1 y1 x2 y2.
  change ((p1 - 1) / 2 * ((p2 - 1) / 2)) with (1211400191 * 589823999).
  assert (CRT : forall u w, u <= w -> (u mod (1211400191 * 589823999) = w mod (1211400191 * 589823999) <-> u mod 1211400191 = w mod 1211400191 /\ u mod 589823999 = w mod 589823999)).
  { assert (D : forall m u w, m <> 0 -> u <= w -> (u mod m = w mod m <-> (m | w - u))).
    { intros m u w Hm L. split.
      - intros E. exists (w / m - u / m). pose proof (N.div_mod u m Hm). pose proof (N.div_mod w m Hm). pose proof (N.div_le_mono u w m Hm L). set (a := u / m) in *. set (b := w / m) in *. rewrite N.mul_sub_distr_r. rewrite !(N.mul_comm _ m). lia.
      - intros (k & E). replace w with (u + k * m) by lia. rewrite N.mod_add by exact Hm. reflexivity. }
    intros u w L. rewrite !D by (auto; discriminate). split.
    - intros (k & E). split; [exists (k * 589823999)|exists (k * 1211400191)]; lia.
    - intros ((a & Ea) & B). rewrite Ea, N.mul_comm in B. apply N.gauss in B; [|vm_compute; reflexivity]. destruct B as (k & Ek). exists k. rewrite Ea, Ek. ring. }
  split.
  - intros E. injection E as E1 E2. apply P1 in E1. apply P2 in E2. destruct (N.le_ge_cases i j) as [L|L]; [apply CRT; auto|symmetry; apply CRT; auto].
  - intros E. assert (K : i mod 1211400191 = j mod 1211400191 /\ i mod 589823999 = j mod 589823999).
    { destruct (N.le_ge_cases i j) as [L|L]; [apply CRT in E; auto|]. symmetry in E. apply CRT in E; [|exact L]. destruct E; split; symmetry; assumption. }
    destruct K as (K1 & K2). apply P1 in K1. apply P2 in K2. subst. reflexivity.
Qed.
(** the other seeds: 0 gives nothing but zeros; with a multiple of a modulus one half of the generator never changes.
    There are four such seeds besides 0. *)
Theorem C57_mwc_seed_refuted : (forall n, output n (initialise KMwc 0) = 0) /\
  (forall n, exists b, after n (initialise KMwc p1) = Mwc (p1, b)) /\ (forall n, exists a, after n (initialise KMwc p2) = Mwc (a, p2)) /\
  (forall n, exists a, after (n + 1) (initialise KMwc (2 * p2)) = Mwc (a, p2)) /\ (forall n, exists a, after (n + 1) (initialise KMwc (3 * p2)) = Mwc (a, p2)).
Proof.
  assert (H1 : forall n, N.iter n (mwc_half 36969) p1 = p1) by (intros n; induction n as [|n IH] using N.peano_ind; [reflexivity|]; rewrite N.iter_succ, IH; reflexivity).
  assert (H2 : forall n, N.iter n (mwc_half 18000) p2 = p2) by (intros n; induction n as [|n IH] using N.peano_ind; [reflexivity|]; rewrite N.iter_succ, IH; reflexivity).
  assert (Z1 : forall a n, N.iter n (mwc_half a) 0 = 0).
  { intros a n. induction n as [|n IH] using N.peano_ind; [reflexivity|]. rewrite N.iter_succ, IH. unfold mwc_half. cbn [N.land N.shiftr]. rewrite N.mul_0_r. reflexivity. }
  assert (X2 : mwc_half 18000 (2 * p2) = p2) by (vm_compute; reflexivity). assert (X3 : mwc_half 18000 (3 * p2) = p2) by (vm_compute; reflexivity).
  cbn [initialise]. repeat split; intros n; unfold output; rewrite after_mwc.
  - rewrite !Z1. reflexivity.
  - rewrite H1. eauto.
  - rewrite H2. eauto.
  - rewrite !iter_add. change (N.iter 1 (mwc_half 18000) (2 * p2)) with (mwc_half 18000 (2 * p2)). rewrite X2, H2. eauto.
  - rewrite !iter_add. change (N.iter 1 (mwc_half 18000) (3 * p2)) with (mwc_half 18000 (3 * p2)). rewrite X3, H2. eauto.
Qed.

(** random_lsfr: every number is even, so range(low, low + 1) always returns low; the seeds 0 and 1 give nothing but zeros *)
Lemma after_lsfr n v : exists w, after n (Lsfr v) = Lsfr w.
Proof. unfold after. induction n as [|n (w & IH)] using N.peano_ind; [eexists; reflexivity|]. rewrite N.iter_succ, IH. cbn [next]. destruct (lsfr_next w). eexists. reflexivity. Qed.
Theorem C57_lsfr_even_refuted : forall seed n,
  N.even (output n (initialise KLsfr seed)) = true /\ forall low, low + 1 < 2 ^ 32 -> snd (range (after n (initialise KLsfr seed)) low (low + 1)) = Some low.
Proof.
  intros seed n. unfold output. cbn [initialise]. destruct (after_lsfr n seed) as (w & ->). pose proof (lsfr_even w) as E. assert (E2 : N.even (snd (next (Lsfr w))) = true) by (cbn [next]; destruct (lsfr_next w); exact E).
  split; [exact E2|]. intros low L. destruct (C57_range (Lsfr w) low (low + 1) ltac:(lia) L ltac:(change (2 ^ 32) with 4294967296 in *; lia)) as (r & -> & _ & ->). cbn [snd].
  replace (low + 1 - low + 1) with 2 by lia. apply N.even_spec in E2. destruct E2 as (k & ->). rewrite N.mul_comm, N.mod_mul by discriminate. now rewrite N.add_0_r.
Qed.
Theorem C57_lsfr_zero_refuted : forall n, output n (initialise KLsfr 0) = 0 /\ output n (initialise KLsfr 1) = 0.
Proof.
  intros n. unfold output, after. cbn [initialise]. assert (A : forall n, N.iter n (fun g => fst (next g)) (Lsfr 0) = Lsfr 0) by (intros k; induction k as [|k IH] using N.peano_ind; [reflexivity|]; rewrite N.iter_succ, IH; reflexivity).
  split; [rewrite A; reflexivity|]. destruct (N.eq_dec n 0) as [->|Hn]; [reflexivity|]. replace n with (n - 1 + 1) by lia. rewrite N.iter_add. change (N.iter 1 (fun g => fst (next g)) (Lsfr 1)) with (Lsfr 0). rewrite A. reflexivity.
Qed.

(** random_lcg and random_clcg: the product is reduced modulo 2^32 before it is reduced modulo m, so the steps are not permutations and the recurrence is not the one of L'Ecuyer:
    a seed in 1 .. m from which nothing but zeros come; a seed with which the second half of the combined generator stays zero and one with which it repeats every 52 numbers *)
Theorem C57_lcg_refuted : forall n, output n (initialise KLcg 1723611357) = 0.
Proof.
  assert (A : forall n, N.iter n (fun g => fst (next g)) (Lcg 0) = Lcg 0) by (intros k; induction k as [|k IH] using N.peano_ind; [reflexivity|]; rewrite N.iter_succ, IH; reflexivity).
  intros n. unfold output, after. destruct (N.eq_dec n 0) as [->|Hn]; [vm_compute; reflexivity|]. replace n with (n - 1 + 1) by lia. rewrite N.iter_add.
  assert (X : N.iter 1 (fun g => fst (next g)) (initialise KLcg 1723611357) = Lcg 0) by (vm_compute; reflexivity). rewrite X, A. reflexivity.
Qed.
Definition second_half (g : gen) : N := match g with Clcg v => snd v | _ => 0 end.
Lemma after_clcg n : forall v, second_half (after n (Clcg v)) = N.iter n (fun b => u32 (clcg_a2 * b) mod clcg_m2) (snd v).
Proof.
  intros v. enough (X : exists a, after n (Clcg v) = Clcg (a, N.iter n (fun b => u32 (clcg_a2 * b) mod clcg_m2) (snd v))) by (destruct X as (a & ->); reflexivity).
  unfold after. induction n as [|n (a & IH)] using N.peano_ind; [destruct v; eexists; reflexivity|]. rewrite !N.iter_succ, IH. eexists. reflexivity.
Qed.
Theorem C57_clcg_refuted : forall n,
  second_half (after (n + 1) (initialise KClcg (2 ^ 30))) = 0 /\
  second_half (after (n + 70 + 52) (initialise KClcg 12345)) = second_half (after (n + 70) (initialise KClcg 12345)).
Proof.
  intros n. change (initialise KClcg (2 ^ 30)) with (Clcg (2 ^ 30, 2 ^ 30)). change (initialise KClcg 12345) with (Clcg (12345, 12345)). rewrite !after_clcg. cbn [snd]. set (f := fun b => u32 (clcg_a2 * b) mod clcg_m2). split.
  - assert (X : N.iter 1 f (2 ^ 30) = 0) by (vm_compute; reflexivity). rewrite iter_add, X. induction n as [|n IH] using N.peano_ind; [reflexivity|]. rewrite N.iter_succ, IH. reflexivity.
  - assert (X : N.iter (70 + 52) f 12345 = N.iter 70 f 12345) by (vm_compute; reflexivity). rewrite <- N.add_assoc, (iter_add f n (70 + 52)), (iter_add f n 70), X. reflexivity.
Qed.

(** the hypotheses are met by ordinary seeds and intervals *)
Example C57_example_range : range (initialise KPcg 7) 10 20 = (fst (next (initialise KPcg 7)), Some 14) \/ exists r, snd (range (initialise KPcg 7) 10 20) = Some r /\ 10 <= r <= 20.
Proof. right. destruct (C57_range (initialise KPcg 7) 10 20 ltac:(lia) eq_refl ltac:(discriminate)) as (r & -> & H & _). exists r. split; [reflexivity|exact H]. Qed.
Example C57_example_seeds : 12345 mod p1 <> 0 /\ 12345 mod p2 <> 0 /\ after 1 (initialise KXorshift 0) <> initialise KXorshift 0.
Proof. repeat split; vm_compute; discriminate. Qed.
Print Assumptions C57_range.
Print Assumptions C57_range_full_refuted.
Print Assumptions C57_xorshift_period.
Print Assumptions C57_pcg_period.
Print Assumptions C57_mwc_period.
Print Assumptions C57_mwc_seed_refuted.
Print Assumptions C57_lsfr_even_refuted.
Print Assumptions C57_lsfr_zero_refuted.
Print Assumptions C57_lcg_refuted.
Print Assumptions C57_clcg_refuted.
