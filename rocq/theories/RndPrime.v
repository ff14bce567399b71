(** Primes by trial division; divisors of a product of primes *)
From Coq Require Import ZArith NArith Znumtheory Lia List.
From Verif Require Import RndModel RndProofs RndFermat.
Import ListNotations.
Local Open Scope Z_scope.

Lemma small_prime : forall m n, 1 < n < m -> prime n \/ exists q, prime q /\ (q | n) /\ q * q <= n.
Proof.
  intros m. destruct (Z.le_gt_cases m 0) as [L|L]; [lia|]. pattern m. apply Zlt_0_ind; [|lia]. clear m L. intros m IH Hm n Hn.
  destruct (prime_dec n) as [P|P]; [auto|right]. destruct (not_prime_divide n ltac:(lia) P) as (a & Ha & (b & Hb)).
  assert (1 < b < n) by nia.
  assert (K : forall c e, n = c * e -> 1 < c < n -> c <= e -> exists q, prime q /\ (q | n) /\ q * q <= n).
  { intros c e E Hc Hle. destruct (IH (c + 1) ltac:(lia) c ltac:(lia)) as [Pc|(q & Q1 & Q2 & Q3)].
    - exists c. split; [exact Pc|]. split; [exists e; lia|nia].
    - exists q. split; [exact Q1|]. split; [rewrite E; apply Z.divide_mul_l; exact Q2|]. pose proof (prime_ge_2 q Q1). nia. }
  destruct (Z.le_ge_cases a b); [apply (K a b); lia|apply (K b a); lia].
Qed.
(** no candidate d, d + step, ... divides p *)
Fixpoint trial (n : nat) (step d p : N) : bool := match n with O => true | S n => if N.eqb (p mod d) 0 then false else trial n step (d + step)%N p end.
Lemma trial_ok step p : forall n d, trial n step d p = true -> forall k, (k < N.of_nat n)%N -> (p mod (d + k * step) <> 0)%N.
Proof.
  induction n as [|n IH]; intros d H k Hk; [lia|]. cbn [trial] in H. destruct (N.eqb_spec (p mod d) 0) as [|Hd]; [discriminate|].
  destruct (N.eq_dec k 0) as [->|Nk]; [rewrite N.mul_0_l, N.add_0_r; exact Hd|]. replace (d + k * step)%N with (d + step + (k - 1) * step)%N by nia. apply IH; auto. lia.
Qed.
Lemma divide_mod (q : Z) (p : N) : 0 < q -> (q | Z.of_N p) -> (p mod Z.to_N q = 0)%N.
Proof. intros Hq (c & E). apply N2Z.inj. rewrite N2Z.inj_mod, Z2N.id by lia. rewrite E. apply Z.mod_mul. lia. Qed.
(** [res]: what the prime divisors of p are known to be congruent to, modulo [step] *)
Lemma prime_by_trial n step res (p : N) : (1 < p)%N -> (0 < step)%N -> (forall q, prime q -> (q | Z.of_N p) -> q <> Z.of_N p -> exists k, q = Z.of_N (res + k * step)) ->
  trial n step res p = true -> (p < (res + N.of_nat n * step) * (res + N.of_nat n * step))%N -> prime (Z.of_N p).
Proof.
  intros Hp Hs Hres T Hb. destruct (small_prime (Z.of_N p + 1) (Z.of_N p) ltac:(lia)) as [P|(q & Q1 & Q2 & Q3)]; [exact P|].
  pose proof (prime_ge_2 q Q1). destruct (Hres q Q1 Q2 ltac:(nia)) as (k & E). exfalso.
  assert (Q3n : ((res + k * step) * (res + k * step) <= p)%N) by (subst q; lia).
  assert (k < N.of_nat n)%N.
  { destruct (N.le_gt_cases (N.of_nat n) k) as [L|L]; [|exact L]. exfalso. assert (res + N.of_nat n * step <= res + k * step)%N as L2 by nia. set (B := (res + N.of_nat n * step)%N) in *. set (D := (res + k * step)%N) in *. clearbody B D. nia. }
  apply (trial_ok step p n res T k); [lia|]. replace (res + k * step)%N with (Z.to_N q) by lia. apply divide_mod; [lia|exact Q2].
Qed.
Lemma prime_small n p : (1 < p)%N -> trial n 1 2 p = true -> (p < (2 + N.of_nat n) * (2 + N.of_nat n))%N -> prime (Z.of_N p).
Proof.
  intros Hp T Hb. apply (prime_by_trial n 1 2); auto; try lia. intros q Q _ _. pose proof (prime_ge_2 q Q). exists (Z.to_N q - 2)%N. lia.
Qed.

(** the prime divisors of 2^64 + 1 are 1 modulo 128 *)
Lemma iter_double q : (1 < q)%N -> forall k, N.iter k (fun v => (2 * v) mod q)%N 1%N = (2 ^ k mod q)%N.
Proof.
  intros Hq k. induction k as [|k IH] using N.peano_ind; [cbn; symmetry; apply N.mod_small; exact Hq|].
  rewrite N.iter_succ, IH, N.pow_succ_r'. rewrite N.mul_mod_idemp_r by lia. reflexivity.
Qed.
Lemma gcd_cases (e : N) : N.gcd 128 e = 128%N \/ exists k, 64%N = (k * N.gcd 128 e)%N.
Proof.
  assert (D : (N.gcd 128 e | 128)%N) by apply N.gcd_divide_l. set (g := N.gcd 128 e) in *. clearbody g. destruct D as (k & E).
  destruct (N.eq_dec k 1) as [->|N1]; [left; lia|right]. destruct (N.Even_or_Odd k) as [(j & ->)|(j & ->)]; [exists j; lia|]. exfalso.
  assert (R : ((2 * j + 1 | 128)%N)) by (exists g; lia).
  assert (G : N.gcd (2 * j + 1) 2 = 1%N).
  { rewrite N.gcd_comm. rewrite <- N.gcd_mod by lia. replace ((2 * j + 1) mod 2)%N with 1%N; [reflexivity|]. replace (2 * j + 1)%N with (1 + j * 2)%N by lia. rewrite N.mod_add by lia. reflexivity. }
  change 128%N with (2 * (2 * (2 * (2 * (2 * (2 * (2 * 1)))))))%N in R. do 7 (apply N.gauss in R; [|exact G]). apply N.divide_1_r in R. lia.
Qed.
Lemma factor_of_f6 q : prime q -> (q | 2 ^ 64 + 1) -> exists k, q = Z.of_N (1 + k * 128).
Proof.
  intros P D. pose proof (prime_ge_2 q P) as G.
  assert (N2 : q <> 2) by (intros ->; destruct D as (c & E); change (2 ^ 64 + 1) with 18446744073709551617 in E; lia).
  pose proof (fermat P N2) as F. set (qn := Z.to_N q). assert (Eq : q = Z.of_N qn) by (unfold qn; lia). 
  assert (Hq : (1 < qn)%N) by lia.
  assert (F1 : (2 ^ (qn - 1) mod qn = 1)%N). { apply N2Z.inj. rewrite N2Z.inj_mod, N2Z.inj_pow, N2Z.inj_sub, <- Eq by lia. exact F. }
  assert (F64 : ((2 ^ 64 + 1) mod qn = 0)%N). { apply divide_mod; [lia|]. rewrite N2Z.inj_add, N2Z.inj_pow. exact D. }
  set (f := fun v => ((2 * v) mod qn)%N).
  assert (I1 : N.iter (qn - 1) f 1%N = 1%N) by (unfold f; rewrite iter_double by lia; exact F1).
  assert (E64 : (2 ^ 64 mod qn = qn - 1)%N).
  { rewrite N.add_mod in F64 by lia. rewrite (N.mod_small 1) in F64 by lia. pose proof (N.mod_lt (2 ^ 64) qn ltac:(lia)) as L. set (r := (2 ^ 64 mod qn)%N) in *.
    apply N.mod_divide in F64; [|lia]. destruct F64 as (c & Ec). assert (c = 1)%N by nia. nia. }
  assert (I2 : N.iter 128 f 1%N = 1%N).
  { unfold f. rewrite iter_double by lia. change 128%N with (64 + 64)%N. rewrite N.pow_add_r, N.mul_mod, E64 by lia.
    replace ((qn - 1) * (qn - 1))%N with (1 + (qn - 2) * qn)%N by nia. rewrite N.mod_add by lia. apply N.mod_small. lia. }
  pose proof (iter_gcd f 1%N _ 128 (qn - 1) (N.lt_succ_diag_r _) I2 I1) as Ig.
  destruct (gcd_cases (qn - 1)) as [E|(k & E)].
  - assert (Dv : (N.gcd 128 (qn - 1) | qn - 1)%N) by apply N.gcd_divide_r. rewrite E in Dv. destruct Dv as (k & Ek). exists k. lia.
  - exfalso. pose proof (iter_mult f _ _ Ig k) as X. rewrite <- E in X. unfold f in X. rewrite iter_double in X by lia. rewrite E64 in X. lia.
Qed.

(** a proper divisor of a product of primes divides the product without one of them *)
Definition product (ps : list N) : N := fold_right N.mul 1%N ps.
Lemma divides_one ps : Forall (fun p => prime (Z.of_N p)) ps -> forall q, 1 < q -> (q | Z.of_N (product ps)) -> exists p, In p ps /\ (Z.of_N p | q).
Proof.
  induction 1 as [|p ps Hp _ IH]; intros q Hq D; cbn [product fold_right] in D.
  - apply Z.divide_1_r_nonneg in D; lia.
  - rewrite N2Z.inj_mul in D. destruct (Zdivide_dec (Z.of_N p) q) as [Y|Y]; [exists p; split; [left; auto|exact Y]|].
    pose proof (prime_rel_prime _ Hp _ Y) as R. apply rel_prime_sym in R. destruct (IH q Hq (Gauss _ _ _ D R)) as (p' & I & Dv). exists p'. split; [right; exact I|exact Dv].
Qed.
Lemma proper_divisor ps d : Forall (fun p => prime (Z.of_N p)) ps -> (d | product ps)%N -> d <> product ps -> exists p, In p ps /\ (d | product ps / p)%N.
Proof.
  intros F (q & E) Hne. assert (Pos : (product ps <> 0)%N).
  { clear E Hne. induction F as [|p l Hp _ IH]; cbn; [discriminate|]. pose proof (prime_ge_2 _ Hp). fold (product l). nia. }
  assert (q <> 0%N) by (intros ->; rewrite N.mul_0_l in E; contradiction). assert (q <> 1%N) by (intros ->; rewrite N.mul_1_l in E; congruence). assert (1 < Z.of_N q) by lia. destruct (divides_one ps F (Z.of_N q)) as (p & I & (c & Ec)); auto.
  { exists (Z.of_N d). rewrite E. lia. }
  exists p. split; [exact I|]. assert (Pp : prime (Z.of_N p)) by (rewrite Forall_forall in F; auto). pose proof (prime_ge_2 _ Pp). exists (Z.to_N c).
  assert (q = Z.to_N c * p)%N by nia. subst q. rewrite E. replace (Z.to_N c * p * d)%N with (Z.to_N c * d * p)%N by lia. apply N.div_mul. lia.
Qed.
