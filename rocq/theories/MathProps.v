(** C36: integer mathematics. Every theorem is stated with enough [f] (the number of rounds of the loop, or the depth of the instantiation);
    in the statements [f] only has to be at least the given bound. *)
From Coq Require Import ZArith List Bool Lia Znumtheory Zpow_facts.
From Verif Require Import Util MathModel MathSpec MathProofs.
Import ListNotations.
Open Scope Z_scope.
Definition fits_u (w : Z) (l : list Z) := forall x, In x l -> 0 <= x < 2 ^ w.
Definition fits_s (w : Z) (l : list Z) := forall x, In x l -> - 2 ^ (w - 1) <= x < 2 ^ (w - 1).
Definition enough (f : nat) (l : list Z) := forall x, In x l -> (Z.to_nat (Z.abs x) <= f)%nat.
Lemma is_gcd_unique g h l : is_gcd g l -> is_gcd h l -> g = h.
Proof. intros (G1 & G2 & G3) (H1 & H2 & H3). apply Z.divide_antisym_nonneg; [exact G1|exact H1|apply H3, G2|apply G3, H2]. Qed.
Lemma is_lcm_unique g h l : is_lcm g l -> is_lcm h l -> g = h.
Proof. intros (G1 & G2 & G3) (H1 & H2 & H3). apply Z.divide_antisym_nonneg; [exact G1|exact H1|apply G3, H2|apply H3, G2]. Qed.
(** absolute: the magnitude, for every value but the minimum, which has none (undefined from 32 bits on, else the minimum itself); absolute_unsigned: for every value *)
Theorem C36_absolute : forall w v, 0 < w -> fits_s w [v] ->
  (v <> - 2 ^ (w - 1) -> absolute w v = Some (Z.abs v)) /\ (v = - 2 ^ (w - 1) -> absolute w v = if 32 <=? w then None else Some v) /\ absolute_unsigned w v = Z.abs v.
Proof.
  intros w v Hw Hv. specialize (Hv v (or_introl eq_refl)). assert (0 < 2 ^ (w - 1)) as P by (apply Z.pow_pos_nonneg; lia). split; [|split].
  - intros D. apply absolute_ok; lia.
  - intros ->. unfold absolute. destruct (Z.ltb_spec (- 2 ^ (w - 1)) 0); [|lia]. rewrite Z.eqb_refl. cbn [andb]. destruct (32 <=? w); [reflexivity|]. f_equal. unfold to_s. rewrite Z.opp_involutive. pose proof (pow_half w Hw). rewrite Z.mod_small by lia. destruct (Z.ltb_spec (2 ^ (w - 1)) (2 ^ (w - 1))); lia.
  - now apply absolute_unsigned_ok.
Qed.
Print Assumptions C36_absolute.
(** gcd of two or more unsigned values: always the greatest common divisor *)
Theorem C36_gcd_unsigned : forall w f a l, 0 < w -> fits_u w (a :: l) -> enough f l -> exists g, gcd_rest (gcd_u w f) a l = Some g /\ is_gcd g (a :: l).
Proof.
  intros w f a l Hw Hv Hf. eexists. split.
  - apply gcd_rest_u; [apply Hv; now left|intros; apply Hv; now right|]. intros x Hx. specialize (Hf x Hx). assert (0 <= x < 2 ^ w) by (apply Hv; now right). rewrite Z.abs_eq in Hf by lia. exact Hf.
  - assert (0 <= a < 2 ^ w) as Ha by (apply Hv; now left). pose proof (fold_gcd_is l a) as I. rewrite Z.abs_eq in I by lia. exact I.
Qed.
Print Assumptions C36_gcd_unsigned.
(** gcd of two or more signed values, none of them the minimum of the type *)
Theorem C36_gcd_signed : forall w f a b l, 0 < w -> fits_s w (a :: b :: l) -> ~ In (- 2 ^ (w - 1)) (a :: b :: l) -> enough f (b :: l) ->
  exists g, gcd_rest (gcd_s w f) a (b :: l) = Some g /\ is_gcd g (a :: b :: l).
Proof.
  intros w f a b l Hw Hv Hm Hf. assert (forall x, In x (a :: b :: l) -> - 2 ^ (w - 1) < x < 2 ^ (w - 1)) as R.
  { intros x Hx. pose proof (Hv x Hx). assert (x <> - 2 ^ (w - 1)) by (intros ->; contradiction). lia. }
  eexists. split; [|apply fold_gcd_is]. apply gcd_rest_s; [exact Hw|apply R; now left|intros; apply R; now right|exact Hf|discriminate].
Qed.
Print Assumptions C36_gcd_signed.
(** FINDING: with the minimum the result can be negative, and no gcd is *)
Theorem C36_gcd_of_minimum_refuted : forall w f, 1 < w -> exists g, gcd_s w f (- 2 ^ (w - 1)) 0 = Some g /\ g = - 2 ^ (w - 1) /\ ~ is_gcd g [- 2 ^ (w - 1); 0].
Proof.
  intros w f Hw. assert (0 < 2 ^ (w - 1)) as P by (apply Z.pow_pos_nonneg; lia). pose proof (pow_half w ltac:(lia)) as E. exists (- 2 ^ (w - 1)). split; [|split; [reflexivity|]].
  - rewrite gcd_s_ok by (cbn; lia). rewrite Z.gcd_0_r, Z.abs_opp, Z.abs_eq by lia. f_equal. unfold to_s. rewrite Z.mod_small by lia. destruct (Z.ltb_spec (2 ^ (w - 1)) (2 ^ (w - 1))); lia.
  - intros (C & _). lia.
Qed.
Print Assumptions C36_gcd_of_minimum_refuted.
(** lcm of two or more unsigned values: the least common multiple, if the type can hold it *)
Theorem C36_lcm_unsigned : forall w f a b l m, 0 < w -> fits_u w (a :: b :: l) -> enough f (b :: l) -> is_lcm m (a :: b :: l) -> m < 2 ^ w -> lcm_rest (lcm_u w f) a (b :: l) = Some m.
Proof.
  intros w f a b l m Hw Hv Hf Hm Hr.
  assert (forall x, In x (b :: l) -> (Z.to_nat x <= f)%nat) as Hf'. { intros x Hx. specialize (Hf x Hx). assert (0 <= x < 2 ^ w) by (apply Hv; now right). rewrite Z.abs_eq in Hf by lia. exact Hf. }
  assert (forall x, In x (b :: l) -> 0 <= x < 2 ^ w) as Hl by (intros; apply Hv; now right). assert (0 <= a < 2 ^ w) as Ha by (apply Hv; now left).
  destruct (in_dec Z.eq_dec 0 (a :: b :: l)) as [I|I].
  - rewrite lcm_rest_zero; [|exact Hw|exact Ha|exact Hl|exact Hf'|exact I|discriminate]. f_equal. destruct Hm as (M0 & M1 & _). pose proof (M1 0 I) as (z & Ez). lia.
  - pose proof (fold_lcm_is (b :: l) a) as J. rewrite Z.abs_eq in J by lia. rewrite (is_lcm_unique _ _ _ Hm J) in Hr |- *. apply lcm_rest_u; [exact Ha|exact Hl|exact Hf'|exact Hr|]. intros x Hx ->. contradiction.
Qed.
Print Assumptions C36_lcm_unsigned.
(** lcm of two signed values, minimum included *)
Theorem C36_lcm_signed : forall w f a b m, 0 < w -> fits_s w [a; b] -> enough f [b] -> is_lcm m [a; b] -> m < 2 ^ (w - 1) -> lcm_s w f a b = Some m.
Proof.
  intros w f a b m Hw Hv Hf Hm Hr. pose proof (fold_lcm_is [b] a) as J. cbn [fold_left] in J. rewrite Z.lcm_abs_l in J. rewrite (is_lcm_unique _ _ _ Hm J) in Hr |- *. apply lcm_s_ok; [exact Hw|apply Hv; now left|apply Hv; right; now left|apply Hf; now left|exact Hr].
Qed.
Print Assumptions C36_lcm_signed.
(** power: modulo 2^64, so exact when the result fits *)
Theorem C36_power : forall nv p, 0 <= nv -> nv ^ Z.of_nat p < M64 -> power nv p = nv ^ Z.of_nat p.
Proof. intros nv p Hn H. rewrite power_ok. apply Z.mod_small. split; [apply Z.pow_nonneg, Hn|exact H]. Qed.
Print Assumptions C36_power.
(** log: the greatest l with base^l <= nv *)
Theorem C36_log : forall base f nv, 2 <= base -> 0 < nv -> (Z.to_nat nv <= f)%nat -> exists l, log f nv base = Some l /\ 0 <= l /\ base ^ l <= nv < base ^ (l + 1).
Proof. intros base f nv Hb Hn Hf. now apply log_ok. Qed.
Print Assumptions C36_log.
(** sqrt: the integer square root *)
Theorem C36_sqrt : forall v f, 0 <= v < (2 ^ 32 - 1) ^ 2 -> (Z.to_nat (v + 1) <= f)%nat -> exists r, sqrt f v 1 = Some r /\ 0 <= r /\ r * r <= v < (r + 1) * (r + 1).
Proof.
  intros v f Hv Hf. exists (Z.sqrt v). pose proof (Z.sqrt_spec v ltac:(lia)) as (S1 & S2). pose proof (Z.sqrt_nonneg v). pose proof (Z.sqrt_le_lin v ltac:(lia)). split; [apply sqrt_ok; [exact Hv|lia|lia]|]. unfold Z.succ in S2. lia.
Qed.
Print Assumptions C36_sqrt.
(** power_of_2_round_up: the least power of two that is not below nv, for 2 <= nv <= 2^30 *)
Theorem C36_power_of_2_round_up : forall f nv, 2 <= nv <= 2 ^ 30 -> (Z.to_nat nv <= f)%nat ->
  exists k, power_of_2_round_up f nv = Some (2 ^ k) /\ 0 <= k /\ nv <= 2 ^ k /\ forall j, 0 <= j -> nv <= 2 ^ j -> 2 ^ k <= 2 ^ j.
Proof.
  intros f nv Hn Hf. destruct (round_up_ok f nv Hn Hf) as (k & A & B & C & D). exists k. split; [exact A|split; [exact B|split; [exact C|]]]. intros j Hj Hle. apply Z.pow_le_mono_r; [lia|]. now apply D.
Qed.
Print Assumptions C36_power_of_2_round_up.
(** FINDING: 1 is a power of two, and is rounded up to 2 *)
Theorem C36_power_of_2_round_up_one_refuted : forall f, power_of_2_round_up f 1 = Some 2 /\ 2 ^ 0 = 1.
Proof. intros [|f]; split; reflexivity. Qed.
(** power_of_2_round_down: the greatest power of two that is below nv, for 3 <= nv <= 2^30 ... *)
Theorem C36_power_of_2_round_down_exact : forall f nv, 3 <= nv <= 2 ^ 30 -> (Z.to_nat nv <= f)%nat ->
  exists k, power_of_2_round_down f nv = Some (2 ^ k) /\ 0 <= k /\ 2 ^ k < nv /\ forall j, 0 <= j -> 2 ^ j < nv -> 2 ^ j <= 2 ^ k.
Proof.
  intros f nv Hn Hf. destruct (round_down_ok f nv Hn Hf) as (k & A & B & C & D). exists k. split; [exact A|split; [exact B|split; [exact C|]]]. intros j Hj Hle. apply Z.pow_le_mono_r; [lia|]. now apply D.
Qed.
Print Assumptions C36_power_of_2_round_down_exact.
(** ... so: FINDING: an exact power of two is halved, although it is the greatest power of two not above itself *)
Theorem C36_power_of_2_round_down_refuted : forall f k, 2 <= k <= 30 -> (Z.to_nat (2 ^ k) <= f)%nat -> power_of_2_round_down f (2 ^ k) = Some (2 ^ (k - 1)).
Proof.
  intros f k Hk Hf. assert (2 ^ 2 <= 2 ^ k) by (apply Z.pow_le_mono_r; lia). assert (2 ^ k <= 2 ^ 30) by (apply Z.pow_le_mono_r; lia). destruct (round_down_ok f (2 ^ k)) as (j & A & B & C & D); [lia|exact Hf|]. rewrite A. f_equal. f_equal. apply pow2_lt_inv in C; [|lia|lia].
  assert (k - 1 <= j); [|lia]. apply D; [lia|]. apply Z.pow_lt_mono_r; lia.
Qed.
Print Assumptions C36_power_of_2_round_down_refuted.
(** is_power_of_2: true exactly of 2, 4, 8 ...; FINDING: not of 1 *)
Theorem C36_is_power_of_2 : forall nv, 0 <= nv -> nv <> 1 -> is_power_of_2 nv = true <-> exists k, 0 <= k /\ nv = 2 ^ k.
Proof.
  intros nv Hn D. rewrite is_power_of_2_ok by exact Hn. split; intros (k & Hk & E); exists k; (split; [|exact E]); [lia|]. destruct (Z.eq_dec k 0) as [->|]; [|lia]. rewrite Z.pow_0_r in E. contradiction.
Qed.
Print Assumptions C36_is_power_of_2.
Theorem C36_is_power_of_2_one_refuted : is_power_of_2 1 = false /\ 1 = 2 ^ 0.
Proof. split; reflexivity. Qed.
Theorem C36_fibonacci : forall n, fib n < M64 -> fibonacci n = fib n.
Proof.
  intros n H. rewrite fibonacci_ok. apply Z.mod_small. split; [|exact H]. clear H. enough (0 <= fib n /\ 0 <= fib (S n)) by tauto. induction n as [|n (I1 & I2)]; [cbn; lia|]. split; [exact I2|]. change (fib (S (S n))) with (fib (S n) + fib n). lia.
Qed.
Print Assumptions C36_fibonacci.
Theorem C36_factorial : forall n, Z.of_nat (fact n) < M64 -> factorial n = Z.of_nat (fact n).
Proof. intros n H. rewrite factorial_ok. apply Z.mod_small. lia. Qed.
Print Assumptions C36_factorial.
(** permutations<n, k> = n! / (n-k)! *)
Theorem C36_permutations : forall n k, Z.of_nat n < M64 -> (k <= n)%nat -> Z.of_nat (fact n) < M64 * Z.of_nat (fact (n - k)) -> permutations (Z.of_nat n) k * Z.of_nat (fact (n - k)) = Z.of_nat (fact n).
Proof.
  intros n k Hn Hk Hf. rewrite permutations_ok by exact Hn. pose proof (falling_fact n k Hk) as F. pose proof (fact_pos n). pose proof (fact_pos (n - k)). rewrite Z.mod_small by nia. exact F.
Qed.
Print Assumptions C36_permutations.
(** combinations<n, k>: Pascal's triangle, if n! / (n-k)! fits *)
Theorem C36_combinations : forall n k, Z.of_nat n < M64 -> (k <= n)%nat -> falling n k < M64 -> combinations (Z.of_nat n) k = Some (binom n k).
Proof. apply combinations_ok. Qed.
Print Assumptions C36_combinations.
(** FINDING: not whenever the result fits: combinations<23, 17> *)
Theorem C36_combinations_refuted : exists n k, (k <= n)%nat /\ binom n k < M64 /\ combinations (Z.of_nat n) k <> Some (binom n k).
Proof. exists 23%nat, 17%nat. split; [lia|split; [vm_compute; reflexivity|]]. vm_compute. discriminate. Qed.
Print Assumptions C36_combinations_refuted.
(** the hypotheses are met *)
Example C36_ex_gcd : gcd_rest (gcd_s 32 20) (-12) [18; 27] = Some 3 /\ gcd_rest (gcd_u 8 20) 0 [0] = Some 0 /\ gcd_rest (gcd_u 8 300) 12 [0; 255] = Some 3.
Proof. vm_compute. repeat split. Qed.
Example C36_ex_gcd_hyps : fits_s 8 [-12; 18; 27] /\ enough 27 [18; 27] /\ ~ In (- 2 ^ 7) [-12; 18; 27].
Proof. unfold fits_s, enough. cbn. split; [|split]; intros; intuition (subst; lia). Qed.
Example C36_ex_lcm : lcm_rest (lcm_u 16 50) 4 [6; 10] = Some 60 /\ lcm_s 32 20 (-4) 6 = Some 12 /\ fits_s 32 [-4; 6] /\ enough 20 [6].
Proof. split; [reflexivity|split; [reflexivity|]]. unfold fits_s, enough. cbn. split; intros; intuition (subst; lia). Qed.
Example C36_ex_lcm_is : is_lcm 12 [-4; 6].
Proof. pose proof (fold_lcm_is [6] (-4)) as H. exact H. Qed.
Example C36_ex_others : power 3 5 = 243 /\ log 10 1000 10 = Some 3 /\ sqrt 20 99 1 = Some 9 /\ power_of_2_round_up 20 9 = Some 16 /\ power_of_2_round_down 20 9 = Some 8 /\ is_power_of_2 16 = true /\ is_power_of_2 12 = false
  /\ fibonacci 10 = 55 /\ factorial 5 = 120 /\ permutations 6 3 = 120 /\ combinations 6 3 = Some 20.
Proof. vm_compute. repeat split. Qed.
