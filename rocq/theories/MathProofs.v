From Coq Require Import ZArith List Bool Lia Znumtheory Zpow_facts.
From Verif Require Import Util MathModel MathSpec.
Import ListNotations.
Open Scope Z_scope.
Lemma gcd_loop_ok : forall f a b, 0 <= b -> 0 <= a -> (Z.to_nat b <= f)%nat -> gcd_loop f a b = Some (Z.gcd a b).
Proof.
  induction f as [|f IH]; intros a b Hb Ha Hf; cbn [gcd_loop]; destruct (Z.eqb_spec b 0) as [->|D]; try (now rewrite Z.gcd_0_r, Z.abs_eq); [lia|].
  pose proof (Z.mod_pos_bound a b ltac:(lia)). rewrite IH; [|lia|lia|lia]. f_equal. rewrite Z.gcd_comm, Z.gcd_mod by lia. apply Z.gcd_comm.
Qed.
Lemma gcd_u_ok w f a b : 0 <= a < 2 ^ w -> 0 <= b < 2 ^ w -> (Z.to_nat b <= f)%nat -> gcd_u w f a b = Some (Z.gcd a b).
Proof.
  intros Ha Hb Hf. unfold gcd_u. destruct (Z.eqb_spec a 0) as [->|Da]; cbn [orb].
  - f_equal. unfold to_u. rewrite Z.add_0_l, Z.mod_small by lia. cbn. symmetry. apply Z.abs_eq. lia.
  - destruct (Z.eqb_spec b 0) as [->|Db]; [|apply gcd_loop_ok; lia]. f_equal. unfold to_u. rewrite Z.add_0_r, Z.mod_small by lia. now rewrite Z.gcd_0_r, Z.abs_eq by lia.
Qed.
Lemma pow_half w : 0 < w -> 2 ^ w = 2 * 2 ^ (w - 1).
Proof. intros H. rewrite <- Z.pow_succ_r by lia. f_equal. lia. Qed.
Lemma absolute_unsigned_ok w v : 0 < w -> - 2 ^ (w - 1) <= v < 2 ^ (w - 1) -> absolute_unsigned w v = Z.abs v.
Proof.
  intros Hw Hv. unfold absolute_unsigned. pose proof (pow_half w Hw) as E. assert (0 < 2 ^ (w - 1)) by (apply Z.pow_pos_nonneg; lia). destruct (Z.eqb_spec v (- 2 ^ (w - 1))) as [->|D].
  - rewrite Z.abs_opp, Z.abs_eq by lia. rewrite E. replace (2 * 2 ^ (w - 1) - 1) with (1 + (2 ^ (w - 1) - 1) * 2) by lia. rewrite Z.div_add by lia. cbn. lia.
  - unfold to_u. destruct (Z.ltb_spec v 0); rewrite Z.mod_small by lia; lia.
Qed.
Lemma to_s_small w x : 0 < w -> - 2 ^ (w - 1) <= x < 2 ^ (w - 1) -> to_s w x = x.
Proof.
  intros Hw Hx. unfold to_s. pose proof (pow_half w Hw) as E. destruct (Z.ltb_spec x 0).
  - replace (x mod 2 ^ w) with (x + 2 ^ w). { destruct (Z.ltb_spec (x + 2 ^ w) (2 ^ (w - 1))); lia. } symmetry. replace x with ((x + 2 ^ w) + (-1) * 2 ^ w) at 1 by lia. rewrite Z.mod_add by lia. apply Z.mod_small. lia.
  - rewrite Z.mod_small by lia. destruct (Z.ltb_spec x (2 ^ (w - 1))); lia.
Qed.
Lemma absolute_ok w v : 0 < w -> - 2 ^ (w - 1) < v < 2 ^ (w - 1) -> absolute w v = Some (Z.abs v).
Proof. intros Hw H. unfold absolute. destruct (Z.ltb_spec v 0); [|f_equal; lia]. destruct (Z.eqb_spec v (- 2 ^ (w - 1))); [lia|]. cbn [andb]. f_equal. rewrite to_s_small by lia. lia. Qed.
Lemma gcd_s_ok w f a b : 0 < w -> - 2 ^ (w - 1) <= a < 2 ^ (w - 1) -> - 2 ^ (w - 1) <= b < 2 ^ (w - 1) -> (Z.to_nat (Z.abs b) <= f)%nat -> gcd_s w f a b = Some (to_s w (Z.gcd a b)).
Proof.
  intros Hw Ha Hb Hf. unfold gcd_s. rewrite !absolute_unsigned_ok by assumption. pose proof (pow_half w Hw). assert (0 < 2 ^ (w - 1)) by (apply Z.pow_pos_nonneg; lia). rewrite gcd_u_ok by lia. cbn. now rewrite Z.gcd_abs_l, Z.gcd_abs_r.
Qed.
Lemma gcd_le_l a b : 0 < a -> Z.gcd a b <= a.
Proof. intros H. apply Z.divide_pos_le; [exact H|apply Z.gcd_divide_l]. Qed.
Lemma gcd_u_range a b m : 0 <= a < m -> 0 <= b < m -> 0 <= Z.gcd a b < m.
Proof.
  intros Ha Hb. split; [apply Z.gcd_nonneg|]. destruct (Z.eq_dec a 0) as [->|D]; [cbn; lia|]. pose proof (gcd_le_l a b). lia.
Qed.
(** the greatest common divisor of more *)
Lemma fold_gcd_is l a : is_gcd (fold_left Z.gcd l (Z.abs a)) (a :: l).
Proof.
  revert a. induction l as [|b l IH]; intros a; cbn [fold_left].
  - split; [lia|split].
    + intros x [<-|[]]. apply Z.divide_abs_l, Z.divide_refl.
    + intros d H. apply Z.divide_abs_r. apply H. now left.
  - destruct (IH (Z.gcd (Z.abs a) b)) as (I1 & I2 & I3). rewrite (Z.abs_eq (Z.gcd (Z.abs a) b)) in I1, I2, I3 by apply Z.gcd_nonneg. split; [exact I1|split].
    + intros x [<-|[<-|Hx]].
      * eapply Z.divide_trans; [apply I2; now left|]. eapply Z.divide_trans; [apply Z.gcd_divide_l|]. apply Z.divide_abs_l, Z.divide_refl.
      * eapply Z.divide_trans; [apply I2; now left|]. apply Z.gcd_divide_r.
      * apply I2. now right.
    + intros d H. apply I3. intros x [<-|Hx]; [|apply H; right; now right]. apply Z.gcd_greatest; [apply Z.divide_abs_r|]; apply H; [now left|right; now left].
Qed.
Lemma fold_gcd_1 l : fold_left Z.gcd l 1 = 1.
Proof. induction l as [|a l IH]; [reflexivity|]. cbn [fold_left]. now rewrite Z.gcd_1_l. Qed.
Lemma gcd_rest_u w f : forall l a, 0 <= a < 2 ^ w -> (forall x, In x l -> 0 <= x < 2 ^ w) -> (forall x, In x l -> (Z.to_nat x <= f)%nat) -> gcd_rest (gcd_u w f) a l = Some (fold_left Z.gcd l a).
Proof.
  induction l as [|b l IH]; intros a Ha Hl Hf; [reflexivity|]. cbn [gcd_rest fold_left]. rewrite gcd_u_ok; [|exact Ha|apply Hl; now left|apply Hf; now left].
  destruct (Z.eqb_spec (Z.gcd a b) 1) as [->|D]; [now rewrite fold_gcd_1|]. apply IH; [apply gcd_u_range; [exact Ha|apply Hl; now left]|intros; apply Hl; now right|intros; apply Hf; now right].
Qed.
Lemma gcd_rest_s w f : 0 < w -> forall l a, - 2 ^ (w - 1) < a < 2 ^ (w - 1) -> (forall x, In x l -> - 2 ^ (w - 1) < x < 2 ^ (w - 1)) -> (forall x, In x l -> (Z.to_nat (Z.abs x) <= f)%nat) -> l <> [] ->
  gcd_rest (gcd_s w f) a l = Some (fold_left Z.gcd l (Z.abs a)).
Proof.
  intros Hw. assert (0 < 2 ^ (w - 1)) as Hp by (apply Z.pow_pos_nonneg; lia).
  assert (forall a b, - 2 ^ (w - 1) < a < 2 ^ (w - 1) -> - 2 ^ (w - 1) < b < 2 ^ (w - 1) -> 0 <= Z.gcd a b < 2 ^ (w - 1)) as R.
  { intros a b Ha Hb. rewrite <- Z.gcd_abs_l, <- Z.gcd_abs_r. apply gcd_u_range; lia. }
  induction l as [|b l IH]; intros a Ha Hl Hf Hn; [congruence|]. cbn [gcd_rest fold_left]. rewrite Z.gcd_abs_l. assert (- 2 ^ (w - 1) < b < 2 ^ (w - 1)) as Hb by (apply Hl; now left). specialize (R a b Ha Hb).
  rewrite gcd_s_ok; [|exact Hw|lia|lia|apply Hf; now left]. rewrite to_s_small by lia. destruct (Z.eqb_spec (Z.gcd a b) 1) as [->|D]; [now rewrite fold_gcd_1|].
  destruct l as [|c l]; [reflexivity|]. rewrite IH; [now rewrite Z.abs_eq by lia|lia|intros; apply Hl; now right|intros; apply Hf; now right|discriminate].
Qed.
(** lcm *)
Lemma lcm_u_ok w f a b : 0 <= a < 2 ^ w -> 0 <= b < 2 ^ w -> (Z.to_nat b <= f)%nat -> lcm_u w f a b = Some (to_u w (Z.lcm a b)).
Proof.
  intros Ha Hb Hf. unfold lcm_u. destruct (Z.eqb_spec a 0) as [->|Da]; cbn [orb]; [rewrite Z.lcm_0_l; reflexivity|]. destruct (Z.eqb_spec b 0) as [->|Db]; [rewrite Z.lcm_0_r; reflexivity|].
  rewrite gcd_u_ok by assumption. f_equal. f_equal. unfold Z.lcm. rewrite Z.abs_eq; [reflexivity|]. apply Z.mul_nonneg_nonneg; [lia|]. apply Z.div_pos; [lia|]. pose proof (Z.gcd_nonneg a b). assert (Z.gcd a b <> 0); [|lia]. intros C. apply Z.gcd_eq_0 in C. lia.
Qed.
Lemma lcm_s_ok w f a b : 0 < w -> - 2 ^ (w - 1) <= a < 2 ^ (w - 1) -> - 2 ^ (w - 1) <= b < 2 ^ (w - 1) -> (Z.to_nat (Z.abs b) <= f)%nat -> Z.lcm a b < 2 ^ (w - 1) -> lcm_s w f a b = Some (Z.lcm a b).
Proof.
  intros Hw Ha Hb Hf Hl. unfold lcm_s. rewrite !absolute_unsigned_ok by assumption. pose proof (pow_half w Hw). assert (0 < 2 ^ (w - 1)) by (apply Z.pow_pos_nonneg; lia). rewrite lcm_u_ok by lia. cbn [option_map]. rewrite Z.lcm_abs_l, Z.lcm_abs_r. pose proof (Z.lcm_nonneg a b). unfold to_u. rewrite Z.mod_small by lia. f_equal. apply to_s_small; lia.
Qed.
Lemma fold_lcm_is l a : is_lcm (fold_left Z.lcm l (Z.abs a)) (a :: l).
Proof.
  revert a. induction l as [|b l IH]; intros a; cbn [fold_left].
  - split; [lia|split].
    + intros x [<-|[]]. apply Z.divide_abs_r, Z.divide_refl.
    + intros d H. apply Z.divide_abs_l. apply H. now left.
  - destruct (IH (Z.lcm (Z.abs a) b)) as (I1 & I2 & I3). rewrite (Z.abs_eq (Z.lcm (Z.abs a) b)) in I1, I2, I3 by apply Z.lcm_nonneg. split; [exact I1|split].
    + intros x [<-|[<-|Hx]].
      * eapply Z.divide_trans; [|apply I2; now left]. eapply Z.divide_trans; [|apply Z.divide_lcm_l]. apply Z.divide_abs_r, Z.divide_refl.
      * eapply Z.divide_trans; [|apply I2; now left]. apply Z.divide_lcm_r.
      * apply I2. now right.
    + intros d H. apply I3. intros x [<-|Hx]; [|apply H; right; now right]. apply Z.lcm_least; [apply Z.divide_abs_l|]; apply H; [now left|right; now left].
Qed.
Lemma fold_lcm_0 l : fold_left Z.lcm l 0 = 0.
Proof. induction l as [|a l IH]; [reflexivity|]. cbn [fold_left]. now rewrite Z.lcm_0_l. Qed.
(** the product so far is not greater than the final one, unless that is 0 *)
Lemma fold_lcm_ge l : forall a, 0 < a -> fold_left Z.lcm l a <> 0 -> a <= fold_left Z.lcm l a.
Proof.
  induction l as [|b l IH]; intros a Ha Hn; cbn [fold_left] in *; [lia|]. assert (Z.lcm a b <> 0) as D. { intros C. rewrite C, fold_lcm_0 in Hn. congruence. }
  pose proof (Z.lcm_nonneg a b). assert (a <= Z.lcm a b). { apply Z.divide_pos_le; [lia|apply Z.divide_lcm_l]. } pose proof (IH (Z.lcm a b) ltac:(lia) Hn). lia.
Qed.
Lemma fold_lcm_nonneg l a : 0 <= a -> 0 <= fold_left Z.lcm l a.
Proof. revert a. induction l as [|b l IH]; intros a H; cbn; [exact H|]. apply IH, Z.lcm_nonneg. Qed.
Lemma lcm_rest_u w f : forall l a, 0 <= a < 2 ^ w -> (forall x, In x l -> 0 <= x < 2 ^ w) -> (forall x, In x l -> (Z.to_nat x <= f)%nat) -> fold_left Z.lcm l a < 2 ^ w -> (forall x, In x (a :: l) -> x <> 0) ->
  lcm_rest (lcm_u w f) a l = Some (fold_left Z.lcm l a).
Proof.
  induction l as [|b l IH]; intros a Ha Hl Hf Hr Hz; [reflexivity|]. cbn [lcm_rest fold_left] in *. rewrite lcm_u_ok; [|exact Ha|apply Hl; now left|apply Hf; now left].
  assert (Z.lcm a b <> 0) as D. { intros C. apply Z.lcm_eq_0 in C as [C|C]; [apply (Hz a)|apply (Hz b)]; cbn; auto. } pose proof (Z.lcm_nonneg a b).
  assert (fold_left Z.lcm l (Z.lcm a b) <> 0) as D2. { clear - D Hz. revert D Hz. generalize (Z.lcm a b). induction l as [|c l IH]; intros z D Hz; cbn; [exact D|]. apply IH; [intros C; apply Z.lcm_eq_0 in C as [C|C]; [congruence|apply (Hz c); cbn; auto]|]. intros x Hx. apply Hz. cbn in *. tauto. }
  pose proof (fold_lcm_ge l (Z.lcm a b) ltac:(lia) D2). unfold to_u. rewrite Z.mod_small by lia. destruct (Z.eqb_spec (Z.lcm a b) 0) as [C|_]; [contradiction|]. apply IH; [lia|intros; apply Hl; now right|intros; apply Hf; now right|exact Hr|]. intros x [<-|Hx]; [exact D|]. apply Hz. right. now right.
Qed.
(** a zero among the arguments gives zero *)
Lemma lcm_rest_zero w f : 0 < w -> forall l a, 0 <= a < 2 ^ w -> (forall x, In x l -> 0 <= x < 2 ^ w) -> (forall x, In x l -> (Z.to_nat x <= f)%nat) -> In 0 (a :: l) -> l <> [] -> lcm_rest (lcm_u w f) a l = Some 0.
Proof.
  intros Hw. induction l as [|b l IH]; intros a Ha Hl Hf Hz Hn; [congruence|]. cbn [lcm_rest]. rewrite lcm_u_ok; [|exact Ha|apply Hl; now left|apply Hf; now left].
  assert (0 <= to_u w (Z.lcm a b) < 2 ^ w) as Hr by (apply Z.mod_pos_bound, Z.pow_pos_nonneg; lia). destruct (Z.eqb_spec (to_u w (Z.lcm a b)) 0) as [_|D]; [reflexivity|]. destruct Hz as [-> |[-> |Hz]].
  - exfalso. apply D. rewrite Z.lcm_0_l. apply Z.mod_0_l. pose proof (Z.pow_pos_nonneg 2 w). lia.
  - exfalso. apply D. rewrite Z.lcm_0_r. apply Z.mod_0_l. pose proof (Z.pow_pos_nonneg 2 w). lia.
  - apply IH; [exact Hr|intros; apply Hl; now right|intros; apply Hf; now right|now right|intros ->; destruct Hz].
Qed.
(** ** templates *)
Lemma M64_pos : 0 < M64. Proof. reflexivity. Qed.
Lemma power_ok nv p : power nv p = nv ^ Z.of_nat p mod M64.
Proof. induction p as [|p IH]; [reflexivity|]. cbn [power]. rewrite IH, Nat2Z.inj_succ, Z.pow_succ_r by lia. now rewrite Z.mul_mod_idemp_r by (unfold M64; lia). Qed.
Lemma log_ok base : 2 <= base -> forall f nv, 0 < nv -> (Z.to_nat nv <= f)%nat -> exists l, log f nv base = Some l /\ 0 <= l /\ base ^ l <= nv < base ^ (l + 1).
Proof.
  intros Hb. induction f as [|f IH]; intros nv Hn Hf; [lia|]. cbn [log]. destruct (Z.eqb_spec nv 1) as [->|D1]; cbn [orb]; [exists 0; conj; [reflexivity|lia|lia|rewrite Z.pow_1_r; lia]|]. destruct (Z.eqb_spec nv 0) as [->|D0]; [lia|]. destruct (Z.eqb_spec base 0); [lia|].
  destruct (Z.leb_spec base nv) as [L|L].
  - assert (0 < nv / base) by (apply Z.div_str_pos; lia). assert (nv / base < nv) by (apply Z.div_lt; lia). destruct (IH (nv / base)) as (l & -> & H1 & H2 & H3); [lia|lia|]. exists (1 + l). conj; [reflexivity|lia| |].
    + rewrite Z.pow_add_r, Z.pow_1_r by lia. pose proof (Z.mul_div_le nv base ltac:(lia)). nia.
    + replace (1 + l + 1) with (Z.succ (l + 1)) by lia. rewrite Z.pow_succ_r by lia. pose proof (Z.mul_succ_div_gt nv base ltac:(lia)). nia.
  - rewrite Z.div_small by lia. assert (log f 0 base = Some 0) as -> by (destruct f; reflexivity). exists 0. conj; [reflexivity|lia|rewrite Z.pow_0_r; lia|rewrite Z.add_0_l, Z.pow_1_r; lia].
Qed.
Lemma pow2_lt_inv a b : 0 <= a -> 0 <= b -> 2 ^ a < 2 ^ b -> a < b.
Proof. intros Ha Hb H. now apply (Z.pow_lt_mono_r_iff 2). Qed.
Lemma round_up_ok f nv : 2 <= nv <= 2 ^ 30 -> (Z.to_nat nv <= f)%nat -> exists k, power_of_2_round_up f nv = Some (2 ^ k) /\ 0 <= k /\ nv <= 2 ^ k /\ forall j, 0 <= j -> nv <= 2 ^ j -> k <= j.
Proof.
  intros Hn Hf. unfold power_of_2_round_up. destruct (Z.eqb_spec nv 0); [lia|]. unfold log2. destruct (log_ok 2 ltac:(lia) f (nv - 1)) as (l & -> & H1 & H2 & H3); [lia|lia|].
  assert (l < 30) by (apply pow2_lt_inv; lia). unfold one_shl. destruct (Z.ltb_spec (l + 1) 31); [|lia]. exists (l + 1). conj; [reflexivity|lia|lia|]. intros j Hj Hle. assert (l < j) by (apply pow2_lt_inv; lia). lia.
Qed.
Lemma round_down_ok f nv : 3 <= nv <= 2 ^ 30 -> (Z.to_nat nv <= f)%nat -> exists k, power_of_2_round_down f nv = Some (2 ^ k) /\ 0 <= k /\ 2 ^ k < nv /\ forall j, 0 <= j -> 2 ^ j < nv -> j <= k.
Proof.
  intros Hn Hf. unfold power_of_2_round_down. destruct (Z.eqb_spec nv 0); [lia|]. destruct (Z.eqb_spec nv 1); [lia|]. destruct (Z.eqb_spec nv 2); [lia|]. cbn [orb]. unfold log2. destruct (log_ok 2 ltac:(lia) f (nv - 1)) as (l & -> & H1 & H2 & H3); [lia|lia|].
  assert (l < 30) by (apply pow2_lt_inv; lia). unfold one_shl. destruct (Z.ltb_spec l 31); [|lia]. exists l. conj; [reflexivity|lia|lia|]. intros j Hj Hle. assert (j < l + 1) by (apply pow2_lt_inv; lia). lia.
Qed.
Lemma is_power_of_2_ok nv : 0 <= nv -> is_power_of_2 nv = true <-> exists k, 1 <= k /\ nv = 2 ^ k.
Proof.
  intros Hn. unfold is_power_of_2. destruct (Z.eqb_spec nv 0) as [->|D0]; cbn [orb]. { split; [discriminate|]. intros (k & Hk & E). pose proof (Z.pow_pos_nonneg 2 k). lia. }
  destruct (Z.eqb_spec nv 1) as [->|D1]. { split; [discriminate|]. intros (k & Hk & E). assert (2 ^ 1 <= 2 ^ k) by (apply Z.pow_le_mono_r; lia). lia. }
  rewrite Z.eqb_eq. set (l := Z.log2 nv). pose proof (Z.log2_spec nv ltac:(lia)) as (L1 & L2). fold l in L1, L2. assert (0 <= l) by apply Z.log2_nonneg. split.
  - intros E. exists l. assert (1 <= l). { destruct (Z.eq_dec l 0) as [C|C]; [|lia]. rewrite C in L2. cbn in L2. lia. } split; [assumption|]. destruct (Z.eq_dec nv (2 ^ l)) as [C|C]; [exact C|]. exfalso.
    (* then nv and nv - 1 both have bit l *)
    assert (Z.testbit (Z.land nv (nv - 1)) l = true) as T; [|rewrite E, Z.bits_0 in T; discriminate]. rewrite Z.land_spec.
    assert (forall z, 2 ^ l <= z < 2 ^ (Z.succ l) -> Z.testbit z l = true) as B. { intros z Hz. assert (Z.log2 z = l) as El by (apply Z.log2_unique; lia). rewrite <- El. apply Z.bit_log2. pose proof (Z.pow_pos_nonneg 2 l). lia. }
    rewrite !B; [reflexivity|lia|lia].
  - intros (k & Hk & ->). replace (2 ^ k - 1) with (Z.ones k) by (rewrite Z.ones_equiv; lia). rewrite Z.land_ones by lia. apply Z.mod_same. pose proof (Z.pow_pos_nonneg 2 k). lia.
Qed.
Lemma sqrt_ok v : 0 <= v < (2 ^ 32 - 1) ^ 2 -> forall f i, 1 <= i <= Z.sqrt v + 1 -> (Z.to_nat (Z.sqrt v + 1 - i) <= f)%nat -> sqrt f v i = Some (Z.sqrt v).
Proof.
  intros Hv. pose proof (Z.sqrt_spec v ltac:(lia)) as (S1 & S2). assert (Z.sqrt v + 1 <= 2 ^ 32 - 1) as Sb. { assert (Z.sqrt v < 2 ^ 32 - 1); [|lia]. apply Z.sqrt_lt_square; lia. }
  induction f as [|f IH]; intros i Hi Hf; cbn [sqrt].
  - assert (i = Z.sqrt v + 1) as -> by lia. rewrite Z.mod_small; [|unfold M64; nia]. destruct (Z.ltb_spec v ((Z.sqrt v + 1) * (Z.sqrt v + 1))); [f_equal; lia|nia].
  - rewrite Z.mod_small; [|unfold M64; nia]. destruct (Z.ltb_spec v (i * i)) as [L|L].
    + f_equal. assert (i = Z.sqrt v + 1); [|lia]. destruct (Z.eq_dec i (Z.sqrt v + 1)); [assumption|]. assert (i <= Z.sqrt v) by lia. nia.
    + apply IH; [|lia]. assert (i <= Z.sqrt v) by (apply Z.sqrt_le_square; lia). lia.
Qed.
Lemma fibonacci2_ok n : fibonacci2 n = (fib n mod M64, fib (S n) mod M64).
Proof. induction n as [|n IH]; [reflexivity|]. cbn [fibonacci2]. rewrite IH. f_equal. change (fib (S (S n))) with (fib (S n) + fib n). now rewrite <- Z.add_mod by (unfold M64; lia). Qed.
Lemma fibonacci_ok n : fibonacci n = fib n mod M64. Proof. unfold fibonacci. now rewrite fibonacci2_ok. Qed.
Lemma fact_S n : Z.of_nat (fact (S n)) = Z.of_nat (S n) * Z.of_nat (fact n). Proof. rewrite <- Nat2Z.inj_mul. reflexivity. Qed.
Lemma factorial_ok n : factorial n = Z.of_nat (fact n) mod M64.
Proof. induction n as [|n IH]; [reflexivity|]. rewrite fact_S. cbn [factorial]. rewrite IH. now rewrite Z.mul_mod_idemp_r by (unfold M64; lia). Qed.
Lemma falling_S n k : falling (S n) (S k) = Z.of_nat (S n) * falling n k.
Proof.
  unfold falling. cbn [seq map fold_right]. rewrite Z.sub_0_r. f_equal. rewrite <- seq_shift, map_map. f_equal. apply map_ext. intros i. lia.
Qed.
Lemma falling_0 k : falling 0 (S k) = 0. Proof. unfold falling. cbn. reflexivity. Qed.
Lemma permutations_ok : forall k n, Z.of_nat n < M64 -> permutations (Z.of_nat n) k = falling n k mod M64.
Proof.
  induction k as [|k IH]; intros n Hn; [reflexivity|]. cbn [permutations]. destruct n as [|n]; [rewrite falling_0; reflexivity|]. rewrite falling_S. replace ((Z.of_nat (S n) - 1) mod M64) with (Z.of_nat n) by (rewrite Z.mod_small; lia). rewrite IH by lia. now rewrite Z.mul_mod_idemp_r by (unfold M64; lia).
Qed.
Lemma falling_fact : forall n k, (k <= n)%nat -> falling n k * Z.of_nat (fact (n - k)) = Z.of_nat (fact n).
Proof.
  induction n as [|n IH]; intros k Hk; [assert (k = 0%nat) as -> by lia; reflexivity|]. destruct k as [|k]; [unfold falling; cbn [seq map fold_right]; rewrite Nat.sub_0_r; lia|].
  rewrite falling_S, fact_S. cbn [Nat.sub]. rewrite <- (IH k) by lia. lia.
Qed.
Lemma falling_gt : forall n k, (n < k)%nat -> falling n k = 0.
Proof. induction n as [|n IH]; intros k Hk; destruct k as [|k]; try lia; [apply falling_0|]. rewrite falling_S, IH by lia. lia. Qed.
Lemma binom_0 n : binom n 0 = 1. Proof. destruct n; reflexivity. Qed.
Lemma binom_gt : forall n k, (n < k)%nat -> binom n k = 0.
Proof. induction n as [|n IH]; intros k Hk; destruct k as [|k]; try lia; [reflexivity|]. cbn [binom]. rewrite !IH by lia. reflexivity. Qed.
Lemma falling_step n k : falling n (S k) = falling n k * (Z.of_nat n - Z.of_nat k).
Proof.
  unfold falling. rewrite seq_S, map_app. cbn [map Nat.add]. rewrite fold_right_app. cbn [fold_right]. rewrite Z.mul_1_r. generalize (map (fun i => Z.of_nat n - Z.of_nat i) (seq 0 k)). generalize (Z.of_nat n - Z.of_nat k). intros z l. induction l as [|x l IH]; cbn [fold_right]; [ring|]. rewrite IH. ring.
Qed.
Lemma binom_falling : forall n k, binom n k * Z.of_nat (fact k) = falling n k.
Proof.
  induction n as [|n IH]; intros k; destruct k as [|k]; try (rewrite binom_0; reflexivity); [rewrite falling_0; reflexivity|].
  cbn [binom]. rewrite Z.mul_add_distr_r, IH, falling_S, falling_step, fact_S. rewrite <- (IH k). replace (Z.of_nat (S n)) with (Z.of_nat n + 1) by lia. replace (Z.of_nat (S k)) with (Z.of_nat k + 1) by lia. ring.
Qed.
Lemma fact_pos n : 0 < Z.of_nat (fact n). Proof. pose proof (lt_O_fact n). lia. Qed.
Lemma combinations_ok n k : Z.of_nat n < M64 -> (k <= n)%nat -> falling n k < M64 -> combinations (Z.of_nat n) k = Some (binom n k).
Proof.
  intros Hn Hk Hf. unfold combinations. rewrite permutations_ok, factorial_ok by exact Hn. pose proof (binom_falling n k) as E. pose proof (fact_pos k). assert (0 < binom n k) as Bp. { pose proof (falling_fact n k Hk) as F. pose proof (fact_pos n). pose proof (fact_pos (n - k)). nia. }
  assert (Z.of_nat (fact k) < M64) by nia. rewrite !Z.mod_small by nia. destruct (Z.eqb_spec (Z.of_nat (fact k)) 0); [lia|]. rewrite <- E. now rewrite Z.div_mul by lia.
Qed.
Lemma combinations_gt n k : Z.of_nat n < M64 -> (n < k)%nat -> (k <= 20)%nat -> combinations (Z.of_nat n) k = Some 0.
Proof.
  intros Hn Hk Hk2. unfold combinations. rewrite permutations_ok by exact Hn. rewrite falling_gt by exact Hk. assert (factorial k <> 0) as D. { do 21 (destruct k as [|k]; [vm_compute; discriminate|]). lia. } destruct (Z.eqb_spec (factorial k) 0); [contradiction|]. reflexivity.
Qed.
