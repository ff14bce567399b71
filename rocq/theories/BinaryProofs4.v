(** * binary.h, bit.h: the remaining functions *)
From Coq Require Import List Arith Lia ZifyNat Bool ZArith.
From Verif Require Import Util BinaryModel BinarySpec BitLib BinaryProofs BinaryProofs2 BinaryProofs3.
Import ListNotations.
Local Open Scope Z_scope.

Lemma max_value_ok n : max_value_for_nbits n = 2 ^ Z.of_nat n - 1.
Proof.
  induction n as [|n IH]; [reflexivity|]. cbn [max_value_for_nbits]. rewrite IH. rewrite Nat2Z.inj_succ, Z.pow_succ_r by lia.
  rewrite Z.shiftl_1_l. rewrite Z.lor_comm. pose proof (Z.pow_pos_nonneg 2 (Z.of_nat n) ltac:(lia) ltac:(lia)).
  rewrite lor_lxor.
  - rewrite <- Z.add_nocarry_lxor; [lia|]. rewrite Z.land_comm. replace (2 ^ Z.of_nat n - 1) with (Z.ones (Z.of_nat n)) by (rewrite Z.ones_equiv; lia).
    rewrite Z.land_ones by lia. apply Z.mod_same. lia.
  - rewrite Z.land_comm. replace (2 ^ Z.of_nat n - 1) with (Z.ones (Z.of_nat n)) by (rewrite Z.ones_equiv; lia). rewrite Z.land_ones by lia. apply Z.mod_same. lia.
Qed.

(** ** fold_bits *)
Definition chunks (n : Z) (m : nat) (x i : Z) : bool := xorall (map (fun k => Z.testbit x (i + Z.of_nat k * n)) (seq 0 m)).
Lemma chunks_S n m x i : 0 <= n -> 0 <= i -> chunks n (S m) x i = xorb (Z.testbit x i) (chunks n m (x >> n) i).
Proof.
  intros Hn Hi. unfold chunks, xorall. cbn [seq map fold_right]. f_equal; [f_equal; lia|]. rewrite <- seq_shift, map_map. f_equal.
  apply map_ext. intros k. rewrite Z.shiftr_spec by lia. f_equal. lia.
Qed.
Lemma chunks_zero n m x i : (forall k, (k < m)%nat -> Z.testbit x (i + Z.of_nat k * n) = false) -> chunks n m x i = false.
Proof.
  intros H. unfold chunks, xorall. assert (G : forall l, (forall k, In k l -> Z.testbit x (i + Z.of_nat k * n) = false) -> fold_right xorb false (map (fun k => Z.testbit x (i + Z.of_nat k * n)) l) = false).
  { induction l as [|a l IH]; intros HL; [reflexivity|]. cbn [map fold_right]. rewrite IH by (intros; apply HL; cbn; auto). rewrite HL by (cbn; auto). reflexivity. }
  apply G. intros k Hk. apply in_seq in Hk. apply H. lia.
Qed.
Lemma fold_loop_ok (n : nat) fuel : (1 <= n)%nat -> forall m folded x i, word (Z.of_nat fuel) x -> (fuel < m)%nat -> 0 <= i < Z.of_nat n ->
  Z.testbit (fold_loop n fuel folded x) i = xorb (Z.testbit folded i) (chunks (Z.of_nat n) m x i).
Proof.
  intros Hn. assert (Mk : forall v i, 0 <= i < Z.of_nat n -> Z.testbit (v &&& (2 ^ Z.of_nat n - 1)) i = Z.testbit v i).
  { intros v i Hi. replace (2 ^ Z.of_nat n - 1) with (Z.ones (Z.of_nat n)) by (rewrite Z.ones_equiv; lia). rewrite Z.land_spec, Z.ones_spec_low by lia. apply andb_true_r. }
  induction fuel as [|fuel IH]; intros m folded x i Hx Hm Hi; cbn [fold_loop].
  - assert (x = 0) by (destruct Hx; cbn in *; lia). subst. rewrite Z.land_0_l, Z.lxor_0_r. rewrite chunks_zero by (intros; apply Z.bits_0). rewrite xorb_false_r. reflexivity.
  - destruct m as [|m]; [lia|]. rewrite chunks_S by lia. destruct (Z.leb_spec (max_value_for_nbits n) x).
    + assert (W : word (Z.of_nat fuel) (x >> Z.of_nat n)).
      { unfold word in *. split; [apply Z.shiftr_nonneg; lia|]. rewrite Z.shiftr_div_pow2 by lia.
        apply Z.div_lt_upper_bound; [apply Z.pow_pos_nonneg; lia|]. rewrite <- Z.pow_add_r by lia. apply Z.lt_le_trans with (2 ^ Z.of_nat (S fuel)); [lia|apply Z.pow_le_mono_r; lia]. }
      rewrite (IH m) by (assumption || lia).
      rewrite Z.lxor_spec, Mk by exact Hi. apply xorb_assoc_reverse.
    + rewrite Z.lxor_spec, Mk by exact Hi. rewrite max_value_ok in *. replace (x >> Z.of_nat n) with 0.
      * rewrite chunks_zero by (intros; apply Z.bits_0). rewrite xorb_false_r. reflexivity.
      * symmetry. rewrite Z.shiftr_div_pow2 by lia. apply Z.div_small. destruct Hx. lia.
Qed.
Lemma fold_loop_word (n : nat) fuel : forall folded x, (1 <= n)%nat -> word (Z.of_nat n) folded -> 0 <= x -> word (Z.of_nat n) (fold_loop n fuel folded x).
Proof.
  assert (M : forall x, 0 <= x -> word (Z.of_nat n) (x &&& (2 ^ Z.of_nat n - 1))).
  { intros x Hx. replace (2 ^ Z.of_nat n - 1) with (Z.ones (Z.of_nat n)) by (rewrite Z.ones_equiv; lia). rewrite Z.land_ones by lia. apply word_mod. lia. }
  induction fuel as [|fuel IH]; intros folded x Hn Hf Hx; cbn [fold_loop]; [apply word_lxor; auto|].
  destruct (_ <=? _); [apply IH; auto; [apply word_lxor; auto|apply Z.shiftr_nonneg; exact Hx]|apply word_lxor; auto].
Qed.

(** ** sign_extend *)
Lemma sg_small w x : 0 < w -> signed w x -> sg w x = x.
Proof.
  intros Hw [H1 H2]. unfold sg. assert (P : 2 ^ w = 2 * 2 ^ (w - 1)) by (rewrite <- Z.pow_succ_r by lia; f_equal; lia).
  destruct (Z.lt_ge_cases x 0).
  - replace (x mod 2 ^ w) with (x + 2 ^ w) by (rewrite <- (Z.mod_add x 1 (2 ^ w)) by lia; rewrite Z.mod_small by lia; lia).
    destruct (Z.ltb_spec (x + 2 ^ w) (2 ^ (w - 1))); lia.
  - rewrite Z.mod_small by lia. destruct (Z.ltb_spec x (2 ^ (w - 1))); lia.
Qed.
Lemma sg_signed w x : 0 < w -> signed w (sg w x).
Proof.
  intros Hw. unfold sg, signed. assert (P : 2 ^ w = 2 * 2 ^ (w - 1)) by (rewrite <- Z.pow_succ_r by lia; f_equal; lia).
  pose proof (Z.pow_pos_nonneg 2 (w - 1) ltac:(lia) ltac:(lia)). pose proof (Z.mod_pos_bound x (2 ^ w) ltac:(lia)). destruct (Z.ltb_spec (x mod 2 ^ w) (2 ^ (w - 1))); lia.
Qed.
Lemma sg_mod w x : 0 < w -> sg w x mod 2 ^ w = x mod 2 ^ w.
Proof.
  intros Hw. pose proof (Z.pow_pos_nonneg 2 w ltac:(lia) ltac:(lia)). unfold sg. destruct (_ <? _); [apply Z.mod_mod; lia|].
  replace (x mod 2 ^ w - 2 ^ w) with (x mod 2 ^ w + (-1) * 2 ^ w) by lia. rewrite Z.mod_add by lia. apply Z.mod_mod. lia.
Qed.
Lemma flip_top n v : 1 <= n -> word n v -> (v ^^^ 2 ^ (n - 1)) - 2 ^ (n - 1) = sg n v.
Proof.
  intros Hn Hv. assert (P : 2 ^ n = 2 * 2 ^ (n - 1)) by (rewrite <- Z.pow_succ_r by lia; f_equal; lia). set (h := 2 ^ (n - 1)) in *.
  assert (Hh : 0 < h) by (apply Z.pow_pos_nonneg; lia). unfold sg. rewrite Z.mod_small by exact Hv. fold h. unfold word in Hv.
  assert (K : forall a, 0 <= a < h -> a &&& h = 0).
  { intros a Ha. apply Z.bits_inj'. intros i Hi. rewrite Z.land_spec, Z.bits_0. unfold h at 1. rewrite Z.pow2_bits_eqb by lia. destruct (Z.eqb_spec (n - 1) i) as [<-|]; [|apply andb_false_r].
    rewrite (word_high (n - 1) a) by (unfold word; fold h; lia). reflexivity. }
  destruct (Z.ltb_spec v h).
  - rewrite <- Z.add_nocarry_lxor by (apply K; lia). lia.
  - replace (v ^^^ h) with (v - h); [lia|]. rewrite <- (Z.sub_add h v) at 2. rewrite (Z.add_nocarry_lxor (v - h) h) by (apply K; lia).
    rewrite Z.lxor_assoc, Z.lxor_nilpotent, Z.lxor_0_r. reflexivity.
Qed.
Lemma sign_extend_eq wr v n : 1 <= n <= wr -> sign_extend wr v n = sg n v.
Proof.
  intros Hn. unfold sign_extend. rewrite !Z.shiftl_1_l. replace (2 ^ n - 1) with (Z.ones n) by (rewrite Z.ones_equiv; lia). rewrite Z.land_ones by lia.
  rewrite flip_top by (lia || apply word_mod; lia). assert (E : sg n (v mod 2 ^ n) = sg n v) by (unfold sg; rewrite Z.mod_mod by (apply Z.pow_nonzero; lia); reflexivity).
  rewrite E. apply sg_small; [lia|]. pose proof (sg_signed n v ltac:(lia)) as [A B]. assert (2 ^ (n - 1) <= 2 ^ (wr - 1)) by (apply Z.pow_le_mono_r; lia). split; lia.
Qed.

(** ** digits *)
Lemma testbit_val k ds : 0 < k -> digs k ds -> forall i, 0 <= i -> Z.testbit (val k ds) i = Z.testbit (nth (Z.to_nat (i / k)) ds 0) (i mod k).
Proof.
  intros Hk. induction 1 as [|d r Hd Hr IH]; intros i Hi; cbn [val].
  - rewrite nth_overflow by (cbn; lia). rewrite !Z.bits_0. reflexivity.
  - rewrite testbit_dv by (lia || assumption). destruct (Z.ltb_spec i k).
    + rewrite Z.div_small, Z.mod_small by lia. reflexivity.
    + rewrite IH by lia. replace i with ((i - k) + 1 * k) at 3 4 by lia. rewrite Z.mod_add, Z.div_add by lia.
      replace (Z.to_nat ((i - k) / k + 1)) with (S (Z.to_nat ((i - k) / k))) by (assert (0 <= (i - k) / k) by (apply Z.div_pos; lia); lia). reflexivity.
Qed.
Lemma val_ones k q : 0 < k -> val k (repeat 1 q) * (2 ^ k - 1) = 2 ^ (k * Z.of_nat q) - 1.
Proof.
  intros Hk. induction q as [|q IH]; cbn [repeat val]; [rewrite Z.mul_0_r; reflexivity|].
  replace (k * Z.of_nat (S q)) with (k + k * Z.of_nat q) by lia. rewrite Z.pow_add_r by lia. nia.
Qed.
Lemma val_scale k x q : x * val k (repeat 1 q) = val k (repeat x q).
Proof. induction q as [|q IH]; cbn [repeat val]; [lia|]. rewrite <- IH. lia. Qed.
Lemma fill_val k q x : 0 < k -> (1 <= q)%nat -> word k x -> binary_fill (k * Z.of_nat q) k x = val k (repeat x q).
Proof.
  intros Hk Hq Hx. unfold binary_fill. assert (1 < 2 ^ k) by (apply Z.pow_gt_1; lia). rewrite <- (val_ones k q Hk), Z.div_mul by lia. rewrite val_scale.
  apply tr_id. replace (k * Z.of_nat q) with (k * Z.of_nat (List.length (repeat x q))) by (rewrite repeat_length; reflexivity). apply val_word; [lia|].
  apply Forall_forall. intros d Hd. apply repeat_spec in Hd. subst. exact Hx.
Qed.
Lemma fill_bit k q x i : 0 < k -> (1 <= q)%nat -> word k x -> 0 <= i < k * Z.of_nat q -> Z.testbit (binary_fill (k * Z.of_nat q) k x) i = Z.testbit x (i mod k).
Proof.
  intros Hk Hq Hx Hi. rewrite fill_val by assumption. rewrite testbit_val; [|lia|apply Forall_forall; intros d Hd; apply repeat_spec in Hd; subst; exact Hx|lia].
  f_equal. apply (repeat_spec q). apply nth_In. rewrite repeat_length. assert (i / k < Z.of_nat q) by (apply Z.div_lt_upper_bound; lia). assert (0 <= i / k) by (apply Z.div_pos; lia). lia.
Qed.

(** ** bytes *)
Definition eb (d : Z) : Z := if d =? 0 then 127 else 255.
Lemma eb_ok d : word 8 d -> (((d &&& 127) + 127) ||| d) ||| 127 = eb d /\ word 8 ((d &&& 127) + 127).
Proof.
  intros H. assert (K : forallb (fun d => (((((d &&& 127) + 127) ||| d) ||| 127) =? eb d) && ((d &&& 127) + 127 <? 256)) (map Z.of_nat (seq 0 256)) = true) by (vm_compute; reflexivity).
  rewrite forallb_forall in K. change (2 ^ 8) with 256 in *. unfold word in *. change (2 ^ 8) with 256 in *.
  specialize (K d ltac:(apply in_map_iff; exists (Z.to_nat d); split; [lia|apply in_seq; lia])).
  apply andb_true_iff in K as [K1 K2]. split; [apply Z.eqb_eq, K1|]. apply Z.ltb_lt in K2.
  split; [|exact K2]. assert (0 <= d &&& 127) by (apply Z.land_nonneg; lia). lia.
Qed.
Lemma zero_byte_val ds : digs 8 ds -> let m := val 8 (repeat 127 (List.length ds)) in (((val 8 ds &&& m) + m) ||| val 8 ds) ||| m = val 8 (map eb ds).
Proof.
  induction 1 as [|d r Hd Hr IH]; [reflexivity|]. cbv zeta in *. cbn [List.length repeat val map]. set (m := val 8 (repeat 127 (List.length r))) in *.
  destruct (eb_ok d Hd) as [E1 E2]. assert (W127 : word 8 127) by (unfold word; cbn; lia). assert (Wl : word 8 (d &&& 127)).
  { change 127 with (Z.ones 7). rewrite Z.land_ones by lia. pose proof (Z.mod_pos_bound d (2 ^ 7) ltac:(reflexivity)). unfold word. change (2 ^ 8) with 256. change (2 ^ 7) with 128 in *. lia. }
  rewrite land_dv by (lia || assumption).
  replace ((d &&& 127) + 2 ^ 8 * (val 8 r &&& m) + (127 + 2 ^ 8 * m)) with (((d &&& 127) + 127) + 2 ^ 8 * ((val 8 r &&& m) + m)) by lia.
  rewrite (lor_dv 8 ((d &&& 127) + 127)) by (lia || assumption). rewrite (lor_dv 8 (((d &&& 127) + 127) ||| d)); [rewrite E1, IH; reflexivity|lia| |assumption].
  apply word_bits; [lia|apply Z.lor_nonneg; unfold word in *; lia|]. intros i Hi. rewrite Z.lor_spec, !(word_high 8) by assumption. reflexivity.
Qed.
Lemma eb_all ds : digs 8 ds -> (val 8 (map eb ds) = 2 ^ (8 * Z.of_nat (List.length ds)) - 1 <-> Forall (fun d => d <> 0) ds) /\ val 8 (map eb ds) <= 2 ^ (8 * Z.of_nat (List.length ds)) - 1 /\ 0 <= val 8 (map eb ds).
Proof.
  induction 1 as [|d r Hd Hr (IH1 & IH2 & IH3)]; [cbn; repeat split; try lia; constructor|]. cbn [map val List.length].
  replace (8 * Z.of_nat (S (List.length r))) with (8 + 8 * Z.of_nat (List.length r)) by lia. rewrite Z.pow_add_r by lia. change (2 ^ 8) with 256 in *. unfold eb at 1 3 5.
  destruct (Z.eqb_spec d 0) as [->|N].
  - repeat split; try lia. intros H. inversion H; congruence.
  - repeat split; try lia.
    + intros H. constructor; [exact N|]. apply IH1. lia.
    + intros H. inversion_clear H. apply IH1 in H1. lia.
Qed.
Lemma zero_byte_ok q x : (1 <= q)%nat -> word (8 * Z.of_nat q) x ->
  has_zero_byte (8 * Z.of_nat q) x = existsb (fun d => d =? 0) (digits 8 q x).
Proof.
  intros Hq Hx. unfold has_zero_byte. rewrite fill_val by (lia || unfold word; cbn; lia). cbv zeta.
  pose proof (digits_digs 8 q ltac:(lia) x) as D. pose proof (digits_val 8 q ltac:(lia) x Hx) as V. pose proof (digits_length 8 q x) as L.
  set (ds := digits 8 q x) in *. rewrite <- V, <- L. rewrite (zero_byte_val ds D). destruct (eb_all ds D) as (A & B & C). set (E := val 8 (map eb ds)) in *.
  assert (T : tr (8 * Z.of_nat (List.length ds)) (Z.lnot E) = 2 ^ (8 * Z.of_nat (List.length ds)) - 1 - E).
  { unfold tr, Z.lnot. rewrite <- (Z.mod_add (Z.pred (- E)) 1 (2 ^ (8 * Z.of_nat (List.length ds)))) by (apply Z.pow_nonzero; lia). rewrite Z.mod_small; lia. }
  rewrite T. apply eq_iff_eq_true. rewrite negb_true_iff, Z.eqb_neq, existsb_exists. split.
  - intros H. destruct (Forall_Exists_dec (fun d => d <> 0) (fun d => match Z.eq_dec d 0 with left e => right (fun n => n e) | right n => left n end) ds) as [F|X].
    + apply A in F. lia.
    + apply Exists_exists in X as (d & H1 & H2). exists d. split; [exact H1|]. apply Z.eqb_eq. destruct (Z.eq_dec d 0); tauto.
  - intros (d & H1 & H2) H. apply Z.eqb_eq in H2. subst d. assert (F : E = 2 ^ (8 * Z.of_nat (List.length ds)) - 1) by lia. apply A in F. rewrite Forall_forall in F. apply (F 0 H1). reflexivity.
Qed.
Lemma digits_lxor k q : 0 <= k -> forall x y, digits k q (x ^^^ val k (repeat (y mod 2 ^ k) q)) = map (fun d => d ^^^ (y mod 2 ^ k)) (digits k q x).
Proof.
  intros Hk. induction q as [|q IH]; intros x y; [reflexivity|]. cbn [digits map repeat val]. set (c := y mod 2 ^ k) in *.
  assert (Wc : word k c) by (apply word_mod; lia). assert (Wx : word k (x mod 2 ^ k)) by (apply word_mod; lia).
  assert (P : 2 ^ k <> 0) by (apply Z.pow_nonzero; lia).
  pose proof (word_lxor k _ _ Wx Wc) as W.
  assert (E : x ^^^ (c + 2 ^ k * val k (repeat c q)) = (x mod 2 ^ k ^^^ c) + ((x / 2 ^ k) ^^^ val k (repeat c q)) * 2 ^ k).
  { rewrite (Z.div_mod x (2 ^ k)) at 1 by exact P. rewrite (Z.add_comm (2 ^ k * (x / 2 ^ k))). rewrite lxor_dv by assumption. lia. }
  rewrite E. rewrite Z.mod_add, Z.div_add by exact P. rewrite Z.mod_small, Z.div_small by exact W. rewrite Z.add_0_l.
  f_equal. apply IH.
Qed.
Lemma digits_bytes q : forall x, digits 8 q x = map (fun j => (x / 2 ^ (8 * Z.of_nat j)) mod 256) (seq 0 q).
Proof.
  induction q as [|q IH]; intros x; [reflexivity|]. cbn [digits seq map]. rewrite Z.mul_0_r, Z.div_1_r. f_equal. rewrite IH, <- seq_shift, map_map. apply map_ext. intros j.
  rewrite Z.div_div by (try apply Z.pow_nonzero; try apply Z.pow_pos_nonneg; lia). rewrite <- Z.pow_add_r by lia. do 3 f_equal. lia.
Qed.
Lemma has_byte_ok q x n : (1 <= q)%nat -> word (8 * Z.of_nat q) x -> word 8 n ->
  has_byte_n (8 * Z.of_nat q) x n = existsb (fun d => d =? n) (digits 8 q x).
Proof.
  intros Hq Hx Hn. unfold has_byte_n. rewrite fill_val by (lia || assumption). assert (En : n mod 2 ^ 8 = n) by (apply Z.mod_small; exact Hn).
  assert (W : word (8 * Z.of_nat q) (val 8 (repeat n q))).
  { replace (8 * Z.of_nat q) with (8 * Z.of_nat (List.length (repeat n q))) by (rewrite repeat_length; reflexivity). apply val_word; [lia|]. apply Forall_forall. intros d Hd. apply repeat_spec in Hd. subst. exact Hn. }
  rewrite zero_byte_ok by (try lia; apply word_lxor; assumption). pose proof (digits_lxor 8 q ltac:(lia) x n) as E. rewrite En in E. rewrite E. clear.
  induction (digits 8 q x) as [|d l IH]; [reflexivity|]. cbn [map existsb]. rewrite IH. f_equal. apply eq_iff_eq_true. rewrite !Z.eqb_eq. apply Z.lxor_eq_0_iff.
Qed.

(** ** merge, single bit *)
Lemma merge_bit f s m i : Z.testbit (binary_merge f s m) i = if Z.testbit m i then Z.testbit f i else Z.testbit s i.
Proof.
  unfold binary_merge. rewrite Z.lxor_spec, Z.land_spec, Z.lxor_spec. destruct (Z.testbit f i), (Z.testbit s i), (Z.testbit m i); reflexivity.
Qed.
Lemma single_bit_ok w x : 0 < w -> unsigned w x -> x <> 0 -> has_single_bit w x = true <-> exists k, 0 <= k < w /\ x = 2 ^ k.
Proof.
  intros Hw Hx N. unfold has_single_bit, unsigned in *. rewrite tr_id by (unfold word; lia). rewrite Z.eqb_eq. split.
  - intros H. pose proof (Z.log2_spec x ltac:(lia)) as [A B]. exists (Z.log2 x). split.
    + split; [apply Z.log2_nonneg|]. apply Z.log2_lt_pow2; lia.
    + destruct (Z.eq_dec x (2 ^ Z.log2 x)) as [|D]; [assumption|exfalso].
      assert (L : Z.log2 (x - 1) = Z.log2 x) by (apply Z.log2_unique; [apply Z.log2_nonneg|lia]).
      pose proof (Z.bit_log2 x ltac:(lia)) as B1. assert (0 < x - 1) by (pose proof (Z.log2_nonneg x); assert (1 <= 2 ^ Z.log2 x) by (apply (Z.pow_le_mono_r 2 0); lia); lia).
      pose proof (Z.bit_log2 (x - 1) ltac:(lia)) as B2. rewrite L in B2. assert (Q : Z.testbit (x &&& (x - 1)) (Z.log2 x) = true) by (rewrite Z.land_spec, B1, B2; reflexivity).
      rewrite H, Z.bits_0 in Q. discriminate.
  - intros (k & Hk & ->). replace (2 ^ k - 1) with (Z.ones k) by (rewrite Z.ones_equiv; lia). rewrite Z.land_ones by lia. apply Z.mod_same. apply Z.pow_nonzero; lia.
Qed.
Lemma bits_at_log2 x i : 0 < x -> Z.log2 x < i -> Z.testbit x i = false.
Proof. intros. apply Z.bits_above_log2; lia. Qed.
(** the run of zeros from the top *)
Lemma run_char b (n : nat) (g : nat -> bool) N : 0 <= N <= Z.of_nat n -> (forall i, Z.of_nat i < N -> g i = b) -> (N < Z.of_nat n -> g (Z.to_nat N) = negb b) ->
  run b (map g (seq 0 n)) = N.
Proof.
  intros H1 H2 H3. destruct (run_lead b n g) as (A & B & C). cbv zeta in *. set (R := run b (map g (seq 0 n))) in *.
  destruct (Z.lt_trichotomy R N) as [L|[E|G]]; [|exact E|].
  - specialize (H2 (Z.to_nat R) ltac:(lia)). rewrite C in H2 by lia. destruct b; discriminate.
  - specialize (B (Z.to_nat N) ltac:(lia)). rewrite H3 in B by lia. destruct b; discriminate.
Qed.
Lemma run_log2 w x : 0 < w -> unsigned w x -> 0 < x -> run false (msb_first w x) = w - 1 - Z.log2 x.
Proof.
  intros Hw Hx Hp. rewrite map_bits_l by lia. assert (Z.log2 x < w) by (apply Z.log2_lt_pow2; [lia|apply Hx]). pose proof (Z.log2_nonneg x). apply run_char; [lia| |].
  - intros i Hi. unfold accl. apply bits_at_log2; lia.
  - intros _. unfold accl. rewrite Z2Nat.id by lia. replace (w - 1 - (w - 1 - Z.log2 x)) with (Z.log2 x) by lia. apply Z.bit_log2. lia.
Qed.
Lemma run_zero_all w : 0 < w -> run false (msb_first w 0) = w.
Proof. intros Hw. rewrite map_bits_l by lia. apply run_char; [lia| |lia]. intros i Hi. apply Z.bits_0. Qed.

(** ** interleave *)
Lemma lin_lor_land w f g m : lin w f -> lin w g -> (forall x, word w x -> (f x &&& m) &&& (g x &&& m) = 0) -> lin w (fun x => (f x ||| g x) &&& m).
Proof.
  intros H H2 D a b Ha Hb. rewrite !Z.land_lor_distr_l. apply (lin_lor w (fun x => f x &&& m) (fun x => g x &&& m)); auto using lin_land.
Qed.
Definition spread (w : Z) (x : Z) : Z :=
  if w =? 8 then
    let f := (x ||| (x << 4)) &&& 0x0F0F in let f := (f ||| (f << 2)) &&& 0x3333 in (f ||| (f << 1)) &&& 0x5555
  else if w =? 16 then
    let f := (x ||| (x << 8)) &&& 0x00FF00FF in let f := (f ||| (f << 4)) &&& 0x0F0F0F0F in let f := (f ||| (f << 2)) &&& 0x33333333 in (f ||| (f << 1)) &&& 0x55555555
  else
    let f := (x ||| (x << 16)) &&& 0x0000FFFF0000FFFF in let f := (f ||| (f << 8)) &&& 0x00FF00FF00FF00FF in let f := (f ||| (f << 4)) &&& 0x0F0F0F0F0F0F0F0F in
    let f := (f ||| (f << 2)) &&& 0x3333333333333333 in (f ||| (f << 1)) &&& 0x5555555555555555.
Lemma interleave_spread w a b : w = 8 \/ w = 16 \/ w = 32 -> binary_interleave w a b = tr (2 * w) (spread w a ||| (spread w b << 1)).
Proof.
  intros [->|[->| ->]]; unfold binary_interleave, spread; cbn [Z.eqb Pos.eqb]; [reflexivity| |].
  - unfold binary_interleave_16. cbv zeta. change (2 * 16) with 32. rewrite !(tr_land 32) by (unfold word; lia). reflexivity.
  - unfold binary_interleave_32. cbv zeta. change (2 * 32) with 64. rewrite !(tr_land 64) by (unfold word; lia). reflexivity.
Qed.
Ltac lini :=
  match goal with
  | |- lin _ (fun x => x) => apply lin_id
  | |- lin ?w (fun x => (@?f x ||| @?g x) &&& ?m) => apply (lin_lor_land w f g m); [lini|lini|intros ? ?; eapply sub_disjoint; [submask|submask|vm_compute; reflexivity]]
  | |- lin ?w (fun x => @?f x << ?k) => apply (lin_shl w f k); [lia|lini]
  end.
Lemma lin_spread w : w = 8 \/ w = 16 \/ w = 32 -> lin w (spread w).
Proof. intros [->|[->| ->]]; unfold spread; cbn [Z.eqb Pos.eqb]; cbv zeta; lini. Qed.
Lemma lin_none (w : nat) f i : lin (Z.of_nat w) f -> forallb (fun j => negb (Z.testbit (f (2 ^ Z.of_nat j)) i)) (seq 0 w) = true ->
  forall x, word (Z.of_nat w) x -> Z.testbit (f x) i = false.
Proof.
  intros L H x Hx. rewrite (lin_basis (Z.of_nat w) f L w x ltac:(lia) Hx). rewrite forallb_forall in H. unfold xorall.
  assert (G : forall l, incl l (seq 0 w) -> fold_right xorb false (map (fun j => Z.testbit x (Z.of_nat j) && Z.testbit (f (2 ^ Z.of_nat j)) i) l) = false).
  { induction l as [|j l IH]; intros HI; [reflexivity|]. cbn [map fold_right]. rewrite IH by (intros y Hy; apply HI; cbn; auto).
    specialize (H j (HI j (or_introl eq_refl))). apply negb_true_iff in H. rewrite H, andb_false_r. reflexivity. }
  apply G. intros y Hy. exact Hy.
Qed.
Lemma spread_even (w : nat) : Z.of_nat w = 8 \/ Z.of_nat w = 16 \/ Z.of_nat w = 32 -> forall x, word (Z.of_nat w) x -> forall i, (i < w)%nat ->
  Z.testbit (spread (Z.of_nat w) x) (Z.of_nat (2 * i)) = Z.testbit x (Z.of_nat i) /\ Z.testbit (spread (Z.of_nat w) x) (Z.of_nat (2 * i + 1)) = false.
Proof.
  intros Hw. assert (C : forallb (fun i => forallb (fun j => Bool.eqb (Z.testbit (spread (Z.of_nat w) (2 ^ Z.of_nat j)) (Z.of_nat (2 * i))) (Nat.eqb j i)) (seq 0 w) &&
      forallb (fun j => negb (Z.testbit (spread (Z.of_nat w) (2 ^ Z.of_nat j)) (Z.of_nat (2 * i + 1)))) (seq 0 w)) (seq 0 w) = true).
  { destruct Hw as [H|[H|H]]; [assert (w = 8%nat) by lia|assert (w = 16%nat) by lia|assert (w = 32%nat) by lia]; subst w; vm_compute; reflexivity. }
  intros x Hx i Hi. rewrite forallb_forall in C. specialize (C i ltac:(apply in_seq; lia)). apply andb_true_iff in C as [C1 C2]. split.
  - apply (lin_bit w _ _ i (lin_spread _ Hw) Hi C1 x Hx).
  - apply (lin_none w _ _ (lin_spread _ Hw) C2 x Hx).
Qed.
Lemma interleave_bits w a b : w = 8 \/ w = 16 \/ w = 32 -> unsigned w a -> unsigned w b -> forall i, 0 <= i < w ->
  Z.testbit (binary_interleave w a b) (2 * i) = Z.testbit a i /\ Z.testbit (binary_interleave w a b) (2 * i + 1) = Z.testbit b i.
Proof.
  intros Hw Ha Hb i Hi. rewrite interleave_spread by exact Hw. assert (E : Z.of_nat (Z.to_nat w) = w) by lia.
  assert (Hw' : Z.of_nat (Z.to_nat w) = 8 \/ Z.of_nat (Z.to_nat w) = 16 \/ Z.of_nat (Z.to_nat w) = 32) by (rewrite E; exact Hw).
  assert (S : forall x, word w x -> forall j, 0 <= j < w -> Z.testbit (spread w x) (2 * j) = Z.testbit x j /\ Z.testbit (spread w x) (2 * j + 1) = false).
  { intros x Hx j Hj. pose proof (spread_even (Z.to_nat w) Hw' x ltac:(rewrite E; exact Hx) (Z.to_nat j) ltac:(lia)) as [A B]. rewrite E in *.
    replace (Z.of_nat (2 * Z.to_nat j)) with (2 * j) in A by lia. replace (Z.of_nat (2 * Z.to_nat j + 1)) with (2 * j + 1) in B by lia. rewrite Z2Nat.id in A by lia. auto. }
  rewrite !testbit_tr by lia. destruct (Z.ltb_spec (2 * i) (2 * w)), (Z.ltb_spec (2 * i + 1) (2 * w)); try lia. rewrite !Z.lor_spec, !Z.shiftl_spec by lia.
  destruct (S a Ha i Hi) as [A1 A2]. destruct (S b Hb i Hi) as [B1 B2]. rewrite A1, A2. replace (2 * i + 1 - 1) with (2 * i) by lia. rewrite B1. cbn [orb]. split; [|reflexivity].
  destruct (Z.eq_dec i 0) as [->|]; [rewrite (Z.testbit_neg_r _ (2 * 0 - 1)) by lia; apply orb_false_r|].
  destruct (S b Hb (i - 1) ltac:(lia)) as [_ C]. replace (2 * i - 1) with (2 * (i - 1) + 1) by lia. rewrite C. apply orb_false_r.
Qed.

(** ** masks *)
Lemma make_lsb_ok w n : 0 < w -> 0 <= n <= w -> make_lsb_mask w n = 2 ^ n - 1.
Proof.
  intros Hw Hn. unfold make_lsb_mask. destruct (Z.eqb_spec n 0) as [->|]; [reflexivity|]. pose proof (Z.pow_pos_nonneg 2 w ltac:(lia) ltac:(lia)).
  rewrite tr_id by (unfold word; lia). replace (2 ^ w - 1) with (Z.ones w) by (rewrite Z.ones_equiv; lia). replace (2 ^ n - 1) with (Z.ones n) by (rewrite Z.ones_equiv; lia).
  rewrite Z.shiftr_div_pow2 by lia. rewrite Z.ones_div_pow2 by lia. f_equal. lia.
Qed.
Lemma make_msb_ok w n : 0 < w -> 0 <= n <= w -> make_msb_mask w n = 2 ^ w - 2 ^ (w - n).
Proof.
  intros Hw Hn. unfold make_msb_mask. destruct (Z.eqb_spec n 0) as [->|]; [rewrite Z.sub_0_r; lia|]. rewrite Z.shiftl_mul_pow2 by lia. unfold tr.
  replace ((2 ^ w - 1) * 2 ^ (w - n)) with ((2 ^ w - 2 ^ (w - n)) + (2 ^ (w - n) - 1) * 2 ^ w) by lia. rewrite Z.mod_add by (apply Z.pow_nonzero; lia).
  apply Z.mod_small. assert (2 ^ (w - n) < 2 ^ w) by (apply Z.pow_lt_mono_r; lia). pose proof (Z.pow_pos_nonneg 2 (w - n) ltac:(lia) ltac:(lia)). lia.
Qed.
