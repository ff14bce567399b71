(** * C23: binary.h and bit.h compute the mathematical bit functions. *)
From Coq Require Import List Arith Lia Bool ZArith.
From Verif Require Import Util BinaryModel BinarySpec BitLib BinaryProofs BinaryProofs2 BinaryProofs3 BinaryProofs4.
Import ListNotations.
Local Open Scope Z_scope.

(** ** Permutations of the bits *)
Theorem C23_reverse_bits_correct : forall w x, width w -> unsigned w x ->
  unsigned w (reverse_bits w x) /\ msb_first w (reverse_bits w x) = lsb_first w x /\ reverse_bits w (reverse_bits w x) = x.
Proof.
  intros w x Hw Hx. pose proof (width_pos w Hw) as P. pose proof (reverse_bits_word w x Hw) as W. split; [exact W|]. split.
  - rewrite map_bits_l, map_bits by lia. apply map_ext_in. intros i Hi. apply in_seq in Hi. unfold accl, accr.
    change (bit (reverse_bits w x) (w - 1 - Z.of_nat i) = bit x (Z.of_nat i)). rewrite reverse_bits_bit by (assumption || lia). f_equal. lia.
  - apply (word_ext w); [apply reverse_bits_word; exact Hw|exact Hx|]. intros i Hi. change (bit (reverse_bits w (reverse_bits w x)) i = bit x i).
    rewrite !reverse_bits_bit by (assumption || lia). f_equal. lia.
Qed.
Theorem C23_reverse_bytes_correct : forall w x, width w -> unsigned w x ->
  unsigned w (reverse_bytes w x) /\ (forall i, 0 <= i < w -> bit (reverse_bytes w x) i = bit x (8 * (w / 8 - 1 - i / 8) + i mod 8)).
Proof. intros w x Hw Hx. split; [apply reverse_bytes_word; assumption|apply reverse_bytes_bit; assumption]. Qed.
(** rotation by any distance, any number of times round *)
Theorem C23_rotate_left_correct : forall w x d, width w -> unsigned w x -> 0 <= d ->
  unsigned w (rotate_left w x d) /\ (forall i, 0 <= i < w -> bit (rotate_left w x d) i = bit x ((i - d) mod w)).
Proof. intros w x d Hw Hx Hd. pose proof (width_pos w Hw). split; [apply rotate_left_word; assumption|apply rotate_left_bit; assumption]. Qed.
Theorem C23_rotate_right_correct : forall w x d, width w -> unsigned w x -> 0 <= d ->
  unsigned w (rotate_right w x d) /\ (forall i, 0 <= i < w -> bit (rotate_right w x d) i = bit x ((i + d) mod w)) /\
  rotate_right w (rotate_left w x d) d = x /\ rotate_left w (rotate_right w x d) d = x.
Proof.
  intros w x d Hw Hx Hd. pose proof (width_pos w Hw). pose proof (rotate_right_word w x d ltac:(lia) Hx) as W. pose proof (rotate_left_word w x d ltac:(lia) Hx) as W2.
  split; [exact W|]. split; [apply rotate_right_bit; assumption|].
  assert (M : forall i, 0 <= i < w -> forall s, ((i + s) mod w - s) mod w = i).
  { intros i Hi s. rewrite Zminus_mod_idemp_l. replace (i + s - s) with i by lia. apply Z.mod_small. lia. }
  split; (apply (word_ext w); [first [apply rotate_right_word|apply rotate_left_word]; assumption|exact Hx|]); intros i Hi.
  - change (bit (rotate_right w (rotate_left w x d) d) i = bit x i). pose proof (Z.mod_pos_bound (i + d) w ltac:(lia)).
    rewrite rotate_right_bit, rotate_left_bit by (assumption || lia). f_equal. apply M. exact Hi.
  - change (bit (rotate_left w (rotate_right w x d) d) i = bit x i). pose proof (Z.mod_pos_bound (i - d) w ltac:(lia)).
    rewrite rotate_left_bit, rotate_right_bit by (assumption || lia). f_equal. rewrite Zplus_mod_idemp_l. replace (i - d + d) with i by lia. apply Z.mod_small. exact Hi.
Qed.
Theorem C23_rotate_by_one_correct : forall w x, width w -> unsigned w x -> rotate_left1 w x = rotate_left w x 1 /\ rotate_right1 w x = rotate_right w x 1.
Proof.
  intros w x Hw Hx. unfold rotate_left1, rotate_left, rotate_right1, rotate_right. widths Hw; split; reflexivity.
Qed.
Theorem C23_signed_distance_rotations_correct : forall w x n, width w -> unsigned w x -> forall i, 0 <= i < w ->
  bit (rotate w x n) i = bit x ((i - n) mod w) /\ bit (rotl w x n) i = bit x ((i - n) mod w) /\ bit (rotr w x n) i = bit x ((i + n) mod w).
Proof.
  intros w x n Hw Hx i Hi. pose proof (width_pos w Hw). unfold rotate, rotl, rotr. conj.
  - destruct (Z.ltb_spec 0 n); [apply rotate_left_bit|rewrite rotate_right_bit]; try assumption; try lia; try (do 2 f_equal; lia).
  - destruct (Z.ltb_spec n 0); [rewrite rotate_right_bit|apply rotate_left_bit]; try assumption; try lia; try (do 2 f_equal; lia).
  - destruct (Z.ltb_spec n 0); [rewrite rotate_left_bit|apply rotate_right_bit]; try assumption; try lia; try (do 2 f_equal; lia).
Qed.
Theorem C23_merge_correct : forall first second mask i, bit (binary_merge first second mask) i = if bit mask i then bit first i else bit second i.
Proof. intros. apply merge_bit. Qed.
Theorem C23_interleave_correct : forall w a b, w = 8 \/ w = 16 \/ w = 32 -> unsigned w a -> unsigned w b -> forall i, 0 <= i < w ->
  bit (binary_interleave w a b) (2 * i) = bit a i /\ bit (binary_interleave w a b) (2 * i + 1) = bit b i.
Proof. apply interleave_bits. Qed.
Theorem C23_fill_correct : forall wv n x i, width wv -> (1 <= n)%nat -> unsigned wv x -> 0 <= i < wv * Z.of_nat n ->
  bit (binary_fill (wv * Z.of_nat n) wv x) i = bit x (i mod wv).
Proof. intros wv n x i Hw Hn Hx Hi. pose proof (width_pos wv Hw). apply fill_bit; assumption. Qed.

(** ** Gray code *)
Theorem C23_gray_correct : forall w x, width w -> unsigned w x ->
  gray_to_binary w (binary_to_gray w x) = x /\ binary_to_gray w (gray_to_binary w x) = x /\
  (x + 1 < 2 ^ w -> exists k, 0 <= k < w /\ binary_to_gray w (x + 1) = binary_to_gray w x ^^^ 2 ^ k).
Proof.
  intros w x Hw Hx. conj; [apply gray_inv1; assumption|apply gray_inv2; assumption|]. intros H. destruct (gray_step w x Hw Hx H) as (k & Hk & E). exists k. split; [exact Hk|].
  rewrite <- E. rewrite <- Z.lxor_assoc, Z.lxor_nilpotent, Z.lxor_0_l. reflexivity.
Qed.

(** ** Counts *)
Theorem C23_count_bits_correct : forall w x, width w -> unsigned w x -> count_bits w x = popcount w x.
Proof. apply count_bits_ok. Qed.
Theorem C23_parity_correct : forall w x, width w -> unsigned w x -> parity w x = popcount w x mod 2.
Proof. apply parity_ok. Qed.
Theorem C23_count_trailing_zeros_correct : forall w x, width w -> unsigned w x -> count_trailing_zeros w x = run false (lsb_first w x).
Proof. apply ctz_ok. Qed.
(** the other three are right at some widths only *)
Theorem C23_count_trailing_ones_correct : forall w x, w = 8 \/ w = 16 \/ w = 32 -> unsigned w x -> count_trailing_ones w x = run true (lsb_first w x).
Proof. intros w x Hw Hx. apply cto_ok; [unfold width; tauto|lia|exact Hx]. Qed.
Theorem C23_count_leading_zeros_correct : forall w x, w = 8 \/ w = 16 \/ w = 32 -> unsigned w x -> count_leading_zeros w x = run false (msb_first w x).
Proof. intros w x Hw Hx. rewrite clz_exact by (try exact Hx; unfold width; tauto). unfold clz_result. replace (w =? 64) with false by (symmetry; apply Z.eqb_neq; lia). reflexivity. Qed.
Theorem C23_count_leading_ones_correct : forall w x, w = 8 \/ w = 16 -> unsigned w x -> count_leading_ones w x = run true (msb_first w x).
Proof. intros w x Hw Hx. rewrite clo_exact by (try exact Hx; unfold width; tauto). unfold clo_result. replace (w =? 64) with false by (symmetry; apply Z.eqb_neq; lia). replace (w =? 32) with false by (symmetry; apply Z.eqb_neq; lia). reflexivity. Qed.
(** the values the wrong widths give, for every argument *)
Theorem C23_count_trailing_ones_64_exact : forall x, unsigned 64 x -> count_trailing_ones 64 x = Z.min 32 (run true (lsb_first 64 x)).
Proof. intros x Hx. apply (cto_exact 64); [unfold width; tauto|exact Hx]. Qed.
Theorem C23_count_leading_zeros_64_exact : forall x, unsigned 64 x ->
  let n := run false (msb_first 64 x) in count_leading_zeros 64 x = if (33 <=? n) && (n <=? 35) then 32 else n.
Proof. intros x Hx. apply (clz_exact 64); [unfold width; tauto|exact Hx]. Qed.
Theorem C23_count_leading_ones_32_exact : forall x, unsigned 32 x -> count_leading_ones 32 x = Z.min (run true (msb_first 32 x)) 24.
Proof. intros x Hx. apply (clo_exact 32); [unfold width; tauto|exact Hx]. Qed.
Theorem C23_count_leading_ones_64_exact : forall x, unsigned 64 x ->
  let n := run true (msb_first 64 x) in count_leading_ones 64 x = if n <? 32 then Z.min n 24 else 32.
Proof. intros x Hx. apply (clo_exact 64); [unfold width; tauto|exact Hx]. Qed.
Theorem C23_count_trailing_ones_refuted : exists x, unsigned 64 x /\ count_trailing_ones 64 x <> run true (lsb_first 64 x).
Proof. exists (2 ^ 40 - 1). split; [unfold unsigned; lia|vm_compute; discriminate]. Qed.
Theorem C23_count_leading_zeros_refuted : exists x, unsigned 64 x /\ count_leading_zeros 64 x <> run false (msb_first 64 x).
Proof. exists (2 ^ 30). split; [unfold unsigned; lia|vm_compute; discriminate]. Qed.
Theorem C23_count_leading_zeros_signed_refuted : exists x, signed 32 x /\ count_leading_zeros_signed 32 x <> run false (msb_first 32 x).
Proof. exists 2. split; [unfold signed; lia|vm_compute; discriminate]. Qed.
Theorem C23_count_leading_ones_refuted : exists x y, unsigned 32 x /\ count_leading_ones 32 x <> run true (msb_first 32 x) /\
  unsigned 64 y /\ count_leading_ones 64 y <> run true (msb_first 64 y).
Proof. exists (2 ^ 32 - 1), (2 ^ 64 - 1). repeat split; try (vm_compute; congruence); lia. Qed.

Theorem C23_first_bit_positions_correct : forall w x, width w -> unsigned w x ->
  first_set_bit_position w x = run false (lsb_first w x) /\ first_clear_bit_position w x = run true (lsb_first w x).
Proof.
  intros w x Hw Hx. pose proof (width_pos w Hw). split; [apply ctz_ok; assumption|]. unfold first_clear_bit_position. rewrite ctz_ok by (try exact Hw; apply word_tr; lia).
  assert (E : lsb_first w (tr w (Z.lnot x)) = map negb (lsb_first w x)).
  { unfold lsb_first. rewrite map_map. apply map_ext_in. intros i Hi. apply in_seq in Hi. unfold bit. rewrite testbit_tr by lia. destruct (Z.ltb_spec (Z.of_nat i) w); [|lia]. apply Z.lnot_spec. lia. }
  rewrite E. clear E. induction (lsb_first w x) as [|[] l IH]; cbn in *; auto. rewrite IH. reflexivity.
Qed.
Theorem C23_fold_bits_correct : forall (n : nat) x, (1 <= n)%nat -> unsigned 64 x -> unsigned (Z.of_nat n) (fold_bits n x) /\
  forall i, 0 <= i < Z.of_nat n -> bit (fold_bits n x) i = fold_right xorb false (map (fun k => bit x (i + Z.of_nat k * Z.of_nat n)) (seq 0 64)).
Proof.
  intros n x Hn Hx. split; [apply fold_loop_word; [lia|split; [lia|apply Z.pow_pos_nonneg; lia]|apply Hx]|]. intros i Hi.
  unfold fold_bits, bit. rewrite (fold_loop_ok n 64 Hn 65 0 x i Hx) by lia. rewrite Z.bits_0, xorb_false_l. unfold chunks, xorall.
  rewrite (seq_S 64 0), map_app, fold_right_app. cbn [map fold_right plus]. rewrite (word_high 64 x _ Hx) by nia. reflexivity.
Qed.
Theorem C23_sign_extend_correct : forall wr nbits v, 1 <= nbits <= wr -> 0 <= v ->
  let r := sign_extend wr v nbits in signed nbits r /\ r mod 2 ^ nbits = v mod 2 ^ nbits.
Proof. intros wr n v Hn Hv. cbv zeta. rewrite sign_extend_eq by exact Hn. split; [apply sg_signed; lia|apply sg_mod; lia]. Qed.
Theorem C23_sign_extend_shift_correct : forall wr nbits shift v, 1 <= nbits <= wr -> 0 <= v -> 0 <= shift ->
  let r := sign_extend_shift wr v nbits shift in signed nbits r /\ r mod 2 ^ nbits = (v / 2 ^ shift) mod 2 ^ nbits.
Proof.
  intros wr n s v Hn Hv Hs. cbv zeta. change (sign_extend_shift wr v n s) with (sign_extend wr (v >> s) n). rewrite Z.shiftr_div_pow2 by lia.
  apply C23_sign_extend_correct; [exact Hn|apply Z.div_pos; [exact Hv|apply Z.pow_pos_nonneg; lia]].
Qed.
Theorem C23_byte_search_correct : forall q x n, (1 <= q)%nat -> unsigned (8 * Z.of_nat q) x -> unsigned 8 n ->
  (has_zero_byte (8 * Z.of_nat q) x = true <-> exists j, (j < q)%nat /\ (x / 2 ^ (8 * Z.of_nat j)) mod 256 = 0) /\
  (has_byte_n (8 * Z.of_nat q) x n = true <-> exists j, (j < q)%nat /\ (x / 2 ^ (8 * Z.of_nat j)) mod 256 = n).
Proof.
  intros q x n Hq Hx Hn. rewrite zero_byte_ok, has_byte_ok by assumption. rewrite digits_bytes. split.
  all: rewrite existsb_exists; split; [intros (d & H1 & H2); apply in_map_iff in H1 as (j & <- & Hj); apply in_seq in Hj; apply Z.eqb_eq in H2; exists j; split; [lia|exact H2]
    |intros (j & Hj & E); eexists; split; [apply in_map_iff; exists j; split; [reflexivity|apply in_seq; lia]|apply Z.eqb_eq; exact E]].
Qed.

(** ** masks, parity of numbers, powers of two *)
Theorem C23_masks_correct : forall w n, width w -> 0 <= n <= w ->
  make_lsb_mask w n = 2 ^ n - 1 /\ make_msb_mask w n = 2 ^ w - 2 ^ (w - n) /\
  lsb_mask w (Z.to_nat n) = 2 ^ n - 1 /\ msb_mask w (Z.to_nat n) = 2 ^ w - 2 ^ (w - n).
Proof.
  intros w n Hw Hn. pose proof (width_pos w Hw) as P. assert (L : lsb_mask w (Z.to_nat n) = 2 ^ n - 1).
  { unfold lsb_mask. rewrite max_value_ok, Z2Nat.id by lia. apply tr_id. assert (2 ^ n <= 2 ^ w) by (apply Z.pow_le_mono_r; lia). pose proof (Z.pow_pos_nonneg 2 n ltac:(lia) ltac:(lia)). unfold word. lia. }
  conj; [apply make_lsb_ok; lia|apply make_msb_ok; lia|exact L|]. unfold msb_mask. rewrite L.
  assert (U : unsigned w (2 ^ n - 1)) by (rewrite <- L; apply word_tr; lia). rewrite <- (make_msb_ok w n) by lia.
  apply (word_ext w); [apply reverse_bits_word; exact Hw|unfold make_msb_mask; destruct (n =? 0); [split; [lia|apply Z.pow_pos_nonneg; lia]|apply word_tr; lia]|]. intros i Hi.
  change (bit (reverse_bits w (2 ^ n - 1)) i = Z.testbit (make_msb_mask w n) i). rewrite reverse_bits_bit by assumption. unfold bit.
  replace (2 ^ n - 1) with (Z.ones n) by (rewrite Z.ones_equiv; lia). unfold make_msb_mask. replace (2 ^ w - 1) with (Z.ones w) by (rewrite Z.ones_equiv; lia). destruct (Z.eqb_spec n 0) as [->|N].
  - rewrite Z.ones_spec_high by lia. symmetry. apply Z.bits_0.
  - rewrite testbit_tr by lia. destruct (Z.ltb_spec i w); [|lia]. rewrite Z.shiftl_spec by lia. destruct (Z.lt_ge_cases i (w - n)).
    + rewrite Z.ones_spec_high by lia. symmetry. apply Z.testbit_neg_r. lia.
    + rewrite !Z.ones_spec_low by lia. reflexivity.
Qed.
Theorem C23_odd_even_correct : forall w x, width w -> is_odd w x = Z.odd x /\ is_even w x = Z.even x.
Proof.
  intros w x Hw. pose proof (width_pos w Hw). unfold is_odd, is_even. rewrite !land1. unfold accr. rewrite testbit_tr by lia. destruct (Z.ltb_spec 0 w); [|lia].
  rewrite Z.bit0_odd, negb_involutive. split; [reflexivity|apply Z.negb_odd].
Qed.
Theorem C23_has_single_bit_correct : forall w x, width w -> unsigned w x -> x <> 0 -> has_single_bit w x = true <-> exists k, 0 <= k < w /\ x = 2 ^ k.
Proof. intros w x Hw. apply single_bit_ok. apply width_pos. exact Hw. Qed.
Theorem C23_has_single_bit_refuted : forall w, width w -> has_single_bit w 0 = true /\ ~ exists k, 0 <= k < w /\ 0 = 2 ^ k.
Proof. intros w Hw. split; [widths Hw; reflexivity|]. intros (k & Hk & E). pose proof (Z.pow_pos_nonneg 2 k ltac:(lia) ltac:(lia)). lia. Qed.
(** bit_width: the number of bits needed; right except where count_leading_zeros is wrong *)
Definition good_width (w x : Z) : Prop := w = 64 -> ~ 2 ^ 28 <= x < 2 ^ 31.
Lemma bit_width_ok w x : width w -> unsigned w x -> good_width w x -> bit_width w x = if x =? 0 then 0 else Z.log2 x + 1.
Proof.
  intros Hw Hx G. pose proof (width_pos w Hw) as P. unfold bit_width. rewrite clz_exact by assumption. unfold clz_result. destruct (Z.eqb_spec x 0) as [->|N].
  - rewrite run_zero_all by lia. widths Hw; reflexivity.
  - rewrite run_log2 by (try assumption; unfold unsigned in Hx; lia). destruct ((w =? 64) && (33 <=? w - 1 - Z.log2 x) && (w - 1 - Z.log2 x <=? 35)) eqn:E; [exfalso|lia].
    rewrite !andb_true_iff, Z.eqb_eq, !Z.leb_le in E. destruct E as ((E1 & E2) & E3). apply (G E1). unfold unsigned in Hx. pose proof (Z.log2_spec x ltac:(lia)) as [A B].
    assert (2 ^ 28 <= 2 ^ Z.log2 x) by (apply Z.pow_le_mono_r; lia). assert (2 ^ Z.succ (Z.log2 x) <= 2 ^ 31) by (apply Z.pow_le_mono_r; lia). lia.
Qed.
Theorem C23_bit_width_correct : forall w x, width w -> unsigned w x -> good_width w x ->
  0 <= bit_width w x /\ x < 2 ^ bit_width w x /\ (x <> 0 -> 2 ^ (bit_width w x - 1) <= x).
Proof.
  intros w x Hw Hx G. rewrite (bit_width_ok w x Hw Hx G). destruct (Z.eqb_spec x 0) as [->|N]; [cbn; repeat split; try lia|]. unfold unsigned in Hx.
  pose proof (Z.log2_spec x ltac:(lia)) as [A B]. pose proof (Z.log2_nonneg x). conj; [lia|exact B|]. intros _. replace (Z.log2 x + 1 - 1) with (Z.log2 x) by lia. exact A.
Qed.
Theorem C23_bit_width_refuted : exists x, unsigned 64 x /\ bit_width 64 x = 32 /\ x < 2 ^ 31.
Proof. exists (2 ^ 30). split; [unfold unsigned; lia|]. split; [vm_compute; reflexivity|lia]. Qed.
(** bit_ceil: the smallest power of two not below x, when it is representable *)
Theorem C23_bit_ceil_correct : forall w x, width w -> unsigned w x -> x <= 2 ^ (w - 1) -> good_width w (x - 1) ->
  exists k, 0 <= k < w /\ bit_ceil w x = 2 ^ k /\ x <= 2 ^ k /\ (forall j, 0 <= j -> x <= 2 ^ j -> k <= j).
Proof.
  intros w x Hw Hx H G. pose proof (width_pos w Hw) as P. unfold unsigned in Hx. unfold bit_ceil. destruct (Z.eqb_spec x 0) as [->|N].
  - exists 0. conj; try lia; try reflexivity.
  - rewrite bit_width_ok by (try assumption; unfold unsigned; lia). destruct (Z.eqb_spec (x - 1) 0) as [E|N1].
    + exists 0. conj; try lia; try (widths Hw; reflexivity); cbn; lia.
    + pose proof (Z.log2_spec (x - 1) ltac:(lia)) as [A B]. pose proof (Z.log2_nonneg (x - 1)). set (l := Z.log2 (x - 1)) in *.
      assert (Hl : l + 1 <= w - 1) by (assert (l < w - 1); [apply Z.log2_lt_pow2; lia|lia]).
      exists (l + 1). rewrite Z.shiftl_1_l. rewrite Z.add_1_r in *. conj; try lia; [apply tr_id; apply word_pow; lia|].
      intros j Hj Hx2. assert (2 ^ l < 2 ^ j) by lia. apply Z.pow_lt_mono_r_iff in H1; lia.
Qed.
Theorem C23_bit_ceil_refuted : exists x, unsigned 64 x /\ x = 2 ^ 30 /\ bit_ceil 64 (x + 1) = 2 ^ 32.
Proof. exists (2 ^ 30). split; [unfold unsigned; lia|]. split; [reflexivity|vm_compute; reflexivity]. Qed.
(** bit_floor: the greatest power of two not above x *)
Theorem C23_bit_floor_correct : forall w x, width w -> unsigned w x -> good_width w x ->
  (x = 0 -> bit_floor w x = 0) /\ (x <> 0 -> exists k, 0 <= k < w /\ bit_floor w x = 2 ^ k /\ 2 ^ k <= x < 2 * 2 ^ k).
Proof.
  intros w x Hw Hx G. pose proof (width_pos w Hw) as P. unfold unsigned in Hx. unfold bit_floor. split.
  - intros ->. reflexivity.
  - intros N. destruct (Z.eqb_spec x 0); [contradiction|]. rewrite (bit_width_ok w x Hw Hx G). destruct (Z.eqb_spec x 0); [contradiction|].
    pose proof (Z.log2_spec x ltac:(lia)) as [A B]. pose proof (Z.log2_nonneg x). assert (Z.log2 x < w) by (apply Z.log2_lt_pow2; lia).
    exists (Z.log2 x). replace (Z.log2 x + 1 - 1) with (Z.log2 x) by lia. rewrite Z.shiftl_1_l. rewrite Z.pow_succ_r in B by lia. conj; try lia. apply tr_id, word_pow. lia.
Qed.
Theorem C23_bit_floor_refuted : exists x, unsigned 64 x /\ x < bit_floor 64 x.
Proof. exists (2 ^ 28). split; [unfold unsigned; lia|vm_compute; reflexivity]. Qed.

(** ** Signed arguments *)
Theorem C23_signed_wrappers_correct : forall w x, width w -> signed w x ->
  (forall i, 0 <= i < w -> bit (reverse_bits_signed w x) i = bit x (w - 1 - i)) /\ signed w (reverse_bits_signed w x) /\
  count_bits_signed w x = popcount w x /\ count_trailing_zeros_signed w x = run false (lsb_first w x).
Proof.
  intros w x Hw Hx. pose proof (width_pos w Hw) as P. assert (B : forall y i, 0 <= i < w -> bit (sg w y) i = bit y i).
  { intros y i Hi. unfold bit. rewrite <- (Z.mod_pow2_bits_low _ w i) by lia. rewrite sg_mod by lia. apply Z.mod_pow2_bits_low. lia. }
  assert (T : forall i, 0 <= i < w -> bit (tr w x) i = bit x i) by (intros i Hi; unfold bit; rewrite testbit_tr by lia; destruct (Z.ltb_spec i w); [reflexivity|lia]).
  assert (L : lsb_first w (tr w x) = lsb_first w x) by (unfold lsb_first; apply map_ext_in; intros i Hi; apply in_seq in Hi; apply T; lia).
  assert (W : unsigned w (tr w x)) by (apply word_tr; lia). conj.
  - intros i Hi. unfold reverse_bits_signed. rewrite B by exact Hi. rewrite reverse_bits_bit by assumption. apply T. lia.
  - apply sg_signed. lia.
  - unfold count_bits_signed. rewrite count_bits_ok by assumption. unfold popcount. rewrite L. reflexivity.
  - unfold count_trailing_zeros_signed. rewrite ctz_ok by assumption. rewrite L. reflexivity.
Qed.
Theorem C23_rotate_signed_refuted : exists x, signed 32 x /\ rotate_left_signed 32 x 1 <> sg 32 (rotate_left 32 (tr 32 x) 1).
Proof. exists (-2). split; [unfold signed; lia|vm_compute; discriminate]. Qed.
Theorem C23_gray_signed_refuted : exists x, signed 32 x /\ gray_to_binary_signed 32 (binary_to_gray_signed 32 x) <> x.
Proof. exists (-2). split; [unfold signed; lia|vm_compute; discriminate]. Qed.
Theorem C23_reverse_bits_const_int8_refuted : exists v, signed 8 v /\ reverse_bits_const_int8 v <> reverse_bits_signed 8 v.
Proof. exists 16. split; [unfold signed; lia|vm_compute; discriminate]. Qed.
Theorem C23_interleave_signed_refuted : exists a b, signed 16 a /\ signed 16 b /\ exists i, 0 <= i < 16 /\ bit (binary_interleave_signed 16 a b) (2 * i) <> bit a i.
Proof. exists 0x4000, 0. conj; try (unfold signed; lia). exists 14. split; [lia|vm_compute; discriminate]. Qed.

(** ** Concrete cases *)
Example widths_exist : width 8 /\ width 64 /\ unsigned 32 0xDEADBEEF /\ signed 16 (-5). Proof. unfold width, unsigned, signed. repeat split; try lia; tauto. Qed.
Example reverse_case : reverse_bits 8 0x1D = 0xB8 /\ reverse_bytes 32 0x12345678 = 0x78563412. Proof. split; reflexivity. Qed.
Example rotate_case : rotate_left 16 0x8001 4 = 0x0018 /\ rotr 8 0x01 1 = 0x80 /\ rotate 8 0x01 (-9) = 0x80. Proof. repeat split; reflexivity. Qed.
Example count_case : count_bits 64 0xF0F0 = 8 /\ count_trailing_zeros 32 0x50 = 4 /\ count_leading_zeros 16 0x0050 = 9 /\ parity 8 0x07 = 1. Proof. repeat split; reflexivity. Qed.
Example sign_case : sign_extend 32 0xF0 8 = -16 /\ sign_extend_shift 32 0xABC 4 4 = -5. Proof. split; reflexivity. Qed.
Example byte_case : has_zero_byte 32 0x12003456 = true /\ has_zero_byte 32 0x12013456 = false /\ has_byte_n 32 0x12013456 0x34 = true. Proof. repeat split; reflexivity. Qed.
Example power_case : good_width 32 5 /\ bit_ceil 32 5 = 8 /\ bit_floor 32 5 = 4 /\ bit_width 32 5 = 3 /\ good_width 64 5. Proof. unfold good_width. repeat split; try reflexivity; lia. Qed.
Example interleave_case : binary_interleave 8 0xFF 0x00 = 0x5555 /\ binary_merge 0xAA 0x55 0x0F = 0x5A /\ fold_bits 4 0xF5 = 0xA. Proof. repeat split; reflexivity. Qed.

Print Assumptions C23_reverse_bits_correct.
Print Assumptions C23_reverse_bytes_correct.
Print Assumptions C23_rotate_left_correct.
Print Assumptions C23_rotate_right_correct.
Print Assumptions C23_rotate_by_one_correct.
Print Assumptions C23_signed_distance_rotations_correct.
Print Assumptions C23_merge_correct.
Print Assumptions C23_interleave_correct.
Print Assumptions C23_fill_correct.
Print Assumptions C23_gray_correct.
Print Assumptions C23_count_bits_correct.
Print Assumptions C23_parity_correct.
Print Assumptions C23_count_trailing_zeros_correct.
Print Assumptions C23_count_trailing_ones_correct.
Print Assumptions C23_count_leading_zeros_correct.
Print Assumptions C23_count_leading_ones_correct.
Print Assumptions C23_count_leading_zeros_64_exact.
Print Assumptions C23_first_bit_positions_correct.
Print Assumptions C23_fold_bits_correct.
Print Assumptions C23_sign_extend_correct.
Print Assumptions C23_sign_extend_shift_correct.
Print Assumptions C23_byte_search_correct.
Print Assumptions C23_masks_correct.
Print Assumptions C23_odd_even_correct.
Print Assumptions C23_has_single_bit_correct.
Print Assumptions C23_bit_width_correct.
Print Assumptions C23_bit_ceil_correct.
Print Assumptions C23_bit_floor_correct.
Print Assumptions C23_signed_wrappers_correct.
