(** * binary.h: bit permutations and counts *)
From Coq Require Import List Arith Lia ZifyNat Bool ZArith.
From Verif Require Import Util BinaryModel BinarySpec BitLib.
Import ListNotations.
Local Open Scope Z_scope.
Ltac Zify.zify_post_hook ::= Z.div_mod_to_equations.

Ltac widths H := destruct H as [H|[H|[H|H]]]; subst.
Lemma width_pos w : width w -> 0 < w. Proof. intros H. widths H; lia. Qed.
#[global] Hint Resolve width_pos : bin.

(** ** linear functions *)
Lemma lin_rev8 : lin 8 reverse_bits_8. Proof. unfold reverse_bits_8. cbv zeta. linear. Qed.
Lemma lin_rev16 : lin 16 reverse_bits_16. Proof. unfold reverse_bits_16. cbv zeta. linear. Qed.
Lemma lin_rev32 : lin 32 reverse_bits_32. Proof. unfold reverse_bits_32. cbv zeta. linear. Qed.
Lemma lin_rev64 : lin 64 reverse_bits_64. Proof. unfold reverse_bits_64. cbv zeta. linear. Qed.
Lemma lin_byt16 : lin 16 reverse_bytes_16. Proof. unfold reverse_bytes_16. cbv zeta. linear. Qed.
Lemma lin_byt32 : lin 32 reverse_bytes_32. Proof. unfold reverse_bytes_32. cbv zeta. linear. Qed.
Lemma lin_byt64 : lin 64 reverse_bytes_64. Proof. unfold reverse_bytes_64. cbv zeta. linear. Qed.

Lemma bits_Z (wr : nat) (P : Z -> Prop) : (forall i, (i < wr)%nat -> P (Z.of_nat i)) -> forall i, 0 <= i < Z.of_nat wr -> P i.
Proof. intros H i Hi. rewrite <- (Z2Nat.id i) by lia. apply H. lia. Qed.

Lemma reverse_bits_bit w x : width w -> unsigned w x -> forall i, 0 <= i < w -> bit (reverse_bits w x) i = bit x (w - 1 - i).
Proof.
  intros Hw Hx. unfold bit. widths Hw; cbn [reverse_bits Z.eqb Pos.eqb].
  - apply (bits_Z 8). intros i Hi. rewrite (lin_bits 8 reverse_bits_8 8 (fun i => (7 - i)%nat) lin_rev8 ltac:(vm_compute; reflexivity) x Hx i Hi). f_equal. lia.
  - apply (bits_Z 16). intros i Hi. change (reverse_bits 16 x) with (reverse_bits_16 x).
    rewrite (lin_bits 16 reverse_bits_16 16 (fun i => (15 - i)%nat) lin_rev16 ltac:(vm_compute; reflexivity) x Hx i Hi). f_equal. lia.
  - apply (bits_Z 32). intros i Hi. change (reverse_bits 32 x) with (reverse_bits_32 x).
    rewrite (lin_bits 32 reverse_bits_32 32 (fun i => (31 - i)%nat) lin_rev32 ltac:(vm_compute; reflexivity) x Hx i Hi). f_equal. lia.
  - apply (bits_Z 64). intros i Hi. change (reverse_bits 64 x) with (reverse_bits_64 x).
    rewrite (lin_bits 64 reverse_bits_64 64 (fun i => (63 - i)%nat) lin_rev64 ltac:(vm_compute; reflexivity) x Hx i Hi). f_equal. lia.
Qed.
Lemma reverse_bits_word w x : width w -> word w (reverse_bits w x).
Proof. intros Hw. widths Hw; unfold reverse_bits; cbn [Z.eqb Pos.eqb]; apply word_tr; lia. Qed.

Lemma reverse_bytes_bit w x : width w -> unsigned w x -> forall i, 0 <= i < w -> bit (reverse_bytes w x) i = bit x (8 * (w / 8 - 1 - i / 8) + i mod 8).
Proof.
  intros Hw Hx. unfold bit. widths Hw; cbn [reverse_bytes Z.eqb Pos.eqb].
  - intros i Hi. f_equal. lia.
  - apply (bits_Z 16). intros i Hi. change (reverse_bytes 16 x) with (reverse_bytes_16 x).
    rewrite (lin_bits 16 reverse_bytes_16 16 (fun i => (8 * (1 - i / 8) + i mod 8)%nat) lin_byt16 ltac:(vm_compute; reflexivity) x Hx i Hi). f_equal. lia.
  - apply (bits_Z 32). intros i Hi. change (reverse_bytes 32 x) with (reverse_bytes_32 x).
    rewrite (lin_bits 32 reverse_bytes_32 32 (fun i => (8 * (3 - i / 8) + i mod 8)%nat) lin_byt32 ltac:(vm_compute; reflexivity) x Hx i Hi). f_equal. lia.
  - apply (bits_Z 64). intros i Hi. change (reverse_bytes 64 x) with (reverse_bytes_64 x).
    rewrite (lin_bits 64 reverse_bytes_64 64 (fun i => (8 * (7 - i / 8) + i mod 8)%nat) lin_byt64 ltac:(vm_compute; reflexivity) x Hx i Hi). f_equal. lia.
Qed.
Lemma reverse_bytes_word w x : width w -> unsigned w x -> word w (reverse_bytes w x).
Proof. intros Hw Hx. widths Hw; unfold reverse_bytes; cbn [Z.eqb Pos.eqb]; try exact Hx; apply word_tr; lia. Qed.

(** ** rotations, any width *)
Lemma rotate_left_bit w x d : 0 < w -> unsigned w x -> 0 <= d -> forall i, 0 <= i < w -> bit (rotate_left w x d) i = bit x ((i - d) mod w).
Proof.
  intros Hw Hx Hd i Hi. unfold rotate_left, bit. set (e := d mod w). assert (He : 0 <= e < w) by (apply Z.mod_pos_bound; lia).
  assert (Em : (i - d) mod w = (i - e) mod w) by (unfold e; rewrite Zminus_mod_idemp_r; reflexivity). rewrite Em.
  destruct (Z.eqb_spec (w - e) w) as [E0|N0].
  - replace (i - e) with i by lia. rewrite Z.mod_small by lia. reflexivity.
  - rewrite testbit_tr by lia. destruct (Z.ltb_spec i w); [|lia]. rewrite Z.lor_spec, Z.shiftl_spec, Z.shiftr_spec by lia.
    destruct (Z.lt_ge_cases i e).
    + rewrite (Z.testbit_neg_r x (i - e)) by lia. cbn [orb]. f_equal. rewrite <- (Z.mod_add _ 1) by lia. rewrite Z.mod_small; lia.
    + rewrite (word_high w x (i + (w - e)) Hx) by lia. rewrite orb_false_r, Z.mod_small by lia. reflexivity.
Qed.
Lemma rotate_left_word w x d : 0 < w -> unsigned w x -> word w (rotate_left w x d).
Proof. intros Hw Hx. unfold rotate_left. destruct (_ =? _); [exact Hx|apply word_tr; lia]. Qed.
Lemma rotate_right_bit w x d : 0 < w -> unsigned w x -> 0 <= d -> forall i, 0 <= i < w -> bit (rotate_right w x d) i = bit x ((i + d) mod w).
Proof.
  intros Hw Hx Hd i Hi. unfold rotate_right, bit. set (e := d mod w). assert (He : 0 <= e < w) by (apply Z.mod_pos_bound; lia).
  assert (Em : (i + d) mod w = (i + e) mod w) by (unfold e; rewrite Zplus_mod_idemp_r; reflexivity). rewrite Em.
  destruct (Z.eqb_spec (w - e) w) as [E0|N0].
  - replace (i + e) with i by lia. rewrite Z.mod_small by lia. reflexivity.
  - rewrite testbit_tr by lia. destruct (Z.ltb_spec i w); [|lia]. rewrite Z.lor_spec, Z.shiftl_spec, Z.shiftr_spec by lia.
    destruct (Z.lt_ge_cases (i + e) w).
    + rewrite (Z.testbit_neg_r x (i - (w - e))) by lia. rewrite orb_false_r, Z.mod_small by lia. reflexivity.
    + rewrite (word_high w x (i + e) Hx) by lia. cbn [orb]. f_equal. rewrite <- (Z.mod_add _ (-1)) by lia. rewrite Z.mod_small; lia.
Qed.
Lemma rotate_right_word w x d : 0 < w -> unsigned w x -> word w (rotate_right w x d).
Proof. intros Hw Hx. unfold rotate_right. destruct (_ =? _); [exact Hx|apply word_tr; lia]. Qed.

(** ** Gray code *)
Lemma lin_xshift w k : 0 <= k -> lin w (xshift k).
Proof. intros. unfold xshift. apply lin_lxor; [apply lin_id|]. apply lin_shr; [lia|apply lin_id]. Qed.
Lemma word_shr w x k : 0 <= k -> word w x -> word w (x >> k).
Proof.
  intros Hk [H1 H2]. split; [apply Z.shiftr_nonneg; exact H1|]. rewrite Z.shiftr_div_pow2 by exact Hk.
  apply Z.le_lt_trans with x; [|exact H2]. assert (1 <= 2 ^ k) by (assert (0 < 2 ^ k) by (apply Z.pow_pos_nonneg; lia); lia).
  apply Z.div_le_upper_bound; nia.
Qed.
Lemma word_xshift w k x : 0 <= k -> word w x -> word w (xshift k x).
Proof. intros. apply word_lxor; [assumption|apply word_shr; assumption]. Qed.
#[global] Hint Resolve word_xshift word_shr : bin.
Ltac wordx := intros; repeat (apply word_xshift; [lia|]); eassumption.
Ltac linx := match goal with
  | |- lin _ (fun v => v) => apply lin_id
  | |- lin ?w (fun v => xshift ?k (@?g v)) => apply (lin_comp w w (xshift k) g); [apply lin_xshift; lia|linx|wordx]
  | |- lin ?w (fun v => (@?g v) &&& ?m) => apply (lin_land w g m); linx
  end.
Lemma lin_gtb w : width w -> lin w (gray_to_binary w).
Proof. intros Hw. widths Hw; unfold gray_to_binary; cbn [Z.eqb Pos.eqb]; linx. Qed.
Lemma gtb_word w x : width w -> unsigned w x -> word w (gray_to_binary w x).
Proof. intros Hw Hx. widths Hw; unfold gray_to_binary; cbn [Z.eqb Pos.eqb]; repeat (apply word_xshift; [lia|]); exact Hx. Qed.
Lemma lin_btg w : 0 <= w -> lin w (binary_to_gray w).
Proof. intros Hw. unfold binary_to_gray. apply lin_tr; [lia|]. apply lin_lxor; [apply lin_shr; [lia|apply lin_id]|apply lin_id]. Qed.
Lemma btg_word w x : 0 <= w -> word w (binary_to_gray w x). Proof. intros. apply word_tr. lia. Qed.
Lemma gray_inv1 w x : width w -> unsigned w x -> gray_to_binary w (binary_to_gray w x) = x.
Proof.
  intros Hw Hx. assert (L : lin w (fun x => gray_to_binary w (binary_to_gray w x))).
  { apply (lin_comp w w); [apply lin_gtb; exact Hw|apply lin_btg; pose proof (width_pos w Hw); lia|intros; apply btg_word; pose proof (width_pos w Hw); lia]. }
  widths Hw.
  - apply (lin_ext 8 _ (fun x => x) L (lin_id 8)); [vm_compute; reflexivity|exact Hx].
  - apply (lin_ext 16 _ (fun x => x) L (lin_id 16)); [vm_compute; reflexivity|exact Hx].
  - apply (lin_ext 32 _ (fun x => x) L (lin_id 32)); [vm_compute; reflexivity|exact Hx].
  - apply (lin_ext 64 _ (fun x => x) L (lin_id 64)); [vm_compute; reflexivity|exact Hx].
Qed.
Lemma gray_inv2 w x : width w -> unsigned w x -> binary_to_gray w (gray_to_binary w x) = x.
Proof.
  intros Hw Hx. assert (L : lin w (fun x => binary_to_gray w (gray_to_binary w x))).
  { apply (lin_comp w w); [apply lin_btg; pose proof (width_pos w Hw); lia|apply lin_gtb; exact Hw|intros; apply gtb_word; assumption]. }
  widths Hw.
  - apply (lin_ext 8 _ (fun x => x) L (lin_id 8)); [vm_compute; reflexivity|exact Hx].
  - apply (lin_ext 16 _ (fun x => x) L (lin_id 16)); [vm_compute; reflexivity|exact Hx].
  - apply (lin_ext 32 _ (fun x => x) L (lin_id 32)); [vm_compute; reflexivity|exact Hx].
  - apply (lin_ext 64 _ (fun x => x) L (lin_id 64)); [vm_compute; reflexivity|exact Hx].
Qed.
(** x xor (x+1) is a block of ones *)
Lemma lxor_succ (n : nat) : forall x, word (Z.of_nat n) x -> x + 1 < 2 ^ Z.of_nat n -> exists k, 0 <= k < Z.of_nat n /\ x ^^^ (x + 1) = Z.ones (k + 1).
Proof.
  induction n as [|n IH]; intros x [H1 H2] H3.
  - cbn in *. lia.
  - replace (2 ^ Z.of_nat (S n)) with (2 * 2 ^ Z.of_nat n) in * by (rewrite <- Z.pow_succ_r by lia; f_equal; lia).
    assert (E : exists b y, x = b + 2 ^ 1 * y /\ (b = 0 \/ b = 1)) by (exists (x mod 2), (x / 2); change (2 ^ 1) with 2; lia).
    destruct E as (b & y & -> & [->| ->]); change (2 ^ 1) with 2 in *.
    + exists 0. split; [lia|]. replace (0 + 2 * y + 1) with (1 + 2 ^ 1 * y) by lia. change (0 + 2 * y) with (0 + 2 ^ 1 * y).
      rewrite lxor_dv by (unfold word; lia). rewrite Z.lxor_nilpotent. reflexivity.
    + destruct (IH y) as (k & Hk & E); [unfold word; lia|lia|]. exists (k + 1). split; [lia|].
      replace (1 + 2 * y + 1) with (0 + 2 ^ 1 * (y + 1)) by lia. change (1 + 2 * y) with (1 + 2 ^ 1 * y).
      rewrite lxor_dv by (unfold word; lia). rewrite E. rewrite !Z.ones_equiv. replace (k + 1 + 1) with (1 + (k + 1)) by lia. rewrite (Z.pow_add_r 2 1) by lia. change (1 ^^^ 0) with 1. lia.
Qed.
Lemma gray_step w x : width w -> unsigned w x -> x + 1 < 2 ^ w -> exists k, 0 <= k < w /\ binary_to_gray w x ^^^ binary_to_gray w (x + 1) = 2 ^ k.
Proof.
  intros Hw Hx H1. pose proof (width_pos w Hw). destruct (lxor_succ (Z.to_nat w) x) as (k & Hk & E); [rewrite Z2Nat.id by lia; exact Hx|rewrite Z2Nat.id by lia; exact H1|].
  rewrite Z2Nat.id in Hk by lia. exists k. split; [exact Hk|]. unfold unsigned in Hx.
  rewrite <- (lin_btg w ltac:(lia) x (x + 1)) by (unfold word; lia). rewrite E. unfold binary_to_gray. apply Z.bits_inj'. intros i Hi.
  rewrite testbit_tr, Z.lxor_spec, Z.shiftr_spec, Z.pow2_bits_eqb by lia.
  destruct (Z.ltb_spec i w), (Z.eqb_spec k i).
  - subst. rewrite Z.ones_spec_high, Z.ones_spec_low by lia. reflexivity.
  - destruct (Z.lt_ge_cases i k); [rewrite !Z.ones_spec_low by lia|rewrite !Z.ones_spec_high by lia]; reflexivity.
  - lia.
  - reflexivity.
Qed.

