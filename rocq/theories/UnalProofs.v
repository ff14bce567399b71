From Coq Require Import List Bool ZArith Lia.
From Verif Require Import BinaryModel BinarySpec BitLib BinaryProofs BinaryProofs4 UnalModel.
Import ListNotations.
Local Open Scope Z_scope.
Definition byte (v : Z) (j : nat) : Z := (v / 2 ^ (8 * Z.of_nat j)) mod 2 ^ 8.
Lemma len_bytes n u : length (bytes_le n u) = n.
Proof. revert u. induction n; intros u; cbn; auto. Qed.
Lemma nth_bytes n : forall u i, (i < n)%nat -> nth_error (bytes_le n u) i = Some (byte u i).
Proof.
  induction n as [|n IH]; intros u i H; [lia|]. cbn [bytes_le]. destruct i as [|i]; cbn [nth_error].
  - unfold byte. cbn [Z.of_nat Z.mul]. rewrite Z.pow_0_r, Z.div_1_r. reflexivity.
  - rewrite IH by lia. f_equal. unfold byte. rewrite Z.div_div by (try apply Z.pow_pos_nonneg; lia). do 2 f_equal. change 256 with (2 ^ 8). rewrite <- Z.pow_add_r by lia. f_equal. lia.
Qed.
Lemma bytes_range n u : Forall (fun b => 0 <= b < 256) (bytes_le n u).
Proof. revert u. induction n; intros u; cbn; constructor; auto. apply Z.mod_pos_bound. lia. Qed.
Lemma of_bytes n : forall u, of_le (bytes_le n u) = u mod 2 ^ (8 * Z.of_nat n).
Proof.
  induction n as [|n IH]; intros u; [cbn; symmetry; apply Z.mod_1_r|]. cbn [bytes_le of_le]. rewrite IH. replace (8 * Z.of_nat (S n)) with (8 + 8 * Z.of_nat n) by lia. rewrite Z.pow_add_r by lia. change (2 ^ 8) with 256.
  rewrite Z.rem_mul_r by (try apply Z.pow_nonzero; try apply Z.pow_pos_nonneg; lia). reflexivity.
Qed.
Lemma bytes_of l : Forall (fun b => 0 <= b < 256) l -> bytes_le (length l) (of_le l) = l.
Proof.
  induction 1 as [|b l H _ IH]; [reflexivity|]. cbn [length bytes_le of_le]. rewrite (Z.mul_comm 256). rewrite Z.mod_add, Z.div_add by lia. rewrite Z.mod_small, Z.div_small by lia. cbn [Z.add]. now rewrite IH.
Qed.
Lemma of_le_word l : Forall (fun b => 0 <= b < 256) l -> 0 <= of_le l < 2 ^ (8 * Z.of_nat (length l)).
Proof.
  induction 1 as [|b l H _ IH]; [cbn; lia|]. cbn [length of_le]. replace (8 * Z.of_nat (S (length l))) with (8 + 8 * Z.of_nat (length l)) by lia. rewrite Z.pow_add_r by lia. change (2 ^ 8) with 256. lia.
Qed.
Lemma size_w w : width w -> 8 * Z.of_nat (size w) = w /\ 0 < w.
Proof. intros [->|[->|[->| ->]]]; split; reflexivity. Qed.
Lemma byte_bit v j k : 0 <= k < 8 -> Z.testbit (byte v j) k = Z.testbit v (8 * Z.of_nat j + k).
Proof. intros H. unfold byte. rewrite Z.mod_pow2_bits_low by lia. rewrite Z.div_pow2_bits by lia. f_equal. lia. Qed.
Lemma byte_eq v u j i : (forall k, 0 <= k < 8 -> Z.testbit v (8 * Z.of_nat j + k) = Z.testbit u (8 * Z.of_nat i + k)) -> byte v j = byte u i.
Proof.
  intros H. apply Z.bits_inj'. intros k K. destruct (Z.lt_ge_cases k 8).
  - rewrite !byte_bit by lia. apply H. lia.
  - unfold byte. rewrite !Z.mod_pow2_bits_high by lia. reflexivity.
Qed.
Lemma ext_nth (a b : list Z) : length a = length b -> (forall i, (i < length a)%nat -> nth_error a i = nth_error b i) -> a = b.
Proof. revert b. induction a as [|x a IH]; intros [|y b] L H; try discriminate; [reflexivity|]. pose proof (H O ltac:(cbn; lia)) as H0. cbn in H0. injection H0 as ->. f_equal. apply IH; [cbn in L; lia|]. intros i I. apply (H (S i)). cbn. lia. Qed.
Lemma nth_rev (l : list Z) i : (i < length l)%nat -> nth_error (rev l) i = nth_error l (length l - 1 - i).
Proof.
  intros H. rewrite (nth_error_nth' (rev l) 0) by (rewrite rev_length; exact H). rewrite rev_nth by exact H. rewrite <- (nth_error_nth' l 0) by lia. f_equal. lia.
Qed.
Lemma bytes_reverse w x : width w -> unsigned w x -> bytes_le (size w) (reverse_bytes w x) = rev (bytes_le (size w) x).
Proof.
  intros W U. destruct (size_w w W) as (S1 & S2). apply ext_nth; [rewrite rev_length, !len_bytes; reflexivity|]. intros i I. rewrite len_bytes in I. rewrite nth_rev by (rewrite len_bytes; exact I). rewrite len_bytes, !nth_bytes by lia.
  f_equal. apply byte_eq. intros k K. pose proof (reverse_bytes_bit w x W U (8 * Z.of_nat i + k)) as B. unfold bit in B. rewrite B by lia. f_equal.
  replace ((8 * Z.of_nat i + k) / 8) with (Z.of_nat i) by (apply (Z.div_unique _ 8 _ k); lia). replace ((8 * Z.of_nat i + k) mod 8) with k by (apply (Z.mod_unique _ 8 (Z.of_nat i)); lia).
  replace (w / 8) with (Z.of_nat (size w)) by (rewrite <- S1 at 2; rewrite Z.mul_comm, Z.div_mul by lia; reflexivity). lia.
Qed.
Lemma reverse_of_le w l : width w -> length l = size w -> Forall (fun b => 0 <= b < 256) l -> reverse_bytes w (of_le l) = of_le (rev l).
Proof.
  intros W L F. destruct (size_w w W) as (S1 & S2). pose proof (of_le_word l F) as B. rewrite L, S1 in B. pose proof (bytes_reverse w (of_le l) W B) as E. rewrite <- L in E. rewrite bytes_of in E by exact F.
  pose proof (reverse_bytes_word w (of_le l) W B) as Q. unfold word in Q. rewrite <- (Z.mod_small (reverse_bytes w (of_le l)) (2 ^ w)) by exact Q. rewrite <- S1 at 2. rewrite <- L, <- of_bytes, E. reflexivity.
Qed.
Lemma memcpy_to_reverse native sgn w l : width w -> length l = size w -> Forall (fun b => 0 <= b < 256) l -> reverse_bytes_T sgn w (memcpy_to native sgn w l) = memcpy_to native sgn w (rev l).
Proof.
  intros W L F. destruct (size_w w W) as (S1 & S2). unfold memcpy_to. set (m := if same native little then l else rev l).
  assert (M : (if same native little then rev l else rev (rev l)) = rev m) by (unfold m; destruct (same native little); reflexivity). rewrite M.
  assert (LM : length m = size w) by (unfold m; destruct (same native little); [|rewrite rev_length]; exact L). assert (FM : Forall (fun b => 0 <= b < 256) m) by (unfold m; destruct (same native little); [|apply Forall_rev]; exact F).
  pose proof (of_le_word m FM) as B. rewrite LM, S1 in B. unfold reverse_bytes_T. destruct sgn.
  - unfold reverse_bytes_signed, tr. rewrite sg_mod by lia. rewrite Z.mod_small by exact B. rewrite reverse_of_le by assumption. reflexivity.
  - apply reverse_of_le; assumption.
Qed.
Lemma bytes_mod n : forall u, bytes_le n (u mod 2 ^ (8 * Z.of_nat n)) = bytes_le n u.
Proof. intros u. rewrite <- of_bytes. rewrite <- (len_bytes n u) at 1. apply bytes_of, bytes_range. Qed.
