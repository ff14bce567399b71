From Coq Require Import List Arith Lia Bool ZArith.
From Coq Require Import ZifyNat.
From Verif Require Import Util BinaryModel BinarySpec BitLib BinaryProofs BinaryProofs2 BinaryProofs3 BinaryProofs4 BitStreamModel BitStreamSpec.
Import ListNotations.
Local Open Scope Z_scope.
Ltac Zify.zify_post_hook ::= Z.div_mod_to_equations.

(** ** bit lists *)
Lemma lsb_length' n v : List.length (lsb_first n v) = Z.to_nat n.
Proof. unfold lsb_first. rewrite map_length, seq_length. reflexivity. Qed.
Lemma msb_length n v : List.length (msb_first n v) = Z.to_nat n.
Proof. unfold msb_first. rewrite rev_length. apply lsb_length'. Qed.
Lemma lsb_app a b z : 0 <= a -> 0 <= b -> lsb_first (a + b) z = lsb_first b z ++ lsb_first a (z >> b).
Proof.
  intros Ha Hb. unfold lsb_first. rewrite Z.add_comm, Z2Nat.inj_add, seq_app, map_app by lia. f_equal.
  replace (seq (0 + Z.to_nat b) (Z.to_nat a)) with (map (fun i => (Z.to_nat b + i)%nat) (seq 0 (Z.to_nat a))).
  - rewrite map_map. apply map_ext. intros i. unfold bit. rewrite Z.shiftr_spec by lia. f_equal. lia.
  - generalize (Z.to_nat a) as k. generalize (Z.to_nat b) as m. clear. intros m k. rewrite Nat.add_0_l.
    assert (G : forall k st, map (fun i => (m + i)%nat) (seq st k) = seq (m + st) k). { induction k0 as [|k0 IH]; intros st; [reflexivity|]. cbn. rewrite IH. f_equal. f_equal. lia. }
    pose proof (G k 0%nat) as E. rewrite Nat.add_0_r in E. exact E.
Qed.
Lemma msb_app a b z : 0 <= a -> 0 <= b -> msb_first (a + b) z = msb_first a (z >> b) ++ msb_first b z.
Proof. intros Ha Hb. unfold msb_first. rewrite lsb_app by assumption. apply rev_app_distr. Qed.
Lemma lsb_ext n x y : (forall i, 0 <= i < n -> Z.testbit x i = Z.testbit y i) -> lsb_first n x = lsb_first n y.
Proof. intros H. unfold lsb_first. apply map_ext_in. intros i Hi. apply in_seq in Hi. apply H. lia. Qed.
Lemma msb_ext n x y : (forall i, 0 <= i < n -> Z.testbit x i = Z.testbit y i) -> msb_first n x = msb_first n y.
Proof. intros H. unfold msb_first. f_equal. apply lsb_ext. exact H. Qed.
Lemma lsb_inj n x y : word n x -> word n y -> 0 <= n -> lsb_first n x = lsb_first n y -> x = y.
Proof.
  intros Hx Hy Hn E. apply (word_ext n); auto. intros i Hi.
  assert (G : forall z, nth_error (lsb_first n z) (Z.to_nat i) = Some (Z.testbit z i)).
  { intros z. unfold lsb_first. rewrite nth_error_map_seq. destruct (Nat.ltb_spec (Z.to_nat i) (Z.to_nat n)); [|lia]. unfold bit. do 2 f_equal. lia. }
  pose proof (G x) as Gx. rewrite E, G in Gx. congruence.
Qed.
Lemma msb_inj n x y : word n x -> word n y -> 0 <= n -> msb_first n x = msb_first n y -> x = y.
Proof. intros Hx Hy Hn E. apply (lsb_inj n); auto. unfold msb_first in E. rewrite <- (rev_involutive (lsb_first n x)), E, rev_involutive. reflexivity. Qed.
Lemma msb_zero n : msb_first n 0 = repeat false (Z.to_nat n).
Proof.
  unfold msb_first, lsb_first. rewrite <- map_rev. apply nth_error_ext. intros i. rewrite nth_error_repeat_if, nth_error_map.
  destruct (Nat.ltb_spec i (Z.to_nat n)) as [H|H].
  - destruct (nth_error (rev (seq 0 (Z.to_nat n))) i) eqn:E; [cbn; unfold bit; rewrite Z.bits_0; reflexivity|]. apply nth_error_None in E. rewrite rev_length, seq_length in E. lia.
  - replace (nth_error (rev (seq 0 (Z.to_nat n))) i) with (@None nat); [reflexivity|]. symmetry. apply nth_error_None. rewrite rev_length, seq_length. lia.
Qed.
Lemma msb_mod n x : 0 <= n -> msb_first n (x mod 2 ^ n) = msb_first n x.
Proof. intros Hn. apply msb_ext. intros i Hi. apply Z.mod_pow2_bits_low. lia. Qed.
Lemma msb_1 x : msb_first 1 x = [Z.testbit x 0]. Proof. reflexivity. Qed.
Lemma number_app a b : number (a ++ b) = 2 ^ Z.of_nat (List.length b) * number a + number b.
Proof.
  unfold number. rewrite fold_left_app. generalize (fold_left (fun (a : Z) (b : bool) => 2 * a + (if b then 1 else 0)) a 0) as x. clear a.
  induction b as [|c b IH]; intros x; [cbn [fold_left List.length]; change (2 ^ Z.of_nat 0) with 1; lia|]. cbn [fold_left List.length]. rewrite (IH (2 * x + _)), (IH (2 * 0 + _)), Nat2Z.inj_succ, Z.pow_succ_r by lia. lia.
Qed.
Lemma word_number l : word (Z.of_nat (List.length l)) (number l).
Proof.
  induction l as [|b l IH] using rev_ind; [unfold word; cbn; lia|]. rewrite number_app, app_length. cbn [List.length].
  replace (Z.of_nat (List.length l + 1)) with (Z.succ (Z.of_nat (List.length l))) by lia. unfold word in *. rewrite Z.pow_succ_r by lia. unfold number at 2 4. cbn [fold_left]. destruct b; lia.
Qed.
Lemma msb_number l n : n = Z.of_nat (List.length l) -> msb_first n (number l) = l.
Proof.
  intros ->. induction l as [|b l IH] using rev_ind; [reflexivity|]. rewrite number_app, app_length. cbn [List.length].
  replace (Z.of_nat (List.length l + 1)) with (Z.of_nat (List.length l) + 1) by lia. rewrite msb_app by lia. unfold number at 2 4. cbn [fold_left]. f_equal.
  - rewrite Z.shiftr_div_pow2 by lia. replace ((2 ^ Z.of_nat 1 * number l + (2 * 0 + (if b then 1 else 0))) / 2 ^ 1) with (number l); [exact IH|]. destruct b; lia.
  - rewrite msb_1. f_equal. rewrite Z.bit0_odd. replace (2 ^ Z.of_nat 1 * number l + (2 * 0 + (if b then 1 else 0))) with ((if b then 1 else 0) + 2 * number l) by lia.
    rewrite Z.odd_add_mul_2. destruct b; reflexivity.
Qed.
Lemma number_msb n r : 0 <= n -> word n r -> number (msb_first n r) = r.
Proof.
  intros Hn H. apply (msb_inj n); [|exact H|exact Hn|]. - pose proof (word_number (msb_first n r)) as W. rewrite msb_length, Z2Nat.id in W by lia. exact W.
  - apply msb_number. rewrite msb_length. lia.
Qed.
Definition byte_ok (b : Z) : Prop := 0 <= b < 256.
Lemma byte_word b : byte_ok b <-> word 8 b. Proof. unfold byte_ok, word. change (2 ^ 8) with 256. tauto. Qed.
Lemma bits_of_app a b : bits_of (a ++ b) = bits_of a ++ bits_of b. Proof. apply flat_map_app. Qed.
Lemma bits_of_length l : List.length (bits_of l) = (8 * List.length l)%nat.
Proof. induction l as [|b l IH]; [reflexivity|]. change (bits_of (b :: l)) with (msb_first 8 b ++ bits_of l). rewrite app_length, msb_length, IH. cbn [List.length]. lia. Qed.
Lemma byte_split b k : 0 <= k <= 8 -> msb_first 8 b = msb_first (8 - k) (b >> k) ++ msb_first k b.
Proof. intros Hk. replace 8 with (8 - k + k) at 1 by lia. apply msb_app; lia. Qed.
Lemma low_zero b k : 0 <= k -> b mod 2 ^ k = 0 -> msb_first k b = repeat false (Z.to_nat k).
Proof. intros Hk H. rewrite <- msb_mod, H by exact Hk. apply msb_zero. Qed.

(** ** put_bits *)
Lemma pad_ok p : (pad p < 8 /\ exists k, p + pad p = 8 * k)%nat.
Proof. unfold pad. split; [lia|]. exists ((p + 7) / 8)%nat. lia. Qed.
Lemma put_bits_length L p bs : (exists k, List.length L = 8 * k)%nat -> (p + List.length bs <= List.length L)%nat -> List.length (put_bits L p bs) = List.length L.
Proof.
  intros [k Hk] H. unfold put_bits. cbv zeta. destruct (pad_ok (p + List.length bs)) as [P1 [j P2]]. rewrite !app_length, firstn_length, repeat_length, skipn_length. lia.
Qed.
Lemma put_bits_app L p a b : (exists k, List.length L = 8 * k)%nat -> (p + List.length a + List.length b <= List.length L)%nat ->
  put_bits (put_bits L p a) (p + List.length a) b = put_bits L p (a ++ b).
Proof.
  intros [k Hk] H. unfold put_bits at 1 3. cbv zeta. rewrite app_length. rewrite Nat.add_assoc. set (q := (p + List.length a + List.length b)%nat).
  assert (F : firstn (p + List.length a) (put_bits L p a) = firstn p L ++ a).
  { unfold put_bits. cbv zeta. rewrite app_assoc, firstn_app. rewrite firstn_all2 by (rewrite app_length, firstn_length; lia).
    replace (p + List.length a - List.length (firstn p L ++ a))%nat with 0%nat by (rewrite app_length, firstn_length; lia). cbn. apply app_nil_r. }
  rewrite F, <- app_assoc. f_equal. rewrite <- app_assoc. f_equal. f_equal. f_equal.
  unfold put_bits. cbv zeta. set (p1 := (p + List.length a)%nat). destruct (pad_ok p1) as [A1 [k1 A2]]. destruct (pad_ok q) as [B1 [k2 B2]].
  assert (p1 + pad p1 <= q + pad q)%nat by lia.
  rewrite !app_assoc, skipn_app, skipn_all2, app_nil_l by (rewrite !app_length, firstn_length, repeat_length; lia). rewrite skipn_skipn'. f_equal.
  rewrite !app_length, firstn_length, repeat_length. lia.
Qed.

(** ** the stream invariant *)
Definition pos (s : stream) : nat := (8 * char_index s + Z.to_nat (8 - bits_available_in_char s))%nat.
Definition total (s : stream) : nat := (8 * List.length (pdata s))%nat.
Definition wf (s : stream) : Prop :=
  1 <= bits_available_in_char s <= 8 /\ Forall byte_ok (pdata s) /\ (pos s <= total s)%nat /\ bits_available s = Z.of_nat (total s) - Z.of_nat (pos s) /\ Z.of_nat (total s) < 2 ^ 64.
(** the unwritten bits of a partly written byte are zero *)
Definition clean (s : stream) : Prop := forall b, nth_error (pdata s) (char_index s) = Some b -> bits_available_in_char s < 8 -> b mod 2 ^ bits_available_in_char s = 0.
Lemma size_t_id x : 0 <= x < 2 ^ 64 -> size_t x = x. Proof. intros H. unfold size_t. apply Z.mod_small. exact H. Qed.
Lemma wf_make buffer : Forall byte_ok buffer -> 8 * Z.of_nat (List.length buffer) < 2 ^ 64 -> wf (make buffer) /\ clean (make buffer).
Proof.
  intros Hb Hl. unfold wf, clean, make, restart, pos, total, length_chars. cbn [pdata bits_available_in_char char_index bits_available]. conj; try lia; [exact Hb|]. rewrite size_t_id by lia. lia.
Qed.
Lemma wf_restart s : wf s -> wf (restart s) /\ clean (restart s).
Proof. intros (_ & H2 & _ & _ & H5). destruct (wf_make (pdata s) H2) as [A B]; [unfold total in H5; lia|]. exact (conj A B). Qed.
Lemma wf_step n s : wf s -> 0 < n <= bits_available_in_char s -> n <= bits_available s -> wf (step n s) /\ pos (step n s) = (pos s + Z.to_nat n)%nat /\ pdata (step n s) = pdata s.
Proof.
  intros (H1 & H2 & H3 & H4 & H5) Hn Ha. unfold wf, step, pos, total in *. cbn [pdata bits_available_in_char char_index bits_available]. rewrite size_t_id by lia.
  destruct (Z.eqb_spec (bits_available_in_char s - n) 0); conj; try lia; assumption || reflexivity.
Qed.
Lemma upd_ok l i x y : nth_error l i = Some y -> upd l i x = Some (firstn i l ++ x :: skipn (S i) l).
Proof. revert i. induction l as [|a l IH]; intros [|i] H; try discriminate; [reflexivity|]. cbn in *. rewrite (IH i H). reflexivity. Qed.
Lemma split_at {A} (l : list A) i y : nth_error l i = Some y -> l = firstn i l ++ y :: skipn (S i) l.
Proof. revert i. induction l as [|a l IH]; intros [|i] H; try discriminate; [cbn in *; congruence|]. cbn in *. f_equal. apply IH. exact H. Qed.

Lemma clean_put_nil s : wf s -> clean s -> put_bits (bits_of (pdata s)) (pos s) [] = bits_of (pdata s).
Proof.
  intros (H1 & H2 & H3 & H4 & H5) C. unfold put_bits. cbv zeta. cbn [List.length app]. rewrite Nat.add_0_r.
  destruct (Z.eq_dec (bits_available_in_char s) 8) as [E|E].
  - unfold pad, pos. rewrite E. replace ((8 - (8 * char_index s + Z.to_nat (8 - 8)) mod 8) mod 8)%nat with 0%nat by lia. rewrite !Nat.add_0_r. cbn [repeat app]. change (Z.to_nat (8 - 8)) with 0%nat. rewrite ?Nat.add_0_r. apply firstn_skipn.
  - unfold pos in *. destruct (nth_error (pdata s) (char_index s)) as [b|] eqn:Hb.
    2: { apply nth_error_None in Hb. unfold total in H3. lia. }
    specialize (C b Hb ltac:(lia)). rewrite (split_at _ _ _ Hb) at 1 2 3. set (pre := firstn (char_index s) (pdata s)). set (post := skipn (S (char_index s)) (pdata s)).
    assert (Lp : List.length pre = char_index s). { unfold pre. rewrite firstn_length. assert (char_index s < List.length (pdata s))%nat by (apply nth_error_Some; congruence). lia. }
    set (k := bits_available_in_char s) in *. rewrite bits_of_app. change (bits_of (b :: post)) with (msb_first 8 b ++ bits_of post). rewrite (byte_split b k) by lia. rewrite (low_zero b k) by (try exact C; lia).
    rewrite firstn_app, bits_of_length. replace (8 * char_index s + Z.to_nat (8 - k) - 8 * List.length pre)%nat with (Z.to_nat (8 - k)) by lia.
    rewrite firstn_all2 by (rewrite bits_of_length; lia). rewrite <- app_assoc. f_equal. rewrite <- !app_assoc. rewrite firstn_app, msb_length, Nat.sub_diag. rewrite firstn_all2 by (rewrite msb_length; lia).
    cbn [firstn]. rewrite app_nil_r. f_equal. unfold pad. replace ((8 - (8 * char_index s + Z.to_nat (8 - k)) mod 8) mod 8)%nat with (Z.to_nat k) by lia. f_equal.
    rewrite skipn_app, skipn_all2, app_nil_l by (rewrite bits_of_length; lia). rewrite !app_assoc, skipn_app, skipn_all2, app_nil_l by (rewrite app_length, msb_length, repeat_length, bits_of_length; lia).
    rewrite app_length, msb_length, repeat_length, bits_of_length. replace (_ - _)%nat with 0%nat by lia. reflexivity.
Qed.

Lemma arith1 A B x h : 0 < A -> 0 < B -> 0 <= x < A -> 0 <= A * h < A * B -> 0 <= x + A * h < A * B.
Proof. intros HA HB Hx Hh. assert (h < B) by nia. assert (0 <= h) by nia. assert (A * h + A <= A * B) by nia. lia. Qed.
Lemma write_chunk_ok s mw c : wf s -> clean s -> 0 < mw <= bits_available_in_char s -> mw <= bits_available s -> word mw c ->
  exists s', write_chunk (tr 8 (c << (bits_available_in_char s - mw))) mw s = Some s' /\ wf s' /\ clean s' /\ pos s' = (pos s + Z.to_nat mw)%nat /\ total s' = total s /\
    bits_of (pdata s') = put_bits (bits_of (pdata s)) (pos s) (msb_first mw c).
Proof.
  intros W C Hm Ha Hc. pose proof W as (H1 & H2 & H3 & H4 & H5). set (k := bits_available_in_char s) in *. unfold pos, total in *. fold k in H3, H4.
  destruct (nth_error (pdata s) (char_index s)) as [b|] eqn:Hb. 2: { apply nth_error_None in Hb. lia. }
  assert (Bb : byte_ok b) by (rewrite Forall_forall in H2; apply H2; eapply nth_error_In; exact Hb).
  set (b0 := if k =? 8 then 0 else b). assert (B0 : byte_ok b0 /\ b0 mod 2 ^ k = 0).
  { unfold b0. destruct (Z.eqb_spec k 8) as [E|E]; [split; [unfold byte_ok; lia|apply Z.mod_0_l; apply Z.pow_nonzero; lia]|]. split; [exact Bb|]. apply (C b Hb). fold k. lia. }
  destruct B0 as [B0 M0].
  assert (P : 2 ^ 8 = 2 ^ k * 2 ^ (8 - k)) by (rewrite <- Z.pow_add_r by lia; f_equal; lia). pose proof (Z.pow_pos_nonneg 2 k ltac:(lia) ltac:(lia)). pose proof (Z.pow_pos_nonneg 2 (8 - k) ltac:(lia) ltac:(lia)).
  assert (P2 : 2 ^ k = 2 ^ mw * 2 ^ (k - mw)) by (rewrite <- Z.pow_add_r by lia; f_equal; lia). pose proof (Z.pow_pos_nonneg 2 (k - mw) ltac:(lia) ltac:(lia)).
  assert (Hs : tr 8 (c << (k - mw)) = c << (k - mw)). { apply tr_id. unfold word in *. rewrite Z.shiftl_mul_pow2 by lia. nia. }
  rewrite Hs. set (x := c << (k - mw)). assert (Hx : word k x) by (unfold x, word in *; rewrite Z.shiftl_mul_pow2 by lia; nia).
  set (hi := b0 >> k). assert (E0 : b0 = 0 + 2 ^ k * hi). { unfold hi. rewrite Z.shiftr_div_pow2 by lia. pose proof (Z.div_mod b0 (2 ^ k) ltac:(lia)). lia. }
  assert (El : b0 ||| x = x + 2 ^ k * hi). { rewrite E0. replace x with (x + 2 ^ k * 0) at 1 by lia. rewrite lor_dv by (try lia; try exact Hx; unfold word; lia). rewrite Z.lor_0_l, Z.lor_0_r. reflexivity. }
  set (b' := b0 ||| x) in *. assert (Bb' : byte_ok b'). { rewrite El. unfold byte_ok in *. change (2 ^ 8) with 256 in P. unfold word in Hx. rewrite P. apply arith1; try assumption. lia. }
  assert (Eb : msb_first 8 b' = msb_first (8 - k) hi ++ msb_first mw c ++ repeat false (Z.to_nat (k - mw))).
  { rewrite (byte_split b' k) by lia. f_equal.
    - f_equal. rewrite El. apply shr_dv; [lia|exact Hx].
    - assert (M : msb_first k b' = msb_first k x). { rewrite <- msb_mod, El by lia. rewrite Z.mul_comm, Z.mod_add by lia. apply msb_mod. lia. }
      rewrite M. replace k with (mw + (k - mw)) at 1 by lia. rewrite msb_app by lia. f_equal; [f_equal|].
      + unfold x. rewrite Z.shiftr_shiftl_l, Z.sub_diag, Z.shiftl_0_r by lia. reflexivity.
      + apply low_zero; [lia|]. unfold x. rewrite Z.shiftl_mul_pow2 by lia. apply Z.mod_mul. lia. }
  unfold write_chunk. rewrite Hb. fold k b0. fold x b'. rewrite (upd_ok _ _ _ _ Hb). set (d := firstn (char_index s) (pdata s) ++ b' :: skipn (S (char_index s)) (pdata s)).
  set (s1 := {| pdata := d; bits_available_in_char := k; char_index := char_index s; bits_available := bits_available s |}).
  assert (Li : (char_index s < List.length (pdata s))%nat) by (apply nth_error_Some; congruence).
  assert (Ld : List.length d = List.length (pdata s)). { unfold d. rewrite app_length, firstn_length. cbn [List.length]. rewrite skipn_length. lia. }
  assert (W1 : wf s1). { unfold wf, s1, pos, total. cbn [pdata bits_available_in_char char_index bits_available]. rewrite Ld. conj; try lia. unfold d. apply Forall_app. split; [apply Forall_forall; intros z Hz; rewrite Forall_forall in H2; apply H2; rewrite <- (firstn_skipn (char_index s) (pdata s)); apply in_or_app; auto|].
    constructor; [exact Bb'|]. apply Forall_forall; intros z Hz; rewrite Forall_forall in H2; apply H2; rewrite <- (firstn_skipn (S (char_index s)) (pdata s)); apply in_or_app; auto. }
  destruct (wf_step mw s1 W1) as (W2 & P3 & D2); [exact Hm|exact Ha|]. exists (step mw s1). conj; try assumption; [reflexivity|..].
  - unfold clean. intros b2 Hb2 Lt. unfold step in Hb2, Lt |- *. change (bits_available_in_char s1) with k in *. change (char_index s1) with (char_index s) in *. cbn [pdata bits_available_in_char char_index] in Hb2, Lt |- *. destruct (Z.eqb_spec (k - mw) 0); [lia|].
    assert (b2 = b'). { cbn [s1 pdata] in Hb2. unfold d in Hb2. rewrite nth_error_app2 in Hb2 by (rewrite firstn_length; lia). rewrite firstn_length in Hb2. replace (char_index s - Nat.min (char_index s) (List.length (pdata s)))%nat with 0%nat in Hb2 by lia. cbn in Hb2. congruence. }
    subst b2. rewrite El. unfold x. rewrite Z.shiftl_mul_pow2 by lia. rewrite P2. replace (c * 2 ^ (k - mw) + 2 ^ mw * 2 ^ (k - mw) * hi) with ((c + 2 ^ mw * hi) * 2 ^ (k - mw)) by ring. apply Z.mod_mul. lia.
  - rewrite D2. unfold s1. cbn [pdata]. rewrite Ld. reflexivity.
  - rewrite D2. unfold s1. cbn [pdata]. unfold put_bits, d. cbv zeta. rewrite (split_at _ _ _ Hb) at 3 4. set (pre := firstn (char_index s) (pdata s)). set (post := skipn (S (char_index s)) (pdata s)).
    assert (Lp : List.length pre = char_index s) by (unfold pre; rewrite firstn_length; lia). fold k.
    rewrite !bits_of_app. change (bits_of (b' :: post)) with (msb_first 8 b' ++ bits_of post). change (bits_of (b :: post)) with (msb_first 8 b ++ bits_of post).
    rewrite firstn_app, bits_of_length, firstn_all2, <- app_assoc by (rewrite bits_of_length; lia). f_equal. rewrite Eb, <- !app_assoc. rewrite msb_length.
    replace (8 * char_index s + Z.to_nat (8 - k) - 8 * List.length pre)%nat with (Z.to_nat (8 - k)) by lia. f_equal.
    + destruct (Z.eq_dec k 8) as [E8|E8]; [rewrite E8; reflexivity|]. unfold hi, b0. destruct (Z.eqb_spec k 8); [contradiction|]. rewrite (byte_split b k) by lia. rewrite <- app_assoc, firstn_app, msb_length, Nat.sub_diag. cbn [firstn]. rewrite app_nil_r, firstn_all2 by (rewrite msb_length; lia). reflexivity.
    + f_equal. unfold pad. replace ((8 - (8 * char_index s + Z.to_nat (8 - k) + Z.to_nat mw) mod 8) mod 8)%nat with (Z.to_nat (k - mw)) by lia. f_equal.
      rewrite app_assoc, skipn_app, skipn_all2, app_nil_l by (rewrite app_length, msb_length, bits_of_length; lia). rewrite app_length, msb_length, bits_of_length. replace (_ - _)%nat with 0%nat by lia. reflexivity.
Qed.

Lemma total_8 s : exists k, (List.length (bits_of (pdata s)) = 8 * k)%nat. Proof. exists (List.length (pdata s)). apply bits_of_length. Qed.
Lemma chunk_eq w v n' mw k : 8 <= w -> 0 <= n' -> 0 < mw <= k -> k <= 8 -> n' + mw <= w ->
  tr 8 (tr w (((v &&& tr w (((1 << mw) - 1) << n')) >> n') << (k - mw))) = tr 8 (((v >> n') mod 2 ^ mw) << (k - mw)).
Proof.
  intros Hw Hn Hm Hk H. assert (E : (v &&& tr w (((1 << mw) - 1) << n')) >> n' = (v >> n') mod 2 ^ mw).
  { apply Z.bits_inj'. intros i Hi. rewrite Z.shiftr_spec, Z.land_spec, testbit_tr by lia. rewrite Z.testbit_mod_pow2, Z.shiftr_spec by lia. rewrite Z.shiftl_spec by lia.
    replace (i + n' - n') with i by lia. rewrite Z.shiftl_1_l. replace (2 ^ mw - 1) with (Z.ones mw) by (rewrite Z.ones_equiv; lia). rewrite Z.testbit_ones_nonneg by lia.
    destruct (Z.ltb_spec i mw), (Z.ltb_spec (i + n') w); try lia; rewrite ?andb_true_r, ?andb_false_r; reflexivity. }
  rewrite E. f_equal. apply tr_id. pose proof (Z.mod_pos_bound (v >> n') (2 ^ mw) ltac:(apply Z.pow_pos_nonneg; lia)). unfold word. rewrite Z.shiftl_mul_pow2 by lia.
  assert (2 ^ mw * 2 ^ (k - mw) = 2 ^ k) by (rewrite <- Z.pow_add_r by lia; f_equal; lia). assert (2 ^ k <= 2 ^ w) by (apply Z.pow_le_mono_r; lia). pose proof (Z.pow_pos_nonneg 2 (k - mw) ltac:(lia) ltac:(lia)). nia.
Qed.
Lemma put_loop_ok w v : 8 <= w -> forall fuel n s, wf s -> clean s -> 0 <= n <= w -> n <= Z.of_nat fuel -> n <= bits_available s ->
  exists s', put_loop w fuel v n s = Some s' /\ wf s' /\ clean s' /\ pos s' = (pos s + Z.to_nat n)%nat /\ total s' = total s /\
    bits_of (pdata s') = put_bits (bits_of (pdata s)) (pos s) (msb_first n v).
Proof.
  intros Hw. induction fuel as [|fuel IH]; intros n s W C Hn Hf Ha.
  - replace n with 0 by lia. exists s. cbn [put_loop]. change (0 =? 0) with true. cbv iota. conj; try assumption; try lia; try reflexivity. change (msb_first 0 v) with (@nil bool). symmetry. apply clean_put_nil; assumption.
  - cbn [put_loop]. destruct (Z.eqb_spec n 0) as [->|N0].
    { exists s. conj; try assumption; try lia; try reflexivity. change (msb_first 0 v) with (@nil bool). symmetry. apply clean_put_nil; assumption. }
    pose proof W as (H1 & H2 & H3 & H4 & H5). set (mw := Z.min n (bits_available_in_char s)). set (n' := n - mw). cbv zeta. assert (B : 0 < mw <= bits_available_in_char s /\ mw <= n) by (unfold mw; lia).
    destruct (Z.leb_spec w n'); [unfold n', mw in *; lia|]. rewrite (chunk_eq w v n' mw (bits_available_in_char s)) by (unfold n' in *; lia).
    assert (Wc : word mw ((v >> n') mod 2 ^ mw)) by (apply Z.mod_pos_bound; apply Z.pow_pos_nonneg; lia).
    destruct (write_chunk_ok s mw ((v >> n') mod 2 ^ mw) W C) as (s1 & E1 & W1 & C1 & P1 & T1 & B1); [lia|lia|exact Wc|]. rewrite E1.
    destruct (IH n' s1 W1 C1) as (s2 & E2 & W2 & C2 & P2 & T2 & B2); [unfold n'; lia|unfold n'; lia| |].
    { destruct W1 as (_ & _ & L1 & A1 & _). rewrite A1, P1, T1. unfold n'. lia. }
    exists s2. conj; try assumption; [unfold n' in *; lia|congruence|]. rewrite B2, B1, P1. rewrite <- (msb_length mw ((v >> n') mod 2 ^ mw)).
    rewrite put_bits_app; [|apply total_8|rewrite !msb_length, bits_of_length; unfold n', total in *; lia]. f_equal. replace n with (mw + n') by (unfold n'; lia). rewrite msb_app by (unfold n'; lia). f_equal. apply msb_mod. lia.
Qed.

(** ** reading *)
Lemma get_chunk_ok s n : wf s -> 0 < n <= bits_available_in_char s -> n <= bits_available s ->
  exists c, get_chunk n s = Some (c, step n s) /\ word n c /\ msb_first n c = firstn (Z.to_nat n) (skipn (pos s) (bits_of (pdata s))).
Proof.
  intros W Hn Ha. pose proof W as (H1 & H2 & H3 & H4 & H5). unfold pos, total in *. set (k := bits_available_in_char s) in *.
  destruct (nth_error (pdata s) (char_index s)) as [b|] eqn:Hb. 2: { apply nth_error_None in Hb. lia. }
  assert (Bb : byte_ok b) by (rewrite Forall_forall in H2; apply H2; eapply nth_error_In; exact Hb).
  unfold get_chunk. rewrite Hb. fold k. assert (Es : tr 8 (b >> (k - n)) = b >> (k - n)). { apply tr_id. pose proof (proj1 (byte_word b) Bb) as Wb. unfold word in *. rewrite Z.shiftr_div_pow2 by lia. pose proof (Z.pow_pos_nonneg 2 (k - n) ltac:(lia) ltac:(lia)). split; [apply Z.div_pos; lia|]. apply Z.div_lt_upper_bound; nia. }
  rewrite Es. assert (Em : (b >> (k - n)) &&& (if n =? 8 then 255 else tr 8 ((1 << n) - 1)) = (b >> (k - n)) mod 2 ^ n).
  { rewrite <- Z.land_ones by lia. f_equal. rewrite Z.ones_equiv, Z.shiftl_1_l. destruct (Z.eqb_spec n 8) as [->|N8]; [reflexivity|]. rewrite tr_id; [reflexivity|]. assert (2 ^ n <= 2 ^ 8) by (apply Z.pow_le_mono_r; lia). pose proof (Z.pow_pos_nonneg 2 n ltac:(lia) ltac:(lia)). unfold word. lia. }
  rewrite Em. exists ((b >> (k - n)) mod 2 ^ n). conj; [reflexivity|apply Z.mod_pos_bound; apply Z.pow_pos_nonneg; lia|]. rewrite msb_mod by lia.
  rewrite (split_at _ _ _ Hb) at 1. assert (Li : (char_index s < List.length (pdata s))%nat) by (apply nth_error_Some; congruence). set (pre := firstn (char_index s) (pdata s)). set (post := skipn (S (char_index s)) (pdata s)).
  assert (Lp : List.length pre = char_index s) by (unfold pre; rewrite firstn_length; lia).
  rewrite bits_of_app. change (bits_of (b :: post)) with (msb_first 8 b ++ bits_of post). rewrite skipn_app, skipn_all2, app_nil_l by (rewrite bits_of_length; lia). rewrite bits_of_length.
  replace (8 * char_index s + Z.to_nat (8 - k) - 8 * List.length pre)%nat with (Z.to_nat (8 - k)) by lia.
  rewrite (byte_split b k) by lia. rewrite <- app_assoc, skipn_app, skipn_all2, app_nil_l by (rewrite msb_length; lia). rewrite msb_length, Nat.sub_diag. cbn [skipn].
  replace k with (n + (k - n)) at 2 by lia. rewrite msb_app by lia. rewrite <- app_assoc, firstn_app, msb_length, Nat.sub_diag. cbn [firstn]. rewrite app_nil_r, firstn_all2 by (rewrite msb_length; lia). reflexivity.
Qed.
Lemma get_loop_ok w : 8 <= w <= 64 -> forall fuel n s acc, wf s -> 0 <= n <= w -> n <= Z.of_nat fuel -> n <= bits_available s ->
  exists r s', get_loop w fuel acc n s = Some (acc ||| r, s') /\ wf s' /\ word n r /\ msb_first n r = firstn (Z.to_nat n) (skipn (pos s) (bits_of (pdata s))) /\
    pos s' = (pos s + Z.to_nat n)%nat /\ pdata s' = pdata s.
Proof.
  intros Hw. induction fuel as [|fuel IH]; intros n s acc W Hn Hf Ha.
  - replace n with 0 by lia. exists 0, s. cbn [get_loop]. change (0 =? 0) with true. cbv iota. rewrite Z.lor_0_r. conj; try assumption; try lia; try reflexivity. unfold word. change (2 ^ 0) with 1. lia.
  - cbn [get_loop]. destruct (Z.eqb_spec n 0) as [->|N0].
    { exists 0, s. rewrite Z.lor_0_r. conj; try assumption; try lia; try reflexivity. unfold word. change (2 ^ 0) with 1. lia. }
    pose proof W as (H1 & H2 & H3 & H4 & H5). set (mw := Z.min n (bits_available_in_char s)). assert (B : 0 < mw <= bits_available_in_char s /\ mw <= n) by (unfold mw; lia). cbv zeta.
    destruct (get_chunk_ok s mw W) as (c & E1 & Wc & M1); [lia|lia|]. rewrite E1. set (n' := n - mw). destruct (wf_step mw s W) as (W1 & P1 & D1); [lia|lia|].
    destruct (Z.leb_spec (Z.max w 32) n'); [unfold n' in *; lia|].
    assert (Pn : 2 ^ n = 2 ^ mw * 2 ^ n') by (rewrite <- Z.pow_add_r by (unfold n'; lia); f_equal; unfold n'; lia). pose proof (Z.pow_pos_nonneg 2 n' ltac:(lia) ltac:(unfold n'; lia)).
    assert (Wn : word n (c << n')). { unfold word in *. rewrite Z.shiftl_mul_pow2 by (unfold n'; lia). nia. }
    assert (Et : tr w (c << n') = c << n'). { apply tr_id. unfold word in *. assert (2 ^ n <= 2 ^ w) by (apply Z.pow_le_mono_r; lia). lia. }
    rewrite Et. destruct (IH n' (step mw s) (acc ||| c << n') W1) as (r & s2 & E2 & W2 & Wr & M2 & P2 & D2); [unfold n'; lia|unfold n'; lia| |].
    { destruct W1 as (_ & _ & L1 & A1 & _). rewrite A1. unfold total, n' in *. rewrite D1, P1. lia. }
    exists ((c << n') ||| r), s2. rewrite E2. rewrite Z.lor_assoc.
    assert (El : (c << n') ||| r = r + 2 ^ n' * c). { rewrite Z.shiftl_mul_pow2 by (unfold n'; lia). replace (c * 2 ^ n') with (0 + 2 ^ n' * c) by lia. replace r with (r + 2 ^ n' * 0) at 1 by lia. rewrite lor_dv by (try exact Wr; unfold word, n' in *; lia). rewrite Z.lor_0_l, Z.lor_0_r. reflexivity. }
    conj; try assumption; try reflexivity.
    + rewrite El. unfold word in *. nia.
    + replace n with (mw + n') at 1 by (unfold n'; lia). rewrite msb_app by (unfold n'; lia). rewrite El, shr_dv by (try exact Wr; unfold n'; lia). rewrite M1.
      assert (M : msb_first n' (r + 2 ^ n' * c) = msb_first n' r). { rewrite <- msb_mod by (unfold n'; lia). rewrite Z.mul_comm, Z.mod_add by lia. apply msb_mod. unfold n'; lia. }
      rewrite M, M2, D1, P1. replace (Z.to_nat n) with (Z.to_nat mw + Z.to_nat n')%nat by (unfold n'; lia). set (T := skipn (pos s) (bits_of (pdata s))).
      rewrite Nat.add_comm, <- skipn_skipn'. fold T. rewrite <- (firstn_skipn (Z.to_nat mw) T) at 3. rewrite firstn_app.
      assert (Lt : (Z.to_nat n <= List.length T)%nat) by (unfold T; rewrite skipn_length, bits_of_length; unfold total in *; lia).
      rewrite firstn_firstn. replace (Nat.min _ (Z.to_nat mw)) with (Z.to_nat mw) by lia. f_equal. f_equal. rewrite firstn_length. unfold n' in *. lia.
    + unfold n' in *. lia.
Qed.

Lemma get_bit_ok s : wf s -> 0 < bits_available s -> exists b, get_bit s = Some (b, step 1 s) /\ [b] = firstn 1 (skipn (pos s) (bits_of (pdata s))).
Proof.
  intros W Ha. pose proof W as (H1 & H2 & H3 & H4 & H5). destruct (get_chunk_ok s 1 W) as (c & E & Wc & M); [lia|lia|]. unfold get_chunk in E. unfold get_bit.
  destruct (nth_error (pdata s) (char_index s)) as [b|] eqn:Hb; [|discriminate]. set (k := bits_available_in_char s) in *. exists (negb ((b &&& (1 << (k - 1))) =? 0)). split; [reflexivity|].
  change (Z.to_nat 1) with 1%nat in M. rewrite <- M, msb_1. f_equal. injection E as <-. rewrite Z.land_spec, testbit_tr by lia. change (0 <? 8) with true. cbv iota. rewrite Z.shiftr_spec, Z.add_0_l by lia.
  change (Z.testbit (if 1 =? 8 then 255 else tr 8 ((1 << 1) - 1)) 0) with true. rewrite andb_true_r, Z.shiftl_1_l.
  destruct (Z.testbit b (k - 1)) eqn:T.
  - destruct (Z.eqb_spec (b &&& 2 ^ (k - 1)) 0) as [E0|]; [|reflexivity]. assert (F : Z.testbit (b &&& 2 ^ (k - 1)) (k - 1) = true) by (rewrite Z.land_spec, T, Z.pow2_bits_true by lia; reflexivity). rewrite E0, Z.bits_0 in F. discriminate.
  - replace (b &&& 2 ^ (k - 1)) with 0; [reflexivity|]. symmetry. apply Z.bits_inj'. intros i Hi. rewrite Z.land_spec, Z.bits_0, Z.pow2_bits_eqb by lia. destruct (Z.eqb_spec (k - 1) i) as [<-|]; [rewrite T; reflexivity|apply andb_false_r].
Qed.
