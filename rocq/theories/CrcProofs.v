(** * Table driven = bit serial *)
From Coq Require Import List Arith Lia Bool ZArith.
From Verif Require Import Util BinaryModel BinarySpec BitLib BinaryProofs BinaryProofs2 BinaryProofs3 BinaryProofs4 CrcModel CrcSpec.
Import ListNotations.
Local Open Scope Z_scope.

Section Reg.
  Variables (w poly : Z).
  Hypothesis Hw : width w.
  Hypothesis Hp : unsigned w poly.
  Let Wp : 0 < w := width_pos w Hw.

  (** the register step as a linear map *)
  Definition P (e : Z) : Z := tr w (e << 1) ^^^ (if Z.testbit e (w - 1) then poly else 0).
  Definition R (e : Z) : Z := (e >> 1) ^^^ (if Z.testbit e 0 then reverse_bits w poly else 0).
  Lemma word_if (b : bool) x : word w x -> word w (if b then x else 0).
  Proof. intros H. destruct b; [exact H|]. split; [lia|apply Z.pow_pos_nonneg; lia]. Qed.
  Lemma rp_word : word w (reverse_bits w poly). Proof. apply reverse_bits_word. exact Hw. Qed.
  Lemma P_word e : word w (P e). Proof. apply word_lxor; [apply word_tr; lia|apply word_if; exact Hp]. Qed.
  Lemma R_word e : word w e -> word w (R e). Proof. intros H. apply word_lxor; [apply word_shr; [lia|exact H]|apply word_if; exact rp_word]. Qed.
  Lemma lxor4 a b c d : (a ^^^ b) ^^^ (c ^^^ d) = (a ^^^ c) ^^^ (b ^^^ d).
  Proof. apply Z.bits_inj'. intros i Hi. rewrite !Z.lxor_spec. destruct (Z.testbit a i), (Z.testbit b i), (Z.testbit c i), (Z.testbit d i); reflexivity. Qed.
  Lemma lin_sel k c : lin w (fun e => if Z.testbit e k then c else 0).
  Proof. intros a b _ _. rewrite Z.lxor_spec. destruct (Z.testbit a k), (Z.testbit b k); cbn; rewrite ?Z.lxor_nilpotent, ?Z.lxor_0_r, ?Z.lxor_0_l; reflexivity. Qed.
  Lemma P_lin : lin w P.
  Proof. apply lin_lxor; [apply lin_tr; [lia|apply lin_shl; [lia|apply lin_id]]|apply lin_sel]. Qed.
  Lemma R_lin : lin w R.
  Proof. apply lin_lxor; [apply lin_shr; [lia|apply lin_id]|apply lin_sel]. Qed.
  Lemma iter_word f n e : (forall e, word w e -> word w (f e)) -> word w e -> word w (Nat.iter n f e).
  Proof. intros H He. induction n; cbn; auto. Qed.
  Lemma iter_lin f n : (forall e, word w e -> word w (f e)) -> lin w f -> lin w (Nat.iter n f).
  Proof.
    intros H L. induction n as [|n IH]; [apply lin_id|]. apply (lin_comp w w f (Nat.iter n f)); auto. intros. apply iter_word; assumption.
  Qed.
  Lemma iter_S f (n : nat) (e : Z) : Nat.iter (S n) f e = Nat.iter n f (f e).
  Proof. induction n as [|n IH]; [reflexivity|]. cbn in *. rewrite IH. reflexivity. Qed.

  (** the code's partial entries *)
  Lemma partial_P q e : Accumulator_Bits q = w -> Polynomial q = poly -> Reflect q = false -> word w e -> crc_partial_table_entry q e = P e.
  Proof.
    intros E1 E2 E3 He. unfold crc_partial_table_entry, P. rewrite E1, E2, E3. rewrite Z.shiftl_1_l.
    replace ((e &&& 2 ^ (w - 1)) =? 0) with (negb (Z.testbit e (w - 1))).
    - rewrite negb_involutive. destruct (Z.testbit e (w - 1)).
      + apply Z.bits_inj'. intros i Hi. rewrite Z.lxor_spec, !testbit_tr, Z.lxor_spec by lia. destruct (Z.ltb_spec i w); [reflexivity|]. rewrite (word_high w poly) by (exact Hp || lia). reflexivity.
      + rewrite Z.lxor_0_r. reflexivity.
    - symmetry. destruct (Z.testbit e (w - 1)) eqn:B; cbn [negb].
      + apply Z.eqb_neq. intros Q. assert (T : Z.testbit (e &&& 2 ^ (w - 1)) (w - 1) = true) by (rewrite Z.land_spec, B, Z.pow2_bits_true by lia; reflexivity). rewrite Q, Z.bits_0 in T. discriminate.
      + apply Z.eqb_eq. apply Z.bits_inj'. intros i Hi. rewrite Z.land_spec, Z.pow2_bits_eqb, Z.bits_0 by lia. destruct (Z.eqb_spec (w - 1) i) as [<-|]; [rewrite B; reflexivity|apply andb_false_r].
  Qed.
  Lemma partial_R q e : Accumulator_Bits q = w -> Polynomial q = poly -> Reflect q = true -> word w e -> crc_partial_table_entry q e = R e.
  Proof.
    intros E1 E2 E3 He. unfold crc_partial_table_entry, R. rewrite E1, E2, E3. rewrite land1, negb_involutive. unfold accr. destruct (Z.testbit e 0).
    - apply tr_id. apply word_lxor; [apply word_shr; [lia|exact He]|exact rp_word].
    - rewrite Z.lxor_0_r. apply tr_id. apply word_shr; [lia|exact He].
  Qed.
  Lemma iter_ext f g n e : (forall e, word w e -> f e = g e) -> (forall e, word w e -> word w (g e)) -> word w e -> Nat.iter n f e = Nat.iter n g e.
  Proof.
    intros H1 H2 He. induction n as [|n IH]; [reflexivity|]. change (f (Nat.iter n f e) = g (Nat.iter n g e)). rewrite IH. apply H1. apply iter_word; assumption.
  Qed.

  (** shifting up while the top bits are clear *)
  Lemma P_small e : 0 <= e < 2 ^ (w - 1) -> P e = 2 * e.
  Proof.
    intros He. unfold P. rewrite (word_high (w - 1) e) by (unfold word; lia). rewrite Z.lxor_0_r. rewrite Z.shiftl_mul_pow2 by lia. change (2 ^ 1) with 2.
    rewrite Z.mul_comm. apply tr_id. assert (E : 2 ^ w = 2 * 2 ^ (w - 1)) by (rewrite <- Z.pow_succ_r by lia; f_equal; lia). unfold word. lia.
  Qed.
  Lemma Pn_small (n : nat) : forall e, Z.of_nat n <= w -> 0 <= e < 2 ^ (w - Z.of_nat n) -> Nat.iter n P e = e * 2 ^ Z.of_nat n.
  Proof.
    induction n as [|n IH]; intros e Hn He; [cbn; lia|]. rewrite iter_S. rewrite P_small.
    - assert (E : 2 ^ (w - Z.of_nat n) = 2 * 2 ^ (w - Z.of_nat (S n))) by (rewrite <- Z.pow_succ_r by lia; f_equal; lia). rewrite IH by lia.
      rewrite Nat2Z.inj_succ, Z.pow_succ_r by lia. lia.
    - assert (2 ^ (w - Z.of_nat (S n)) <= 2 ^ (w - 1)) by (apply Z.pow_le_mono_r; lia). lia.
  Qed.
  Lemma R_even e : 0 <= e -> R (2 * e) = e.
  Proof.
    intros He. unfold R. rewrite Z.testbit_even_0, Z.lxor_0_r. rewrite Z.shiftr_div_pow2 by lia. change (2 ^ 1) with 2. rewrite Z.mul_comm. apply Z.div_mul. lia.
  Qed.
  Lemma Rn_even (n : nat) : forall e, 0 <= e -> Nat.iter n R (e * 2 ^ Z.of_nat n) = e.
  Proof.
    induction n as [|n IH]; intros e He; [cbn; lia|]. rewrite iter_S. rewrite Nat2Z.inj_succ, Z.pow_succ_r by lia.
    replace (e * (2 * 2 ^ Z.of_nat n)) with (2 * (e * 2 ^ Z.of_nat n)) by lia. rewrite R_even by (pose proof (Z.pow_pos_nonneg 2 (Z.of_nat n) ltac:(lia) ltac:(lia)); nia). apply IH. exact He.
  Qed.

  (** the table step *)
  Lemma chunk_P (c : nat) crc v : Z.of_nat c <= w -> word w crc -> word (Z.of_nat c) v ->
    tr w (crc << Z.of_nat c) ^^^ Nat.iter c P (((crc >> (w - Z.of_nat c)) ^^^ v) << (w - Z.of_nat c)) = Nat.iter c P (crc ^^^ (v << (w - Z.of_nat c))).
  Proof.
    intros Hc Hcrc Hv. set (k := Z.of_nat c) in *. set (hi := crc >> (w - k)) in *. set (lo := crc mod 2 ^ (w - k)).
    assert (Wl : forall x, word k x -> word w (x << (w - k))).
    { intros x Hx. unfold word in *. rewrite Z.shiftl_mul_pow2 by lia. replace (2 ^ w) with (2 ^ k * 2 ^ (w - k)) by (rewrite <- Z.pow_add_r by lia; f_equal; lia).
      pose proof (Z.pow_pos_nonneg 2 (w - k) ltac:(lia) ltac:(lia)). nia. }
    assert (Hhi : word k hi).
    { unfold hi, word in *. rewrite Z.shiftr_div_pow2 by lia. split; [apply Z.div_pos; [lia|apply Z.pow_pos_nonneg; lia]|]. apply Z.div_lt_upper_bound; [apply Z.pow_pos_nonneg; lia|].
      rewrite <- Z.pow_add_r by lia. replace (w - k + k) with w by lia. lia. }
    assert (Hlo : word (w - k) lo) by (apply word_mod; lia).
    assert (Hlow : word w lo) by (unfold word in *; assert (2 ^ (w - k) <= 2 ^ w) by (apply Z.pow_le_mono_r; lia); lia).
    assert (Ec : crc = (hi << (w - k)) ^^^ lo).
    { rewrite (split2 (w - k) crc) at 1 by lia. fold lo hi. apply Z.bits_inj'. intros i Hi. rewrite testbit_dv by (lia || assumption). rewrite Z.lxor_spec, Z.shiftl_spec by lia.
      destruct (Z.ltb_spec i (w - k)); [rewrite (Z.testbit_neg_r hi) by lia; destruct (Z.testbit lo i); reflexivity|]. rewrite (word_high (w - k) lo) by assumption. rewrite xorb_false_r. reflexivity. }
    assert (Es : tr w (crc << k) = Nat.iter c P lo).
    { rewrite Pn_small by (fold k; unfold word in Hlo; lia). fold k. unfold tr. rewrite (split2 (w - k) crc) at 1 by lia. fold lo hi. rewrite Z.shiftl_mul_pow2 by lia.
      replace ((lo + 2 ^ (w - k) * hi) * 2 ^ k) with (lo * 2 ^ k + hi * 2 ^ w) by (replace (2 ^ w) with (2 ^ (w - k) * 2 ^ k) by (rewrite <- Z.pow_add_r by lia; f_equal; lia); lia).
      rewrite Z.mod_add by (apply Z.pow_nonzero; lia). apply Z.mod_small. unfold word in Hlo. replace (2 ^ w) with (2 ^ (w - k) * 2 ^ k) by (rewrite <- Z.pow_add_r by lia; f_equal; lia).
      pose proof (Z.pow_pos_nonneg 2 k ltac:(lia) ltac:(lia)). nia. }
    rewrite Es. rewrite <- (iter_lin P c (fun e _ => P_word e) P_lin lo) by (try assumption; apply Wl, word_lxor; assumption). f_equal.
    rewrite Z.shiftl_lxor. clearbody hi lo. subst crc. apply Z.bits_inj'. intros i Hi. rewrite !Z.lxor_spec. destruct (Z.testbit lo i), (Z.testbit (hi << (w - k)) i), (Z.testbit (v << (w - k)) i); reflexivity.
  Qed.
  Lemma chunk_R (c : nat) crc v : Z.of_nat c <= w -> word w crc -> word (Z.of_nat c) v ->
    (crc >> Z.of_nat c) ^^^ Nat.iter c R ((crc mod 2 ^ Z.of_nat c) ^^^ v) = Nat.iter c R (crc ^^^ v).
  Proof.
    intros Hc Hcrc Hv. set (k := Z.of_nat c) in *. set (lo := crc mod 2 ^ k) in *. set (hi := crc >> k).
    assert (Hlo : word k lo) by (apply word_mod; lia). assert (Up : forall x, word k x -> word w x) by (unfold word; intros; assert (2 ^ k <= 2 ^ w) by (apply Z.pow_le_mono_r; lia); lia).
    assert (Hhi : 0 <= hi) by (apply Z.shiftr_nonneg; apply Hcrc).
    assert (Eh : Nat.iter c R (hi * 2 ^ k) = hi) by (apply Rn_even; exact Hhi).
    assert (Ec : crc = lo ^^^ (hi * 2 ^ k)).
    { rewrite (split2 k crc) at 1 by lia. fold lo hi. apply Z.bits_inj'. intros i Hi. rewrite testbit_dv by (lia || assumption). rewrite <- Z.shiftl_mul_pow2 by lia. rewrite Z.lxor_spec, Z.shiftl_spec by lia.
      destruct (Z.ltb_spec i k); [rewrite (Z.testbit_neg_r hi) by lia; rewrite xorb_false_r; reflexivity|]. rewrite (word_high k lo) by assumption. rewrite xorb_false_l. reflexivity. }
    assert (Whi : word w (hi * 2 ^ k)).
    { split; [pose proof (Z.pow_pos_nonneg 2 k ltac:(lia) ltac:(lia)); nia|]. destruct Hcrc as [_ H]. rewrite (split2 k crc) in H by lia. fold lo hi in H. destruct Hlo. lia. }
    rewrite <- Eh at 1. rewrite <- (iter_lin R c R_word R_lin (hi * 2 ^ k)) by (try assumption; apply word_lxor; apply Up; assumption). f_equal.
    clearbody hi lo. subst crc. apply Z.bits_inj'. intros i Hi. rewrite !Z.lxor_spec. destruct (Z.testbit lo i), (Z.testbit (hi * 2 ^ k) i), (Z.testbit v i); reflexivity.
  Qed.

  (** bits through the register = P applied after adding them at the top *)
  Definition bz (b : bool) : Z := if b then 1 else 0.
  Lemma crc_bit_P reg b : word w reg -> crc_bit w poly reg b = P (reg ^^^ (bz b << (w - 1))).
  Proof.
    intros Hr. unfold crc_bit, P, bit. rewrite Z.lxor_spec, Z.shiftl_spec by lia. replace (w - 1 - (w - 1)) with 0 by lia. replace (Z.testbit (bz b) 0) with b by (destruct b; reflexivity).
    replace (tr w ((reg ^^^ (bz b << (w - 1))) << 1)) with ((2 * reg) mod 2 ^ w).
    - destruct (xorb (Z.testbit reg (w - 1)) b); [reflexivity|rewrite Z.lxor_0_r; reflexivity].
    - rewrite Z.shiftl_lxor, Z.shiftl_shiftl by lia. replace (w - 1 + 1) with w by lia. change ((2 * reg) mod 2 ^ w) with (tr w (2 * reg)).
      replace (2 * reg) with (reg << 1) by (rewrite Z.shiftl_mul_pow2 by lia; lia). apply Z.bits_inj'. intros i Hi. rewrite !testbit_tr, Z.lxor_spec by lia. destruct (Z.ltb_spec i w); [|reflexivity].
      rewrite (Z.shiftl_spec (bz b)) by lia. rewrite (Z.testbit_neg_r (bz b)) by lia. rewrite xorb_false_r. reflexivity.
  Qed.
  Lemma crc_bit_word reg b : word w (crc_bit w poly reg b).
  Proof. unfold crc_bit. assert (word w ((2 * reg) mod 2 ^ w)) by (apply word_mod; lia). destruct (xorb _ _); [apply word_lxor; assumption|assumption]. Qed.
  (** c bits of v, most significant first *)
  Definition top_bits (c : nat) (v : Z) : list bool := map (fun i => Z.testbit v (Z.of_nat (c - 1 - i))) (seq 0 c).
  Lemma top_bits_S c v : top_bits (S c) v = Z.testbit v (Z.of_nat c) :: top_bits c v.
  Proof.
    unfold top_bits. cbn [seq map]. f_equal; [f_equal; lia|]. rewrite <- seq_shift, map_map. apply map_ext_in. intros i Hi. apply in_seq in Hi. f_equal. lia.
  Qed.
  Lemma bits_P (c : nat) : forall reg v, Z.of_nat c <= w -> word w reg -> word (Z.of_nat c) v ->
    fold_left (crc_bit w poly) (top_bits c v) reg = Nat.iter c P (reg ^^^ (v << (w - Z.of_nat c))).
  Proof.
    induction c as [|c IH]; intros reg v Hc Hr Hv.
    - assert (v = 0) by (destruct Hv; cbn in *; lia). subst. cbn. rewrite Z.shiftl_0_l, Z.lxor_0_r. reflexivity.
    - rewrite top_bits_S. cbn [fold_left]. rewrite crc_bit_P by exact Hr. set (b := Z.testbit v (Z.of_nat c)).
      pose proof (top_bit_split c v Hv) as E. set (u := v mod 2 ^ Z.of_nat c) in *. assert (Hu : word (Z.of_nat c) u) by (apply word_mod; lia).
      assert (Wb : word w (bz b << (w - 1))).
      { rewrite Z.shiftl_mul_pow2 by lia. assert (2 ^ (w - 1) < 2 ^ w) by (apply Z.pow_lt_mono_r; lia). pose proof (Z.pow_pos_nonneg 2 (w - 1) ltac:(lia) ltac:(lia)). unfold word, bz. destruct b; lia. }
      replace (top_bits c v) with (top_bits c u).
      2: { unfold top_bits. apply map_ext_in. intros i Hi. apply in_seq in Hi. unfold u. apply Z.mod_pow2_bits_low. lia. }
      rewrite IH by (try assumption; try lia; apply P_word). rewrite iter_S. f_equal. rewrite E. fold b. replace (if b then 2 ^ Z.of_nat c else 0) with (bz b << Z.of_nat c) by (rewrite Z.shiftl_mul_pow2 by lia; unfold bz; destruct b; lia).
      rewrite Z.shiftl_lxor, Z.shiftl_shiftl by lia. replace (Z.of_nat c + (w - Z.of_nat (S c))) with (w - 1) by lia.
      assert (Wu : word w (u << (w - Z.of_nat (S c))) /\ u << (w - Z.of_nat (S c)) < 2 ^ (w - 1)).
      { rewrite Z.shiftl_mul_pow2 by lia. unfold word in *. pose proof (Z.pow_pos_nonneg 2 (w - Z.of_nat (S c)) ltac:(lia) ltac:(lia)).
        assert (2 ^ (w - 1) = 2 ^ Z.of_nat c * 2 ^ (w - Z.of_nat (S c))) by (rewrite <- Z.pow_add_r by lia; f_equal; lia). assert (2 ^ (w - 1) < 2 ^ w) by (apply Z.pow_lt_mono_r; lia). nia. }
      destruct Wu as [Wu Bu]. rewrite (Z.lxor_comm (u << _)), <- Z.lxor_assoc. rewrite (P_lin (reg ^^^ (bz b << (w - 1)))) by (try assumption; apply word_lxor; assumption). f_equal.
      rewrite P_small by (destruct Wu; lia). rewrite !Z.shiftl_mul_pow2 by lia. replace (w - Z.of_nat c) with (Z.succ (w - Z.of_nat (S c))) by lia. rewrite Z.pow_succ_r by lia. lia.
  Qed.

  (** reflection *)
  Let rv := reverse_bits w.
  Lemma rv_word x : word w (rv x). Proof. apply reverse_bits_word. exact Hw. Qed.
  Lemma rv_bit x i : word w x -> 0 <= i < w -> Z.testbit (rv x) i = Z.testbit x (w - 1 - i).
  Proof. intros Hx Hi. apply (reverse_bits_bit w x Hw Hx i Hi). Qed.
  Lemma rv_lin : lin w rv.
  Proof.
    intros a b Ha Hb. apply (word_ext w); [apply rv_word|apply word_lxor; apply rv_word|]. intros i Hi. rewrite Z.lxor_spec, !rv_bit, Z.lxor_spec by (try assumption; apply word_lxor; assumption). reflexivity.
  Qed.
  Lemma rv_P x : word w x -> rv (P x) = R (rv x).
  Proof.
    intros Hx. unfold P, R. rewrite rv_bit by (assumption || lia). rewrite Z.sub_0_r. rewrite rv_lin by (try (apply word_tr; lia); apply word_if; exact Hp). f_equal.
    - apply (word_ext w); [apply rv_word|apply word_shr; [lia|apply rv_word]|]. intros i Hi. rewrite rv_bit by (try (apply word_tr; lia); lia). rewrite testbit_tr by lia. destruct (Z.ltb_spec (w - 1 - i) w); [|lia].
      rewrite Z.shiftl_spec, Z.shiftr_spec by lia. destruct (Z.lt_ge_cases (i + 1) w).
      + rewrite rv_bit by (assumption || lia). f_equal. lia.
      + rewrite (word_high w (rv x)) by (apply rv_word || lia). apply Z.testbit_neg_r. lia.
    - destruct (Z.testbit x (w - 1)); [reflexivity|]. apply (lin_0 w rv); [lia|apply rv_lin].
  Qed.
  Lemma rv_bz b : rv (bz b << (w - 1)) = bz b.
  Proof.
    assert (W1 : word w (bz b)) by (unfold bz, word; assert (2 ^ 1 <= 2 ^ w) by (apply Z.pow_le_mono_r; lia); destruct b; lia).
    assert (W2 : word w (bz b << (w - 1))).
    { rewrite Z.shiftl_mul_pow2 by lia. assert (2 ^ (w - 1) < 2 ^ w) by (apply Z.pow_lt_mono_r; lia). pose proof (Z.pow_pos_nonneg 2 (w - 1) ltac:(lia) ltac:(lia)). unfold word, bz. destruct b; lia. }
    apply (word_ext w); [apply rv_word|exact W1|]. intros i Hi. rewrite rv_bit by assumption. rewrite Z.shiftl_spec by lia. destruct (Z.eq_dec i 0) as [->|N]; [f_equal; lia|].
    rewrite Z.testbit_neg_r by lia. destruct b; cbn [bz]; [|rewrite Z.bits_0; reflexivity]. symmetry. apply (word_high 1 1); [unfold word; lia|lia].
  Qed.
  Lemma crc_bit_R reg b : word w reg -> rv (crc_bit w poly reg b) = R (rv reg ^^^ bz b).
  Proof.
    intros Hr. rewrite crc_bit_P by exact Hr. assert (W2 : word w (bz b << (w - 1))).
    { rewrite Z.shiftl_mul_pow2 by lia. assert (2 ^ (w - 1) < 2 ^ w) by (apply Z.pow_lt_mono_r; lia). pose proof (Z.pow_pos_nonneg 2 (w - 1) ltac:(lia) ltac:(lia)). unfold word, bz. destruct b; lia. }
    rewrite rv_P by (apply word_lxor; assumption). rewrite rv_lin by assumption. rewrite rv_bz. reflexivity.
  Qed.
  (** c bits of v, least significant first *)
  Definition low_bits (c : nat) (v : Z) : list bool := map (fun i => Z.testbit v (Z.of_nat i)) (seq 0 c).
  Lemma low_bits_S c v : low_bits (S c) v = Z.testbit v 0 :: low_bits c (v / 2).
  Proof.
    unfold low_bits. cbn [seq map]. f_equal. rewrite <- seq_shift, map_map. apply map_ext. intros i. rewrite Nat2Z.inj_succ. rewrite <- Z.div2_bits by lia. reflexivity.
  Qed.
  Lemma bits_R (c : nat) : forall reg v, Z.of_nat c <= w -> word w reg -> word (Z.of_nat c) v ->
    rv (fold_left (crc_bit w poly) (low_bits c v) reg) = Nat.iter c R (rv reg ^^^ v).
  Proof.
    induction c as [|c IH]; intros reg v Hc Hr Hv.
    - assert (v = 0) by (destruct Hv; cbn in *; lia). subst. cbn. rewrite Z.lxor_0_r. reflexivity.
    - rewrite low_bits_S. cbn [fold_left]. assert (Hu : word (Z.of_nat c) (v / 2)).
      { unfold word in *. rewrite Nat2Z.inj_succ, Z.pow_succ_r in Hv by lia. split; [apply Z.div_pos; lia|apply Z.div_lt_upper_bound; lia]. }
      rewrite IH by (try assumption; try lia; apply crc_bit_word). rewrite crc_bit_R by exact Hr. rewrite iter_S. f_equal.
      assert (Ev : v = bz (Z.testbit v 0) ^^^ (2 * (v / 2))).
      { rewrite (Z.div_mod v 2) at 1 by lia. rewrite Zmod_odd, Z.bit0_odd. change (if Z.odd v then 1 else 0) with (bz (Z.odd v)). rewrite Z.add_comm. change (2 * (v / 2)) with (2 ^ 1 * (v / 2)).
        apply Z.bits_inj'. intros i Hi. rewrite testbit_dv by (try lia; unfold word, bz; destruct (Z.odd v); lia). rewrite Z.lxor_spec. destruct (Z.ltb_spec i 1).
        - replace i with 0 by lia. change (2 ^ 1 * (v / 2)) with (2 * (v / 2)). rewrite Z.testbit_even_0, xorb_false_r. reflexivity.
        - rewrite (word_high 1 (bz (Z.odd v))) by (try lia; unfold word, bz; destruct (Z.odd v); lia). rewrite xorb_false_l. change (2 ^ 1 * (v / 2)) with (2 * (v / 2)).
          replace i with (Z.succ (i - 1)) at 2 by lia. rewrite Z.testbit_even_succ by lia. reflexivity. }
      assert (Up : forall n x, (n <= S c)%nat -> word (Z.of_nat n) x -> word w x) by (unfold word; intros n x Hn Hx; assert (2 ^ Z.of_nat n <= 2 ^ w) by (apply Z.pow_le_mono_r; lia); lia).
      assert (Wb : word w (bz (Z.testbit v 0))) by (unfold bz, word; assert (2 ^ 1 <= 2 ^ w) by (apply Z.pow_le_mono_r; lia); destruct (Z.testbit v 0); lia).
      assert (W2 : word w (2 * (v / 2))). { apply (Up (S c)); [lia|]. unfold word in *. pose proof (Z.div_mod v 2 ltac:(lia)). pose proof (Z.mod_pos_bound v 2 ltac:(lia)). pose proof (Z.div_pos v 2 ltac:(lia) ltac:(lia)). lia. }
      rewrite Ev at 3. rewrite <- Z.lxor_assoc. rewrite (R_lin (rv reg ^^^ bz (Z.testbit v 0))) by (first [assumption | apply word_lxor; [apply rv_word|assumption]]). f_equal. symmetry. apply R_even. apply Hu.
  Qed.
End Reg.

(** ** one byte *)
Section Byte.
  Variable q : crc_params.
  Let w := Accumulator_Bits q.
  Let poly := Polynomial q.
  Hypothesis Hw : width w.
  Hypothesis Hp : unsigned w poly.
  Let Wp : 0 < w := width_pos w Hw.
  Lemma w8 : 8 <= w. Proof. unfold width in Hw. lia. Qed.
  Lemma chunk_mask (c : nat) v : 0 <= v -> word (Z.of_nat c) (v &&& (2 ^ Z.of_nat c - 1)) /\ v &&& (2 ^ Z.of_nat c - 1) = v mod 2 ^ Z.of_nat c.
  Proof. intros Hv. replace (2 ^ Z.of_nat c - 1) with (Z.ones (Z.of_nat c)) by (rewrite Z.ones_equiv; lia). rewrite Z.land_ones by lia. split; [apply word_mod; lia|reflexivity]. Qed.
  Lemma up_word k x : 0 <= k <= w -> word k x -> word w x.
  Proof. unfold word. intros H Hx. assert (2 ^ k <= 2 ^ w) by (apply Z.pow_le_mono_r; lia). lia. Qed.

  Lemma update_P (c : nat) crc v : (c <= 8)%nat -> Reflect q = false -> word w crc -> 0 <= v ->
    crc_update_chunk q c crc v = fold_left (crc_bit w poly) (top_bits c (v mod 2 ^ Z.of_nat c)) crc.
  Proof.
    intros Hc HR Hcrc Hv. pose proof w8. destruct (chunk_mask c v Hv) as [W E]. rewrite (bits_P w poly Hw Hp) by (try assumption; try lia; apply word_mod; lia).
    unfold crc_update_chunk. rewrite HR. rewrite E in *. fold w. set (u := v mod 2 ^ Z.of_nat c) in *. set (k := Z.of_nat c) in *.
    assert (Hhi : word k (crc >> (w - k))).
    { unfold word in *. rewrite Z.shiftr_div_pow2 by lia. split; [apply Z.div_pos; [lia|apply Z.pow_pos_nonneg; lia]|]. apply Z.div_lt_upper_bound; [apply Z.pow_pos_nonneg; lia|].
      rewrite <- Z.pow_add_r by lia. replace (w - k + k) with w by lia. lia. }
    assert (Hx : word k ((crc >> (w - k)) ^^^ u)) by (apply word_lxor; assumption).
    assert (E8 : tr 8 ((crc >> (w - k)) ^^^ u) = (crc >> (w - k)) ^^^ u).
    { apply tr_id. unfold word in *. assert (2 ^ k <= 2 ^ 8) by (apply Z.pow_le_mono_r; lia). lia. }
    rewrite E8. assert (T : table q c ((crc >> (w - k)) ^^^ u) = Nat.iter c (P w poly) (((crc >> (w - k)) ^^^ u) << (w - k))).
    { unfold table, crc_table_entry. rewrite HR. fold w k. rewrite (tr_id w ((crc >> (w - k)) ^^^ u)) by (apply (up_word k); [lia|assumption]).
      assert (Ws : word w (((crc >> (w - k)) ^^^ u) << (w - k))).
      { unfold word in *. rewrite Z.shiftl_mul_pow2 by lia. replace (2 ^ w) with (2 ^ k * 2 ^ (w - k)) by (rewrite <- Z.pow_add_r by lia; f_equal; lia).
        pose proof (Z.pow_pos_nonneg 2 (w - k) ltac:(lia) ltac:(lia)). nia. }
      rewrite tr_id by exact Ws. apply (iter_ext w); [|intros; apply P_word; assumption|exact Ws]. intros e He. apply partial_P; auto. }
    rewrite T. destruct (Z.ltb_spec k w).
    - apply (chunk_P w poly Hw Hp c crc u); [lia|assumption|assumption].
    - pose proof (chunk_P w poly Hw Hp c crc u) as Q. fold k in Q. rewrite <- Q by (try lia; assumption). replace (tr w (crc << k)) with 0; [rewrite Z.lxor_0_l; reflexivity|].
      symmetry. unfold tr. rewrite Z.shiftl_mul_pow2 by lia. replace k with w by lia. apply Z.mod_mul. apply Z.pow_nonzero; lia.
  Qed.
  Lemma update_R (c : nat) reg v : (c <= 8)%nat -> Reflect q = true -> word w reg -> 0 <= v ->
    crc_update_chunk q c (reverse_bits w reg) v = reverse_bits w (fold_left (crc_bit w poly) (low_bits c (v mod 2 ^ Z.of_nat c)) reg).
  Proof.
    intros Hc HR Hreg Hv. pose proof w8. destruct (chunk_mask c v Hv) as [W E]. rewrite (bits_R w poly Hw Hp) by (try assumption; try lia; apply word_mod; lia).
    set (crc := reverse_bits w reg). assert (Hcrc : word w crc) by (apply reverse_bits_word; exact Hw).
    unfold crc_update_chunk. rewrite HR. rewrite E in *. fold w. destruct (chunk_mask c crc (proj1 Hcrc)) as [Wc Ec]. rewrite Ec in *. set (u := v mod 2 ^ Z.of_nat c) in *. set (k := Z.of_nat c) in *.
    assert (Hx : word k ((crc mod 2 ^ k) ^^^ u)) by (apply word_lxor; assumption).
    assert (E8 : tr 8 ((crc mod 2 ^ k) ^^^ u) = (crc mod 2 ^ k) ^^^ u).
    { apply tr_id. unfold word in *. assert (2 ^ k <= 2 ^ 8) by (apply Z.pow_le_mono_r; lia). lia. }
    rewrite E8. assert (T : table q c ((crc mod 2 ^ k) ^^^ u) = Nat.iter c (R w poly) ((crc mod 2 ^ k) ^^^ u)).
    { unfold table, crc_table_entry. rewrite HR. fold w k. assert (Ws : word w ((crc mod 2 ^ k) ^^^ u)) by (apply (up_word k); [lia|assumption]).
      rewrite tr_id by exact Ws. apply (iter_ext w); [|intros; apply R_word; assumption|exact Ws]. intros e He. apply partial_R; auto. }
    rewrite T. destruct (Z.ltb_spec k w).
    - apply (chunk_R w poly Hw c crc u); [lia|assumption|assumption].
    - pose proof (chunk_R w poly Hw c crc u) as Q. fold k in Q. rewrite <- Q by (try lia; assumption). replace (crc >> k) with 0; [rewrite Z.lxor_0_l; reflexivity|].
      symmetry. rewrite Z.shiftr_div_pow2 by lia. apply Z.div_small. replace k with w by lia. exact Hcrc.
  Qed.
  Lemma fold_word l : forall reg, word w reg -> word w (fold_left (crc_bit w poly) l reg).
  Proof. induction l as [|b l IH]; intros reg H; [exact H|]. cbn. apply IH. apply crc_bit_word; assumption. Qed.

  Lemma bits_split_top v : byte v ->
    msb_first 8 v = top_bits 8 (v mod 2 ^ 8) /\
    msb_first 8 v = top_bits 4 ((v >> 4) mod 2 ^ 4) ++ top_bits 4 (v mod 2 ^ 4) /\
    msb_first 8 v = top_bits 2 ((v >> (2 * 3)) mod 2 ^ 2) ++ top_bits 2 ((v >> (2 * 2)) mod 2 ^ 2) ++ top_bits 2 ((v >> (2 * 1)) mod 2 ^ 2) ++ top_bits 2 (v mod 2 ^ 2).
  Proof.
    intros Hv. unfold msb_first, lsb_first, top_bits, bit. change (Z.to_nat 8) with 8%nat. cbn [seq map rev app Nat.sub]. change (2 * 3) with 6. change (2 * 2) with 4. change (2 * 1) with 2.
    repeat (rewrite Z.mod_pow2_bits_low by (cbn; lia)). repeat (rewrite Z.shiftr_spec by (cbn; lia)). cbn [Z.of_nat Pos.of_succ_nat Z.add Pos.add Pos.succ]. auto.
  Qed.
  Lemma bits_split_low v : byte v ->
    lsb_first 8 v = low_bits 8 (v mod 2 ^ 8) /\
    lsb_first 8 v = low_bits 4 (v mod 2 ^ 4) ++ low_bits 4 ((v >> 4) mod 2 ^ 4) /\
    lsb_first 8 v = low_bits 2 (v mod 2 ^ 2) ++ low_bits 2 ((v >> (2 * 1)) mod 2 ^ 2) ++ low_bits 2 ((v >> (2 * 2)) mod 2 ^ 2) ++ low_bits 2 ((v >> (2 * 3)) mod 2 ^ 2).
  Proof.
    intros Hv. unfold lsb_first, low_bits, bit. change (Z.to_nat 8) with 8%nat. cbn [seq map app]. change (2 * 3) with 6. change (2 * 2) with 4. change (2 * 1) with 2.
    repeat (rewrite Z.mod_pow2_bits_low by (cbn; lia)). repeat (rewrite Z.shiftr_spec by (cbn; lia)). cbn [Z.of_nat Pos.of_succ_nat Z.add Pos.add Pos.succ]. auto.
  Qed.
  Definition tsize (n : Z) : Prop := n = 4 \/ n = 16 \/ n = 256.
  Lemma add_P n crc v : tsize n -> Reflect q = false -> word w crc -> byte v -> crc_add q n crc v = fold_left (crc_bit w poly) (msb_first 8 v) crc.
  Proof.
    intros Hn HR Hc Hv. destruct (bits_split_top v Hv) as (B8 & B4 & B2). assert (N : forall k, 0 <= v >> k) by (intros; apply Z.shiftr_nonneg; apply Hv). unfold byte in Hv.
    destruct Hn as [->|[->| ->]]; unfold crc_add; cbn [Z.eqb Pos.eqb]; rewrite ?HR.
    - rewrite B2, !fold_left_app. rewrite (update_P _ crc) by (try lia; try assumption; apply N). repeat (rewrite (update_P _ (fold_left _ _ _)) by (first [assumption | lia | apply N | repeat apply fold_word; assumption])). reflexivity.
    - rewrite B4, !fold_left_app. rewrite (update_P _ crc) by (try lia; try assumption; apply N). repeat (rewrite (update_P _ (fold_left _ _ _)) by (first [assumption | lia | apply N | repeat apply fold_word; assumption])). reflexivity.
    - rewrite B8. rewrite update_P by (try lia; assumption). reflexivity.
  Qed.
  Lemma add_R n reg v : tsize n -> Reflect q = true -> word w reg -> byte v -> crc_add q n (reverse_bits w reg) v = reverse_bits w (fold_left (crc_bit w poly) (lsb_first 8 v) reg).
  Proof.
    intros Hn HR Hc Hv. destruct (bits_split_low v Hv) as (B8 & B4 & B2). assert (N : forall k, 0 <= v >> k) by (intros; apply Z.shiftr_nonneg; apply Hv). unfold byte in Hv.
    destruct Hn as [->|[->| ->]]; unfold crc_add; cbn [Z.eqb Pos.eqb]; rewrite ?HR.
    - rewrite B2, !fold_left_app. rewrite (update_R _ reg) by (try lia; try assumption; apply N). repeat (rewrite (update_R _ (fold_left _ _ _)) by (first [assumption | lia | apply N | repeat apply fold_word; assumption])). reflexivity.
    - rewrite B4, !fold_left_app. rewrite (update_R _ reg) by (try lia; try assumption; apply N). repeat (rewrite (update_R _ (fold_left _ _ _)) by (first [assumption | lia | apply N | repeat apply fold_word; assumption])). reflexivity.
    - rewrite B8. rewrite update_R by (try lia; assumption). reflexivity.
  Qed.

  (** ** messages *)
  Definition shown (reg : Z) : Z := if Reflect q then reverse_bits w reg else reg.
  Lemma shown_add n reg v : tsize n -> word w reg -> byte v ->
    crc_add q n (shown reg) v = shown (fold_left (crc_bit w poly) (if Reflect q then lsb_first 8 v else msb_first 8 v) reg).
  Proof. intros Hn Hr Hv. unfold shown. destruct (Reflect q) eqn:E; [apply add_R|apply add_P]; auto. Qed.
  Lemma shown_adds n l : tsize n -> forall reg, word w reg -> Forall byte l ->
    fold_left (crc_add q n) l (shown reg) = shown (fold_left (crc_bit w poly) (message_bits (Reflect q) l) reg).
  Proof.
    intros Hn. induction l as [|v l IH]; intros reg Hr Hl; [reflexivity|]. inversion_clear Hl. cbn [fold_left message_bits flat_map].
    rewrite fold_left_app. rewrite shown_add by assumption. apply IH; [apply fold_word; assumption|assumption].
  Qed.
End Byte.

(** ** reflected = reverse_bits *)
Lemma of_msb_app l : forall a l2, of_msb a (l ++ l2) = of_msb (of_msb a l) l2.
Proof. induction l as [|b l IH]; intros a l2; [reflexivity|]. cbn. apply IH. Qed.
Lemma of_msb_bits l : forall a, 0 <= a -> 0 <= of_msb a l /\ forall i, 0 <= i ->
  Z.testbit (of_msb a l) i = if i <? Z.of_nat (List.length l) then nth (List.length l - 1 - Z.to_nat i) l false else Z.testbit a (i - Z.of_nat (List.length l)).
Proof.
  induction l as [|b l IH] using rev_ind; intros a Ha.
  - cbn [of_msb List.length Z.of_nat]. split; [exact Ha|]. intros i Hi. destruct (Z.ltb_spec i 0); [lia|]. f_equal. lia.
  - destruct (IH a Ha) as [N T]. rewrite of_msb_app, app_length. cbn [of_msb List.length]. set (m := of_msb a l) in *. split; [destruct b; lia|]. intros i Hi.
    assert (Eb : (2 * m + (if b then 1 else 0)) = (if b then 1 else 0) + 2 ^ 1 * m) by (destruct b; lia). rewrite Eb. rewrite testbit_dv by (try lia; unfold word; destruct b; lia).
    destruct (Z.ltb_spec i 1).
    + replace i with 0 by lia. destruct (Z.ltb_spec 0 (Z.of_nat (List.length l + 1))); [|lia]. replace (List.length l + 1 - 1 - Z.to_nat 0)%nat with (List.length l) by (cbn; lia).
      rewrite nth_middle. destruct b; reflexivity.
    + rewrite T by lia. destruct (Z.ltb_spec (i - 1) (Z.of_nat (List.length l))), (Z.ltb_spec i (Z.of_nat (List.length l + 1))); try lia.
      * rewrite app_nth1 by lia. f_equal. lia.
      * f_equal. lia.
Qed.
Lemma reflected_ok w x : width w -> unsigned w x -> reflected w x = reverse_bits w x.
Proof.
  intros Hw Hx. pose proof (width_pos w Hw). unfold reflected. destruct (of_msb_bits (lsb_first w x) 0 ltac:(lia)) as [N T]. rewrite lsb_length in T.
  assert (W : word w (of_msb 0 (lsb_first w x))).
  { apply word_bits; [lia|exact N|]. intros i Hi. rewrite T by lia. destruct (Z.ltb_spec i (Z.of_nat (Z.to_nat w))); [lia|apply Z.bits_0]. }
  apply (word_ext w); [exact W|apply reverse_bits_word; exact Hw|]. intros i Hi. rewrite T by lia. destruct (Z.ltb_spec i (Z.of_nat (Z.to_nat w))); [|lia].
  change (Z.testbit (reverse_bits w x) i) with (bit (reverse_bits w x) i). rewrite reverse_bits_bit by assumption. unfold lsb_first.
  rewrite nth_indep with (d' := bit x (Z.of_nat 0)) by (rewrite map_length, seq_length; lia). rewrite (map_nth (fun i => bit x (Z.of_nat i))). rewrite seq_nth by lia. f_equal. lia.
Qed.
