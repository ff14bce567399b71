(** * Proofs about the bitset model: element level *)
From Coq Require Import List Bool Arith ZArith Lia.
From Verif Require Import Util BinaryModel BinarySpec BinaryProofs BinaryProofs2 BinaryProofs4 BitsetSpec BitsetModel.
Import ListNotations.
Local Open Scope nat_scope.

Definition bwidth (W : nat) : Prop := W = 8 \/ W = 16 \/ W = 32 \/ W = 64.
Definition word (W : nat) (x : Z) : Prop := (0 <= x < 2 ^ zw W)%Z.
Definition wf (W N : nat) (ws : list Z) : Prop := List.length ws = nelem W N /\ Forall (word W) ws.
Definition bitat (W : nat) (ws : list Z) (p : nat) : bool := Z.testbit (nth (p / W) ws 0%Z) (Z.of_nat (p mod W)).
Definition bits (W N : nat) (ws : list Z) : list bool := map (bitat W ws) (seq 0 N).
Definition clean (W N : nat) (ws : list Z) : Prop := forall p, N <= p -> p < nelem W N * W -> bitat W ws p = false.

Lemma bw_pos W : bwidth W -> 0 < W /\ W <= 64. Proof. unfold bwidth. lia. Qed.
Lemma bw_width W : bwidth W -> width (zw W). Proof. unfold bwidth, width, zw. lia. Qed.

Lemma div_ij W i j : j < W -> (i * W + j) / W = i.
Proof. intros H. rewrite Nat.add_comm. rewrite Nat.div_add by lia. rewrite Nat.div_small by lia. lia. Qed.
Lemma mod_ij W i j : j < W -> (i * W + j) mod W = j.
Proof. intros H. rewrite Nat.add_comm. rewrite Nat.mod_add by lia. apply Nat.mod_small. lia. Qed.
Lemma split_p W p : 0 < W -> p = p / W * W + p mod W /\ p mod W < W.
Proof. intros H. split; [|apply Nat.mod_upper_bound; lia]. pose proof (Nat.div_mod p W). lia. Qed.
Lemma bitat_ij W ws i j : j < W -> bitat W ws (i * W + j) = Z.testbit (nth i ws 0%Z) (Z.of_nat j).
Proof. intros H. unfold bitat. now rewrite div_ij, mod_ij. Qed.

Lemma nelem_bound W N : 0 < W -> N <= nelem W N * W /\ nelem W N * W < N + W.
Proof.
  intros H. unfold nelem. pose proof (Nat.div_mod N W ltac:(lia)) as D. pose proof (Nat.mod_upper_bound N W ltac:(lia)) as M.
  destruct (Nat.eqb_spec (N mod W) 0); nia.
Qed.
Lemma nelem_pos W N : 0 < W -> 0 < N -> 0 < nelem W N.
Proof. intros H HN. pose proof (nelem_bound W N H). destruct (nelem W N); lia. Qed.
Lemma idx_bound W N p : 0 < W -> p < nelem W N * W -> p / W < nelem W N.
Proof. intros H Hp. apply Nat.div_lt_upper_bound; lia. Qed.
Lemma nelem_exact W N : 0 < W -> N mod W = 0 -> nelem W N * W = N.
Proof. intros H Hm. unfold nelem. rewrite Hm, Nat.eqb_refl. pose proof (Nat.div_mod N W ltac:(lia)). lia. Qed.

Lemma word_bit W x j : word W x -> (zw W <= j)%Z -> Z.testbit x j = false.
Proof.
  intros [H0 H1] Hj. destruct (Z.eq_dec x 0) as [->|n0]; [apply Z.bits_0|].
  apply Z.bits_above_log2; [lia|]. apply Z.log2_lt_pow2 in H1; lia.
Qed.
Lemma word_tr W x : word W (tr (zw W) x).
Proof. unfold word, tr. apply Z.mod_pos_bound. apply Z.pow_pos_nonneg; unfold zw; lia. Qed.
Lemma tr_bit W x j : (0 <= j)%Z -> Z.testbit (tr (zw W) x) j = (j <? zw W)%Z && Z.testbit x j.
Proof.
  intros Hj. unfold tr. destruct (Z.ltb_spec j (zw W)); cbn [andb].
  - now apply Z.mod_pow2_bits_low.
  - apply Z.mod_pow2_bits_high. unfold zw in *. lia.
Qed.
Lemma word_ext W x y : word W x -> word W y -> (forall j, j < W -> Z.testbit x (Z.of_nat j) = Z.testbit y (Z.of_nat j)) -> x = y.
Proof.
  intros Hx Hy H. apply Z.bits_inj'. intros j Hj. destruct (Z.ltb_spec j (zw W)) as [L|L].
  - specialize (H (Z.to_nat j)). rewrite Z2Nat.id in H by lia. apply H. unfold zw in L. lia.
  - rewrite !(word_bit W) by (assumption || lia). reflexivity.
Qed.
Lemma word_0 W : word W 0. Proof. unfold word. split; [lia|]. apply Z.pow_pos_nonneg; unfold zw; lia. Qed.
Lemma all_set_ones W : all_set W = Z.ones (zw W). Proof. unfold all_set. rewrite Z.ones_equiv. lia. Qed.
Lemma word_all W : word W (all_set W).
Proof. unfold word, all_set. pose proof (Z.pow_pos_nonneg 2 (zw W) ltac:(lia) ltac:(unfold zw; lia)). lia. Qed.
Lemma all_set_bit W j : (0 <= j)%Z -> Z.testbit (all_set W) j = (j <? zw W)%Z.
Proof.
  intros Hj. rewrite all_set_ones. destruct (Z.ltb_spec j (zw W)).
  - apply Z.ones_spec_low. lia.
  - apply Z.ones_spec_high. unfold zw in *. lia.
Qed.
Lemma word_land W x y : word W x -> word W (x &&& y).
Proof.
  intros Hx. replace (x &&& y)%Z with (tr (zw W) (x &&& y)); [apply word_tr|].
  apply Z.bits_inj'. intros j Hj. rewrite tr_bit by lia. destruct (Z.ltb_spec j (zw W)); cbn [andb]; [reflexivity|].
  rewrite Z.land_spec, (word_bit W x) by (assumption || lia). reflexivity.
Qed.
Lemma word_land_r W x y : word W y -> word W (x &&& y).
Proof. rewrite Z.land_comm. apply word_land. Qed.
Lemma word_lor W x y : word W x -> word W y -> word W (x ||| y).
Proof.
  intros Hx Hy. replace (x ||| y)%Z with (tr (zw W) (x ||| y)); [apply word_tr|].
  apply Z.bits_inj'. intros j Hj. rewrite tr_bit by lia. destruct (Z.ltb_spec j (zw W)); cbn [andb]; [reflexivity|].
  rewrite Z.lor_spec, (word_bit W x), (word_bit W y) by (assumption || lia). reflexivity.
Qed.
Lemma word_lxor W x y : word W x -> word W y -> word W (x ^^^ y).
Proof.
  intros Hx Hy. replace (x ^^^ y)%Z with (tr (zw W) (x ^^^ y)); [apply word_tr|].
  apply Z.bits_inj'. intros j Hj. rewrite tr_bit by lia. destruct (Z.ltb_spec j (zw W)); cbn [andb]; [reflexivity|].
  rewrite Z.lxor_spec, (word_bit W x), (word_bit W y) by (assumption || lia). reflexivity.
Qed.
Lemma word_inv W x : word W (inv W x). Proof. apply word_tr. Qed.
Lemma inv_bit W x j : (0 <= j)%Z -> Z.testbit (inv W x) j = (j <? zw W)%Z && negb (Z.testbit x j).
Proof. intros Hj. unfold inv. rewrite tr_bit by lia. rewrite Z.lnot_spec by lia. reflexivity. Qed.

(** shifts *)
Lemma shl_ok W x s : s < Nat.max 32 W -> shl W x s = Ok (tr (zw W) (x << Z.of_nat s)).
Proof. intros H. unfold shl. destruct (Nat.ltb_spec s (Nat.max 32 W)); [reflexivity|lia]. Qed.
Lemma shr_ok W x s : s < Nat.max 32 W -> shr W x s = Ok (tr (zw W) (x >> Z.of_nat s)).
Proof. intros H. unfold shr. destruct (Nat.ltb_spec s (Nat.max 32 W)); [reflexivity|lia]. Qed.
Lemma one_shl_bit W s j : s < W -> (0 <= j)%Z -> Z.testbit (tr (zw W) (1 << Z.of_nat s)) j = (j =? Z.of_nat s)%Z.
Proof.
  intros Hs Hj. rewrite tr_bit by lia. rewrite Z.shiftl_1_l. destruct (Z.eqb_spec j (Z.of_nat s)) as [->|ne].
  - rewrite Z.pow2_bits_true by lia. unfold zw. destruct (Z.ltb_spec (Z.of_nat s) (Z.of_nat W)); [reflexivity|lia].
  - rewrite Z.pow2_bits_false by lia. apply andb_false_r.
Qed.
Lemma one_mask_eq W s : s < W -> tr (zw W) (1 << Z.of_nat s) = (2 ^ Z.of_nat s)%Z.
Proof.
  intros Hs. rewrite Z.shiftl_1_l. unfold tr. apply Z.mod_small. split; [apply Z.pow_nonneg; lia|].
  apply Z.pow_lt_mono_r; unfold zw; lia.
Qed.
Lemma testmask x m j : (0 <= j)%Z -> (forall k, (0 <= k)%Z -> Z.testbit m k = (k =? j)%Z) -> negb (x &&& m =? 0)%Z = Z.testbit x j.
Proof.
  intros Hj Hm. destruct (Z.testbit x j) eqn:E.
  - destruct (Z.eqb_spec (x &&& m) 0) as [Z0|]; [|reflexivity]. exfalso.
    assert (Z.testbit (x &&& m) j = true) by (rewrite Z.land_spec, E, Hm, Z.eqb_refl by lia; reflexivity).
    rewrite Z0, Z.bits_0 in H. discriminate.
  - destruct (Z.eqb_spec (x &&& m) 0) as [|NZ]; [reflexivity|]. exfalso. apply NZ.
    apply Z.bits_inj'. intros k Hk. rewrite Z.land_spec, Hm, Z.bits_0 by lia. destruct (Z.eqb_spec k j) as [->|]; [now rewrite E|].
    apply andb_false_r.
Qed.

(** arrays *)
Lemma upd_len ws i v : List.length (upd ws i v) = List.length ws.
Proof. revert i; induction ws; destruct i; cbn; auto. Qed.
Lemma upd_nth ws i v k : i < List.length ws -> nth k (upd ws i v) 0%Z = if k =? i then v else nth k ws 0%Z.
Proof.
  revert i k; induction ws as [|x r IH]; intros i k Hi; [cbn in Hi; lia|].
  destruct i, k; cbn [upd nth Nat.eqb]; try reflexivity. apply IH. cbn in Hi. lia.
Qed.
Lemma rd_ok ws i : i < List.length ws -> rd ws i = Ok (nth i ws 0%Z).
Proof. intros H. unfold rd. rewrite (nth_error_nth' ws 0%Z H). reflexivity. Qed.
Lemma wr_ok ws i v : i < List.length ws -> wr ws i v = Ok (upd ws i v).
Proof. intros H. unfold wr. destruct (Nat.ltb_spec i (List.length ws)); [reflexivity|lia]. Qed.
Lemma forall_nth W ws i : Forall (word W) ws -> word W (nth i ws 0%Z).
Proof.
  intros H. destruct (Nat.ltb_spec i (List.length ws)) as [L|L].
  - rewrite Forall_forall in H. apply H. apply nth_In. exact L.
  - rewrite nth_overflow by exact L. apply word_0.
Qed.
Lemma forall_of_nth W ws : (forall i, i < List.length ws -> word W (nth i ws 0%Z)) -> Forall (word W) ws.
Proof. intros H. apply Forall_forall. intros x Hx. apply (In_nth _ _ 0%Z) in Hx as (i & Hi & <-). now apply H. Qed.
Lemma upd_forall W ws i v : Forall (word W) ws -> word W v -> Forall (word W) (upd ws i v).
Proof.
  intros H Hv. revert i; induction H as [|x r Hx Hr IH]; intros i; [constructor|].
  destruct i; cbn [upd]; constructor; auto.
Qed.
Lemma clear_from_len ws i : List.length (m_clear_from ws i) = List.length ws.
Proof. revert i; induction ws; destruct i; cbn; auto. Qed.
Lemma clear_from_nth ws i k : nth k (m_clear_from ws i) 0%Z = if k <? i then nth k ws 0%Z else 0%Z.
Proof.
  revert i k; induction ws as [|x r IH]; intros i k.
  - cbn [m_clear_from]. destruct k; cbn [nth]; now destruct (_ <? i).
  - destruct i, k; cbn [m_clear_from nth]; try reflexivity; rewrite IH; reflexivity.
Qed.
Lemma zero_below_len ws k : List.length (m_zero_below ws k) = List.length ws.
Proof. revert k; induction ws; destruct k; cbn; auto. Qed.
Lemma zero_below_nth ws d k : nth k (m_zero_below ws d) 0%Z = if k <? d then 0%Z else nth k ws 0%Z.
Proof.
  revert d k; induction ws as [|x r IH]; intros d k.
  - replace (m_zero_below [] d) with (@nil Z) by (destruct d; reflexivity). destruct k; cbn [nth]; now destruct (_ <? d).
  - destruct d, k; cbn [m_zero_below nth]; try reflexivity. rewrite IH. reflexivity.
Qed.
Lemma reset_all_len ws : List.length (m_reset_all ws) = List.length ws. Proof. apply map_length. Qed.
Lemma reset_all_nth ws k : nth k (m_reset_all ws) 0%Z = 0%Z.
Proof. unfold m_reset_all. revert k; induction ws; destruct k; cbn; auto. Qed.

(** a result is described by the bits of its elements *)
Lemma bits_len W N ws : List.length (bits W N ws) = N. Proof. unfold bits. rewrite map_length, seq_length. reflexivity. Qed.
Lemma bits_nth W N ws p : p < N -> nth p (bits W N ws) false = bitat W ws p.
Proof.
  intros H. unfold bits. rewrite (nth_indep _ false (bitat W ws 0)) by (rewrite map_length, seq_length; lia).
  rewrite map_nth, seq_nth by lia. reflexivity.
Qed.
Lemma map_seq_ext {A} (f g : nat -> A) n : (forall p, p < n -> f p = g p) -> map f (seq 0 n) = map g (seq 0 n).
Proof. intros H. apply map_ext_in. intros p Hp. apply in_seq in Hp. apply H. lia. Qed.
Lemma bits_ext W N ws (b : list bool) : List.length b = N -> (forall p, p < N -> bitat W ws p = nth p b false) -> bits W N ws = b.
Proof.
  intros Hl H. unfold bits. rewrite (map_seq_ext _ (fun p => nth p b false) N) by exact H. rewrite <- Hl.
  clear. induction b as [|x r IH]; [reflexivity|]. cbn [List.length]. cbn [seq map nth]. f_equal.
  rewrite <- seq_shift, map_map. exact IH.
Qed.
Lemma nth_seq_map (f : nat -> bool) N p : p < N -> nth p (map f (seq 0 N)) false = f p.
Proof. intros H. rewrite (nth_indep _ false (f 0)) by (rewrite map_length, seq_length; lia). rewrite map_nth, seq_nth by lia. reflexivity. Qed.
