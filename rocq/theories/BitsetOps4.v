(** * bitset: shifts *)
From Coq Require Import List Bool Arith ZArith Lia.
From Verif Require Import Util BinaryModel BinarySpec BinaryProofs BinaryProofs2 BinaryProofs4 BitsetSpec BitsetModel BitsetProofs BitsetOps.
Import ListNotations.
Local Open Scope nat_scope.

Section Loops.
  Variables (W : nat) (lm mm : Z) (ls ms : nat) (L M : Z -> Z) (old : list Z) (q : nat).
  Hypothesis HL : forall v, shl W (v &&& lm) ls = Ok (L v).
  Let n := List.length old.

  Definition left_inv (dst : nat) (ws : list Z) : Prop :=
    List.length ws = n /\ forall i, i < n ->
      nth i ws 0%Z = if dst <? i then (L (nth (i - q) old 0%Z) ||| M (nth (i - q - 1) old 0%Z))%Z
                     else if i =? dst then L (nth (dst - q) old 0%Z) else nth i old 0%Z.
  Lemma shl_loop_ok k : forall dst ws, dst = k + q -> dst < n -> (0 < k -> forall v, shr W (v &&& mm) ms = Ok (M v)) -> left_inv dst ws ->
    exists ws', m_shl_loop W lm mm ls ms k dst ws = Ok (q, ws') /\ left_inv q ws'.
  Proof using HL.
    induction k as [|src IH]; intros dst ws Hd Hn HM [Hl Hi]; cbn [m_shl_loop].
    - cbn in Hd. subst dst. exists ws. split; [reflexivity|split; assumption].
    - destruct dst as [|dst']; [lia|]. rewrite rd_ok by lia. cbn [rbind]. rewrite HM by lia. cbn [rbind]. rewrite rd_ok by lia. cbn [rbind]. rewrite wr_ok by lia. cbn [rbind].
      rewrite rd_ok by (rewrite upd_len; lia). cbn [rbind]. rewrite HL. cbn [rbind]. rewrite wr_ok by (rewrite upd_len; lia). cbn [rbind].
      assert (E1 : nth src ws 0%Z = nth src old 0%Z).
      { rewrite Hi by lia. destruct (Nat.ltb_spec (S dst') src); [lia|]. destruct (Nat.eqb_spec src (S dst')); [lia|]. reflexivity. }
      assert (E2 : nth (S dst') ws 0%Z = L (nth (S dst' - q) old 0%Z)).
      { rewrite Hi by lia. rewrite Nat.ltb_irrefl, Nat.eqb_refl. reflexivity. }
      apply IH; [lia|lia|intros; apply HM; lia|]. split; [rewrite !upd_len; exact Hl|]. intros i Hin.
      rewrite !upd_nth by (rewrite ?upd_len; lia). rewrite E1, E2.
      destruct (Nat.eqb_spec i dst') as [->|n1].
      + rewrite Nat.ltb_irrefl. destruct (Nat.eqb_spec src (S dst')); [lia|]. f_equal. f_equal. lia.
      + destruct (Nat.eqb_spec i (S dst')) as [->|n2].
        * destruct (Nat.ltb_spec dst' (S dst')); [|lia]. replace (S dst' - q - 1) with src by lia. reflexivity.
        * rewrite Hi by lia. destruct (Nat.ltb_spec (S dst') i), (Nat.ltb_spec dst' i); try lia; try reflexivity.
          destruct (Nat.eqb_spec i (S dst')); [lia|]. reflexivity.
  Qed.

  Definition right_inv (dst : nat) (ws : list Z) : Prop :=
    List.length ws = n /\ forall i, i < n ->
      nth i ws 0%Z = if i <? dst then (L (nth (i + q + 1) old 0%Z) ||| M (nth (i + q) old 0%Z))%Z else nth i old 0%Z.
  Lemma shr_loop_ok k : forall src dst ws, src = dst + q -> src + k < n -> (forall v, shr W (v &&& mm) ms = Ok (M v)) -> right_inv dst ws ->
    exists ws', m_shr_loop W lm mm ls ms k src dst ws = Ok (src + k, dst + k, ws') /\ right_inv (dst + k) ws'.
  Proof using HL.
    induction k as [|k IH]; intros src dst ws Hd Hn HM [Hl Hi]; cbn [m_shr_loop].
    - rewrite !Nat.add_0_r. exists ws. split; [reflexivity|split; assumption].
    - rewrite rd_ok by lia. cbn [rbind]. rewrite HM. cbn [rbind]. cbv zeta. rewrite rd_ok by lia. cbn [rbind]. rewrite HL. cbn [rbind]. rewrite wr_ok by lia. cbn [rbind].
      assert (E1 : nth src ws 0%Z = nth src old 0%Z) by (rewrite Hi by lia; destruct (Nat.ltb_spec src dst); [lia|reflexivity]).
      assert (E2 : nth (S src) ws 0%Z = nth (S src) old 0%Z) by (rewrite Hi by lia; destruct (Nat.ltb_spec (S src) dst); [lia|reflexivity]).
      destruct (IH (S src) (S dst) (upd ws dst (L (nth (S src) ws 0%Z) ||| M (nth src ws 0%Z))%Z)) as (ws' & E & I); [lia|lia|exact HM| |].
      + split; [rewrite upd_len; exact Hl|]. intros i Hin. rewrite upd_nth by lia. rewrite E1, E2.
        destruct (Nat.eqb_spec i dst) as [->|n1].
        * destruct (Nat.ltb_spec dst (S dst)); [|lia]. subst src. replace (S (dst + q)) with (dst + q + 1) by lia. reflexivity.
        * rewrite Hi by lia. destruct (Nat.ltb_spec i dst), (Nat.ltb_spec i (S dst)); try lia; reflexivity.
      + exists ws'. rewrite E. replace (S src + k) with (src + S k) by lia. replace (S dst + k) with (dst + S k) in * by lia. split; [reflexivity|exact I].
  Qed.
End Loops.

Section W.
  Variables W N : nat.
  Hypothesis HW : bwidth W.
  Hypothesis HN : 0 < N.
  Let Wp : 0 < W. Proof. apply bw_pos in HW; lia. Qed.
  Let W64 : W <= 64. Proof. apply bw_pos in HW; lia. Qed.

  (** max >> (W - k), 0 <= k <= W: the k low bits *)
  Lemma low_mask k : k <= W -> W - k < Nat.max 32 W -> shr W (all_set W) (W - k) = Ok (Z.ones (Z.of_nat k)).
  Proof using HW HN Wp W64.
    intros Hk Hs. rewrite shr_ok by exact Hs. f_equal. apply Z.bits_inj'. intros j Hj. rewrite tr_bit, Z.shiftr_spec, all_set_bit, Z.testbit_ones by lia.
    unfold zw. zltb; destruct (Z.leb_spec 0 j); try lia; reflexivity.
  Qed.
  Lemma ones_bit k j : (0 <= j)%Z -> Z.testbit (Z.ones (Z.of_nat k)) j = (j <? Z.of_nat k)%Z.
  Proof using HW HN Wp W64. intros Hj. rewrite Z.testbit_ones by lia. destruct (Z.leb_spec 0 j); [reflexivity|lia]. Qed.
  Lemma high_mask_bit k j : k <= W -> (0 <= j)%Z -> Z.testbit (all_set W - Z.ones (Z.of_nat k)) j = (j <? zw W)%Z && (Z.of_nat k <=? j)%Z.
  Proof using HW HN Wp W64.
    intros Hk Hj. rewrite Z.sub_nocarry_ldiff.
    - rewrite Z.ldiff_spec, all_set_bit, ones_bit by lia. f_equal. destruct (Z.ltb_spec j (Z.of_nat k)), (Z.leb_spec (Z.of_nat k) j); try lia; reflexivity.
    - apply Z.bits_inj'. intros i Hi. rewrite Z.ldiff_spec, all_set_bit, ones_bit, Z.bits_0 by lia. unfold zw.
      destruct (Z.ltb_spec i (Z.of_nat k)), (Z.ltb_spec i (Z.of_nat W)); try lia; reflexivity.
  Qed.

  (** low [W - r] bits moved up by r *)
  Definition up (r : nat) (v : Z) : Z := tr (zw W) ((v &&& Z.ones (Z.of_nat (W - r))) << Z.of_nat r).
  Lemma up_bit r v j : r < W -> j < W -> Z.testbit (up r v) (Z.of_nat j) = (r <=? j) && Z.testbit v (Z.of_nat (j - r)).
  Proof using HW HN Wp W64.
    intros Hr Hj. unfold up. rewrite tr_bit, Z.shiftl_spec by lia. unfold zw. destruct (Z.ltb_spec (Z.of_nat j) (Z.of_nat W)); [|lia]. cbn [andb].
    destruct (Nat.leb_spec r j); cbn [andb]; [|apply Z.testbit_neg_r; lia]. rewrite Z.land_spec, ones_bit by lia. replace (Z.of_nat j - Z.of_nat r)%Z with (Z.of_nat (j - r)) by lia.
    destruct (Z.ltb_spec (Z.of_nat (j - r)) (Z.of_nat (W - r))); [apply andb_true_r|lia].
  Qed.
  (** high bits from k on moved down by k *)
  Definition down (k : nat) (v : Z) : Z := tr (zw W) ((v &&& (all_set W - Z.ones (Z.of_nat k))) >> Z.of_nat k).
  Lemma down_bit k v j : word W v -> k <= W -> j < W -> Z.testbit (down k v) (Z.of_nat j) = Z.testbit v (Z.of_nat (j + k)).
  Proof using HW HN Wp W64.
    intros Hv Hk Hj. unfold down. rewrite tr_bit, Z.shiftr_spec by lia. unfold zw. destruct (Z.ltb_spec (Z.of_nat j) (Z.of_nat W)); [|lia]. cbn [andb].
    rewrite Z.land_spec, high_mask_bit by lia. replace (Z.of_nat j + Z.of_nat k)%Z with (Z.of_nat (j + k)) by lia. unfold zw.
    destruct (Z.leb_spec (Z.of_nat k) (Z.of_nat (j + k))); [|lia]. destruct (Z.ltb_spec (Z.of_nat (j + k)) (Z.of_nat W)); [apply andb_true_r|].
    rewrite (word_bit W v) by (exact Hv || unfold zw; lia). reflexivity.
  Qed.
  (** low k bits moved up by W - k *)
  Definition wrap (k : nat) (v : Z) : Z := tr (zw W) ((v &&& Z.ones (Z.of_nat k)) << Z.of_nat (W - k)).
  Lemma wrap_bit k v j : k < W -> j < W -> Z.testbit (wrap k v) (Z.of_nat j) = (W - k <=? j) && Z.testbit v (Z.of_nat (j + k - W)).
  Proof using HW HN Wp W64.
    intros Hr Hj. unfold wrap. rewrite tr_bit, Z.shiftl_spec by lia. unfold zw. destruct (Z.ltb_spec (Z.of_nat j) (Z.of_nat W)); [|lia]. cbn [andb].
    destruct (Nat.leb_spec (W - k) j); cbn [andb]; [|apply Z.testbit_neg_r; lia]. rewrite Z.land_spec, ones_bit by lia. replace (Z.of_nat j - Z.of_nat (W - k))%Z with (Z.of_nat (j + k - W)) by lia.
    destruct (Z.ltb_spec (Z.of_nat (j + k - W)) (Z.of_nat k)); [apply andb_true_r|lia].
  Qed.

  Definition shl_fine (s : nat) : Prop := N <= s \/ nelem W N = 1 \/ W < 32 \/ s mod W <> 0 \/ s / W + 1 = nelem W N.
  Definition shr_fine (s : nat) : Prop := N <= s \/ nelem W N = 1 \/ W < 32 \/ s mod W <> 0.
  Definition raw_shl (f : nat -> bool) (s p : nat) : bool := (s <=? p) && f (p - s).
  Definition raw_shr (f : nat -> bool) (s p : nat) : bool := (p + s <? nelem W N * W) && f (p + s).

  Lemma m_shl_ok ws s : wf W N ws -> s < N -> W < 32 \/ s mod W <> 0 \/ s / W + 1 = nelem W N ->
    post W N ws (m_shift_left W N ws s) (raw_shl (bitat W ws) s).
  Proof using HW HN Wp W64.
    intros Hwf Hs Hfine. pose proof Hwf as [Hl F]. pose proof (nelem_bound W N Wp) as [B1 B2].
    unfold m_shift_left. destruct (Nat.leb_spec N s); [lia|]. cbv zeta. rewrite Hl.
    destruct (split_p W s Wp) as [Es Hr]. set (q := s / W) in *. set (r := s mod W) in *.
    assert (Hq : q < nelem W N) by (apply idx_bound; lia).
    replace (W - (W - r)) with r by lia.
    pose proof (low_mask (W - r) ltac:(lia) ltac:(lia)) as Hlm. replace (W - (W - r)) with r in Hlm by lia. rewrite Hlm. cbn [rbind].
    rewrite shl_ok by lia. cbn [rbind]. rewrite rd_ok by lia. cbn [rbind].
    assert (HL : forall v, shl W (v &&& Z.ones (Z.of_nat (W - r))) r = Ok (up r v)) by (intros; rewrite shl_ok by lia; reflexivity).
    rewrite HL. cbn [rbind]. rewrite wr_ok by lia. cbn [rbind].
    destruct (shl_loop_ok W (Z.ones (Z.of_nat (W - r))) (all_set W - Z.ones (Z.of_nat (W - r))) r (W - r) (up r) (down (W - r)) ws q HL
                (nelem W N - q - 1) (nelem W N - 1) (upd ws (nelem W N - 1) (up r (nth (nelem W N - q - 1) ws 0%Z)))) as (ws2 & E2 & [L2 I2]).
    - lia.
    - rewrite Hl. lia.
    - intros Hk v. apply shr_ok. lia.
    - split; [apply upd_len|]. rewrite Hl. intros i Hi. rewrite upd_nth by lia. destruct (Nat.ltb_spec (nelem W N - 1) i); [lia|].
      destruct (Nat.eqb_spec i (nelem W N - 1)) as [->|]; [|reflexivity]. do 2 f_equal. lia.
    - rewrite E2. cbn [rbind]. rewrite rd_ok by lia. cbn [rbind]. rewrite wr_ok by lia. cbn [rbind]. rewrite Hl in I2, L2.
      eexists. split; [reflexivity|]. apply (by_elements W N HW HN); [rewrite zero_below_len, upd_len; lia|]. intros i Hi.
      rewrite zero_below_nth. rewrite upd_nth by lia. rewrite !I2 by lia. rewrite Nat.ltb_irrefl, Nat.eqb_refl, Nat.sub_diag.
      assert (Hm : forall j, j < W -> Z.testbit (tr (zw W) (Z.ones (Z.of_nat (W - r)) << Z.of_nat r)) (Z.of_nat j) = (r <=? j)).
      { intros j Hj. rewrite tr_bit, Z.shiftl_spec by lia. unfold zw. destruct (Z.ltb_spec (Z.of_nat j) (Z.of_nat W)); [|lia]. cbn [andb]. destruct (Nat.leb_spec r j); [|apply Z.testbit_neg_r; lia].
        rewrite ones_bit by lia. apply Z.ltb_lt. lia. }
      destruct (Nat.ltb_spec i q) as [G|G].
      + split; [apply word_0|]. intros j Hj. rewrite Z.bits_0. unfold raw_shl. destruct (Nat.leb_spec s (i * W + j)); [nia|reflexivity].
      + destruct (Nat.eqb_spec i q) as [->|G1].
        * split; [apply word_land; apply word_tr|]. intros j Hj. rewrite Z.land_spec, up_bit, Hm by lia. unfold raw_shl. destruct (Nat.leb_spec r j), (Nat.leb_spec s (q * W + j)); try lia; cbn [andb]; try reflexivity.
          rewrite andb_true_r. replace (q * W + j - s) with (0 * W + (j - r)) by lia. rewrite bitat_ij by lia. reflexivity.
        * destruct (Nat.ltb_spec q i); [|lia]. split; [apply word_lor; apply word_tr|]. intros j Hj.
          rewrite Z.lor_spec, up_bit, down_bit by (lia || now apply forall_nth). unfold raw_shl.
          assert (s <= i * W + j) by nia. destruct (Nat.leb_spec s (i * W + j)); [|lia]. cbn [andb].
          destruct (Nat.leb_spec r j); cbn [andb orb].
          -- rewrite (word_bit W (nth (i - q - 1) ws 0%Z)) by (try (now apply forall_nth); unfold zw; lia). rewrite orb_false_r.
             replace (i * W + j - s) with ((i - q) * W + (j - r)) by nia. rewrite bitat_ij by lia. reflexivity.
          -- replace (i * W + j - s) with ((i - q - 1) * W + (j + (W - r))) by nia. rewrite bitat_ij by lia. reflexivity.
  Qed.
  Lemma m_shr_ok ws s : wf W N ws -> s < N -> W < 32 \/ s mod W <> 0 ->
    post W N ws (m_shift_right W N ws s) (raw_shr (bitat W ws) s).
  Proof using HW HN Wp W64.
    intros Hwf Hs Hfine. pose proof Hwf as [Hl F]. pose proof (nelem_bound W N Wp) as [B1 B2].
    unfold m_shift_right. destruct (Nat.leb_spec N s); [lia|]. cbv zeta. rewrite Hl.
    destruct (split_p W s Wp) as [Es Hr]. set (q := s / W) in *. set (r := s mod W) in *.
    assert (Hq : q < nelem W N) by (apply idx_bound; lia).
    rewrite (low_mask r) by lia. cbn [rbind]. rewrite shr_ok by lia. cbn [rbind].
    assert (HL : forall v, shl W (v &&& Z.ones (Z.of_nat r)) (W - r) = Ok (wrap r v)) by (intros; rewrite shl_ok by lia; reflexivity).
    assert (HM : forall v, shr W (v &&& (all_set W - Z.ones (Z.of_nat r))) r = Ok (down r v)) by (intros; rewrite shr_ok by lia; reflexivity).
    destruct (shr_loop_ok W (Z.ones (Z.of_nat r)) (all_set W - Z.ones (Z.of_nat r)) (W - r) r (wrap r) (down r) ws q HL
                (nelem W N - 1 - q) q 0 ws) as (ws1 & E1 & [L1 I1]); [lia|rewrite Hl; lia|exact HM| |].
    - split; [reflexivity|]. intros i Hi. destruct (Nat.ltb_spec i 0); [lia|reflexivity].
    - rewrite E1. cbn [rbind]. rewrite Hl in I1, L1. set (d := 0 + (nelem W N - 1 - q)) in *. replace (q + (nelem W N - 1 - q)) with (nelem W N - 1) by lia.
      rewrite rd_ok by lia. cbn [rbind]. rewrite HM. cbn [rbind]. rewrite wr_ok by lia. cbn [rbind]. rewrite rd_ok by (rewrite upd_len; lia). cbn [rbind].
      rewrite wr_ok by (rewrite upd_len; lia). cbn [rbind]. eexists. split; [reflexivity|].
      apply (by_elements W N HW HN); [rewrite clear_from_len, !upd_len; lia|]. intros i Hi. rewrite clear_from_nth. rewrite !upd_nth by (rewrite ?upd_len; lia).
      rewrite Nat.eqb_refl. rewrite !I1 by lia. destruct (Nat.ltb_spec (nelem W N - 1) d); [lia|].
      destruct (Nat.ltb_spec i (S d)) as [G|G].
      + destruct (Nat.eqb_spec i d) as [->|G1].
        * split; [apply word_land; apply word_tr|]. intros j Hj. rewrite Z.land_spec, down_bit by (lia || now apply forall_nth).
          rewrite tr_bit, Z.shiftr_spec, high_mask_bit by lia. unfold zw. destruct (Z.ltb_spec (Z.of_nat j) (Z.of_nat W)); [|lia]. cbn [andb].
          destruct (Z.leb_spec (Z.of_nat r) (Z.of_nat j + Z.of_nat r)); [|lia]. rewrite andb_true_r. unfold raw_shr.
          destruct (Z.ltb_spec (Z.of_nat j + Z.of_nat r) (Z.of_nat W)), (Nat.ltb_spec (d * W + j + s) (nelem W N * W)); try (exfalso; unfold d in *; nia); cbn [andb].
          -- replace (d * W + j + s) with ((nelem W N - 1) * W + (j + r)) by (unfold d; nia). rewrite bitat_ij by lia. apply andb_true_r.
          -- apply andb_false_r.
        * destruct (Nat.ltb_spec i d); [|lia]. split; [apply word_lor; apply word_tr|]. intros j Hj.
          rewrite Z.lor_spec, wrap_bit, down_bit by (lia || now apply forall_nth). unfold raw_shr.
          destruct (Nat.ltb_spec (i * W + j + s) (nelem W N * W)); [|exfalso; unfold d in *; nia]. cbn [andb].
          destruct (Nat.leb_spec (W - r) j); cbn [andb orb].
          -- rewrite (word_bit W (nth (i + q) ws 0%Z)) by (try (now apply forall_nth); unfold zw; lia). rewrite orb_false_r.
             replace (i * W + j + s) with ((i + q + 1) * W + (j + r - W)) by nia. rewrite bitat_ij by lia. reflexivity.
          -- replace (i * W + j + s) with ((i + q) * W + (j + r)) by nia. rewrite bitat_ij by lia. reflexivity.
      + split; [apply word_0|]. intros j Hj. rewrite Z.bits_0. unfold raw_shr. destruct (Nat.ltb_spec (i * W + j + s) (nelem W N * W)); [unfold d in *; nia|reflexivity].
  Qed.
  Lemma reset_post ws f : wf W N ws -> (forall q, q < nelem W N * W -> f q = false) -> post W N ws (Ok (bs_reset_all ws)) f.
  Proof using HW HN Wp W64.
    intros Hwf Hf. destruct (reset_all_ok W N HW HN ws Hwf) as [R1 R2]. eexists. split; [reflexivity|]. split; [exact R1|]. intros q Hq. rewrite R2, Hf by exact Hq. reflexivity.
  Qed.
  Lemma s_bitat x p : p < W -> bitat W [x] p = Z.testbit x (Z.of_nat p).
  Proof using HW HN Wp W64. intros H. unfold bitat. rewrite Nat.div_small, Nat.mod_small by lia. reflexivity. Qed.
  Lemma shl_ok_ ws s : wf W N ws -> shl_fine s -> s < N -> post W N ws (bs_shl W N ws s) (raw_shl (bitat W ws) s).
  Proof using HW HN Wp W64.
    intros Hwf Hf Hs. unfold bs_shl. destruct (single ws) as [x|] eqn:E.
    - apply single_inv in E. subst ws. pose proof (wf_single W N x Wp Hwf) as (H1 & H2 & H3). unfold s_shift_left. destruct (Nat.leb_spec N s); [lia|]. rewrite shl_ok by lia. cbn [one rbind].
      eexists. split; [reflexivity|]. apply (by_elements W N HW HN); [cbn; lia|]. rewrite H2. intros i Hi. destruct i; [|lia]. cbn [nth Nat.mul Nat.add]. split; [apply word_tr|].
      intros j Hj. rewrite tr_bit, Z.shiftl_spec by lia. unfold zw. destruct (Z.ltb_spec (Z.of_nat j) (Z.of_nat W)); [|lia]. cbn [andb]. unfold raw_shl.
      destruct (Nat.leb_spec s j); cbn [andb]; [|apply Z.testbit_neg_r; lia]. rewrite s_bitat by lia. f_equal. lia.
    - apply m_shl_ok; auto. unfold shl_fine in Hf. destruct Hf as [|[H1|]]; [lia| |assumption].
      destruct Hwf as [L _]. destruct ws as [|a [|b r]]; cbn in L, E; try congruence; lia.
  Qed.
  Lemma shr_ok_ ws s : wf W N ws -> shr_fine s -> s < N -> post W N ws (bs_shr W N ws s) (raw_shr (bitat W ws) s).
  Proof using HW HN Wp W64.
    intros Hwf Hf Hs. unfold bs_shr. destruct (single ws) as [x|] eqn:E.
    - apply single_inv in E. subst ws. pose proof (wf_single W N x Wp Hwf) as (H1 & H2 & H3). unfold s_shift_right. destruct (Nat.leb_spec N s); [lia|]. rewrite shr_ok by lia. cbn [one rbind].
      eexists. split; [reflexivity|]. apply (by_elements W N HW HN); [cbn; lia|]. rewrite H2. intros i Hi. destruct i; [|lia]. cbn [nth Nat.mul Nat.add]. split; [apply word_tr|].
      intros j Hj. rewrite tr_bit, Z.shiftr_spec by lia. unfold zw. destruct (Z.ltb_spec (Z.of_nat j) (Z.of_nat W)); [|lia]. cbn [andb]. unfold raw_shr. rewrite H2.
      destruct (Nat.ltb_spec (j + s) (1 * W)); cbn [andb]; [rewrite s_bitat by lia; f_equal; lia|]. apply (word_bit W); [exact H3|unfold zw; lia].
    - apply m_shr_ok; auto. unfold shr_fine in Hf. destruct Hf as [|[H1|]]; [lia| |assumption].
      destruct Hwf as [L _]. destruct ws as [|a [|b r]]; cbn in L, E; try congruence; lia.
  Qed.
  Lemma sh_all_eq ws s : N <= s -> bs_shl W N ws s = Ok (bs_reset_all ws) /\ bs_shr W N ws s = Ok (bs_reset_all ws).
  Proof using HW HN Wp W64.
    intros H. unfold bs_shl, bs_shr, bs_reset_all, s_shift_left, s_shift_right, m_shift_left, m_shift_right.
    destruct (Nat.leb_spec N s); [|lia]. destruct (single ws); split; reflexivity.
  Qed.
End W.
