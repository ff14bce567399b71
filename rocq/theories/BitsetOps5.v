(** * bitset: extract *)
From Coq Require Import List Bool Arith ZArith Lia.
From Verif Require Import Util BinaryModel BinarySpec BinaryProofs BinaryProofs2 BinaryProofs4 BitsetSpec BitsetModel BitsetProofs BitsetOps BitsetOps2.
Import ListNotations.
Local Open Scope nat_scope.

  Lemma nth_firstn_in (l : list bool) n k : k < n -> nth k (firstn n l) false = nth k l false.
  Proof. revert n k; induction l as [|a l IH]; intros n k H; [rewrite firstn_nil; reflexivity|]. destruct n; [lia|]. destruct k; [reflexivity|]. cbn. apply IH. lia. Qed.
  Lemma nth_skipn_off (l : list bool) n k : nth k (skipn n l) false = nth (n + k) l false.
  Proof. revert l; induction n as [|n IH]; intros l; [reflexivity|]. destruct l; cbn [skipn Nat.add nth]; [destruct k; reflexivity|]. apply IH. Qed.

Section W.
  Variables W N : nat.
  Hypothesis HW : bwidth W.
  Hypothesis HN : 0 < N.
  Let Wp : 0 < W. Proof. apply bw_pos in HW; lia. Qed.
  Let W64 : W <= 64. Proof. apply bw_pos in HW; lia. Qed.
  Variable ws : list Z.
  Hypothesis Hwf : wf W N ws.

  (** v consists of the m bits from position a on *)
  Definition isseg (v : Z) (a m : nat) : Prop := (0 <= v)%Z /\ forall k, Z.testbit v (Z.of_nat k) = (k <? m) && bitat W ws (a + k).
  Lemma seg_join u w a m k : isseg u (a + m) k -> isseg w a m -> isseg ((u << Z.of_nat m) ||| w) a (m + k).
  Proof using HW HN Wp W64 Hwf.
    intros [Hu0 Hu] [Hw0 Hw]. split; [apply Z.lor_nonneg; split; [apply Z.shiftl_nonneg; exact Hu0|exact Hw0]|]. intros j. rewrite Z.lor_spec, Hw, Z.shiftl_spec by lia.
    destruct (Nat.ltb_spec j m) as [L|L].
    - rewrite Z.testbit_neg_r by lia. destruct (Nat.ltb_spec j (m + k)); [reflexivity|lia].
    - replace (Z.of_nat j - Z.of_nat m)%Z with (Z.of_nat (j - m)) by lia. rewrite Hu. replace (a + m + (j - m)) with (a + j) by lia. cbn [andb]. rewrite orb_false_r.
      destruct (Nat.ltb_spec (j - m) k), (Nat.ltb_spec j (m + k)); try lia; reflexivity.
  Qed.
  Lemma seg_word v a m wt : isseg v a m -> m <= wt -> word wt v.
  Proof using HW HN Wp W64 Hwf.
    intros [H0 H] Hm. split; [exact H0|]. assert (E : v = tr (zw wt) v).
    { apply Z.bits_inj'. intros j Hj. rewrite tr_bit by lia. unfold zw. destruct (Z.ltb_spec j (Z.of_nat wt)); [reflexivity|]. cbn [andb].
      replace j with (Z.of_nat (Z.to_nat j)) by lia. rewrite H. destruct (Nat.ltb_spec (Z.to_nat j) m); [lia|reflexivity]. }
    rewrite E. apply Z.mod_pos_bound. apply Z.pow_pos_nonneg; unfold zw; lia.
  Qed.
  Lemma tr_word wt v : word wt v -> tr (zw wt) v = v. Proof using HW HN Wp W64 Hwf. intros H. apply Z.mod_small. exact H. Qed.
  Lemma seg_0 a : isseg 0 a 0. Proof using HW HN Wp W64 Hwf. split; [lia|]. intros k. rewrite Z.bits_0. reflexivity. Qed.
  Lemma seg_elem i : isseg (nth i ws 0%Z) (i * W) W.
  Proof using HW HN Wp W64 Hwf.
    destruct Hwf as [L F]. pose proof (forall_nth W ws i F) as Hw. split; [apply Hw|]. intros k. destruct (Nat.ltb_spec k W); cbn [andb]; [now rewrite bitat_ij|].
    apply (word_bit W); [exact Hw|unfold zw; lia].
  Qed.
  (** the low / high part of an element *)
  Lemma seg_low i m : m <= W -> isseg (nth i ws 0%Z &&& (2 ^ Z.of_nat m - 1)) (i * W) m.
  Proof using HW HN Wp W64 Hwf.
    intros Hm. destruct (seg_elem i) as [E0 E]. split; [apply Z.land_nonneg; left; exact E0|]. intros k. rewrite Z.land_spec, E.
    replace (2 ^ Z.of_nat m - 1)%Z with (Z.ones (Z.of_nat m)) by (rewrite Z.ones_equiv; lia). rewrite Z.testbit_ones by lia.
    destruct (Z.leb_spec 0 (Z.of_nat k)); [|lia]. cbn [andb].
    destruct (Nat.ltb_spec k m), (Nat.ltb_spec k W), (Z.ltb_spec (Z.of_nat k) (Z.of_nat m)); try lia; cbn [andb]; rewrite ?andb_true_r, ?andb_false_r; reflexivity.
  Qed.
  Lemma seg_slice i s m : s + m <= W -> isseg ((nth i ws 0%Z >> Z.of_nat s) &&& (2 ^ Z.of_nat m - 1)) (i * W + s) m.
  Proof using HW HN Wp W64 Hwf.
    intros Hm. destruct (seg_elem i) as [E0 E]. split; [apply Z.land_nonneg; left; apply Z.shiftr_nonneg; exact E0|]. intros k. rewrite Z.land_spec, Z.shiftr_spec by lia.
    replace (Z.of_nat k + Z.of_nat s)%Z with (Z.of_nat (s + k)) by lia. rewrite E.
    replace (2 ^ Z.of_nat m - 1)%Z with (Z.ones (Z.of_nat m)) by (rewrite Z.ones_equiv; lia). rewrite Z.testbit_ones by lia.
    destruct (Z.leb_spec 0 (Z.of_nat k)); [|lia]. cbn [andb]. replace (i * W + s + k) with (i * W + (s + k)) by lia.
    destruct (Nat.ltb_spec k m), (Nat.ltb_spec (s + k) W), (Z.ltb_spec (Z.of_nat k) (Z.of_nat m)); try lia; cbn [andb]; rewrite ?andb_true_r, ?andb_false_r; reflexivity.
  Qed.
  Lemma seg_or_wide wt u w a m k : isseg u (a + m) k -> isseg w a m -> m + k <= wt -> tr (zw wt) ((u << Z.of_nat m) ||| w) = ((u << Z.of_nat m) ||| w)%Z.
  Proof using HW HN Wp W64 Hwf. intros Hu Hw H. apply tr_word. eapply seg_word; [apply (seg_join u w a m k Hu Hw)|exact H]. Qed.
  Lemma seg_shl_wide wt u a m k : isseg u a k -> m + k <= wt -> tr (zw wt) (u << Z.of_nat m) = (u << Z.of_nat m)%Z.
  Proof using HW HN Wp W64 Hwf.
    intros [Hu0 Hu] H. apply Z.bits_inj'. intros j Hj. rewrite tr_bit, Z.shiftl_spec by lia. unfold zw. destruct (Z.ltb_spec j (Z.of_nat wt)); [reflexivity|]. cbn [andb].
    replace (j - Z.of_nat m)%Z with (Z.of_nat (Z.to_nat (j - Z.of_nat m))) by lia. rewrite Hu. destruct (Nat.ltb_spec (Z.to_nat (j - Z.of_nat m)) k); [lia|reflexivity].
  Qed.

  Variables wt pos len : nat.
  Hypothesis Hlen : 0 < len <= wt.
  Hypothesis Hpos : pos + len <= N.
  (** before an iteration: bits [pos + l, pos + len) collected; moved up when another full element follows *)
  Definition ready (value : Z) (l : nat) : Prop :=
    exists u, isseg u (pos + l) (len - l) /\ value = (if W <=? l then (u << Z.of_nat W)%Z else u).
  Lemma extract_loop_ok k : forall value e l, l < k * W -> l <= len -> Z.of_nat (pos + l) = ((e + 1) * Z.of_nat W)%Z -> (W <= l -> W < len) -> ready value l ->
    exists v' e' l', m_extract_loop W wt ws k value e l = Ok (v', e', l') /\ l' < W /\ l' <= len /\ Z.of_nat (pos + l') = ((e' + 1) * Z.of_nat W)%Z /\ ready v' l'.
  Proof using HW HN Wp W64 Hwf Hlen Hpos.
    induction k as [|k IH]; intros value e l Hk Hl He Hw Hr; [lia|]. cbn [m_extract_loop]. pose proof (nelem_bound W N Wp) as [B1 B2].
    destruct (Nat.leb_spec W l) as [G|G].
    2:{ exists value, e, l. conj; auto. }
    destruct Hr as (u & Hu & Ev). destruct (Nat.leb_spec W l) as [_|]; [|lia].
    assert (He0 : (0 <= e)%Z) by nia. destruct (Z.ltb_spec e 0); [lia|]. set (i := Z.to_nat e). assert (Ei : Z.of_nat i = e) by lia.
    assert (Hpl : pos + l = (i + 1) * W) by nia.
    assert (Hi : i < List.length ws). { destruct Hwf as [L _]. rewrite L. assert (N <= nelem W N * W) by lia. nia. }
    rewrite rd_ok by exact Hi. cbn [rbind].
    assert (Hj : isseg ((u << Z.of_nat W) ||| nth i ws 0%Z) (pos + (l - W)) (len - (l - W))).
    { replace (len - (l - W)) with (W + (len - l)) by lia. apply seg_join; [replace (pos + (l - W) + W) with (pos + l) by lia; exact Hu|]. replace (pos + (l - W)) with (i * W) by nia. apply seg_elem. }
    replace (tr (zw wt) (value ||| nth i ws 0%Z)) with ((u << Z.of_nat W) ||| nth i ws 0%Z)%Z by (rewrite Ev; symmetry; apply tr_word; eapply seg_word; [exact Hj|lia]).
    assert (Hstep : exists v2, (if W <=? l - W then shl wt ((u << Z.of_nat W) ||| nth i ws 0%Z) W else Ok ((u << Z.of_nat W) ||| nth i ws 0%Z)%Z) = Ok v2 /\ ready v2 (l - W)).
    { destruct (Nat.leb_spec W (l - W)) as [G2|G2].
      - rewrite shl_ok by lia. eexists. split; [reflexivity|]. exists ((u << Z.of_nat W) ||| nth i ws 0%Z)%Z. split; [exact Hj|].
        destruct (Nat.leb_spec W (l - W)); [|lia]. eapply seg_shl_wide; [exact Hj|lia].
      - eexists. split; [reflexivity|]. exists ((u << Z.of_nat W) ||| nth i ws 0%Z)%Z. split; [exact Hj|]. destruct (Nat.leb_spec W (l - W)); [lia|reflexivity]. }
    destruct Hstep as (v2 & E2 & R2). rewrite E2. cbn [rbind]. apply IH; auto; lia.
  Qed.
  Lemma extract_multi_ok : (pos + len - 1) / W <> pos / W ->
    exists v, m_extract_buffer W wt ws pos len = Ok v /\ isseg v pos len.
  Proof using HW HN Wp W64 Hwf Hlen Hpos.
    intros Hne. unfold m_extract_buffer. destruct (Nat.eqb_spec ((pos + len - 1) / W) (pos / W)); [contradiction|].
    destruct (split_p W (pos + len - 1) Wp) as [Em Hm]. destruct (split_p W pos Wp) as [Ep Hp].
    set (msb := (pos + len - 1) / W) in *. set (lsb := pos / W) in *. set (active := pos + len - msb * W).
    assert (Hlt : lsb < msb). { assert (lsb <= msb) by (apply Nat.div_le_mono; lia). lia. }
    assert (Hact : 0 < active <= W) by (unfold active; lia). assert (HactL : active < len) by (unfold active; nia).
    pose proof (nelem_bound W N Wp) as [B1 B2]. assert (Hmi : msb < nelem W N) by (apply idx_bound; lia). destruct Hwf as [Lw Fw].
    unfold m_extract_multi.
    assert (H1 : exists value e l, (if active <? W then
        do! v <- rd ws (Z.to_nat (Z.of_nat msb));
        let value := tr (zw wt) (v &&& make_lsb_mask (zw W) (Z.of_nat active)) in
        let length := len - active in
        do! value <- (if W <=? length then shl wt value W else Ok value);
        Ok (value, (Z.of_nat msb - 1)%Z, length)
      else Ok (0%Z, Z.of_nat msb, len)) = Ok (value, e, l) /\ l <= len /\ Z.of_nat (pos + l) = ((e + 1) * Z.of_nat W)%Z /\ (W <= l -> W < len) /\ ready value l).
    { destruct (Nat.ltb_spec active W) as [G|G].
      - rewrite Nat2Z.id, rd_ok by lia. cbn [rbind]. cbv zeta. rewrite make_lsb_ok by (unfold zw; lia).
        pose proof (seg_low msb active ltac:(lia)) as Hs. rewrite (tr_word wt) by (eapply seg_word; [exact Hs|lia]).
        set (u := (nth msb ws 0 &&& (2 ^ Z.of_nat active - 1))%Z) in *.
        assert (Hu : isseg u (pos + (len - active)) (len - (len - active))) by (replace (pos + (len - active)) with (msb * W) by (unfold active; lia); replace (len - (len - active)) with active by lia; exact Hs).
        assert (Hst : exists v2, (if W <=? len - active then shl wt u W else Ok u) = Ok v2 /\ ready v2 (len - active)).
        { destruct (Nat.leb_spec W (len - active)) as [G2|G2].
          - rewrite shl_ok by lia. eexists. split; [reflexivity|]. exists u. split; [exact Hu|]. destruct (Nat.leb_spec W (len - active)); [|lia]. eapply seg_shl_wide; [exact Hu|lia].
          - eexists. split; [reflexivity|]. exists u. split; [exact Hu|]. destruct (Nat.leb_spec W (len - active)); [lia|reflexivity]. }
        destruct Hst as (v2 & E2 & R2). rewrite E2. cbn [rbind]. exists v2, (Z.of_nat msb - 1)%Z, (len - active). conj; auto; unfold active in *; lia.
      - exists 0%Z, (Z.of_nat msb), len. conj; auto; try (unfold active in *; lia). exists 0%Z. rewrite Nat.sub_diag. split; [apply seg_0|]. rewrite Z.shiftl_0_l. now destruct (W <=? len). }
    destruct H1 as (value & e & l & E1 & Hl1 & He1 & Hw1 & R1). cbv zeta in E1. cbv zeta. rewrite E1. cbn [rbind].
    destruct (extract_loop_ok (S (List.length ws)) value e l) as (v' & e' & l' & E2 & Hl2 & Hl3 & He2 & (u & Hu & Ev)); auto; [rewrite Lw; nia|].
    rewrite E2. cbn [rbind]. destruct (Nat.leb_spec W l'); [lia|]. subst v'.
    destruct (Nat.eqb_spec l' 0) as [->|Hnz].
    - exists u. split; [reflexivity|]. rewrite Nat.add_0_r, Nat.sub_0_r in Hu. exact Hu.
    - assert (Hlt' : l' < len).
      { destruct (Nat.eq_dec l' len) as [e0|]; [|lia]. exfalso. assert (Ha : Z.of_nat active = ((e' + 1 - Z.of_nat msb) * Z.of_nat W)%Z) by (unfold active; nia).
        assert (e' + 1 - Z.of_nat msb >= 1)%Z by nia. nia. }
      rewrite shl_ok by lia. cbn [rbind]. assert (He0 : (0 <= e')%Z) by nia. destruct (Z.ltb_spec e' 0); [lia|].
      set (i := Z.to_nat e') in *. assert (Ei : Z.of_nat i = e') by lia. assert (Hpl : pos + l' = (i + 1) * W) by nia.
      assert (Hi : i < List.length ws) by (rewrite Lw; nia). rewrite rd_ok by exact Hi. cbn [rbind]. rewrite shr_ok by lia. cbn [rbind].
      eexists. split; [reflexivity|]. rewrite make_lsb_ok by (unfold zw; lia).
      rewrite (seg_shl_wide wt u (pos + l') l' (len - l')) by (exact Hu || lia).
      pose proof (seg_slice i (W - l') l' ltac:(lia)) as Hs. replace (i * W + (W - l')) with pos in Hs by nia.
      rewrite (tr_word W (nth i ws 0%Z >> Z.of_nat (W - l'))).
      + rewrite (seg_or_wide wt u _ pos l' (len - l')) by (assumption || lia). pose proof (seg_join _ _ _ _ _ Hu Hs) as J. replace (l' + (len - l')) with len in J by lia. exact J.
      + pose proof (forall_nth W ws i Fw) as [W1 W2]. split; [apply Z.shiftr_nonneg; exact W1|]. rewrite Z.shiftr_div_pow2 by lia. eapply Z.le_lt_trans; [|exact W2].
        apply Z.div_le_upper_bound; [apply Z.pow_pos_nonneg; lia|]. assert (0 < 2 ^ Z.of_nat (W - l'))%Z by (apply Z.pow_pos_nonneg; lia). nia.
  Qed.
  Lemma shr_word i s : word W (nth i ws 0%Z >> Z.of_nat s).
  Proof using HW HN Wp W64 Hwf Hlen Hpos.
    destruct Hwf as [_ Fw]. pose proof (forall_nth W ws i Fw) as [W1 W2]. split; [apply Z.shiftr_nonneg; exact W1|]. rewrite Z.shiftr_div_pow2 by lia. eapply Z.le_lt_trans; [|exact W2].
    apply Z.div_le_upper_bound; [apply Z.pow_pos_nonneg; lia|]. assert (0 < 2 ^ Z.of_nat s)%Z by (apply Z.pow_pos_nonneg; lia). nia.
  Qed.
  Lemma one_elem i : pos / W = i -> (pos + len - 1) / W = i -> isseg (tr (zw wt) (nth i ws 0%Z >> Z.of_nat (pos mod W)) &&& make_lsb_mask (zw wt) (Z.of_nat len)) pos len.
  Proof using HW HN Wp W64 Hwf Hlen Hpos.
    intros H1 H2. destruct (split_p W (pos + len - 1) Wp) as [Em Hm]. destruct (split_p W pos Wp) as [Ep Hp]. rewrite H1 in Ep. rewrite H2 in Em.
    rewrite make_lsb_ok by (unfold zw; lia). pose proof (seg_slice i (pos mod W) len ltac:(lia)) as Hs. rewrite <- Ep in Hs.
    replace (tr (zw wt) (nth i ws 0%Z >> Z.of_nat (pos mod W)) &&& (2 ^ Z.of_nat len - 1))%Z with ((nth i ws 0%Z >> Z.of_nat (pos mod W)) &&& (2 ^ Z.of_nat len - 1))%Z; [exact Hs|].
    replace (2 ^ Z.of_nat len - 1)%Z with (Z.ones (Z.of_nat len)) by (rewrite Z.ones_equiv; lia).
    apply Z.bits_inj'. intros j Hj. rewrite !Z.land_spec, tr_bit, Z.testbit_ones by lia. unfold zw.
    destruct (Z.ltb_spec j (Z.of_nat wt)); [reflexivity|]. destruct (Z.ltb_spec j (Z.of_nat len)); [lia|]. rewrite !andb_false_r. reflexivity.
  Qed.
  Lemma extract_raw : exists v, (match single ws with Some x => s_extract W wt x pos len | None => m_extract_buffer W wt ws pos len end) = Ok v /\ isseg v pos len.
  Proof using HW HN Wp W64 Hwf Hlen Hpos.
    destruct (single ws) as [x|] eqn:E.
    - apply single_inv in E. assert (Hwf1 : wf W N [x]) by (rewrite <- E; exact Hwf). destruct (wf_single W N x Wp Hwf1) as (S1 & S2 & S3). unfold s_extract. rewrite shr_ok by (pose proof (Nat.mod_upper_bound pos W); lia). cbn [rbind]. eexists. split; [reflexivity|].
      replace x with (nth 0 ws 0%Z) by (rewrite E; reflexivity). rewrite (tr_word W _ (shr_word 0 _)). apply one_elem; apply Nat.div_small; lia.
    - destruct (Nat.eq_dec ((pos + len - 1) / W) (pos / W)) as [e|ne]; [|now apply extract_multi_ok].
      unfold m_extract_buffer. rewrite e, Nat.eqb_refl. assert (Hi : pos / W < List.length ws) by (destruct Hwf as [L _]; rewrite L; pose proof (nelem_bound W N Wp); apply idx_bound; lia).
      rewrite rd_ok by exact Hi. cbn [rbind]. rewrite shr_ok by (pose proof (Nat.mod_upper_bound pos W); lia). cbn [rbind]. eexists. split; [reflexivity|].
      rewrite (tr_word W _ (shr_word (pos / W) _)). apply one_elem; auto.
  Qed.
  Lemma slice_len : List.length (sp_slice (bits W N ws) pos len) = len.
  Proof using HW HN Wp W64 Hwf Hlen Hpos. unfold sp_slice. rewrite firstn_length, skipn_length, bits_len. lia. Qed.
  Lemma seg_value v : isseg v pos len -> v = sp_value (sp_slice (bits W N ws) pos len).
  Proof using HW HN Wp W64 Hwf Hlen Hpos.
    intros H. pose proof (seg_word v pos len len H (le_n _)) as Hw. pose proof (sp_value_range (sp_slice (bits W N ws) pos len)) as R. rewrite slice_len in R.
    apply (word_ext len); [exact Hw|exact R|]. intros j Hj. rewrite sp_value_bit. destruct H as [_ H]. rewrite H. destruct (Nat.ltb_spec j len); [|lia]. cbn [andb].
    unfold sp_slice. rewrite nth_firstn_in by lia. rewrite nth_skipn_off. rewrite bits_nth by lia. reflexivity.
  Qed.
  Lemma extract_ok is_signed : (Z.of_nat N < 2 ^ 64)%Z ->
    bs_extract W N wt is_signed ws (Z.of_nat pos) (Z.of_nat len) =
    Ok (let b := sp_slice (bits W N ws) pos len in if is_signed then sp_signed b else sp_value b).
  Proof using HW HN Wp W64 Hwf Hlen Hpos.
    intros HN64. unfold bs_extract. destruct (Z.leb_spec (Z.of_nat len) (Z.of_nat wt)); [|lia]. unfold tr at 1. rewrite Z.mod_small by lia.
    destruct (Z.leb_spec (Z.of_nat pos + Z.of_nat len) (Z.of_nat N)); [|lia]. destruct (Z.eqb_spec (Z.of_nat len) 0); [lia|]. destruct (Z.ltb_spec (Z.of_nat (N + wt)) (Z.of_nat pos)); [lia|].
    rewrite !Nat2Z.id. destruct extract_raw as (v & E & Hs). rewrite E. cbn [rbind]. f_equal. pose proof (seg_word v pos len len Hs (le_n _)) as Hv. pose proof (seg_value v Hs) as Ev. cbv zeta. unfold extend. destruct is_signed; [|exact Ev].
    unfold sp_signed. cbv zeta. rewrite slice_len, <- Ev. unfold word, zw in Hv.
    assert (Esg : sg (Z.of_nat len) v = (if v <? 2 ^ (Z.of_nat len - 1) then v else v - 2 ^ Z.of_nat len)%Z) by (unfold sg; cbv zeta; rewrite Z.mod_small by exact Hv; reflexivity).
    destruct (Nat.eqb_spec len wt) as [e|ne].
    - unfold zw. rewrite <- e. exact Esg.
    - rewrite sign_extend_eq by (unfold zw; lia). rewrite <- Esg.
      assert (P : (2 ^ Z.of_nat len = 2 * 2 ^ (Z.of_nat len - 1))%Z) by (rewrite <- Z.pow_succ_r by lia; f_equal; lia).
      assert (Q : (2 ^ Z.of_nat len <= 2 ^ (zw wt - 1))%Z) by (apply Z.pow_le_mono_r; unfold zw; lia).
      assert (P2 : (2 ^ zw wt = 2 * 2 ^ (zw wt - 1))%Z) by (rewrite <- Z.pow_succ_r by (unfold zw; lia); f_equal; lia).
      rewrite Esg. unfold sg. cbv zeta. destruct (Z.ltb_spec v (2 ^ (Z.of_nat len - 1))) as [G|G].
      + rewrite Z.mod_small by lia. destruct (Z.ltb_spec v (2 ^ (zw wt - 1))); [reflexivity|lia].
      + replace (v - 2 ^ Z.of_nat len)%Z with ((v - 2 ^ Z.of_nat len + 2 ^ zw wt) + (-1) * 2 ^ zw wt)%Z by lia. rewrite Z.mod_add by lia. rewrite Z.mod_small by lia.
        destruct (Z.ltb_spec (v - 2 ^ Z.of_nat len + 2 ^ zw wt) (2 ^ (zw wt - 1))); lia.
  Qed.
End W.
