(** * bitset: find, shifts *)
From Coq Require Import List Bool Arith ZArith Lia.
From Verif Require Import Util BinaryModel BinarySpec BinaryProofs BinaryProofs2 BinaryProofs4 BitsetSpec BitsetModel BitsetProofs BitsetOps BitsetOps2.
Import ListNotations.
Local Open Scope nat_scope.

(** first q in [p, p+k) with f q *)
Fixpoint ffrom (f : nat -> bool) (p k : nat) : option nat :=
  match k with O => None | S k' => if f p then Some p else ffrom f (S p) k' end.
Lemma ffrom_app f p a b : ffrom f p (a + b) = match ffrom f p a with Some q => Some q | None => ffrom f (p + a) b end.
Proof.
  revert p; induction a as [|a IH]; intros p; cbn [ffrom Nat.add]; [now rewrite Nat.add_0_r|].
  destruct (f p); [reflexivity|]. rewrite IH. replace (S p + a) with (p + S a) by lia. reflexivity.
Qed.
Lemma ffrom_none f p k : (forall q, p <= q < p + k -> f q = false) -> ffrom f p k = None.
Proof. revert p; induction k as [|k IH]; intros p H; [reflexivity|]. cbn [ffrom]. rewrite H by lia. apply IH. intros q Hq. apply H. lia. Qed.
Lemma ffrom_ext f g p k : (forall q, p <= q < p + k -> f q = g q) -> ffrom f p k = ffrom g p k.
Proof. revert p; induction k as [|k IH]; intros p H; [reflexivity|]. cbn [ffrom]. rewrite H by lia. rewrite (IH (S p)); [reflexivity|]. intros q Hq. apply H. lia. Qed.
Lemma find_seq_ffrom f a n : find f (seq a n) = ffrom f a n.
Proof. revert a; induction n as [|n IH]; intros a; [reflexivity|]. cbn [seq find ffrom]. rewrite IH. reflexivity. Qed.
Lemma sp_find_ffrom b state p : sp_find b state p = ffrom (fun q => Bool.eqb (nth q b false) state) p (List.length b - p).
Proof.
  unfold sp_find, sp_test. rewrite find_seq_ffrom. destruct (Nat.leb_spec p (List.length b)) as [H|H].
  - replace (List.length b) with (p + (List.length b - p)) at 1 by lia. rewrite ffrom_app.
    rewrite ffrom_none by (intros q Hq; destruct (Nat.leb_spec p q); [lia|reflexivity]). cbn [Nat.add].
    apply ffrom_ext. intros q Hq. destruct (Nat.leb_spec p q); [reflexivity|lia].
  - replace (List.length b - p) with 0 by lia. apply ffrom_none. intros q Hq. destruct (Nat.leb_spec p q); [lia|reflexivity].
Qed.

Section W.
  Variables W N : nat.
  Hypothesis HW : bwidth W.
  Hypothesis HN : 0 < N.
  Let Wp : 0 < W. Proof. apply bw_pos in HW; lia. Qed.
  Let W64 : W <= 64. Proof. apply bw_pos in HW; lia. Qed.

  Lemma mask_step s : s < W -> tr (zw W) ((2 ^ Z.of_nat s) << 1) = if S s =? W then 0%Z else (2 ^ Z.of_nat (S s))%Z.
  Proof using HW HN Wp W64.
    intros Hs. rewrite Z.shiftl_mul_pow2 by lia. replace (2 ^ Z.of_nat s * 2 ^ 1)%Z with (2 ^ Z.of_nat (S s))%Z.
    2:{ rewrite Nat2Z.inj_succ, Z.pow_succ_r by lia. lia. }
    unfold tr, zw. destruct (Nat.eqb_spec (S s) W) as [->|].
    - apply Z.mod_same. apply Z.pow_nonzero; lia.
    - apply Z.mod_small. split; [apply Z.pow_nonneg; lia|]. apply Z.pow_lt_mono_r; lia.
  Qed.
  (** the loop inside one element *)
  Lemma find_bits_ok state v todo : forall pos mask, todo <= W ->
    (0 < todo -> mask = (2 ^ Z.of_nat (W - todo))%Z) ->
    let f := fun q => Bool.eqb (Z.testbit v (Z.of_nat (W - todo + (q - pos)))) state in
    match m_find_bits W N state v mask pos todo with
    | (Some q, _, _) => ffrom f pos (Nat.min todo (N - pos)) = Some q
    | (None, p', rest) => ffrom f pos (Nat.min todo (N - pos)) = None /\ p' + rest = pos + todo
    end.
  Proof using HW HN Wp W64.
    induction todo as [|k IH]; intros pos mask Ht Hm f.
    - cbn [m_find_bits Nat.min ffrom]. split; [reflexivity|lia].
    - cbn [m_find_bits]. destruct (Nat.ltb_spec pos N) as [Hp|Hp].
      + rewrite (Hm ltac:(lia)). replace (Nat.min (S k) (N - pos)) with (S (Nat.min k (N - S pos))) by lia. cbn [ffrom].
        rewrite (testmask v _ (Z.of_nat (W - S k))) by (lia || (intros z Hz; apply (pow_bit W HW); lia)).
        unfold f at 1 3. rewrite Nat.sub_diag, Nat.add_0_r. destruct (Bool.eqb (Z.testbit v (Z.of_nat (W - S k))) state) eqn:E.
        * reflexivity.
        * specialize (IH (S pos) (tr (zw W) ((2 ^ Z.of_nat (W - S k)) << 1)) ltac:(lia)).
          assert (Hm' : 0 < k -> tr (zw W) ((2 ^ Z.of_nat (W - S k)) << 1) = (2 ^ Z.of_nat (W - k))%Z).
          { intros Hk. rewrite mask_step by lia. replace (S (W - S k)) with (W - k) by lia. destruct (Nat.eqb_spec (W - k) W); [lia|reflexivity]. }
          specialize (IH Hm'). cbv zeta in IH.
          rewrite (ffrom_ext f (fun q => Bool.eqb (Z.testbit v (Z.of_nat (W - k + (q - S pos)))) state)) by (intros q Hq; unfold f; do 3 f_equal; lia).
          destruct (m_find_bits W N state v _ (S pos) k) as [[[q|] p'] rest]; [exact IH|]. destruct IH. split; [assumption|lia].
      + replace (Nat.min (S k) (N - pos)) with 0 by lia. split; [reflexivity|lia].
  Qed.
  Lemma find_loop_ok state ws : Forall (word W) ws -> forall i bit, bit < W ->
    m_find_loop W N state ws (i * W + bit) bit (2 ^ Z.of_nat bit) =
    ffrom (fun q => Bool.eqb (bitat W ws (q - i * W)) state) (i * W + bit) (Nat.min (List.length ws * W - bit) (N - (i * W + bit))).
  Proof using HW HN Wp W64.
    induction 1 as [|v r Hv F IH]; intros i bit Hb; [reflexivity|]. cbn [m_find_loop List.length].
    set (f := fun q => Bool.eqb (bitat W (v :: r) (q - i * W)) state). set (pos := i * W + bit).
    assert (Esp : Nat.min (S (List.length r) * W - bit) (N - pos) = Nat.min (W - bit) (N - pos) + Nat.min (List.length r * W) (N - (pos + (W - bit)))) by lia.
    rewrite Esp, ffrom_app.
    assert (Eblk : forall q, pos <= q < pos + (W - bit) -> f q = Bool.eqb (Z.testbit v (Z.of_nat (W - (W - bit) + (q - pos)))) state).
    { intros q Hq. unfold f, bitat, pos in *. rewrite Nat.div_small, Nat.mod_small by lia. cbn [nth]. do 3 f_equal. lia. }
    assert (Erest : m_find_loop W N state r (pos + (W - bit)) 0 1 = ffrom f (pos + (W - bit)) (Nat.min (List.length r * W) (N - (pos + (W - bit))))).
    { replace (pos + (W - bit)) with (S i * W + 0) by (unfold pos; lia). change 1%Z with (2 ^ Z.of_nat 0)%Z. rewrite IH by lia. rewrite Nat.sub_0_r.
      apply ffrom_ext. intros q Hq. unfold f, bitat. replace (q - i * W) with ((q - S i * W) + 1 * W) by lia. rewrite Nat.div_add, Nat.mod_add by lia. rewrite Nat.add_1_r. reflexivity. }
    destruct ((state && negb (v =? 0)%Z) || (negb state && negb (v =? all_set W)%Z)) eqn:C.
    - pose proof (find_bits_ok state v (W - bit) pos (2 ^ Z.of_nat bit)%Z ltac:(lia)) as H. replace (W - (W - bit)) with bit in H by lia. specialize (H ltac:(intros; reflexivity)). cbv zeta in H.
      rewrite (ffrom_ext f (fun q => Bool.eqb (Z.testbit v (Z.of_nat (bit + (q - pos)))) state) pos (Nat.min (W - bit) (N - pos))).
      2:{ intros q Hq. rewrite Eblk by lia. do 3 f_equal. lia. }
      destruct (m_find_bits W N state v (2 ^ Z.of_nat bit) pos (W - bit)) as [[[q|] p'] rest].
      + rewrite H. reflexivity.
      + destruct H as [H1 H2]. rewrite H1, H2. destruct (Nat.le_gt_cases (W - bit) (N - pos)) as [G|G].
        * replace (Nat.min (W - bit) (N - pos)) with (W - bit) by lia. exact Erest.
        * rewrite Erest. replace (N - (pos + (W - bit))) with 0 by lia. rewrite Nat.min_0_r. reflexivity.
    - rewrite (ffrom_none f pos (Nat.min (W - bit) (N - pos))).
      + rewrite Erest. destruct (Nat.le_gt_cases (W - bit) (N - pos)) as [G|G].
        * replace (Nat.min (W - bit) (N - pos)) with (W - bit) by lia. reflexivity.
        * replace (N - (pos + (W - bit))) with 0 by lia. rewrite Nat.min_0_r. reflexivity.
      + intros q Hq. rewrite Eblk by lia. destruct state; cbn [andb negb orb] in C.
        * rewrite orb_false_r in C. destruct (Z.eqb_spec v 0) as [->|]; [|discriminate]. rewrite Z.bits_0. reflexivity.
        * destruct (Z.eqb_spec v (all_set W)) as [->|]; [|discriminate]. rewrite all_set_bit by lia. unfold zw. destruct (Z.ltb_spec (Z.of_nat (W - (W - bit) + (q - pos))) (Z.of_nat W)); [reflexivity|lia].
  Qed.
  (** the condition under which [1 << bit] is the wanted mask *)
  Definition mask_fine (p : nat) : Prop := W <= 32 \/ p mod W < 31.
  Lemma int_mask_ok p : mask_fine p -> int_one_shl W (p mod W) = Ok (2 ^ Z.of_nat (p mod W))%Z.
  Proof using HW HN Wp W64.
    intros H. pose proof (Nat.mod_upper_bound p W ltac:(lia)) as Hm. unfold int_one_shl. destruct (Nat.ltb_spec (p mod W) 32); [|unfold mask_fine in H; lia].
    f_equal. rewrite Z.shiftl_1_l. set (s := p mod W) in *.
    assert (E : forall z, tr (zw W) (z - 2 ^ 32) = tr (zw W) z \/ W = 64) by (intros z; destruct HW as [e|[e|[e|e]]]; rewrite e; [left|left|left|right; reflexivity]; unfold tr, zw; [replace (z - 2 ^ 32)%Z with (z + (- 2 ^ 24) * 2 ^ Z.of_nat 8)%Z by lia|replace (z - 2 ^ 32)%Z with (z + (- 2 ^ 16) * 2 ^ Z.of_nat 16)%Z by lia|replace (z - 2 ^ 32)%Z with (z + (- 1) * 2 ^ Z.of_nat 32)%Z by lia]; apply Z.mod_add; lia).
    assert (Hp : (0 < 2 ^ Z.of_nat s < 2 ^ 32)%Z) by (split; [apply Z.pow_pos_nonneg; lia|apply Z.pow_lt_mono_r; lia]).
    unfold sg. cbv zeta. rewrite Z.mod_small by lia. transitivity (tr (zw W) (2 ^ Z.of_nat s)); [|rewrite <- Z.shiftl_1_l; rewrite one_mask_eq by exact Hm; now rewrite Z.shiftl_1_l].
    destruct (Z.ltb_spec (2 ^ Z.of_nat s) (2 ^ (32 - 1))) as [L|L]; [reflexivity|]. destruct (E (2 ^ Z.of_nat s)%Z) as [E'|E']; [exact E'|].
    exfalso. destruct H; [lia|]. assert (2 ^ Z.of_nat s < 2 ^ (32 - 1))%Z by (apply Z.pow_lt_mono_r; lia). lia.
  Qed.
  Lemma m_find_ok ws state p : wf W N ws -> mask_fine p -> m_find W N ws state p = Ok (sp_find (bits W N ws) state p).
  Proof using HW HN Wp W64.
    intros [L F] Hmf. unfold m_find. rewrite int_mask_ok by exact Hmf. cbn [rbind]. f_equal. rewrite sp_find_ffrom, bits_len.
    destruct (split_p W p Wp) as [Ep Hm]. pose proof (nelem_bound W N Wp) as [B1 B2].
    assert (F' : Forall (word W) (skipn (p / W) ws)) by (apply Forall_forall; rewrite Forall_forall in F; intros x Hx; apply F; rewrite <- (firstn_skipn (p / W) ws); apply in_or_app; now right).
    pose proof (find_loop_ok state _ F' (p / W) (p mod W) Hm) as H. rewrite <- Ep in H. rewrite H. clear H. rewrite skipn_length, L.
    replace (Nat.min ((nelem W N - p / W) * W - p mod W) (N - p)) with (N - p).
    2:{ rewrite Nat.mul_sub_distr_r. lia. }
    apply ffrom_ext. intros q Hq. rewrite bits_nth by lia. unfold bitat. f_equal.
    assert (Hq' : q = (q - p / W * W) + p / W * W) by lia. rewrite Hq' at 3 4. rewrite Nat.div_add, Nat.mod_add by lia. f_equal.
    generalize ((q - p / W * W) / W) as a. intros a. rewrite Nat.add_comm. revert ws L F F'. clear. intros ws _ _ _. revert ws; induction (p / W) as [|k IH]; intros ws; [reflexivity|].
    destruct ws; cbn [skipn]; [destruct a; reflexivity|]. apply IH.
  Qed.
  Lemma s_find_loop_ok state x k : forall pos mask, pos + k <= N -> N <= W -> (0 < k -> mask = (2 ^ Z.of_nat pos)%Z) ->
    s_find_loop W N state x mask pos k = ffrom (fun q => Bool.eqb (Z.testbit x (Z.of_nat q)) state) pos k.
  Proof using HW HN Wp W64.
    induction k as [|k IH]; intros pos mask Hp HNW Hm; [reflexivity|]. cbn [s_find_loop ffrom]. destruct (Nat.ltb_spec pos N); [|lia].
    rewrite (Hm ltac:(lia)). rewrite (testmask x _ (Z.of_nat pos)) by (lia || (intros z Hz; apply (pow_bit W HW); lia)).
    destruct (Bool.eqb _ state); [reflexivity|]. apply IH; try lia. intros Hk. rewrite mask_step by lia. destruct (Nat.eqb_spec (S pos) W); [lia|reflexivity].
  Qed.
  (** the condition for the Single implementation, where the shift is in unsigned int, or the Multi one *)
  Definition find_fine (p : nat) : Prop := W <= 32 \/ p mod W < 31 \/ (N <= 64 /\ p = 31) \/ (N <= 64 /\ N <= p).
  Lemma find_ok ws state p : wf W N ws -> find_fine p -> bs_find_next W N ws state p = Ok (sp_find (bits W N ws) state p).
  Proof using HW HN Wp W64.
    intros Hwf Hf. unfold bs_find_next. destruct (single ws) as [x|] eqn:E.
    - apply single_inv in E. subst ws. pose proof (wf_single W N x Wp Hwf) as (H1 & H2 & H3). unfold s_find.
      rewrite sp_find_ffrom, bits_len. destruct (Nat.ltb_spec p N) as [Hp|Hp]; [|replace (N - p) with 0 by lia; reflexivity].
      assert (Hp32 : p < 32). { unfold find_fine in Hf. rewrite Nat.mod_small in Hf by lia. lia. }
      destruct (Nat.ltb_spec p 32); [|lia]. cbn [rbind]. f_equal.
      assert (Em : tr (zw W) (tr 32 (1 << Z.of_nat p)) = (2 ^ Z.of_nat p)%Z).
      { replace (tr 32 (1 << Z.of_nat p)) with (1 << Z.of_nat p)%Z; [apply one_mask_eq; lia|]. symmetry. rewrite Z.shiftl_1_l. apply Z.mod_small. split; [apply Z.pow_nonneg; lia|]. apply Z.pow_lt_mono_r; lia. }
      rewrite Em. assert (Ebit : forall q, q < N -> nth q (bits W N [x]) false = Z.testbit x (Z.of_nat q)).
      { intros q Hq. rewrite bits_nth by lia. unfold bitat. rewrite Nat.div_small, Nat.mod_small by lia. reflexivity. }
      rewrite (ffrom_ext _ (fun q => Bool.eqb (Z.testbit x (Z.of_nat q)) state)) by (intros q Hq; rewrite Ebit by lia; reflexivity).
      destruct ((state && negb (x =? 0)%Z) || (negb state && negb (x =? all_set W)%Z)) eqn:C.
      + apply s_find_loop_ok; auto; lia.
      + symmetry. apply ffrom_none. intros q Hq. destruct state; cbn [andb negb orb] in C.
        * rewrite orb_false_r in C. destruct (Z.eqb_spec x 0) as [->|]; [|discriminate]. rewrite Z.bits_0. reflexivity.
        * destruct (Z.eqb_spec x (all_set W)) as [->|]; [|discriminate]. rewrite all_set_bit by lia. unfold zw. destruct (Z.ltb_spec (Z.of_nat q) (Z.of_nat W)); [reflexivity|lia].
    - destruct (Nat.le_gt_cases W 32) as [h|h]; [apply m_find_ok; [exact Hwf|left; exact h]|].
      assert (e : W = 64) by (unfold bwidth in HW; lia). assert (HN2 : 64 < N).
      { destruct (Nat.le_gt_cases N 64) as [g|]; [|assumption]. destruct Hwf as [L _]. assert (nelem W N = 1). { pose proof (nelem_bound W N Wp). nia. }
        destruct ws as [|a [|b r]]; cbn in L, E; try congruence; lia. }
      apply m_find_ok; [exact Hwf|]. unfold find_fine in Hf. unfold mask_fine. lia.
  Qed.
End W.
