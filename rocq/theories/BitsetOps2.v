(** * bitset: count, text, value, find *)
From Coq Require Import List Bool Arith ZArith Lia.
From Verif Require Import Util BinaryModel BinarySpec BinaryProofs BinaryProofs2 BinaryProofs4 BitsetSpec BitsetModel BitsetProofs BitsetOps.
Import ListNotations.
Local Open Scope nat_scope.

(** ** lists of bits *)
Lemma ones_in_filter l : ones_in l = Z.of_nat (List.length (filter (fun x : bool => x) l)).
Proof. induction l as [|[|] r IH]; cbn [ones_in filter List.length]; rewrite ?IH; lia. Qed.
Lemma bits_cons W x r n : 0 < W -> bits W (S n * W) (x :: r) = lsb_first (zw W) x ++ bits W (n * W) r.
Proof.
  intros HW. unfold bits. replace (S n * W) with (W + n * W) by lia. rewrite seq_app, map_app. f_equal.
  - unfold lsb_first, zw. rewrite Nat2Z.id. apply map_seq_ext. intros p Hp. unfold bitat. rewrite Nat.div_small, Nat.mod_small by lia. reflexivity.
  - cbn [Nat.add]. replace (seq W (n * W)) with (map (fun k => W + k) (seq 0 (n * W))).
    2:{ clear. generalize (n * W) as m. intros m. induction m as [|m IH]; [reflexivity|]. rewrite !seq_S, map_app, IH. reflexivity. }
    rewrite map_map. apply map_ext. intros p. unfold bitat. replace (W + p) with (p + 1 * W) by lia. rewrite Nat.div_add, Nat.mod_add by lia.
    rewrite Nat.add_1_r. reflexivity.
Qed.
Lemma m_count_ok W ws : bwidth W -> Forall (word W) ws -> m_count W ws = Z.of_nat (sp_count (bits W (List.length ws * W) ws)).
Proof.
  intros HW F. unfold sp_count. induction F as [|x r Hx F IH]; [reflexivity|]. cbn [List.length m_count].
  rewrite bits_cons by (apply bw_pos in HW; lia). rewrite filter_app, app_length, Nat2Z.inj_add, <- IH, <- ones_in_filter.
  f_equal. apply count_bits_ok; [now apply bw_width|exact Hx].
Qed.
Lemma filter_all_false (l : list bool) : (forall x, In x l -> x = false) -> filter (fun x => x) l = [].
Proof. induction l as [|a r IH]; intros H; [reflexivity|]. cbn. rewrite (H a) by (left; reflexivity). apply IH. intros x Hx. apply H. now right. Qed.
Lemma bits_split W N ws n : N <= n -> bits W n ws = bits W N ws ++ map (bitat W ws) (seq N (n - N)).
Proof. intros H. unfold bits. rewrite <- map_app. f_equal. replace n with (N + (n - N)) at 1 by lia. rewrite seq_app. reflexivity. Qed.

Lemma sp_value_bit b q : Z.testbit (sp_value b) (Z.of_nat q) = nth q b false.
Proof.
  revert q; induction b as [|x r IH]; intros q; [cbn [sp_value]; rewrite Z.bits_0; now destruct q|]. cbn [sp_value].
  assert (E : ((if x then 1 else 0) + 2 * sp_value r = 2 * sp_value r + Z.b2z x)%Z) by (destruct x; cbn [Z.b2z]; lia). rewrite E.
  destruct q as [|q]; [cbn [nth]; apply Z.testbit_0_r|]. cbn [nth]. rewrite Nat2Z.inj_succ. rewrite Z.testbit_succ_r by lia. apply IH.
Qed.
Lemma sp_value_range b : (0 <= sp_value b < 2 ^ Z.of_nat (List.length b))%Z.
Proof.
  induction b as [|x r IH]; [cbn; lia|]. cbn [sp_value List.length]. rewrite Nat2Z.inj_succ, Z.pow_succ_r by lia. destruct x; lia.
Qed.

Section W.
  Variables W N : nat.
  Hypothesis HW : bwidth W.
  Hypothesis HN : 0 < N.
  Let Wp : 0 < W. Proof. apply bw_pos in HW; lia. Qed.
  Let W64 : W <= 64. Proof. apply bw_pos in HW; lia. Qed.

  Lemma count_ok ws : wf W N ws -> bs_count W ws = Z.of_nat (sp_count (bits W (nelem W N * W) ws)).
  Proof using HW HN Wp W64.
    intros [L F]. rewrite <- L, <- m_count_ok by assumption. unfold bs_count. destruct (single ws) eqn:E; [|reflexivity].
    apply single_inv in E. subst. cbn [m_count]. lia.
  Qed.

  (** ** from_string *)
  Lemma from_loop_ok ws i t : Forall (word W) ws -> i <= List.length t -> i <= List.length ws * W ->
    exists ws', m_from_loop W ws i t = Ok ws' /\ Forall (word W) ws' /\ List.length ws' = List.length ws /\
      (forall q, bitat W ws' q = if q <? i then nth (i - 1 - q) t false else bitat W ws q).
  Proof using HW HN Wp W64.
    revert ws t; induction i as [|k IH]; intros ws t F Ht Hi; cbn [m_from_loop].
    - exists ws. conj; auto.
    - destruct t as [|c t]; [cbn in Ht; lia|]. assert (Hk : k / W < List.length ws) by (apply Nat.div_lt_upper_bound; lia).
      destruct (m_set_ok W HW ws k c F Hk) as (ws1 & E1 & F1 & L1 & B1). rewrite E1. cbn [rbind].
      destruct (IH ws1 t F1 ltac:(cbn in Ht; lia) ltac:(lia)) as (ws' & E' & F' & L' & B'). exists ws'. split; [exact E'|]. conj; auto; [lia|].
      intros q. rewrite B', B1. destruct (Nat.ltb_spec q k), (Nat.ltb_spec q (S k)); try lia.
      + replace (S k - 1 - q) with (S (k - 1 - q)) by lia. reflexivity.
      + replace q with k by lia. rewrite Nat.eqb_refl. replace (S k - 1 - k) with 0 by lia. reflexivity.
      + destruct (Nat.eqb_spec q k); [lia|]. reflexivity.
  Qed.
  Lemma sp_of_text_nth n t q : nth q (sp_of_text n t) false = if q <? Nat.min n (List.length t) then nth (Nat.min n (List.length t) - 1 - q) t false else false.
  Proof using HW HN Wp W64.
    unfold sp_of_text. set (M := Nat.min n (List.length t)). assert (Lf : List.length (firstn n t) = M) by (rewrite firstn_length; reflexivity).
    destruct (Nat.ltb_spec q M).
    - rewrite app_nth1 by (rewrite rev_length; lia). rewrite rev_nth by lia. rewrite Lf. replace (M - S q) with (M - 1 - q) by lia.
      clear Lf. assert (Hx : M - 1 - q < n) by lia. revert Hx. generalize (M - 1 - q) as y. revert t M H. clear.
      intros t _ _ y. revert t n. induction y as [|y IH]; intros [|a t] [|n] Hx; try lia; try reflexivity. cbn. apply IH. lia.
    - rewrite app_nth2 by (rewrite rev_length; lia). apply nth_repeat.
  Qed.
  Lemma sp_of_text_len n t : List.length (sp_of_text n t) = n.
  Proof using HW HN Wp W64. unfold sp_of_text. rewrite app_length, repeat_length, rev_length, firstn_length. lia. Qed.

  Lemma m_from_string_ok ws t : wf W N ws ->
    post W N ws (m_from_string W N ws (Some t)) (fun q => nth q (sp_of_text N t) false).
  Proof using HW HN Wp W64.
    intros [L F]. unfold m_from_string. pose proof (nelem_bound W N Wp) as [B1 B2]. pose proof (nelem_pos W N Wp HN) as B3.
    set (index := Nat.min (List.length ws - 1) (List.length t / W)). set (M := Nat.min N (List.length t)).
    assert (F1 : Forall (word W) (m_clear_from ws index)).
    { apply forall_of_nth. intros i _. rewrite clear_from_nth. destruct (i <? index); [now apply forall_nth|apply word_0]. }
    destruct (from_loop_ok (m_clear_from ws index) M t F1 ltac:(lia) ltac:(rewrite clear_from_len, L; lia)) as (ws' & E & F' & L' & B).
    exists ws'. split; [exact E|]. split; [split; [rewrite L', clear_from_len; exact L|exact F']|]. intros q Hq. rewrite B, sp_of_text_nth. fold M.
    destruct (Nat.ltb_spec q M); [reflexivity|]. unfold bitat. rewrite clear_from_nth. destruct (Nat.ltb_spec (q / W) index) as [Hx|Hx]; [|apply Z.bits_0].
    exfalso. destruct (split_p W q Wp) as [Eq Hm]. assert (X1 : q / W + 1 <= List.length t / W) by lia. assert (X2 : q / W + 1 <= nelem W N - 1) by lia.
    pose proof (Nat.div_mod (List.length t) W ltac:(lia)) as D. assert (Y1 : (q / W + 1) * W <= List.length t / W * W) by (apply Nat.mul_le_mono_r; exact X1).
    assert (Y2 : (q / W + 1) * W <= (nelem W N - 1) * W) by (apply Nat.mul_le_mono_r; exact X2). unfold M in *. lia.
  Qed.
  Lemma s_from_loop_ok k x t : k <= List.length t -> k <= W ->
    forall mask, ((0 < k)%nat -> mask = 2 ^ Z.of_nat (k - 1)%nat)%Z ->
    word W x -> exists y, s_from_loop W x mask k t = Ok y /\ word W y /\
      (forall q, Z.testbit y (Z.of_nat q) = Z.testbit x (Z.of_nat q) || (q <? k) && nth (k - 1 - q) t false).
  Proof using HW HN Wp W64.
    revert x t; induction k as [|k IH]; intros x t Ht Hk mask Hmask Hx; cbn [s_from_loop].
    - exists x. conj; auto. intros q. rewrite orb_false_r. reflexivity.
    - destruct t as [|c t]; [cbn in Ht; lia|]. rewrite (Hmask ltac:(lia)). replace (S k - 1) with k by lia.
      assert (Hw : word W (if c then x ||| 2 ^ Z.of_nat k else x)%Z) by (destruct c; [apply word_lor; [exact Hx|apply pow_word; assumption || lia]|exact Hx]).
      assert (Hm2 : 0 < k -> ((2 ^ Z.of_nat k) >> 1 = 2 ^ Z.of_nat (k - 1)%nat)%Z).
      { intros Hk0. rewrite Z.shiftr_div_pow2 by lia. replace (Z.of_nat k) with (1 + Z.of_nat (k - 1))%Z by lia. rewrite Z.pow_add_r by lia.
        rewrite Z.mul_comm. apply Z.div_mul. lia. }
      destruct (IH _ t ltac:(cbn in Ht; lia) ltac:(lia) _ Hm2 Hw) as (y & E & Hy & B).
      exists y. split; [exact E|]. split; [exact Hy|]. intros q. rewrite B.
      assert (Hb : Z.testbit (if c then x ||| 2 ^ Z.of_nat k else x)%Z (Z.of_nat q) = Z.testbit x (Z.of_nat q) || (q =? k) && c).
      { destruct c; [rewrite Z.lor_spec, (pow_bit W HW) by lia; destruct (Nat.eqb_spec q k); zltb; rewrite ?orb_true_r, ?orb_false_r; reflexivity|rewrite andb_false_r, orb_false_r; reflexivity]. }
      rewrite Hb. rewrite <- orb_assoc. f_equal. destruct (Nat.ltb_spec q k), (Nat.ltb_spec q (S k)), (Nat.eqb_spec q k); try lia; cbn [andb orb].
      + replace (k - q) with (S (k - 1 - q)) by lia. reflexivity.
      + subst q. rewrite Nat.sub_diag. cbn [nth]. apply orb_false_r.
  Qed.
  Lemma from_string_ok ws t : wf W N ws -> (nelem W N = 1 -> t <> []) ->
    post W N ws (bs_from_string W N ws (Some t)) (fun q => nth q (sp_of_text N t) false).
  Proof using HW HN Wp W64.
    intros Hwf Ht. unfold bs_from_string. destruct (single ws) as [x|] eqn:E; [|now apply m_from_string_ok].
    apply single_inv in E. subst ws. pose proof (wf_single W N x Wp Hwf) as (H1 & H2 & H3). specialize (Ht H2).
    unfold s_from_string. set (M := Nat.min N (List.length t)).
    assert (HM : 0 < M <= W) by (destruct t; [congruence|cbn in M; lia]).
    destruct (Nat.eqb_spec M 0); [lia|]. rewrite shl_ok by lia. rewrite one_mask_eq by lia. cbn [rbind].
    destruct (s_from_loop_ok M 0%Z t ltac:(lia) ltac:(lia) (2 ^ Z.of_nat (M - 1))%Z ltac:(intros; reflexivity) (word_0 W)) as (y & Ey & Hy & B).
    exists [y]. unfold one. rewrite Ey. split; [reflexivity|]. split; [split; [cbn; lia|constructor; [exact Hy|constructor]]|].
    intros q Hq. rewrite H2 in Hq. unfold bitat. rewrite Nat.div_small, Nat.mod_small by lia. cbn [nth]. rewrite B, Z.bits_0, sp_of_text_nth. fold M.
    cbn [orb]. destruct (q <? M); reflexivity.
  Qed.
  Lemma from_null_ok ws : wf W N ws -> post W N ws (bs_from_string W N ws None) (fun _ => false).
  Proof using HW HN Wp W64.
    intros Hwf. pose proof (reset_all_ok W N HW HN ws Hwf) as [H1 H2]. exists (bs_reset_all ws). split; [|split; auto].
    unfold bs_from_string, bs_reset_all. destruct (single ws); reflexivity.
  Qed.

  (** ** value *)
  Lemma value_loop_bit ws wt s v : Forall (word W) ws -> s + List.length ws * W <= wt ->
    word wt v -> word wt (m_value_loop W wt ws s v) /\
    forall q, Z.testbit (m_value_loop W wt ws s v) (Z.of_nat q) = Z.testbit v (Z.of_nat q) || ((s <=? q) && (q <? s + List.length ws * W) && bitat W ws (q - s)).
  Proof using HW HN Wp W64.
    intros F. revert s v; induction F as [|x r Hx F IH]; intros s v Hs Hv; cbn [m_value_loop List.length].
    - split; [exact Hv|]. intros q. destruct (Nat.leb_spec s q), (Nat.ltb_spec q (s + 0 * W)); try lia; cbn; now rewrite orb_false_r.
    - cbn [List.length] in Hs. destruct (IH (s + W) (v ||| tr (zw wt) (tr (zw wt) x << Z.of_nat s))%Z) as [I1 I2]; [lia|apply word_lor; [exact Hv|apply word_tr]|].
      split; [exact I1|]. intros q. rewrite I2. rewrite Z.lor_spec. rewrite tr_bit, Z.shiftl_spec by lia. rewrite <- orb_assoc. f_equal.
      destruct (Nat.leb_spec s q) as [G|G].
      + rewrite tr_bit by lia. destruct (Nat.ltb_spec (q - s) W) as [G2|G2].
        * destruct (Nat.leb_spec (s + W) q); [lia|]. cbn [andb orb]. rewrite orb_false_r. unfold zw. zltb. cbn [andb].
          destruct (Nat.ltb_spec q (s + S (List.length r) * W)); [|lia]. cbn [andb]. unfold bitat. rewrite Nat.div_small, Nat.mod_small by lia. cbn [nth].
          f_equal. lia.
        * destruct (Nat.leb_spec (s + W) q); [|lia]. cbn [andb]. rewrite (word_bit W x) by (exact Hx || unfold zw; lia). rewrite !andb_false_r. cbn [orb].
          replace (q <? s + W + List.length r * W) with (q <? s + S (List.length r) * W) by (f_equal; lia). f_equal.
          unfold bitat. replace (q - s) with ((q - (s + W)) + 1 * W) by lia. rewrite Nat.div_add, Nat.mod_add by lia. rewrite Nat.add_1_r. reflexivity.
      + rewrite Z.testbit_neg_r by lia. rewrite andb_false_r. destruct (Nat.leb_spec (s + W) q); [lia|]. reflexivity.
  Qed.
  Lemma value_ok ws wt : wf W N ws -> nelem W N * W <= wt -> bs_value W wt ws = sp_value (bits W (nelem W N * W) ws).
  Proof using HW HN Wp W64.
    intros [L F] Hwt.
    assert (G : m_value W wt ws = sp_value (bits W (nelem W N * W) ws)).
    { unfold m_value. rewrite L. destruct (Nat.leb_spec (nelem W N * W) wt); [|lia].
      destruct (value_loop_bit ws wt 0 0%Z F ltac:(rewrite L; lia) (word_0 wt)) as [Hw Hb].
      apply (word_ext wt); [exact Hw| |].
      - pose proof (sp_value_range (bits W (nelem W N * W) ws)) as R. rewrite bits_len in R. split; [lia|].
        eapply Z.lt_le_trans; [apply R|]. apply Z.pow_le_mono_r; unfold zw; lia.
      - intros q Hq. rewrite Hb, sp_value_bit, Z.bits_0. cbn [orb]. rewrite L, Nat.sub_0_r. cbn [Nat.leb andb Nat.add].
        destruct (Nat.ltb_spec q (nelem W N * W)); cbn [andb]; [now rewrite bits_nth|]. now rewrite nth_overflow by (rewrite bits_len; lia). }
    unfold bs_value. destruct (single ws) as [x|] eqn:E; [|exact G]. apply single_inv in E. subst ws. rewrite <- G. cbn in L.
    unfold m_value. cbn [List.length]. destruct (Nat.leb_spec (1 * W) wt); [|lia]. cbn [m_value_loop Z.lor]. rewrite Z.shiftl_0_r.
    inversion F; subst. unfold tr. rewrite Z.mod_mod by (apply Z.pow_nonzero; unfold zw; lia). reflexivity.
  Qed.

  (** ** construction from a value *)
  Lemma init_loop_len ws v : List.length (m_init_loop W ws v) = List.length ws.
  Proof using HW HN Wp W64. revert v; induction ws as [|x r IH]; intros v; [reflexivity|]. cbn [m_init_loop]. destruct (v =? 0)%Z; cbn [negb]; [apply clear_from_len|cbn; now rewrite IH]. Qed.
  Lemma init_loop_bit ws v i j : (0 <= v)%Z -> i < List.length ws -> word W (nth i (m_init_loop W ws v) 0%Z) /\
    (j < W -> Z.testbit (nth i (m_init_loop W ws v) 0%Z) (Z.of_nat j) = Z.testbit v (Z.of_nat (i * W + j))).
  Proof using HW HN Wp W64.
    revert v i; induction ws as [|x r IH]; intros v i Hv Hi; [cbn in Hi; lia|]. cbn [m_init_loop]. destruct (Z.eqb_spec v 0) as [->|ne]; cbn [negb].
    - rewrite clear_from_nth. cbn [Nat.ltb Nat.leb]. split; [apply word_0|]. intros Hj. now rewrite !Z.bits_0.
    - destruct i as [|i]; cbn [nth].
      + split; [apply word_land_r; apply word_all|]. intros Hj. rewrite Z.land_spec, all_set_bit by lia. cbn [Nat.mul Nat.add]. unfold zw. zltb. apply andb_true_r.
      + destruct (IH (v >> zw W)%Z i) as [I1 I2]; [apply Z.shiftr_nonneg; exact Hv|cbn in Hi; lia|]. split; [exact I1|]. intros Hj. rewrite I2 by exact Hj.
        rewrite Z.shiftr_spec by lia. f_equal. unfold zw. lia.
  Qed.
  Lemma of_value_ok v : (0 <= v < 2 ^ 64)%Z -> wf W N (bs_of_value W N v) /\
    (forall q, q < nelem W N * W -> bitat W (bs_of_value W N v) q = Z.testbit v (Z.of_nat q)).
  Proof using HW HN Wp W64.
    intros Hv. unfold bs_of_value. destruct (new_ok W N HW HN) as [[L F] _]. set (ws := bs_new W N) in *.
    destruct (single ws) as [x|] eqn:E.
    - apply single_inv in E. rewrite E in L. cbn in L. apply by_elements; auto. intros i Hi. destruct i; [|lia]. cbn [nth]. split; [apply word_tr|].
      intros j Hj. rewrite tr_bit by lia. unfold zw. cbn [Nat.mul Nat.add]. zltb. reflexivity.
    - unfold m_init. destruct (Nat.eqb_spec W 64) as [e|ne].
      + destruct ws as [|x r]; [pose proof (nelem_pos W N Wp HN); cbn in L; lia|]. apply by_elements; auto; [cbn; rewrite clear_from_len; exact L|].
        intros i Hi. destruct i as [|i]; cbn [nth].
        * split; [unfold word, zw; rewrite e; exact Hv|]. intros j Hj. reflexivity.
        * rewrite clear_from_nth. cbn [Nat.ltb Nat.leb]. split; [apply word_0|]. intros j Hj. rewrite Z.bits_0. symmetry.
          apply (word_bit 64); [exact Hv|]. unfold zw. nia.
      + apply by_elements; auto; [rewrite init_loop_len; exact L|]. intros i Hi. split; [apply (init_loop_bit ws v i 0); lia|]. intros j Hj.
        apply init_loop_bit; lia.
  Qed.

  (** ** text *)
  Lemma text_ok {C} ws (zero one : C) : wf W N ws -> bs_text W N ws zero one = Ok (sp_text (bits W N ws) zero one).
  Proof using HW HN Wp W64.
    intros Hwf. unfold bs_text, sp_text. assert (G : forall i, i <= N -> m_text (bs_index W ws) zero one i = Ok (map (fun x : bool => if x then one else zero) (rev (bits W i ws)))).
    { induction i as [|k IH]; intros Hi; [reflexivity|]. cbn [m_text]. rewrite (index_ok W N HW HN) by (assumption || lia). cbn [rbind]. rewrite IH by lia. cbn [rbind].
      unfold bits. rewrite seq_S, map_app, rev_app_distr. reflexivity. }
    apply G. lia.
  Qed.
End W.
