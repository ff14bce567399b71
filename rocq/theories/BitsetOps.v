(** * bitset: the simple operations *)
From Coq Require Import List Bool Arith ZArith Lia.
From Verif Require Import Util BinaryModel BinarySpec BinaryProofs BinaryProofs2 BinaryProofs4 BitsetSpec BitsetModel BitsetProofs.
Import ListNotations.
Local Open Scope nat_scope.

Ltac zltb := repeat match goal with
  | |- context [(?a <? ?b)%Z] => destruct (Z.ltb_spec a b); try lia
  | |- context [(?a =? ?b)%Z] => destruct (Z.eqb_spec a b); try lia
  end.

(** the Single implementation is the Multi implementation on one element *)
Lemma single_inv ws x : single ws = Some x -> ws = [x].
Proof. destruct ws as [|a [|b r]]; cbn; intros H; congruence. Qed.
Lemma div1 W p : p < W -> p / W = 0 /\ p mod W = p.
Proof. intros H. split; [now apply Nat.div_small|now apply Nat.mod_small]. Qed.
Lemma wf_single W N x : 0 < W -> wf W N [x] -> N <= W /\ nelem W N = 1 /\ word W x.
Proof. intros HW [L F]. cbn in L. pose proof (nelem_bound W N HW). inversion F; subst. rewrite <- L in H. conj; auto; lia. Qed.

Lemma s_set_m W x p v : p < W -> one (s_set W x p v) = m_set W [x] p v.
Proof. intros H. destruct (div1 W p H) as [E1 E2]. unfold m_set, s_set, one. rewrite E1, E2. destruct (shl W 1 p); reflexivity. Qed.
Lemma s_reset_m W x p : p < W -> one (s_reset W x p) = m_reset W [x] p.
Proof. intros H. destruct (div1 W p H) as [E1 E2]. unfold m_reset, s_reset, one. rewrite E1, E2. destruct (shl W 1 p); reflexivity. Qed.
Lemma s_flip_m W x p : p < W -> one (s_flip W x p) = m_flip W [x] p.
Proof. intros H. destruct (div1 W p H) as [E1 E2]. unfold m_flip, s_flip, one. rewrite E1, E2. destruct (shl W 1 p); reflexivity. Qed.
Lemma s_test_m W x p : p < W -> s_test W x p = m_test W [x] p.
Proof. intros H. destruct (div1 W p H) as [E1 E2]. unfold m_test, s_test. rewrite E1, E2. destruct (shl W 1 p); reflexivity. Qed.

Section W.
  Variables W N : nat.
  Hypothesis HW : bwidth W.
  Let Wp : 0 < W. Proof. apply bw_pos in HW; lia. Qed.
  Let W64 : W <= 64. Proof. apply bw_pos in HW; lia. Qed.

  Lemma mask_ok p : shl W 1 (p mod W) = Ok (2 ^ Z.of_nat (p mod W))%Z.
  Proof using HW. assert (p mod W < W) by (apply Nat.mod_upper_bound; lia). rewrite shl_ok by lia. rewrite one_mask_eq by lia. reflexivity. Qed.
  Lemma pow_bit s j : s < W -> (0 <= j)%Z -> Z.testbit (2 ^ Z.of_nat s) j = (j =? Z.of_nat s)%Z.
  Proof using HW. intros Hs Hj. rewrite <- (one_mask_eq W s Hs). now apply one_shl_bit. Qed.
  Lemma pow_word s : s < W -> word W (2 ^ Z.of_nat s).
  Proof using HW. intros Hs. rewrite <- (one_mask_eq W s Hs). apply word_tr. Qed.
  Lemma modW p : p mod W < W. Proof using HW. apply Nat.mod_upper_bound; lia. Qed.

  Lemma m_test_ok ws p : p / W < List.length ws -> m_test W ws p = Ok (bitat W ws p).
  Proof using HW.
    intros H. unfold m_test. rewrite mask_ok. cbn [rbind]. rewrite rd_ok by exact H. cbn [rbind]. unfold bitat.
    rewrite (testmask _ _ (Z.of_nat (p mod W))); [reflexivity|lia|]. intros k Hk. apply pow_bit; [apply modW|exact Hk].
  Qed.
  (** writing bit p *)
  Lemma wr_bit ws p v (f : bool -> bool) :
    Forall (word W) ws -> p / W < List.length ws -> word W v ->
    (forall j, j < W -> Z.testbit v (Z.of_nat j) = if j =? p mod W then f (Z.testbit (nth (p / W) ws 0%Z) (Z.of_nat j)) else Z.testbit (nth (p / W) ws 0%Z) (Z.of_nat j)) ->
    Forall (word W) (upd ws (p / W) v) /\ List.length (upd ws (p / W) v) = List.length ws /\
    (forall q, bitat W (upd ws (p / W) v) q = if q =? p then f (bitat W ws p) else bitat W ws q).
  Proof using HW.
    intros F H Hv E. split; [now apply upd_forall|]. split; [apply upd_len|]. intros q. unfold bitat. rewrite upd_nth by exact H.
    destruct (Nat.eqb_spec (q / W) (p / W)) as [e|ne].
    - rewrite E by apply modW. destruct (split_p W p Wp) as [Ep _]. destruct (split_p W q Wp) as [Eq _].
      destruct (Nat.eqb_spec q p) as [->|nq].
      + rewrite Nat.eqb_refl. reflexivity.
      + destruct (Nat.eqb_spec (q mod W) (p mod W)) as [e2|_]; [exfalso; apply nq; rewrite Ep, Eq, e, e2; reflexivity|]. rewrite e. reflexivity.
    - destruct (Nat.eqb_spec q p) as [->|]; [congruence|]. reflexivity.
  Qed.
  Definition put_post (ws : list Z) (p : nat) (f : bool -> bool) (r : res (list Z)) : Prop :=
    exists ws', r = Ok ws' /\ Forall (word W) ws' /\ List.length ws' = List.length ws /\
                (forall q, bitat W ws' q = if q =? p then f (bitat W ws p) else bitat W ws q).
  Lemma m_set_ok ws p v : Forall (word W) ws -> p / W < List.length ws -> put_post ws p (fun _ => v) (m_set W ws p v).
  Proof using HW.
    intros F H. unfold m_set. rewrite mask_ok. cbn [rbind]. rewrite rd_ok by exact H. cbn [rbind]. rewrite wr_ok by exact H.
    eexists. split; [reflexivity|]. pose proof (forall_nth W ws (p / W) F) as Hw. pose proof (modW p) as Hm.
    apply (wr_bit ws p _ (fun _ => v)); auto.
    - destruct v; [apply word_lor; [exact Hw|apply pow_word; exact Hm]|apply word_land; exact Hw].
    - intros j Hj. destruct v; rewrite ?Z.lor_spec, ?Z.land_spec, ?inv_bit, ?pow_bit by (exact Hm || lia).
      + destruct (Nat.eqb_spec j (p mod W)); zltb; rewrite ?orb_true_r, ?orb_false_r; reflexivity.
      + unfold zw. destruct (Nat.eqb_spec j (p mod W)); zltb; cbn; rewrite ?andb_true_r, ?andb_false_r; reflexivity.
  Qed.
  Lemma m_reset_ok ws p : Forall (word W) ws -> p / W < List.length ws -> put_post ws p (fun _ => false) (m_reset W ws p).
  Proof using HW. intros F H. exact (m_set_ok ws p false F H). Qed.
  Lemma m_flip_ok ws p : Forall (word W) ws -> p / W < List.length ws -> put_post ws p negb (m_flip W ws p).
  Proof using HW.
    intros F H. unfold m_flip. rewrite mask_ok. cbn [rbind]. rewrite rd_ok by exact H. cbn [rbind]. rewrite wr_ok by exact H.
    eexists. split; [reflexivity|]. pose proof (forall_nth W ws (p / W) F) as Hw. pose proof (modW p) as Hm.
    apply (wr_bit ws p _ negb); auto.
    - apply word_lxor; [exact Hw|apply pow_word; exact Hm].
    - intros j Hj. rewrite Z.lxor_spec, pow_bit by (exact Hm || lia).
      destruct (Nat.eqb_spec j (p mod W)); zltb; rewrite ?xorb_true_r, ?xorb_false_r; reflexivity.
  Qed.

  (** class level *)
  Hypothesis HN : 0 < N.
  Lemma in_range ws p : wf W N ws -> p < N -> p / W < List.length ws.
  Proof using HW HN. intros [L _] Hp. rewrite L. apply idx_bound; [exact Wp|]. pose proof (nelem_bound W N Wp). lia. Qed.
  Ltac dispatch ws Hwf :=
    let E := fresh "E" in
    destruct (single ws) as [x|] eqn:E;
    [apply single_inv in E; subst ws; pose proof (wf_single W N x Wp Hwf) as (?Hs1 & ?Hs2 & ?Hs3)|].

  Lemma test_ok ws p : wf W N ws -> bs_test W N ws p = if p <? N then Ok (bitat W ws p) else Overflow.
  Proof using HW HN.
    intros Hwf. unfold bs_test. destruct (Nat.ltb_spec p N); [|reflexivity]. rewrite <- m_test_ok by (apply in_range; assumption).
    dispatch ws Hwf; [apply s_test_m; lia|reflexivity].
  Qed.
  Lemma index_ok ws p : wf W N ws -> p < N -> bs_index W ws p = Ok (bitat W ws p).
  Proof using HW HN.
    intros Hwf Hp. unfold bs_index. rewrite <- m_test_ok by (apply in_range; assumption).
    dispatch ws Hwf; [apply s_test_m; lia|reflexivity].
  Qed.
  Definition post (ws : list Z) (r : res (list Z)) (f : nat -> bool) : Prop :=
    exists ws', r = Ok ws' /\ wf W N ws' /\ (forall q, q < nelem W N * W -> bitat W ws' q = f q).
  Lemma put_post_post ws p f r : wf W N ws -> put_post ws p f r ->
    post ws r (fun q => if q =? p then f (bitat W ws p) else bitat W ws q).
  Proof using HW HN. intros [L F] (ws' & -> & F' & L' & E). exists ws'. conj; auto. split; [congruence|exact F']. Qed.
  Lemma set_ok ws p v : wf W N ws -> p < N -> post ws (bs_set W N ws p v) (fun q => if q =? p then v else bitat W ws q).
  Proof using HW HN.
    intros Hwf Hp. unfold bs_set. destruct (Nat.ltb_spec p N); [|lia]. apply (put_post_post ws p (fun _ => v)); [exact Hwf|].
    pose proof (in_range ws p Hwf Hp) as Hr. pose proof Hwf as [L F]. pose proof (m_set_ok ws p v F Hr).
    dispatch ws Hwf; [rewrite s_set_m by lia|]; assumption.
  Qed.
  Lemma reset_ok ws p : wf W N ws -> p < N -> post ws (bs_reset W N ws p) (fun q => if q =? p then false else bitat W ws q).
  Proof using HW HN.
    intros Hwf Hp. unfold bs_reset. destruct (Nat.ltb_spec p N); [|lia]. apply (put_post_post ws p (fun _ => false)); [exact Hwf|].
    pose proof (in_range ws p Hwf Hp) as Hr. pose proof Hwf as [L F]. pose proof (m_reset_ok ws p F Hr).
    dispatch ws Hwf; [rewrite s_reset_m by lia|]; assumption.
  Qed.
  Lemma flip_ok ws p : wf W N ws -> p < N -> post ws (bs_flip W N ws p) (fun q => if q =? p then negb (bitat W ws p) else bitat W ws q).
  Proof using HW HN.
    intros Hwf Hp. unfold bs_flip. destruct (Nat.ltb_spec p N); [|lia]. apply (put_post_post ws p negb); [exact Hwf|].
    pose proof (in_range ws p Hwf Hp) as Hr. pose proof Hwf as [L F]. pose proof (m_flip_ok ws p F Hr).
    dispatch ws Hwf; [rewrite s_flip_m by lia|]; assumption.
  Qed.

  (** whole-array operations *)
  Lemma by_elements ws (f : nat -> bool) : List.length ws = nelem W N ->
    (forall i, i < nelem W N -> word W (nth i ws 0%Z) /\ (forall j, j < W -> Z.testbit (nth i ws 0%Z) (Z.of_nat j) = f (i * W + j))) ->
    wf W N ws /\ (forall q, q < nelem W N * W -> bitat W ws q = f q).
  Proof using HW HN.
    intros L H. split.
    - split; [exact L|]. apply forall_of_nth. intros i Hi. rewrite L in Hi. apply H. exact Hi.
    - intros q Hq. destruct (split_p W q Wp) as [E Hm]. rewrite E. rewrite bitat_ij by exact Hm. apply H; [|exact Hm].
      apply idx_bound; assumption.
  Qed.
  Lemma reset_all_ok ws : wf W N ws -> wf W N (bs_reset_all ws) /\ (forall q, bitat W (bs_reset_all ws) q = false).
  Proof using HW HN.
    intros [L F]. assert (E : bs_reset_all ws = m_reset_all ws) by (unfold bs_reset_all; destruct (single ws) eqn:E; [apply single_inv in E; subst; reflexivity|reflexivity]).
    rewrite E. split.
    - split; [now rewrite reset_all_len|]. apply forall_of_nth. intros i _. rewrite reset_all_nth. apply word_0.
    - intros q. unfold bitat. rewrite reset_all_nth. apply Z.bits_0.
  Qed.
  Lemma new_ok : wf W N (bs_new W N) /\ (forall q, bitat W (bs_new W N) q = false).
  Proof using HW HN.
    unfold bs_new. split.
    - split; [now rewrite reset_all_len, repeat_length|]. apply forall_of_nth. intros i _. rewrite reset_all_nth. apply word_0.
    - intros q. unfold bitat. rewrite reset_all_nth. apply Z.bits_0.
  Qed.
  Lemma map_word_nth (g : Z -> Z) ws i : i < List.length ws -> nth i (map g ws) 0%Z = g (nth i ws 0%Z).
  Proof using HW HN. intros H. rewrite (nth_indep _ 0%Z (g 0%Z)) by (now rewrite map_length). apply map_nth. Qed.
  Lemma flip_all_ok ws : wf W N ws -> wf W N (bs_flip_all W ws) /\ (forall q, q < nelem W N * W -> bitat W (bs_flip_all W ws) q = negb (bitat W ws q)).
  Proof using HW HN.
    intros [L F]. assert (E : bs_flip_all W ws = map (inv W) ws) by (unfold bs_flip_all; destruct (single ws) eqn:E; [apply single_inv in E; subst; reflexivity|reflexivity]).
    rewrite E. apply by_elements; [now rewrite map_length|]. intros i Hi. rewrite map_word_nth by lia. split; [apply word_inv|].
    intros j Hj. rewrite inv_bit by lia. rewrite bitat_ij by exact Hj. unfold zw. zltb; try reflexivity.
  Qed.
  Lemma map2_len g l r : List.length l = List.length r -> List.length (m_map2 g l r) = List.length l.
  Proof using HW HN. revert r; induction l as [|x l IH]; intros [|y r] H; cbn in *; try lia. rewrite IH; lia. Qed.
  Lemma map2_nth g l r i : List.length l = List.length r -> i < List.length l -> nth i (m_map2 g l r) 0%Z = g (nth i l 0%Z) (nth i r 0%Z).
  Proof using HW HN. revert r i; induction l as [|x l IH]; intros [|y r] i H Hi; cbn in *; try lia. destruct i; [reflexivity|]. apply IH; lia. Qed.
  Lemma map2_ok g h l r : wf W N l -> wf W N r ->
    (forall x y, word W x -> word W y -> word W (g x y)) ->
    (forall x y j, Z.testbit (g x y) j = h (Z.testbit x j) (Z.testbit y j)) ->
    wf W N (m_map2 g l r) /\ (forall q, q < nelem W N * W -> bitat W (m_map2 g l r) q = h (bitat W l q) (bitat W r q)).
  Proof using HW HN.
    intros [L F] [L' F'] Hg Hh. apply by_elements; [rewrite map2_len; congruence|]. intros i Hi. rewrite map2_nth by congruence.
    split; [apply Hg; apply forall_nth; assumption|]. intros j Hj. rewrite !bitat_ij by exact Hj. apply Hh.
  Qed.
  Lemma and_ok l r : wf W N l -> wf W N r -> wf W N (bs_and l r) /\ (forall q, q < nelem W N * W -> bitat W (bs_and l r) q = bitat W l q && bitat W r q).
  Proof using HW HN.
    intros Hl Hr. assert (E : bs_and l r = m_map2 Z.land l r) by (unfold bs_and; destruct (single l) eqn:E1, (single r) eqn:E2; try reflexivity; apply single_inv in E1, E2; subst; reflexivity).
    rewrite E. apply map2_ok; auto; [intros; now apply word_land|intros; apply Z.land_spec].
  Qed.
  Lemma or_ok l r : wf W N l -> wf W N r -> wf W N (bs_or l r) /\ (forall q, q < nelem W N * W -> bitat W (bs_or l r) q = bitat W l q || bitat W r q).
  Proof using HW HN.
    intros Hl Hr. assert (E : bs_or l r = m_map2 Z.lor l r) by (unfold bs_or; destruct (single l) eqn:E1, (single r) eqn:E2; try reflexivity; apply single_inv in E1, E2; subst; reflexivity).
    rewrite E. apply map2_ok; auto; [intros; now apply word_lor|intros; apply Z.lor_spec].
  Qed.
  Lemma xor_ok l r : wf W N l -> wf W N r -> wf W N (bs_xor l r) /\ (forall q, q < nelem W N * W -> bitat W (bs_xor l r) q = xorb (bitat W l q) (bitat W r q)).
  Proof using HW HN.
    intros Hl Hr. assert (E : bs_xor l r = m_map2 Z.lxor l r) by (unfold bs_xor; destruct (single l) eqn:E1, (single r) eqn:E2; try reflexivity; apply single_inv in E1, E2; subst; reflexivity).
    rewrite E. apply map2_ok; auto; [intros; now apply word_lxor|intros; apply Z.lxor_spec].
  Qed.

  (** equality, any, none *)
  Lemma eq_ok l r : wf W N l -> wf W N r -> bs_eq l r = true <-> l = r.
  Proof using HW HN.
    intros [L _] [L' _]. assert (E : bs_eq l r = m_equal l r).
    { unfold bs_eq; destruct (single l) eqn:E1, (single r) eqn:E2; try reflexivity; apply single_inv in E1, E2; subst. cbn. now destruct (z =? z0)%Z. }
    rewrite E. clear E. assert (Hl : List.length l = List.length r) by congruence. clear L L'. revert r Hl.
    induction l as [|x l IH]; intros [|y r] H; cbn in H; try lia; [cbn; tauto|]. cbn [m_equal].
    destruct (Z.eqb_spec x y) as [->|ne]; cbn [negb].
    - rewrite IH by lia. split; [intros ->; reflexivity|intros [=]; assumption].
    - split; [discriminate|intros [=]; contradiction].
  Qed.
  Lemma ws_ext l r : wf W N l -> wf W N r -> (forall q, q < nelem W N * W -> bitat W l q = bitat W r q) -> l = r.
  Proof using HW HN.
    intros [L F] [L' F'] H. apply (nth_ext _ _ 0%Z 0%Z); [congruence|]. intros i Hi. apply (word_ext W); try (apply forall_nth; assumption).
    intros j Hj. rewrite <- !(bitat_ij W) by exact Hj. apply H. rewrite L in Hi. nia.
  Qed.
  Lemma none_nth ws : m_none ws = true <-> (forall i, nth i ws 0%Z = 0%Z).
  Proof using HW HN.
    induction ws as [|x r IH]; cbn [m_none]; [split; [intros _ [|i]; reflexivity|reflexivity]|].
    destruct (Z.eqb_spec x 0) as [->|ne]; cbn [negb].
    - rewrite IH. split; [intros H [|i]; [reflexivity|apply H]|intros H i; exact (H (S i))].
    - split; [discriminate|intros H; contradiction (ne (H 0))].
  Qed.
  Lemma none_all ws : wf W N ws -> m_none ws = true <-> (forall q, q < nelem W N * W -> bitat W ws q = false).
  Proof using HW HN.
    intros [L F]. rewrite none_nth. split.
    - intros H q _. unfold bitat. rewrite H. apply Z.bits_0.
    - intros H i. destruct (Nat.ltb_spec i (List.length ws)) as [Hi|Hi]; [|now apply nth_overflow].
      apply (word_ext W); [apply forall_nth; exact F|apply word_0|]. intros j Hj. rewrite Z.bits_0. rewrite <- (bitat_ij W) by exact Hj. apply H. rewrite L in Hi. nia.
  Qed.
  Lemma any_none ws : m_any ws = negb (m_none ws).
  Proof using HW HN. induction ws as [|x r IH]; cbn; [reflexivity|]. destruct (x =? 0)%Z; cbn; [exact IH|reflexivity]. Qed.
  Lemma bs_none_eq ws : bs_none ws = m_none ws.
  Proof using HW HN. unfold bs_none. destruct (single ws) eqn:E; [apply single_inv in E; subst; cbn; now destruct (z =? 0)%Z|reflexivity]. Qed.
  Lemma bs_any_eq ws : bs_any ws = negb (m_none ws).
  Proof using HW HN. unfold bs_any. destruct (single ws) eqn:E; [apply single_inv in E; subst; cbn; now destruct (z =? 0)%Z|apply any_none]. Qed.

  (** all, set_all *)
  Lemma top_bit j : j < W -> Z.testbit (top_mask W N) (Z.of_nat j) = ((nelem W N - 1) * W + j <? N).
  Proof using HW HN.
    intros Hj. pose proof (nelem_bound W N Wp) as [B1 B2]. pose proof (nelem_pos W N Wp HN) as B3.
    set (r := N - (nelem W N - 1) * W). assert (Hr : 0 < r <= W) by (unfold r; nia).
    assert (Ets : top_shift W N = r mod W) by (unfold top_shift; f_equal; unfold r; nia).
    assert (G : ((nelem W N - 1) * W + j <? N) = (j <? r)).
    { destruct (Nat.ltb_spec j r), (Nat.ltb_spec ((nelem W N - 1) * W + j) N); unfold r in *; lia. }
    rewrite G. unfold top_mask. rewrite Ets. destruct (Nat.eq_dec r W) as [e|ne].
    - rewrite e, Nat.mod_same by lia. cbn [Nat.eqb]. rewrite all_set_bit by lia. unfold zw. destruct (Nat.ltb_spec j W); zltb; try lia; reflexivity.
    - rewrite Nat.mod_small by lia. destruct (Nat.eqb_spec r 0); [lia|]. rewrite tr_bit, Z.lnot_spec, Z.shiftl_spec by lia.
      unfold zw at 1. destruct (Z.ltb_spec (Z.of_nat j) (Z.of_nat W)); [|lia]. cbn [andb]. destruct (Nat.ltb_spec j r).
      + rewrite Z.testbit_neg_r by lia. reflexivity.
      + rewrite all_set_bit by lia. unfold zw. zltb; try reflexivity.
  Qed.
  Lemma word_top : word W (top_mask W N).
  Proof using HW HN. unfold top_mask. destruct (_ =? 0); [apply word_all|apply word_tr]. Qed.
  Lemma set_all_nth ws top i : i < List.length ws ->
    nth i (m_set_all W ws top) 0%Z = if S i =? List.length ws then (all_set W &&& top)%Z else all_set W.
  Proof using HW HN.
    revert i; induction ws as [|x [|y r] IH]; intros i Hi; [cbn in Hi; lia| |].
    - destruct i; [reflexivity|cbn in Hi; lia].
    - change (m_set_all W (x :: y :: r) top) with (all_set W :: m_set_all W (y :: r) top).
      destruct i; [reflexivity|]. cbn [nth]. rewrite IH by (cbn in *; lia). reflexivity.
  Qed.
  Lemma set_all_len ws top : List.length (m_set_all W ws top) = List.length ws.
  Proof using HW HN. induction ws as [|x [|y r] IH]; [reflexivity|reflexivity|]. change (m_set_all W (x :: y :: r) top) with (all_set W :: m_set_all W (y :: r) top). cbn [List.length] in *. lia. Qed.
  Lemma set_all_ok ws : wf W N ws -> wf W N (bs_set_all W N ws) /\ (forall q, q < nelem W N * W -> bitat W (bs_set_all W N ws) q = (q <? N)).
  Proof using HW HN.
    intros [L F]. assert (E : bs_set_all W N ws = m_set_all W ws (top_mask W N)) by (unfold bs_set_all; destruct (single ws) eqn:E; [apply single_inv in E; subst; reflexivity|reflexivity]).
    rewrite E. pose proof (nelem_bound W N Wp) as [B1 B2].
    apply by_elements; [now rewrite set_all_len|]. intros i Hi. rewrite set_all_nth by lia. rewrite L. split.
    - destruct (S i =? nelem W N); [apply word_land|]; apply word_all.
    - intros j Hj. destruct (Nat.eqb_spec (S i) (nelem W N)) as [e|ne].
      + rewrite Z.land_spec, all_set_bit, top_bit by lia. replace (nelem W N - 1) with i by lia. unfold zw. zltb; try reflexivity.
      + rewrite all_set_bit by lia. unfold zw. destruct (Nat.ltb_spec (i * W + j) N); zltb; try reflexivity. nia.
  Qed.
  Lemma all_nth ws top : ws <> [] ->
    m_all W ws top = true <-> (forall i, i < List.length ws -> if S i =? List.length ws then (nth i ws 0%Z &&& top)%Z = top else nth i ws 0%Z = all_set W).
  Proof using HW HN.
    induction ws as [|x [|y r] IH]; intros H0; [congruence| |].
    - cbn [m_all List.length]. rewrite Z.eqb_eq. split; [intros H [|i] Hi; [exact H|lia]|intros H; exact (H 0 ltac:(lia))].
    - change (m_all W (x :: y :: r) top) with (if negb (x =? all_set W)%Z then false else m_all W (y :: r) top).
      destruct (Z.eqb_spec x (all_set W)) as [e|ne]; cbn [negb].
      + rewrite IH by discriminate. split.
        * intros H [|i] Hi; [exact e|]. apply (H i). cbn [List.length] in *. lia.
        * intros H i Hi. apply (H (S i)). cbn [List.length] in *. lia.
      + split; [discriminate|]. intros H. specialize (H 0 ltac:(cbn; lia)). cbn in H. contradiction.
  Qed.
  Lemma all_ok ws : wf W N ws -> bs_all W N ws = true <-> (forall q, q < N -> bitat W ws q = true).
  Proof using HW HN.
    intros [L F]. assert (E : bs_all W N ws = m_all W ws (top_mask W N)) by (unfold bs_all; destruct (single ws) eqn:E; [apply single_inv in E; subst; reflexivity|reflexivity]).
    rewrite E. pose proof (nelem_bound W N Wp) as [B1 B2]. pose proof (nelem_pos W N Wp HN) as B3.
    rewrite all_nth by (intros ->; cbn in L; lia). rewrite L. split.
    - intros H q Hq. destruct (split_p W q Wp) as [Eq Hm]. rewrite Eq, bitat_ij by exact Hm. assert (Hi : q / W < nelem W N) by (apply idx_bound; lia).
      specialize (H _ Hi). destruct (Nat.eqb_spec (S (q / W)) (nelem W N)) as [e|ne].
      + assert (T : Z.testbit (top_mask W N) (Z.of_nat (q mod W)) = true).
        { rewrite top_bit by exact Hm. replace (nelem W N - 1) with (q / W) by lia. rewrite <- Eq. apply Nat.ltb_lt. exact Hq. }
        rewrite <- H, Z.land_spec in T. apply andb_prop in T. tauto.
      + rewrite H, all_set_bit by lia. unfold zw. zltb; try reflexivity.
    - intros H i Hi. destruct (Nat.eqb_spec (S i) (nelem W N)) as [e|ne].
      + apply (word_ext W); [apply word_land_r; apply word_top|apply word_top|]. intros j Hj. rewrite Z.land_spec, top_bit by exact Hj.
        destruct (Nat.ltb_spec ((nelem W N - 1) * W + j) N); [|apply andb_false_r]. rewrite andb_true_r. rewrite <- (bitat_ij W) by exact Hj. apply H. replace i with (nelem W N - 1) by lia. assumption.
      + apply (word_ext W); [apply forall_nth; exact F|apply word_all|]. intros j Hj. rewrite all_set_bit by lia. rewrite <- (bitat_ij W) by exact Hj. unfold zw. zltb. apply H. nia.
  Qed.
End W.
