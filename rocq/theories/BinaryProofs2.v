(** * binary.h: parity, population count, runs *)
From Coq Require Import List Arith Lia ZifyNat Bool ZArith.
From Verif Require Import Util BinaryModel BinarySpec BitLib BinaryProofs.
Import ListNotations.
Local Open Scope Z_scope.
Ltac Zify.zify_post_hook ::= Z.div_mod_to_equations.

(** ** parity *)
Lemma ones_parity l : Z.odd (ones_in l) = xorall l.
Proof.
  induction l as [|[] l IH]; unfold xorall in *; cbn [ones_in fold_right]; auto; [|rewrite IH; destruct (fold_right xorb false l); reflexivity].
  rewrite Z.odd_add, IH. reflexivity.
Qed.
Lemma xorall_true l (n : nat) x : (forall j, (j < n)%nat -> l j = true) ->
  xorall (map (fun j => Z.testbit x (Z.of_nat j) && l j) (seq 0 n)) = xorall (lsb_first (Z.of_nat n) x).
Proof.
  intros H. unfold lsb_first. rewrite Nat2Z.id. f_equal. apply map_ext_in. intros j Hj. apply in_seq in Hj. rewrite H by lia. apply andb_true_r.
Qed.
(** the 4 bit table *)
Lemma table_6996 v : 0 <= v < 16 -> (0x6996 >> v) &&& 1 = if xorb (xorb (Z.testbit v 0) (Z.testbit v 1)) (xorb (Z.testbit v 2) (Z.testbit v 3)) then 1 else 0.
Proof.
  intros H. assert (K : forallb (fun v => ((0x6996 >> v) &&& 1) =? (if xorb (xorb (Z.testbit v 0) (Z.testbit v 1)) (xorb (Z.testbit v 2) (Z.testbit v 3)) then 1 else 0)) (map Z.of_nat (seq 0 16)) = true) by (vm_compute; reflexivity).
  rewrite forallb_forall in K. apply Z.eqb_eq, K. apply in_map_iff. exists (Z.to_nat v). split; [lia|]. apply in_seq. lia.
Qed.
Lemma table_69966996 v : 0 <= v < 16 -> (0x69966996 >> v) &&& 1 = (0x6996 >> v) &&& 1.
Proof.
  intros H. assert (K : forallb (fun v => ((0x69966996 >> v) &&& 1) =? ((0x6996 >> v) &&& 1)) (map Z.of_nat (seq 0 16)) = true) by (vm_compute; reflexivity).
  rewrite forallb_forall in K. apply Z.eqb_eq, K. apply in_map_iff. exists (Z.to_nat v). split; [lia|]. apply in_seq. lia.
Qed.
(** a linear function into 4 bits whose every column has odd weight *)
Lemma parity_lin (w : nat) f : lin (Z.of_nat w) f -> (forall x, word (Z.of_nat w) x -> 0 <= f x < 16) ->
  forallb (fun j => let v := f (2 ^ Z.of_nat j) in xorb (xorb (Z.testbit v 0) (Z.testbit v 1)) (xorb (Z.testbit v 2) (Z.testbit v 3))) (seq 0 w) = true ->
  forall x, word (Z.of_nat w) x -> (0x6996 >> f x) &&& 1 = popcount (Z.of_nat w) x mod 2.
Proof.
  intros L R H x Hx. rewrite table_6996 by (apply R; exact Hx). rewrite !(lin_basis (Z.of_nat w) f L w x ltac:(lia) Hx).
  unfold popcount. rewrite Zmod_odd, ones_parity. rewrite forallb_forall in H.
  match goal with |- (if ?a then _ else _) = (if ?b then _ else _) => enough (E : a = b) by (rewrite E; reflexivity) end.
  rewrite <- (xorall_true (fun j => let v := f (2 ^ Z.of_nat j) in xorb (xorb (Z.testbit v 0) (Z.testbit v 1)) (xorb (Z.testbit v 2) (Z.testbit v 3))) w x) by (intros j Hj; apply H, in_seq; lia).
  clear H. unfold xorall. induction (seq 0 w) as [|j l IH]; [reflexivity|]. cbn [map fold_right]. rewrite <- IH. cbv zeta.
  repeat match goal with |- context [fold_right xorb false ?a] => generalize (fold_right xorb false a); intro end.
  repeat match goal with |- context [Z.testbit ?a ?b] => generalize (Z.testbit a b); intro end.
  repeat match goal with b : bool |- _ => destruct b end; reflexivity.
Qed.

Lemma parity_ok w x : width w -> unsigned w x -> parity w x = popcount w x mod 2.
Proof.
  intros Hw Hx. assert (R : forall v, 0 <= v &&& 0x0F < 16).
  { intros v. change 0x0F with (Z.ones 4). rewrite Z.land_ones by lia. apply Z.mod_pos_bound. reflexivity. }
  widths Hw; unfold parity; cbn [Z.eqb Pos.eqb].
  - apply (parity_lin 8 (fun v => xshift 4 v &&& 0x0F)); [linx|intros; apply R|vm_compute; reflexivity|exact Hx].
  - apply (parity_lin 16 (fun v => xshift 4 (xshift 8 v) &&& 0x0F)); [linx|intros; apply R|vm_compute; reflexivity|exact Hx].
  - apply (parity_lin 32 (fun v => xshift 4 (xshift 8 (xshift 16 v)) &&& 0x0F)); [linx|intros; apply R|vm_compute; reflexivity|exact Hx].
  - unfold parity_64. cbv zeta. rewrite table_69966996 by apply R.
    apply (parity_lin 64 (fun v => xshift 4 (xshift 8 (xshift 16 (xshift 32 v))) &&& 0x0F)); [linx|intros; apply R|vm_compute; reflexivity|exact Hx].
Qed.

(** ** population count *)
Fixpoint pairsum (ds : list Z) : list Z := match ds with a :: b :: r => (a + b) :: pairsum r | _ => [] end.
Definition sumz (ds : list Z) : Z := fold_right Z.add 0 ds.
Fixpoint lowmask (k : Z) (n : nat) : Z := match n with O => 0 | S m => (2 ^ k - 1) + 2 ^ (2 * k) * lowmask k m end.
Lemma pair_ind (P : list Z -> Prop) : P [] -> (forall a, P [a]) -> (forall a b r, P r -> P (a :: b :: r)) -> forall l, P l.
Proof. intros H0 H1 H2. fix IH 1. intros [|a [|b r]]; [exact H0|apply H1|apply H2, IH]. Qed.
Lemma sum_pairsum ds : Nat.even (List.length ds) = true -> sumz (pairsum ds) = sumz ds.
Proof. induction ds as [|a|a b r IH] using pair_ind; cbn; intros H; try discriminate; [reflexivity|]. unfold sumz in IH. rewrite IH by exact H. lia. Qed.
Lemma len_pairsum ds : List.length (pairsum ds) = Nat.div2 (List.length ds).
Proof. induction ds as [|a|a b r IH] using pair_ind; cbn; auto. Qed.
Lemma land_low k d e : 0 <= k -> word k d -> (d + 2 ^ k * e) &&& (2 ^ k - 1) = d.
Proof.
  intros Hk H. replace (2 ^ k - 1) with (Z.ones k) by (rewrite Z.ones_equiv; lia). rewrite Z.land_ones by lia. rewrite Z.mul_comm, Z.mod_add by (apply Z.pow_nonzero; lia).
  apply Z.mod_small, H.
Qed.
Lemma word_two k a b : 0 <= k -> word k a -> word k b -> word (2 * k) (a + 2 ^ k * b).
Proof. intros Hk Ha Hb. unfold word in *. replace (2 * k) with (k + k) by lia. rewrite Z.pow_add_r by lia. nia. Qed.
Lemma pow_two k : 0 <= k -> 2 ^ (2 * k) = 2 ^ k * 2 ^ k.
Proof. intros. rewrite <- Z.pow_add_r by lia. f_equal. lia. Qed.
Lemma word_lowmask k : 0 < k -> word (2 * k) (2 ^ k - 1).
Proof. intros Hk. assert (0 < 2 ^ k) by (apply Z.pow_pos_nonneg; lia). unfold word. rewrite pow_two by lia. nia. Qed.
Lemma word_mod k v : 0 <= k -> word k (v mod 2 ^ k).
Proof. intros. apply Z.mod_pos_bound, Z.pow_pos_nonneg; lia. Qed.
Lemma split2 k v : 0 <= k -> v = v mod 2 ^ k + 2 ^ k * (v >> k).
Proof. intros. rewrite Z.shiftr_div_pow2 by lia. rewrite (Z.div_mod v (2 ^ k)) at 1 by (apply Z.pow_nonzero; lia). lia. Qed.
Lemma fold_masked k ds : 0 < k -> digs k ds -> Nat.even (List.length ds) = true ->
  ((val k ds >> k) &&& lowmask k (Nat.div2 (List.length ds))) + (val k ds &&& lowmask k (Nat.div2 (List.length ds))) = val (2 * k) (pairsum ds).
Proof.
  intros Hk. induction ds as [|a|a b r IH] using pair_ind; intros Hd He; try discriminate; [cbn; rewrite Z.land_0_r; reflexivity|].
  inversion_clear Hd as [|? ? Ha Hd']. inversion_clear Hd' as [|? ? Hb Hr]. cbn [val List.length Nat.div2 lowmask pairsum].
  specialize (IH Hr He). set (v := val k r) in *. set (m := lowmask k _) in *.
  replace (a + 2 ^ k * (b + 2 ^ k * v)) with ((a + 2 ^ k * b) + 2 ^ (2 * k) * v) at 2 by (rewrite pow_two by lia; lia).
  rewrite shr_dv by (lia || assumption).
  replace (b + 2 ^ k * v) with ((b + 2 ^ k * (v mod 2 ^ k)) + 2 ^ (2 * k) * (v >> k)) by (rewrite pow_two by lia; rewrite (split2 k v) at 3 by lia; lia).
  rewrite !land_dv by (first [lia | apply word_lowmask; lia | apply word_two; first [lia | assumption | apply word_mod; lia]]).
  rewrite !land_low by (lia || assumption). rewrite <- IH. lia.
Qed.
Lemma fold_small k ds : 1 < k -> digs (k - 1) ds -> Nat.even (List.length ds) = true ->
  ((val k ds >> k) + val k ds) &&& lowmask k (Nat.div2 (List.length ds)) = val (2 * k) (pairsum ds).
Proof.
  intros Hk. induction ds as [|a|a b r IH] using pair_ind; intros Hd He; try discriminate; [cbn; rewrite ?Z.land_0_r, ?Z.shiftr_0_l; reflexivity|].
  inversion_clear Hd as [|? ? Ha Hd']. inversion_clear Hd' as [|? ? Hb Hr]. cbn [val List.length Nat.div2 lowmask pairsum].
  specialize (IH Hr He). set (m := lowmask k _) in *.
  assert (P : 2 ^ k = 2 * 2 ^ (k - 1)) by (rewrite <- Z.pow_succ_r by lia; f_equal; lia).
  assert (Ha' : word k a) by (unfold word in *; lia).
  assert (Hv : word (k - 1) (val k r mod 2 ^ k)).
  { destruct r as [|c r]; cbn [val]; [rewrite Z.mod_0_l by (apply Z.pow_nonzero; lia); unfold word in *; lia|].
    inversion_clear Hr. rewrite Z.mul_comm, Z.mod_add by (apply Z.pow_nonzero; lia). rewrite Z.mod_small by (unfold word in *; lia). assumption. }
  set (v := val k r) in *.
  rewrite shr_dv by (lia || assumption).
  replace (b + 2 ^ k * v + (a + 2 ^ k * (b + 2 ^ k * v))) with ((a + b + 2 ^ k * (b + v mod 2 ^ k)) + 2 ^ (2 * k) * ((v >> k) + v))
    by (rewrite pow_two by lia; rewrite (split2 k v) at 4 by lia; lia).
  rewrite land_dv by (first [lia | apply word_lowmask; lia | apply word_two; unfold word in *; lia]).
  rewrite land_low by (unfold word in *; lia). rewrite IH. reflexivity.
Qed.
Lemma tr_land w y m : 0 <= w -> word w m -> tr w y &&& m = y &&& m.
Proof.
  intros Hw Hm. apply Z.bits_inj'. intros i Hi. rewrite !Z.land_spec, testbit_tr by lia. destruct (Z.ltb_spec i w); [reflexivity|].
  rewrite (word_high w m) by assumption. rewrite !andb_false_r. reflexivity.
Qed.
(** the first step *)
Lemma fold_first ds : digs 1 ds -> Nat.even (List.length ds) = true ->
  val 1 ds - ((val 1 ds >> 1) &&& lowmask 1 (Nat.div2 (List.length ds))) = val 2 (pairsum ds).
Proof.
  intros Hd He. rewrite <- (fold_masked 1) by (lia || assumption).
  enough (E : val 1 ds = (val 1 ds &&& lowmask 1 (Nat.div2 (List.length ds))) + 2 * ((val 1 ds >> 1) &&& lowmask 1 (Nat.div2 (List.length ds)))) by lia.
  induction ds as [|a|a b r IH] using pair_ind; try discriminate; [cbn; rewrite ?Z.land_0_r, ?Z.shiftr_0_l; reflexivity|].
  inversion_clear Hd as [|? ? Ha Hd']. inversion_clear Hd' as [|? ? Hb Hr]. cbn [val List.length Nat.div2 lowmask].
  specialize (IH Hr He). set (v := val 1 r) in *. set (m := lowmask 1 _) in *.
  replace (a + 2 ^ 1 * (b + 2 ^ 1 * v)) with ((a + 2 ^ 1 * b) + 2 ^ (2 * 1) * v) at 2 by (rewrite pow_two by lia; lia).
  rewrite shr_dv by (lia || assumption).
  replace (b + 2 ^ 1 * v) with ((b + 2 ^ 1 * (v mod 2 ^ 1)) + 2 ^ (2 * 1) * (v >> 1)) at 2 by (rewrite pow_two by lia; rewrite (split2 1 v) at 3 by lia; lia).
  rewrite !land_dv by (first [lia | apply word_lowmask; lia | apply word_two; first [lia | assumption | apply word_mod; lia]]).
  rewrite !land_low by (lia || assumption). change (2 ^ 1) with 2. change (2 ^ (2 * 1)) with 4. lia.
Qed.

Lemma digits_pop n : forall x, sumz (digits 1 n x) = ones_in (map (fun i => Z.testbit x (Z.of_nat i)) (seq 0 n)).
Proof.
  induction n as [|n IH]; intros x; [reflexivity|]. cbn [digits sumz fold_right seq map ones_in]. unfold sumz in IH. rewrite IH.
  change (Z.of_nat 0) with 0. rewrite Z.bit0_odd. change (2 ^ 1) with 2. rewrite Zmod_odd. rewrite <- seq_shift, map_map.
  assert (E : map (fun i => Z.testbit (x / 2) (Z.of_nat i)) (seq 0 n) = map (fun i => Z.testbit x (Z.of_nat (S i))) (seq 0 n)).
  { apply map_ext. intros i. rewrite Nat2Z.inj_succ, <- Z.div2_bits by lia. reflexivity. }
  rewrite E. destruct (Z.odd x); lia.
Qed.
Lemma digs_bound k ds B : (forall d, In d ds -> 0 <= d <= B) -> B < 2 ^ k -> digs k ds.
Proof. intros H HB. apply Forall_forall. intros d Hd. specialize (H d Hd). unfold word. lia. Qed.
Lemma pairsum_bound ds B : (forall d, In d ds -> 0 <= d <= B) -> forall d, In d (pairsum ds) -> 0 <= d <= 2 * B.
Proof.
  induction ds as [|a|a b r IH] using pair_ind; intros H d Hd; cbn in Hd; try tauto. destruct Hd as [<-|Hd].
  - pose proof (H a ltac:(cbn; auto)). pose proof (H b ltac:(cbn; auto)). lia.
  - apply IH; auto. intros e He. apply H. cbn. auto.
Qed.
Lemma digs_le k ds : digs k ds -> forall d, In d ds -> 0 <= d <= 2 ^ k - 1.
Proof. intros H d Hd. unfold digs in H. rewrite Forall_forall in H. specialize (H d Hd). unfold word in H. lia. Qed.

Section Count.
  Variables (n : nat) (x : Z).
  Hypothesis Hx : word (Z.of_nat n) x.
  Let b := digits 1 n x.
  Let p1 := pairsum b.
  Let p2 := pairsum p1.
  Let p3 := pairsum p2.
  Let p4 := pairsum p3.
  Let p5 := pairsum p4.
  Let p6 := pairsum p5.
  Lemma c_b : val 1 b = x. Proof. apply digits_val; [lia|]. replace (1 * Z.of_nat n) with (Z.of_nat n) by lia. exact Hx. Qed.
  Lemma c_B0 : forall d, In d b -> 0 <= d <= 1. Proof. apply (digs_le 1), digits_digs. lia. Qed.
  Lemma c_B1 : forall d, In d p1 -> 0 <= d <= 2. Proof. apply (pairsum_bound _ 1 c_B0). Qed.
  Lemma c_B2 : forall d, In d p2 -> 0 <= d <= 4. Proof. apply (pairsum_bound _ 2 c_B1). Qed.
  Lemma c_B3 : forall d, In d p3 -> 0 <= d <= 8. Proof. apply (pairsum_bound _ 4 c_B2). Qed.
  Lemma c_B4 : forall d, In d p4 -> 0 <= d <= 16. Proof. apply (pairsum_bound _ 8 c_B3). Qed.
  Lemma c_B5 : forall d, In d p5 -> 0 <= d <= 32. Proof. apply (pairsum_bound _ 16 c_B4). Qed.
  Lemma c_L : List.length b = n. Proof. apply digits_length. Qed.
  Lemma c_L1 : List.length p1 = Nat.div2 n. Proof. unfold p1. rewrite len_pairsum, c_L. reflexivity. Qed.
  Lemma c_L2 : List.length p2 = Nat.div2 (Nat.div2 n). Proof. unfold p2. rewrite len_pairsum, c_L1. reflexivity. Qed.
  Lemma c_L3 : List.length p3 = Nat.div2 (Nat.div2 (Nat.div2 n)). Proof. unfold p3. rewrite len_pairsum, c_L2. reflexivity. Qed.
  Lemma c_L4 : List.length p4 = Nat.div2 (Nat.div2 (Nat.div2 (Nat.div2 n))). Proof. unfold p4. rewrite len_pairsum, c_L3. reflexivity. Qed.
  Lemma c_L5 : List.length p5 = Nat.div2 (Nat.div2 (Nat.div2 (Nat.div2 (Nat.div2 n)))). Proof. unfold p5. rewrite len_pairsum, c_L4. reflexivity. Qed.
  Lemma c_L6 : List.length p6 = Nat.div2 (Nat.div2 (Nat.div2 (Nat.div2 (Nat.div2 (Nat.div2 n))))). Proof. unfold p6. rewrite len_pairsum, c_L5. reflexivity. Qed.
  Lemma c_pop : sumz b = popcount (Z.of_nat n) x.
  Proof. unfold b, popcount, lsb_first, bit. rewrite digits_pop, Nat2Z.id. reflexivity. Qed.
  Lemma c_1 : Nat.even n = true -> x - ((x >> 1) &&& lowmask 1 (Nat.div2 n)) = val 2 p1.
  Proof. intros H. pose proof (fold_first b) as E. rewrite c_b, c_L in E. apply E; [apply digits_digs; lia|exact H]. Qed.
  Lemma c_2 : Nat.even (List.length p1) = true -> ((val 2 p1 >> 2) &&& lowmask 2 (Nat.div2 (List.length p1))) + (val 2 p1 &&& lowmask 2 (Nat.div2 (List.length p1))) = val 4 p2.
  Proof. intros H. apply (fold_masked 2); [lia| |exact H]. apply (digs_bound _ _ 2); [apply c_B1|reflexivity]. Qed.
  Lemma c_3 : Nat.even (List.length p2) = true -> ((val 4 p2 >> 4) + val 4 p2) &&& lowmask 4 (Nat.div2 (List.length p2)) = val 8 p3.
  Proof. intros H. apply (fold_small 4); [lia| |exact H]. apply (digs_bound _ _ 4); [apply c_B2|reflexivity]. Qed.
  Lemma c_4 : Nat.even (List.length p3) = true -> ((val 8 p3 >> 8) + val 8 p3) &&& lowmask 8 (Nat.div2 (List.length p3)) = val 16 p4.
  Proof. intros H. apply (fold_small 8); [lia| |exact H]. apply (digs_bound _ _ 8); [apply c_B3|reflexivity]. Qed.
  Lemma c_5 : Nat.even (List.length p4) = true -> ((val 16 p4 >> 16) + val 16 p4) &&& lowmask 16 (Nat.div2 (List.length p4)) = val 32 p5.
  Proof. intros H. apply (fold_small 16); [lia| |exact H]. apply (digs_bound _ _ 16); [apply c_B4|reflexivity]. Qed.
  Lemma c_6 : Nat.even (List.length p5) = true -> ((val 32 p5 >> 32) + val 32 p5) &&& lowmask 32 (Nat.div2 (List.length p5)) = val 64 p6.
  Proof. intros H. apply (fold_small 32); [lia| |exact H]. apply (digs_bound _ _ 32); [apply c_B5|reflexivity]. Qed.
  Lemma c_w1 : val 2 p1 < 2 ^ (2 * Z.of_nat (List.length p1)). Proof. apply (val_word 2); [lia|]. apply (digs_bound _ _ 2); [apply c_B1|reflexivity]. Qed.
  Lemma c_w1' : 0 <= val 2 p1. Proof. apply (val_word 2); [lia|]. apply (digs_bound _ _ 2); [apply c_B1|reflexivity]. Qed.
  Lemma c_w2 : val 4 p2 < 2 ^ (4 * Z.of_nat (List.length p2)). Proof. apply (val_word 4); [lia|]. apply (digs_bound _ _ 4); [apply c_B2|reflexivity]. Qed.
  Lemma c_w2' : 0 <= val 4 p2. Proof. apply (val_word 4); [lia|]. apply (digs_bound _ _ 4); [apply c_B2|reflexivity]. Qed.
End Count.
Lemma single_val k l : List.length l = 1%nat -> val k l = sumz l.
Proof. destruct l as [|a [|? ?]]; cbn; try discriminate. intros _. lia. Qed.
Lemma pop_range w x : 0 <= w -> 0 <= popcount w x <= w.
Proof.
  intros Hw. unfold popcount. assert (G : forall l, 0 <= ones_in l <= Z.of_nat (List.length l)) by (induction l as [|[] l IH]; cbn [ones_in List.length]; lia).
  specialize (G (lsb_first w x)). unfold lsb_first in *. rewrite map_length, seq_length in G. lia.
Qed.
Ltac sums n x Hx := rewrite !sum_pairsum by (rewrite ?len_pairsum, digits_length; reflexivity).
Lemma count_bits_ok w x : width w -> unsigned w x -> count_bits w x = popcount w x.
Proof.
  intros Hw Hx. pose proof (pop_range w x ltac:(pose proof (width_pos w Hw); lia)) as Hp. widths Hw; unfold count_bits; cbn [Z.eqb Pos.eqb].
  - pose proof (c_L1 8 x) as L1. pose proof (c_L2 8 x) as L2. pose proof (c_L3 8 x) as L3. cbn [Nat.div2] in *.
    pose proof (c_1 8 x Hx eq_refl) as E1. pose proof (c_2 8 x) as E2. pose proof (c_3 8 x) as E3. rewrite L1 in E2. rewrite L2 in E3. specialize (E2 eq_refl). specialize (E3 eq_refl).
    pose proof (c_w1 8 x) as W1. pose proof (c_w1' 8 x) as W1'. rewrite L1 in W1. cbn [Nat.div2] in *.
    change (lowmask 1 4) with 0x55 in E1. change (lowmask 2 2) with 0x33 in E2. change (lowmask 4 1) with 0x0F in E3.
    unfold count_bits_8. cbv zeta. rewrite E1. rewrite (tr_id 32) by (unfold word; change (2 ^ (2 * Z.of_nat 4)) with 256 in W1; change (2 ^ 32) with 4294967296; lia).
    rewrite E2, E3. rewrite single_val by exact L3. sums 8%nat x Hx. rewrite (c_pop 8 x). apply tr_id. unfold word. change (2 ^ 8) with 256. change (Z.of_nat 8) with 8. lia.
  - pose proof (c_L1 16 x) as L1. pose proof (c_L2 16 x) as L2. pose proof (c_L3 16 x) as L3. pose proof (c_L4 16 x) as L4. cbn [Nat.div2] in *.
    pose proof (c_1 16 x Hx eq_refl) as E1. pose proof (c_2 16 x) as E2. pose proof (c_3 16 x) as E3. pose proof (c_4 16 x) as E4. rewrite L1 in E2. rewrite L2 in E3. rewrite L3 in E4. specialize (E2 eq_refl). specialize (E3 eq_refl). specialize (E4 eq_refl).
    pose proof (c_w1 16 x) as W1. pose proof (c_w1' 16 x) as W1'. rewrite L1 in W1. cbn [Nat.div2] in *.
    change (lowmask 1 8) with 0x5555 in E1. change (lowmask 2 4) with 0x3333 in E2. change (lowmask 4 2) with 0x0F0F in E3. change (lowmask 8 1) with 0x00FF in E4.
    unfold count_bits_16. cbv zeta. rewrite E1. rewrite (tr_id 32) by (unfold word; change (2 ^ (2 * Z.of_nat 8)) with 65536 in W1; change (2 ^ 32) with 4294967296; lia).
    rewrite E2, E3, E4. rewrite single_val by exact L4. sums 16%nat x Hx. rewrite (c_pop 16 x). apply tr_id. unfold word. change (2 ^ 8) with 256. change (Z.of_nat 16) with 16. lia.
  - pose proof (c_L1 32 x) as L1. pose proof (c_L2 32 x) as L2. pose proof (c_L3 32 x) as L3. pose proof (c_L4 32 x) as L4. pose proof (c_L5 32 x) as L5. cbn [Nat.div2] in *.
    pose proof (c_1 32 x Hx eq_refl) as E1. pose proof (c_2 32 x) as E2. pose proof (c_3 32 x) as E3. pose proof (c_4 32 x) as E4. pose proof (c_5 32 x) as E5.
    rewrite L1 in E2. rewrite L2 in E3. rewrite L3 in E4. rewrite L4 in E5. specialize (E2 eq_refl). specialize (E3 eq_refl). specialize (E4 eq_refl). specialize (E5 eq_refl).
    pose proof (c_w1 32 x) as W1. pose proof (c_w1' 32 x) as W1'. pose proof (c_w2 32 x) as W2. pose proof (c_w2' 32 x) as W2'. rewrite L1 in W1. rewrite L2 in W2. cbn [Nat.div2] in *.
    change (lowmask 1 16) with 0x55555555 in E1. change (lowmask 2 8) with 0x33333333 in E2. change (lowmask 4 4) with 0x0F0F0F0F in E3. change (lowmask 8 2) with 0x00FF00FF in E4. change (lowmask 16 1) with 0xFFFF in E5.
    unfold count_bits_32. cbv zeta. rewrite E1. rewrite (tr_id 32 (val 2 _)) by (split; assumption).
    rewrite E2. rewrite (tr_id 32 (val 4 _)) by (split; assumption). rewrite !tr_land by (unfold word; lia). rewrite E3, E4.
    change 0x0000FF with (0xFFFF &&& 0xFF). rewrite Z.land_assoc, E5. rewrite single_val by exact L5. sums 32%nat x Hx. rewrite (c_pop 32 x). change 0xFF with (Z.ones 8).
    rewrite Z.land_ones by lia. change (Z.of_nat 32) with 32. rewrite Z.mod_small by (change (2 ^ 8) with 256; lia). apply tr_id. unfold word. change (2 ^ 8) with 256. lia.
  - pose proof (c_L1 64 x) as L1. pose proof (c_L2 64 x) as L2. pose proof (c_L3 64 x) as L3. pose proof (c_L4 64 x) as L4. pose proof (c_L5 64 x) as L5. pose proof (c_L6 64 x) as L6. cbn [Nat.div2] in *.
    pose proof (c_1 64 x Hx eq_refl) as E1. pose proof (c_2 64 x) as E2. pose proof (c_3 64 x) as E3. pose proof (c_4 64 x) as E4. pose proof (c_5 64 x) as E5. pose proof (c_6 64 x) as E6.
    rewrite L1 in E2. rewrite L2 in E3. rewrite L3 in E4. rewrite L4 in E5. rewrite L5 in E6. specialize (E2 eq_refl). specialize (E3 eq_refl). specialize (E4 eq_refl). specialize (E5 eq_refl). specialize (E6 eq_refl).
    pose proof (c_w1 64 x) as W1. pose proof (c_w1' 64 x) as W1'. pose proof (c_w2 64 x) as W2. pose proof (c_w2' 64 x) as W2'. rewrite L1 in W1. rewrite L2 in W2. cbn [Nat.div2] in *.
    change (lowmask 1 32) with 0x5555555555555555 in E1. change (lowmask 2 16) with 0x3333333333333333 in E2. change (lowmask 4 8) with 0x0F0F0F0F0F0F0F0F in E3.
    change (lowmask 8 4) with 0x00FF00FF00FF00FF in E4. change (lowmask 16 2) with 0x0000FFFF0000FFFF in E5. change (lowmask 32 1) with 0xFFFFFFFF in E6.
    unfold count_bits_64. cbv zeta. rewrite E1. rewrite (tr_id 64 (val 2 _)) by (split; assumption).
    rewrite E2. rewrite (tr_id 64 (val 4 _)) by (split; assumption). rewrite !tr_land by (unfold word; lia). rewrite E3, E4, E5, E6.
    rewrite single_val by exact L6. sums 64%nat x Hx. rewrite (c_pop 64 x). apply tr_id. unfold word. change (2 ^ 8) with 256. change (Z.of_nat 64) with 64. lia.
Qed.
