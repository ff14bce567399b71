(** * Bit level reasoning: xor-linear functions, digits in base 2^k. *)
From Coq Require Import List Arith Lia Bool ZArith.
From Verif Require Import Util BinaryModel.
Import ListNotations.
Local Open Scope Z_scope.

Definition word (w x : Z) : Prop := 0 <= x < 2 ^ w.
Lemma pow_pos k : 0 < 2 ^ k \/ k < 0.
Proof. destruct (Z.lt_ge_cases k 0); [auto|left; apply Z.pow_pos_nonneg; lia]. Qed.
Lemma word_high w x i : word w x -> w <= i -> Z.testbit x i = false.
Proof.
  intros H Hi. destruct (Z.eq_dec x 0) as [->|]; [apply Z.bits_0|]. destruct H.
  assert (0 <= w) by (destruct (Z.lt_ge_cases w 0); [rewrite Z.pow_neg_r in * by lia; lia|lia]).
  apply Z.bits_above_log2; [lia|]. apply Z.log2_lt_pow2; [lia|]. apply Z.lt_le_trans with (2 ^ w); [lia|]. apply Z.pow_le_mono_r; lia.
Qed.
Lemma word_bits w x : 0 <= w -> 0 <= x -> (forall i, w <= i -> Z.testbit x i = false) -> word w x.
Proof.
  intros Hw Hx H. split; [exact Hx|]. destruct (Z.eq_dec x 0) as [->|]; [apply Z.pow_pos_nonneg; lia|].
  destruct (Z.lt_ge_cases x (2 ^ w)) as [|G]; [assumption|]. exfalso.
  assert (w <= Z.log2 x) by (apply Z.log2_le_pow2; lia).
  pose proof (Z.bit_log2 x ltac:(lia)). rewrite H in * by lia. discriminate.
Qed.
Lemma testbit_tr w x i : 0 <= w -> Z.testbit (tr w x) i = if i <? w then Z.testbit x i else false.
Proof.
  intros Hw. unfold tr. destruct (Z.ltb_spec i w).
  - destruct (Z.lt_ge_cases i 0); [rewrite !Z.testbit_neg_r by lia; reflexivity|]. apply Z.mod_pow2_bits_low. lia.
  - apply Z.mod_pow2_bits_high. lia.
Qed.
Lemma word_tr w x : 0 <= w -> word w (tr w x).
Proof. intros. apply Z.mod_pos_bound. apply Z.pow_pos_nonneg; lia. Qed.
Lemma tr_id w x : word w x -> tr w x = x.
Proof. intros H. apply Z.mod_small. exact H. Qed.
Lemma word_ext w x y : word w x -> word w y -> (forall i, 0 <= i < w -> Z.testbit x i = Z.testbit y i) -> x = y.
Proof.
  intros Hx Hy H. apply Z.bits_inj'. intros i Hi. destruct (Z.lt_ge_cases i w); [apply H; lia|].
  rewrite !(word_high w) by assumption. reflexivity.
Qed.
Lemma word_lxor w x y : word w x -> word w y -> word w (x ^^^ y).
Proof.
  intros Hx Hy. assert (0 <= w) by (destruct Hx; destruct (Z.lt_ge_cases w 0); [rewrite Z.pow_neg_r in * by lia; lia|lia]).
  apply word_bits; [lia|apply Z.lxor_nonneg; destruct Hx, Hy; tauto|]. intros i Hi. rewrite Z.lxor_spec, !(word_high w) by assumption. reflexivity.
Qed.
Lemma word_pow w j : 0 <= j < w -> word w (2 ^ j).
Proof. intros H. split; [apply Z.pow_nonneg; lia|apply Z.pow_lt_mono_r; lia]. Qed.

(** ** xor-linear functions on words of w bits *)
Definition lin (w : Z) (f : Z -> Z) : Prop := forall a b, word w a -> word w b -> f (a ^^^ b) = f a ^^^ f b.
(** all bits of x are bits of the mask m *)
Definition sub (x m : Z) : Prop := forall i, Z.testbit x i = true -> Z.testbit m i = true.

Lemma sub_word w x : word w x -> sub x (Z.ones w).
Proof.
  intros H i Hi. assert (0 <= w) by (destruct H; destruct (Z.lt_ge_cases w 0); [rewrite Z.pow_neg_r in * by lia; lia|lia]).
  destruct (Z.lt_ge_cases i 0); [rewrite Z.testbit_neg_r in Hi by lia; discriminate|].
  destruct (Z.lt_ge_cases i w); [apply Z.ones_spec_low; lia|]. rewrite (word_high w) in Hi by assumption. discriminate.
Qed.
Lemma sub_land x m m2 : sub x m -> sub (x &&& m2) (m &&& m2).
Proof. intros H i. rewrite !Z.land_spec, !andb_true_iff. intros [A B]. auto. Qed.
Lemma sub_shr x m k : 0 <= k -> sub x m -> sub (x >> k) (m >> k).
Proof. intros Hk H i. destruct (Z.lt_ge_cases i 0); [rewrite Z.testbit_neg_r by lia; discriminate|]. rewrite !Z.shiftr_spec by lia. apply H. Qed.
Lemma sub_shl x m k : 0 <= k -> sub x m -> sub (x << k) (m << k).
Proof. intros Hk H i. destruct (Z.lt_ge_cases i 0); [rewrite Z.testbit_neg_r by lia; discriminate|]. rewrite !Z.shiftl_spec by lia. apply H. Qed.
Lemma sub_lor x m y m2 : sub x m -> sub y m2 -> sub (x ||| y) (m ||| m2).
Proof. intros H H2 i. rewrite !Z.lor_spec, !orb_true_iff. intros [A|A]; auto. Qed.
Lemma sub_lxor x m y m2 : sub x m -> sub y m2 -> sub (x ^^^ y) (m ||| m2).
Proof. intros H H2 i. rewrite Z.lxor_spec, Z.lor_spec, !orb_true_iff. specialize (H i). specialize (H2 i). destruct (Z.testbit x i), (Z.testbit y i); cbn; intros A; auto; discriminate. Qed.
Lemma sub_tr x m w : 0 <= w -> sub x m -> sub (tr w x) (tr w m).
Proof. intros Hw H i. rewrite !testbit_tr by lia. destruct (i <? w); [apply H|discriminate]. Qed.
Lemma sub_disjoint x m y m2 : sub x m -> sub y m2 -> m &&& m2 = 0 -> x &&& y = 0.
Proof.
  intros H H2 E. apply Z.bits_inj'. intros i Hi. rewrite Z.land_spec, Z.bits_0. destruct (Z.testbit x i) eqn:A; [|reflexivity]. destruct (Z.testbit y i) eqn:B; [|reflexivity].
  apply H in A. apply H2 in B. assert (Z.testbit (m &&& m2) i = true) by (rewrite Z.land_spec, A, B; reflexivity). rewrite E, Z.bits_0 in H0. discriminate.
Qed.
Lemma lor_lxor x y : x &&& y = 0 -> x ||| y = x ^^^ y.
Proof. intros H. rewrite Z.lxor_lor by exact H. reflexivity. Qed.
Lemma sub_wordof x m w : 0 <= w -> 0 <= x -> sub x m -> word w m -> word w x.
Proof.
  intros Hw Hx H Hm. apply word_bits; auto. intros i Hi. destruct (Z.testbit x i) eqn:E; [|reflexivity]. apply H in E. rewrite (word_high w) in E by assumption. discriminate.
Qed.

Lemma lin_id w : lin w (fun x => x).
Proof. intros a b _ _. reflexivity. Qed.
Lemma lin_land w f m : lin w f -> lin w (fun x => f x &&& m).
Proof. intros H a b Ha Hb. rewrite (H a b Ha Hb). apply Z.bits_inj'. intros i Hi. rewrite ?Z.land_spec, ?Z.lxor_spec, ?Z.land_spec. destruct (Z.testbit (f a) i), (Z.testbit (f b) i), (Z.testbit m i); reflexivity. Qed.
Lemma lin_shl w f k : 0 <= k -> lin w f -> lin w (fun x => f x << k).
Proof. intros Hk H a b Ha Hb. rewrite (H a b Ha Hb). apply Z.shiftl_lxor. Qed.
Lemma lin_shr w f k : 0 <= k -> lin w f -> lin w (fun x => f x >> k).
Proof. intros Hk H a b Ha Hb. rewrite (H a b Ha Hb). apply Z.shiftr_lxor. Qed.
Lemma lin_lxor w f g : lin w f -> lin w g -> lin w (fun x => f x ^^^ g x).
Proof. intros H H2 a b Ha Hb. rewrite (H a b Ha Hb), (H2 a b Ha Hb). apply Z.bits_inj'. intros i Hi. rewrite !Z.lxor_spec. destruct (Z.testbit (f a) i), (Z.testbit (f b) i), (Z.testbit (g a) i), (Z.testbit (g b) i); reflexivity. Qed.
Lemma lin_tr w f k : 0 <= k -> lin w f -> lin w (fun x => tr k (f x)).
Proof. intros Hk H a b Ha Hb. rewrite (H a b Ha Hb). apply Z.bits_inj'. intros i Hi. rewrite Z.lxor_spec, !testbit_tr, Z.lxor_spec by lia. destruct (i <? k); reflexivity. Qed.
Lemma lin_lor w f g : lin w f -> lin w g -> (forall x, word w x -> f x &&& g x = 0) -> lin w (fun x => f x ||| g x).
Proof.
  intros H H2 D a b Ha Hb. rewrite !lor_lxor; auto; [|apply D; apply word_lxor; assumption]. apply (lin_lxor w f g H H2 a b Ha Hb).
Qed.
Lemma lin_comp w w2 f g : lin w2 f -> lin w g -> (forall x, word w x -> word w2 (g x)) -> lin w (fun x => f (g x)).
Proof. intros H H2 W a b Ha Hb. rewrite (H2 a b Ha Hb). apply H; auto. Qed.

(** a linear function is determined by the images of the powers of two *)
Definition xorall (l : list bool) : bool := fold_right xorb false l.
Lemma lin_0 w f : 0 <= w -> lin w f -> f 0 = 0.
Proof. intros Hw H. assert (W : word w 0) by (split; [lia|apply Z.pow_pos_nonneg; lia]). pose proof (H 0 0 W W) as E. rewrite !Z.lxor_nilpotent in E. exact E. Qed.
Lemma top_bit_split (n : nat) x : word (Z.of_nat (S n)) x ->
  x = (x mod 2 ^ Z.of_nat n) ^^^ (if Z.testbit x (Z.of_nat n) then 2 ^ Z.of_nat n else 0).
Proof.
  intros H. apply Z.bits_inj'. intros i Hi. rewrite Z.lxor_spec.
  destruct (Z.lt_trichotomy i (Z.of_nat n)) as [L|[->|G]].
  - rewrite Z.mod_pow2_bits_low by lia. destruct (Z.testbit x (Z.of_nat n)); rewrite ?Z.bits_0, ?xorb_false_r; [|reflexivity].
    rewrite Z.pow2_bits_false by lia. rewrite xorb_false_r. reflexivity.
  - rewrite Z.mod_pow2_bits_high by lia. destruct (Z.testbit x (Z.of_nat n)); rewrite ?Z.bits_0; [rewrite Z.pow2_bits_true by lia|]; reflexivity.
  - rewrite Z.mod_pow2_bits_high by lia. rewrite (word_high _ x i H) by lia. destruct (Z.testbit x (Z.of_nat n)); rewrite ?Z.bits_0; [rewrite Z.pow2_bits_false by lia|]; reflexivity.
Qed.
Lemma lin_basis (w : Z) f : lin w f -> forall (n : nat) x, Z.of_nat n <= w -> word (Z.of_nat n) x -> forall i,
  Z.testbit (f x) i = xorall (map (fun j => Z.testbit x (Z.of_nat j) && Z.testbit (f (2 ^ Z.of_nat j)) i) (seq 0 n)).
Proof.
  intros L. induction n as [|n IH]; intros x Hn Hx i.
  - assert (x = 0) by (destruct Hx; cbn in *; lia). subst. rewrite (lin_0 w f ltac:(lia) L), Z.bits_0. reflexivity.
  - assert (Hm : word (Z.of_nat n) (x mod 2 ^ Z.of_nat n)) by (apply Z.mod_pos_bound, Z.pow_pos_nonneg; lia).
    assert (Up : forall y, word (Z.of_nat n) y -> word w y).
    { intros y [Y1 Y2]. split; [exact Y1|]. apply Z.lt_le_trans with (2 ^ Z.of_nat n); [exact Y2|apply Z.pow_le_mono_r; lia]. }
    pose proof (top_bit_split n x Hx) as E. set (t := if Z.testbit x (Z.of_nat n) then 2 ^ Z.of_nat n else 0) in *.
    assert (Ht : word w t) by (unfold t; destruct (Z.testbit x (Z.of_nat n)); [apply word_pow; lia|split; [lia|apply Z.pow_pos_nonneg; lia]]).
    rewrite E at 1. rewrite (L _ _ (Up _ Hm) Ht), Z.lxor_spec, (IH _ ltac:(lia) Hm).
    rewrite seq_S, map_app. cbn [plus map]. unfold xorall. rewrite fold_right_app. cbn [fold_right]. rewrite xorb_false_r.
    assert (K : forall l b, fold_right xorb b l = xorb (fold_right xorb false l) b).
    { induction l as [|c l IHl]; intros b; cbn [fold_right]; [symmetry; apply xorb_false_l|]. rewrite IHl. symmetry. apply xorb_assoc_reverse. }
    rewrite (K _ (_ && _)). f_equal.
    + f_equal. apply map_ext_in. intros j Hj. apply in_seq in Hj. rewrite Z.mod_pow2_bits_low by lia. reflexivity.
    + unfold t. destruct (Z.testbit x (Z.of_nat n)); [reflexivity|]. rewrite (lin_0 w f ltac:(lia) L), Z.bits_0. reflexivity.
Qed.
(** one bit of the result is one bit of the argument *)
Lemma xorall_pick (n : nat) (g h : nat -> bool) p : (p < n)%nat -> (forall j, (j < n)%nat -> h j = Nat.eqb j p) ->
  xorall (map (fun j => g j && h j) (seq 0 n)) = g p.
Proof.
  intros Hp H. assert (G : forall k m, (forall j, (k <= j < k + m)%nat -> h j = Nat.eqb j p) ->
    xorall (map (fun j => g j && h j) (seq k m)) = if (k <=? p)%nat && (p <? k + m)%nat then g p else false).
  { intros k m. revert k. induction m as [|m IH]; intros k Hk; cbn [seq map xorall fold_right].
    - destruct (Nat.leb_spec k p), (Nat.ltb_spec p (k + 0)); cbn; auto; lia.
    - fold (xorall (map (fun j => g j && h j) (seq (S k) m))). rewrite IH by (intros; apply Hk; lia). rewrite (Hk k) by lia.
      destruct (Nat.eqb_spec k p) as [->|N].
      + destruct (Nat.leb_spec (S p) p); [lia|]. destruct (Nat.leb_spec p p); [|lia]. destruct (Nat.ltb_spec p (p + S m)); [|lia].
        cbn. rewrite andb_true_r, xorb_false_r. reflexivity.
      + rewrite andb_false_r, xorb_false_l. destruct (Nat.leb_spec (S k) p), (Nat.leb_spec k p), (Nat.ltb_spec p (S k + m)), (Nat.ltb_spec p (k + S m)); cbn; auto; lia. }
  rewrite G by (intros; apply H; lia). destruct (Nat.leb_spec 0 p); [|lia]. destruct (Nat.ltb_spec p (0 + n)); [reflexivity|lia].
Qed.
Lemma lin_bit (w : nat) f i p : lin (Z.of_nat w) f -> (p < w)%nat ->
  forallb (fun j => Bool.eqb (Z.testbit (f (2 ^ Z.of_nat j)) i) (Nat.eqb j p)) (seq 0 w) = true ->
  forall x, word (Z.of_nat w) x -> Z.testbit (f x) i = Z.testbit x (Z.of_nat p).
Proof.
  intros L Hp H x Hx. rewrite (lin_basis (Z.of_nat w) f L w x ltac:(lia) Hx).
  apply (xorall_pick w (fun j => Z.testbit x (Z.of_nat j)) (fun j => Z.testbit (f (2 ^ Z.of_nat j)) i) p Hp).
  intros j Hj. rewrite forallb_forall in H. apply eqb_prop, (H j). apply in_seq. lia.
Qed.
Lemma lin_bits (w : nat) f (wr : nat) (p : nat -> nat) : lin (Z.of_nat w) f ->
  forallb (fun i => Nat.ltb (p i) w && forallb (fun j => Bool.eqb (Z.testbit (f (2 ^ Z.of_nat j)) (Z.of_nat i)) (Nat.eqb j (p i))) (seq 0 w)) (seq 0 wr) = true ->
  forall x, word (Z.of_nat w) x -> forall i, (i < wr)%nat -> Z.testbit (f x) (Z.of_nat i) = Z.testbit x (Z.of_nat (p i)).
Proof.
  intros L H x Hx i Hi. rewrite forallb_forall in H. assert (Hin : In i (seq 0 wr)) by (apply in_seq; lia). specialize (H i Hin).
  apply andb_true_iff in H as [H1 H2]. apply Nat.ltb_lt in H1. apply (lin_bit w f (Z.of_nat i) (p i) L H1 H2 x Hx).
Qed.
(** two linear functions equal on the powers of two are equal *)
Lemma lin_ext (w : nat) f g : lin (Z.of_nat w) f -> lin (Z.of_nat w) g ->
  forallb (fun j => f (2 ^ Z.of_nat j) =? g (2 ^ Z.of_nat j)) (seq 0 w) = true ->
  forall x, word (Z.of_nat w) x -> f x = g x.
Proof.
  intros Lf Lg H x Hx. apply Z.bits_inj'. intros i Hi. rewrite (lin_basis (Z.of_nat w) f Lf w x ltac:(lia) Hx), (lin_basis (Z.of_nat w) g Lg w x ltac:(lia) Hx).
  f_equal. apply map_ext_in. intros j Hj. rewrite forallb_forall in H. rewrite (proj1 (Z.eqb_eq _ _) (H j Hj)). reflexivity.
Qed.

(** automation: linearity of straight line code *)
Ltac submask :=
  match goal with
  | |- sub (?x &&& ?m) _ => eapply sub_land; submask
  | |- sub (?x >> ?k) _ => eapply sub_shr; [lia|submask]
  | |- sub (?x << ?k) _ => eapply sub_shl; [lia|submask]
  | |- sub (?x ||| ?y) _ => eapply sub_lor; submask
  | |- sub (?x ^^^ ?y) _ => eapply sub_lxor; submask
  | |- sub (tr ?w ?x) _ => eapply sub_tr; [lia|submask]
  | |- sub ?x _ => apply sub_word; eassumption
  end.
Ltac linear :=
  match goal with
  | |- lin _ (fun x => x) => apply lin_id
  | |- lin _ (fun x => ?f &&& ?m) => apply lin_land; linear
  | |- lin _ (fun x => ?f << ?k) => apply lin_shl; [lia|linear]
  | |- lin _ (fun x => ?f >> ?k) => apply lin_shr; [lia|linear]
  | |- lin _ (fun x => ?f ^^^ ?k) => apply lin_lxor; linear
  | |- lin _ (fun x => tr ?k ?f) => apply lin_tr; [lia|linear]
  | |- lin _ (fun x => ?f ||| ?g) => apply lin_lor; [linear|linear|intros ? ?; eapply sub_disjoint; [submask|submask|vm_compute; reflexivity]]
  end.

(** ** digits in base 2^k, least significant first *)
Fixpoint val (k : Z) (ds : list Z) : Z := match ds with [] => 0 | d :: r => d + 2 ^ k * val k r end.
Definition digs (k : Z) (ds : list Z) : Prop := Forall (word k) ds.
Fixpoint digits (k : Z) (n : nat) (x : Z) : list Z := match n with O => [] | S m => x mod 2 ^ k :: digits k m (x / 2 ^ k) end.
Lemma testbit_dv k d v i : 0 <= k -> word k d -> 0 <= i -> Z.testbit (d + 2 ^ k * v) i = if i <? k then Z.testbit d i else Z.testbit v (i - k).
Proof.
  intros Hk Hd Hi. rewrite Z.mul_comm. destruct (Z.ltb_spec i k).
  - rewrite <- (Z.mod_pow2_bits_low (d + v * 2 ^ k) k i) by lia. rewrite Z.mod_add by (apply Z.pow_nonzero; lia). rewrite Z.mod_small by exact Hd. reflexivity.
  - replace i with ((i - k) + k) at 1 by lia. rewrite <- Z.div_pow2_bits by lia. rewrite Z.div_add by (apply Z.pow_nonzero; lia).
    rewrite Z.div_small by exact Hd. reflexivity.
Qed.
Lemma land_dv k d v d2 v2 : 0 <= k -> word k d -> word k d2 -> (d + 2 ^ k * v) &&& (d2 + 2 ^ k * v2) = (d &&& d2) + 2 ^ k * (v &&& v2).
Proof.
  intros Hk H H2. assert (word k (d &&& d2)).
  { apply word_bits; [lia|apply Z.land_nonneg; destruct H; lia|]. intros i Hi. rewrite Z.land_spec, (word_high k d) by assumption. reflexivity. }
  apply Z.bits_inj'. intros i Hi. rewrite Z.land_spec, !testbit_dv by assumption. destruct (i <? k); rewrite Z.land_spec; reflexivity.
Qed.
Lemma lor_dv k d v d2 v2 : 0 <= k -> word k d -> word k d2 -> (d + 2 ^ k * v) ||| (d2 + 2 ^ k * v2) = (d ||| d2) + 2 ^ k * (v ||| v2).
Proof.
  intros Hk H H2. assert (word k (d ||| d2)).
  { apply word_bits; [lia|apply Z.lor_nonneg; destruct H, H2; lia|]. intros i Hi. rewrite Z.lor_spec, !(word_high k) by assumption. reflexivity. }
  apply Z.bits_inj'. intros i Hi. rewrite Z.lor_spec, !testbit_dv by assumption. destruct (i <? k); rewrite Z.lor_spec; reflexivity.
Qed.
Lemma lxor_dv k d v d2 v2 : 0 <= k -> word k d -> word k d2 -> (d + 2 ^ k * v) ^^^ (d2 + 2 ^ k * v2) = (d ^^^ d2) + 2 ^ k * (v ^^^ v2).
Proof.
  intros Hk H H2. pose proof (word_lxor k d d2 H H2).
  apply Z.bits_inj'. intros i Hi. rewrite Z.lxor_spec, !testbit_dv by assumption. destruct (i <? k); rewrite Z.lxor_spec; reflexivity.
Qed.
Lemma shr_dv k d v : 0 <= k -> word k d -> (d + 2 ^ k * v) >> k = v.
Proof.
  intros Hk H. apply Z.bits_inj'. intros i Hi. rewrite Z.shiftr_spec, testbit_dv by lia || assumption.
  destruct (Z.ltb_spec (i + k) k); [lia|]. f_equal. lia.
Qed.
Lemma digits_val k n : 0 <= k -> forall x, word (k * Z.of_nat n) x -> val k (digits k n x) = x.
Proof.
  intros Hk. induction n as [|n IH]; intros x Hx; cbn.
  - destruct Hx. rewrite Z.mul_0_r in *. cbn in *. lia.
  - assert (0 < 2 ^ k) by (apply Z.pow_pos_nonneg; lia). rewrite IH.
    + rewrite (Z.div_mod x (2 ^ k)) at 3 by lia. lia.
    + destruct Hx. split; [apply Z.div_pos; lia|]. apply Z.div_lt_upper_bound; [lia|].
      rewrite <- Z.pow_add_r by lia. replace (k + k * Z.of_nat n) with (k * Z.of_nat (S n)) by lia. assumption.
Qed.
Lemma digits_digs k n : 0 <= k -> forall x, digs k (digits k n x).
Proof. intros Hk. induction n; intros x; cbn; constructor; [apply Z.mod_pos_bound, Z.pow_pos_nonneg; lia|apply IHn]. Qed.
Lemma digits_length k n : forall x, List.length (digits k n x) = n.
Proof. induction n; intros; cbn; auto. Qed.
Lemma val_word k ds : 0 <= k -> digs k ds -> word (k * Z.of_nat (List.length ds)) (val k ds).
Proof.
  intros Hk H. induction H as [|d r Hd Hr IH]; cbn [val List.length]; [rewrite Z.mul_0_r; split; cbn; lia|].
  assert (0 < 2 ^ k) by (apply Z.pow_pos_nonneg; lia). replace (k * Z.of_nat (S (List.length r))) with (k + k * Z.of_nat (List.length r)) by lia.
  unfold word in *. rewrite Z.pow_add_r by lia. nia.
Qed.
