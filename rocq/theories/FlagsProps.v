(** C65: flags.h. A flags object is a set of flags, one for each bit of MASK *)
From Coq Require Import List Bool ZArith Lia.
From Verif Require Import BinaryModel FlagsModel.
Import ListNotations.
Local Open Scope Z_scope.

(** specification: the flag with number i, after a call, from what it was before; m: whether the flag exists (MASK) *)
Definition flag_after (mask : Z) (i : Z) (b : bool) (c : call) : bool :=
  let on p := Z.testbit p i in let m := on mask in
  match c with
  | Set_ p => if on p && m then true else b
  | SetTo p v => if on p && m then v else b
  | Clear => false
  | Reset p => if on p then false else b
  | FlipAll => if m then negb b else false
  | Flip p => if on p && m then negb b else b
  | Assign p => on p && m
  | AndEq p => b && on p
  | OrEq p => b || (on p && m)
  | XorEq p => xorb b (on p && m)
  end.
Definition flag (mask : Z) (calls : list call) (i : Z) : bool := fold_left (flag_after mask i) calls false.

Section P.
Variables (w MASK : Z).
Hypothesis w_ok : 0 < w.
Hypothesis mask_ok : 0 <= MASK < 2 ^ w.
Lemma mask_bit i : w <= i -> Z.testbit MASK i = false.
Proof. intros H. destruct (Z.eq_dec MASK 0) as [->|N]; [apply Z.testbit_0_l|]. apply Z.bits_above_log2; [lia|]. apply Z.log2_lt_pow2; [lia|]. assert (2 ^ w <= 2 ^ i) by (apply Z.pow_le_mono_r; lia). lia. Qed.
Lemma tr_bit x i : 0 <= i -> Z.testbit (tr w x) i = Z.testbit x i && Z.ltb i w.
Proof. intros H. unfold tr. destruct (Z.ltb_spec i w); [rewrite Z.mod_pow2_bits_low by lia; now rewrite andb_true_r|rewrite Z.mod_pow2_bits_high by lia; now rewrite andb_false_r]. Qed.
Lemma step_bit d c i : 0 <= i -> (forall j, 0 <= j -> Z.testbit d j = true -> Z.testbit MASK j = true) -> Z.testbit (step w MASK d c) i = flag_after MASK i (Z.testbit d i) c.
Proof.
  intros I S. specialize (S i I). pose proof (mask_bit i) as M. assert (L : Z.ltb i w = false -> Z.testbit MASK i = false) by (intros X; apply M; apply Z.ltb_ge; exact X). clear M.
  assert (Z0 : Z.testbit 0 i = false) by apply Z.testbit_0_l.
  destruct c as [p|p [|]| |p| |p|p|p|p|p]; cbn [step flag_after]; unfold set, set_value, clear, reset, flip_all, flip, assign, and_eq, or_eq, xor_eq; rewrite ?tr_bit, ?Z.lor_spec, ?Z.land_spec, ?Z.lxor_spec, ?Z.lnot_spec, ?Z.land_spec, ?Z0 by exact I;
  destruct (Z.testbit d i), (Z.testbit MASK i), (Z.ltb i w); try (exfalso; specialize (S eq_refl); discriminate); try (exfalso; specialize (L eq_refl); discriminate); try destruct (Z.testbit p i); reflexivity.
Qed.
Lemma flag_mask calls i : flag MASK calls i = true -> Z.testbit MASK i = true.
Proof.
  unfold flag. assert (G : forall b, (b = true -> Z.testbit MASK i = true) -> fold_left (flag_after MASK i) calls b = true -> Z.testbit MASK i = true).
  { induction calls as [|c calls IH]; intros b B; [exact B|]. cbn [fold_left]. apply IH. clear IH. destruct c; cbn; destruct b, (Z.testbit MASK i); try reflexivity; try (specialize (B eq_refl); discriminate); try destruct (Z.testbit _ i); try discriminate; auto. }
  apply G. discriminate.
Qed.

(** after any calls, the bits of value() are the flags; flags outside MASK are never set, and value() is a value of T *)
Theorem C65_value : forall calls i, 0 <= i -> Z.testbit (run w MASK calls) i = flag MASK calls i.
Proof.
  intros calls. induction calls as [|c calls IH] using rev_ind; intros i I; [apply Z.testbit_0_l|]. unfold run, flag in *. rewrite !fold_left_app. cbn [fold_left]. rewrite step_bit; [rewrite IH by exact I; reflexivity|exact I|].
  intros j J E. rewrite IH in E by exact J. eapply flag_mask. exact E.
Qed.
Theorem C65_in_mask : forall calls i, flag MASK calls i = true -> Z.testbit MASK i = true.
Proof. exact flag_mask. Qed.
Lemma step_range d c : 0 <= step w MASK d c < 2 ^ w.
Proof. assert (0 < 2 ^ w) by (apply Z.pow_pos_nonneg; lia). destruct c as [p|p [|]| |p| |p|p|p|p|p]; cbn [step]; unfold set, set_value, clear, reset, flip_all, flip, assign, and_eq, or_eq, xor_eq, tr; try (apply Z.mod_pos_bound; assumption); lia. Qed.
Theorem C65_range : forall calls, 0 <= run w MASK calls < 2 ^ w.
Proof. intros calls. destruct calls as [|c calls _] using rev_ind; [unfold run, ctor; cbn; assert (0 < 2 ^ w) by (apply Z.pow_pos_nonneg; lia); lia|]. unfold run. rewrite fold_left_app. apply step_range. Qed.

Lemma zero_iff x : Z.eqb x 0 = true <-> forall i, 0 <= i -> Z.testbit x i = false.
Proof. rewrite Z.eqb_eq. split; [intros -> i _; apply Z.testbit_0_l|]. intros H. apply Z.bits_inj'. intros i I. rewrite H by exact I. symmetry. apply Z.testbit_0_l. Qed.
Lemma nonzero_iff x : 0 <= x -> (negb (Z.eqb x 0) = true <-> exists i, 0 <= i /\ Z.testbit x i = true).
Proof.
  intros X. rewrite negb_true_iff, Z.eqb_neq. split.
  - intros N. exists (Z.log2 x). split; [apply Z.log2_nonneg|]. apply Z.bit_log2. lia.
  - intros (i & I & B) ->. rewrite Z.testbit_0_l in B. discriminate.
Qed.
Lemma eq_iff x y : Z.eqb x y = true <-> forall i, 0 <= i -> Z.testbit x i = Z.testbit y i.
Proof. rewrite Z.eqb_eq. split; [intros ->; reflexivity|]. intros H. apply Z.bits_inj'. exact H. Qed.
(** the questions; p is a pattern: the set of the flags whose bits are 1 *)
Theorem C65_test : forall calls p, 0 <= p -> (test (run w MASK calls) p = true <-> exists i, 0 <= i /\ Z.testbit p i = true /\ flag MASK calls i = true).
Proof.
  intros calls p P. unfold test. rewrite nonzero_iff by (apply Z.land_nonneg; right; exact P). split; intros (i & I & H); exists i; rewrite Z.land_spec, C65_value in * by exact I; rewrite andb_true_iff in *; tauto.
Qed.
Theorem C65_any_of : forall calls p, 0 <= p -> (any_of MASK (run w MASK calls) p = true <-> exists i, 0 <= i /\ Z.testbit p i = true /\ flag MASK calls i = true).
Proof.
  intros calls p P. unfold any_of. rewrite nonzero_iff by (apply Z.land_nonneg; right; apply Z.land_nonneg; left; exact P). pose proof (flag_mask calls) as FM. split; intros (i & I & H); exists i; specialize (FM i); rewrite !Z.land_spec, C65_value in * by exact I; rewrite !andb_true_iff in *; tauto.
Qed.
Theorem C65_none_of : forall calls p, 0 <= p -> (none_of MASK (run w MASK calls) p = true <-> forall i, 0 <= i -> Z.testbit p i = true -> flag MASK calls i = false).
Proof.
  intros calls p P. unfold none_of. rewrite negb_true_iff. split.
  - intros H i I B. destruct (flag MASK calls i) eqn:F; [|reflexivity]. rewrite <- H. symmetry. apply C65_any_of; [exact P|]. exists i. auto.
  - intros H. destruct (any_of MASK (run w MASK calls) p) eqn:A; [|reflexivity]. apply C65_any_of in A; [|exact P]. destruct A as (i & I & B & F). rewrite H in F by assumption. discriminate.
Qed.
Theorem C65_any_none : forall calls, (any MASK (run w MASK calls) = true <-> exists i, 0 <= i /\ flag MASK calls i = true) /\ none MASK (run w MASK calls) = negb (any MASK (run w MASK calls)).
Proof.
  intros calls. split; [|unfold any, none; now rewrite negb_involutive]. unfold any. rewrite nonzero_iff by (apply Z.land_nonneg; right; lia). pose proof (flag_mask calls) as FM. split; intros (i & I & H); exists i; specialize (FM i); rewrite Z.land_spec, C65_value in * by exact I; rewrite andb_true_iff in *; tauto.
Qed.
Theorem C65_all : forall calls, all MASK (run w MASK calls) = true <-> forall i, 0 <= i -> Z.testbit MASK i = true -> flag MASK calls i = true.
Proof.
  intros calls. unfold all. rewrite eq_iff. pose proof (flag_mask calls) as FM. split; intros H i I; specialize (H i I); specialize (FM i); rewrite C65_value in * by exact I; [intros M; congruence|]. destruct (flag MASK calls i), (Z.testbit MASK i); auto; try (symmetry; apply FM; reflexivity).
Qed.
(** all_of: of the flags of the pattern that exist *)
Theorem C65_all_of : forall calls p, all_of MASK (run w MASK calls) p = true <-> forall i, 0 <= i -> Z.testbit p i = true -> Z.testbit MASK i = true -> flag MASK calls i = true.
Proof.
  intros calls p. unfold all_of. rewrite eq_iff. split; intros H i I; specialize (H i I); rewrite !Z.land_spec, C65_value in * by exact I; [intros A B; rewrite A, B in H; cbn in H; now rewrite andb_true_r in H|].
  destruct (flag MASK calls i), (Z.testbit p i), (Z.testbit MASK i); cbn; auto.
Qed.
Theorem C65_equal : forall c1 c2, equal (run w MASK c1) (run w MASK c2) = true <-> forall i, 0 <= i -> flag MASK c1 i = flag MASK c2 i.
Proof. intros c1 c2. unfold equal. rewrite eq_iff. split; intros H i I; specialize (H i I); rewrite !C65_value in * by exact I; exact H. Qed.
Theorem C65_ctor_value : forall p i, 0 <= i -> Z.testbit (ctor_value w MASK p) i = Z.testbit p i && Z.testbit MASK i.
Proof. intros p i I. exact (C65_value [Assign p] i I). Qed.
End P.

(** uint8_t, MASK 0x0F *)
Example C65_run : run 8 15 [Set_ 0xF3; Flip 0x06; SetTo 0x01 false; FlipAll] = 11 /\ all_of 15 11 0xF3 = true /\ none_of 15 11 0xF4 = true /\ all 15 11 = false /\ flag 15 [Set_ 0xF3; Flip 0x06; SetTo 0x01 false; FlipAll] 3 = true.
Proof. repeat split. Qed.
Print Assumptions C65_value.
Print Assumptions C65_test.
Print Assumptions C65_any_of.
Print Assumptions C65_all_of.
Print Assumptions C65_run.
