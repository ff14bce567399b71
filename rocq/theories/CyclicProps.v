(** C33: cyclic_value. *)
From Coq Require Import ZArith List Bool Lia.
From Verif Require Import Util CyclicModel CyclicSpec.
Import ListNotations.
Open Scope Z_scope.

Definition in_range (c : cyc) : Prop := cfirst c <= cval c <= clast c.

Lemma around_range f l v n : f <= l -> f <= around f l v n <= l.
Proof. intros H. unfold around, size_of. pose proof (Z.mod_pos_bound (v - f + n) (l - f + 1) ltac:(lia)). lia. Qed.
Lemma around_add f l v n m : f <= l -> around f l (around f l v n) m = around f l v (n + m).
Proof.
  intros H. unfold around, size_of. f_equal.
  replace (f + (v - f + n) mod (l - f + 1) - f + m) with ((v - f + n) mod (l - f + 1) + m) by lia.
  rewrite Z.add_mod_idemp_l by lia. f_equal. lia.
Qed.
Lemma around_0 f l v : f <= v <= l -> around f l v 0 = v.
Proof. intros H. unfold around, size_of. rewrite Z.mod_small by lia. lia. Qed.

Lemma inc_spec c : in_range c -> c_inc c = mkcyc (around (cfirst c) (clast c) (cval c) 1) (cfirst c) (clast c).
Proof.
  intros [H1 H2]. unfold c_inc. f_equal. unfold around, size_of. destruct (Z.leb_spec (clast c) (cval c)).
  - replace (cval c - cfirst c + 1) with (clast c - cfirst c + 1) by lia. rewrite Z.mod_same by lia. lia.
  - rewrite Z.mod_small by lia. lia.
Qed.
Lemma dec_spec c : in_range c -> c_dec c = mkcyc (around (cfirst c) (clast c) (cval c) (-1)) (cfirst c) (clast c).
Proof.
  intros [H1 H2]. unfold c_dec. f_equal. unfold around, size_of. destruct (Z.leb_spec (cval c) (cfirst c)).
  - replace (cval c - cfirst c + -1) with ((clast c - cfirst c) + (-1) * (clast c - cfirst c + 1)) by lia.
    rewrite Z.mod_add, Z.mod_small by lia. lia.
  - rewrite Z.mod_small by lia. lia.
Qed.
Lemma rep_spec f d :
  (forall c, in_range c -> f c = mkcyc (around (cfirst c) (clast c) (cval c) d) (cfirst c) (clast c)) ->
  forall n c, in_range c ->
  c_rep f n c = mkcyc (around (cfirst c) (clast c) (cval c) (Z.of_nat n * d)) (cfirst c) (clast c).
Proof.
  intros Hf. induction n as [|n IH]; intros c Hc.
  - cbn [c_rep]. rewrite around_0 by exact Hc. destruct c; reflexivity.
  - cbn [c_rep]. rewrite (Hf c Hc).
    assert (Hr : cfirst c <= clast c) by (unfold in_range in Hc; lia).
    rewrite IH; [|unfold in_range; cbn [cfirst clast cval]; apply around_range; exact Hr].
    cbn [cfirst clast cval]. rewrite around_add by exact Hr. do 2 f_equal. lia.
Qed.
Lemma advance_spec c n : in_range c -> - 2 ^ 31 < n < 2 ^ 31 ->
  c_advance c n = Some (mkcyc (around (cfirst c) (clast c) (cval c) n) (cfirst c) (clast c)).
Proof.
  intros Hc Hn. unfold c_advance. destruct (Z.ltb_spec 0 n).
  - rewrite (rep_spec _ 1 inc_spec) by exact Hc. do 3 f_equal. lia.
  - destruct (Z.eqb_spec n (- 2 ^ 31)); [lia|]. rewrite (rep_spec _ (-1) dec_spec) by exact Hc. do 3 f_equal. lia.
Qed.
Lemma set_spec c v : cfirst c <= clast c -> nearest (cfirst c) (clast c) v (cval (c_set c v)).
Proof.
  intros H. unfold nearest, c_set. cbn [cval]. destruct (Z.ltb_spec (clast c) v); [|destruct (Z.ltb_spec v (cfirst c))];
    (split; [lia|intros; lia]).
Qed.

Lemma op_sound c o : in_range c -> op_ok o -> exists c', c_op c o = Some c' /\ op_spec c c' o /\ in_range c'.
Proof.
  intros Hc Ho. assert (Hr : cfirst c <= clast c) by (unfold in_range in Hc; lia).
  destruct o as [v|f l| | | | |n|d|d]; cbn [c_op op_spec op_ok] in *.
  - eexists; conj; [reflexivity|now apply set_spec|reflexivity|reflexivity|]. destruct (set_spec c v Hr) as [H _]. exact H.
  - eexists; conj; [reflexivity|reflexivity|]. unfold in_range, c_set_range; cbn [cfirst cval clast]; lia.
  - eexists; conj; [reflexivity|reflexivity|]. unfold in_range, c_to_first; cbn [cfirst cval clast]; lia.
  - eexists; conj; [reflexivity|reflexivity|]. unfold in_range, c_to_last; cbn [cfirst cval clast]; lia.
  - eexists; conj; [reflexivity|now apply inc_spec|]. rewrite inc_spec by exact Hc. unfold in_range; cbn [cfirst cval clast]. now apply around_range.
  - eexists; conj; [reflexivity|now apply dec_spec|]. rewrite dec_spec by exact Hc. unfold in_range; cbn [cfirst cval clast]. now apply around_range.
  - rewrite advance_spec by assumption. eexists; conj; [reflexivity|reflexivity|]. unfold in_range; cbn [cfirst cval clast]. now apply around_range.
  - eexists; conj; [reflexivity|now destruct d|]. exact Ho.
  - eexists; conj; [reflexivity|now apply set_spec|reflexivity|reflexivity|].
    destruct (set_spec c (cval d) Hr) as [H _]. exact H.
Qed.

(** After any operations from a freshly constructed object (whatever the constructor), every
    operation had its specified effect (so advance adds n modulo the size of the range), nothing
    undefined happened, and the value is in the current range. *)
Theorem C33_history : forall (c0 : cyc) (f l : Z) (os : list cop),
  f <= l -> (c0 = c_new f l \/ exists junk v, c0 = c_new_at junk f l v) ->
  Forall op_ok os ->
  exists c, c_run c0 os = Some c /\ history c0 os c /\ cfirst c <= cval c <= clast c.
Proof.
  intros c0 f l os Hfl Hc0 Hos.
  assert (Hr : in_range c0).
  { destruct Hc0 as [->|(junk & v & ->)]; [unfold in_range, c_new; cbn [cfirst cval clast]; lia|].
    exact (proj1 (set_spec (mkcyc junk f l) v Hfl)). }
  clear Hc0 Hfl. revert c0 Hr. induction Hos as [|o os Ho _ IH]; intros c0 Hr.
  - exists c0. split; [reflexivity|split; [constructor|exact Hr]].
  - destruct (op_sound c0 o Hr Ho) as (c1 & E & Hs & Hr1). destruct (IH c1 Hr1) as (c & E2 & Hh & Hr2).
    exists c. cbn [c_run]. rewrite E. split; [exact E2|split; [econstructor; eauto|exact Hr2]].
Qed.
Print Assumptions C33_history.

(** the constructor with an initial value takes the nearest value of the range *)
Theorem C33_initial : forall junk f l v, f <= l -> nearest f l v (cval (c_new_at junk f l v)).
Proof. intros. exact (set_spec (mkcyc junk f l) v H). Qed.
Print Assumptions C33_initial.

(** ++ and -- are inverse to each other; the postfix forms return the old value *)
Theorem C33_inverse : forall c, cfirst c <= cval c <= clast c ->
  c_dec (c_inc c) = c /\ c_inc (c_dec c) = c /\
  c_post_inc c = (c_inc c, c) /\ c_post_dec c = (c_dec c, c) /\
  (forall d, c_eq c d = true <-> c = d).
Proof.
  intros c Hc. assert (Hr : cfirst c <= clast c) by lia.
  conj; try reflexivity.
  - rewrite (inc_spec c Hc), dec_spec by (unfold in_range; cbn [cfirst cval clast]; now apply around_range).
    cbn [cfirst cval clast]. rewrite around_add, around_0 by lia. destruct c; reflexivity.
  - rewrite (dec_spec c Hc), inc_spec by (unfold in_range; cbn [cfirst cval clast]; now apply around_range).
    cbn [cfirst cval clast]. rewrite around_add, around_0 by lia. destruct c; reflexivity.
  - intros d. unfold c_eq. rewrite !andb_true_iff, !Z.eqb_eq. destruct c as [a b e], d as [a' b' e']; cbn [cfirst cval clast].
    split; [intros [[-> ->] ->]; reflexivity|intros [= -> -> ->]; auto].
Qed.
Print Assumptions C33_inverse.

(** advancing by n and then by m is advancing by n + m (when that is an int), and a full turn is nothing *)
Theorem C33_advance_adds : forall c n m, cfirst c <= cval c <= clast c ->
  - 2 ^ 31 < n < 2 ^ 31 -> - 2 ^ 31 < m < 2 ^ 31 -> - 2 ^ 31 < n + m < 2 ^ 31 ->
  (match c_advance c n with Some c' => c_advance c' m | None => None end) = c_advance c (n + m) /\
  ((n mod (clast c - cfirst c + 1) = 0) -> c_advance c n = Some c).
Proof.
  intros c n m Hc Hn Hm Hnm. split.
  - rewrite (advance_spec c n) by assumption. rewrite advance_spec; try assumption.
    + cbn [cfirst cval clast]. rewrite around_add by lia. symmetry. now apply advance_spec.
    + unfold in_range; cbn [cfirst cval clast]. apply around_range. lia.
  - intros Hz. rewrite advance_spec by assumption. f_equal. destruct c as [v f l]. cbn [cfirst cval clast] in *. f_equal.
    unfold around, size_of. rewrite Z.add_mod, Hz, Z.add_0_r, Z.mod_mod, Z.mod_small by lia. lia.
Qed.
Print Assumptions C33_advance_adds.

Example C33_nonvacuous :
  c_run (c_new 2 6) [OInc; OAdvance 12; OAdvance (-4); OSet 9; OInc; ODec; OAssignOther (mkcyc 1 0 3)]
  = Some (mkcyc 2 2 6) /\
  c_run (c_new (-3) 4) [OAdvance (-17)] = Some (mkcyc 4 (-3) 4) /\
  Forall op_ok [OInc; OAdvance 12; OAdvance (-4); OSet 9; OInc; ODec; OAssignOther (mkcyc 1 0 3)].
Proof.
  split; [vm_compute; reflexivity|split; [vm_compute; reflexivity|]].
  repeat (apply Forall_cons || apply Forall_nil); unfold op_ok; cbn [cfirst cval clast]; try exact I; lia.
Qed.
