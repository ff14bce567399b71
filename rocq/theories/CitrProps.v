(** C60: a circular_iterator over a range of [len] elements: after any calls it stands at the element given by the sum of the moves modulo len. *)
From Coq Require Import ZArith List Lia.
From Verif Require Import CitrModel.
Import ListNotations.
Local Open Scope Z_scope.

(** the distance a call asks for, and whether it is a value the call can be given: a ptrdiff_t, for -= not the smallest *)
Definition distance (c : call) : Z := match c with Incr => 1 | Decr => -1 | Plus n => n | Minus n => - n end.
Definition allowed (c : call) : Prop := match c with Plus n => - 2 ^ 63 <= n < 2 ^ 63 | Minus n => - 2 ^ 63 < n < 2 ^ 63 | _ => True end.

Lemma dt_some n : - 2 ^ 63 <= n < 2 ^ 63 -> dt n = Some n.
Proof. intros H. unfold dt, MIN, MAX. destruct (Z.leb_spec (- 2 ^ 63) n); destruct (Z.leb_spec n (2 ^ 63 - 1)); try lia; reflexivity. Qed.
Lemma move_some len p : 0 <= p <= len -> move len p = Some p.
Proof. intros H. unfold move. destruct (Z.leb_spec 0 p); destruct (Z.leb_spec p len); try lia; reflexivity. Qed.
Lemma plus_spec len p n : 0 < len < 2 ^ 63 -> 0 <= p < len -> - 2 ^ 63 <= n < 2 ^ 63 -> plus len p n = Some ((p + n) mod len).
Proof.
  intros Hl Hp Hn. unfold plus. destruct (Z.eqb_spec len 0); [lia|].
  pose proof (Z.quot_rem' n len) as E. assert (R : - len < Z.rem n len < len).
  { pose proof (Z.rem_bound_abs n len ltac:(lia)) as B. rewrite (Z.abs_eq len) in B by lia. lia. }
  set (r := Z.rem n len) in *. assert (M : (p + n) mod len = (p + r) mod len).
  { replace (p + n) with (p + r + Z.quot n len * len) by lia. apply Z.mod_add. lia. }
  rewrite M. clear M E. clearbody r. rewrite dt_some by lia. cbn [bind]. destruct (Z.eqb_spec r 0) as [->|Nr]; [rewrite Z.add_0_r, Z.mod_small by lia; reflexivity|].
  rewrite (dt_some p), (dt_some (len - p)) by lia. cbn [bind]. destruct (Z.ltb_spec 0 r).
  - destruct (Z.ltb_spec r (len - p)).
    + rewrite dt_some by lia. cbn [bind]. rewrite move_some by lia. rewrite Z.mod_small by lia. reflexivity.
    + rewrite dt_some by lia. cbn [bind]. rewrite move_some by lia. f_equal. symmetry. rewrite <- (Z.mod_add (p + r) (-1)) by lia. rewrite Z.mod_small; lia.
  - rewrite (dt_some (- r)) by lia. cbn [bind]. destruct (Z.leb_spec (- r) p).
    + rewrite dt_some by lia. cbn [bind]. rewrite move_some by lia. rewrite Z.mod_small by lia. f_equal. lia.
    + rewrite (dt_some (- r - p)) by lia. cbn [bind]. rewrite dt_some by lia. cbn [bind]. rewrite move_some by lia. f_equal. symmetry. rewrite <- (Z.mod_add (p + r) 1) by lia. rewrite Z.mod_small; lia.
Qed.
(** one call: nothing undefined happens, and the result is the element (position + distance) modulo the length *)
Theorem C60_call : forall len p c, 0 < len < 2 ^ 63 -> 0 <= p < len -> allowed c -> perform len p c = Some ((p + distance c) mod len) /\ 0 <= (p + distance c) mod len < len.
Proof.
  intros len p c Hl Hp Ha. split; [|apply Z.mod_pos_bound; lia]. destruct c as [| |n|n]; cbn [perform distance allowed] in *.
  - unfold incr. rewrite move_some by lia. cbn [bind]. destruct (Z.eqb_spec (p + 1) len) as [->|]; [rewrite Z.mod_same by lia; reflexivity|rewrite Z.mod_small by lia; reflexivity].
  - unfold decr. destruct (Z.eqb_spec p 0) as [->|].
    + rewrite move_some by lia. f_equal. rewrite <- (Z.mod_add (0 + -1) 1) by lia. rewrite Z.mod_small; lia.
    + rewrite move_some by lia. rewrite Z.mod_small by lia. f_equal.
  - apply plus_spec; auto.
  - unfold minus. rewrite dt_some by lia. cbn [bind]. rewrite plus_spec by lia. reflexivity.
Qed.
(** any sequence of calls *)
Theorem C60_history : forall len start cs, 0 < len < 2 ^ 63 -> 0 <= start < len -> Forall allowed cs ->
  perform_all len start cs = Some ((start + fold_right Z.add 0 (map distance cs)) mod len).
Proof.
  intros len start cs Hl. unfold perform_all. revert start. induction cs as [|c cs IH]; intros p Hp Ha; cbn [fold_left map fold_right].
  - rewrite Z.add_0_r, Z.mod_small by lia. reflexivity.
  - inversion Ha; subst. cbn [bind]. destruct (C60_call len p c Hl Hp H1) as (-> & B). rewrite IH by auto. f_equal. rewrite Z.add_mod_idemp_l by lia. f_equal. lia.
Qed.
(** going there and back *)
Theorem C60_inverse : forall len p n q, 0 < len < 2 ^ 63 -> 0 <= p < len -> - 2 ^ 63 < n < 2 ^ 63 -> plus len p n = Some q -> minus len q n = Some p.
Proof.
  intros len p n q Hl Hp Hn H. rewrite plus_spec in H by lia. injection H as <-. pose proof (Z.mod_pos_bound (p + n) len ltac:(lia)) as B.
  destruct (C60_call len ((p + n) mod len) (Minus n) Hl B Hn) as (E & _). cbn [perform distance] in E. rewrite E, Z.add_mod_idemp_l by lia. f_equal. replace (p + n + - n) with p by lia. apply Z.mod_small. lia.
Qed.
(** an empty range: every call is undefined: ++ and -- leave the range, += and -= divide by zero *)
Theorem C60_empty_refuted : forall c, perform 0 0 c = None.
Proof. intros [| |n|n]; try reflexivity. cbn. unfold minus. destruct (dt (- n)); reflexivity. Qed.
(** -= with the smallest difference: its negation overflows *)
Theorem C60_minimum_refuted : forall len p, minus len p (- 2 ^ 63) = None.
Proof. intros len p. unfold minus. replace (dt (- - 2 ^ 63)) with (@None Z) by (vm_compute; reflexivity). reflexivity. Qed.
Example C60_example : perform_all 5 2 [Incr; Plus (-9); Minus 13; Decr] = Some 0 /\ Forall allowed [Incr; Plus (-9); Minus 13; Decr].
Proof. split; [reflexivity|]. repeat constructor; cbn; lia. Qed.
Print Assumptions C60_call.
Print Assumptions C60_history.
Print Assumptions C60_inverse.
Print Assumptions C60_empty_refuted.
Print Assumptions C60_minimum_refuted.
