(** C63: the stack (stack.h) *)
From Coq Require Import List Arith Bool Lia.
From Verif Require Import StackModel StackSpec StackProofs.
Import ListNotations.

Section P.
Variables (T : Type) (SIZE_MAX CAP : nat) (checked triv : bool).
Notation history := (history T SIZE_MAX CAP checked triv).
Notation effect := (effect T CAP).
Notation run := (run T SIZE_MAX CAP checked triv).
(** with ETL_CHECK_PUSH_POP, after any calls, every next call has exactly the effect of the list: no raw memory is read or destroyed, no living object overwritten, nothing outside the buffer touched *)
Theorem C63_call : checked = true -> forall s l c l' e, history s l -> effect l c l' e -> exists s', run s c = (if e then Error _ s' else Ok _ s') /\ history s' l'.
Proof.
  intros K s l c l' e H E. pose proof (history_rep T SIZE_MAX CAP checked triv s l K H) as R. destruct e.
  - destruct (step_error T SIZE_MAX CAP checked triv s l c l' K R E) as (s' & E1 & _). exists s'. split; [exact E1|]. eapply h_error; eauto.
  - destruct (step_ok T SIZE_MAX CAP checked triv s l c l' R E) as (s' & E1 & _). exists s'. split; [exact E1|]. eapply h_ok; eauto.
Qed.
(** every call has an effect, and only one *)
Theorem C63_effect_total : forall l c, length l <= CAP -> (forall o, c = assign_ T o -> exists lo, holds T o lo) -> exists l' e, effect l c l' e.
Proof.
  intros l [v| | | |o] B H.
  - destruct (Nat.eq_dec (length l) CAP); eexists; eexists; [apply e_push_full; assumption|apply e_push; lia].
  - destruct l as [|v l _] using rev_ind; eexists; eexists; constructor.
  - eexists; eexists; constructor.
  - eexists; eexists; constructor.
  - destruct (H o eq_refl) as (lo & Ho). destruct (Nat.le_gt_cases (length lo) CAP); eexists; eexists; [eapply e_assign; eauto|eapply e_assign_full; eauto].
Qed.
(** what the observers say, and that the values of the buffer up to size() are those of the list: another stack may be assigned from this one *)
Theorem C63_observers : checked = true -> forall s l, history s l ->
  size T s = length l /\ (empty T s = true <-> l = []) /\ (full T CAP s = true <-> length l = CAP) /\ available T CAP s = CAP - length l /\ length l <= CAP /\ holds T s l /\ forall q v, l = q ++ [v] -> top T s = Some v.
Proof.
  intros K s l H. destruct (history_rep T SIZE_MAX CAP checked triv s l K H) as (rest & B & L & C & P & R). unfold size, empty, full, available, holds, top. rewrite C, B.
  split; [reflexivity|]. split; [split; intros E; [apply Nat.eqb_eq in E; destruct l; [reflexivity|discriminate]|subst; reflexivity]|]. split; [apply Nat.eqb_eq|]. split; [reflexivity|]. split; [lia|]. split.
  - rewrite firstn_app, map_length, Nat.sub_diag, firstn_O, app_nil_r. rewrite <- (map_length (@Some T) l). apply firstn_all.
  - intros q v ->. rewrite app_length in P. cbn in P. destruct P as [P|P]; [destruct q; discriminate|]. replace (top_index T s) with (length (map (@Some T) q)) by (rewrite map_length; lia). rewrite map_app, <- app_assoc. cbn [map app]. rewrite nth_app_mid. reflexivity.
Qed.
(** pop_into takes the element that was pushed last *)
Theorem C63_pop_into : checked = true -> forall s l v, history s (l ++ [v]) -> exists s', pop_into T SIZE_MAX checked s = (Some v, Ok _ s') /\ history s' l.
Proof.
  intros K s l v H. destruct (C63_observers K s _ H) as (_ & _ & _ & _ & _ & _ & Tp). unfold pop_into. rewrite (Tp l v eq_refl).
  destruct (C63_call K s _ (pop_ T) l false H (e_pop _ _ l v)) as (s' & E & Q). cbn [StackSpec.run] in E. rewrite E. eauto.
Qed.
(** when clear (and so the destructor) or pop leaves the stack empty, no slot holds an object that has to be destroyed *)
Theorem C63_no_leak : checked = true -> triv = false -> forall s, history s [] -> forall i, i < CAP -> nth_error (buf T s) i = Some None.
Proof.
  intros K N s H i I. destruct (history_rep T SIZE_MAX CAP checked triv s [] K H) as (rest & B & L & C & P & R). cbn in *. rewrite B. specialize (R N). rewrite <- L in I. clear -R I. revert i I. induction R as [|x r E _ IH]; intros [|i] I; cbn in *; try lia; [now rewrite E|apply IH; lia].
Qed.
(** REFUTED: pop_into on an empty stack is not caught by ETL_CHECK_PUSH_POP: it reads raw memory before the check *)
Theorem C63_pop_into_empty_refuted : checked = true -> triv = false -> forall s, history s [] -> pop_into T SIZE_MAX checked s = (None, Ub _).
Proof.
  intros K N s H. pose proof (C63_no_leak K N s H) as A. destruct (history_rep T SIZE_MAX CAP checked triv s [] K H) as (rest & B & L & _). cbn in *. unfold pop_into, top. destruct (nth_error (buf T s) (top_index T s)) as [x|] eqn:E; [|reflexivity].
  assert (top_index T s < CAP) by (rewrite <- L, <- B; apply nth_error_Some; congruence). rewrite A in E by assumption. injection E as <-. reflexivity.
Qed.
End P.

(** without ETL_CHECK_PUSH_POP: the same as long as the user stays within the bounds *)
Theorem C63_unchecked : forall T SIZE_MAX CAP triv s l, StackSpec.history T SIZE_MAX CAP true triv s l -> forall c l', StackSpec.effect T CAP l c l' false ->
  exists s', StackSpec.run T SIZE_MAX CAP false triv s c = Ok _ s' /\ StackSpec.run T SIZE_MAX CAP true triv s c = Ok _ s'.
Proof.
  intros T M CAP triv s l R0 c l' E. pose proof (history_rep T M CAP true triv s l eq_refl R0) as R. destruct (step_ok T M CAP false triv s l c l' R E) as (s1 & E1 & _). exists s1. split; [exact E1|].
  destruct c; cbn [run] in *; try exact E1.
  - unfold push in *. cbn [andb] in *. destruct R as (rest & B & L & C & _). unfold full. rewrite C. assert (G : length l < CAP) by (inversion E; subst; assumption). destruct (Nat.eqb_spec (length l) CAP); [lia|]. exact E1.
  - unfold pop in *. cbn [andb] in *. destruct R as (rest & B & L & C & _). unfold empty. rewrite C. assert (G : length l <> 0) by (inversion E; subst; rewrite app_length; cbn; lia). destruct (Nat.eqb_spec (length l) 0); [lia|]. exact E1.
  - assert (G0 : holds T other l' /\ length l' <= CAP) by (inversion E; subst; auto). destruct G0 as (G1 & G2). unfold clone in *. destruct (clear_ok T M CAP triv s l R) as (s2 & E2 & Q2). rewrite E2 in *. unfold holds in *. rewrite G1 in *.
    assert (G : forall lo s l, rep T CAP triv s l -> length l + length lo <= CAP -> push_all T CAP true triv s (map Some lo) = push_all T CAP false triv s (map Some lo)).
    { clear -T CAP triv. induction lo as [|v lo IH]; intros s l H B; [reflexivity|]. cbn [map push_all length] in *. destruct (push_ok T CAP false triv s l v H) as (s' & E & Q); [lia|]. rewrite E.
      assert (X : push T CAP true triv s v = Ok _ s'). { unfold push in *. cbn [andb] in *. destruct H as (rest & _ & L & C & _). unfold full. rewrite C. destruct (Nat.eqb_spec (length l) CAP); [lia|]. exact E. }
      rewrite X. apply (IH s' (l ++ [v]) Q). rewrite app_length. cbn. lia. }
    rewrite (G l' s2 [] Q2) by (cbn; assumption). exact E1.
Qed.
(** and a push onto a full stack writes behind the buffer *)
Theorem C63_unchecked_full : forall T SIZE_MAX CAP triv s l v, StackSpec.history T SIZE_MAX CAP true triv s l -> length l = CAP -> push T CAP false triv s v = Ub _.
Proof.
  intros T M CAP triv s l v H0 H. destruct (history_rep T M CAP true triv s l eq_refl H0) as (rest & B & L & C & _). unfold push. cbn [andb]. unfold construct, add_in. cbn [top_index buf]. rewrite (proj2 (nth_error_None (buf T s) (current_size T s))); [reflexivity|]. rewrite B, C, app_length, map_length. lia.
Qed.

(** capacity 3: push 1, 2, 3, a refused 4, reverse, pop *)
Example C63_run : exists s, history nat 1000 3 true false s [3; 2] /\ top nat s = Some 2 /\ buf nat s = [Some 3; Some 2; None].
Proof.
  eexists. split; [|shelve]. eapply h_ok; [eapply h_ok; [eapply h_error; [eapply h_ok; [eapply h_ok; [eapply h_ok; [apply h_ctor|apply (e_push nat 3 [] 1); cbn; lia|reflexivity]|apply (e_push nat 3 [1] 2); cbn; lia|reflexivity]|apply (e_push nat 3 [1; 2] 3); cbn; lia|reflexivity]
    |apply (e_push_full nat 3 [1; 2; 3] 4); reflexivity|reflexivity]|apply (e_reverse nat 3 [1; 2; 3])|reflexivity]|apply (e_pop nat 3 [3; 2] 1)|reflexivity].
  Unshelve. split; reflexivity.
Qed.
Print Assumptions C63_call.
Print Assumptions C63_observers.
Print Assumptions C63_pop_into.
Print Assumptions C63_no_leak.
Print Assumptions C63_unchecked.
Print Assumptions C63_run.
