(** C34: debounce. *)
From Coq Require Import List Bool Arith NArith Lia.
From Verif Require Import Util DebounceModel DebounceSpec.
Import ListNotations.

Lemma u16_pos : 0 < u16max.
Proof. unfold u16max. lia. Qed.
Lemma u16_val : u16max = N.to_nat 65535. Proof. reflexivity. Qed.
Local Opaque u16max.

Definition idle_ok (v h r : nat) (l : level) (since : list bool) : Prop := next_level v h r l since = (l, false).
(** the concrete state agrees with the samples since the last report *)
Definition agrees (v h r : nat) (d : db) (l : level) (since : list bool) : Prop :=
  st d = l /\ cnt d = Nat.min (streak since) u16max /\
  match since with [] => True | s :: _ => smp d = s end /\ idle_ok v h r l since.

Lemma streak_cons s since :
  streak (s :: since) = match since with [] => 1 | x :: _ => if Bool.eqb x s then S (streak since) else 1 end.
Proof.
  unfold streak. cbn [same]. rewrite Bool.eqb_reflx. destruct since as [|x t]; [reflexivity|].
  cbn [same]. rewrite Bool.eqb_reflx. destruct (Bool.eqb x s) eqn:E; [|reflexivity].
  apply eqb_prop in E. subst. reflexivity.
Qed.
Lemma count_step v h r d l since s : agrees v h r d l since ->
  cnt (bump (add_sample d s)) = Nat.min (streak (s :: since)) u16max /\
  st (bump (add_sample d s)) = l /\ smp (bump (add_sample d s)) = s /\ chg (bump (add_sample d s)) = false.
Proof.
  intros (H1 & H2 & H3 & _). pose proof u16_pos. rewrite streak_cons. unfold add_sample.
  destruct (Bool.eqb s (smp d)) eqn:E; cbn [negb bump cnt st smp chg].
  - apply eqb_prop in E. subst s. conj; auto. destruct since as [|x t].
    + cbn [streak] in H2. rewrite H2. replace (Nat.min 0 u16max) with 0 by lia. destruct (Nat.ltb_spec 0 u16max); lia.
    + rewrite H3, Bool.eqb_reflx. rewrite H2. destruct (Nat.ltb_spec (Nat.min (streak (x :: t)) u16max) u16max); lia.
  - conj; auto. destruct since as [|x t].
    + destruct (Nat.ltb_spec 0 u16max); lia.
    + rewrite <- H3. replace (Bool.eqb (smp d) s) with false by (destruct (smp d), s; cbn in *; congruence). destruct (Nat.ltb_spec 0 u16max); lia.
Qed.
Lemma due_exact c since s : c <= u16max ->
  match since with [] => True | x :: _ => x = s -> due c (streak since) = false end ->
  due c (streak (s :: since)) = (Nat.min (streak (s :: since)) u16max =? c).
Proof.
  intros Hc H. pose proof u16_pos. rewrite streak_cons. unfold due in *.
  assert (K : forall n, (n = 1 \/ exists m, n = S m /\ (negb (c =? 0) && (c <=? m)) = false) ->
    negb (c =? 0) && (c <=? n) = (Nat.min n u16max =? c)).
  { intros n Hn. destruct (Nat.eqb_spec c 0) as [->|]; cbn [negb andb].
    - symmetry. apply Nat.eqb_neq. destruct Hn as [->|(m & -> & _)]; lia.
    - destruct (Nat.leb_spec c n); symmetry; [apply Nat.eqb_eq|apply Nat.eqb_neq]; [|lia].
      destruct Hn as [->|(m & -> & Hm)]; [lia|]. destruct (Nat.eqb_spec c 0); [lia|]. cbn [negb andb] in Hm. apply Nat.leb_gt in Hm. lia. }
  apply K. destruct since as [|x t]; [now left|]. destruct (Bool.eqb x s) eqn:E; [|now left].
  right. exists (streak (x :: t)). split; [reflexivity|]. apply H. now apply eqb_prop.
Qed.
(** nothing was due before the new sample *)
Lemma not_due v h r l x t : idle_ok v h r l (x :: t) ->
  match l, x with
  | Off, true => due v (streak (x :: t)) = false
  | Off, false => True
  | _, false => due v (streak (x :: t)) = false
  | On, true => due h (streak (x :: t)) = false
  | _, true => due r (streak (x :: t)) = false
  end.
Proof.
  unfold idle_ok, next_level. destruct l, x; auto; intros H;
    match goal with |- ?b = false => destruct b; [discriminate H|reflexivity] end.
Qed.
Lemma step_ok dyn v h r d l since s : v <= u16max -> h <= u16max -> r <= u16max ->
  agrees v h r d l since -> (match l with Held => dyn = true \/ h <> 0 \/ r <> 0 | Repeating => dyn = true \/ r <> 0 | _ => True end) ->
  let (l', c) := next_level v h r l (s :: since) in
  let d' := add dyn v h r d s in
  chg d' = c /\ agrees v h r d' l' (if c then [] else s :: since) /\
  (match l' with Held => dyn = true \/ h <> 0 \/ r <> 0 | Repeating => dyn = true \/ r <> 0 | _ => True end).
Proof.
  intros Hv Hh Hr Ha Hl. destruct (count_step v h r d l since s Ha) as (Ec & Es & Em & Eg).
  destruct Ha as (_ & _ & _ & Hi).
  assert (Dv : (match l, s with Off, true | On, false | Held, false | Repeating, false => True | _, _ => False end) ->
     (cnt (bump (add_sample d s)) =? v) = due v (streak (s :: since))).
  { intros Q. rewrite Ec. symmetry. apply due_exact; [exact Hv|]. destruct since as [|x t]; [exact I|]. intros ->.
    pose proof (not_due v h r l s t Hi) as ND. destruct l, s; try exact ND; contradiction. }
  assert (Dh : (match l, s with On, true => True | _, _ => False end) ->
     (cnt (bump (add_sample d s)) =? h) = due h (streak (s :: since))).
  { intros Q. rewrite Ec. symmetry. apply due_exact; [exact Hh|]. destruct since as [|x t]; [exact I|]. intros ->.
    pose proof (not_due v h r l s t Hi) as ND. destruct l, s; try exact ND; contradiction. }
  assert (Dr : (match l, s with Held, true | Repeating, true => True | _, _ => False end) ->
     (cnt (bump (add_sample d s)) =? r) = due r (streak (s :: since))).
  { intros Q. rewrite Ec. symmetry. apply due_exact; [exact Hr|]. destruct since as [|x t]; [exact I|]. intros ->.
    pose proof (not_due v h r l s t Hi) as ND. destruct l, s; try exact ND; contradiction. }
  clear Hi. remember (bump (add_sample d s)) as e eqn:Ee. destruct e as [est esm ech ecn].
  cbn [st smp chg cnt] in *. subst est esm ech.
  assert (Z : forall c n, due c n = true -> c <> 0) by (intros c n Q; unfold due in Q; apply andb_true_iff in Q as [Q _]; apply negb_true_iff, Nat.eqb_neq in Q; exact Q).
  pose proof u16_pos as U.
  unfold next_level. cbv zeta.
  unfold add, process2, process3, process4, get_next, settle. rewrite <- Ee. cbn [st smp chg cnt].
  unfold agrees, idle_ok, next_level.
  destruct l, s; cbn [table2 table3 table4];
    try specialize (Dv I); try specialize (Dh I); try specialize (Dr I); try (rewrite Dv by fail); try (rewrite Dh by fail); try (rewrite Dr by fail).
  all: match goal with |- context [due ?a ?b] => destruct (due a b) eqn:?D | _ => idtac end.
  all: destruct dyn; [|destruct r as [|r'], h as [|h']].
  all: cbn [st smp chg cnt level_eqb negb andb table2 table3 table4].
  all: cbv zeta beta; cbn [st smp chg cnt level_eqb negb andb]; try change (streak []) with 0.
  all: try (exfalso; destruct Hl as [Hl|Hl]; [discriminate Hl|]; lia).
  all: try (exfalso; exact (Z _ _ D eq_refl)).
  all: try rewrite D.
  all: conj; try reflexivity; try exact I; try assumption; auto.
  all: try (left; reflexivity); try (right; lia); try (right; left; lia); try lia.
Qed.

Lemma feed_ok dyn v h r : v <= u16max -> h <= u16max -> r <= u16max ->
  forall samples d l since, agrees v h r d l since ->
  (match l with Held => dyn = true \/ h <> 0 \/ r <> 0 | Repeating => dyn = true \/ r <> 0 | _ => True end) ->
  let (d', reports) := feed dyn v h r d samples in
  expected v h r l since samples = (st d', reports) /\ exists since', agrees v h r d' (st d') since'.
Proof.
  intros Hv Hh Hr. induction samples as [|s t IH]; intros d l since Ha Hl.
  - cbn [feed expected]. pose proof Ha as (E & _). subst l. split; [reflexivity|now exists since].
  - cbn [feed expected]. pose proof (step_ok dyn v h r d l since s Hv Hh Hr Ha Hl) as K.
    destruct (next_level v h r l (s :: since)) as [l' c]. cbv zeta in K. destruct K as (K1 & K2 & K3).
    specialize (IH _ _ _ K2 K3). destruct (feed dyn v h r (add dyn v h r d s) t) as [d2 reports].
    destruct IH as [E X]. rewrite E. split; [now rewrite K1|exact X].
Qed.
Lemma start_ok v h r i : agrees v h r (d_new i) (if i then On else Off) [].
Proof. unfold agrees, d_new, idle_ok. cbn [st cnt streak next_level]. conj; try reflexivity; try exact I. Qed.

(** For every configuration and every sequence of samples the reported changes and the final state
    (is_set, is_held, is_repeating, through the level) are those of the specification: a change is
    reported at exactly the sample that completes a streak of the configured length. *)
Theorem C34_history : forall (dynamic : bool) (v h r : nat) (initial : bool) (samples : list bool),
  v <= u16max -> h <= u16max -> r <= u16max ->
  let (d, reports) := feed dynamic v h r (d_new initial) samples in
  let (l, expected_reports) := expected v h r (if initial then On else Off) [] samples in
  reports = expected_reports /\
  is_set d = negb (level_eqb l Off) /\
  is_held d = (level_eqb l Held || level_eqb l Repeating) /\
  is_repeating d = level_eqb l Repeating /\
  (forall s, has_changed (add dynamic v h r d s) = last (snd (feed dynamic v h r (d_new initial) (samples ++ [s]))) false).
Proof.
  intros dyn v h r i samples Hv Hh Hr.
  pose proof (feed_ok dyn v h r Hv Hh Hr samples (d_new i) _ [] (start_ok v h r i)) as K.
  destruct (feed dyn v h r (d_new i) samples) as [d reports] eqn:F.
  destruct K as [E _]; [now destruct i|]. rewrite E. split; [reflexivity|split; [|split; [|split]]].
  - unfold is_set. now destruct (st d).
  - unfold is_held. now destruct (st d).
  - unfold is_repeating. now destruct (st d).
  - intros s. clear E. unfold has_changed.
    assert (G : forall sm d0 d1 rp, feed dyn v h r d0 sm = (d1, rp) ->
      feed dyn v h r d0 (sm ++ [s]) = (add dyn v h r d1 s, rp ++ [chg (add dyn v h r d1 s)])).
    { induction sm as [|y sm IH]; intros d0 d1 rp Q; cbn [feed app] in *.
      - injection Q as <- <-. reflexivity.
      - destruct (feed dyn v h r (add dyn v h r d0 y) sm) as [d2 rp2] eqn:Q2. injection Q as <- <-.
        rewrite (IH _ _ _ Q2). reflexivity. }
    rewrite (G _ _ _ _ F). cbn [snd]. now rewrite last_last.
Qed.
Print Assumptions C34_history.

(** ** In terms of the whole history *)
Lemma same_app s a b : match b with [] => True | x :: _ => x <> s end -> same s (a ++ b) = same s a.
Proof.
  intros H. induction a as [|x a IH]; cbn [app same].
  - destruct b as [|x b]; [reflexivity|]. cbn [same]. destruct (Bool.eqb x s) eqn:E; [apply eqb_prop in E; contradiction|reflexivity].
  - now rewrite IH.
Qed.
Lemma same_ge s n l : n <= same s l <-> exists rest, l = repeat s n ++ rest.
Proof.
  revert l. induction n as [|n IH]; intros l.
  - split; [intros _; now exists l|lia].
  - destruct l as [|x l]; cbn [same repeat app].
    + split; [lia|intros [rest Q]; discriminate].
    + destruct (Bool.eqb x s) eqn:E.
      * apply eqb_prop in E. subst x. rewrite <- Nat.succ_le_mono, IH. split; intros [rest Q]; exists rest; congruence.
      * split; [lia|]. intros [rest [= -> _]]. now rewrite Bool.eqb_reflx in E.
Qed.
Lemma last_all_same s n l : last_all s n l <-> n <= same s (rev l).
Proof.
  assert (R : forall m, rev (repeat s m) = repeat s m).
  { induction m as [|m IHm]; [reflexivity|]. cbn [repeat rev]. rewrite IHm. now rewrite <- repeat_cons. }
  rewrite same_ge. unfold last_all. split.
  - intros [b ->]. exists (rev b). now rewrite rev_app_distr, R.
  - intros [rest Q]. exists (rev rest). rewrite <- (rev_involutive l), Q, rev_app_distr, R. reflexivity.
Qed.
(** the samples before the last report end with the level that was reported *)
Definition old_ok (l : level) (old : list bool) : Prop :=
  match old with [] => True | x :: _ => x = negb (level_eqb l Off) end.
Lemma feed_split dyn v h r : v <= u16max -> h <= u16max -> r <= u16max ->
  forall samples d l since old, agrees v h r d l since -> old_ok l old ->
  (match l with Held => dyn = true \/ h <> 0 \/ r <> 0 | Repeating => dyn = true \/ r <> 0 | _ => True end) ->
  exists since' old', let d' := fst (feed dyn v h r d samples) in
    agrees v h r d' (st d') since' /\ old_ok (st d') old' /\ rev samples ++ since ++ old = since' ++ old' /\
    (match st d' with Held => dyn = true \/ h <> 0 \/ r <> 0 | Repeating => dyn = true \/ r <> 0 | _ => True end).
Proof.
  intros Hv Hh Hr. induction samples as [|s t IH]; intros d l since old Ha Ho Hl.
  - cbn [feed fst rev app]. pose proof Ha as (E & _). subst l. exists since, old. auto.
  - cbn [feed rev]. pose proof (step_ok dyn v h r d l since s Hv Hh Hr Ha Hl) as K.
    destruct (next_level v h r l (s :: since)) as [l' c] eqn:NL. cbv zeta in K. destruct K as (K1 & K2 & K3).
    assert (Ho' : old_ok l' (if c then s :: since ++ old else old)).
    { unfold next_level in NL. cbv zeta in NL. destruct l, s;
        repeat match type of NL with context [due ?a ?b] => destruct (due a b) end; injection NL as <- <-; try exact Ho; reflexivity. }
    destruct (IH _ _ _ _ K2 Ho' K3) as (since' & old' & A & B & C & D).
    destruct (feed dyn v h r (add dyn v h r d s) t) as [d2 rp] eqn:F. cbn [fst] in *.
    exists since', old'. conj; try assumption. rewrite <- app_assoc. cbn [app]. rewrite <- C. destruct c; reflexivity.
Qed.

(** The debounced state turns on exactly when the last [v] samples of the whole history were all
    true, and off exactly when the last [v] samples were all false; otherwise it stays as it is.
    ([v] = 0: it never changes.) *)
Theorem C34_set_and_clear : forall (dynamic : bool) (v h r : nat) (initial : bool) (samples : list bool) (s : bool),
  v <= u16max -> h <= u16max -> r <= u16max ->
  let d := fst (feed dynamic v h r (d_new initial) samples) in
  let d' := add dynamic v h r d s in
  (is_set d = false -> (is_set d' = true <-> v <> 0 /\ last_all true v (samples ++ [s])) /\
                       (is_set d' = true -> has_changed d' = true)) /\
  (is_set d = true -> (is_set d' = false <-> v <> 0 /\ last_all false v (samples ++ [s])) /\
                      (is_set d' = false -> has_changed d' = true)).
Proof.
  intros dyn v h r i samples s Hv Hh Hr. cbv zeta.
  destruct (feed_split dyn v h r Hv Hh Hr samples (d_new i) _ [] [] (start_ok v h r i) I ltac:(now destruct i)) as (since & old & A & B & C & D).
  cbv zeta in *. set (d := fst (feed dyn v h r (d_new i) samples)) in *. cbn [app] in C. rewrite app_nil_r in C.
  pose proof (step_ok dyn v h r d (st d) since s Hv Hh Hr A D) as K.
  assert (R : rev (samples ++ [s]) = (s :: since) ++ old) by (rewrite rev_app_distr; cbn [rev app]; now rewrite C).
  rewrite !last_all_same, R.
  destruct (next_level v h r (st d) (s :: since)) as [l' c] eqn:NL. cbv zeta in K. destruct K as (K1 & K2 & _).
  destruct K2 as (K2 & _). unfold has_changed, is_set. rewrite K1, K2.
  assert (P : forall n, due v n = true <-> v <> 0 /\ v <= n).
  { intros n. unfold due. rewrite andb_true_iff, negb_true_iff, Nat.eqb_neq, Nat.leb_le. reflexivity. }
  assert (Hz : forall x, x <> s -> same x ((s :: since) ++ old) = 0).
  { intros x Hx. cbn [app same]. destruct (Bool.eqb s x) eqn:E; [apply eqb_prop in E; congruence|reflexivity]. }
  assert (Y : old_ok (st d) old -> negb (level_eqb (st d) Off) <> s -> same s ((s :: since) ++ old) = streak (s :: since)).
  { intros Q1 Q2. unfold streak. apply same_app. unfold old_ok in Q1. destruct old; [exact I|]. congruence. }
  specialize (Y B). unfold next_level in NL. cbv zeta in NL. unfold level_eqb in Y. split; intros Q.
  - destruct (st d); try discriminate Q. destruct s.
    + rewrite Y by discriminate. rewrite <- P. destruct (due v (streak (true :: since))); injection NL as <- <-; (split; [split; intros; congruence|intros; congruence]).
    + injection NL as <- <-. rewrite (Hz true) by discriminate. split; [split; [discriminate|lia]|discriminate].
  - destruct (st d) eqn:ES; try discriminate Q; destruct s.
    all: lazymatch goal with
         | |- context [(true :: ?XX) ++ ?YY] =>
             rewrite (Hz false) by discriminate; match type of NL with context [due ?a ?b] => destruct (due a b) end;
             injection NL as <- <-; (split; [split; [intros X; discriminate X|intros [X1 X2]; exfalso; lia]|intros X; discriminate X])
         | _ => idtac
         end.
    all: rewrite Y by discriminate; rewrite <- P; destruct (due v (streak (false :: since))); injection NL as <- <-; (split; [split; intros; congruence|intros; congruence]).
Qed.
Print Assumptions C34_set_and_clear.

(** FINDING: changing the counts of a dynamic debouncer below a streak already counted loses the
    change: with set(5), four true samples, then set(3), not a single one of the next 65530 true samples
    turns it on (count == valid_count is an equality). *)
Theorem C34_set_counts_later_refuted : forall n, n + 4 < u16max ->
  let d4 := fst (feed true 5 0 0 (d_new false) [true; true; true; true]) in
  let d := fst (feed true 3 0 0 d4 (repeat true n)) in
  is_set d = false /\ has_changed d = false.
Proof.
  intros n Hn. cbv zeta.
  assert (Q : forall v k, k < u16max -> S k <> v -> add true v 0 0 (mkdb Off true false k) true = mkdb Off true false (S k)).
  { intros v k Hk Hv. unfold add, process4, settle, get_next, bump, add_sample. cbn [st smp chg cnt eqb negb].
    apply Nat.ltb_lt in Hk. rewrite Hk. cbn [st smp chg cnt].
    apply Nat.eqb_neq in Hv. rewrite Hv. reflexivity. }
  assert (Q1 : add true 5 0 0 (d_new false) true = mkdb Off true false 1).
  { unfold d_new, add, process4, settle, get_next, bump, add_sample. cbn [st smp chg cnt eqb negb].
    destruct (Nat.ltb_spec 0 u16max); [|lia]. reflexivity. }
  assert (G : forall m k, 4 <= k -> k + m < u16max -> fst (feed true 3 0 0 (mkdb Off true false k) (repeat true m)) = mkdb Off true false (k + m)).
  { induction m as [|m IH]; intros k Hk Hkm; [cbn [repeat feed fst]; now rewrite Nat.add_0_r|].
    cbn [repeat feed]. rewrite Q by lia. specialize (IH (S k) ltac:(lia) ltac:(lia)).
    destruct (feed true 3 0 0 (mkdb Off true false (S k)) (repeat true m)) as [dd rr] eqn:F. cbn [fst] in *.
    rewrite IH. f_equal. lia. }
  cbn [feed]. rewrite Q1, !Q by lia. cbn [fst]. rewrite G by lia. split; reflexivity.
Qed.
Print Assumptions C34_set_counts_later_refuted.

Example C34_nonvacuous :
  expected 2 3 2 Off [] [true; false; true; true; true; true; true; true; true; true; true; false; false] =
    (Off, [false; false; false; true; false; false; true; false; true; false; true; false; true]) /\
  last_all true 2 [true; false; true; true] /\ 3 <= u16max.
Proof. split; [vm_compute; reflexivity|split; [now exists [true; false]|rewrite u16_val; lia]]. Qed.
