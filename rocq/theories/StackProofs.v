From Coq Require Import List Arith Bool Lia.
From Verif Require Import StackModel StackSpec.
Import ListNotations.

Section P.
Variables (T : Type) (SIZE_MAX CAP : nat) (checked triv : bool).
Notation run := (run T SIZE_MAX CAP checked triv).
Notation effect := (effect T CAP).
Definition rep (s : stack T) (l : list T) : Prop :=
  exists rest, buf T s = map Some l ++ rest /\ length l + length rest = CAP /\ current_size T s = length l /\ (l = [] \/ S (top_index T s) = length l) /\ (triv = false -> Forall (fun x => x = None) rest).
Lemma set_app (a b : list (option T)) x v : set_slot T (a ++ x :: b) (length a) v = a ++ v :: b.
Proof. induction a; cbn; [reflexivity|f_equal; auto]. Qed.
Lemma nth_app_mid (A : Type) (a b : list A) x : nth_error (a ++ x :: b) (length a) = Some x.
Proof. induction a; cbn; auto. Qed.
Lemma rep_ctor : rep (ctor T CAP) [].
Proof. exists (repeat None CAP). cbn. rewrite repeat_length. repeat split; auto. intros _. apply Forall_forall. intros x H. eapply repeat_spec; eauto. Qed.

Lemma push_ok s l v : rep s l -> length l < CAP -> exists s', push T CAP checked triv s v = Ok _ s' /\ rep s' (l ++ [v]).
Proof.
  intros (rest & B & L & C & P & R) H. unfold push, full. rewrite C. destruct (Nat.eqb_spec (length l) CAP); [lia|]. rewrite andb_false_r. unfold construct, add_in. cbn [top_index buf current_size]. rewrite C, B.
  destruct rest as [|x rest]; [cbn in L; lia|]. assert (M : length l = length (map (@Some T) l)) by (symmetry; apply map_length). rewrite M, nth_app_mid, set_app.
  assert (Q : forall q, rep (Stk T (length (map (@Some T) l)) q (map Some l ++ Some v :: rest)) (l ++ [v]) <-> q = S (length l)).
  { intros q. unfold rep. cbn [top_index current_size buf]. rewrite map_length, app_length. cbn [length]. split; [intros (? & _ & _ & E & _); lia|]. intros ->. exists rest. rewrite map_app. cbn. rewrite <- app_assoc. cbn. cbn in L.
    split; [reflexivity|]. split; [lia|]. split; [lia|]. split; [right; lia|]. intros E. specialize (R E). inversion R; assumption. }
  destruct x as [x|].
  - destruct triv eqn:E; [|specialize (R eq_refl); inversion R; discriminate]. eexists. split; [reflexivity|]. apply Q. rewrite <- M. reflexivity.
  - eexists. split; [reflexivity|]. apply Q. rewrite <- M. reflexivity.
Qed.
Lemma push_full s l v : checked = true -> rep s l -> length l = CAP -> push T CAP checked triv s v = Error _ s.
Proof. intros K (rest & B & L & C & P & R) H. unfold push, full. rewrite C, H, Nat.eqb_refl, K. reflexivity. Qed.
Lemma destroy_ok s l v : rep s (l ++ [v]) -> exists s', destroy T s = Ok _ s' /\ rep (del_out T SIZE_MAX s') l.
Proof.
  intros (rest & B & L & C & P & R). rewrite app_length in *. cbn [length] in *. destruct P as [P|P]; [destruct l; discriminate|]. assert (P' : top_index T s = length (map (@Some T) l)) by (rewrite map_length; lia).
  unfold destroy. rewrite B, P', map_app, <- app_assoc. cbn [map app]. rewrite nth_app_mid, set_app. eexists. split; [reflexivity|]. unfold del_out, rep. cbn [top_index current_size buf]. exists (None :: rest). cbn [length].
  rewrite C. repeat split; auto; try lia.
  - rewrite Nat.add_1_r. reflexivity.
  - destruct l as [|y l]; [left; reflexivity|right]. rewrite map_length. reflexivity.
Qed.
Lemma pop_ok s l v : rep s (l ++ [v]) -> exists s', pop T SIZE_MAX checked s = Ok _ s' /\ rep s' l.
Proof.
  intros H. destruct (destroy_ok s l v H) as (s' & D & Q). destruct H as (rest & B & L & C & _). unfold pop, empty. rewrite C, app_length. cbn [length]. destruct (Nat.eqb_spec (length l + 1) 0); [lia|]. rewrite andb_false_r, D. eauto.
Qed.
Lemma pop_empty s : checked = true -> rep s [] -> pop T SIZE_MAX checked s = Error _ s.
Proof. intros K (rest & B & L & C & P & R). unfold pop, empty. rewrite C, K. reflexivity. Qed.
Lemma clear_loop_ok n : forall s l, rep s l -> length l = n -> exists s', clear_loop T SIZE_MAX n s = Ok _ s' /\ rep s' [].
Proof.
  induction n as [|n IH]; intros s l H E.
  - destruct l; [|discriminate]. cbn. pose proof H as (rest & B & L & C & _). rewrite C. cbn. eauto.
  - destruct l as [|x l] using rev_ind; [discriminate|]. clear IHl. rewrite app_length in E. cbn in E. destruct (destroy_ok s l x H) as (s' & D & Q). destruct H as (rest & B & L & C & _). cbn [clear_loop]. rewrite C, app_length. cbn [length].
    destruct (Nat.ltb_spec 0 (length l + 1)); [|lia]. rewrite D. apply (IH _ l); [exact Q|lia].
Qed.
Lemma clear_ok s l : rep s l -> exists s', clear T SIZE_MAX triv s = Ok _ s' /\ rep s' [].
Proof.
  intros H. unfold clear. destruct triv eqn:E.
  - eexists. split; [reflexivity|]. destruct H as (rest & B & L & C & P & R). exists (buf T s). cbn. rewrite B, app_length, map_length. repeat split; auto. intros X. congruence.
  - pose proof H as (rest & B & L & C & _). rewrite C. eapply clear_loop_ok; eauto.
Qed.
Lemma rev_loop n : forall (l : list T) pre post i e, i = length pre -> e = length pre + length l -> 0 < e -> length l <= n -> reverse_loop T n (pre ++ map Some l ++ post) i e = Some (pre ++ map Some (rev l) ++ post).
Proof.
  induction n as [|n IH]; intros l pre post i e I E Z N.
  - destruct l; [|cbn in N; lia]. cbn [length map app rev] in *. destruct e as [|e]; [lia|]. cbn [reverse_loop]. destruct (Nat.ltb_spec i e); [lia|reflexivity].
  - destruct e as [|e]; [lia|]. cbn [reverse_loop]. destruct l as [|x l].
    { cbn [length map app rev] in *. destruct (Nat.ltb_spec i e); [lia|reflexivity]. }
    destruct l as [|y m _] using rev_ind.
    { cbn [length map app rev] in *. destruct (Nat.ltb_spec i e); [lia|reflexivity]. }
    cbn [length] in *. rewrite app_length in *. cbn [length] in *. destruct (Nat.ltb_spec i e); [|lia]. cbn [map app]. rewrite map_app. cbn [map]. rewrite <- app_assoc. cbn [app].
    subst i. rewrite nth_app_mid. replace e with (length (pre ++ Some x :: map Some m)) by (rewrite app_length; cbn [length]; rewrite map_length; lia).
    replace (pre ++ Some x :: map Some m ++ Some y :: post) with ((pre ++ Some x :: map Some m) ++ Some y :: post) by (rewrite <- app_assoc; reflexivity). rewrite nth_app_mid.
    rewrite <- app_assoc. cbn [app]. rewrite set_app.
    replace (pre ++ Some y :: map Some m ++ Some y :: post) with ((pre ++ Some y :: map Some m) ++ Some y :: post) by (rewrite <- app_assoc; reflexivity).
    replace (length (pre ++ Some x :: map Some m)) with (length (pre ++ Some y :: map Some m)) by (rewrite !app_length; reflexivity). rewrite set_app.
    replace ((pre ++ Some y :: map Some m) ++ Some x :: post) with ((pre ++ [Some y]) ++ map Some m ++ Some x :: post) by (rewrite <- !app_assoc; reflexivity).
    rewrite IH; [|rewrite app_length; cbn; lia|rewrite !app_length; cbn [length]; rewrite map_length; lia|rewrite !app_length; cbn [length]; lia|lia].
    f_equal. cbn [rev]. rewrite rev_app_distr. cbn. rewrite map_app. cbn. rewrite <- !app_assoc. reflexivity.
Qed.
Lemma reverse_ok s l : rep s l -> exists s', reverse T s = Ok _ s' /\ rep s' (rev l).
Proof.
  intros H. pose proof H as (rest & B & L & C & P & R). unfold reverse. rewrite C. destruct (Nat.eqb_spec 0 (length l)) as [E|E].
  - destruct l; [|discriminate]. exists s. cbn. auto.
  - rewrite B. change (map Some l ++ rest) with ([] ++ map Some l ++ rest). rewrite (rev_loop (length l) l [] rest 0 (length l) eq_refl eq_refl) by lia. eexists. split; [reflexivity|]. exists rest. cbn [top_index current_size buf app]. rewrite rev_length. repeat split; auto.
    destruct P as [->|P]; [cbn in E; lia|right; exact P].
Qed.
Lemma push_all_ok lo : forall s l, rep s l -> length l + length lo <= CAP -> exists s', push_all T CAP checked triv s (map Some lo) = Ok _ s' /\ rep s' (l ++ lo).
Proof.
  induction lo as [|v lo IH]; intros s l H B; [exists s; rewrite app_nil_r; cbn; auto|]. cbn [map push_all length] in *. destruct (push_ok s l v H) as (s1 & E & Q); [lia|]. rewrite E.
  destruct (IH s1 (l ++ [v]) Q) as (s2 & E2 & Q2); [rewrite app_length; cbn; lia|]. exists s2. rewrite <- app_assoc in Q2. auto.
Qed.
Lemma push_all_full lo : checked = true -> forall s l, rep s l -> CAP < length l + length lo -> exists s', push_all T CAP checked triv s (map Some lo) = Error _ s' /\ rep s' (firstn CAP (l ++ lo)).
Proof.
  intros K. induction lo as [|v lo IH]; intros s l H B.
  - destruct H as (rest & _ & L & _). cbn in B. lia.
  - cbn [map push_all length] in *. pose proof H as (rest & _ & L & _). destruct (Nat.eq_dec (length l) CAP) as [E|E].
    + rewrite (push_full s l v K H E). exists s. split; [reflexivity|]. rewrite firstn_app, <- E, Nat.sub_diag, firstn_all, firstn_O, app_nil_r. exact H.
    + destruct (push_ok s l v H) as (s1 & E1 & Q); [lia|]. rewrite E1. destruct (IH s1 (l ++ [v]) Q) as (s2 & E2 & Q2); [rewrite app_length; cbn; lia|]. exists s2. rewrite <- app_assoc in Q2. auto.
Qed.
Lemma step_ok s l c l' : rep s l -> effect l c l' false -> exists s', run s c = Ok _ s' /\ rep s' l'.
Proof.
  intros H E. inversion E; subst; cbn [StackSpec.run].
  - apply push_ok; assumption.
  - eapply pop_ok; eassumption.
  - eapply clear_ok; eassumption.
  - apply reverse_ok; assumption.
  - unfold clone. destruct (clear_ok s l H) as (s1 & E1 & Q). rewrite E1. unfold holds in *. match goal with X : firstn _ _ = _ |- _ => rewrite X end. apply (push_all_ok l' s1 [] Q). cbn. assumption.
Qed.
Lemma step_error s l c l' : checked = true -> rep s l -> effect l c l' true -> exists s', run s c = Error _ s' /\ rep s' l'.
Proof.
  intros K H E. revert K. inversion E; subst; intros K; cbn [StackSpec.run].
  - exists s. split; [eapply push_full; eassumption|assumption].
  - exists s. split; [apply pop_empty; assumption|assumption].
  - unfold clone. destruct (clear_ok s l H) as (s1 & E1 & Q). rewrite E1. unfold holds in *. match goal with X : firstn _ _ = _ |- _ => rewrite X end. apply (push_all_full lo K s1 [] Q). cbn. assumption.
Qed.
Lemma history_rep s l : checked = true -> history T SIZE_MAX CAP checked triv s l -> rep s l.
Proof.
  intros K. induction 1 as [|s l c s' l' _ IH E R|s l c s' l' _ IH E R]; [apply rep_ctor| |].
  - destruct (step_ok s l c l' IH E) as (q & Q1 & Q2). rewrite R in Q1. injection Q1 as ->. exact Q2.
  - destruct (step_error s l c l' K IH E) as (q & Q1 & Q2). rewrite R in Q1. injection Q1 as ->. exact Q2.
Qed.
End P.
