From Coq Require Import List Arith Bool Lia Sorted Permutation.
From Verif Require Import RegModel RegSpec.
Import ListNotations.

Section P.
Variables (R : Type) (same : R -> R -> bool) (rid : R -> nat) (Max : nat).
Notation reg := (list (nat * R)).
Fixpoint sorted (l : reg) : Prop := match l with [] => True | e :: t => (forall x, In x t -> fst e <= fst x) /\ sorted t end.
Definition at_id (id : nat) (l : reg) : list R := map snd (filter (fun e => Nat.eqb (fst e) id) l).
Lemma at_id_none id (l : reg) : (forall x, In x l -> id < fst x) -> at_id id l = [].
Proof. unfold at_id. induction l as [|x l IH]; intros H; [reflexivity|]. cbn. pose proof (H x (or_introl eq_refl)). destruct (Nat.eqb_spec (fst x) id); [lia|]. apply IH. intros y Hy. apply H. right. exact Hy. Qed.
Lemma insert_cons x (l : reg) e : insert R (x :: l) e = if Nat.ltb (fst e) (fst x) then e :: x :: l else x :: insert R l e.
Proof. unfold insert. cbn [upper_bound]. destruct (Nat.ltb (fst e) (fst x)); reflexivity. Qed.
Lemma in_split_at (l : reg) i x : In x l <-> In x (firstn i l) \/ In x (skipn i l).
Proof. rewrite <- in_app_iff, firstn_skipn. reflexivity. Qed.
Lemma insert_in (l : reg) e x : In x (insert R l e) <-> x = e \/ In x l.
Proof. unfold insert. rewrite (in_split_at l (upper_bound R l (fst e)) x), in_app_iff. cbn. intuition. Qed.
Lemma insert_sorted (l : reg) e : sorted l -> sorted (insert R l e).
Proof.
  induction l as [|x l IH]; intros S; [cbn; split; [tauto|exact I]|]. rewrite insert_cons. destruct S as (S1 & S2). destruct (Nat.ltb_spec (fst e) (fst x)).
  - cbn. split; [|auto]. intros y [<-|Hy]; [lia|]. specialize (S1 y Hy). lia.
  - cbn [sorted]. split; [|auto]. intros y Hy. apply insert_in in Hy. destruct Hy as [->|Hy]; [lia|auto].
Qed.
Lemma insert_at_id (l : reg) e id : sorted l -> at_id id (insert R l e) = at_id id l ++ (if Nat.eqb (fst e) id then [snd e] else []).
Proof.
  induction l as [|x l IH]; intros S; [unfold at_id, insert; cbn; destruct (Nat.eqb (fst e) id); reflexivity|]. rewrite insert_cons. destruct S as (S1 & S2). destruct (Nat.ltb_spec (fst e) (fst x)).
  - destruct (Nat.eqb_spec (fst e) id) as [E|E].
    + assert (N : at_id id (x :: l) = []) by (apply at_id_none; intros y [<-|Hy]; [lia|]; specialize (S1 y Hy); lia). rewrite N. unfold at_id in *. cbn [filter]. rewrite E, Nat.eqb_refl. cbn [map]. cbn [filter] in N. rewrite N. reflexivity.
    + rewrite app_nil_r. unfold at_id. cbn [filter]. destruct (Nat.eqb_spec (fst e) id); [contradiction|]. reflexivity.
  - unfold at_id in *. cbn [filter]. destruct (Nat.eqb (fst x) id); cbn [map app]; rewrite IH by exact S2; reflexivity.
Qed.
Lemma insert_length (l : reg) e : length (insert R l e) = S (length l).
Proof. unfold insert. rewrite app_length. cbn. rewrite Nat.add_succ_r, <- app_length, firstn_skipn. reflexivity. Qed.
Lemma rfind_cons x (l : reg) id : rfind R (x :: l) id = if Nat.ltb (fst x) id then rfind R l id else if Nat.eqb (fst x) id then Some x else None.
Proof.
  unfold rfind. cbn [lower_bound]. destruct (Nat.ltb_spec (fst x) id); cbn [nth_error]; [reflexivity|]. destruct (Nat.ltb_spec (fst x) id); [lia|]. cbn [negb andb].
  destruct (Nat.ltb_spec id (fst x)); destruct (Nat.eqb_spec (fst x) id); try lia; reflexivity.
Qed.
Lemma rfind_spec (l : reg) id : sorted l -> rfind R l id = match at_id id l with [] => None | r :: _ => Some (id, r) end.
Proof.
  induction l as [|x l IH]; intros S; [reflexivity|]. destruct S as (S1 & S2). rewrite rfind_cons. unfold at_id in *. cbn [filter]. destruct (Nat.ltb_spec (fst x) id).
  - destruct (Nat.eqb_spec (fst x) id); [lia|]. apply IH, S2.
  - destruct (Nat.eqb_spec (fst x) id) as [E|E]; [cbn [map]; destruct x; cbn in *; now subst|].
    change (None = match at_id id l with [] => None | r :: _ => Some (id, r) end). rewrite at_id_none; [reflexivity|]. intros y Hy. specialize (S1 y Hy). lia.
Qed.
Lemma erase_spec (l : reg) id : sorted l -> erase R l id = filter (fun e => negb (Nat.eqb (fst e) id)) l.
Proof.
  unfold erase. induction l as [|x l IH]; intros S; [reflexivity|]. destruct S as (S1 & S2). cbn [lower_bound upper_bound filter].
  destruct (Nat.ltb_spec (fst x) id).
  - destruct (Nat.ltb_spec id (fst x)); [lia|]. destruct (Nat.eqb_spec (fst x) id); [lia|]. cbn. f_equal. apply IH, S2.
  - destruct (Nat.ltb_spec id (fst x)).
    + destruct (Nat.eqb_spec (fst x) id); [lia|]. cbn. f_equal. clear IH S2. induction l as [|y l IH]; [reflexivity|]. cbn. pose proof (S1 y (or_introl eq_refl)). destruct (Nat.eqb_spec (fst y) id); [lia|]. cbn. f_equal. apply IH. intros z Hz. apply S1. right. exact Hz.
    + destruct (Nat.eqb_spec (fst x) id) as [E|]; [|lia]. cbn [negb firstn app skipn]. rewrite <- IH by exact S2.
      assert (L0 : lower_bound R l id = 0). { destruct l as [|y l]; [reflexivity|]. cbn [lower_bound]. pose proof (S1 y (or_introl eq_refl)). destruct (Nat.ltb_spec (fst y) id); [lia|reflexivity]. }
      rewrite L0. reflexivity.
Qed.
Lemma count_spec (l : reg) id : sorted l -> count R l id = length (at_id id l).
Proof.
  unfold count. induction l as [|x l IH]; intros S; [reflexivity|]. destruct S as (S1 & S2). unfold at_id in *. cbn [lower_bound upper_bound filter].
  destruct (Nat.ltb_spec (fst x) id).
  - destruct (Nat.ltb_spec id (fst x)); [lia|]. destruct (Nat.eqb_spec (fst x) id); [lia|]. apply IH, S2.
  - destruct (Nat.ltb_spec id (fst x)).
    + destruct (Nat.eqb_spec (fst x) id); [lia|]. change (0 = length (at_id id l)). rewrite at_id_none; [reflexivity|]. intros y Hy. specialize (S1 y Hy). lia.
    + destruct (Nat.eqb_spec (fst x) id) as [E|]; [|lia]. cbn [map length]. rewrite <- IH by exact S2.
      assert (L0 : lower_bound R l id = 0). { destruct l as [|y l]; [reflexivity|]. cbn [lower_bound]. pose proof (S1 y (or_introl eq_refl)). destruct (Nat.ltb_spec (fst y) id); [lia|reflexivity]. }
      rewrite L0. lia.
Qed.
Lemma filter_sorted f (l : reg) : sorted l -> sorted (filter f l).
Proof. induction l as [|x l IH]; intros S; [exact I|]. destruct S as (S1 & S2). cbn. destruct (f x); [|auto]. cbn. split; [|auto]. intros y Hy. apply filter_In in Hy. apply S1, Hy. Qed.
Definition inv (l : reg) (h : list R) : Prop :=
  sorted l /\ (forall id, at_id id l = under R rid h id) /\ length l = length h /\ (forall e, In e l -> fst e = rid (snd e)) /\ Permutation (map snd l) h /\ length l <= Max.
Lemma filter_perm (A : Type) (f : A -> bool) l l' : Permutation l l' -> Permutation (filter f l) (filter f l').
Proof. induction 1; cbn; auto; [destruct (f x); auto|destruct (f x), (f y); auto; apply perm_swap|econstructor; eauto]. Qed.
Lemma at_id_filter id i (l : reg) : at_id i (filter (fun e => negb (Nat.eqb (fst e) id)) l) = if Nat.eqb i id then [] else at_id i l.
Proof.
  unfold at_id. induction l as [|x l IH]; [cbn; now destruct (Nat.eqb i id)|]. cbn [filter].
  destruct (Nat.eqb_spec (fst x) id) as [E|E]; cbn [negb].
  - rewrite IH. destruct (Nat.eqb_spec i id); [reflexivity|]. destruct (Nat.eqb_spec (fst x) i); [lia|reflexivity].
  - cbn [filter]. destruct (Nat.eqb_spec (fst x) i); cbn [map]; rewrite IH; destruct (Nat.eqb_spec i id); try lia; reflexivity.
Qed.
Lemma under_filter id i h : under R rid (filter (fun r => negb (Nat.eqb (rid r) id)) h) i = if Nat.eqb i id then [] else under R rid h i.
Proof.
  unfold under. induction h as [|x l IH]; [cbn; now destruct (Nat.eqb i id)|]. cbn [filter].
  destruct (Nat.eqb_spec (rid x) id) as [E|E]; cbn [negb].
  - rewrite IH. destruct (Nat.eqb_spec i id); [reflexivity|]. destruct (Nat.eqb_spec (rid x) i); [lia|reflexivity].
  - cbn [filter]. destruct (Nat.eqb_spec (rid x) i); rewrite IH; destruct (Nat.eqb_spec i id); try lia; reflexivity.
Qed.
Lemma filter_map_snd id (l : reg) : (forall e, In e l -> fst e = rid (snd e)) -> map snd (filter (fun e => negb (Nat.eqb (fst e) id)) l) = filter (fun r => negb (Nat.eqb (rid r) id)) (map snd l).
Proof. induction l as [|x l IH]; intros K; [reflexivity|]. cbn. rewrite (K x (or_introl eq_refl)). destruct (Nat.eqb (rid (snd x)) id); cbn; rewrite IH by (intros e He; apply K; right; exact He); reflexivity. Qed.
Lemma filter_len (A : Type) (f : A -> bool) l : length (filter f l) <= length l.
Proof. induction l as [|x l IH]; [auto|]. cbn. destruct (f x); cbn; lia. Qed.
Theorem history_inv l h : history R same rid Max l h -> inv l h.
Proof.
  induction 1 as [|l h r l' _ (S & A & L & K & P & B) E|l h r l' _ IH E|l h id _ (S & A & L & K & P & B)].
  - repeat split; cbn; auto; try contradiction. lia.
  - unfold add in E. destruct (negb (full R Max l) && _) eqn:X; [|discriminate]. injection E as <-. apply andb_true_iff in X. destruct X as (X & _). apply negb_true_iff, Nat.eqb_neq in X. repeat split.
    + apply insert_sorted, S.
    + intros id. rewrite insert_at_id by exact S. rewrite A. unfold under. rewrite filter_app. cbn. reflexivity.
    + rewrite insert_length, app_length, L. cbn. lia.
    + intros e He. apply insert_in in He. destruct He as [->|He]; auto.
    + unfold insert. rewrite map_app. cbn. apply Permutation_sym. apply Permutation_trans with (r :: h); [apply Permutation_sym, Permutation_cons_append|]. apply Permutation_cons_app. rewrite <- map_app, firstn_skipn. apply Permutation_sym, P.
    + rewrite insert_length. lia.
  - unfold add in E. destruct (_ && _); [discriminate|]. injection E as <-. exact IH.
  - unfold remove. rewrite erase_spec by exact S. repeat split.
    + apply filter_sorted, S.
    + intros i. rewrite at_id_filter, under_filter, A. reflexivity.
    + rewrite <- (map_length (@snd nat R)), filter_map_snd by exact K. apply Permutation_length, filter_perm, P.
    + intros e He. apply filter_In in He. apply K, He.
    + rewrite filter_map_snd by exact K. apply filter_perm, P.
    + eapply Nat.le_trans; [|exact B]. apply filter_len.
Qed.
End P.
