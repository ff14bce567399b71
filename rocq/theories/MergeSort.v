(** * The merges of list::sort on sequences: runs of doubling length end in the stable sort *)
From Coq Require Import List Arith Bool Lia Permutation.
From Verif Require Import Util SortSpec ListSpec HeapProofs.
Import ListNotations.
Section Sort.
  Context {A : Type} (lt : A -> A -> bool).
  Lemma merged_r0 (xs : list A) : merged lt xs [] = xs. Proof. destruct xs; reflexivity. Qed.
  Lemma merged_l0 (ys : list A) : merged lt [] ys = ys. Proof. destruct ys; reflexivity. Qed.
  Lemma merged_cc (x y : A) xs ys : merged lt (x :: xs) (y :: ys) = if lt y x then y :: merged lt (x :: xs) ys else x :: merged lt xs (y :: ys). Proof. reflexivity. Qed.
  Lemma merged_perm : forall xs ys, Permutation (merged lt xs ys) (xs ++ ys).
  Proof.
    induction xs as [|x xs IH]; intros ys; [now rewrite merged_l0|]. induction ys as [|y ys IH2]; [now rewrite merged_r0, app_nil_r|]. rewrite merged_cc. destruct (lt y x).
    - rewrite IH2. apply Permutation_middle.
    - rewrite IH. reflexivity.
  Qed.
  Lemma merged_length xs ys : length (merged lt xs ys) = length xs + length ys.
  Proof. rewrite (Permutation_length (merged_perm xs ys)). apply app_length. Qed.
  (** one pass over the runs of length [k] *)
  Fixpoint runs (f k : nat) (l : list A) : list A :=
    match f with
    | 0 => []
    | S f => match l with [] => [] | _ => merged lt (firstn k l) (firstn k (skipn k l)) ++ runs f k (skipn k (skipn k l)) end
    end.
  Lemma runs_perm : forall f k l, 0 < k -> length l <= f -> Permutation (runs f k l) l.
  Proof.
    induction f as [|f IH]; intros k l Hk Hf; [destruct l; [reflexivity|cbn in Hf; lia]|]. cbn [runs]. destruct l as [|x l]; [reflexivity|]. set (r := x :: l) in *. assert (0 < length r) as Hr by (unfold r; cbn; lia). rewrite IH; [|exact Hk|rewrite !skipn_length; lia]. rewrite merged_perm, <- app_assoc, firstn_skipn, firstn_skipn. reflexivity.
  Qed.
  Context (O : strict_weak_order lt).
  Fixpoint srt (l : list A) : Prop := match l with [] => True | x :: r => Forall (fun y => lt y x = false) r /\ srt r end.
  Lemma ins_front x l : Forall (fun y => lt y x = false) l -> insert_sorted lt x l = x :: l.
  Proof. destruct l as [|y l]; intros F; [reflexivity|]. inversion F as [|? ? H]; subst. cbn. now rewrite H. Qed.
  Lemma srt_stable l : srt l -> stable_sort lt l = l.
  Proof. induction l as [|x l IH]; intros H; [reflexivity|]. destruct H as (H1 & H2). unfold stable_sort in *. cbn [fold_right]. rewrite IH by exact H2. now apply ins_front. Qed.
  Lemma ins_comm x y l : lt y x = true -> insert_sorted lt x (insert_sorted lt y l) = insert_sorted lt y (insert_sorted lt x l).
  Proof.
    intros H. pose proof (lt_asym lt O _ _ H) as H'. induction l as [|z l IH]; cbn [insert_sorted]; [now rewrite H, H'|]. destruct (lt z y) eqn:Zy.
    - cbn [insert_sorted]. assert (lt z x = true) as Zx by (apply (swo_trans _ O _ y); assumption). rewrite Zx. cbn [insert_sorted]. rewrite Zy. now f_equal.
    - cbn [insert_sorted]. rewrite H. destruct (lt z x) eqn:Zx; cbn [insert_sorted]; [now rewrite Zy|now rewrite H'].
  Qed.
  Lemma ins_past y : forall L acc, Forall (fun x => lt y x = true) L -> fold_right (insert_sorted lt) (insert_sorted lt y acc) L = insert_sorted lt y (fold_right (insert_sorted lt) acc L).
  Proof. induction L as [|x L IH]; intros acc F; [reflexivity|]. inversion F; subst. cbn [fold_right]. rewrite IH by assumption. now apply ins_comm. Qed.
  Lemma merged_sort : forall L R acc, srt L -> fold_right (insert_sorted lt) acc (merged lt L R) = fold_right (insert_sorted lt) acc (L ++ R).
  Proof.
    induction L as [|x L IH]; intros R acc H; [now rewrite merged_l0|]. induction R as [|y R IH2]; [now rewrite merged_r0, app_nil_r|]. rewrite merged_cc. pose proof H as (H1 & H2). destruct (lt y x) eqn:C.
    - cbn [fold_right]. rewrite IH2. rewrite !fold_right_app. cbn [fold_right]. symmetry. apply (ins_past y (x :: L)). constructor; [exact C|]. eapply Forall_impl; [|exact H1]. cbn. intros z Hz. now apply (lt_nlt_trans lt O y x).
    - cbn [fold_right app]. now rewrite IH.
  Qed.
  Lemma merged_srt : forall L R, srt L -> srt R -> srt (merged lt L R).
  Proof.
    induction L as [|x L IH]; intros R HL HR; [now rewrite merged_l0|]. induction R as [|y R IH2]; [now rewrite merged_r0|]. rewrite merged_cc. pose proof HL as (L1 & L2). pose proof HR as (R1 & R2). destruct (lt y x) eqn:C; cbn [srt].
    - split; [|now apply IH2]. apply (Permutation_Forall (x := (x :: L) ++ R)); [symmetry; apply merged_perm|]. apply Forall_app. split; [|exact R1]. constructor; [now apply (lt_asym lt O)|]. eapply Forall_impl; [|exact L1]. cbn. intros z Hz. apply (lt_asym lt O). now apply (lt_nlt_trans lt O y x).
    - split; [|now apply IH]. apply (Permutation_Forall (x := L ++ y :: R)); [symmetry; apply merged_perm|]. apply Forall_app. split; [exact L1|]. constructor; [exact C|]. eapply Forall_impl; [|exact R1]. cbn. intros z Hz. exact (nlt_trans lt O x y z C Hz).
  Qed.
  Inductive chunks (k : nat) : list A -> Prop :=
  | ch_nil : chunks k []
  | ch_cons a b : srt a -> length a <= k -> (b <> [] -> length a = k) -> chunks k b -> chunks k (a ++ b).
  Lemma chunks_inv k l : chunks k l -> srt (firstn k l) /\ chunks k (skipn k l).
  Proof.
    intros C. destruct C as [|a b Sa La Lb Cb]; [rewrite firstn_nil, skipn_nil; split; [exact I|constructor]|]. destruct b as [|y b].
    - rewrite app_nil_r, firstn_all2, skipn_all2 by exact La. split; [exact Sa|constructor].
    - assert (length a = k) as <- by (apply Lb; discriminate). rewrite firstn_app, skipn_app, Nat.sub_diag, firstn_all, skipn_all, app_nil_r. split; [exact Sa|exact Cb].
  Qed.
  Lemma chunks_1 l : chunks 1 l.
  Proof. induction l as [|x l IH]; [constructor|]. apply (ch_cons 1 [x] l); [cbn; repeat constructor|cbn; lia|reflexivity|exact IH]. Qed.
  Lemma runs_chunks : forall f k l, chunks k l -> 0 < k -> length l <= f -> chunks (k * 2) (runs f k l).
  Proof.
    induction f as [|f IH]; intros k l C Hk Hf; [destruct l; [constructor|cbn in Hf; lia]|]. cbn [runs]. destruct l as [|x l]; [constructor|]. set (r := x :: l) in *. apply chunks_inv in C as (C1 & C2). apply chunks_inv in C2 as (C2 & C3). assert (0 < length r) as Hr by (unfold r; cbn; lia). apply ch_cons.
    - now apply merged_srt.
    - rewrite merged_length, !firstn_length. lia.
    - intros Nb. assert (skipn k (skipn k r) <> []) as Nr. { intros E. apply Nb. rewrite E. destruct f; reflexivity. }
      assert (length (skipn k (skipn k r)) <> 0) as Nl by (destruct (skipn k (skipn k r)); [congruence|discriminate]). rewrite !skipn_length in Nl. rewrite merged_length, !firstn_length, skipn_length. lia.
    - apply IH; [exact C3|exact Hk|]. rewrite !skipn_length. lia.
  Qed.
  Lemma runs_sort : forall f k l, chunks k l -> 0 < k -> length l <= f -> stable_sort lt (runs f k l) = stable_sort lt l.
  Proof.
    unfold stable_sort. induction f as [|f IH]; intros k l C Hk Hf; [destruct l; [reflexivity|cbn in Hf; lia]|]. cbn [runs]. destruct l as [|x l]; [reflexivity|]. set (r := x :: l) in *. assert (0 < length r) as Hr by (unfold r; cbn; lia). apply chunks_inv in C as (C1 & C2). apply chunks_inv in C2 as (C2 & C3).
    rewrite fold_right_app, IH by (try assumption; rewrite !skipn_length; lia). rewrite merged_sort by exact C1. rewrite <- fold_right_app, <- app_assoc, firstn_skipn, firstn_skipn. reflexivity.
  Qed.
  Lemma chunks_whole k l : chunks k l -> length l <= k -> stable_sort lt l = l.
  Proof. intros C H. apply chunks_inv in C as (C & _). rewrite firstn_all2 in C by exact H. now apply srt_stable. Qed.
  Lemma srt_sorted : forall l, srt l -> sorted lt l.
  Proof. induction l as [|x l IH]; intros H i j a b Hij Ha Hb; [destruct i; discriminate|]. destruct H as (H1 & H2). destruct j as [|j]; [lia|]. destruct i as [|i]; cbn in *; [injection Ha as <-; rewrite Forall_forall in H1; apply H1; now apply nth_error_In with j|]. apply (IH H2 i j a b); [lia|exact Ha|exact Hb]. Qed.
  Lemma ins_perm x l : Permutation (insert_sorted lt x l) (x :: l).
  Proof. induction l as [|y l IH]; [reflexivity|]. cbn. destruct (lt y x); [rewrite IH; apply perm_swap|reflexivity]. Qed.
  Lemma ins_srt x l : srt l -> srt (insert_sorted lt x l).
  Proof.
    induction l as [|y l IH]; intros H; [cbn; repeat constructor|]. pose proof H as (H1 & H2). cbn [insert_sorted]. destruct (lt y x) eqn:C; cbn [srt].
    - split; [|now apply IH]. apply (Permutation_Forall (x := x :: l)); [symmetry; apply ins_perm|]. constructor; [now apply (lt_asym lt O)|exact H1].
    - conj; [constructor; [exact C|]|exact H1|exact H2]. eapply Forall_impl; [|exact H1]. cbn. intros z Hz. exact (nlt_trans lt O x y z C Hz).
  Qed.
  (** the specification is a sorted, stable permutation *)
  Lemma stable_sort_srt l : srt (stable_sort lt l).
  Proof. induction l as [|x l IH]; [exact I|]. now apply ins_srt. Qed.
  Lemma stable_sort_perm l : Permutation (stable_sort lt l) l.
  Proof. induction l as [|x l IH]; [reflexivity|]. unfold stable_sort in *. cbn [fold_right]. rewrite ins_perm. now constructor. Qed.
  Lemma equiv_lt z x y : equivalent lt z x = true -> equivalent lt z y = true -> lt x y = false.
  Proof. unfold equivalent. intros H1 H2. apply andb_true_iff in H1 as (H1 & H1'), H2 as (H2 & H2'). apply negb_true_iff in H1, H1', H2, H2'. apply (swo_incomparable _ O x z y); assumption. Qed.
  Lemma stable_sort_stable l : stable lt l (stable_sort lt l).
  Proof.
    intros z. induction l as [|x l IH]; [reflexivity|]. unfold stable_sort in *. cbn [fold_right]. cbn [filter]. rewrite <- IH. clear IH. set (s := fold_right _ _ _). clearbody s. induction s as [|y s IH]; [reflexivity|]. cbn [insert_sorted]. destruct (lt y x) eqn:C; [|reflexivity]. cbn [filter]. rewrite IH. destruct (equivalent lt z x) eqn:E1, (equivalent lt z y) eqn:E2; try reflexivity. rewrite (equiv_lt z y x) in C by assumption. discriminate.
  Qed.
End Sort.
Lemma stable_sort_map {A B} (lt : B -> B -> bool) (f : A -> B) l : map f (stable_sort (fun a b => lt (f a) (f b)) l) = stable_sort lt (map f l).
Proof.
  unfold stable_sort. induction l as [|x l IH]; [reflexivity|]. cbn [fold_right map]. rewrite <- IH. set (s := fold_right _ _ _). clearbody s. induction s as [|y s IHs]; [reflexivity|]. cbn. destruct (lt (f y) (f x)); cbn; [now rewrite IHs|reflexivity].
Qed.
