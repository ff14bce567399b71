(** General lemmas on lists used by several proofs (no model content). *)
From Coq Require Import List Arith Lia Bool.
Import ListNotations.

Lemma NoDup_app_iff {A} (l1 l2 : list A) :
  NoDup (l1 ++ l2) <-> NoDup l1 /\ NoDup l2 /\ (forall x, In x l1 -> ~ In x l2).
Proof.
  induction l1 as [|a r IH]; cbn.
  - split; [intros; repeat split; auto; constructor | tauto].
  - split.
    + intros H. inversion H; subst. apply IH in H3. destruct H3 as (H4 & H5 & H6).
      rewrite in_app_iff in H2. repeat split; auto.
      * constructor; auto.
      * intros x [<-|Hx]; auto.
    + intros (H1 & H2 & H3). inversion H1; subst. constructor.
      * rewrite in_app_iff. intros [?|?]; auto. apply (H3 a); auto.
      * apply IH. repeat split; auto.
Qed.

Lemma nth_error_ext {A} (l l' : list A) : (forall i, nth_error l i = nth_error l' i) -> l = l'.
Proof.
  revert l'; induction l as [|a l IH]; intros [|b l'] H; auto.
  - specialize (H 0). discriminate.
  - specialize (H 0). discriminate.
  - f_equal; [specialize (H 0); cbn in H; congruence|]. apply IH. intros i. exact (H (S i)).
Qed.

Lemma nth_error_map_seq {A} (f : nat -> A) a n i :
  nth_error (map f (seq a n)) i = if i <? n then Some (f (a + i)) else None.
Proof.
  rewrite nth_error_map. destruct (Nat.ltb_spec i n) as [H|H].
  - rewrite (nth_error_nth' _ 0) by (rewrite seq_length; lia). rewrite seq_nth by lia. reflexivity.
  - replace (nth_error (seq a n) i) with (@None nat); [reflexivity|].
    symmetry. apply nth_error_None. rewrite seq_length. lia.
Qed.

Lemma nth_error_repeat_if {A} (x : A) n i : nth_error (repeat x n) i = if i <? n then Some x else None.
Proof.
  destruct (Nat.ltb_spec i n); [now apply nth_error_repeat|].
  apply nth_error_None. rewrite repeat_length. lia.
Qed.
Lemma skipn_skipn' {A} (l : list A) m n : skipn m (skipn n l) = skipn (m + n) l.
Proof.
  revert l; induction n as [|n IH]; intros l; [cbn; now rewrite Nat.add_0_r|].
  rewrite Nat.add_succ_r. destruct l; cbn [skipn]; [now rewrite skipn_nil|apply IH].
Qed.
Lemma skipn_nth {A} (l : list A) k x : nth_error l k = Some x -> skipn k l = x :: skipn (S k) l.
Proof. revert k; induction l; destruct k; cbn; intros; try discriminate; [congruence|]. now apply IHl. Qed.
Lemma firstn_S_nth {A} (l : list A) k x : nth_error l k = Some x -> firstn (S k) l = firstn k l ++ [x].
Proof. revert k; induction l; destruct k; cbn; intros; try discriminate; [congruence|]. f_equal. now apply IHl. Qed.

(** split all conjunctions of the goal *)
Ltac conj := repeat match goal with |- _ /\ _ => split end.
