(** Random numbers: periods of iterated functions *)
From Coq Require Import NArith ZArith Lia List Znumtheory.
From Verif Require Import RndModel.
Local Open Scope N_scope.

Section Period.
Context {A : Type}.
Variable f : A -> A.
Lemma iter_add (a b : N) x : N.iter (a + b) f x = N.iter a f (N.iter b f x).
Proof. apply N.iter_add. Qed.
Lemma iter_comm a b x : N.iter a f (N.iter b f x) = N.iter b f (N.iter a f x).
Proof. rewrite <- !iter_add. f_equal. lia. Qed.
Lemma iter_mult a x : N.iter a f x = x -> forall k, N.iter (k * a) f x = x.
Proof. intros H k. induction k as [|k IH] using N.peano_ind; [reflexivity|]. rewrite N.mul_succ_l, iter_add, H. exact IH. Qed.
Lemma iter_sub a b x : b <= a -> N.iter a f x = x -> N.iter b f x = x -> N.iter (a - b) f x = x.
Proof. intros L Ha Hb. rewrite <- Hb at 1. rewrite <- iter_add. replace (a - b + b) with a by lia. exact Ha. Qed.
Lemma iter_gcd x : forall m a b, a + b < m -> N.iter a f x = x -> N.iter b f x = x -> N.iter (N.gcd a b) f x = x.
Proof.
  intros m. induction m as [|m IH] using N.peano_ind; intros a b Hm Ha Hb; [lia|].
  destruct (N.eq_dec a 0) as [->|Na]; [rewrite N.gcd_0_l; exact Hb|]. destruct (N.eq_dec b 0) as [->|Nb]; [rewrite N.gcd_0_r; exact Ha|].
  destruct (N.le_gt_cases b a) as [L|L].
  - rewrite N.gcd_comm, <- (N.sub_add b a L), N.gcd_add_diag_r. apply IH; auto; [lia|]. apply iter_sub; auto.
  - rewrite <- (N.sub_add a b ltac:(lia)), N.gcd_add_diag_r. apply IH; auto; [lia|]. apply iter_sub; auto; lia.
Qed.
(** n is a period and no proper divisor of n is *)
Lemma period_exact n x : n <> 0 -> N.iter n f x = x -> (forall d, (d | n) -> N.iter d f x = x -> d = n) ->
  forall i j, N.iter i f x = N.iter j f x <-> i mod n = j mod n.
Proof.
  intros Hn Hx Hd.
  assert (Z0 : forall d, N.iter d f x = x -> d mod n = 0).
  { intros d H. apply N.mod_divide; [exact Hn|]. rewrite <- (Hd (N.gcd d n)) at 1; [apply N.gcd_divide_l|apply N.gcd_divide_r|]. eapply iter_gcd; eauto. apply N.lt_succ_diag_r. }
  assert (Red : forall i, N.iter i f x = N.iter (i mod n) f x).
  { intros i. transitivity (N.iter (i mod n + i / n * n) f x); [f_equal; pose proof (N.div_mod i n Hn); lia|]. rewrite iter_add. now rewrite iter_mult. }
  assert (Le : forall i j, i <= j -> N.iter i f x = N.iter j f x -> i mod n = j mod n).
  { intros i j L E. assert (K : N.iter (j + (n * i - i)) f x = x).
    { rewrite N.add_comm, iter_add, <- E, <- iter_add. replace (n * i - i + i) with (i * n) by nia. now apply iter_mult. }
    apply Z0 in K.
    assert (X : exists q, j + (n * i - i) = q * n) by (apply N.mod_divide in K; auto). destruct X as (q & X).
    assert (j + n * i = q * n + i) by nia.
    assert (Y : (j + i * n) mod n = (i + q * n) mod n) by (f_equal; lia). rewrite !N.mod_add in Y by exact Hn. congruence. }
  intros i j. split.
  - intros E. destruct (N.le_ge_cases i j); [auto|symmetry; apply Le; auto].
  - intros E. rewrite (Red i), (Red j), E. reflexivity.
Qed.
End Period.

(** ** range *)
Lemma u32_id n : n < 4294967296 -> u32 n = n. Proof. apply N.mod_small. Qed.
Lemma u32_lt n : u32 n < 4294967296. Proof. apply N.mod_lt. discriminate. Qed.
Lemma range_of_spec n low high : low <= high -> high < 4294967296 -> high - low <> 4294967295 -> range_of n low high = Some (low + n mod (high - low + 1)).
Proof.
  intros L H D. unfold range_of. replace (u32 (high + 4294967296 - low + 1)) with (high - low + 1).
  2:{ unfold u32. replace (high + 4294967296 - low + 1) with (high - low + 1 + 1 * 4294967296) by lia. rewrite N.mod_add by lia. rewrite N.mod_small; lia. }
  destruct (N.eqb_spec (high - low + 1) 0) as [E|_]; [lia|]. f_equal. pose proof (N.mod_lt n (high - low + 1) ltac:(lia)). rewrite u32_id; lia.
Qed.
