From Coq Require Import List Arith Lia Bool.
From Verif Require Import BufdModel BufdSpec.
Import ListNotations.

Lemma set_nth_length l : forall i b, length (set_nth l i b) = length l.
Proof. induction l as [|x l IH]; intros [|i] b; cbn; auto. Qed.
Lemma set_nth_same l : forall i b, i < length l -> nth i (set_nth l i b) false = b.
Proof. induction l as [|x l IH]; intros [|i] b H; cbn in *; try lia; auto. apply IH. lia. Qed.
Lemma set_nth_other l : forall i j b, i <> j -> nth j (set_nth l i b) false = nth j l false.
Proof. induction l as [|x l IH]; intros [|i] [|j] b H; cbn; auto; try lia. Qed.
Lemma nth_repeat_false n i : nth i (repeat false n) false = false.
Proof. revert i. induction n as [|n IH]; intros [|i]; cbn; auto. Qed.

Section P.
Variables (V : Type) (BS N : nat).
Hypothesis HN : 0 < N.
Lemma advance_spec c : advance N (c mod N) = (S c) mod N.
Proof.
  unfold advance. pose proof (Nat.mod_upper_bound c N ltac:(lia)) as L. pose proof (Nat.div_mod c N ltac:(lia)) as E. set (r := c mod N) in *. set (q := c / N) in *. clearbody r q. destruct (Nat.leb_spec (N - 1) r).
  - apply (Nat.mod_unique (S c) N (S q) 0); nia.
  - apply (Nat.mod_unique (S c) N q (S r)); nia.
Qed.
Definition inv (s : state V) (h : list nat) (c : nat) : Prop :=
  length (in_use s) = N /\ next s = c mod N /\ NoDup h /\ (forall i, In i h -> i < N) /\ (forall i, nth i (in_use s) false = true <-> In i h).
Lemma inv_empty cb nt m : inv (mkState (repeat false N) 0 cb nt m) [] 0.
Proof. repeat split; cbn; auto; try (apply repeat_length); try (symmetry; apply Nat.mod_0_l; lia); try constructor; try contradiction. intros H. rewrite nth_repeat_false in H. discriminate. Qed.
Lemma allocate_cases s h c : inv s h c ->
  (In (c mod N) h /\ allocate V N s = (s, None)) \/
  (~ In (c mod N) h /\ c mod N < N /\ exists s', allocate V N s = (s', Some (c mod N)) /\ memory s' = memory s /\ inv s' (h ++ [c mod N]) (S c)).
Proof.
  intros (L & E & D & B & U). unfold allocate. rewrite E. pose proof (Nat.mod_upper_bound c N ltac:(lia)) as Lt. set (i := c mod N) in *. destruct (nth i (in_use s) false) eqn:X; cbn [negb].
  - left. split; [apply U, X|reflexivity].
  - right. assert (NI : ~ In i h) by (intros I; apply U in I; congruence). split; [exact NI|]. split; [exact Lt|]. eexists. split; [reflexivity|]. split; [reflexivity|].
    repeat split; cbn [in_use next].
    + now rewrite set_nth_length.
    + apply advance_spec.
    + rewrite <- rev_involutive. apply NoDup_rev. rewrite rev_app_distr. cbn. constructor; [rewrite <- in_rev; exact NI|apply NoDup_rev; exact D].
    + intros j Hj. apply in_app_or in Hj. destruct Hj as [Hj|[<-|[]]]; auto.
    + intros Hj. apply in_or_app. destruct (Nat.eq_dec i i0) as [->|Ne]; [right; left; reflexivity|left]. rewrite set_nth_other in Hj by exact Ne. apply U, Hj.
    + intros Hj. destruct (Nat.eq_dec i i0) as [->|Ne]; [apply set_nth_same; lia|]. rewrite set_nth_other by exact Ne. apply in_app_or in Hj. destruct Hj as [Hj|[Hj|[]]]; [apply U, Hj|congruence].
Qed.
Lemma inv_memory s h c m nt : inv s h c -> inv (mkState (in_use s) (next s) (callback s) nt m) h c.
Proof. intros H. exact H. Qed.
Lemma release_inv s h1 i h2 c s' : inv s (h1 ++ i :: h2) c -> release V s (Some i) = Some s' -> inv s' (h1 ++ h2) c /\ memory s' = memory s.
Proof.
  intros (L & E & D & B & U) R. injection R as <-. split; [|reflexivity]. assert (Hi : i < N) by (apply B, in_elt). pose proof (NoDup_remove_2 _ _ _ D) as Ni. repeat split; cbn [in_use next].
  - now rewrite set_nth_length.
  - exact E.
  - eapply NoDup_remove_1; eauto.
  - intros j Hj. apply B. apply in_app_or in Hj. apply in_or_app. destruct Hj; [left|right; right]; auto.
  - intros Hj. destruct (Nat.eq_dec i i0) as [<-|Ne]; [rewrite set_nth_same in Hj by lia; discriminate|]. rewrite set_nth_other in Hj by exact Ne. apply U in Hj. apply in_app_or in Hj. apply in_or_app. destruct Hj as [|[|]]; auto; congruence.
  - intros Hj. destruct (Nat.eq_dec i i0) as [<-|Ne]; [contradiction|]. rewrite set_nth_other by exact Ne. apply U. apply in_app_or in Hj. apply in_or_app. destruct Hj; [left|right; right]; auto.
Qed.
Lemma alloc_inv s h c s' i : inv s h c -> allocate V N s = (s', Some i) -> ~ In i h /\ i = c mod N /\ memory s' = memory s /\ inv s' (h ++ [i]) (S c).
Proof. intros H A. destruct (allocate_cases s h c H) as [(_ & X)|(X1 & _ & s1 & X2 & X3 & X4)]; rewrite A in *; [discriminate|]. injection X2 as -> ->. auto. Qed.
Lemma alloc_none s h c s' : inv s h c -> allocate V N s = (s', None) -> s' = s /\ In (c mod N) h.
Proof. intros H A. destruct (allocate_cases s h c H) as [(X0 & X)|(_ & _ & s1 & X2 & _)]; rewrite A in *; [injection X as ->; auto|discriminate]. Qed.
Lemma fill_as s v : allocate_fill V BS N s v = let (s', d) := allocate V N s in
  match d with Some i => (mkState (in_use s') (next s') (callback s') (notified s') (fill_n V (memory s') (pbuffer BS i) BS v), d) | None => (s', d) end.
Proof. reflexivity. Qed.
Theorem use_inv fifo : forall s h c, use V BS N fifo s h c -> inv s h c.
Proof.
  intros s h c. induction 1 as [cb m|s h c s' i _ IH A|s h c s' _ IH A|s h c s' i v _ IH A|s h c s' v _ IH A|s h1 h2 c s' i _ IH F R|s h c _ _|s h c d n _ IH|s h c i x v _ IH _ _].
  - apply inv_empty.
  - apply (alloc_inv _ _ _ _ _ IH A).
  - destruct (alloc_none _ _ _ _ IH A) as (-> & _). exact IH.
  - rewrite fill_as in A. destruct (allocate V N s) as [s1 [j|]] eqn:E; [|discriminate]. injection A as <- <-. apply inv_memory. apply (alloc_inv _ _ _ _ _ IH E).
  - rewrite fill_as in A. destruct (allocate V N s) as [s1 [j|]] eqn:E; [discriminate|]. injection A as <-. destruct (alloc_none _ _ _ _ IH E) as (-> & _). exact IH.
  - apply (release_inv _ _ _ _ _ _ IH R).
  - apply inv_empty.
  - unfold notify. destruct (callback s); [|exact IH]. exact IH.
  - apply inv_memory. exact IH.
Qed.
(** first in, first out: the held buffers are the last ones got, in order *)
Definition window (h : list nat) (c : nat) : Prop := exists k, k <= c /\ h = map (fun j => j mod N) (seq (c - k) k) /\ k <= N.
Lemma inv_len s h c : inv s h c -> length h <= N.
Proof. intros (_ & _ & D & B & _). rewrite <- (seq_length N 0). apply NoDup_incl_length; [exact D|]. intros i I. apply in_seq. specialize (B i I). lia. Qed.
Lemma window_add s h c i : inv s h c -> window h c -> allocate V N s = (s, None) \/ (i = c mod N -> inv s h c -> forall s', inv s' (h ++ [i]) (S c) -> window (h ++ [i]) (S c)).
Proof.
  intros H (k & K1 & K2 & K3). right. intros -> _ s' H'. exists (S k). pose proof (inv_len _ _ _ H') as L. rewrite app_length, K2, map_length, seq_length in L. cbn in L. split; [lia|]. split; [|lia].
  rewrite K2, seq_S, map_app. replace (S c - S k) with (c - k) by lia. f_equal. cbn. f_equal. f_equal. lia.
Qed.
Theorem use_window : forall s h c, use V BS N true s h c -> window h c.
Proof.
  assert (Add : forall s h c s' i, use V BS N true s h c -> window h c -> allocate V N s = (s', Some i) -> window (h ++ [i]) (S c)).
  { intros s h c s' i U W A. pose proof (use_inv _ _ _ _ U) as I. destruct (alloc_inv _ _ _ _ _ I A) as (_ & Ei & _ & I'). destruct (window_add s h c i I W) as [X|X]; [rewrite A in X; discriminate|]. exact (X Ei I s' I'). }
  intros s h c. induction 1 as [cb m|s h c s' i U IH A|s h c s' U IH A|s h c s' i v U IH A|s h c s' v U IH A|s h1 h2 c s' i U IH F R|s h c U IH|s h c d n U IH|s h c i x v U IH _ _]; auto.
  - exists 0. cbn. repeat split; lia.
  - eapply Add; eauto.
  - rewrite fill_as in A. destruct (allocate V N s) as [s1 [j|]] eqn:E; [|discriminate]. injection A as <- <-. eapply Add; eauto.
  - rewrite (F eq_refl) in *. cbn [app] in *. destruct IH as (k & K1 & K2 & K3). destruct k as [|k]; [discriminate|]. cbn [seq map] in K2. injection K2 as K2a K2b. exists k. split; [lia|]. split; [|lia]. rewrite K2b. f_equal. f_equal. lia.
  - exists 0. cbn. repeat split; lia.
Qed.
Lemma window_full h c : window h c -> (In (c mod N) h <-> length h = N).
Proof.
  intros (k & K1 & -> & K3). rewrite map_length, seq_length. split.
  - intros I. apply in_map_iff in I. destruct I as (j & E & I). apply in_seq in I. destruct (Nat.eq_dec k N) as [|Ne]; [auto|exfalso].
    pose proof (Nat.div_mod c N ltac:(lia)) as E1. pose proof (Nat.div_mod j N ltac:(lia)) as E2. rewrite E in E2. pose proof (Nat.mod_upper_bound c N ltac:(lia)). set (q := c / N) in *. set (p := j / N) in *. set (r := c mod N) in *. clearbody q p r.
    assert (p < q \/ q <= p) as [|] by lia; nia.
  - intros ->. apply in_map_iff. exists (c - N). split; [|apply in_seq; lia]. rewrite <- (Nat.mod_add (c - N) 1) by lia. f_equal. lia.
Qed.
End P.
