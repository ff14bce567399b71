(** * bitset: from the bits of the array to the specification *)
From Coq Require Import List Bool Arith ZArith Lia.
From Verif Require Import Util BinaryModel BitsetSpec BitsetModel BitsetProofs BitsetOps BitsetOps2 BitsetOps3 BitsetOps4 BitsetOps5.
Import ListNotations.
Local Open Scope nat_scope.

Lemma forallb_nth (b : list bool) : forallb (fun x => x) b = true <-> (forall q, q < List.length b -> nth q b false = true).
Proof.
  rewrite forallb_forall. split; [intros H q Hq; apply H; now apply nth_In|]. intros H x Hx. apply (In_nth _ _ false) in Hx as (q & Hq & <-). now apply H.
Qed.
Lemma existsb_nth (b : list bool) : existsb (fun x => x) b = true <-> (exists q, q < List.length b /\ nth q b false = true).
Proof.
  rewrite existsb_exists. split.
  - intros (x & Hx & E). subst. apply (In_nth _ _ false) in Hx as (q & Hq & E). exists q. rewrite E. auto.
  - intros (q & Hq & E). exists true. split; [rewrite <- E; now apply nth_In|reflexivity].
Qed.

  Lemma count_app_false (b : list bool) k : sp_count (b ++ repeat false k) = sp_count b.
  Proof. unfold sp_count. rewrite filter_app, app_length. replace (filter (fun x : bool => x) (repeat false k)) with (@nil bool); [cbn; lia|]. induction k; [reflexivity|exact IHk]. Qed.
  Lemma value_app_false (b : list bool) k : sp_value (b ++ repeat false k) = sp_value b.
  Proof. induction b as [|x r IH]; cbn [app sp_value]; [|now rewrite IH]. induction k as [|k IH]; [reflexivity|]. cbn [repeat sp_value]. rewrite IH. reflexivity. Qed.

  Lemma put_len b p v : List.length (sp_put b p v) = List.length b. Proof. unfold sp_put. now rewrite map_length, seq_length. Qed.
  Lemma put_nth b p v q : q < List.length b -> nth q (sp_put b p v) false = if q =? p then v else nth q b false.
  Proof. intros H. unfold sp_put. now rewrite nth_seq_map. Qed.
  Lemma map2_len' b f c : List.length (sp_map2 b f c) = List.length b. Proof. unfold sp_map2. now rewrite map_length, seq_length. Qed.
  Lemma map2_nth' b f c q : q < List.length b -> nth q (sp_map2 b f c) false = f (nth q b false) (nth q c false).
  Proof. intros H. unfold sp_map2. now rewrite nth_seq_map. Qed.
  Lemma shl_len b s : List.length (sp_shl b s) = List.length b. Proof. unfold sp_shl. rewrite firstn_length, app_length, repeat_length. lia. Qed.
  Lemma shl_nth b s q : q < List.length b -> nth q (sp_shl b s) false = (s <=? q) && nth (q - s) b false.
  Proof.
    intros H. unfold sp_shl. rewrite nth_firstn_in by exact H. destruct (Nat.leb_spec s q); cbn [andb].
    - rewrite app_nth2 by (rewrite repeat_length; lia). now rewrite repeat_length.
    - rewrite app_nth1 by (rewrite repeat_length; lia). apply nth_repeat.
  Qed.
  Lemma shr_len b s : List.length (sp_shr b s) = List.length b. Proof. unfold sp_shr. rewrite firstn_length, app_length, skipn_length, repeat_length. lia. Qed.
  Lemma shr_nth b s q : q < List.length b -> nth q (sp_shr b s) false = nth (q + s) b false.
  Proof.
    intros H. unfold sp_shr. rewrite nth_firstn_in by exact H. destruct (Nat.ltb_spec q (List.length (skipn s b))) as [L|L].
    - rewrite app_nth1 by exact L. rewrite nth_skipn_off. f_equal. lia.
    - rewrite app_nth2 by exact L. rewrite nth_repeat. rewrite skipn_length in L. symmetry. apply nth_overflow. lia.
  Qed.

Section W.
  Variables W N : nat.
  Hypothesis HW : bwidth W.
  Hypothesis HN : 0 < N.
  Let Wp : 0 < W. Proof. apply bw_pos in HW; lia. Qed.
  Let Nle : N <= nelem W N * W. Proof. apply nelem_bound, Wp. Qed.

  Definition exact (r : res (list Z)) (b : list bool) : Prop := exists ws', r = Ok ws' /\ wf W N ws' /\ bits W N ws' = b.
  Lemma post_exact ws r f b : post W N ws r f -> List.length b = N -> (forall q, q < N -> f q = nth q b false) -> exact r b.
  Proof using HW HN Wp Nle.
    intros (ws' & -> & Hw & H) Hb Hf. exists ws'. conj; auto. apply bits_ext; [exact Hb|]. intros p Hp. rewrite H by lia. apply Hf. exact Hp.
  Qed.
  Lemma post_clean ws r f : post W N ws r f -> (forall q, N <= q -> q < nelem W N * W -> f q = false) -> exists ws', r = Ok ws' /\ clean W N ws'.
  Proof using HW HN Wp Nle. intros (ws' & -> & Hw & H) Hf. exists ws'. split; [reflexivity|]. intros p Hp Hp2. rewrite H by lia. apply Hf; assumption. Qed.

  Lemma full_bits ws : clean W N ws -> bits W (nelem W N * W) ws = bits W N ws ++ repeat false (nelem W N * W - N).
  Proof using HW HN Wp Nle.
    intros Hc. rewrite (bits_split W N ws (nelem W N * W)) by exact Nle. f_equal.
    assert (G : forall k a, N <= a -> a + k <= nelem W N * W -> map (bitat W ws) (seq a k) = repeat false k).
    { induction k as [|k IH]; intros a Ha Hk; [reflexivity|]. cbn [seq map repeat]. rewrite Hc by lia. f_equal. apply IH; lia. }
    apply G; lia.
  Qed.
  Lemma clean_count ws : wf W N ws -> clean W N ws -> bs_count W ws = Z.of_nat (sp_count (bits W N ws)).
  Proof using HW HN Wp Nle. intros Hw Hc. rewrite (count_ok W N HW HN ws Hw), full_bits, (count_app_false) by exact Hc. reflexivity. Qed.
  Lemma clean_value ws wt : wf W N ws -> clean W N ws -> nelem W N * W <= wt -> bs_value W wt ws = sp_value (bits W N ws).
  Proof using HW HN Wp Nle. intros Hw Hc Ht. rewrite (value_ok W N HW HN ws wt Hw Ht), full_bits, value_app_false by exact Hc. reflexivity. Qed.
  Lemma clean_none ws : wf W N ws -> clean W N ws -> m_none ws = negb (sp_any (bits W N ws)).
  Proof using HW HN Wp Nle.
    intros Hw Hc. apply eq_true_iff_eq. rewrite (none_all W N HW HN ws Hw), negb_true_iff. unfold sp_any. rewrite <- not_true_iff_false, existsb_nth. rewrite bits_len. split.
    - intros H (q & Hq & E). rewrite bits_nth in E by exact Hq. rewrite H in E by lia. discriminate.
    - intros H q Hq. destruct (Nat.lt_ge_cases q N) as [L|L]; [|now apply Hc]. destruct (bitat W ws q) eqn:E; [|reflexivity]. exfalso. apply H. exists q. split; [exact L|]. now rewrite bits_nth.
  Qed.
  Lemma clean_eq l r : wf W N l -> wf W N r -> clean W N l -> clean W N r -> bs_eq l r = true <-> bits W N l = bits W N r.
  Proof using HW HN Wp Nle.
    intros Hl Hr Cl Cr. rewrite (eq_ok W N HW HN l r Hl Hr). split; [intros ->; reflexivity|]. intros E. apply (ws_ext W N HW HN); auto. intros q Hq.
    destruct (Nat.lt_ge_cases q N) as [L|L]; [|rewrite Cl, Cr by lia; reflexivity]. rewrite <- (bits_nth W N l q L), <- (bits_nth W N r q L), E. reflexivity.
  Qed.
  Lemma to_ullong_fits : N <= 64 -> nelem W N * W <= 64.
  Proof using HW HN Wp Nle.
    intros H. pose proof (nelem_bound W N Wp) as [_ B]. destruct HW as [e|[e|[e|e]]]; rewrite e in *; clear e; lia.
  Qed.

End W.
