(** * Proofs: binary search, rotate, sorts *)
From Coq Require Import List Arith Bool Permutation Lia.
From Verif Require Import Util Slots SortModel SortSpec HeapProofs.
Import ListNotations.

Ltac lapp := repeat (progress (rewrite <- ?app_assoc; cbn [app])); reflexivity.
Section Gen.
  Context {A : Type}.
  Implicit Types l w a b : list A.
  Lemma rd_mid a x b : rd (a ++ x :: b) (List.length a) = Some x.
  Proof. unfold rd. rewrite nth_error_app2, Nat.sub_diag by lia. reflexivity. Qed.
  Lemma upd_mid a x b y : upd (a ++ x :: b) (List.length a) y = a ++ y :: b.
  Proof. induction a; cbn; [reflexivity|now f_equal]. Qed.
  Lemma wr_mid a x b y : wr (a ++ x :: b) (List.length a) y = Some (a ++ y :: b).
  Proof. rewrite wr_ok by (rewrite app_length; cbn; lia). now rewrite upd_mid. Qed.
  Lemma window_ok {R} a w b (f : list A -> option (list A * R)) w' r : f w = Some (w', r) ->
    window (a ++ w ++ b) (List.length a) (List.length a + List.length w) f = Some (a ++ w' ++ b, r).
  Proof.
    intros H. unfold window. rewrite !app_length.
    replace (_ <=? _) with true by (symmetry; apply Nat.leb_le; lia). replace (_ <=? _) with true by (symmetry; apply Nat.leb_le; lia). cbn [andb].
    rewrite skipn_app, skipn_all, Nat.sub_diag. cbn [app skipn]. replace (List.length a + List.length w - List.length a) with (List.length w) by lia.
    rewrite firstn_app, Nat.sub_diag, firstn_all, app_nil_r by lia. rewrite H. cbn [obind]. rewrite firstn_app, Nat.sub_diag, firstn_all, app_nil_r.
    do 4 f_equal. rewrite app_assoc, <- app_length, skipn_app, skipn_all, Nat.sub_diag. reflexivity.
  Qed.
  Lemma split_at l n : n < List.length l -> exists a x b, l = a ++ x :: b /\ List.length a = n.
  Proof.
    intros H. destruct (nth_error l n) as [x|] eqn:E; [|apply nth_error_None in E; lia]. apply nth_error_split in E as (a & b & -> & L). eauto.
  Qed.
  Lemma split_last l : l <> [] -> exists a x, l = a ++ [x].
  Proof. intros H. destruct (exists_last H) as (a & x & ->). eauto. Qed.

  (** ** binary search *)
  Definition partitioned (p : A -> bool) l : Prop := forall i j x y, i < j -> nth_error l i = Some x -> nth_error l j = Some y -> p y = true -> p x = true.
  Lemma lower_bound_loop_ok (p : A -> bool) l : forall fuel first count, count < fuel -> first + count <= List.length l ->
    exists r, lower_bound_loop fuel l p first count = Some r /\ first <= r <= first + count /\
      (partitioned p l -> (forall i x, i < first -> nth_error l i = Some x -> p x = true) -> (forall i x, first + count <= i -> nth_error l i = Some x -> p x = false) ->
        (forall i x, i < r -> nth_error l i = Some x -> p x = true) /\ (forall i x, r <= i -> nth_error l i = Some x -> p x = false)).
  Proof.
    induction fuel as [|f IH]; intros first count F L; [lia|]. cbn [lower_bound_loop]. destruct (Nat.ltb_spec 0 count) as [C|C].
    - assert (D : count / 2 < count) by (apply Nat.div_lt; lia). destruct (rd_lt l (first + count / 2)) as [x Hx]; [lia|]. rewrite Hx; cbn [obind].
      destruct (p x) eqn:P.
      + destruct (IH (S (first + count / 2)) (count - (count / 2 + 1))) as (r & E & R & Q); [lia|lia|]. exists r. split; [exact E|]. split; [lia|].
        intros Pt Lo Hi. apply Q; try assumption.
        * intros i y Hi' Hy. destruct (Nat.eq_dec i (first + count / 2)) as [->|N]; [unfold rd in Hx; congruence|].
          destruct (Nat.lt_ge_cases i first); [eapply Lo; eauto|]. eapply (Pt i (first + count / 2)); eauto; lia.
        * intros i y Hi' Hy. apply (Hi i); [lia|assumption].
      + destruct (IH first (count / 2)) as (r & E & R & Q); [lia|lia|]. exists r. split; [exact E|]. split; [lia|].
        intros Pt Lo Hi. apply Q; try assumption.
        intros i y Hi' Hy. destruct (Nat.eq_dec i (first + count / 2)) as [->|N]; [unfold rd in Hx; congruence|].
        destruct (p y) eqn:Py; [|reflexivity]. rewrite (Pt (first + count / 2) i x y) in P; auto; lia.
    - exists first. split; [reflexivity|]. split; [lia|]. intros Pt Lo Hi. split; [assumption|]. intros i x Hi' Hx. apply (Hi i); [lia|assumption].
  Qed.
  Lemma bound_by_ok (p : A -> bool) l : exists r, lower_bound_by l p = Some r /\ r <= List.length l /\
    (partitioned p l -> (forall i x, i < r -> nth_error l i = Some x -> p x = true) /\ (forall i x, r <= i -> nth_error l i = Some x -> p x = false)).
  Proof.
    unfold lower_bound_by. destruct (lower_bound_loop_ok p l (S (List.length l)) 0 (List.length l)) as (r & E & R & Q); [lia|lia|].
    exists r. split; [exact E|]. split; [lia|]. intros Pt. apply Q; [assumption|lia|]. intros i x Hi Hx. apply nth_error_lt in Hx. lia.
  Qed.

  (** ** gcd *)
  Lemma gcd_loop_ok : forall fuel (a b : nat), b < fuel -> gcd_loop fuel a b = Some (Nat.gcd a b).
  Proof.
    induction fuel as [|f IH]; intros a b F; [lia|]. cbn [gcd_loop]. destruct (Nat.eqb_spec b 0) as [->|N]; [now rewrite Nat.gcd_0_r|].
    rewrite IH by (pose proof (Nat.mod_upper_bound a b N); lia). f_equal. rewrite (Nat.gcd_comm b), Nat.gcd_mod by assumption. apply Nat.gcd_comm.
  Qed.
  Lemma gcd_nat_ok (a b : nat) : gcd_nat a b = Some (Nat.gcd a b).
  Proof.
    unfold gcd_nat. destruct (Nat.eqb_spec a 0) as [->|Na]; [now rewrite Nat.gcd_0_l|]. destruct (Nat.eqb_spec b 0) as [->|Nb]; cbn [orb]; [now rewrite Nat.gcd_0_r, Nat.add_0_r|].
    apply gcd_loop_ok. lia.
  Qed.

  (** ** rotate by cycles *)
  Section Cycles.
    Variables n m : nat.
    Hypothesis Hm : 0 < m < n.
    Notation g := (Nat.gcd n m).
    Lemma g_pos : 0 < g.
    Proof. destruct g eqn:E; [|lia]. apply Nat.gcd_eq_0 in E. lia. Qed.
    Definition pos (i t : nat) : nat := (i + t * m) mod n.
    Definition len : nat := n / g.
    Lemma n_split : n = len * g. 
    Proof. unfold len. destruct (Nat.gcd_divide_l n m) as [q E]. pose proof g_pos. rewrite E at 1 2. now rewrite Nat.div_mul by lia. Qed.
    Lemma len_pos : 0 < len. Proof. pose proof n_split. destruct len; lia. Qed.
    Lemma cycle_back t : (t * m) mod n = 0 <-> Nat.divide len t.
    Proof.
      pose proof g_pos as G. destruct (Nat.gcd_divide_r n m) as [m' Em]. pose proof n_split as En.
      assert (C : Nat.gcd len m' = 1).
      { unfold len. assert (E2 : m' = m / g) by (rewrite Em at 1; now rewrite Nat.div_mul by lia). rewrite E2. apply Nat.gcd_div_gcd; lia. }
      rewrite Nat.mod_divide by lia. set (gg := Nat.gcd n m) in *. set (ll := len) in *. clearbody gg ll. split.
      - intros [q E]. apply Nat.gauss with m'; [|exact C]. exists q. apply (Nat.mul_cancel_r _ _ gg ltac:(lia)). nia.
      - intros [q ->]. exists (q * m'). nia.
    Qed.
    Lemma pos_inj i (a b : nat) : a < len -> b < len -> pos i a = pos i b -> a = b.
    Proof.
      assert (G : forall a b : nat, a <= b -> b < len -> pos i a = pos i b -> a = b).
      { intros x y L B E. unfold pos in E. assert (Z : ((y - x) * m) mod n = 0).
        { replace (i + y * m) with ((i + x * m) + (y - x) * m) in E by nia.
          pose proof (Nat.div_mod (i + x * m) n ltac:(lia)) as D1. pose proof (Nat.div_mod (i + x * m + (y - x) * m) n ltac:(lia)) as D2. rewrite <- E in D2.
          apply Nat.mod_divide; [lia|]. exists ((i + x * m + (y - x) * m) / n - (i + x * m) / n). nia. }
        apply cycle_back in Z. destruct Z as [q Z]. destruct q; [lia|]. nia. }
      intros Ha Hb E. destruct (Nat.le_ge_cases a b); [now apply G|symmetry; apply G; auto].
    Qed.
    Lemma pos_lt i t : pos i t < n. Proof. apply Nat.mod_upper_bound. lia. Qed.
    Lemma pos_S i t : (if Nat.leb n (pos i t + m) then pos i t + m - n else pos i t + m) = pos i (S t).
    Proof.
      pose proof (pos_lt i t) as L. assert (E : pos i (S t) = (pos i t + m) mod n).
      { unfold pos. rewrite Nat.add_mod_idemp_l by lia. f_equal. lia. }
      rewrite E. destruct (Nat.leb_spec n (pos i t + m)).
      - symmetry. rewrite <- (Nat.mod_small (pos i t + m - n) n) by lia. replace (pos i t + m) with (pos i t + m - n + 1 * n) at 1 by lia. now rewrite Nat.mod_add by lia.
      - now rewrite Nat.mod_small by lia.
    Qed.
    Lemma pos_g i t : pos i t mod g = i mod g.
    Proof.
      pose proof g_pos. unfold pos. destruct (Nat.gcd_divide_r n m) as [m' Em]. pose proof n_split as En.
      pose proof (Nat.div_mod (i + t * m) n ltac:(lia)) as D.
      set (r := (i + t * m) mod n) in *. set (q := (i + t * m) / n) in *.
      assert (E : r + (q * len) * g = i + (t * m') * g). { set (gg := Nat.gcd n m) in *. set (ll := len) in *. clearbody gg ll r q. nia. }
      rewrite <- (Nat.mod_add r (q * len) g) by lia. rewrite E. now rewrite Nat.mod_add by lia.
    Qed.
    (** every position with the same remainder is on the cycle *)
    Lemma pos_onto i p : i < g -> p < n -> p mod g = i -> exists t, t < len /\ pos i t = p.
    Proof.
      intros Hi Hp E. pose proof g_pos as G. pose proof (Nat.div_mod p g ltac:(lia)) as D. rewrite E in D. set (q := p / g) in *.
      destruct (Nat.gcd_bezout_pos m n ltac:(lia)) as (a & b & Bz). rewrite (Nat.gcd_comm m n) in Bz.
      assert (En := n_split). assert (Lp := len_pos).
      exists ((a * q) mod len). split; [apply Nat.mod_upper_bound; lia|].
      unfold pos. pose proof (Nat.div_mod (a * q) len ltac:(lia)) as D2. set (t := (a * q) mod len) in *. set (u := (a * q) / len) in *.
      destruct (Nat.gcd_divide_r n m) as [m' Em].
      assert (Q : i + t * m + (u * m') * n = p + (b * q) * n).
      { clearbody t u q. set (gg := Nat.gcd n m) in *. set (ll := len) in *. clearbody gg ll. assert (X1 : ll * m = m' * n) by nia.
        assert (X2 : a * q * m = q * gg + b * q * n) by nia. assert (X3 : u * (ll * m) = u * (m' * n)) by now rewrite X1. nia. }
      rewrite <- (Nat.mod_add (i + t * m) (u * m') n) by lia. rewrite Q, Nat.mod_add by lia. now apply Nat.mod_small.
    Qed.

    Variable l0 : list A.
    Hypothesis Hl : List.length l0 = n.
    Definition rotated (l : list A) (p : nat) : Prop := nth_error l p = nth_error l0 ((p + m) mod n).
    Lemma rotate_cycle_ok i temp (lA : list A) : i < g -> List.length lA = n -> (forall t, t < len -> nth_error lA (pos i t) = nth_error l0 (pos i t)) -> nth_error l0 i = Some temp ->
      forall fuel t l, len - t <= fuel -> t < len -> List.length l = n ->
      (forall p, (forall s, s < t -> p <> pos i s) -> nth_error l p = nth_error lA p) ->
      (forall s, s < t -> rotated l (pos i s)) ->
      exists l', rotate_cycle fuel l n m i (pos i t) temp = Some l' /\ List.length l' = n /\
        (forall s, s < len -> rotated l' (pos i s)) /\ (forall p, (forall s, s < len -> p <> pos i s) -> nth_error l' p = nth_error lA p).
    Proof.
      intros Hi LA Same Tm. assert (Hin : i < n). { pose proof n_split. pose proof len_pos. assert (g <= n) by nia. lia. }
      induction fuel as [|f IH]; intros t l F T L Un Ro; [lia|]. cbn [rotate_cycle]. rewrite pos_S.
      assert (R0 : forall s, rotated l (pos i s) <-> nth_error l (pos i s) = nth_error l0 (pos i (S s))).
      { intros s. unfold rotated. replace ((pos i s + m) mod n) with (pos i (S s)); [tauto|]. unfold pos. rewrite Nat.add_mod_idemp_l by lia. f_equal. lia. }
      assert (P0 : pos i 0 = i) by (unfold pos; rewrite Nat.mul_0_l, Nat.add_0_r; now apply Nat.mod_small).
      destruct (Nat.eqb_spec (pos i (S t)) i) as [E|N].
      - (* back at the start: t + 1 = len *)
        assert (T' : S t = len).
        { assert (Z : (S t * m) mod n = 0).
          { unfold pos in E. pose proof (Nat.div_mod (i + S t * m) n ltac:(lia)) as D. rewrite E in D. apply Nat.mod_divide; [lia|]. exists ((i + S t * m) / n). lia. }
          apply cycle_back in Z. destruct Z as [q Z]. destruct q; [lia|]. nia. }
        rewrite wr_ok by (rewrite L; apply pos_lt). eexists. split; [reflexivity|]. split; [now rewrite upd_length|]. split.
        + intros s Hs. unfold rotated. destruct (Nat.eq_dec s t) as [->|Ns].
          * rewrite upd_same by (rewrite L; apply pos_lt). replace ((pos i t + m) mod n) with (pos i (S t)); [rewrite E; now symmetry|].
            unfold pos. rewrite Nat.add_mod_idemp_l by lia. f_equal. lia.
          * rewrite upd_other; [apply Ro; lia|]. intros Q. apply Ns. symmetry. apply (pos_inj i); try lia; assumption.
        + intros p Hp. rewrite upd_other; [apply Un; intros; apply Hp; lia|]. intros Q. apply (Hp t T). now symmetry.
      - assert (T' : S t < len).
        { destruct (Nat.eq_dec (S t) len) as [Q|]; [|lia]. exfalso. apply N. unfold pos. rewrite Q.
          assert (Z : (len * m) mod n = 0) by (apply cycle_back; exists 1; lia).
          rewrite <- Nat.add_mod_idemp_r, Z, Nat.add_0_r by lia. now apply Nat.mod_small. }
        assert (Rx : nth_error l (pos i (S t)) = nth_error l0 (pos i (S t))).
        { rewrite Un; [now apply Same|]. intros s Hs Q. apply pos_inj in Q; lia. }
        destruct (rd_lt l (pos i (S t))) as [x Hx]; [rewrite L; apply pos_lt|]. rewrite Hx; cbn [obind]. rewrite wr_ok by (rewrite L; apply pos_lt). cbn [obind].
        apply IH; try lia.
        + now rewrite upd_length.
        + intros p Hp. rewrite upd_other; [apply Un; intros; apply Hp; lia|]. intros Q. apply (Hp t ltac:(lia)). now symmetry.
        + intros s Hs. destruct (Nat.eq_dec s t) as [->|Ns].
          * unfold rotated. rewrite upd_same by (rewrite L; apply pos_lt). replace ((pos i t + m) mod n) with (pos i (S t)).
            -- rewrite <- Rx. unfold rd in Hx. now symmetry.
            -- unfold pos. rewrite Nat.add_mod_idemp_l by lia. f_equal. lia.
          * unfold rotated. rewrite upd_other; [apply Ro; lia|]. intros Q. apply Ns. symmetry. apply (pos_inj i); try lia; assumption.
    Qed.
    Lemma rotate_cycles_ok : forall count l i, i + count = g -> List.length l = n ->
      (forall p, p < n -> p mod g < i -> rotated l p) -> (forall p, p < n -> i <= p mod g -> nth_error l p = nth_error l0 p) ->
      exists l', rotate_cycles count l n m i = Some l' /\ List.length l' = n /\ (forall p, p < n -> rotated l' p).
    Proof.
      pose proof g_pos as G. pose proof n_split as En. pose proof len_pos as Lp.
      induction count as [|c IH]; intros l i E L Ro Un.
      - exists l. split; [reflexivity|]. split; [assumption|]. intros p Hp. apply Ro; [assumption|]. pose proof (Nat.mod_upper_bound p g ltac:(lia)). lia.
      - cbn [rotate_cycles]. assert (Hi : i < g) by lia. assert (g <= n) by nia.
        assert (Si : nth_error l i = nth_error l0 i). { apply Un; [lia|]. rewrite Nat.mod_small; lia. }
        destruct (rd_lt l i) as [temp Ht]; [lia|]. rewrite Ht; cbn [obind].
        assert (P0 : pos i 0 = i) by (unfold pos; rewrite Nat.mul_0_l, Nat.add_0_r; apply Nat.mod_small; lia).
        destruct (rotate_cycle_ok i temp l Hi L) with (fuel := n) (t := 0) (l := l) as (l1 & E1 & L1 & R1 & U1); try lia; try assumption; try reflexivity.
        + intros t Ht'. apply Un; [apply pos_lt|]. rewrite pos_g. rewrite Nat.mod_small; lia.
        + rewrite <- Si. exact Ht.
        + unfold len. pose proof (Nat.div_le_upper_bound n g n). nia.
        + rewrite P0 in E1. rewrite E1; cbn [obind]. apply IH; try assumption; try lia.
          * intros p Hp Hg. destruct (Nat.eq_dec (p mod g) i) as [Q|Q].
            -- destruct (pos_onto i p Hi Hp Q) as (t & Ht' & <-). now apply R1.
            -- unfold rotated. rewrite U1; [apply Ro; lia|]. intros s Hs X. apply Q. rewrite X, pos_g. now apply Nat.mod_small.
          * intros p Hp Hg. rewrite U1; [apply Un; lia|]. intros s Hs X. rewrite X, pos_g in Hg. rewrite Nat.mod_small in Hg; lia.
    Qed.
  End Cycles.

  Lemma rotate_random_ok l m : m <= List.length l -> rotate_random l m = Some (skipn m l ++ firstn m l, if Nat.eqb m 0 then 0 else List.length l - m).
  Proof.
    intros H. unfold rotate_random. destruct (Nat.eqb_spec m 0) as [->|N0]; [cbn; now rewrite app_nil_r|].
    destruct (Nat.eqb_spec m (List.length l)) as [->|Nn]; cbn [orb]; [now rewrite skipn_all, firstn_all, Nat.sub_diag|].
    rewrite gcd_nat_ok; cbn [obind].
    destruct (rotate_cycles_ok (List.length l) m ltac:(lia) l eq_refl (Nat.gcd (List.length l) m) l 0) as (l' & E & L & R); try lia; try reflexivity.
    rewrite E; cbn [obind]. do 2 f_equal. apply nth_error_ext; intros p. destruct (Nat.lt_ge_cases p (List.length l)) as [Hp|Hp].
    - rewrite (R p Hp). destruct (Nat.lt_ge_cases p (List.length l - m)) as [Q|Q].
      + rewrite nth_error_app1 by (rewrite skipn_length; lia). rewrite nth_error_skipn, Nat.mod_small by lia. f_equal. lia.
      + rewrite nth_error_app2 by (rewrite skipn_length; lia). rewrite skipn_length, nth_error_firstn.
        replace (_ <? m) with true by (symmetry; apply Nat.ltb_lt; lia). f_equal.
        replace (p + m) with (p - (List.length l - m) + 1 * List.length l) by lia. rewrite Nat.mod_add by lia. apply Nat.mod_small. lia.
    - transitivity (@None A); [|symmetry]; apply nth_error_None; rewrite ?app_length, ?skipn_length, ?firstn_length; lia.
  Qed.

  (** ** reverse *)
  Lemma reverse_loop_ok : forall fuel a w b, List.length w < fuel -> reverse_loop fuel (a ++ w ++ b) (List.length a) (List.length a + List.length w) = Some (a ++ rev w ++ b).
  Proof.
    induction fuel as [|f IH]; intros a w b F; [lia|]. cbn [reverse_loop].
    destruct (Nat.ltb_spec (S (List.length a)) (List.length a + List.length w)) as [L|L].
    - destruct w as [|x w]; [cbn in L; lia|]. destruct (split_last w) as (v & y & ->); [intros ->; cbn in L; lia|].
      cbn [List.length app] in *. rewrite app_length in *. cbn [List.length] in *.
      rewrite rd_mid; cbn [obind].
      replace (List.length a + S (List.length v + 1) - 1) with (List.length (a ++ x :: v)) by (rewrite app_length; cbn; lia).
      replace (a ++ x :: (v ++ [y]) ++ b) with ((a ++ x :: v) ++ y :: b) by lapp.
      rewrite rd_mid; cbn [obind].
      replace ((a ++ x :: v) ++ y :: b) with (a ++ x :: v ++ y :: b) by lapp. rewrite wr_mid; cbn [obind].
      replace (a ++ y :: v ++ y :: b) with ((a ++ y :: v) ++ y :: b) by lapp.
      replace (List.length (a ++ x :: v)) with (List.length (a ++ y :: v)) by (rewrite !app_length; reflexivity). rewrite wr_mid; cbn [obind].
      replace ((a ++ y :: v) ++ x :: b) with ((a ++ [y]) ++ v ++ x :: b) by lapp.
      replace (S (List.length a)) with (List.length (a ++ [y])) by (rewrite app_length; cbn; lia).
      replace (List.length (a ++ y :: v)) with (List.length (a ++ [y]) + List.length v) by (rewrite !app_length; cbn; lia).
      rewrite IH by lia. cbn [rev]. rewrite rev_app_distr. cbn [rev app]. lapp.
    - destruct w as [|x [|y w]]; cbn in *; try reflexivity. lia.
  Qed.
  Lemma reverse_ok l : reverse l = Some (rev l).
  Proof.
    unfold reverse. pose proof (reverse_loop_ok (S (List.length l)) [] l [] ltac:(lia)) as R. cbn [app List.length Nat.add] in R. rewrite !app_nil_r in R. exact R.
  Qed.
  Lemma sub_reverse_ok a w b : sub_reverse (a ++ w ++ b) (List.length a) (List.length a + List.length w) = Some (a ++ rev w ++ b).
  Proof. unfold sub_reverse. rewrite (window_ok a w b _ (rev w) tt); [reflexivity|]. now rewrite reverse_ok. Qed.
  Lemma rotate_bidirectional_ok l m : m <= List.length l -> rotate_bidirectional l m = Some (skipn m l ++ firstn m l, if Nat.eqb m 0 then 0 else List.length l - m).
  Proof.
    intros H. unfold rotate_bidirectional. destruct (Nat.eqb_spec m 0) as [->|N0]; [cbn; now rewrite app_nil_r|].
    destruct (Nat.eqb_spec m (List.length l)) as [->|Nn]; cbn [orb]; [now rewrite skipn_all, firstn_all, Nat.sub_diag|].
    set (a := firstn m l). set (b := skipn m l). assert (E : l = a ++ b) by (symmetry; apply firstn_skipn).
    assert (La : List.length a = m) by (subst a; rewrite firstn_length; lia). assert (Lb : List.length b = List.length l - m) by (subst b; apply skipn_length).
    rewrite E at 1. pose proof (sub_reverse_ok [] a b) as S1. cbn [app List.length Nat.add] in S1. rewrite La in S1. rewrite S1; cbn [obind].
    pose proof (sub_reverse_ok (rev a) b []) as S2. rewrite !app_nil_r, rev_length, La, Lb in S2.
    rewrite app_length, rev_length, La, Lb. rewrite S2; cbn [obind].
    pose proof (sub_reverse_ok [] (rev a ++ rev b) []) as S3. cbn [app List.length Nat.add] in S3. rewrite !app_nil_r in S3.
    rewrite S3; cbn [obind]. rewrite rev_app_distr, !rev_involutive, !app_length, La, Lb. do 2 f_equal. lia.
  Qed.
  (** ** rotate by swaps *)
  Lemma rotate_swaps_ok : forall fuel d a b1 b2, List.length a + List.length b1 + List.length b2 < fuel -> (a = [] -> b1 = []) -> (a <> [] -> b2 <> []) ->
    rotate_swaps fuel (d ++ a ++ b1 ++ b2) (List.length d) (List.length d + List.length a) (List.length d + List.length a + List.length b1) = Some (d ++ b2 ++ b1 ++ a).
  Proof.
    induction fuel as [|f IH]; intros d a b1 b2 F H1 H2; [lia|]. cbn [rotate_swaps].
    destruct (Nat.eqb_spec (List.length d) (List.length d + List.length a + List.length b1)) as [E|N].
    - destruct a; [|cbn in E; lia]. rewrite H1 in * by reflexivity. cbn. now rewrite !app_nil_r.
    - destruct a as [|x a]; [rewrite H1 in N by reflexivity; cbn in N; lia|]. destruct b2 as [|y b2]; [now specialize (H2 ltac:(discriminate))|].
      cbn [app]. rewrite rd_mid; cbn [obind].
      replace (List.length d + List.length (x :: a) + List.length b1) with (List.length (d ++ x :: a ++ b1)) by (rewrite !app_length; cbn [List.length]; rewrite app_length; lia).
      replace (d ++ x :: a ++ b1 ++ y :: b2) with ((d ++ x :: a ++ b1) ++ y :: b2) by lapp.
      rewrite rd_mid; cbn [obind].
      replace ((d ++ x :: a ++ b1) ++ y :: b2) with (d ++ x :: (a ++ b1 ++ y :: b2)) by lapp.
      rewrite wr_mid; cbn [obind].
      replace (d ++ y :: (a ++ b1 ++ y :: b2)) with ((d ++ y :: a ++ b1) ++ y :: b2) by lapp.
      replace (List.length (d ++ x :: a ++ b1)) with (List.length (d ++ y :: a ++ b1)) by (rewrite !app_length; reflexivity).
      rewrite wr_mid; cbn [obind].
      assert (Eq : (d ++ y :: a ++ b1) ++ x :: b2 = (d ++ [y]) ++ a ++ (b1 ++ [x]) ++ b2) by lapp.
      rewrite Eq.
      assert (Ld : S (List.length d) = List.length (d ++ [y])) by (rewrite app_length; cbn; lia).
      assert (Ln : S (List.length (d ++ y :: a ++ b1)) = List.length (d ++ [y]) + List.length a + List.length (b1 ++ [x])) by (rewrite !app_length; cbn [List.length]; rewrite app_length; lia).
      assert (Lm : List.length d + List.length (x :: a) = List.length (d ++ [y]) + List.length a) by (rewrite !app_length; cbn; lia).
      rewrite Ln, Ld, Lm.
      assert (Res : forall r, r = (d ++ [y]) ++ b2 ++ (b1 ++ [x]) ++ a -> Some r = Some (d ++ (y :: b2) ++ b1 ++ x :: a)).
      { intros r ->. f_equal. rewrite <- !app_assoc. reflexivity. }
      cbn [List.length] in F. clear Eq.
      destruct (Nat.eqb_spec (List.length (d ++ [y]) + List.length a + List.length (b1 ++ [x])) (List.length ((d ++ [y]) ++ a ++ (b1 ++ [x]) ++ b2))) as [E|E].
      + assert (b2 = []). { destruct b2; [reflexivity|]. rewrite !app_length in E. cbn in E. lia. } subst b2. rewrite app_nil_r.
        pose proof (IH (d ++ [y]) a [] (b1 ++ [x])) as Q. cbn [app List.length] in Q. rewrite !Nat.add_0_r in Q.
        rewrite Q; [apply Res; reflexivity|rewrite app_length; cbn in *; lia|reflexivity|intros _; destruct b1; discriminate].
      + assert (b2 <> []). { intros ->. apply E. rewrite !app_length. cbn. lia. }
        destruct (Nat.eqb_spec (List.length (d ++ [y])) (List.length (d ++ [y]) + List.length a)) as [E2|E2].
        * assert (a = []) by (destruct a; [reflexivity|cbn in E2; lia]). subst a. cbn [app List.length] in *.
          pose proof (IH (d ++ [y]) (b1 ++ [x]) [] b2) as Q. cbn [app List.length] in Q. rewrite !Nat.add_0_r in Q. rewrite Nat.add_0_r.
          rewrite Q; [apply Res; now rewrite app_nil_r|rewrite app_length; cbn in *; lia|destruct b1; discriminate|auto].
        * rewrite IH; [apply Res; reflexivity|rewrite app_length; cbn in *; lia|intros ->; cbn in E2; lia|auto].
  Qed.
  Lemma rotate_forward_ok l m : m <= List.length l -> rotate_forward l m = Some (skipn m l ++ firstn m l, if Nat.eqb m 0 then 0 else List.length l - m).
  Proof.
    intros H. unfold rotate_forward. destruct (Nat.eqb_spec m 0) as [->|N0]; [cbn; now rewrite app_nil_r|].
    destruct (Nat.eqb_spec m (List.length l)) as [->|Nn]; cbn [orb]; [now rewrite skipn_all, firstn_all, Nat.sub_diag|].
    set (a := firstn m l). set (b := skipn m l). assert (E : l = a ++ b) by (symmetry; apply firstn_skipn).
    assert (La : List.length a = m) by (subst a; rewrite firstn_length; lia). assert (Lb : List.length b = List.length l - m) by (subst b; apply skipn_length).
    pose proof (rotate_swaps_ok (S (List.length l)) [] a [] b) as R. cbn [app List.length Nat.add] in R. rewrite <- E, La, !Nat.add_0_r in R.
    rewrite R; [reflexivity|lia|reflexivity|]. intros _ ->. cbn in Lb. lia.
  Qed.
  Lemma move_down_ok : forall c a x w b, List.length w = c -> move_down c (a ++ x :: w ++ b) (S (List.length a)) (List.length a) = Some (a ++ w ++ [last w x] ++ b).
  Proof.
    induction c as [|c IH]; intros a x w b L; [destruct w; [reflexivity|discriminate]|]. destruct w as [|y w]; [discriminate|]. cbn [move_down].
    replace (a ++ x :: (y :: w) ++ b) with ((a ++ [x]) ++ y :: w ++ b) by lapp.
    replace (S (List.length a)) with (List.length (a ++ [x])) at 1 by (rewrite app_length; cbn; lia). rewrite rd_mid; cbn [obind].
    replace ((a ++ [x]) ++ y :: w ++ b) with (a ++ x :: y :: w ++ b) by lapp. rewrite wr_mid; cbn [obind].
    replace (a ++ y :: y :: w ++ b) with ((a ++ [y]) ++ y :: w ++ b) by lapp.
    replace (S (List.length a)) with (List.length (a ++ [y])) by (rewrite app_length; cbn; lia). rewrite IH by (cbn in L; lia).
    rewrite <- app_assoc. cbn [app]. do 3 f_equal. f_equal. f_equal. destruct w as [|z w]; [reflexivity|]. cbn [last]. clear. revert z. induction w; intros z; [reflexivity|]. cbn. destruct w; [reflexivity|apply IHw; exact z].
  Qed.
  Lemma rotate_left_by_one_ok x l : rotate_left_by_one (x :: l) = Some (l ++ [x], List.length l).
  Proof.
    unfold rotate_left_by_one. cbn [rd nth_error obind List.length]. rewrite Nat.sub_succ, Nat.sub_0_r.
    pose proof (move_down_ok (List.length l) [] x l [] eq_refl) as M. cbn [app List.length] in M. rewrite app_nil_r in M. change (1) with (S (List.length (@nil A))) at 1.
    cbn [List.length]. rewrite M; cbn [obind]. rewrite wr_mid. reflexivity.
  Qed.
  Lemma rotate_ok cat l m : m <= List.length l -> rotate cat l m = Some (skipn m l ++ firstn m l, if Nat.eqb m 0 then 0 else List.length l - m).
  Proof.
    intros H. unfold rotate. destruct (Nat.eqb_spec 1 m) as [<-|N].
    - destruct l as [|x l]; [cbn in H; lia|]. rewrite rotate_left_by_one_ok. cbn [skipn firstn Nat.eqb List.length]. do 2 f_equal. lia.
    - destruct cat; cbn [rotate_general]; [now apply rotate_random_ok|now apply rotate_bidirectional_ok|now apply rotate_forward_ok].
  Qed.
End Gen.
