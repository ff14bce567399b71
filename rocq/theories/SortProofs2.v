(** * Proofs: the sort functions *)
From Coq Require Import List Arith Bool Permutation Lia.
From Verif Require Import Util Slots SortModel SortSpec HeapProofs SortProofs.
Import ListNotations.

Section Sorting.
  Context {A : Type}.
  Variable lt : A -> A -> bool.
  Hypothesis O : strict_weak_order lt.
  Implicit Types l w a b : list A.
  Definition below a b : Prop := forall x y, In x a -> In y b -> lt y x = false.

  Lemma sorted_nil : sorted lt []. Proof. intros i j a b H H1. destruct i; discriminate. Qed.
  Lemma sorted_app a b : sorted lt (a ++ b) <-> sorted lt a /\ sorted lt b /\ below a b.
  Proof.
    split.
    - intros S. conj.
      + intros i j x y L Hx Hy. eapply S; [exact L| |]; (rewrite nth_error_app1; [assumption|]); now apply nth_error_lt in Hx, Hy.
      + intros i j x y L Hx Hy. apply (S (List.length a + i) (List.length a + j)); [lia| |]; (rewrite nth_error_app2 by lia; now rewrite Nat.add_comm, Nat.add_sub).
      + intros x y Hx Hy. apply In_nth_error in Hx as [i Hi]. apply In_nth_error in Hy as [j Hj]. pose proof (nth_error_lt _ _ _ Hi).
        apply (S i (List.length a + j)); [lia| |]; [now rewrite nth_error_app1 by lia|rewrite nth_error_app2 by lia; now rewrite Nat.add_comm, Nat.add_sub].
    - intros (Sa & Sb & B) i j x y L Hx Hy. destruct (Nat.lt_ge_cases i (List.length a)) as [Li|Li].
      + rewrite nth_error_app1 in Hx by lia. destruct (Nat.lt_ge_cases j (List.length a)) as [Lj|Lj].
        * rewrite nth_error_app1 in Hy by lia. now apply (Sa i j).
        * rewrite nth_error_app2 in Hy by lia. apply B; eapply nth_error_In; eauto.
      + rewrite nth_error_app2 in Hx, Hy by lia. apply (Sb (i - List.length a) (j - List.length a)); [lia|assumption|assumption].
  Qed.
  Lemma sorted_one x : sorted lt [x].
  Proof. intros i j a b L Ha Hb. apply nth_error_lt in Ha, Hb. cbn in *. lia. Qed.
  Lemma sorted_cons x l : sorted lt (x :: l) <-> sorted lt l /\ below [x] l.
  Proof. rewrite (sorted_app [x] l). pose proof (sorted_one x). tauto. Qed.
  Lemma below_perm a a' b b' : Permutation a a' -> Permutation b b' -> below a b -> below a' b'.
  Proof. intros Pa Pb B x y Hx Hy. apply B; [apply (Permutation_in _ (Permutation_sym Pa) Hx)|apply (Permutation_in _ (Permutation_sym Pb) Hy)]. Qed.

  (** ** heap sort *)
  Lemma sort_heap_loop_ok : forall last l, last <= List.length l -> heap lt (firstn last l) -> sorted lt (skipn last l) -> below (firstn last l) (skipn last l) ->
    exists l', sort_heap_loop lt l last = Some l' /\ Permutation l' l /\ sorted lt l'.
  Proof.
    induction last as [|n IH]; intros l L H Srt B.
    - exists l. conj; try reflexivity. exact Srt.
    - cbn [sort_heap_loop]. set (h := firstn (S n) l) in *. set (r := skipn (S n) l) in *.
      assert (E : l = h ++ r) by (symmetry; apply firstn_skipn). assert (Lh : List.length h = S n) by (subst h; rewrite firstn_length; lia).
      clearbody h r. destruct (nth_error h 0) as [x|] eqn:Hx; [|apply nth_error_None in Hx; lia].
      destruct (pop_heap_ok lt O h x H Hx) as (h' & Ep & Pp & Hp & [_ G]).
      assert (Lh' : List.length h' = n) by (apply Permutation_length in Pp; cbn in Pp; lia).
      pose proof (window_ok [] h r (fun w => do w <- pop_heap lt w; Some (w, tt)) (h' ++ [x]) tt) as W. cbn [app List.length Nat.add] in W. rewrite Ep in W. cbn [obind] in W.
      rewrite Lh in W. subst l. rewrite W by reflexivity. cbn [obind].
      replace ((h' ++ [x]) ++ r) with (h' ++ (x :: r)) by lapp.
      assert (Fh : firstn n (h' ++ x :: r) = h') by (rewrite firstn_app, <- Lh', Nat.sub_diag, firstn_all; apply app_nil_r).
      assert (Sh : skipn n (h' ++ x :: r) = x :: r) by (rewrite skipn_app, <- Lh', Nat.sub_diag, skipn_all; reflexivity).
      destruct (IH (h' ++ x :: r)) as (l' & E' & P' & S').
      + rewrite app_length; cbn; lia.
      + now rewrite Fh.
      + rewrite Sh. apply sorted_cons. split; [assumption|]. intros y z [<-|[]] Hz. apply B; [eapply Permutation_in; [exact Pp|now left]|assumption].
      + rewrite Fh, Sh. intros y z Hy [<-|Hz].
        * apply G. eapply Permutation_in; [exact Pp|now right].
        * apply B; [eapply Permutation_in; [exact Pp|now right]|assumption].
      + exists l'. conj; [assumption| |assumption]. rewrite P', <- Pp. cbn. symmetry. apply Permutation_middle.
  Qed.
  Lemma sort_heap_ok l : heap lt l -> exists l', sort_heap lt l = Some l' /\ Permutation l' l /\ sorted lt l'.
  Proof.
    intros H. apply sort_heap_loop_ok; [lia|now rewrite firstn_all| |]; rewrite skipn_all; [apply sorted_nil|intros ? ? _ []].
  Qed.
  Lemma heap_sort_ok l : exists l', heap_sort lt l = Some l' /\ Permutation l' l /\ sorted lt l'.
  Proof.
    unfold heap_sort. destruct (is_heap_ok lt l) as (b & E & Hb). rewrite E; cbn [obind]. destruct b; cbn [obind].
    - apply sort_heap_ok. now apply Hb.
    - destruct (make_heap_ok lt O l) as (l1 & E1 & P1 & H1). rewrite E1; cbn [obind]. destruct (sort_heap_ok l1 H1) as (l2 & E2 & P2 & S2).
      exists l2. conj; [assumption|now rewrite P2|assumption].
  Qed.

  (** ** insertion sort *)
  Lemma upper_bound_sorted s x : sorted lt s -> exists p, upper_bound lt s x = Some p /\ p <= List.length s /\
    (forall y, In y (firstn p s) -> lt x y = false) /\ (forall y, In y (skipn p s) -> lt x y = true).
  Proof.
    intros S. unfold upper_bound, upper_bound_by. destruct (bound_by_ok (fun y => negb (lt x y)) s) as (p & E & L & Q). exists p. conj; try assumption.
    - assert (Pt : partitioned (fun y => negb (lt x y)) s).
      { intros i j a b Lij Ha Hb. rewrite !negb_true_iff. intros H. pose proof (S i j a b Lij Ha Hb). eapply nlt_trans; eauto. }
      destruct (Q Pt) as [Q1 Q2]. intros y Hy. apply In_nth_error in Hy as [i Hi]. rewrite nth_error_firstn in Hi. destruct (Nat.ltb_spec i p); [|discriminate].
      specialize (Q1 i y H Hi). now apply negb_true_iff.
    - assert (Pt : partitioned (fun y => negb (lt x y)) s).
      { intros i j a b Lij Ha Hb. rewrite !negb_true_iff. intros H. pose proof (S i j a b Lij Ha Hb). eapply nlt_trans; eauto. }
      destruct (Q Pt) as [Q1 Q2]. intros y Hy. apply In_nth_error in Hy as [i Hi]. rewrite nth_error_skipn in Hi.
      specialize (Q2 (p + i) y ltac:(lia) Hi). now apply negb_false_iff.
  Qed.
  Lemma filter_none (f : A -> bool) l : (forall x, In x l -> f x = false) -> filter f l = [].
  Proof. induction l as [|x l IH]; intros H; [reflexivity|]. cbn. rewrite H by (now left). apply IH. intros; apply H; now right. Qed.
  Lemma equivalent_trans x y z : equivalent lt x y = true -> equivalent lt x z = true -> equivalent lt y z = true.
  Proof.
    unfold equivalent. rewrite !andb_true_iff, !negb_true_iff. intros [H1 H2] [H3 H4]. split; [exact (nlt_trans lt O z x y H3 H2)|exact (nlt_trans lt O y x z H1 H4)].
  Qed.
  Lemma insertion_loop_ok cat : forall c s r, List.length r = c -> sorted lt s ->
    exists l', insertion_loop lt cat c (s ++ r) (List.length s) = Some l' /\ Permutation l' (s ++ r) /\ sorted lt l' /\ stable lt (s ++ r) l'.
  Proof.
    induction c as [|c IH]; intros s r L S.
    - destruct r; [|discriminate]. exists s. rewrite app_nil_r. conj; try reflexivity; try assumption. intros y; reflexivity.
    - destruct r as [|x r]; [discriminate|]. cbn [insertion_loop]. rewrite rd_mid; cbn [obind].
      assert (F : firstn (List.length s) (s ++ x :: r) = s) by (rewrite firstn_app, Nat.sub_diag, firstn_all; apply app_nil_r). rewrite F.
      destruct (upper_bound_sorted s x S) as (p & E & Lp & Lo & Hi). rewrite E; cbn [obind].
      set (s1 := firstn p s) in *. set (s2 := skipn p s) in *. assert (Es : s = s1 ++ s2) by (symmetry; apply firstn_skipn).
      assert (L1 : List.length s1 = p) by (subst s1; rewrite firstn_length; lia). assert (L2 : List.length s2 = List.length s - p) by (subst s2; apply skipn_length).
      pose proof (window_ok s1 (s2 ++ [x]) r (fun w => rotate cat w (List.length s - p)) (x :: s2) (if Nat.eqb (List.length s - p) 0 then 0 else 1)) as W.
      rewrite L1 in W.
      replace (p + List.length (s2 ++ [x])) with (Datatypes.S (List.length s)) in W by (rewrite app_length; cbn; lia).
      replace (s1 ++ (s2 ++ [x]) ++ r) with (s ++ x :: r) in W by (rewrite Es at 1; lapp).
      rewrite W; cbn [obind].
      2:{ rewrite rotate_ok by (rewrite app_length; cbn; lia). rewrite <- L2. rewrite skipn_app, skipn_all, Nat.sub_diag, firstn_app, firstn_all, Nat.sub_diag. cbn [app skipn firstn].
          rewrite app_nil_r, app_length. cbn [List.length]. do 2 f_equal. destruct (Nat.eqb (List.length s2) 0); lia. }
      assert (Ln : List.length (s1 ++ x :: s2) = Datatypes.S (List.length s)) by (rewrite app_length; cbn; lia).
      replace (s1 ++ (x :: s2) ++ r) with ((s1 ++ x :: s2) ++ r) by lapp. rewrite <- Ln.
      assert (S' : sorted lt (s1 ++ x :: s2)).
      { rewrite Es in S. apply sorted_app in S as (S1 & S2 & B). apply sorted_app. conj; [assumption| |].
        - apply sorted_cons. split; [assumption|]. intros y z [<-|[]] Hz. apply lt_asym; [assumption|]. now apply Hi.
        - intros y z Hy [<-|Hz]; [now apply Lo|now apply B]. }
      destruct (IH (s1 ++ x :: s2) r) as (l' & El & Pl & Sl & St); [cbn in L; lia|assumption|].
      exists l'. conj; try assumption.
      + rewrite Pl, Es. rewrite <- !app_assoc. cbn [app]. apply Permutation_app_head. apply Permutation_cons_app. reflexivity.
      + intros y. rewrite (St y). rewrite !filter_app. rewrite Es at 1. rewrite filter_app. cbn [filter]. destruct (equivalent lt y x) eqn:Ex; [|now rewrite <- !app_assoc].
        rewrite (filter_none (equivalent lt y) s2).
        * rewrite app_nil_r. rewrite <- app_assoc. reflexivity.
        * intros z Hz. destruct (equivalent lt y z) eqn:Ez; [|reflexivity]. pose proof (equivalent_trans y x z Ex Ez) as Q. unfold equivalent in Q. rewrite (Hi z Hz) in Q. discriminate.
  Qed.
  Lemma insertion_sort_ok cat l : exists l', insertion_sort lt cat l = Some l' /\ Permutation l' l /\ sorted lt l' /\ stable lt l l'.
  Proof. apply (insertion_loop_ok cat (List.length l) [] l eq_refl sorted_nil). Qed.

  (** ** shell sort *)
  Lemma swap_ok l k j x y : rd l k = Some x -> rd l j = Some y ->
    exists l', (if lt y x then do l <- wr l k y; wr l j x else Some l) = Some l' /\ Permutation l' l /\ List.length l' = List.length l.
  Proof.
    intros Hx Hy. destruct (lt y x); [|exists l; auto]. pose proof (nth_error_lt _ _ _ Hx). pose proof (nth_error_lt _ _ _ Hy).
    rewrite wr_ok by assumption. cbn [obind]. rewrite wr_ok by (rewrite upd_length; assumption). eexists. conj; [reflexivity|now apply swap_perm|now rewrite !upd_length].
  Qed.
  Lemma shell_inner_perm : forall fuel l k i, 0 < i -> k < fuel -> k + i < List.length l ->
    exists l', shell_inner lt fuel l k i = Some l' /\ Permutation l' l.
  Proof.
    induction fuel as [|f IH]; intros l k i Hi F L; [lia|]. cbn [shell_inner].
    destruct (rd_lt l k) as [x Hx]; [lia|]. destruct (rd_lt l (k + i)) as [y Hy]; [lia|]. rewrite Hx, Hy; cbn [obind].
    destruct (swap_ok l k (k + i) x y Hx Hy) as (l1 & E & P & Ln). rewrite E; cbn [obind]. destruct (Nat.leb_spec i k); [|exists l1; auto].
    destruct (IH l1 (k - i) i) as (l2 & E2 & P2); [lia|lia|lia|]. exists l2. split; [assumption|now rewrite P2].
  Qed.
  Lemma shell_pass_perm : forall c l j i, 0 < i -> i <= j -> j + c = List.length l -> exists l', shell_pass lt c l j i = Some l' /\ Permutation l' l.
  Proof.
    induction c as [|c IH]; intros l j i Hi Hj L; [exists l; auto|]. cbn [shell_pass].
    destruct (shell_inner_perm (S j) l (j - i) i) as (l1 & E & P); [lia|lia|lia|]. rewrite E; cbn [obind].
    destruct (IH l1 (S j) i) as (l2 & E2 & P2); [lia|lia|apply Permutation_length in P; lia|]. exists l2. split; [assumption|now rewrite P2].
  Qed.
  Lemma shell_inner_sorts : forall fuel a x v b r, List.length a < fuel -> sorted lt (a ++ [x]) -> sorted lt (v :: b) -> below (a ++ [x]) b ->
    exists l', shell_inner lt fuel (a ++ x :: v :: b ++ r) (List.length a) 1 = Some (l' ++ r) /\ List.length l' = List.length a + 2 + List.length b /\ sorted lt l'.
  Proof.
    induction fuel as [|f IH]; intros a x v b r F Sa Sb B; [lia|]. cbn [shell_inner]. rewrite rd_mid; cbn [obind].
    replace (List.length a + 1) with (List.length (a ++ [x])) by (rewrite app_length; reflexivity).
    replace (a ++ x :: v :: b ++ r) with ((a ++ [x]) ++ v :: b ++ r) by lapp. rewrite rd_mid; cbn [obind].
    apply sorted_app in Sa as (Sa & _ & Ba). apply sorted_cons in Sb as (Sb & Bb).
    assert (Next : forall y z, (y = v /\ z = x /\ lt v x = true \/ y = x /\ z = v /\ lt v x = false) ->
      exists l', (if Nat.leb 1 (List.length a) then shell_inner lt f (a ++ y :: z :: b ++ r) (List.length a - 1) 1 else Some (a ++ y :: z :: b ++ r)) = Some (l' ++ r) /\
        List.length l' = List.length a + 2 + List.length b /\ sorted lt l').
    { intros y z YZ.
      assert (Syz : sorted lt (y :: z :: b) /\ below a (z :: b) /\ below a [z]).
      { assert (Bax : below a b) by (intros p q Hp Hq; apply B; [apply in_app_iff; now left|assumption]).
        assert (Bxb : below [x] b) by (intros p q Hp Hq; apply B; [apply in_app_iff; now right|assumption]).
        assert (Vx : lt v x = true -> lt x v = false) by (intros; now apply lt_asym).
        destruct YZ as [(-> & -> & C)|(-> & -> & C)].
        - conj.
          + apply sorted_cons; split; [apply sorted_cons; now split|]. intros p q [<-|[]] [<-|Hq]; [now apply Vx|]. apply Bb; [now left|assumption].
          + intros p q Hp [<-|Hq]; [apply Ba; [assumption|now left]|now apply Bax].
          + intros p q Hp [<-|[]]. apply Ba; [assumption|now left].
        - assert (Bav : below a [v]). { intros p q Hp [<-|[]]. eapply (nlt_trans lt O); [|exact C]. apply Ba; [assumption|now left]. }
          conj.
          + apply sorted_cons; split; [apply sorted_cons; now split|]. intros p q [<-|[]] [<-|Hq]; [assumption|]. apply Bxb; [now left|assumption].
          + intros p q Hp [<-|Hq]; [apply Bav; [assumption|now left]|now apply Bax].
          + exact Bav. }
      destruct Syz as (Sy & Baz & _).
      destruct (Nat.leb_spec 1 (List.length a)) as [La|La].
      - destruct (split_last a) as (a' & w & Ea); [intros ->; cbn in La; lia|]. subst a. rewrite app_length in *. cbn [List.length] in *.
        replace (List.length a' + 1 - 1) with (List.length a') by lia.
        replace ((a' ++ [w]) ++ y :: z :: b ++ r) with (a' ++ w :: y :: (z :: b) ++ r) by lapp.
        destruct (IH a' w y (z :: b) r) as (l' & E & Ll & Sl); [lia|assumption|assumption|assumption|]. exists l'. conj; [assumption|cbn in Ll; lia|assumption].
      - destruct a; [|cbn in La; lia]. exists (y :: z :: b). conj; [reflexivity|reflexivity|assumption]. }
    destruct (lt v x) eqn:C; cbn [obind].
    - replace ((a ++ [x]) ++ v :: b ++ r) with (a ++ x :: v :: b ++ r) by lapp. rewrite wr_mid; cbn [obind].
      replace (a ++ v :: v :: b ++ r) with ((a ++ [v]) ++ v :: b ++ r) by lapp.
      replace (List.length (a ++ [x])) with (List.length (a ++ [v])) by (rewrite !app_length; reflexivity). rewrite wr_mid; cbn [obind].
      replace ((a ++ [v]) ++ x :: b ++ r) with (a ++ v :: x :: b ++ r) by lapp. apply Next. auto.
    - replace ((a ++ [x]) ++ v :: b ++ r) with (a ++ x :: v :: b ++ r) by lapp. apply Next. auto.
  Qed.
  Lemma shell_pass_sorts : forall c a r, 0 < List.length a -> List.length r = c -> sorted lt a -> exists l', shell_pass lt c (a ++ r) (List.length a) 1 = Some l' /\ sorted lt l'.
  Proof.
    induction c as [|c IH]; intros a r La Lr S.
    - destruct r; [|discriminate]. exists a. rewrite app_nil_r. auto.
    - destruct r as [|v r]; [discriminate|]. cbn [shell_pass]. destruct (split_last a) as (a' & x & Ea); [intros ->; cbn in La; lia|]. subst a.
      rewrite app_length; cbn [List.length]. replace (List.length a' + 1 - 1) with (List.length a') by lia.
      replace ((a' ++ [x]) ++ v :: r) with (a' ++ x :: v :: [] ++ r) by lapp.
      destruct (shell_inner_sorts (Datatypes.S (List.length a' + 1)) a' x v [] r) as (l' & E & L' & S'); [lia|assumption|apply sorted_one|intros ? ? _ []|].
      rewrite E; cbn [obind]. replace (Datatypes.S (List.length a' + 1)) with (List.length l') by (cbn in L'; lia). apply IH; [cbn in L'; lia|cbn in Lr; lia|assumption].
  Qed.
  Lemma shell_loop_ok : forall fuel l i, i < fuel -> i < List.length l -> exists l', shell_loop lt fuel l i = Some l' /\ Permutation l' l /\ (0 < i -> sorted lt l').
  Proof.
    induction fuel as [|f IH]; intros l i F L; [lia|]. cbn [shell_loop]. destruct (Nat.ltb_spec 0 i) as [P|P]; [|exists l; conj; [reflexivity|reflexivity|lia]].
    destruct (shell_pass_perm (List.length l - i) l i i) as (l1 & E & P1); [lia|lia|lia|]. rewrite E; cbn [obind].
    pose proof (Permutation_length P1) as L1. assert (D : i / 2 < i) by (apply Nat.div_lt; lia).
    destruct (Nat.eq_dec i 1) as [->|N].
    - change (1 / 2) with 0. destruct f as [|f]; [lia|]. cbn [shell_loop Nat.ltb Nat.leb]. exists l1. conj; [reflexivity|assumption|]. intros _.
      destruct l as [|x l]; [cbn in L; lia|]. destruct (shell_pass_sorts (List.length l) [x] l) as (l2 & E2 & S2); [cbn; lia|reflexivity|apply sorted_one|].
      cbn [app List.length] in *. rewrite Nat.sub_succ, Nat.sub_0_r in E. assert (l1 = l2) by congruence. now subst l2.
    - destruct (IH l1 (i / 2)) as (l2 & E2 & P2 & S2); [lia|lia|]. exists l2. conj; [assumption|now rewrite P2|]. intros _. apply S2.
      apply Nat.div_str_pos. lia.
  Qed.
  Lemma shell_sort_ok l : exists l', shell_sort lt l = Some l' /\ Permutation l' l /\ sorted lt l'.
  Proof.
    unfold shell_sort. destruct (Nat.eqb_spec (List.length l) 0) as [E|N].
    - destruct l; [|discriminate]. exists []. conj; try reflexivity. apply sorted_nil.
    - assert (D : List.length l / 2 < List.length l) by (apply Nat.div_lt; lia).
      destruct (shell_loop_ok (S (List.length l)) l (List.length l / 2)) as (l' & E & P & S'); [lia|lia|]. exists l'. conj; try assumption.
      destruct (Nat.eq_dec (List.length l) 1) as [E1|N1].
      + apply Permutation_length in P. destruct l' as [|x [|? ?]]; cbn in P; try lia. apply sorted_one.
      + apply S'. apply Nat.div_str_pos. lia.
  Qed.

  (** ** selection sort *)
  Lemma select_min_ok l : forall c j m0 i, c + j = List.length l -> i <= m0 < j -> (forall k x y, i <= k < j -> rd l k = Some x -> rd l m0 = Some y -> lt x y = false) ->
    exists m, select_min lt c l j m0 = Some m /\ i <= m < List.length l /\ (forall k x y, i <= k < List.length l -> rd l k = Some x -> rd l m = Some y -> lt x y = false).
  Proof.
    induction c as [|c IH]; intros j m0 i E M H; cbn [select_min]; [exists m0; split; [reflexivity|split; [lia|]]; intros k x y Hk Hx Hy; apply (H k); [lia|assumption|assumption]|].
    destruct (rd_lt l j) as [x Hx]; [lia|]. destruct (rd_lt l m0) as [y Hy]; [lia|]. rewrite Hx, Hy; cbn [obind]. apply IH; [lia|destruct (lt x y); lia|].
    intros k p q Hk Hp Hq. destruct (lt x y) eqn:C.
    - assert (q = x) by congruence. subst q. destruct (Nat.eq_dec k j) as [->|N]; [assert (p = x) by congruence; subst; now apply nlt_refl|].
      specialize (H k p y ltac:(lia) Hp Hy). destruct (lt p x) eqn:D; [|reflexivity]. pose proof (swo_trans _ O _ _ _ D C). congruence.
    - assert (q = y) by congruence. subst q. destruct (Nat.eq_dec k j) as [->|N]; [congruence|]. apply (H k); [lia|assumption|assumption].
  Qed.
  Lemma selection_loop_ok : forall c s r, List.length r = S c -> sorted lt s -> below s r ->
    exists l', selection_loop lt c (s ++ r) (List.length s) = Some l' /\ Permutation l' (s ++ r) /\ sorted lt l'.
  Proof.
    induction c as [|c IH]; intros s r L S B.
    - destruct r as [|x [|? ?]]; cbn in L; try lia. exists (s ++ [x]). conj; try reflexivity. apply sorted_app. conj; [assumption|apply sorted_one|assumption].
    - destruct r as [|x r]; [discriminate|]. cbn [selection_loop]. rewrite app_length; cbn [List.length].
      destruct (select_min_ok (s ++ x :: r) (List.length s + Datatypes.S (List.length r) - Datatypes.S (List.length s)) (Datatypes.S (List.length s)) (List.length s) (List.length s)) as (m & E & Hm & Mn).
      + rewrite app_length; cbn; lia.
      + lia.
      + intros k p q Hk Hp Hq. assert (k = List.length s) by lia. subst k. rewrite rd_mid in Hp, Hq. assert (p = q) by congruence. subst. now apply nlt_refl.
      + rewrite E; cbn [obind]. rewrite rd_mid; cbn [obind]. destruct (rd_lt (s ++ x :: r) m) as [y Hy]; [lia|]. rewrite Hy; cbn [obind]. rewrite wr_mid; cbn [obind].
        rewrite wr_ok by (rewrite app_length in *; cbn in *; lia). cbn [obind].
        assert (P : Permutation (upd (s ++ y :: r) m x) (s ++ x :: r)). { rewrite <- (upd_mid s x r y). apply swap_perm; [apply rd_mid|exact Hy]. }
        assert (Fs : exists r', upd (s ++ y :: r) m x = (s ++ [y]) ++ r').
        { destruct (Nat.eq_dec m (List.length s)) as [->|N].
          - rewrite upd_mid. exists r. rewrite rd_mid in Hy. injection Hy as <-. lapp.
          - exists (skipn (Datatypes.S (List.length s)) (upd (s ++ y :: r) m x)).
            rewrite <- (firstn_skipn (Datatypes.S (List.length s)) (upd (s ++ y :: r) m x)) at 1. f_equal. rewrite firstn_upd by lia.
            replace (s ++ y :: r) with ((s ++ [y]) ++ r) by lapp. rewrite firstn_app. replace (Datatypes.S (List.length s)) with (List.length (s ++ [y])) by (rewrite app_length; cbn; lia).
            rewrite firstn_all, Nat.sub_diag. apply app_nil_r. }
        destruct Fs as [r' Er]. rewrite Er in *.
        assert (Pr : Permutation (y :: r') (x :: r)). { rewrite <- app_assoc in P. cbn in P. now apply Permutation_app_inv_l in P. }
        replace (Datatypes.S (List.length s)) with (List.length (s ++ [y])) by (rewrite app_length; cbn; lia).
        assert (Min : forall z, In z (x :: r) -> lt z y = false).
        { intros z Hz. apply In_nth_error in Hz as [k Hk]. pose proof (nth_error_lt _ _ _ Hk). apply (Mn (List.length s + k) z y).
          - rewrite app_length; cbn in *; lia.
          - unfold rd. rewrite nth_error_app2 by lia. now rewrite Nat.add_comm, Nat.add_sub.
          - exact Hy. }
        destruct (IH (s ++ [y]) r') as (l' & E' & P' & S').
        * apply Permutation_length in Pr. cbn in *. lia.
        * apply sorted_app. conj; [assumption|apply sorted_one|]. intros p q Hp [<-|[]]. apply B; [assumption|]. eapply Permutation_in; [exact Pr|now left].
        * intros p q Hp Hq. apply in_app_iff in Hp as [Hp|[<-|[]]]; [apply B; [assumption|]|apply Min]; (eapply Permutation_in; [exact Pr|now right]).
        * exists l'. conj; [assumption|now rewrite P'|assumption].
  Qed.
  Lemma selection_sort_ok l : l <> [] -> exists l', selection_sort lt l = Some l' /\ Permutation l' l /\ sorted lt l'.
  Proof.
    intros N. unfold selection_sort. destruct (Nat.eqb_spec (List.length l) 0) as [E|_]; [destruct l; [congruence|discriminate]|].
    apply (selection_loop_ok (List.length l - 1) [] l); [destruct l; [congruence|cbn; lia]|apply sorted_nil|intros ? ? []].
  Qed.
End Sorting.
