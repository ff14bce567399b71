(** * Proofs about AlgoModel.v *)
From Coq Require Import List Arith Bool Lia Permutation.
From Verif Require Import Util Slots SortModel SortSpec HeapProofs SortProofs SortProofs2 AlgoModel AlgoSpec.
Import ListNotations.

Section Search.
  Context {A : Type}.
  Implicit Types l : list A.

  Lemma len_snoc {B} (a : list B) x : List.length (a ++ [x]) = S (List.length a).
  Proof. rewrite app_length. cbn. lia. Qed.
  Lemma shift_app {B} (a : list B) x r : a ++ x :: r = (a ++ [x]) ++ r.
  Proof. now rewrite <- app_assoc. Qed.

  Lemma find_loop_ok (p : A -> bool) : forall r a b, exists i, find_loop (List.length r) (a ++ r ++ b) p (List.length a) = Some (List.length a + i) /\ first_position p r i.
  Proof.
    induction r as [|x r IH]; intros a b.
    - exists 0. cbn. rewrite Nat.add_0_r. repeat split; [lia| |]; intros; try lia; discriminate.
    - cbn [List.length find_loop]. cbn [app]. rewrite rd_mid. cbn [obind]. destruct (p x) eqn:E.
      + exists 0. rewrite Nat.add_0_r. repeat split; cbn; [lia| |]; intros; try lia. congruence.
      + destruct (IH (a ++ [x]) b) as (i & H & H1 & H2 & H3). exists (S i). rewrite shift_app, <- (len_snoc a x), H, len_snoc.
        split; [f_equal; lia|]. repeat split; cbn; [lia| |exact H3].
        intros [|j] y Hj Hy; cbn in Hy; [congruence|]. apply (H2 j); [lia|exact Hy].
  Qed.
  Lemma find_if_ok p l : exists i, find_if l p = Some i /\ first_position p l i.
  Proof. destruct (find_loop_ok p l [] []) as (i & H & Hf). cbn in H. rewrite app_nil_r in H. exists i. split; assumption. Qed.
  Lemma first_position_end p l : first_position p l (List.length l) <-> (forall x, In x l -> p x = false).
  Proof.
    split.
    - intros (_ & H & _) x Hx. apply In_nth_error in Hx as (j & Hj). apply (H j); [|exact Hj]. eapply nth_error_lt; exact Hj.
    - intros H. repeat split; [lia| |].
      + intros j x Hj Hx. apply H. eapply nth_error_In; exact Hx.
      + intros x Hx. apply nth_error_lt in Hx. lia.
  Qed.
  Lemma first_position_in p l i : first_position p l i -> i <> List.length l -> exists x, nth_error l i = Some x /\ p x = true.
  Proof. intros (H & _ & H2) Hn. destruct (rd_lt l i) as (x & Hx); [lia|]. exists x. split; [exact Hx|now apply H2]. Qed.
  Lemma first_position_unique p l i j : first_position p l i -> first_position p l j -> i = j.
  Proof.
    intros (A1 & A2 & A3) (B1 & B2 & B3). destruct (Nat.lt_trichotomy i j) as [H|[H|H]]; [|exact H|].
    - destruct (rd_lt l i) as (x & Hx); [lia|]. unfold rd in Hx. specialize (B2 i x H Hx). specialize (A3 x Hx). congruence.
    - destruct (rd_lt l j) as (x & Hx); [lia|]. unfold rd in Hx. specialize (A2 j x H Hx). specialize (B3 x Hx). congruence.
  Qed.
  Lemma any_ok p l : any_of l p = Some (existsb p l).
  Proof.
    unfold any_of. destruct (find_if_ok p l) as (i & -> & H). cbn. f_equal. destruct (Nat.eqb_spec i (List.length l)) as [->|N]; cbn.
    - rewrite first_position_end in H. symmetry. apply not_true_is_false. intros E. apply existsb_exists in E as (x & H1 & H2). rewrite H in H2; congruence.
    - destruct (first_position_in _ _ _ H N) as (x & H1 & H2). symmetry. apply existsb_exists. exists x. split; [eapply nth_error_In; exact H1|exact H2].
  Qed.
  Lemma none_ok p l : none_of l p = Some (negb (existsb p l)).
  Proof. pose proof (any_ok p l) as H. unfold any_of, none_of in *. destruct (find_if l p) as [i|]; [|discriminate]. cbn in *. injection H as <-. now rewrite negb_involutive. Qed.
  Lemma all_ok p l : all_of l p = Some (forallb p l).
  Proof.
    unfold all_of. change (find_if_not l p) with (find_if l (fun x => negb (p x))). destruct (find_if_ok (fun x => negb (p x)) l) as (i & -> & H). cbn. f_equal.
    destruct (Nat.eqb_spec i (List.length l)) as [->|N]; cbn.
    - rewrite first_position_end in H. symmetry. apply forallb_forall. intros x Hx. apply H in Hx. now apply negb_false_iff.
    - destruct (first_position_in _ _ _ H N) as (x & H1 & H2). symmetry. apply not_true_is_false. intros E. rewrite forallb_forall in E. rewrite E in H2; [discriminate|]. eapply nth_error_In; exact H1.
  Qed.
  Lemma count_loop_ok (p : A -> bool) : forall r a b n, count_loop (List.length r) (a ++ r ++ b) p (List.length a) n = Some (n + List.length (filter p r)).
  Proof.
    induction r as [|x r IH]; intros a b n; cbn [List.length count_loop filter].
    - cbn. f_equal. lia.
    - cbn [app]. rewrite rd_mid. cbn [obind]. rewrite shift_app, <- (len_snoc a x), IH. destruct (p x); cbn [List.length]; f_equal; lia.
  Qed.
  Lemma count_if_ok p l : count_if l p = Some (List.length (filter p l)).
  Proof. unfold count_if. pose proof (count_loop_ok p l [] [] 0) as H. cbn in H. now rewrite app_nil_r in H. Qed.

  Lemma first_position_split p l i : first_position p l i -> Forall (fun x => p x = false) (firstn i l) /\ (forall x, nth_error l i = Some x -> p x = true) /\ l = firstn i l ++ skipn i l.
  Proof.
    intros (H & H1 & H2). conj; [|exact H2|symmetry; apply firstn_skipn].
    apply Forall_forall. intros x Hx. apply In_nth_error in Hx as (j & Hj). rewrite nth_error_firstn in Hj. destruct (j <? i) eqn:E; [|discriminate].
    apply Nat.ltb_lt in E. exact (H1 j x E Hj).
  Qed.
  Lemma is_partitioned_ok p l : exists b, is_partitioned l p = Some b /\ (b = true <-> partitioned p l).
  Proof.
    unfold is_partitioned. destruct (find_loop_ok (fun x => negb (p x)) l [] []) as (i & H & Hf). cbn in H. rewrite app_nil_r in H. rewrite H. cbn [obind].
    destruct (first_position_split _ _ _ Hf) as (Ha & Hi & Hs). pose proof (proj1 Hf) as Hle.
    destruct (find_loop_ok p (skipn i l) (firstn i l) []) as (j & Hj & Hfj).
    rewrite skipn_length, app_nil_r, firstn_skipn, firstn_length_le in Hj by lia. rewrite Hj. cbn [obind].
    eexists. split; [reflexivity|]. rewrite Nat.eqb_eq. pose proof (skipn_length i l) as Lk. split.
    - intros E. assert (j = List.length (skipn i l)) as -> by lia. rewrite first_position_end in Hfj.
      exists (firstn i l), (skipn i l). conj; [exact Hs| |].
      + eapply Forall_impl; [|exact Ha]. intros x Hx. cbn in Hx. now apply negb_false_iff.
      + apply Forall_forall. exact Hfj.
    - intros (a & b & E & Fa & Fb). 
      assert (List.length a = i) as Li.
      { apply (first_position_unique (fun x => negb (p x)) l); [|exact Hf]. subst l. repeat split.
        - rewrite app_length. lia.
        - intros j0 x Hj0 Hx. rewrite nth_error_app1 in Hx by lia. rewrite Forall_forall in Fa. rewrite Fa; [reflexivity|]. eapply nth_error_In; exact Hx.
        - intros x Hx. rewrite nth_error_app2, Nat.sub_diag in Hx by lia. rewrite Forall_forall in Fb. rewrite Fb; [reflexivity|]. eapply nth_error_In; exact Hx. }
      assert (skipn i l = b) as Eb. { subst l i. rewrite skipn_app, skipn_all, Nat.sub_diag. reflexivity. }
      rewrite Eb in *. assert (j = List.length b); [|lia]. apply (first_position_unique p b); [exact Hfj|]. apply first_position_end. now apply Forall_forall.
  Qed.

  (** equal *)
  Lemma equal_loop_ok {B} (p : A -> B -> bool) : forall r a r2 a2 e2, List.length a = List.length a2 -> List.length r = List.length r2 ->
    exists b, equal_loop (List.length r) (a ++ r) (a2 ++ r2 ++ e2) p (List.length a) = Some b /\ (b = true <-> equal_lists p r r2).
  Proof.
    induction r as [|x r IH]; intros a [|y r2] a2 e2 La Lr; try discriminate.
    - exists true. split; [reflexivity|]. split; [constructor|reflexivity].
    - cbn [List.length equal_loop app]. rewrite rd_mid. cbn [obind]. rewrite La, rd_mid. cbn [obind]. destruct (p x y) eqn:E; cbn [negb].
      + rewrite <- La. rewrite (shift_app a), (shift_app a2), <- (len_snoc a x).
        destruct (IH (a ++ [x]) r2 (a2 ++ [y]) e2) as (b & H & Hb); [rewrite !len_snoc; lia|cbn in Lr; lia|]. exists b. split; [exact H|]. rewrite Hb.
        split; intros Hx. constructor; assumption. now inversion Hx.
      + exists false. split; [reflexivity|]. split; [discriminate|]. intros Hx. inversion Hx; subst. congruence.
  Qed.
  Lemma equal4_loop_ok {B} (p : A -> B -> bool) : forall r fuel a r2 a2, List.length r < fuel -> List.length a = List.length a2 ->
    exists b, equal4_loop fuel (a ++ r) (a2 ++ r2) p (List.length a) = Some b /\ (b = true <-> equal_lists p r r2).
  Proof.
    induction r as [|x r IH]; intros [|fuel] a r2 a2 Hf La; try (cbn in Hf; lia); cbn [equal4_loop].
    - rewrite app_nil_r, Nat.eqb_refl. cbn [negb andb]. eexists. split; [reflexivity|]. rewrite Nat.eqb_eq, La, app_length. split.
      + intros H. destruct r2; [constructor|cbn in H; lia].
      + intros H. inversion H. cbn. lia.
    - replace (Nat.eqb (List.length a) (List.length (a ++ x :: r))) with false by (symmetry; apply Nat.eqb_neq; rewrite app_length; cbn; lia).
      cbn [negb andb]. destruct r2 as [|y r2].
      + rewrite app_nil_r, La, Nat.eqb_refl. cbn [negb]. exists false. split; [reflexivity|]. split; [discriminate|]. intros H. inversion H.
      + replace (Nat.eqb (List.length a) (List.length (a2 ++ y :: r2))) with false by (symmetry; apply Nat.eqb_neq; rewrite app_length; cbn; lia).
        cbn [negb]. rewrite rd_mid. cbn [obind]. rewrite La, rd_mid. cbn [obind]. destruct (p x y) eqn:E; cbn [negb].
        * rewrite <- La. rewrite (shift_app a), (shift_app a2), <- (len_snoc a x).
          destruct (IH fuel (a ++ [x]) r2 (a2 ++ [y])) as (b & H & Hb); [cbn in Hf; lia|rewrite !len_snoc; lia|]. exists b. split; [exact H|]. rewrite Hb.
          split; intros Hx. constructor; assumption. now inversion Hx.
        * exists false. split; [reflexivity|]. split; [discriminate|]. intros Hx. inversion Hx; subst. congruence.
  Qed.
  Lemma lex_loop_ok (lt : A -> A -> bool) : forall r fuel a r2 a2, List.length r < fuel -> List.length a = List.length a2 ->
    (forall x y, lt x y = true -> lt y x = false) ->
    exists b, lex_loop fuel lt (a ++ r) (a2 ++ r2) (List.length a) = Some b /\ (b = true <-> lexicographically_less lt r r2).
  Proof.
    intros r fuel a r2 a2 Hf La As. revert fuel a r2 a2 Hf La.
    induction r as [|x r IH]; intros [|fuel] a r2 a2 Hf La; try (cbn in Hf; lia); cbn [lex_loop].
    - rewrite app_nil_r, Nat.eqb_refl. cbn [negb andb]. eexists. split; [reflexivity|]. rewrite negb_true_iff, Nat.eqb_neq, La, app_length. split.
      + intros H. exists [], [], [], r2. conj; try reflexivity; [constructor|]. left. split; [reflexivity|]. intros ->. cbn in H. lia.
      + intros (a1 & a3 & r1 & r3 & E1 & E2 & F & H). symmetry in E1. apply app_eq_nil in E1 as (-> & ->). inversion F; subst.
        destruct H as [(_ & H)|(x & y & t1 & t2 & H & _)]; [|discriminate]. destruct r3; [congruence|cbn; lia].
    - replace (Nat.eqb (List.length a) (List.length (a ++ x :: r))) with false by (symmetry; apply Nat.eqb_neq; rewrite app_length; cbn; lia).
      cbn [negb andb]. destruct r2 as [|y r2].
      + rewrite app_nil_r, La, Nat.eqb_refl. cbn [negb andb]. exists false. split; [reflexivity|]. split; [discriminate|].
        intros (a1 & a3 & r1 & r3 & E1 & E2 & F & H). symmetry in E2. apply app_eq_nil in E2 as (-> & ->). inversion F; subst. cbn in E1.
        destruct H as [(H1 & H)|(u & v & t1 & t2 & _ & H & _)]; [congruence|discriminate].
      + replace (Nat.eqb (List.length a) (List.length (a2 ++ y :: r2))) with false by (symmetry; apply Nat.eqb_neq; rewrite app_length; cbn; lia).
        cbn [negb]. rewrite rd_mid. cbn [obind]. rewrite La, rd_mid. cbn [obind]. destruct (lt x y) eqn:E.
        * exists true. split; [reflexivity|]. split; [|reflexivity]. intros _. exists [], [], (x :: r), (y :: r2). conj; try reflexivity; [constructor|].
          right. exists x, y, r, r2. conj; try reflexivity; assumption.
        * assert (forall a1 a3 r1 r3, x :: r = a1 ++ r1 -> y :: r2 = a3 ++ r3 -> Forall2 (fun x y => lt x y = false /\ lt y x = false) a1 a3 ->
            ((r1 = [] /\ r3 <> []) \/ exists x y t1 t2, r1 = x :: t1 /\ r3 = y :: t2 /\ lt x y = true) -> lt y x = false /\ exists b1 b3, a1 = x :: b1 /\ a3 = y :: b3) as K.
          { intros a1 a3 r1 r3 E1 E2 F H. destruct a1 as [|u a1]; inversion F; subst.
            - cbn in *. subst r1 r3. destruct H as [(H & _)|(u & v & t1 & t2 & H1 & H2 & H3)]; [discriminate|]. injection H1 as <- <-. injection H2 as <- <-. congruence.
            - cbn in *. injection E1 as <- ->. injection E2 as <- ->. split; [apply H2|eauto]. }
          destruct (lt y x) eqn:E'.
          -- exists false. split; [reflexivity|]. split; [discriminate|]. intros (a1 & a3 & r1 & r3 & E1 & E2 & F & H).
             destruct (K _ _ _ _ E1 E2 F H) as (C & _). congruence.
          -- rewrite <- La. rewrite (shift_app a), (shift_app a2), <- (len_snoc a x).
             destruct (IH fuel (a ++ [x]) r2 (a2 ++ [y])) as (b & H & Hb); [cbn in Hf; lia|rewrite !len_snoc; lia|]. exists b. split; [exact H|]. rewrite Hb.
             split.
             ++ intros (a1 & a3 & r1 & r3 & -> & -> & F & Hc). exists (x :: a1), (y :: a3), r1, r3. conj; try reflexivity; [|exact Hc]. constructor; [split; assumption|exact F].
             ++ intros (a1 & a3 & r1 & r3 & E1 & E2 & F & Hc). destruct (K _ _ _ _ E1 E2 F Hc) as (_ & b1 & b3 & -> & ->).
                cbn in E1, E2. injection E1 as ->. injection E2 as ->. inversion F; subst. exists b1, b3, r1, r3. conj; try reflexivity; assumption.
  Qed.

  (** search *)
  Lemma search_at_ok {B} (p : A -> B -> bool) l s first : first <= List.length l -> forall rest done fuel, s = done ++ rest -> List.length rest < fuel -> first + List.length done <= List.length l ->
    (forall j x y, j < List.length done -> nth_error l (first + j) = Some x -> nth_error s j = Some y -> p x y = true) ->
    exists r, search_at fuel l s p (first + List.length done) (List.length done) = Some r /\
      ((r = 0 /\ occurs_at p l s first) \/ (r = 1 /\ List.length l < first + List.length s) \/ (r = 2 /\ ~ occurs_at p l s first /\ first < List.length l)).
  Proof.
    intros Hl rest. induction rest as [|y rest IH]; intros dn fuel Es Hf Hle Hm; (destruct fuel as [|fuel]; [lia|]); cbn [search_at].
    - rewrite app_nil_r in Es. subst dn. rewrite Nat.eqb_refl. exists 0. split; [reflexivity|]. left. split; [reflexivity|]. split; [lia|].
      intros j x y Hx Hy. apply (Hm j); [eapply nth_error_lt; exact Hy|exact Hx|exact Hy].
    - assert (List.length s = List.length dn + S (List.length rest)) as Ls by (subst s; rewrite app_length; reflexivity).
      replace (Nat.eqb (List.length dn) (List.length s)) with false by (symmetry; apply Nat.eqb_neq; lia).
      destruct (Nat.eqb_spec (first + List.length dn) (List.length l)) as [E|N].
      + exists 1. split; [reflexivity|]. right. left. split; [reflexivity|lia].
      + destruct (rd_lt l (first + List.length dn)) as (x & Hx); [lia|]. rewrite Hx. cbn [obind].
        assert (rd s (List.length dn) = Some y) as Hy by (subst s; apply rd_mid). rewrite Hy. cbn [obind]. destruct (p x y) eqn:E; cbn [negb].
        * specialize (IH (dn ++ [y]) fuel). rewrite len_snoc, Nat.add_succ_r in IH. apply IH.
          -- subst s. apply shift_app.
          -- cbn in Hf. lia.
          -- lia.
          -- intros j x' y' Hj Hx' Hy'. destruct (Nat.eq_dec j (List.length dn)) as [->|Nj].
             ++ unfold rd in *. congruence.
             ++ apply (Hm j); [lia|exact Hx'|exact Hy'].
        * exists 2. split; [reflexivity|]. right. right. split; [reflexivity|]. split; [|lia]. intros (_ & H). rewrite (H _ x y Hx Hy) in E. discriminate.
  Qed.
  Lemma search_loop_ok {B} (p : A -> B -> bool) l s : forall fuel first, List.length l - first < fuel -> first <= List.length l ->
    exists r, search_loop fuel l s p first = Some r /\ r <= List.length l /\ first <= r /\ (forall k, first <= k < r -> ~ occurs_at p l s k) /\
      (occurs_at p l s r \/ (r = List.length l /\ s <> [])).
  Proof.
    induction fuel as [|fuel IH]; intros first Hf Hl; [lia|]. cbn [search_loop].
    destruct (search_at_ok p l s first Hl s [] (S (List.length s))) as (r & H & Hr); [reflexivity|lia|cbn; lia|cbn; intros; lia|].
    cbn [List.length] in H. rewrite Nat.add_0_r in H. rewrite H. cbn [obind]. destruct Hr as [(-> & Ho)|[(-> & Hs)|(-> & Hn & Hlt)]].
    - exists first. conj; try reflexivity; try lia. now left.
    - exists (List.length l). conj; try reflexivity; try lia.
      + intros k Hk (Hx & _). lia.
      + right. split; [reflexivity|]. intros ->. cbn in Hs. lia.
    - destruct (IH (S first)) as (r & Hr & Hle & Hge & Hno & Hor); [lia|lia|]. exists r. conj; try assumption; [lia|].
      intros k Hk. destruct (Nat.eq_dec k first) as [->|]; [exact Hn|]. apply Hno. lia.
  Qed.
  Lemma find_end_loop_ok {B} (p : A -> B -> bool) l s : s <> [] -> forall fuel b result, List.length l - b < fuel -> b <= List.length l ->
    ((result = List.length l /\ forall k, k < b -> ~ occurs_at p l s k) \/ (occurs_at p l s result /\ forall k, result < k < b -> ~ occurs_at p l s k)) ->
    exists r, find_end_loop fuel l s p b result = Some r /\ 
      ((r = List.length l /\ forall k, ~ occurs_at p l s k) \/ (occurs_at p l s r /\ forall k, r < k -> ~ occurs_at p l s k)).
  Proof.
    intros Hs. assert (0 < List.length s) as Lp by (destruct s; [congruence|cbn; lia]).
    induction fuel as [|fuel IH]; intros b result Hf Hb Hr; [lia|]. cbn [find_end_loop]. unfold search.
    destruct (search_loop_ok p l s (S (List.length l)) b) as (r & H & Hle & Hge & Hno & Hor); [lia|lia|]. rewrite H. cbn [obind].
    destruct (Nat.eqb_spec r (List.length l)) as [->|N].
    - exists result. split; [reflexivity|]. assert (forall k, b <= k -> ~ occurs_at p l s k) as Kb.
      { intros k Hk Ho. pose proof (proj1 Ho). apply (Hno k); [lia|exact Ho]. }
      destruct Hr as [(-> & Hr)|(Ho & Hr)]; [left|right]; (split; [reflexivity || assumption|]); intros k.
      + destruct (Nat.lt_ge_cases k b); [now apply Hr|now apply Kb].
      + intros Hk. destruct (Nat.lt_ge_cases k b); [now apply Hr|now apply Kb].
    - destruct Hor as [Ho|(E & _)]; [|lia]. apply IH; [lia|lia|]. right. split; [exact Ho|]. intros k Hk. lia.
  Qed.
End Search.

Section Order.
  Context {A : Type}.
  Variable lt : A -> A -> bool.
  Hypothesis O : strict_weak_order lt.
  Implicit Types l : list A.

  (** prefixes: what holds of the first b elements *)
  Definition least_of l b m := m < b /\ first_least lt (firstn b l) m.
  Lemma firstn_nth l b j x : nth_error (firstn b l) j = Some x <-> j < b /\ nth_error l j = Some x.
  Proof. rewrite nth_error_firstn. destruct (Nat.ltb_spec j b); split; intros H1; try tauto; try discriminate; lia. Qed.
  Lemma first_least_step l b m x y : first_least lt (firstn b l) m -> nth_error l b = Some x -> nth_error l m = Some y ->
    first_least lt (firstn (S b) l) (if lt x y then b else m).
  Proof.
    intros (m0 & Hm & H1 & H2) Hx Hy. apply firstn_nth in Hm as (Hmb & Hm). assert (m0 = y) as -> by congruence. destruct (lt x y) eqn:E.
    - exists x. rewrite firstn_nth. conj; [lia|exact Hx| |].
      + intros j z Hz. apply firstn_nth in Hz as (Hj & Hz). destruct (Nat.eq_dec j b) as [->|N].
        * assert (z = x) as -> by congruence. apply (nlt_refl lt O).
        * assert (lt z y = false) as K. { apply (H1 j). apply firstn_nth. split; [lia|exact Hz]. }
          apply not_true_is_false. intros C. rewrite (swo_trans _ O z x y C E) in K. discriminate.
      + intros j z Hj Hz. apply firstn_nth in Hz as (Hj' & Hz). assert (lt z y = false) as K. { apply (H1 j). apply firstn_nth. split; [lia|exact Hz]. }
        exact (lt_nlt_trans lt O x y z E K).
    - exists y. rewrite firstn_nth. conj; [lia|exact Hy| |].
      + intros j z Hz. apply firstn_nth in Hz as (Hj & Hz). destruct (Nat.eq_dec j b) as [->|N]; [congruence|]. apply (H1 j). apply firstn_nth. split; [lia|exact Hz].
      + intros j z Hj Hz. apply firstn_nth in Hz as (Hj' & Hz). apply (H2 j); [exact Hj|]. apply firstn_nth. split; [lia|exact Hz].
  Qed.
  Lemma last_greatest_step l b m x y : last_greatest lt (firstn b l) m -> nth_error l b = Some x -> nth_error l m = Some y ->
    last_greatest lt (firstn (S b) l) (if negb (lt x y) then b else m).
  Proof.
    intros (m0 & Hm & H1 & H2) Hx Hy. apply firstn_nth in Hm as (Hmb & Hm). assert (m0 = y) as -> by congruence. destruct (lt x y) eqn:E; cbn [negb].
    - exists y. rewrite firstn_nth. conj; [lia|exact Hy| |].
      + intros j z Hz. apply firstn_nth in Hz as (Hj & Hz). destruct (Nat.eq_dec j b) as [->|N].
        * assert (z = x) as -> by congruence. now apply (lt_asym lt O).
        * apply (H1 j). apply firstn_nth. split; [lia|exact Hz].
      + intros j z Hj Hz. apply firstn_nth in Hz as (Hj' & Hz). destruct (Nat.eq_dec j b) as [->|N]; [congruence|]. apply (H2 j); [exact Hj|]. apply firstn_nth. split; [lia|exact Hz].
    - exists x. rewrite firstn_nth. conj; [lia|exact Hx| |].
      + intros j z Hz. apply firstn_nth in Hz as (Hj & Hz). destruct (Nat.eq_dec j b) as [->|N].
        * assert (z = x) as -> by congruence. apply (nlt_refl lt O).
        * assert (lt y z = false) as K. { apply (H1 j). apply firstn_nth. split; [lia|exact Hz]. }
          exact (nlt_trans lt O z y x K E).
      + intros j z Hj Hz. apply firstn_nth in Hz as (Hj' & Hz). lia.
  Qed.
  Lemma first_greatest_step l b m x y : first_greatest lt (firstn b l) m -> nth_error l b = Some x -> nth_error l m = Some y ->
    first_greatest lt (firstn (S b) l) (if lt y x then b else m).
  Proof.
    intros (m0 & Hm & H1 & H2) Hx Hy. apply firstn_nth in Hm as (Hmb & Hm). assert (m0 = y) as -> by congruence. destruct (lt y x) eqn:E.
    - exists x. rewrite firstn_nth. conj; [lia|exact Hx| |].
      + intros j z Hz. apply firstn_nth in Hz as (Hj & Hz). destruct (Nat.eq_dec j b) as [->|N].
        * assert (z = x) as -> by congruence. apply (nlt_refl lt O).
        * assert (lt y z = false) as K. { apply (H1 j). apply firstn_nth. split; [lia|exact Hz]. }
          apply not_true_is_false. intros C. rewrite (swo_trans _ O y x z E C) in K. discriminate.
      + intros j z Hj Hz. apply firstn_nth in Hz as (Hj' & Hz). assert (lt y z = false) as K. { apply (H1 j). apply firstn_nth. split; [lia|exact Hz]. }
        apply not_false_is_true. intros C. pose proof (nlt_trans lt O x z y C K). congruence.
    - exists y. rewrite firstn_nth. conj; [lia|exact Hy| |].
      + intros j z Hz. apply firstn_nth in Hz as (Hj & Hz). destruct (Nat.eq_dec j b) as [->|N]; [congruence|]. apply (H1 j). apply firstn_nth. split; [lia|exact Hz].
      + intros j z Hj Hz. apply firstn_nth in Hz as (Hj' & Hz). apply (H2 j); [exact Hj|]. apply firstn_nth. split; [lia|exact Hz].
  Qed.
  Lemma first_least_lt l b m : first_least lt (firstn b l) m -> m < b. Proof. intros (y & H & _). apply firstn_nth in H. tauto. Qed.
  Lemma last_greatest_lt l b m : last_greatest lt (firstn b l) m -> m < b. Proof. intros (y & H & _). apply firstn_nth in H. tauto. Qed.
  Lemma first_greatest_lt l b m : first_greatest lt (firstn b l) m -> m < b. Proof. intros (y & H & _). apply firstn_nth in H. tauto. Qed.
  Lemma min_loop_ok l : forall c b m, c + b = List.length l -> first_least lt (firstn b l) m -> exists r, min_loop lt c l b m = Some r /\ first_least lt l r.
  Proof.
    induction c as [|c IH]; intros b m Hc H; cbn [min_loop].
    - exists m. split; [reflexivity|]. cbn in Hc. now rewrite firstn_all2 in H by lia.
    - pose proof (first_least_lt _ _ _ H). destruct (rd_lt l b) as (x & Hx); [lia|]. destruct (rd_lt l m) as (y & Hy); [lia|]. rewrite Hx, Hy. cbn [obind].
      apply IH; [lia|]. now apply first_least_step.
  Qed.
  Lemma max_loop_ok l : forall c b m, c + b = List.length l -> last_greatest lt (firstn b l) m -> exists r, max_loop lt c l b m = Some r /\ last_greatest lt l r.
  Proof.
    induction c as [|c IH]; intros b m Hc H; cbn [max_loop].
    - exists m. split; [reflexivity|]. cbn in Hc. now rewrite firstn_all2 in H by lia.
    - pose proof (last_greatest_lt _ _ _ H). destruct (rd_lt l b) as (x & Hx); [lia|]. destruct (rd_lt l m) as (y & Hy); [lia|]. rewrite Hx, Hy. cbn [obind].
      apply IH; [lia|]. now apply last_greatest_step.
  Qed.
  Lemma minmax_loop_ok l : forall c b m n, c + b = List.length l -> first_least lt (firstn b l) m -> first_greatest lt (firstn b l) n ->
    exists r s, minmax_loop lt c l b m n = Some (r, s) /\ first_least lt l r /\ first_greatest lt l s.
  Proof.
    induction c as [|c IH]; intros b m n Hc H H'; cbn [minmax_loop].
    - exists m, n. split; [reflexivity|]. cbn in Hc. rewrite firstn_all2 in H, H' by lia. split; assumption.
    - pose proof (first_least_lt _ _ _ H). pose proof (first_greatest_lt _ _ _ H'). destruct (rd_lt l b) as (x & Hx); [lia|]. destruct (rd_lt l m) as (y & Hy); [lia|].
      destruct (rd_lt l n) as (z & Hz); [lia|]. rewrite Hx, Hy, Hz. cbn [obind].
      apply IH; [lia| |]. now apply first_least_step. now apply first_greatest_step.
  Qed.
  Lemma one_first_least l x t : l = x :: t -> first_least lt (firstn 1 l) 0 /\ last_greatest lt (firstn 1 l) 0 /\ first_greatest lt (firstn 1 l) 0.
  Proof.
    intros ->. assert (forall j y, nth_error [x] j = Some y -> y = x /\ j = 0) as K. { intros [|[|]] y Hy; cbn in Hy; try discriminate. split; congruence. }
    cbn [firstn]. conj; exists x; conj; try reflexivity; try (intros j y Hy; apply K in Hy as (-> & ->); apply (nlt_refl lt O)); intros j y Hj Hy; apply K in Hy as (-> & ->); lia.
  Qed.

  (** is_sorted_until: every prefix up to the result is sorted, the prefix including it is not *)
  Lemma sorted_prefix_step l b x y : sorted lt (firstn (S b) l) -> nth_error l b = Some y -> nth_error l (S b) = Some x ->
    sorted lt (firstn (S (S b)) l) <-> lt x y = false.
  Proof.
    intros Hs Hy Hx. split.
    - intros H. apply (H b (S b) y x); [lia| |]; rewrite firstn_nth; split; try lia; assumption.
    - intros E i j u v Hij Hu Hv. apply firstn_nth in Hu as (Hi & Hu). apply firstn_nth in Hv as (Hj & Hv). destruct (Nat.eq_dec j (S b)) as [->|N].
      + assert (v = x) as -> by congruence. destruct (Nat.eq_dec i b) as [->|Nb]; [congruence|].
        apply (nlt_trans lt O u y x); [|exact E]. apply (Hs i b u y); [lia| |]; rewrite firstn_nth; split; try lia; assumption.
      + apply (Hs i j u v); [exact Hij| |]; rewrite firstn_nth; split; try lia; assumption.
  Qed.
  Lemma sorted_until_loop_ok l : forall c b, c + S b = List.length l -> sorted lt (firstn (S b) l) ->
    exists r, sorted_until_loop lt c l b (S b) = Some r /\ r <= List.length l /\ sorted lt (firstn r l) /\ (r < List.length l -> ~ sorted lt (firstn (S r) l)).
  Proof.
    induction c as [|c IH]; intros b Hc Hs; cbn [sorted_until_loop].
    - exists (S b). conj; try reflexivity; try lia; assumption.
    - destruct (rd_lt l (S b)) as (x & Hx); [lia|]. destruct (rd_lt l b) as (y & Hy); [lia|]. rewrite Hx, Hy. cbn [obind]. pose proof (sorted_prefix_step l b x y Hs Hy Hx) as K.
      destruct (lt x y) eqn:E.
      + exists (S b). conj; try reflexivity; try lia; try assumption. intros _ C. apply K in C. discriminate.
      + apply IH; [lia|]. now apply K.
  Qed.
  Lemma is_sorted_until_ok l : exists r, is_sorted_until lt l = Some r /\ r <= List.length l /\ sorted lt (firstn r l) /\ (r < List.length l -> ~ sorted lt (firstn (S r) l)).
  Proof.
    unfold is_sorted_until. destruct l as [|x l].
    - exists 0. conj; try reflexivity; try (cbn; lia). intros i j a b _ H. destruct i; discriminate.
    - cbn [List.length Nat.eqb]. apply sorted_until_loop_ok; [cbn; lia|]. cbn [firstn]. apply sorted_one.
  Qed.
  Lemma is_sorted_ok l : exists b, is_sorted lt l = Some b /\ (b = true <-> sorted lt l).
  Proof.
    unfold is_sorted. destruct (is_sorted_until_ok l) as (r & H & Hle & Hs & Hn). rewrite H. cbn. eexists. split; [reflexivity|]. rewrite Nat.eqb_eq. split.
    - intros ->. now rewrite firstn_all in Hs.
    - intros Hl. destruct (Nat.eq_dec r (List.length l)) as [|N]; [assumption|]. exfalso. apply Hn; [lia|]. intros i j a b Hij Ha Hb.
      apply firstn_nth in Ha as (_ & Ha). apply firstn_nth in Hb as (_ & Hb). exact (Hl i j a b Hij Ha Hb).
  Qed.
End Order.

Section Perm.
  Context {A : Type}.
  Variable eqv : A -> A -> bool.
  Hypothesis E : decides_equality eqv.
  Implicit Types l : list A.
  Definition occ l x := List.length (filter (fun y => eqv y x) l).
  Lemma eqv_refl x : eqv x x = true. Proof. now apply E. Qed.
  Lemma occ_In l x : 0 < occ l x <-> In x l.
  Proof.
    unfold occ. split.
    - intros H. destruct (filter (fun y => eqv y x) l) as [|z t] eqn:F; [cbn in H; lia|]. assert (In z (filter (fun y => eqv y x) l)) as Hz by (rewrite F; now left).
      apply filter_In in Hz as (H1 & H2). apply E in H2. now subst.
    - intros H. assert (In x (filter (fun y => eqv y x) l)) as Hz. { apply filter_In. split; [exact H|apply eqv_refl]. }
      destruct (filter (fun y => eqv y x) l); [destruct Hz|cbn; lia].
  Qed.
  Lemma occ_app l1 l2 x : occ (l1 ++ l2) x = occ l1 x + occ l2 x. Proof. unfold occ. now rewrite filter_app, app_length. Qed.
  Lemma occ_perm l1 l2 : Permutation l1 l2 -> forall x, occ l1 x = occ l2 x.
  Proof.
    induction 1 as [|a l1 l2 H IH|a b l|l1 l2 l3 H1 IH1 H2 IH2]; intros x; [reflexivity| | |].
    - specialize (IH x). unfold occ in *. cbn. destruct (eqv a x); cbn; congruence.
    - unfold occ. cbn. destruct (eqv a x), (eqv b x); reflexivity.
    - now rewrite IH1.
  Qed.
  Lemma occ_all l1 : forall l2, (forall x, occ l1 x = occ l2 x) -> Permutation l1 l2.
  Proof.
    induction l1 as [|x l1 IH]; intros l2 H.
    - destruct l2 as [|y l2]; [constructor|]. specialize (H y). unfold occ in H. cbn in H. rewrite eqv_refl in H. discriminate.
    - assert (In x l2) as Hx. { apply occ_In. rewrite <- H. unfold occ. cbn. rewrite eqv_refl. cbn. lia. }
      apply in_split in Hx as (a & b & ->). apply Permutation_cons_app. apply IH. intros y. specialize (H y). rewrite occ_app in *. unfold occ in *. cbn in H.
      destruct (eqv x y); cbn in H; lia.
  Qed.
  Lemma firstn_before l1 i x : nth_error l1 i = Some x -> l1 = firstn i l1 ++ x :: skipn (S i) l1 /\ List.length (firstn i l1) = i.
  Proof.
    intros H. split; [rewrite <- (skipn_nth _ _ _ H); symmetry; apply firstn_skipn|]. apply firstn_length_le. apply nth_error_lt in H. lia.
  Qed.
  (** the loop checks the multiplicity of each value of l1 at its first occurrence *)
  Lemma permutation_loop_ok (same : A -> A -> bool) l1 l2 : (forall x y, same x y = true <-> x = y) -> forall c i, c + i = List.length l1 ->
    exists b, permutation_loop c same eqv l1 l2 i = Some b /\
      (b = true <-> forall x, In x (skipn i l1) -> ~ In x (firstn i l1) -> occ l2 x = occ l1 x).
  Proof.
    intros Hsame. induction c as [|c IH]; intros i Hc; cbn [permutation_loop].
    - exists true. split; [reflexivity|]. split; [|reflexivity]. intros _ x Hx. rewrite skipn_all2 in Hx by lia. destruct Hx.
    - destruct (rd_lt l1 i) as (x & Hx); [lia|]. rewrite Hx. cbn [obind]. unfold rd in Hx. destruct (firstn_before _ _ _ Hx) as (Es & Ls).
      pose proof (find_loop_ok (same x) (firstn i l1) [] (x :: skipn (S i) l1)) as (k & Hk & Hf). rewrite Ls in Hk. cbn [app List.length Nat.add] in Hk. rewrite <- Es in Hk.
      rewrite Hk. cbn [obind]. destruct (IH (S i)) as (b & Hb & Hbs); [lia|].
      assert (forall z, In z (firstn (S i) l1) <-> In z (firstn i l1) \/ z = x) as Kf.
      { intros z. rewrite (firstn_S_nth _ _ _ Hx), in_app_iff. cbn. intuition congruence. }
      assert (forall z, In z (skipn i l1) <-> z = x \/ In z (skipn (S i) l1)) as Ks.
      { intros z. rewrite (skipn_nth _ _ _ Hx). cbn. intuition congruence. }
      destruct (Nat.eqb_spec i k) as [<-|Nk].
      + assert (~ In x (firstn i l1)) as Nx. { assert (first_position (same x) (firstn i l1) (List.length (firstn i l1))) as Hf' by (rewrite Ls; exact Hf). rewrite first_position_end in Hf'. intros C. apply Hf' in C. assert (same x x = true) by now apply Hsame. congruence. }
        pose proof (count_loop_ok (fun y => eqv y x) l2 [] [] 0) as C1. cbn [app List.length Nat.add] in C1. rewrite app_nil_r in C1. rewrite C1. cbn [obind].
        pose proof (count_loop_ok (fun y => eqv y x) (x :: skipn (S i) l1) (firstn i l1) [] 0) as C2. rewrite app_nil_r, <- Es, Ls in C2.
        replace (List.length l1 - i) with (List.length (x :: skipn (S i) l1)) by (cbn [List.length]; rewrite skipn_length; apply nth_error_lt in Hx; lia).
        rewrite C2. cbn [obind Nat.add]. change (List.length (filter (fun y => eqv y x) l2)) with (occ l2 x). change (List.length (filter (fun y => eqv y x) (x :: skipn (S i) l1))) with (occ (x :: skipn (S i) l1) x).
        assert (occ l1 x = occ (x :: skipn (S i) l1) x) as O1.
        { rewrite Es at 1. rewrite occ_app. assert (occ (firstn i l1) x = 0); [|lia]. destruct (occ (firstn i l1) x) eqn:Ez; [reflexivity|]. exfalso. apply Nx. apply occ_In. lia. }
        assert (0 < occ (x :: skipn (S i) l1) x) as P by (apply occ_In; now left).
        destruct (Nat.eqb_spec (occ l2 x) 0) as [Z|Z]; [|destruct (Nat.eqb_spec (occ (x :: skipn (S i) l1) x) (occ l2 x)) as [Q|Q]]; cbn [orb negb].
        * exists false. split; [reflexivity|]. split; [discriminate|]. intros H. assert (occ l2 x = occ l1 x); [|lia]. apply H; [apply Ks; now left|exact Nx].
        * exists b. split; [exact Hb|]. rewrite Hbs. split; intros H z H1 H2.
          -- apply Ks in H1 as [->|H1]; [lia|]. destruct (eqv z x) eqn:Ez; [apply E in Ez; subst; lia|]. apply H; [exact H1|]. rewrite Kf. intros [C|C]; [tauto|]. subst. rewrite eqv_refl in Ez. discriminate.
          -- apply H; [apply Ks; now right|]. rewrite Kf in H2. tauto.
        * exists false. split; [reflexivity|]. split; [discriminate|]. intros H. assert (occ l2 x = occ l1 x); [|lia]. apply H; [apply Ks; now left|exact Nx].
      + assert (In x (firstn i l1)) as Ix.
        { destruct (first_position_in _ _ _ Hf) as (z & H1 & H2); [lia|]. apply Hsame in H2. subst z. eapply nth_error_In; exact H1. }
        exists b. split; [exact Hb|]. rewrite Hbs. split; intros H z H1 H2.
        * apply Ks in H1 as [->|H1]; [tauto|]. apply H; [exact H1|]. rewrite Kf. intros [C|C]; [tauto|]. subst. tauto.
        * apply H; [apply Ks; now right|]. rewrite Kf in H2. tauto.
  Qed.
  Lemma is_permutation4_ok same l1 l2 : (forall x y, same x y = true <-> x = y) ->
    exists b, is_permutation4 same eqv l1 l2 = Some b /\ (b = true <-> forall x, In x l1 -> occ l2 x = occ l1 x).
  Proof.
    intros H. destruct (permutation_loop_ok same l1 l2 H (List.length l1) 0) as (b & Hb & Hs); [lia|]. exists b. split; [exact Hb|]. rewrite Hs. cbn [skipn firstn In].
    split; intros K x Hx; [apply K; tauto|intros _; now apply K].
  Qed.
  Lemma occ_sub_perm l1 l2 : List.length l1 = List.length l2 -> (forall x, In x l1 -> occ l2 x = occ l1 x) <-> Permutation l1 l2.
  Proof.
    intros L. split; [|intros P x _; symmetry; now apply occ_perm].
    revert l2 L. induction l1 as [|x l1 IH]; intros l2 L H.
    - destruct l2; [constructor|discriminate].
    - assert (In x l2) as Hx. { apply occ_In. rewrite H by now left. unfold occ. cbn. rewrite eqv_refl. cbn. lia. }
      apply in_split in Hx as (a & b & ->). apply Permutation_cons_app. apply IH.
      + rewrite app_length in *. cbn in L. lia.
      + intros y Hy. specialize (H y (or_intror Hy)). rewrite occ_app in *. unfold occ in *. cbn in H. destruct (eqv x y); cbn in H; lia.
  Qed.
End Perm.

Section Write.
  Context {A : Type}.
  Implicit Types m d l : list A.
  Lemma nth_placed d o out k : o + List.length out <= List.length d ->
    nth_error (placed d o out) k = if Nat.ltb k o then nth_error d k else if Nat.ltb k (o + List.length out) then nth_error out (k - o) else nth_error d k.
  Proof.
    intros H. unfold placed. assert (List.length (firstn o d) = o) as Lf by (apply firstn_length_le; lia). destruct (Nat.ltb_spec k o).
    - rewrite nth_error_app1 by lia. rewrite nth_error_firstn. now replace (k <? o) with true by (symmetry; apply Nat.ltb_lt; lia).
    - rewrite nth_error_app2 by lia. rewrite Lf. destruct (Nat.ltb_spec k (o + List.length out)).
      + apply nth_error_app1. lia.
      + rewrite nth_error_app2 by lia. rewrite nth_error_skipn. f_equal. lia.
  Qed.
  Lemma placed_length d o out : o + List.length out <= List.length d -> List.length (placed d o out) = List.length d.
  Proof. intros H. unfold placed. rewrite !app_length, firstn_length_le, skipn_length by lia. lia. Qed.
  Lemma placed_nil d o : placed d o [] = d.
  Proof. unfold placed. cbn. rewrite Nat.add_0_r. apply firstn_skipn. Qed.
  Lemma placed_cons d o y out : o + S (List.length out) <= List.length d -> placed (upd d o y) (S o) out = placed d o (y :: out).
  Proof.
    intros H. unfold placed. rewrite skipn_upd by lia. cbn [List.length]. replace (o + S (List.length out)) with (S o + List.length out) by lia.
    rewrite (firstn_S_nth _ _ y) by (apply upd_same; lia). rewrite firstn_upd by lia. now rewrite <- app_assoc.
  Qed.
  Lemma nth_slice l b e k : b <= e -> e <= List.length l -> nth_error (slice l b e) k = if Nat.ltb k (e - b) then nth_error l (b + k) else None.
  Proof. intros H1 H2. unfold slice. now rewrite nth_error_firstn, nth_error_skipn. Qed.
  Lemma slice_length l b e : b <= e -> e <= List.length l -> List.length (slice l b e) = e - b.
  Proof. intros H1 H2. unfold slice. rewrite firstn_length_le; [reflexivity|]. rewrite skipn_length. lia. Qed.
  Lemma slice_all l : slice l 0 (List.length l) = l.
  Proof. unfold slice. cbn. rewrite Nat.sub_0_r. apply firstn_all. Qed.

  Lemma move_down_gen : forall c m sb db, sb + c <= List.length m -> db + c <= List.length m -> db <= sb \/ sb + c <= db ->
    exists m', move_down c m sb db = Some m' /\ List.length m' = List.length m /\
      forall k, nth_error m' k = if Nat.leb db k && Nat.ltb k (db + c) then nth_error m (sb + (k - db)) else nth_error m k.
  Proof.
    induction c as [|c IH]; intros m sb db H1 H2 H3; cbn [move_down].
    - exists m. conj; try reflexivity. intros k. replace (Nat.leb db k && Nat.ltb k (db + 0)) with false; [reflexivity|].
      symmetry. apply andb_false_iff. rewrite Nat.leb_gt, Nat.ltb_ge. lia.
    - destruct (rd_lt m sb) as (x & Hx); [lia|]. rewrite Hx. cbn [obind]. rewrite wr_ok by lia. cbn [obind]. unfold rd in Hx.
      destruct (IH (upd m db x) (S sb) (S db)) as (m' & E & L & N); try (rewrite upd_length; lia); [lia|]. exists m'. rewrite upd_length in L. conj; try assumption.
      intros k. rewrite N. destruct (Nat.leb_spec (S db) k), (Nat.ltb_spec k (S db + c)), (Nat.leb_spec db k), (Nat.ltb_spec k (db + S c)); cbn [andb]; try lia.
      + rewrite upd_other by lia. f_equal. lia.
      + rewrite upd_other by lia. reflexivity.
      + assert (k = db) as -> by lia. rewrite upd_same by lia. rewrite Nat.sub_diag, Nat.add_0_r. congruence.
      + rewrite upd_other by lia. reflexivity.
  Qed.
  Lemma back_loop_gen : forall c m se de, c <= se -> c <= de -> se <= List.length m -> de <= List.length m -> se <= de \/ de + c <= se ->
    exists m', back_loop c m se de = Some m' /\ List.length m' = List.length m /\
      forall k, nth_error m' k = if Nat.leb (de - c) k && Nat.ltb k de then nth_error m (k + se - de) else nth_error m k.
  Proof.
    induction c as [|c IH]; intros m se de C1 C2 H1 H2 H3; cbn [back_loop].
    - exists m. conj; try reflexivity. intros k. replace (Nat.leb (de - 0) k && Nat.ltb k de) with false; [reflexivity|].
      symmetry. apply andb_false_iff. rewrite Nat.leb_gt, Nat.ltb_ge. lia.
    - destruct (rd_lt m (se - 1)) as (x & Hx); [lia|]. rewrite Hx. cbn [obind]. rewrite wr_ok by lia. cbn [obind]. unfold rd in Hx.
      destruct (IH (upd m (de - 1) x) (se - 1) (de - 1)) as (m' & E & L & N); try (rewrite upd_length; lia); try lia. exists m'. rewrite upd_length in L. conj; try assumption.
      intros k. rewrite N. destruct (Nat.leb_spec (de - 1 - c) k), (Nat.ltb_spec k (de - 1)), (Nat.leb_spec (de - S c) k), (Nat.ltb_spec k de); cbn [andb]; try lia.
      + rewrite upd_other by lia. f_equal. lia.
      + assert (k = de - 1) as -> by lia. rewrite upd_same by lia. rewrite <- Hx. f_equal. lia.
      + rewrite upd_other by lia. reflexivity.
      + rewrite upd_other by lia. reflexivity.
  Qed.
  Lemma copy_ok m sb se db : sb <= se -> se <= List.length m -> db + (se - sb) <= List.length m -> db <= sb \/ se <= db ->
    copy m sb se db = Some (placed m db (slice m sb se), db + (se - sb)).
  Proof.
    intros H1 H2 H3 H4. unfold copy. destruct (move_down_gen (se - sb) m sb db) as (m' & E & L & N); try lia. rewrite E. cbn [obind]. do 2 f_equal.
    apply nth_error_ext. intros k. rewrite nth_placed; rewrite slice_length by lia; [|lia]. rewrite N, nth_slice by lia.
    destruct (Nat.leb_spec db k), (Nat.ltb_spec k (db + (se - sb))), (Nat.ltb_spec k db), (Nat.ltb_spec (k - db) (se - sb)); cbn [andb]; try lia; reflexivity.
  Qed.
  Lemma copy_backward_ok m sb se de : sb <= se -> se <= List.length m -> se - sb <= de -> de <= List.length m -> se <= de \/ de <= sb ->
    copy_backward m sb se de = Some (placed m (de - (se - sb)) (slice m sb se), de - (se - sb)).
  Proof.
    intros H1 H2 H3 H4 H5. unfold copy_backward. replace (Nat.leb (se - sb) de) with true by (symmetry; apply Nat.leb_le; lia).
    destruct (back_loop_gen (se - sb) m se de) as (m' & E & L & N); try lia. rewrite E. cbn [obind]. do 2 f_equal.
    apply nth_error_ext. intros k. rewrite nth_placed; rewrite slice_length by lia; [|lia]. rewrite N, nth_slice by lia.
    destruct (Nat.leb_spec (de - (se - sb)) k), (Nat.ltb_spec k de), (Nat.ltb_spec k (de - (se - sb))), (Nat.ltb_spec k (de - (se - sb) + (se - sb))), (Nat.ltb_spec (k - (de - (se - sb))) (se - sb)); cbn [andb]; try lia; try reflexivity.
    f_equal. lia.
  Qed.
  Lemma remove_loop_ok p : forall r k y g, exists m', remove_loop (List.length r) (k ++ (y :: g) ++ r) p (List.length k) (List.length k + S (List.length g)) = Some (m', List.length k + List.length (filter (fun x => negb (p x)) r)) /\
    List.length m' = List.length (k ++ (y :: g) ++ r) /\ firstn (List.length k + List.length (filter (fun x => negb (p x)) r)) m' = k ++ filter (fun x => negb (p x)) r.
  Proof.
    induction r as [|x r IH]; intros k y g; cbn [List.length remove_loop filter].
    - eexists. split; [rewrite Nat.add_0_r; reflexivity|]. split; [reflexivity|]. rewrite Nat.add_0_r, firstn_app, firstn_all, Nat.sub_diag. reflexivity.
    - assert (rd (k ++ (y :: g) ++ x :: r) (List.length k + S (List.length g)) = Some x) as Hx.
      { rewrite app_assoc. replace (List.length k + S (List.length g)) with (List.length (k ++ y :: g)) by (rewrite app_length; reflexivity). apply rd_mid. }
      rewrite Hx. cbn [obind]. destruct (p x); cbn [negb].
      + destruct (IH k y (g ++ [x])) as (m' & E & L & F). rewrite len_snoc in E. exists m'. 
        assert (k ++ (y :: g ++ [x]) ++ r = k ++ (y :: g) ++ x :: r) as Ea by (cbn; now rewrite <- app_assoc). rewrite Ea in *.
        conj; try assumption. rewrite <- E. f_equal. lia.
      + cbn [app]. rewrite wr_mid. cbn [obind].
        assert (exists y' g', g ++ [x] = y' :: g' /\ List.length g' = List.length g) as (y' & g' & Eg & Lg).
        { destruct g as [|z g]; [exists x, []; split; reflexivity|]. exists z, (g ++ [x]). split; [reflexivity|]. now rewrite len_snoc. }
        destruct (IH (k ++ [x]) y' g') as (m' & E & L & F). rewrite <- Eg in E, L.
        assert ((k ++ [x]) ++ (g ++ [x]) ++ r = k ++ x :: g ++ x :: r) as Ea by (rewrite <- !app_assoc; reflexivity). rewrite Ea in *. rewrite len_snoc, Lg in E.
        exists m'. conj.
        * replace (S (List.length k + S (List.length g))) with (S (List.length k) + S (List.length g)) by lia. rewrite E. do 2 f_equal. cbn [List.length]. lia.
        * rewrite L. rewrite !app_length. cbn. rewrite !app_length. reflexivity.
        * cbn [List.length]. replace (List.length k + S (List.length (filter (fun x0 => negb (p x0)) r))) with (List.length (k ++ [x]) + List.length (filter (fun x0 => negb (p x0)) r)) by (rewrite len_snoc; lia).
          rewrite F. now rewrite <- app_assoc.
  Qed.
  Lemma remove_if_ok p m : exists m', remove_if m p = Some (m', List.length (filter (fun x => negb (p x)) m)) /\ List.length m' = List.length m /\
    firstn (List.length (filter (fun x => negb (p x)) m)) m' = filter (fun x => negb (p x)) m.
  Proof.
    unfold remove_if. destruct (find_if_ok p m) as (i & -> & Hf). cbn [obind]. destruct (first_position_split _ _ _ Hf) as (Ha & _ & Es).
    assert (filter (fun x => negb (p x)) (firstn i m) = firstn i m) as Fa.
    { clear - Ha. induction Ha as [|x l H Ha IH]; [reflexivity|]. cbn. rewrite H. cbn. now rewrite IH. }
    pose proof (proj1 Hf) as Hle. assert (List.length (firstn i m) = i) as Li by (apply firstn_length_le; lia).
    destruct (Nat.eqb_spec i (List.length m)) as [E|N]; cbn [negb].
    - rewrite E, firstn_all in Fa. rewrite Fa, E. exists m. conj; try reflexivity. apply firstn_all.
    - destruct (first_position_in _ _ _ Hf N) as (x & Hx & Hp). 
      assert (m = firstn i m ++ [x] ++ skipn (S i) m) as Em by (cbn [app]; rewrite <- (skipn_nth _ _ _ Hx); exact Es).
      destruct (remove_loop_ok p (skipn (S i) m) (firstn i m) x []) as (m' & E & L & F). rewrite <- Em in E, L. rewrite Li in *. cbn [List.length] in E.
      replace (List.length m - i - 1) with (List.length (skipn (S i) m)) by (rewrite skipn_length; lia).
      assert (filter (fun x => negb (p x)) m = firstn i m ++ filter (fun x => negb (p x)) (skipn (S i) m)) as EF.
      { rewrite Em at 1. rewrite !filter_app, Fa. cbn. now rewrite Hp. }
      rewrite EF, app_length, Li. exists m'. conj; try assumption. rewrite <- E. f_equal. lia.
  Qed.
  Lemma replace_loop_ok (p : A -> bool) v : forall r a, replace_loop (List.length r) (a ++ r) p v (List.length a) = Some (a ++ map (fun x => if p x then v else x) r).
  Proof.
    induction r as [|x r IH]; intros a; cbn [List.length replace_loop map]; [reflexivity|]. rewrite rd_mid. cbn [obind]. destruct (p x).
    - rewrite wr_mid. cbn [obind]. rewrite shift_app, <- (len_snoc a v), IH. now rewrite <- app_assoc.
    - cbn [obind]. rewrite shift_app, <- (len_snoc a x), IH. now rewrite <- app_assoc.
  Qed.
  Lemma fill_n_ok (v : A) : forall c m i, i + c <= List.length m -> fill_n c m v i = Some (placed m i (repeat v c), i + c).
  Proof.
    induction c as [|c IH]; intros m i H; cbn [fill_n repeat].
    - rewrite placed_nil, Nat.add_0_r. reflexivity.
    - rewrite wr_ok by lia. cbn [obind]. rewrite IH by (rewrite upd_length; lia). rewrite placed_cons by (rewrite repeat_length; lia). do 2 f_equal. lia.
  Qed.
  Lemma swap_ranges_ok : forall (r : list A) r2 a a2 e e2, List.length r = List.length r2 -> List.length a = List.length a2 ->
    swap_ranges (List.length r) (a ++ r ++ e) (a2 ++ r2 ++ e2) (List.length a) = Some (a ++ r2 ++ e, a2 ++ r ++ e2, List.length a + List.length r).
  Proof.
    induction r as [|x r IH]; intros [|y r2] a a2 e e2 L La; try discriminate; cbn [List.length swap_ranges app].
    - now rewrite Nat.add_0_r.
    - rewrite rd_mid. cbn [obind]. rewrite La, rd_mid. cbn [obind]. rewrite <- La, wr_mid. cbn [obind]. rewrite La, wr_mid. cbn [obind]. rewrite <- La.
      rewrite (shift_app a), (shift_app a2), <- (len_snoc a y), IH; [|cbn in L; lia|rewrite !len_snoc; lia]. rewrite len_snoc, <- !app_assoc. cbn [app]. do 2 f_equal. lia.
  Qed.
  Lemma reverse_copy_ok : forall (s : list A) e d o, o + List.length s <= List.length d -> reverse_copy_loop (List.length s) (s ++ e) d o = Some (placed d o (rev s), o + List.length s).
  Proof.
    induction s as [|x s IH] using rev_ind; intros e d o H; cbn [List.length reverse_copy_loop].
    - cbn. rewrite placed_nil, Nat.add_0_r. reflexivity.
    - rewrite len_snoc in *. cbn [reverse_copy_loop]. rewrite <- app_assoc. cbn [app]. rewrite rd_mid. cbn [obind]. rewrite wr_ok by lia. cbn [obind].
      rewrite IH by (rewrite upd_length; lia). rewrite rev_app_distr. cbn [rev app]. rewrite placed_cons by (rewrite rev_length; lia). do 2 f_equal. lia.
  Qed.
End Write.

Section Emit.
  Context {A B : Type}.
  Definition outputs (f : A -> option B) (l : list A) : list B := flat_map (fun x => match f x with Some y => [y] | None => [] end) l.
  Lemma emit_loop_ok (f : A -> option B) : forall r a e (d : list B) o, o + List.length (outputs f r) <= List.length d ->
    emit_loop (List.length r) (a ++ r ++ e) (List.length a) f d o = Some (placed d o (outputs f r), o + List.length (outputs f r)).
  Proof.
    induction r as [|x r IH]; intros a e d o H; cbn [List.length emit_loop outputs flat_map app].
    - rewrite placed_nil. cbn. now rewrite Nat.add_0_r.
    - cbn [outputs flat_map] in H. fold (outputs f r) in *. rewrite rd_mid. cbn [obind]. destruct (f x) as [y|].
      + cbn [app List.length] in *. rewrite wr_ok by lia. cbn [obind]. rewrite shift_app, <- (len_snoc a x), IH by (rewrite upd_length; lia).
        rewrite placed_cons by lia. do 2 f_equal. lia.
      + cbn [app] in *. rewrite shift_app, <- (len_snoc a x). apply IH. exact H.
  Qed.
  (** [c] items left in the source; the reads stay within what is needed *)
  Lemma emit_loop_s_ok (f : A -> option B) : forall r a e (d : list B) o oe, o <= oe -> oe <= List.length d ->
    emit_loop_s (List.length r) (a ++ r ++ e) (List.length a) f d o oe = Some (placed d o (firstn (oe - o) (outputs f r)), o + List.length (firstn (oe - o) (outputs f r))).
  Proof.
    induction r as [|x r IH]; intros a e d o oe H1 H2; cbn [List.length emit_loop_s outputs flat_map app].
    - rewrite firstn_nil, placed_nil. cbn. now rewrite Nat.add_0_r.
    - fold (outputs f r). destruct (Nat.eqb_spec o oe) as [->|N].
      + rewrite Nat.sub_diag. cbn [firstn]. rewrite placed_nil. cbn. now rewrite Nat.add_0_r.
      + rewrite rd_mid. cbn [obind]. destruct (f x) as [y|].
        * rewrite wr_ok by lia. cbn [obind]. rewrite shift_app, <- (len_snoc a x), IH by (try rewrite upd_length; lia).
          replace (oe - o) with (S (oe - S o)) by lia. cbn [app firstn List.length]. rewrite placed_cons.
          -- do 2 f_equal. lia.
          -- pose proof (firstn_le_length (oe - S o) (outputs f r)). rewrite firstn_length in *. lia.
        * cbn [app]. rewrite shift_app, <- (len_snoc a x). apply IH; assumption.
  Qed.
  Lemma outputs_filter {C} (p : C -> bool) (l : list C) : flat_map (fun x => match (if p x then Some x else None) with Some y => [y] | None => [] end) l = filter p l.
  Proof. induction l as [|x l IH]; [reflexivity|]. cbn. rewrite IH. now destruct (p x). Qed.
  Lemma outputs_map (f : A -> B) l : outputs (fun x => Some (f x)) l = map f l.
  Proof. induction l as [|x l IH]; [reflexivity|]. cbn. unfold outputs in IH. now rewrite IH. Qed.
  Lemma outputs_map_filter (f : A -> B) (p : A -> bool) l : outputs (fun x => if p x then Some (f x) else None) l = map f (filter p l).
  Proof. induction l as [|x l IH]; [reflexivity|]. cbn. unfold outputs in IH. rewrite IH. now destruct (p x). Qed.
  Lemma accumulate_loop_ok (op : B -> A -> B) : forall r a sum, accumulate_loop (List.length r) (a ++ r) (List.length a) op sum = Some (fold_left op r sum).
  Proof.
    induction r as [|x r IH]; intros a sum; cbn [List.length accumulate_loop fold_left]; [reflexivity|]. rewrite rd_mid. cbn [obind].
    rewrite shift_app, <- (len_snoc a x). apply IH.
  Qed.
  Lemma for_each_loop_ok (p : A -> bool) : forall r a e calls, for_each_loop (List.length r) (a ++ r ++ e) (List.length a) p calls = Some (calls ++ filter p r, List.length a + List.length r).
  Proof.
    induction r as [|x r IH]; intros a e calls; cbn [List.length for_each_loop filter app].
    - now rewrite app_nil_r, Nat.add_0_r.
    - rewrite rd_mid. cbn [obind]. rewrite shift_app, <- (len_snoc a x), IH, len_snoc. do 2 f_equal; [|lia]. destruct (p x); [now rewrite <- app_assoc|reflexivity].
  Qed.
  Lemma partition_copy_ok (p : A -> bool) : forall r a (dt df : list A) ot of, ot + List.length (filter p r) <= List.length dt -> of + List.length (filter (fun x => negb (p x)) r) <= List.length df ->
    partition_copy_loop (List.length r) (a ++ r) (List.length a) p dt ot df of =
      Some ((placed dt ot (filter p r), ot + List.length (filter p r)), (placed df of (filter (fun x => negb (p x)) r), of + List.length (filter (fun x => negb (p x)) r))).
  Proof.
    induction r as [|x r IH]; intros a dt df ot of H1 H2; cbn [List.length partition_copy_loop filter].
    - rewrite !placed_nil. cbn. now rewrite !Nat.add_0_r.
    - rewrite rd_mid. cbn [obind]. cbn [filter] in H1, H2. destruct (p x); cbn [negb] in *; cbn [List.length] in *; rewrite wr_ok by lia; cbn [obind];
        rewrite shift_app, <- (len_snoc a x), IH by (try rewrite upd_length; lia); rewrite placed_cons by lia; rewrite <- ?Nat.add_succ_comm; reflexivity.
  Qed.
  Lemma transform2_ok {C} (f : A -> B -> C) : forall r r2 a a2 e2 (d : list C) o, List.length r = List.length r2 -> List.length a = List.length a2 -> o + List.length r <= List.length d ->
    transform2_loop (List.length r) (a ++ r) (a2 ++ r2 ++ e2) (List.length a) f d o = Some (placed d o (map (fun xy => f (fst xy) (snd xy)) (combine r r2)), o + List.length r).
  Proof.
    induction r as [|x r IH]; intros [|y r2] a a2 e2 d o L La H; try discriminate; cbn [List.length transform2_loop combine map app].
    - now rewrite placed_nil, Nat.add_0_r.
    - rewrite rd_mid. cbn [obind]. rewrite La, rd_mid. cbn [obind]. cbn in H, L. rewrite wr_ok by lia. cbn [obind]. rewrite <- La.
      rewrite (shift_app a), (shift_app a2), <- (len_snoc a x), IH; [|lia|rewrite !len_snoc; lia|rewrite upd_length; lia].
      rewrite placed_cons by (rewrite map_length, combine_length; lia). cbn [fst snd]. do 2 f_equal. lia.
  Qed.
End Emit.
