(** * Proofs about HfsmModel.v *)
From Coq Require Import List Arith Bool Lia.
From Verif Require Import Util FsmSpec FsmModel HfsmSpec HfsmModel.
Import ListNotations.

Section P.
  Context {W Ms : Type}.
  Variable B : behaviour W Ms.
  Variables n max : nat.
  Variable parent : nat -> option nat.
  Variable default : nat -> option nat.
  Variable H : nat.
  Hypothesis HH : hierarchy parent default H.
  Notation lineage := (lineage parent).
  Notation act_t := (nat -> option nat).

  Lemma opt_eqb_eq a b : opt_eqb a b = true <-> a = b.
  Proof. destruct a as [x|], b as [y|]; cbn; rewrite ?Nat.eqb_eq; split; intros E; try congruence; try discriminate. Qed.
  Lemma opt_eqb_refl a : opt_eqb a a = true.
  Proof. now apply opt_eqb_eq. Qed.
  Lemma opt_eqb_neq a b : opt_eqb a b = false <-> a <> b.
  Proof. rewrite <- opt_eqb_eq. destruct (opt_eqb a b); split; congruence. Qed.
  Lemma mem_in l x : mem l x = true <-> In x l.
  Proof. unfold mem. rewrite existsb_exists. split; [intros (y & Hy & E); apply Nat.eqb_eq in E; now subst|]. intros Hx. exists x. split; [exact Hx|apply Nat.eqb_refl]. Qed.
  Lemma mem_notin l x : mem l x = false <-> ~ In x l.
  Proof. rewrite <- mem_in. destruct (mem l x); split; congruence. Qed.

  (** ** lineages *)
  Definition olin (s : option nat) (l : list nat) : Prop := match s with None => l = [] | Some x => lineage x l end.
  Lemma lin_parent s l : lineage s l -> exists r, l = s :: r /\ olin (parent s) r.
  Proof. intros L. inversion L as [? E|? p r E L']; subst; [exists []|exists r]; rewrite E; cbn; auto. Qed.
  Lemma lin_of_parent s r : olin (parent s) r -> lineage s (s :: r).
  Proof. destruct (parent s) as [p|] eqn:E; cbn; intros Hr; [now apply lin_up with p|subst; now constructor]. Qed.
  Lemma lin_unique s l l' : lineage s l -> lineage s l' -> l = l'.
  Proof.
    intros L. revert l'. induction L as [s E|s p l E L IH]; intros l' L'; inversion L' as [? E'|? p' r E' L'']; subst; try congruence.
    assert (p' = p) as -> by congruence. f_equal. now apply IH.
  Qed.
  Lemma lin_suffix s a b x : lineage s (a ++ x :: b) -> lineage x (x :: b).
  Proof.
    revert s. induction a as [|y a IH]; intros s L; cbn in L.
    - destruct (lin_parent _ _ L) as (r & E & _). injection E as <- <-. exact L.
    - destruct (lin_parent _ _ L) as (r & E & O). injection E as <- <-. destruct (parent y) as [p|]; cbn in O; [exact (IH p O)|]. destruct a; discriminate.
  Qed.
  Lemma lin_exists_len s : exists l, lineage s l /\ length l <= H.
  Proof.
    destruct HH as [(depth & D1 & D2) _ _]. assert (forall k s, depth s < k -> exists l, lineage s l /\ length l <= S (depth s)) as G.
    { induction k as [|k IH]; intros x Hx; [lia|]. destruct (parent x) as [p|] eqn:E.
      - pose proof (D1 _ _ E). destruct (IH p) as (l & L & Le); [lia|]. exists (x :: l). split; [now apply lin_up with p|cbn; lia].
      - exists [x]. split; [now constructor|cbn; lia]. }
    destruct (G H s (D2 s)) as (l & L & Le). exists l. split; [exact L|]. specialize (D2 s). lia.
  Qed.
  Lemma lin_len s l : lineage s l -> length l <= H.
  Proof. intros L. destruct (lin_exists_len s) as (l' & L' & Le). now rewrite (lin_unique _ _ _ L L'). Qed.
  Lemma olin_len s l : olin s l -> length l <= H.
  Proof. destruct s; cbn; [apply lin_len|intros ->; cbn; lia]. Qed.
  (** the position of a state in a lineage is fixed by the length of its own *)
  Lemma lin_pos s a x b l : lineage s (a ++ x :: b) -> lineage x l -> length l = S (length b).
  Proof. intros L Lx. apply lin_suffix in L. now rewrite (lin_unique _ _ _ Lx L). Qed.
  Lemma lin_nodup s l : lineage s l -> NoDup l.
  Proof.
    induction 1 as [s E|s p l E L IH]; [repeat constructor; intros []|]. constructor; [|exact IH]. intros C. apply in_split in C as (a & b & ->).
    assert (lineage s (s :: a ++ s :: b)) as Ls by (now apply lin_up with p). pose proof (lin_suffix s (s :: a) b s Ls) as Lb. pose proof (lin_unique _ _ _ Ls Lb) as E'.
    injection E' as E'. apply (f_equal (@length nat)) in E'. rewrite app_length in E'. cbn in E'. lia.
  Qed.

  (** ** the common ancestor *)
  Lemma get_depth_ok : forall l s fuel, olin s l -> length l <= fuel -> get_depth parent fuel s = Some (length l).
  Proof.
    induction l as [|x l IH]; intros s fuel O Le.
    - destruct s; cbn in O; [destruct (lin_parent _ _ O) as (r & E & _); discriminate|]. destruct fuel; reflexivity.
    - destruct s as [s|]; cbn in O; [|discriminate]. destruct (lin_parent _ _ O) as (r & E & O'). injection E as <- <-. destruct fuel as [|f]; [cbn in Le; lia|]. cbn. rewrite (IH _ f O') by (cbn in Le; lia). reflexivity.
  Qed.
  Lemma adjust_ok : forall q s l, olin s (q ++ l) -> exists s', adjust_depth parent s (length q) = Some s' /\ olin s' l.
  Proof.
    induction q as [|x q IH]; intros s l O; [exists s; split; [reflexivity|exact O]|].
    destruct s as [s|]; cbn in O; [|discriminate]. destruct (lin_parent _ _ O) as (r & E & O'). injection E as <- <-. cbn. apply IH. exact O'.
  Qed.
  Definition hd_opt (l : list nat) : option nat := match l with [] => None | x :: _ => Some x end.
  Lemma olin_hd s l : olin s l -> s = hd_opt l.
  Proof. destruct s; cbn; [|intros ->; reflexivity]. intros L. destruct (lin_parent _ _ L) as (r & -> & _). reflexivity. Qed.
  Lemma climb_ok : forall l1 l2 s1 s2 fuel, olin s1 l1 -> olin s2 l2 -> length l1 = length l2 -> length l1 <= fuel ->
    exists p1 p2 c, l1 = p1 ++ c /\ l2 = p2 ++ c /\ length p1 = length p2 /\ (forall i a, nth_error p1 i = Some a -> nth_error p2 i <> Some a) /\ climb parent fuel s1 s2 = Some (hd_opt c).
  Proof.
    induction l1 as [|x l1 IH]; intros l2 s1 s2 fuel O1 O2 Le Lf.
    - destruct l2; [|discriminate]. exists [], [], []. rewrite (olin_hd _ _ O1), (olin_hd _ _ O2). conj; try reflexivity; [intros [|i]; discriminate|]. destruct fuel; reflexivity.
    - destruct l2 as [|y l2]; [discriminate|]. destruct s1 as [s1|]; cbn in O1; [|discriminate]. destruct s2 as [s2|]; cbn in O2; [|discriminate].
      pose proof (lin_parent _ _ O1) as (r1 & E1 & O1'). injection E1 as -> <-. pose proof (lin_parent _ _ O2) as (r2 & E2 & O2'). injection E2 as -> <-.
      destruct (Nat.eq_dec s1 s2) as [->|N].
      + exists [], [], (s2 :: l1). pose proof (lin_unique _ _ _ O1 O2) as E. injection E as <-. conj; try reflexivity; [intros [|i]; discriminate|]. destruct fuel; cbn; rewrite Nat.eqb_refl; reflexivity.
      + destruct fuel as [|f]; [cbn in Lf; lia|]. destruct (IH l2 (parent s1) (parent s2) f O1' O2') as (p1 & p2 & c & -> & -> & Lp & D & Q); [cbn in Le; lia|cbn in Lf; lia|].
        exists (s1 :: p1), (s2 :: p2), c. conj; try reflexivity; [cbn; lia| |].
        * intros [|i] a Ha; cbn in *; [congruence|now apply D].
        * cbn. replace (Nat.eqb s1 s2) with false by (symmetry; now apply Nat.eqb_neq). exact Q.
  Qed.
  (** the two lineages meet at the common ancestor and have nothing in common before it *)
  Definition meet (ls lt p1 p2 c : list nat) : Prop := ls = p1 ++ c /\ lt = p2 ++ c /\ (forall x, In x p1 -> ~ In x lt) /\ (forall x, In x p2 -> ~ In x ls).
  Lemma nth_split_nat (l : list nat) x : In x l -> exists a b, l = a ++ x :: b.
  Proof. apply in_split. Qed.
  Lemma meet_of s t q1 q2 p1 p2 c : lineage s (q1 ++ p1 ++ c) -> lineage t (q2 ++ p2 ++ c) -> length p1 = length p2 -> (q1 = [] \/ q2 = []) ->
    (forall i a, nth_error p1 i = Some a -> nth_error p2 i <> Some a) -> forall x, In x (q1 ++ p1) -> ~ In x (q2 ++ p2 ++ c).
  Proof.
    intros Ls Lt Lp Hq D x Hx Hy. apply in_split in Hx as (a & b & E). apply in_split in Hy as (a' & b' & E').
    rewrite app_assoc, E, <- app_assoc in Ls. cbn in Ls. rewrite E' in Lt. pose proof (lin_suffix _ _ _ _ Ls) as Lx. pose proof (lin_suffix _ _ _ _ Lt) as Lx'.
    pose proof (lin_unique _ _ _ Lx Lx') as Eb. injection Eb as Eb. subst b'.
    assert (exists p2', q2 ++ p2 = a' ++ x :: p2' /\ p2' = b) as (p2' & E2 & ->).
    { rewrite app_assoc in E'. change (a' ++ x :: b ++ c) with (a' ++ (x :: b) ++ c) in E'. rewrite app_assoc in E'. apply app_inv_tail in E'. exists b. split; [exact E'|reflexivity]. }
    destruct Hq as [->| ->]; cbn [app] in *.
    - subst p1. rewrite app_length in Lp. cbn in Lp. assert (length q2 + length p2 = length a' + S (length b)) as Le by (rewrite <- app_length, E2, app_length; reflexivity).
      assert (p2 = skipn (length q2) a' ++ x :: b) as Ep2.
      { apply (f_equal (skipn (length q2))) in E2. rewrite skipn_app, skipn_all, Nat.sub_diag in E2. cbn in E2. rewrite E2, skipn_app. replace (length q2 - length a') with 0 by lia. reflexivity. }
      apply (D (length a) x); [rewrite nth_error_app2, Nat.sub_diag by lia; reflexivity|]. rewrite Ep2, nth_error_app2 by (rewrite skipn_length; lia). replace (length a - length (skipn (length q2) a')) with 0; [reflexivity|]. rewrite skipn_length. lia.
    - subst p2. assert (length q1 + length p1 = length a + S (length b)) as Le by (rewrite <- app_length, E, app_length; reflexivity). rewrite app_length in Lp. cbn in Lp.
      assert (p1 = skipn (length q1) a ++ x :: b) as Ep1.
      { apply (f_equal (skipn (length q1))) in E. rewrite skipn_app, skipn_all, Nat.sub_diag in E. cbn in E. rewrite E, skipn_app. replace (length q1 - length a) with 0 by lia. reflexivity. }
      apply (D (length a') x); [|rewrite nth_error_app2, Nat.sub_diag by lia; reflexivity]. rewrite Ep1, nth_error_app2 by (rewrite skipn_length; lia). replace (length a' - length (skipn (length q1) a)) with 0; [reflexivity|]. rewrite skipn_length. lia.
  Qed.
  Lemma common_ok s t ls lt fuel : lineage s ls -> lineage t lt -> H <= fuel -> exists p1 p2 c, meet ls lt p1 p2 c /\ common_ancestor parent fuel (Some s) (Some t) = Some (hd_opt c).
  Proof.
    intros Ls Lt Hf. pose proof (lin_len _ _ Ls) as H1. pose proof (lin_len _ _ Lt) as H2. unfold common_ancestor. rewrite (get_depth_ok ls (Some s) fuel Ls), (get_depth_ok lt (Some t) fuel Lt) by lia.
    assert (exists q1 l1 q2 l2, ls = q1 ++ l1 /\ lt = q2 ++ l2 /\ length l1 = length l2 /\ (q1 = [] \/ q2 = []) /\
      length q1 = length ls - length lt /\ length q2 = length lt - length ls) as (q1 & l1 & q2 & l2 & -> & -> & Le & Hq & Lq1 & Lq2).
    { exists (firstn (length ls - length lt) ls), (skipn (length ls - length lt) ls), (firstn (length lt - length ls) lt), (skipn (length lt - length ls) lt).
      rewrite !firstn_skipn, !skipn_length, !firstn_length. conj; try reflexivity; try lia.
      destruct (Nat.le_ge_cases (length ls) (length lt)); [left|right]; match goal with |- firstn ?k _ = [] => replace k with 0 by lia end; reflexivity. }
    assert (exists s1 s2, olin s1 l1 /\ olin s2 l2 /\ (if length (q2 ++ l2) <? length (q1 ++ l1)
      then match adjust_depth parent (Some s) (length (q1 ++ l1) - length (q2 ++ l2)) with Some s1 => climb parent fuel s1 (Some t) | None => None end
      else match adjust_depth parent (Some t) (length (q2 ++ l2) - length (q1 ++ l1)) with Some s2 => climb parent fuel (Some s) s2 | None => None end) = climb parent fuel s1 s2) as (s1 & s2 & O1 & O2 & ->).
    { rewrite <- Lq1, <- Lq2. destruct (Nat.ltb_spec (length (q2 ++ l2)) (length (q1 ++ l1))) as [L|L]; rewrite !app_length in L.
      - destruct q2; [|rewrite !app_length in *; cbn in *; lia]. destruct (adjust_ok q1 (Some s) l1 Ls) as (s1 & -> & O1). exists s1, (Some t). conj; [exact O1|exact Lt|reflexivity].
      - destruct q1; [|rewrite !app_length in *; cbn in *; lia]. destruct (adjust_ok q2 (Some t) l2 Lt) as (s2 & -> & O2). exists (Some s), s2. conj; [exact Ls|exact O2|reflexivity]. }
    destruct (climb_ok l1 l2 s1 s2 fuel O1 O2 Le) as (p1 & p2 & c & -> & -> & Lp & D & Q); [rewrite app_length in H1; lia|].
    exists (q1 ++ p1), (q2 ++ p2), c. split; [|exact Q]. unfold meet. rewrite !app_assoc. conj; try reflexivity.
    - intros x Hx. rewrite <- app_assoc. exact (meet_of s t q1 q2 p1 p2 c Ls Lt Lp Hq D x Hx).
    - intros x Hx. rewrite <- app_assoc. apply (meet_of t s q2 q1 p2 p1 c Lt Ls (eq_sym Lp)); [tauto| |exact Hx]. intros i a Ha C. exact (D i a C Ha).
  Qed.
  Lemma filter_none_in (l l' : list nat) : (forall x, In x l -> In x l') -> filter (fun x => negb (mem l' x)) l = [].
  Proof. induction l as [|x l IH]; intros I; [reflexivity|]. cbn. replace (mem l' x) with true by (symmetry; apply mem_in, I; now left). cbn. apply IH. intros y Hy. apply I. now right. Qed.
  Lemma filter_all_out (l l' : list nat) : (forall x, In x l -> ~ In x l') -> filter (fun x => negb (mem l' x)) l = l.
  Proof. induction l as [|x l IH]; intros I; [reflexivity|]. cbn. replace (mem l' x) with false by (symmetry; apply mem_notin, I; now left). cbn. f_equal. apply IH. intros y Hy. apply I. now right. Qed.
  Lemma meet_exit ls lt p1 p2 c : meet ls lt p1 p2 c -> to_exit ls lt = p1.
  Proof.
    intros (-> & -> & D1 & D2). unfold to_exit. rewrite filter_app, (filter_all_out p1) by exact D1. rewrite filter_none_in; [apply app_nil_r|]. intros x Hx. apply in_app_iff. now right.
  Qed.
  Lemma meet_enter s t ls lt p1 p2 c : lineage s ls -> lineage t lt -> meet ls lt p1 p2 c -> to_enter ls lt t = match p2 with [] => [t] | _ => rev p2 end /\ mem ls t = match p2 with [] => true | _ => false end.
  Proof.
    intros Ls Lt (-> & -> & D1 & D2). destruct (lin_parent _ _ Lt) as (r & E & _). unfold to_enter. destruct p2 as [|y p2].
    - cbn in E. assert (mem (p1 ++ c) t = true) as ->; [|split; reflexivity]. apply mem_in, in_app_iff. right. rewrite E. now left.
    - cbn in E. injection E as -> _. assert (mem (p1 ++ c) t = false) as ->. { apply mem_notin. apply D2. now left. }
      split; [|reflexivity]. f_equal. rewrite filter_app, (filter_all_out (t :: p2)) by exact D2. rewrite filter_none_in; [apply app_nil_r|]. intros x Hx. apply in_app_iff. now right.
  Qed.

  (** ** chains of children *)
  Definition typed (child : act_t) : Prop := forall s c, child s = Some c -> parent c = Some s.
  Lemma below_exists child : typed child -> forall s, exists l, below child s l /\ length l < H.
  Proof.
    intros T. destruct HH as [(depth & D1 & D2) _ _]. assert (forall k s, H - depth s <= k -> exists l, below child s l /\ depth s + length l < H) as G.
    { induction k as [|k IH]; intros s Hk; [specialize (D2 s); lia|]. destruct (child s) as [c|] eqn:E.
      - pose proof (D1 _ _ (T _ _ E)). pose proof (D2 c). destruct (IH c) as (l & Bl & Le); [lia|]. exists (c :: l). split; [now constructor|cbn; lia].
      - exists []. split; [now constructor|]. specialize (D2 s). cbn. lia. }
    intros s. destruct (G _ s (Nat.le_refl _)) as (l & Bl & Le). exists l. split; [exact Bl|lia].
  Qed.
  Lemma below_unique child s l l' : below child s l -> below child s l' -> l = l'.
  Proof. intros Bl. revert l'. induction Bl as [s E|s c l E Bl IH]; intros l' Bl'; inversion Bl' as [? E'|? c' r E' B'']; subst; try congruence. assert (c' = c) as -> by congruence. f_equal. now apply IH. Qed.
  Lemma below_len child s l : typed child -> below child s l -> length l < H.
  Proof. intros T Bl. destruct (below_exists child T s) as (l' & Bl' & Le). now rewrite (below_unique _ _ _ _ Bl Bl'). Qed.
  Lemma innermost_cons c l s : innermost (c :: l) s = innermost l c.
  Proof. unfold innermost. revert c s. induction l as [|d l IH]; intros c s; [reflexivity|]. transitivity (last (d :: l) s); [reflexivity|]. now rewrite (IH d s), (IH d c). Qed.
  Lemma below_lin child s l ls : typed child -> below child s l -> lineage s ls -> lineage (innermost l s) (rev l ++ ls).
  Proof.
    intros T Bl. revert ls. induction Bl as [s E|s c l E Bl IH]; intros ls L; [exact L|]. replace (rev (c :: l) ++ ls) with (rev l ++ (c :: ls)) by (cbn; now rewrite <- app_assoc).
    rewrite innermost_cons.
    apply IH. apply lin_up with s; [now apply T|exact L].
  Qed.
  Lemma below_end child s l : below child s l -> child (innermost l s) = None.
  Proof. induction 1 as [s E|s c l E Bl IH]; [exact E|]. now rewrite innermost_cons. Qed.
  Lemma descend_ok child s l fuel : below child s l -> length l <= fuel -> descend fuel child s = Some (innermost l s).
  Proof.
    intros Bl. revert fuel. induction Bl as [s E|s c l E Bl IH]; intros fuel Le; [destruct fuel; cbn; now rewrite E|]. destruct fuel as [|f]; [cbn in Le; lia|]. cbn [descend]. rewrite E, IH by (cbn in Le; lia). now rewrite innermost_cons.
  Qed.
  Lemma exit_up_ok : forall p s c fuel w, olin s (p ++ c) -> (forall x, In x p -> ~ In x c) -> length p <= fuel -> exit_up B parent fuel (hd_opt c) s w = Some (@map _ (call Ms) Exit p, exit_all B p w).
  Proof.
    induction p as [|x p IH]; intros s c fuel w O D Le.
    - cbn in O. rewrite (olin_hd _ _ O). destruct fuel; cbn; rewrite opt_eqb_refl; reflexivity.
    - destruct s as [s|]; cbn in O; [|discriminate]. destruct (lin_parent _ _ O) as (r & E & O'). injection E as -> <-. destruct fuel as [|f]; [cbn in Le; lia|]. cbn [exit_up].
      replace (opt_eqb (Some s) (hd_opt c)) with false.
      + rewrite (IH _ c f _ O'); [reflexivity| |cbn in Le; lia]. intros y Hy. apply D. now right.
      + symmetry. apply opt_eqb_neq. destruct c as [|y c]; [discriminate|]. cbn. intros E. injection E as ->. apply (D y); now left.
  Qed.
  Lemma do_exits_ok s ls p c act inner fuel w : lineage s ls -> ls = p ++ c -> typed act -> below act s inner -> H <= fuel ->
    do_exits B parent fuel (hd_opt c) s act w = Some (@map _ (call Ms) Exit (rev inner ++ p), exit_all B (rev inner ++ p) w).
  Proof.
    intros L -> T Bl Hf. unfold do_exits. pose proof (below_len _ _ _ T Bl) as Li. rewrite (descend_ok act s inner fuel Bl) by lia.
    pose proof (below_lin act s inner _ T Bl L) as Lx. rewrite app_assoc in Lx. apply exit_up_ok; [exact Lx| |].
    - pose proof (lin_nodup _ _ Lx) as Nd. apply NoDup_app_iff in Nd as (_ & _ & D). exact D.
    - pose proof (lin_len _ _ Lx) as Le. rewrite app_length in Le. lia.
  Qed.

  (** ** entering *)
  Lemma enter_all_exists l w : exists k st w', enter_all B max l w k st w' /\ k <= length l /\ (st = Done -> k = length l) /\ (st = Done \/ st = Change_forbidden) /\ (l <> [] -> 0 < k).
  Proof.
    revert w. induction l as [|x l IH]; intros w; [exists 0, Done, w; conj; [constructor|lia|reflexivity|tauto|congruence]|].
    destruct (b_enter B x w) as (w1 & r) eqn:E. destruct (Nat.eq_dec r (no_state_change max)) as [->|N].
    - destruct (IH w1) as (k & st & w' & Ea & Le & Hd & Hs & _). exists (S k), st, w'. conj; [econstructor; eassumption|cbn; lia|cbn; intros; f_equal; auto|exact Hs|lia].
    - exists 1, Change_forbidden, w1. conj; [econstructor; eassumption|cbn; lia|discriminate|tauto|lia].
  Qed.
  Lemma enter_all_app a b w k st w' : enter_all B max (a ++ b) w k st w' ->
    (exists w1 k', enter_all B max a w (length a) Done w1 /\ enter_all B max b w1 k' st w' /\ k = length a + k') \/ (enter_all B max a w k st w' /\ st = Change_forbidden /\ k <= length a).
  Proof.
    revert w k. induction a as [|x a IH]; intros w k E; [left; exists w, k; conj; [constructor|exact E|reflexivity]|]. cbn in E. inversion E as [|? ? ? w1 ? ? ? Ex Ea|? ? ? w1 r Ex N]; subst.
    - destruct (IH _ _ Ea) as [(w2 & k' & E1 & E2 & ->)|(E1 & -> & Le)]; [left; exists w2, k'; conj; [econstructor; eassumption|exact E2|reflexivity]|right; conj; [econstructor; eassumption|reflexivity|cbn; lia]].
    - right. conj; [econstructor; eassumption|reflexivity|cbn; lia].
  Qed.
  Lemma activate_app a b act : activate parent (a ++ b) act = activate parent b (activate parent a act).
  Proof. unfold activate. apply fold_left_app. Qed.
  Lemma typed_activate l act : typed act -> typed (activate parent l act).
  Proof.
    revert act. induction l as [|x l IH]; intros act T; [exact T|]. cbn. apply IH. destruct (parent x) as [p|] eqn:E; [|exact T]. intros s c. destruct (Nat.eqb_spec s p) as [->|N]; [|apply T]. intros E'. injection E' as <-. exact E.
  Qed.
  Lemma default_loop_ok t d : below default t d -> forall fuel act w k st w', length d <= fuel -> enter_all B max d w k st w' ->
    exists i, default_loop B max parent default fuel t act w = Some (@map _ (call Ms) Enter (firstn k d), st, i, activate parent (firstn k d) act, w') /\ (st = Done -> i = innermost d t).
  Proof.
    induction 1 as [t E|t c d E Bl IH]; intros fuel act w k st w' Le Ea.
    - inversion Ea; subst. exists t. destruct fuel; cbn; rewrite E; split; reflexivity.
    - destruct fuel as [|f]; [cbn in Le; lia|]. cbn [default_loop]. rewrite E. pose proof (hi_default _ _ _ HH _ _ E) as Ep. rewrite Ep.
      inversion Ea as [|? ? ? w1 k' ? ? Ex Ea'|? ? ? w1 r Ex N]; subst; rewrite Ex; cbn [fst snd].
      + rewrite Nat.eqb_refl. destruct (IH f (set_active act t c) w1 k' st w') as (i & Q & Hi); [cbn in Le; lia|exact Ea'|]. rewrite Q. exists i. cbn [firstn map activate fold_left]. rewrite Ep. split; [reflexivity|].
        intros Hst. rewrite innermost_cons. now apply Hi.
      + replace (Nat.eqb (no_state_change max) r) with false by (symmetry; apply Nat.eqb_neq; congruence). exists c. cbn [firstn map activate fold_left]. rewrite Ep. split; [reflexivity|discriminate].
  Qed.
  (** the part of do_enters before the enter action of the target *)
  Definition enter_pre (f : nat) (root : option nat) (t : nat) (act : act_t) (w : W) : option (@out W Ms) :=
    match parent t with
    | Some p => if negb (opt_eqb root (Some t))
                then match (if negb (opt_eqb (Some p) root) then do_enters B max parent default f root p false act w else Some ([], Done, 0, act, w)) with
                     | Some (tr, Done, i, act, w) => Some (tr, Done, i, set_active act p t, w)
                     | r => r
                     end
                else Some ([], Done, 0, act, w)
    | None => Some ([], Done, 0, act, w)
    end.
  Lemma do_enters_S f root t b act w : do_enters B max parent default (S f) root t b act w =
    match enter_pre f root t act w with
      | Some (tr, Done, _, act, w) =>
        let wr := b_enter B t w in
        if Nat.eqb (no_state_change max) (snd wr)
        then if b
             then match default_loop B max parent default (S f) t act (fst wr) with
                  | Some (tr', st, i, act, w) => Some (tr ++ Enter t :: tr', st, i, act, w)
                  | None => None
                  end
             else Some (tr ++ [Enter t], Done, no_state_change max, act, fst wr)
        else Some (tr ++ [Enter t], Change_forbidden, t, act, fst wr)
      | r => r
      end.
  Proof.
    cbn [do_enters]. unfold enter_pre. cbv zeta. destruct (parent t) as [p|]; [|reflexivity]. destruct (negb (opt_eqb root (Some t))); [|reflexivity].
    destruct (negb (opt_eqb (Some p) root)); [|reflexivity]. destruct (do_enters B max parent default f root p false act w) as [((((tr & st) & i) & a) & w1)|]; [|reflexivity]. destruct st; reflexivity.
  Qed.
  (** entering the ancestors of t that are below the root *)
  Definition pre_post (q : list nat) t act w (o : option (@out W Ms)) : Prop :=
    forall k st w', enter_all B max (rev q) w k st w' ->
      exists i, o = Some (map Enter (firstn k (rev q)), st, i, (match st with Done => fun a => match parent t with Some p => set_active a p t | None => a end | _ => fun a => a end) (activate parent (firstn k (rev q)) act), w').
  Lemma enter_pre_ok : forall q t c f act w, lineage t (t :: q ++ c) -> (forall x, In x (t :: q) -> ~ In x c) -> length q <= f -> pre_post q t act w (enter_pre f (hd_opt c) t act w).
  Proof.
    induction q as [|p q IH]; intros t c f act w L D Le k st w' Ea.
    - inversion Ea; subst. unfold enter_pre. destruct (lin_parent _ _ L) as (r & E & O). injection E as <-. cbn in O. destruct (parent t) as [p|].
      + pose proof (olin_hd _ _ O) as Hc. rewrite <- Hc, opt_eqb_refl. cbn [negb]. replace (opt_eqb (Some p) (Some t)) with false; [exists 0; reflexivity|].
        symmetry. apply opt_eqb_neq. intros E. injection E as ->. destruct c as [|y c]; [discriminate|]. injection Hc as <-. apply (D t); now left.
      + exists 0. reflexivity.
    - unfold enter_pre. destruct (lin_parent _ _ L) as (r & E & O). injection E as <-. cbn [app] in O. pose proof (olin_hd _ _ O) as Hp. cbn in Hp. rewrite Hp in *. cbn in O.
      replace (opt_eqb (hd_opt c) (Some t)) with false. 2:{ symmetry. apply opt_eqb_neq. destruct c as [|y c]; [discriminate|]. cbn. intros E. injection E as ->. apply (D t); now left. }
      replace (opt_eqb (Some p) (hd_opt c)) with false. 2:{ symmetry. apply opt_eqb_neq. destruct c as [|y c]; [discriminate|]. cbn. intros E. injection E as ->. apply (D y); [right; now left|now left]. }
      cbn [negb]. destruct f as [|f]; [cbn in Le; lia|]. rewrite do_enters_S.
      assert (forall x, In x (p :: q) -> ~ In x c) as D' by (intros x Hx; apply D; now right).
      pose proof (IH p c f act w O D' ltac:(cbn in Le; lia)) as IH'. cbn [rev] in Ea.
      apply enter_all_app in Ea as [(w1 & k' & E1 & E2 & ->)|(E1 & -> & Lk)].
      + destruct (IH' _ _ _ E1) as (i & ->). cbv zeta. rewrite firstn_all. cbn [rev]. inversion E2 as [|? ? ? w2 k2 ? ? Ex Ea'|? ? ? w2 r Ex N]; subst; rewrite Ex; cbn [fst snd].
        * inversion Ea'; subst. rewrite Nat.eqb_refl. rewrite firstn_app, firstn_all2 by lia. replace (length (rev q) + 1 - length (rev q)) with 1 by lia. cbn [firstn]. rewrite map_app, activate_app. eexists. cbn. reflexivity.
        * replace (Nat.eqb (no_state_change max) r) with false by (symmetry; apply Nat.eqb_neq; congruence). rewrite firstn_app, firstn_all2 by lia. replace (length (rev q) + 1 - length (rev q)) with 1 by lia. cbn [firstn]. rewrite map_app, activate_app. eexists. cbn. reflexivity.
      + destruct (IH' _ _ _ E1) as (i & ->). cbn [rev]. exists i. rewrite firstn_app. replace (k - length (rev q)) with 0 by lia. cbn [firstn]. rewrite app_nil_r. reflexivity.
  Qed.
  Lemma do_enters_ok t lt p2 c d fuel act w k st w' : lineage t lt -> lt = p2 ++ c -> (forall x, In x p2 -> ~ In x c) -> p2 <> [] -> below default t d -> H <= fuel ->
    enter_all B max (rev p2 ++ d) w k st w' ->
    exists i, do_enters B max parent default fuel (hd_opt c) t true act w = Some (map Enter (firstn k (rev p2 ++ d)), st, i, activate parent (firstn k (rev p2 ++ d)) act, w') /\ (st = Done -> i = innermost d t).
  Proof.
    intros L El D Np Bd Hf Ea. destruct (lin_parent _ _ L) as (r & Er & O). destruct p2 as [|y q]; [congruence|]. rewrite El in *. cbn [app] in Er. injection Er as -> <-.
    pose proof (lin_len _ _ L) as Ll. cbn in Ll. rewrite app_length in Ll. destruct fuel as [|f]; [lia|]. rewrite do_enters_S.
    pose proof (enter_pre_ok q t c f act w L D ltac:(lia)) as P. pose proof (below_len _ _ _ (hi_default _ _ _ HH) Bd) as Ld.
    cbn [rev] in Ea. rewrite <- app_assoc in Ea. cbn [rev]. rewrite <- app_assoc. cbn [app] in *. apply enter_all_app in Ea as [(w1 & k' & E1 & E2 & ->)|(E1 & -> & Lk)].
    - destruct (P _ _ _ E1) as (i0 & ->). cbv zeta. rewrite firstn_all2 with (n := length (rev q)) by lia.
      rewrite firstn_app, firstn_all2 by lia. replace (length (rev q) + k' - length (rev q)) with k' by lia.
      inversion E2 as [|? ? ? w2 k2 ? ? Ex Ea'|? ? ? w2 r Ex N]; subst; rewrite Ex; cbn [fst snd firstn].
      + rewrite Nat.eqb_refl. match goal with |- context[default_loop B max parent default (S f) t ?a w2] => destruct (default_loop_ok t d Bd (S f) a w2 k2 st w' ltac:(lia) Ea') as (i & -> & Hi) end.
        exists i. split; [|exact Hi]. rewrite map_app, activate_app. cbn [map activate fold_left]. reflexivity.
      + replace (Nat.eqb (no_state_change max) r) with false by (symmetry; apply Nat.eqb_neq; congruence). exists t. split; [|discriminate]. rewrite map_app, activate_app. reflexivity.
    - destruct (P _ _ _ E1) as (i0 & ->). exists i0. split; [|discriminate]. rewrite firstn_app. replace (k - length (rev q)) with 0 by lia. cbn [firstn]. rewrite app_nil_r. reflexivity.
  Qed.
  Lemma do_enters_root t c d fuel act w k st w' : lineage t c -> below default t d -> H <= fuel -> enter_all B max (t :: d) w k st w' ->
    exists i, do_enters B max parent default fuel (hd_opt c) t true act w = Some (map Enter (firstn k (t :: d)), st, i, activate parent (tl (firstn k (t :: d))) act, w') /\ (st = Done -> i = innermost d t).
  Proof.
    intros L Bd Hf Ea. destruct (lin_parent _ _ L) as (r & -> & O). pose proof (lin_len _ _ L) as Ll. cbn in Ll. destruct fuel as [|f]; [lia|]. rewrite do_enters_S.
    assert (enter_pre f (hd_opt (t :: r)) t act w = Some ([], Done, 0, act, w)) as ->. { unfold enter_pre. destruct (parent t); [|reflexivity]. cbn [hd_opt]. rewrite opt_eqb_refl. reflexivity. }
    pose proof (below_len _ _ _ (hi_default _ _ _ HH) Bd) as Ld. cbv zeta. inversion Ea as [|? ? ? w2 k2 ? ? Ex Ea'|? ? ? w2 r' Ex N]; subst; rewrite Ex; cbn [fst snd firstn].
    - rewrite Nat.eqb_refl. destruct (default_loop_ok t d Bd (S f) act w2 k2 st w' ltac:(lia) Ea') as (i & -> & Hi). exists i. split; [reflexivity|exact Hi].
    - replace (Nat.eqb (no_state_change max) r') with false by (symmetry; apply Nat.eqb_neq; congruence). exists t. split; [reflexivity|discriminate].
  Qed.

  (** ** the machine *)
  Hypothesis Hknown : forall s c, default s = Some c -> c < n.
  Hypothesis Hn : 0 < n.
  Hypothesis Hmax : n <= max.
  Lemma innermost_known t d : below default t d -> t < n -> innermost d t < n.
  Proof. induction 1 as [t E|t c d E Bl IH]; intros Ht; [exact Ht|]. rewrite innermost_cons. apply IH. eapply Hknown; exact E. Qed.
  Definition good (x : @hstate W) : Prop := typed (snd (fst x)) /\ match fst (fst x) with Some s => s < n | None => True end.
  Lemma neq_no_change i : i < n -> Nat.eqb i (no_state_change max) = false.
  Proof. intros L. apply Nat.eqb_neq. unfold no_state_change. lia. Qed.
  Lemma op_ok fuel o x : H <= fuel -> good x -> exists tr st a y, h_op B n max parent default fuel o x = Some (tr, st, a, y) /\ hdoes parent default B n max o x tr st a y /\ good y.
  Proof.
    intros Hf. destruct x as (([s|] & act) & w); intros (T & Hc); cbn [fst snd] in *; destruct o as [e|m|e| |]; cbn [h_op hstart hreceive hreset fst snd]; cbv zeta.
    - do 4 eexists. conj; [reflexivity|constructor|split; assumption].
    - destruct (b_process B s m w) as (w1 & r) eqn:Ep. cbn [fst snd]. destruct (Nat.eqb_spec r (no_state_change max)) as [E|E]; cbn [negb].
      { do 4 eexists. conj; [reflexivity|eapply hd_receive_stay; [eassumption|tauto]|split; assumption]. }
      destruct (Nat.ltb_spec r n) as [L|L]. 2:{ do 4 eexists. conj; [reflexivity|eapply hd_receive_bad; eassumption|split; assumption]. }
      destruct (Nat.eqb_spec r s) as [E'|E']; cbn [negb].
      { do 4 eexists. conj; [reflexivity|eapply hd_receive_stay; [eassumption|tauto]|split; assumption]. }
      destruct (lin_exists_len s) as (ls & Ls & _). destruct (lin_exists_len r) as (lt & Lt & _). destruct (common_ok s r ls lt fuel Ls Lt Hf) as (p1 & p2 & c & Me & ->).
      destruct (below_exists act T s) as (inner & Bi & _). destruct (below_exists default (hi_default _ _ _ HH) r) as (d & Bd & _).
      pose proof (meet_exit _ _ _ _ _ Me) as Qx. destruct (meet_enter _ _ _ _ _ _ _ Ls Lt Me) as (Qe & Qm). pose proof Me as (El & Et & D1 & D2).
      rewrite (do_exits_ok s ls p1 c act inner fuel w1 Ls El T Bi Hf).
      destruct (enter_all_exists (to_enter ls lt r ++ d) (exit_all B (rev inner ++ p1) w1)) as (k & st & w' & Ea & _ & _ & Hst & _).
      assert (exists i, do_enters B max parent default fuel (hd_opt c) r true act (exit_all B (rev inner ++ p1) w1) =
        Some (map Enter (firstn k (to_enter ls lt r ++ d)), st, i, activate parent (if mem ls r then tl (firstn k (to_enter ls lt r ++ d)) else firstn k (to_enter ls lt r ++ d)) act, w') /\ (st = Done -> i = innermost d r)) as (i & Q & Hi).
      { rewrite Qm. rewrite Qe in *. destruct p2 as [|y p2].
        - cbn [app] in *. subst lt. exact (do_enters_root r c d fuel act _ k st w' Lt Bd Hf Ea).
        - apply (do_enters_ok r lt (y :: p2) c d fuel act _ k st w' Lt Et); try assumption; [|discriminate]. intros x Hx C. apply (D2 x Hx). rewrite El. apply in_app_iff. now right. }
      rewrite Q. pose proof (innermost_known r d Bd L) as Li.
      assert (moves parent default B max s r act w1 (map Exit (rev inner ++ p1) ++ map Enter (firstn k (to_enter ls lt r ++ d))) st (match st with Done => innermost d r | _ => r end)
        (activate parent (if mem ls r then tl (firstn k (to_enter ls lt r ++ d)) else firstn k (to_enter ls lt r ++ d)) act) w') as Mv.
      { rewrite <- Qx in *. apply m_move; assumption. }
      destruct Hst as [->| ->].
      + rewrite (Hi eq_refl), (neq_no_change _ Li). cbn [negb]. replace (innermost d r <? n) with true by (symmetry; now apply Nat.ltb_lt).
        do 4 eexists. conj; [reflexivity|eapply hd_receive_move; eassumption|]. split; [now apply typed_activate|exact Li].
      + do 4 eexists. conj; [reflexivity|eapply hd_receive_move; eassumption|]. split; [now apply typed_activate|exact L].
    - destruct e.
      + destruct (lin_exists_len s) as (ls & Ls & _). destruct (below_exists act T s) as (inner & Bi & _). pose proof (do_exits_ok s ls ls [] act inner fuel w Ls (eq_sym (app_nil_r ls)) T Bi Hf) as Q. cbn [hd_opt] in Q. rewrite Q.
        do 4 eexists. conj; [reflexivity|constructor; assumption|split; [exact T|exact I]].
      + do 4 eexists. conj; [reflexivity|apply hd_reset_quiet|split; [exact T|exact I]].
    - do 4 eexists. conj; [reflexivity|constructor|split; assumption].
    - do 4 eexists. conj; [reflexivity|apply hd_is with (c := Some s)|split; assumption].
    - destruct e.
      + destruct (lin_exists_len 0) as (lt & Lt & _). destruct (below_exists default (hi_default _ _ _ HH) 0) as (d & Bd & _).
        destruct (enter_all_exists (rev lt ++ d) w) as (k & st & w' & Ea & _ & _ & Hst & _).
        destruct (do_enters_ok 0 lt lt [] d fuel act w k st w' Lt (eq_sym (app_nil_r lt))) as (i & Q & Hi); try assumption; [intros x _ []|destruct (lin_parent _ _ Lt) as (r & -> & _); discriminate|].
        cbn [hd_opt] in Q. rewrite Q. pose proof (innermost_known 0 d Bd Hn) as Li. destruct Hst as [->| ->].
        * rewrite (Hi eq_refl), (neq_no_change _ Li). do 4 eexists. conj; [reflexivity|exact (hd_start _ _ _ _ _ act w lt d k Done w' Lt Bd Ea)|]. split; [now apply typed_activate|exact Li].
        * do 4 eexists. conj; [reflexivity|exact (hd_start _ _ _ _ _ act w lt d k Change_forbidden w' Lt Bd Ea)|]. split; [now apply typed_activate|exact Hn].
      + do 4 eexists. conj; [reflexivity|constructor|split; [exact T|exact Hn]].
    - do 4 eexists. conj; [reflexivity|constructor|split; [exact T|exact I]].
    - destruct e; do 4 eexists; (conj; [reflexivity|apply hd_reset_not|split; [exact T|exact I]]).
    - do 4 eexists. conj; [reflexivity|constructor|split; [exact T|exact I]].
    - do 4 eexists. conj; [reflexivity|apply hd_is with (c := None)|split; [exact T|exact I]].
  Qed.
  Lemma ops_ok fuel : H <= fuel -> forall os x, good x -> exists r z, h_ops B n max parent default fuel os x = Some (r, z) /\ hhistory parent default B n max os x r z.
  Proof.
    intros Hf. induction os as [|o os IH]; intros x G; [do 2 eexists; split; [reflexivity|constructor]|]. cbn [h_ops].
    destruct (op_ok fuel o x Hf G) as (tr & st & a & y & -> & D & Gy). destruct (IH y Gy) as (r & z & -> & Hh). do 2 eexists. split; [reflexivity|econstructor; eassumption].
  Qed.
End P.
