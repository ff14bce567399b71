(** * Proofs about FlatModel.v *)
From Coq Require Import List Arith Bool Lia Permutation.
From Verif Require Import Util Slots SortModel SortSpec HeapProofs SortProofs SortProofs2 AlgoSpec AlgoProofs AlgoProps FlatSpec FlatModel PrioModel.
Import ListNotations.

Section Filters.
  Context {A : Type}.
  Lemma Forall2_length {B} (R : A -> B -> Prop) la lb : Forall2 R la lb -> List.length la = List.length lb.
  Proof. induction 1; cbn; congruence. Qed.
  Lemma filter_all (p : A -> bool) l : Forall (fun x => p x = true) l -> filter p l = l.
  Proof. induction 1 as [|x l H _ IH]; [reflexivity|]. cbn. rewrite H. now rewrite IH. Qed.
  Lemma filter_nothing (p : A -> bool) l : Forall (fun x => p x = false) l -> filter p l = [].
  Proof. induction 1 as [|x l H _ IH]; [reflexivity|]. cbn. rewrite H. exact IH. Qed.
  Lemma existsb_nothing (p : A -> bool) l : Forall (fun x => p x = false) l -> existsb p l = false.
  Proof. induction 1 as [|x l H _ IH]; [reflexivity|]. cbn. now rewrite H. Qed.
  Lemma find_app (p : A -> bool) l1 l2 : Forall (fun x => p x = false) l1 -> find p (l1 ++ l2) = find p l2.
  Proof. induction 1 as [|x l H _ IH]; [reflexivity|]. cbn. rewrite H. exact IH. Qed.
  Lemma split_unique (f : A -> bool) p q r : r <= List.length (p ++ q) -> Forall (fun x => f x = true) p -> Forall (fun x => f x = false) q ->
    Forall (fun x => f x = true) (firstn r (p ++ q)) -> Forall (fun x => f x = false) (skipn r (p ++ q)) -> r = List.length p.
  Proof.
    intros L Fp Fq F1 F2. assert (List.length (filter f (p ++ q)) = r) as E1.
    { rewrite <- (firstn_skipn r (p ++ q)), filter_app, (filter_all _ _ F1), (filter_nothing _ _ F2), app_nil_r, firstn_length_le by lia. reflexivity. }
    rewrite filter_app, (filter_all _ _ Fp), (filter_nothing _ _ Fq), app_nil_r in E1. congruence.
  Qed.
End Filters.

Section Flat.
  Context {E K : Type}.
  Variable key : E -> K.
  Variable lt : K -> K -> bool.
  Hypothesis O : strict_weak_order lt.
  Variable N : nat.
  Variable unique : bool.
  Variable fl : flavour.
  Variable mk : K -> E.
  Hypothesis Hmk : forall k, key (mk k) = k.
  Variable triv : bool.
  Variable pick : list (option E) -> option nat.
  Hypothesis Hpick : forall s, In None s -> exists p, pick s = Some p /\ nth_error s p = Some None.

  Let ltE (a b : E) := lt (key a) (key b).
  Lemma swoE : strict_weak_order ltE.
  Proof. unfold ltE. constructor; intros; eauto using swo_irrefl, swo_trans, swo_incomparable. Qed.
  (** [ordered] as a sortedness, so that the lemmas about appending apply *)
  Let viol (y x : E) : bool := if unique then negb (lt (key x) (key y)) else lt (key y) (key x).
  Lemma ordered_sorted l : ordered key lt unique l <-> sorted viol l.
  Proof.
    unfold ordered, sorted, viol. split; intros H i j a b Hij Ha Hb; specialize (H i j a b Hij Ha Hb); destruct unique; try assumption.
    - now rewrite H.
    - now apply negb_false_iff.
  Qed.
  Lemma ordered_ltE l : ordered key lt unique l -> sorted ltE l.
  Proof.
    intros H i j a b Hij Ha Hb. specialize (H i j a b Hij Ha Hb). unfold ltE. destruct unique; [|exact H]. now apply (lt_asym lt O).
  Qed.

  (** an ordered list, seen from a key *)
  Definition view (k : K) (l p m s : list E) : Prop :=
    l = p ++ m ++ s /\ Forall (fun x => lt (key x) k = true) p /\ Forall (fun x => lt (key x) k = false /\ lt k (key x) = false) m /\ Forall (fun x => lt k (key x) = true) s.
  Lemma view_exists k l : ordered key lt unique l -> exists p m s, view k l p m s /\ (unique = true -> List.length m <= 1).
  Proof.
    intros Ho. pose proof (ordered_ltE l Ho) as Hs.
    assert (exists p m s, view k l p m s) as (p & m & s & Hv).
    { clear Ho. induction l as [|x l IH]; [exists [], [], []; unfold view; conj; try reflexivity; repeat constructor|].
      apply sorted_cons in Hs as (Hs & Hb). destruct (IH Hs) as (p & m & s & -> & Fp & Fm & Fs).
      assert (forall y, In y (p ++ m ++ s) -> lt (key y) (key x) = false) as Kb. { intros y Hy. apply (Hb x y); [now left|exact Hy]. }
      destruct (lt (key x) k) eqn:E1.
      - exists (x :: p), m, s. unfold view. conj; try assumption; try reflexivity. now constructor.
      - assert (p = []) as ->. { destruct p as [|y p]; [reflexivity|]. inversion Fp; subst. assert (lt (key y) (key x) = false) as Q by (apply Kb; now left).
          pose proof (nlt_trans lt O k (key x) (key y) E1 Q). congruence. }
        destruct (lt k (key x)) eqn:E2.
        + assert (m = []) as ->. { destruct m as [|y m]; [reflexivity|]. inversion Fm as [|? ? (H1 & H2)]; subst. assert (lt (key y) (key x) = false) as Q by (apply Kb; now left).
            rewrite (lt_nlt_trans lt O k (key x) (key y) E2 Q) in H2. discriminate. }
          exists [], [], (x :: s). unfold view. conj; try reflexivity; try constructor; assumption.
        + exists [], (x :: m), s. unfold view. conj; try assumption; try reflexivity. constructor; [split; assumption|assumption]. }
    exists p, m, s. split; [exact Hv|]. intros Hu. destruct m as [|x [|y m]]; cbn; try lia. exfalso.
    destruct Hv as (-> & _ & Fm & _). inversion Fm as [|? ? (H1 & H2) Fm']; subst. inversion Fm' as [|? ? (H3 & H4) _]; subst.
    specialize (Ho (List.length p) (S (List.length p)) x y). assert (lt (key x) (key y) = true) as C.
    { apply Ho; [lia|apply rd_mid|]. rewrite nth_error_app2 by lia. now replace (S (List.length p) - List.length p) with 1 by lia. }
    assert (lt (key x) (key y) = false) as C'. { apply (nlt_trans lt O (key y) k (key x)); assumption. } congruence.
  Qed.
  Section View.
    Variables (k : K) (l p m s : list E).
    Hypothesis W : view k l p m s.
    Lemma v_p_ng : Forall (fun x => negb (lt k (key x)) = true) p.
    Proof. destruct W as (_ & Fp & _). eapply Forall_impl; [|exact Fp]. intros x Hx. cbn in *. now rewrite (lt_asym lt O _ _ Hx). Qed.
    Lemma v_m_ng : Forall (fun x => negb (lt k (key x)) = true) m.
    Proof. destruct W as (_ & _ & Fm & _). eapply Forall_impl; [|exact Fm]. intros x (H1 & H2). now rewrite H2. Qed.
    Lemma v_m_nl : Forall (fun x => lt (key x) k = false) m.
    Proof. destruct W as (_ & _ & Fm & _). eapply Forall_impl; [|exact Fm]. intros x (H1 & H2). exact H1. Qed.
    Lemma v_m_ng' : Forall (fun x => lt k (key x) = false) m.
    Proof. destruct W as (_ & _ & Fm & _). eapply Forall_impl; [|exact Fm]. intros x (H1 & H2). exact H2. Qed.
    Lemma v_p_ng' : Forall (fun x => lt k (key x) = false) p.
    Proof. destruct W as (_ & Fp & _). eapply Forall_impl; [|exact Fp]. intros x Hx. cbn in *. now apply (lt_asym lt O). Qed.
    Lemma v_s_nl : Forall (fun x => lt (key x) k = false) s.
    Proof. destruct W as (_ & _ & _ & Fs). eapply Forall_impl; [|exact Fs]. intros x Hx. cbn in *. now apply (lt_asym lt O). Qed.
    Lemma v_s_g : Forall (fun x => negb (lt k (key x)) = false) s.
    Proof. destruct W as (_ & _ & _ & Fs). eapply Forall_impl; [|exact Fs]. intros x Hx. cbn in *. now rewrite Hx. Qed.
    Lemma v_same_p : Forall (fun x => same_key key lt k x = false) p.
    Proof. destruct W as (_ & Fp & _). eapply Forall_impl; [|exact Fp]. intros x Hx. cbn in *. unfold same_key, equivalent. now rewrite Hx. Qed.
    Lemma v_same_m : Forall (fun x => same_key key lt k x = true) m.
    Proof. destruct W as (_ & _ & Fm & _). eapply Forall_impl; [|exact Fm]. intros x (H1 & H2). unfold same_key, equivalent. now rewrite H1, H2. Qed.
    Lemma v_same_s : Forall (fun x => same_key key lt k x = false) s.
    Proof. destruct W as (_ & _ & _ & Fs). eapply Forall_impl; [|exact Fs]. intros x Hx. cbn in *. unfold same_key, equivalent. rewrite Hx. apply andb_false_r. Qed.
    Lemma v_before : before key lt k l = List.length p.
    Proof.
      unfold before. destruct W as (El & Fp & _). rewrite El. rewrite !filter_app, (filter_all _ _ Fp), (filter_nothing _ _ v_m_nl), (filter_nothing _ _ v_s_nl). now rewrite !app_nil_r.
    Qed.
    Lemma v_ngs : filter (fun x => negb (lt k (key x))) l = p ++ m.
    Proof. destruct W as (El & _). rewrite El. rewrite !filter_app, (filter_all _ _ v_p_ng), (filter_all _ _ v_m_ng), (filter_nothing _ _ v_s_g). now rewrite app_nil_r. Qed.
    Lemma v_gs : filter (fun x => lt k (key x)) l = s.
    Proof. destruct W as (El & _ & _ & Fs). rewrite El. rewrite !filter_app, (filter_nothing _ _ v_p_ng'), (filter_nothing _ _ v_m_ng'), (filter_all _ _ Fs). reflexivity. Qed.
    Lemma v_upto : upto key lt k l = List.length p + List.length m.
    Proof. unfold upto. rewrite v_ngs. apply app_length. Qed.
    Lemma v_same : filter (same_key key lt k) l = m.
    Proof. destruct W as (El & _). rewrite El. rewrite !filter_app, (filter_nothing _ _ v_same_p), (filter_all _ _ v_same_m), (filter_nothing _ _ v_same_s). apply app_nil_r. Qed.
    Lemma v_not_same : filter (fun x => negb (same_key key lt k x)) l = p ++ s.
    Proof.
      destruct W as (El & _). rewrite El. rewrite !filter_app. rewrite (filter_all _ p), (filter_nothing _ m), (filter_all _ s); [reflexivity| | |].
      - eapply Forall_impl; [|exact v_same_s]. intros x Hx. cbn in *. now rewrite Hx.
      - eapply Forall_impl; [|exact v_same_m]. intros x Hx. cbn in *. now rewrite Hx.
      - eapply Forall_impl; [|exact v_same_p]. intros x Hx. cbn in *. now rewrite Hx.
    Qed.
    Lemma v_present : present key lt k l = match m with [] => false | _ => true end.
    Proof.
      unfold present. destruct W as (El & _). rewrite El. rewrite !existsb_app, (existsb_nothing _ _ v_same_p), (existsb_nothing _ _ v_same_s), orb_false_r. cbn.
      pose proof v_same_m as F. destruct m as [|x m']; [reflexivity|]. inversion F; subst. cbn. now rewrite H1.
    Qed.
    Lemma v_find : find (same_key key lt k) l = match m with [] => None | x :: _ => Some x end.
    Proof.
      destruct W as (El & _). rewrite El. rewrite (find_app _ _ _ v_same_p). pose proof v_same_m as F. pose proof v_same_s as G. destruct m as [|x m'].
      - cbn. rewrite <- (app_nil_r s). rewrite (find_app _ _ _ G). reflexivity.
      - inversion F; subst. cbn. now rewrite H1.
    Qed.
    Lemma v_lower : lower_bound_by l (fun e => lt (key e) k) = Some (List.length p).
    Proof.
      destruct W as (El & Fp & _). assert (AlgoSpec.partitioned (fun e => lt (key e) k) l) as P.
      { exists p, (m ++ s). conj; [exact El|exact Fp|]. apply Forall_app. split; [exact v_m_nl|exact v_s_nl]. }
      destruct (bound_split _ _ P) as (r & H & L & F1 & F2). rewrite H. f_equal. pose proof v_m_nl as G1. pose proof v_s_nl as G2. clear W H P. subst l.
      apply (split_unique (fun e => lt (key e) k) p (m ++ s)); try assumption. apply Forall_app. split; assumption.
    Qed.
    Lemma v_upper : upper_bound_by l (fun e => lt k (key e)) = Some (List.length p + List.length m).
    Proof.
      destruct W as (El & _). unfold upper_bound_by. rewrite app_assoc in El.
      assert (Forall (fun x => negb (lt k (key x)) = true) (p ++ m)) as Fpm by (apply Forall_app; split; [exact v_p_ng|exact v_m_ng]).
      assert (AlgoSpec.partitioned (fun e => negb (lt k (key e))) l) as P.
      { exists (p ++ m), s. conj; [exact El|exact Fpm|exact v_s_g]. }
      destruct (bound_split _ _ P) as (r & H & L & F1 & F2). unfold lower_bound_by in H. rewrite H. f_equal. rewrite <- app_length. pose proof v_s_g as G2. clear W H P. subst l.
      apply (split_unique (fun e => negb (lt k (key e))) (p ++ m) s); try assumption.
    Qed.
    Lemma v_upper_from : upper_bound_by (skipn (List.length p) l) (fun e => lt k (key e)) = Some (List.length m).
    Proof.
      assert (view k (m ++ s) [] m s) as W'. { destruct W as (El & _ & Fm & Fs). unfold view. conj; try assumption; try reflexivity. constructor. }
      destruct W as (El & _). rewrite El at 1. rewrite skipn_app, skipn_all, Nat.sub_diag. cbn [app skipn].
      clear - W' O. revert W'. generalize (m ++ s). intros l' W'.
      destruct W' as (El & _ & Fm & Fs). unfold upper_bound_by.
      assert (Forall (fun x => negb (lt k (key x)) = true) m) as F1 by (eapply Forall_impl; [|exact Fm]; intros x (H1 & H2); now rewrite H2).
      assert (Forall (fun x => negb (lt k (key x)) = false) s) as F2 by (eapply Forall_impl; [|exact Fs]; intros x Hx; cbn in *; now rewrite Hx).
      assert (AlgoSpec.partitioned (fun e => negb (lt k (key e))) l') as P. { exists m, s. conj; assumption. }
      destruct (bound_split _ _ P) as (r & H & L & G1 & G2). unfold lower_bound_by in H. rewrite H. f_equal. clear H P. cbn [app] in El. subst l'.
      now apply (split_unique (fun e => negb (lt k (key e))) m s).
    Qed.
  End View.

  (** ** the state *)
  Notation F := (@flat E).
  Definition Inv (f : F) (l : list E) : Prop :=
    Forall2 (fun q e => nth_error (store f) q = Some (Some e)) (lookup f) l /\ NoDup (lookup f) /\
    (forall q e, nth_error (store f) q = Some (Some e) -> In q (lookup f)) /\ List.length (store f) = N /\ ordered key lt unique l.
  Lemma deref_ok (s : list (option E)) lk l : Forall2 (fun q e => nth_error s q = Some (Some e)) lk l -> deref s lk = V l.
  Proof. induction 1 as [|q e lk l H _ IH]; [reflexivity|]. cbn. unfold get. rewrite H. cbn. now rewrite IH. Qed.
  Lemma inv_elements f l : Inv f l -> elements f = V l.
  Proof. intros (H & _). now apply deref_ok. Qed.
  Lemma inv_size f l : Inv f l -> size f = List.length l.
  Proof. intros (H & _). apply (Forall2_length _ _ _ H). Qed.
  Lemma inv_le f l : Inv f l -> List.length l <= N.
  Proof.
    intros (H & Hn & _ & HN & _). rewrite <- (Forall2_length _ _ _ H). rewrite <- HN. rewrite <- (seq_length (List.length (store f)) 0).
    apply NoDup_incl_length; [exact Hn|]. intros q Hq. apply in_seq. apply In_nth_error in Hq as (i & Hi).
    destruct (nth_error l i) as [e|] eqn:Ee.
    - assert (nth_error (store f) q = Some (Some e)) as Hs. { clear - H Hi Ee. revert i Hi Ee. induction H as [|q' e' lk l' H1 _ IH]; intros [|i] Hi Ee; cbn in *; try discriminate; [congruence|eauto]. }
      apply nth_error_lt in Hs. lia.
    - apply nth_error_None in Ee. apply nth_error_lt in Hi. rewrite (Forall2_length _ _ _ H) in Hi. lia.
  Qed.
  Lemma forall2_nth {A B} (R : A -> B -> Prop) la lb i : Forall2 R la lb -> forall y, nth_error lb i = Some y -> exists x, nth_error la i = Some x /\ R x y.
  Proof. intros H. revert i. induction H as [|x0 y0 la lb H1 _ IH]; intros [|i] y Hy; cbn in *; try discriminate; [injection Hy as <-; eauto|eauto]. Qed.
  Lemma inv_elem f l i e : Inv f l -> nth_error l i = Some e -> elem f i = V e.
  Proof. intros (H & _) He. destruct (forall2_nth _ _ _ i H e He) as (q & Hq & Hs). unfold elem. rewrite Hq. unfold get. now rewrite Hs. Qed.
  Lemma inv_lower f l k p m s : Inv f l -> view k l p m s -> f_lower key lt f k = V (List.length p).
  Proof. intros H W. unfold f_lower. rewrite (inv_elements _ _ H). cbn [bind]. now rewrite (v_lower k l p m s W). Qed.
  Lemma inv_upper f l k p m s : Inv f l -> view k l p m s -> f_upper key lt f k = V (List.length p + List.length m).
  Proof. intros H W. unfold f_upper. rewrite (inv_elements _ _ H). cbn [bind]. now rewrite (v_upper k l p m s W). Qed.
  Lemma inv_equal_range f l k p m s : Inv f l -> view k l p m s -> f_equal_range key lt f k = V (List.length p, List.length p + List.length m).
  Proof. intros H W. unfold f_equal_range. rewrite (inv_lower _ _ _ _ _ _ H W). cbn [bind]. rewrite (inv_elements _ _ H). cbn [bind]. now rewrite (v_upper_from k l p m s W). Qed.
  Lemma keys_are_equal_same k e : keys_are_equal lt (key e) k = same_key key lt k e.
  Proof. reflexivity. Qed.
  (** what follows the elements before k *)
  Lemma view_at f l k p m s : Inv f l -> view k l p m s ->
    (m = [] /\ (Nat.eqb (List.length p) (size f) = true \/ exists x, Nat.eqb (List.length p) (size f) = false /\ nth_error l (List.length p) = Some x /\ elem f (List.length p) = V x /\ lt k (key x) = true /\ same_key key lt k x = false)) \/
    (exists x m', m = x :: m' /\ Nat.eqb (List.length p) (size f) = false /\ elem f (List.length p) = V x /\ lt k (key x) = false /\ same_key key lt k x = true).
  Proof.
    intros H W. pose proof (inv_size _ _ H) as Hz. destruct W as (El & Fp & Fm & Fs) eqn:EW. destruct m as [|x m'].
    - left. split; [reflexivity|]. destruct s as [|x s'].
      + left. apply Nat.eqb_eq. rewrite Hz, El. cbn. now rewrite app_nil_r.
      + right. exists x. inversion Fs; subst. assert (nth_error (p ++ [] ++ x :: s') (List.length p) = Some x) as Hx by apply rd_mid. conj; try assumption.
        * apply Nat.eqb_neq. rewrite Hz, app_length. cbn. lia.
        * exact (inv_elem _ _ _ _ H Hx).
        * unfold same_key, equivalent. rewrite H2. apply andb_false_r.
    - right. exists x, m'. inversion Fm as [|? ? (H1 & H2)]; subst. conj; try assumption; try reflexivity.
      + apply Nat.eqb_neq. rewrite Hz, app_length. cbn. lia.
      + apply (inv_elem _ _ _ _ H). apply rd_mid.
      + unfold same_key, equivalent. now rewrite H1, H2.
  Qed.
  Lemma inv_find f l k p m s : Inv f l -> view k l p m s -> f_find key lt f k = V (match m with [] => List.length l | _ => List.length p end).
  Proof.
    intros H W. unfold f_find. rewrite (inv_lower _ _ _ _ _ _ H W). cbn [bind]. pose proof (inv_size _ _ H) as Hz.
    destruct (view_at _ _ _ _ _ _ H W) as [(-> & [Q|(x & Q & Hx & He & _ & Hs)])|(x & m' & -> & Q & He & _ & Hs)]; rewrite Q; cbn [negb].
    - now rewrite Hz.
    - rewrite He. cbn [bind]. rewrite keys_are_equal_same, Hs. now rewrite Hz.
    - rewrite He. cbn [bind]. now rewrite keys_are_equal_same, Hs.
  Qed.
  Lemma inv_full f l : Inv f l -> full N f = negb (List.length l <? N).
  Proof.
    intros H. unfold full. rewrite (inv_size _ _ H). pose proof (inv_le _ _ H). destruct (Nat.eqb_spec (List.length l) N), (Nat.ltb_spec (List.length l) N); cbn; try reflexivity; lia.
  Qed.
  (** ** storage *)
  Lemma make_ok f l e : Inv f l -> List.length l < N -> exists q, make pick f e = V ({| lookup := lookup f; store := upd (store f) q (Some e) |}, q) /\ nth_error (store f) q = Some None.
  Proof.
    intros H L. assert (In None (store f)) as Hn.
    { destruct H as (H & Hn & Hl & HN & _). destruct (In_dec (fun (a b : bool) => bool_dec a b) false (map (fun o : option E => match o with Some _ => true | None => false end) (store f))) as [C|C].
      - apply in_map_iff in C as ([x|] & C1 & C2); [discriminate|exact C2].
      - exfalso. assert (incl (seq 0 N) (lookup f)) as I.
        { intros q Hq. apply in_seq in Hq. destruct (nth_error (store f) q) as [[e'|]|] eqn:Eq.
          - exact (Hl q e' Eq).
          - exfalso. apply C. apply in_map_iff. exists None. split; [reflexivity|]. eapply nth_error_In; exact Eq.
          - apply nth_error_None in Eq. lia. }
        apply NoDup_incl_length in I; [|apply seq_NoDup]. rewrite seq_length in I. rewrite (Forall2_length _ _ _ H) in I. lia. }
    destruct (Hpick _ Hn) as (q & Hq & Hf). exists q. unfold make. rewrite Hq, Hf. split; reflexivity.
  Qed.
  Lemma f2_upd (st : list (option E)) lk l q o : Forall2 (fun q e => nth_error st q = Some (Some e)) lk l -> ~ In q lk ->
    Forall2 (fun q' e => nth_error (upd st q o) q' = Some (Some e)) lk l.
  Proof.
    induction 1 as [|q' e lk l H _ IH]; intros Hn; constructor.
    - rewrite upd_other; [exact H|]. intros ->. apply Hn. now left.
    - apply IH. intros C. apply Hn. now right.
  Qed.
  Lemma f2_free (st : list (option E)) lk l q : Forall2 (fun q e => nth_error st q = Some (Some e)) lk l -> nth_error st q = Some None -> ~ In q lk.
  Proof. induction 1 as [|q' e lk l H _ IH]; intros Hq; [intros []|]. intros [->|C]; [congruence|now apply IH]. Qed.
  (** a new block, entered between two parts of the lookup *)
  Lemma enter f l e q l1 l2 : Inv f l -> nth_error (store f) q = Some None -> l = l1 ++ l2 -> ordered key lt unique (l1 ++ e :: l2) ->
    Inv {| lookup := firstn (List.length l1) (lookup f) ++ q :: skipn (List.length l1) (lookup f); store := upd (store f) q (Some e) |} (l1 ++ e :: l2).
  Proof.
    intros (H & Hn & Hl & HN & Ho) Hq El Ho'. pose proof (f2_free _ _ _ _ H Hq) as Nq. subst l.
    apply Forall2_app_inv_r in H as (k1 & k2 & H1 & H2 & Ek). assert (List.length k1 = List.length l1) as Lk by (exact (Forall2_length _ _ _ H1)).
    assert (firstn (List.length l1) (lookup f) = k1) as E1 by (rewrite Ek, <- Lk, firstn_app, firstn_all, Nat.sub_diag; apply app_nil_r).
    assert (skipn (List.length l1) (lookup f) = k2) as E2 by (rewrite Ek, <- Lk, skipn_app, skipn_all, Nat.sub_diag; reflexivity).
    rewrite E1, E2. rewrite Ek in *. unfold Inv. cbn [lookup store]. assert (q < List.length (store f)) as Lq by (eapply nth_error_lt; exact Hq).
    assert (~ In q k1 /\ ~ In q k2) as (N1 & N2) by (rewrite in_app_iff in Nq; tauto). conj.
    - apply Forall2_app; [now apply f2_upd|]. constructor; [now apply upd_same|now apply f2_upd].
    - apply NoDup_Add with (a := q) (l := k1 ++ k2); [apply Add_app|]. split; [exact Hn|exact Nq].
    - intros q' e' He'. destruct (Nat.eq_dec q q') as [<-|Nqq]; [apply in_app_iff; right; now left|]. rewrite upd_other in He' by assumption.
      apply Hl in He'. rewrite in_app_iff in *. cbn. tauto.
    - rewrite upd_length. exact HN.
    - exact Ho'.
  Qed.
  (** blocks given back *)
  Lemma drop_all_ok : forall (lk : list nat) st (l : list E), Forall2 (fun q e => nth_error st q = Some (Some e)) lk l -> NoDup lk ->
    exists st', drop_all st lk = V st' /\ List.length st' = List.length st /\ (forall q, nth_error st' q = if in_dec Nat.eq_dec q lk then Some None else nth_error st q).
  Proof.
    induction lk as [|q lk IH]; intros st l H Hn.
    - exists st. conj; try reflexivity.
    - inversion H as [|? e ? l' Hq H']; subst. inversion Hn; subst. cbn [drop_all]. unfold drop. rewrite Hq. cbn [bind].
      destruct (IH (upd st q None) l') as (st' & Ed & Le & Q); [now apply f2_upd|assumption|]. exists st'. rewrite upd_length in Le. conj; try assumption.
      intros q'. rewrite Q. destruct (in_dec Nat.eq_dec q' lk) as [C|C], (in_dec Nat.eq_dec q' (q :: lk)) as [D|D]; try reflexivity; cbn in D; try tauto.
      + destruct D as [<-|D]; [|tauto]. apply upd_same. eapply nth_error_lt; exact Hq.
      + apply upd_other. intros ->. tauto.
  Qed.
  Lemma ordered_sub l1 m l2 : ordered key lt unique (l1 ++ m ++ l2) -> ordered key lt unique (l1 ++ l2).
  Proof.
    rewrite !ordered_sorted, !sorted_app. intros (S1 & (S2 & S3 & S4) & S5). conj; try assumption. intros a b Ha Hb. apply S5; [exact Ha|]. apply in_app_iff. now right.
  Qed.
  Lemma leave f l l1 m l2 : Inv f l -> l = l1 ++ m ++ l2 -> exists k1 km k2, lookup f = k1 ++ km ++ k2 /\ List.length k1 = List.length l1 /\ List.length km = List.length m /\
    Forall2 (fun q e => nth_error (store f) q = Some (Some e)) km m /\
    exists st', drop_all (store f) km = V st' /\ Inv {| lookup := k1 ++ k2; store := st' |} (l1 ++ l2).
  Proof.
    intros (H & Hn & Hl & HN & Ho) ->. apply Forall2_app_inv_r in H as (k1 & k' & H1 & H2 & Ek). apply Forall2_app_inv_r in H2 as (km & k2 & Hm & H2 & ->).
    exists k1, km, k2. conj; try assumption; try exact (Forall2_length _ _ _ H1); try exact (Forall2_length _ _ _ Hm).
    rewrite Ek in *. assert (NoDup km) as Nkm. { apply NoDup_app_iff in Hn as (_ & Hn & _). apply NoDup_app_iff in Hn. tauto. }
    destruct (drop_all_ok km (store f) m Hm Nkm) as (st' & Ed & Le & Q). exists st'. split; [exact Ed|]. unfold Inv. cbn [lookup store].
    assert (forall q, In q km -> ~ In q (k1 ++ k2)) as D.
    { intros q Hq C. apply NoDup_app_iff in Hn as (Nk1 & Hn & D1). apply NoDup_app_iff in Hn as (_ & Nk2 & D2). apply in_app_iff in C as [C|C].
      - apply (D1 q C). apply in_app_iff. now left.
      - exact (D2 q Hq C). }
    assert (forall lk l', (forall q, In q lk -> ~ In q km) -> Forall2 (fun q e => nth_error (store f) q = Some (Some e)) lk l' -> Forall2 (fun q e => nth_error st' q = Some (Some e)) lk l') as Kf.
    { intros lk l' D' F2. induction F2 as [|q e lk l' H F2 IH]; constructor.
      - rewrite Q. destruct (in_dec Nat.eq_dec q km) as [C|C]; [|exact H]. exfalso. apply (D' q); [now left|exact C].
      - apply IH. intros q' Hq'. apply D'. now right. }
    conj.
    - apply Forall2_app; apply Kf; try assumption; intros q Hq C; apply (D q C); apply in_app_iff; tauto.
    - apply NoDup_app_iff in Hn as (Nk1 & Hn & D1). apply NoDup_app_iff in Hn as (_ & Nk2 & D2). apply NoDup_app_iff. conj; try assumption.
      intros q Hq C. apply (D1 q Hq). apply in_app_iff. now right.
    - intros q e He. rewrite Q in He. destruct (in_dec Nat.eq_dec q km) as [C|C]; [discriminate|]. apply Hl in He. rewrite !in_app_iff in *. tauto.
    - now rewrite Le.
    - eapply ordered_sub; exact Ho.
  Qed.

  (** ** the operations *)
  Lemma ordered_ins k l p m s e : ordered key lt unique l -> view k l p m s -> key e = k -> (unique = true -> m = []) -> ordered key lt unique ((p ++ m) ++ e :: s).
  Proof.
    intros Ho (El & Fp & Fm & Fs) Ek Hm. rewrite El, app_assoc in Ho. rewrite ordered_sorted in *. apply sorted_app in Ho as (S1 & S2 & S3). apply sorted_app. conj.
    - exact S1.
    - apply sorted_cons. split; [exact S2|]. intros a b [<-|[]] Hb. rewrite Forall_forall in Fs. specialize (Fs b Hb). unfold viol. rewrite Ek. destruct unique; [now rewrite Fs|].
      now apply (lt_asym lt O).
    - intros a b Ha [<-|Hb]; [|now apply S3]. unfold viol. rewrite Ek. apply in_app_iff in Ha as [Ha|Ha].
      + rewrite Forall_forall in Fp. specialize (Fp a Ha). destruct unique; [now rewrite Fp|]. now apply (lt_asym lt O).
      + destruct unique eqn:U; [rewrite Hm in Ha by reflexivity; destruct Ha|]. rewrite Forall_forall in Fm. apply (Fm a Ha).
  Qed.
  Lemma insert_at_ok f l k p m s e q : Inv f l -> view k l p m s -> key e = k -> (unique = true -> m = []) -> List.length l < N -> nth_error (store f) q = Some None ->
    exists f', insert_at key lt N unique {| lookup := lookup f; store := upd (store f) q (Some e) |} (List.length p + List.length m) q = V (Ritb (List.length p + List.length m) true, f') /\
      Inv f' ((p ++ m) ++ e :: s).
  Proof.
    intros H W Ek Hm L Hq. pose proof (ordered_ins k l p m s e (proj2 (proj2 (proj2 (proj2 H)))) W Ek Hm) as Ho.
    pose proof W as (El & Fp & Fm & Fs). rewrite app_assoc in El. pose proof (enter f l e q (p ++ m) s H Hq El Ho) as Hi. rewrite app_length in Hi.
    eexists. split; [|exact Hi]. unfold insert_at. pose proof (inv_size _ _ H) as Hz. unfold full, size in *. cbn [lookup store].
    replace (List.length (lookup f) =? N) with false by (symmetry; apply Nat.eqb_neq; lia).
    destruct (Nat.eqb_spec (List.length p + List.length m) (List.length (lookup f))) as [Z|Z].
    - rewrite Z. rewrite firstn_all, skipn_all. reflexivity.
    - destruct s as [|x s']; [exfalso; apply Z; rewrite Hz, El, app_nil_r, app_length; reflexivity|].
      assert (nth_error l (List.length p + List.length m) = Some x) as Hx by (rewrite El, <- app_length; apply rd_mid).
      destruct H as (H & Hn & Hl & HN & Ho'). destruct (forall2_nth _ _ _ _ H x Hx) as (q' & Hq' & Hs').
      assert (q <> q') as Nq by congruence.
      assert (elem {| lookup := lookup f; store := upd (store f) q (Some e) |} (List.length p + List.length m) = V x) as Hel.
      { unfold elem. cbn [lookup store]. rewrite Hq'. unfold get. rewrite upd_other by assumption. now rewrite Hs'. }
      rewrite Hel. cbn [bind]. unfold get at 1. rewrite upd_same by (eapply nth_error_lt; exact Hq). cbn [bind].
      inversion Fs; subst. unfold keys_are_equal. rewrite H2. rewrite andb_false_r. cbn [negb]. rewrite orb_true_r. reflexivity.
  Qed.
  Lemma view_inserted k l p m s e : view k l p m s -> key e = k -> inserted key lt e l = (p ++ m) ++ e :: s.
  Proof. intros W Ek. unfold inserted. rewrite Ek, (v_ngs k l p m s W), (v_gs k l p m s W). reflexivity. Qed.

  Lemma insert_ok f l e : Inv f l -> exists f', f_insert key lt N unique pick f e = V (fst (s_insert key lt N unique e l), f') /\ Inv f' (snd (s_insert key lt N unique e l)).
  Proof.
    intros H. destruct (view_exists (key e) l (proj2 (proj2 (proj2 (proj2 H))))) as (p & m & s & W & Hm).
    unfold f_insert, s_insert. rewrite (v_present _ _ _ _ _ W), (v_before _ _ _ _ _ W), (v_upto _ _ _ _ _ W), (view_inserted _ _ _ _ _ e W eq_refl).
    assert (forall (Hmm : unique = true -> m = []) , exists f', (if full N f then V (Rfull, f) else let* fp := make pick f e in insert_at key lt N unique (fst fp) (List.length p + List.length m) (snd fp)) =
        V (fst (if List.length l <? N then ((Ritb (List.length p + List.length m) true : fres E), (p ++ m) ++ e :: s) else (Rfull, l)), f') /\
        Inv f' (snd (if List.length l <? N then ((Ritb (List.length p + List.length m) true : fres E), (p ++ m) ++ e :: s) else (Rfull, l)))) as Go.
    { intros Hmm. rewrite (inv_full _ _ H). destruct (Nat.ltb_spec (List.length l) N) as [L|L]; cbn [negb fst snd].
      - destruct (make_ok f l e H L) as (q & Eq & Fq). rewrite Eq. cbn [bind fst snd].
        destruct (insert_at_ok f l (key e) p m s e q H W eq_refl Hmm L Fq) as (f' & Ei & Hi). exists f'. split; assumption.
      - exists f. split; [reflexivity|exact H]. }
    destruct unique eqn:U.
    - rewrite (inv_lower _ _ _ _ _ _ H W). cbn [bind andb].
      destruct (view_at _ _ _ _ _ _ H W) as [(Em & [Q|(x & Q & Hx & He & Hlt & Hs)])|(x & m' & Em & Q & He & Hlt & Hs)]; rewrite Q.
      + cbn [bind]. rewrite Em in *. cbn [List.length] in Go. rewrite Nat.add_0_r in *. apply Go. reflexivity.
      + rewrite He. cbn [bind]. rewrite Hlt. rewrite Em in *. cbn [List.length] in Go. rewrite Nat.add_0_r in *. apply Go. reflexivity.
      + rewrite He. cbn [bind]. rewrite Hlt. rewrite Em. exists f. split; [reflexivity|exact H].
    - cbn [andb]. rewrite (inv_upper _ _ _ _ _ _ H W). cbn [bind]. apply Go. discriminate.
  Qed.
  (** a made but not yet entered element does not disturb the searches *)
  Lemma made_lookup f l q e : Inv f l -> nth_error (store f) q = Some None -> elements {| lookup := lookup f; store := upd (store f) q (Some e) |} = V l.
  Proof. intros (H & _) Hq. apply deref_ok. cbn [lookup store]. apply f2_upd; [exact H|]. eapply f2_free; eassumption. Qed.
  Lemma upd_back (st : list (option E)) q o : nth_error st q = Some None -> upd (upd st q o) q None = st.
  Proof. intros H. rewrite upd_upd. now apply upd_id. Qed.
  Lemma emplace_ok f l e : Inv f l -> exists f', f_emplace key lt N unique fl pick f e = V (fst (s_emplace key lt N unique fl e l), f') /\ Inv f' (snd (s_emplace key lt N unique fl e l)).
  Proof.
    intros H. destruct (view_exists (key e) l (proj2 (proj2 (proj2 (proj2 H))))) as (p & m & s & W & Hm).
    unfold f_emplace, s_emplace. rewrite (v_present _ _ _ _ _ W), (v_before _ _ _ _ _ W), (v_upto _ _ _ _ _ W), (view_inserted _ _ _ _ _ e W eq_refl).
    rewrite (inv_full _ _ H). destruct (Nat.ltb_spec (List.length l) N) as [L|L]; cbn [negb fst snd]; [|exists f; split; [reflexivity|exact H]].
    destruct (make_ok f l e H L) as (q & Eq & Fq). rewrite Eq. cbn [bind fst snd]. pose proof (made_lookup f l q e H Fq) as Me. pose proof (inv_size _ _ H) as Hz.
    pose proof (fun Hmm => insert_at_ok f l (key e) p m s e q H W eq_refl Hmm L Fq) as IA. pose proof (view_at _ _ _ _ _ _ H W) as VA. destruct unique eqn:U.
    - unfold f_lower. rewrite Me. cbn [bind]. rewrite (v_lower _ _ _ _ _ W). cbn [lift bind andb]. unfold size in *. cbn [lookup].
      assert (forall i x, elem f i = V x -> elem {| lookup := lookup f; store := upd (store f) q (Some e) |} i = V x) as Kel.
      { intros i x. unfold elem, get. cbn [lookup store]. destruct (nth_error (lookup f) i) as [q'|]; [|discriminate]. destruct (Nat.eq_dec q q') as [<-|Nq]; [rewrite Fq; discriminate|]. now rewrite upd_other. }
      destruct VA as [(Em & [Q|(x & Q & Hx & He & Hlt & Hs)])|(x & m' & Em & Q & He & Hlt & Hs)]; unfold size in Q; rewrite Q.
      + cbn [bind]. destruct (IA (fun _ => Em)) as (f' & Ei & Hi). rewrite Em in *. cbn [List.length] in Ei. rewrite Nat.add_0_r in Ei. rewrite Nat.add_0_r. exists f'. split; assumption.
      + rewrite (Kel _ _ He). cbn [bind]. rewrite Hlt. destruct (IA (fun _ => Em)) as (f' & Ei & Hi). rewrite Em in *. cbn [List.length] in Ei. rewrite Nat.add_0_r in Ei. rewrite Nat.add_0_r. exists f'. split; assumption.
      + rewrite (Kel _ _ He). cbn [bind]. rewrite Hlt. cbn [lookup store]. unfold drop. rewrite upd_same by (eapply nth_error_lt; exact Fq). cbn [bind]. rewrite (upd_back _ _ _ Fq), Em, Hz.
        eexists. split; [reflexivity|]. cbn [snd]. destruct f. exact H.
    - unfold f_upper. rewrite Me. cbn [bind andb]. rewrite (v_upper _ _ _ _ _ W). cbn [lift bind].
      destruct IA as (f' & Ei & Hi); [discriminate|]. exists f'. split; assumption.
  Qed.
  Lemma insert_all_ok : forall es f l, Inv f l -> exists f', f_insert_all key lt N unique pick f es = V (fst (s_insert_all key lt N unique es l), f') /\ Inv f' (snd (s_insert_all key lt N unique es l)).
  Proof.
    induction es as [|e es IH]; intros f l H; cbn [f_insert_all s_insert_all]; [exists f; split; [reflexivity|exact H]|].
    destruct (insert_ok f l e H) as (f' & Ei & Hi). rewrite Ei. cbn [bind fst snd]. destruct (s_insert key lt N unique e l) as (r & l'). cbn [fst snd] in *.
    destruct r; try (apply IH; exact Hi). exists f'. split; [reflexivity|exact Hi].
  Qed.
  Lemma erase_range_ok f l a b : Inv f l -> a <= b -> b <= List.length l -> exists f', f_erase_range f a b = V f' /\ Inv f' (firstn a l ++ skipn b l).
  Proof.
    intros H Hab Hb. pose proof (inv_size _ _ H) as Hz. unfold f_erase_range. rewrite Hz. replace (Nat.leb a b && Nat.leb b (List.length l)) with true by (symmetry; rewrite andb_true_iff, !Nat.leb_le; lia).
    assert (l = firstn a l ++ slice l a b ++ skipn b l) as El.
    { unfold slice. rewrite <- (firstn_skipn a l) at 1. f_equal. rewrite <- (firstn_skipn (b - a) (skipn a l)) at 1. f_equal. rewrite skipn_skipn'. f_equal. lia. }
    destruct (leave f l _ _ _ H El) as (k1 & km & k2 & Ek & L1 & Lm & _ & st' & Ed & Hi). rewrite firstn_length_le in L1 by lia. rewrite slice_length in Lm by lia.
    rewrite Ek. assert (firstn (b - a) (skipn a (k1 ++ km ++ k2)) = km) as E1.
    { rewrite skipn_app, <- L1, skipn_all, Nat.sub_diag. cbn [app skipn]. rewrite L1, <- Lm, firstn_app, firstn_all, Nat.sub_diag. apply app_nil_r. }
    assert (firstn a (k1 ++ km ++ k2) = k1) as E2 by (rewrite <- L1, firstn_app, firstn_all, Nat.sub_diag; apply app_nil_r).
    assert (skipn b (k1 ++ km ++ k2) = k2) as E3.
    { rewrite app_assoc. replace b with (List.length (k1 ++ km)) by (rewrite app_length; lia). rewrite skipn_app, skipn_all, Nat.sub_diag. reflexivity. }
    rewrite E1, E2, E3, Ed. cbn [bind]. eexists. split; [reflexivity|exact Hi].
  Qed.
  Lemma erase_at_ok f l i : Inv f l -> i < List.length l -> exists f', f_erase_at f i = V f' /\ Inv f' (firstn i l ++ skipn (S i) l).
  Proof.
    intros H Hi. destruct (erase_range_ok f l i (S i) H ltac:(lia) ltac:(lia)) as (f' & Ee & Hi'). exists f'. split; [|exact Hi']. rewrite <- Ee.
    unfold f_erase_at, f_erase_range. rewrite (inv_size _ _ H). replace (Nat.leb i (S i) && Nat.leb (S i) (List.length l)) with true by (symmetry; rewrite andb_true_iff, !Nat.leb_le; lia).
    destruct (rd_lt l i Hi) as (e & He). destruct (forall2_nth _ _ _ i (proj1 H) e He) as (q & Hq & Hs). rewrite Hq. replace (S i - i) with 1 by lia. rewrite (skipn_nth _ _ _ Hq). cbn [firstn drop_all].
    destruct (drop (store f) q); reflexivity.
  Qed.
  Lemma erase_key_ok f l k : Inv f l -> exists f', f_erase_key key lt unique f k = V (List.length (filter (same_key key lt k) l), f') /\ Inv f' (filter (fun x => negb (same_key key lt k x)) l).
  Proof.
    intros H. destruct (view_exists k l (proj2 (proj2 (proj2 (proj2 H))))) as (p & m & s & W & Hm). pose proof (inv_size _ _ H) as Hz.
    rewrite (v_same _ _ _ _ _ W), (v_not_same _ _ _ _ _ W). unfold f_erase_key. pose proof W as (El & _). pose proof (erase_at_ok f l (List.length p) H) as EA. pose proof (erase_range_ok f l (List.length p) (List.length p + List.length m) H) as ER.
    pose proof (inv_find _ _ _ _ _ _ H W) as IF. pose proof (inv_equal_range _ _ _ _ _ _ H W) as IR. destruct unique eqn:U.
    - rewrite IF. cbn [bind]. rewrite Hz. destruct m as [|x [|y m]]; [| |specialize (Hm eq_refl); cbn in Hm; lia].
      + rewrite Nat.eqb_refl. exists f. split; [reflexivity|]. cbn in El. rewrite <- El. exact H.
      + replace (Nat.eqb (List.length p) (List.length l)) with false by (symmetry; apply Nat.eqb_neq; rewrite El, app_length; cbn; lia).
        destruct EA as (f' & Ee & Hi); [rewrite El, app_length; cbn; lia|]. rewrite Ee. cbn [bind]. exists f'. split; [reflexivity|].
        rewrite El in Hi. rewrite firstn_app, firstn_all, Nat.sub_diag in Hi. cbn [firstn] in Hi. rewrite app_nil_r in Hi.
        replace (skipn (S (List.length p)) (p ++ [x] ++ s)) with s in Hi; [exact Hi|]. symmetry. rewrite app_assoc, <- (len_snoc p x), skipn_app, skipn_all, Nat.sub_diag. reflexivity.
    - rewrite IR. cbn [bind fst snd]. rewrite Hz. destruct (Nat.eqb_spec (List.length p) (List.length l)) as [Z|Z].
      + exists f. rewrite El, !app_length in Z. destruct m; [|cbn in Z; lia]. destruct s; [|cbn in Z; lia]. split; [reflexivity|]. cbn in El. rewrite <- El. exact H.
      + destruct ER as (f' & Ee & Hi); [lia|rewrite El, !app_length; lia|].
        rewrite Ee. cbn [bind]. exists f'. split; [do 2 f_equal; lia|]. rewrite El in Hi. rewrite firstn_app, firstn_all, Nat.sub_diag in Hi. cbn [firstn] in Hi. rewrite app_nil_r in Hi.
        rewrite app_assoc, <- app_length, skipn_app, skipn_all, Nat.sub_diag in Hi. exact Hi.
  Qed.
  Lemma clear_ok f l : Inv f l -> exists f', f_clear triv f = V f' /\ Inv f' [].
  Proof.
    intros H. unfold f_clear. destruct triv.
    - cbn [bind]. eexists. split; [reflexivity|]. destruct H as (_ & _ & _ & HN & _). unfold Inv. cbn [lookup store]. conj.
      + constructor.
      + constructor.
      + intros q e He. rewrite nth_error_repeat_if in He. destruct (q <? List.length (store f)); discriminate.
      + now rewrite repeat_length.
      + intros i j a b _ Ha. destruct i; discriminate.
    - destruct (leave f l [] l [] H) as (k1 & km & k2 & Ek & L1 & Lm & _ & st' & Ed & Hi); [cbn; now rewrite app_nil_r|].
      destruct k1; [|discriminate]. assert (k2 = []) as ->. { pose proof (inv_size _ _ H) as Hz. unfold size in Hz. rewrite Ek in Hz. cbn in Hz. rewrite app_length in Hz. destruct k2; [reflexivity|cbn in Hz; lia]. }
      cbn in Ek. rewrite app_nil_r in Ek. rewrite Ek, Ed. cbn [bind]. eexists. split; [reflexivity|exact Hi].
  Qed.
  Lemma count_ok f l k : Inv f l -> f_count key lt unique f k = V (List.length (filter (same_key key lt k) l)).
  Proof.
    intros H. destruct (view_exists k l (proj2 (proj2 (proj2 (proj2 H))))) as (p & m & s & W & Hm). rewrite (v_same _ _ _ _ _ W). unfold f_count. pose proof W as (El & _). pose proof (inv_find _ _ _ _ _ _ H W) as IF. pose proof (inv_equal_range _ _ _ _ _ _ H W) as IR. pose proof (inv_size _ _ H) as Hz. destruct unique.
    - rewrite IF. cbn [bind]. rewrite Hz. destruct m as [|x [|y m]]; [| |specialize (Hm eq_refl); cbn in Hm; lia].
      + now rewrite Nat.eqb_refl.
      + replace (Nat.eqb (List.length p) (List.length l)) with false by (symmetry; apply Nat.eqb_neq; rewrite El, app_length; cbn; lia). reflexivity.
    - rewrite IR. cbn [bind fst snd]. f_equal. lia.
  Qed.
  Lemma index_ok f l k : Inv f l -> let r := match find (same_key key lt k) l with Some e => (Re e, l) | None => if List.length l <? N then (Re (mk k), inserted key lt (mk k) l) else (Rfull, l) end in
    exists f', f_index key lt N unique mk pick f k = V (fst r, f') /\ Inv f' (snd r).
  Proof.
    intros H. cbv zeta. destruct (view_exists k l (proj2 (proj2 (proj2 (proj2 H))))) as (p & m & s & W & Hm). rewrite (v_find _ _ _ _ _ W), (view_inserted _ _ _ _ _ (mk k) W (Hmk k)).
    unfold f_index. rewrite (inv_lower _ _ _ _ _ _ H W). cbn [bind].
    assert (m = [] -> exists f', (if full N f then V (Rfull, f) else let* fp := make pick f (mk k) in let* r := insert_at key lt N unique (fst fp) (List.length p) (snd fp) in let* e := elem (snd r) (List.length p) in V (Re e, snd r)) =
      V (fst (if List.length l <? N then (Re (mk k), (p ++ m) ++ mk k :: s) else (Rfull, l)), f') /\ Inv f' (snd (if List.length l <? N then (Re (mk k), (p ++ m) ++ mk k :: s) else (Rfull, l)))) as Go.
    { intros Em. rewrite (inv_full _ _ H). destruct (Nat.ltb_spec (List.length l) N) as [L|L]; cbn [negb fst snd]; [|exists f; split; [reflexivity|exact H]].
      destruct (make_ok f l (mk k) H L) as (q & Eq & Fq). rewrite Eq. cbn [bind fst snd].
      destruct (insert_at_ok f l k p m s (mk k) q H W (Hmk k) (fun _ => Em) L Fq) as (f' & Ei & Hi). rewrite Em in *. cbn [List.length] in Ei. rewrite Nat.add_0_r in Ei. rewrite Ei. cbn [bind snd].
      rewrite app_nil_r in *. assert (elem f' (List.length p) = V (mk k)) as He. { apply (inv_elem _ _ _ _ Hi). apply rd_mid. }
      rewrite He. cbn [bind]. exists f'. split; [reflexivity|exact Hi]. }
    destruct (view_at _ _ _ _ _ _ H W) as [(Em & [Q|(x & Q & Hx & He & Hlt & Hs)])|(x & m' & Em & Q & He & Hlt & Hs)]; rewrite Q.
    - cbn [bind]. rewrite Em in *. now apply Go.
    - rewrite He. cbn [bind]. rewrite Hlt. rewrite Em in *. now apply Go.
    - rewrite He. cbn [bind]. rewrite Hlt. rewrite Em. exists f. split; [reflexivity|exact H].
  Qed.
  Lemma op_ok o f l r l' : Inv f l -> s_op key lt N unique fl mk o l = Some (r, l') -> exists f', f_op key lt N unique fl mk triv pick o f = V (r, f') /\ Inv f' l'.
  Proof.
    intros H Hs. pose proof (inv_size _ _ H) as Hz. assert (forall k, exists p m s, view k l p m s) as KV. { intros k. destruct (view_exists k l (proj2 (proj2 (proj2 (proj2 H))))) as (p & m & s & W & _). eauto. }
    destruct o; cbn [s_op f_op] in *.
    - injection Hs as Hs. destruct (insert_ok f l e H) as (f' & E1 & E2). rewrite Hs in *. eauto.
    - injection Hs as Hs. destruct (emplace_ok f l e H) as (f' & E1 & E2). rewrite Hs in *. eauto.
    - injection Hs as Hs. destruct (insert_all_ok es f l H) as (f' & E1 & E2). rewrite Hs in *. eauto.
    - injection Hs as Hs. destruct (List.length es <=? N).
      + destruct (clear_ok f l H) as (f0 & E0 & H0). rewrite E0. cbn [bind]. destruct (insert_all_ok es f0 [] H0) as (f' & E1 & E2). rewrite Hs in *. eauto.
      + injection Hs as <- <-. eauto.
    - injection Hs as <- <-. destruct (erase_key_ok f l k H) as (f' & E1 & E2). rewrite E1. cbn [bind fst snd]. eauto.
    - destruct (Nat.ltb_spec i (List.length l)) as [L|L]; [|discriminate]. injection Hs as <- <-. destruct (erase_at_ok f l i H L) as (f' & E1 & E2). rewrite E1. cbn [bind]. eauto.
    - destruct ((a <=? b) && (b <=? List.length l)) eqn:Q; [|discriminate]. apply andb_true_iff in Q as (Q1 & Q2). apply Nat.leb_le in Q1, Q2. injection Hs as <- <-.
      destruct (erase_range_ok f l a b H Q1 Q2) as (f' & E1 & E2). rewrite E1. cbn [bind]. eauto.
    - injection Hs as <- <-. destruct (clear_ok f l H) as (f' & E1 & E2). rewrite E1. cbn [bind]. eauto.
    - injection Hs as <- <-. destruct (KV k) as (p & m & s & W). rewrite (inv_find _ _ _ _ _ _ H W). cbn [bind]. unfold s_find. rewrite (v_present _ _ _ _ _ W), (v_before _ _ _ _ _ W). exists f. split; [|exact H]. destruct m; reflexivity.
    - injection Hs as <- <-. destruct (KV k) as (p & m & s & W). rewrite (inv_find _ _ _ _ _ _ H W). cbn [bind]. rewrite (v_present _ _ _ _ _ W), Hz. exists f. split; [|exact H]. pose proof W as (El & _). destruct m.
      + now rewrite Nat.eqb_refl.
      + replace (Nat.eqb (List.length p) (List.length l)) with false by (symmetry; apply Nat.eqb_neq; rewrite El, app_length; cbn; lia). reflexivity.
    - injection Hs as <- <-. rewrite (count_ok f l k H). cbn [bind]. eauto.
    - injection Hs as <- <-. destruct (KV k) as (p & m & s & W). rewrite (inv_lower _ _ _ _ _ _ H W). cbn [bind]. rewrite (v_before _ _ _ _ _ W). eauto.
    - injection Hs as <- <-. destruct (KV k) as (p & m & s & W). rewrite (inv_upper _ _ _ _ _ _ H W). cbn [bind]. rewrite (v_upto _ _ _ _ _ W). eauto.
    - injection Hs as <- <-. destruct (KV k) as (p & m & s & W). rewrite (inv_equal_range _ _ _ _ _ _ H W). cbn [bind fst snd]. rewrite (v_before _ _ _ _ _ W), (v_upto _ _ _ _ _ W). eauto.
    - injection Hs as <- <-. destruct (KV k) as (p & m & s & W). unfold f_at. rewrite (inv_lower _ _ _ _ _ _ H W). cbn [bind]. rewrite (v_find _ _ _ _ _ W). exists f. split; [|exact H].
      destruct (view_at _ _ _ _ _ _ H W) as [(Em & [Q|(x & Q & Hx & He & Hlt & Hs)])|(x & m' & Em & Q & He & Hlt & Hs)]; rewrite Q, Em.
      + reflexivity.
      + rewrite He. cbn [bind]. now rewrite keys_are_equal_same, Hs.
      + rewrite He. cbn [bind]. now rewrite keys_are_equal_same, Hs.
    - injection Hs as Hs. destruct (index_ok f l k H) as (f' & E1 & E2). rewrite Hs in *. eauto.
    - injection Hs as <- <-. rewrite (inv_elements _ _ H). cbn [bind]. eauto.
    - injection Hs as <- <-. rewrite Hz. eauto.
    - injection Hs as <- <-. rewrite Hz. eauto.
    - injection Hs as <- <-. unfold full. rewrite Hz. eauto.
    - injection Hs as <- <-. rewrite Hz. eauto.
  Qed.
  Lemma ops_ok : forall os f l rs l', Inv f l -> s_ops key lt N unique fl mk os l = Some (rs, l') -> exists f', f_ops key lt N unique fl mk triv pick os f = V (rs, f') /\ Inv f' l'.
  Proof.
    induction os as [|o os IH]; intros f l rs l' H Hs; cbn [s_ops f_ops] in *.
    - injection Hs as <- <-. eauto.
    - destruct (s_op key lt N unique fl mk o l) as [(x & l1)|] eqn:E1; [|discriminate]. destruct (s_ops key lt N unique fl mk os l1) as [(xs & l2)|] eqn:E2; [|discriminate]. injection Hs as <- <-.
      destruct (op_ok o f l x l1 H E1) as (f1 & Q1 & H1). rewrite Q1. cbn [bind fst snd]. destruct (IH f1 l1 xs l2 H1 E2) as (f2 & Q2 & H2). rewrite Q2. cbn [bind fst snd]. eauto.
  Qed.
  Lemma new_inv : Inv (f_new N) [].
  Proof.
    unfold Inv, f_new. cbn [lookup store]. conj.
    - constructor.
    - constructor.
    - intros q e He. rewrite nth_error_repeat_if in He. destruct (q <? N); discriminate.
    - apply repeat_length.
    - intros i j a b _ Ha. destruct i; discriminate.
  Qed.
  Lemma inv_live f l : Inv f l -> live (store f) = List.length l.
  Proof.
    intros (H & Hn & Hl & HN & _). rewrite <- (Forall2_length _ _ _ H). unfold live.
    assert (forall (st : list (option E)) base lk, NoDup lk -> (forall q, In q lk <-> base <= q /\ exists e, nth_error st (q - base) = Some (Some e)) ->
      List.length (filter (fun o => match o with Some _ => true | None => false end) st) = List.length lk) as G.
    { clear. induction st as [|o st IH]; intros base lk Hn Hi.
      - destruct lk as [|q lk]; [reflexivity|]. exfalso. destruct (proj1 (Hi q) (or_introl eq_refl)) as (_ & e & He). destruct (q - base); discriminate.
      - cbn [filter]. assert (forall lk0, NoDup lk0 -> (forall q, In q lk0 <-> S base <= q /\ exists e, nth_error st (q - S base) = Some (Some e)) -> List.length (filter (fun o => match o with Some _ => true | None => false end) st) = List.length lk0) as IH' by (intros; now apply (IH (S base))).
        destruct o as [x|].
        + assert (In base lk) as Hb. { apply Hi. split; [lia|]. rewrite Nat.sub_diag. eexists. reflexivity. }
          apply in_split in Hb as (l1 & l2 & ->). apply NoDup_remove in Hn as (Hn & Hnb). cbn [List.length]. rewrite app_length. cbn [List.length]. rewrite Nat.add_succ_r, <- app_length. f_equal. apply IH'; [exact Hn|].
          intros q. split.
          * intros Hq. assert (q <> base) as Nb by congruence. assert (In q (l1 ++ base :: l2)) as Hq' by (rewrite in_app_iff in *; cbn; tauto). apply Hi in Hq' as (L & e & He). split; [lia|].
            replace (q - base) with (S (q - S base)) in He by lia. eauto.
          * intros (L & e & He). assert (In q (l1 ++ base :: l2)) as Hq. { apply Hi. split; [lia|]. exists e. replace (q - base) with (S (q - S base)) by lia. exact He. }
            rewrite in_app_iff in *. cbn in Hq. destruct Hq as [Hq|[Hq|Hq]]; [tauto|lia|tauto].
        + apply IH'; [exact Hn|]. intros q. rewrite Hi. split; intros (L & e & He).
          * destruct (Nat.eq_dec q base) as [->|Nb]; [rewrite Nat.sub_diag in He; discriminate|]. split; [lia|]. exists e. replace (q - base) with (S (q - S base)) in He by lia. exact He.
          * split; [lia|]. exists e. replace (q - base) with (S (q - S base)) by lia. exact He. }
    apply (G (store f) 0); [exact Hn|]. intros q. rewrite Nat.sub_0_r. split.
    - intros Hq. split; [lia|]. apply In_nth_error in Hq as (i & Hi). destruct (nth_error l i) as [e|] eqn:Ee.
      + destruct (forall2_nth _ _ _ i H e Ee) as (q' & Hq' & Hs). exists e. congruence.
      + apply nth_error_None in Ee. apply nth_error_lt in Hi. rewrite (Forall2_length _ _ _ H) in Hi. lia.
    - intros (_ & e & He). exact (Hl q e He).
  Qed.
End Flat.
