(** * Proofs for list.h: the nodes, their owners and the free blocks *)
From Coq Require Import List Arith Bool Lia Permutation.
From Verif Require Import Util SortSpec ListSpec Dll ListModel MergeSort.
Import ListNotations.
Lemma hd_app_last {B} (d x : B) a b : hd d ((a ++ [x]) ++ b) = hd x a.
Proof. destruct a; reflexivity. Qed.
Section Proofs.
  Context {A : Type}.
  Variables (n : nat) (term pool : nat -> nat) (shared : nat -> bool) (blocks : nat -> list nat) (check triv : bool).
  Hypothesis Hterm : forall i j, i < n -> j < n -> term i = term j -> i = j.
  Hypothesis Htb : forall i p, i < n -> ~ In (term i) (blocks p).
  Hypothesis Hnd : forall p, NoDup (blocks p).
  Hypothesis Hdis : forall p q x, In x (blocks p) -> In x (blocks q) -> p = q.
  Hypothesis Hsh : forall i j, i < n -> j < n -> shared i = false -> pool j = pool i -> j = i.
  Local Notation world := (@world A).
  Local Notation nodes := (nat -> list (nat * A)).
  (** the nodes and values of every list; index [n] holds nodes between lists *)
  Definition all (nd : nodes) : list (nat * A) := flat_map nd (seq 0 (S n)).
  Definition rest (nd : nodes) (i : nat) : list (nat * A) := flat_map nd (filter (fun j => negb (Nat.eqb j i)) (seq 0 (S n))).
  Lemma flat_map_ext_in {B C} (f g : B -> list C) l : (forall x, In x l -> f x = g x) -> flat_map f l = flat_map g l.
  Proof. induction l as [|x l IH]; intros H; [reflexivity|]. cbn. rewrite (H x) by (now left). f_equal. apply IH. intros; apply H; now right. Qed.
  Lemma split_out (nd : nodes) i l : NoDup l -> In i l -> Permutation (flat_map nd l) (nd i ++ flat_map nd (filter (fun j => negb (Nat.eqb j i)) l)).
  Proof.
    induction l as [|x l IH]; intros N H; [destruct H|]. inversion N as [|? ? N1 N2]; subst. cbn. destruct (Nat.eqb_spec x i) as [->|E]; cbn.
    - apply Permutation_app_head. assert (filter (fun j => negb (Nat.eqb j i)) l = l) as ->; [|reflexivity]. clear - N1. induction l as [|y l IH]; [reflexivity|]. cbn. destruct (Nat.eqb_spec y i) as [->|E]; [exfalso; apply N1; now left|]. cbn. f_equal. apply IH. intros C; apply N1; now right.
    - destruct H as [H|H]; [congruence|]. rewrite IH by assumption. rewrite !app_assoc. apply Permutation_app_tail. apply Permutation_app_comm.
  Qed.
  Lemma all_at nd i : i <= n -> Permutation (all nd) (nd i ++ rest nd i).
  Proof. intros H. apply split_out; [apply seq_NoDup|apply in_seq; lia]. Qed.
  Lemma rest_put nd i l : rest (put nd i l) i = rest nd i.
  Proof. apply flat_map_ext_in. intros x H. apply filter_In in H as (_ & H). unfold put. destruct (Nat.eqb_spec x i); [discriminate|reflexivity]. Qed.
  Lemma put_same {B} (nd : nat -> list B) i l : put nd i l i = l. Proof. unfold put. now rewrite Nat.eqb_refl. Qed.
  Lemma put_other {B} (nd : nat -> list B) i j l : j <> i -> put nd i l j = nd j. Proof. intros H. unfold put. destruct (Nat.eqb_spec j i); [contradiction|reflexivity]. Qed.
  Lemma all_put nd i l : i <= n -> Permutation (all (put nd i l)) (l ++ rest nd i).
  Proof. intros H. rewrite (all_at _ i H), put_same, rest_put. reflexivity. Qed.
  Lemma in_all nd i e : i <= n -> In e (nd i) -> In e (all nd).
  Proof. intros H I. apply in_flat_map. exists i. split; [apply in_seq; lia|exact I]. Qed.
  (** moving [m] between two lists *)
  Lemma all_move nd i j l l' m : i <= n -> j <= n -> i <> j -> Permutation (nd i) (m ++ l) -> Permutation l' (m ++ nd j) -> Permutation (all (put (put nd i l) j l')) (all nd).
  Proof.
    intros Hi Hj E P1 P2. rewrite (all_put _ j) by assumption. rewrite P2. 
    assert (Permutation (nd j ++ rest (put nd i l) j) (l ++ rest nd i)) as P3. { rewrite <- (put_other nd i j l) by congruence. rewrite <- all_at by assumption. now apply all_put. }
    rewrite <- app_assoc, P3, app_assoc, <- P1. now rewrite <- all_at.
  Qed.

  Record Own (w : world) (nd : nodes) : Prop := {
    o_nodup : NoDup (map fst (all nd));
    o_val : forall x v, In (x, v) (all nd) -> val w x = Some v;
    o_pool : forall i x, i < n -> In x (map fst (nd i)) -> In x (blocks (pool i));
    o_blk : forall x, In x (map fst (all nd)) -> exists p, In x (blocks p);
    o_fnd : forall p, NoDup (free w p);
    o_free : forall p x, In x (free w p) <-> In x (blocks p) /\ ~ In x (map fst (all nd))
  }.
  Definition Rings (h : links) (nd : nodes) : Prop := forall i, i < n -> ring h (term i) (map fst (nd i)).
  Definition Inv (w : world) (nd : nodes) : Prop := Own w nd /\ Rings (hp w) nd /\ nd n = [].
  Lemma Own_hp w nd h : Own w nd -> Own (with_hp w h) nd.
  Proof. intros [H1 H2 H3 H6 H4 H5]. constructor; assumption. Qed.
  Lemma Own_perm w nd nd' : Permutation (all nd') (all nd) -> (forall i x, i < n -> In x (map fst (nd' i)) -> In x (blocks (pool i))) -> Own w nd -> Own w nd'.
  Proof.
    intros P Q [H1 H2 H3 H6 H4 H5]. constructor; try assumption.
    - eapply Permutation_NoDup; [|exact H1]. apply Permutation_map. now symmetry.
    - intros x v I. apply H2. eapply Permutation_in; [exact P|exact I].
    - intros x I. apply H6. eapply Permutation_in; [apply Permutation_map; exact P|exact I].
    - intros p x. rewrite H5. assert (In x (map fst (all nd)) <-> In x (map fst (all nd'))) as ->; [|reflexivity]. split; apply Permutation_in; apply Permutation_map; [now symmetry|exact P].
  Qed.
  Lemma all_ext nd nd' : (forall i, i <= n -> nd' i = nd i) -> all nd' = all nd.
  Proof. intros H. apply flat_map_ext_in. intros x I. apply in_seq in I. apply H. lia. Qed.
  Lemma Inv_ext w nd nd' : (forall i, i <= n -> nd' i = nd i) -> Inv w nd -> Inv w nd'.
  Proof.
    intros H (O & R & L). unfold Inv. conj.
    - eapply Own_perm; [rewrite (all_ext _ _ H); reflexivity| |exact O]. intros i x Hi. rewrite H by lia. now apply (o_pool _ _ O).
    - intros i Hi. rewrite H by lia. now apply R.
    - rewrite H by lia. exact L.
  Qed.
  Lemma own_nodup w nd i : Own w nd -> i <= n -> NoDup (map fst (nd i)).
  Proof. intros O H. pose proof (o_nodup _ _ O) as N. eapply Permutation_NoDup in N; [|apply Permutation_map, (all_at nd i H)]. rewrite map_app in N. apply NoDup_app_iff in N. apply N. Qed.
  Lemma own_disj w nd i j x : Own w nd -> i <= n -> j <= n -> i <> j -> In x (map fst (nd i)) -> ~ In x (map fst (nd j)).
  Proof.
    intros O Hi Hj E I J. pose proof (o_nodup _ _ O) as N. eapply Permutation_NoDup in N; [|apply Permutation_map, (all_at nd i Hi)]. rewrite map_app in N. apply NoDup_app_iff in N as (_ & _ & N). apply (N x I). apply in_map_iff in J as ((y & v) & <- & J). apply in_map. apply in_flat_map. exists j. split; [|exact J]. apply filter_In. split; [apply in_seq; lia|]. destruct (Nat.eqb_spec j i); [congruence|reflexivity].
  Qed.
  Lemma own_term w nd i j : Own w nd -> i < n -> j < n -> ~ In (term i) (map fst (nd j)).
  Proof. intros O Hi Hj I. apply (o_pool _ _ O) in I; [|exact Hj]. exact (Htb _ _ Hi I). Qed.
  Lemma own_ring_nodup w nd i : Own w nd -> i < n -> NoDup (term i :: map fst (nd i)).
  Proof. intros O H. constructor; [now apply own_term with w|]. apply (own_nodup w); [exact O|lia]. Qed.
  Lemma own_pval w nd i x v : Own w nd -> i <= n -> In (x, v) (nd i) -> val w x = Some v.
  Proof. intros O H I. apply (o_val _ _ O). now apply in_all with i. Qed.
  (** changes of the links away from list [j] *)
  Definition frame (h h' : links) (l : list nat) : Prop := forall y, ~ In y l -> nxt h' y = nxt h y /\ prv h' y = prv h y.
  Lemma frame_join h a b : frame h (join h a b) [a; b].
  Proof. intros y H. cbn. destruct (Nat.eqb_spec y a) as [->|]; [exfalso; apply H; now left|]. destruct (Nat.eqb_spec y b) as [->|]; [exfalso; apply H; right; now left|]. split; reflexivity. Qed.
  Lemma frame_trans h1 h2 h3 l1 l2 : frame h1 h2 l1 -> frame h2 h3 l2 -> frame h1 h3 (l1 ++ l2).
  Proof. intros F1 F2 y H. destruct (F1 y) as (E1 & E2); [intros C; apply H, in_app_iff; now left|]. destruct (F2 y) as (E3 & E4); [intros C; apply H, in_app_iff; now right|]. split; congruence. Qed.
  Lemma frame_incl h h' l l' : incl l l' -> frame h h' l -> frame h h' l'.
  Proof. intros I F y H. apply F. intros C. apply H. now apply I. Qed.
  (** the nodes that list [i] and the nodes between lists may touch *)
  Lemma ring_else w nd h' i j l : Own w nd -> i < n -> j < n -> i <> j -> ring (hp w) (term j) (map fst (nd j)) ->
    frame (hp w) h' l -> incl l (term i :: map fst (nd i) ++ map fst (nd n)) -> ring h' (term j) (map fst (nd j)).
  Proof.
    intros O Hi Hj E R F I. eapply ring_ext; [|exact R]. intros y Hy. apply F. intros C. apply I in C. destruct C as [<-|C].
    - destruct Hy as [Hy|Hy]; [apply E; symmetry; now apply Hterm|]. exact (own_term _ _ _ _ O Hi Hj Hy).
    - apply in_app_iff in C as [C|C].
      + destruct Hy as [<-|Hy]; [exact (own_term _ _ _ _ O Hj Hi C)|]. refine (own_disj _ _ _ _ _ O _ _ E C Hy); lia.
      + destruct Hy as [<-|Hy]; [|refine (own_disj _ _ n _ _ O _ _ _ C Hy); lia].
        destruct (o_blk _ _ O (term j)) as (p & Hp); [|exact (Htb _ _ Hj Hp)]. apply in_map_iff in C as ((z & v) & Ez & C). rewrite <- Ez. apply in_map. apply in_all with n; [lia|exact C].
  Qed.
  Local Ltac lea := first [lia | congruence].
  Lemma fst_in (a : list (nat * A)) (t : nat) : In (last (map fst a) t) (t :: map fst a). Proof. apply last_in. Qed.
  Lemma hd_in (a : list (nat * A)) (t : nat) : In (hd t (map fst a)) (t :: map fst a). Proof. destruct a; [now left|right; now left]. Qed.
  (** ** the steps *)
  Lemma unlink w nd i a m b : Own w nd -> Rings (hp w) nd -> i < n -> nd i = a ++ m ++ b -> nd n = [] ->
    let h := join (hp w) (last (map fst a) (term i)) (hd (term i) (map fst b)) in
    let nd' := put (put nd i (a ++ b)) n m in
    Own (with_hp w h) nd' /\ Rings h nd' /\ linked (hp w) (map fst m).
  Proof.
    intros O R Hi E L h nd'. pose proof (own_ring_nodup _ _ _ O Hi) as N. pose proof (R _ Hi) as Ri. rewrite E, !map_app in N, Ri. destruct (ring_unlink _ _ _ _ _ N Ri) as (R1 & R2). conj.
    - apply Own_hp. eapply Own_perm; [| |exact O].
      + apply all_move with m; [lea|lea|lea| |]; [rewrite E; rewrite app_assoc, (Permutation_app_comm a m); now rewrite app_assoc|rewrite L; now rewrite app_nil_r].
      + intros j x Hj. unfold nd'. rewrite put_other by lea. destruct (Nat.eq_dec j i) as [->|D]; [|rewrite put_other by exact D; now apply (o_pool _ _ O)]. rewrite put_same. intros I. apply (o_pool _ _ O); [exact Hi|]. rewrite E, !map_app in *. rewrite !in_app_iff in *. tauto.
    - intros j Hj. unfold nd'. rewrite put_other by lea. destruct (Nat.eq_dec j i) as [->|D]; [rewrite put_same, map_app; exact R1|]. rewrite put_other by exact D.
      eapply ring_else with (i := i); [exact O|exact Hi|exact Hj|lea|now apply R|apply frame_join|]. intros y [<-|[<-|[]]].
      + destruct (fst_in a (term i)) as [H|H]; [now left|right]. apply in_app_iff. left. rewrite E, map_app. apply in_app_iff. now left.
      + destruct (hd_in b (term i)) as [H|H]; [now left|right]. apply in_app_iff. left. rewrite E, !map_app, !in_app_iff. tauto.
    - exact R2.
  Qed.
  Lemma link w nd i a m b : Own w nd -> Rings (hp w) nd -> i < n -> nd i = a ++ b -> nd n = m -> m <> [] -> linked (hp w) (map fst m) -> (forall x, In x (map fst m) -> In x (blocks (pool i))) ->
    let h := join (join (hp w) (last (map fst a) (term i)) (hd 0 (map fst m))) (last (map fst m) 0) (hd (term i) (map fst b)) in
    Inv (with_hp w h) (put (put nd n []) i (a ++ m ++ b)).
  Proof.
    intros O R Hi E L Nm Lm Hb h. pose proof (own_ring_nodup _ _ _ O Hi) as N. pose proof (R _ Hi) as Ri. rewrite E, !map_app in N, Ri.
    assert (NoDup (term i :: map fst a ++ map fst m ++ map fst b)) as N2.
    { eapply Permutation_NoDup with (l := map fst m ++ term i :: map fst a ++ map fst b); [rewrite <- Permutation_middle; constructor; rewrite !app_assoc; apply Permutation_app_tail, Permutation_app_comm|]. apply NoDup_app_iff. conj; [rewrite <- L; apply (own_nodup w); [exact O|lea]|exact N|]. intros x H1 [<-|H2]; [exact (Htb i _ Hi (Hb _ H1))|]. rewrite <- map_app, <- E in H2. rewrite <- L in H1. refine (own_disj _ _ n i _ O _ _ _ H1 H2); lea. }
    assert (map fst m <> []) as Nm' by (destruct m; [congruence|discriminate]).
    pose proof (ring_link _ _ _ _ _ N2 Nm' Ri Lm) as R1. unfold Inv. conj.
    - apply Own_hp. eapply Own_perm; [| |exact O].
      + apply all_move with m; [lea|lea|lea|rewrite L, app_nil_r; reflexivity|rewrite E, !app_assoc; apply Permutation_app_tail, Permutation_app_comm].
      + intros j x Hj. destruct (Nat.eq_dec j i) as [->|D]; [|rewrite !put_other by lea; now apply (o_pool _ _ O)]. rewrite put_same, !map_app, !in_app_iff. intros [I|[I|I]]; [|now apply Hb|]; apply (o_pool _ _ O); try exact Hi; rewrite E, map_app, in_app_iff; tauto.
    - intros j Hj. destruct (Nat.eq_dec j i) as [->|D]; [rewrite put_same, !map_app; exact R1|]. rewrite !put_other by lea.
      eapply ring_else with (i := i); [exact O|exact Hi|exact Hj|lea|now apply R|eapply frame_trans; apply frame_join|]. 
      assert (incl (map fst m) (map fst (nd i) ++ map fst (nd n))) as Im by (rewrite L; apply incl_appr, incl_refl).
      intros y [<-|[<-|[<-|[<-|[]]]]].
      + destruct (fst_in a (term i)) as [H|H]; [now left|right]. apply in_app_iff. left. rewrite E, map_app. apply in_app_iff. now left.
      + right. apply Im. destruct m; [congruence|now left].
      + right. apply Im. destruct (exists_last Nm') as (m' & z & ->). rewrite last_last. apply in_app_iff. right. now left.
      + destruct (hd_in b (term i)) as [H|H]; [now left|right]. apply in_app_iff. left. rewrite E, !map_app, !in_app_iff. tauto.
    - rewrite put_other by lea. apply put_same.
  Qed.
  Lemma own_notin w nd p x : Own w nd -> In x (free w p) -> ~ In x (map fst (all nd)). Proof. intros O H. apply (o_free _ _ O) in H. apply H. Qed.
  Lemma alloc_ok w nd i v x r : Own w nd -> nd n = [] -> free w (pool i) = x :: r ->
    exists w', alloc pool w i v = Some (x, w') /\ hp w' = hp w /\ free w' = (fun p => if Nat.eqb p (pool i) then r else free w p) /\ Own w' (put nd n [(x, v)]) /\ In x (blocks (pool i)).
  Proof.
    intros O L F. unfold alloc. rewrite F. eexists. split; [reflexivity|]. cbn. split; [reflexivity|]. split; [reflexivity|].
    assert (In x (free w (pool i))) as Hx by (rewrite F; now left). pose proof (own_notin _ _ _ _ O Hx) as Nx. pose proof Hx as Hb. apply (o_free _ _ O) in Hb as (Hb & _). split; [|exact Hb].
    pose proof (o_fnd _ _ O (pool i)) as Nf. rewrite F in Nf. inversion Nf as [|? ? Nf1 Nf2]; subst.
    assert (Permutation (all (put nd n [(x, v)])) ((x, v) :: all nd)) as P. { rewrite all_put by lea. rewrite (all_at nd n) by lea. rewrite L. reflexivity. }
    constructor; cbn.
    - eapply Permutation_NoDup; [apply Permutation_map; symmetry; exact P|]. cbn. constructor; [exact Nx|apply (o_nodup _ _ O)].
    - intros y u I. eapply Permutation_in in I; [|exact P]. destruct I as [I|I]; [injection I as <- <-; now rewrite Nat.eqb_refl|]. destruct (Nat.eqb_spec y x) as [->|]; [exfalso; apply Nx; apply (in_map fst) in I; exact I|]. now apply (o_val _ _ O).
    - intros j y Hj. rewrite put_other by lea. now apply (o_pool _ _ O).
    - intros y I. eapply Permutation_in in I; [|apply Permutation_map; exact P]. destruct I as [<-|I]; [exists (pool i); exact Hb|now apply (o_blk _ _ O)].
    - intros p. destruct (Nat.eqb_spec p (pool i)); [exact Nf2|apply (o_fnd _ _ O)].
    - intros p y. assert (In y (map fst (all (put nd n [(x, v)]))) <-> y = x \/ In y (map fst (all nd))) as ->. { split; intros I; [eapply Permutation_in in I; [|apply Permutation_map; exact P]; destruct I as [I|I]; [left; now symmetry|now right]|]. eapply Permutation_in; [apply Permutation_map; symmetry; exact P|]. destruct I as [->|I]; [now left|now right]. }
      destruct (Nat.eqb_spec p (pool i)) as [->|D].
      + pose proof (o_free _ _ O (pool i) y) as Q. rewrite F in Q. split.
        * intros I. destruct Q as (Q & _). destruct Q as (Q1 & Q2); [now right|]. split; [exact Q1|]. intros [->|C]; contradiction.
        * intros (I1 & I2). destruct Q as (_ & Q). destruct Q as [->|Q]; [split; [exact I1|]; intros C; apply I2; now right|exfalso; apply I2; now left|exact Q].
      + rewrite (o_free _ _ O). split; intros (I1 & I2); (split; [exact I1|]); [intros [->|C]; [|contradiction]; apply D; exact (Hdis _ _ _ I1 Hb)|intros C; apply I2; now right].
  Qed.
  Lemma destroy_ok w nd i x v m : Own w nd -> nd n = (x, v) :: m -> In x (blocks (pool i)) ->
    exists w', destroy_data_node pool w i x = Some w' /\ nxt (hp w') = nxt (hp w) /\ (forall y, y <> x -> prv (hp w') y = prv (hp w) y) /\ Own w' (put nd n m).
  Proof.
    intros O L Hb. unfold destroy_data_node. pose proof (own_pval _ _ n x v O (le_n _)) as V. rewrite L in V. rewrite V by (now left). eexists. split; [reflexivity|]. cbn. split; [reflexivity|]. split; [intros y Hy; destruct (Nat.eqb_spec y x); [contradiction|reflexivity]|].
    assert (Permutation (all nd) ((x, v) :: all (put nd n m))) as P. { rewrite all_put by lea. rewrite (all_at nd n) by lea. rewrite L. reflexivity. }
    pose proof (o_nodup _ _ O) as N. eapply Permutation_NoDup in N; [|apply Permutation_map; exact P]. cbn in N. inversion N as [|? ? N1 N2]; subst.
    assert (forall y, In y (map fst (all nd)) <-> y = x \/ In y (map fst (all (put nd n m)))) as Q. { intros y. split; intros I; [eapply Permutation_in in I; [|apply Permutation_map; exact P]; destruct I as [I|I]; [left; now symmetry|now right]|]. eapply Permutation_in; [apply Permutation_map; symmetry; exact P|]. destruct I as [->|I]; [now left|now right]. }
    assert (~ In x (free w (pool i))) as Nx. { intros C. apply (o_free _ _ O) in C. apply C. apply Q. now left. }
    constructor; cbn.
    - exact N2.
    - intros y u I. destruct (Nat.eqb_spec y x) as [->|]; [exfalso; apply N1; apply (in_map fst) in I; exact I|]. apply (o_val _ _ O). eapply Permutation_in; [symmetry; exact P|]. now right.
    - intros j y Hj. rewrite put_other by lea. now apply (o_pool _ _ O).
    - intros y I. apply (o_blk _ _ O). apply Q. now right.
    - intros p. destruct (Nat.eqb_spec p (pool i)) as [->|]; [constructor; [exact Nx|apply (o_fnd _ _ O)]|apply (o_fnd _ _ O)].
    - intros p y. destruct (Nat.eqb_spec p (pool i)) as [->|D].
      + cbn [In]. rewrite (o_free _ _ O), Q. split.
        * intros [<-|(I1 & I2)]; [split; assumption|]. split; [exact I1|]. intros C. apply I2. now right.
        * intros (I1 & I2). destruct (Nat.eq_dec x y) as [->|E]; [now left|right]. split; [exact I1|]. intros [C|C]; [congruence|contradiction].
      + rewrite (o_free _ _ O), Q. split; intros (I1 & I2); (split; [exact I1|]); [intros C; apply I2; now right|intros [->|C]; [|contradiction]; apply D; exact (Hdis _ _ _ I1 Hb)].
  Qed.
  Lemma nodup_filter_part (nd : nodes) f l : NoDup (map fst (flat_map nd l)) -> NoDup (map fst (flat_map nd (filter f l))).
  Proof.
    induction l as [|x l IH]; intros N; [constructor|]. cbn in *. rewrite map_app in N. apply NoDup_app_iff in N as (N1 & N2 & N3). destruct (f x); [|now apply IH]. cbn. rewrite map_app. apply NoDup_app_iff. conj; [exact N1|now apply IH|].
    intros y H1 H2. apply (N3 y H1). apply in_map_iff in H2 as (e & <- & H2). apply in_map. apply in_flat_map in H2 as (z & H2 & H3). apply filter_In in H2 as (H2 & _). apply in_flat_map. now exists z.
  Qed.
  Definition snds (nd : nodes) : nat -> list A := fun i => map snd (nd i).
  Lemma used_len (nd : nodes) p : used n pool (snds nd) p = length (flat_map nd (filter (fun i => Nat.eqb (pool i) p) (seq 0 n))).
  Proof. unfold used, snds. induction (filter _ _) as [|x l IH]; [reflexivity|]. cbn. rewrite app_length, map_length. now f_equal. Qed.
  Lemma free_blocks w nd p : Inv w nd -> Permutation (free w p ++ map fst (flat_map nd (filter (fun i => Nat.eqb (pool i) p) (seq 0 n)))) (blocks p).
  Proof.
    intros (O & _ & L). pose proof (o_nodup _ _ O) as N. apply NoDup_Permutation; [|apply Hnd|].
    - apply NoDup_app_iff. conj; [apply (o_fnd _ _ O)| |].
      + apply nodup_filter_part. unfold all in N. rewrite seq_S, flat_map_app, map_app in N. apply NoDup_app_iff in N. apply N.
      + intros x I1 I2. apply (o_free _ _ O) in I1 as (_ & I1). apply I1. apply in_map_iff in I2 as (e & <- & I2). apply in_map. apply in_flat_map in I2 as (z & H2 & H3). apply filter_In in H2 as (H2 & _). apply in_seq in H2. apply in_all with z; [lia|exact H3].
    - intros x. rewrite in_app_iff. split.
      + intros [I|I]; [now apply (o_free _ _ O) in I|]. apply in_map_iff in I as (e & <- & I). apply in_flat_map in I as (z & H2 & H3). apply filter_In in H2 as (H2 & E). apply Nat.eqb_eq in E as <-. apply in_seq in H2. apply (o_pool _ _ O); [lia|]. now apply in_map.
      + intros I. destruct (in_dec Nat.eq_dec x (map fst (all nd))) as [J|J]; [right|left; now apply (o_free _ _ O)]. apply in_map_iff in J as (e & <- & J). apply in_map. apply in_flat_map in J as (z & Hz & J). apply in_seq in Hz. destruct (Nat.eq_dec z n) as [->|D]; [rewrite L in J; destruct J|]. apply in_flat_map. exists z. split; [|exact J]. apply filter_In. split; [apply in_seq; lia|]. apply Nat.eqb_eq. apply Hdis with (fst e); [|exact I]. apply (o_pool _ _ O); [lia|]. now apply in_map.
  Qed.
  Definition cap (p : nat) : nat := length (blocks p).
  Lemma free_used w nd p : Inv w nd -> length (free w p) + used n pool (snds nd) p = cap p.
  Proof. intros I. unfold cap. rewrite <- (Permutation_length (free_blocks _ _ p I)), app_length, map_length, used_len. reflexivity. Qed.
  Lemma free_room w nd i : Inv w nd -> length (free w (pool i)) = room n pool cap (snds nd) i.
  Proof. intros I. unfold room. pose proof (free_used _ _ (pool i) I). lia. Qed.
  Lemma len_cap w nd i : Inv w nd -> i < n -> length (nd i) <= cap (pool i).
  Proof.
    intros I Hi. pose proof (free_used _ _ (pool i) I) as U. rewrite used_len in U. assert (length (nd i) <= length (flat_map nd (filter (fun j => Nat.eqb (pool j) (pool i)) (seq 0 n)))); [|lia].
    assert (In i (filter (fun j => Nat.eqb (pool j) (pool i)) (seq 0 n))) as J by (apply filter_In; split; [apply in_seq; lia|apply Nat.eqb_refl]). revert J. clear. induction (filter _ _) as [|x l IH]; intros J; [destruct J|]. cbn. rewrite app_length. destruct J as [->|J]; [lia|]. apply IH in J. lia.
  Qed.
  Notation hdn i b := (hd (term i) (map fst b)).
  Lemma inv_ring w nd i : Inv w nd -> i < n -> ring (hp w) (term i) (map fst (nd i)). Proof. intros (_ & R & _). apply R. Qed.
  Lemma insert_ok w nd i a b v x r : Inv w nd -> i < n -> nd i = a ++ b -> free w (pool i) = x :: r ->
    exists w1, alloc pool w i v = Some (x, w1) /\ let w' := with_hp w1 (insert_node (hp w1) (hdn i b) x) in Inv w' (put nd i (a ++ (x, v) :: b)) /\ free w' (pool i) = r.
  Proof.
    intros (O & R & L) Hi E F. destruct (alloc_ok _ _ _ v _ _ O L F) as (w1 & E1 & H1 & F1 & O1 & Hb). exists w1. split; [exact E1|]. cbn zeta. split.
    - unfold insert_node. assert (prv (hp w1) (hdn i b) = last (map fst a) (term i)) as ->. { rewrite H1. apply ring_prv_hd. rewrite <- map_app, <- E. now apply R. }
      eapply Inv_ext; [|eapply (link w1 (put nd n [(x, v)]) i a [(x, v)] b)].
      + intros j Hj. unfold put. destruct (Nat.eqb_spec j i) as [->|]; [reflexivity|]. destruct (Nat.eqb_spec j n) as [->|]; [exact L|reflexivity].
      + exact O1.
      + intros j Hj. rewrite put_other by lea. rewrite H1. now apply R.
      + exact Hi.
      + rewrite put_other by lea. exact E.
      + apply put_same.
      + discriminate.
      + exact I.
      + intros y [<-|[]]. exact Hb.
    - cbn. rewrite F1. now rewrite Nat.eqb_refl.
  Qed.
  Lemma rings_prv h h' nd x : Rings h nd -> nxt h' = nxt h -> (forall y, y <> x -> prv h' y = prv h y) -> (forall i, i < n -> x <> term i /\ ~ In x (map fst (nd i))) -> Rings h' nd.
  Proof. intros R H1 H2 H3 i Hi. eapply ring_ext; [|now apply R]. intros y Hy. rewrite H1. split; [reflexivity|]. apply H2. intros ->. destruct (H3 i Hi). destruct Hy as [Hy|Hy]; [congruence|contradiction]. Qed.
  Lemma limbo_apart w nd x : Own w nd -> In x (map fst (nd n)) -> forall i, i < n -> x <> term i /\ ~ In x (map fst (nd i)).
  Proof.
    intros O I i Hi. split.
    - intros ->. destruct (o_blk _ _ O (term i)) as (p & Hp); [|exact (Htb _ _ Hi Hp)]. apply in_map_iff in I as ((z & v) & Ez & C). rewrite <- Ez. apply in_map. apply in_all with n; [lia|exact C].
    - refine (own_disj _ _ n _ _ O _ _ _ I); lia.
  Qed.
  (** nodes between lists are destroyed; nothing else changes *)
  Lemma limbo_destroy w nd i x v m : Own w nd -> Rings (hp w) nd -> nd n = (x, v) :: m -> In x (blocks (pool i)) ->
    exists w', destroy_data_node pool w i x = Some w' /\ nxt (hp w') = nxt (hp w) /\ Own w' (put nd n m) /\ Rings (hp w') (put nd n m).
  Proof.
    intros O R L Hb. destruct (destroy_ok _ _ _ _ _ _ O L Hb) as (w' & E1 & H1 & H2 & O1). exists w'. conj; [exact E1|exact H1|exact O1|].
    assert (Rings (hp w') nd) as R'. { eapply rings_prv; [exact R|exact H1|exact H2|]. apply (limbo_apart w); [exact O|]. rewrite L. now left. }
    intros j Hj. rewrite put_other by lea. now apply R'.
  Qed.
  Lemma inv_put2 w nd i l : Own w (put (put nd i l) n []) -> Rings (hp w) (put (put nd i l) n []) -> i < n -> nd n = [] -> Inv w (put nd i l).
  Proof.
    intros O R Hi L. apply Inv_ext with (put (put nd i l) n []).
    - intros j Hj. unfold put. destruct (Nat.eqb_spec j n) as [->|]; [|reflexivity]. destruct (Nat.eqb_spec n i); [lia|exact L].
    - unfold Inv. conj; [exact O|exact R|apply put_same].
  Qed.
  Lemma Own_ext w nd nd' : (forall i, i <= n -> nd' i = nd i) -> Own w nd -> Own w nd'.
  Proof. intros H O. eapply Own_perm; [rewrite (all_ext _ _ H); reflexivity| |exact O]. intros i x Hi. rewrite H by lia. now apply (o_pool _ _ O). Qed.
  Lemma put_put {B} (nd : nat -> list B) i l l' j : put (put nd i l) i l' j = put nd i l' j. Proof. unfold put. destruct (Nat.eqb j i); reflexivity. Qed.
  Lemma remove_ok w nd i a x v b : Inv w nd -> i < n -> nd i = a ++ (x, v) :: b -> exists w', remove_node pool w i x = Some w' /\ Inv w' (put nd i (a ++ b)).
  Proof.
    intros (O & R & L) Hi E. unfold remove_node. pose proof (R _ Hi) as Ri. rewrite E, map_app in Ri. cbn in Ri. destruct (ring_mid _ _ _ _ _ Ri) as (-> & ->).
    destruct (unlink w nd i a [(x, v)] b O R Hi E L) as (O1 & R1 & _).
    destruct (limbo_destroy _ _ i x v [] O1 R1) as (w' & E1 & _ & O2 & R2); [apply put_same|apply (o_pool _ _ O); [exact Hi|rewrite E, map_app; apply in_app_iff; right; now left]|].
    exists w'. split; [exact E1|]. apply inv_put2; [| |exact Hi|exact L].
    - eapply Own_ext; [|exact O2]. intros j Hj. symmetry. apply put_put.
    - intros j Hj. pose proof (R2 j Hj) as Q. rewrite put_put in Q. exact Q.
  Qed.
  Lemma erase_ok w nd i a x v b : Inv w nd -> i < n -> nd i = a ++ (x, v) :: b -> exists w', erase pool w i x = Some (hdn i b, w') /\ Inv w' (put nd i (a ++ b)).
  Proof.
    intros I Hi E. unfold erase. pose proof (inv_ring _ _ _ I Hi) as Ri. rewrite E, map_app in Ri. cbn in Ri. destruct (ring_mid _ _ _ _ _ Ri) as (E1 & _). cbn zeta. rewrite E1.
    assert (prv (hp w) (hdn i b) = x) as ->. { rewrite (ring_prv_hd _ _ (map fst a ++ [x])); [apply last_last|]. now rewrite <- app_assoc. }
    destruct (remove_ok _ _ _ _ _ _ _ I Hi E) as (w' & -> & I'). now exists w'.
  Qed.
  (** the next pointers along [m], up to [stop] *)
  Fixpoint chain (h : links) (m : list nat) (stop : nat) : Prop := match m with [] => True | x :: r => nxt h x = hd stop r /\ x <> stop /\ chain h r stop end.
  Lemma ring_chain h t a m b : ring h t (a ++ m ++ b) -> NoDup (t :: a ++ m ++ b) -> chain h m (hd t b).
  Proof.
    revert a. induction m as [|x m IH]; intros a R N; [exact Logic.I|]. cbn [app] in *. destruct (ring_mid _ _ _ _ _ R) as (E & _). cbn. conj.
    - rewrite E. destruct m; reflexivity.
    - intros ->. destruct b as [|y b]; cbn in *.
      + apply (NoDup_cons_iff t) in N as (N & _). apply N. apply in_app_iff. right. now left.
      + apply NoDup_cons_iff in N as (_ & N). apply NoDup_remove_2 in N. apply N. rewrite !in_app_iff. right. right. now left.
    - apply (IH (a ++ [x])); [now rewrite <- app_assoc|]. now rewrite <- app_assoc.
  Qed.
  Lemma chain_ext h h' m stop : (forall x, In x m -> nxt h' x = nxt h x) -> chain h m stop -> chain h' m stop.
  Proof. induction m as [|x m IH]; intros H C; [exact Logic.I|]. cbn in *. destruct C as (C1 & C2 & C3). conj; [rewrite H by (now left); exact C1|exact C2|]. apply IH; [intros; apply H; now right|exact C3]. Qed.
  Lemma destroy_range_ok i stop : forall m f w nd, Own w nd -> Rings (hp w) nd -> nd n = m -> (forall x, In x (map fst m) -> In x (blocks (pool i))) -> chain (hp w) (map fst m) stop -> length m <= f ->
    exists w', destroy_range pool f w i (hd stop (map fst m)) stop = Some w' /\ Own w' (put nd n []) /\ Rings (hp w') (put nd n []).
  Proof.
    induction m as [|(x, v) m IH]; intros f w nd O R L Hb C Hf.
    - exists w. cbn [map hd]. split; [destruct f; cbn; now rewrite Nat.eqb_refl|]. split; [eapply Own_ext; [|exact O]|intros j Hj; rewrite put_other by lea; now apply R]. intros j Hj. unfold put. destruct (Nat.eqb_spec j n) as [->|]; congruence.
    - cbn in C. destruct C as (C1 & C2 & C3). destruct f as [|f]; [cbn in Hf; lia|]. cbn [map hd fst destroy_range]. rewrite (proj2 (Nat.eqb_neq _ _) C2). cbn zeta. rewrite C1.
      destruct (limbo_destroy w nd i x v m O R L) as (w1 & E1 & H1 & O1 & R1); [apply Hb; now left|]. rewrite E1.
      destruct (IH f w1 (put nd n m)) as (w' & E' & O' & R'); [exact O1|exact R1|apply put_same|intros; apply Hb; now right|eapply chain_ext; [|exact C3]; intros; now rewrite H1|cbn in Hf; lia|]. exists w'. split; [exact E'|]. split; [eapply Own_ext; [|exact O']; intros; symmetry; apply put_put|]. intros j Hj. pose proof (R' j Hj) as Q. now rewrite put_put in Q.
  Qed.
  Lemma last_neq_mid t (a : list nat) m b x : NoDup (t :: a ++ m ++ b) -> In x m -> x <> last a t.
  Proof. intros N I ->. pose proof (last_in t a) as J. rewrite app_comm_cons in N. apply NoDup_app_iff in N as (_ & _ & N). apply (N _ J). apply in_app_iff. now left. Qed.
  Lemma erase_range_ok w nd i a m b : Inv w nd -> i < n -> nd i = a ++ m ++ b -> exists w', erase_range pool blocks w i (hdn i (m ++ b)) (hdn i b) = Some (hdn i b, w') /\ Inv w' (put nd i (a ++ b)).
  Proof.
    intros J Hi E. destruct J as (O & R & L) eqn:EJ. unfold erase_range. pose proof (own_ring_nodup _ _ _ O Hi) as N. pose proof (R _ Hi) as Ri. rewrite E, !map_app in Ri, N.
    assert (prv (hp w) (hdn i (m ++ b)) = last (map fst a) (term i)) as ->. { apply ring_prv_hd. now rewrite map_app. } cbn zeta.
    destruct (unlink w nd i a m b O R Hi E L) as (O1 & R1 & _).
    assert (hdn i (m ++ b) = hd (hdn i b) (map fst m)) as -> by (destruct m; reflexivity).
    destruct (destroy_range_ok i (hdn i b) m (fuel pool blocks i) _ _ O1 R1) as (w' & -> & O2 & R2).
    - apply put_same.
    - intros x I. apply (o_pool _ _ O); [exact Hi|]. rewrite E, !map_app, !in_app_iff. tauto.
    - eapply chain_ext; [|apply (ring_chain (hp w) (term i) (map fst a) _ (map fst b)); assumption]. intros x I. cbn. destruct (Nat.eqb_spec x (last (map fst a) (term i))) as [->|]; [|reflexivity]. exfalso. exact (last_neq_mid _ _ _ _ _ N I eq_refl).
    - pose proof (len_cap _ _ _ J Hi) as Q. rewrite E, !app_length in Q. unfold fuel, cap in *. lia.
    - exists w'. split; [reflexivity|]. apply inv_put2; [| |exact Hi|exact L].
      + eapply Own_ext; [|exact O2]. intros; symmetry; apply put_put.
      + intros j Hj. pose proof (R2 j Hj) as Q. now rewrite put_put in Q.
  Qed.
  (** ** initialise *)
  Lemma is_empty_ok w nd i : Inv w nd -> i < n -> is_empty term w i = match nd i with [] => true | _ => false end.
  Proof.
    intros J Hi. unfold is_empty. destruct (ring_hd _ _ _ (inv_ring _ _ _ J Hi)) as (-> & _). pose proof J as (O & _). destruct (nd i) as [|(x, v) l] eqn:E; cbn; [apply Nat.eqb_refl|]. apply Nat.eqb_neq. intros C. apply (own_term _ _ i i O Hi Hi). rewrite E. left. exact C.
  Qed.
  Lemma destroy_all_ok i stop : forall m f w nd, Own w nd -> nd n = m -> (forall x, In x (map fst m) -> In x (blocks (pool i))) -> chain (hp w) (map fst m) stop -> length m <= f ->
    exists w', destroy_all pool f w i (hd stop (map fst m)) stop = Some w' /\ Own w' (put nd n []) /\ nxt (hp w') = nxt (hp w) /\ (forall y, ~ In y (map fst m) -> prv (hp w') y = prv (hp w) y).
  Proof.
    induction m as [|(x, v) m IH]; intros f w nd O L Hb C Hf.
    - exists w. cbn [map hd]. conj; [destruct f; cbn; now rewrite Nat.eqb_refl| |reflexivity|reflexivity]. eapply Own_ext; [|exact O]. intros j Hj. unfold put. destruct (Nat.eqb_spec j n) as [->|]; congruence.
    - cbn in C. destruct C as (C1 & C2 & C3). destruct f as [|f]; [cbn in Hf; lia|]. cbn [map hd fst destroy_all]. rewrite (proj2 (Nat.eqb_neq _ _) C2).
      destruct (destroy_ok w nd i x v m O L) as (w1 & E1 & H1 & H2 & O1); [apply Hb; now left|]. rewrite E1, H1, C1.
      destruct (IH f w1 (put nd n m)) as (w' & E' & O' & H1' & H2'); [exact O1|apply put_same|intros; apply Hb; now right|eapply chain_ext; [|exact C3]; intros; now rewrite H1|cbn in Hf; lia|]. exists w'. conj; [exact E'|eapply Own_ext; [|exact O']; intros; symmetry; apply put_put|congruence|].
      intros y Hy. rewrite H2' by (intros I; apply Hy; now right). apply H2. intros ->. apply Hy. now left.
  Qed.
  Lemma existsb_in x l : existsb (Nat.eqb x) l = true <-> In x l.
  Proof. rewrite existsb_exists. split; [intros (y & I & E); apply Nat.eqb_eq in E; congruence|intros I; exists x; split; [exact I|apply Nat.eqb_refl]]. Qed.
  Lemma put_all_in (nd : nodes) i x : i <= n -> In x (map fst (all (put nd i []))) <-> exists j, j <= n /\ j <> i /\ In x (map fst (nd j)).
  Proof.
    intros Hi. split.
    - intros I. apply in_map_iff in I as (e & <- & I). apply in_flat_map in I as (j & Hj & I). apply in_seq in Hj. exists j. unfold put in I. destruct (Nat.eqb_spec j i); [destruct I|]. conj; [lia|exact n0|now apply in_map].
    - intros (j & Hj & D & I). apply in_map_iff in I as (e & <- & I). apply in_map. apply in_all with j; [exact Hj|]. now rewrite put_other.
  Qed.
  Lemma release_all_ok w nd i : Inv w nd -> i < n -> shared i = false -> Own (release_all blocks w (pool i)) (put nd i []).
  Proof.
    intros (O & R & L) Hi Hs.
    assert (forall x j, j <= n -> j <> i -> In x (map fst (nd j)) -> ~ In x (blocks (pool i))) as Ho.
    { intros x j Hj D I C. destruct (Nat.eq_dec j n) as [->|Dn]; [rewrite L in I; destruct I|]. apply D. apply (Hsh i j Hi); [lia|exact Hs|]. apply (Hdis _ _ x); [|exact C]. apply (o_pool _ _ O); [lia|exact I]. }
    assert (forall x, In x (map fst (all (put nd i []))) -> In x (map fst (all nd))) as Hin. { intros x I. apply put_all_in in I as (j & Hj & _ & I); [|lia]. apply in_map_iff in I as (e & <- & I). apply in_map. now apply in_all with j. }
    constructor; cbn [release_all hp val free].
    - pose proof (o_nodup _ _ O) as N. eapply Permutation_NoDup in N; [|apply Permutation_map, (all_at nd i); lia]. eapply Permutation_NoDup; [apply Permutation_map; symmetry; apply all_put; lia|]. rewrite map_app in N. apply NoDup_app_iff in N. apply N.
    - intros x v I. destruct (existsb (Nat.eqb x) (blocks (pool i))) eqn:B.
      + apply existsb_in in B. exfalso. apply (in_map fst) in I. apply put_all_in in I as (j & Hj & D & I); [|lia]. exact (Ho _ _ Hj D I B).
      + apply (o_val _ _ O). apply in_flat_map in I as (j & Hj & I). apply in_flat_map. exists j. split; [exact Hj|]. unfold put in I. destruct (Nat.eqb j i); [destruct I|exact I].
    - intros j x Hj. unfold put. destruct (Nat.eqb j i); [intros []|]. now apply (o_pool _ _ O).
    - intros x I. apply (o_blk _ _ O). now apply Hin.
    - intros p. destruct (Nat.eqb_spec p (pool i)) as [->|]; [apply Hnd|apply (o_fnd _ _ O)].
    - intros p x. destruct (Nat.eqb_spec p (pool i)) as [->|D].
      + split; [|intros (I & _); exact I]. intros I. split; [exact I|]. intros C. apply put_all_in in C as (j & Hj & D & C); [|lia]. exact (Ho _ _ Hj D C I).
      + rewrite (o_free _ _ O). split; intros (I1 & I2); (split; [exact I1|]).
        * intros C. apply I2. now apply Hin.
        * intros C. apply I2. apply put_all_in; [lia|]. apply in_map_iff in C as (e & <- & C). apply in_flat_map in C as (j & Hj & C). apply in_seq in Hj. exists j. conj; [lia| |now apply in_map]. intros ->. apply D. apply (Hdis _ _ (fst e)); [exact I1|]. apply (o_pool _ _ O); [exact Hi|]. now apply in_map.
  Qed.
  Lemma ring_self h t : ring (join h t t) t []. Proof. unfold ring. cbn. now rewrite Nat.eqb_refl. Qed.
  Lemma initialise_ok w nd i : Inv w nd -> i < n -> exists w', initialise term pool shared blocks triv w i = Some w' /\ Inv w' (put nd i []).
  Proof.
    intros J Hi. pose proof J as (O & R & L). unfold initialise. rewrite (is_empty_ok _ _ _ J Hi).
    assert (exists w1, (if negb (match nd i with [] => true | _ => false end) then if triv && negb (shared i) then Some (release_all blocks w (pool i)) else destroy_all pool (fuel pool blocks i) w i (nxt (hp w) (term i)) (term i) else Some w) = Some w1
      /\ Own w1 (put nd i []) /\ nxt (hp w1) = nxt (hp w) /\ (forall y, ~ In y (map fst (nd i)) -> prv (hp w1) y = prv (hp w) y)) as (w1 & -> & O1 & H1 & H2).
    { destruct (nd i) as [|e l] eqn:E; cbn [negb].
      - exists w. conj; [reflexivity| |reflexivity|reflexivity]. eapply Own_ext; [|exact O]. intros j Hj. unfold put. destruct (Nat.eqb_spec j i) as [->|]; congruence.
      - destruct (triv && negb (shared i)) eqn:T.
        + apply andb_true_iff in T as (_ & T). apply negb_true_iff in T. eexists. conj; [reflexivity|now apply release_all_ok|reflexivity|reflexivity].
        + pose proof (own_ring_nodup _ _ _ O Hi) as N. pose proof (R _ Hi) as Ri. destruct (ring_hd _ _ _ Ri) as (-> & _).
          assert (Own w (put (put nd i []) n (nd i))) as O2. { eapply Own_perm; [apply all_move with (nd i); [lea|lea|lea|now rewrite app_nil_r|rewrite L; now rewrite app_nil_r]| |exact O]. intros j x Hj. rewrite put_other by lea. unfold put. destruct (Nat.eqb j i); [intros []|now apply (o_pool _ _ O)]. }
          destruct (destroy_all_ok i (term i) (nd i) (fuel pool blocks i) w _ O2) as (w1 & E1 & O3 & H1 & H2).
          * apply put_same.
          * intros x. now apply (o_pool _ _ O).
          * apply (ring_chain (hp w) (term i) [] _ []); cbn; rewrite app_nil_r; assumption.
          * pose proof (len_cap _ _ _ J Hi) as Q. unfold fuel, cap in *. lia.
          * exists w1. conj; [exact E1| |exact H1|rewrite <- E; exact H2]. eapply Own_ext; [|exact O3]. intros j Hj. rewrite put_put. unfold put. destruct (Nat.eqb_spec j n) as [->|]; [|reflexivity]. destruct (Nat.eqb_spec n i); [lia|exact L]. }
    eexists. split; [reflexivity|]. unfold Inv. conj; [apply Own_hp; exact O1| |rewrite put_other by lea; exact L]. cbn [hp with_hp].
    intros j Hj. destruct (Nat.eq_dec j i) as [->|D]; [rewrite put_same; apply ring_self|]. rewrite put_other by exact D. eapply ring_ext; [|now apply R]. intros y Hy. cbn. rewrite H1.
    assert (y <> term i) as Dy. { intros ->. destruct Hy as [Hy|Hy]; [apply D; now apply Hterm|]. exact (own_term _ _ _ _ O Hi Hj Hy). }
    destruct (Nat.eqb_spec y (term i)); [contradiction|]. split; [reflexivity|]. apply H2. destruct Hy as [<-|Hy]; [now apply (own_term w)|]. intros C. refine (own_disj _ _ i j y O _ _ _ C Hy); lea.
  Qed.
  (** ** positions *)
  Lemma at_pos_ok h t : forall l a k, ring h t (a ++ l) -> k <= length l -> at_pos h (hd t l) k = hd t (skipn k l).
  Proof.
    induction l as [|x l IH]; intros a k R Hk; [cbn in Hk; replace k with 0 by lia; reflexivity|]. destruct k as [|k]; [reflexivity|]. cbn [hd at_pos skipn]. destruct (ring_mid _ _ _ _ _ R) as (-> & _). apply (IH (a ++ [x])); [now rewrite <- app_assoc|cbn in Hk; lia].
  Qed.
  Lemma skipn_map' {B C} (f : B -> C) k l : skipn k (map f l) = map f (skipn k l). Proof. revert k. induction l as [|x l IH]; intros [|k]; try reflexivity. apply IH. Qed.
  Lemma pos_ok w nd i k : Inv w nd -> i < n -> k <= length (nd i) -> pos term w i k = hdn i (skipn k (nd i)).
  Proof.
    intros J Hi Hk. unfold pos. pose proof (inv_ring _ _ _ J Hi) as Ri. destruct (ring_hd _ _ _ Ri) as (-> & _). rewrite (at_pos_ok _ _ _ [] _ Ri) by (now rewrite map_length). now rewrite skipn_map'.
  Qed.
  Lemma back_pos_ok h t : forall a b k, ring h t (a ++ b) -> k <= length a -> back_pos h (hd t b) k = hd t (skipn (length a - k) (a ++ b)).
  Proof.
    induction a as [|x a IH] using rev_ind; intros b k R Hk; [cbn in *; replace k with 0 by lia; reflexivity|]. destruct k as [|k].
    - rewrite Nat.sub_0_r. cbn [back_pos]. rewrite skipn_app, skipn_all, Nat.sub_diag. reflexivity.
    - cbn [back_pos]. rewrite (ring_prv_hd _ _ _ _ R), last_last. rewrite app_length in *. cbn in Hk |- *. rewrite <- app_assoc in *. cbn [app] in *. change x with (hd t (x :: b)). rewrite (IH (x :: b) k R) by lia. f_equal. f_equal. lia.
  Qed.
  Lemma size_ok w nd i : Inv w nd -> i < n -> size term pool shared blocks w i = Some (length (nd i)).
  Proof.
    intros J Hi. pose proof J as (O & R & L). unfold size. destruct (shared i) eqn:Hs.
    - destruct (ring_hd _ _ _ (R _ Hi)) as (-> & _). assert (forall (l : list (nat * A)) f, chain (hp w) (map fst l) (term i) -> length l <= f -> count_loop f (hp w) (hdn i l) (term i) = Some (length l)) as G.
      { induction l as [|(x, v) l IH]; intros f C Hf; [destruct f; cbn; now rewrite Nat.eqb_refl|]. destruct f as [|f]; [cbn in Hf; lia|]. cbn in C. destruct C as (C1 & C2 & C3). cbn [map hd fst count_loop]. rewrite (proj2 (Nat.eqb_neq _ _) C2), C1. rewrite IH; [reflexivity|exact C3|cbn in Hf; lia]. }
      apply G; [|pose proof (len_cap _ _ _ J Hi) as Q; unfold fuel, cap in *; lia]. apply (ring_chain (hp w) (term i) [] _ []); cbn; rewrite app_nil_r; [now apply R|now apply (own_ring_nodup w)].
    - f_equal. pose proof (free_used _ _ (pool i) J) as U. rewrite used_len in U. unfold cap in U.
      assert (filter (fun j => Nat.eqb (pool j) (pool i)) (seq 0 n) = [i]) as E. { assert (forall l, NoDup l -> (forall j, In j l -> j < n) -> filter (fun j => Nat.eqb (pool j) (pool i)) l = if existsb (Nat.eqb i) l then [i] else []) as G.
        { induction l as [|j l IH]; intros N H; [reflexivity|]. inversion N as [|? ? N1 N2]; subst. cbn [filter existsb]. rewrite IH by (try exact N2; intros; apply H; now right). destruct (Nat.eqb_spec i j) as [<-|D]; cbn [orb].
          - rewrite Nat.eqb_refl. destruct (existsb (Nat.eqb i) l) eqn:B; [apply existsb_in in B; contradiction|reflexivity].
          - destruct (Nat.eqb_spec (pool j) (pool i)) as [E|]; [|reflexivity]. exfalso. apply D. symmetry. apply Hsh; [exact Hi|apply H; now left|exact Hs|exact E]. }
        rewrite G; [|apply seq_NoDup|intros j I; apply in_seq in I; lia]. assert (existsb (Nat.eqb i) (seq 0 n) = true) as -> by (apply existsb_in, in_seq; lia). reflexivity. }
      rewrite E in U. cbn in U. rewrite app_nil_r in U. lia.
  Qed.
  Lemma is_full_ok w nd i : Inv w nd -> is_full pool w i = Nat.eqb (room n pool cap (snds nd) i) 0.
  Proof. intros J. unfold is_full. rewrite <- (free_room _ _ _ J). destruct (free w (pool i)); reflexivity. Qed.
  (** ** insertion *)
  Lemma full_free (w : world) i : is_full pool w i = match free w (pool i) with [] => true | _ => false end. Proof. reflexivity. Qed.
  Lemma put_app_ext (nd : nodes) i l l' j : l = l' -> put nd i l j = put nd i l' j. Proof. now intros ->. Qed.
  Lemma inv_put w nd i l l' : Inv w (put (put nd i l) i l') -> Inv w (put nd i l'). Proof. apply Inv_ext. intros j _. symmetry. apply put_put. Qed.
  Lemma inv_same w nd i l : nd i = l -> Inv w nd -> Inv w (put nd i l). Proof. intros E. apply Inv_ext. intros j _. unfold put. destruct (Nat.eqb_spec j i) as [->|]; [now symmetry|reflexivity]. Qed.
  Lemma insert_values_ok i : forall vs w nd a b, Inv w nd -> i < n -> nd i = a ++ b ->
    exists w' new, insert_values pool w i (hdn i b) vs = (if length vs <=? length (free w (pool i)) then Rok else Rfull, w') /\ Inv w' (put nd i (a ++ new ++ b)) /\ map snd new = firstn (length (free w (pool i))) vs.
  Proof.
    induction vs as [|v vs IH]; intros w nd a b J Hi E.
    - exists w, []. cbn. conj; [reflexivity|now apply inv_same|symmetry; apply firstn_nil].
    - cbn [insert_values]. unfold insert. rewrite full_free. destruct (free w (pool i)) as [|x r] eqn:F; [exists w, []; cbn; conj; [reflexivity|now apply inv_same|reflexivity]|].
      destruct (insert_ok w nd i a b v x r J Hi E F) as (w1 & -> & J1 & F1). set (w2 := with_hp _ _) in *.
      destruct (IH w2 _ (a ++ [(x, v)]) b J1 Hi) as (w' & new & E' & J' & S'); [rewrite put_same, <- app_assoc; reflexivity|]. rewrite F1 in *. exists w', ((x, v) :: new). conj; [exact E'| |cbn; now f_equal].
      apply inv_put in J'. now rewrite <- app_assoc in J'.
  Qed.
  Lemma assign_loop_ok i : forall vs w nd a, Inv w nd -> i < n -> nd i = a ->
    exists w' new, assign_loop term pool w i vs = (if length vs <=? length (free w (pool i)) then Rok else Rfull, w') /\ Inv w' (put nd i (a ++ new)) /\ map snd new = firstn (length (free w (pool i))) vs.
  Proof.
    induction vs as [|v vs IH]; intros w nd a J Hi E.
    - exists w, []. cbn. rewrite app_nil_r. conj; [reflexivity|now apply inv_same|symmetry; apply firstn_nil].
    - cbn [assign_loop]. destruct (free w (pool i)) as [|x r] eqn:F.
      + exists w, []. unfold alloc. rewrite F, app_nil_r. conj; [reflexivity|now apply inv_same|reflexivity].
      + destruct (insert_ok w nd i a [] v x r J Hi) as (w1 & -> & J1 & F1); [now rewrite app_nil_r|exact F|]. unfold insert_node in *. cbn [hd map] in J1, F1. cbn zeta. set (w2 := with_hp _ _) in *.
        destruct (IH w2 _ (a ++ [(x, v)]) J1 Hi) as (w' & new & E' & J' & S'); [now rewrite put_same|]. rewrite F1 in *. exists w', ((x, v) :: new). conj; [exact E'| |cbn; now f_equal].
        apply inv_put in J'. now rewrite <- app_assoc in J'.
  Qed.
  Lemma walk_next w nd j p x v c : Inv w nd -> j < n -> nd j = p ++ (x, v) :: c -> nxt (hp w) x = hdn j c /\ val w x = Some v /\ x <> hdn j c /\ x <> term j.
  Proof.
    intros J Hj E. pose proof J as (O & R & _). pose proof (R _ Hj) as Rj. pose proof (own_ring_nodup _ _ _ O Hj) as N. rewrite E, map_app in Rj, N. cbn in Rj, N. destruct (ring_mid _ _ _ _ _ Rj) as (E1 & _). conj.
    - exact E1.
    - apply (own_pval _ _ j _ _ O); [lia|]. rewrite E. apply in_app_iff. right. now left.
    - pose proof (ring_chain _ _ _ [x] (map fst c) Rj N) as C. cbn in C. apply C.
    - intros ->. apply NoDup_cons_iff in N as (N & _). apply N. apply in_app_iff. right. now left.
  Qed.
  Lemma hdn_not_mid w nd j p x v m c : Inv w nd -> j < n -> nd j = p ++ (x, v) :: m ++ c -> x <> hdn j c.
  Proof.
    intros J Hj E. pose proof J as (O & R & _). pose proof (R _ Hj) as Rj. pose proof (own_ring_nodup _ _ _ O Hj) as N. rewrite E, map_app in Rj, N. cbn in Rj, N. rewrite map_app in Rj, N. pose proof (ring_chain _ _ (map fst p) (x :: map fst m) (map fst c) Rj N) as C. apply C.
  Qed.
  Lemma insert_from_ok i j : i < n -> j < n -> i <> j -> forall m f w nd a b p c, Inv w nd -> nd i = a ++ b -> nd j = p ++ m ++ c -> length m <= f ->
    exists w' new, insert_from pool f w i (hdn i b) (hdn j (m ++ c)) (hdn j c) = Some (if length m <=? length (free w (pool i)) then Rok else Rfull, w') /\ Inv w' (put nd i (a ++ new ++ b)) /\ map snd new = firstn (length (free w (pool i))) (map snd m).
  Proof.
    intros Hi Hj D. induction m as [|(x, v) m IH]; intros f w nd a b p c J Ei Ej Hf.
    - exists w, []. cbn [app length map]. conj; [destruct f; cbn [insert_from]; rewrite Nat.eqb_refl; reflexivity|now apply inv_same|symmetry; apply firstn_nil].
    - destruct f as [|f]; [cbn in Hf; lia|]. cbn [app] in Ej |- *. cbn [map fst hd insert_from]. rewrite (proj2 (Nat.eqb_neq _ _) (hdn_not_mid _ _ _ _ _ _ _ _ J Hj Ej)). destruct (walk_next _ _ _ _ _ _ _ J Hj Ej) as (_ & -> & _).
      rewrite full_free. destruct (free w (pool i)) as [|y r] eqn:F; [exists w, []; cbn; conj; [reflexivity|now apply inv_same|reflexivity]|].
      destruct (insert_ok w nd i a b v y r J Hi Ei F) as (w1 & -> & J1 & F1). cbn zeta. set (w2 := with_hp _ _) in *.
      assert (put nd i (a ++ (y, v) :: b) j = p ++ (x, v) :: m ++ c) as Ej1 by (rewrite put_other by congruence; exact Ej).
      destruct (walk_next _ _ _ _ _ _ _ J1 Hj Ej1) as (-> & _).
      destruct (IH f w2 _ (a ++ [(y, v)]) b (p ++ [(x, v)]) c J1) as (w' & new & E' & J' & S'); [rewrite put_same, <- app_assoc; reflexivity|rewrite Ej1, <- app_assoc; reflexivity|cbn in Hf; lia|]. rewrite F1 in *. exists w', ((y, v) :: new). conj; [exact E'| |cbn; now f_equal].
      apply inv_put in J'. now rewrite <- app_assoc in J'.
  Qed.
  Lemma splice_range_move_loop_ok i j : i < n -> j < n -> i <> j -> forall m f w nd a b p c, Inv w nd -> nd i = a ++ b -> nd j = p ++ m ++ c -> length m <= f ->
    exists w' new, splice_range_move_loop pool f w i (hdn i b) (hdn j (m ++ c)) (hdn j c) = Some (if length m <=? length (free w (pool i)) then Rok else Rfull, w') /\ Inv w' (put nd i (a ++ new ++ b)) /\ map snd new = firstn (length (free w (pool i))) (map snd m).
  Proof.
    intros Hi Hj D. induction m as [|(x, v) m IH]; intros f w nd a b p c J Ei Ej Hf.
    - exists w, []. cbn [app length map]. conj; [destruct f; cbn [splice_range_move_loop]; rewrite Nat.eqb_refl; reflexivity|now apply inv_same|symmetry; apply firstn_nil].
    - destruct f as [|f]; [cbn in Hf; lia|]. cbn [app] in Ej |- *. cbn [map fst hd splice_range_move_loop]. rewrite (proj2 (Nat.eqb_neq _ _) (hdn_not_mid _ _ _ _ _ _ _ _ J Hj Ej)). destruct (walk_next _ _ _ _ _ _ _ J Hj Ej) as (_ & -> & _).
      unfold insert. rewrite full_free. destruct (free w (pool i)) as [|y r] eqn:F; [exists w, []; cbn; conj; [reflexivity|now apply inv_same|reflexivity]|].
      destruct (insert_ok w nd i a b v y r J Hi Ei F) as (w1 & -> & J1 & F1). cbn zeta. set (w2 := with_hp _ _) in *.
      assert (put nd i (a ++ (y, v) :: b) j = p ++ (x, v) :: m ++ c) as Ej1 by (rewrite put_other by congruence; exact Ej).
      destruct (walk_next _ _ _ _ _ _ _ J1 Hj Ej1) as (-> & _). destruct (walk_next _ _ i a y v b J1 Hi) as (-> & _); [apply put_same|].
      destruct (IH f w2 _ (a ++ [(y, v)]) b (p ++ [(x, v)]) c J1) as (w' & new & E' & J' & S'); [rewrite put_same, <- app_assoc; reflexivity|rewrite Ej1, <- app_assoc; reflexivity|cbn in Hf; lia|]. rewrite F1 in *. exists w', ((y, v) :: new). conj; [exact E'| |cbn; now f_equal].
      apply inv_put in J'. now rewrite <- app_assoc in J'.
  Qed.
  Lemma move_loop_ok i j : i < n -> j < n -> i <> j -> forall m f w nd a p, Inv w nd -> nd i = a -> nd j = p ++ m -> length m <= f ->
    exists w' new, move_loop term pool f w i (hdn j m) (term j) = Some (if length m <=? length (free w (pool i)) then Rok else Rfull, w') /\ Inv w' (put nd i (a ++ new)) /\ map snd new = firstn (length (free w (pool i))) (map snd m).
  Proof.
    intros Hi Hj D. induction m as [|(x, v) m IH]; intros f w nd a p J Ei Ej Hf.
    - exists w, []. cbn [app length map hd]. rewrite app_nil_r. conj; [destruct f; cbn [move_loop]; rewrite Nat.eqb_refl; reflexivity|now apply inv_same|symmetry; apply firstn_nil].
    - destruct f as [|f]; [cbn in Hf; lia|]. cbn [map fst hd move_loop]. destruct (walk_next _ _ _ _ _ _ _ J Hj Ej) as (_ & -> & _ & Dx). rewrite (proj2 (Nat.eqb_neq _ _) Dx).
      rewrite full_free. destruct (free w (pool i)) as [|y r] eqn:F; [exists w, []; cbn; rewrite app_nil_r; conj; [reflexivity|now apply inv_same|reflexivity]|].
      destruct (insert_ok w nd i a [] v y r J Hi) as (w1 & -> & J1 & F1); [now rewrite app_nil_r|exact F|]. cbn [map hd] in J1, F1. cbn zeta. set (w2 := with_hp _ _) in *.
      assert (put nd i (a ++ [(y, v)]) j = p ++ (x, v) :: m) as Ej1 by (rewrite put_other by congruence; exact Ej).
      destruct (walk_next _ _ _ _ _ _ _ J1 Hj Ej1) as (-> & _).
      destruct (IH f w2 _ (a ++ [(y, v)]) (p ++ [(x, v)]) J1) as (w' & new & E' & J' & S'); [apply put_same|rewrite Ej1, <- app_assoc; reflexivity|cbn in Hf; lia|]. rewrite F1 in *. exists w', ((y, v) :: new). conj; [exact E'| |cbn; now f_equal].
      apply inv_put in J'. now rewrite <- app_assoc in J'.
  Qed.
  Lemma splice_move_loop_ok i j : i < n -> j < n -> i <> j -> forall m f w nd a b p, Inv w nd -> nd i = a ++ b -> nd j = p ++ m -> length m <= f ->
    exists w' new, splice_move_loop pool f w i (hdn i b) (hdn j m) (term j) = Some (if length m <=? length (free w (pool i)) then Rok else Rfull, w') /\ Inv w' (put nd i (a ++ rev new ++ b)) /\ map snd new = firstn (length (free w (pool i))) (map snd m).
  Proof.
    intros Hi Hj D. induction m as [|(x, v) m IH]; intros f w nd a b p J Ei Ej Hf.
    - exists w, []. cbn [app length map hd rev]. conj; [destruct f; cbn [splice_move_loop]; rewrite Nat.eqb_refl; reflexivity|now apply inv_same|symmetry; apply firstn_nil].
    - destruct f as [|f]; [cbn in Hf; lia|]. cbn [map fst hd splice_move_loop]. destruct (walk_next _ _ _ _ _ _ _ J Hj Ej) as (_ & -> & _ & Dx). rewrite (proj2 (Nat.eqb_neq _ _) Dx).
      unfold insert. rewrite full_free. destruct (free w (pool i)) as [|y r] eqn:F; [exists w, []; cbn; conj; [reflexivity|now apply inv_same|reflexivity]|].
      destruct (insert_ok w nd i a b v y r J Hi Ei F) as (w1 & -> & J1 & F1). cbn zeta. set (w2 := with_hp _ _) in *.
      assert (put nd i (a ++ (y, v) :: b) j = p ++ (x, v) :: m) as Ej1 by (rewrite put_other by congruence; exact Ej).
      destruct (walk_next _ _ _ _ _ _ _ J1 Hj Ej1) as (-> & _). change y with (hdn i ((y, v) :: b)).
      destruct (IH f w2 _ a ((y, v) :: b) (p ++ [(x, v)]) J1) as (w' & new & E' & J' & S'); [apply put_same|rewrite Ej1, <- app_assoc; reflexivity|cbn in Hf; lia|]. rewrite F1 in *. exists w', ((y, v) :: new). conj; [exact E'| |cbn; now f_equal].
      apply inv_put in J'. cbn [rev]. now rewrite <- app_assoc.
  Qed.
  (** ** removal *)
  Lemma remove_loop_ok i p : i < n -> forall b f w nd a, Inv w nd -> nd i = a ++ b -> length b <= f ->
    exists w' b', remove_loop term pool f w i (hdn i b) p = Some w' /\ Inv w' (put nd i (a ++ b')) /\ map snd b' = filter (fun x => negb (p x)) (map snd b).
  Proof.
    intros Hi. induction b as [|(x, v) b IH]; intros f w nd a J E Hf.
    - exists w, []. cbn [map hd filter]. conj; [destruct f; cbn [remove_loop]; rewrite Nat.eqb_refl; reflexivity|now apply inv_same|reflexivity].
    - destruct f as [|f]; [cbn in Hf; lia|]. cbn [map fst hd remove_loop filter snd]. destruct (walk_next _ _ _ _ _ _ _ J Hi E) as (En & -> & _ & Dx). rewrite (proj2 (Nat.eqb_neq _ _) Dx). destruct (p v) eqn:P; cbn [negb].
      + destruct (erase_ok _ _ _ _ _ _ _ J Hi E) as (w1 & -> & J1). destruct (IH f w1 _ a J1) as (w' & b' & E' & J' & S'); [apply put_same|cbn in Hf; lia|]. exists w', b'. conj; [exact E'|now apply inv_put in J'|exact S'].
      + rewrite En. destruct (IH f w nd (a ++ [(x, v)]) J) as (w' & b' & E' & J' & S'); [rewrite E, <- app_assoc; reflexivity|cbn in Hf; lia|]. exists w', ((x, v) :: b'). conj; [exact E'|now rewrite <- app_assoc in J'|cbn; now f_equal].
  Qed.
  Lemma unique_loop_ok i eq : i < n -> forall b f w nd a x u, Inv w nd -> nd i = a ++ (x, u) :: b -> length b <= f ->
    exists w' b', unique_loop term pool f w i (hdn i b) x eq = Some w' /\ Inv w' (put nd i (a ++ (x, u) :: b')) /\ map snd b' = uniques eq u (map snd b).
  Proof.
    intros Hi. induction b as [|(y, v) b IH]; intros f w nd a x u J E Hf.
    - exists w, []. cbn [map hd uniques]. conj; [destruct f; cbn [unique_loop]; rewrite Nat.eqb_refl; reflexivity|now apply inv_same|reflexivity].
    - destruct f as [|f]; [cbn in Hf; lia|]. cbn [map fst hd unique_loop uniques snd]. assert (nd i = (a ++ [(x, u)]) ++ (y, v) :: b) as E2 by (rewrite E, <- app_assoc; reflexivity). destruct (walk_next _ _ _ _ _ _ _ J Hi E) as (_ & -> & _). destruct (walk_next _ _ _ _ _ _ _ J Hi E2) as (En & -> & _ & Dx). rewrite (proj2 (Nat.eqb_neq _ _) Dx). destruct (eq u v) eqn:P.
      + destruct (erase_ok _ _ _ _ _ _ _ J Hi E2) as (w1 & -> & J1). destruct (IH f w1 _ a x u J1) as (w' & b' & E' & J' & S'); [rewrite put_same, <- app_assoc; reflexivity|cbn in Hf; lia|]. exists w', b'. conj; [exact E'|now apply inv_put in J'|exact S'].
      + rewrite En. destruct (IH f w nd (a ++ [(x, u)]) y v J E2) as (w' & b' & E' & J' & S'); [cbn in Hf; lia|]. exists w', ((y, v) :: b'). conj; [exact E'|now rewrite <- app_assoc in J'|cbn; now f_equal].
  Qed.
  (** ** merge *)
  Lemma merged_nil_r lt (xs : list A) : merged lt xs [] = xs. Proof. destruct xs; reflexivity. Qed.
  Lemma merged_nil_l lt (ys : list A) : merged lt [] ys = ys. Proof. destruct ys; reflexivity. Qed.
  Lemma merged_cons lt (x y : A) xs ys : merged lt (x :: xs) (y :: ys) = if lt y x then y :: merged lt (x :: xs) ys else x :: merged lt xs (y :: ys). Proof. reflexivity. Qed.
  Lemma merge_loop_ok i j lt : i < n -> j < n -> i <> j -> forall f w nd a b p c, Inv w nd -> nd i = a ++ b -> nd j = p ++ c -> length b + length c <= f ->
    exists w' r a' b' d c', merge_loop pool f w i (hdn i b) (term i) (hdn j c) (term j) lt = Some (r, hdn i b', hdn j c', w') /\ Inv w' (put nd i (a' ++ b')) /\ c = d ++ c' /\ length (free w' (pool i)) + length d = length (free w (pool i)) /\
      (r = Rok /\ (b' = [] \/ c' = []) \/ r = Rfull /\ free w' (pool i) = [] /\ c' <> []) /\
      (forall k, map snd a' ++ merged lt (map snd b') (firstn k (map snd c')) = map snd a ++ merged lt (map snd b) (firstn (length d + k) (map snd c))).
  Proof.
    intros Hi Hj D. induction f as [|f IH]; intros w nd a b p c J Ei Ej Hf.
    - destruct b as [|]; [|cbn in Hf; lia]. destruct c as [|]; [|cbn in Hf; lia]. exists w, Rok, a, [], [], []. cbn [map hd merge_loop]. rewrite Nat.eqb_refl. cbn [orb]. conj; [reflexivity|now apply inv_same|reflexivity|cbn; lia|left; split; [reflexivity|now left]|reflexivity].
    - cbn [merge_loop]. destruct b as [|(x, u) b]; [|destruct c as [|(y, v) c]].
      + exists w, Rok, a, [], [], c. cbn [map hd]. rewrite Nat.eqb_refl. cbn [orb]. conj; [reflexivity|now apply inv_same|reflexivity|cbn; lia|left; split; [reflexivity|now left]|reflexivity].
      + exists w, Rok, a, ((x, u) :: b), [], []. cbn [map hd]. rewrite Nat.eqb_refl, orb_true_r. conj; [reflexivity|now apply inv_same|reflexivity|cbn; lia|left; split; [reflexivity|now right]|reflexivity].
      + cbn [map hd fst]. destruct (walk_next _ _ _ _ _ _ _ J Hi Ei) as (Ex & Vx & _ & Dx). destruct (walk_next _ _ _ _ _ _ _ J Hj Ej) as (Ey & Vy & _ & Dy). rewrite (proj2 (Nat.eqb_neq _ _) Dx), (proj2 (Nat.eqb_neq _ _) Dy), Vx, Vy. cbn [orb]. destruct (lt v u) eqn:C; cbn [negb].
        * unfold insert. rewrite full_free. destruct (free w (pool i)) as [|z r] eqn:F.
          -- exists w, Rfull, a, ((x, u) :: b), [], ((y, v) :: c). conj; [reflexivity|now apply inv_same|reflexivity|cbn; now rewrite F|right; conj; [reflexivity|exact F|discriminate]|reflexivity].
          -- destruct (insert_ok w nd i a ((x, u) :: b) v z r J Hi Ei F) as (w1 & E1 & J1 & F1). cbn [map hd fst] in J1, F1. rewrite E1. set (w2 := with_hp _ _) in *.
             assert (put nd i (a ++ (z, v) :: (x, u) :: b) j = p ++ (y, v) :: c) as Ej1 by (rewrite put_other by congruence; exact Ej). destruct (walk_next _ _ _ _ _ _ _ J1 Hj Ej1) as (-> & _).
             destruct (IH w2 _ (a ++ [(z, v)]) ((x, u) :: b) (p ++ [(y, v)]) c J1) as (w' & r' & a' & b' & d & c' & E' & J' & Ec & Fc & Rc & Mc); [rewrite put_same, <- app_assoc; reflexivity|rewrite Ej1, <- app_assoc; reflexivity|cbn in Hf |- *; lia|].
             exists w', r', a', b', ((y, v) :: d), c'. cbn [map hd fst] in E'. conj; [exact E'|now apply inv_put in J'|cbn; now f_equal|rewrite F1 in Fc; cbn; lia|exact Rc|]. intros k. rewrite Mc, map_app, <- app_assoc. cbn [map snd length Nat.add firstn]. rewrite merged_cons, C. reflexivity.
        * rewrite Ex. change y with (hdn j ((y, v) :: c)). destruct (IH w nd (a ++ [(x, u)]) b p ((y, v) :: c) J) as (w' & r' & a' & b' & d & c' & E' & J' & Ec & Fc & Rc & Mc); [rewrite Ei, <- app_assoc; reflexivity|exact Ej|cbn in Hf |- *; lia|].
          exists w', r', a', b', d, c'. conj; [exact E'|exact J'|exact Ec|exact Fc|exact Rc|]. intros k. rewrite Mc, map_app, <- app_assoc. cbn [map snd app]. destruct (length d + k) as [|q]; [cbn [firstn]; now rewrite !merged_nil_r|]. cbn [firstn]. now rewrite merged_cons, C.
  Qed.
  (** ** the nodes of one list in another order *)
  Lemma inv_reorder w nd i l h' : Inv w nd -> i < n -> Permutation l (nd i) -> ring h' (term i) (map fst l) -> frame (hp w) h' (term i :: map fst (nd i)) -> Inv (with_hp w h') (put nd i l).
  Proof.
    intros (O & R & L) Hi P Rl F. unfold Inv. conj.
    - apply Own_hp. eapply Own_perm; [| |exact O].
      + rewrite all_put by lia. rewrite P. symmetry. apply all_at. lia.
      + intros j x Hj. destruct (Nat.eq_dec j i) as [->|D]; [rewrite put_same|rewrite put_other by exact D; now apply (o_pool _ _ O)]. intros I. apply (o_pool _ _ O); [exact Hi|]. eapply Permutation_in; [apply Permutation_map; exact P|exact I].
    - intros j Hj. destruct (Nat.eq_dec j i) as [->|D]; [rewrite put_same; exact Rl|]. rewrite put_other by exact D. eapply ring_else with (i := i); [exact O|exact Hi|exact Hj|lea|now apply R|exact F|]. rewrite L, app_nil_r. apply incl_refl.
    - rewrite put_other by lea. exact L.
  Qed.
  (** *** reverse *)
  Definition swapped (h0 h : links) (c : list nat) : Prop := forall x, (In x c -> nxt h x = prv h0 x /\ prv h x = nxt h0 x) /\ (~ In x c -> nxt h x = nxt h0 x /\ prv h x = prv h0 x).
  Lemma swap_node_ok h0 h c x : swapped h0 h c -> ~ In x c -> swapped h0 (swap_node h x) (c ++ [x]).
  Proof.
    intros W Nx y. unfold swap_node. cbn. destruct (W x) as (_ & Wx). destruct (Wx Nx) as (Wn & Wp). destruct (Nat.eqb_spec y x) as [->|D]; rewrite in_app_iff; cbn.
    - split; [intros _; split; congruence|intros H; exfalso; apply H; right; now left].
    - destruct (W y) as (W1 & W2). split; intros H; [apply W1|apply W2]; [destruct H as [H|[H|[]]]; [exact H|congruence]|tauto].
  Qed.
  Lemma reverse_loop_ok h0 t : forall b a f h, ring h0 t (a ++ b) -> NoDup (t :: a ++ b) -> swapped h0 h a -> length b <= f -> exists h', reverse_loop f h (hd t b) t = Some h' /\ swapped h0 h' (a ++ b ++ [t]).
  Proof.
    induction b as [|x b IH]; intros a f h R N W Hf.
    - exists (swap_node h t). split; [destruct f; cbn [hd reverse_loop]; now rewrite Nat.eqb_refl|]. apply swap_node_ok; [exact W|]. rewrite app_nil_r in N. now inversion N.
    - destruct f as [|f]; [cbn in Hf; lia|]. cbn [hd reverse_loop]. assert (x <> t) as D. { intros ->. inversion N as [|? ? N1]; subst. apply N1. apply in_app_iff. right. now left. } rewrite (proj2 (Nat.eqb_neq _ _) D). cbn zeta.
      assert (~ In x a) as Nx. { apply NoDup_cons_iff in N as (_ & N). apply NoDup_remove_2 in N. intros I. apply N. apply in_app_iff. now left. }
      pose proof (swap_node_ok h0 h a x W Nx) as W'. destruct (W' x) as (Wx & _). destruct Wx as (_ & ->); [apply in_app_iff; right; now left|]. destruct (ring_mid _ _ _ _ _ R) as (-> & _).
      destruct (IH (a ++ [x]) f (swap_node h x)) as (h' & E & W2); [now rewrite <- app_assoc|now rewrite <- app_assoc|exact W'|cbn in Hf; lia|]. exists h'. split; [exact E|]. now rewrite <- app_assoc in W2.
  Qed.
  Lemma linked_rev h h' : forall c, (forall x, In x c -> nxt h' x = prv h x /\ prv h' x = nxt h x) -> linked h c -> linked h' (rev c).
  Proof.
    induction c as [|x c IH]; intros H L; [exact Logic.I|]. destruct c as [|y c]; [exact Logic.I|]. rewrite linked_cons in L. destruct L as (L1 & L2 & L3). cbn [rev] in *. rewrite <- app_assoc. cbn [app]. apply linked_app2. conj; [apply IH; [intros; apply H; now right|exact L3]| | |exact Logic.I].
    - rewrite (proj1 (H y (or_intror (or_introl eq_refl)))). exact L2.
    - rewrite (proj2 (H x (or_introl eq_refl))). exact L1.
  Qed.
  Lemma reverse_ok w nd i : Inv w nd -> i < n -> exists w', reverse term pool shared blocks w i = Some w' /\ Inv w' (put nd i (rev (nd i))).
  Proof.
    intros J Hi. unfold reverse. rewrite (size_ok _ _ _ J Hi). pose proof J as (O & R & _). destruct (Nat.ltb_spec (length (nd i)) 2) as [Hl|Hl].
    - exists w. split; [reflexivity|]. apply inv_same; [|exact J]. destruct (nd i) as [|? [|]]; [reflexivity|reflexivity|cbn in Hl; lia].
    - pose proof (R _ Hi) as Ri. destruct (ring_hd _ _ _ Ri) as (-> & _). destruct (reverse_loop_ok (hp w) (term i) (map fst (nd i)) [] (fuel pool blocks i) (hp w)) as (h' & -> & W).
      + exact Ri.
      + now apply (own_ring_nodup w).
      + intros x. split; [intros []|split; reflexivity].
      + rewrite map_length. pose proof (len_cap _ _ _ J Hi). unfold fuel, cap in *. lia.
      + exists (with_hp w h'). split; [reflexivity|]. apply inv_reorder; [exact J|exact Hi|symmetry; apply Permutation_rev| |].
        * unfold ring. rewrite map_rev. replace (term i :: rev (map fst (nd i)) ++ [term i]) with (rev (term i :: map fst (nd i) ++ [term i])) by (cbn; rewrite rev_app_distr; reflexivity). apply linked_rev with (hp w); [|exact Ri]. intros x I. apply W. cbn [app]. destruct I as [<-|I]; [apply in_app_iff; right; now left|exact I].
        * intros y Hy. apply W. cbn [app]. intros I. apply Hy. apply in_app_iff in I as [I|[<-|[]]]; [now right|now left].
  Qed.
  (** *** splice inside a list *)
  Lemma frame_linked h h' c : frame h h' c -> forall m, (forall x, In x m -> ~ In x c) -> linked h m -> linked h' m.
  Proof. intros F m D. apply linked_ext; intros y I; apply F; now apply D. Qed.
  Lemma move_ok w nd i a m b c d : Inv w nd -> i < n -> nd i = a ++ m ++ b -> m <> [] -> a ++ b = c ++ d ->
    let h := hp w in let t := term i in
    let h1 := join h (last (map fst a) t) (hdn i b) in
    let h2 := join h1 (prv h1 (hdn i d)) (hd 0 (map fst m)) in
    Inv (with_hp w (join h2 (last (map fst m) 0) (hdn i d))) (put nd i (c ++ m ++ d)).
  Proof.
    intros J Hi E Nm Ec h t h1 h2. pose proof J as (O & R & _). pose proof (R _ Hi) as Ri. pose proof (own_ring_nodup _ _ _ O Hi) as N. rewrite E, !map_app in Ri, N. destruct (ring_unlink _ _ _ _ _ N Ri) as (R1 & L1). fold h t h1 in R1.
    assert (map fst a ++ map fst b = map fst c ++ map fst d) as Em by (rewrite <- !map_app; now rewrite Ec). rewrite Em in R1.
    assert (prv h1 (hdn i d) = last (map fst c) t) as Ep by (exact (ring_prv_hd _ _ _ _ R1)). unfold h2. rewrite Ep.
    assert (Permutation (c ++ m ++ d) (nd i)) as P. { rewrite E. rewrite (Permutation_app_swap_app c m d), <- Ec. apply Permutation_app_swap_app. }
    assert (NoDup (t :: map fst c ++ map fst m ++ map fst d)) as N2. { eapply Permutation_NoDup; [|exact (own_ring_nodup _ _ _ O Hi)]. rewrite <- !map_app. constructor. apply Permutation_map. now symmetry. }
    assert (map fst m <> []) as Nm' by (destruct m; [congruence|discriminate]).
    assert (linked h1 (map fst m)) as L2. { eapply frame_linked; [apply frame_join| |exact L1]. intros x I [<-|[<-|[]]]; [exact (last_neq_mid _ _ _ _ _ N I eq_refl)|].
      assert (x := 0). clear x. change (In (hdn i b) (map fst m)) in I. rewrite app_comm_cons in N. apply NoDup_app_iff in N as (N3 & N4 & N5). apply NoDup_app_iff in N4 as (_ & _ & N6). destruct b as [|e b]; cbn in I; [apply (N5 (term i)); [now left|apply in_app_iff; now left]|]. apply (N6 _ I). now left. }
    apply inv_reorder; [exact J|exact Hi|exact P| |].
    - rewrite !map_app. exact (ring_link _ _ _ _ _ N2 Nm' R1 L2).
    - eapply frame_incl; [|eapply frame_trans; [apply frame_join|eapply frame_trans; apply frame_join]].
      assert (forall x, In x (map fst c) \/ In x (map fst m) \/ In x (map fst d) -> In x (map fst (nd i))) as Hin. { intros x I. eapply Permutation_in; [apply Permutation_map; exact P|]. rewrite !map_app, !in_app_iff. exact I. }
      assert (forall x, In x (map fst a) \/ In x (map fst m) \/ In x (map fst b) -> In x (map fst (nd i))) as Hin2. { intros x I. rewrite E, !map_app, !in_app_iff. exact I. }
      intros y Hy. cbn [app In] in Hy. destruct Hy as [<-|[<-|[<-|[<-|[<-|[<-|[]]]]]]].
      + destruct (fst_in a t) as [H|H]; [now left|right; apply Hin2; tauto].
      + destruct (hd_in b t) as [H|H]; [now left|right; apply Hin2; tauto].
      + destruct (fst_in c t) as [H|H]; [now left|right; apply Hin; tauto].
      + right. apply Hin2. right. left. destruct m; [congruence|now left].
      + right. apply Hin2. right. left. destruct (exists_last Nm') as (m' & z & ->). rewrite last_last. apply in_app_iff. right. now left.
      + destruct (hd_in d t) as [H|H]; [now left|right; apply Hin; tauto].
  Qed.
  Lemma move_one_ok w nd i a x v b c d : Inv w nd -> i < n -> nd i = a ++ (x, v) :: b -> a ++ b = c ++ d -> x <> hdn i d -> Inv (with_hp w (move_one (hp w) (hdn i d) x)) (put nd i (c ++ (x, v) :: d)).
  Proof.
    intros J Hi E Ec Dx. unfold move_one. rewrite (proj2 (Nat.eqb_neq _ _) Dx). pose proof (inv_ring _ _ _ J Hi) as Ri. rewrite E, map_app in Ri. cbn in Ri. destruct (ring_mid _ _ _ _ _ Ri) as (-> & ->). apply (move_ok w nd i a [(x, v)] b c d); [exact J|exact Hi|exact E|discriminate|exact Ec].
  Qed.
  Lemma hd_last_app (m b : list (nat * A)) (t : nat) : m <> [] -> hd t (map fst (m ++ b)) = hd 0 (map fst m). Proof. destruct m; [congruence|reflexivity]. Qed.
  Lemma move_range_ok w nd i a m b c d : Inv w nd -> i < n -> nd i = a ++ m ++ b -> m <> [] -> a ++ b = c ++ d -> hdn i (m ++ b) <> hdn i d -> hdn i b <> hdn i d ->
    Inv (with_hp w (move_range (hp w) (hdn i d) (hdn i (m ++ b)) (hdn i b))) (put nd i (c ++ m ++ d)).
  Proof.
    intros J Hi E Nm Ec D1 D2. unfold move_range. rewrite (proj2 (Nat.eqb_neq _ _) D1), (proj2 (Nat.eqb_neq _ _) D2). cbn [orb]. pose proof (inv_ring _ _ _ J Hi) as Ri. rewrite E in Ri.
    assert (prv (hp w) (hdn i (m ++ b)) = last (map fst a) (term i)) as ->. { apply ring_prv_hd. now rewrite <- map_app. }
    assert (prv (hp w) (hdn i b) = last (map fst m) 0) as ->. { rewrite app_assoc, map_app in Ri. rewrite (ring_prv_hd _ _ _ _ Ri). rewrite map_app. assert (map fst m <> []) as Nm' by (destruct m; [congruence|discriminate]). destruct (exists_last Nm') as (m' & z & ->). rewrite last_last. apply last_snoc_mid. }
    cbn zeta. rewrite (hd_last_app m b) by exact Nm. now apply move_ok.
  Qed.
  (** *** one list takes the nodes of another *)
  Lemma inv_links w nd h h' : (forall y, nxt h' y = nxt h y /\ prv h' y = prv h y) -> Inv (with_hp w h) nd -> Inv (with_hp w h') nd.
  Proof. intros H (O & R & L). unfold Inv. conj; [apply (Own_hp _ _ h') in O; exact O| |exact L]. intros i Hi. eapply ring_ext; [|apply (R i Hi)]. intros y _. apply H. Qed.
  Lemma take_ok w nd i j : Inv w nd -> i < n -> j < n -> i <> j -> pool i = pool j -> nd i = [] -> nd j <> [] ->
    let h1 := join (hp w) (term i) (nxt (hp w) (term j)) in
    Inv (with_hp w (join (join h1 (prv h1 (term j)) (term i)) (term j) (term j))) (put (put nd i (nd j)) j []).
  Proof.
    intros J Hi Hj D Ep Ei Nj. pose proof J as (O & R & L). pose proof (R _ Hj) as Rj. destruct (ring_hd _ _ _ Rj) as (En & El). cbn zeta. rewrite En. pose proof (own_ring_nodup _ _ _ O Hj) as N.
    assert (map fst (nd j) <> []) as Nj' by (destruct (nd j); [congruence|discriminate]).
    destruct (unlink w nd j [] (nd j) [] O R Hj) as (O1 & R1 & L1); [now rewrite app_nil_r|exact L|]. cbn [map last hd app] in O1, R1.
    assert (linked (join (hp w) (term j) (term j)) (map fst (nd j))) as L2. { eapply frame_linked; [apply frame_join| |exact L1]. intros x I C. assert (x = term j) as -> by (destruct C as [C|[C|[]]]; congruence). inversion N; subst. contradiction. }
    pose proof (link (with_hp w (join (hp w) (term j) (term j))) _ i [] (nd j) [] O1 R1 Hi) as K.
    assert (hd (term j) (map fst (nd j)) = hd 0 (map fst (nd j))) as E1 by (destruct (nd j); [congruence|reflexivity]).
    assert (last (map fst (nd j)) (term j) = last (map fst (nd j)) 0) as E2. { destruct (exists_last Nj') as (m' & z & ->). now rewrite !last_last. }
    assert (hd 0 (map fst (nd j)) <> term j) as D1. { intros C. destruct (nd j) as [|e l]; [congruence|]. cbn in C, N. inversion N as [|? ? N1]; subst. apply N1. now left. }
    cbn zeta in K. eapply Inv_ext; [|eapply inv_links; [|apply K]].
    - intros k Hk. unfold put. destruct (Nat.eqb_spec k j) as [->|]; [destruct (Nat.eqb_spec j i); [congruence|]; destruct (Nat.eqb_spec j n); [lia|reflexivity]|]. destruct (Nat.eqb_spec k i) as [->|]; [now rewrite app_nil_r|]. destruct (Nat.eqb_spec k n) as [->|]; [exact L|reflexivity].
    - intros y. rewrite E1. cbn [hp with_hp]. rewrite (join_prv (hp w)). destruct (Nat.eqb_spec (term j) (hd 0 (map fst (nd j)))) as [C|_]; [congruence|]. rewrite El, E2.
      assert (term i <> term j) as Dt by (intros C; apply D; now apply Hterm).
      assert (last (map fst (nd j)) 0 <> term j) as D2. { intros C. destruct (exists_last Nj') as (m' & z & E3). rewrite E3, last_last in C. subst z. inversion N as [|? ? N1]; subst. apply N1. rewrite E3. apply in_app_iff. right. now left. }
      rewrite !join_nxt, !join_prv. cbn [map last hd]. split.
      + destruct (Nat.eqb_spec y (term j)) as [->|]; [|reflexivity]. destruct (Nat.eqb_spec (term j) (last (map fst (nd j)) 0)); [congruence|]. destruct (Nat.eqb_spec (term j) (term i)); [congruence|reflexivity].
      + destruct (Nat.eqb_spec y (term j)) as [->|]; [|reflexivity]. destruct (Nat.eqb_spec (term j) (term i)); [congruence|]. destruct (Nat.eqb_spec (term j) (hd 0 (map fst (nd j)))); [congruence|reflexivity].
    - rewrite put_other by lea. rewrite put_other by exact D. rewrite Ei. reflexivity.
    - apply put_same.
    - exact Nj.
    - exact L2.
    - intros x I. rewrite Ep. now apply (o_pool _ _ O).
  Qed.
  (** ** sort *)
  Fixpoint nlink (h : links) (m : list nat) : Prop := match m with x :: ((y :: _) as r) => nxt h x = y /\ nlink h r | _ => True end.
  Lemma nlink_ext h h' m : (forall x, In x m -> nxt h' x = nxt h x) -> nlink h m -> nlink h' m.
  Proof. induction m as [|x [|y m] IH]; intros H N; [exact Logic.I|exact Logic.I|]. destruct N as (N1 & N2). split; [rewrite H by (now left); exact N1|]. apply IH; [intros; apply H; now right|exact N2]. Qed.
  Lemma nlink_tl h x m : nlink h (x :: m) -> nlink h m. Proof. destruct m; [easy|]. intros (_ & H). exact H. Qed.
  Lemma chain_nlink h m stop : chain h m stop -> forall k, nlink h (firstn k m).
  Proof. revert stop. induction m as [|x m IH]; intros stop C k; [rewrite firstn_nil; exact Logic.I|]. cbn in C. destruct C as (C1 & _ & C3). destruct k as [|k]; [exact Logic.I|]. cbn [firstn]. specialize (IH stop C3 k). destruct m as [|y m]; [rewrite firstn_nil; exact Logic.I|]. destruct k as [|k]; [exact Logic.I|]. cbn [firstn] in *. split; [exact C1|exact IH]. Qed.
  Lemma chain_skipn h stop : forall k m, chain h m stop -> chain h (skipn k m) stop.
  Proof. induction k as [|k IH]; intros m C; [exact C|]. destruct m as [|x m]; [exact Logic.I|]. apply IH. apply C. Qed.
  Lemma left_loop_ok h t : forall k x m, chain h (x :: m) t -> left_loop k h x t = (length (firstn k (x :: m)), hd t (skipn k (x :: m))).
  Proof.
    induction k as [|k IH]; intros x m C; [reflexivity|]. cbn [left_loop]. cbn in C. destruct C as (C1 & C2 & C3). cbn zeta. rewrite C1. destruct m as [|y m].
    - cbn [hd]. rewrite Nat.eqb_refl. cbn [firstn skipn]. now rewrite firstn_nil, skipn_nil.
    - cbn [hd]. rewrite (proj2 (Nat.eqb_neq _ _) (proj1 (proj2 C3))). rewrite (IH y m C3). reflexivity.
  Qed.
  Section Merge.
    Variables (w : world) (lt : A -> A -> bool) (t : nat).
    Local Notation ltp := (fun a b : nat * A => lt (snd a) (snd b)).
    Local Notation hdt l := (hd t (map fst l)).
    Local Notation lst l := (last (map fst l) t).
    (** the processed nodes, the rest of the left run, everything from the right run on *)
    Record mst (h : links) (P L Q : list (nat * A)) : Prop := {
      m_nd : NoDup (t :: map fst (P ++ L ++ Q));
      m_P : linked h (t :: map fst P);
      m_ring : P <> [] -> ring h t (map fst P);
      m_L : nlink h (map fst L);
      m_Q : chain h (map fst Q) t;
      m_val : forall x v, In (x, v) (L ++ Q) -> val w x = Some v
    }.
    Definition attach (h : links) (P : list (nat * A)) (x : nat) : links := join (join h (lst P) x) x t.
    Lemma attach_ok h P (x : nat) v : NoDup (t :: map fst P ++ [x]) -> linked h (t :: map fst P) -> ring (attach h P x) t (map fst (P ++ [(x, v)])).
    Proof.
      intros N L. rewrite map_app. cbn [map fst]. unfold attach. pose proof (linked_last_join h (map fst P) x [] t N L Logic.I) as L2.
      pose proof (ring_join (join h (lst P) x) t (map fst P ++ [x]) []) as K. rewrite app_nil_r, last_last in K. apply K; [exact N|exact L2|exact Logic.I].
    Qed.
    Lemma attach_nxt h P x y : y <> x -> y <> lst P -> nxt (attach h P x) y = nxt h y.
    Proof. intros H1 H2. unfold attach. rewrite !join_nxt. destruct (Nat.eqb_spec y x); [contradiction|]. destruct (Nat.eqb_spec y (lst P)); [contradiction|reflexivity]. Qed.
    Lemma attach_frame h P x : frame h (attach h P x) (t :: map fst P ++ [x]).
    Proof.
      eapply frame_incl; [|eapply frame_trans; apply frame_join]. intros y [<-|[<-|[<-|[<-|[]]]]]; try (right; apply in_app_iff; right; now left); try (now left).
      destruct (fst_in P t) as [H|H]; [left; exact H|right; apply in_app_iff; left; exact H].
    Qed.
    Lemma code_attach h (P : list (nat * A)) (x : nat) : ~ In t (map fst P) -> (if Nat.eqb (hdt P) t then (join h (hdt P) x, x, x) else (join h (lst P) x, hdt P, x)) = (join h (lst P) x, hd x (map fst P), x).
    Proof. intros N. destruct P as [|(y, v) P]; [cbn; now rewrite Nat.eqb_refl|]. cbn [map hd fst]. destruct (Nat.eqb_spec y t) as [->|]; [exfalso; apply N; now left|reflexivity]. Qed.
    (** a node goes from the left or the right run to the processed nodes *)
    Lemma mst_step h P L Q x v L' Q' : mst h P L Q -> (L = (x, v) :: L' /\ Q = Q' \/ L = L' /\ Q = (x, v) :: Q') -> mst (attach h P x) (P ++ [(x, v)]) L' Q'.
    Proof.
      intros [M1 M2 M3 M4 M5 M6] H.
      assert (Permutation (P ++ L ++ Q) ((P ++ [(x, v)]) ++ L' ++ Q')) as Pm. { rewrite <- app_assoc. apply Permutation_app_head. destruct H as [(-> & ->)|(-> & ->)]; [reflexivity|]. cbn. symmetry. apply Permutation_middle. }
      assert (NoDup (t :: map fst ((P ++ [(x, v)]) ++ L' ++ Q'))) as N2. { eapply Permutation_NoDup; [|exact M1]. constructor. now apply Permutation_map. }
      assert (NoDup (t :: map fst P ++ [x])) as N3. { rewrite map_app, app_comm_cons in N2. apply NoDup_app_iff in N2 as (N2 & _). rewrite map_app in N2. exact N2. }
      pose proof (attach_ok h P x v N3 M2) as R.
      assert (forall y, In y (map fst (L' ++ Q')) -> nxt (attach h P x) y = nxt h y) as Hn.
      { intros y I. rewrite map_app, app_comm_cons in N2. apply NoDup_app_iff in N2 as (_ & _ & N2). apply attach_nxt; intros ->; refine (N2 _ _ I); rewrite map_app.
        - right. apply in_app_iff. right. now left.
        - destruct (fst_in P t) as [C|C]; [left; exact C|right; apply in_app_iff; now left]. }
      constructor.
      - exact N2.
      - apply (linked_sub _ (t :: map fst (P ++ [(x, v)])) [t]). exact R.
      - intros _. exact R.
      - eapply nlink_ext; [intros y I; apply Hn; rewrite map_app; apply in_app_iff; left; exact I|]. destruct H as [(-> & ->)|(-> & ->)]; [exact (nlink_tl _ _ _ M4)|exact M4].
      - eapply chain_ext; [intros y I; apply Hn; rewrite map_app; apply in_app_iff; right; exact I|]. destruct H as [(-> & ->)|(-> & ->)]; [exact M5|apply M5].
      - intros y u I. apply M6. destruct H as [(-> & ->)|(-> & ->)]; [right; exact I|]. apply in_app_iff in I as [I|I]; apply in_app_iff; [now left|right; now right].
    Qed.
    Lemma mst_t h P L Q : mst h P L Q -> ~ In t (map fst P).
    Proof. intros [M1 _ _ _ _ _] I. inversion M1 as [|? ? N]; subst. apply N. rewrite map_app. apply in_app_iff. now left. Qed.
    Lemma mst_q h P L Q x v Q' : mst h P L Q -> Q = (x, v) :: Q' -> x <> t /\ nxt h x = hdt Q' /\ val w x = Some v.
    Proof. intros [_ _ _ _ M5 M6] ->. cbn in M5. conj; [apply M5|destruct M5 as (M5 & _); exact M5|apply M6; apply in_app_iff; right; now left]. Qed.
    Lemma hd_snoc P (x : nat) (v : A) : hd x (map fst P) = hdt (P ++ [(x, v)]). Proof. destruct P; reflexivity. Qed.
    Lemma lst_snoc P (x : nat) (v : A) : x = lst (P ++ [(x, v)]). Proof. rewrite map_app. cbn. now rewrite last_last. Qed.
    Lemma sort_merge_ok : forall f h P L Q rs il, mst h P L Q -> (L <> [] -> il = hdt L) -> length L + length (firstn rs Q) <= f ->
      exists h', sort_merge f w h t lt il (length L) (hdt Q) rs (hdt P) (lst P) = Some (h', hdt (skipn rs Q), hdt (P ++ merged ltp L (firstn rs Q)), lst (P ++ merged ltp L (firstn rs Q)))
        /\ mst h' (P ++ merged ltp L (firstn rs Q)) [] (skipn rs Q) /\ frame h h' (t :: map fst (P ++ L ++ Q)).
    Proof.
      induction f as [|f IH]; intros h P L Q rs il M Hl Hf.
      - destruct L as [|]; [|cbn in Hf; lia]. assert (firstn rs Q = []) as Er by (destruct (firstn rs Q); [reflexivity|cbn in Hf; lia]). cbn [sort_merge length]. rewrite Er, merged_l0, app_nil_r.
        assert ((0 <? rs) && negb (Nat.eqb (hdt Q) t) = false) as Ec. { destruct rs; [reflexivity|]. destruct Q as [|e Q]; [cbn; now rewrite Nat.eqb_refl|discriminate]. }
        change ((0 <? 0) || ((0 <? rs) && negb (Nat.eqb (hdt Q) t))) with ((0 <? rs) && negb (Nat.eqb (hdt Q) t)). rewrite Ec.
        assert (skipn rs Q = Q) as -> by (destruct rs; [reflexivity|destruct Q; [reflexivity|discriminate]]). exists h. conj; [reflexivity|exact M|intros y _; split; reflexivity].
      - cbn [sort_merge].
        assert (forall x v L' Q' rs' il', (L = (x, v) :: L' /\ Q = Q' \/ L = L' /\ Q = (x, v) :: Q') -> (L' <> [] -> il' = hdt L') -> length L' + length (firstn rs' Q') <= f -> merged ltp L (firstn rs Q) = (x, v) :: merged ltp L' (firstn rs' Q') -> skipn rs Q = skipn rs' Q' ->
          exists h', sort_merge f w (attach h P x) t lt il' (length L') (hdt Q') rs' (hd x (map fst P)) x = Some (h', hdt (skipn rs Q), hdt (P ++ merged ltp L (firstn rs Q)), lst (P ++ merged ltp L (firstn rs Q)))
          /\ mst h' (P ++ merged ltp L (firstn rs Q)) [] (skipn rs Q) /\ frame h h' (t :: map fst (P ++ L ++ Q))) as G.
        { intros x v L' Q' rs' il' H1 H2 H3 H4 H5. pose proof (mst_step _ _ _ _ x v L' Q' M H1) as M'. destruct (IH _ _ _ _ rs' il' M' H2 H3) as (h' & E' & M2 & F2). exists h'. rewrite H4, H5. rewrite <- app_assoc in E', M2. cbn [app] in E', M2. rewrite <- hd_snoc, <- lst_snoc in E'. conj; [exact E'|exact M2|].
          eapply frame_incl; [|eapply frame_trans; [apply attach_frame|exact F2]]. 
          assert (forall y, In y (map fst ((P ++ [(x, v)]) ++ L' ++ Q')) -> In y (map fst (P ++ L ++ Q))) as Hin. { intros y. rewrite !map_app, !in_app_iff. cbn [map fst In]. destruct H1 as [(-> & ->)|(-> & ->)]; cbn [map fst In]; tauto. }
          intros y I. apply in_app_iff in I as [[I|I]|[I|I]]; try (left; exact I); right; apply Hin; [|exact I]. rewrite map_app, in_app_iff, map_app. now left. }
        pose proof (mst_t _ _ _ _ M) as Nt. destruct L as [|(x, v) L].
        + cbn [length]. destruct (firstn rs Q) as [|(y, u) R] eqn:ER.
          * assert ((0 <? rs) && negb (Nat.eqb (hdt Q) t) = false) as Ec. { destruct rs; [reflexivity|]. destruct Q as [|e Q]; [cbn; now rewrite Nat.eqb_refl|discriminate]. }
            change (0 <? 0) with false. cbn [orb]. rewrite Ec. assert (skipn rs Q = Q) as -> by (destruct rs; [reflexivity|destruct Q; [reflexivity|discriminate]]). rewrite merged_l0, app_nil_r. exists h. conj; [reflexivity|exact M|intros z _; split; reflexivity].
          * destruct rs as [|rs]; [discriminate|]. destruct Q as [|e Q]; [discriminate|]. cbn [firstn] in ER. injection ER as -> ER. destruct (mst_q _ _ _ _ _ _ _ M eq_refl) as (Dy & Ny & Vy). change (0 <? 0) with false. change (0 <? S rs) with true. cbn [orb andb map fst hd]. rewrite (proj2 (Nat.eqb_neq _ _) Dy). cbn [negb Nat.eqb]. rewrite Ny, Nat.sub_succ, Nat.sub_0_r, code_attach by exact Nt. fold (attach h P y).
            destruct (G y u [] Q rs il) as (h' & E' & M' & F'); [right; split; reflexivity|intros []; reflexivity|cbn [length] in *; rewrite ER; lia|now rewrite !merged_l0, ER|reflexivity|]. exists h'. cbn [length] in E'. conj; [exact E'|exact M'|exact F'].
        + assert (il = x) as -> by (apply Hl; discriminate). change (0 <? length ((x, v) :: L)) with true. cbn [orb]. change (Nat.eqb (length ((x, v) :: L)) 0) with false. cbn iota.
          assert (val w x = Some v) as Vx by (apply (m_val _ _ _ _ M); now left).
          assert (L <> [] -> nxt h x = hdt L) as Hx. { pose proof (m_L _ _ _ _ M) as K. intros D. destruct L as [|e L]; [congruence|]. cbn in K |- *. apply K. }
          destruct (firstn rs Q) as [|(y, u) R] eqn:ER.
          * assert (Nat.eqb rs 0 || Nat.eqb (hdt Q) t = true) as Ec. { destruct rs; [reflexivity|]. destruct Q as [|e Q]; [cbn; now rewrite Nat.eqb_refl|discriminate]. } rewrite Ec. rewrite code_attach by exact Nt. fold (attach h P x).
            destruct (G x v L Q rs (nxt h x)) as (h' & E' & M' & F'); [left; split; reflexivity|exact Hx|cbn [length] in Hf; rewrite ER; cbn; lia|rewrite ER, !merged_r0; reflexivity|reflexivity|]. exists h'. replace (length ((x, v) :: L) - 1) with (length L) by (cbn; lia). conj; [exact E'|exact M'|exact F'].
          * destruct rs as [|rs]; [discriminate|]. destruct Q as [|e Q]; [discriminate|]. cbn [firstn] in ER. injection ER as -> ER. destruct (mst_q _ _ _ _ _ _ _ M eq_refl) as (Dy & Ny & Vy). cbn [map fst hd Nat.eqb orb]. rewrite (proj2 (Nat.eqb_neq _ _) Dy), Vx, Vy. destruct (lt u v) eqn:C; cbn [negb]; rewrite code_attach by exact Nt.
            -- fold (attach h P y). rewrite Ny, Nat.sub_succ, Nat.sub_0_r. destruct (G y u ((x, v) :: L) Q rs x) as (h' & E' & M' & F'); [right; split; reflexivity|reflexivity|cbn [length] in *; rewrite ER; lia|rewrite merged_cc, ER; cbn [snd]; now rewrite C|reflexivity|]. exists h'. conj; [exact E'|exact M'|exact F'].
            -- fold (attach h P x). destruct (G x v L ((y, u) :: Q) (S rs) (nxt h x)) as (h' & E' & M' & F'); [left; split; reflexivity|exact Hx|cbn [length firstn] in *; rewrite ER; lia|cbn [firstn]; rewrite merged_cc, ER; cbn [snd]; now rewrite C|reflexivity|]. exists h'. replace (length ((x, v) :: L) - 1) with (length L) by (cbn; lia). conj; [exact E'|exact M'|exact F'].
    Qed.
    Lemma sort_pass_ok i k : 0 < k -> forall f h P Q, mst h P [] Q -> length Q <= f -> length Q <= fuel pool blocks i ->
      exists h' c, sort_pass pool blocks f w i h t lt k (hdt Q) (hdt P) (lst P) = Some (h', c) /\ mst h' (P ++ runs ltp f k Q) [] [] /\ frame h h' (t :: map fst (P ++ Q)) /\ (c = 0 <-> Q = []) /\ (c <= 1 <-> length Q <= 2 * k).
    Proof.
      intros Hk. induction f as [|f IH]; intros h P Q M Hf Hfu.
      - destruct Q; [|cbn in Hf; lia]. exists h, 0. cbn [runs map hd sort_pass]. rewrite Nat.eqb_refl, app_nil_r. conj; [reflexivity|exact M|intros y _; split; reflexivity|split; reflexivity|cbn; lia].
      - cbn [sort_pass runs]. destruct Q as [|(x, v) Q]; [exists h, 0; cbn [map hd]; rewrite Nat.eqb_refl, app_nil_r; conj; [reflexivity|exact M|intros y _; split; reflexivity|split; reflexivity|cbn; lia]|].
        destruct (mst_q _ _ _ _ _ _ _ M eq_refl) as (Dx & _). cbn [map fst hd]. rewrite (proj2 (Nat.eqb_neq _ _) Dx). pose proof (m_Q _ _ _ _ M) as C. cbn [map fst] in C. rewrite (left_loop_ok h t k x (map fst Q) C). change (x :: map fst Q) with (map fst ((x, v) :: Q)). set (T := (x, v) :: Q) in *.
        rewrite firstn_map, skipn_map', map_length. assert (0 < length T) as HT by (unfold T; cbn; lia).
        assert (mst h P (firstn k T) (skipn k T)) as M1. { destruct M as [M1 M2 M3 M4 M5 M6]. constructor; [rewrite firstn_skipn; exact M1|exact M2|exact M3| | |rewrite firstn_skipn; exact M6]; [rewrite <- firstn_map; exact (chain_nlink _ _ _ M5 k)|rewrite <- skipn_map'; now apply chain_skipn]. }
        destruct (sort_merge_ok (2 * fuel pool blocks i) h P (firstn k T) (skipn k T) k x M1) as (h1 & -> & M2 & F2).
        + intros _. unfold T. destruct k; [lia|reflexivity].
        + rewrite !firstn_length, skipn_length. lia.
        + set (P1 := P ++ merged ltp (firstn k T) (firstn k (skipn k T))) in *.
          destruct (IH h1 P1 (skipn k (skipn k T)) M2) as (h' & c & -> & M3 & F3 & Hc0 & Hc); [rewrite !skipn_length; lia|rewrite !skipn_length; lia|]. exists h', (S c). conj; [reflexivity| | |split; discriminate|].
          * unfold P1 in M3. rewrite <- app_assoc in M3. exact M3.
          * eapply frame_incl; [|eapply frame_trans; [exact F2|exact F3]]. rewrite firstn_skipn. intros y I. apply in_app_iff in I as [I|[I|I]]; [exact I|left; exact I|right]. unfold P1 in I. rewrite !map_app, !in_app_iff in I. rewrite map_app, in_app_iff.
            assert (forall z l, In z (map fst (skipn k l)) -> In z (@map (nat * A) nat fst l)) as Hs. { intros z l Iz. rewrite <- (firstn_skipn k l), map_app. apply in_app_iff. now right. }
            assert (forall z l, In z (map fst (firstn k l)) -> In z (@map (nat * A) nat fst l)) as Hfi. { intros z l Iz. rewrite <- (firstn_skipn k l), map_app. apply in_app_iff. now left. }
            destruct I as [[I|I]|I]; [now left|right|right; apply Hs, Hs, I]. eapply Permutation_in in I; [|apply Permutation_map, merged_perm]. rewrite map_app, in_app_iff in I. destruct I as [I|I]; [now apply Hfi|apply Hs, Hfi, I].
          * assert (length (skipn k (skipn k T)) = length T - 2 * k) as E0 by (rewrite !skipn_length; lia). split; intros Hc1.
            -- rewrite (proj1 Hc0) in E0 by lia. cbn [length] in E0. lia.
            -- assert (c = 0); [|lia]. apply Hc0. destruct (skipn k (skipn k T)); [reflexivity|cbn [length] in E0; lia].
    Qed.
    Lemma sort_loop_ok i : t = term i -> strict_weak_order lt -> forall f h k l, mst h [] [] l -> ring h t (map fst l) -> 0 < length l -> length l <= fuel pool blocks i -> 0 < k -> chunks ltp k l -> length l <= k * 2 ^ f -> 0 < f ->
      exists h' l', sort_loop term pool blocks f w i h lt k = Some h' /\ ring h' t (map fst l') /\ Permutation l' l /\ l' = stable_sort ltp l /\ frame h h' (t :: map fst l).
    Proof.
      intros Et O. assert (strict_weak_order ltp) as Op. { destruct O as [O1 O2 O3]. constructor; intros; [apply O1|now apply (O2 _ (snd y))|now apply (O3 _ (snd y))]. }
      induction f as [|f IH]; intros h k l M R Hl Hfu Hk C Hp Hf; [lia|]. cbn [sort_loop]. rewrite <- Et. destruct (ring_hd _ _ _ R) as (-> & _).
      destruct (sort_pass_ok i k Hk (fuel pool blocks i) h [] l M Hfu Hfu) as (h1 & c & E1 & M1 & F1 & Hc0 & Hc). cbn [map hd last app] in E1, M1, F1. rewrite E1. set (l1 := runs ltp (fuel pool blocks i) k l) in *.
      pose proof (runs_perm ltp (fuel pool blocks i) k l Hk Hfu) as P1. fold l1 in P1. pose proof (Permutation_length P1) as Pl.
      assert (ring h1 t (map fst l1)) as R1. { apply (m_ring _ _ _ _ M1). intros E. rewrite E in Pl. cbn in Pl. lia. }
      pose proof (runs_chunks ltp Op (fuel pool blocks i) k l C Hk Hfu) as C1. pose proof (runs_sort ltp Op (fuel pool blocks i) k l C Hk Hfu) as S1. fold l1 in C1, S1.
      destruct (Nat.leb_spec c 1) as [Hc1|Hc1].
      - exists h1, l1. conj; [reflexivity|exact R1|exact P1| |exact F1]. rewrite <- S1. symmetry. apply (chunks_whole ltp (k * 2)); [exact C1|]. apply Hc in Hc1. lia.
      - destruct f as [|f].
        + exfalso. cbn in Hp. assert (c <= 1); [apply Hc; lia|lia].
        + destruct (IH h1 (k * 2) l1) as (h' & l' & E' & R' & P' & S' & F').
          * destruct M1 as [Q1 Q2 Q3 Q4 Q5 Q6]. destruct M as [N1 N2 N3 N4 N5 N6]. cbn [app] in *. constructor; cbn [app]; [eapply Permutation_NoDup; [|exact N1]; constructor; apply Permutation_map; now symmetry|exact Logic.I|intros []; reflexivity|exact Logic.I| |].
            -- pose proof (ring_chain h1 t [] (map fst l1) []) as K. rewrite app_nil_r in K. apply K; [exact R1|]. eapply Permutation_NoDup; [|exact N1]. constructor; apply Permutation_map; now symmetry.
            -- intros x v I. apply N6. eapply Permutation_in; [exact P1|exact I].
          * exact R1.
          * lia.
          * lia.
          * lia.
          * exact C1.
          * rewrite Pl. cbn [Nat.pow] in *. nia.
          * lia.
          * exists h', l'. conj; [exact E'|exact R'|now rewrite P'|now rewrite S', S1|]. eapply frame_incl; [|eapply frame_trans; [exact F1|exact F']]. intros y I. apply in_app_iff in I as [I|[I|I]]; [exact I|left; exact I|right]. eapply Permutation_in; [apply Permutation_map; exact P1|exact I].
    Qed.
  End Merge.
  Lemma pow2_ge m : m <= 2 ^ m. Proof. induction m as [|m IH]; cbn [Nat.pow]; [lia|]. pose proof (Nat.pow_nonzero 2 m). lia. Qed.
  Lemma sort_ok w nd i lt : Inv w nd -> i < n -> strict_weak_order lt -> exists w' l', sort term pool shared blocks w i lt = Some w' /\ Inv w' (put nd i l') /\ map snd l' = stable_sort lt (map snd (nd i)).
  Proof.
    intros J Hi Ho. unfold sort. rewrite (size_ok _ _ _ J Hi). pose proof J as (O & R & _). destruct (Nat.ltb_spec (length (nd i)) 2) as [Hl|Hl].
    - exists w, (nd i). conj; [reflexivity|now apply inv_same|]. destruct (nd i) as [|? [|]]; [reflexivity|reflexivity|cbn in Hl; lia].
    - pose proof (len_cap _ _ _ J Hi) as Hc. unfold cap in Hc. pose proof (own_ring_nodup _ _ _ O Hi) as N.
      destruct (sort_loop_ok w lt (term i) i eq_refl Ho (fuel pool blocks i) (hp w) 1 (nd i)) as (h' & l' & -> & R' & P' & E' & F').
      + constructor; [exact N|exact Logic.I|intros []; reflexivity|exact Logic.I| |].
        * pose proof (ring_chain (hp w) (term i) [] (map fst (nd i)) []) as K. rewrite app_nil_r in K. apply K; [now apply R|exact N].
        * intros x v I. apply (own_pval _ _ i _ _ O); [lia|exact I].
      + now apply R.
      + lia.
      + unfold fuel. lia.
      + lia.
      + apply chunks_1.
      + unfold fuel. rewrite Nat.mul_1_l. pose proof (pow2_ge (S (length (blocks (pool i))))). lia.
      + unfold fuel. lia.
      + exists (with_hp w h'), l'. conj; [reflexivity|now apply inv_reorder|]. rewrite E'. apply stable_sort_map.
  Qed.
  (** ** walks *)
  Lemma walk_fwd w nd i : Inv w nd -> i < n -> forall b a f, nd i = a ++ b -> length b <= f -> walk f w (nxt (hp w)) (hdn i b) (term i) = Some (map snd b).
  Proof.
    intros J Hi. induction b as [|(x, v) b IH]; intros a f E Hf; [destruct f; cbn [map hd walk]; now rewrite Nat.eqb_refl|]. destruct f as [|f]; [cbn in Hf; lia|]. cbn [map hd walk fst snd]. destruct (walk_next _ _ _ _ _ _ _ J Hi E) as (-> & -> & _ & D). rewrite (proj2 (Nat.eqb_neq _ _) D). rewrite (IH (a ++ [(x, v)]) f); [reflexivity|now rewrite <- app_assoc|cbn in Hf; lia].
  Qed.
  Lemma walk_bwd w nd i : Inv w nd -> i < n -> forall b a f, nd i = rev b ++ a -> length b <= f -> walk f w (prv (hp w)) (hd (term i) (map fst b)) (term i) = Some (map snd b).
  Proof.
    intros J Hi. induction b as [|(x, v) b IH]; intros a f E Hf; [destruct f; cbn [map hd walk]; now rewrite Nat.eqb_refl|]. destruct f as [|f]; [cbn in Hf; lia|]. cbn [rev] in E. rewrite <- app_assoc in E. cbn [app] in E. cbn [map hd walk fst snd]. destruct (walk_next _ _ _ _ _ _ _ J Hi E) as (_ & -> & _ & D). rewrite (proj2 (Nat.eqb_neq _ _) D).
    pose proof (inv_ring _ _ _ J Hi) as Ri. rewrite E, map_app in Ri. cbn in Ri. destruct (ring_mid _ _ _ _ _ Ri) as (_ & ->).
    assert (last (map fst (rev b)) (term i) = hd (term i) (map fst b)) as ->. { destruct b as [|e b]; [reflexivity|]. cbn [rev]. rewrite map_app. cbn. apply last_last. }
    rewrite (IH ((x, v) :: a) f); [reflexivity|exact E|cbn in Hf; lia].
  Qed.
  (** ** every operation *)
  Definition agree (s : @lists A) (nd : nodes) : Prop := forall i, i < n -> s i = map snd (nd i).
  Definition sim (w : world) (s : @lists A) : Prop := exists nd, Inv w nd /\ agree s nd.
  Lemma agree_put s nd i l l' : agree s nd -> l' = map snd l -> agree (put s i l') (put nd i l).
  Proof. intros G -> j Hj. unfold put. destruct (Nat.eqb j i); [reflexivity|now apply G]. Qed.
  Lemma sim_put w s nd i l l' : Inv w (put nd i l) -> agree s nd -> l' = map snd l -> sim w (put s i l').
  Proof. intros J G E. exists (put nd i l). split; [exact J|now apply agree_put]. Qed.
  Lemma used_agree s nd p : agree s nd -> used n pool s p = used n pool (snds nd) p.
  Proof. intros G. unfold used. f_equal. apply map_ext_in. intros j I. apply filter_In in I as (I & _). apply in_seq in I. unfold snds. rewrite G by lia. reflexivity. Qed.
  Lemma room_ok w nd s i : Inv w nd -> agree s nd -> room n pool cap s i = length (free w (pool i)).
  Proof. intros J G. rewrite (free_room _ _ _ J). unfold room. now rewrite (used_agree _ _ _ G). Qed.
  Lemma sim_id w nd s : Inv w nd -> agree s nd -> sim w s. Proof. intros; now exists nd. Qed.
  Lemma sim_same w nd s i l : Inv w nd -> agree s nd -> i < n -> l = s i -> sim w (put s i l).
  Proof. intros J G Hi ->. exists nd. split; [exact J|]. intros j Hj. unfold put. destruct (Nat.eqb_spec j i) as [->|]; now apply G. Qed.
  Notation rs F L := (if L <=? F then Rok else Rfull).
  (** what a run of insertions gives *)
  Lemma add_end w nd s i k vs w' new : Inv w nd -> agree s nd -> i < n -> Inv w' (put nd i (firstn k (nd i) ++ new ++ skipn k (nd i))) -> map snd new = firstn (length (free w (pool i))) vs ->
    fst (add n pool cap s i k vs) = rs (length (free w (pool i))) (length vs) /\ sim w' (snd (add n pool cap s i k vs)).
  Proof.
    intros J G Hi J' E. unfold add. cbn [fst snd]. rewrite (room_ok _ _ _ _ J G). split; [reflexivity|]. eapply sim_put; [exact J'|exact G|]. unfold ins. rewrite (G i Hi), !map_app, E, firstn_map, skipn_map'. reflexivity.
  Qed.
  Lemma values_ok w nd s i k vs : Inv w nd -> agree s nd -> i < n -> k <= length (s i) -> exists w', insert_values pool w i (pos term w i k) vs = (fst (add n pool cap s i k vs), w') /\ sim w' (snd (add n pool cap s i k vs)).
  Proof.
    intros J G Hi Hk. rewrite G in Hk by exact Hi. rewrite map_length in Hk. rewrite (pos_ok _ _ _ _ J Hi Hk). destruct (insert_values_ok i vs w nd (firstn k (nd i)) (skipn k (nd i)) J Hi) as (w' & new & E & J' & E'); [now rewrite firstn_skipn|]. destruct (add_end w nd s i k vs w' new J G Hi J' E') as (E1 & S1). exists w'. rewrite E1. split; [exact E|exact S1].
  Qed.
  Lemma push_values (w : world) i position v : push pool check w i position v = insert_values pool w i position [v].
  Proof. unfold push, insert_values, insert. rewrite full_free. unfold alloc. destruct (free w (pool i)); [|now rewrite andb_false_r]. now destruct check. Qed.
  Lemma pos_end w nd i : Inv w nd -> i < n -> term i = pos term w i (length (nd i)). Proof. intros J Hi. rewrite (pos_ok _ _ _ _ J Hi) by lia. now rewrite skipn_all. Qed.
  Lemma cut_all {B} (l : list B) k : length l <= k -> cut 0 k l = []. Proof. intros H. unfold cut. cbn. now apply skipn_all2. Qed.
  Lemma split3 {B} a b (l : list B) : a <= b -> l = firstn a l ++ seg a b l ++ skipn b l.
  Proof. intros H. unfold seg. rewrite <- (firstn_skipn a l) at 1. f_equal. rewrite <- (firstn_skipn (b - a) (skipn a l)) at 1. f_equal. rewrite skipn_skipn'. f_equal. lia. Qed.
  Lemma seg_length {B} a b (l : list B) : a <= b <= length l -> length (seg a b l) = b - a. Proof. intros H. unfold seg. rewrite firstn_length, skipn_length. lia. Qed.
  Lemma seg_map {B C} (f : B -> C) a b l : seg a b (map f l) = map f (seg a b l). Proof. unfold seg. now rewrite skipn_map', firstn_map. Qed.
  Lemma cut_map {B C} (f : B -> C) a b l : cut a b (map f l) = map f (cut a b l). Proof. unfold cut. now rewrite map_app, skipn_map', firstn_map. Qed.
  Lemma ins_map {B C} (f : B -> C) k v l : ins k (map f v) (map f l) = map f (ins k v l). Proof. unfold ins. now rewrite !map_app, skipn_map', firstn_map. Qed.
  Lemma deref_hd w nd i b a : Inv w nd -> i < n -> nd i = a ++ b -> deref term w i (hdn i b) = Some (hd_error (map snd b)).
  Proof.
    intros J Hi E. unfold deref. destruct b as [|(x, v) b]; [cbn; now rewrite Nat.eqb_refl|]. cbn [map hd fst snd]. destruct (walk_next _ _ _ _ _ _ _ J Hi E) as (_ & -> & _ & D). rewrite (proj2 (Nat.eqb_neq _ _) D). reflexivity.
  Qed.
  Lemma hd_error_skipn {B} k (l : list B) : hd_error (skipn k l) = nth_error l k. Proof. revert l. induction k as [|k IH]; intros [|x l]; try reflexivity. apply IH. Qed.
  (** a copy of part of another list was made: the originals go, if there was room *)
  Lemma transfer_end w nd s i j k a b w1 new : Inv w nd -> agree s nd -> i < n -> j < n -> i <> j -> a <= b <= length (nd j) ->
    Inv w1 (put nd i (firstn k (nd i) ++ new ++ skipn k (nd i))) -> map snd new = firstn (length (free w (pool i))) (map snd (seg a b (nd j))) ->
    let r := rs (length (free w (pool i))) (length (seg a b (nd j))) in
    exists w', match r with Rok => match erase_range pool blocks w1 j (hdn j (seg a b (nd j) ++ skipn b (nd j))) (hdn j (skipn b (nd j))) with Some (_, w) => Some (Rok, w) | None => None end | r => Some (r, w1) end
      = Some (fst (transfer n pool cap s i k j a b (seg a b (s j))), w') /\ sim w' (snd (transfer n pool cap s i k j a b (seg a b (s j)))).
  Proof.
    intros J G Hi Hj D Hab J1 E1 r. unfold transfer. pose proof (add_end w nd s i k (seg a b (s j)) w1 new J G Hi J1) as K. rewrite (G j Hj), seg_map in *. specialize (K E1). destruct K as (K1 & K2). rewrite map_length in K1. fold r in K1. destruct (add n pool cap s i k (map snd (seg a b (nd j)))) as (r0, s1) eqn:Ea. cbn [fst snd] in K1, K2. subst r0.
    assert (s1 j = map snd (nd j)) as Ej. { unfold add in Ea. injection Ea as _ <-. rewrite put_other by congruence. now apply G. }
    unfold r in *. destruct (length (seg a b (nd j)) <=? length (free w (pool i))).
    - set (nd1 := put nd i _) in J1. assert (nd1 j = firstn a (nd j) ++ seg a b (nd j) ++ skipn b (nd j)) as Ej1 by (unfold nd1; rewrite put_other by congruence; apply split3; lia).
      destruct (erase_range_ok _ _ _ _ _ _ J1 Hj Ej1) as (w' & -> & J'). exists w'. cbn [fst snd]. split; [reflexivity|]. unfold add in Ea. injection Ea as _ Ea. subst s1. eapply sim_put; [exact J'| |].
      + apply agree_put; [exact G|]. unfold ins. rewrite (room_ok _ _ _ _ J G), (G i Hi), !map_app, E1, firstn_map, skipn_map'. reflexivity.
      + rewrite Ej, cut_map. reflexivity.
    - exists w1. cbn [fst snd]. split; [reflexivity|exact K2].
  Qed.
  Notation op := (list_op term pool shared blocks check triv).
  Notation step := (l_step n pool cap).
  Definition good (o : lop A) : Prop := forall w nd s, Inv w nd -> agree s nd -> allowed n check o s -> exists w', op o w = Some (fst (step o s), w') /\ sim w' (snd (step o s)).
  Lemma good_push_front i v : good (LpushFront i v).
  Proof.
    intros w nd s J G Ha. cbn [list_op l_step allowed] in *. rewrite push_values. destruct (values_ok w nd s i 0 [v] J G Ha) as (w' & E & S1); [lia|]. unfold pos in E. cbn [at_pos] in E. rewrite E. now exists w'.
  Qed.
  Lemma good_push_back i v : good (LpushBack i v).
  Proof.
    intros w nd s J G Ha. cbn [list_op l_step allowed] in *. rewrite push_values, (pos_end _ _ _ J Ha). destruct (values_ok w nd s i (length (s i)) [v] J G Ha) as (w' & E & S1); [lia|]. pose proof (f_equal (@length A) (G i Ha)) as El. rewrite map_length in El. rewrite <- El, E. now exists w'.
  Qed.
  Lemma good_pop_front i : good (LpopFront i).
  Proof.
    intros w nd s J G (Ha & Hc). cbn [list_op l_step]. unfold pop. rewrite (is_empty_ok _ _ _ J Ha). rewrite (G i Ha) in *. destruct (ring_hd _ _ _ (inv_ring _ _ _ J Ha)) as (-> & _). destruct (nd i) as [|(x, v) l] eqn:E.
    - destruct check; [|exfalso; now apply Hc]. exists w. split; [reflexivity|now apply sim_id with nd].
    - rewrite andb_false_r. cbn [map hd fst]. destruct (remove_ok w nd i [] x v l J Ha E) as (w' & -> & J'). exists w'. split; [reflexivity|]. cbn [map snd]. now apply sim_put with nd l.
  Qed.
  Lemma good_pop_back i : good (LpopBack i).
  Proof.
    intros w nd s J G (Ha & Hc). cbn [list_op l_step]. unfold pop. rewrite (is_empty_ok _ _ _ J Ha). rewrite (G i Ha) in *. destruct (ring_hd _ _ _ (inv_ring _ _ _ J Ha)) as (_ & ->). destruct (nd i) as [|e l] eqn:E.
    - destruct check; [|exfalso; now apply Hc]. exists w. split; [reflexivity|now apply sim_id with nd].
    - rewrite andb_false_r. destruct (exists_last (l := e :: l)) as (l' & (x, v) & El); [discriminate|]. rewrite El, map_app. cbn [map fst]. rewrite last_last. destruct (remove_ok w nd i l' x v [] J Ha) as (w' & -> & J'); [now rewrite E|]. exists w'. rewrite map_app. cbn [map]. rewrite removelast_last.
      destruct (map snd l' ++ [snd (x, v)]) eqn:Z; [destruct l'; discriminate|]. split; [reflexivity|]. rewrite app_nil_r in J'. now apply sim_put with nd l'.
  Qed.
  Lemma good_insert i k v : good (Linsert i k v).
  Proof.
    intros w nd s J G (Ha & Hk). cbn [list_op l_step]. rewrite (G i Ha), map_length in Hk. rewrite (pos_ok _ _ _ _ J Ha Hk). unfold insert. rewrite full_free, (room_ok _ _ _ _ J G). destruct (free w (pool i)) as [|x r] eqn:F; cbn [length].
    - exists w. split; [reflexivity|now apply sim_id with nd].
    - destruct (insert_ok w nd i (firstn k (nd i)) (skipn k (nd i)) v x r J Ha) as (w1 & -> & J1 & _); [now rewrite firstn_skipn|exact F|]. set (w2 := with_hp _ _) in *. pose proof (deref_hd w2 _ i ((x, v) :: skipn k (nd i)) (firstn k (nd i)) J1 Ha (put_same _ _ _)) as Ed. cbn [map hd fst] in Ed. rewrite Ed. exists w2. split; [reflexivity|]. eapply sim_put; [exact J1|exact G|]. unfold ins. rewrite (G i Ha), !map_app, firstn_map, skipn_map'. reflexivity.
  Qed.
  Lemma good_erase i k : good (Lerase i k).
  Proof.
    intros w nd s J G (Ha & Hk). cbn [list_op l_step]. rewrite (G i Ha), map_length in *. rewrite (pos_ok w nd i k J Ha) by lia. destruct (nth_error (nd i) k) as [(x, v)|] eqn:En; [|apply nth_error_None in En; lia]. pose proof (skipn_nth _ _ _ En) as Es. rewrite Es. cbn [map hd fst].
    destruct (erase_ok w nd i (firstn k (nd i)) x v (skipn (S k) (nd i)) J Ha) as (w' & -> & J'); [rewrite <- Es; now rewrite firstn_skipn|]. rewrite (deref_hd w' _ i _ (firstn k (nd i)) J' Ha (put_same _ _ _)), <- skipn_map', hd_error_skipn. exists w'. split; [reflexivity|]. eapply sim_put; [exact J'|exact G|]. now rewrite cut_map.
  Qed.
  Lemma good_erase_range i a b : good (LeraseRange i a b).
  Proof.
    intros w nd s J G (Ha & Hk). cbn [list_op l_step]. rewrite (G i Ha), map_length in *. rewrite (pos_ok w nd i a J Ha), (pos_ok w nd i b J Ha) by lia.
    assert (skipn a (nd i) = seg a b (nd i) ++ skipn b (nd i)) as Es. { apply (app_inv_head (firstn a (nd i))). rewrite firstn_skipn. apply split3. lia. } rewrite Es.
    destruct (erase_range_ok w nd i (firstn a (nd i)) (seg a b (nd i)) (skipn b (nd i)) J Ha) as (w' & -> & J'); [apply split3; lia|]. rewrite (deref_hd w' _ i _ (firstn a (nd i)) J' Ha (put_same _ _ _)), <- skipn_map', hd_error_skipn. exists w'. split; [reflexivity|]. eapply sim_put; [exact J'|exact G|]. now rewrite cut_map.
  Qed.
  Lemma init_sim w nd s i : Inv w nd -> agree s nd -> i < n -> exists w', initialise term pool shared blocks triv w i = Some w' /\ Inv w' (put nd i []) /\ agree (put s i []) (put nd i []).
  Proof. intros J G Hi. destruct (initialise_ok w nd i J Hi) as (w' & E & J'). exists w'. conj; [exact E|exact J'|now apply agree_put]. Qed.
  Lemma good_clear i : good (Lclear i).
  Proof. intros w nd s J G Ha. cbn [list_op l_step allowed] in *. destruct (init_sim w nd s i J G Ha) as (w' & -> & J' & G'). exists w'. split; [reflexivity|now apply sim_id with (put nd i [])]. Qed.
  Lemma good_resize i m v : good (Lresize i m v).
  Proof.
    intros w nd s J G Ha. cbn [list_op l_step allowed] in *. unfold resize. fold (cap (pool i)). destruct (Nat.ltb_spec (cap (pool i)) m) as [Hm|Hm]; [exists w; split; [reflexivity|now apply sim_id with nd]|]. rewrite (G i Ha), map_length. destruct (Nat.eqb_spec m 0) as [->|D].
    - destruct (init_sim w nd s i J G Ha) as (w' & -> & J' & G'). exists w'. cbn. split; [reflexivity|now apply sim_id with (put nd i [])].
    - rewrite (size_ok _ _ _ J Ha). destruct (Nat.ltb_spec m (length (nd i))) as [H1|H1].
      + rewrite (proj2 (Nat.leb_le _ _)) by lia. pose proof (inv_ring _ _ _ J Ha) as Ri. pose proof (back_pos_ok (hp w) (term i) (map fst (nd i)) [] (length (nd i) - m)) as Eb. rewrite app_nil_r, map_length in Eb. cbn [hd] in Eb. rewrite Eb by (exact Ri || lia). replace (length (nd i) - (length (nd i) - m)) with m by lia. rewrite skipn_map'.
        destruct (erase_range_ok w nd i (firstn m (nd i)) (skipn m (nd i)) [] J Ha) as (w' & E' & J'); [now rewrite app_nil_r, firstn_skipn|]. rewrite app_nil_r in E'. cbn [map hd] in E'. rewrite E'. exists w'. split; [reflexivity|]. rewrite app_nil_r in J'. eapply sim_put; [exact J'|exact G|]. now rewrite firstn_map.
      + destruct (Nat.ltb_spec (length (nd i)) m) as [H2|H2].
        * rewrite (proj2 (Nat.leb_gt _ _)) by lia. destruct (values_ok w nd s i (length (s i)) (repeat v (m - length (nd i))) J G Ha) as (w' & E & S1); [lia|]. rewrite (G i Ha), map_length in E, S1. rewrite <- (pos_end _ _ _ J Ha) in E. rewrite E. now exists w'.
        * rewrite (proj2 (Nat.leb_le _ _)) by lia. exists w. split; [reflexivity|]. apply sim_same with nd; [exact J|exact G|exact Ha|]. rewrite (G i Ha). apply firstn_all2. rewrite map_length. lia.
  Qed.
  Lemma good_remove_if i p : good (LremoveIf i p).
  Proof.
    intros w nd s J G Ha. cbn [list_op l_step allowed] in *. destruct (ring_hd _ _ _ (inv_ring _ _ _ J Ha)) as (-> & _). pose proof (len_cap _ _ _ J Ha). destruct (remove_loop_ok i p Ha (nd i) (fuel pool blocks i) w nd [] J eq_refl) as (w' & b' & -> & J' & E'); [unfold fuel, cap in *; lia|]. exists w'. split; [reflexivity|]. eapply sim_put; [exact J'|exact G|]. cbn [app]. now rewrite E', (G i Ha).
  Qed.
  Lemma good_unique i eq : good (Lunique i eq).
  Proof.
    intros w nd s J G Ha. cbn [list_op l_step allowed] in *. unfold unique. rewrite (is_empty_ok _ _ _ J Ha), (G i Ha). destruct (nd i) as [|(x, u) b] eqn:E; [exists w; split; [reflexivity|]; apply sim_same with nd; [exact J|exact G|exact Ha|now rewrite (G i Ha), E]|].
    destruct (ring_hd _ _ _ (inv_ring _ _ _ J Ha)) as (-> & _). rewrite E. cbn [map hd fst snd]. destruct (walk_next w nd i [] x u b J Ha E) as (-> & _). pose proof (len_cap _ _ _ J Ha) as Hl. rewrite E in Hl. cbn in Hl.
    destruct (unique_loop_ok i eq Ha b (fuel pool blocks i) w nd [] x u J E) as (w' & b' & -> & J' & E'); [unfold fuel, cap in *; lia|]. exists w'. split; [reflexivity|]. eapply sim_put; [exact J'|exact G|]. cbn. now rewrite E'.
  Qed.
  Lemma good_reverse i : good (Lreverse i).
  Proof. intros w nd s J G Ha. cbn [list_op l_step allowed] in *. destruct (reverse_ok w nd i J Ha) as (w' & -> & J'). exists w'. split; [reflexivity|]. eapply sim_put; [exact J'|exact G|]. now rewrite (G i Ha), map_rev. Qed.
  Lemma good_sort i lt : good (Lsort i lt).
  Proof. intros w nd s J G (Ha & Ho). cbn [list_op l_step]. destruct (sort_ok w nd i lt J Ha Ho) as (w' & l' & -> & J' & E'). exists w'. split; [reflexivity|]. eapply sim_put; [exact J'|exact G|]. now rewrite (G i Ha), E'. Qed.
  Lemma assign_good w nd s i vs : Inv w nd -> agree s nd -> i < n -> exists w', assign term pool shared blocks triv w i vs = Some (fst (add n pool cap (put s i []) i 0 vs), w') /\ sim w' (snd (add n pool cap (put s i []) i 0 vs)).
  Proof.
    intros J G Ha. unfold assign. destruct (init_sim w nd s i J G Ha) as (w1 & -> & J1 & G1). destruct (assign_loop_ok i vs w1 _ [] J1 Ha (put_same _ _ _)) as (w' & new & -> & J' & E'). destruct (add_end w1 _ (put s i []) i 0 vs w' new J1 G1 Ha) as (E1 & S1); [rewrite put_same; cbn [firstn skipn app]; now rewrite app_nil_r|exact E'|]. exists w'. rewrite E1. split; [reflexivity|exact S1].
  Qed.
  Lemma begin_j w nd j : Inv w nd -> j < n -> nxt (hp w) (term j) = hdn j (nd j). Proof. intros J Hj. apply (ring_hd _ _ _ (inv_ring _ _ _ J Hj)). Qed.
  Lemma seg_all {B} (l : list B) : seg 0 (length l) l = l. Proof. unfold seg. rewrite Nat.sub_0_r. cbn. apply firstn_all. Qed.
  Lemma good_splice i k j : good (Lsplice i k j).
  Proof.
    intros w nd s J G (Hi & Hj & Hk). cbn [list_op l_step]. unfold splice. rewrite (Nat.eqb_sym j i). destruct (Nat.eqb_spec i j) as [->|D]; cbn [negb]; [exists w; split; [reflexivity|now apply sim_id with nd]|].
    rewrite (G i Hi), map_length in Hk. rewrite (pos_ok _ _ _ _ J Hi Hk), (begin_j _ _ _ J Hj). pose proof (len_cap _ _ _ J Hj). 
    destruct (insert_from_ok i j Hi Hj D (nd j) (fuel pool blocks j) w nd (firstn k (nd i)) (skipn k (nd i)) [] [] J) as (w1 & new & E1 & J1 & S1); [now rewrite firstn_skipn|now rewrite app_nil_r|unfold fuel, cap in *; lia|]. rewrite app_nil_r in E1. cbn [map hd] in E1. rewrite E1.
    assert (nxt (hp w1) (term j) = hdn j (nd j)) as ->. { rewrite (begin_j _ _ _ J1 Hj), put_other by congruence. reflexivity. }
    destruct (transfer_end w nd s i j k 0 (length (nd j)) w1 new J G Hi Hj D) as (w' & E' & S'); [lia|exact J1|now rewrite seg_all|]. cbn zeta in E'. rewrite seg_all, skipn_all, app_nil_r in E'. cbn [map hd] in E'. assert (length (s j) = length (nd j)) as El by (rewrite (G j Hj); apply map_length). rewrite <- El, seg_all in S', E'. rewrite <- El. exists w'. split; [exact E'|exact S'].
  Qed.
  Lemma skipn_seg {B} a b (l : list B) : a <= b -> skipn a l = seg a b l ++ skipn b l. Proof. intros H. apply (app_inv_head (firstn a l)). rewrite firstn_skipn. now apply split3. Qed.
  Lemma good_splice_one i k j m : good (LspliceOne i k j m).
  Proof.
    intros w nd s J G (Hi & Hj & Hk & Hm). cbn [list_op l_step]. unfold splice_one. rewrite (Nat.eqb_sym j i). rewrite (G i Hi), map_length in Hk. rewrite (G j Hj), map_length in Hm. rewrite (pos_ok _ _ _ _ J Hi Hk), (pos_ok w nd j m J Hj) by lia. destruct (nth_error (nd j) m) as [(x, v)|] eqn:En; [|apply nth_error_None in En; lia]. pose proof (skipn_nth _ _ _ En) as Es. assert (nd j = firstn m (nd j) ++ (x, v) :: skipn (S m) (nd j)) as Ej by (rewrite <- Es; now rewrite firstn_skipn).
    assert (seg m (S m) (nd j) = [(x, v)]) as Eg by (unfold seg; replace (S m - m) with 1 by lia; now rewrite Es).
    rewrite Es. cbn [map hd fst]. destruct (Nat.eqb_spec i j) as [<-|D].
    - rewrite (G i Hi), seg_map, cut_map, !ins_map. eexists. split; [reflexivity|]. rewrite Eg. destruct (Nat.ltb_spec m k) as [Hmk|Hmk].
      + assert (skipn k (nd i) = skipn (k - 1) (cut m (S m) (nd i))) as Ed. { unfold cut. rewrite skipn_app, firstn_length, (skipn_all2 (firstn m (nd i))) by (rewrite firstn_length; lia). cbn [app]. rewrite skipn_skipn'. f_equal. lia. }
        eapply sim_put; [|exact G|]; [|unfold ins; reflexivity]. cbn [app]. rewrite Ed. apply (move_one_ok w nd i (firstn m (nd i)) x v (skipn (S m) (nd i))); [exact J|exact Hi|exact Ej|unfold cut; now rewrite firstn_skipn|]. rewrite <- Ed.
        apply (hdn_not_mid w nd i (firstn m (nd i)) x v (firstn (k - S m) (skipn (S m) (nd i))) (skipn k (nd i))); [exact J|exact Hi|]. rewrite Ej at 1. do 2 f_equal. rewrite <- (firstn_skipn (k - S m) (skipn (S m) (nd i))) at 1. f_equal. rewrite skipn_skipn'. f_equal. lia.
      + destruct (Nat.eq_dec m k) as [->|Dm].
        * rewrite Es. cbn [map hd fst]. unfold move_one. rewrite Nat.eqb_refl. eapply sim_put; [|exact G|reflexivity]. apply inv_same; [|destruct w; exact J]. rewrite Ej at 1. unfold ins, cut. rewrite firstn_app, firstn_firstn, firstn_length, skipn_app, firstn_length. rewrite (skipn_all2 (firstn k (nd i))) by (rewrite firstn_length; lia). replace (k - Nat.min k (length (nd i))) with 0 by lia. rewrite Nat.min_id. cbn [firstn skipn app]. now rewrite app_nil_r.
        * set (c := firstn k (cut m (S m) (nd i))). set (d := skipn k (cut m (S m) (nd i))).
          assert (nd i = firstn k (nd i) ++ firstn (m - k) (skipn k (nd i)) ++ (x, v) :: skipn (S m) (nd i)) as E3. { rewrite <- Es. rewrite <- (firstn_skipn k (nd i)) at 1. f_equal. rewrite <- (firstn_skipn (m - k) (skipn k (nd i))) at 1. f_equal. rewrite skipn_skipn'. f_equal. lia. }
          assert (d = firstn (m - k) (skipn k (nd i)) ++ skipn (S m) (nd i)) as Ed. { unfold d, cut. rewrite skipn_app, firstn_length. replace (k - Nat.min m (length (nd i))) with 0 by lia. cbn [skipn]. f_equal. apply skipn_firstn_comm. }
          assert (hdn i d = hdn i (skipn k (nd i))) as Eh. { rewrite Ed. rewrite <- (firstn_skipn (m - k) (skipn k (nd i))) at 2. destruct (firstn (m - k) (skipn k (nd i))) eqn:Z; [|reflexivity]. exfalso. apply (f_equal (@length (nat * A))) in Z. rewrite firstn_length, skipn_length in Z. cbn in Z. lia. }
          eapply sim_put; [|exact G|reflexivity]. unfold ins. fold c d. cbn [app]. rewrite <- Eh. apply (move_one_ok w nd i (firstn m (nd i)) x v (skipn (S m) (nd i)) c d); [exact J|exact Hi|exact Ej|unfold c, d, cut; now rewrite firstn_skipn|]. rewrite Ed.
          intros C. pose proof J as (O & _). pose proof (own_nodup _ _ i O) as N. specialize (N ltac:(lia)). rewrite E3, !map_app in N. apply NoDup_app_iff in N as (_ & N & _). destruct (firstn (m - k) (skipn k (nd i))) as [|e q] eqn:Z; [apply (f_equal (@length (nat * A))) in Z; rewrite firstn_length, skipn_length in Z; cbn in Z; lia|]. cbn [app map hd] in C, N. inversion N as [|? ? N1 _]; subst. apply N1. apply in_app_iff. right. now left.
    - unfold insert. pose proof (transfer_end w nd s i j k m (S m)) as T. destruct (walk_next _ _ _ _ _ _ _ J Hj Ej) as (_ & -> & _). rewrite full_free. destruct (free w (pool i)) as [|y r] eqn:F.
      + destruct (T w [] J G Hi Hj D ltac:(lia)) as (w' & E' & S'); [cbn [app]; rewrite firstn_skipn; now apply inv_same|reflexivity|]. rewrite Eg in E'. exists w'. split; [|exact S']. exact E'.
      + destruct (insert_ok w nd i (firstn k (nd i)) (skipn k (nd i)) v y r J Hi) as (w1 & -> & J1 & _); [now rewrite firstn_skipn|exact F|]. set (w2 := with_hp _ _) in *.
        assert (put nd i (firstn k (nd i) ++ (y, v) :: skipn k (nd i)) j = firstn m (nd j) ++ (x, v) :: skipn (S m) (nd j)) as Ej1 by (rewrite put_other by congruence; exact Ej).
        destruct (erase_ok _ _ _ _ _ _ _ J1 Hj Ej1) as (w3 & -> & J3). exists w3. unfold transfer, add. rewrite (G j Hj), seg_map, Eg, (room_ok _ _ _ _ J G), F. cbn [length map snd Nat.leb fst]. split; [reflexivity|]. eapply sim_put; [exact J3| |].
        * apply agree_put; [exact G|]. unfold ins. cbn [firstn]. rewrite firstn_nil, (G i Hi), !map_app, firstn_map, skipn_map'. reflexivity.
        * rewrite put_other by congruence. rewrite (G j Hj), cut_map. reflexivity.
  Qed.
  Lemma range_inside w nd s i k a b : Inv w nd -> agree s nd -> i < n -> k <= length (nd i) -> a < b <= length (nd i) -> k <= a \/ b <= k ->
    sim (with_hp w (move_range (hp w) (hdn i (skipn k (nd i))) (hdn i (skipn a (nd i))) (hdn i (skipn b (nd i)))))
      (put s i (if b <=? k then ins (k - (b - a)) (seg a b (s i)) (cut a b (s i)) else ins k (seg a b (s i)) (cut a b (s i)))).
  Proof.
    intros J G Hi Hk Hab Hkr. rewrite (G i Hi), seg_map, cut_map, !ins_map. pose proof J as (O & _). pose proof (own_ring_nodup _ _ _ O Hi) as N.
    assert (seg a b (nd i) <> []) as Nm. { intros C. apply (f_equal (@length (nat * A))) in C. rewrite seg_length in C by lia. cbn in C. lia. }
    pose proof (split3 a b (nd i) ltac:(lia)) as E. rewrite (skipn_seg a b) by lia.
    assert (forall p q, p < q <= length (nd i) -> hdn i (skipn p (nd i)) <> hdn i (skipn q (nd i))) as Hne.
    { intros p q Hpq. rewrite (skipn_seg p q) by lia. destruct (seg p q (nd i)) as [|(x, v) m] eqn:Z; [apply (f_equal (@length (nat * A))) in Z; rewrite seg_length in Z by lia; cbn in Z; lia|]. cbn [app map hd fst]. apply (hdn_not_mid w nd i (firstn p (nd i)) x v m); [exact J|exact Hi|]. rewrite (split3 p q (nd i)) at 1 by lia. now rewrite Z. }
    assert (forall l, Inv w nd -> l = nd i -> sim (with_hp w (hp w)) (put s i (map snd l))) as Same. { intros l _ ->. eapply sim_put; [|exact G|reflexivity]. apply inv_same; [reflexivity|destruct w; exact J]. }
    destruct (Nat.eq_dec k a) as [->|Da]; [|destruct (Nat.eq_dec k b) as [->|Db]].
    - rewrite (skipn_seg a b) by lia. unfold move_range. rewrite Nat.eqb_refl. cbn [orb]. rewrite (proj2 (Nat.leb_gt _ _)) by lia. apply Same; [exact J|]. symmetry. rewrite E at 1. unfold ins, cut. rewrite firstn_app, skipn_app, firstn_firstn, Nat.min_id, firstn_length. rewrite (skipn_all2 (firstn a (nd i))) by (rewrite firstn_length; lia). replace (a - Nat.min a (length (nd i))) with 0 by lia. cbn [firstn skipn app]. now rewrite app_nil_r.
    - unfold move_range. rewrite Nat.eqb_refl, orb_true_r. rewrite (proj2 (Nat.leb_le _ _)) by lia. apply Same; [exact J|]. symmetry. rewrite E at 1. unfold ins, cut. replace (b - (b - a)) with a by lia. rewrite firstn_app, skipn_app, firstn_firstn, Nat.min_id, firstn_length. rewrite (skipn_all2 (firstn a (nd i))) by (rewrite firstn_length; lia). replace (a - Nat.min a (length (nd i))) with 0 by lia. cbn [firstn skipn app]. now rewrite app_nil_r.
    - destruct (Nat.leb_spec b k) as [Hb|Hb].
      + assert (skipn k (nd i) = skipn (k - (b - a)) (cut a b (nd i))) as Ed. { unfold cut. rewrite skipn_app, firstn_length, (skipn_all2 (firstn a (nd i))) by (rewrite firstn_length; lia). cbn [app]. rewrite skipn_skipn'. f_equal. lia. }
        eapply sim_put; [|exact G|reflexivity]. unfold ins. rewrite Ed. apply (move_range_ok w nd i (firstn a (nd i))); [exact J|exact Hi|exact E|exact Nm|unfold cut; now rewrite firstn_skipn| |].
        * rewrite <- Ed, <- skipn_seg by lia. apply Hne. lia.
        * rewrite <- Ed. apply Hne. lia.
      + assert (k < a) as Hka by lia. set (c := firstn k (cut a b (nd i))). set (d := skipn k (cut a b (nd i))).
        assert (d = firstn (a - k) (skipn k (nd i)) ++ skipn b (nd i)) as Ed. { unfold d, cut. rewrite skipn_app, firstn_length. replace (k - Nat.min a (length (nd i))) with 0 by lia. cbn [skipn]. f_equal. apply skipn_firstn_comm. }
        assert (hdn i d = hdn i (skipn k (nd i))) as Eh. { rewrite Ed. rewrite <- (firstn_skipn (a - k) (skipn k (nd i))) at 2. destruct (firstn (a - k) (skipn k (nd i))) eqn:Z; [|reflexivity]. exfalso. apply (f_equal (@length (nat * A))) in Z. rewrite firstn_length, skipn_length in Z. cbn in Z. lia. }
        eapply sim_put; [|exact G|reflexivity]. unfold ins. fold c d. rewrite <- Eh. apply (move_range_ok w nd i (firstn a (nd i))); [exact J|exact Hi|exact E|exact Nm|unfold c, d, cut; now rewrite firstn_skipn| |].
        * rewrite Eh, <- skipn_seg by lia. intros C. symmetry in C. revert C. apply Hne. lia.
        * rewrite Eh. intros C. symmetry in C. revert C. apply Hne. lia.
  Qed.
  Lemma good_splice_range i k j a b : good (LspliceRange i k j a b).
  Proof.
    intros w nd s J G (Hi & Hj & Hk & Hab & Hin). cbn [list_op l_step]. unfold splice_range. rewrite (Nat.eqb_sym j i). rewrite (G i Hi), map_length in Hk. rewrite (G j Hj), map_length in Hab. rewrite (pos_ok _ _ _ _ J Hi Hk), (pos_ok w nd j a J Hj), (pos_ok w nd j b J Hj) by lia. destruct (Nat.eqb_spec i j) as [<-|D].
    - destruct (Hin eq_refl) as (H1 & H2). eexists. split; [reflexivity|]. apply range_inside; try assumption. lia.
    - pose proof (len_cap _ _ _ J Hj). rewrite (skipn_seg a b) by lia.
      destruct (insert_from_ok i j Hi Hj D (seg a b (nd j)) (fuel pool blocks j) w nd (firstn k (nd i)) (skipn k (nd i)) (firstn a (nd j)) (skipn b (nd j)) J) as (w1 & new & E1 & J1 & S1); [now rewrite firstn_skipn|apply split3; lia|rewrite seg_length by lia; unfold fuel, cap in *; lia|]. rewrite E1.
      destruct (transfer_end w nd s i j k a b w1 new J G Hi Hj D Hab J1 S1) as (w' & E' & S'). exists w'. split; [exact E'|exact S'].
  Qed.
  Lemma good_splice_range_move i k j a b : good (LspliceRangeMove i k j a b).
  Proof.
    intros w nd s J G (Hi & Hj & Hk & Hab & Hin). cbn [list_op l_step]. unfold splice_range_move. rewrite (Nat.eqb_sym j i). rewrite (G i Hi), map_length in Hk. rewrite (G j Hj), map_length in Hab. rewrite (pos_ok _ _ _ _ J Hi Hk), (pos_ok w nd j a J Hj), (pos_ok w nd j b J Hj) by lia. destruct (Nat.eqb_spec i j) as [<-|D].
    - destruct (Hin eq_refl) as (H1 & H2). eexists. split; [reflexivity|]. apply range_inside; try assumption. lia.
    - pose proof (len_cap _ _ _ J Hj). rewrite (skipn_seg a b) by lia.
      destruct (splice_range_move_loop_ok i j Hi Hj D (seg a b (nd j)) (fuel pool blocks j) w nd (firstn k (nd i)) (skipn k (nd i)) (firstn a (nd j)) (skipn b (nd j)) J) as (w1 & new & E1 & J1 & S1); [now rewrite firstn_skipn|apply split3; lia|rewrite seg_length by lia; unfold fuel, cap in *; lia|]. rewrite E1.
      destruct (transfer_end w nd s i j k a b w1 new J G Hi Hj D Hab J1 S1) as (w' & E' & S'). exists w'. split; [exact E'|exact S'].
  Qed.
  Lemma good_splice_move i k j : good (LspliceMove i k j).
  Proof.
    intros w nd s J G (Hi & Hj & Hk). cbn [list_op l_step]. unfold splice_move. rewrite (Nat.eqb_sym j i). destruct (Nat.eqb_spec i j) as [->|D]; cbn [negb]; [exists w; split; [reflexivity|now apply sim_id with nd]|].
    rewrite (G i Hi), map_length in Hk. rewrite (pos_ok _ _ _ _ J Hi Hk), (begin_j _ _ _ J Hj). pose proof (len_cap _ _ _ J Hj).
    destruct (splice_move_loop_ok i j Hi Hj D (nd j) (fuel pool blocks j) w nd (firstn k (nd i)) (skipn k (nd i)) [] J) as (w1 & new & E1 & J1 & S1); [now rewrite firstn_skipn|reflexivity|unfold fuel, cap in *; lia|]. rewrite E1.
    assert (nxt (hp w1) (term j) = hdn j (nd j)) as ->. { rewrite (begin_j _ _ _ J1 Hj), put_other by congruence. reflexivity. }
    rewrite (room_ok _ _ _ _ J G). assert (length (s j) = length (nd j)) as El by (rewrite (G j Hj); apply map_length). unfold add. rewrite El, (room_ok _ _ _ _ J G).
    assert (ins k (firstn (length (free w (pool i))) (rev (firstn (length (free w (pool i))) (s j)))) (s i) = map snd (firstn k (nd i) ++ rev new ++ skipn k (nd i))) as Ei. { rewrite firstn_all2 by (rewrite rev_length, firstn_length; lia). rewrite (G j Hj), <- S1, <- map_rev, (G i Hi), ins_map. reflexivity. }
    rewrite Ei. destruct (length (nd j) <=? length (free w (pool i))).
    - set (nd1 := put nd i _) in J1. assert (nd1 j = [] ++ nd j ++ []) as Ej1 by (unfold nd1; rewrite put_other by congruence; now rewrite app_nil_r).
      destruct (erase_range_ok _ _ _ _ _ _ J1 Hj Ej1) as (w' & E' & J'). rewrite app_nil_r in E'. cbn [map hd] in E'. rewrite E'. exists w'. cbn [fst snd]. split; [reflexivity|]. eapply sim_put; [exact J'| |reflexivity]. now apply agree_put.
    - exists w1. cbn [fst snd]. split; [reflexivity|]. eapply sim_put; [exact J1|exact G|reflexivity].
  Qed.
  Lemma good_merge i j lt : good (Lmerge i j lt).
  Proof.
    intros w nd s J G (Hi & Hj). cbn [list_op l_step]. unfold merge. destruct (Nat.eqb_spec i j) as [->|D]; cbn [negb andb]; [exists w; split; [reflexivity|now apply sim_id with nd]|]. rewrite (is_empty_ok _ _ _ J Hj), (room_ok _ _ _ _ J G). assert (length (s j) = length (nd j)) as El by (rewrite (G j Hj); apply map_length). rewrite El.
    destruct (nd j) as [|e l] eqn:Ej.
    - cbn [negb length Nat.leb]. exists w. split; [reflexivity|]. exists nd. split; [exact J|]. intros q Hq. unfold put. cbn [snd]. destruct (Nat.eqb_spec q j) as [->|]; [now rewrite Ej|]. destruct (Nat.eqb_spec q i) as [->|]; [|now apply G]. rewrite (G j Hj), Ej. cbn [map]. rewrite merged_nil_r. now apply G.
    - rewrite <- Ej in *. cbn [negb]. rewrite (begin_j _ _ _ J Hi), (begin_j _ _ _ J Hj). pose proof (len_cap _ _ _ J Hi) as Li. pose proof (len_cap _ _ _ J Hj) as Lj.
      destruct (merge_loop_ok i j lt Hi Hj D (fuel pool blocks i + fuel pool blocks j) w nd [] (nd i) [] (nd j) J eq_refl eq_refl) as (w1 & r & a' & b' & d & c' & -> & J1 & Ec & Fc & Rc & Mc); [unfold fuel, cap in *; lia|]. cbn [map app] in Mc.
      pose proof (f_equal (@length (nat * A)) Ec) as Elc. rewrite app_length in Elc.
      assert (forall w2 new, Inv w2 (put nd i new) -> (length (nd j) <=? length (free w (pool i))) = true -> map snd new = merged lt (map snd (nd i)) (map snd (nd j)) ->
        exists w', match initialise term pool shared blocks triv w2 j with Some w => Some (@Rok A, w) | None => None end = Some (fst (@Rok A, put (put s i (merged lt (s i) (s j))) j []), w') /\ sim w' (snd (@Rok A, put (put s i (merged lt (s i) (s j))) j []))) as Fin.
      { intros w2 new J2 _ E2. destruct (init_sim w2 _ (put s i (merged lt (s i) (s j))) j J2) as (w' & -> & J' & G'); [apply agree_put; [exact G|now rewrite E2, (G i Hi), (G j Hj)]|exact Hj|]. exists w'. split; [reflexivity|]. eapply sim_id; [exact J'|exact G']. }
      assert (forall w2 new, Inv w2 (put nd i new) -> (length (nd j) <=? length (free w (pool i))) = false -> map snd new = merged lt (map snd (nd i)) (firstn (length (free w (pool i))) (map snd (nd j))) -> sim w2 (put s i (merged lt (s i) (firstn (length (free w (pool i))) (s j))))) as Fin2.
      { intros w2 new J2 _ E2. eapply sim_put; [exact J2|exact G|]. now rewrite E2, (G i Hi), (G j Hj). }
      destruct Rc as [(-> & Hb)|(-> & Hf & Hc)].
      + destruct (Nat.eqb_spec (hdn i b') (term i)) as [Eb|Nb].
        * assert (b' = []) as ->. { destruct b' as [|(x, v) b']; [reflexivity|]. exfalso. destruct (walk_next w1 _ i a' x v b' J1 Hi (put_same _ _ _)) as (_ & _ & _ & Dx). contradiction. }
          rewrite app_nil_r in J1. cbn [map] in Mc. cbn [andb]. destruct (Nat.eqb_spec (hdn j c') (term j)) as [Ec'|Nc']; cbn [negb].
          -- assert (c' = []) as ->. { destruct c' as [|(x, v) c']; [reflexivity|]. exfalso. destruct (walk_next w nd j d x v c' J Hj Ec) as (_ & _ & _ & Dx). contradiction. }
             cbn [length] in Elc. rewrite (proj2 (Nat.leb_le (length (nd j)) (length (free w (pool i))))) by lia. apply (Fin w1 a'); [exact J1|apply Nat.leb_le; lia|]. specialize (Mc 0). rewrite merged_nil_l in Mc. cbn [map firstn] in Mc. rewrite app_nil_r in Mc. rewrite Mc. f_equal. apply firstn_all2. rewrite map_length. lia.
          -- destruct (insert_from_ok i j Hi Hj D c' (fuel pool blocks j) w1 _ a' [] d [] J1) as (w2 & new & E2 & J2 & S2); [rewrite put_same, app_nil_r; reflexivity|rewrite put_other, app_nil_r by congruence; exact Ec|unfold fuel, cap in *; lia|]. rewrite app_nil_r in E2. cbn [map hd] in E2. rewrite E2. apply inv_put in J2. rewrite app_nil_r in J2.
             assert (map snd (a' ++ new) = merged lt (map snd (nd i)) (firstn (length (free w (pool i))) (map snd (nd j)))) as Em. { specialize (Mc (length (free w1 (pool i)))). rewrite merged_nil_l in Mc. rewrite map_app, S2, Mc. f_equal. f_equal. lia. }
             destruct (Nat.leb_spec (length c') (length (free w1 (pool i)))) as [Hl|Hl].
             ++ rewrite (proj2 (Nat.leb_le (length (nd j)) (length (free w (pool i))))) by lia. apply (Fin w2 (a' ++ new)); [exact J2|apply Nat.leb_le; lia|]. rewrite Em. f_equal. apply firstn_all2. rewrite map_length. lia.
             ++ rewrite (proj2 (Nat.leb_gt (length (nd j)) (length (free w (pool i))))) by lia. exists w2. split; [reflexivity|]. apply (Fin2 w2 (a' ++ new)); [exact J2|apply Nat.leb_gt; lia|exact Em].
        * cbn [andb]. assert (c' = []) as ->. { destruct Hb as [->|Hb]; [exfalso; now apply Nb|exact Hb]. } cbn [length] in Elc. rewrite (proj2 (Nat.leb_le (length (nd j)) (length (free w (pool i))))) by lia. apply (Fin w1 (a' ++ b')); [exact J1|apply Nat.leb_le; lia|]. specialize (Mc 0). cbn [firstn] in Mc. rewrite merged_nil_r in Mc. rewrite map_app, Mc. f_equal. apply firstn_all2. rewrite map_length. lia.
      + assert (length c' <> 0) as Hc0 by (destruct c'; [congruence|discriminate]). rewrite Hf in Fc. cbn [length] in Fc. rewrite (proj2 (Nat.leb_gt (length (nd j)) (length (free w (pool i))))) by lia. exists w1. split; [reflexivity|]. apply (Fin2 w1 (a' ++ b')); [exact J1|apply Nat.leb_gt; lia|]. specialize (Mc 0). cbn [firstn] in Mc. rewrite merged_nil_r in Mc. rewrite map_app, Mc. f_equal. f_equal. lia.
  Qed.
  Lemma good_move_from i j : good (LmoveFrom i j).
  Proof.
    intros w nd s J G (Hi & Hj). cbn [list_op l_step]. unfold move_container. rewrite (Nat.eqb_sym j i). destruct (Nat.eqb_spec i j) as [->|D]; cbn [negb]; [exists w; split; [reflexivity|now apply sim_id with nd]|].
    destruct (init_sim w nd s i J G Hi) as (w1 & -> & J1 & G1). rewrite (is_empty_ok _ _ _ J1 Hj). set (nd1 := put nd i []) in *. set (s1 := put s i []) in *. assert (nd1 j = nd j) as Ej by (unfold nd1; now rewrite put_other by congruence). assert (s1 j = s j) as Esj by (unfold s1; now rewrite put_other by congruence).
    assert (length (s j) = length (nd j)) as El by (rewrite (G j Hj); apply map_length). rewrite Ej. destruct (Nat.eqb_spec (pool i) (pool j)) as [Ep|Np].
    - destruct (nd j) as [|e l] eqn:E0; cbn [negb].
      + exists w1. split; [reflexivity|]. exists nd1. split; [exact J1|]. intros q Hq. unfold put. cbn [snd]. destruct (Nat.eqb_spec q j) as [->|]; [now rewrite Ej|]. destruct (Nat.eqb_spec q i) as [->|]; [|now apply G1]. rewrite (G j Hj), E0. unfold nd1. now rewrite put_same.
      + eexists. split; [reflexivity|]. pose proof (take_ok w1 nd1 i j J1 Hi Hj D Ep (put_same _ _ _)) as K. cbn zeta in K. eapply sim_id; [apply K; rewrite Ej; discriminate|]. apply agree_put; [|reflexivity]. apply agree_put; [exact G1|]. rewrite Ej, (G j Hj), E0. reflexivity.
    - assert (forall w2 new, Inv w2 (put nd1 i new) -> map snd new = firstn (length (free w1 (pool i))) (map snd (nd j)) -> exists w', match rs (length (free w1 (pool i))) (length (nd j)) with Rok => match initialise term pool shared blocks triv w2 j with Some w => Some (@Rok A, w) | None => None end | r => Some (r, w2) end = Some (fst (transfer n pool cap s1 i 0 j 0 (length (s j)) (s j)), w') /\ sim w' (snd (transfer n pool cap s1 i 0 j 0 (length (s j)) (s j)))) as Fin.
      { intros w2 new J2 E2. unfold transfer, add. rewrite El, (room_ok _ _ _ _ J1 G1). assert (ins 0 (firstn (length (free w1 (pool i))) (s j)) (s1 i) = map snd new) as Ei. { unfold ins, s1. rewrite put_same, E2, (G j Hj). cbn. now rewrite app_nil_r. } rewrite Ei.
        pose proof (agree_put s1 nd1 i new (map snd new) G1 eq_refl) as G2. destruct (length (nd j) <=? length (free w1 (pool i))).
        - destruct (init_sim w2 _ _ j J2 G2 Hj) as (w' & -> & J' & G'). exists w'. split; [reflexivity|]. cbn [snd]. eapply sim_id; [exact J'|]. rewrite cut_all; [exact G'|]. rewrite put_other by congruence. rewrite Esj. lia.
        - exists w2. split; [reflexivity|]. eapply sim_id; [exact J2|exact G2]. }
      pose proof (len_cap _ _ _ J Hj) as Lj. destruct (move_loop_ok i j Hi Hj D (nd j) (fuel pool blocks j) w1 nd1 [] [] J1) as (w2 & new & E2 & J2 & S2); [apply put_same|exact Ej|unfold fuel, cap in *; lia|]. rewrite (begin_j _ _ _ J1 Hj), Ej.
      destruct (nd j) as [|e l] eqn:E0.
      + cbn [negb]. destruct (Fin w1 []) as (w' & E' & S'); [now apply inv_same; [apply put_same|]|now rewrite firstn_nil|]. cbn [length Nat.leb] in E'.
        destruct (initialise_ok w1 nd1 j J1 Hj) as (w3 & E3 & J3). rewrite E3 in E'. injection E' as E' <-. exists w1. rewrite <- E'. split; [reflexivity|].
        exists nd1. split; [exact J1|]. unfold transfer, add. rewrite (G j Hj), E0. cbn [map length Nat.leb fst snd]. intros q Hq. unfold put at 1. destruct (Nat.eqb_spec q j) as [->|]; [rewrite put_other by congruence; rewrite Ej, Esj, (G j Hj), E0; reflexivity|]. unfold put. destruct (Nat.eqb_spec q i) as [->|]; [|now apply G1]. rewrite firstn_nil. unfold ins, s1, nd1. rewrite !put_same. reflexivity.
      + cbn [negb]. rewrite E2. pose proof (Fin w2 new J2 S2) as K. destruct (length (e :: l) <=? length (free w1 (pool i))); exact K.
  Qed.
  Theorem step_ok o w s : sim w s -> allowed n check o s -> exists w', op o w = Some (fst (step o s), w') /\ sim w' (snd (step o s)).
  Proof.
    intros (nd & J & G) Ha. destruct o.
    - now apply (good_push_front i v w nd). - now apply (good_push_back i v w nd). - now apply (good_pop_front i w nd). - now apply (good_pop_back i w nd). - now apply (good_insert i k v w nd).
    - destruct Ha as (Hi & Hk). destruct (values_ok w nd s i k (repeat v n0) J G Hi Hk) as (w' & E & S1). exists w'. cbn [list_op l_step]. rewrite E. split; [reflexivity|exact S1].
    - destruct Ha as (Hi & Hk). destruct (values_ok w nd s i k vs J G Hi Hk) as (w' & E & S1). exists w'. cbn [list_op l_step]. rewrite E. split; [reflexivity|exact S1].
    - now apply (good_erase i k w nd). - now apply (good_erase_range i a b w nd). - now apply (good_resize i n0 v w nd). - now apply (good_clear i w nd). - now apply (good_remove_if i p w nd). - now apply (good_unique i eq w nd). - now apply (good_reverse i w nd). - now apply (good_sort i lt w nd).
    - now apply (assign_good w nd s i vs). - now apply (assign_good w nd s i (repeat v n0)).
    - now apply (good_splice i k j w nd). - now apply (good_splice_one i k j m w nd). - now apply (good_splice_range i k j a b w nd). - now apply (good_splice_move i k j w nd). - now apply (good_splice_range_move i k j a b w nd). - now apply (good_merge i j lt w nd). - now apply (good_move_from i j w nd).
    - destruct Ha as (Hi & Hn). cbn [list_op l_step fst snd]. rewrite (begin_j _ _ _ J Hi). rewrite (G i Hi) in *. destruct (nd i) as [|(x, v) l] eqn:E; [exfalso; now apply Hn|]. cbn [map hd fst snd]. destruct (walk_next w nd i [] x v l J Hi E) as (_ & -> & _). exists w. split; [reflexivity|now apply sim_id with nd].
    - destruct Ha as (Hi & Hn). cbn [list_op l_step fst snd]. destruct (ring_hd _ _ _ (inv_ring _ _ _ J Hi)) as (_ & ->). rewrite (G i Hi) in *. destruct (nd i) as [|e l] eqn:E; [exfalso; now apply Hn|]. destruct (exists_last (l := e :: l)) as (l' & (x, v) & El); [discriminate|]. rewrite El, !map_app, rev_app_distr. cbn [map fst snd rev app]. rewrite last_last. rewrite <- E in El. destruct (walk_next w nd i l' x v [] J Hi El) as (_ & -> & _). exists w. split; [reflexivity|now apply sim_id with nd].
    - cbn [list_op l_step fst snd allowed] in *. rewrite (size_ok _ _ _ J Ha), (G i Ha), map_length. exists w. split; [reflexivity|now apply sim_id with nd].
    - cbn [list_op l_step fst snd allowed] in *. rewrite (is_empty_ok _ _ _ J Ha), (G i Ha). exists w. split; [destruct (nd i); reflexivity|now apply sim_id with nd].
    - cbn [list_op l_step fst snd allowed] in *. rewrite full_free, (room_ok _ _ _ _ J G). exists w. split; [destruct (free w (pool i)); reflexivity|now apply sim_id with nd].
    - cbn [list_op l_step fst snd allowed] in *. rewrite (room_ok _ _ _ _ J G). exists w. split; [reflexivity|now apply sim_id with nd].
    - cbn [list_op l_step fst snd allowed] in *. pose proof (len_cap _ _ _ J Ha). rewrite (begin_j _ _ _ J Ha), (walk_fwd w nd i J Ha (nd i) []) by (try reflexivity; unfold fuel, cap in *; lia). exists w. rewrite (G i Ha). split; [reflexivity|now apply sim_id with nd].
    - cbn [list_op l_step fst snd allowed] in *. pose proof (len_cap _ _ _ J Ha). destruct (ring_hd _ _ _ (inv_ring _ _ _ J Ha)) as (_ & ->). pose proof (walk_bwd w nd i J Ha (rev (nd i)) [] (fuel pool blocks i)) as K. rewrite rev_involutive, app_nil_r, rev_length in K.
      assert (last (map fst (nd i)) (term i) = hd (term i) (map fst (rev (nd i)))) as ->. { clear. destruct (nd i) as [|e l] using rev_ind; [reflexivity|]. rewrite rev_app_distr, map_app. cbn. apply last_last. }
      rewrite K by (try reflexivity; unfold fuel, cap in *; lia). exists w. rewrite (G i Ha), map_rev. split; [reflexivity|now apply sim_id with nd].
  Qed.
  Theorem steps_ok : forall os w s, sim w s -> all_allowed n pool cap check os s -> exists w', list_ops term pool shared blocks check triv os w = Some (fst (l_steps n pool cap os s), w') /\ sim w' (snd (l_steps n pool cap os s)).
  Proof.
    induction os as [|o os IH]; intros w s S0 Ha; [exists w; split; [reflexivity|exact S0]|]. destruct Ha as (H1 & H2). cbn [list_ops l_steps]. destruct (step_ok o w s S0 H1) as (w1 & -> & S1). destruct (l_step n pool cap o s) as (r, s1). cbn [fst snd] in *. destruct (IH w1 s1 S1 H2) as (w' & -> & S'). exists w'. destruct (l_steps n pool cap os s1). split; [reflexivity|exact S'].
  Qed.
End Proofs.
