(** * Proofs for forward_list.h *)
From Coq Require Import List Arith Bool Lia Permutation.
From Verif Require Import Util SortSpec ListSpec MergeSort FwdSpec FwdModel.
Import ListNotations.
(** the nodes of a one after the other behind p *)
Fixpoint sgm (n : nat -> nat) (p : nat) (a : list nat) : Prop := match a with [] => True | x :: r => n p = x /\ sgm n x r end.
Definition chain (n : nat -> nat) (p : nat) (a : list nat) : Prop := sgm n p a /\ n (last a p) = 0.
Lemma set_same {B} (f : nat -> B) a b : set f a b a = b. Proof. unfold set. now rewrite Nat.eqb_refl. Qed.
Lemma set_other {B} (f : nat -> B) a b x : x <> a -> set f a b x = f x. Proof. intros H. unfold set. destruct (Nat.eqb_spec x a); [contradiction|reflexivity]. Qed.
Lemma last_cons {B} (x p : B) a : last (x :: a) p = last a x. Proof. revert x. induction a as [|y a IH]; intros x; [reflexivity|]. cbn [last] in *. destruct a; [reflexivity|]. apply IH. Qed.
Lemma last_app {B} (a b : list B) p : last (a ++ b) p = last b (last a p).
Proof. revert p. induction a as [|x a IH]; intros p; [reflexivity|]. cbn [app]. now rewrite !last_cons. Qed.
Lemma sgm_app n a : forall p b, sgm n p (a ++ b) <-> sgm n p a /\ sgm n (last a p) b.
Proof. induction a as [|x a IH]; intros p b; [cbn; tauto|]. cbn [app sgm]. rewrite IH, last_cons. tauto. Qed.
Lemma chain_app n a p b : chain n p (a ++ b) <-> sgm n p a /\ chain n (last a p) b.
Proof. unfold chain. rewrite sgm_app, last_app. tauto. Qed.
Lemma chain_cons n p x b : chain n p (x :: b) <-> n p = x /\ chain n x b.
Proof. unfold chain. cbn [sgm]. rewrite last_cons. tauto. Qed.
Lemma chain_nil n p : chain n p [] <-> n p = 0. Proof. unfold chain. cbn. tauto. Qed.
Lemma last_in (a : list nat) p : In (last a p) (p :: a).
Proof. revert p. induction a as [|x a IH]; intros p; [now left|]. rewrite last_cons. right. apply IH. Qed.
Lemma sgm_out n x v p a : (forall y, In y (p :: a) -> y <> last a p -> y <> x) -> NoDup (p :: a) -> sgm n p a -> sgm (set n x v) p a.
Proof.
  revert p. induction a as [|y a IH]; intros p H N S; [exact I|]. destruct S as (S1 & S2). rewrite last_cons in H. apply NoDup_cons_iff in N as (N1 & N2). split.
  - rewrite set_other; [exact S1|]. apply H; [now left|]. intros E. apply N1. rewrite E. apply last_in.
  - apply IH; [|exact N2|exact S2]. intros z Hz. apply H. now right.
Qed.
Lemma sgm_out' n x v p a : ~ In x (p :: a) -> NoDup (p :: a) -> sgm n p a -> sgm (set n x v) p a.
Proof. intros H. apply sgm_out. intros y Hy _ ->. contradiction. Qed.
Lemma sgm_last n v p a : NoDup (p :: a) -> sgm n p a -> sgm (set n (last a p) v) p a.
Proof. intros N. apply sgm_out; [|exact N]. intros y _ H. exact H. Qed.
Lemma chain_out n x v p a : ~ In x (p :: a) -> NoDup (p :: a) -> chain n p a -> chain (set n x v) p a.
Proof. intros H N (S & E). split; [now apply sgm_out'|]. rewrite set_other; [exact E|]. intros <-. apply H, last_in. Qed.
Lemma chain_ext n n' p a : (forall y, In y (p :: a) -> n' y = n y) -> chain n p a -> chain n' p a.
Proof.
  revert p. induction a as [|x a IH]; intros p H C.
  - rewrite chain_nil in *. rewrite H by (now left). exact C.
  - rewrite chain_cons in *. destruct C as (C1 & C2). split; [rewrite H by (now left); exact C1|]. apply IH; [intros y Hy; apply H; now right|exact C2].
Qed.
Lemma sgm_ext n n' p a : (forall y, In y (p :: a) -> n' y = n y) -> sgm n p a -> sgm n' p a.
Proof.
  revert p. induction a as [|x a IH]; intros p H C; [exact I|]. destruct C as (C1 & C2). split; [rewrite H by (now left); exact C1|]. apply IH; [intros y Hy; apply H; now right|exact C2].
Qed.
Lemma skipn_map' {B C} (f : B -> C) k l : skipn k (map f l) = map f (skipn k l). Proof. revert k. induction l as [|x l IH]; intros [|k]; try reflexivity. apply IH. Qed.
Section Proofs.
  Context {A : Type}.
  Variables (t : nat) (blocks ext : list nat) (check shared triv : bool).
  Hypothesis Hnd : NoDup blocks.
  Hypothesis H0 : ~ In 0 blocks.
  Hypothesis Htb : ~ In t blocks.
  Hypothesis Ht0 : t <> 0.
  Hypothesis Hext : shared = false -> ext = [].
  Local Notation world := (fworld A).
  Local Notation nodes := (list (nat * A)).
  Local Notation ad := (map (@fst nat A)).
  (** the nodes of the list own their values, the others are free or used by others *)
  Definition Own (w : world) (l : nodes) : Prop := (forall x v, In (x, v) l -> vl w x = Some v) /\ Permutation (fr w ++ ad l ++ ext) blocks.
  Definition Inv (w : world) (l : nodes) : Prop := Own w l /\ chain (nx w) t (ad l).
  (** what belongs to others stays *)
  Definition keeps (w w' : world) : Prop := forall y, y <> t -> In y ext \/ ~ In y blocks -> nx w' y = nx w y /\ vl w' y = vl w y.
  Lemma keeps_refl w : keeps w w. Proof using. intros y _ _. now split. Qed.
  Lemma keeps_trans w1 w2 w3 : keeps w1 w2 -> keeps w2 w3 -> keeps w1 w3.
  Proof using. intros K1 K2 y Hy He. destruct (K1 y Hy He) as (E1 & E2), (K2 y Hy He) as (E3 & E4). split; congruence. Qed.
  Lemma own_nodup w l : Own w l -> NoDup (fr w ++ ad l ++ ext).
  Proof using Hnd. intros (_ & P). eapply Permutation_NoDup; [symmetry; exact P|exact Hnd]. Qed.
  Lemma own_nodes w l : Own w l -> NoDup (t :: ad l) /\ ~ In 0 (ad l) /\ (forall x, In x (ad l) -> In x blocks /\ ~ In x ext /\ ~ In x (fr w)).
  Proof using Hnd H0 Htb Ht0.
    intros O. pose proof (own_nodup w l O) as N. destruct O as (_ & P). apply NoDup_app_iff in N as (N1 & N2 & N3). apply NoDup_app_iff in N2 as (N2 & N4 & N5).
    assert (forall x, In x (ad l) -> In x blocks) as Hb by (intros x I; eapply Permutation_in; [exact P|]; rewrite !in_app_iff; tauto). conj.
    - constructor; [|exact N2]. intros I. exact (Htb (Hb _ I)).
    - intros I. exact (H0 (Hb _ I)).
    - intros x I. conj; [now apply Hb|now apply N5|]. intros J. apply (N3 x J). rewrite in_app_iff. now left.
  Qed.
  Lemma own_perm w l l' : Permutation l l' -> Own w l -> Own w l'.
  Proof using.
    intros P (V & Q). split; [intros x v I; apply V; eapply Permutation_in; [symmetry; exact P|exact I]|]. rewrite <- Q. apply Permutation_app_head, Permutation_app_tail, Permutation_map. now symmetry.
  Qed.
  Lemma own_join w l a b : Own (join w a b) l <-> Own w l. Proof using. reflexivity. Qed.
  Lemma keeps_join w a b : a = t \/ (In a blocks /\ ~ In a ext) -> keeps w (join w a b).
  Proof using. intros H y Hy He. split; [|reflexivity]. apply set_other. intros ->. destruct H as [H|(H1 & H2)]; [contradiction|]. destruct He; contradiction. Qed.
  Lemma keeps_join_own w l a b w2 : Own w l -> In a (t :: ad l) -> keeps w2 (join w2 a b).
  Proof using Hnd H0 Htb Ht0. intros O I. apply keeps_join. destruct I as [<-|I]; [now left|]. right. destruct (own_nodes w l O) as (_ & _ & K). destruct (K a I) as (K1 & K2 & _). now split. Qed.
  Lemma alloc_ok w l v x r : Own w l -> fr w = x :: r -> exists w', alloc w v = Some (x, w') /\ nx w' = nx w /\ fr w' = r /\ Own w' ((x, v) :: l) /\ keeps w w' /\ ~ In x (t :: ad l) /\ x <> 0.
  Proof using Hnd H0 Htb Ht0.
    intros O F. pose proof (own_nodup w l O) as N. destruct O as (V & P). unfold alloc. rewrite F in *. cbn [app] in *. inversion N as [|? ? N1 N2]; subst.
    assert (In x blocks) as Hx by (eapply Permutation_in; [exact P|now left]). eexists. conj; [reflexivity|reflexivity|reflexivity|split| | |].
    - intros y u [I|I]; [injection I as <- <-; cbn; now rewrite set_same|]. cbn. rewrite set_other; [now apply V|]. intros ->. apply N1. rewrite !in_app_iff. right. left. now apply in_map with (f := fst) in I.
    - cbn [fr map fst app]. rewrite <- P. symmetry. apply Permutation_middle.
    - intros y Hy He. split; [reflexivity|]. cbn. apply set_other. intros ->. destruct He as [He|He]; [|contradiction]. apply N1. rewrite !in_app_iff. tauto.
    - intros [->|I]; [contradiction|]. apply N1. rewrite !in_app_iff. tauto.
    - intros ->. contradiction.
  Qed.
  Lemma destroy_ok w l x v : Own w ((x, v) :: l) -> exists w', destroy w x = Some w' /\ (forall y, y <> x -> nx w' y = nx w y) /\ fr w' = x :: fr w /\ Own w' l /\ keeps w w'.
  Proof using Hnd H0 Htb Ht0.
    intros O. destruct (own_nodes w _ O) as (N & _ & K). cbn [map fst] in *. destruct (K x (or_introl eq_refl)) as (K1 & K2 & K3). destruct O as (V & P). unfold destroy. rewrite (V x v) by (now left). eexists. conj; [reflexivity| |reflexivity|split|].
    - intros y Hy. cbn. now apply set_other.
    - intros y u I. cbn. rewrite set_other; [apply V; now right|]. intros ->. inversion N as [|? ? _ N2]; subst. inversion N2 as [|? ? N3 _]; subst. apply N3. now apply in_map with (f := fst) in I.
    - cbn [fr map fst app] in *. rewrite <- P. apply Permutation_middle.
    - intros y Hy He. cbn. rewrite !set_other; [now split| |]; intros ->; destruct He; contradiction.
  Qed.
  Definition adr (a : nodes) : nat := last (ad a) t.
  Lemma adr_in a b : In (adr a) (t :: ad (a ++ b)).
  Proof using. unfold adr. pose proof (last_in (ad a) t) as [E|I]; [rewrite <- E; now left|right]. rewrite map_app, in_app_iff. now left. Qed.
  Lemma adr_snoc a x v : adr (a ++ [(x, v)]) = x. Proof using. unfold adr. rewrite map_app. cbn. now rewrite last_app. Qed.
  (** links *)
  Lemma chain_insert n a x b : NoDup (t :: a ++ b) -> ~ In x (t :: a ++ b) -> chain n t (a ++ b) -> chain (set (set n x (n (last a t))) (last a t) x) t (a ++ x :: b).
  Proof using.
    intros N Hx C. assert (last a t <> x) as Dx. { intros E. apply Hx. rewrite <- E. pose proof (last_in a t) as [E2|I]; [rewrite <- E2; now left|right; rewrite in_app_iff; now left]. }
    rewrite app_comm_cons in N, Hx. apply NoDup_app_iff in N as (N1 & N2 & N3).
    apply chain_app in C as (C1 & C2). apply chain_app. split; [|apply chain_cons; split].
    - apply sgm_last; [exact N1|]. apply sgm_out'; [|exact N1|exact C1]. intros I. apply Hx. rewrite in_app_iff. now left.
    - apply set_same.
    - assert (~ In (last a t) b) as Nb by (intros I; apply (N3 (last a t)); [apply last_in|exact I]). assert (~ In x b) as Nx by (intros I; apply Hx; rewrite in_app_iff; now right).
      assert (chain (set n x (n (last a t))) x b) as C3.
      { destruct b as [|y b]; [rewrite chain_nil in *; rewrite set_same; exact C2|]. rewrite chain_cons in *. destruct C2 as (C2 & C3). split; [now rewrite set_same|]. now apply chain_out. }
      apply chain_out; [|now constructor|exact C3]. intros [E|I]; [now apply Dx|contradiction].
  Qed.
  Lemma chain_remove n a m b : NoDup (t :: a ++ m ++ b) -> chain n t (a ++ m ++ b) -> chain (set n (last a t) (hd 0 b)) t (a ++ b) /\ sgm n (last a t) m /\ n (last m (last a t)) = hd 0 b.
  Proof using.
    intros N C. apply chain_app in C as (C1 & C2). apply chain_app in C2 as (C2 & C3).
    assert (NoDup (t :: a)) as N1 by (rewrite app_comm_cons in N; apply NoDup_app_iff in N; apply N).
    assert (NoDup b /\ ~ In (last a t) b) as (N2 & N3).
    { rewrite app_assoc, app_comm_cons in N. apply NoDup_app_iff in N as (_ & N2 & N3). split; [exact N2|]. apply N3. pose proof (last_in a t) as [E|I]; [rewrite <- E; now left|right; rewrite in_app_iff; now left]. }
    conj; [|exact C2|destruct b as [|y b]; [now apply chain_nil in C3|now apply chain_cons in C3]].
    apply chain_app. split; [now apply sgm_last|]. destruct b as [|y b]; [rewrite chain_nil; apply set_same|]. apply chain_cons. split; [apply set_same|]. apply chain_cons in C3 as (_ & C3). now apply chain_out.
  Qed.
  (** ** the elementary steps *)
  Lemma nodup_t w l : Own w l -> NoDup (t :: ad l). Proof using Hnd H0 Htb Ht0. intros O. apply (own_nodes w l O). Qed.
  Lemma insert_ok w a b v x r : Inv w (a ++ b) -> fr w = x :: r ->
    exists w1, alloc w v = Some (x, w1) /\ Inv (insert_node_after w1 (adr a) x) (a ++ (x, v) :: b) /\ fr (insert_node_after w1 (adr a) x) = r /\ keeps w (insert_node_after w1 (adr a) x) /\ nx (insert_node_after w1 (adr a) x) (adr a) = x /\ x <> 0.
  Proof using Hnd H0 Htb Ht0.
    intros (O & C) F. destruct (alloc_ok w _ v x r O F) as (w1 & E1 & E2 & E3 & O1 & K1 & Nx & X0). exists w1. conj; [exact E1|split|exact E3| | |exact X0].
    - apply own_perm with (l := (x, v) :: a ++ b); [apply Permutation_middle|]. exact O1.
    - unfold insert_node_after, join. cbn [nx]. rewrite E2, map_app in *. cbn [map fst]. apply chain_insert; [rewrite <- map_app; now apply nodup_t with w|exact Nx|exact C].
    - unfold insert_node_after. eapply keeps_trans; [exact K1|]. eapply keeps_trans; eapply keeps_join_own; try exact O1; [right; now left|].
      pose proof (adr_in a b) as [E|I]; [rewrite <- E; now left|right; now right].
    - unfold insert_node_after, join. cbn [nx]. apply set_same.
  Qed.
  Lemma remove_ok w a x v b : Inv w (a ++ (x, v) :: b) ->
    exists w', remove_node_after w (adr a) = Some w' /\ Inv w' (a ++ b) /\ fr w' = x :: fr w /\ keeps w w' /\ nx w (adr a) = x /\ nx w x = hd 0 (ad b) /\ x <> 0.
  Proof using Hnd H0 Htb Ht0.
    intros (O & C). destruct (own_nodes w _ O) as (N & Z & _). rewrite map_app in N, C, Z. cbn [map fst] in N, C, Z. change (x :: ad b) with ([x] ++ ad b) in *.
    destruct (chain_remove (nx w) (ad a) [x] (ad b) N C) as (C1 & (C2 & _) & C3). cbn [last] in C3. fold (adr a) in *.
    assert (x <> 0) as X0 by (intros ->; apply Z; rewrite in_app_iff; right; now left). unfold remove_node_after. cbv zeta. rewrite C2, (proj2 (Nat.eqb_neq _ _) X0), C3.
    assert (Own (join w (adr a) (hd 0 (ad b))) ((x, v) :: a ++ b)) as O1 by (apply own_join; apply own_perm with (l := a ++ (x, v) :: b); [symmetry; apply Permutation_middle|exact O]).
    destruct (destroy_ok _ _ x v O1) as (w' & E1 & E2 & E3 & O2 & K2). exists w'. conj; [exact E1|split; [exact O2|]|exact E3| |reflexivity|reflexivity|exact X0].
    - rewrite map_app. eapply chain_ext; [|exact C1]. intros y Hy. rewrite E2; [reflexivity|]. intros ->. cbn [app] in N. rewrite app_comm_cons in N. apply NoDup_remove_2 in N. apply N. exact Hy.
    - eapply keeps_trans; [|exact K2]. eapply keeps_join_own; [exact O|]. apply adr_in.
  Qed.
  Lemma remove_end w a : Inv w a -> remove_node_after w (adr a) = Some w /\ nx w (adr a) = 0.
  Proof using. intros (_ & _ & C). unfold remove_node_after, adr. now rewrite C. Qed.
  (** destroying detached nodes *)
  Fixpoint mpath (n : nat -> nat) (m : list nat) (z : nat) : Prop := match m with [] => True | x :: r => n x = hd z r /\ mpath n r z end.
  Lemma destroy_loop_ok z : forall m l w f nxt, Own w (m ++ l) -> mpath (nx w) (ad m) z -> ~ In z (ad m) -> length m <= f ->
    exists w', destroy_loop f w (hd z (ad m)) z nxt = Some (match m with [] => nxt | _ => z end, w') /\ Own w' l /\ keeps w w' /\ (forall y, ~ In y (ad m) -> nx w' y = nx w y) /\ length (fr w') = length m + length (fr w).
  Proof using Hnd H0 Htb Ht0.
    induction m as [|(x, v) m IH]; intros l w f nxt O P Z F.
    - exists w. destruct f; cbn [destroy_loop map hd]; rewrite Nat.eqb_refl; conj; try reflexivity; try exact O; apply keeps_refl.
    - destruct f as [|f]; [cbn in F; lia|]. cbn [destroy_loop map fst hd] in *. assert (x <> z) as Xz by (intros ->; apply Z; now left). rewrite (proj2 (Nat.eqb_neq _ _) Xz). destruct P as (P1 & P2). rewrite P1.
      destruct (own_nodes w _ O) as (N & _ & _). cbn [app map fst] in *. inversion N as [|? ? _ N2]; subst. inversion N2 as [|? ? N3 _]; subst. rewrite map_app, in_app_iff in N3.
      destruct (destroy_ok w _ x v O) as (w1 & -> & E2 & E3 & O1 & K1). destruct (IH l w1 f (hd z (ad m)) O1) as (w' & E' & O' & K' & F' & L'); [| |cbn in F; lia|].
      + clear - P2 E2 N3. induction m as [|(y, u) m IH]; [exact I|]. cbn [map fst mpath] in *. destruct P2 as (P2 & P3). split; [rewrite E2; [exact P2|intros ->; apply N3; left; now left]|]. apply IH; [exact P3|]. intros [C|C]; apply N3; [left; now right|now right].
      + intros I. apply Z. now right.
      + exists w'. conj; [rewrite E'; destruct m; reflexivity|exact O'|exact (keeps_trans _ _ _ K1 K')| |rewrite L', E3; cbn; lia].
        intros y Hy. rewrite F', E2; [reflexivity|intros ->; apply Hy; now left|intros I; apply Hy; now right].
  Qed.
  Lemma sgm_mpath n p m z : n (last m p) = z -> sgm n p m -> mpath n m z /\ n p = hd z m.
  Proof using.
    revert p. induction m as [|x m IH]; intros p E S; [now split|]. destruct S as (S1 & S2). rewrite last_cons in E. destruct (IH x E S2) as (I1 & I2). cbn [mpath hd]. now conj.
  Qed.
  Lemma initialise_ok w l : Inv w l -> exists w', initialise t blocks shared triv w = Some w' /\ Inv w' [] /\ keeps w w'.
  Proof using Hnd H0 Htb Ht0 Hext.
    intros (O & C). unfold initialise, is_empty. destruct l as [|(x, v) l1] eqn:El.
    - apply chain_nil in C. rewrite C. cbn [negb Nat.eqb]. eexists. conj; [reflexivity|split; [exact O|apply chain_nil; apply set_same]|]. apply keeps_join. now left.
    - rewrite <- El in *. assert (nx w t = x /\ x <> 0) as (E & X0). { destruct (own_nodes w _ O) as (_ & Z & _). rewrite El in C, Z. apply chain_cons in C. split; [apply C|]. intros ->. apply Z. now left. }
      rewrite E, (proj2 (Nat.eqb_neq _ _) X0). cbn [negb]. destruct (triv && negb shared) eqn:Et.
      + apply andb_true_iff in Et as (_ & Es). apply negb_true_iff in Es. pose proof (Hext Es) as Ee. eexists. conj; [reflexivity|split; [|apply chain_nil; apply set_same]|].
        * split; [intros y u []|]. cbn. rewrite Ee. now rewrite app_nil_r.
        * intros y Hy He. rewrite Ee in He. destruct He as [[]|He]. cbn. split; [now apply set_other|]. destruct (existsb (Nat.eqb y) blocks) eqn:Eb; [|reflexivity]. apply existsb_exists in Eb as (z & Iz & Ez). apply Nat.eqb_eq in Ez as ->. contradiction.
      + destruct C as (C1 & C2). destruct (sgm_mpath _ _ _ _ C2 C1) as (P1 & P2). rewrite E in P2. destruct (own_nodes w _ O) as (_ & Z & Kk).
        destruct (destroy_loop_ok 0 l [] w (fuel blocks) 0) as (w' & E' & O' & K' & _ & _); [now rewrite app_nil_r|exact P1|exact Z| |].
        { unfold fuel. assert (length l <= length blocks); [|lia]. rewrite <- (map_length fst l). apply NoDup_incl_length; [|intros y Hy; apply Kk, Hy]. pose proof (nodup_t w l O) as N. now inversion N. }
        rewrite <- P2 in E'. rewrite E'. eexists. conj; [reflexivity|split; [exact O'|apply chain_nil; apply set_same]|]. eapply keeps_trans; [exact K'|]. apply keeps_join. now left.
  Qed.
  (** ** walking *)
  Lemma pos_from_ok (w : world) : forall a p, sgm (nx w) p a -> p <> 0 -> ~ In 0 a -> pos_from w p (length a) = Some (last a p).
  Proof using.
    induction a as [|x a IH]; intros p S P Z; [reflexivity|]. destruct S as (S1 & S2). cbn [pos_from length]. rewrite (proj2 (Nat.eqb_neq _ _) P), S1, last_cons. apply IH; [exact S2|intros ->; apply Z; now left|intros I; apply Z; now right].
  Qed.
  Lemma pos_ok w a b : Inv w (a ++ b) -> pos t w (length a) = Some (adr a).
  Proof using Hnd H0 Htb Ht0.
    intros (O & C). destruct (own_nodes w _ O) as (_ & Z & _). rewrite map_app in C, Z. apply chain_app in C as (C & _). unfold pos, adr. rewrite <- (map_length fst a). apply pos_from_ok; [exact C|exact Ht0|]. intros I. apply Z. rewrite in_app_iff. now left.
  Qed.
  Lemma pos_end w l : Inv w l -> pos t w (S (length l)) = Some 0.
  Proof using Hnd H0 Htb Ht0.
    intros (O & C). destruct (own_nodes w _ O) as (_ & Z & _). unfold pos. rewrite <- (map_length fst l). destruct C as (C1 & C2).
    assert (forall a p, sgm (nx w) p a -> nx w (last a p) = 0 -> p <> 0 -> ~ In 0 a -> pos_from w p (S (length a)) = Some 0) as K; [|exact (K _ _ C1 C2 Ht0 Z)].
    induction a as [|x a IH]; intros p S E P Za; cbn [pos_from length]; rewrite (proj2 (Nat.eqb_neq _ _) P); [cbn [last] in E; now rewrite E|]. destruct S as (S1 & S2). rewrite S1. rewrite last_cons in E. apply IH; [exact S2|exact E|intros ->; apply Za; now left|intros I; apply Za; now right].
  Qed.
  Lemma adr_nz w a b : Inv w (a ++ b) -> adr a <> 0.
  Proof using Hnd H0 Htb Ht0. intros (O & _) E. destruct (own_nodes w _ O) as (_ & Z & _). pose proof (adr_in a b) as [K|K]; [congruence|]. rewrite E in K. contradiction. Qed.
  Lemma nx_adr w a b : Inv w (a ++ b) -> nx w (adr a) = hd 0 (ad b).
  Proof using. intros (_ & C). rewrite map_app in C. apply chain_app in C as (_ & C). fold (adr a) in C. destruct b as [|(x, v) b]; [now apply chain_nil in C|cbn [map fst hd]; now apply chain_cons in C]. Qed.
  Lemma own_val w l x v : Own w l -> In (x, v) l -> vl w x = Some v. Proof using. intros (V & _). apply V. Qed.
  Lemma own_len w l : Own w l -> length l <= length blocks /\ length (fr w) = length blocks - length ext - length l /\ length ext + length l <= length blocks.
  Proof using. clear Ht0. intros (_ & P). apply Permutation_length in P. rewrite !app_length, map_length in P. lia. Qed.
  Lemma deref_hd w a b : Inv w (a ++ b) -> deref w (hd 0 (ad b)) = Some (nth_error (map snd b) 0).
  Proof using Hnd H0 Htb Ht0.
    intros (O & _). destruct (own_nodes w _ O) as (_ & Z & _). destruct b as [|(x, v) b]; [reflexivity|]. cbn [map fst hd snd nth_error]. unfold deref. assert (x <> 0) as X0 by (intros ->; apply Z; rewrite map_app, in_app_iff; right; now left).
    rewrite (proj2 (Nat.eqb_neq _ _) X0), (own_val _ _ x v O); [reflexivity|]. rewrite in_app_iff. right. now left.
  Qed.
  Lemma count_ok (w : world) : forall l p f, chain (nx w) p l -> ~ In 0 l -> length l <= f -> count_loop f w (nx w p) = Some (length l).
  Proof using.
    clear Ht0.
    induction l as [|x l IH]; intros p f C Z F.
    - apply chain_nil in C. rewrite C. destruct f; reflexivity.
    - apply chain_cons in C as (C1 & C2). rewrite C1. destruct f as [|f]; [cbn in F; lia|]. cbn [count_loop]. assert (x <> 0) as X0 by (intros ->; apply Z; now left). rewrite (proj2 (Nat.eqb_neq _ _) X0), (IH x f C2); [reflexivity|intros I; apply Z; now right|cbn in F; lia].
  Qed.
  Lemma size_ok w l : Inv w l -> size t blocks shared w = Some (length l).
  Proof using Hnd H0 Htb Ht0 Hext.
    intros (O & C). unfold size. pose proof (own_len w l O) as (L1 & L2 & L3). destruct shared eqn:Es.
    - destruct (own_nodes w _ O) as (_ & Z & _). rewrite <- (map_length fst l). apply count_ok; [exact C|exact Z|]. unfold fuel. rewrite map_length. lia.
    - rewrite (Hext eq_refl) in L2, L3. cbn in L2, L3. f_equal. lia.
  Qed.
  Lemma walk_ok (w : world) : forall (l : nodes) p f, chain (nx w) p (ad l) -> ~ In 0 (ad l) -> (forall x v, In (x, v) l -> vl w x = Some v) -> length l <= f -> walk f w (nx w p) = Some (map snd l).
  Proof using.
    clear Ht0.
    induction l as [|(x, v) l IH]; intros p f C Z V F.
    - apply chain_nil in C. rewrite C. destruct f; reflexivity.
    - apply chain_cons in C as (C1 & C2). cbn [map fst] in *. rewrite C1. destruct f as [|f]; [cbn in F; lia|]. cbn [walk]. assert (x <> 0) as X0 by (intros ->; apply Z; now left). rewrite (proj2 (Nat.eqb_neq _ _) X0), (V x v) by (now left).
      rewrite (IH x f C2); [reflexivity|intros I; apply Z; now right|intros y u I; apply V; now right|cbn in F; lia].
  Qed.
  Lemma is_full_room w l : Own w l -> is_full w = Nat.eqb (room (length blocks) (length ext) (map snd l)) 0.
  Proof using.
    clear Ht0.
    intros O. pose proof (own_len w l O) as (_ & L & _). unfold is_full, room. rewrite map_length, <- L. destruct (fr w); reflexivity.
  Qed.
  (** ** one operation *)
  Definition stepOK (o : fop A) : Prop := forall w l, Inv w l -> allowed o (map snd l) ->
    exists w' l', fwd_op t blocks check shared triv o w = Some (fst (f_step (length blocks) (length ext) check o (map snd l)), w') /\
      Inv w' l' /\ map snd l' = snd (f_step (length blocks) (length ext) check o (map snd l)) /\ keeps w w'.
  Lemma room_fr w l : Own w l -> room (length blocks) (length ext) (map snd l) = length (fr w).
  Proof using. clear Ht0. intros O. pose proof (own_len w l O) as (_ & L & _). unfold room. rewrite map_length. lia. Qed.
  Lemma room0 w l : Own w l -> (room (length blocks) (length ext) (map snd l) =? 0) = is_full w.
  Proof using. intros O. now rewrite (is_full_room w l O). Qed.
  Lemma full_cases (w : world) : (is_full w = true /\ fr w = []) \/ (is_full w = false /\ exists x r, fr w = x :: r).
  Proof using. unfold is_full. destruct (fr w) as [|x r]; [left; now split|right; split; [reflexivity|now exists x, r]]. Qed.
  Lemma split_at (l : nodes) k : k <= length l -> exists a b, l = a ++ b /\ length a = k /\ firstn k (map snd l) = map snd a /\ skipn k (map snd l) = map snd b.
  Proof using. clear Ht0. intros H. exists (firstn k l), (skipn k l). conj; [now rewrite firstn_skipn|rewrite firstn_length; lia|apply firstn_map|apply skipn_map']. Qed.
  Lemma push_front_step v : stepOK (FpushFront v).
  Proof using Hnd H0 Htb Ht0.
    intros w l J _. cbn [f_step fwd_op]. rewrite (room0 w l (proj1 J)). unfold push_front. destruct (full_cases w) as [(-> & F)|(-> & x & r & F)].
    - rewrite andb_true_r. destruct check; [exists w, l; conj; try reflexivity; [exact J|apply keeps_refl]|]. unfold alloc. rewrite F. exists w, l. conj; try reflexivity; [exact J|apply keeps_refl].
    - rewrite andb_false_r. destruct (insert_ok w [] l v x r J F) as (w1 & -> & J1 & _ & K1 & _). change (adr []) with t in *. eexists _, _. conj; [reflexivity|exact J1|reflexivity|exact K1].
  Qed.
  Lemma pop_front_step : stepOK FpopFront.
  Proof using Hnd H0 Htb Ht0.
    intros w l J _. cbn [f_step fwd_op]. unfold pop_front, is_empty. destruct l as [|(x, v) l].
    - destruct (remove_end w [] J) as (E1 & E2). change (adr []) with t in *. rewrite E1, E2. cbn [Nat.eqb]. rewrite andb_true_r. destruct check; exists w, []; (conj; [reflexivity|exact J|reflexivity|apply keeps_refl]).
    - destruct (remove_ok w [] x v l J) as (w' & E1 & J1 & _ & K1 & E2 & _ & X0). change (adr []) with t in *. rewrite E2, (proj2 (Nat.eqb_neq _ _) X0), andb_false_r, E1. exists w', l. conj; [reflexivity|exact J1|reflexivity|exact K1].
  Qed.
  Lemma insert_after_step k v : stepOK (FinsertAfter k v).
  Proof using Hnd H0 Htb Ht0.
    intros w l J Ha. cbn [allowed] in Ha. rewrite map_length in Ha. cbn [f_step fwd_op]. rewrite (room0 w l (proj1 J)). destruct (split_at l k Ha) as (a & b & -> & <- & Ea & Eb). rewrite (pos_ok w a b J). unfold insert_after. destruct (full_cases w) as [(-> & F)|(-> & x & r & F)].
    - exists w, (a ++ b). conj; [reflexivity|exact J|reflexivity|apply keeps_refl].
    - destruct (insert_ok w a b v x r J F) as (w1 & -> & J1 & _ & K1 & _ & X0). unfold at1, deref. rewrite (proj2 (Nat.eqb_neq _ _) X0). rewrite (own_val _ _ x v (proj1 J1)) by (rewrite in_app_iff; right; now left). eexists _, _. conj; [reflexivity|exact J1| |exact K1]. cbn [snd]. unfold ins. rewrite Ea, Eb, map_app. reflexivity.
  Qed.
  Lemma firstn_repeat {B} (v : B) k n : firstn k (repeat v n) = repeat v (Nat.min k n).
  Proof using. revert n. induction k as [|k IH]; intros [|n]; try reflexivity. cbn. now rewrite IH. Qed.
  Lemma insert_n_ok v : forall n w a b, Inv w (a ++ b) -> exists m, Inv (insert_n_loop n w (adr a) v) (a ++ m ++ b) /\ map snd m = repeat v (Nat.min (length (fr w)) n) /\ keeps w (insert_n_loop n w (adr a) v).
  Proof using Hnd H0 Htb Ht0.
    induction n as [|n IH]; intros w a b J; cbn [insert_n_loop].
    - exists []. rewrite Nat.min_0_r. conj; [exact J|reflexivity|apply keeps_refl].
    - destruct (full_cases w) as [(-> & F)|(-> & x & r & F)].
      + exists []. rewrite F. conj; [exact J|reflexivity|apply keeps_refl].
      + destruct (insert_ok w a b v x r J F) as (w1 & -> & J1 & F1 & K1 & _). destruct (IH _ _ _ J1) as (m & J2 & E2 & K2). exists (m ++ [(x, v)]). rewrite F1 in E2. rewrite F. conj; [now rewrite <- app_assoc| |exact (keeps_trans _ _ _ K1 K2)].
        rewrite map_app, E2. cbn [map snd length Nat.min]. rewrite <- repeat_cons. reflexivity.
  Qed.
  Lemma deref_adr w a b : Inv w (a ++ b) -> a <> [] -> deref w (adr a) = Some (nth_error (map snd (a ++ b)) (length a - 1)).
  Proof using Hnd H0 Htb Ht0.
    intros J Na. pose proof (adr_nz w a b J) as Z. destruct (exists_last Na) as (c & (x, v) & ->). unfold deref. rewrite (proj2 (Nat.eqb_neq _ _) Z). rewrite adr_snoc in *. rewrite (own_val _ _ x v (proj1 J)) by (rewrite !in_app_iff; left; right; now left).
    rewrite app_length, map_app, map_app. cbn [length map snd]. replace (length c + 1 - 1) with (length (map (@snd nat A) c)) by (rewrite map_length; lia). rewrite <- app_assoc, nth_error_app2, Nat.sub_diag by lia. reflexivity.
  Qed.
  Lemma insert_after_n_step k n v : stepOK (FinsertAfterN k n v).
  Proof using Hnd H0 Htb Ht0.
    intros w l J Ha. cbn [allowed] in Ha. rewrite map_length in Ha. destruct Ha as (Ha & Hn). cbn [f_step fwd_op]. rewrite (room0 w l (proj1 J)). destruct (split_at l k Ha) as (a & b & El & La & Ea & Eb). subst l k. rewrite (pos_ok w a b J). unfold insert_after_n.
    pose proof (room_fr w _ (proj1 J)) as R. destruct (full_cases w) as [(-> & F)|(-> & x & r & F)].
    - exists w, (a ++ b). conj; [reflexivity|exact J|reflexivity|apply keeps_refl].
    - destruct (insert_n_ok v n w a b J) as (m & J1 & E1 & K1).
      assert (f_add (length blocks) (length ext) (length a) (repeat v n) (map snd (a ++ b)) = map snd (a ++ m ++ b)) as Ef.
      { unfold f_add, ins. rewrite R, Ea, Eb, firstn_repeat, <- E1, !map_app. reflexivity. }
      cbv zeta. rewrite Ef. destruct (Nat.ltb_spec 0 n) as [Hp|Hp].
      + rewrite (nx_adr _ a (m ++ b) J1). unfold at1. rewrite (deref_hd _ a (m ++ b) J1). eexists _, _. conj; [|exact J1|reflexivity|exact K1]. cbn [fst]. rewrite (proj2 (Nat.eqb_neq n 0)) by lia. do 3 f_equal.
        rewrite (map_app snd a), nth_error_app2, map_length, Nat.sub_diag by (rewrite map_length; lia). reflexivity.
      + assert (n = 0) as -> by lia. specialize (Hn eq_refl). unfold at1. rewrite (deref_adr _ a (m ++ b) J1) by (intros ->; cbn in Hn; lia). eexists _, _. conj; [reflexivity|exact J1|reflexivity|exact K1].
  Qed.
  Lemma insert_range_ok : forall vs w a b, Inv w (a ++ b) -> exists w' m, insert_range_loop vs w (adr a) = (if length vs <=? length (fr w) then Rok else Rpool, w') /\ Inv w' (a ++ m ++ b) /\ map snd m = firstn (length (fr w)) vs /\ keeps w w'.
  Proof using Hnd H0 Htb Ht0.
    induction vs as [|v vs IH]; intros w a b J; cbn [insert_range_loop].
    - exists w, []. rewrite firstn_nil. conj; [reflexivity|exact J|reflexivity|apply keeps_refl].
    - destruct (fr w) as [|x r] eqn:F.
      + unfold alloc. rewrite F. exists w, []. conj; [reflexivity|exact J|reflexivity|apply keeps_refl].
      + destruct (insert_ok w a b v x r J F) as (w1 & -> & J1 & F1 & K1 & E1 & _). cbv zeta. rewrite E1. change ((x, v) :: b) with ([(x, v)] ++ b) in J1. rewrite app_assoc in J1.
        destruct (IH _ _ _ J1) as (w' & m & E2 & J2 & E3 & K2). rewrite F1 in E2, E3. rewrite adr_snoc in E2. exists w', ((x, v) :: m). conj; [exact E2| |cbn [map snd length firstn]; now rewrite E3|exact (keeps_trans _ _ _ K1 K2)]. rewrite <- app_assoc in J2. exact J2.
  Qed.
  Lemma insert_range_step k vs : stepOK (FinsertAfterRange k vs).
  Proof using Hnd H0 Htb Ht0.
    intros w l J Ha. cbn [allowed] in Ha. rewrite map_length in Ha. cbn [f_step fwd_op fst snd]. pose proof (room_fr w l (proj1 J)) as R. destruct (split_at l k Ha) as (a & b & El & La & Ea & Eb). subst l k. rewrite (pos_ok w a b J).
    destruct (insert_range_ok vs w a b J) as (w' & m & E1 & J1 & E2 & K1). rewrite E1. exists w', (a ++ m ++ b). unfold fits, f_add, ins. rewrite R, Ea, Eb. conj; [reflexivity|exact J1| |exact K1]. now rewrite !map_app, E2.
  Qed.
  Lemma erase_after_ok w a x v b : Inv w (a ++ (x, v) :: b) -> exists w', erase_after w (adr a) = Some (hd 0 (ad b), w') /\ Inv w' (a ++ b) /\ keeps w w'.
  Proof using Hnd H0 Htb Ht0.
    intros J. destruct (remove_ok w a x v b J) as (w' & E1 & J1 & _ & K1 & E2 & E3 & X0). unfold erase_after. cbv zeta. rewrite (proj2 (Nat.eqb_neq _ _) (adr_nz w a _ J)), E2, (proj2 (Nat.eqb_neq _ _) X0), E3, E1. exists w'. conj; [reflexivity|exact J1|exact K1].
  Qed.
  Lemma erase_after_step k : stepOK (FeraseAfter k).
  Proof using Hnd H0 Htb Ht0.
    intros w l J Ha. cbn [allowed] in Ha. rewrite map_length in Ha. cbn [f_step fwd_op fst snd]. destruct (split_at l k Ha) as (a & b & El & La & Ea & Eb). subst l k. rewrite (pos_ok w a b J). unfold cut. rewrite Ea.
    destruct b as [|(x, v) b].
    - unfold erase_after. cbv zeta. rewrite (proj2 (Nat.eqb_neq _ _) (adr_nz w a [] J)), (nx_adr w a [] J). cbn [map hd Nat.eqb at1]. exists w, (a ++ []). unfold deref. cbn [Nat.eqb]. rewrite app_nil_r in *. conj; [|exact J| |apply keeps_refl].
      + do 3 f_equal. symmetry. apply nth_error_None. rewrite map_length. lia.
      + rewrite skipn_all2, app_nil_r by (rewrite map_length; lia). reflexivity.
    - destruct (erase_after_ok w a x v b J) as (w' & -> & J1 & K1). unfold at1. rewrite (deref_hd _ a b J1). exists w', (a ++ b). conj; [|exact J1| |exact K1].
      + do 3 f_equal. rewrite map_app, nth_error_app2 by (rewrite map_length; lia). rewrite map_length. replace (S (length a) - length a) with 1 by lia. reflexivity.
      + rewrite map_app. f_equal. rewrite map_app. rewrite skipn_app, skipn_all2 by (rewrite map_length; lia). rewrite map_length. replace (S (length a) - length a) with 1 by lia. reflexivity.
  Qed.
  (** positions as addresses *)
  Definition at_ (l : nodes) (k : nat) : nat := nth k (t :: ad l) 0.
  Lemma at_adr a b : at_ (a ++ b) (length a) = adr a.
  Proof using.
    unfold at_, adr. rewrite map_app. generalize t as p. induction a as [|(x, v) a IH]; intros p; [reflexivity|]. cbn [map fst length app]. rewrite last_cons. apply IH.
  Qed.
  Lemma at_end (l : nodes) : at_ l (S (length l)) = 0.
  Proof using. clear Ht0. unfold at_. apply nth_overflow. cbn. rewrite map_length. lia. Qed.
  Lemma at_hd a b : at_ (a ++ b) (S (length a)) = hd 0 (ad b).
  Proof using. clear Ht0. unfold at_. cbn [nth]. rewrite map_app, app_nth2 by (rewrite map_length; lia). rewrite map_length, Nat.sub_diag. destruct b; reflexivity. Qed.
  Lemma pos_at w l k : Inv w l -> k <= S (length l) -> pos t w k = Some (at_ l k).
  Proof using Hnd H0 Htb Ht0.
    intros J Hk. destruct (Nat.eq_dec k (S (length l))) as [->|D]; [rewrite at_end; now apply pos_end|]. destruct (split_at l k ltac:(lia)) as (a & b & El & La & _). subst l k. rewrite at_adr. now apply pos_ok with b.
  Qed.
  Lemma at_inj w l i j : Inv w l -> i <= S (length l) -> j <= S (length l) -> at_ l i = at_ l j -> i = j.
  Proof using Hnd H0 Htb Ht0.
    intros (O & _) Hi Hj E. destruct (own_nodes w l O) as (N & Z & _).
    assert (NoDup ((t :: ad l) ++ [0])) as N1. { apply NoDup_app_iff. conj; [exact N|repeat constructor; intros []|]. intros x I [<-|[]]. destruct I as [I|I]; [now apply Ht0|contradiction]. }
    assert (forall k, k <= S (length l) -> nth k ((t :: ad l) ++ [0]) 0 = at_ l k) as K.
    { intros k Hk. unfold at_. destruct (Nat.eq_dec k (S (length l))) as [->|D]; [rewrite app_nth2 by (cbn; rewrite map_length; lia); cbn [length]; rewrite map_length, Nat.sub_diag; symmetry; apply nth_overflow; cbn; rewrite map_length; lia|]. apply app_nth1. cbn. rewrite map_length. lia. }
    apply (proj1 (NoDup_nth _ 0) N1); [rewrite app_length; cbn; rewrite map_length; lia|rewrite app_length; cbn; rewrite map_length; lia|]. now rewrite !K.
  Qed.
  Lemma at_eqb w l i j : Inv w l -> i <= S (length l) -> j <= S (length l) -> Nat.eqb (at_ l i) (at_ l j) = Nat.eqb i j.
  Proof using Hnd H0 Htb Ht0. intros J Hi Hj. destruct (Nat.eqb_spec i j) as [->|D]; [apply Nat.eqb_refl|]. apply Nat.eqb_neq. intros E. apply D. now apply (at_inj w l). Qed.
  Lemma erase_range_ok w a m b : Inv w (a ++ m ++ b) -> exists w', erase_after_range blocks w (adr a) (hd 0 (ad b)) = Some (hd 0 (ad b), w') /\ Inv w' (a ++ b) /\ keeps w w'.
  Proof using Hnd H0 Htb Ht0.
    intros J. pose proof (adr_nz w a _ J) as Z. pose proof J as (O & C). unfold erase_after_range. rewrite (proj2 (Nat.eqb_neq _ _) Z). cbn [negb andb].
    assert (adr a <> hd 0 (ad b)) as D. { intros E. rewrite <- (at_adr a (m ++ b)) in E. rewrite app_assoc in E. rewrite <- (at_hd (a ++ m) b) in E. apply (at_inj w) in E; [rewrite app_length in E; lia|rewrite <- app_assoc; exact J|rewrite !app_length; lia|rewrite !app_length; lia]. }
    rewrite (proj2 (Nat.eqb_neq _ _) D). cbn [negb]. cbv zeta. pose proof (nodup_t w _ O) as N. rewrite !map_app in N, C.
    destruct (chain_remove (nx w) (ad a) (ad m) (ad b) N C) as (C1 & C2 & C3). fold (adr a) in C1, C2, C3. destruct (sgm_mpath _ _ _ _ C3 C2) as (P1 & P2).
    assert (~ In (adr a) (ad m)) as Na. { rewrite app_comm_cons in N. apply NoDup_app_iff in N as (_ & _ & N). intros I. apply (N (adr a)); [unfold adr; apply last_in|]. rewrite in_app_iff. now left. }
    destruct (destroy_loop_ok (hd 0 (ad b)) m (a ++ b) (join w (adr a) (hd 0 (ad b))) (fuel blocks) (nx w (adr a))) as (w' & E1 & O1 & K1 & F1 & _).
    - apply own_join. apply own_perm with (l := a ++ m ++ b); [|exact O]. rewrite !app_assoc. apply Permutation_app_tail, Permutation_app_comm.
    - clear - P1 Na. revert Na P1. generalize (hd 0 (ad b)) at 1 3 as z. generalize (hd 0 (ad b)) as q. intros q z. induction (ad m) as [|x r IH]; intros Na P; [exact I|]. destruct P as (P1 & P2). split; [|apply IH; [intros I; apply Na; now right|exact P2]]. cbn [join nx]. rewrite set_other; [exact P1|]. intros ->. apply Na. now left.
    - intros I. destruct b as [|(y, u) b]; cbn [map fst hd] in I.
      + destruct (own_nodes w _ O) as (_ & Z0 & _). apply Z0. rewrite !map_app, !in_app_iff. tauto.
      + rewrite app_comm_cons, app_assoc in N. apply NoDup_app_iff in N as (_ & _ & N). apply (N y); [rewrite in_app_iff; now right|now left].
    - unfold fuel. pose proof (own_len w _ O) as (L & _). rewrite !app_length in L. lia.
    - rewrite <- P2 in E1. rewrite E1. exists w'. assert (match m with [] => nx w (adr a) | _ => hd 0 (ad b) end = hd 0 (ad b)) as Em. { destruct m; [exact P2|reflexivity]. } rewrite Em. conj.
      + do 2 f_equal. destruct (Nat.eqb_spec (hd 0 (ad b)) 0) as [->|]; reflexivity.
      + split; [exact O1|]. rewrite map_app. eapply chain_ext; [|exact C1]. intros y Hy. apply F1. intros I. rewrite app_assoc in N.
        destruct Hy as [<-|Hy]; [inversion N as [|? ? N1]; subst; apply N1; rewrite !in_app_iff; tauto|]. rewrite <- app_assoc in N. apply NoDup_cons_iff in N as (_ & N). apply in_app_iff in Hy as [Hy|Hy].
        * apply NoDup_app_iff in N as (_ & _ & N). apply (N y Hy). rewrite in_app_iff. now left.
        * rewrite app_assoc in N. apply NoDup_app_iff in N as (_ & _ & N). apply (N y); [rewrite in_app_iff; now right|exact Hy].
      + eapply keeps_trans; [|exact K1]. eapply keeps_join_own; [exact O|]. apply adr_in.
  Qed.
  Lemma split3 (l : nodes) i j : i <= j <= length l -> exists a m b, l = a ++ m ++ b /\ length a = i /\ length m = j - i.
  Proof using.
    clear Ht0. intros H. exists (firstn i l), (firstn (j - i) (skipn i l)), (skipn (j - i) (skipn i l)). conj; [now rewrite !firstn_skipn|rewrite firstn_length; lia|rewrite firstn_length, skipn_length; lia].
  Qed.
  Lemma cut_app {B} (a m b : list B) : cut (length a) (length a + length m) (a ++ m ++ b) = a ++ b.
  Proof using. unfold cut. rewrite firstn_app, Nat.sub_diag, firstn_all, app_nil_r. f_equal. rewrite app_assoc, skipn_app, skipn_all2, app_length, Nat.sub_diag by (rewrite app_length; reflexivity). reflexivity. Qed.
  Lemma seg_app {B} (a m b : list B) : seg (length a) (length a + length m) (a ++ m ++ b) = m.
  Proof using. unfold seg. rewrite skipn_app, skipn_all2, Nat.sub_diag by reflexivity. cbn [app skipn]. rewrite (Nat.add_comm (length a)), Nat.add_sub. now rewrite firstn_app, Nat.sub_diag, firstn_all, app_nil_r. Qed.
  Lemma ins_app {B} (a v b : list B) : ins (length a) v (a ++ b) = a ++ v ++ b.
  Proof using. unfold ins. rewrite firstn_app, Nat.sub_diag, firstn_all, app_nil_r. f_equal. f_equal. rewrite skipn_app, skipn_all2, Nat.sub_diag by reflexivity. reflexivity. Qed.
  Lemma erase_range_step i j : stepOK (FeraseAfterRange i j).
  Proof using Hnd H0 Htb Ht0.
    intros w l J Ha. cbn [allowed] in Ha. rewrite map_length in Ha. cbn [f_step fwd_op]. rewrite (pos_at w l i J), (pos_at w l j J) by lia. destruct (Nat.eqb_spec i j) as [->|D].
    - unfold erase_after_range. rewrite Nat.eqb_refl. cbn [negb]. rewrite andb_false_r. exists w, l. conj; [reflexivity|exact J|reflexivity|apply keeps_refl].
    - destruct (split3 l i (j - 1) ltac:(lia)) as (a & m & b & El & La & Lm). subst l. subst i. rewrite at_adr. replace j with (S (length (a ++ m))) by (rewrite app_length; lia). rewrite app_assoc, at_hd, <- app_assoc.
      destruct (erase_range_ok w a m b J) as (w' & -> & J1 & K1). unfold at1. rewrite (deref_hd w' a b J1). exists w', (a ++ b). conj; [|exact J1| |exact K1].
      + cbn [fst]. do 3 f_equal. replace (S (length (a ++ m)) - 1) with (length (map (@snd nat A) (a ++ m))) by (rewrite map_length; lia). rewrite app_assoc, (map_app _ (a ++ m)), nth_error_app2, Nat.sub_diag by lia. reflexivity.
      + cbn [snd]. replace (S (length (a ++ m)) - 1) with (length (map (@snd nat A) a) + length (map (@snd nat A) m)) by (rewrite !map_length, app_length; lia). rewrite !map_app. rewrite <- (map_length (@snd nat A) a) at 1. now rewrite cut_app.
  Qed.
  Lemma clear_step : stepOK Fclear.
  Proof using Hnd H0 Htb Ht0 Hext. intros w l J _. cbn [fwd_op f_step]. destruct (initialise_ok w l J) as (w' & -> & J1 & K1). exists w', []. conj; [reflexivity|exact J1|reflexivity|exact K1]. Qed.
  (** appending: assign *)
  Lemma append_ok w a v x r : Inv w a -> fr w = x :: r -> exists w1, alloc w v = Some (x, w1) /\ Inv (join (join w1 (adr a) x) x 0) (a ++ [(x, v)]) /\ fr (join (join w1 (adr a) x) x 0) = r /\ keeps w (join (join w1 (adr a) x) x 0).
  Proof using Hnd H0 Htb Ht0.
    intros (O & C) F. destruct (alloc_ok w _ v x r O F) as (w1 & E1 & E2 & E3 & O1 & K1 & Nx & X0). exists w1. conj; [exact E1| |exact E3|].
    - split; [apply own_join, own_join; apply own_perm with (l := (x, v) :: a); [apply Permutation_cons_append|exact O1]|]. rewrite map_app. cbn [map fst join nx]. rewrite E2. apply chain_app. pose proof (nodup_t w a O) as N. destruct C as (C1 & _). split.
      + apply sgm_out'; [exact Nx|exact N|]. now apply sgm_last.
      + apply chain_cons. fold (adr a). assert (adr a <> x) as Dx by (intros E; apply Nx; rewrite <- E; unfold adr; apply last_in). split; [rewrite set_other by exact Dx; apply set_same|]. apply chain_nil. apply set_same.
    - eapply keeps_trans; [exact K1|]. eapply keeps_trans; eapply keeps_join_own; try exact O1; [|right; now left]. pose proof (adr_in a []) as I. rewrite app_nil_r in I. destruct I as [E|I]; [now left|right; now right].
  Qed.
  Lemma assign_loop_ok : forall vs w a, Inv w a -> exists w' m, assign_loop vs w (adr a) = (if length vs <=? length (fr w) then Rok else Rfull, w') /\ Inv w' (a ++ m) /\ map snd m = firstn (length (fr w)) vs /\ keeps w w'.
  Proof using Hnd H0 Htb Ht0.
    induction vs as [|v vs IH]; intros w a J; cbn [assign_loop].
    - exists w, []. rewrite firstn_nil, app_nil_r. conj; [reflexivity|exact J|reflexivity|apply keeps_refl].
    - destruct (full_cases w) as [(-> & F)|(-> & x & r & F)].
      + rewrite F. exists w, []. rewrite app_nil_r. conj; [reflexivity|exact J|reflexivity|apply keeps_refl].
      + destruct (append_ok w a v x r J F) as (w1 & -> & J1 & F1 & K1). destruct (IH _ _ J1) as (w' & m & E2 & J2 & E3 & K2). rewrite F1 in E2, E3. rewrite adr_snoc in E2. cbv zeta. exists w', ((x, v) :: m). rewrite F. conj; [exact E2| |cbn [map snd length firstn]; now rewrite E3|exact (keeps_trans _ _ _ K1 K2)]. rewrite <- app_assoc in J2. exact J2.
  Qed.
  Lemma f_add_empty (w : world) vs : Own w [] -> f_add (length blocks) (length ext) 0 vs (@nil A) = firstn (length (fr w)) vs.
  Proof using. intros O. pose proof (room_fr w [] O) as R. cbn [map] in R. unfold f_add, ins. rewrite R. cbn. now rewrite app_nil_r. Qed.
  Lemma assign_step vs : stepOK (Fassign vs).
  Proof using Hnd H0 Htb Ht0 Hext.
    intros w l J _. cbn [fwd_op f_step fst snd]. unfold assign. destruct (initialise_ok w l J) as (w1 & -> & J1 & K1). destruct (assign_loop_ok vs w1 [] J1) as (w' & m & E2 & J2 & E3 & K2). change (adr []) with t in E2. rewrite E2. exists w', m. unfold fits. pose proof (room_fr w1 [] (proj1 J1)) as R. cbn [map] in R. rewrite R, (f_add_empty w1 vs (proj1 J1)). conj; [reflexivity|exact J2|exact E3|exact (keeps_trans _ _ _ K1 K2)].
  Qed.
  Lemma assign_n_loop_ok v n : forall f w a, Inv w a -> length a <= n -> n <= length a + f -> exists w' m, assign_n_loop t blocks shared f n w (adr a) v = Some (if n - length a <=? length (fr w) then Rok else Rpool, w') /\ Inv w' (a ++ m) /\ map snd m = repeat v (Nat.min (length (fr w)) (n - length a)) /\ keeps w w'.
  Proof using Hnd H0 Htb Ht0 Hext.
    induction f as [|f IH]; intros w a J Ha Hf; cbn [assign_n_loop]; rewrite (size_ok w a J).
    - rewrite (proj2 (Nat.ltb_ge _ _)) by lia. exists w, []. replace (n - length a) with 0 by lia. rewrite Nat.min_0_r, app_nil_r. conj; [reflexivity|exact J|reflexivity|apply keeps_refl].
    - destruct (Nat.ltb_spec (length a) n) as [H|H].
      2: { exists w, []. replace (n - length a) with 0 by lia. rewrite Nat.min_0_r, app_nil_r. conj; [reflexivity|exact J|reflexivity|apply keeps_refl]. }
      destruct (fr w) as [|x r] eqn:F.
      + unfold alloc. rewrite F. exists w, []. rewrite app_nil_r. cbn [length]. rewrite (proj2 (Nat.leb_gt _ _)) by lia. conj; [reflexivity|exact J|reflexivity|apply keeps_refl].
      + destruct (append_ok w a v x r J F) as (w1 & -> & J1 & F1 & K1). destruct (IH _ _ J1) as (w' & m & E2 & J2 & E3 & K2); [rewrite app_length; cbn; lia|rewrite app_length; cbn; lia|]. rewrite F1 in E2, E3. rewrite adr_snoc in E2. cbv zeta. exists w', ((x, v) :: m). rewrite app_length in E2, E3. cbn [length] in *.
        replace (n - length a) with (S (n - (length a + 1))) by lia. conj; [exact E2| |cbn [map snd Nat.min repeat]; now rewrite E3|exact (keeps_trans _ _ _ K1 K2)]. rewrite <- app_assoc in J2. exact J2.
  Qed.
  Lemma assign_n_ok w l n v : Inv w l -> n <= length blocks -> exists w' m, assign_n t blocks shared triv w n v = Some (fits (length blocks) (length ext) (repeat v n) [] Rpool, w') /\ Inv w' m /\ map snd m = f_add (length blocks) (length ext) 0 (repeat v n) [] /\ keeps w w'.
  Proof using Hnd H0 Htb Ht0 Hext.
    intros J Hn. unfold assign_n. rewrite (proj2 (Nat.ltb_ge _ _)) by lia. destruct (initialise_ok w l J) as (w1 & -> & J1 & K1). destruct (assign_n_loop_ok v n (fuel blocks) w1 [] J1) as (w' & m & E2 & J2 & E3 & K2); [cbn; lia|unfold fuel; cbn; lia|]. change (adr []) with t in E2. rewrite E2. exists w', m. unfold fits. pose proof (room_fr w1 [] (proj1 J1)) as R. cbn [map] in R. cbn [length] in E3 |- *. rewrite R, (f_add_empty w1 _ (proj1 J1)), repeat_length, firstn_repeat, Nat.sub_0_r in *. conj; [reflexivity|exact J2|exact E3|exact (keeps_trans _ _ _ K1 K2)].
  Qed.
  Lemma assign_n_step n v : stepOK (FassignN n v).
  Proof using Hnd H0 Htb Ht0 Hext.
    intros w l J _. cbn [fwd_op f_step]. destruct (Nat.ltb_spec (length blocks) n) as [H|H].
    - unfold assign_n. rewrite (proj2 (Nat.ltb_lt _ _) H). exists w, l. conj; [reflexivity|exact J|reflexivity|apply keeps_refl].
    - destruct (assign_n_ok w l n v J H) as (w' & m & E & J' & Em & K). exists w', m. now conj.
  Qed.
  Lemma resize_walk_ok (w : world) n : forall b a f, Inv w (a ++ b) -> length a <= n -> length b <= f -> exists c d, a ++ b = c ++ d /\ length c = Nat.min n (length (a ++ b)) /\ length a <= length c /\
     forall il, (a <> [] -> il = adr a) -> exists il', resize_walk f w (length a) n (hd 0 (ad b)) il = Some (length c, hd 0 (ad d), il') /\ (c <> [] -> il' = adr c).
  Proof using Hnd H0 Htb Ht0.
    induction b as [|(x, v) b IH]; intros a f J Ha Hf.
    - exists a, []. rewrite app_nil_r in *. conj; [reflexivity|lia|lia|]. intros il Hil. exists il. split; [|exact Hil]. destruct f; cbn [resize_walk map hd Nat.eqb negb]; now rewrite andb_false_r.
    - destruct f as [|f]; [cbn in Hf; lia|]. destruct (Nat.eq_dec (length a) n) as [E|D].
      + exists a, ((x, v) :: b). conj; [reflexivity|rewrite app_length; lia|lia|]. intros il Hil. exists il. split; [|exact Hil]. cbn [resize_walk]. rewrite E, Nat.ltb_irrefl. reflexivity.
      + assert (Inv w ((a ++ [(x, v)]) ++ b)) as J1 by (rewrite <- app_assoc; exact J). destruct (IH (a ++ [(x, v)]) f J1) as (c & d & E1 & E2 & E3 & K); [rewrite app_length; cbn; lia|cbn in Hf; lia|]. rewrite app_length in E3. cbn [length] in E3. rewrite <- app_assoc in E1, E2. cbn [app] in E1, E2.
        exists c, d. conj; [exact E1|exact E2|lia|]. intros il _. destruct (K x) as (il' & E4 & E5); [intros _; now rewrite adr_snoc|]. exists il'. split; [|exact E5]. cbn [resize_walk map fst hd].
        assert (x <> 0) as X0. { destruct (own_nodes w _ (proj1 J)) as (_ & Z & _). intros ->. apply Z. rewrite map_app, in_app_iff. right. now left. }
        rewrite (proj2 (Nat.ltb_lt _ _)), (proj2 (Nat.eqb_neq _ _) X0) by lia. cbn [negb andb]. pose proof (nx_adr w _ _ J1) as Nx. rewrite adr_snoc in Nx. rewrite Nx. rewrite app_length in E4. cbn [length] in E4. rewrite Nat.add_1_r in E4. exact E4.
  Qed.
  Lemma resize_grow_ok v : forall k w a, Inv w a -> exists w' m, resize_grow k w (adr a) v = (if k <=? length (fr w) then Rok else Rfull, w') /\ Inv w' (a ++ m) /\ map snd m = repeat v (Nat.min (length (fr w)) k) /\ keeps w w'.
  Proof using Hnd H0 Htb Ht0.
    induction k as [|k IH]; intros w a J; cbn [resize_grow].
    - exists w, []. rewrite Nat.min_0_r, app_nil_r. conj; [reflexivity|exact J|reflexivity|apply keeps_refl].
    - unfold insert_after. destruct (full_cases w) as [(-> & F)|(-> & x & r & F)].
      + rewrite F. exists w, []. rewrite app_nil_r. conj; [reflexivity|exact J|reflexivity|apply keeps_refl].
      + assert (Inv w (a ++ [])) as Jn by (now rewrite app_nil_r). destruct (insert_ok w a [] v x r Jn F) as (w1 & -> & J1 & F1 & K1 & _). destruct (IH _ _ J1) as (w' & m & E2 & J2 & E3 & K2). rewrite F1 in E2, E3. rewrite adr_snoc in E2. exists w', ((x, v) :: m). rewrite F.
        conj; [exact E2| |cbn [map snd length Nat.min repeat]; now rewrite E3|exact (keeps_trans _ _ _ K1 K2)]. rewrite <- app_assoc in J2. exact J2.
  Qed.
  Lemma is_empty_ok w l : Inv w l -> is_empty t w = match l with [] => true | _ => false end.
  Proof using Hnd H0 Htb Ht0.
    intros (O & C). unfold is_empty. destruct l as [|(x, v) l]; [apply chain_nil in C; now rewrite C|]. apply chain_cons in C as (-> & _). destruct (own_nodes w _ O) as (_ & Z & _). apply Nat.eqb_neq. cbn [fst]. intros ->. apply Z. now left.
  Qed.
  Lemma resize_step n v : stepOK (Fresize n v).
  Proof using Hnd H0 Htb Ht0 Hext.
    intros w l J _. cbn [fwd_op f_step]. unfold resize. destruct (Nat.ltb_spec (length blocks) n) as [H|H]; [exists w, l; conj; [reflexivity|exact J|reflexivity|apply keeps_refl]|]. rewrite map_length.
    destruct (Nat.eqb_spec n 0) as [->|N0].
    { destruct (initialise_ok w l J) as (w' & -> & J1 & K1). cbn [Nat.leb]. exists w', []. conj; [reflexivity|exact J1|reflexivity|exact K1]. }
    rewrite (is_empty_ok w l J). destruct l as [|e0 l0] eqn:El.
    { cbn [length map]. rewrite (proj2 (Nat.leb_gt n 0)) by lia. rewrite Nat.sub_0_r. destruct (assign_n_ok w [] n v J H) as (w' & m & E & J' & Em & K). exists w', m. now conj. }
    rewrite <- El in *. assert (0 < length l) as L0 by (rewrite El; cbn; lia).
    destruct (resize_walk_ok w n l [] (fuel blocks) J) as (c & d & E1 & E2 & _ & K); [cbn; lia|unfold fuel; pose proof (own_len w l (proj1 J)); lia|]. destruct (K 0) as (il & E3 & E4); [intros []; reflexivity|]. cbn [app length] in *. pose proof (nx_adr w [] l J) as Nt. change (adr []) with t in Nt. rewrite Nt, E3.
    assert (c <> []) as Nc by (intros ->; cbn in E2; lia). specialize (E4 Nc). subst il. rewrite E1 in J. clear K E3. destruct d as [|(x, u) d].
    - cbn [map hd Nat.eqb negb]. rewrite app_nil_r in *. subst c. assert (length l <= n) as Hl by lia. destruct (resize_grow_ok v (n - length l) w l J) as (w' & m & E5 & J5 & E6 & K5). rewrite E5. pose proof (room_fr w l (proj1 J)) as R.
      destruct (Nat.leb_spec n (length l)) as [Q|Q].
      + assert (n = length l) as -> by lia. rewrite Nat.sub_diag in *. rewrite Nat.min_0_r in E6. destruct m; [|discriminate]. rewrite app_nil_r in J5. exists w', l. conj; [reflexivity|exact J5|cbn [snd]; rewrite firstn_all2 by (rewrite map_length; lia); reflexivity|exact K5].
      + exists w', (l ++ m). unfold fits, f_add. rewrite repeat_length, R, firstn_repeat. conj; [|exact J5| |exact K5].
        * cbn [fst]. rewrite El. reflexivity.
        * cbn [snd]. unfold ins. rewrite firstn_all2, skipn_all2, app_nil_r, map_app, E6 by (rewrite map_length; lia). reflexivity.
    - assert (x <> 0) as X0. { destruct (own_nodes w _ (proj1 J)) as (_ & Z & _). intros ->. apply Z. rewrite map_app, in_app_iff. right. now left. }
      cbn [map fst hd]. rewrite (proj2 (Nat.eqb_neq _ _) X0). cbn [negb]. assert (Inv w (c ++ ((x, u) :: d) ++ [])) as Jn by (now rewrite app_nil_r). destruct (erase_range_ok w c ((x, u) :: d) [] Jn) as (w' & E5 & J5 & K5). cbn [map hd] in E5. rewrite E5. rewrite app_nil_r in J5. rewrite E1, app_length in E2. cbn [length] in E2.
      rewrite (proj2 (Nat.leb_le n (length l))) by (rewrite E1, app_length; cbn [length]; lia). exists w', c. conj; [reflexivity|exact J5| |exact K5]. cbn [snd]. rewrite E1, map_app, firstn_app. rewrite map_length. replace (n - length c) with 0 by lia. rewrite firstn_all2 by (rewrite map_length; lia). now rewrite app_nil_r.
  Qed.
  (** ** remove, unique *)
  Lemma remove_loop_ok p : forall b a w f, Inv w (a ++ b) -> length b <= f -> exists w' m, remove_loop f w (hd 0 (ad b)) (adr a) p = Some w' /\ Inv w' (a ++ m) /\ map snd m = filter (fun x => negb (p x)) (map snd b) /\ keeps w w'.
  Proof using Hnd H0 Htb Ht0.
    induction b as [|(x, v) b IH]; intros a w f J Hf.
    - exists w, []. conj; [destruct f; reflexivity|exact J|reflexivity|apply keeps_refl].
    - destruct f as [|f]; [cbn in Hf; lia|]. cbn [remove_loop map fst hd snd filter]. pose proof (nx_adr w a _ J) as Na. cbn [map fst hd] in Na.
      assert (x <> 0) as X0. { destruct (own_nodes w _ (proj1 J)) as (_ & Z & _). intros ->. apply Z. rewrite map_app, in_app_iff. right. now left. }
      rewrite (proj2 (Nat.eqb_neq _ _) X0), (own_val w _ x v (proj1 J)) by (rewrite in_app_iff; right; now left). destruct (p v); cbn [negb].
      + destruct (erase_after_ok w a x v b J) as (w1 & -> & J1 & K1). destruct (IH a w1 f J1) as (w' & m & E & J' & Em & K); [cbn in Hf; lia|]. exists w', m. conj; [exact E|exact J'|exact Em|exact (keeps_trans _ _ _ K1 K)].
      + assert (Inv w ((a ++ [(x, v)]) ++ b)) as J1 by (rewrite <- app_assoc; exact J). pose proof (nx_adr w _ _ J1) as Nx. rewrite adr_snoc in Nx. rewrite Nx, Na. destruct (IH (a ++ [(x, v)]) w f J1) as (w' & m & E & J' & Em & K); [cbn in Hf; lia|]. rewrite adr_snoc in E. exists w', ((x, v) :: m). conj; [exact E| |cbn [map snd]; now rewrite Em|exact K]. rewrite <- app_assoc in J'. exact J'.
  Qed.
  Lemma len_fuel w l : Inv w l -> length l <= fuel blocks. Proof using. clear Ht0. intros (O & _). pose proof (own_len w l O). unfold fuel. lia. Qed.
  Lemma remove_if_step p : stepOK (FremoveIf p).
  Proof using Hnd H0 Htb Ht0.
    intros w l J _. cbn [fwd_op f_step fst snd]. unfold ok1, remove_if. destruct (remove_loop_ok p l [] w (fuel blocks) J (len_fuel w l J)) as (w' & m & E & J' & Em & K). change (adr []) with t in E. rewrite (nx_adr w [] l J : nx w t = _), E. exists w', m. now conj.
  Qed.
  Lemma unique_loop_ok eq : forall b a x v w f, Inv w ((a ++ [(x, v)]) ++ b) -> length b <= f -> exists w' m, unique_loop f w x (hd 0 (ad b)) eq = Some w' /\ Inv w' ((a ++ [(x, v)]) ++ m) /\ map snd m = uniques (fun a b => eq b a) v (map snd b) /\ keeps w w'.
  Proof using Hnd H0 Htb Ht0.
    induction b as [|(y, u) b IH]; intros a x v w f J Hf.
    - exists w, []. conj; [destruct f; reflexivity|exact J|reflexivity|apply keeps_refl].
    - destruct f as [|f]; [cbn in Hf; lia|]. cbn [unique_loop map fst hd snd uniques].
      assert (y <> 0) as X0. { destruct (own_nodes w _ (proj1 J)) as (_ & Z & _). intros ->. apply Z. rewrite map_app, in_app_iff. right. now left. }
      rewrite (proj2 (Nat.eqb_neq _ _) X0), (own_val w _ y u (proj1 J)) by (rewrite in_app_iff; right; now left). rewrite (own_val w _ x v (proj1 J)) by (rewrite !in_app_iff; left; right; now left). destruct (eq u v).
      + destruct (remove_ok w _ y u b J) as (w1 & E1 & J1 & _ & K1 & _). rewrite adr_snoc in E1. rewrite E1. pose proof (nx_adr w1 _ _ J1) as Nx. rewrite adr_snoc in Nx. rewrite Nx. destruct (IH a x v w1 f J1) as (w' & m & E & J' & Em & K); [cbn in Hf; lia|]. exists w', m. conj; [exact E|exact J'|exact Em|exact (keeps_trans _ _ _ K1 K)].
      + assert (Inv w (((a ++ [(x, v)]) ++ [(y, u)]) ++ b)) as J1 by (rewrite <- app_assoc; exact J). pose proof (nx_adr w _ _ J1) as Nx. rewrite adr_snoc in Nx. rewrite Nx. destruct (IH _ y u w f J1) as (w' & m & E & J' & Em & K); [cbn in Hf; lia|]. exists w', ((y, u) :: m). conj; [exact E| |cbn [map snd]; now rewrite Em|exact K]. rewrite <- app_assoc in J'. exact J'.
  Qed.
  Lemma unique_step eq : stepOK (Funique eq).
  Proof using Hnd H0 Htb Ht0.
    intros w l J _. cbn [fwd_op f_step fst snd]. unfold ok1, unique. rewrite (is_empty_ok w l J). destruct l as [|(x, v) l]; [exists w, []; conj; [reflexivity|exact J|reflexivity|apply keeps_refl]|].
    rewrite (nx_adr w [] _ J : nx w t = _). cbn [map fst hd]. cbv zeta. change ((x, v) :: l) with (([] ++ [(x, v)]) ++ l) in J. pose proof (nx_adr w _ _ J) as Nx. rewrite adr_snoc in Nx. rewrite Nx. pose proof (len_fuel w _ J) as Lf. rewrite !app_length in Lf.
    destruct (unique_loop_ok eq l [] x v w (fuel blocks) J ltac:(lia)) as (w' & m & -> & J' & Em & K). exists w', ((x, v) :: m). conj; [reflexivity|exact J'|cbn [map snd]; now rewrite Em|exact K].
  Qed.
  (** ** questions *)
  Lemma front_step : stepOK Ffront.
  Proof using Hnd H0 Htb Ht0.
    intros w l J Ha. cbn [fwd_op f_step allowed] in *. rewrite (is_empty_ok w l J). destruct l as [|(x, v) l]; [contradiction (Ha eq_refl)|]. rewrite (nx_adr w [] _ J : nx w t = _). cbn [map fst hd]. rewrite (own_val w _ x v (proj1 J)) by (now left). exists w, ((x, v) :: l). conj; [reflexivity|exact J|reflexivity|apply keeps_refl].
  Qed.
  Lemma question_steps : stepOK Fsize /\ stepOK Fempty /\ stepOK Ffull /\ stepOK Favailable /\ stepOK Fall.
  Proof using Hnd H0 Htb Ht0 Hext.
    conj; intros w l J _; cbn [fwd_op f_step fst snd]; exists w, l; (conj; [|exact J|reflexivity|apply keeps_refl]).
    - now rewrite (size_ok w l J), map_length.
    - rewrite (is_empty_ok w l J). now destruct l.
    - now rewrite (room0 w l (proj1 J)).
    - now rewrite (room_fr w l (proj1 J)).
    - destruct (own_nodes w _ (proj1 J)) as (_ & Z & _). rewrite (walk_ok w l t (fuel blocks) (proj2 J) Z); [reflexivity|apply (proj1 J)|apply (len_fuel w l J)].
  Qed.
  (** ** only links change *)
  Definition moved (l : nodes) (w w' : world) : Prop := vl w' = vl w /\ fr w' = fr w /\ forall y, ~ In y (t :: ad l) -> nx w' y = nx w y.
  Lemma moved_inv l l' w w' : Own w l -> moved l w w' -> Permutation l l' -> chain (nx w') t (ad l') -> Inv w' l' /\ keeps w w'.
  Proof using Hnd H0 Htb Ht0.
    intros O (M1 & M2 & M3) P C. split; [split; [|exact C]|].
    - apply (own_perm _ _ _ P). destruct O as (V & Q). split; [now rewrite M1|now rewrite M2].
    - intros y Hy He. rewrite M1. split; [|reflexivity]. apply M3. intros [E|I]; [congruence|]. destruct (own_nodes w l O) as (_ & _ & K). destruct (K y I) as (K1 & K2 & _). destruct He; contradiction.
  Qed.
  Lemma moved_refl l w : moved l w w. Proof using. unfold moved. now conj. Qed.
  Lemma moved_join l w w' a b : In a (t :: ad l) -> moved l w w' -> moved l w (join w' a b).
  Proof using. intros I (M1 & M2 & M3). unfold moved. conj; [exact M1|exact M2|]. intros y Hy. cbn [join nx]. rewrite set_other; [now apply M3|]. intros ->. contradiction. Qed.
  (** ** reverse *)
  Lemma reverse_loop_ok l : forall rest f w pl cur done, chain (nx w) cur done -> mpath (nx w) rest 0 -> NoDup (cur :: done ++ rest) -> ~ In 0 rest -> (forall y, In y rest -> In y (ad l)) -> length rest <= f ->
    exists w' cur' done', reverse_loop f w pl cur (hd 0 rest) = Some (cur', w') /\ chain (nx w') cur' done' /\ cur' :: done' = rev rest ++ cur :: done /\ moved l w w'.
  Proof using.
    clear Ht0. induction rest as [|x rest IH]; intros f w pl cur done C P N Z Hl Hf.
    - exists w, cur, done. conj; [destruct f; reflexivity|exact C|reflexivity|apply moved_refl].
    - destruct f as [|f]; [cbn in Hf; lia|]. cbn [reverse_loop hd]. assert (x <> 0) as X0 by (intros ->; apply Z; now left). rewrite (proj2 (Nat.eqb_neq _ _) X0). cbv zeta. destruct P as (P1 & P2). rewrite P1.
      rewrite app_comm_cons in N. pose proof (NoDup_remove_2 _ _ _ N) as Nx. pose proof (NoDup_remove_1 _ _ _ N) as N1. pose proof N1 as N2. apply NoDup_app_iff in N2 as (N2 & N3 & _).
      destruct (IH f (join w x cur) cur x (cur :: done)) as (w' & cur' & done' & E & C' & E' & M).
      + apply chain_cons. split; [apply set_same|]. cbn [join nx]. apply chain_out; [|exact N2|exact C]. intros I. apply Nx. apply in_app_iff. now left.
      + cbn [join nx]. assert (~ In x rest) as Nr by (intros I; apply Nx; apply in_app_iff; now right). clear - P2 Nr. revert P2 Nr. induction rest as [|y r IH]; intros P Nr; [exact I|]. destruct P as (P1 & P2). split; [rewrite set_other; [exact P1|intros ->; apply Nr; now left]|]. apply IH; [exact P2|intros I; apply Nr; now right].
      + constructor; [exact Nx|exact N1].
      + intros I. apply Z. now right.
      + intros y Hy. apply Hl. now right.
      + cbn in Hf. lia.
      + exists w', cur', done'. conj; [exact E|exact C'|rewrite E'; cbn [rev]; now rewrite <- app_assoc|]. destruct M as (M1 & M2 & M3). unfold moved. conj; [exact M1|exact M2|]. intros y Hy. rewrite (M3 y Hy). cbn [join nx]. apply set_other. intros ->. apply Hy. right. apply Hl. now left.
  Qed.
  Lemma reverse_step : stepOK Freverse.
  Proof using Hnd H0 Htb Ht0 Hext.
    intros w l J _. cbn [fwd_op f_step fst snd]. unfold ok1, reverse. rewrite (size_ok w l J). destruct (Nat.ltb_spec (length l) 2) as [L|L].
    - exists w, l. conj; [reflexivity|exact J| |apply keeps_refl]. destruct l as [|a [|b l]]; [reflexivity|reflexivity|cbn in L; lia].
    - destruct l as [|(x, v) l]; [cbn in L; lia|]. pose proof J as (O & C). cbn [map fst] in C. apply chain_cons in C as (C1 & C2). cbv zeta. rewrite C1. destruct (own_nodes w _ O) as (N & Z & _). cbn [map fst] in N, Z. apply NoDup_cons_iff in N as (Nt & N). pose proof N as N2. apply NoDup_cons_iff in N2 as (Nx & N2).
      destruct C2 as (C2 & C3). destruct (sgm_mpath _ _ _ _ C3 C2) as (P1 & P2). rewrite P2.
      destruct (reverse_loop_ok ((x, v) :: l) (ad l) (fuel blocks) (join w x 0) t x []) as (w' & cur & done & E & C' & E' & M).
      + apply chain_nil. apply set_same.
      + cbn [join nx]. clear - P1 Nx. revert P1 Nx. induction (ad l) as [|y r IH]; intros P Nr; [exact I|]. destruct P as (P1 & P2). split; [rewrite set_other; [exact P1|intros ->; apply Nr; now left]|]. apply IH; [exact P2|intros I; apply Nr; now right].
      + exact N.
      + intros I. apply Z. now right.
      + intros y Hy. now right.
      + pose proof (len_fuel w _ J) as Lf. rewrite map_length. cbn [length] in Lf. lia.
      + rewrite E. assert (ad (rev ((x, v) :: l)) = cur :: done) as Er by (rewrite map_rev, E'; reflexivity).
        destruct (moved_inv ((x, v) :: l) (rev ((x, v) :: l)) w (join w' t cur)) as (J' & K).
        * exact O.
        * apply moved_join; [now left|]. destruct M as (M1 & M2 & M3). unfold moved. conj; [exact M1|exact M2|]. intros y Hy. rewrite (M3 y Hy). cbn [join nx]. apply set_other. intros ->. apply Hy. right. now left.
        * apply Permutation_rev.
        * rewrite Er. apply chain_cons. split; [apply set_same|]. cbn [join nx]. assert (~ In t (cur :: done)) as Nt2. { rewrite <- Er, map_rev, <- in_rev. exact Nt. }
          apply chain_out; [exact Nt2| |exact C']. rewrite <- Er, map_rev. now apply NoDup_rev.
        * exists (join w' t cur), (rev ((x, v) :: l)). conj; [reflexivity|exact J'|apply map_rev|exact K].
  Qed.
  (** ** moves *)
  Fixpoint inner (n : nat -> nat) (m : list nat) : Prop := match m with x :: ((y :: _) as r) => n x = y /\ inner n r | _ => True end.
  Lemma sgm_inner n p m : sgm n p m -> inner n m.
  Proof using. revert p. induction m as [|x [|y m] IH]; intros p S; [exact I|exact I|]. destruct S as (_ & S). split; [apply S|exact (IH x S)]. Qed.
  Lemma inner_sgm n x m : inner n (x :: m) -> sgm n x m.
  Proof using. revert x. induction m as [|y m IH]; intros x S; [exact I|]. destruct S as (S1 & S2). split; [exact S1|exact (IH y S2)]. Qed.
  Lemma chain_insert_seg n a x m b : NoDup (t :: a ++ b) -> NoDup (x :: m) -> (forall y, In y (x :: m) -> ~ In y (t :: a ++ b)) -> inner n (x :: m) -> chain n t (a ++ b) ->
    chain (set (set n (last m x) (n (last a t))) (last a t) x) t (a ++ (x :: m) ++ b).
  Proof using.
    intros N Nm Hx In_ C. assert (forall z, In z (t :: a) -> In z (t :: a ++ b)) as Hin by (intros z [E|I]; [now left|right; rewrite in_app_iff; now left]).
    assert (forall z, In z (x :: m) -> z <> last a t) as Dx. { intros z I ->. apply (Hx _ I). apply Hin, last_in. }
    assert (~ In (last m x) (t :: a ++ b)) as Hl by (apply Hx, last_in).
    rewrite app_comm_cons in N. apply NoDup_app_iff in N as (N1 & N2 & N3). apply chain_app in C as (C1 & C2). apply chain_app. split; [|cbn [app]; apply chain_cons; split; [apply set_same|apply chain_app; split]].
    - apply sgm_last; [exact N1|]. apply sgm_out'; [|exact N1|exact C1]. intros I. apply Hl. now apply Hin.
    - apply sgm_out'; [intros I; now apply (Dx _ I)|exact Nm|]. apply sgm_last; [exact Nm|]. now apply inner_sgm.
    - assert (~ In (last a t) b) as Nb by (intros I; apply (N3 (last a t)); [apply last_in|exact I]). assert (~ In (last m x) b) as Nx by (intros I; apply Hl; right; rewrite in_app_iff; now right).
      assert (chain (set n (last m x) (n (last a t))) (last m x) b) as C3.
      { destruct b as [|y b]; [rewrite chain_nil in *; rewrite set_same; exact C2|]. rewrite chain_cons in *. destruct C2 as (C2 & C3). split; [now rewrite set_same|]. now apply chain_out. }
      apply chain_out; [|constructor; [exact Nx|exact N2]|exact C3]. intros [E|I]; [apply (Dx (last m x)); [apply last_in|exact E]|contradiction].
  Qed.
  (** the nodes (x, v) :: m taken out behind a0 and put behind a *)
  Lemma move_seg_ok w l a0 x v m b0 a b : Inv w l -> l = a0 ++ ((x, v) :: m) ++ b0 -> a0 ++ b0 = a ++ b ->
    let w1 := join w (adr a0) (hd 0 (ad b0)) in
    let w' := join (join w1 (last (ad m) x) (nx w1 (adr a))) (adr a) x in
    Inv w' (a ++ ((x, v) :: m) ++ b) /\ keeps w w'.
  Proof using Hnd H0 Htb Ht0.
    intros J El E w1 w'. pose proof J as (O & C). pose proof (nodup_t w l O) as N. rewrite El in C, N. rewrite !map_app in C, N. cbn [map fst] in C, N.
    destruct (chain_remove (nx w) (ad a0) (x :: ad m) (ad b0) N C) as (C1 & C2 & C3). fold (adr a0) in C1, C2.
    assert (ad a0 ++ ad b0 = ad a ++ ad b) as Ea by (rewrite <- !map_app; now rewrite E).
    assert (Permutation l (a ++ ((x, v) :: m) ++ b)) as P. { rewrite El. rewrite (Permutation_app_swap_app a0), (Permutation_app_swap_app a), E. reflexivity. }
    assert (NoDup (t :: (x :: ad m) ++ ad a0 ++ ad b0)) as N2. { eapply Permutation_NoDup; [|exact N]. apply perm_skip. apply Permutation_app_swap_app. }
    apply NoDup_cons_iff in N2 as (Nt & N2). apply NoDup_app_iff in N2 as (N3 & N4 & N5).
    assert (forall y, In y (x :: ad m) -> ~ In y (t :: ad a ++ ad b)) as Hd. { intros y I [<-|I2]; [apply Nt; rewrite in_app_iff; now left|]. rewrite <- Ea in I2. exact (N5 y I I2). }
    apply (moved_inv l).
    - exact O.
    - assert (forall z, In z (t :: ad a0 ++ ad b0) -> In z (t :: ad l)) as H1. { intros z [I|I]; [now left|right]. rewrite El, !map_app, !in_app_iff in *. tauto. }
      apply moved_join; [|apply moved_join; [|apply moved_join; [|apply moved_refl]]].
      + apply H1. rewrite Ea, <- map_app. apply adr_in.
      + right. rewrite El, !map_app, !in_app_iff. right. left. cbn [map fst]. apply last_in.
      + apply H1. rewrite <- map_app. apply adr_in.
    - exact P.
    - rewrite !map_app. cbn [map fst]. unfold w', w1. cbn [join nx]. rewrite Ea in C1. apply chain_insert_seg.
      + constructor; [intros I; apply Nt; rewrite in_app_iff, Ea; now right|rewrite <- Ea; exact N4].
      + exact N3.
      + exact Hd.
      + apply sgm_inner in C2. assert (~ In (adr a0) (x :: ad m)) as Na. { intros I. pose proof (last_in (ad a0) t) as [Q|Q]; fold (adr a0) in Q; [apply Nt; rewrite in_app_iff; left; rewrite Q; exact I|]. apply (N5 _ I). rewrite in_app_iff. now left. }
        clear - C2 Na. revert x C2 Na. induction (ad m) as [|y r IH]; intros x S Na; [exact I|]. destruct S as (S1 & S2). split; [rewrite set_other; [exact S1|intros E; apply Na; left; exact E]|]. apply IH; [exact S2|intros I; apply Na; now right].
      + exact C1.
  Qed.
  Lemma adr_mid (a m b : nodes) : b <> [] -> adr (a ++ m ++ b) = adr (a ++ b).
  Proof using. intros Hb. destruct (exists_last Hb) as (c & (x, v) & ->). rewrite !app_assoc, !adr_snoc. reflexivity. Qed.
  Lemma final_loop_ok w last_ : forall m a b f, Inv w (a ++ m ++ b) -> last_ = hd 0 (ad b) -> length m <= f -> final_loop f w (adr a) last_ = Some (adr (a ++ m)).
  Proof using Hnd H0 Htb Ht0.
    induction m as [|(x, v) m IH]; intros a b f J El Hf.
    - cbn [app] in J. pose proof (nx_adr w a b J) as Na. rewrite app_nil_r. destruct f; cbn [final_loop]; rewrite Na, El, Nat.eqb_refl; reflexivity.
    - destruct f as [|f]; [cbn in Hf; lia|]. cbn [final_loop]. pose proof (nx_adr w a _ J) as Na. cbn [app map fst hd] in Na. rewrite Na.
      assert (x <> 0) as X0. { destruct (own_nodes w _ (proj1 J)) as (_ & Z & _). intros ->. apply Z. rewrite map_app, in_app_iff. right. now left. }
      assert (x <> last_) as D. { rewrite El. intros E. destruct b as [|(y, u) b]; [exact (X0 E)|]. cbn [map fst hd] in E. subst y. destruct (own_nodes w _ (proj1 J)) as (N & _ & _). rewrite !map_app in N. apply NoDup_cons_iff in N as (_ & N). apply NoDup_app_iff in N as (_ & N & _). cbn [map fst app] in N. apply NoDup_cons_iff in N as (N & _). apply N. rewrite in_app_iff. right. now left. }
      rewrite (proj2 (Nat.eqb_neq _ _) D), (proj2 (Nat.eqb_neq _ _) X0). change (((x, v) :: m) ++ b) with ([(x, v)] ++ m ++ b) in J. rewrite app_assoc in J. pose proof (IH _ b f J El ltac:(cbn in Hf; lia)) as E. rewrite adr_snoc, <- app_assoc in E. exact E.
  Qed.
  Lemma move_range_ok w l i j k : Inv w l -> S i < j <= S (length l) -> k <= length l -> k < i \/ j < k ->
    exists w' l', move_after_range blocks w (at_ l i) (at_ l j) (at_ l k) = Some w' /\ Inv w' l' /\ keeps w w' /\
      l' = (if k <? i then ins k (seg i (j - 1) l) (cut i (j - 1) l) else ins (k - (j - 1 - i)) (seg i (j - 1) l) (cut i (j - 1) l)).
  Proof using Hnd H0 Htb Ht0.
    intros J Hj Hk Hc. unfold move_after_range. rewrite (at_eqb w l i k J), (at_eqb w l j k J) by lia. rewrite (proj2 (Nat.eqb_neq i k)), (proj2 (Nat.eqb_neq j k)) by lia. cbn [orb].
    destruct (split3 l i (j - 1) ltac:(lia)) as (a0 & m & b0 & El & La & Lm). destruct m as [|(x, v) m]; [cbn in Lm; lia|].
    assert (at_ l i = adr a0) as Ei by (rewrite El, <- La; apply at_adr).
    assert (at_ l j = hd 0 (ad b0)) as Ej. { rewrite El. replace j with (S (length (a0 ++ (x, v) :: m))) by (rewrite app_length; lia). rewrite app_assoc. apply at_hd. }
    cbv zeta. rewrite Ei, Ej. pose proof J as J0. rewrite El in J0. rewrite (final_loop_ok w _ ((x, v) :: m) a0 b0 (fuel blocks) J0 eq_refl) by (unfold fuel; pose proof (own_len w l (proj1 J)) as (Q & _); rewrite El, !app_length in Q; lia).
    rewrite (nx_adr w a0 _ J0). cbn [map fst hd app]. assert (nx w (adr (a0 ++ (x, v) :: m)) = hd 0 (ad b0)) as Ef by (apply nx_adr; rewrite <- app_assoc; exact J0). rewrite Ef.
    assert (adr (a0 ++ (x, v) :: m) = last (ad m) x) as Ed by (unfold adr; rewrite map_app, last_app; cbn [map fst]; now rewrite last_cons). rewrite Ed.
    assert (exists a b, a0 ++ b0 = a ++ b /\ at_ l k = adr a /\ length a = (if k <? i then k else k - (j - 1 - i))) as (a & b & E & Ek & Lk).
    { destruct (Nat.ltb_spec k i) as [Q|Q].
      - destruct (split_at a0 k ltac:(lia)) as (c & d & Ec & Lc & _). exists c, (d ++ b0). conj; [now rewrite Ec, <- app_assoc| |exact Lc]. rewrite El, Ec, <- app_assoc, <- Lc. apply at_adr.
      - destruct (split_at b0 (k - (j - 1)) ltac:(rewrite El, !app_length in Hk; lia)) as (c & d & Ec & Lc & _). exists (a0 ++ c), d. conj; [now rewrite Ec, <- app_assoc| |rewrite app_length; lia].
        rewrite <- (adr_mid a0 ((x, v) :: m) c) by (intros ->; cbn in Lc; lia). rewrite El, Ec. replace (a0 ++ ((x, v) :: m) ++ c ++ d) with ((a0 ++ ((x, v) :: m) ++ c) ++ d) by (now rewrite <- !app_assoc). rewrite <- (at_adr _ d). f_equal. rewrite !app_length. lia. }
    rewrite Ek. destruct (move_seg_ok w l a0 x v m b0 a b J El E) as (J' & K). cbv zeta in J', K. eexists _, _. conj; [reflexivity|exact J'|exact K|].
    assert (seg i (j - 1) l = (x, v) :: m) as Es by (rewrite El, <- La; replace (j - 1) with (length a0 + length ((x, v) :: m)) by lia; apply seg_app).
    assert (cut i (j - 1) l = a ++ b) as Ec by (rewrite <- E, El, <- La; replace (j - 1) with (length a0 + length ((x, v) :: m)) by lia; apply cut_app).
    rewrite Es, Ec. destruct (k <? i); rewrite <- Lk; symmetry; apply ins_app.
  Qed.
  Lemma seg_map {B C} (f : B -> C) a b l : seg a b (map f l) = map f (seg a b l). Proof using. unfold seg. now rewrite skipn_map', firstn_map. Qed.
  Lemma cut_map {B C} (f : B -> C) a b l : cut a b (map f l) = map f (cut a b l). Proof using. unfold cut. now rewrite map_app, skipn_map', firstn_map. Qed.
  Lemma ins_map {B C} (f : B -> C) k v l : ins k (map f v) (map f l) = map f (ins k v l). Proof using. unfold ins. now rewrite !map_app, skipn_map', firstn_map. Qed.
  Lemma move_range_step i j k : stepOK (FmoveAfterRange i j k).
  Proof using Hnd H0 Htb Ht0.
    intros w l J Ha. cbn [allowed] in Ha. rewrite map_length in Ha. cbn [fwd_op f_step fst snd]. rewrite (pos_at w l i J), (pos_at w l j J), (pos_at w l k J) by lia. unfold ok1.
    destruct (Nat.eqb_spec i k) as [->|D1]; [|destruct (Nat.eqb_spec j k) as [->|D2]]; cbn [orb].
    - unfold move_after_range. rewrite Nat.eqb_refl. exists w, l. conj; [reflexivity|exact J|reflexivity|apply keeps_refl].
    - unfold move_after_range. rewrite Nat.eqb_refl, orb_true_r. exists w, l. conj; [reflexivity|exact J|reflexivity|apply keeps_refl].
    - destruct (move_range_ok w l i j k J) as (w' & l' & -> & J' & K & E); [lia|lia|lia|]. exists w', l'. conj; [reflexivity|exact J'| |exact K]. rewrite !seg_map, !cut_map, !ins_map, E. now destruct (k <? i).
  Qed.
  Lemma move_after_step i k : stepOK (FmoveAfter i k).
  Proof using Hnd H0 Htb Ht0.
    intros w l J Ha. cbn [allowed] in Ha. rewrite map_length in Ha. cbn [fwd_op f_step fst snd]. rewrite (pos_at w l i J), (pos_at w l k J) by lia. unfold ok1, move_after. rewrite (at_eqb w l i k J) by lia.
    destruct (Nat.eqb_spec i k) as [->|D1]; [exists w, l; conj; [reflexivity|exact J|reflexivity|apply keeps_refl]|]. cbv zeta.
    destruct (split3 l i (S i) ltac:(lia)) as (a0 & m & b0 & El & La & Lm). replace (S i - i) with 1 in Lm by lia. destruct m as [|(x, v) [|]]; [discriminate| |discriminate].
    assert (at_ l i = adr a0) as Ei by (rewrite El, <- La; apply at_adr). rewrite Ei. pose proof J as J0. rewrite El in J0. rewrite (nx_adr w a0 _ J0). cbn [map fst hd app].
    assert (x <> 0) as X0. { destruct (own_nodes w _ (proj1 J0)) as (_ & Z & _). intros ->. apply Z. rewrite !map_app, !in_app_iff. right. left. now left. } rewrite (proj2 (Nat.eqb_neq _ _) X0).
    assert (nx w x = hd 0 (ad b0)) as Ef. { rewrite <- (adr_snoc a0 x v) at 1. apply nx_adr. rewrite <- app_assoc. exact J0. } rewrite Ef.
    assert (exists a b, a0 ++ b0 = a ++ b /\ at_ l k = adr a /\ length a = (if k <? i then k else k - 1)) as (a & b & E & Ek & Lk).
    { destruct (Nat.ltb_spec k i) as [Q|Q].
      - destruct (split_at a0 k ltac:(lia)) as (c & d & Ec & Lc & _). exists c, (d ++ b0). conj; [now rewrite Ec, <- app_assoc| |exact Lc]. rewrite El, Ec, <- app_assoc, <- Lc. apply at_adr.
      - destruct Ha as (Ha1 & Ha2 & Ha3). destruct (split_at b0 (k - S i) ltac:(rewrite El, !app_length in Ha2; cbn in Ha2; lia)) as (c & d & Ec & Lc & _). exists (a0 ++ c), d. conj; [now rewrite Ec, <- app_assoc| |rewrite app_length; lia].
        rewrite <- (adr_mid a0 [(x, v)] c) by (intros ->; cbn in Lc; lia). rewrite El, Ec. replace (a0 ++ [(x, v)] ++ c ++ d) with ((a0 ++ [(x, v)] ++ c) ++ d) by (now rewrite <- !app_assoc). rewrite <- (at_adr _ d). f_equal. rewrite !app_length. cbn [length]. lia. }
    rewrite Ek. destruct (move_seg_ok w l a0 x v [] b0 a b J El E) as (J' & K). cbv zeta in J', K. cbn [map last] in J', K. eexists _, _. conj; [reflexivity|exact J'| |exact K].
    assert (seg i (S i) l = [(x, v)]) as Es by (rewrite El, <- La; replace (S (length a0)) with (length a0 + length [(x, v)]) by (cbn; lia); apply seg_app).
    assert (cut i (S i) l = a ++ b) as Ec by (rewrite <- E, El, <- La; replace (S (length a0)) with (length a0 + length [(x, v)]) by (cbn; lia); apply cut_app).
    rewrite !seg_map, !cut_map, Es, Ec, !ins_map. destruct (k <? i); rewrite <- Lk, ins_app; reflexivity.
  Qed.
  (** ** sort *)
  Lemma inner_ext n n' m : (forall x, In x m -> n' x = n x) -> inner n m -> inner n' m.
  Proof using. induction m as [|x [|y m] IH]; intros H S; [exact I|exact I|]. destruct S as (S1 & S2). split; [rewrite H by (now left); exact S1|]. apply IH; [intros; apply H; now right|exact S2]. Qed.
  Lemma inner_tl n x m : inner n (x :: m) -> inner n m. Proof using. destruct m; [easy|]. intros (_ & S). exact S. Qed.
  Lemma mpath_inner n z : forall m, mpath n m z -> forall k, inner n (firstn k m).
  Proof using. induction m as [|x m IH]; intros P k; [rewrite firstn_nil; exact I|]. destruct P as (P1 & P2). destruct k as [|k]; [exact I|]. specialize (IH P2 k). cbn [firstn]. destruct m as [|y m]; [rewrite firstn_nil; exact I|]. destruct k as [|k]; [exact I|]. cbn [firstn] in *. split; [exact P1|exact IH]. Qed.
  Lemma mpath_skipn n z : forall k m, mpath n m z -> mpath n (skipn k m) z.
  Proof using. induction k as [|k IH]; intros m P; [exact P|]. destruct m as [|x m]; [exact I|]. apply IH. apply P. Qed.
  Lemma mpath_ext n n' z m : (forall x, In x m -> n' x = n x) -> mpath n m z -> mpath n' m z.
  Proof using. induction m as [|x m IH]; intros H P; [exact I|]. destruct P as (P1 & P2). split; [rewrite H by (now left); exact P1|]. apply IH; [intros; apply H; now right|exact P2]. Qed.
  Lemma left_loop_ok (w : world) : forall k x m, mpath (nx w) (x :: m) 0 -> ~ In 0 m -> left_loop k w x = (length (firstn k (x :: m)), hd 0 (skipn k (x :: m))).
  Proof using.
    induction k as [|k IH]; intros x m P Z; [reflexivity|]. cbn [left_loop]. destruct P as (P1 & P2). cbv zeta. rewrite P1. destruct m as [|y m].
    - cbn [hd Nat.eqb]. cbn [firstn skipn]. now rewrite firstn_nil, skipn_nil.
    - cbn [hd]. assert (y <> 0) as Y0 by (intros ->; apply Z; now left). rewrite (proj2 (Nat.eqb_neq _ _) Y0). rewrite (IH y m P2); [reflexivity|intros I; apply Z; now right].
  Qed.
  Section Merge.
    Variable lt : A -> A -> bool.
    Local Notation ltp := (fun a b : nat * A => lt (snd a) (snd b)).
    Local Notation hdt l := (hd t (ad l)).
    Local Notation hd0 l := (hd 0 (ad l)).
    (** the processed nodes, the rest of the left run, everything from the right run on *)
    Record mst (w : world) (P L Q : nodes) : Prop := {
      m_nd : NoDup (t :: ad (P ++ L ++ Q));
      m_0 : ~ In 0 (ad (P ++ L ++ Q));
      m_P : sgm (nx w) t (ad P);
      m_end : P <> [] -> chain (nx w) t (ad P);
      m_L : inner (nx w) (ad L);
      m_Q : mpath (nx w) (ad Q) 0;
      m_val : forall x v, In (x, v) (P ++ L ++ Q) -> vl w x = Some v
    }.
    Definition attach (w : world) (P : nodes) (x : nat) : world := join (join w (adr P) x) x 0.
    Lemma attach_nx w P x y : y <> x -> y <> adr P -> nx (attach w P x) y = nx w y.
    Proof using. intros E1 E2. unfold attach. cbn [join nx]. now rewrite !set_other. Qed.
    Lemma code_attach (w : world) (P : nodes) (x : nat) : ~ In t (ad P) -> (if Nat.eqb (hdt P) t then (join w (hdt P) x, x, x) else (join w (adr P) x, hdt P, x)) = (join w (adr P) x, hd x (ad P), x).
    Proof using. intros N. destruct P as [|(y, v) P]; [cbn; now rewrite Nat.eqb_refl|]. cbn [map hd fst]. destruct (Nat.eqb_spec y t) as [->|]; [exfalso; apply N; now left|reflexivity]. Qed.
    Lemma mst_step w P L Q x v L' Q' : mst w P L Q -> (L = (x, v) :: L' /\ Q = Q' \/ L = L' /\ Q = (x, v) :: Q') -> mst (attach w P x) (P ++ [(x, v)]) L' Q'.
    Proof using.
      intros [M1 M0 M2 M3 M4 M5 M6] H.
      assert (Permutation (P ++ L ++ Q) ((P ++ [(x, v)]) ++ L' ++ Q')) as Pm. { rewrite <- app_assoc. apply Permutation_app_head. destruct H as [(-> & ->)|(-> & ->)]; [reflexivity|]. cbn. symmetry. apply Permutation_middle. }
      assert (NoDup (t :: ad ((P ++ [(x, v)]) ++ L' ++ Q'))) as N2. { eapply Permutation_NoDup; [|exact M1]. constructor. now apply Permutation_map. }
      assert (NoDup (t :: ad P ++ [x])) as N3. { rewrite map_app, app_comm_cons in N2. apply NoDup_app_iff in N2 as (N2 & _). rewrite map_app in N2. exact N2. }
      assert (chain (nx (attach w P x)) t (ad (P ++ [(x, v)]))) as R.
      { rewrite map_app. cbn [map fst attach join nx]. apply chain_app. rewrite app_comm_cons in N3. apply NoDup_app_iff in N3 as (N4 & _ & N5). split.
        - apply sgm_out'; [intros I; apply (N5 x I); now left|exact N4|]. now apply sgm_last.
        - apply chain_cons. fold (adr P). split; [|apply chain_nil; apply set_same]. rewrite set_other; [apply set_same|]. intros E. apply (N5 x); [rewrite <- E; unfold adr; apply last_in|now left]. }
      assert (forall y, In y (ad (L' ++ Q')) -> nx (attach w P x) y = nx w y) as Hn.
      { intros y I. rewrite map_app, app_comm_cons in N2. apply NoDup_app_iff in N2 as (_ & _ & N2). apply attach_nx; intros ->; refine (N2 _ _ I); rewrite map_app.
        - right. apply in_app_iff. right. now left.
        - pose proof (last_in (ad P) t) as [C|C]; fold (adr P) in C; [left; exact C|right; apply in_app_iff; now left]. }
      constructor.
      - exact N2.
      - intros I. apply M0. eapply Permutation_in; [symmetry; apply Permutation_map; exact Pm|exact I].
      - exact (proj1 R).
      - intros _. exact R.
      - eapply inner_ext; [intros y I; apply Hn; rewrite map_app; apply in_app_iff; left; exact I|]. destruct H as [(-> & ->)|(-> & ->)]; [exact (inner_tl _ _ _ M4)|exact M4].
      - eapply mpath_ext; [intros y I; apply Hn; rewrite map_app; apply in_app_iff; right; exact I|]. destruct H as [(-> & ->)|(-> & ->)]; [exact M5|apply M5].
      - intros y u I. apply M6. eapply Permutation_in; [symmetry; exact Pm|exact I].
    Qed.
    Lemma mst_t w P L Q : mst w P L Q -> ~ In t (ad P).
    Proof using. intros [M1 _ _ _ _ _ _] I. inversion M1 as [|? ? N]; subst. apply N. rewrite map_app. apply in_app_iff. now left. Qed.
    Lemma mst_q w P L Q x v Q' : mst w P L Q -> Q = (x, v) :: Q' -> x <> 0 /\ nx w x = hd0 Q' /\ vl w x = Some v.
    Proof using. intros [_ M0 _ _ _ M5 M6] ->. cbn in M5. conj; [intros ->; apply M0; rewrite !map_app, !in_app_iff; right; right; now left|apply M5|apply M6; rewrite !in_app_iff; right; right; now left]. Qed.
    Lemma hd_snoc P (x : nat) (v : A) : hd x (ad P) = hdt (P ++ [(x, v)]). Proof using. destruct P; reflexivity. Qed.
    Lemma sort_merge_ok l : forall f w P L Q rs il, mst w P L Q -> (forall y, In y (ad (P ++ L ++ Q)) -> In y (ad l)) -> (L <> [] -> il = hd0 L) -> length L + length (firstn rs Q) <= f ->
      exists w', sort_merge t f w lt il (length L) (hd0 Q) rs (hdt P) (adr P) = Some (w', hd0 (skipn rs Q), hdt (P ++ merged ltp L (firstn rs Q)), adr (P ++ merged ltp L (firstn rs Q)))
        /\ mst w' (P ++ merged ltp L (firstn rs Q)) [] (skipn rs Q) /\ moved l w w'.
    Proof using.
      clear Ht0. induction f as [|f IH]; intros w P L Q rs il M Hi Hl Hf.
      - destruct L as [|]; [|cbn in Hf; lia]. assert (firstn rs Q = []) as Er by (destruct (firstn rs Q); [reflexivity|cbn in Hf; lia]). cbn [sort_merge length]. rewrite Er, merged_l0, app_nil_r.
        assert ((0 <? rs) && negb (Nat.eqb (hd0 Q) 0) = false) as Ec. { destruct rs; [reflexivity|]. destruct Q as [|e Q]; [reflexivity|discriminate]. }
        change ((0 <? 0) || ((0 <? rs) && negb (Nat.eqb (hd0 Q) 0))) with ((0 <? rs) && negb (Nat.eqb (hd0 Q) 0)). rewrite Ec.
        assert (skipn rs Q = Q) as -> by (destruct rs; [reflexivity|destruct Q; [reflexivity|discriminate]]). exists w. conj; [reflexivity|exact M|apply moved_refl].
      - cbn [sort_merge].
        assert (forall x v L' Q' rs' il', (L = (x, v) :: L' /\ Q = Q' \/ L = L' /\ Q = (x, v) :: Q') -> (L' <> [] -> il' = hd0 L') -> length L' + length (firstn rs' Q') <= f -> merged ltp L (firstn rs Q) = (x, v) :: merged ltp L' (firstn rs' Q') -> skipn rs Q = skipn rs' Q' ->
          exists w', sort_merge t f (attach w P x) lt il' (length L') (hd0 Q') rs' (hd x (ad P)) x = Some (w', hd0 (skipn rs Q), hdt (P ++ merged ltp L (firstn rs Q)), adr (P ++ merged ltp L (firstn rs Q)))
          /\ mst w' (P ++ merged ltp L (firstn rs Q)) [] (skipn rs Q) /\ moved l w w') as G.
        { intros x v L' Q' rs' il' H1 H2 H3 H4 H5. pose proof (mst_step _ _ _ _ x v L' Q' M H1) as M'.
          assert (forall y, In y (ad ((P ++ [(x, v)]) ++ L' ++ Q')) -> In y (ad (P ++ L ++ Q))) as Hin. { intros y. rewrite !map_app, !in_app_iff. cbn [map fst In]. destruct H1 as [(-> & ->)|(-> & ->)]; cbn [map fst In]; tauto. }
          destruct (IH _ _ _ _ rs' il' M') as (w' & E' & M2 & F2); [intros y Hy; apply Hi, Hin, Hy|exact H2|exact H3|]. exists w'. rewrite H4, H5. rewrite <- app_assoc in E', M2. cbn [app] in E', M2. rewrite <- hd_snoc, adr_snoc in E'. conj; [exact E'|exact M2|].
          destruct F2 as (F1 & F2 & F3). unfold moved. conj; [exact F1|exact F2|]. intros y Hy. rewrite (F3 y Hy). apply attach_nx; intros ->; apply Hy.
          - right. apply Hi, Hin. rewrite map_app, in_app_iff, map_app, in_app_iff. left. right. now left.
          - pose proof (adr_in P (L ++ Q)) as [E|I]; [left; exact E|right; apply Hi, I]. }
        pose proof (mst_t _ _ _ _ M) as Nt. destruct L as [|(x, v) L].
        + cbn [length]. destruct (firstn rs Q) as [|(y, u) R] eqn:ER.
          * assert ((0 <? rs) && negb (Nat.eqb (hd0 Q) 0) = false) as Ec. { destruct rs; [reflexivity|]. destruct Q as [|e Q]; [reflexivity|discriminate]. }
            change (0 <? 0) with false. cbn [orb]. rewrite Ec. assert (skipn rs Q = Q) as -> by (destruct rs; [reflexivity|destruct Q; [reflexivity|discriminate]]). rewrite merged_l0, app_nil_r. exists w. conj; [reflexivity|exact M|apply moved_refl].
          * destruct rs as [|rs]; [discriminate|]. destruct Q as [|e Q]; [discriminate|]. cbn [firstn] in ER. injection ER as -> ER. destruct (mst_q _ _ _ _ _ _ _ M eq_refl) as (Dy & Ny & Vy). change (0 <? 0) with false. change (0 <? S rs) with true. cbn [orb andb map fst hd]. rewrite (proj2 (Nat.eqb_neq _ _) Dy). cbn [negb Nat.eqb]. rewrite Ny, Nat.sub_succ, Nat.sub_0_r, code_attach by exact Nt. fold (attach w P y).
            destruct (G y u [] Q rs il) as (h' & E' & M' & F'); [right; split; reflexivity|intros []; reflexivity|cbn [length] in *; rewrite ER; lia|now rewrite !merged_l0, ER|reflexivity|]. exists h'. cbn [length] in E'. conj; [exact E'|exact M'|exact F'].
        + assert (il = x) as -> by (apply Hl; discriminate). change (0 <? length ((x, v) :: L)) with true. cbn [orb]. change (Nat.eqb (length ((x, v) :: L)) 0) with false. cbn iota.
          assert (vl w x = Some v) as Vx by (apply (m_val _ _ _ _ M); rewrite in_app_iff; right; now left).
          assert (L <> [] -> nx w x = hd0 L) as Hx. { pose proof (m_L _ _ _ _ M) as K. intros D. destruct L as [|e L]; [congruence|]. cbn in K |- *. apply K. }
          destruct (firstn rs Q) as [|(y, u) R] eqn:ER.
          * assert (Nat.eqb rs 0 || Nat.eqb (hd0 Q) 0 = true) as Ec. { destruct rs; [reflexivity|]. destruct Q as [|e Q]; [reflexivity|discriminate]. } rewrite Ec. rewrite code_attach by exact Nt. fold (attach w P x).
            destruct (G x v L Q rs (nx w x)) as (h' & E' & M' & F'); [left; split; reflexivity|exact Hx|cbn [length] in Hf; rewrite ER; cbn; lia|rewrite ER, !merged_r0; reflexivity|reflexivity|]. exists h'. replace (length ((x, v) :: L) - 1) with (length L) by (cbn; lia). conj; [exact E'|exact M'|exact F'].
          * destruct rs as [|rs]; [discriminate|]. destruct Q as [|e Q]; [discriminate|]. cbn [firstn] in ER. injection ER as -> ER. destruct (mst_q _ _ _ _ _ _ _ M eq_refl) as (Dy & Ny & Vy). cbn [map fst hd Nat.eqb orb]. rewrite (proj2 (Nat.eqb_neq _ _) Dy), Vx, Vy. destruct (lt u v) eqn:C; cbn [negb]; rewrite code_attach by exact Nt.
            -- fold (attach w P y). rewrite Ny, Nat.sub_succ, Nat.sub_0_r. destruct (G y u ((x, v) :: L) Q rs x) as (h' & E' & M' & F'); [right; split; reflexivity|reflexivity|cbn [length] in *; rewrite ER; lia|rewrite merged_cc, ER; cbn [snd]; now rewrite C|reflexivity|]. exists h'. conj; [exact E'|exact M'|exact F'].
            -- fold (attach w P x). destruct (G x v L ((y, u) :: Q) (S rs) (nx w x)) as (h' & E' & M' & F'); [left; split; reflexivity|exact Hx|cbn [length firstn] in *; rewrite ER; lia|cbn [firstn]; rewrite merged_cc, ER; cbn [snd]; now rewrite C|reflexivity|]. exists h'. replace (length ((x, v) :: L) - 1) with (length L) by (cbn; lia). conj; [exact E'|exact M'|exact F'].
    Qed.
    Lemma moved_trans l w1 w2 w3 : moved l w1 w2 -> moved l w2 w3 -> moved l w1 w3.
    Proof using. intros (A1 & A2 & A3) (B1 & B2 & B3). unfold moved. conj; [congruence|congruence|]. intros y Hy. rewrite (B3 y Hy). now apply A3. Qed.
    Lemma sort_pass_ok l k : 0 < k -> forall f w P Q, mst w P [] Q -> (forall y, In y (ad (P ++ Q)) -> In y (ad l)) -> length Q <= f -> length Q <= fuel blocks ->
      exists w' c, sort_pass t blocks f w lt k (hd0 Q) (hdt P) (adr P) = Some (w', c) /\ mst w' (P ++ runs ltp f k Q) [] [] /\ moved l w w' /\ (c = 0 <-> Q = []) /\ (c <= 1 <-> length Q <= 2 * k).
    Proof using.
      clear Ht0. intros Hk. induction f as [|f IH]; intros h P Q M Hi Hf Hfu.
      - destruct Q; [|cbn in Hf; lia]. exists h, 0. cbn [runs map hd sort_pass Nat.eqb]. rewrite app_nil_r. conj; [reflexivity|exact M|apply moved_refl|split; reflexivity|cbn; lia].
      - cbn [sort_pass runs]. destruct Q as [|(x, v) Q]; [exists h, 0; cbn [map hd Nat.eqb]; rewrite app_nil_r; conj; [reflexivity|exact M|apply moved_refl|split; reflexivity|cbn; lia]|].
        destruct (mst_q _ _ _ _ _ _ _ M eq_refl) as (Dx & _). cbn [map fst hd]. rewrite (proj2 (Nat.eqb_neq _ _) Dx). pose proof (m_Q _ _ _ _ M) as C. cbn [map fst] in C. rewrite (left_loop_ok h k x (ad Q) C) by (intros I; apply (m_0 _ _ _ _ M); rewrite !map_app, !in_app_iff; right; right; now right). change (x :: ad Q) with (ad ((x, v) :: Q)). set (T := (x, v) :: Q) in *.
        rewrite firstn_map, skipn_map', map_length. assert (0 < length T) as HT by (unfold T; cbn; lia).
        assert (mst h P (firstn k T) (skipn k T)) as M1. { destruct M as [M1 M0 M2 M3 M4 M5 M6]. cbn [app] in *. constructor; [rewrite firstn_skipn; exact M1|rewrite firstn_skipn; exact M0|exact M2|exact M3| | |rewrite firstn_skipn; exact M6]; [rewrite <- firstn_map; exact (mpath_inner _ _ _ M5 k)|rewrite <- skipn_map'; now apply mpath_skipn]. }
        destruct (sort_merge_ok l (2 * fuel blocks) h P (firstn k T) (skipn k T) k x M1) as (h1 & -> & M2 & F2).
        + intros y Hy. rewrite firstn_skipn in Hy. now apply Hi.
        + intros _. unfold T. destruct k; [lia|reflexivity].
        + rewrite !firstn_length, skipn_length. lia.
        + set (P1 := P ++ merged ltp (firstn k T) (firstn k (skipn k T))) in *.
          destruct (IH h1 P1 (skipn k (skipn k T)) M2) as (h' & c & -> & M3 & F3 & Hc0 & Hc); [|rewrite !skipn_length; lia|rewrite !skipn_length; lia|].
          * intros y Hy. apply Hi. assert (Permutation (P1 ++ skipn k (skipn k T)) (P ++ T)) as Pq. { unfold P1. rewrite <- app_assoc. apply Permutation_app_head. rewrite merged_perm, <- app_assoc, !firstn_skipn. reflexivity. } eapply Permutation_in; [apply Permutation_map; exact Pq|exact Hy].
          * exists h', (S c). conj; [reflexivity| |exact (moved_trans _ _ _ _ F2 F3)|split; discriminate|].
            -- unfold P1 in M3. rewrite <- app_assoc in M3. exact M3.
            -- assert (length (skipn k (skipn k T)) = length T - 2 * k) as E0 by (rewrite !skipn_length; lia). split; intros Hc1.
               ++ rewrite (proj1 Hc0) in E0 by lia. cbn [length] in E0. lia.
               ++ assert (c = 0); [|lia]. apply Hc0. destruct (skipn k (skipn k T)); [reflexivity|cbn [length] in E0; lia].
    Qed.
    Lemma sort_loop_ok l0 : strict_weak_order lt -> forall f w k l, mst w [] [] l -> chain (nx w) t (ad l) -> (forall y, In y (ad l) -> In y (ad l0)) -> 0 < length l -> length l <= fuel blocks -> 0 < k -> chunks ltp k l -> length l <= k * 2 ^ f -> 0 < f ->
      exists w' l', sort_loop t blocks f w lt k = Some w' /\ chain (nx w') t (ad l') /\ Permutation l' l /\ l' = stable_sort ltp l /\ moved l0 w w'.
    Proof using.
      clear Ht0. intros O. assert (strict_weak_order ltp) as Op. { destruct O as [O1 O2 O3]. constructor; intros; [apply O1|now apply (O2 _ (snd y))|now apply (O3 _ (snd y))]. }
      induction f as [|f IH]; intros h k l M R Hi Hl Hfu Hk C Hp Hf; [lia|]. cbn [sort_loop]. assert (nx h t = hd0 l) as -> by (destruct R as (R1 & R2); apply (sgm_mpath _ _ _ _ R2 R1)).
      destruct (sort_pass_ok l0 k Hk (fuel blocks) h [] l M Hi Hfu Hfu) as (h1 & c & E1 & M1 & F1 & Hc0 & Hc). cbn [map hd last app] in E1, M1, F1. change (adr []) with t in E1. rewrite E1. set (l1 := runs ltp (fuel blocks) k l) in *.
      pose proof (runs_perm ltp (fuel blocks) k l Hk Hfu) as P1. fold l1 in P1. pose proof (Permutation_length P1) as Pl.
      assert (chain (nx h1) t (ad l1)) as R1. { apply (m_end _ _ _ _ M1). intros E. rewrite E in Pl. cbn in Pl. lia. }
      pose proof (runs_chunks ltp Op (fuel blocks) k l C Hk Hfu) as C1. pose proof (runs_sort ltp Op (fuel blocks) k l C Hk Hfu) as S1. fold l1 in C1, S1.
      destruct (Nat.leb_spec c 1) as [Hc1|Hc1].
      - exists h1, l1. conj; [reflexivity|exact R1|exact P1| |exact F1]. rewrite <- S1. symmetry. apply (chunks_whole ltp (k * 2)); [exact C1|]. apply Hc in Hc1. lia.
      - destruct f as [|f].
        + exfalso. cbn in Hp. assert (c <= 1); [apply Hc; lia|lia].
        + destruct (IH h1 (k * 2) l1) as (h' & l' & E' & R' & P' & S' & F').
          * destruct M1 as [Q1 Q0 Q2 Q3 Q4 Q5 Q6]. rewrite !app_nil_r in *. constructor; cbn [app]; [exact Q1|exact Q0|exact I|intros []; reflexivity|exact I| |exact Q6]. destruct R1 as (R1 & R2). apply (sgm_mpath _ _ _ _ R2 R1).
          * exact R1.
          * intros y Hy. apply Hi. eapply Permutation_in; [apply Permutation_map; exact P1|exact Hy].
          * lia.
          * lia.
          * lia.
          * exact C1.
          * rewrite Pl. cbn [Nat.pow] in *. nia.
          * lia.
          * exists h', l'. conj; [exact E'|exact R'|now rewrite P'|now rewrite S', S1|exact (moved_trans _ _ _ _ F1 F')].
    Qed.
  End Merge.
  Lemma pow2_ge m : m <= 2 ^ m. Proof using. clear Ht0. induction m as [|m IH]; cbn [Nat.pow]; [lia|]. pose proof (Nat.pow_nonzero 2 m). lia. Qed.
  Lemma sort_step lt : stepOK (Fsort lt).
  Proof using Hnd H0 Htb Ht0 Hext.
    intros w l J Ho. cbn [allowed fwd_op f_step fst snd] in *. unfold ok1, sort. rewrite (size_ok w l J). destruct (Nat.ltb_spec (length l) 2) as [Hl|Hl].
    - exists w, l. conj; [reflexivity|exact J| |apply keeps_refl]. destruct l as [|? [|]]; [reflexivity|reflexivity|cbn in Hl; lia].
    - pose proof J as (O & C). destruct (own_nodes w l O) as (N & Z & _).
      destruct (sort_loop_ok lt l Ho (fuel blocks) w 1 l) as (w' & l' & -> & R' & P' & E' & F').
      + constructor; cbn [app map]; [exact N|exact Z|exact I|intros []; reflexivity|exact I| |apply O]. destruct C as (C1 & C2). apply (sgm_mpath _ _ _ _ C2 C1).
      + exact C.
      + now intros y.
      + lia.
      + apply (len_fuel w l J).
      + lia.
      + apply chunks_1.
      + rewrite Nat.mul_1_l. pose proof (len_fuel w l J). pose proof (pow2_ge (fuel blocks)). lia.
      + unfold fuel. lia.
      + destruct (moved_inv l l' w w' O F' (Permutation_sym P') R') as (J' & K). exists w', l'. conj; [reflexivity|exact J'| |exact K]. rewrite E'. apply stable_sort_map.
  Qed.
  (** ** every operation, and every history *)
  Lemma op_ok o : stepOK o.
  Proof using Hnd H0 Htb Ht0 Hext.
    destruct question_steps as (Q1 & Q2 & Q3 & Q4 & Q5).
    destruct o; [apply push_front_step|apply pop_front_step|apply insert_after_step|apply insert_after_n_step|apply insert_range_step|apply erase_after_step|apply erase_range_step|apply resize_step|apply clear_step|apply assign_step|apply assign_n_step|apply remove_if_step|apply unique_step|apply reverse_step|apply sort_step|apply move_after_step|apply move_range_step|apply front_step|exact Q1|exact Q2|exact Q3|exact Q4|exact Q5].
  Qed.
  Lemma ops_ok : forall os w l, Inv w l -> all_allowed (length blocks) (length ext) check os (map snd l) ->
    exists w' l', fwd_ops t blocks check shared triv os w = Some (fst (f_steps (length blocks) (length ext) check os (map snd l)), w') /\ Inv w' l' /\ map snd l' = snd (f_steps (length blocks) (length ext) check os (map snd l)) /\ keeps w w'.
  Proof using Hnd H0 Htb Ht0 Hext.
    induction os as [|o os IH]; intros w l J Ha.
    - exists w, l. conj; [reflexivity|exact J|reflexivity|apply keeps_refl].
    - destruct Ha as (Ha & Hr). destruct (op_ok o w l J Ha) as (w1 & l1 & E1 & J1 & M1 & K1). rewrite <- M1 in Hr. destruct (IH w1 l1 J1 Hr) as (w2 & l2 & E2 & J2 & M2 & K2). cbn [fwd_ops f_steps]. rewrite E1. rewrite E2. rewrite M1 in *.
      destruct (f_step _ _ _ o (map snd l)) as (x, y). cbn [fst snd] in *. destruct (f_steps _ _ _ os y) as (xs, z). cbn [fst snd] in *. exists w2, l2. conj; [reflexivity|exact J2|exact M2|exact (keeps_trans _ _ _ K1 K2)].
  Qed.
End Proofs.
