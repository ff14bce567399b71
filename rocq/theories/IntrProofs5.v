(** Proofs for intrusive_links.h: forward links, joining and clearing chains; intrusive_stack.h, intrusive_queue.h *)
From Coq Require Import List Arith Bool Lia Permutation.
From Verif Require Import Util SortSpec ListSpec Dll MergeSort ListModel ListProofs IntrModel IntrSpec IntrProofs IntrProofs2.
Import ListNotations.
Lemma nodup_split (l1 l2 m1 m2 : list nat) x : NoDup (l1 ++ x :: l2) -> l1 ++ x :: l2 = m1 ++ x :: m2 -> l1 = m1 /\ l2 = m2.
Proof.
  revert m1. induction l1 as [|a l1 IH]; intros m1 N E; destruct m1 as [|b m1]; cbn in *.
  - injection E as E. now split.
  - injection E as <- E. inversion N as [|? ? N1]; subst. exfalso. apply N1. apply in_app_iff. right. now left.
  - injection E as -> E. inversion N as [|? ? N1]; subst. exfalso. apply N1. apply in_app_iff. right. now left.
  - injection E as -> E. inversion N as [|? ? N1 N2]; subst. destruct (IH m1 N2 E) as (-> & ->). now split.
Qed.
(** two null terminated chains, cut anywhere *)
Lemma through_cut_prefix h p p' : through h 0 (p ++ p') -> forall a x b, p = a ++ x :: b -> prv h x = last a 0 /\ (b <> [] -> nxt h x = hd 0 b).
Proof. intros (_ & _ & _ & H) a x b ->. destruct (H a x (b ++ p')) as (E1 & E2); [now rewrite <- app_assoc|]. split; [exact E2|]. intros Nb. rewrite E1. now destruct b. Qed.
Lemma through_cut_suffix h q' q : through h 0 (q' ++ q) -> forall a x b, q = a ++ x :: b -> nxt h x = hd 0 b /\ (a <> [] -> prv h x = last a 0).
Proof. intros (_ & _ & _ & H) a x b ->. destruct (H (q' ++ a) x b) as (E1 & E2); [now rewrite <- app_assoc|]. split; [exact E1|]. intros Na. rewrite E2. destruct (exists_last Na) as (r & y & ->). rewrite app_assoc, !last_last. reflexivity. Qed.
Lemma link_chains_ok h p p' q' q : through h 0 (p ++ p') -> through h 0 (q' ++ q) -> NoDup (p ++ q) -> p <> [] -> q <> [] ->
  through (link h (last p 0) (hd 0 q)) 0 (p ++ q) /\ only [last p 0; hd 0 q] h (link h (last p 0) (hd 0 q)).
Proof.
  intros Tp Tq N Np Nq. assert (~ In 0 p /\ ~ In 0 q) as (Zp & Zq). { destruct Tp as (_ & Z1 & _), Tq as (_ & Z2 & _). rewrite in_app_iff in *. tauto. }
  change (link h (last p 0) (hd 0 q)) with (join h (last p 0) (hd 0 q)). split; [|apply only_join; cbn; tauto]. split; [constructor; [rewrite in_app_iff; tauto|exact N]|]. split; [rewrite in_app_iff; tauto|]. split; [congruence|].
  pose proof (through_cut_prefix _ _ _ Tp) as Hp. pose proof (through_cut_suffix _ _ _ Tq) as Hq.
  intros a x b E. rewrite join_nxt, join_prv. destruct (in_app_or p q x) as [Ix|Ix]; [rewrite E; apply in_app_iff; right; now left| |].
  - assert (~ In x q) as Nx by (apply NoDup_app_iff in N as (_ & _ & N3); now apply N3). assert (x <> hd 0 q) as Dh by (intros ->; apply Nx; now apply hd_In). rewrite (proj2 (Nat.eqb_neq _ _) Dh).
    apply in_split in Ix as (p1 & p2 & Ep). assert (a = p1 /\ b = p2 ++ q) as (-> & ->). { rewrite Ep, <- app_assoc in E. cbn [app] in E. rewrite Ep, <- app_assoc in N. cbn [app] in N. destruct (nodup_split _ _ _ _ _ N E) as (<- & <-). now split. }
    destruct (Hp _ _ _ Ep) as (K1 & K2). split; [|exact K1]. destruct (Nat.eqb_spec x (last p 0)) as [->|D].
    + assert (p2 = []) as ->; [|reflexivity]. destruct p2 as [|y p2]; [reflexivity|]. exfalso. apply NoDup_app_iff in N as (N1 & _). assert (In (last p 0) (y :: p2)) as C. { assert (last p 0 = last (y :: p2) 0) as ->; [|now apply last_In]. rewrite Ep at 1. destruct (exists_last (l := y :: p2)) as (r & w & ->); [discriminate|]. rewrite last_last. change (p1 ++ last p 0 :: r ++ [w]) with (p1 ++ (last p 0 :: r) ++ [w]). rewrite app_assoc. apply last_last. }
      rewrite Ep in N1. apply NoDup_remove_2 in N1. apply N1. apply in_app_iff. right. exact C.
    + rewrite K2; [destruct p2; [|reflexivity]|]; try (intros ->; apply D; rewrite Ep; now rewrite last_last). exfalso. apply D. rewrite Ep. now rewrite last_last.
  - assert (~ In x p) as Nx by (apply NoDup_app_iff in N as (_ & _ & N3); intros C; exact (N3 x C Ix)). assert (x <> last p 0) as Dl by (intros ->; apply Nx; now apply last_In). rewrite (proj2 (Nat.eqb_neq _ _) Dl).
    apply in_split in Ix as (q1 & q2 & Eq). assert (a = p ++ q1 /\ b = q2) as (-> & ->). { rewrite Eq in E, N. rewrite app_assoc in E, N. destruct (nodup_split _ _ _ _ _ N E) as (<- & <-). now split. }
    destruct (Hq _ _ _ Eq) as (K1 & K2). split; [exact K1|]. destruct (Nat.eqb_spec x (hd 0 q)) as [->|D].
    + assert (q1 = []) as ->; [|now rewrite app_nil_r]. destruct q1 as [|y q1]; [reflexivity|]. exfalso. apply NoDup_app_iff in N as (_ & N1 & _). rewrite Eq in N1. cbn in N1. inversion N1 as [|? ? N2]; subst. apply N2. rewrite Eq. cbn [hd]. apply in_app_iff. right. now left.
    + assert (q1 <> []) as Nq1. { intros ->. apply D. rewrite Eq. reflexivity. } rewrite (K2 Nq1). destruct (exists_last Nq1) as (r & y & ->). now rewrite app_assoc, !last_last.
Qed.

Lemma link_p_link h a b : a <> 0 -> b <> 0 -> link_p h a b = link h a b.
Proof. intros Ha Hb. unfold link_p, link. apply Nat.eqb_neq in Ha, Hb. now rewrite Ha, Hb. Qed.
(** is_linked, exactly *)
Lemma is_linked_exact h t l x : through h t l -> In x l -> is_linked h x = negb ((t =? 0) && (length l =? 1)).
Proof.
  intros T I. apply in_split in I as (p & q & ->). destruct (through_mid _ _ _ _ _ T) as (En & Ep). unfold is_linked. rewrite En, Ep. pose proof T as (N & Z0 & _).
  destruct (Nat.eqb_spec t 0) as [->|D].
  - destruct p as [|a p _] using rev_ind; destruct q as [|b q].
    + reflexivity.
    + cbn. destruct (Nat.eqb_spec b 0) as [->|]; [|reflexivity]. exfalso. apply Z0. right. now left.
    + rewrite last_last. destruct (Nat.eqb_spec a 0) as [->|]; [exfalso; apply Z0; rewrite !in_app_iff; cbn; tauto|]. cbn. rewrite !app_length. cbn. destruct (Nat.eqb_spec (length p + 1 + 1) 1); [lia|reflexivity].
    + rewrite last_last. destruct (Nat.eqb_spec a 0) as [->|]; [exfalso; apply Z0; rewrite !in_app_iff; cbn; tauto|]. cbn. rewrite !app_length. cbn. destruct (Nat.eqb_spec (length p + 1 + S (S (length q))) 1); [lia|reflexivity].
  - cbn. pose proof (hd_nz t (p ++ [x]) q h D) as K. rewrite <- app_assoc in K. cbn [app] in K. specialize (K T). apply Nat.eqb_neq in K. rewrite K. now rewrite orb_true_r.
Qed.
(** clearing *)
Lemma link_clear_range_ok : forall m f h, forward (nxt h) 0 m -> length m <= f ->
  exists h', link_clear_range f h (hd 0 m) = Some h' /\ (forall x, In x m -> loose h' x) /\ only m h h'.
Proof.
  intros m f h F Hf. destruct (clear_loop_ok m f h 0 F Hf) as (h' & E & L & O). exists h'. conj; [|exact L|intros y _ Ny; now apply O].
  rewrite <- E. generalize (hd 0 m). clear. revert h. induction f as [|f IH]; intros h c; cbn; [reflexivity|]. destruct (c =? 0); [reflexivity|]. apply IH.
Qed.
(** pointer versions with null *)
Lemma link_splice_p_cut h p q : through h 0 (p ++ q) -> p <> [] -> let h' := link_splice_p h (last p 0) 0 in through h' 0 p /\ through h' 0 q /\ only [last p 0; hd 0 q] h h'.
Proof.
  intros T Np h'. assert (last p 0 <> 0) as Dl. { apply (through_neq0 _ _ _ _ T), in_app_iff. left. now apply last_In. }
  pose proof (through_nxt _ _ _ _ T Dl) as En.
  assert (eqv h' (set_nxt (if hd 0 q =? 0 then h else set_prv h (hd 0 q) 0) (last p 0) 0)) as E. { unfold h', link_splice_p. rewrite (proj2 (Nat.eqb_neq _ _) Dl). cbn [Nat.eqb]. rewrite En. apply eqv_refl. }
  set (h1 := set_nxt _ _ _) in E. pose proof T as (N & Z0 & _ & Hm).
  assert (NoDup (p ++ q)) as N0 by (now inversion N). apply NoDup_app_iff in N0 as (N1 & N2 & N3).
  assert (only [last p 0; hd 0 q] h h1) as O. { intros y Dy Ny. cbn in Ny. unfold h1. destruct (Nat.eqb_spec (hd 0 q) 0); cbn; destruct (Nat.eqb_spec y (last p 0)); try (exfalso; apply Ny; now left); [split; reflexivity|]. destruct (Nat.eqb_spec y (hd 0 q)); [exfalso; apply Ny; right; now left|split; reflexivity]. }
  assert (~ In (hd 0 q) p) as Nhp. { destruct q as [|y q]; cbn; [intros C; apply Z0; apply in_app_iff; now left|]. intros C. apply (N3 y C). now left. }
  conj.
  - apply (through_eqv h1); [now apply eqv_sym|]. split; [constructor; [intros C; apply Z0, in_app_iff; now left|exact N1]|split; [intros C; apply Z0, in_app_iff; now left|split; [congruence|]]].
    intros a x b Ep. destruct (Hm a x (b ++ q)) as (K1 & K2); [rewrite Ep, <- app_assoc; reflexivity|]. assert (x <> hd 0 q) as Dh. { intros ->. apply Nhp. rewrite Ep. apply in_app_iff. right. now left. } split.
    + unfold h1. cbn [nxt set_nxt]. destruct (Nat.eqb_spec x (last p 0)) as [->|D].
      * destruct b as [|z b]; [reflexivity|]. exfalso. assert (last p 0 = last (z :: b) 0) as C. { rewrite Ep at 1. destruct (exists_last (l := z :: b)) as (r & w & ->); [discriminate|]. rewrite last_last. change (a ++ last p 0 :: r ++ [w]) with (a ++ (last p 0 :: r) ++ [w]). rewrite app_assoc. apply last_last. }
        rewrite Ep in N1. apply NoDup_remove_2 in N1. apply N1. apply in_app_iff. right. rewrite C. now apply last_In.
      * assert (nxt (if hd 0 q =? 0 then h else set_prv h (hd 0 q) 0) x = nxt h x) as -> by (now destruct (hd 0 q =? 0)). rewrite K1. destruct b; [|reflexivity]. exfalso. apply D. rewrite Ep. now rewrite last_last.
    + rewrite <- K2. unfold h1. cbn [prv set_nxt]. destruct (hd 0 q =? 0); [reflexivity|]. cbn [prv set_prv]. now rewrite (proj2 (Nat.eqb_neq _ _) Dh).
  - apply (through_eqv h1); [now apply eqv_sym|]. split; [constructor; [intros C; apply Z0, in_app_iff; now right|exact N2]|split; [intros C; apply Z0, in_app_iff; now right|split; [congruence|]]].
    intros a x b Eq. destruct (Hm (p ++ a) x b) as (K1 & K2); [rewrite Eq, <- app_assoc; reflexivity|]. assert (In x q) as Ix by (rewrite Eq; apply in_app_iff; right; now left). assert (x <> last p 0) as Dl2. { intros ->. apply (N3 (last p 0)); [now apply last_In|exact Ix]. } split.
    + unfold h1. cbn [nxt set_nxt]. rewrite (proj2 (Nat.eqb_neq _ _) Dl2). rewrite <- K1. now destruct (hd 0 q =? 0).
    + unfold h1. cbn [prv set_nxt]. assert (hd 0 q <> 0) as Dh by (intros C; apply Z0, in_app_iff; right; rewrite <- C; apply hd_In; intros ->; destruct Ix). rewrite (proj2 (Nat.eqb_neq _ _) Dh). cbn [prv set_prv]. destruct (Nat.eqb_spec x (hd 0 q)) as [->|D].
      * destruct a as [|z a]; [reflexivity|]. exfalso. rewrite Eq in N2. cbn in N2. inversion N2 as [|? ? N4]; subst. apply N4. rewrite Eq. cbn [hd]. apply in_app_iff. right. now left.
      * rewrite K2. destruct a as [|z a]; [exfalso; apply D; now rewrite Eq|]. destruct (exists_last (l := z :: a)) as (r & w & ->); [discriminate|]. now rewrite app_assoc, !last_last.
  - now apply (only_eqv _ _ h1).
Qed.

(** ** forward links *)
Lemma fset_same n x v : fset n x v x = v. Proof. unfold fset. now rewrite Nat.eqb_refl. Qed.
Lemma fset_other n x v y : y <> x -> fset n x v y = n y. Proof. intros D. unfold fset. apply Nat.eqb_neq in D. now rewrite D. Qed.
Fixpoint fwd (n : nat -> nat) (t : nat) (l : list nat) : Prop := match l with [] => True | x :: r => n x = hd t r /\ fwd n t r end.
Lemma fwd_iff n t l : fwd n t l <-> forall p x q, l = p ++ x :: q -> n x = hd t q.
Proof.
  split.
  - induction l as [|y l IH]; intros H p x q E; [destruct p; discriminate E|]. destruct H as (H1 & H2). destruct p as [|z p]; cbn in E; injection E as <- E; [now subst|]. now apply (IH H2 p).
  - induction l as [|y l IH]; intros H; [exact I|]. split; [now apply (H [] y l)|]. apply IH. intros p x q E. apply (H (y :: p) x q). cbn. now rewrite E.
Qed.
Lemma fwd_app n t a b : fwd n t (a ++ b) <-> fwd n (hd t b) a /\ fwd n t b.
Proof. induction a as [|x a IH]; cbn; [tauto|]. rewrite IH, hd_app. tauto. Qed.
Lemma fwd_ext n n' t l : (forall x, In x l -> n' x = n x) -> fwd n t l -> fwd n' t l.
Proof. induction l as [|y l IH]; intros E H; [exact I|]. destruct H as (H1 & H2). split; [rewrite E by (now left); exact H1|]. apply IH; [intros; apply E; now right|exact H2]. Qed.
Lemma forward_fwd n t l : forward n t l <-> NoDup (t :: l) /\ ~ In 0 l /\ fwd n t l.
Proof. unfold forward. rewrite fwd_iff. tauto. Qed.
Lemma f_link_splice_range_ok n t p x q m : forward n t (p ++ x :: q) -> m <> [] -> ~ In 0 m -> (forall a u v b, m = a ++ u :: v :: b -> n u = v) -> NoDup (t :: p ++ x :: m ++ q) ->
  let n' := f_link_splice_range n x (hd 0 m) (last m 0) in forward n' t (p ++ x :: m ++ q) /\ f_only [x; last m 0] n n'.
Proof.
  intros F Nm Zm Hm N n'. apply forward_fwd in F as (_ & Z0 & F). apply fwd_app in F as (F1 & F2). cbn [hd fwd] in F1, F2. destruct F2 as (Ex & F2).
  destruct (exists_last Nm) as (m' & z & ->). unfold n', f_link_splice_range. rewrite last_last, Ex.
  change (p ++ x :: (m' ++ [z]) ++ q) with (p ++ [x] ++ (m' ++ [z]) ++ q) in *.
  assert (~ In x p /\ ~ In z p /\ ~ In x q /\ ~ In z q /\ ~ In x m' /\ ~ In z m' /\ x <> z) as (X1 & X2 & X3 & X4 & X5 & X6 & X7).
  { inversion N as [|? ? _ N0]; subst. apply NoDup_app_iff in N0 as (_ & N0 & A1). inversion N0 as [|? ? A2' N1]; subst. assert (forall w, In w [x] -> ~ In w ((m' ++ [z]) ++ q)) as A2 by (intros w [<-|[]]; exact A2'). apply NoDup_app_iff in N1 as (N2 & _ & A3). apply NoDup_remove_2 in N2. rewrite app_nil_r in N2.
    conj.
    - intros C. apply (A1 x C). now left.
    - intros C. apply (A1 z C). right. rewrite !in_app_iff. cbn. tauto.
    - intros C. apply (A2 x); [now left|]. rewrite !in_app_iff. tauto.
    - apply A3. rewrite in_app_iff. cbn. tauto.
    - intros C. apply (A2 x); [now left|]. rewrite !in_app_iff. tauto.
    - exact N2.
    - intros ->. apply (A2 z); [now left|]. rewrite !in_app_iff. cbn. tauto. }
  split.
  - apply forward_fwd. split; [exact N|split; [rewrite !in_app_iff in *; cbn in *; tauto|]]. apply fwd_app. split.
    + eapply fwd_ext; [|exact F1]. intros y Hy. rewrite !fset_other; [reflexivity| |]; intros ->; contradiction.
    + cbn [app fwd]. split; [rewrite fset_same; now destruct m'|]. rewrite <- app_assoc. apply fwd_app. split.
      * apply fwd_iff. intros a u b E. rewrite !fset_other; [|intros ->; apply X6; rewrite E; apply in_app_iff; right; now left|intros ->; apply X5; rewrite E; apply in_app_iff; right; now left].
        destruct b as [|v b]; cbn [hd app]; [apply (Hm a u z [])|apply (Hm a u v (b ++ [z]))]; rewrite E, <- app_assoc; reflexivity.
      * cbn [app fwd]. split; [rewrite fset_other by congruence; rewrite fset_same; reflexivity|]. eapply fwd_ext; [|exact F2]. intros y Hy. rewrite !fset_other; [reflexivity| |]; intros ->; contradiction.
  - intros y Ny. rewrite !fset_other; [reflexivity| |]; intros ->; apply Ny; cbn; tauto.
Qed.
Lemma f_link_splice_ok n t p x q y : forward n t (p ++ x :: q) -> y <> 0 -> ~ In y (t :: p ++ x :: q) ->
  let n' := f_link_splice n x y in forward n' t (p ++ x :: y :: q) /\ f_only [x; y] n n'.
Proof.
  intros F D Ny. apply (f_link_splice_range_ok n t p x q [y] F); [discriminate|cbn; intuition congruence| |].
  - intros a u v b E. destruct a as [|? [|? a]]; discriminate E.
  - cbn [app]. change (p ++ x :: y :: q) with (p ++ [x] ++ y :: q). rewrite app_assoc. apply nodup_mid; rewrite <- app_assoc; [apply F|exact Ny].
Qed.
Lemma unlink_after_range_ok n t p x m q : forward n t (p ++ x :: m ++ q) -> m <> [] ->
  let '(r, n') := unlink_after_range n x (last m 0) in r = hd 0 m /\ forward n' t (p ++ x :: q) /\ forward n' 0 m /\ f_only [x; last m 0] n n'.
Proof.
  intros F Nm. apply forward_fwd in F as (N & Z0 & F). destruct (exists_last Nm) as (m' & z & ->). rewrite last_last. apply fwd_app in F as (F1 & F2). cbn [hd fwd app] in F1, F2. destruct F2 as (Ex & F2). rewrite <- app_assoc in F2, Ex. apply fwd_app in F2 as (F2 & F3). cbn [app hd fwd] in F2, F3. destruct F3 as (Ez & F3).
  change (p ++ x :: (m' ++ [z]) ++ q) with (p ++ [x] ++ (m' ++ [z]) ++ q) in *.
  assert (~ In x p /\ ~ In z p /\ ~ In x q /\ ~ In z q /\ ~ In x m' /\ ~ In z m' /\ x <> z /\ NoDup (t :: p ++ x :: q) /\ NoDup (m' ++ [z])) as (X1 & X2 & X3 & X4 & X5 & X6 & X7 & N' & N'').
  { inversion N as [|? ? At N0]; subst. apply NoDup_app_iff in N0 as (Np & N0 & A1). inversion N0 as [|? ? A2' N1]; subst. assert (forall w, In w [x] -> ~ In w ((m' ++ [z]) ++ q)) as A2 by (intros w [<-|[]]; exact A2'). apply NoDup_app_iff in N1 as (N2 & Nq & A3). pose proof N2 as N2'. apply NoDup_remove_2 in N2. rewrite app_nil_r in N2.
    conj; try assumption.
    - intros C. apply (A1 x C). now left.
    - intros C. apply (A1 z C). right. rewrite !in_app_iff. cbn. tauto.
    - intros C. apply (A2 x); [now left|]. rewrite !in_app_iff. tauto.
    - apply A3. rewrite in_app_iff. cbn. tauto.
    - intros C. apply (A2 x); [now left|]. rewrite !in_app_iff. tauto.
    - intros ->. apply (A2 z); [now left|]. rewrite !in_app_iff. cbn. tauto.
    - constructor; [intros C; apply At; apply in_app_iff in C as [C|[C|C]]; apply in_app_iff; [now left|right; now left|right; right; apply in_app_iff; now right]|]. apply NoDup_app_iff. conj; [exact Np| |].
      + constructor; [intros C; apply (A2 x); [now left|rewrite !in_app_iff; tauto]|exact Nq].
      + intros w Hw C. apply (A1 w Hw). destruct C as [<-|C]; [now left|]. right. rewrite !in_app_iff. tauto. }
  unfold unlink_after_range. rewrite (proj2 (Nat.eqb_neq _ _) X7), Ez, Ex. conj.
  - now destruct m'.
  - apply forward_fwd. split; [exact N'|split; [rewrite !in_app_iff in *; cbn in *; tauto|]]. apply fwd_app. split; [eapply fwd_ext; [|exact F1]; intros y Hy; rewrite !fset_other; [reflexivity| |]; intros ->; contradiction|].
    cbn [fwd]. split; [rewrite fset_other by congruence; apply fset_same|]. eapply fwd_ext; [|exact F3]; intros y Hy; rewrite !fset_other; [reflexivity| |]; intros ->; contradiction.
  - apply forward_fwd. split; [constructor; [rewrite !in_app_iff in *; cbn in *; tauto|exact N'']|split; [rewrite !in_app_iff in *; cbn in *; tauto|]]. apply fwd_app. split; [|cbn; rewrite fset_same; tauto]. cbn [hd]. eapply fwd_ext; [|exact F2]. intros y Hy; rewrite !fset_other; [reflexivity| |]; intros ->; contradiction.
  - intros y Ny. rewrite !fset_other; [reflexivity| |]; intros ->; apply Ny; cbn; tauto.
Qed.
Lemma unlink_after_ok n t p x y q : forward n t (p ++ x :: y :: q) ->
  let '(r, n') := unlink_after n x in r = y /\ forward n' t (p ++ x :: q) /\ n' y = 0 /\ f_only [x; y] n n'.
Proof.
  intros F. pose proof (unlink_after_range_ok n t p x [y] q F) as K. specialize (K ltac:(discriminate)). assert (n x = y) as Ex by (destruct F as (_ & _ & F); now apply (F p x (y :: q))). assert (x <> y) as D.
  { intros ->. destruct F as (N & _). inversion N as [|? ? _ N1]; subst. apply NoDup_app_iff in N1 as (_ & N1 & _). inversion N1 as [|? ? N2]; subst. apply N2. now left. }
  assert (y <> 0) as D0. { intros ->. destruct F as (_ & Z0 & _). apply Z0, in_app_iff. right. right. now left. }
  unfold unlink_after. unfold unlink_after_range in K. cbn [last hd] in K. rewrite Ex in *. rewrite (proj2 (Nat.eqb_neq _ _) D) in K. rewrite (proj2 (Nat.eqb_neq _ _) D0). destruct K as (K1 & K2 & K3 & K4). conj; [reflexivity|exact K2|apply fset_same|exact K4].
Qed.

(** ** intrusive_stack.h, intrusive_queue.h *)
Lemma forward_linked n t xs x : t <> 0 -> forward n t xs -> In x xs -> n x <> 0.
Proof. intros D (_ & Z0 & F) I. apply in_split in I as (p & q & ->). rewrite (F p x q eq_refl). destruct q as [|y q]; cbn; [exact D|]. intros ->. apply Z0, in_app_iff. right. right. now left. Qed.
Lemma s_push_ok term s xs x : s_holds term s xs -> x <> 0 -> x <> term ->
  (snext s x <> 0 -> s_push s x = (Already_linked, s)) /\
  (snext s x = 0 -> exists s', s_push s x = (Ok, s') /\ s_holds term s' (x :: xs) /\ f_only [x] (snext s) (snext s')).
Proof.
  intros (D & Et & F & Ep & Ez) Dx Dt. unfold s_push. split; intros E.
  - now rewrite (proj2 (Nat.eqb_neq _ _) E).
  - rewrite E. cbn [Nat.eqb]. assert (~ In x xs) as Nx by (intros C; now apply (forward_linked _ _ _ _ D F C)). eexists. conj; [reflexivity| |].
    + split; [exact D|]. cbn [snext p_top ssize]. split; [rewrite fset_other by congruence; exact Et|]. split; [|cbn; split; [reflexivity|lia]]. apply forward_fwd. apply forward_fwd in F as (N & Z0 & F). split; [|split].
      * inversion N as [|? ? N1 N2]; subst. constructor; [intros [C|C]; [congruence|contradiction]|]. now constructor.
      * intros [C|C]; [congruence|contradiction].
      * cbn [fwd]. rewrite fset_same. split; [exact Ep|]. eapply fwd_ext; [|exact F]. intros y Hy. apply fset_other. intros ->. contradiction.
    + intros y Ny. cbn. apply fset_other. intros ->. apply Ny. now left.
Qed.
Lemma s_pop_ok term check s x xs : s_holds term s (x :: xs) -> exists s', s_pop check s = (Ok, s') /\ s_holds term s' xs /\ snext s' x = 0 /\ f_only [x] (snext s) (snext s').
Proof.
  intros (D & Et & F & Ep & Ez). unfold s_pop. rewrite Ez. cbn [length Nat.eqb]. rewrite andb_false_r. destruct (forward_tail _ _ _ _ F) as (En & Dx & Dx0 & Nx & F'). rewrite Ep. cbn [hd]. eexists. conj; [reflexivity| |apply fset_same|intros y Ny; cbn; apply fset_other; intros ->; apply Ny; now left].
  split; [exact D|]. cbn [snext p_top ssize]. split; [rewrite fset_other by congruence; exact Et|]. split; [|split; [exact En|lia]]. eapply forward_ext; [|exact F']. intros y Hy. apply fset_other. intros ->. contradiction.
Qed.
Lemma s_pop_empty term s : s_holds term s [] -> s_pop true s = (Empty_error, s).
Proof. intros (_ & _ & _ & _ & E). unfold s_pop. now rewrite E. Qed.
Lemma s_reverse_loop_ok term : forall b a f n, fwd n term b -> fwd n term a -> NoDup (term :: a ++ b) -> length b <= f ->
  exists n', s_reverse_loop term f n (hd term a) (hd term b) = Some (n', hd term (rev b ++ a)) /\ fwd n' term (rev b ++ a) /\ f_only b n n'.
Proof.
  induction b as [|x b IH]; intros a f n Fb Fa N Hf.
  - exists n. conj; [destruct f; cbn; now rewrite Nat.eqb_refl|exact Fa|intros y _; reflexivity].
  - destruct f as [|f]; [cbn in Hf; lia|]. cbn [hd s_reverse_loop]. assert (x <> term) as D. { intros ->. inversion N as [|? ? N1]; subst. apply N1, in_app_iff. right. now left. } rewrite (proj2 (Nat.eqb_neq _ _) D). cbv zeta. destruct Fb as (En & Fb). rewrite En.
    pose proof (mid_notin _ _ _ _ N) as Nx. destruct (IH (x :: a) f (fset n x (hd term a))) as (n' & E & F' & O').
    + eapply fwd_ext; [|exact Fb]. intros y Hy. apply fset_other. intros ->. apply Nx. right. apply in_app_iff. now right.
    + cbn [fwd]. rewrite fset_same. split; [reflexivity|]. eapply fwd_ext; [|exact Fa]. intros y Hy. apply fset_other. intros ->. apply Nx. right. apply in_app_iff. now left.
    + eapply Permutation_NoDup; [|exact N]. constructor. cbn. apply Permutation_sym, Permutation_middle.
    + cbn in Hf. lia.
    + exists n'. cbn [rev]. rewrite <- app_assoc. cbn [app]. conj; [exact E|exact F'|]. intros y Ny. rewrite O' by (intros C; apply Ny; now right). apply fset_other. intros ->. apply Ny. now left.
Qed.

Lemma s_reverse_ok term s xs : s_holds term s xs -> exists s', s_reverse term s = Some s' /\ s_holds term s' (rev xs) /\ f_only xs (snext s) (snext s').
Proof.
  intros (D & Et & F & Ep & Ez). apply forward_fwd in F as (N & Z0 & F). unfold s_reverse. rewrite Ep, Ez. destruct (s_reverse_loop_ok term xs [] (length xs) (snext s) F) as (n' & E & F' & O'); [exact I|exact N|lia|]. cbn [hd] in E. rewrite E. rewrite app_nil_r in *. eexists. conj; [reflexivity| |exact O'].
  assert (NoDup (term :: rev xs)) as N'. { eapply Permutation_NoDup; [|exact N]. constructor. apply Permutation_rev. }
  split; [exact D|]. cbn [snext p_top ssize]. split; [rewrite O'; [exact Et|now inversion N]|]. split; [|split; [reflexivity|now rewrite rev_length]]. apply forward_fwd. conj; [exact N'|now rewrite <- in_rev|exact F'].
Qed.
Lemma s_clear_ok term : forall xs s, s_holds term s xs -> exists s', s_clear s = Some s' /\ s_holds term s' [] /\ (forall x, In x xs -> snext s' x = 0) /\ f_only xs (snext s) (snext s').
Proof.
  intros xs s H. unfold s_clear. assert (ssize s = length xs) as -> by (apply H). revert s H. induction xs as [|x xs IH]; intros s H.
  - exists s. cbn. pose proof H as (_ & _ & _ & _ & E). rewrite E. cbn. conj; [|exact H|intros ? []|intros y _; reflexivity]. destruct s; cbn in *; now rewrite E.
  - cbn [length s_clear_loop]. pose proof H as (_ & _ & F & _ & E). rewrite E. cbn [Nat.eqb length]. destruct (s_pop_ok term false s x xs H) as (s1 & E1 & H1 & L1 & O1). rewrite E1. cbn [snd]. destruct (IH s1 H1) as (s' & E' & H' & L' & O'). destruct (forward_tail _ _ _ _ F) as (_ & _ & _ & Nx & _). exists s'. conj; [exact E'|exact H'| |].
    + intros y [<-|Hy]; [|now apply L']. rewrite (O' x Nx). exact L1.
    + intros y Ny. rewrite O' by (intros C; apply Ny; now right). apply O1. intros [C|[]]. apply Ny. now left.
Qed.
Lemma q_push_ok term s xs x : q_holds term s xs -> x <> 0 -> x <> term ->
  (qnext s x <> 0 -> q_push term s x = (Already_linked, s)) /\
  (qnext s x = 0 -> exists s', q_push term s x = (Ok, s') /\ q_holds term s' (xs ++ [x]) /\ f_only (x :: term :: xs) (qnext s) (qnext s')).
Proof.
  intros (D & Et & F & Ep & Ez) Dx Dt. unfold q_push. split; intros E.
  - now rewrite (proj2 (Nat.eqb_neq _ _) E).
  - rewrite E. cbn [Nat.eqb]. assert (~ In x xs) as Nx by (intros C; now apply (forward_linked _ _ _ _ D F C)). apply forward_fwd in F as (N & Z0 & F). pose proof N as N0. inversion N0 as [|? ? Nt Nd]; subst. eexists. conj; [reflexivity| |].
    + split; [exact D|]. cbn [qnext p_back qsize]. rewrite Ez. destruct xs as [|y xs].
      * cbn [length Nat.eqb app hd]. split; [rewrite fset_other by congruence; apply fset_same|]. split; [|split; [reflexivity|reflexivity]]. apply forward_fwd. split; [repeat constructor; cbn; intuition congruence|split; [cbn; intuition congruence|]]. cbn. split; [apply fset_same|exact I].
      * set (l := y :: xs) in *. assert (l <> []) as Nl by (unfold l; discriminate). assert (length l =? 0 = false) as -> by reflexivity. rewrite (Ep Nl). destruct (exists_last Nl) as (r & z & El). rewrite El in *. rewrite last_last. apply NoDup_app_iff in Nd as (N1 & _ & N2). apply fwd_app in F as (F1 & F2). cbn [hd fwd] in F1, F2.
        assert (z <> x) as Dzx. { intros ->. apply Nx, in_app_iff. right. now left. } assert (~ In z r) as Nzr. { intros C. apply (N2 z C). now left. } assert (term <> z) as Dtz. { intros ->. apply Nt, in_app_iff. right. now left. }
        split; [rewrite !fset_other by congruence; rewrite Et; now destruct r|]. split; [|split; [intros _; now rewrite last_last|rewrite !app_length; cbn; lia]].
        apply forward_fwd. split; [|split; [rewrite in_app_iff; cbn; intuition congruence|]].
        -- pose proof (nodup_mid term (r ++ [z]) x []) as Q. rewrite app_nil_r in Q. apply Q; [exact N|]. intros [C|C]; [congruence|contradiction].
        -- apply fwd_app. split; [|cbn; split; [apply fset_same|exact I]]. cbn [hd]. apply fwd_app. split; [|cbn; split; [rewrite fset_other by congruence; apply fset_same|exact I]]. cbn [hd]. eapply fwd_ext; [|exact F1]. intros w Hw. rewrite !fset_other; [reflexivity|intros ->; contradiction|intros ->; apply Nx, in_app_iff; now left].
    + intros y Ny. cbn [qnext]. rewrite fset_other by (intros ->; apply Ny; now left). destruct (Nat.eqb_spec (qsize s) 0) as [E0|E0]; apply fset_other; intros ->; apply Ny; [right; now left|]. destruct xs as [|z xs]; [cbn in Ez; congruence|]. rewrite Ep by discriminate. right. right. apply last_In. discriminate.
Qed.
Lemma q_pop_ok term check s x xs : q_holds term s (x :: xs) -> exists s', q_pop term check s = (Ok, s') /\ q_holds term s' xs /\ qnext s' x = 0 /\ f_only [x; term] (qnext s) (qnext s').
Proof.
  intros (D & Et & F & Ep & Ez). unfold q_pop. rewrite Ez. cbn [length Nat.eqb]. rewrite andb_false_r. destruct (forward_tail _ _ _ _ F) as (En & Dx & Dx0 & Nx & F'). rewrite Et. cbn [hd]. rewrite En. eexists. conj; [reflexivity| |apply fset_same|intros y Ny; cbn; rewrite !fset_other; [reflexivity| |]; intros ->; apply Ny; cbn; tauto].
  split; [exact D|]. cbn [qnext p_back qsize]. split; [rewrite fset_other by congruence; apply fset_same|]. split; [|split; [|lia]].
  - eapply forward_ext; [|exact F']. intros y Hy. rewrite !fset_other; [reflexivity| |intros ->; contradiction]. intros ->. destruct F' as (N' & _). inversion N'; contradiction.
  - intros Nn. rewrite Ep by discriminate. now destruct xs.
Qed.
Lemma q_pop_empty term s : q_holds term s [] -> q_pop term true s = (Empty_error, s).
Proof. intros (_ & _ & _ & _ & E). unfold q_pop. now rewrite E. Qed.
Lemma q_clear_ok term : forall xs s, q_holds term s xs -> exists s', q_clear term s = Some s' /\ q_holds term s' [] /\ (forall x, In x xs -> qnext s' x = 0) /\ f_only (term :: xs) (qnext s) (qnext s').
Proof.
  intros xs s H. unfold q_clear. assert (qsize s = length xs) as -> by (apply H). revert s H. induction xs as [|x xs IH]; intros s H.
  - exists s. cbn. pose proof H as (_ & _ & _ & _ & E). rewrite E. cbn. conj; [|exact H|intros ? []|intros y _; reflexivity]. destruct s; cbn in *; now rewrite E.
  - cbn [length q_clear_loop]. pose proof H as (_ & _ & F & _ & E). rewrite E. cbn [Nat.eqb length]. destruct (q_pop_ok term false s x xs H) as (s1 & E1 & H1 & L1 & O1). rewrite E1. cbn [snd]. destruct (IH s1 H1) as (s' & E' & H' & L' & O'). destruct (forward_tail _ _ _ _ F) as (_ & Dx & _ & Nx & _). exists s'. conj; [exact E'|exact H'| |].
    + intros y [<-|Hy]; [|now apply L']. rewrite (O' x); [exact L1|]. intros [C|C]; [congruence|contradiction].
    + intros y Ny. cbn in Ny. rewrite O' by (cbn; tauto). apply O1. cbn. tauto.
Qed.
