(** Proofs for intrusive_list.h: splice, merge *)
From Coq Require Import List Arith Bool Lia Permutation.
From Verif Require Import Util SortSpec ListSpec Dll MergeSort ListModel ListProofs IntrModel IntrSpec IntrProofs IntrProofs2 IntrProofs3.
Import ListNotations.
Lemma in_t_last (t : nat) p r : In (last p t) (t :: p ++ r).
Proof. destruct (last_in t p) as [<-|I]; [now left|right; apply in_app_iff; now left]. Qed.
Lemma in_t_hd (t : nat) p r : In (hd t r) (t :: p ++ r).
Proof. pose proof (head_in t r) as I. apply in_app_iff in I as [I|[<-|[]]]; [right; apply in_app_iff; now right|now left]. Qed.
Lemma nodup_insert (t : nat) a b m : NoDup (t :: a ++ b) -> NoDup m -> apart m (t :: a ++ b) -> NoDup (t :: a ++ m ++ b).
Proof.
  intros N Nm A. rewrite app_comm_cons in *. apply NoDup_app_iff in N as (N1 & N2 & N3). apply NoDup_app_iff. conj; [exact N1| |].
  - apply NoDup_app_iff. conj; [exact Nm|exact N2|]. intros x Hx Hb. apply (A x Hx), in_app_iff. now right.
  - intros x Hx C. apply in_app_iff in C as [C|C]; [apply (A x C), in_app_iff; now left|exact (N3 x Hx C)].
Qed.
Lemma splice_ok h l other a b ys : holds h l (a ++ b) -> holds h other ys -> apart (trm other :: ys) (trm l :: a ++ b) ->
  let '(h', l', other') := i_splice h l (hd (trm l) b) other in
  holds h' l' (a ++ ys ++ b) /\ holds h' other' [] /\ trm l' = trm l /\ trm other' = trm other /\ only (trm l :: trm other :: a ++ ys ++ b) h h'.
Proof.
  intros H Ho A. unfold i_splice. rewrite (i_empty_ok _ _ _ Ho). pose proof H as (D & T & Ez). pose proof Ho as (Do & To & Ezo). destruct ys as [|y ys0] eqn:Ey; [conj; [exact H|exact Ho|reflexivity|reflexivity|apply only_refl]|]. rewrite <- Ey in *. assert (ys <> []) as Ny by (rewrite Ey; discriminate). clear Ey y ys0.
  pose proof To as (No & Zo & Hto & _). destruct (Hto Do) as (-> & ->). rewrite (through_prv _ _ _ _ T (hd_nz _ _ _ _ D T)). rewrite (hd_def ys _ 0 Ny), (last_def ys _ 0 Ny).
  set (t := trm l) in *. change (link (link h (last a t) (hd 0 ys)) (last ys 0) (hd t b)) with (join (join h (last a t) (hd 0 ys)) (last ys 0) (hd t b)). set (h1 := join _ _ _).
  pose proof (initialise_ok h1 other Do) as K. destruct (initialise h1 other) as (h' & other'). destruct K as (K1 & K2 & K3).
  assert (segment h ys) as Sg. { pose proof (through_seg h (trm other) [] ys []) as Q. cbn [app] in Q. rewrite app_nil_r in Q. now apply Q. }
  assert (NoDup (t :: a ++ ys ++ b)) as N. { apply nodup_insert; [apply T|now inversion No|]. intros x Hx. apply A. now right. }
  pose proof (through_link h t a ys b T Sg N) as T1. fold h1 in T1. conj.
  - split; [exact D|split; [|cbn; rewrite Ez, Ezo, !app_length; lia]]. apply (only_through h1 _ [trm other]); [exact K3| |exact T1]. cbn [trm]. fold t. intros x [<-|[]] C. assert (In (trm other) (t :: a ++ b) \/ In (trm other) ys) as [C'|C']. { cbn in *. rewrite !in_app_iff in *. tauto. }
    + apply (A (trm other)); [now left|exact C'].
    + inversion No; contradiction.
  - exact K1.
  - reflexivity.
  - exact K2.
  - intros z Dz Nz. cbn in Nz. rewrite !in_app_iff in Nz. destruct (K3 z Dz) as (-> & ->); [cbn; tauto|]. assert (only (t :: a ++ ys ++ b) h h1) as O1.
    { unfold h1. eapply only_trans; apply only_join; left.
      - apply in_t_last.
      - right. rewrite !in_app_iff. pose proof (hd_In ys 0 Ny). tauto.
      - right. rewrite !in_app_iff. pose proof (last_In ys 0 Ny). tauto.
      - pose proof (in_t_hd t a b) as I. cbn in *. rewrite !in_app_iff in *. tauto. }
    apply O1; [exact Dz|]. cbn. rewrite !in_app_iff. tauto.
Qed.
(** one element of another list *)
Lemma splice_one_other h l other a b p x q : holds h l (a ++ b) -> holds h other (p ++ x :: q) -> apart (trm other :: p ++ x :: q) (trm l :: a ++ b) ->
  let '(h', l', other') := i_splice_one h l (hd (trm l) b) other false x in
  holds h' l' (a ++ x :: b) /\ holds h' other' (p ++ q) /\ trm l' = trm l /\ trm other' = trm other /\ only (trm l :: trm other :: a ++ b ++ p ++ x :: q) h h'.
Proof.
  intros (D & T & Ez) (Do & To & Ezo) A. unfold i_splice_one. rewrite (through_prv _ _ _ _ T (hd_nz _ _ _ _ D T)). destruct (unlink_ok _ _ _ _ _ To) as (To1 & Lx & O1). set (h1 := unlink h x) in *.
  assert (In x (trm other :: p ++ x :: q)) as Ix by (right; apply in_app_iff; right; now left).
  assert (incl [last p (trm other); x; hd (trm other) q] (trm other :: p ++ x :: q)) as I1.
  { intros z [<-|[<-|[<-|[]]]]; [apply in_t_last|exact Ix|]. pose proof (in_t_hd (trm other) p q) as I. cbn in *. rewrite !in_app_iff in *. cbn. tauto. }
  assert (through h1 (trm l) (a ++ b)) as T1. { eapply only_through; [exact O1| |exact T]. intros z Hz. apply A. now apply I1. }
  assert (x <> 0) as Dx by (apply (through_neq0 _ _ _ _ To), in_app_iff; right; now left).
  assert (~ In x (trm l :: a ++ b)) as Nx by (intros C; exact (A x Ix C)).
  destruct (link_splice_ok h1 (trm l) a x b T1 Dx Nx (last_nz _ _ _ _ D T1)) as (T2 & O2). set (h2 := link_splice h1 (last a (trm l)) x) in *.
  assert (incl [last a (trm l); x; hd (trm l) b] (x :: trm l :: a ++ b)) as I2. { intros z [<-|[<-|[<-|[]]]]; [right; apply in_t_last|now left|right; apply in_t_hd]. }
  conj; cbn [trm].
  - split; [exact D|split; [exact T2|cbn; rewrite Ez, !app_length; cbn; lia]].
  - split; [exact Do|split; [|cbn; rewrite Ezo, !app_length; cbn; lia]]. cbn [trm]. eapply only_through; [exact O2| |exact To1]. intros z Hz C. apply I2 in Hz as [<-|Hz]; [exact (mid_notin _ _ _ _ (proj1 To) C)|]. apply (A z); [|exact Hz]. cbn in *. rewrite in_app_iff in *. cbn. tauto.
  - reflexivity.
  - reflexivity.
  - eapply only_trans; [eapply only_incl; [|exact O1]|eapply only_incl; [|exact O2]].
    + intros z Hz. apply I1 in Hz. cbn in *. rewrite !in_app_iff in *. cbn in *. tauto.
    + intros z Hz. apply I2 in Hz. cbn in *. rewrite !in_app_iff in *. cbn. tauto.
Qed.
(** one element within the list *)
Lemma splice_one_same h l a b p x q : holds h l (p ++ x :: q) -> a ++ b = p ++ q -> hd (trm l) b <> hd (trm l) q ->
  exists h', i_splice_one h l (hd (trm l) b) l true x = (h', l, l) /\ holds h' l (a ++ x :: b) /\ only (trm l :: p ++ x :: q) h h'.
Proof.
  intros (D & T & Ez) E Df. unfold i_splice_one. destruct (unlink_ok _ _ _ _ _ T) as (T1 & Lx & O1). set (h1 := unlink h x) in *. set (t := trm l) in *.
  pose proof (mid_notin _ _ _ _ (proj1 T)) as Nx. assert (x <> 0) as Dx by (apply (through_neq0 _ _ _ _ T), in_app_iff; right; now left).
  assert (prv h (hd t b) = last a t) as Eb.
  { rewrite <- E in T1. pose proof (through_prv _ _ _ _ T1 (hd_nz _ _ _ _ D T1)) as Ep. rewrite <- Ep. symmetry. pose proof (hd_nz _ _ _ _ D T1) as Dn.
    (* only prv of x and of hd t q change *)
    assert (prv h x <> x) as Dp. { destruct (through_mid _ _ _ _ _ T) as (_ & ->). intros C. apply Nx. rewrite <- C. apply in_t_last. }
    destruct (unlink_eqv h x Dp Dx (hd t b) Dn) as (_ & K). destruct (through_mid _ _ _ _ _ T) as (En & _). fold h1 in K. clearbody h1. cbn in K. rewrite En in K.
    rewrite (proj2 (Nat.eqb_neq _ _) Df) in K. destruct (Nat.eqb_spec (hd t b) x) as [C|C]; [|congruence]. exfalso. apply Nx. rewrite <- C, <- E. apply in_t_hd. }
  rewrite Eb. rewrite <- E in T1, Nx. destruct (link_splice_ok h1 t a x b T1 Dx Nx (last_nz _ _ _ _ D T1)) as (T2 & O2). eexists. conj; [reflexivity| |].
  - split; [exact D|split; [exact T2|]]. rewrite Ez. assert (length (a ++ b) = length (p ++ q)) as El by (now rewrite E). rewrite !app_length in *. cbn. lia.
  - assert (incl (t :: a ++ b) (t :: p ++ x :: q)) as I. { intros z [<-|Hz]; [now left|]. right. rewrite E in Hz. rewrite !in_app_iff in *. cbn. tauto. }
    assert (incl (t :: p ++ q) (t :: p ++ x :: q)) as I' by (now rewrite <- E). assert (In x (t :: p ++ x :: q)) as Ix by (right; apply in_app_iff; right; now left).
    eapply only_trans; [eapply only_incl; [|exact O1]|eapply only_incl; [|exact O2]].
    + intros z [<-|[<-|[<-|[]]]]; [apply in_t_last|exact Ix|]. apply I', in_t_hd.
    + intros z [<-|[<-|[<-|[]]]]; [apply I, in_t_last|exact Ix|]. apply I, in_t_hd.
Qed.
(** before itself *)
Lemma splice_one_self h l p x q : holds h l (p ++ x :: q) -> exists h', i_splice_one h l x l true x = (h', l, l) /\ holds h' l (p ++ x :: q) /\ only (trm l :: p ++ x :: q) h h'.
Proof.
  intros (D & T & Ez). unfold i_splice_one. destruct (unlink_ok _ _ _ _ _ T) as (T1 & Lx & O1). destruct (through_mid _ _ _ _ _ T) as (_ & ->).
  pose proof (mid_notin _ _ _ _ (proj1 T)) as Nx. assert (x <> 0) as Dx by (apply (through_neq0 _ _ _ _ T), in_app_iff; right; now left).
  destruct (link_splice_ok _ (trm l) p x q T1 Dx Nx (last_nz _ _ _ _ D T1)) as (T2 & O2). eexists. conj; [reflexivity| |].
  - split; [exact D|now split].
  - assert (incl [last p (trm l); x; hd (trm l) q] (trm l :: p ++ x :: q)) as I. { intros z [<-|[<-|[<-|[]]]]; [apply in_t_last|right; apply in_app_iff; right; now left|]. pose proof (in_t_hd (trm l) p q) as I. cbn in *. rewrite !in_app_iff in *. cbn. tauto. }
    eapply only_trans; (eapply only_incl; [exact I|eassumption]).
Qed.
(** a range: with one element as above; with more, one link is missing at the end *)
Lemma lsr_set_prv h lhs f z v : lhs <> 0 -> z <> lhs -> z <> f -> nxt h lhs <> z -> eqv (set_prv (link_splice_range h lhs f z) z v) (link_splice_range (set_prv h z v) lhs f z).
Proof.
  intros D D1 D2 D3. eapply eqv_trans; [|apply eqv_sym, link_splice_range_eqv; [exact D|exact D1]]. intros y Hy. destruct (link_splice_range_eqv h lhs f z D D1 y Hy) as (E1 & E2). cbn in E1, E2. cbn. rewrite <- E1, <- E2. split; [reflexivity|].
  destruct (Nat.eqb_spec y z) as [->|]; [|reflexivity]. rewrite (proj2 (Nat.eqb_neq _ _) D2), (proj2 (Nat.eqb_neq _ _) (not_eq_sym D3)). reflexivity.
Qed.
Lemma splice_links h t t' p m q a b : t <> 0 -> t' <> 0 -> through h t' (p ++ m ++ q) -> (t = t' /\ a ++ b = p ++ q \/ through h t (a ++ b) /\ apart (t' :: p ++ m ++ q) (t :: a ++ b)) -> m <> [] ->
  let h1 := unlink_range h (hd 0 m) (last m 0) in
  let h' := link_splice_range h1 (prv h1 (hd t b)) (hd 0 m) (last m 0) in
  (t <> t' -> through h' t' (p ++ q)) /\
  (length m = 1 -> through h' t (a ++ m ++ b)) /\
  (2 <= length m -> prv h' (last m 0) = 0 /\ through (set_prv h' (last m 0) (last (removelast m) 0)) t (a ++ m ++ b)) /\
  only (t :: t' :: a ++ b ++ p ++ m ++ q) h h'.
Proof.
  intros Dt Dt' T' Hc Nm h1 h'.
  assert (NoDup m /\ ~ In 0 m /\ apart m (t' :: p ++ q)) as (Ndm & Zm & Am).
  { destruct T' as (N & Z0 & _). conj.
    - inversion N as [|? ? _ N1]; subst. apply NoDup_app_iff in N1 as (_ & N1 & _). apply NoDup_app_iff in N1. apply N1.
    - intros C. apply Z0. rewrite !in_app_iff. tauto.
    - intros x Hx C. rewrite app_comm_cons in *. apply NoDup_app_iff in N as (_ & N2 & N3). apply in_app_iff in C as [C|C]; [apply (N3 x C), in_app_iff; now left|]. apply NoDup_app_iff in N2 as (_ & _ & N2). exact (N2 x Hx C). }
  assert (apart m (t :: a ++ b)) as Ab. { destruct Hc as [(-> & ->)|(_ & A)]; [exact Am|]. intros x Hx. apply A. right. rewrite !in_app_iff. tauto. }
  assert (In (hd 0 m) m /\ In (last m 0) m) as (Ih & Il) by (split; [now apply hd_In|now apply last_In]).
  set (s1 := [last p t'; hd 0 m; last m 0; hd t' q]).
  assert (through h1 t' (p ++ q) /\ only s1 h h1 /\ segment (if length m =? 1 then h1 else set_prv h1 (last m 0) (last (removelast m) 0)) m /\ (2 <= length m -> prv h1 (last m 0) = 0)) as (T1 & O1 & S1 & P1).
  { destruct (Nat.eqb_spec (length m) 1) as [L1|L1].
    - destruct m as [|x [|y m]]; cbn in L1; try discriminate. unfold h1, unlink_range. cbn [hd last]. rewrite Nat.eqb_refl. destruct (unlink_ok _ _ _ _ _ T') as (U1 & U2 & U3). conj; [exact U1| | |cbn; lia].
      + eapply only_incl; [|exact U3]. intros z [<-|[<-|[<-|[]]]]; cbn; tauto.
      + apply segment1. intros ->. apply Zm. now left.
    - assert (2 <= length m) as L2 by (destruct m as [|x [|y m]]; cbn in *; [congruence|congruence|lia]). destruct (unlink_range_ok h t' p m q T' L2) as (U1 & U2 & U3 & U4 & U5 & _). fold h1 in U1, U2, U3, U4, U5. pose proof (last_nz _ _ _ _ Dt' T') as Dl. rewrite (proj2 (Nat.eqb_neq _ _) Dl) in U5. conj; [exact U1|exact U2| |intros _; exact U5].
      destruct (len2 _ L2) as (x & c & y & Em). pose proof (through_seg _ _ _ _ _ T' Nm) as (_ & _ & _ & Sm).
      split; [exact Nm|split; [exact Ndm|split; [exact Zm|]]]. intros p1 u v q1 E1. destruct (Sm _ _ _ _ E1) as (S2 & S3). destruct U3 as (_ & _ & U3). cbn [nxt set_prv prv]. split; [now apply (U3 p1 u (v :: q1))|].
      destruct (Nat.eqb_spec v (last m 0)) as [->|Dv].
      + destruct q1 as [|w q1 _] using rev_ind.
        * rewrite E1. change (p1 ++ [u; last m 0]) with (p1 ++ [u] ++ [last m 0]). rewrite app_assoc, removelast_last. apply last_last.
        * exfalso. rewrite E1 in Ndm. change (p1 ++ u :: last m 0 :: q1 ++ [w]) with (p1 ++ (u :: last m 0 :: q1) ++ [w]) in E1. rewrite app_assoc in E1. assert (last m 0 = w) as Ew by (rewrite E1; apply last_last). rewrite Ew in Ndm. apply NoDup_app_iff in Ndm as (_ & Ndm & _). inversion Ndm as [|? ? _ N2]; subst. inversion N2 as [|? ? N3 _]; subst. apply N3, in_app_iff. right. now left.
      + assert (In v m) as Iv by (rewrite E1; rewrite in_app_iff; cbn; tauto). destruct (U2 v) as (_ & ->); [now intros ->| |exact S3]. intros C. assert (v <> hd 0 m) as Dh. { intros C'. rewrite E1 in Ndm. destruct p1 as [|w p1]; cbn in E1.
          - rewrite E1 in C'. cbn in C'. subst v. cbn in Ndm. inversion Ndm as [|? ? N1]; subst. apply N1. now left.
          - rewrite E1 in C'. cbn in C'. subst v. cbn in Ndm. inversion Ndm as [|? ? N1]; subst. apply N1. rewrite in_app_iff. cbn. tauto. }
        destruct C as [C|[C|[C|[C|[]]]]]; try congruence.
        * apply (Am v Iv). rewrite <- C. apply in_t_last.
        * apply (Am v Iv). rewrite <- C. apply in_t_hd. }
  assert (through h1 t (a ++ b)) as Tab.
  { destruct Hc as [(-> & ->)|(T & A)]; [exact T1|]. eapply only_through; [exact O1| |exact T]. intros z Hz C. apply (A z); [|exact C]. unfold s1 in Hz. cbn in Hz. destruct Hz as [<-|[<-|[<-|[<-|[]]]]].
    - apply in_t_last.
    - right. rewrite !in_app_iff. tauto.
    - right. rewrite !in_app_iff. tauto.
    - pose proof (in_t_hd t' p q) as I. cbn in *. rewrite !in_app_iff in *. tauto. }
  pose proof (through_prv _ _ _ _ Tab (hd_nz _ _ _ _ Dt Tab)) as Eb. unfold h'. rewrite Eb. pose proof (last_nz _ _ _ _ Dt Tab) as Dl.
  assert (NoDup (t :: a ++ m ++ b)) as N2 by (apply nodup_insert; [apply Tab|exact Ndm|exact Ab]).
  assert (last m 0 <> last a t) as Da. { intros C. apply (Ab _ Il). rewrite C. apply in_t_last. }
  assert (nxt h1 (last a t) = hd t b) as En by (now apply through_nxt). assert (hd t b <> last m 0) as Db. { intros C. apply (Ab _ Il). rewrite <- C. apply in_t_hd. }
  assert (only [last a t; hd 0 m; last m 0; hd t b] h1 (link_splice_range h1 (last a t) (hd 0 m) (last m 0))) as O2.
  { eapply only_of_eqv_join2; [apply link_splice_range_eqv; [exact Dl|exact Da]|]. rewrite En. cbn. tauto. }
  conj.
  - intros Dtt. destruct Hc as [(E & _)|(_ & A)]; [contradiction|]. eapply only_through; [exact O2| |exact T1]. intros z Hz C. assert (In z (t' :: p ++ m ++ q)) as C' by (cbn in *; rewrite !in_app_iff in *; tauto). destruct Hz as [<-|[<-|[<-|[<-|[]]]]].
    + apply (A _ C'), in_t_last.
    + exact (Am _ Ih C).
    + exact (Am _ Il C).
    + apply (A _ C'), in_t_hd.
  - intros L1. rewrite L1 in S1. cbn in S1. now apply link_splice_range_ok.
  - intros L2. assert (length m =? 1 = false) as Ef by (apply Nat.eqb_neq; lia). rewrite Ef in S1. assert (last m 0 <> hd 0 m) as Dh. { destruct (len2 _ L2) as (x & c & y & Em). rewrite Em in *. rewrite hd_app_last in *. cbn [hd]. intros ->. inversion Ndm as [|? ? N3]; subst. apply N3, in_app_iff. right. now left. }
    split.
    + assert (last m 0 <> 0) as D0 by (intros C; apply Zm; rewrite <- C; exact Il). destruct (link_splice_range_eqv h1 (last a t) (hd 0 m) (last m 0) Dl Da (last m 0) D0) as (_ & K). rewrite <- K. rewrite !join_prv, En. rewrite (proj2 (Nat.eqb_neq _ _) Dh), (proj2 (Nat.eqb_neq _ _) (not_eq_sym Db)). now apply P1.
    + eapply through_eqv; [apply eqv_sym, lsr_set_prv; [exact Dl|exact Da|exact Dh|rewrite En; exact Db]|]. apply link_splice_range_ok; [|exact S1|exact N2|exact Dl].
      apply (only_through h1 _ [last m 0]); [|intros z [<-|[]]; apply (Ab _ Il)|exact Tab]. intros z _ Nz. cbn. destruct (Nat.eqb_spec z (last m 0)) as [->|]; [exfalso; apply Nz; now left|split; reflexivity].
  - eapply only_trans; [eapply only_incl; [|exact O1]|eapply only_incl; [|exact O2]].
    + intros z Hz. unfold s1 in Hz. destruct Hz as [<-|[<-|[<-|[<-|[]]]]].
      * pose proof (in_t_last t' p q) as I. cbn in *. rewrite !in_app_iff in *. tauto.
      * cbn. rewrite !in_app_iff. tauto.
      * cbn. rewrite !in_app_iff. tauto.
      * pose proof (in_t_hd t' p q) as I. cbn in *. rewrite !in_app_iff in *. tauto.
    + intros z [<-|[<-|[<-|[<-|[]]]]].
      * pose proof (in_t_last t a b) as I. cbn in *. rewrite !in_app_iff in *. tauto.
      * cbn. rewrite !in_app_iff. tauto.
      * cbn. rewrite !in_app_iff. tauto.
      * pose proof (in_t_hd t a b) as I. cbn in *. rewrite !in_app_iff in *. tauto.
Qed.

Lemma splice_range_ok fuel h l other (same : bool) p m q a b : trm l <> 0 -> holds h other (p ++ m ++ q) -> length (p ++ m ++ q) <= fuel -> m <> [] ->
  (if same then other = l /\ a ++ b = p ++ q else holds h l (a ++ b) /\ apart (trm other :: p ++ m ++ q) (trm l :: a ++ b)) ->
  exists h' l' other', i_splice_range fuel h l (hd (trm l) b) other same (hd (trm other) (m ++ q)) (hd (trm other) q) = Some (h', l', other') /\
  trm l' = trm l /\ trm other' = trm other /\
  isize l' = length (a ++ m ++ b) /\ (same = false -> holds h' other' (p ++ q)) /\
  (length m = 1 -> holds h' l' (a ++ m ++ b)) /\
  (2 <= length m -> prv h' (last m 0) = 0 /\ holds (set_prv h' (last m 0) (last (removelast m) 0)) l' (a ++ m ++ b)) /\
  only (trm l :: trm other :: a ++ b ++ p ++ m ++ q) h h'.
Proof.
  intros D Ho Hf Nm Hs. unfold i_splice_range. rewrite (i_empty_ok _ _ _ Ho). pose proof Ho as (Do & To & Ezo).
  replace (match p ++ m ++ q with [] => true | _ => false end) with false by (destruct p, m; congruence || reflexivity).
  rewrite (hd_app (trm other) m q). pose proof (through_forward_part _ _ _ _ _ To) as F. rewrite (distance_ok m fuel h _ F); [|rewrite !app_length in Hf; lia].
  assert (prv h (hd (trm other) q) = last m 0) as El. { pose proof To as To'. rewrite app_assoc in To'. rewrite (through_prv _ _ _ _ To' (hd_nz _ _ _ _ Do To')). destruct (exists_last Nm) as (m' & y & ->). rewrite last_last, app_assoc. apply last_last. }
  rewrite El, (hd_def m _ 0 Nm).
  assert (trm l = trm other /\ a ++ b = p ++ q \/ through h (trm l) (a ++ b) /\ apart (trm other :: p ++ m ++ q) (trm l :: a ++ b)) as Hc.
  { destruct same; [left; destruct Hs as (-> & E); now split|right; destruct Hs as ((_ & T & _) & A); now split]. }
  destruct (splice_links h (trm l) (trm other) p m q a b D Do To Hc Nm) as (K1 & K2 & K3 & K4). set (h1 := unlink_range h (hd 0 m) (last m 0)) in *. cbv zeta. set (h' := link_splice_range h1 (prv h1 (hd (trm l) b)) (hd 0 m) (last m 0)) in *.
  destruct same; cbn [andb].
  - destruct Hs as (-> & E). assert (isize l = length (a ++ m ++ b)) as Es. { rewrite Ezo. assert (length (a ++ b) = length (p ++ q)) as El2 by (now rewrite E). rewrite !app_length in *. lia. }
    exists h', l, l. conj; try reflexivity; [exact Es|discriminate| | |exact K4].
    + intros L1. split; [exact D|split; [now apply K2|exact Es]].
    + intros L2. destruct (K3 L2) as (K5 & K6). split; [exact K5|split; [exact D|split; [exact K6|exact Es]]].
  - destruct Hs as ((_ & T & Ez) & A). exists h', (mkilist (trm l) (isize l + length m)), (mkilist (trm other) (isize other - length m)). assert (isize l + length m = length (a ++ m ++ b)) as Es by (rewrite Ez, !app_length; lia).
    assert (trm l <> trm other) as Dtt. { intros C. apply (A (trm l)); [rewrite C; now left|now left]. }
    conj; try reflexivity; [exact Es| | | |exact K4].
    + intros _. split; [exact Do|split; [now apply K1|cbn; rewrite Ezo, !app_length; lia]].
    + intros L1. split; [exact D|split; [now apply K2|exact Es]].
    + intros L2. destruct (K3 L2) as (K5 & K6). split; [exact K5|split; [exact D|split; [exact K6|exact Es]]].
Qed.
(** merge *)
Section Merge.
Context {V : Type}.
Variable value : nat -> V.
Variable lt : V -> V -> bool.
Let ltn (a b : nat) : bool := lt (value a) (value b).
Lemma merged_nil_r xs : merged ltn xs [] = xs. Proof. destruct xs; reflexivity. Qed.
Lemma merge_loop_ok t to : forall n q r, length q + length r <= n -> forall f h p, length q + length r <= f -> t <> 0 -> through h t (p ++ q) -> forward (nxt h) to r -> (r <> [] -> segment h r) -> ~ In t r -> apart (to :: r) (p ++ q) ->
  exists h' p' q' r', merge_loop value f h (hd t q) t (hd to r) to lt = Some (h', hd t q', hd to r') /\ (q' = [] \/ r' = []) /\
    through h' t (p' ++ q') /\ (r' <> [] -> segment h' r') /\ p' ++ q' ++ r' = p ++ merged ltn q r /\ (exists r0, r = r0 ++ r') /\ apart (to :: r') (p' ++ q') /\
    only (t :: p ++ q ++ r) h h'.
Proof.
  induction n as [|n IH]; intros q r Hn f h p Hf Dt T Fr Sr Ntr A.
  - destruct q, r; cbn in Hn; try lia. exists h, p, [], []. conj; [destruct f; cbn; rewrite !Nat.eqb_refl; reflexivity|now left|exact T|congruence|reflexivity|now exists []|exact A|apply only_refl].
  - destruct q as [|x q].
    { exists h, p, [], r. conj; [destruct f; cbn; rewrite !Nat.eqb_refl; reflexivity|now left|exact T|exact Sr|destruct r; reflexivity|now exists []|exact A|apply only_refl]. }
    destruct r as [|y r].
    { exists h, p, (x :: q), []. conj; [destruct f; cbn; rewrite !Nat.eqb_refl, orb_true_r; reflexivity|now right|exact T|congruence|now rewrite !app_nil_r|now exists []|exact A|apply only_refl]. }
    destruct f as [|f]; [cbn in Hf; lia|]. pose proof T as (N & Z0 & _). destruct (forward_tail _ _ _ _ Fr) as (En & Dyo & Dy0 & Nyr & Fr'). assert (x <> t) as Dx. { intros ->. inversion N as [|? ? N1]; subst. apply N1, in_app_iff. right. now left. }
    cbn [hd merge_loop]. rewrite (proj2 (Nat.eqb_neq _ _) Dx), (proj2 (Nat.eqb_neq _ _) Dyo). cbn [orb]. cbn [merged]. change (ltn y x) with (lt (value y) (value x)). destruct (lt (value y) (value x)) eqn:El.
    + destruct (through_mid _ _ _ _ _ T) as (_ & Ex). rewrite Ex, En. pose proof (last_nz _ _ _ _ Dt T) as Dl.
      assert (~ In y (t :: p ++ x :: q)) as Ny. { intros [C|C]; [apply Ntr; rewrite C; now left|]. apply (A y); [right; now left|exact C]. }
      destruct (link_splice_ok h t p y (x :: q) T Dy0 Ny Dl) as (T1 & O1). set (h1 := link_splice h (last p t) y) in *. cbn [hd] in O1.
      assert (apart [last p t; y; x] r) as A1. { intros z Hz Hr. destruct Hz as [<-|[<-|[<-|[]]]].
        - destruct (last_in t p) as [C|C]; [apply Ntr; rewrite C; now right|]. apply (A (last p t)); [right; now right|apply in_app_iff; now left].
        - contradiction.
        - apply (A x); [right; now right|apply in_app_iff; right; now left]. }
      destruct (IH (x :: q) r ltac:(cbn in *; lia) f h1 (p ++ [y]) ltac:(cbn in *; lia) Dt) as (h' & p' & q' & r' & E & E1 & T' & S' & E2 & (r0 & E3) & A' & O').
      * now rewrite <- app_assoc.
      * eapply forward_ext; [|exact Fr']. intros z Hz. destruct (O1 z) as (-> & _); [|intros C; exact (A1 z C Hz)|reflexivity]. intros ->. destruct Fr' as (_ & Zr & _). contradiction.
      * intros Hr. eapply only_segment; [exact O1|exact A1|]. destruct (Sr ltac:(discriminate)) as (_ & S2 & S3 & S4). split; [exact Hr|split; [now inversion S2|split; [intros C; apply S3; now right|]]]. intros p1 u v q1 Er. apply (S4 (y :: p1) u v q1). cbn. now rewrite Er.
      * intros C. apply Ntr. now right.
      * rewrite <- app_assoc. intros z Hz C. cbn [app] in C. assert (In z (to :: y :: r)) as Hz' by (destruct Hz as [<-|Hz]; [now left|right; now right]). apply in_app_iff in C as [C|[<-|C]]; [apply (A z Hz'), in_app_iff; now left| |apply (A z Hz'), in_app_iff; now right].
        destruct Hz as [Hz|Hz]; [|contradiction]. congruence.
      * exists h', p', q', r'. conj; [exact E|exact E1|exact T'|exact S'| | |exact A'|].
        -- rewrite E2, <- app_assoc. reflexivity.
        -- exists (y :: r0). now rewrite E3.
        -- eapply only_trans; [eapply only_incl; [|exact O1]|eapply only_incl; [|exact O']].
           ++ intros z [<-|[<-|[<-|[]]]]; [apply in_t_last|right; rewrite !in_app_iff; cbn; clear; tauto|right; rewrite !in_app_iff; cbn; clear; tauto].
           ++ intros z Hz. clear - Hz. cbn in *. rewrite !in_app_iff in *. cbn in *. rewrite !in_app_iff in *. cbn in *. tauto.
    + destruct (through_mid _ _ _ _ _ T) as (-> & _). change (y :: r) with (y :: r) in *. destruct (IH q (y :: r) ltac:(cbn in *; lia) f h (p ++ [x]) ltac:(cbn in *; lia) Dt) as (h' & p' & q' & r' & E & E1 & T' & S' & E2 & E3 & A' & O').
      * now rewrite <- app_assoc.
      * exact Fr.
      * exact Sr.
      * exact Ntr.
      * now rewrite <- app_assoc.
      * exists h', p', q', r'. conj; [exact E|exact E1|exact T'|exact S'| |exact E3|exact A'|].
        -- rewrite E2, <- app_assoc. reflexivity.
        -- rewrite <- app_assoc in O'. exact O'.
Qed.
Lemma merged_length : forall xs ys, length (merged ltn xs ys) = length xs + length ys.
Proof. induction xs as [|x xs IH]; intros ys; [destruct ys; reflexivity|]. induction ys as [|y ys IHy]; [cbn; lia|]. cbn. destruct (ltn y x); cbn; [|now rewrite IH]. change (S (length (merged ltn (x :: xs) ys)) = S (length xs + S (length ys))). rewrite IHy. cbn. lia. Qed.
Lemma merge_ok fuel h l other xs ys : holds h l xs -> holds h other ys -> apart (trm other :: ys) (trm l :: xs) -> length xs + length ys <= fuel ->
  exists h' l' other', i_merge value fuel h l other lt = Some (h', l', other') /\ holds h' l' (merged ltn xs ys) /\ holds h' other' [] /\ trm l' = trm l /\ trm other' = trm other /\ only (trm l :: trm other :: xs ++ ys) h h'.
Proof.
  intros H Ho A Hf. unfold i_merge. rewrite (i_empty_ok _ _ _ Ho). pose proof H as (D & T & Ez). pose proof Ho as (Do & To & Ezo).
  destruct ys as [|y ys0] eqn:Ey; [exists h, l, other; rewrite merged_nil_r; conj; [reflexivity|exact H|exact Ho|reflexivity|reflexivity|apply only_refl]|]. rewrite <- Ey in *. assert (ys <> []) as Ny by (rewrite Ey; discriminate). clear Ey y ys0.
  pose proof T as (N & Z0 & Ht & _). pose proof To as (No & Zo & Hto & _). destruct (Ht D) as (-> & _). destruct (Hto Do) as (-> & Epo).
  pose proof (through_forward _ _ _ To) as Fo. assert (segment h ys) as Sg. { pose proof (through_seg h (trm other) [] ys []) as Q. cbn [app] in Q. rewrite app_nil_r in Q. now apply Q. }
  destruct (merge_loop_ok (trm l) (trm other) (length xs + length ys) xs ys (le_n _) fuel h [] Hf D T Fo (fun _ => Sg)) as (h1 & p' & q' & r' & -> & E1 & T1 & S1 & E2 & (r0 & E3) & A1 & O1).
  { intros C. apply (A (trm l)); [now right|now left]. }
  { intros z Hz C. apply (A z Hz). now right. }
  cbn [app] in E2, O1.
  assert (trm other <> trm l) as Dtt. { intros C. apply (A (trm other)); [now left|rewrite C; now left]. }
  assert (prv h1 (trm other) = last ys (trm other)) as Epo1. { destruct (O1 (trm other) Do) as (_ & ->); [|exact Epo]. intros [C|C]; [congruence|]. apply in_app_iff in C as [C|C]; [apply (A (trm other)); [now left|now right]|]. inversion No; contradiction. }
  assert (apart r' (trm l :: p' ++ q')) as Ar. { intros z Hz C. assert (In z ys) as Hy by (rewrite E3; apply in_app_iff; now right). destruct C as [<-|C]; [apply (A (trm l)); [now right|now left]|]. apply (A1 z); [now right|exact C]. }
  set (h2 := if _ && _ then _ else h1).
  assert (through h2 (trm l) (merged ltn xs ys) /\ only (trm l :: xs ++ ys) h1 h2) as (T2 & O2).
  { assert (incl (p' ++ q' ++ r') (xs ++ ys)) as I0.
    { rewrite E2. clear. intros z. revert ys. induction xs as [|x xs IH]; intros ys Hz; [destruct ys; exact Hz|]. induction ys as [|y ys IHy]; [cbn in *; now rewrite app_nil_r|]. cbn [merged] in Hz. destruct (ltn y x).
      - destruct Hz as [<-|Hz]; [apply in_app_iff; right; now left|]. apply IHy in Hz. rewrite !in_app_iff in *. cbn. tauto.
      - destruct Hz as [<-|Hz]; [now left|]. apply IH in Hz. now right. }
    destruct E1 as [-> | ->].
    - cbn [app hd] in *. rewrite app_nil_r in *. unfold h2. rewrite Nat.eqb_refl. cbn [andb]. destruct r' as [|y r'].
      + cbn [hd]. rewrite Nat.eqb_refl. cbn [negb]. rewrite app_nil_r in E2. rewrite <- E2. split; [exact T1|apply only_refl].
      + assert (y <> trm other) as Dy. { intros ->. inversion No as [|? ? N1]; subst. apply N1. apply in_app_iff. right. now left. }
        cbn [hd]. rewrite (proj2 (Nat.eqb_neq _ _) Dy). cbn [negb]. set (r := y :: r') in *. assert (r <> []) as Nr by (unfold r; discriminate). rewrite Epo1.
        pose proof T1 as (N1 & Z1 & Ht1 & _). destruct (Ht1 D) as (_ & ->).
        assert (last ys (trm other) = last r 0) as ->. { rewrite E3. destruct (exists_last Nr) as (r2 & z & ->). rewrite last_last, app_assoc. apply last_last. }
        change y with (hd 0 r). pose proof (link_splice_range_ok h1 (trm l) p' r []) as K. rewrite !app_nil_r in K. specialize (K T1 (S1 Nr)).
        assert (NoDup (trm l :: p' ++ r)) as N2. { pose proof (nodup_insert (trm l) p' [] r) as Q. rewrite !app_nil_r in Q. apply Q; [exact N1|apply (S1 Nr)|exact Ar]. }
        assert (last p' (trm l) <> 0) as Dl by (apply (last_nz _ p' [] h1 D); now rewrite app_nil_r). destruct (K N2 Dl) as (K1 & K2). rewrite <- E2. split; [exact K1|]. eapply only_incl; [|exact K2].
        intros z [<-|[<-|[<-|[<-|[]]]]]; [|right; apply I0, in_app_iff; right; now apply hd_In|right; apply I0, in_app_iff; right; now apply last_In|now left].
        destruct (last_in (trm l) p') as [<-|I]; [now left|right; apply I0, in_app_iff; now left].
    - rewrite app_nil_r in E2. unfold h2. cbn [hd]. rewrite Nat.eqb_refl. cbn [negb]. rewrite andb_false_r. rewrite <- E2. split; [exact T1|apply only_refl]. }
  pose proof (initialise_ok h2 other Do) as K. destruct (initialise h2 other) as (h' & other'). destruct K as (K1 & K2 & K3). exists h', (mkilist (trm l) (isize l + isize other)), other'. conj; [reflexivity| |exact K1|reflexivity|exact K2|].
  - split; [exact D|split; [|cbn; rewrite Ez, Ezo; symmetry; apply merged_length]]. cbn [trm]. apply (only_through h2 _ [trm other]); [exact K3| |exact T2]. intros z [<-|[]] C. destruct C as [C|C]; [congruence|]. rewrite <- E2 in C. rewrite app_assoc in C. apply in_app_iff in C as [C|C]; [apply (A1 (trm other)); [now left|exact C]|]. inversion No as [|? ? N1]; subst. apply N1. apply in_app_iff. now right.
  - eapply only_trans; [eapply only_incl; [|exact O1]|eapply only_trans; [eapply only_incl; [|exact O2]|eapply only_incl; [|exact K3]]]; intros z Hz; cbn in *; tauto.
Qed.
End Merge.
