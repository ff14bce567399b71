(** * Parent pointers in the balanced tree of multimap/multiset (proof support for C51) *)
From Coq Require Import List Arith Lia Bool.
From Verif Require Import Util AvlModel AvlTree AvlRot AvlIns AvlDel AvlRem AvlFind MmModel.
Import ListNotations.

(** in the tree [t] hanging below [y] the parents are right *)
Fixpoint prep (g : par) (y : nat) (t : tr) : Prop :=
  match t with E => True | N l p r => g p = y /\ prep g p l /\ prep g p r end.
Fixpoint prepc (g : par) (C : ctx) : Prop :=
  match C with [] => True | (d, p, b) :: C' => g p = hda C' /\ prep g p b /\ prepc g C' end.
Lemma prep_nd g y d p a b : prep g y (nd d p a b) <-> g p = y /\ prep g p a /\ prep g p b.
Proof. destruct d; cbn; tauto. Qed.
Lemma prep_plug g C : forall t, prep g 0 (plug C t) <-> prep g (hda C) t /\ prepc g C.
Proof.
  induction C as [|[[d p] b] C IH]; intros t; cbn [plug prepc hda]; [tauto|]. rewrite IH, prep_nd. cbn. tauto.
Qed.
Lemma prep_ext g g' t : (forall q, In q (ino t) -> g' q = g q) -> forall y, prep g y t -> prep g' y t.
Proof.
  induction t as [|l IHl p r IHr]; cbn; auto. intros H y (H1 & H2 & H3).
  rewrite H by (rewrite in_app_iff; cbn; auto). repeat split; auto; [apply IHl|apply IHr]; auto; intros; apply H; rewrite in_app_iff; cbn; auto.
Qed.
Lemma prepc_ext g g' C : (forall q, In q (cadr C) -> g' q = g q) -> prepc g C -> prepc g' C.
Proof.
  induction C as [|[[d p] b] C IH]; cbn [prepc]; auto. intros H (H1 & H2 & H3).
  rewrite H by (apply In_cadr_cons; auto). repeat split; auto.
  - eapply prep_ext; [|exact H2]. intros; apply H; apply In_cadr_cons; auto.
  - apply IH; auto. intros; apply H; apply In_cadr_cons; auto.
Qed.
Definition root (t : tr) : nat := match t with E => 0 | N _ p _ => p end.
Lemma root_nd d p a b : root (nd d p a b) = p. Proof. now destruct d. Qed.
(** the tree is hung below another node *)
Lemma prep_hang g g' t y y' : prep g y t -> NoDup (ino t) -> (forall q, In q (ino t) -> q <> root t -> g' q = g q) -> (t <> E -> g' (root t) = y') -> prep g' y' t.
Proof.
  destruct t as [|l p r]; cbn [prep root ino]; auto. intros (H1 & H2 & H3) HN H H'.
  apply NoDup_app3 in HN. destruct HN as (N1 & N2 & N3). inversion N2 as [|? ? N4 N5]; subst.
  assert (~ In p (ino l)) by (intros Hp; apply (N3 p); cbn; auto).
  split; [apply H'; discriminate|]. split; (eapply prep_ext; [|eassumption]); intros q Hq; (apply H; [rewrite in_app_iff; cbn; auto|intros ->; tauto]).
Qed.

Section T.
  Context {X : Type}.
  Notation st := (st X).
  Implicit Types (s : st) (g : par).

  Lemma rep_root0 s x t : rep s x t -> x = root t.
  Proof. destruct t; cbn; tauto. Qed.
  Lemma rep_child s x t q d : rep s x t -> In q (ino t) -> ch s q d <> 0 -> In (ch s q d) (ino t).
  Proof.
    revert x. induction t as [|l IHl p r IHr]; intros x; cbn [rep ino]; [intros _ []|]. intros (H1 & H2 & H3 & H4) Hq Hc.
    rewrite in_app_iff in *. cbn in *. destruct Hq as [Hq|[<-|Hq]]; eauto.
    - destruct d.
      + apply rep_root0 in H3. destruct l; cbn in H3; [congruence|]. left. rewrite H3. cbn. rewrite in_app_iff. cbn. auto.
      + apply rep_root0 in H4. destruct r; cbn in H4; [congruence|]. right. right. rewrite H4. cbn. rewrite in_app_iff. cbn. auto.
  Qed.
  Lemma prep_child s g x t y q d : rep s x t -> prep g y t -> In q (ino t) -> ch s q d <> 0 -> g (ch s q d) = q.
  Proof.
    revert x y. induction t as [|l IHl p r IHr]; intros x y; cbn [rep prep ino]; [intros _ _ []|]. intros (H1 & H2 & H3 & H4) (P1 & P2 & P3) Hq Hc.
    rewrite in_app_iff in Hq. cbn in Hq. destruct Hq as [Hq|[<-|Hq]]; eauto.
    destruct d.
    - apply rep_root0 in H3. destruct l; cbn in H3; [congruence|]. rewrite H3. apply P2.
    - apply rep_root0 in H4. destruct r; cbn in H4; [congruence|]. rewrite H4. apply P3.
  Qed.
  Lemma prep_of s g x t y : al s 0 = false -> rep s x t -> (forall q d, In q (ino t) -> ch s q d <> 0 -> g (ch s q d) = q) -> (x <> 0 -> g x = y) -> prep g y t.
  Proof.
    intros H0. revert x y. induction t as [|l IHl p r IHr]; intros x y; cbn [rep prep ino]; auto. intros (H1 & H2 & H3 & H4) Hc Hx. subst x.
    assert (p <> 0) by congruence. split; auto. split; [apply (IHl (ch s p L))|apply (IHr (ch s p R))]; auto; intros; apply Hc; auto; rewrite in_app_iff; cbn; auto.
  Qed.

  Lemma prep_root s g x t y : rep s x t -> prep g y t -> x <> 0 -> g x = y.
  Proof. destruct t; cbn; [congruence|]. intros (-> & _) (H & _) _. exact H. Qed.
  Record po s g (t : tr) : Prop := {
    po_rep : rep s (rt s) t; po_nd : NoDup (ino t); po_null : al s 0 = false; po_prep : prep g 0 t }.
  Lemma po_nz s g t q : po s g t -> In q (ino t) -> q <> 0.
  Proof. intros [H1 _ H2 _] Hq ->. rewrite (rep_al _ _ _ _ H1 Hq) in H2. discriminate. Qed.
  Lemma po_al s g t q : po s g t -> In q (ino t) -> al s q = true.
  Proof. intros [H1 _ _ _] Hq. eapply rep_al; eauto. Qed.

  (** a location that holds a node is the hole around it *)
  Definition lin (l : loc) (t : tr) : Prop := forall z e, l = Lch z e -> In z (ino t).
  Lemma loc_in s g t l p : po s g t -> rl s l = Some p -> p <> 0 -> lin l t -> In p (ino t).
  Proof.
    intros H Hl Hp Hi. destruct l as [|z e]; cbn in Hl.
    - injection Hl as <-. pose proof (po_rep _ _ _ H) as HR. pose proof (rep_root0 _ _ _ HR) as E1. destruct t; cbn in E1; [congruence|]. rewrite E1. cbn. rewrite in_app_iff. cbn. auto.
    - specialize (Hi z e eq_refl). unfold rc in Hl. rewrite (po_al _ _ _ _ H Hi) in Hl. injection Hl as <-. eapply rep_child; eauto; apply H.
  Qed.
  Lemma sides s t q : rep s (rt s) t -> NoDup (ino t) -> In q (ino t) -> ch s q L <> 0 -> ch s q L <> ch s q R.
  Proof.
    intros HR HN Hq Hc He. destruct (in_split_tree t q Hq) as (C & l & r & ->). apply rep_plug in HR. destruct HR as (y & _ & H). cbn in H. destruct H as (_ & _ & H1 & H2).
    apply rep_root0 in H1, H2. apply NoDup_plug in HN. destruct HN as (HN & _). cbn in HN. apply NoDup_app3 in HN. destruct HN as (_ & _ & HD).
    destruct l as [|l1 lp l2]; cbn in H1; [congruence|]. destruct r as [|r1 rp' r2]; cbn in H2; [congruence|].
    apply (HD lp); [cbn; rewrite in_app_iff; cbn; auto|]. right. cbn. rewrite in_app_iff. cbn. right. left. congruence.
  Qed.
  Lemma loc_unique s g C a p b l : po s g (plug C (N a p b)) -> rl s l = Some p -> lin l (plug C (N a p b)) -> l = locof C.
  Proof.
    intros H Hl Hi. pose proof (po_rep _ _ _ H) as HR. pose proof HR as HR0. apply rep_plug in HR. destruct HR as (y & HC & HT). pose proof HT as (Ey & Ap & _). subst y.
    assert (p <> 0) by (intros ->; rewrite (po_null _ _ _ H) in Ap; discriminate).
    pose proof (po_prep _ _ _ H) as HP. apply prep_plug in HP. destruct HP as [HP1 HP2]. cbn in HP1. destruct HP1 as (Gp & _).
    destruct l as [|z e]; cbn in Hl.
    - injection Hl as Hl. destruct C as [|[[d q] o] C]; auto. exfalso.
      assert (In q (ino (plug ((d, q, o) :: C) (N a p b)))) by (apply In_plug; right; apply In_cadr_cons; auto).
      cbn [hda fad fst snd] in Gp. pose proof (po_prep _ _ _ H) as HP. rewrite <- Hl in Gp.
      pose proof (po_nz _ _ _ _ H H1) as Hq0. clear HC HT HP2 Hi H1.
      pose proof (prep_root _ _ _ _ _ HR0 HP ltac:(congruence)).
      congruence.
    - specialize (Hi z e eq_refl). unfold rc in Hl. rewrite (po_al _ _ _ _ H Hi) in Hl. injection Hl as Hl.
      pose proof (prep_child s g _ _ 0 z e HR0 (po_prep _ _ _ H) Hi ltac:(congruence)) as Gz. rewrite Hl in Gz. rewrite Gz in Gp.
      destruct C as [|[[d q] o] C]; cbn in Gp; [exfalso; subst z; now apply (po_nz _ _ _ _ H) in Hi|]. cbn [locof]. subst z. f_equal.
      cbn [repc] in HC. destruct HC as (Eq & _). destruct (side_cases d e) as [->| ->]; auto. exfalso.
      assert (ch s q L <> ch s q R) as Hs by (eapply sides; [exact HR0|apply H|exact Hi|destruct d; cbn in *; congruence]). destruct d; cbn in *; congruence.
  Qed.
  Lemma fupd_eq {B} (f : nat -> B) p v : fupd f p v p = v. Proof. unfold fupd. now rewrite Nat.eqb_refl. Qed.
  Lemma fupd_ne {B} (f : nat -> B) p v q : q <> p -> fupd f p v q = f q. Proof. unfold fupd. intros. destruct (Nat.eqb_spec q p); congruence. Qed.
  Definition gset g x p : par := if Nat.eqb x 0 then g else fupd g x p.
  Lemma gset_ne g x p q : q <> x -> gset g x p q = g q. Proof. unfold gset. destruct (Nat.eqb x 0); auto. apply fupd_ne. Qed.
  Lemma gset_eq g x p : x <> 0 -> gset g x p x = p. Proof. unfold gset. destruct (Nat.eqb_spec x 0); [congruence|]. intros. apply fupd_eq. Qed.
  Lemma wpn_ok s g x p t a y : rep s x t -> al s 0 = false -> (forall q, al a q = al s q) -> y = x -> wpn (E:=X) a g y p = Some (gset g x p).
  Proof.
    intros H H0 Ha ->. unfold wpn, gset, wp. destruct (Nat.eqb_spec x 0); auto. rewrite Ha. destruct t; cbn in H; [congruence|]. destruct H as (-> & -> & _). reflexivity.
  Qed.
  Lemma rep_root_al s x t : rep s x t -> al s 0 = false -> t <> E -> x <> 0.
  Proof. destruct t; cbn; [congruence|]. intros (-> & H & _) H0 _ ->. congruence. Qed.
  Lemma root_in t : t <> E -> In (root t) (ino t).
  Proof. destruct t; cbn; [congruence|]. intros _. rewrite in_app_iff. cbn. auto. Qed.

  Lemma mrot2 s g t l d p s' : po s g t -> rl s l = Some p -> p <> 0 -> lin l t -> rotate_2node s l d = Some s' ->
    exists g' t', let s1 := set_dr s' (ch s p d) (Some (opp d)) in
      mrotate_2node s g l d = Some (s1, g') /\ po s1 g' t' /\ ino t' = ino t /\
      rl s' l = Some (ch s p d) /\ ch s' (ch s p d) (opp d) = p.
  Proof.
    intros H Hl Hp Hi Hr. pose proof (loc_in _ _ _ _ _ H Hl Hp Hi) as Ip. destruct (in_split_tree t p Ip) as (C & a0 & b0 & ->).
    pose proof (loc_unique _ _ _ _ _ _ _ H Hl Hi) as ->. pose proof (po_rep _ _ _ H) as HR. apply rep_plug in HR. destruct HR as (y & HC & HT).
    pose proof (po_null _ _ _ H) as H0. destruct (nd_cases d (N a0 p b0)) as [?|(p' & A & B & ET)]; [discriminate|].
    assert (p' = p). { destruct d; cbn in ET; congruence. } subst p'. rewrite ET in *. clear ET a0 b0.
    pose proof (proj1 (rep_nd _ _ _ _ _ _) HT) as (Ey & Ap & HA & HB). subst y.
    assert (HA' : exists n a b, A = nd d n a b).
    { destruct (nd_cases d A) as [->|(n & a & b & ->)]; [|eauto]. exfalso. cbn in HA. unfold rotate_2node in Hr. rewrite Hl in Hr. cbn [obind] in Hr.
      unfold rc in Hr at 1. rewrite Ap in Hr. cbn [obind] in Hr. rewrite HA in Hr. unfold rc in Hr at 1. rewrite H0 in Hr. discriminate. }
    destruct HA' as (n & a & b & ->). rename B into c.
    destruct (rotate_2_tree s C d p n a b c p HC HT (po_nd _ _ _ H)) as (s2 & E2 & R2 & _ & W2 & RC2 & RR2 & _). rewrite E2 in Hr. injection Hr as <-.
    pose proof (proj1 (rep_nd _ _ _ _ _ _) HA) as (En & An & Ha & Hb). rewrite En in *.
    pose proof (proj1 (NoDup_plug _ _) (po_nd _ _ _ H)) as (HN1 & HNC & HD).
    pose proof (proj1 (NoDup_nd _ _ _ _) HN1) as (Np1 & Np2 & Nn & Nc & D1). pose proof (proj1 (NoDup_nd _ _ _ _) Nn) as (Nn1 & Nn2 & Na & Nb & D2).
    rewrite In_nd in Np1. assert (Hnp : p <> n) by tauto. apply not_eq_sym in Hnp.
    pose proof (po_prep _ _ _ H) as HP. apply prep_plug in HP. destruct HP as [HP1 HP2].
    apply prep_nd in HP1. destruct HP1 as (Gp & Pn & Pc). apply prep_nd in Pn. destruct Pn as (Gn & Pa & Pb).
    set (x := ch s n (opp d)) in *.
    assert (Hxp : p <> x). { intros ->. unfold x in *. destruct b as [|b1 bp b2]; [cbn in Hb; congruence|]. apply rep_root0 in Hb. cbn in Hb. apply Np1. right. right. rewrite Hb. cbn. rewrite in_app_iff. cbn. auto. }
    assert (Hxr : x = root b) by (eapply rep_root0; eauto).
    set (g1 := gset g x p). set (g' := fupd (fupd g1 n (g p)) p n).
    exists g', (plug C (nd d n a (nd d p b c))). cbv zeta.
    assert (R2' := R2). destruct R2 as (D1' & E1' & A1' & Z1' & F1').
    split; [|split].
    - unfold rotate_2node in E2. unfold mrotate_2node. rewrite Hl in *. cbn [obind] in *.
      unfold rc at 1 in E2. unfold rc at 1. rewrite Ap in *. cbn [obind] in *. rewrite En in *. unfold rc at 1 in E2. unfold rc at 1. rewrite An in *. cbn [obind] in *. fold x in E2 |- *.
      unfold wc at 1 in E2. unfold wc at 1. rewrite Ap in *. cbn [obind] in *.
      rewrite (wpn_ok s g x p b (set_ch s p d x) x Hb H0) by auto. cbn [obind].
      unfold rp. cbn [al set_ch]. rewrite Ap. cbn [obind]. unfold wp at 1. cbn [al set_ch]. rewrite An. cbn [obind].
      unfold g1. rewrite gset_ne by auto.
      unfold wc in E2 at 1. unfold wc. cbn [al set_ch] in E2 |- *. rewrite An in *. cbn [obind] in *. unfold wd. cbn [al set_ch]. rewrite An. cbn [obind].
      unfold ww at 1 in E2. unfold ww at 1. cbn [al set_ch set_dr] in *. rewrite Ap in *. cbn [obind] in *.
      unfold wp. cbn [al set_ch set_dr set_wt]. rewrite Ap. cbn [obind].
      destruct (locof C) as [|z e] eqn:EL; cbn [wl] in *; unfold wc in *; cbn [al set_ch set_dr set_wt set_rt] in *.
      + cbn [obind] in *. unfold ww in *. cbn [al set_ch set_dr set_wt set_rt] in *. rewrite An in *. cbn [obind] in *. injection E2 as <-. reflexivity.
      + destruct (al s z) eqn:Az; [|discriminate]. cbn [obind] in *. unfold ww in *. cbn [al set_ch set_dr set_wt set_rt] in *. rewrite An in *. cbn [obind] in *. injection E2 as <-. reflexivity.
    - assert (Gd : forall q, q <> p -> q <> n -> q <> x -> g' q = g q).
      { intros q Q1 Q2 Q3. unfold g'. rewrite !fupd_ne by auto. unfold g1. now apply gset_ne. }
      assert (Ix : forall q, ~ In q (ino b) -> q <> x \/ q = 0).
      { intros q Hq. destruct (Nat.eq_dec q x) as [->|]; auto. right. rewrite Hxr in *. destruct b; auto. exfalso. apply Hq. apply root_in. discriminate. }
      assert (HRn : rep s2 (rt s2) (plug C (nd d n a (nd d p b c)))) by (eapply repc_rep; eauto).
      constructor.
      + eapply rep_frame; [|exact HRn]. intros q _. auto.
      + rewrite (ino_plug_eq C _ _ (ino_rot2 d p n a b c)). apply H.
      + cbn. rewrite A1'. exact H0.
      + apply prep_plug. assert (GG : forall q, In q (ino a) \/ In q (ino c) \/ In q (cadr C) -> g' q = g q).
        { intros q Hq. assert (Hqt : In q (ino (plug C (nd d p (nd d n a b) c)))) by (rewrite In_plug, !In_nd; tauto). pose proof (po_nz _ _ _ _ H Hqt).
          assert (~ In q (ino b)). { intros Hb'. destruct Hq as [Hq|[Hq|Hq]]; [apply (D2 q); auto|apply (D1 q); auto; apply In_nd; auto|apply (HD q); auto; rewrite !In_nd; auto]. }
          apply Gd.
          - intros ->. destruct Hq as [Hq|[Hq|Hq]]; [apply Np1; tauto|tauto|apply (HD p); auto; rewrite In_nd; auto].
          - intros ->. destruct Hq as [Hq|[Hq|Hq]]; [tauto|apply (D1 n); auto; apply In_nd; auto|apply (HD n); auto; rewrite !In_nd; auto].
          - destruct (Ix q H2); congruence. }
        split; [|eapply prepc_ext; [|exact HP2]; intros; apply GG; auto].
        apply prep_nd. split; [|split].
        * unfold g'. rewrite fupd_ne, fupd_eq; auto.
        * eapply prep_ext; [|exact Pa]. intros; apply GG; auto.
        * apply prep_nd. split; [unfold g'; apply fupd_eq|]. split; [|eapply prep_ext; [|exact Pc]; intros; apply GG; auto].
          apply (prep_hang g g' b n p Pb Nb).
          -- intros q Hq Hr. apply Gd; [intros ->; tauto|intros ->; tauto|congruence].
          -- intros Hb0. pose proof (rep_root_al _ _ _ Hb H0 Hb0) as Hx0. rewrite <- Hxr. unfold g'. rewrite !fupd_ne; auto; [unfold g1; now apply gset_eq|].
             intros Hx. apply Nn2. rewrite <- Hx, Hxr. now apply root_in.
    - split; [apply ino_plug_eq, ino_rot2|]. split; [apply rl_locof; exact RC2|]. apply rep_nd in RR2. destruct RR2 as (_ & _ & _ & RR2). apply rep_nd in RR2. apply RR2.
  Qed.

  Lemma mrot3 s g t l d third p s' : po s g t -> rl s l = Some p -> p <> 0 -> lin l t -> rotate_3node s l d third = Some s' ->
    exists g' t', let s1 := set_dr s' (ch s (ch s p d) (opp d)) (Some (opp d)) in
      mrotate_3node s g l d third = Some (s1, g') /\ po s1 g' t' /\ ino t' = ino t /\
      rl s' l = Some (ch s (ch s p d) (opp d)) /\ ch s' (ch s (ch s p d) (opp d)) (opp d) = p.
  Proof.
    intros H Hl Hp Hi Hr. pose proof (loc_in _ _ _ _ _ H Hl Hp Hi) as Ip. destruct (in_split_tree t p Ip) as (C & a0 & b0 & ->).
    pose proof (loc_unique _ _ _ _ _ _ _ H Hl Hi) as ->. pose proof (po_rep _ _ _ H) as HR. apply rep_plug in HR. destruct HR as (y0 & HC & HT).
    pose proof (po_null _ _ _ H) as H0. destruct (nd_cases d (N a0 p b0)) as [?|(p' & A & b & ET)]; [discriminate|].
    assert (p' = p). { destruct d; cbn in ET; congruence. } subst p'. rewrite ET in *. clear ET a0 b0.
    pose proof (proj1 (rep_nd _ _ _ _ _ _) HT) as (Ey & Ap & HA & HB). subst y0.
    assert (HA' : exists c n a1 a2 b', A = nd (opp d) c (nd d n a1 a2) b').
    { destruct (nd_cases (opp d) A) as [->|(c & a & b' & ->)].
      - exfalso. cbn in HA. unfold rotate_3node in Hr. rewrite Hl in Hr. cbn [obind] in Hr.
        unfold rc in Hr at 1. rewrite Ap in Hr. cbn [obind] in Hr. rewrite HA in Hr. unfold rc in Hr at 1. rewrite H0 in Hr. discriminate.
      - destruct (nd_cases d a) as [->|(n & a1 & a2 & ->)]; [|eauto 8]. exfalso. apply rep_nd in HA. destruct HA as (Ec & Ac & Ha & _). cbn in Ha.
        unfold rotate_3node in Hr. rewrite Hl in Hr. cbn [obind] in Hr.
        unfold rc in Hr at 1. rewrite Ap in Hr. cbn [obind] in Hr. rewrite Ec in Hr. unfold rc in Hr at 1. rewrite Ac, Ha in Hr. cbn [obind] in Hr.
        unfold ww in Hr at 1. rewrite Ac in Hr. cbn [obind] in Hr. unfold rc in Hr at 1. cbn [al set_wt] in Hr. rewrite H0 in Hr. discriminate. }
    destruct HA' as (c & n & a1 & a2 & b' & ->).
    destruct (rotate_3_tree s C d third p c n a1 a2 b' b p HC HT (po_nd _ _ _ H)) as (s2 & E2 & R2 & _ & W2 & RC2 & RR2). rewrite E2 in Hr. injection Hr as <-.
    pose proof (proj1 (rep_nd _ _ _ _ _ _) HA) as (Ec & Ac & HA1 & Hb'). rewrite opp_opp in Hb'. rewrite Ec in *.
    pose proof (proj1 (rep_nd _ _ _ _ _ _) HA1) as (En & An & Ha1 & Ha2). rewrite En in *.
    pose proof (proj1 (NoDup_plug _ _) (po_nd _ _ _ H)) as (HN1 & HNC & HD).
    pose proof (proj1 (NoDup_nd _ _ _ _) HN1) as (Np1 & Np2 & Nn & Nb & D1). pose proof (proj1 (NoDup_nd _ _ _ _) Nn) as (Nc1 & Nc2 & Nn1 & Nb' & D2).
    pose proof (proj1 (NoDup_nd _ _ _ _) Nn1) as (Nn3 & Nn4 & Na1 & Na2 & D3).
    rewrite In_nd, In_nd in Np1. rewrite In_nd in Nc1. assert (Hcp : c <> p) by (intros ->; tauto). assert (Hnp : n <> p) by (intros ->; tauto). assert (Hnc : n <> c) by (intros ->; tauto).
    pose proof (po_prep _ _ _ H) as HP. apply prep_plug in HP. destruct HP as [HP1 HP2].
    apply prep_nd in HP1. destruct HP1 as (Gp & Pn & Pb). apply prep_nd in Pn. destruct Pn as (Gc & Pn & Pb'). apply prep_nd in Pn. destruct Pn as (Gn & Pa1 & Pa2).
    set (x := ch s n d) in *. set (y := ch s n (opp d)) in *.
    assert (Hxr : x = root a1) by (eapply rep_root0; eauto). assert (Hyr : y = root a2) by (eapply rep_root0; eauto).
    assert (IX : forall q, q <> 0 -> ~ In q (ino a1) -> q <> x).
    { intros q Q1 Q2 ->. rewrite Hxr in *. destruct a1; [auto|]. apply Q2, root_in. discriminate. }
    assert (IY : forall q, q <> 0 -> ~ In q (ino a2) -> q <> y).
    { intros q Q1 Q2 ->. rewrite Hyr in *. destruct a2; [auto|]. apply Q2, root_in. discriminate. }
    assert (NZ : forall q, In q (ino (plug C (nd d p (nd (opp d) c (nd d n a1 a2) b') b))) -> q <> 0) by (intros; eapply po_nz; eauto).
    assert (Pn0 : n <> 0) by (apply NZ; rewrite In_plug, !In_nd; auto 8). assert (Pc0 : c <> 0) by (apply NZ; rewrite In_plug, !In_nd; auto 8).
    set (g1 := fupd (gset g x c) c n). set (g2 := fupd (gset g1 y p) n (g p)). set (g' := fupd g2 p n).
    exists g', (plug C (nd d n (nd (opp d) c a1 b') (nd d p a2 b))). cbv zeta.
    assert (R2' := R2). destruct R2 as (D1' & E1' & A1' & Z1' & F1').
    split; [|split].
    - unfold rotate_3node in E2. unfold mrotate_3node. rewrite Hl in *. cbn [obind] in *.
      unfold rc at 1 in E2. unfold rc at 1. rewrite Ap in *. cbn [obind] in *. rewrite Ec in *. unfold rc at 1 in E2. unfold rc at 1. rewrite Ac in *. cbn [obind] in *. rewrite En in *.
      set (wc0 := match third with Some t => if side_eqb t d then None else Some d | None => None end) in *.
      set (wp0 := match third with Some t => if side_eqb t d then Some (opp d) else None | None => None end) in *.
      unfold ww at 1 in E2. unfold ww at 1. rewrite Ac in *. cbn [obind] in *.
      unfold rc at 1 in E2. unfold rc at 1. cbn [al set_wt ch] in *. rewrite An in *. cbn [obind] in *. fold x in E2 |- *.
      unfold wc at 1 in E2. unfold wc at 1. cbn [al set_wt] in *. rewrite Ac in *. cbn [obind] in *.
      rewrite (wpn_ok s g x c a1 _ x Ha1 H0) by auto. cbn [obind].
      unfold wc at 1 in E2. unfold wc at 1. cbn [al set_wt set_ch] in *. rewrite An in *. cbn [obind] in *.
      unfold wp at 1. cbn [al set_ch set_wt]. rewrite Ac. cbn [obind]. fold g1.
      unfold ww at 1 in E2. unfold ww at 1. cbn [al set_wt set_ch] in *. rewrite Ap in *. cbn [obind] in *.
      assert (EY : rc (set_wt (set_ch (set_ch (set_wt s c wc0) c (opp d) x) n d c) p wp0) n (opp d) = Some y).
      { unfold rc. cbn [al set_wt set_ch ch]. rewrite An. unfold cupd. destruct (Nat.eqb_spec n c); [congruence|]. rewrite Nat.eqb_refl, side_eqb_opp'. reflexivity. }
      rewrite EY in E2 |- *. cbn [obind] in *.
      unfold wc at 1 in E2. unfold wc at 1. cbn [al set_wt set_ch] in *. rewrite Ap in *. cbn [obind] in *.
      rewrite (wpn_ok s g1 y p a2 _ y Ha2 H0) by auto. cbn [obind].
      unfold rp. cbn [al set_ch set_wt]. rewrite Ap. cbn [obind]. unfold wp at 1. cbn [al set_ch set_wt]. rewrite An. cbn [obind].
      assert (EG : gset g1 y p p = g p).
      { rewrite gset_ne; [|apply IY; [auto|tauto]]. unfold g1. rewrite fupd_ne by auto. rewrite gset_ne; auto. apply IX; [auto|tauto]. }
      rewrite EG. fold g2.
      unfold wc in E2 at 1. unfold wc. cbn [al set_ch set_wt] in E2 |- *. rewrite An in *. cbn [obind] in *. unfold wd. cbn [al set_ch set_wt]. rewrite An. cbn [obind].
      unfold wp. cbn [al set_ch set_dr set_wt]. rewrite Ap. cbn [obind].
      destruct (locof C) as [|z e] eqn:EL; cbn [wl] in *; unfold wc in *; cbn [al set_ch set_dr set_wt set_rt] in *.
      + cbn [obind] in *. unfold ww in *. cbn [al set_ch set_dr set_wt set_rt] in *. rewrite An in *. cbn [obind] in *. injection E2 as <-. reflexivity.
      + destruct (al s z) eqn:Az; [|discriminate]. cbn [obind] in *. unfold ww in *. cbn [al set_ch set_dr set_wt set_rt] in *. rewrite An in *. cbn [obind] in *. injection E2 as <-. reflexivity.
    - assert (Gd : forall q, q <> p -> q <> n -> q <> c -> q <> x -> q <> y -> g' q = g q).
      { intros q Q1 Q2 Q3 Q4 Q5. unfold g', g2. rewrite !fupd_ne by auto. rewrite gset_ne by auto. unfold g1. rewrite fupd_ne by auto. now apply gset_ne. }
      assert (HRn : rep s2 (rt s2) (plug C (nd d n (nd (opp d) c a1 b') (nd d p a2 b)))) by (eapply repc_rep; eauto).
      constructor.
      + eapply rep_frame; [|exact HRn]. intros q _. auto.
      + rewrite (ino_plug_eq C _ _ (ino_rot3 d p c n a1 a2 b' b)). apply H.
      + cbn. rewrite A1'. exact H0.
      + apply prep_plug. assert (GG : forall q, In q (ino b') \/ In q (ino b) \/ In q (cadr C) -> g' q = g q).
        { intros q Hq. assert (q <> 0) by (apply NZ; rewrite In_plug, !In_nd; tauto).
          assert (HQ : q = p \/ q = c \/ q = n \/ In q (ino a1) \/ In q (ino a2) -> False).
          { intros HQ. destruct Hq as [Hq|[Hq|Hq]].
            - destruct HQ as [->|[->|HQ]]; try tauto. apply (D2 q); auto. rewrite In_nd. destruct HQ as [->|[?|?]]; auto 9.
            - destruct HQ as [->|HQ]; try tauto. apply (D1 q); auto. rewrite !In_nd. destruct HQ as [->|[->|[?|?]]]; auto 9.
            - apply (HD q); auto. rewrite !In_nd. destruct HQ as [->|[->|[->|[?|?]]]]; auto 9. }
          apply Gd; try (apply IX || apply IY; auto); intros HZ; apply HQ; auto 6. }
        split; [|eapply prepc_ext; [|exact HP2]; intros; apply GG; auto].
        apply prep_nd. split; [|split].
        * unfold g', g2. rewrite fupd_ne, fupd_eq; auto.
        * apply prep_nd. split; [|split; [|eapply prep_ext; [|exact Pb']; intros; apply GG; auto]].
          -- unfold g', g2. rewrite !fupd_ne by auto. rewrite gset_ne; [unfold g1; apply fupd_eq|]. apply IY; auto; tauto.
          -- apply (prep_hang g g' a1 n c Pa1 Na1).
             ++ intros q Hq Hr. assert (~ In q (ino a2)) by (intros ?; apply (D3 q); auto). assert (q <> 0) by (apply NZ; rewrite In_plug, !In_nd; tauto). apply Gd; try (apply IY; auto; fail); try congruence; clear Gd; intros ->; tauto.
             ++ intros Hb0. pose proof (rep_root_al _ _ _ Ha1 H0 Hb0) as Hx0. assert (Ix : In x (ino a1)) by (rewrite Hxr; now apply root_in). assert (~ In x (ino a2)) by (intros ?; apply (D3 x); auto).
                rewrite <- Hxr. unfold g', g2. rewrite !fupd_ne by (intros Hx; rewrite Hx in Ix; tauto). rewrite gset_ne by (apply IY; auto). unfold g1. rewrite fupd_ne by (intros Hx; rewrite Hx in Ix; tauto). now apply gset_eq.
        * apply prep_nd. split; [unfold g'; apply fupd_eq|]. split; [|eapply prep_ext; [|exact Pb]; intros; apply GG; auto].
          apply (prep_hang g g' a2 n p Pa2 Na2).
          -- intros q Hq Hr. assert (~ In q (ino a1)) by (intros ?; apply (D3 q); auto). assert (q <> 0) by (apply NZ; rewrite In_plug, !In_nd; tauto). apply Gd; try (apply IX; auto; fail); try congruence; clear Gd; intros ->; tauto.
          -- intros Hb0. pose proof (rep_root_al _ _ _ Ha2 H0 Hb0) as Hx0. assert (Iy : In y (ino a2)) by (rewrite Hyr; now apply root_in).
             rewrite <- Hyr. unfold g', g2. rewrite !fupd_ne by (intros Hx; rewrite Hx in Iy; tauto). now apply gset_eq.
    - split; [apply ino_plug_eq, ino_rot3|]. split; [apply rl_locof; exact RC2|]. apply rep_nd in RR2. destruct RR2 as (_ & _ & _ & RR2). apply rep_nd in RR2. apply RR2.
  Qed.
End T.
