(** * Insertion into the balanced tree of multimap/multiset (proof support for C51) *)
From Coq Require Import List Arith Lia Bool.
From Verif Require Import Util SortSpec HeapProofs AvlModel AvlTree AvlRot AvlIns AvlDel MmModel MmTree.
Import ListNotations.

Section Ins.
  Context {X K : Type}.
  Variable key : X -> K.
  Variable lt : K -> K -> bool.
  Hypothesis O : strict_weak_order lt.
  Notation st := (st X).
  Notation K_of := (K_of key).
  Notation upper := (upper key lt).

  Lemma rep_inj (s : st) x t : al s 0 = false -> rep s x t -> forall t', rep s x t' -> t = t'.
  Proof using.
    intros H0. revert x. induction t as [|l IHl p r IHr]; intros x H [|l' p' r'] H'; cbn in *; auto.
    - destruct H' as (-> & Ha & _). congruence.
    - destruct H as (-> & Ha & _). congruence.
    - destruct H as (-> & Ha & H1 & H2), H' as (-> & _ & H1' & H2'). f_equal; eauto.
  Qed.
  Lemma reweigh_frest n : forall (s s' : st) x, reweigh n s x = Some s' -> frest s s'.
  Proof using.
    induction n as [|n IH]; intros s s' x; cbn [reweigh]; [discriminate|]. destruct (Nat.eqb x 0); [intros [= <-]; apply frest_refl|].
    unfold rd, rw, ww, rc. destruct (al s x) eqn:Ax; cbn [obind]; [|discriminate]. destruct (dr s x) as [d|]; [|intros [= <-]; apply frest_refl].
    cbn [obind al set_wt]. rewrite Ax. cbn [obind]. intros H. apply IH in H. destruct H as (H1 & H2 & H3 & H4 & H5 & H6 & H7). repeat split; auto.
  Qed.
  Lemma po_frest (s s' : st) g t : frest s s' -> po s g t -> po s' g t.
  Proof using.
    intros F [H1 H2 H3 H4]. constructor; auto.
    - destruct F as (F1 & F2 & F3 & F4 & F5 & F6 & F7). rewrite F5. eapply rep_frest; [|exact H1]. repeat split; auto.
    - destruct F as (_ & _ & _ & -> & _). auto.
  Qed.
  (** everything but the directions *)
  Definition eqd (s s' : st) : Prop := ch s' = ch s /\ wt s' = wt s /\ el s' = el s /\ al s' = al s /\ rt s' = rt s /\ sz s' = sz s /\ fr s' = fr s.
  Lemma po_drest (s s' : st) g t : drest s s' -> po s g t -> po s' g t.
  Proof using.
    intros F [H1 H2 H3 H4]. constructor; auto.
    - pose proof F as (F1 & F2 & F3 & F4 & F5 & F6 & F7). rewrite F5. eapply rep_drest; [|exact H1]. exact F.
    - destruct F as (_ & _ & _ & -> & _). auto.
  Qed.
  Lemma ww_frest (s s' : st) c w : ww s c w = Some s' -> frest s s'.
  Proof using. unfold ww. destruct (al s c); [|discriminate]. intros [= <-]. repeat split. Qed.

  Lemma mbal n (s s' : st) g t l c : po s g t -> rl s l = Some c -> c <> 0 -> lin l t -> balance_node n s l = Some s' ->
    exists s1 g' t', mbalance_node n s g l = Some (s1, g') /\ drest s' s1 /\ po s1 g' t' /\ ino t' = ino t.
  Proof using.
    intros H Hl Hc Hi. unfold balance_node, mbalance_node. rewrite Hl. cbn [obind].
    destruct (ri s c) as [d|]; [|discriminate]. cbn [obind]. destruct (rc s c d) as [x|]; [|discriminate]. cbn [obind].
    destruct (reweigh n s x) as [s0|] eqn:Er; [|discriminate]. cbn [obind]. pose proof (reweigh_frest _ _ _ _ Er) as F. pose proof (po_frest _ _ _ _ F H) as H1.
    assert (Hl1 : rl s0 l = Some c). { destruct F as (F1 & _ & _ & F4 & F5 & _). destruct l as [|z e]; cbn in *; [congruence|]. unfold rc in *. rewrite F4, F1. exact Hl. }
    assert (Hex : forall s2, frest s0 s2 -> s' = s2 -> exists s1 g' t', Some (s2, g) = Some (s1, g') /\ drest s' s1 /\ po s1 g' t' /\ ino t' = ino t).
    { intros s2 F2 ->. exists s2, g, t. split; auto. split; [repeat split|]. split; auto. eapply po_frest; eauto. }
    destruct (rw s0 c) as [w|]; [|discriminate]. cbn [obind]. destruct w as [w|]; cbn [oside_eqb].
    2:{ destruct (ww s0 c (Some d)) as [s2|] eqn:E2; [|discriminate]. intros [= <-]. cbn [obind]. apply Hex; auto. eapply ww_frest; eauto. }
    destruct (side_eqb d w) eqn:Edw; cbn [negb].
    2:{ destruct (ww s0 c None) as [s2|] eqn:E2; [|discriminate]. intros [= <-]. cbn [obind]. apply Hex; auto. eapply ww_frest; eauto. }
    destruct (rc s0 c d) as [y|]; [|discriminate]. cbn [obind]. destruct (rd s0 y) as [xd|]; [|discriminate]. cbn [obind].
    destruct (match xd with Some y0 => side_eqb w y0 | None => false end) eqn:E3.
    - intros Hr. destruct (mrot2 s0 g t l d c s' H1 Hl1 Hc Hi Hr) as (g' & t' & Q1 & Q2 & Q3 & _). eexists _, g', t'. split; [exact Q1|]. split; auto. repeat split.
    - destruct (rc s0 y (opp d)) as [z|]; [|discriminate]. cbn [obind]. destruct (rd s0 z) as [yd|]; [|discriminate]. cbn [obind].
      intros Hr. destruct (mrot3 s0 g t l d yd c s' H1 Hl1 Hc Hi Hr) as (g' & t' & Q1 & Q2 & Q3 & _). eexists _, g', t'. split; [exact Q1|]. split; auto. repeat split.
  Qed.

  (** *** weakly ascending keys *)
  Fixpoint nasc (f : nat -> K) (l : list nat) : Prop :=
    match l with [] => True | a :: r => (forall b, In b r -> lt (f b) (f a) = false) /\ nasc f r end.
  Lemma nasc_app f A B : nasc f (A ++ B) <-> nasc f A /\ nasc f B /\ forall a b, In a A -> In b B -> lt (f b) (f a) = false.
  Proof using.
    induction A as [|a A IH]; cbn.
    - split; [intros; repeat split; auto; intros ? ? []|tauto].
    - rewrite IH. split.
      + intros (H1 & H2 & H3 & H4). repeat split; auto; [intros; apply H1; rewrite in_app_iff; auto|].
        intros x b [<-|Hx] Hb; auto. apply H1. rewrite in_app_iff; auto.
      + intros ((H1 & H2) & H3 & H4). repeat split; auto. intros b Hb. rewrite in_app_iff in Hb. destruct Hb; auto.
  Qed.
  Lemma nasc_ext f g l : (forall q, In q l -> g q = f q) -> nasc f l -> nasc g l.
  Proof using.
    induction l as [|a l IH]; cbn; auto. intros H (H1 & H2). split; [|apply IH; auto].
    intros b Hb. rewrite !H by auto. auto.
  Qed.
  Definition notgt (s : st) (k : K) (l : list nat) : Prop := forall q, In q l -> lt k (K_of s q) = false.
  Lemma notgt_app s k A B : notgt s k (A ++ B) <-> notgt s k A /\ notgt s k B.
  Proof using. unfold notgt. split; [intros H; split; intros; apply H; rewrite in_app_iff; auto|intros [H1 H2] q Hq; rewrite in_app_iff in Hq; destruct Hq; auto]. Qed.
  Lemma mstep_order (s : st) k x d a b C : notgt s k (pre C) -> upper s k (post C) -> nasc (K_of s) (ino (nd d x a b)) ->
    d = (if lt k (K_of s x) then L else R) ->
    notgt s k (pre ((d, x, b) :: C)) /\ upper s k (post ((d, x, b) :: C)) /\ nasc (K_of s) (ino a).
  Proof using O.
    intros Hl Hu Ha Hk. destruct (lt k (K_of s x)) eqn:Ek; subst d; cbn [nd ino pre post pref postf] in *.
    - apply nasc_app in Ha. destruct Ha as (A1 & (A2 & A3) & A4).
      rewrite app_nil_r. split; auto. split; auto. intros q [<-|Hq]; auto. apply in_app_iff in Hq. destruct Hq; auto.
      eapply (lt_nlt_trans lt O); [exact Ek|]. auto.
    - apply nasc_app in Ha. destruct Ha as (A1 & (A2 & A3) & A4).
      split; [|split; auto]. apply notgt_app. split; auto. intros q Hq. apply in_app_iff in Hq. destruct Hq as [Hq|[<-|[]]]; auto.
      apply (nlt_trans lt O) with (K_of s x); auto. apply A4; cbn; auto.
  Qed.

  (** *** the descent of insert_node *)
  Lemma minsert_loop_ok : forall n (s : st) g C t x cp c node, hgt t <= n -> t <> E -> al s 0 = false -> al s node = true ->
    ~ In node (ino (plug C t)) -> NoDup (ino (plug C t)) -> repc s C x -> rep s x t ->
    (forall f, In f C -> dr s (fad f) = Some (fsd f)) ->
    notgt s (K_of s node) (pre C) -> upper s (K_of s node) (post C) -> nasc (K_of s) (ino t) -> HeadInv (wt s) C x cp c ->
    exists s' cp' c' C', minsert_loop key lt n s g x cp c node = Some (s', fupd g node (hda C'), node, cp', c') /\
           C' <> [] /\ plug C' E = plug C t /\ repc s' C' node /\ rep s' node (N E node E) /\
            dr s' node = None /\ (forall f, In f C' -> dr s' (fad f) = Some (fsd f)) /\
            wt s' node = None /\ (forall q, q <> node -> wt s' q = wt s q) /\
            el s' = el s /\ al s' = al s /\ fr s' = fr s /\ sz s' = sz s + 1 /\ Crit (wt s) C' cp' c' /\
            notgt s (K_of s node) (pre C') /\ upper s (K_of s node) (post C').
  Proof using O.
    induction n as [|n IH]; intros s g C t x cp c node Hn Ht H0 Hnode Hni HN HC HR Hdr Hlo Hup Ha HH.
    { destruct t; [congruence|]. cbn in Hn. lia. }
    assert (Ax : al s x = true). { destruct t; [congruence|]. destruct HR as (-> & ? & _). auto. }
    cbn [minsert_loop]. destruct (Nat.eqb_spec x 0); [congruence|].
    unfold rw, re. rewrite Ax, Hnode. cbn [obind].
    set (c0 := match wt s x with Some _ => x | None => c end).
    assert (Hcr : forall d b, Crit (wt s) ((d, x, b) :: C) cp c0).
    { intros d b. unfold HeadInv in HH. unfold c0. destruct (wt s x) eqn:Ew.
      - exists [], (d, x, b), C. cbn. repeat split; auto; [intros f []|]. right. congruence.
      - destruct HH as [(-> & -> & ->)|(C2 & f & C1 & -> & -> & -> & H1 & H2)].
        + exists [], (d, x, b), []. cbn. repeat split; auto. intros f [].
        + exists ((d, x, b) :: C2), f, C1. repeat split; auto. intros h [<-|Hg]; auto. }
    assert (Hxn : x <> node). { intros ->. apply Hni. apply In_plug. left. destruct t; [congruence|]. destruct HR as (-> & _). cbn. rewrite in_app_iff. cbn. auto. }
    set (d := if lt (key (el s node)) (key (el s x)) then L else if lt (key (el s x)) (key (el s node)) then R else R).
    assert (Ed : d = (if lt (K_of s node) (K_of s x) then L else R)).
    { unfold d, AvlIns.K_of. destruct (lt (key (el s node)) _); auto. now destruct (lt (key (el s x)) _). }
    clearbody d. destruct (nd_cases d t) as [->|(p & a & b & ->)]; [congruence|].
      pose proof (proj1 (rep_nd _ _ _ _ _ _) HR) as (<- & _ & HRa & HRb).
      unfold wd. rewrite Ax. cbn [obind]. set (s0 := set_dr s x (Some d)).
      unfold rc at 1. cbn [al s0 set_dr]. rewrite Ax. cbn [obind ch s0 set_dr].
      pose proof (mstep_order s (K_of s node) x d a b C Hlo Hup Ha Ed) as (Hlo' & Hup' & Ha').
      pose proof (proj1 (NoDup_plug _ _) HN) as (HN1 & HNC & HD).
      assert (Hdr0 : forall g, In g ((d, x, b) :: C) -> dr s0 (fad g) = Some (fsd g)).
      { intros f [<-|Hg]; cbn; unfold fupd; [now rewrite Nat.eqb_refl|].
        destruct (Nat.eqb_spec (fad f) x); [|now apply Hdr]. exfalso. apply (HD x); [apply In_nd; auto|].
        rewrite <- e. now apply In_fad. }
      assert (HC0 : repc s0 ((d, x, b) :: C) (ch s x d)).
      { cbn [repc]. repeat split; auto.
        - apply rep_frame with s; auto.
        - apply repc_frame with s; auto. }
      assert (HRa0 : rep s0 (ch s x d) a) by (apply rep_frame with s; auto).
      destruct (Nat.eqb_spec (ch s x d) 0) as [Ey|Ey]; cbn [negb].
      - (* attach *)
        assert (a = E). { destruct a; auto. destruct HRa as (H1 & H2 & _). rewrite <- H1 in H2. rewrite Ey in H2. congruence. }
        subst a. unfold mattach_node, wp, ww, wd, wc, wl, wc. cbn [al s0 set_dr set_wt set_ch obind]. rewrite Hnode. cbn [obind al s0 set_dr set_wt set_ch].
        rewrite Hnode. cbn [obind al s0 set_dr set_wt set_ch]. rewrite Hnode. cbn [obind al s0 set_dr set_wt set_ch]. rewrite Hnode.
        cbn [obind al s0 set_dr set_wt set_ch]. rewrite Hnode. cbn [obind al s0 set_dr set_wt set_ch]. unfold rc. cbn [obind al s0 set_dr set_wt set_ch set_sz ch sz]. rewrite Ax.
        cbn [obind al s0 set_dr set_wt set_ch set_sz ch sz].
        set (s1 := set_sz _ _).
        assert (Ec : cupd (cupd (cupd (ch s) node L 0) node R 0) x d node x d = node).
        { unfold cupd. now rewrite Nat.eqb_refl, side_eqb_refl. }
        rewrite Ec, Ax. cbn [obind]. eexists s1, cp, c0, ((d, x, b) :: C). split; [reflexivity|].
        assert (Nc : forall q e, q <> node -> Lch q e <> Lch x d -> ch s1 q e = ch s q e).
        { intros q e Hq He. cbn. unfold cupd. destruct (Nat.eqb_spec q x); cbn.
          - subst q. destruct (side_cases d e) as [->| ->]; [congruence|]. rewrite side_eqb_opp'.
            destruct (Nat.eqb_spec x node); [congruence|]. reflexivity.
          - destruct (Nat.eqb_spec q node); [congruence|]. reflexivity. }
        split; [discriminate|]. split; [cbn [plug]; reflexivity|].
        split. { apply repc_move with s0 (ch s x d) (fun q => q = node); auto.
          - apply NoDup_plug with (t := E). exact HN.
          - split; [|split; auto]. intros q e Hq He. now apply Nc.
          - intros q -> Hq. apply Hni. apply (In_plug node ((d, x, b) :: C) E). auto.
          - cbn [locof rl]. unfold rc. cbn. rewrite Ax. f_equal. exact Ec. }
        split. { cbn. split; auto. split; auto. unfold cupd. rewrite Nat.eqb_refl.
          destruct (Nat.eqb_spec node x); [congruence|]. cbn. auto. }
        split. { cbn. unfold fupd. now rewrite Nat.eqb_refl. }
        split. { intros f Hg. cbn. unfold fupd at 1. destruct (Nat.eqb_spec (fad f) node).
          - exfalso. apply Hni. apply (In_plug node ((d, x, b) :: C) E). right. rewrite <- e. now apply In_fad.
          - now apply (Hdr0 f). }
        split. { cbn. unfold fupd. now rewrite Nat.eqb_refl. }
        split. { intros q Hq. cbn. unfold fupd. destruct (Nat.eqb_spec q node); congruence. }
        repeat (split; auto).
      - assert (Ha1 : a <> E) by (intros ->; now apply Ey in HRa).
        assert (Ay : al s (ch s x d) = true). { destruct a; [congruence|]. destruct HRa as (H1 & H2 & _). rewrite H1. auto. }
        unfold rw. cbn [al s0 set_dr wt]. rewrite Ay. cbn [obind].
        rewrite hgt_nd in Hn.
        destruct (IH s0 g ((d, x, b) :: C) a (ch s x d) (match wt s (ch s x d) with Some _ => x | None => cp end) c0 node)
          as (s' & cp' & c' & C' & E1 & E2); auto; [lia| |].
        { unfold HeadInv. cbn [wt s0 set_dr]. destruct (wt s (ch s x d)); cbn; auto. }
        exists s', cp', c', C'. split; [exact E1|]. exact E2.
  Qed.

  (** *** insert_node *)
  Record mwf (s : st) (g : par) (t : tr) : Prop := {
    mw_po : po s g t;
    mw_bal : bal (wt s) t;
    mw_al : forall q, al s q = true <-> In q (ino t);
    mw_sz : sz s = length (ino t);
    mw_free : NoDup (fr s) /\ forall q, In q (fr s) -> al s q = false /\ q <> 0;
    mw_asc : nasc (K_of s) (ino t) }.

  Lemma minsert_ok n (s : st) g t s0 node e : mwf s g t -> allocate s e = Some (s0, node) -> length (ino t) < n ->
    exists s' g' l1 l2 t', minsert_node key lt n s0 g node = Some (s', g', node) /\ ino t = l1 ++ l2 /\ ino t' = l1 ++ node :: l2 /\ mwf s' g' t' /\ el s' node = e /\
            (forall q, In q (ino t) -> el s' q = el s q) /\ fr s = node :: fr s' /\ ~ In node (ino t) /\
            notgt s (key e) l1 /\ upper s (key e) l2.
  Proof using O.
    intros W Hal Hn. unfold allocate in Hal. destruct (fr s) as [|p f] eqn:Ef; [discriminate|]. injection Hal as <- <-.
    destruct W as [[HR HN H0 HP] HB Hal Hsz HF Ha]. rewrite Ef in HF. destruct HF as [HF1 HF2].
    destruct (HF2 p) as [Hp Hp0]; [cbn; auto|].
    assert (Hpt : ~ In p (ino t)) by (rewrite <- Hal; congruence).
    set (s0 := set_el _ p e).
    assert (K0 : K_of s0 p = key e) by (unfold AvlIns.K_of; cbn; unfold fupd; now rewrite Nat.eqb_refl).
    assert (Kq : forall q, In q (ino t) -> K_of s0 q = K_of s q).
    { intros q Hq. unfold AvlIns.K_of; cbn; unfold fupd. destruct (Nat.eqb_spec q p); [congruence|auto]. }
    assert (Ela : forall q, In q (ino t) -> el s0 q = el s q).
    { intros q Hq. cbn; unfold fupd. destruct (Nat.eqb_spec q p); [congruence|auto]. }
    assert (Ala : forall q, In q (ino t) -> al s0 q = true).
    { intros q Hq. cbn; unfold fupd. destruct (Nat.eqb_spec q p); [auto|]. now apply Hal. }
    assert (Als : forall q, al s0 q = true <-> q = p \/ In q (ino t)).
    { intros q. cbn; unfold fupd. destruct (Nat.eqb_spec q p); [tauto|]. rewrite Hal. tauto. }
    assert (A0 : al s0 0 = false). { cbn; unfold fupd. destruct (Nat.eqb_spec 0 p); [congruence|auto]. }
    assert (Ap : al s0 p = true) by (apply Als; auto).
    assert (HR0 : rep s0 (rt s0) t).
    { eapply rep_frame; [|exact HR]. intros q Hq. split; auto. rewrite Ala by auto. symmetry. now apply Hal. }
    unfold minsert_node. cbn [rt s0 set_el set_pool] in *. fold s0.
    destruct (Nat.eqb_spec (rt s) 0) as [Er|Er].
    - apply (rep_root s (rt s) t HR H0) in Er. subst t.
      unfold mattach_node, wp, ww, wd, wc, wl. cbn [al set_wt set_dr set_ch set_rt obind]. rewrite Ap. cbn [obind al set_wt set_dr set_ch].
      rewrite Ap. cbn [obind al set_wt set_dr set_ch]. rewrite Ap. cbn [obind al set_wt set_dr set_ch]. rewrite Ap.
      cbn [obind al set_wt set_dr set_ch set_rt set_sz rt]. rewrite Ap. cbn [obind al set_wt set_dr set_ch set_rt set_sz rt]. eexists _, _.
      exists [], [], (N E p E). split; [reflexivity|]. split; auto. split; auto. split.
      { constructor; cbn [rt set_sz set_rt al set_ch set_wt set_dr sz fr ch wt].
        - constructor.
          + cbn. split; auto. split; [exact Ap|]. unfold cupd. rewrite Nat.eqb_refl. auto.
          + cbn. repeat constructor. intros [].
          + exact A0.
          + cbn. unfold fupd. now rewrite Nat.eqb_refl.
        - cbn. unfold fupd. rewrite Nat.eqb_refl. cbn. auto.
        - intros q. fold (al s0 q). rewrite Als. cbn. intuition.
        - cbn in Hsz. cbn. lia.
        - inversion HF1; subst. split; auto. intros q Hq. change (In q f) in Hq. cbn. unfold fupd. destruct (Nat.eqb_spec q p); [congruence|].
          apply HF2. cbn. auto.
        - cbn. split; [intros b []|exact I]. }
      cbn. unfold fupd. rewrite Nat.eqb_refl. repeat split; auto; intros q [].
    - assert (Ht : t <> E) by (intros ->; now apply Er in HR).
      pose proof (hgt_ino t).
      destruct (minsert_loop_ok n s0 g [] t (rt s) 0 (rt s) p) as (s1 & cp & c & C' & E1 & Q0 & Q1 & Q2 & Q3 & Q4 & Q5 & Q6 & Q7 & Q8 & Q9 & Q10 & Q11 & (C2 & [[d x] b] & C1 & -> & -> & -> & Q12 & Q13) & Q14 & Q15); auto; try (cbn; auto; fail).
      + lia.
      + intros h [].
      + intros q [].
      + intros q [].
      + apply nasc_ext with (K_of s); auto.
      + unfold HeadInv. cbn. destruct (wt s (rt s)); auto.
      + rewrite E1. cbn [obind].
          cbn [plug] in Q1. cbn [fad fst snd] in Q13. cbn [fad fsd fst snd] in *.
          assert (EP : plug (C2 ++ (d, x, b) :: C1) (N E p E) = plug C1 (nd d x (plug C2 (N E p E)) b)) by (now rewrite plug_app).
          assert (EP' : plug (C2 ++ (d, x, b) :: C1) E = plug C1 (nd d x (plug C2 E) b)) by (now rewrite plug_app).
          assert (R1 : rep s1 (rt s1) (plug C1 (nd d x (plug C2 (N E p E)) b))).
          { rewrite <- EP. eapply repc_rep; eauto. }
          pose proof R1 as R1'. apply rep_plug in R1. destruct R1 as (y & RC1 & RT1).
          pose proof (proj1 (rep_nd _ _ _ _ _ _) RT1) as (-> & Ax & _).
          assert (NE : ino (plug (C2 ++ (d, x, b) :: C1) (N E p E)) = pre (C2 ++ (d, x, b) :: C1) ++ p :: post (C2 ++ (d, x, b) :: C1)) by (now rewrite ino_plug).
          assert (NE' : ino t = pre (C2 ++ (d, x, b) :: C1) ++ post (C2 ++ (d, x, b) :: C1)) by (rewrite <- Q1; now rewrite ino_plug).
          assert (ND : NoDup (ino (plug (C2 ++ (d, x, b) :: C1) (N E p E)))).
          { rewrite NE. apply (NoDup_Add (a := p) (l := pre (C2 ++ (d, x, b) :: C1) ++ post (C2 ++ (d, x, b) :: C1))); [apply Add_app|].
            rewrite <- NE'. auto. }
          rewrite <- Q1 in HB. apply bal_plug in HB. destruct HB as [_ HB].
          assert (Wp : forall q, In q (cadr (C2 ++ (d, x, b) :: C1)) -> wt s1 q = wt s q).
          { intros q Hq. rewrite Q7; auto. intros ->. apply Hpt. rewrite <- Q1. apply In_plug. auto. }
          pose proof (length_ctx (C2 ++ (d, x, b) :: C1) E) as HL. replace (hgt _) with (hgt t) in HL by (now rewrite <- Q1). rewrite app_length in HL. cbn [length] in HL.
          destruct (balance_ok n s1 C2 d x b C1 p) as (s2 & t' & E3 & R3 & HR3 & HI & HB3).
          { eapply Nat.lt_le_trans; [|apply Nat.lt_le_incl; exact Hn]. eapply Nat.lt_le_trans; [|exact H].
            eapply Nat.lt_le_trans; [|exact HL]. apply Nat.lt_add_pos_r. apply Nat.lt_0_succ. }
          { rewrite Q9. auto. }
          { auto. }
          { auto. }
          { rewrite <- EP. auto. }
          { auto. }
          { auto. }
          { apply (Q5 (d, x, b)). rewrite in_app_iff. cbn. auto. }
          { intros h Hg. apply Q5. rewrite in_app_iff. auto. }
          { intros h Hg. rewrite Wp; [|apply In_fad; rewrite in_app_iff; auto]. now apply Q12. }
          { eapply balc_ext; [|exact HB]. auto. }
          { rewrite Wp; [exact Q13|]. apply In_cadr_app. right. apply In_cadr_cons. auto. }
          assert (Hx0 : x <> 0) by (intros ->; rewrite Q9 in Ax; congruence).
          destruct (Nat.eqb_spec x 0); [congruence|].
          set (g1 := fupd g p (hda (C2 ++ (d, x, b) :: C1))).
          assert (PO1 : po s1 g1 (plug C1 (nd d x (plug C2 (N E p E)) b))).
          { constructor; [exact R1'|rewrite <- EP; exact ND|rewrite Q9; exact A0|]. rewrite <- EP. apply prep_plug. cbn [prep]. rewrite <- Q1 in HP. apply prep_plug in HP. destruct HP as [_ HP]. split.
            - unfold g1. rewrite fupd_eq. auto.
            - eapply prepc_ext; [|exact HP]. intros q Hq. unfold g1. apply fupd_ne. intros ->. apply Hpt. rewrite <- Q1. apply In_plug. auto. }
          destruct (mbal n s1 s2 g1 _ (locof C1) x PO1) as (s3 & g3 & t3 & E4 & DR & PO3 & I3); auto.
          { apply rl_locof. exact RC1. }
          { intros z e1 Hz. apply In_plug. right. destruct C1 as [|[[d1 z1] b1] C1]; [discriminate|]. cbn in Hz. injection Hz as <- <-. apply In_cadr_cons. auto. }
          assert (EB : (if Nat.eqb (hda C1) 0 && Nat.eqb x (rt s1) then mbalance_node n s1 g1 Lroot
                        else if Nat.eqb (hda C1) 0 then Some (s1, g1)
                        else let? d0 := ri s1 (hda C1) in mbalance_node n s1 g1 (Lch (hda C1) d0)) = Some (s3, g3)).
          { destruct C1 as [|[[d1 x1] b1] C1].
            - cbn [hda]. cbn in RC1. rewrite RC1, !Nat.eqb_refl. exact E4.
            - cbn [hda fad fst snd]. pose proof (proj1 (proj2 RC1)) as A1.
              destruct (Nat.eqb_spec x1 0); [subst; rewrite Q9 in A1; congruence|]. cbn [andb].
              unfold ri. rewrite A1. pose proof (Q5 (d1, x1, b1) ltac:(rewrite in_app_iff; cbn; auto)) as Q5'. cbn in Q5'. rewrite Q5'. exact E4. }
          cbn [fad fst snd]. match goal with |- context [obind ?m _] => replace m with (Some (s3, g3)) by (symmetry; exact EB) end. cbn [obind].
          pose proof DR as (V1 & V2 & V3 & V4 & V5 & V6 & V7).
          assert (t3 = t').
          { apply (rep_inj s3 (rt s3)); [apply PO3|apply PO3|]. rewrite V5. eapply rep_drest; [exact DR|exact HR3]. }
          subst t3. rewrite <- EP, NE in HI. rewrite NE' in *.
          exists s3, g3, (pre (C2 ++ (d, x, b) :: C1)), (post (C2 ++ (d, x, b) :: C1)), t'.
          destruct R3 as (D1 & D2 & D3 & D4 & D5).
          split; auto. split; auto. split; auto. split.
          { constructor; auto.
            - rewrite V2. exact HB3.
            - intros q. rewrite V4, D3, Q9, Als, HI, !in_app_iff. cbn. intuition.
            - rewrite V6, D4, Q11, HI. cbn [s0 set_el set_pool sz]. rewrite Hsz, !app_length. cbn. lia.
            - rewrite V7, D5, Q10. cbn [s0 set_el set_pool fr]. inversion HF1; subst. split; auto.
              intros q Hq. rewrite V4, D3, Q9. cbn. unfold fupd. destruct (Nat.eqb_spec q p); [congruence|]. apply HF2. cbn. auto.
            - assert (KE : forall q, K_of s3 q = K_of s0 q) by (intros q; unfold AvlIns.K_of; now rewrite V3, D2, Q8).
              apply nasc_ext with (K_of s0); auto. rewrite HI.
              apply nasc_ext with (g := K_of s0) in Ha; auto. apply nasc_app in Ha. destruct Ha as (A1 & A2 & A3).
              apply nasc_app. split; auto. split.
              + cbn [nasc]. split; auto. intros q Hq. apply (lt_asym lt O). auto.
              + intros a q Hx Hq. destruct Hq as [<-|Hq]; auto. }
          rewrite V3, D2, Q8, V7, D5, Q10. cbn [s0 set_el set_pool fr].
          split. { cbn. unfold fupd. now rewrite Nat.eqb_refl. }
          split; auto. split; auto. split; auto.
          unfold notgt, AvlIns.upper in *. rewrite K0 in *. split; intros q Hq; rewrite <- Kq; auto; rewrite in_app_iff; auto.
  Qed.
End Ins.
