(** * Removal from the balanced tree of map/set: taking the node out (proof support for C14/C15) *)
From Coq Require Import List Arith Lia Bool.
From Verif Require Import Util SortSpec HeapProofs AvlModel AvlTree AvlRot AvlIns AvlDel.
Import ListNotations.

Section Rem.
  Context {X K : Type}.
  Variable key : X -> K.
  Variable lt : K -> K -> bool.
  Notation st := (st X).
  Hypothesis O : strict_weak_order lt.

  Lemma wl_ok (s : st) l y : (forall q e, l = Lch q e -> al s q = true) ->
    exists s', wl s l y = Some s' /\ (forall q e, Lch q e <> l -> ch s' q e = ch s q e) /\ rl s' l = Some y /\
      (l <> Lroot -> rt s' = rt s) /\ rest s s' /\ wt s' = wt s.
  Proof.
    intros H. destruct l as [|p d]; cbn [wl].
    - eexists. split; [reflexivity|]. cbn. repeat split; auto. intros []; auto.
    - unfold wc. rewrite (H p d eq_refl). eexists. split; [reflexivity|]. repeat split; auto.
      + intros q e Hq. cbn. unfold cupd. destruct (Nat.eqb_spec q p); cbn; auto. subst.
        destruct (side_cases d e) as [->| ->]; [congruence|]. now rewrite side_eqb_opp'.
      + cbn. unfold rc. cbn. rewrite (H p d eq_refl). unfold cupd. now rewrite Nat.eqb_refl, side_eqb_refl.
  Qed.
  Fixpoint repseg (s : st) (A : ctx) (x y : nat) : Prop :=
    match A with [] => x = y | (d, p, b) :: A' => ch s p d = x /\ al s p = true /\ rep s (ch s p (opp d)) b /\ repseg s A' p y end.
  Lemma repc_seg (s : st) A B x : repc s (A ++ B) x <-> exists y, repc s B y /\ repseg s A x y.
  Proof.
    revert x. induction A as [|[[d p] b] A IH]; intros x; cbn.
    - split; [eauto|]. now intros (y & H & ->).
    - rewrite IH. split; [intros (H1 & H2 & H3 & y & H4 & H5); eauto 8|intros (y & H4 & H1 & H2 & H3 & H5); eauto 8].
  Qed.
  Lemma repseg_frame (s s' : st) A x y :
    (forall q, In q (cadr A) -> al s' q = al s q /\ forall d, ch s' q d = ch s q d) -> repseg s A x y -> repseg s' A x y.
  Proof.
    revert x. induction A as [|[[d p] b] A IH]; intros x H; cbn; auto. intros (H1 & H2 & H3 & H4).
    destruct (H p) as [Ha Hc]; [apply In_cadr_cons; auto|]. rewrite Ha, !Hc. repeat split; auto.
    - eapply rep_frame; [|exact H3]. intros q Hq. apply H. apply In_cadr_cons; auto.
    - apply IH; auto. intros q Hq. apply H. apply In_cadr_cons; auto.
  Qed.

  (** the tail of detach_node: the children and weight of [f] copied to [r] *)
  Lemma copy_ok (s : st) f r : al s f = true -> al s r = true -> exists s',
    (let? a := rc s f L in
     let? s0 := wc s r L a in
     let? b := rc s0 f R in
     let? s1 := wc s0 r R b in
     let? w := rw s1 f in ww s1 r w) = Some s' /\
    (forall q e, q <> r -> ch s' q e = ch s q e) /\ (forall e, ch s' r e = ch s f e) /\ rt s' = rt s /\ rest s s' /\
    (forall q, wt s' q = if Nat.eqb q r then wt s f else wt s q).
  Proof.
    intros Hf Hr. unfold rc, wc, rw, ww. rewrite Hf, Hr. cbn [obind al set_ch]. rewrite Hf. cbn [obind al set_ch]. rewrite Hr. cbn [obind al set_ch].
    rewrite Hf. cbn [obind al set_ch]. rewrite Hr. eexists. split; [reflexivity|]. split; [|split; [|split; [auto|split; [repeat split|]]]].
    - intros q e Hq. cbn. unfold cupd. destruct (Nat.eqb_spec q r); [congruence|]. cbn. auto.
    - intros e. cbn. unfold cupd. rewrite Nat.eqb_refl. cbn. destruct (Nat.eqb_spec f r); cbn; [subst|].
      + destruct e; cbn; auto.
      + destruct e; cbn; auto.
    - intros q. cbn. unfold fupd. auto.
  Qed.

  Lemma detach_same (s : st) C r dT q : repc s C r -> rep s r (nd dT r E q) -> dr s r = Some dT ->
    NoDup (ino (plug C (nd dT r E q))) ->
    exists s' x, detach_node s (locof C) (locof C) = Some s' /\ repc s' C x /\ rep s' x q /\ (forall e, ch s' r e = ch s r e) /\
      (forall z, wt s' z = wt s z) /\ rest s s'.
  Proof.
    intros HC HR Hd HN. pose proof (proj1 (NoDup_plug _ _) HN) as (HN1 & HNC & HD).
    pose proof (proj1 (NoDup_nd _ _ _ _) HN1) as (_ & Nr & _ & Nq & _).
    pose proof (proj1 (rep_nd _ _ _ _ _ _) HR) as (_ & Ar & _ & HRq).
    assert (Irc : ~ In r (cadr C)) by (intros H; apply (HD r); auto; apply In_nd; auto).
    unfold detach_node. rewrite (rl_locof _ _ _ HC). cbn [obind].
    destruct (wl_ok s (locof C) r (locof_al s C r HC)) as (s1 & -> & C1 & L1 & R1 & (D1 & E1 & A1 & Z1 & F1) & W1). cbn [obind].
    unfold ri. rewrite A1, Ar, D1, Hd. cbn [obind]. unfold rc at 1. rewrite A1, Ar. cbn [obind].
    rewrite C1 by (apply not_eq_sym; now apply locof_not).
    set (x := ch s r (opp dT)) in *.
    destruct (wl_ok s1 (locof C) x) as (s2 & -> & C2 & L2 & R2 & (D2 & E2 & A2 & Z2 & F2) & W2).
    { intros z e Hz. rewrite A1. eapply locof_al; eauto. }
    cbn [obind].
    destruct (copy_ok s2 r r) as (s3 & E3 & C3 & C3' & R3 & (D3 & G3 & A3 & Z3 & F3) & W3); try (rewrite A2, A1; auto).
    rewrite E3. exists s3, x. split; auto.
    assert (CHS : chs (locof C) (fun z => z = r) s s3).
    { split; [|split; [|congruence]].
      - intros z e Hz He. rewrite C3 by auto. rewrite C2, C1; auto.
      - intros Hl. rewrite R3, R2, R1; auto. }
    assert (RL : rl s3 (locof C) = Some x).
    { rewrite <- L2. destruct C as [|[[d p] b] C]; cbn [locof rl] in *.
      - now rewrite R3.
      - unfold rc. rewrite A3. destruct (al s2 p); auto. rewrite C3; auto. intros ->. apply Irc. apply In_cadr_cons. auto. }
    split. { eapply repc_move; eauto. intros z ->. auto. }
    split. { eapply rep_move; eauto; [intros z Hz ->; auto|]. intros z Hz Hc. apply (HD z); auto. apply In_nd. auto. }
    split; [|split]; [| |unfold rest; repeat split; congruence].
    - intros e. rewrite C3', C2, C1; auto; apply not_eq_sym; now apply locof_not.
    - intros z. rewrite W3. destruct (Nat.eqb_spec z r); congruence.
  Qed.

  Lemma detach_other (s : st) A df f o B r dT q : al s 0 = false -> repc s (A ++ (df, f, o) :: B) r -> rep s r (nd dT r E q) -> dr s r = Some dT ->
    NoDup (ino (plug (A ++ (df, f, o) :: B) (nd dT r E q))) ->
    exists s' x, detach_node s (locof B) (locof (A ++ (df, f, o) :: B)) = Some s' /\ repc s' (A ++ (df, r, o) :: B) x /\ rep s' x q /\
      (forall z, wt s' z = if Nat.eqb z r then wt s f else wt s z) /\ rest s s'.
  Proof.
    intros H0 HC HR Hd HN. pose proof (proj1 (NoDup_plug _ _) HN) as (HN1 & HNC & HD).
    pose proof (proj1 (NoDup_nd _ _ _ _) HN1) as (_ & Nr & _ & Nq & _).
    pose proof (proj1 (rep_nd _ _ _ _ _ _) HR) as (_ & Ar & _ & HRq).
    assert (Irc : ~ In r (cadr (A ++ (df, f, o) :: B))) by (intros H; apply (HD r); auto; apply In_nd; auto).
    assert (Hqc : forall z, In z (ino q) -> ~ In z (cadr (A ++ (df, f, o) :: B))).
    { intros z Hz Hc. apply (HD z); auto. apply In_nd. auto. }
    pose proof (proj1 (nodupc_app _ _) HNC) as (NA & NB & DAB). cbn [nodupc] in NB. destruct NB as (Nf1 & No & Nf2 & DoB & NB).
    pose proof (proj1 (repc_seg _ _ _ _) HC) as (y & HB0 & SA). cbn [repc] in HB0. destruct HB0 as (Ef & Af & HRo & HB).
    rewrite In_cadr_app, In_cadr_cons in Irc.
    assert (Hfr : f <> r) by (intros ->; tauto).
    assert (IfA : ~ In f (cadr A)) by (intros H; apply (DAB f); auto; apply In_cadr_cons; auto).
    assert (LC : forall z e, locof (A ++ (df, f, o) :: B) = Lch z e -> al s z = true /\ (In z (cadr A) \/ z = f)).
    { intros z e Hz. split; [exact (locof_al s _ r HC z e Hz)|]. destruct A as [|[[d1 p1] b1] A]; cbn in Hz; injection Hz as <- <-; auto. left. apply In_cadr_cons. auto. }
    assert (LB : forall z e, locof B = Lch z e -> al s z = true /\ In z (cadr B)).
    { intros z e Hz. split; [exact (locof_al s _ f HB z e Hz)|]. destruct B as [|[[d1 p1] b1] B]; cbn in Hz; [discriminate|]; injection Hz as <- <-; auto. apply In_cadr_cons. auto. }
    assert (LBC : locof B <> locof (A ++ (df, f, o) :: B)).
    { intros H. destruct (locof (A ++ (df, f, o) :: B)) as [|z e] eqn:Ez.
      - destruct A as [|[[? ?] ?] ?]; discriminate.
      - destruct (LB _ _ H) as [_ HzB]. destruct (LC z e eq_refl) as [_ [HzA| ->]]; [|tauto]. apply (DAB z); auto. apply In_cadr_cons; auto. }
    unfold detach_node. rewrite (rl_locof _ _ _ HB), (rl_locof _ _ _ HC). cbn [obind].
    destruct (wl_ok s (locof B) r) as (s1 & -> & C1 & L1 & R1 & (D1 & E1 & A1 & Z1 & F1) & W1); [intros; now apply (LB _ _ H)|]. cbn [obind].
    unfold ri. rewrite A1, Ar, D1, Hd. cbn [obind]. unfold rc at 1. rewrite A1, Ar. cbn [obind].
    rewrite C1 by (intros Hx; symmetry in Hx; apply LB in Hx; tauto).
    set (x := ch s r (opp dT)) in *.
    destruct (wl_ok s1 (locof (A ++ (df, f, o) :: B)) x) as (s2 & -> & C2 & L2 & R2 & (D2 & E2 & A2 & Z2 & F2) & W2).
    { intros z e Hz. rewrite A1. now apply (LC _ _ Hz). }
    cbn [obind].
    destruct (copy_ok s2 f r) as (s3 & E3 & C3 & C3' & R3 & (D3 & G3 & A3 & Z3 & F3) & W3); try (rewrite A2, A1; auto).
    rewrite E3. exists s3, x. split; auto.
    assert (NLr : forall e, locof B <> Lch r e /\ locof (A ++ (df, f, o) :: B) <> Lch r e).
    { intros e. split; intros Hx; [apply LB in Hx|apply LC in Hx; destruct Hx as [_ [?|?]]]; try tauto; try congruence. }
    assert (CHG : forall z e, z <> r -> Lch z e <> locof B -> Lch z e <> locof (A ++ (df, f, o) :: B) -> ch s3 z e = ch s z e).
    { intros z e H1 H2 H3. rewrite C3, C2, C1; auto. }
    assert (AL3 : al s3 = al s) by congruence.
    assert (RT3 : locof B <> Lroot -> rt s3 = rt s).
    { intros H. rewrite R3, R2, R1; auto. destruct A as [|[[? ?] ?] ?]; discriminate. }
    assert (RLB : rl s3 (locof B) = Some r).
    { rewrite <- L1. destruct (locof B) as [|z e] eqn:Ez; cbn [rl].
      - rewrite R3, R2; auto.
      - unfold rc. rewrite A3, A2. destruct (al s1 z); auto. rewrite C3, C2; auto. intros ->. now destruct (NLr e). }
    assert (HB3 : repc s3 B r).
    { apply repc_move with s f (fun z => z = r \/ z = f \/ In z (cadr A)); auto.
      - split; [|split; auto]. intros z e Hz He. apply CHG; auto. intros Hx. symmetry in Hx. apply LC in Hx. tauto.
      - intros z [->|[->|Hz]] Hb; try tauto. apply (DAB z); auto. apply In_cadr_cons; auto. }
    assert (Ho3 : rep s3 (ch s3 r (opp df)) o).
    { rewrite C3'. assert (E5 : ch s2 f (opp df) = ch s f (opp df)).
      { rewrite C2, C1; auto; intros Hx; symmetry in Hx.
        - apply LB in Hx. tauto.
        - destruct A as [|[[d1 p1] b1] A]; cbn in Hx.
          + destruct df; discriminate.
          + injection Hx as -> _. apply IfA. apply In_cadr_cons. auto. }
      rewrite E5. eapply rep_frame; [|exact HRo]. intros z Hz. split; [congruence|]. intros e. apply CHG.
      - intros ->. tauto.
      - intros Hx. symmetry in Hx. apply LB in Hx. apply (DoB z); tauto.
      - intros Hx. symmetry in Hx. apply LC in Hx. destruct Hx as [_ [Hx| ->]]; [|tauto]. apply (DAB z); auto. apply In_cadr_cons; auto. }
    split.
    { apply repc_seg. exists (ch s3 r df). split; [cbn; rewrite AL3; auto|].
      destruct A as [|[[d1 p1] b1] A].
      - cbn [repseg]. rewrite C3'. cbn [app locof rl] in L2. unfold rc in L2. rewrite A2, A1, Af in L2. congruence.
      - cbn [repseg] in SA |- *. destruct SA as (S1 & S2 & S3 & S4). cbn [nodupc] in NA. destruct NA as (Np1 & Nb1 & Np2 & Dbp & NA).
        assert (Hp1 : p1 <> r) by (intros ->; apply Irc; left; apply In_cadr_cons; auto).
        assert (NLB : forall z e, In z (cadr ((d1, p1, b1) :: A)) -> Lch z e <> locof B).
        { intros z e Hz Hx. symmetry in Hx. apply LB in Hx. apply (DAB z); auto. apply In_cadr_cons; tauto. }
        cbn [app locof rl] in *. rewrite AL3. split; [|split; [auto|split]].
        + unfold rc in L2. rewrite A2, A1, S2 in L2. rewrite C3 by auto. congruence.
        + rewrite CHG; auto; [|apply NLB; apply In_cadr_cons; auto|destruct d1; discriminate].
          eapply rep_frame; [|exact S3]. intros z Hz. split; [congruence|]. intros e. apply CHG.
          * intros ->. apply Irc. left. apply In_cadr_cons. auto.
          * apply NLB. apply In_cadr_cons. auto.
          * intros [= -> ->]. auto.
        + replace (ch s3 r df) with y.
          * eapply repseg_frame; [|exact S4]. intros z Hz. split; [congruence|]. intros e. apply CHG.
            -- intros ->. apply Irc. left. apply In_cadr_cons. auto.
            -- apply NLB. apply In_cadr_cons. auto.
            -- intros [= -> ->]. auto.
          * rewrite C3', C2, C1; auto.
            -- intros Hx. symmetry in Hx. apply LB in Hx. tauto.
            -- intros [= -> ->]. apply IfA. apply In_cadr_cons. auto. }
    split.
    { eapply rep_frame; [|exact HRq]. intros z Hz. split; [congruence|]. intros e. apply CHG.
      - congruence.
      - intros Hx. symmetry in Hx. apply LB in Hx. apply (Hqc z Hz). apply In_cadr_app. right. apply In_cadr_cons. tauto.
      - intros Hx. symmetry in Hx. apply LC in Hx. apply (Hqc z Hz). apply In_cadr_app. rewrite In_cadr_cons. tauto. }
    split; [|unfold rest; repeat split; congruence].
    intros z. rewrite W3, W2, W1. reflexivity.
  Qed.

  Notation wft := (wft key lt).
  Lemma asc_remove (g : nat -> K) l1 f l2 : asc lt g (l1 ++ f :: l2) -> asc lt g (l1 ++ l2).
  Proof.
    intros H. apply asc_app in H. destruct H as (H1 & H2 & H3). cbn in H2. destruct H2 as [H2 H2'].
    apply asc_app. repeat split; auto. intros a b Ha Hb. apply H3; cbn; auto.
  Qed.
  Lemma remove_ok n (s : st) t k : wft s t -> length (ino t) < n ->
    exists s' f, remove_node key lt n s k = Some (s', f) /\
      ( (f = 0 /\ (forall z, In z (ino t) -> lt k (K_of key s z) = true \/ lt (K_of key s z) k = true) /\ wft s' t /\ el s' = el s /\ fr s' = fr s)
      \/ (exists l1 l2 t', f <> 0 /\ ino t = l1 ++ f :: l2 /\ ino t' = l1 ++ l2 /\ eqv lt (K_of key s f) k /\ wft s' t' /\ el s' = el s /\ fr s' = f :: fr s)).
  Proof.
    intros W Hn. destruct W as [HR HB HN H0 Hal Hsz HF Ha].
    unfold remove_node. destruct t as [|tl tp trr] eqn:Et.
    { cbn in HR. rewrite HR. destruct n; [lia|]. cbn [remove_loop replace Nat.eqb obind found]. eexists _, _. split; [reflexivity|].
      left. split; auto. split; [intros z []|]. split; [|auto]. constructor; auto. }
    rewrite <- Et in *. assert (Ht : t <> E) by (subst; discriminate). clear Et tl tp trr.
    pose proof (hgt_ino t) as Hh.
    destruct (remove_loop_ok key lt O k n s [] t (mkrm 0 0 0 (rt s) 0 (rt s))) as
      (s1 & v & C & r & d & q & E1 & DS & P1 & P2 & P3 & P4 & P5 & P6 & P7 & P8 & P9); auto; try (cbn; auto; fail).
    { lia. }
    { intros g []. }
    { left. auto. }
    { left. split; auto. split; intros z []. }
    rewrite E1. cbn [obind plug] in *.
    destruct DS as (S1 & S2 & S3 & S4 & S5 & S6 & S7).
    assert (Hr0 : r <> 0). { apply rep_nd in P3. destruct P3 as (_ & Ar & _). rewrite S4 in Ar. intros ->. congruence. }
    assert (In0 : ~ In 0 (ino t)) by (rewrite <- Hal; congruence).
    assert (P9' : (found v = 0 /\ (forall z, In z (ino t) -> lt k (K_of key s z) = true \/ lt (K_of key s z) k = true)) \/
        (found v <> 0 /\ eqv lt (K_of key s (found v)) k /\ TR s1 C r d (found v) (found_parent v))).
    { destruct P9 as [Q|[(Q1 & Q2 & Q3)|((A & o & B & -> & Q2 & Q3) & Q4)]]; [left; auto|right|right].
      - split; [congruence|]. rewrite Q1. split; auto. right. auto.
      - assert (If : In (found v) (ino t)). { rewrite <- P1. apply In_plug. right. apply In_cadr_app. right. apply In_cadr_cons. auto. }
        split; [congruence|]. split; auto. left. exists A, (opp d), o, B. rewrite opp_opp in *. repeat split; auto.
        rewrite Q3. destruct B as [|[[d1 p1] b1] B]; [reflexivity|]. cbn [hda fad fst snd locof].
        assert (Ip : In p1 (ino t)). { rewrite <- P1. apply In_plug. right. apply (In_fad (d1, p1, b1)). rewrite in_app_iff. cbn. auto. }
        apply below_dr; auto; [rewrite S4; auto|congruence|rewrite S4; now apply Hal|].
        apply (P4 (d1, p1, b1)). rewrite in_app_iff. cbn. auto. }
    destruct P9' as [(Q1 & Q2)|(Q1 & Q2 & Q3)].
    { rewrite Q1. cbn [Nat.eqb]. eexists _, _. split; [reflexivity|]. left. split; auto. split; auto. split; [|auto].
      constructor; rewrite ?S2, ?S4, ?S5, ?S6, ?S7; auto.
      - eapply rep_frame; [|exact HR]. intros. rewrite S1, S4. auto.
      - eapply asc_ext; [|exact Ha]. intros z Hz. unfold K_of. now rewrite S3. }
    destruct (Nat.eqb_spec (found v) 0); [congruence|].
    (* rebalance *)
    assert (RB : exists s2 C' fp', rebalance_loop n s1 (found_parent v) (found v) (balance_parent v) (balance v) = Some (s2, fp') /\
      repc s2 C' r /\ rep s2 r (nd d r E q) /\
      balc (wt s2) C' (hgt (nd d r E q) - 1) /\ bal (wt s2) q /\ pre C' = pre C /\ post C' = post C /\
      hda C' = hda C /\ locof C' = locof C /\ below s2 (hda C') = Some (locof C') /\ TR s2 C' r d (found v) fp' /\
      el s2 = el s1 /\ al s2 = al s1 /\ sz s2 = sz s1 /\ fr s2 = fr s1 /\ dr s2 r = Some d).
    { rewrite <- P1 in HB, HN. pose proof (length_ctx C (nd d r E q)) as HL.
      assert (HLn : length C < n). { replace (hgt (plug C (nd d r E q))) with (hgt t) in HL by (now rewrite <- P1). lia. }
      rewrite <- S2 in HB.
      destruct P8 as [(-> & -> & ->)|(P & g & Cb & -> & -> & -> & G1 & G2)].
      - apply (rebal_loop_ok d r q (found v) [] n s1 [] r (found_parent v)); auto; try (rewrite S4; auto); try exact (fun _ => I).
        intros P' g Hx. destruct P'; discriminate.
      - rewrite <- S2 in G1, G2. assert (EC : P ++ g :: Cb = (P ++ [g]) ++ Cb) by (now rewrite <- app_assoc).
        rewrite EC in *. rewrite app_length in HLn. rewrite plug_app in HN, HB.
        apply bal_plug in HB. destruct HB as [HB1 HB2].
        destruct (proj1 (repc_seg _ _ _ _) P2) as (y & HCb & HSG).
        assert (Ey : y = fad g /\ rep s1 y (plug (P ++ [g]) (nd d r E q))).
        { assert (RT : rep s1 (rt s1) (plug Cb (plug (P ++ [g]) (nd d r E q)))) by (rewrite <- plug_app; eapply repc_rep; eauto).
          apply rep_plug in RT. destruct RT as (y' & Q4 & Q5).
          assert (y' = y). { pose proof (rl_locof _ _ _ Q4). pose proof (rl_locof _ _ _ HCb). congruence. }
          subst y'. split; auto. destruct g as [[dg pg] og]. rewrite plug_app in Q5. cbn [plug] in Q5. apply rep_nd in Q5. tauto. }
        destruct Ey as [-> RY].
        apply rebal_loop_ok; auto.
        + rewrite app_length. cbn. cbn in HLn. rewrite app_length in HLn. cbn in HLn. lia.
        + rewrite S4; auto.
        + intros h Hx. apply P4. rewrite in_app_iff. auto.
        + destruct Cb as [|[[d1 p1] b1] Cb]; [reflexivity|]. cbn [hda fad fst snd locof].
          assert (Ip : In p1 (ino t)). { rewrite <- P1. apply In_plug. right. apply (In_fad (d1, p1, b1)). rewrite !in_app_iff. cbn. auto. }
          apply below_dr; auto; [rewrite S4; auto|congruence|rewrite S4; now apply Hal|].
          apply (P4 (d1, p1, b1)). rewrite !in_app_iff. cbn. auto.
        + intros Hx. destruct P; discriminate.
        + intros P' g' Hx. apply app_inj_tail in Hx. destruct Hx as [-> ->]. split; auto.
          destruct G2 as [-> | ->]; [|cbn; auto]. rewrite Nat.sub_0_r. auto. }
    destruct RB as (s2 & C' & fp' & E2 & G1 & G2 & G3 & G4 & G5 & G6 & G7 & G8 & G9 & G10 & G11 & G12 & G13 & G14 & G15).
    rewrite E2. cbn [obind].
    assert (HT : hgt (nd d r E q) - 1 = hgt q) by (rewrite hgt_nd; cbn; lia). rewrite HT in G3.
    assert (INO : ino (plug C' (nd d r E q)) = ino t) by (now rewrite <- P1, !ino_plug, G5, G6).
    assert (HN2 : NoDup (ino (plug C' (nd d r E q)))) by (rewrite INO; auto).
    pose proof (proj1 (NoDup_plug _ _) HN2) as (HN3 & HNC & HD).
    pose proof (proj1 (NoDup_nd _ _ _ _) HN3) as (_ & Nr & _ & Nq & _).
    (* detach *)
    assert (DT : exists s3 t' l1 l2, (let? pos := below s2 fp' in
        let? rep0 := if negb (fp' =? 0) || negb (replace_parent v =? 0) then let? d0 := ri s2 (replace_parent v) in Some (Lch (replace_parent v) d0) else Some Lroot in
        detach_node s2 pos rep0) = Some s3 /\ rep s3 (rt s3) t' /\ bal (wt s3) t' /\ ino t = l1 ++ found v :: l2 /\ ino t' = l1 ++ l2 /\ rest s2 s3).
    { assert (RP : (if negb (fp' =? 0) || negb (replace_parent v =? 0) then let? d0 := ri s2 (replace_parent v) in Some (Lch (replace_parent v) d0) else Some Lroot) = Some (locof C')).
      { rewrite P7, <- G7. destruct C' as [|[[d1 p1] b1] C'].
        - destruct G10 as [(A & df & o & B & Hx & _)|(_ & ->)]; [destruct A; discriminate|]. reflexivity.
        - cbn [hda fad fst snd] in *. cbn [repc] in G1. destruct G1 as (_ & A1 & _).
          assert (p1 <> 0) by (intros ->; rewrite G12, S4 in A1; congruence).
          destruct (Nat.eqb_spec p1 0); [congruence|]. cbn [negb]. rewrite orb_true_r.
          unfold below in G9. destruct (Nat.eqb_spec p1 0); [congruence|]. exact G9. }
      rewrite RP. destruct G10 as [(A & df & o & B & -> & Q4 & Q5 & Q6 & Q7)|(Q4 & Q5)].
      - rewrite Q7. cbn [obind].
        destruct (detach_other s2 A df (found v) o B r d q) as (s3 & x & E3 & RC & RR & W3 & R3); auto; [rewrite G12, S4; auto|].
        assert (LL : exists l1 l2, ino t = l1 ++ found v :: l2 /\ ino (plug (A ++ (df, r, o) :: B) q) = l1 ++ l2).
        { rewrite <- INO, !ino_plug, !pre_app, !post_app. cbn [pre post].
          assert (SP : match df with L => post A = [] | R => pre A = [] end).
          { clear - Q4. induction A as [|[[d1 p1] b1] A IH]; [now destruct df|].
            specialize (IH (fun g H => Q4 g (or_intror H))). pose proof (Q4 _ (or_introl eq_refl)) as Hs. cbn in Hs. subst d1.
            destruct df; cbn; rewrite IH; reflexivity. }
          subst d. destruct df; cbn [pref postf opp nd ino]; rewrite SP; cbn [app].
          - exists (pre B ++ pre A ++ ino q ++ [r]), (ino o ++ post B). rewrite !app_nil_r, <- ?app_assoc. cbn. rewrite <- ?app_assoc. auto.
          - exists (pre B ++ ino o), (r :: ino q ++ post A ++ post B). rewrite <- ?app_assoc, ?app_nil_r. cbn. rewrite <- ?app_assoc. cbn. rewrite <- ?app_assoc. auto. }
        destruct LL as (l1 & l2 & L1 & L2). rewrite E3.
        eexists _, _, l1, l2. split; [reflexivity|]. split; [eapply repc_rep; eauto|]. split; [|auto].
        apply bal_plug. apply NoDup_plug in HN2. destruct HN2 as (_ & HN2 & HD2).
        assert (Irc : ~ In r (cadr (A ++ (df, found v, o) :: B))) by (intros H; apply (HD2 r); auto; apply In_nd; auto).
        assert (Wz : forall z, z <> r -> wt s3 z = wt s2 z) by (intros z Hz; rewrite W3; destruct (Nat.eqb_spec z r); congruence).
        assert (Wr : wt s3 r = wt s2 (found v)) by (rewrite W3, Nat.eqb_refl; auto).
        split; [eapply bal_ext; [|exact G4]; intros z Hz; apply Wz; congruence|].
        apply balc_app in G3. destruct G3 as [G3a G3b]. cbn [balc] in G3b. destruct G3b as (G3b & G3c & G3d).
        rewrite In_cadr_app, In_cadr_cons in Irc.
        apply balc_app. split; [eapply balc_ext; [|exact G3a]; intros z Hz; apply Wz; intros ->; tauto|].
        cbn [balc]. rewrite Wr. split; [|split; auto].
        + eapply bal_ext; [|exact G3b]. intros z Hz; apply Wz; intros ->; tauto.
        + eapply balc_ext; [|exact G3d]. intros z Hz; apply Wz; intros ->; tauto.
      - assert (BL : below s2 fp' = Some (locof C')) by (rewrite Q5; auto). rewrite BL. cbn [obind].
        destruct (detach_same s2 C' r d q) as (s3 & x & E3 & RC & RR & _ & W3 & R3); auto. rewrite E3.
        assert (LL : exists l1 l2, ino t = l1 ++ found v :: l2 /\ ino (plug C' q) = l1 ++ l2).
        { rewrite <- INO, !ino_plug, Q4. destruct d; cbn [nd ino app].
          - exists (pre C'), (ino q ++ post C'). auto.
          - exists (pre C' ++ ino q), (post C'). rewrite <- !app_assoc. auto. }
        destruct LL as (l1 & l2 & L1 & L2).
        eexists _, _, l1, l2. split; [reflexivity|]. split; [eapply repc_rep; eauto|]. split; [|auto].
        apply bal_plug. split; [eapply bal_ext; [|exact G4]|eapply balc_ext; [|exact G3]]; intros; auto. }
    destruct DT as (s3 & t' & l1 & l2 & E3 & R3 & B3 & L1 & L2 & (T1 & T2 & T3 & T4 & T5)).
    assert (E3' : forall (Y : Type) (k0 : st -> option Y), (let? pos := below s2 fp' in
        let? rep0 := if negb (fp' =? 0) || negb (replace_parent v =? 0) then let? d0 := ri s2 (replace_parent v) in Some (Lch (replace_parent v) d0) else Some Lroot in
        let? s0 := detach_node s2 pos rep0 in k0 s0) = k0 s3).
    { intros Y k0. destruct (below s2 fp'); [|discriminate]. cbn [obind] in *.
      destruct (if negb (fp' =? 0) || negb (replace_parent v =? 0) then let? d0 := ri s2 (replace_parent v) in Some (Lch (replace_parent v) d0) else Some Lroot); [|discriminate].
      cbn [obind] in *. rewrite E3. reflexivity. }
    rewrite E3'. unfold release. cbn [al set_sz].
    assert (If : In (found v) (ino t)) by (rewrite L1, in_app_iff; cbn; auto).
    assert (AE : forall z, al s3 z = al s z) by (intros; rewrite T3, G12, S4; auto).
    rewrite AE. rewrite (proj2 (Hal _) If). cbn [obind].
    eexists _, _. split; [reflexivity|]. right. exists l1, l2, t'.
    split; [congruence|]. split; auto. split; auto. split; auto.
    rewrite L1 in HN. pose proof (NoDup_remove _ _ _ HN) as [HNa HNb].
    assert (FR : fr s3 = fr s) by congruence.
    split; [|cbn; rewrite FR, T2, G11, S3; auto].
    constructor; cbn [rt set_pool set_sz wt al sz fr el].
    - rewrite <- L2 in HNb. eapply rep_frame; [|exact R3]. intros z Hz. cbn. unfold fupd.
      destruct (Nat.eqb_spec z (found v)); [congruence|]. auto.
    - auto.
    - rewrite L2. auto.
    - unfold fupd. rewrite AE. destruct (Nat.eqb 0 (found v)); auto.
    - intros z. unfold fupd. rewrite AE. destruct (Nat.eqb_spec z (found v)).
      + subst z. rewrite L2. split; [discriminate|tauto].
      + rewrite Hal, L1, L2, !in_app_iff. cbn. intuition congruence.
    - rewrite T4, G13, S6, Hsz, L1, L2, !app_length. cbn. lia.
    - rewrite FR. destruct HF as [HF1 HF2]. split.
      + constructor; auto. intros Hx. apply HF2 in Hx. destruct Hx as [Hx _]. rewrite (proj2 (Hal _) If) in Hx. discriminate.
      + intros z [<-|Hz]; unfold fupd.
        * rewrite Nat.eqb_refl. split; auto.
        * rewrite AE. apply HF2 in Hz. destruct Hz as [Hz1 Hz2]. rewrite Hz1. destruct (Nat.eqb z (found v)); auto.
    - rewrite L2. apply asc_remove with (found v). rewrite <- L1. eapply asc_ext; [|exact Ha].
      intros z Hz. unfold K_of. cbn. now rewrite T2, G11, S3.
  Qed.
End Rem.
