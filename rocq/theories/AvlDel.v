(** * Removal from the balanced tree of map/set (proof support for C14/C15) *)
From Coq Require Import List Arith Lia Bool.
From Verif Require Import Util SortSpec HeapProofs AvlModel AvlTree AvlRot AvlIns.
Import ListNotations.

Section Del.
  Context {X K : Type}.
  Variable key : X -> K.
  Variable lt : K -> K -> bool.
  Notation st := (st X).
  Hypothesis O : strict_weak_order lt.
  Lemma trans x y z : lt x y = true -> lt y z = true -> lt x z = true.
  Proof. apply (swo_trans _ O). Qed.
  Lemma asym x y : lt x y = true -> lt y x = false.
  Proof. apply (lt_asym lt O). Qed.
  Lemma nlt_lt_trans x y z : lt y z = true -> lt y x = false -> lt x z = true.
  Proof. intros H1 H2. destruct (lt x z) eqn:E1; auto. rewrite (nlt_trans lt O z x y) in H1; auto. Qed.

  (** a frame that absorbs the loss of one level below it *)
  Definition absb (w : nat -> option side) (g : frame) : bool :=
    let '(d, p, o) := g in
    match w p with
    | None => true
    | Some e => side_eqb e (opp d) && match o with N _ n _ => oside_eqb (w n) None | E => false end
    end.
  Definition BalInv (w : nat -> option side) (C : ctx) (x b bp : nat) : Prop :=
    (C = [] /\ b = x /\ bp = 0) \/
    (exists P g Cb, C = P ++ g :: Cb /\ b = fad g /\ bp = hda Cb /\ (forall h, In h P -> absb w h = false)
       /\ (absb w g = true \/ Cb = [])).
  Definition drs (s : st) (C : ctx) : Prop := forall g, In g C -> dr s (fad g) = Some (fsd g).
  Definition eqv (a b : K) : Prop := lt a b = false /\ lt b a = false.
  (** the equal node is on the path, everything below it is on the other side *)
  Definition fpath (C : ctx) (f fp : nat) (d : side) : Prop :=
    exists A o B, C = A ++ (d, f, o) :: B /\ (forall g, In g A -> fsd g = opp d) /\ fp = hda B.
  (** only the directions differ *)
  Definition drest (s s' : st) : Prop :=
    ch s' = ch s /\ wt s' = wt s /\ el s' = el s /\ al s' = al s /\ rt s' = rt s /\ sz s' = sz s /\ fr s' = fr s.
  Lemma rep_drest s s' x t : drest s s' -> rep s x t -> rep s' x t.
  Proof. intros (H1 & _ & _ & H2 & _) H. eapply rep_frame; [|exact H]. intros. now rewrite H1, H2. Qed.
  Lemma repc_drest s s' C x : drest s s' -> repc s C x -> repc s' C x.
  Proof. intros (H1 & _ & _ & H2 & H3 & _) H. eapply repc_frame; [| |exact H]; [|auto]. intros. now rewrite H1, H2. Qed.

  Lemma remove_loop_ok k : forall n (s : st) C t v, hgt t <= n -> t <> E -> al s 0 = false ->
    NoDup (ino (plug C t)) -> repc s C (replace v) -> rep s (replace v) t -> bal (wt s) (plug C t) -> drs s C ->
    replace_parent v = hda C -> BalInv (wt s) C (replace v) (balance v) (balance_parent v) -> asc lt (K_of key s) (ino t) ->
    ( (found v = 0 /\ lower key lt s k (pre C) /\ upper key lt s k (post C)) \/
      (exists d, fpath C (found v) (found_parent v) d /\ eqv (K_of key s (found v)) k /\
         match d with L => lower key lt s k (ino t) | R => upper key lt s k (ino t) end)) ->
    exists s' v' C' r d q, remove_loop key lt n s k v = Some (s', v') /\ drest s s' /\
      plug C' (nd d r E q) = plug C t /\ repc s' C' r /\ rep s' r (nd d r E q) /\ drs s' C' /\ dr s' r = Some d /\
      replace v' = r /\ replace_parent v' = hda C' /\ BalInv (wt s) C' r (balance v') (balance_parent v') /\
      ( (found v' = 0 /\ (forall z, In z (ino (plug C t)) -> lt k (K_of key s z) = true \/ lt (K_of key s z) k = true))
      \/ (found v' = r /\ found_parent v' = hda C' /\ eqv (K_of key s r) k)
      \/ (fpath C' (found v') (found_parent v') (opp d) /\ eqv (K_of key s (found v')) k)).
  Proof.
    induction n as [|n IH]; intros s C t v Hn Ht H0 HN HC HR HB Hdr Hrp Hbi Ha HF.
    { destruct t; [congruence|]. cbn in Hn. lia. }
    set (x := replace v) in *.
    assert (Ax : al s x = true). { destruct t; [congruence|]. destruct HR as (-> & ? & _). auto. }
    cbn [remove_loop]. fold x. destruct (Nat.eqb_spec x 0); [congruence|].
    unfold re. unfold rc at 1. rewrite Ax. cbn [obind].
    set (kx := key (el s x)).
    (* direction and bookkeeping *)
    set (dv := if lt k kx then (L, v) else if lt kx k then (R, v) else
            (if ch s x L =? 0 then R else L, mkrm (replace_parent v) x (replace_parent v) x (balance_parent v) (balance v))).
    assert (DV : exists d v1, dv = (d, v1) /\ replace_parent v1 = hda C /\ replace v1 = x /\ balance v1 = balance v /\ balance_parent v1 = balance_parent v /\
       ( (found v1 = 0 /\ lower key lt s k (pre C) /\ upper key lt s k (post C) /\ (if match d with L => lt k kx | R => lt kx k end then True else False))
       \/ (found v1 = x /\ found_parent v1 = hda C /\ eqv kx k /\ d = (if ch s x L =? 0 then R else L))
       \/ (fpath C (found v1) (found_parent v1) (opp d) /\ eqv (K_of key s (found v1)) k /\
            match opp d with L => lower key lt s k (ino t) | R => upper key lt s k (ino t) end))).
    { assert (Inx : In x (ino t)). { destruct t; [congruence|]. destruct HR as (-> & _). cbn. rewrite in_app_iff; cbn; auto. }
      unfold dv. destruct HF as [(F1 & F2 & F3)|(d & F1 & F2 & F3)].
      - destruct (lt k kx) eqn:E1; [|destruct (lt kx k) eqn:E2].
        + exists L, v. do 5 (split; [solve [auto]|]). left. try rewrite E1. auto.
        + exists R, v. do 5 (split; [solve [auto]|]). left. try rewrite E2. auto.
        + eexists _, _. split; [reflexivity|]. cbn. do 4 (split; [solve [auto]|]). right. left. unfold eqv. auto.
      - destruct d.
        + assert (E2 : lt kx k = true) by (apply F3; auto). rewrite (asym _ _ E2), E2.
          exists R, v. do 5 (split; [solve [auto]|]). right. right. auto.
        + assert (E2 : lt k kx = true) by (apply F3; auto). rewrite E2.
          exists L, v. do 5 (split; [solve [auto]|]). right. right. auto. }
    clearbody dv. destruct DV as (d & v1 & -> & V1 & V2 & V3 & V4 & HF1).
    destruct (nd_cases d t) as [->|(p & a & b & ->)]; [congruence|].
    pose proof (proj1 (rep_nd _ _ _ _ _ _) HR) as (<- & _ & HRa & HRb).
    unfold wd. rewrite Ax. cbn [obind]. set (s0 := set_dr s x (Some d)).
    assert (DS0 : drest s s0) by (repeat split).
    unfold rc at 1. cbn [al s0 set_dr]. rewrite Ax. cbn [obind ch s0 set_dr]. fold s0.
    pose proof (proj1 (NoDup_plug _ _) HN) as (HN1 & HNC & HD).
    assert (Hdr0 : drs s0 ((d, x, b) :: C)).
    { intros g [<-|Hg]; cbn; unfold fupd; [now rewrite Nat.eqb_refl|].
      destruct (Nat.eqb_spec (fad g) x); [|now apply Hdr]. exfalso. apply (HD x); [apply In_nd; auto|].
      rewrite <- e. now apply In_fad. }
    assert (HC0 : repc s0 ((d, x, b) :: C) (ch s x d)).
    { cbn [repc]. repeat split; auto.
      - apply rep_frame with s; auto.
      - apply repc_frame with s; auto. }
    assert (HRa0 : rep s0 (ch s x d) a) by (apply rep_frame with s; auto).
    destruct (Nat.eqb_spec (ch s x d) 0) as [Ey|Ey].
    - assert (a = E). { destruct a; auto. destruct HRa as (H1 & H2 & _). rewrite <- H1 in H2. rewrite Ey in H2. congruence. }
      subst a. exists s0, v1, C, x, d, b. split; auto. split; auto. split; auto.
      split; [eapply repc_drest; eauto|]. split; [eapply rep_drest; eauto|].
      split. { intros g Hg. apply Hdr0. cbn; auto. }
      split. { apply (Hdr0 (d, x, b)). cbn; auto. }
      split; auto. split; auto. split; [rewrite V3, V4; auto|].
      destruct HF1 as [(F1 & F2 & F3 & F4)|[(F1 & F2 & F3 & F4)|(F1 & F2 & F3)]]; [left|right; left|right; right]; auto.
      split; auto. intros z Hz.
      pose proof (step_order key lt trans s k x d E b C F2 F3 Ha F4) as (G1 & G2 & _).
      rewrite ino_plug, !in_app_iff in Hz. destruct Hz as [Hz|[Hz|Hz]]; [right; auto| |left; auto].
      apply In_nd in Hz. destruct Hz as [->|[[]|Hz]].
      + destruct d; cbn in F4; [left|right]; unfold K_of; fold kx; destruct (lt _ _); tauto.
      + destruct d.
        * left. apply G2. cbn. right. rewrite in_app_iff. auto.
        * right. apply G1. cbn. rewrite !in_app_iff. auto.
    - assert (Ha1 : a <> E) by (intros ->; now apply Ey in HRa).
      unfold rw at 1. cbn [al s0 set_dr]. rewrite Ax. cbn [obind]. change (wt s0 x) with (wt s x).
      apply bal_plug in HB. destruct HB as [HB1 HB2]. pose proof (proj1 (bal_nd _ _ _ _ _) HB1) as (Ba & Bb & Bx).
      assert (AB : (match wt s x with
                 | None => Some true
                 | Some w => if side_eqb w (opp d) then
                               let? o := rc s0 x (opp d) in
                               let? ow := rw s0 o in Some (oside_eqb ow None)
                             else Some false
                 end) = Some (absb (wt s) (d, x, b))).
      { cbn [absb]. destruct (wt s x) as [w|]; auto. destruct (side_cases d w) as [->| ->]; [now rewrite side_eqb_opp|].
        rewrite side_eqb_refl. unfold rc, rw. cbn [al s0 set_dr]. rewrite Ax. cbn [obind ch s0 set_dr wt].
        cbn in Bx. rewrite side_eqb_opp' in Bx. destruct b as [|b1 nb b2]; [cbn in Bx; lia|].
        destruct HRb as (-> & Anb & _). rewrite Anb. cbn. reflexivity. }
      rewrite AB. cbn [obind].
      set (v2 := if absb (wt s) (d, x, b) then _ else v1).
      set (v3 := mkrm _ _ x _ _ _).
      rewrite hgt_nd in Hn.
      destruct (IH s0 ((d, x, b) :: C) a v3) as (s' & v' & C' & r & dT & q & E1 & DS & P1 & P2 & P3 & P4 & P5 & P6 & P7 & P8 & P9); auto.
      { lia. }
      { cbn [plug]. apply bal_plug. auto. }
      { change (wt s0) with (wt s). right. unfold v3. cbn [balance balance_parent].
        destruct (absb (wt s) (d, x, b)) eqn:Eab; unfold v2; cbn.
        - exists [], (d, x, b), C. cbn. repeat split; auto. intros h [].
        - rewrite V3, V4. destruct Hbi as [(-> & -> & ->)|(P & g & Cb & -> & -> & -> & Q1 & Q2)].
          + exists [], (d, x, b), []. cbn. repeat split; auto. intros h [].
          + exists ((d, x, b) :: P), g, Cb. repeat split; auto. intros h [<-|Hh]; auto. }
      { change (asc lt (K_of key s) (ino a)). clear -Ha. destruct d; cbn in Ha; apply asc_app in Ha; destruct Ha as (A1 & (A2 & A3) & A4); auto. }
      { change (K_of key s0) with (K_of key s).
        assert (W3 : found v3 = found v1 /\ found_parent v3 = found_parent v1).
        { unfold v3, v2. destruct (absb _ _); cbn; auto. }
        destruct W3 as [-> ->].
        destruct HF1 as [(F1 & F2 & F3 & F4)|[(F1 & F2 & F3 & F4)|((A & o & B & -> & F1 & F1') & F2 & F3)]].
        - left. split; auto. pose proof (step_order key lt trans s k x d a b C F2 F3 Ha F4) as (G1 & G2 & _). auto.
        - right. exists d. split; [|split].
          + exists [], b, C. cbn. rewrite F1, F2. repeat split; auto. intros g [].
          + rewrite F1. exact F3.
          + destruct F3 as [F3 F3'].
            destruct d; cbn in Ha; apply asc_app in Ha; destruct Ha as (A1 & (A2 & A3) & A4).
            * intros z Hz. eapply lt_nlt_trans; eauto. apply A4; cbn; auto.
            * intros z Hz. eapply nlt_lt_trans; [|exact F3]. apply A2. auto.
        - right. exists (opp d). split; [|split; auto].
          + exists ((d, x, b) :: A), o, B. cbn. repeat split; auto. intros g [<-|Hg]; auto. cbn. now rewrite opp_opp.
          + destruct d; cbn [opp] in *; intros z Hz; apply F3; apply In_nd; auto. }
      exists s', v', C', r, dT, q. split; [exact E1|]. split; [exact DS|]. split; [exact P1|].
      do 7 (split; auto).
  Qed.

  (** *** one step of the rebalancing *)
  Lemma repc_cons_of (s : st) C x d p t o : repc s C x -> rep s x (nd d p t o) ->
    repc s ((d, p, o) :: C) (ch s p d) /\ rep s (ch s p d) t.
  Proof. intros H1 H2. apply rep_nd in H2. destruct H2 as (-> & H2 & H3 & H4). cbn. auto. Qed.

  Lemma rebal_step (s : st) C d b u o fp f hr : al s 0 = false -> repc s C b -> rep s b (nd d b u o) ->
    NoDup (ino (plug C (nd d b u o))) -> dr s b = Some d -> bal (wt s) o -> wg d (wt s b) (hgt u) (hgt o) -> hgt u = S hr ->
    below s (hda C) = Some (locof C) ->
    exists s' o' C2' fp', let C2 := (d, b, o') :: C2' in
      rebalance_node s fp f (hda C) b d = Some (s', fp') /\
      repc s' (C2 ++ C) (ch s' b d) /\ rep s' (ch s' b d) u /\
      balc (wt s') C2 hr /\ S (Nat.max (S hr) (hgt o)) = hgtc C2 hr + (if absb (wt s) (d, b, o) then 0 else 1) /\
      pre C2 = pre [(d, b, o)] /\ post C2 = post [(d, b, o)] /\
      (forall q, q <> b -> ~ In q (ino o) -> wt s' q = wt s q) /\
      el s' = el s /\ al s' = al s /\ sz s' = sz s /\ fr s' = fr s /\
      (forall g, In g C2' -> fsd g = d) /\
      ((fp' = fp /\ dr s' = dr s /\ (b <> f \/ C2' = []))
       \/ (b = f /\ exists o2, C2' = [(d, fp', o2)] /\ dr s' = fupd (dr s) fp' (Some d) /\ In fp' (ino o))).
  Proof.
    intros H0 HC HR HN Hd Bo Bw Hu Hl. cbn zeta.
    pose proof (proj1 (NoDup_plug _ _) HN) as (HN1 & HNC & HD).
    pose proof (proj1 (NoDup_nd _ _ _ _) HN1) as (Nb1 & Nb2 & Nu & No & Duo).
    pose proof (proj1 (rep_nd _ _ _ _ _ _) HR) as (_ & Ab & HRu & HRo).
    unfold rebalance_node. unfold rw at 1. rewrite Ab. cbn [obind].
    destruct (wt s b) as [w|] eqn:Ew.
    2:{ cbn in Bw. destruct (ww_ok s b (Some (opp d)) Ab) as (s' & -> & F & W). cbn [obind].
      exists s', o, [], fp. split; auto.
      destruct (repc_cons_of s' C b d b u o) as [G1 G2]; [eapply repc_frest; eauto|eapply rep_frest; eauto|].
      split; auto. split; auto. split.
      { cbn. rewrite W, Nat.eqb_refl. cbn. rewrite side_eqb_opp'. split; [|split; auto; lia].
        eapply bal_ext; [|eauto]. intros q Hq. rewrite W. destruct (Nat.eqb_spec q b); [congruence|auto]. }
      split. { cbn [absb hgtc]. rewrite Ew. lia. }
      split; auto. split; auto. split. { intros q Hq _. rewrite W. destruct (Nat.eqb_spec q b); [congruence|auto]. }
      destruct F as (F1 & F2 & F3 & F4 & F5 & F6 & F7). do 4 (split; auto). split; [intros g []|]. left. auto. }
    destruct (side_cases d w) as [->| ->]; cbn in Bw.
    { rewrite side_eqb_refl in *. destruct (ww_ok s b None Ab) as (s' & -> & F & W). cbn [obind].
      exists s', o, [], fp. split; auto.
      destruct (repc_cons_of s' C b d b u o) as [G1 G2]; [eapply repc_frest; eauto|eapply rep_frest; eauto|].
      split; auto. split; auto. split.
      { cbn. rewrite W, Nat.eqb_refl. cbn. split; [|split; auto; lia].
        eapply bal_ext; [|eauto]. intros q Hq. rewrite W. destruct (Nat.eqb_spec q b); [congruence|auto]. }
      split. { cbn [absb hgtc]. rewrite Ew, side_eqb_opp. cbn [andb]. lia. }
      split; auto. split; auto. split. { intros q Hq _. rewrite W. destruct (Nat.eqb_spec q b); [congruence|auto]. }
      destruct F as (F1 & F2 & F3 & F4 & F5 & F6 & F7). do 4 (split; auto). split; [intros g []|]. left. auto. }
    rewrite side_eqb_opp' in *. unfold rc at 1. rewrite Ab. cbn [obind].
    destruct (nd_cases (opp d) o) as [->|(n & a & c & ->)]; [cbn in Bw; lia|].
    pose proof (proj1 (rep_nd _ _ _ _ _ _) HRo) as (En & An & HRa & HRc). rewrite opp_opp in HRc. rewrite En.
    unfold rw at 1. rewrite An. cbn [obind]. rewrite Hl. cbn [obind].
    apply bal_nd in Bo. destruct Bo as (Ba & Bc & Bn). rewrite hgt_nd in *.
    assert (AB : absb (wt s) (d, b, nd (opp d) n a c) = oside_eqb (wt s n) None).
    { cbn [absb]. rewrite Ew, side_eqb_refl. cbn [andb]. destruct d; cbn; reflexivity. }
    rewrite AB. rewrite <- nd_opp in HR. rewrite <- nd_opp in HN.
    pose proof (proj1 (NoDup_nd _ _ _ _) No) as (Nn1 & Nn2 & Na & Nc & Dac).
    assert (Qbn : b <> n) by (intros ->; apply Nb2; apply In_nd; auto).
    assert (Qba : ~ In b (ino a)) by (intros ?; apply Nb2; apply In_nd; auto).
    assert (Qbc : ~ In b (ino c)) by (intros ?; apply Nb2; apply In_nd; auto).
    assert (FIX : forall s' m o' o2, rest s s' -> repc s' ((d, b, o') :: (d, m, o2) :: C) (ch s' b d) -> In m (ino (nd (opp d) n a c)) -> ~ In b (ino o2) ->
       exists s'' fp', (if b =? f then
          let? fp0 := rl s' (locof C) in
          let? c0 := rc s' fp0 L in
          let? s0 := wd s' fp0 (Some (if c0 =? f then L else R)) in Some (s0, fp0)
          else Some (s', fp)) = Some (s'', fp') /\ ch s'' = ch s' /\ wt s'' = wt s' /\ al s'' = al s' /\ rt s'' = rt s' /\
          el s'' = el s' /\ sz s'' = sz s' /\ fr s'' = fr s' /\
          ((fp' = fp /\ dr s'' = dr s /\ (b <> f \/ [(d, m, o2)] = [])) \/ (b = f /\ exists o3, [(d, m, o2)] = [(d, fp', o3)] /\ dr s'' = fupd (dr s) fp' (Some d) /\ In fp' (ino (nd (opp d) n a c))))).
    { intros s' m o' o2 (R1 & R2 & R3 & R4 & R5) RC Im Nm. destruct (Nat.eqb_spec b f) as [Ef|Ef].
      - cbn [repc] in RC. destruct RC as (_ & Ab' & _ & RCm & Am & RCo & RC0).
        rewrite (rl_locof _ _ _ RC0). cbn [obind]. unfold rc. rewrite Am. cbn [obind]. unfold wd. rewrite Am. cbn [obind].
        eexists _, _. split; [reflexivity|]. cbn. do 7 (split; [reflexivity|]). right. split; auto. exists o2. split; auto. split; auto. rewrite R1.
        f_equal. f_equal. rewrite <- Ef. destruct d; cbn [opp] in *.
        + rewrite RCm, Nat.eqb_refl. auto.
        + destruct (Nat.eqb_spec (ch s' m L) b) as [Eq|Eq]; auto. exfalso. rewrite Eq in RCo.
          assert (In b (ino o2)).
          { destruct o2; cbn in RCo; [subst b; congruence|]. destruct RCo as (-> & _). cbn. rewrite in_app_iff. cbn. auto. }
          tauto.
      - eexists _, _. split; [reflexivity|]. do 7 (split; [reflexivity|]). left. rewrite R1. auto. }
    assert (FIN : forall s1 m o' o2, rest s s1 -> repc s1 C m -> rep s1 m (nd d m (nd d b u o') o2) ->
       In m (ino (nd (opp d) n a c)) -> ~ In b (ino o2) ->
       balc (wt s1) [(d, b, o'); (d, m, o2)] hr ->
       S (Nat.max (S hr) (S (Nat.max (hgt a) (hgt c)))) = hgtc [(d, b, o'); (d, m, o2)] hr + (if oside_eqb (wt s n) None then 0 else 1) ->
       pre [(d, b, o'); (d, m, o2)] = pre [(d, b, nd (opp d) n a c)] -> post [(d, b, o'); (d, m, o2)] = post [(d, b, nd (opp d) n a c)] ->
       (forall q, q <> b -> ~ In q (ino (nd (opp d) n a c)) -> wt s1 q = wt s q) ->
       exists s' o'0 C2' fp',
        (if b =? f then
          let? fp0 := rl s1 (locof C) in
          let? c0 := rc s1 fp0 L in
          let? s0 := wd s1 fp0 (Some (if c0 =? f then L else R)) in Some (s0, fp0)
          else Some (s1, fp)) = Some (s', fp') /\
      repc s' (((d, b, o'0) :: C2') ++ C) (ch s' b d) /\ rep s' (ch s' b d) u /\
      balc (wt s') ((d, b, o'0) :: C2') hr /\
      S (Nat.max (S hr) (S (Nat.max (hgt a) (hgt c)))) = hgtc ((d, b, o'0) :: C2') hr + (if oside_eqb (wt s n) None then 0 else 1) /\
      pre ((d, b, o'0) :: C2') = pre [(d, b, nd (opp d) n a c)] /\ post ((d, b, o'0) :: C2') = post [(d, b, nd (opp d) n a c)] /\
      (forall q, q <> b -> ~ In q (ino (nd (opp d) n a c)) -> wt s' q = wt s q) /\
      el s' = el s /\ al s' = al s /\ sz s' = sz s /\ fr s' = fr s /\
      (forall g, In g C2' -> fsd g = d) /\
      ((fp' = fp /\ dr s' = dr s /\ (b <> f \/ C2' = []))
       \/ (b = f /\ exists o2, C2' = [(d, fp', o2)] /\ dr s' = fupd (dr s) fp' (Some d) /\ In fp' (ino (nd (opp d) n a c))))).
    { intros s1 m o' o2 R1 RC1 RR Im Ibn B1 B2 B3 B4 B5.
      destruct (repc_cons_of _ _ _ _ _ _ _ RC1 RR) as [RC2 RR2].
      assert (Em : ch s1 m d = b). { apply rep_nd in RR2. tauto. }
      rewrite Em in *. destruct (repc_cons_of _ _ _ _ _ _ _ RC2 RR2) as [RC3 RR3].
      destruct (FIX s1 m o' o2 R1 RC3 Im Ibn) as (s' & fp' & E1 & E2 & E3 & E4 & E5 & E6 & E7 & E8 & E9).
      destruct R1 as (R1 & R2 & R3 & R4 & R5).
      exists s', o', [(d, m, o2)], fp'. split; auto. rewrite E2. split.
      { eapply repc_frame; [| |exact RC3]; auto. intros. rewrite E4, E2. auto. }
      split. { eapply rep_frame; [|exact RR3]. intros. rewrite E4, E2. auto. }
      rewrite E3. split; auto. split; auto. split; auto. split; auto. split; auto.
      split; [congruence|]. split; [congruence|]. split; [congruence|]. split; [congruence|].
      split; [intros g [<-|[]]; auto|]. exact E9. }
    clear FIX. destruct (oside_eqb (wt s n) (Some d)) eqn:En3.
    - (* double rotation *)
      apply oside_eqb_eq in En3. rewrite En3 in *. cbn [oside_eqb] in *. cbn in Bn. rewrite side_eqb_opp in Bn.
      destruct (nd_cases (opp d) c) as [->|(g & c1 & c2 & ->)]; [cbn in Bn; lia|].
      pose proof (proj1 (rep_nd _ _ _ _ _ _) HRc) as (Eg & Ag & HRc1 & HRc2). rewrite opp_opp in HRc2.
      unfold rc at 1. rewrite An. cbn [obind]. rewrite Eg. unfold rw at 1. rewrite Ag. cbn [obind].
      apply bal_nd in Bc. destruct Bc as (Bc1 & Bc2 & Bg). rewrite hgt_nd in *.
      pose proof (proj1 (NoDup_nd _ _ _ _) Nc) as (Ng1 & Ng2 & Nc1 & Nc2 & Dcc).
      rewrite <- (nd_opp (opp d) n (nd (opp d) g c1 c2) a) in HR, HN.
      destruct (rotate_3_tree s C (opp d) (wt s g) b n g c1 c2 a u b HC HR HN) as (s1 & -> & R1 & _ & W & RC1 & RR1).
      rewrite !nd_opp in RR1. cbn [obind].
      assert (Qbg : b <> g) by (intros ->; apply Nb2; apply In_nd; right; right; apply In_nd; auto).
      assert (Qng : n <> g) by (intros ->; apply Nn2; apply In_nd; auto).
      assert (Wg : wt s1 g = None) by (rewrite W, Nat.eqb_refl; auto).
      assert (Wb : wt s1 b = if oside_eqb (wt s g) (Some (opp d)) then Some d else None).
      { rewrite W. destruct (Nat.eqb_spec b g); [congruence|]. rewrite Nat.eqb_refl, opp_opp. auto. }
      assert (Wn : wt s1 n = if oside_eqb (wt s g) (Some d) then Some (opp d) else None).
      { rewrite W. destruct (Nat.eqb_spec n g); [congruence|]. destruct (Nat.eqb_spec n b); [congruence|]. rewrite Nat.eqb_refl, opp_opp. auto. }
      assert (W4 : forall q, q <> g -> q <> b -> q <> n -> wt s1 q = wt s q).
      { intros q H1 H2 H3. rewrite W. destruct (Nat.eqb_spec q g), (Nat.eqb_spec q b), (Nat.eqb_spec q n); congruence. }
      assert (HH : (wt s g = None /\ hgt c1 = hgt c2) \/ (wt s g = Some (opp d) /\ hgt c1 = hgt c2 + 1) \/ (wt s g = Some d /\ hgt c2 = hgt c1 + 1)).
      { destruct (wt s g) as [e3|]; cbn in Bg; auto. destruct (side_cases d e3) as [->| ->];
          rewrite ?side_eqb_refl, ?side_eqb_opp, ?side_eqb_opp' in Bg; auto. }
      apply (FIN s1 g c2 (nd d n c1 a)); auto.
      + apply In_nd. right. right. apply In_nd. auto.
      + rewrite In_nd. intros [?|[?|?]]; auto. apply Qbc. apply In_nd. auto.
      + cbn [balc]. rewrite Wb, Wg, hgt_nd. cbn [wg]. split; [|split; [|split; [|split]]].
        * eapply bal_ext; [|exact Bc2]. intros q Hq. apply W4; intros ->; auto; [apply Qbc|apply Nn2]; apply In_nd; auto.
        * destruct HH as [(-> & ?)|[(-> & ?)|(-> & ?)]]; cbn; rewrite ?side_eqb_refl, ?side_eqb_opp; cbn; rewrite ?side_eqb_refl; lia.
        * apply bal_nd. rewrite Wn. split; [|split].
          -- eapply bal_ext; [|exact Bc1]. intros q Hq. apply W4; intros ->; auto; [apply Qbc|apply Nn2]; apply In_nd; auto.
          -- eapply bal_ext; [|exact Ba]. intros q Hq. apply W4; intros ->; auto. apply (Dac g); auto. apply In_nd; auto.
          -- destruct HH as [(-> & ?)|[(-> & ?)|(-> & ?)]]; cbn; rewrite ?side_eqb_refl, ?side_eqb_opp, ?side_eqb_opp'; cbn; rewrite ?side_eqb_opp'; lia.
        * destruct HH as [(_ & ?)|[(_ & ?)|(_ & ?)]]; lia.
        * auto.
      + cbn [hgtc]. rewrite hgt_nd. destruct HH as [(_ & ?)|[(_ & ?)|(_ & ?)]]; lia.
      + destruct d; cbn; rewrite <- ?app_assoc; cbn; rewrite <- ?app_assoc; reflexivity.
      + destruct d; cbn; rewrite <- ?app_assoc; cbn; rewrite <- ?app_assoc, ?app_nil_r; reflexivity.
      + intros q H1 H2. apply W4; auto; intros ->; apply H2; apply In_nd; auto. right. right. apply In_nd. auto.
    - destruct (rotate_2_tree s C (opp d) b n a c u b HC HR HN) as (s1 & E1 & R1 & _ & W & RC1 & RR1 & _).
      rewrite E1. rewrite !nd_opp in RR1. cbn [obind].
      assert (W4 : forall q, q <> b -> q <> n -> wt s1 q = wt s q).
      { intros q H1 H2. rewrite W. destruct (Nat.eqb_spec q b), (Nat.eqb_spec q n); cbn; congruence. }
      assert (An1 : al s1 n = true). { destruct R1 as (_ & _ & -> & _). auto. }
      assert (Ab1 : al s1 b = true). { destruct R1 as (_ & _ & -> & _). auto. }
      destruct (oside_eqb (wt s n) None) eqn:En4.
      + apply oside_eqb_eq in En4. rewrite En4 in *. cbn in Bn.
        rewrite (rl_locof _ _ _ RC1). cbn [obind].
        destruct (ww_ok s1 n (Some d) An1) as (s2 & -> & F2 & W2). cbn [obind].
        assert (Ab2 : al s2 b = true). { destruct F2 as (_ & _ & _ & -> & _). auto. }
        destruct (ww_ok s2 b (Some (opp d)) Ab2) as (s3 & -> & F3 & W3). cbn [obind].
        assert (W5 : forall q, q <> b -> q <> n -> wt s3 q = wt s q).
        { intros q H1 H2. rewrite W3, W2. destruct (Nat.eqb_spec q b), (Nat.eqb_spec q n); try congruence. auto. }
        assert (Wb : wt s3 b = Some (opp d)) by (rewrite W3, Nat.eqb_refl; auto).
        assert (Wn : wt s3 n = Some d).
        { rewrite W3, W2, Nat.eqb_refl. destruct (Nat.eqb_spec n b); congruence. }
        apply (FIN s3 n c a); auto.
        * eapply rest_trans; [exact R1|]. eapply rest_trans; apply frest_rest; eauto.
        * eapply repc_frest; [exact F3|]. eapply repc_frest; [exact F2|]. auto.
        * eapply rep_frest; [exact F3|]. eapply rep_frest; [exact F2|]. auto.
        * apply In_nd. auto.
        * cbn [balc]. rewrite Wb, Wn. cbn [wg]. rewrite side_eqb_opp', side_eqb_refl. split; [|split; [lia|split; [|split]]].
          -- eapply bal_ext; [|exact Bc]. intros q Hq. apply W5; intros ->; auto.
          -- eapply bal_ext; [|exact Ba]. intros q Hq. apply W5; intros ->; auto.
          -- lia.
          -- auto.
        * cbn [hgtc oside_eqb]. lia.
        * destruct d; cbn; rewrite <- ?app_assoc; reflexivity.
        * destruct d; cbn; rewrite <- ?app_assoc, ?app_nil_r; reflexivity.
        * intros q H1 H2. apply W5; auto. intros ->. apply H2. apply In_nd. auto.
      + assert (En5 : wt s n = Some (opp d)).
        { destruct (wt s n) as [e|]; [|discriminate]. destruct (side_cases d e) as [->| ->]; auto. cbn in En3. now rewrite side_eqb_refl in En3. }
        rewrite En5 in *. cbn in Bn. rewrite side_eqb_refl in Bn.
        assert (Wb : wt s1 b = None) by (rewrite W, Nat.eqb_refl; auto).
        assert (Wn : wt s1 n = None) by (rewrite W, Nat.eqb_refl, orb_true_r; auto).
        apply (FIN s1 n c a); auto.
        * apply In_nd. auto.
        * cbn [balc]. rewrite Wb, Wn. cbn [wg]. split; [|split; [lia|split; [|split]]].
          -- eapply bal_ext; [|exact Bc]. intros q Hq. apply W4; intros ->; auto.
          -- eapply bal_ext; [|exact Ba]. intros q Hq. apply W4; intros ->; auto.
          -- lia.
          -- auto.
        * cbn [hgtc oside_eqb]. lia.
        * destruct d; cbn; rewrite <- ?app_assoc; reflexivity.
        * destruct d; cbn; rewrite <- ?app_assoc, ?app_nil_r; reflexivity.
        * intros q H1 H2. apply W4; auto. intros ->. apply H2. apply In_nd. auto.
  Qed.

  (** *** the rebalancing loop *)
  Definition TR (s : st) (D : ctx) (r : nat) (dT : side) (f fp : nat) : Prop :=
    (exists A df o B, D = A ++ (df, f, o) :: B /\ (forall g, In g A -> fsd g = opp df) /\ dT = opp df /\ fp = hda B /\
       below s fp = Some (locof B)) \/ (f = r /\ fp = hda D).
  Lemma app_cons_cases {Y} (P C A B : list Y) x y : P ++ x :: C = A ++ y :: B ->
    (A = P /\ x = y /\ B = C) \/ (exists B0, P = A ++ y :: B0 /\ B = B0 ++ x :: C) \/ (exists A0, C = A0 ++ y :: B /\ A = P ++ x :: A0).
  Proof.
    revert A. induction P as [|p P IH]; intros [|a A]; cbn; intros [= E1 E2]; subst; auto.
    - right. right. eauto.
    - right. left. eauto.
    - destruct (IH _ E2) as [(-> & -> & ->)|[(B0 & -> & ->)|(A0 & -> & ->)]]; [left|right; left|right; right]; cbn; eauto.
  Qed.
  Lemma below_dr (s : st) b : al s 0 = false -> b <> 0 -> forall d, al s b = true -> dr s b = Some d -> below s b = Some (Lch b d).
  Proof. intros H0 Hb d Ha Hd. unfold below. destruct (Nat.eqb_spec b 0); [congruence|]. unfold ri. rewrite Ha, Hd. reflexivity. Qed.
  Lemma hda_app A d p o o' B B' : hda (A ++ (d, p, o) :: B) = hda (A ++ (d, p, o') :: B').
  Proof. destruct A; reflexivity. Qed.
  Lemma locof_app A d p o o' B B' : locof (A ++ (d, p, o) :: B) = locof (A ++ (d, p, o') :: B').
  Proof. destruct A as [|[[? ?] ?] A]; reflexivity. Qed.

  Lemma rebal_loop_ok dT r q f P : forall n (s : st) C b fp, length P < n -> al s 0 = false ->
    repc s C b -> rep s b (plug P (nd dT r E q)) -> NoDup (ino (plug C (plug P (nd dT r E q)))) ->
    drs s P -> dr s r = Some dT -> below s (hda C) = Some (locof C) -> bal (wt s) (plug P (nd dT r E q)) ->
    (P = [] -> balc (wt s) C (hgt (nd dT r E q) - 1)) ->
    (forall P' g, P = P' ++ [g] -> (forall h, In h P' -> absb (wt s) h = false) /\
         balc (wt s) C (hgt (plug P (nd dT r E q)) - if absb (wt s) g then 0 else 1)) ->
    TR s (P ++ C) r dT f fp ->
    exists s' C' fp', rebalance_loop n s fp f (hda C) b = Some (s', fp') /\ repc s' C' r /\ rep s' r (nd dT r E q) /\
      balc (wt s') C' (hgt (nd dT r E q) - 1) /\ bal (wt s') q /\ pre C' = pre (P ++ C) /\ post C' = post (P ++ C) /\
      hda C' = hda (P ++ C) /\ locof C' = locof (P ++ C) /\ below s' (hda C') = Some (locof C') /\ TR s' C' r dT f fp' /\
      el s' = el s /\ al s' = al s /\ sz s' = sz s /\ fr s' = fr s /\ dr s' r = Some dT.
  Proof.
    set (T := nd dT r E q).
    assert (HT : hgt T >= 1) by (unfold T; rewrite hgt_nd; lia).
    induction P as [|[[d b] o] P IH] using rev_ind; intros n s C b0 fp Hn H0 HC HR HN Hdr Hdt Hbl HB Hh0 Hh1 HT1.
    - destruct n; [cbn in Hn; lia|]. cbn [plug app] in *.
      unfold T in HR. pose proof (proj1 (rep_nd _ _ _ _ _ _) HR) as (-> & Ar & HRe & HRq). cbn in HRe.
      cbn [rebalance_loop]. destruct (Nat.eqb_spec r 0); [congruence|]. unfold ri. rewrite Ar, Hdt. cbn [obind].
      unfold rc. rewrite Ar. cbn [obind]. rewrite HRe. cbn [Nat.eqb].
      exists s, C, fp. split; auto. split; auto. split; auto. split; auto.
      split. { unfold T in HB. apply bal_nd in HB. tauto. }
      do 5 (split; auto). split; [exact HT1|]. auto 10.
    - rewrite app_length in Hn. cbn in Hn. destruct n; [lia|].
      rewrite plug_app in HR, HN, HB. cbn [plug] in HR, HN, HB.
      set (u := plug P T) in *.
      pose proof (proj1 (rep_nd _ _ _ _ _ _) HR) as (-> & Ab & HRu & HRo).
      assert (Hu : exists hr, hgt u = S hr).
      { unfold u. rewrite hgt_plug. pose proof (hgtc_ge P (hgt T)). exists (hgtc P (hgt T) - 1). lia. }
      destruct Hu as [hr Hu].
      assert (Db : dr s b = Some d). { apply (Hdr (d, b, o)). rewrite in_app_iff. cbn. auto. }
      apply bal_nd in HB. destruct HB as (Bu & Bo & Bw).
      assert (Hb0 : b <> 0) by congruence.
      cbn [rebalance_loop]. destruct (Nat.eqb_spec b 0); [congruence|]. unfold ri. rewrite Ab, Db. cbn [obind].
      unfold rc at 1. rewrite Ab. cbn [obind].
      destruct (Nat.eqb_spec (ch s b d) 0) as [Ey|Ey].
      { exfalso. assert (u = E). { destruct u; auto. destruct HRu as (H1 & H2 & _). rewrite <- H1 in H2. rewrite Ey in H2. congruence. }
        rewrite H in Hu. cbn in Hu. lia. }
      destruct (rebal_step s C d b u o fp f hr H0 HC HR HN Db Bo Bw Hu Hbl)
        as (s1 & o' & C2' & fp1 & E1 & RC1 & RR1 & BC1 & HG & EP1 & EP2 & W1 & S1 & S2 & S3 & S4 & SD & FP). cbn zeta in *.
      rewrite E1. cbn [obind]. unfold rc. rewrite S2, Ab. cbn [obind].
      set (C2 := (d, b, o') :: C2') in *.
      pose proof (proj1 (NoDup_plug _ _) HN) as (HN1 & HNC & HD).
      pose proof (proj1 (NoDup_nd _ _ _ _) HN1) as (Nb1 & Nb2 & Nu & No & Duo).
      assert (IU : forall z, In z (ino u) -> z <> b /\ ~ In z (ino o)).
      { intros z Hz. split; [intros ->; auto|]. intros Hz'. apply (Duo z); auto. }
      assert (DRE : forall z, ~ In z (ino o) -> dr s1 z = dr s z).
      { intros z Hz. destruct FP as [(_ & -> & _)|(_ & o2 & _ & -> & Io)]; auto. unfold fupd. destruct (Nat.eqb_spec z fp1); congruence. }
      assert (IP : forall g, In g P -> In (fad g) (ino u)).
      { intros g Hg. unfold u. apply In_plug. right. now apply In_fad. }
      assert (Ir : In r (ino u)) by (unfold u, T; apply In_plug; left; apply In_nd; auto).
      assert (Db1 : dr s1 b = Some d) by (rewrite DRE; auto).
      destruct (Hh1 P (d, b, o) eq_refl) as [Hab HBC].
      assert (BC2 : balc (wt s1) (C2 ++ C) (hgt u - 1)).
      { rewrite Hu. replace (S hr - 1) with hr by lia. apply balc_app. split; auto.
        rewrite plug_app in HBC. cbn [plug] in HBC. rewrite hgt_nd in HBC. fold u in HBC. rewrite Hu in HBC.
        replace (hgtc C2 hr) with (S (Nat.max (S hr) (hgt o)) - (if absb (wt s) (d, b, o) then 0 else 1)) by lia.
        eapply balc_ext; [|exact HBC]. intros z Hz. apply W1; [intros ->|intros Hzo]; eapply HD; eauto; apply In_nd; auto. }
      assert (EPRE : pre (C2 ++ C) = pre ((d, b, o) :: C)). { rewrite pre_app, EP1. reflexivity. }
      assert (EPOST : post (C2 ++ C) = post ((d, b, o) :: C)). { rewrite post_app, EP2. cbn. now rewrite app_nil_r. }
      change b with (hda (C2 ++ C)) at 1.
      destruct (IH n s1 (C2 ++ C) (ch s1 b d) fp1) as (s' & C' & fp' & E2 & G); auto.
      { lia. }
      { rewrite S2; auto. }
      { fold u. rewrite ino_plug, EPRE, EPOST. rewrite <- ino_plug. exact HN. }
      { intros g Hg. rewrite DRE; [apply Hdr; rewrite in_app_iff; auto|]. apply IU. auto. }
      { rewrite DRE; auto. apply IU. auto. }
      { cbn [C2 app hda fad fst snd locof]. apply below_dr; auto; rewrite S2; auto. }
      { eapply bal_ext; [|exact Bu]. intros z Hz. apply W1; apply IU; auto. }
      { intros ->. exact BC2. }
      { intros P' g ->. assert (forall h, In h (P' ++ [g]) -> absb (wt s1) h = false).
        { intros h Hh. rewrite <- (Hab h Hh). assert (HW : forall z, In z (cadr (P' ++ [g])) -> wt s1 z = wt s z).
          { intros z Hz. apply W1; apply IU; unfold u; apply In_plug; auto. }
          destruct h as [[dh ph] oh]. cbn [absb].
          assert (Hsub : forall z, z = ph \/ In z (ino oh) -> In z (cadr (P' ++ [g]))).
          { intros z Hz. apply in_split in Hh. destruct Hh as (l1 & l2 & ->). apply In_cadr_app. right. apply In_cadr_cons. tauto. }
          rewrite HW by auto. destruct (wt s ph); auto. f_equal. destruct oh; auto. rewrite HW; auto. apply Hsub. right. cbn. rewrite in_app_iff. cbn. auto. }
        split; [intros h Hh; apply H; rewrite in_app_iff; auto|].
        rewrite (H g) by (rewrite in_app_iff; cbn; auto). exact BC2. }
      { (* tracking of the found node *)
        rewrite <- app_assoc in HT1. cbn [app] in HT1.
        destruct HT1 as [(A & df & o0 & B & Q1 & Q2 & Q3 & Q4 & Q5)|(Q1 & Q2)].
        2:{ right. split; auto. destruct FP as [(-> & _)|(-> & _)].
            - rewrite Q2. unfold C2. cbn [app]. apply hda_app.
            - exfalso. apply Nb1. rewrite Q1. auto. }
        left.
        assert (BEL : forall Z, fp = hda Z -> Z <> [] -> dr s1 fp = dr s fp -> below s1 fp = below s fp).
        { intros Z _ _ Ez. unfold below, ri. rewrite S2, Ez. reflexivity. }
        destruct (app_cons_cases P C A B _ _ Q1) as [(-> & [= <- <- <-] & ->)|[(B0 & -> & ->)|(A0 & -> & ->)]].
        - (* the node itself *)
          exists P, d, o', (C2' ++ C). split; [reflexivity|]. split; auto. split; auto.
          destruct FP as [(-> & Ed & [?| ->])|(_ & o2 & -> & Ed & _)]; [congruence| |].
          + split; auto. unfold below, ri. rewrite S2, Ed. exact Q5.
          + cbn. split; auto. cbn [C2 repc] in RC1. destruct RC1 as (_ & _ & _ & _ & Am & _).
            apply below_dr; auto; [rewrite S2; auto|intros ->; congruence|]. rewrite Ed. unfold fupd. now rewrite Nat.eqb_refl.
        - assert (Hf : f <> b). { intros ->. apply Nb1. apply (IP (df, b, o0)). rewrite in_app_iff. cbn. auto. }
          destruct FP as [(-> & Ed & _)|(Ef & _)]; [|congruence].
          exists A, df, o0, (B0 ++ C2 ++ C). rewrite <- app_assoc. split; auto. split; auto. split; auto.
          split; [rewrite Q4; unfold C2; cbn [app]; apply hda_app|].
          replace (locof (B0 ++ C2 ++ C)) with (locof (B0 ++ (d, b, o) :: C)) by (unfold C2; cbn [app]; apply locof_app).
          unfold below, ri. rewrite S2, Ed. exact Q5.
        - assert (Hf : f <> b). { intros ->. apply (HD b); [apply In_nd; auto|]. apply (In_fad (df, b, o0)). rewrite in_app_iff. cbn. auto. }
          destruct FP as [(-> & Ed & _)|(Ef & _)]; [|congruence].
          exists (P ++ C2 ++ A0), df, o0, B. split; [now rewrite <- !app_assoc|].
          assert (Sd : d = opp df). { apply (Q2 (d, b, o)). rewrite in_app_iff. cbn. auto. }
          split. { intros g Hg. rewrite !in_app_iff in Hg. destruct Hg as [Hg|[[<-|Hg]|Hg]]; auto.
            - apply Q2. rewrite in_app_iff. auto.
            - rewrite (SD g Hg). auto.
            - apply Q2. rewrite in_app_iff. cbn. auto. }
          split; auto. split; auto. unfold below, ri. rewrite S2, Ed. exact Q5. }
      cbn [C2 app hda fad fst snd] in E2. exists s', C', fp'. split; [exact E2|].
      destruct G as (G1 & G2 & G3 & G4 & G5 & G6 & G7 & G8 & G9 & G10 & G11 & G12 & G13 & G14 & G15).
      rewrite <- app_assoc. cbn [app].
      split; auto. split; auto. split; auto. split; auto.
      split. { rewrite G5, !(pre_app P), EPRE. reflexivity. }
      split. { rewrite G6, !(post_app P), EPOST. reflexivity. }
      split. { rewrite G7. unfold C2. cbn [app]. apply hda_app. }
      split. { rewrite G8. unfold C2. cbn [app]. apply locof_app. }
      split; auto. split; auto. repeat split; congruence.
  Qed.
End Del.
