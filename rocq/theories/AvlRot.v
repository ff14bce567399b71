(** * Rotations (proof support for C14/C15) *)
From Coq Require Import List Arith Lia Bool.
From Verif Require Import Util AvlModel AvlTree.
Import ListNotations.

Section Rot.
  Context {X : Type}.
  Notation st := (st X).

  (** fields other than child, weight and root are unchanged *)
  Definition rest (s s' : st) : Prop :=
    dr s' = dr s /\ el s' = el s /\ al s' = al s /\ sz s' = sz s /\ fr s' = fr s.

  Lemma rotate_2_spec (s : st) l d p n : rl s l = Some p -> ch s p d = n -> al s p = true -> al s n = true -> p <> n ->
    (forall e, l <> Lch p e) -> (forall e, l <> Lch n e) -> (forall q e, l = Lch q e -> al s q = true) ->
    exists s', rotate_2node s l d = Some s' /\ rest s s'
      /\ (forall q, wt s' q = if (Nat.eqb q p || Nat.eqb q n) then None else wt s q)
      /\ ch s' p d = ch s n (opp d) /\ ch s' p (opp d) = ch s p (opp d)
      /\ ch s' n d = ch s n d /\ ch s' n (opp d) = p
      /\ chs l (fun q => q = p \/ q = n) s s' /\ rl s' l = Some n.
  Proof.
    intros Hl Hn Ap An Hpn Lp Ln La.
    unfold rotate_2node. rewrite Hl. cbn [obind]. unfold rc at 1. rewrite Ap, Hn. cbn [obind].
    unfold rc at 1. rewrite An. cbn [obind]. unfold wc at 1. rewrite Ap. cbn [obind].
    unfold wc at 1. cbn [al set_ch]. rewrite An. cbn [obind]. unfold ww at 1. cbn [al set_ch]. rewrite Ap. cbn [obind].
    assert (W : exists s', wl (set_wt (set_ch (set_ch s p d (ch s n (opp d))) n (opp d) p) p None) l n = Some s'
       /\ s' = match l with
               | Lroot => set_rt (set_wt (set_ch (set_ch s p d (ch s n (opp d))) n (opp d) p) p None) n
               | Lch q e => set_ch (set_wt (set_ch (set_ch s p d (ch s n (opp d))) n (opp d) p) p None) q e n end).
    { destruct l as [|q e]; cbn [wl]; [eauto|]. unfold wc. cbn [al set_wt set_ch]. rewrite (La q e eq_refl). eauto. }
    destruct W as (s1 & W & E1). rewrite W. cbn [obind]. unfold ww. 
    assert (A1 : al s1 n = true) by (rewrite E1; destruct l; exact An). rewrite A1.
    eexists. split; [reflexivity|]. subst s1.
    destruct l as [|q0 e0].
    - unfold rest, chs. cbn [set_wt set_ch set_rt ch wt dr el al sz fr rt rl]. unfold cupd, fupd.
      repeat split; auto.
      + intros q. destruct (Nat.eqb_spec q n), (Nat.eqb_spec q p); cbn; auto.
      + rewrite (proj2 (Nat.eqb_neq p n)), Nat.eqb_refl, side_eqb_refl by auto. reflexivity.
      + rewrite (proj2 (Nat.eqb_neq p n)), Nat.eqb_refl by auto. destruct d; reflexivity.
      + rewrite Nat.eqb_refl, (proj2 (Nat.eqb_neq n p)) by auto. destruct d; reflexivity.
      + rewrite Nat.eqb_refl. now destruct d.
      + intros q e Hq _. destruct (Nat.eqb_spec q n), (Nat.eqb_spec q p); cbn; tauto.
      + intros H; congruence.
    - assert (Hqp : q0 <> p) by (intros ->; exact (Lp e0 eq_refl)).
      assert (Hqn : q0 <> n) by (intros ->; exact (Ln e0 eq_refl)).
      unfold rest, chs. unfold rl, rc. cbn [set_wt set_ch set_rt ch wt dr el al sz fr rt]. unfold cupd, fupd.
      repeat split; auto.
      + intros q. destruct (Nat.eqb_spec q n), (Nat.eqb_spec q p); cbn; auto.
      + rewrite (proj2 (Nat.eqb_neq p q0)), (proj2 (Nat.eqb_neq p n)), Nat.eqb_refl, side_eqb_refl by auto. reflexivity.
      + rewrite (proj2 (Nat.eqb_neq p q0)), (proj2 (Nat.eqb_neq p n)), Nat.eqb_refl by auto. destruct d; reflexivity.
      + rewrite (proj2 (Nat.eqb_neq n q0)), Nat.eqb_refl, (proj2 (Nat.eqb_neq n p)) by auto. destruct d; reflexivity.
      + rewrite (proj2 (Nat.eqb_neq n q0)), Nat.eqb_refl by auto. now destruct d.
      + intros q e Hq He. destruct (Nat.eqb_spec q q0), (Nat.eqb_spec q n), (Nat.eqb_spec q p); cbn; try tauto.
        subst q0. destruct e, e0; cbn; auto; exfalso; apply He; reflexivity.
      + rewrite (La q0 e0 eq_refl), Nat.eqb_refl, side_eqb_refl. reflexivity.
  Qed.

  Lemma rotate_3_spec (s : st) l d third p c g : rl s l = Some p -> ch s p d = c -> ch s c (opp d) = g ->
    al s p = true -> al s c = true -> al s g = true -> p <> c -> p <> g -> c <> g ->
    (forall e, l <> Lch p e) -> (forall e, l <> Lch c e) -> (forall e, l <> Lch g e) -> (forall q e, l = Lch q e -> al s q = true) ->
    exists s', rotate_3node s l d third = Some s' /\ rest s s'
      /\ (forall q, wt s' q = if Nat.eqb q g then None
                              else if Nat.eqb q p then (if oside_eqb third (Some d) then Some (opp d) else None)
                              else if Nat.eqb q c then (if oside_eqb third (Some (opp d)) then Some d else None)
                              else wt s q)
      /\ ch s' p d = ch s g (opp d) /\ ch s' p (opp d) = ch s p (opp d)
      /\ ch s' c (opp d) = ch s g d /\ ch s' c d = ch s c d
      /\ ch s' g d = c /\ ch s' g (opp d) = p
      /\ chs l (fun q => q = p \/ q = c \/ q = g) s s' /\ rl s' l = Some g.
  Proof.
    intros Hl Hc Hg Ap Ac Ag Hpc Hpg Hcg Lp Lc Lg La.
    unfold rotate_3node. rewrite Hl. cbn [obind]. unfold rc at 1. rewrite Ap, Hc. cbn [obind].
    unfold rc at 1. rewrite Ac, Hg. cbn [obind].
    set (tc := match third with Some t => if side_eqb t d then None else Some d | None => None end).
    set (tp := match third with Some t => if side_eqb t d then Some (opp d) else None | None => None end).
    unfold ww at 1. rewrite Ac. cbn [obind].
    unfold rc at 1. cbn [al set_wt]. rewrite Ag. cbn [obind ch set_wt].
    unfold wc at 1. cbn [al set_wt]. rewrite Ac. cbn [obind].
    unfold wc at 1. cbn [al set_wt set_ch]. rewrite Ag. cbn [obind].
    unfold ww at 1. cbn [al set_wt set_ch]. rewrite Ap. cbn [obind].
    unfold rc at 1. cbn [al set_wt set_ch]. rewrite Ag. cbn [obind].
    set (y := ch _ g (opp d)).
    assert (Ey : y = ch s g (opp d)).
    { unfold y. cbn [set_wt set_ch ch]. unfold cupd. rewrite Nat.eqb_refl, side_eqb_opp', (proj2 (Nat.eqb_neq g c)) by auto. reflexivity. }
    clearbody y. subst y.
    unfold wc at 1. cbn [al set_wt set_ch]. rewrite Ap. cbn [obind].
    unfold wc at 1. cbn [al set_wt set_ch]. rewrite Ag. cbn [obind].
    match goal with |- context [wl ?z l g] => set (s0 := z) end.
    assert (W : exists s', wl s0 l g = Some s' /\ s' = match l with Lroot => set_rt s0 g | Lch q e => set_ch s0 q e g end).
    { destruct l as [|q e]; cbn [wl]; [eauto|]. unfold wc. change (al s0) with (al s). rewrite (La q e eq_refl). eauto. }
    destruct W as (s1 & W & E1). rewrite W. cbn [obind]. unfold ww.
    assert (A1 : al s1 g = true) by (rewrite E1; destruct l; exact Ag). rewrite A1.
    eexists. split; [reflexivity|]. subst s1. unfold s0. clear s0 W A1.
    assert (Htp : tp = if oside_eqb third (Some d) then Some (opp d) else None).
    { unfold tp. destruct third as [[]|], d; reflexivity. }
    assert (Htc : tc = if oside_eqb third (Some (opp d)) then Some d else None).
    { unfold tc. destruct third as [[]|], d; reflexivity. }
    rewrite <- Htp, <- Htc. clearbody tp tc. clear Htp Htc.
    assert (N1 := Hpc). assert (N2 := Hpg). assert (N3 := Hcg).
    assert (N4 := not_eq_sym Hpc). assert (N5 := not_eq_sym Hpg). assert (N6 := not_eq_sym Hcg).
    apply Nat.eqb_neq in N1, N2, N3, N4, N5, N6.
    destruct l as [|q0 e0].
    - unfold rest, chs. cbn [set_wt set_ch set_rt ch wt dr el al sz fr rt rl]. unfold cupd, fupd.
      repeat split; auto; rewrite ?Nat.eqb_refl, ?N1, ?N2, ?N3, ?N4, ?N5, ?N6, ?side_eqb_refl, ?side_eqb_opp, ?side_eqb_opp'; cbn; auto.
      + intros q e Hq _.
        assert (Nat.eqb q p = false /\ Nat.eqb q c = false /\ Nat.eqb q g = false) as (-> & -> & ->)
          by (repeat split; apply Nat.eqb_neq; tauto). reflexivity.
      + intros H; congruence.
    - assert (Hqp : q0 <> p) by (intros ->; exact (Lp e0 eq_refl)).
      assert (Hqc : q0 <> c) by (intros ->; exact (Lc e0 eq_refl)).
      assert (Hqg : q0 <> g) by (intros ->; exact (Lg e0 eq_refl)).
      assert (M1 := not_eq_sym Hqp). assert (M2 := not_eq_sym Hqc). assert (M3 := not_eq_sym Hqg).
      apply Nat.eqb_neq in M1, M2, M3.
      unfold rest, chs. unfold rl, rc. cbn [set_wt set_ch set_rt ch wt dr el al sz fr rt]. unfold cupd, fupd.
      repeat split; auto; rewrite ?Nat.eqb_refl, ?M1, ?M2, ?M3, ?N1, ?N2, ?N3, ?N4, ?N5, ?N6, ?side_eqb_refl, ?side_eqb_opp, ?side_eqb_opp'; cbn; auto.
      + intros q e Hq He.
        assert (Nat.eqb q p = false /\ Nat.eqb q c = false /\ Nat.eqb q g = false) as (-> & -> & ->)
          by (repeat split; apply Nat.eqb_neq; tauto).
        destruct (Nat.eqb_spec q q0); cbn; auto. subst q0. destruct e, e0; cbn; auto; exfalso; apply He; reflexivity.
      + rewrite (La q0 e0 eq_refl). reflexivity.
  Qed.

  Lemma locof_not (C : ctx) q : ~ In q (cadr C) -> forall e, locof C <> Lch q e.
  Proof.
    intros H e. destruct C as [|[[d p] b] C]; cbn [locof]; [discriminate|]. intros [= -> ->]. apply H. apply In_cadr_cons; auto.
  Qed.
  Lemma locof_al (s : st) C x : repc s C x -> forall q e, locof C = Lch q e -> al s q = true.
  Proof. intros H q e. destruct C as [|[[d p] b] C]; cbn [locof]; [discriminate|]. intros [= -> ->]. apply H. Qed.

  (** rotations of a subtree in its context *)
  Lemma rotate_2_tree (s : st) C d p n a b c x : repc s C x -> rep s x (nd d p (nd d n a b) c) ->
    NoDup (ino (plug C (nd d p (nd d n a b) c))) ->
    exists s', rotate_2node s (locof C) d = Some s' /\ rest s s' /\ x = p
      /\ (forall q, wt s' q = if (Nat.eqb q p || Nat.eqb q n) then None else wt s q)
      /\ repc s' C n /\ rep s' n (nd d n a (nd d p b c))
      /\ ch s' p d = ch s n (opp d).
  Proof.
    intros HC HR HN. apply NoDup_plug in HN. destruct HN as (HN & HNC & HD).
    apply rep_nd in HR. destruct HR as (-> & Ap & HR1 & Hc).
    pose proof HR1 as HR1'. apply rep_nd in HR1'. destruct HR1' as (En & An & Ha & Hb).
    apply NoDup_nd in HN. destruct HN as (Np1 & Np2 & HN1 & Nc & D1).
    apply NoDup_nd in HN1. destruct HN1 as (Nn1 & Nn2 & Na & Nb & D2).
    assert (Hpn : p <> n) by (intros ->; apply Np1; apply In_nd; auto).
    assert (Kp : ~ In p (cadr C)) by (intros H; apply (HD p); [apply In_nd; auto|auto]).
    assert (Kn : ~ In n (cadr C)) by (intros H; apply (HD n); [apply In_nd; right; left; apply In_nd; auto|auto]).
    destruct (rotate_2_spec s (locof C) d p n (rl_locof s C p HC) En Ap An Hpn (locof_not C p Kp) (locof_not C n Kn) (locof_al s C p HC))
      as (s' & E' & Hr & Hw & C1 & C2 & C3 & C4 & Hchs & Hl).
    assert (Hal : al s' = al s) by apply Hr.
    exists s'. repeat split; auto; try (apply Hr).
    - eapply repc_move; [exact HC|exact HNC|exact Hchs| |exact Hl]. intros q [->| ->]; auto.
    - assert (M : forall t y, rep s y t -> ~ In p (ino t) -> ~ In n (ino t) -> disj (ino t) (cadr C) -> rep s' y t).
      { intros t y Ht H1 H2 H3. eapply rep_move; [exact Ht|exact Hchs| |exact H3]. intros q Hq [->| ->]; auto. }
      rewrite In_nd in Np1.
      apply rep_nd. rewrite Hal, C3, C4. repeat split; auto.
      + apply M; auto; [intros q Hq Hq2; apply (HD q); auto; rewrite !In_nd; auto].
      + apply rep_nd. rewrite Hal, C1, C2. repeat split; auto.
        * apply M; auto; [intros q Hq Hq2; apply (HD q); auto; rewrite !In_nd; auto].
        * apply M; auto; [intros H; apply (D1 n); auto; apply In_nd; auto|intros q Hq Hq2; apply (HD q); auto; rewrite !In_nd; auto].
  Qed.
  Lemma rotate_3_tree (s : st) C d third p c g a1 a2 b' b x : repc s C x ->
    rep s x (nd d p (nd (opp d) c (nd d g a1 a2) b') b) ->
    NoDup (ino (plug C (nd d p (nd (opp d) c (nd d g a1 a2) b') b))) ->
    exists s', rotate_3node s (locof C) d third = Some s' /\ rest s s' /\ x = p
      /\ (forall q, wt s' q = if Nat.eqb q g then None
                              else if Nat.eqb q p then (if oside_eqb third (Some d) then Some (opp d) else None)
                              else if Nat.eqb q c then (if oside_eqb third (Some (opp d)) then Some d else None)
                              else wt s q)
      /\ repc s' C g /\ rep s' g (nd d g (nd (opp d) c a1 b') (nd d p a2 b)).
  Proof.
    intros HC HR HN. apply NoDup_plug in HN. destruct HN as (HN & HNC & HD).
    apply rep_nd in HR. destruct HR as (-> & Ap & HR1 & Hb).
    apply rep_nd in HR1. rewrite opp_opp in HR1. destruct HR1 as (Ec & Ac & HR2 & Hb').
    apply rep_nd in HR2. destruct HR2 as (Eg & Ag & Ha1 & Ha2).
    apply NoDup_nd in HN. destruct HN as (Np1 & Np2 & HN1 & Nb & D1).
    apply NoDup_nd in HN1. destruct HN1 as (Nc1 & Nc2 & HN2 & Nb' & D2).
    apply NoDup_nd in HN2. destruct HN2 as (Ng1 & Ng2 & Na1 & Na2 & D3).
    rewrite In_nd, In_nd in Np1. rewrite In_nd in Nc1.
    assert (Hpc : p <> c) by tauto. assert (Hpg : p <> g) by tauto. assert (Hcg : c <> g) by tauto.
    assert (HD' : forall q, q = p \/ q = c \/ q = g \/ In q (ino a1) \/ In q (ino a2) \/ In q (ino b') \/ In q (ino b) -> ~ In q (cadr C)).
    { intros q Hq Hq2. apply (HD q); auto. rewrite !In_nd. tauto. }
    destruct (rotate_3_spec s (locof C) d third p c g (rl_locof s C p HC) Ec Eg Ap Ac Ag Hpc Hpg Hcg) as (s' & E' & Hr & Hw & C1 & C2 & C3 & C4 & C5 & C6 & Hchs & Hl);
      try (apply locof_not; apply HD'; tauto); [exact (locof_al s C p HC)|].
    assert (Hal : al s' = al s) by apply Hr.
    exists s'. repeat split; auto; try (apply Hr).
    - eapply repc_move; [exact HC|exact HNC|exact Hchs| |exact Hl]. intros q [->|[->| ->]]; apply HD'; tauto.
    - assert (M : forall t y, rep s y t -> ~ In p (ino t) -> ~ In c (ino t) -> ~ In g (ino t) -> (forall q, In q (ino t) -> ~ In q (cadr C)) -> rep s' y t).
      { intros t y Ht H1 H2 H3 H4. eapply rep_move; [exact Ht|exact Hchs| |exact H4]. intros q Hq [->|[->| ->]]; auto. }
      apply rep_nd. rewrite Hal, C5, C6. repeat split; auto.
      + apply rep_nd. rewrite opp_opp, Hal, C3, C4. repeat split; auto.
        * apply M; auto; try tauto. intros q Hq; apply HD'; tauto.
        * apply M; auto; try tauto. { intros H. apply (D2 g); auto. apply In_nd; auto. } { intros q Hq; apply HD'; tauto. }
      + apply rep_nd. rewrite Hal, C1, C2. repeat split; auto.
        * apply M; auto; try tauto. intros q Hq; apply HD'; tauto.
        * apply M; auto; try tauto.
          { intros H. apply (D1 c); auto. apply In_nd; auto. }
          { intros H. apply (D1 g); auto. rewrite In_nd, In_nd. auto. }
          { intros q Hq; apply HD'; tauto. }
  Qed.
End Rot.
