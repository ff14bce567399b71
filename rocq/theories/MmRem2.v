(** * Removal from the balanced tree of multimap/multiset: remove_node (proof support for C51) *)
From Coq Require Import List Arith Lia Bool.
From Verif Require Import Util SortSpec HeapProofs AvlModel AvlTree AvlRot AvlIns AvlDel AvlRem AvlFind MmModel MmTree MmIns MmDel MmRem.
Import ListNotations.

Definition hdy (A : ctx) (y : nat) : nat := match A with [] => y | f :: _ => fad f end.
Fixpoint prepcy (g : par) (A : ctx) (y : nat) : Prop :=
  match A with [] => True | (d, p, b) :: A' => g p = hdy A' y /\ prep g p b /\ prepcy g A' y end.
Lemma prep_plugy g y A : forall t, prep g y (plug A t) <-> prep g (hdy A y) t /\ prepcy g A y.
Proof.
  induction A as [|[[d p] b] A IH]; intros t; cbn [plug prepcy hdy]; [tauto|]. rewrite IH, prep_nd. cbn. tauto.
Qed.
Lemma prepcy_ext g g' A y : (forall q, In q (cadr A) -> g' q = g q) -> prepcy g A y -> prepcy g' A y.
Proof.
  induction A as [|[[d p] b] A IH]; cbn [prepcy]; auto. intros H (H1 & H2 & H3).
  rewrite H by (apply In_cadr_cons; auto). repeat split; auto.
  - eapply prep_ext; [|exact H2]. intros; apply H; apply In_cadr_cons; auto.
  - apply IH; auto. intros; apply H; apply In_cadr_cons; auto.
Qed.
Lemma prep_sub g g1 A y dT r q : prep g y (plug A (nd dT r E q)) -> NoDup (ino (plug A (nd dT r E q))) ->
  (q <> E -> g1 (root q) = g r) -> (forall z, z <> root q \/ q = E -> In z (ino (plug A q)) -> g1 z = g z) -> prep g1 y (plug A q).
Proof.
  intros HP HN Hq Hz. apply prep_plugy in HP. destruct HP as [HP HC]. apply prep_nd in HP. destruct HP as (Gr & _ & HP).
  apply NoDup_plug in HN. destruct HN as (HN1 & _ & HD). apply NoDup_nd in HN1. destruct HN1 as (_ & _ & _ & Nq & _).
  apply prep_plugy. split.
  - eapply prep_hang; [exact HP|exact Nq| |].
    + intros z Iz Hr. apply Hz; auto. apply In_plug. auto.
    + intros Hn. rewrite Hq; auto.
  - eapply prepcy_ext; [|exact HC]. intros z Iz. apply Hz; [|apply In_plug; auto].
    destruct q as [|q1 p q2]; [auto|]. left. intros ->. apply (HD p); [apply In_nd; right; right; cbn; rewrite in_app_iff; cbn; auto|exact Iz].
Qed.

Section Rem.
  Context {X K : Type}.
  Variable key : X -> K.
  Variable lt : K -> K -> bool.
  Hypothesis O : strict_weak_order lt.
  Notation st := (st X).
  Notation K_of := (K_of key).
  Notation mwf := (mwf key lt).

  (** taking the node [f] out: the parents *)
  Lemma mdetach_ok (s : st) g C r dT q f : po s g (plug C (nd dT r E q)) -> repc s C r -> rep s r (nd dT r E q) -> dr s r = Some dT ->
    balc (wt s) C (hgt q) -> bal (wt s) q -> drs s C -> MTR C r dT q f ->
    exists s' g' t' l1 l2, (let? fp := rp s g f in let? np := rp s g r in
        if negb (Nat.eqb fp 0) then
          let? df := ri s fp in
          let? dn := ri s np in
          mdetach_node s g (Lch fp df) (Lch np dn)
        else if negb (Nat.eqb np 0) then
          let? dn := ri s np in
          mdetach_node s g Lroot (Lch np dn)
        else mdetach_node s g Lroot Lroot) = Some (s', g') /\
      rep s' (rt s') t' /\ bal (wt s') t' /\ prep g' 0 t' /\ ino (plug C (nd dT r E q)) = l1 ++ f :: l2 /\ ino t' = l1 ++ l2 /\ rest s s'.
  Proof.
    intros HPO HC HR Hd HBC HBq HdC HM. pose proof (po_null _ _ _ HPO) as H0. pose proof (po_nd _ _ _ HPO) as HN.
    pose proof (proj1 (rep_nd _ _ _ _ _ _) HR) as (_ & Ar & _ & HRq).
    pose proof (proj1 (prep_plug _ _ _) (po_prep _ _ _ HPO)) as (HP1 & HP2). apply prep_nd in HP1. destruct HP1 as (Gr & _ & HPq).
    pose proof (proj1 (NoDup_plug _ _) HN) as (HN1 & HNC & HD). pose proof (proj1 (NoDup_nd _ _ _ _) HN1) as (_ & Nrq & _ & Nq & _).
    assert (Irc : ~ In r (cadr C)) by (intros Hx; apply (HD r); auto; apply In_nd; auto).
    unfold rp. rewrite Ar, Gr.
    destruct HM as [(A & df & o & B & -> & HA & HdT)|(-> & ->)].
    - (* another node takes its place *)
      set (C := A ++ (df, f, o) :: B) in *.
      assert (EP : plug C (nd dT r E q) = plug B (nd df f (plug A (nd dT r E q)) o)) by (unfold C; now rewrite plug_app).
      pose proof HN as HNe. rewrite EP in HNe. pose proof (po_prep _ _ _ HPO) as HPe. rewrite EP in HPe.
      apply prep_plug in HPe. destruct HPe as (HPe & HPB). apply prep_nd in HPe. destruct HPe as (Gf & HPA & HPo).
      apply NoDup_plug in HNe. destruct HNe as (HNe & NB & HDe). apply NoDup_nd in HNe. destruct HNe as (Nf1 & Nf2 & NA & No & DAo).
      assert (If : In f (cadr C)) by (unfold C; apply In_cadr_app; right; apply In_cadr_cons; auto).
      assert (Af : al s f = true) by (eapply repc_al; eauto).
      rewrite Af, Gf. cbn [obind].
      assert (HB : repc s B f). { unfold C in HC. apply repc_seg in HC. destruct HC as (y & HC & _). cbn [repc] in HC. tauto. }
      assert (Hnp : hda C <> 0 /\ ri s (hda C) = Some (match locof C with Lch _ e => e | _ => L end) /\ locof C = Lch (hda C) (match locof C with Lch _ e => e | _ => L end)).
      { clearbody C. destruct C as [|[[d1 p1] b1] C]; [destruct If|]. cbn [repc] in HC. destruct HC as (_ & Ap & _). cbn [hda fad fst snd locof].
        split; [congruence|]. split; auto. unfold ri. rewrite Ap. apply (HdC (d1, p1, b1)). cbn. auto. }
      destruct Hnp as (Hnp & En & EL).
      assert (SEL : forall (Y : Type) (M : loc -> loc -> option Y), (if negb (hda B =? 0) then let? df0 := ri s (hda B) in let? dn := ri s (hda C) in M (Lch (hda B) df0) (Lch (hda C) dn)
                else if negb (hda C =? 0) then let? dn := ri s (hda C) in M Lroot (Lch (hda C) dn) else M Lroot Lroot) = M (locof B) (locof C)).
      { intros Y M. rewrite En. cbn [obind]. rewrite <- EL. destruct (Nat.eqb_spec (hda C) 0); [congruence|]. cbn [negb].
        destruct B as [|[[d1 p1] b1] B]; [reflexivity|]. cbn [repc] in HB. destruct HB as (_ & Ap & _). cbn [hda fad fst snd locof].
        destruct (Nat.eqb_spec p1 0); [congruence|]. cbn [negb]. unfold ri. rewrite Ap.
        assert (Dp : dr s p1 = Some d1) by (apply (HdC (d1, p1, b1)); unfold C; rewrite in_app_iff; cbn; auto). rewrite Dp. reflexivity. }
      rewrite (SEL (st * par)%type (mdetach_node s g)).
      destruct (detach_other s A df f o B r dT q H0 HC HR Hd HN) as (s3 & x & E3 & RC & RR & W3 & R3). fold C in E3.
      assert (RT3 : rep s3 (rt s3) (plug B (nd df r (plug A q) o))).
      { replace (plug B (nd df r (plug A q) o)) with (plug (A ++ (df, r, o) :: B) q) by (now rewrite plug_app). eapply repc_rep; eauto. }
      pose proof (proj1 (rep_plug _ _ _) RT3) as (y & RB3 & RN3). pose proof (proj1 (rep_nd _ _ _ _ _ _) RN3) as (-> & Ar3 & RA3 & RO3).
      pose proof R3 as (D3 & E3' & A3 & Z3 & F3).
      assert (A30 : al s3 0 = false) by congruence.
      assert (Xq : ch s r (opp dT) = root q) by (exact (rep_root0 _ _ _ HRq)).
      assert (Xa : ch s3 r df = root (plug A q)) by (exact (rep_root0 _ _ _ RA3)).
      assert (Xo : ch s3 r (opp df) = root o) by (exact (rep_root0 _ _ _ RO3)).
      assert (Isub : forall z, In z (ino (plug A q)) -> In z (ino (plug A (nd dT r E q)))).
      { intros z Hz. apply In_plug in Hz. apply In_plug. rewrite In_nd. tauto. }
      assert (Nrf : r <> f) by (intros ->; auto).
      assert (NrA : ~ In r (ino (plug A q))).
      { intros Hz. apply In_plug in Hz. destruct Hz as [Hz|Hz]; [auto|]. apply Irc. unfold C. apply In_cadr_app. auto. }
      assert (Nro : ~ In r (ino o)) by (intros Hz; apply Irc; unfold C; apply In_cadr_app; right; apply In_cadr_cons; auto).
      assert (NrB : ~ In r (cadr B)) by (intros Hz; apply Irc; unfold C; apply In_cadr_app; right; apply In_cadr_cons; auto).
      assert (Alr : forall t, (forall z, In z (ino t) -> al s z = true) -> root t <> 0 -> al s (root t) = true).
      { intros t Ht Hr0. destruct t; cbn in *; [congruence|]. apply Ht. rewrite in_app_iff. cbn. auto. }
      assert (AlA : forall z, In z (ino (plug A q)) -> al s z = true) by (intros z Hz; rewrite <- A3; exact (rep_al _ _ _ _ RA3 Hz)).
      assert (Alo : forall z, In z (ino o) -> al s z = true) by (intros z Hz; rewrite <- A3; exact (rep_al _ _ _ _ RO3 Hz)).
      erewrite (mdetach_base s s3 g (locof B) (locof C) f r dT (root q)); [|apply rl_locof; auto|apply rl_locof; auto|exact E3|exact Hd| | |].
      2:{ intros s1 E1. destruct (wl_ok s (locof B) r) as (s1' & E1' & C1 & _); [intros z e Hz; eapply locof_al; eauto|]. rewrite E1 in E1'. injection E1' as <-.
          rewrite C1; auto. intros Hx. symmetry in Hx. now apply locof_not in Hx. }
      2:{ apply Alr. intros z Hz. apply (rep_al s _ q z HRq Hz). }
      2:{ intros e. destruct (side_cases df e) as [->| ->]; [rewrite Xa|rewrite Xo]; now apply Alr. }
      set (g3 := gset (gset _ _ r) _ r).
      assert (G3 : forall z, z <> 0 -> g3 z = if Nat.eqb z (root (plug A q)) || Nat.eqb z (root o) then r else if Nat.eqb z r then g f else if Nat.eqb z (root q) then g r else g z).
      { intros z Hz. assert (Gs : forall (h : par) x p, gset h x p z = if Nat.eqb z x then p else h z).
        { intros h x0 p. destruct (Nat.eqb_spec z x0); [subst; now apply gset_eq|now apply gset_ne]. }
        unfold g3. rewrite !Gs.
        assert (Fx : gset g (root q) (g r) f = g f).
        { apply gset_ne. intros Hf. destruct q as [|q1 p0 q2]; cbn in Hf; [congruence|]. subst p0. apply (HD f); auto. apply In_nd. right. right. cbn. rewrite in_app_iff. cbn. auto. }
        rewrite Fx. unfold fupd. rewrite Gs. destruct df; cbn [opp] in Xa, Xo; rewrite Xa, Xo;
          destruct (Nat.eqb z (root (plug A q))), (Nat.eqb z (root o)); reflexivity. }
      assert (rootnz : forall t y0, In y0 (ino t) -> al s y0 = true -> y0 <> 0) by (intros t y0 _ Ha ->; congruence).
      assert (Neq : forall t1 z, z <> 0 -> ~ In z (ino t1) -> z <> root t1).
      { intros t1 z Hz Hi ->. apply Hi. apply root_in. intros ->. now apply Hz. }
      eexists s3, g3, (plug B (nd df r (plug A q) o)).
      assert (LL : exists l1 l2, ino (plug C (nd dT r E q)) = l1 ++ f :: l2 /\ ino (plug B (nd df r (plug A q) o)) = l1 ++ l2).
      { rewrite EP. rewrite !(ino_plug B).
        assert (SP : match df with L => post A = [] | R => pre A = [] end).
        { clear - HA. induction A as [|[[d1 p1] b1] A IH]; [now destruct df|].
          specialize (IH (fun g H => HA g (or_intror H))). pose proof (HA _ (or_introl eq_refl)) as Hs. cbn in Hs. subst d1.
          destruct df; cbn; rewrite IH; reflexivity. }
        assert (EA : ino (plug A (nd dT r E q)) = match df with L => ino (plug A q) ++ [r] | R => r :: ino (plug A q) end).
        { rewrite !ino_plug. destruct df; rewrite SP; cbn [app]; destruct HdT as [->| ->]; cbn [opp nd ino app]; rewrite ?app_nil_r, <- ?app_assoc; cbn; rewrite ?app_nil_r; auto; destruct dT; cbn; auto. }
        destruct df; cbn [nd ino]; rewrite EA.
        - exists (pre B ++ ino (plug A q) ++ [r]), (ino o ++ post B). rewrite <- !app_assoc. cbn. rewrite <- ?app_assoc. auto.
        - exists (pre B ++ ino o), (r :: ino (plug A q) ++ post B). rewrite <- !app_assoc. cbn. rewrite <- ?app_assoc. auto. }
      destruct LL as (l1 & l2 & L1 & L2). exists l1, l2. split; [reflexivity|]. split; [exact RT3|]. split; [|split; [|auto]].
      + replace (plug B (nd df r (plug A q) o)) with (plug (A ++ (df, r, o) :: B) q) by (now rewrite plug_app).
        apply bal_plug. assert (Wz : forall z, z <> r -> wt s3 z = wt s z) by (intros z Hz; rewrite W3; destruct (Nat.eqb_spec z r); congruence).
        assert (Wr : wt s3 r = wt s f) by (rewrite W3, Nat.eqb_refl; auto).
        split; [eapply bal_ext; [|exact HBq]; intros z Hz; apply Wz; congruence|].
        unfold C in HBC. apply balc_app in HBC. destruct HBC as [G3a G3b]. cbn [balc] in G3b. destruct G3b as (G3b & G3c & G3d).
        unfold C in Irc. rewrite In_cadr_app, In_cadr_cons in Irc.
        apply balc_app. split; [eapply balc_ext; [|exact G3a]; intros z Hz; apply Wz; intros ->; tauto|].
        cbn [balc]. rewrite Wr. split; [|split; auto].
        * eapply bal_ext; [|exact G3b]. intros z Hz; apply Wz; intros ->; tauto.
        * eapply balc_ext; [|exact G3d]. intros z Hz; apply Wz; intros ->; tauto.
      + assert (AlB : forall z, In z (cadr B) -> al s z = true) by (intros z Hz; eapply repc_al; [exact HB|auto]).
        assert (IqA : forall z, In z (ino q) -> In z (ino (plug A q))) by (intros z Hz; apply In_plug; auto).
        apply prep_plug. split.
        * apply prep_nd. split; [|split].
          -- rewrite G3 by congruence. assert (r <> root (plug A q)) by (apply Neq; auto; congruence). assert (r <> root o) by (apply Neq; auto; congruence).
             destruct (Nat.eqb_spec r (root (plug A q))); [congruence|]. destruct (Nat.eqb_spec r (root o)); [congruence|]. cbn [orb]. rewrite Nat.eqb_refl. exact Gf.
          -- set (g1 := fun z => if Nat.eqb z (root q) then g r else g z).
             assert (P1 : prep g1 f (plug A q)).
             { eapply prep_sub; [exact HPA|exact NA| |].
               - intros _. unfold g1. now rewrite Nat.eqb_refl.
               - intros z Hz Iz. unfold g1. destruct (Nat.eqb_spec z (root q)); auto. destruct Hz as [Hz| ->]; [congruence|]. cbn in e. subst z. apply AlA in Iz. congruence. }
             eapply prep_hang; [exact P1| | |].
             ++ apply NoDup_plug in NA. destruct NA as (NA1 & NA2 & NA3). apply NoDup_plug. split; auto. split; auto. intros z Hz Hc. apply (NA3 z); auto. apply In_nd. auto.
             ++ intros z Iz Hz. assert (Hz0 : z <> 0) by (intros ->; apply AlA in Iz; congruence). rewrite G3 by auto. unfold g1. destruct (Nat.eqb_spec z (root (plug A q))); [congruence|].
                destruct (Nat.eqb_spec z (root o)).
                { exfalso. apply (DAo z); auto. subst z. apply root_in. intros ->. now apply Hz0. }
                cbn [orb]. destruct (Nat.eqb_spec z r); [congruence|]. reflexivity.
             ++ intros Ha. assert (Hz0 : root (plug A q) <> 0) by (intros Hz0; pose proof (root_in _ Ha) as Hi; apply AlA in Hi; rewrite Hz0 in Hi; congruence).
                rewrite G3 by auto. now rewrite Nat.eqb_refl.
          -- eapply prep_hang; [exact HPo|exact No| |].
             ++ intros z Iz Hz. assert (Hz0 : z <> 0) by (intros ->; apply Alo in Iz; congruence). rewrite G3 by auto. destruct (Nat.eqb_spec z (root (plug A q))).
                { exfalso. apply (DAo z); auto. apply Isub. subst z. apply root_in. intros Ha. rewrite Ha in Hz0. now apply Hz0. }
                destruct (Nat.eqb_spec z (root o)); [congruence|]. cbn [orb]. destruct (Nat.eqb_spec z r); [congruence|].
                destruct (Nat.eqb_spec z (root q)); auto. exfalso. apply (DAo z); auto. apply Isub, IqA. subst z. apply root_in. intros ->. now apply Hz0.
             ++ intros Ha. assert (Hz0 : root o <> 0) by (intros Hz0; pose proof (root_in _ Ha) as Hi; apply Alo in Hi; rewrite Hz0 in Hi; congruence).
                rewrite G3 by auto. now rewrite Nat.eqb_refl, orb_true_r.
        * eapply prepc_ext; [|exact HPB]. intros z Iz. assert (Hz0 : z <> 0) by (intros ->; apply AlB in Iz; congruence). rewrite G3 by auto.
          assert (NI : forall t1, (forall w, In w (ino t1) -> In w (ino (nd df f (plug A (nd dT r E q)) o))) -> z <> root t1).
          { intros t1 Ht. apply Neq; auto. intros Hi. apply (HDe z); auto. }
          destruct (Nat.eqb_spec z (root (plug A q))); [exfalso; revert e; apply NI; intros; apply In_nd; auto|].
          destruct (Nat.eqb_spec z (root o)); [exfalso; revert e; apply NI; intros; apply In_nd; auto|]. cbn [orb].
          destruct (Nat.eqb_spec z r); [congruence|]. destruct (Nat.eqb_spec z (root q)); [exfalso; revert e; apply NI; intros; apply In_nd; auto|]. reflexivity.
    - (* a leaf *)
      rewrite Ar. cbn [obind]. rewrite Gr.
      assert (SEL : forall (Y : Type) (M : loc -> loc -> option Y), (if negb (hda C =? 0) then let? df0 := ri s (hda C) in let? dn := ri s (hda C) in M (Lch (hda C) df0) (Lch (hda C) dn)
                else if negb (hda C =? 0) then let? dn := ri s (hda C) in M Lroot (Lch (hda C) dn) else M Lroot Lroot) = M (locof C) (locof C)).
      { intros Y M. destruct C as [|[[d1 p1] b1] C]; [reflexivity|]. cbn [repc] in HC. destruct HC as (_ & Ap & _). cbn [hda fad fst snd locof].
        destruct (Nat.eqb_spec p1 0); [congruence|]. cbn [negb]. unfold ri. rewrite Ap.
        assert (Dp : dr s p1 = Some d1) by (apply (HdC (d1, p1, b1)); cbn; auto). rewrite Dp. reflexivity. }
      rewrite (SEL (st * par)%type (mdetach_node s g)).
      destruct (detach_same s C r dT E HC HR Hd HN) as (s3 & x & E3 & RC & RR & CH & W3 & R3).
      pose proof R3 as (D3 & E3' & A3 & Z3 & F3).
      assert (C0 : forall e, ch s r e = 0) by (intros e; cbn in HRq; pose proof (proj1 (rep_nd _ _ _ _ _ _) HR) as (_ & _ & HRe & _); cbn in HRe; destruct (side_cases dT e) as [->| ->]; auto).
      assert (CH0 : forall e, ch s3 r e = 0) by (intros e; rewrite CH; auto).
      erewrite (mdetach_base s s3 g (locof C) (locof C) r r dT 0); [|apply rl_locof; auto|apply rl_locof; auto|exact E3|exact Hd| |congruence|intros e; rewrite CH0; congruence].
      2:{ intros s1 E1. destruct (wl_ok s (locof C) r) as (s1' & E1' & C1 & _); [intros z e Hz; eapply locof_al; eauto|]. rewrite E1 in E1'. injection E1' as <-.
          rewrite C1; auto. intros Hx. symmetry in Hx. now apply locof_not in Hx. }
      rewrite !CH0. unfold gset. cbn [Nat.eqb]. exists s3, (fupd g r (g r)), (plug C E), (pre C), (post C). split; [reflexivity|]. cbn in RR. subst x.
      split; [eapply repc_rep; [exact RC|reflexivity]|]. split; [apply bal_plug; split; [exact I|]; eapply balc_ext; [|exact HBC]; intros; apply W3|].
      split. { apply prep_plug. split; [exact I|]. eapply prepc_ext; [|exact HP2]. intros z Hz. apply fupd_ne. congruence. }
      split; [rewrite ino_plug; destruct dT; reflexivity|]. split; [rewrite ino_plug; reflexivity|exact R3].
  Qed.
End Rem.
