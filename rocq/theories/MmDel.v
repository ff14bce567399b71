(** * Removal from the balanced tree of multimap/multiset (proof support for C51) *)
From Coq Require Import List Arith Lia Bool.
From Verif Require Import Util SortSpec HeapProofs AvlModel AvlTree AvlRot AvlIns AvlDel AvlRem MmModel MmTree MmIns.
Import ListNotations.

Section Del.
  Context {X K : Type}.
  Notation st := (st X).

  Lemma child_dir (s : st) g t b n d : po s g t -> In n (ino t) -> b <> 0 -> ch s n d = b -> (if Nat.eqb (ch s n L) b then L else R) = d.
  Proof.
    intros H In' Hb He. destruct d.
    - rewrite He, Nat.eqb_refl. reflexivity.
    - destruct (Nat.eqb_spec (ch s n L) b); [|reflexivity]. exfalso. apply (sides s t n); try apply H; congruence.
  Qed.
  Lemma wd_eq (s : st) p w : al s p = true -> wd s p w = Some (set_dr s p w).
  Proof. unfold wd. now intros ->. Qed.
  Lemma ww_eq (s : st) p w : al s p = true -> ww s p w = Some (set_wt s p w).
  Proof. unfold ww. now intros ->. Qed.
  Lemma mreb (s s1 : st) g t b d l fp1 : po s g t -> In b (ino t) -> below s (g b) = Some l -> rl s l = Some b -> lin l t ->
    (g b <> 0 -> g b <> ch s b (opp d)) ->
    rebalance_node s 0 b (g b) b d = Some (s1, fp1) ->
    exists g1 t1, mrebalance_node s g b d = Some (s1, g1) /\ po s1 g1 t1 /\ ino t1 = ino t.
  Proof.
    intros H Hb Hbl Hl Hi HX1. pose proof (po_al _ _ _ _ H Hb) as Ab. pose proof (po_nz _ _ _ _ H Hb) as Hb0. unfold rebalance_node, mrebalance_node.
    destruct (rw s b) as [w|]; [|discriminate]. cbn [obind]. destruct w as [w|].
    2:{ destruct (ww s b (Some (opp d))) as [s2|] eqn:E2; [|discriminate]. cbn [obind]. intros [= <- <-]. exists g, t. split; auto. split; auto. eapply po_frest; [|exact H]. eapply ww_frest; eauto. }
    destruct (side_eqb w d).
    { destruct (ww s b None) as [s2|] eqn:E2; [|discriminate]. cbn [obind]. intros [= <- <-]. exists g, t. split; auto. split; auto. eapply po_frest; [|exact H]. eapply ww_frest; eauto. }
    destruct (rc s b (opp d)) as [o|] eqn:Eo; [|discriminate]. cbn [obind]. destruct (rw s o) as [wo|]; [|discriminate]. cbn [obind].
    unfold rp. rewrite Ab. cbn [obind]. rewrite Hbl. cbn [obind]. rewrite Nat.eqb_refl.
    assert (Eo' : o = ch s b (opp d)) by (unfold rc in Eo; rewrite Ab in Eo; congruence).
    (* after the rotation *)
    assert (FIN : forall (s2 : st) n g1 t1, po (set_dr s2 n (Some d)) g1 t1 -> ino t1 = ino t -> rl s2 l = Some n -> ch s2 n d = b -> In n (ino t1) ->
      (let? fp0 := rl s2 l in let? c := rc s2 fp0 L in let? s0 := wd s2 fp0 (Some (if c =? b then L else R)) in Some (s0, fp0)) = Some (s1, fp1) ->
      s1 = set_dr s2 n (Some d)).
    { intros s2 n g1 t1 P It Hr Hc Hn. rewrite Hr. cbn [obind]. unfold rc. pose proof (po_al _ _ _ _ P Hn) as An. cbn in An. rewrite An. cbn [obind].
      rewrite (wd_eq _ _ _ An). cbn [obind]. change (ch s2) with (ch (set_dr s2 n (Some d))). rewrite (child_dir _ _ _ b n d P Hn Hb0 Hc). intros [= <- <-]. reflexivity. }
    destruct (oside_eqb wo (Some d)).
    - destruct (rc s o d) as [y|] eqn:Ey; [|discriminate]. cbn [obind]. destruct (rw s y) as [yw|]; [|discriminate]. cbn [obind].
      destruct (rotate_3node s l (opp d) yw) as [s2|] eqn:E2; [|discriminate]. cbn [obind]. intros HF.
      destruct (mrot3 s g t l (opp d) yw b s2 H Hl Hb0 Hi E2) as (g1 & t1 & Q1 & Q2 & Q3 & Q4 & Q5). rewrite !opp_opp in *.
      rewrite Q1. exists g1, t1. set (n := ch s (ch s b (opp d)) d) in *.
      assert (In n (ino t1)).
      { eapply (loc_in _ g1 t1 l); [exact Q2| | |]; [|intros Hn0|intros z e Hz; rewrite Q3; eapply Hi; eauto].
        - destruct l; cbn in *; auto.
        - rewrite Hn0 in Q5. pose proof (po_null _ _ _ Q2) as A0. cbn in A0. unfold rotate_3node in E2. rewrite Hl in E2. cbn [obind] in E2.
          unfold rc in E2 at 1. rewrite Ab in E2. cbn [obind] in E2. rewrite <- Eo' in E2. unfold rc in E2 at 1. destruct (al s o) eqn:Ao; [|discriminate]. cbn [obind] in E2. rewrite opp_opp in E2. unfold ww in E2 at 1. rewrite Ao in E2. cbn [obind] in E2.
          unfold rc in E2 at 1. cbn [al set_wt] in E2. rewrite Eo' in E2. fold n in E2. rewrite Hn0 in E2. rewrite (po_null _ _ _ H) in E2. discriminate. }
      rewrite (FIN s2 n g1 t1 Q2 Q3 Q4 Q5 H0 HF). auto.
    - assert (R2 : forall s2, rotate_2node s l (opp d) = Some s2 -> exists g1 t1, mrotate_2node s g l (opp d) = Some (set_dr s2 o (Some d), g1) /\ po (set_dr s2 o (Some d)) g1 t1 /\ ino t1 = ino t /\ rl s2 l = Some o /\ ch s2 o d = b /\ In o (ino t1)).
      { intros s2 E2. destruct (mrot2 s g t l (opp d) b s2 H Hl Hb0 Hi E2) as (g1 & t1 & Q1 & Q2 & Q3 & Q4 & Q5). rewrite !opp_opp in *. rewrite <- Eo' in *. exists g1, t1. do 5 (split; auto).
        eapply (loc_in _ g1 t1 l); [exact Q2| | |]; [|intros Hn0|intros z e Hz; rewrite Q3; eapply Hi; eauto].
        - destruct l; cbn in *; auto.
        - unfold rotate_2node in E2. rewrite Hl in E2. cbn [obind] in E2. rewrite Eo in E2. cbn [obind] in E2. unfold rc in E2 at 1. rewrite Hn0, (po_null _ _ _ H) in E2. discriminate. }
      destruct (oside_eqb wo None).
      + destruct (rotate_2node s l (opp d)) as [s2|] eqn:E2; [|discriminate]. cbn [obind]. destruct (R2 s2 eq_refl) as (g1 & t1 & Q1 & Q2 & Q3 & Q4 & Q5 & Q6).
        rewrite Q1. cbn [obind].
        assert (Hbl' : below (set_dr s2 o (Some d)) (g b) = Some l).
        { rewrite <- Hbl. unfold below. destruct (Nat.eqb_spec (g b) 0); auto. unfold ri. cbn [al set_dr dr]. rewrite fupd_ne by (rewrite Eo'; auto).
          assert (Rs : rest s s2).
          { pose proof E2 as E3. unfold rotate_2node in E3. rewrite Hl in E3. cbn [obind] in E3. rewrite Eo in E3. cbn [obind] in E3. destruct (rc s o _); [|discriminate]. cbn [obind] in E3.
            unfold wc in E3 at 1. rewrite Ab in E3. cbn [obind] in E3. unfold wc in E3 at 1. cbn [al set_ch] in E3. destruct (al s o) eqn:Ao; [|discriminate]. cbn [obind] in E3.
            unfold ww in E3 at 1. cbn [al set_ch] in E3. rewrite Ab in E3. cbn [obind] in E3. destruct l as [|z e]; cbn [wl] in E3.
            - cbn [obind] in E3. unfold ww in E3. cbn [al set_ch set_wt set_rt] in E3. rewrite Ao in E3. injection E3 as <-. repeat split.
            - unfold wc in E3 at 1. cbn [al set_ch set_wt] in E3. destruct (al s z); [|discriminate]. cbn [obind] in E3. unfold ww in E3. cbn [al set_ch set_wt set_rt] in E3. rewrite Ao in E3. injection E3 as <-. repeat split. }
          destruct Rs as (-> & _ & -> & _). reflexivity. }
        rewrite Hbl'. cbn [obind]. replace (rl (set_dr s2 o (Some d)) l) with (rl s2 l) by (now destruct l). rewrite Q4. cbn [obind].
        assert (Ao : al s2 o = true) by (apply (po_al _ _ _ _ Q2 Q6)). assert (Ab2 : al s2 b = true) by (apply (po_al _ _ _ b Q2); now rewrite Q3).
        rewrite (ww_eq s2 o) by auto. cbn [obind]. rewrite (ww_eq _ b) by auto. cbn [obind].
        rewrite (ww_eq (set_dr s2 o (Some d)) o) by auto. cbn [obind]. rewrite (ww_eq _ b) by auto. cbn [obind].
        set (s3 := set_wt (set_wt s2 o (Some d)) b (Some (opp d))). intros HF.
        assert (P3 : po (set_dr s3 o (Some d)) g1 t1). { eapply po_frest; [|exact Q2]. repeat split. }
        assert (E3 : s1 = set_dr s3 o (Some d)). { apply (FIN s3 o g1 t1 P3 Q3); auto. all: try exact HF. all: destruct l; auto. }
        exists g1, t1. rewrite E3. split; [reflexivity|]. auto.
      + destruct (rotate_2node s l (opp d)) as [s2|] eqn:E2; [|discriminate]. cbn [obind]. intros HF. destruct (R2 s2 eq_refl) as (g1 & t1 & Q1 & Q2 & Q3 & Q4 & Q5 & Q6).
        rewrite Q1. exists g1, t1. rewrite (FIN s2 o g1 t1 Q2 Q3 Q4 Q5 Q6 HF). auto.
  Qed.

  Definition MTR (D : ctx) (r : nat) (dT : side) (q : tr) (f : nat) : Prop :=
    (exists A df o B, D = A ++ (df, f, o) :: B /\ (forall g, In g A -> fsd g = opp df) /\ (dT = opp df \/ q = E)) \/ (f = r /\ q = E).
  Lemma drs_below (s : st) C x : al s 0 = false -> repc s C x -> drs s C -> below s (hda C) = Some (locof C).
  Proof.
    intros H0 HC HD. destruct C as [|[[d p] b] C]; [reflexivity|]. cbn [repc] in HC. destruct HC as (_ & Ap & _). cbn [hda fad fst snd locof].
    apply below_dr; auto; [congruence|]. apply (HD (d, p, b)). cbn. auto.
  Qed.
  Lemma mrebal_loop_ok dT r q f P : forall n (s : st) g C b, length P < n -> po s g (plug C (plug P (nd dT r E q))) ->
    repc s C b -> rep s b (plug P (nd dT r E q)) ->
    drs s (P ++ C) -> dr s r = Some dT -> bal (wt s) (plug P (nd dT r E q)) ->
    (P = [] -> balc (wt s) C (hgt (nd dT r E q) - 1)) ->
    (forall P' h, P = P' ++ [h] -> (forall h, In h P' -> absb (wt s) h = false) /\
         balc (wt s) C (hgt (plug P (nd dT r E q)) - if absb (wt s) h then 0 else 1)) ->
    MTR (P ++ C) r dT q f ->
    exists s' g' C', mrebalance_loop n s g b = Some (s', g') /\ po s' g' (plug C' (nd dT r E q)) /\ repc s' C' r /\ rep s' r (nd dT r E q) /\
      balc (wt s') C' (hgt (nd dT r E q) - 1) /\ bal (wt s') q /\ pre C' = pre (P ++ C) /\ post C' = post (P ++ C) /\
      drs s' C' /\ MTR C' r dT q f /\
      el s' = el s /\ al s' = al s /\ sz s' = sz s /\ fr s' = fr s /\ dr s' r = Some dT.
  Proof.
    set (T := nd dT r E q).
    assert (HT : hgt T >= 1) by (unfold T; rewrite hgt_nd; lia).
    induction P as [|[[d b] o] P IH] using rev_ind; intros n s g C b0 Hn HPO HC HR Hdr Hdt HB Hh0 Hh1 HT1.
    - destruct n; [cbn in Hn; lia|]. cbn [plug app] in *. pose proof (po_null _ _ _ HPO) as H0.
      pose proof HR as HRT. unfold T in HR. pose proof (proj1 (rep_nd _ _ _ _ _ _) HR) as (-> & Ar & HRe & HRq). cbn in HRe.
      cbn [mrebalance_loop]. destruct (Nat.eqb_spec r 0); [congruence|]. unfold ri. rewrite Ar, Hdt. cbn [obind].
      unfold rc. rewrite Ar. cbn [obind]. rewrite HRe. cbn [Nat.eqb].
      exists s, g, C. split; auto. split; auto. split; auto. split; auto. split; auto.
      split. { unfold T in HB. apply bal_nd in HB. tauto. }
      do 2 (split; auto). auto 10.
    - rewrite app_length in Hn. cbn in Hn. destruct n; [lia|]. pose proof (po_null _ _ _ HPO) as H0. pose proof (po_nd _ _ _ HPO) as HN.
      rewrite plug_app in HR, HN, HB, HPO. cbn [plug] in HR, HN, HB, HPO.
      set (u := plug P T) in *.
      pose proof (proj1 (rep_nd _ _ _ _ _ _) HR) as (-> & Ab & HRu & HRo).
      assert (Hu : exists hr, hgt u = S hr).
      { unfold u. rewrite hgt_plug. pose proof (hgtc_ge P (hgt T)). exists (hgtc P (hgt T) - 1). lia. }
      destruct Hu as [hr Hu].
      assert (Db : dr s b = Some d). { apply (Hdr (d, b, o)). rewrite !in_app_iff. cbn. auto. }
      apply bal_nd in HB. destruct HB as (Bu & Bo & Bw).
      assert (Hb0 : b <> 0) by congruence.
      cbn [mrebalance_loop]. destruct (Nat.eqb_spec b 0); [congruence|]. unfold ri at 1. rewrite Ab, Db. cbn [obind].
      unfold rc at 1. rewrite Ab. cbn [obind].
      destruct (Nat.eqb_spec (ch s b d) 0) as [Ey|Ey].
      { exfalso. assert (u = E). { destruct u; auto. destruct HRu as (H1 & H2 & _). rewrite <- H1 in H2. rewrite Ey in H2. congruence. }
        rewrite H in Hu. cbn in Hu. lia. }
      assert (HdrC : drs s C) by (intros h Hh; apply Hdr; rewrite !in_app_iff; auto).
      pose proof (drs_below s C b H0 HC HdrC) as Hbl.
      destruct (rebal_step s C d b u o 0 b hr H0 HC HR HN Db Bo Bw Hu Hbl)
        as (s1 & o' & C2' & fp1 & E1 & RC1 & RR1 & BC1 & HG & EP1 & EP2 & W1 & S1 & S2 & S3 & S4 & SD & FP). cbn zeta in *.
      pose proof (proj1 (NoDup_plug _ _) HN) as (HN1 & HNC & HD).
      pose proof (proj1 (NoDup_nd _ _ _ _) HN1) as (Nb1 & Nb2 & Nu & No & Duo).
      set (C2 := (d, b, o') :: C2') in *.
      assert (Gb : g b = hda C). { pose proof (po_prep _ _ _ HPO) as HP. apply prep_plug in HP. destruct HP as [HP _]. apply prep_nd in HP. tauto. }
      assert (MR : exists g1, mrebalance_node s g b d = Some (s1, g1) /\ po s1 g1 (plug (C2 ++ C) u)).
      { destruct (mreb s s1 g (plug C (nd d b u o)) b d (locof C) fp1) as (g1 & t1 & Q1 & Q2 & Q3); auto.
        - apply In_plug. left. apply In_nd. auto.
        - now rewrite Gb.
        - apply rl_locof. exact HC.
        - intros z e Hz. apply In_plug. right. destruct C as [|[[d1 z1] b1] C]; [discriminate|]. cbn in Hz. injection Hz as <- <-. apply In_cadr_cons. auto.
        - rewrite Gb. intros Hc0 Heq. destruct o as [|o1 z o2]; [cbn in HRo; congruence|]. destruct HRo as (HRo & _).
          destruct C as [|[[d1 z1] b1] C]; [now apply Hc0|]. cbn [hda fad fst snd] in Heq. apply (HD z1); [|apply In_cadr_cons; auto]. apply In_nd. right. right. cbn. rewrite in_app_iff. cbn. right. left. congruence.
        - now rewrite Gb.
        - exists g1. split; auto. replace (plug (C2 ++ C) u) with t1; auto. apply (rep_inj s1 (rt s1)); [apply Q2|apply Q2|]. eapply repc_rep; eauto. }
      destruct MR as (g1 & EM & PO1). rewrite EM. cbn [obind].
      assert (IU : forall z, In z (ino u) -> z <> b /\ ~ In z (ino o)).
      { intros z Hz. split; [intros ->; auto|]. intros Hz'. apply (Duo z); auto. }
      assert (DRE : forall z, ~ In z (ino o) -> dr s1 z = dr s z).
      { intros z Hz. destruct FP as [(_ & -> & _)|(_ & o2 & _ & -> & Io)]; auto. unfold fupd. destruct (Nat.eqb_spec z fp1); congruence. }
      assert (IP : forall h, In h P -> In (fad h) (ino u)).
      { intros h Hg. unfold u. apply In_plug. right. now apply In_fad. }
      assert (Ir : In r (ino u)) by (unfold u, T; apply In_plug; left; apply In_nd; auto).
      assert (Db1 : dr s1 b = Some d) by (rewrite DRE; auto).
      unfold ri. rewrite S2, Ab, Db1. cbn [obind]. unfold rc. rewrite S2, Ab. cbn [obind].
      destruct (Hh1 P (d, b, o) eq_refl) as [Hab HBC].
      assert (BC2 : balc (wt s1) (C2 ++ C) (hgt u - 1)).
      { rewrite Hu. replace (S hr - 1) with hr by lia. apply balc_app. split; auto.
        rewrite plug_app in HBC. cbn [plug] in HBC. rewrite hgt_nd in HBC. fold u in HBC. rewrite Hu in HBC.
        replace (hgtc C2 hr) with (S (Nat.max (S hr) (hgt o)) - (if absb (wt s) (d, b, o) then 0 else 1)) by lia.
        eapply balc_ext; [|exact HBC]. intros z Hz. apply W1; [intros ->|intros Hzo]; eapply HD; eauto; apply In_nd; auto. }
      assert (EPRE : pre (C2 ++ C) = pre ((d, b, o) :: C)). { rewrite pre_app, EP1. reflexivity. }
      assert (EPOST : post (C2 ++ C) = post ((d, b, o) :: C)). { rewrite post_app, EP2. cbn. now rewrite app_nil_r. }
      destruct (IH n s1 g1 (C2 ++ C) (ch s1 b d)) as (s' & g' & C' & E2 & G); auto.
      { lia. }
      { intros h Hg. rewrite !in_app_iff in Hg. destruct Hg as [Hg|[Hg|Hg]].
        - rewrite DRE; [apply Hdr; rewrite !in_app_iff; auto|]. apply IU. auto.
        - unfold C2 in Hg. destruct Hg as [<-|Hg]; [exact Db1|]. destruct FP as [(_ & _ & [Hf| ->])|(_ & o2 & -> & Ed & _)]; [congruence|destruct Hg|].
          destruct Hg as [<-|[]]. cbn. rewrite Ed. unfold fupd. now rewrite Nat.eqb_refl.
        - rewrite DRE; [now apply HdrC|]. intros Hx. apply (HD (fad h)); [apply In_nd; auto|]. now apply In_fad. }
      { rewrite DRE; auto. apply IU. auto. }
      { eapply bal_ext; [|exact Bu]. intros z Hz. apply W1; apply IU; auto. }
      { intros ->. exact BC2. }
      { intros P' h ->.
        assert (HA1 : forall h0, In h0 (P' ++ [h]) -> absb (wt s1) h0 = false).
        { intros h0 Hh. rewrite <- (Hab h0 Hh). assert (HW : forall z, In z (cadr (P' ++ [h])) -> wt s1 z = wt s z).
          { intros z Hz. apply W1; apply IU; unfold u; apply In_plug; auto. }
          destruct h0 as [[dh ph] oh]. cbn [absb].
          assert (Hsub : forall z, z = ph \/ In z (ino oh) -> In z (cadr (P' ++ [h]))).
          { intros z Hz. apply in_split in Hh. destruct Hh as (l1 & l2 & ->). apply In_cadr_app. right. apply In_cadr_cons. tauto. }
          rewrite HW by auto. destruct (wt s ph); auto. f_equal. destruct oh; auto. rewrite HW; auto. apply Hsub. right. cbn. rewrite in_app_iff. cbn. auto. }
        split; [intros h0 Hh; apply HA1; rewrite in_app_iff; auto|].
        rewrite (HA1 h) by (rewrite in_app_iff; cbn; auto). exact BC2. }
      { (* tracking of the found node *)
        rewrite <- app_assoc in HT1. cbn [app] in HT1.
        destruct HT1 as [(A & df & o0 & B & Q1 & Q2 & Q3)|Q1]; [|right; auto].
        left.
        destruct (app_cons_cases P C A B _ _ Q1) as [(-> & [= <- <- <-] & ->)|[(B0 & -> & ->)|(A0 & -> & ->)]].
        - exists P, d, o', (C2' ++ C). split; [reflexivity|]. auto.
        - exists A, df, o0, (B0 ++ C2 ++ C). rewrite <- app_assoc. split; auto.
        - exists (P ++ C2 ++ A0), df, o0, B. split; [now rewrite <- !app_assoc|].
          assert (Sd : d = opp df). { apply (Q2 (d, b, o)). rewrite in_app_iff. cbn. auto. }
          split; auto. intros h Hg. rewrite !in_app_iff in Hg. destruct Hg as [Hg|[[<-|Hg]|Hg]]; auto.
            + apply Q2. rewrite in_app_iff. auto.
            + rewrite (SD h Hg). auto.
            + apply Q2. rewrite in_app_iff. cbn. auto. }
      exists s', g', C'. split; [exact E2|].
      destruct G as (G0 & G1 & G2 & G3 & G4 & G5 & G6 & G7 & G8 & G9 & G10 & G11 & G12 & G13).
      rewrite <- app_assoc. cbn [app].
      split; auto. split; auto. split; auto. split; auto. split; auto.
      split. { rewrite G5, !(pre_app P), EPRE. reflexivity. }
      split. { rewrite G6, !(post_app P), EPOST. reflexivity. }
      split; auto. split; auto. repeat split; congruence.
  Qed.
End Del.
