(** * Insertion into the balanced tree of map/set (proof support for C14/C15) *)
From Coq Require Import List Arith Lia Bool.
From Verif Require Import Util AvlModel AvlTree AvlRot.
Import ListNotations.

Section Ins.
  Context {X K : Type}.
  Variable key : X -> K.
  Variable lt : K -> K -> bool.
  Notation st := (st X).

  (** *** growing a path whose weights are all None *)
  Lemma grow w w' C : forall h, nodupc C -> balc w C h -> (forall g, In g C -> w (fad g) = None) ->
    (forall g, In g C -> w' (fad g) = Some (fsd g)) ->
    (forall q, In q (cadr C) -> ~ In q (map fad C) -> w' q = w q) ->
    balc w' C (S h) /\ hgtc C (S h) = S (hgtc C h).
  Proof.
    induction C as [|[[d p] b] C IH]; intros h Hn Hb H1 H2 H3; cbn [balc hgtc]; auto.
    destruct Hn as (N1 & N2 & N3 & N4 & N5). destruct Hb as (B1 & B2 & B3).
    pose proof (H1 _ (or_introl eq_refl)) as Hp. pose proof (H2 _ (or_introl eq_refl)) as Hp'. cbn in Hp, Hp'.
    rewrite Hp in B2. cbn in B2. subst h. rewrite Nat.max_id in B3.
    replace (Nat.max (S (hgt b)) (hgt b)) with (S (hgt b)) by lia. rewrite Nat.max_id.
    destruct (IH (S (hgt b))) as [I1 I2]; auto.
    { intros g Hg. apply H1. cbn; auto. }
    { intros g Hg. apply H2. cbn; auto. }
    { intros q Hq Hc. apply H3; [apply In_cadr_cons; auto|]. cbn. intros [->|?]; auto. }
    repeat split; auto.
    - apply bal_ext with w; auto. intros q Hq. apply H3; [apply In_cadr_cons; auto|]. cbn.
      intros [<-|Hc]; [auto|]. apply (N4 q Hq). apply in_map_iff in Hc. destruct Hc as (g & <- & Hg). now apply In_fad.
    - rewrite Hp'. cbn. rewrite side_eqb_refl. lia.
  Qed.

  (** *** reweigh walks down the path *)
  Definition frest (s s' : st) : Prop :=
    ch s' = ch s /\ dr s' = dr s /\ el s' = el s /\ al s' = al s /\ rt s' = rt s /\ sz s' = sz s /\ fr s' = fr s.
  Lemma frest_refl s : frest s s. Proof. repeat split. Qed.
  Lemma rep_frest s s' x t : frest s s' -> rep s x t -> rep s' x t.
  Proof. intros (H1 & _ & _ & H2 & _) H. eapply rep_frame; [|exact H]. intros. now rewrite H1, H2. Qed.
  Lemma repc_frest s s' C x : frest s s' -> repc s C x -> repc s' C x.
  Proof. intros (H1 & _ & _ & H2 & H3 & _) H. eapply repc_frame; [| |exact H]; [|auto]. intros. now rewrite H1, H2. Qed.
  Lemma reweigh_path C : forall n (s : st) x node, length C < n -> al s 0 = false ->
    rep s x (plug C (N E node E)) -> NoDup (ino (plug C (N E node E))) -> dr s node = None ->
    (forall g, In g C -> dr s (fad g) = Some (fsd g)) -> (forall g, In g C -> wt s (fad g) = None) ->
    exists s', reweigh n s x = Some s' /\ frest s s' /\
      (forall q, ~ In q (map fad C) -> wt s' q = wt s q) /\ (forall g, In g C -> wt s' (fad g) = Some (fsd g)).
  Proof.
    induction C as [|[[d p] b] C IH] using rev_ind; intros n s x node Hn H0 HR HN Hd Hdr Hwt.
    - destruct n; [cbn in Hn; lia|]. cbn in HR. destruct HR as (-> & Ha & _). cbn.
      destruct (Nat.eqb_spec node 0); [congruence|]. unfold rd. rewrite Ha. cbn. rewrite Hd.
      exists s. repeat split; auto. intros g [].
    - rewrite app_length in Hn. cbn in Hn. destruct n; [lia|].
      rewrite plug_app in HR, HN. cbn [plug] in HR, HN. apply rep_nd in HR. destruct HR as (-> & Ha & HR1 & HR2).
      apply NoDup_nd in HN. destruct HN as (N1 & N2 & N3 & N4 & N5).
      cbn [reweigh]. destruct (Nat.eqb_spec p 0); [congruence|]. unfold rd, rw, ww. rewrite Ha. cbn [obind].
      pose proof (Hdr (d, p, b) ltac:(rewrite in_app_iff; cbn; auto)) as Hp. cbn in Hp. rewrite Hp.
      pose proof (Hwt (d, p, b) ltac:(rewrite in_app_iff; cbn; auto)) as Hq. cbn in Hq. rewrite Hq.
      cbn [oside_eqb obind]. unfold rc. cbn [al set_wt]. rewrite Ha. cbn [obind ch set_wt].
      set (s1 := set_wt s p (Some d)).
      assert (Hp' : forall g, In g C -> fad g <> p).
      { intros g Hg E1. apply N1. rewrite <- E1. apply In_plug. right. now apply In_fad. }
      destruct (IH n s1 (ch s p d) node) as (s' & E1 & F & W1 & W2); auto; [lia| | | |].
      { eapply rep_frest; [|exact HR1]. repeat split. }
      { intros g Hg. cbn. apply Hdr. rewrite in_app_iff; auto. }
      { intros g Hg. cbn. unfold fupd. destruct (Nat.eqb_spec (fad g) p); [now apply Hp' in e|]. apply Hwt. rewrite in_app_iff; auto. }
      exists s'. split; auto. split; [exact F|]. split.
      + intros q Hq'. rewrite map_app, in_app_iff in Hq'. cbn in Hq'. rewrite W1 by tauto. cbn. unfold fupd.
        destruct (Nat.eqb_spec q p); [subst; exfalso; tauto|auto].
      + intros g Hg. rewrite in_app_iff in Hg. destruct Hg as [Hg|[<-|[]]]; auto. cbn.
        rewrite W1. { cbn. unfold fupd. now rewrite Nat.eqb_refl. }
        intros Hc. apply in_map_iff in Hc. destruct Hc as (g & E2 & Hg). now apply Hp' in Hg.
  Qed.

  (** *** the path recorded by insert_loop *)
  Definition Crit (w : nat -> option side) (C : ctx) (cp c : nat) : Prop :=
    exists C2 f C1, C = C2 ++ f :: C1 /\ c = fad f /\ cp = hda C1 /\ (forall g, In g C2 -> w (fad g) = None)
      /\ (C1 = [] \/ w c <> None).
  Definition HeadInv (w : nat -> option side) (C : ctx) (x cp c : nat) : Prop :=
    match w x with
    | Some _ => cp = hda C
    | None => (C = [] /\ c = x /\ cp = 0) \/ Crit w C cp c
    end.
  Definition K_of (s : st) (p : nat) : K := key (el s p).

  Lemma ino_nd_eq d p a b a' b' : ino a = ino a' -> ino b = ino b' -> ino (nd d p a b) = ino (nd d p a' b').
  Proof. intros H1 H2. destruct d; cbn; congruence. Qed.
  Lemma ino_rot2 d p n a b c : ino (nd d n a (nd d p b c)) = ino (nd d p (nd d n a b) c).
  Proof. destruct d; cbn; rewrite <- ?app_assoc; cbn; rewrite <- ?app_assoc; reflexivity. Qed.
  Lemma ino_rot3 d p c g a1 a2 b' b :
    ino (nd d g (nd (opp d) c a1 b') (nd d p a2 b)) = ino (nd d p (nd (opp d) c (nd d g a1 a2) b') b).
  Proof. destruct d; cbn; rewrite <- ?app_assoc; cbn; rewrite <- ?app_assoc; reflexivity. Qed.
  Lemma ino_plug_eq C t t' : ino t = ino t' -> ino (plug C t) = ino (plug C t').
  Proof. intros H. now rewrite !ino_plug, H. Qed.
  Lemma repc_rep (s : st) C x t : repc s C x -> rep s x t -> rep s (rt s) (plug C t).
  Proof. intros. apply rep_plug. eauto. Qed.
  Lemma frest_rest (s s' : st) : frest s s' -> rest s s'.
  Proof. intros (H1 & H2 & H3 & H4 & H5 & H6 & H7). repeat split; auto. Qed.
  Lemma rest_trans (s1 s2 s3 : st) : rest s1 s2 -> rest s2 s3 -> rest s1 s3.
  Proof. unfold rest. intuition congruence. Qed.
  (** a write of a weight *)
  Lemma ww_ok (s : st) p w : al s p = true -> exists s', ww s p w = Some s' /\ frest s s' /\ forall q, wt s' q = if Nat.eqb q p then w else wt s q.
  Proof. intros H. unfold ww. rewrite H. eexists. split; eauto. split; [repeat split|]. intros q. cbn. unfold fupd. reflexivity. Qed.

  Lemma balance_ok n (s : st) C2 d c b C1 node : length C2 < n -> al s 0 = false ->
    repc s C1 c -> rep s c (nd d c (plug C2 (N E node E)) b) ->
    NoDup (ino (plug C1 (nd d c (plug C2 (N E node E)) b))) -> dr s node = None -> wt s node = None ->
    dr s c = Some d -> (forall g, In g C2 -> dr s (fad g) = Some (fsd g)) -> (forall g, In g C2 -> wt s (fad g) = None) ->
    balc (wt s) (C2 ++ (d, c, b) :: C1) 0 -> (C1 = [] \/ wt s c <> None) ->
    exists s' t', balance_node n s (locof C1) = Some s' /\ rest s s' /\ rep s' (rt s') t' /\
      ino t' = ino (plug C1 (nd d c (plug C2 (N E node E)) b)) /\ bal (wt s') t'.
  Proof.
    intros Hn H0 HC HR HN Hdn Hwn Hdc Hd2 Hw2 HB Hcr.
    pose proof (proj1 (NoDup_plug _ _) HN) as (HN1 & HN2 & HD).
    pose proof (proj1 (NoDup_nd _ _ _ _) HN1) as (Nc1 & Nc2 & Nt & Nb & Dtb).
    pose proof (proj1 (NoDup_plug _ _) Nt) as (_ & Nc & Dl).
    pose proof (proj1 (rep_nd _ _ _ _ _ _) HR) as (_ & Ac & HRt & HRb).
    apply balc_app in HB. destruct HB as (B1 & B2). cbn [balc] in B2. destruct B2 as (B2 & B3 & B4).
    unfold balance_node. rewrite (rl_locof _ _ _ HC). cbn [obind]. unfold ri. rewrite Ac, Hdc. cbn [obind].
    unfold rc at 1. rewrite Ac. cbn [obind].
    destruct (reweigh_path C2 n s (ch s c d) node Hn H0 HRt Nt Hdn Hd2 Hw2) as (s1 & -> & F1 & W1 & W2). cbn [obind].
    assert (Incf : forall q, In q (map fad C2) -> In q (cadr C2)).
    { intros q Hq. apply in_map_iff in Hq. destruct Hq as (g & <- & Hg). now apply In_fad. }
    assert (Wc : wt s1 c = wt s c).
    { apply W1. intros Hx. apply Nc1. apply In_plug. right. auto. }
    assert (Wn : wt s1 node = None).
    { rewrite <- Hwn. apply W1. intros Hx. apply (Dl node); auto. cbn. auto. }
    assert (Wb : forall q, In q (ino b) -> wt s1 q = wt s q).
    { intros q Hq. apply W1. intros Hx. apply (Dtb q); auto. apply In_plug. auto. }
    assert (WC : forall q, In q (cadr C1) -> wt s1 q = wt s q).
    { intros q Hq. apply W1. intros Hx. apply (HD q); auto. apply In_nd. right. left. apply In_plug. auto. }
    destruct (grow (wt s) (wt s1) C2 0 Nc B1 Hw2 W2) as [G1 G2].
    { intros q _ Hq. auto. }
    assert (Bt : bal (wt s1) (plug C2 (N E node E))).
    { apply bal_plug. split; [cbn; rewrite Wn; cbn; auto|exact G1]. }
    assert (Ht : hgt (plug C2 (N E node E)) = S (hgtc C2 0)) by (rewrite hgt_plug; exact G2).
    set (h := hgtc C2 0) in *.
    pose proof (bal_ext _ _ _ Wb B2) as Bb.
    pose proof F1 as (F1c & F1d & F1e & F1a & F1r & _).
    assert (Ac1 : al s1 c = true) by (rewrite F1a; auto).
    pose proof (rep_frest _ _ _ _ F1 HR) as HR1. pose proof (repc_frest _ _ _ _ F1 HC) as HC1.
    unfold rw. rewrite Ac1. cbn [obind]. rewrite Wc.
    destruct (wt s c) as [w|] eqn:Ew.
    2:{ (* weight none: the root, the tree grows *)
      destruct Hcr as [->|Hcr]; [|congruence]. cbn in B3.
      destruct (ww_ok s1 c (Some d) Ac1) as (s2 & -> & F2 & W3).
      exists s2, (nd d c (plug C2 (N E node E)) b). split; auto. split; [eapply rest_trans; apply frest_rest; eauto|].
      split; [eapply (repc_rep s2 []); eapply repc_frest || eapply rep_frest; eauto|].
      split; auto. apply bal_nd. rewrite W3, Nat.eqb_refl, Ht. cbn. rewrite side_eqb_refl.
      repeat split; [| |lia].
      - apply bal_ext with (wt s1); auto. intros q Hq. rewrite W3. destruct (Nat.eqb_spec q c); [congruence|auto].
      - apply bal_ext with (wt s1); auto. intros q Hq. rewrite W3. destruct (Nat.eqb_spec q c); [congruence|auto]. }
    destruct (side_cases d w) as [->| ->]; cbn in B3.
    2:{ (* the insertion evens out the node *)
      rewrite side_eqb_opp, side_eqb_opp' in *.
      destruct (ww_ok s1 c None Ac1) as (s2 & -> & F2 & W3).
      exists s2, (plug C1 (nd d c (plug C2 (N E node E)) b)). split; auto. split; [eapply rest_trans; apply frest_rest; eauto|].
      split; [eapply repc_rep; [eapply repc_frest; eauto|eapply rep_frest; eauto]|].
      split; auto. apply bal_plug. split.
      - apply bal_nd. rewrite W3, Nat.eqb_refl, Ht. cbn. repeat split; [| |lia].
        + apply bal_ext with (wt s1); auto. intros q Hq. rewrite W3. destruct (Nat.eqb_spec q c); [congruence|auto].
        + apply bal_ext with (wt s1); auto. intros q Hq. rewrite W3. destruct (Nat.eqb_spec q c); [congruence|auto].
      - rewrite hgt_nd, Ht. replace (S (Nat.max (S h) (hgt b))) with (S (Nat.max h (hgt b))) by lia.
        apply balc_ext with (wt s); auto. intros q Hq. rewrite W3. destruct (Nat.eqb_spec q c).
        + subst. exfalso. apply (HD c); auto. apply In_nd. auto.
        + auto. }
    rewrite side_eqb_refl in *.
    (* rotation *)
    destruct C2 as [|[[e x] o] C2' _] using rev_ind; [cbn in h; lia|].
    rewrite !plug_app in *. cbn [plug] in *.
    unfold rc at 1. rewrite Ac1. cbn [obind].
    pose proof (proj1 (rep_nd _ _ _ _ _ _) HR1) as (_ & _ & HR1t & HR1b).
    pose proof (proj1 (rep_nd _ _ _ _ _ _) HR1t) as (Ex & Ax & HRu & HRo).
    rewrite Ex. unfold rd. rewrite Ax. cbn [obind].
    assert (Dx : dr s1 x = Some e). { rewrite F1d. apply (Hd2 (e, x, o)). rewrite in_app_iff. cbn. auto. }
    assert (Wx : wt s1 x = Some e). { apply (W2 (e, x, o)). rewrite in_app_iff. cbn. auto. }
    rewrite Dx. cbn [oside_eqb].
    set (u := plug C2' (N E node E)) in *.
    apply bal_nd in Bt. destruct Bt as (Bu & Bo & Bx). rewrite Wx in Bx. cbn in Bx. rewrite side_eqb_refl in Bx.
    rewrite hgt_nd in Ht.
    destruct (side_cases d e) as [->| ->].
    - (* single rotation *)
      rewrite side_eqb_refl.
      destruct (rotate_2_tree s1 C1 d c x u o b c HC1 HR1) as (s2 & -> & R2 & _ & W3 & HC2 & HR2 & _); auto.
      exists s2, (plug C1 (nd d x u (nd d c o b))). split; auto. split; [eapply rest_trans; [apply frest_rest|]; eauto|].
      split; [eapply repc_rep; eauto|]. split; [apply ino_plug_eq, ino_rot2|].
      assert (W4 : forall q, q <> c -> q <> x -> wt s2 q = wt s1 q).
      { intros q H1 H2. rewrite W3. destruct (Nat.eqb_spec q c), (Nat.eqb_spec q x); cbn; congruence. }
      pose proof (proj1 (NoDup_nd _ _ _ _) Nt) as (Nx1 & Nx2 & _ & _ & Duo).
      apply bal_plug. split.
      + apply bal_nd. rewrite hgt_nd. rewrite W3, Nat.eqb_refl, orb_true_r. cbn [wg]. repeat split; [| |lia].
        * apply bal_ext with (wt s1); auto. intros q Hq. apply W4; [|congruence]. intros ->. apply Nc1. apply In_nd. auto.
        * apply bal_nd. rewrite W3, Nat.eqb_refl. cbn [orb wg]. repeat split; [| |lia].
          -- apply bal_ext with (wt s1); auto. intros q Hq. apply W4; [|congruence]. intros ->. apply Nc1. apply In_nd. auto.
          -- apply bal_ext with (wt s1); auto. intros q Hq. apply W4; [congruence|]. intros ->. apply (Dtb x); auto. apply In_nd. auto.
      + rewrite !hgt_nd. replace (S (Nat.max (hgt u) (S (Nat.max (hgt o) (hgt b))))) with (S (Nat.max h (hgt b))) by lia.
        apply balc_ext with (wt s); auto. intros q Hq. rewrite W4; auto.
        * intros ->. apply (HD c); auto. apply In_nd. auto.
        * intros ->. apply (HD x); auto. apply In_nd. right. left. apply In_nd. auto.
    - (* double rotation *)
      rewrite side_eqb_opp. unfold rc at 1. rewrite Ax. cbn [obind].
      assert (HU : exists g u1 u2, u = nd d g u1 u2 /\ wt s1 g = dr s1 g /\ bal (wt s1) u1 /\ bal (wt s1) u2 /\ wg d (dr s1 g) (hgt u1) (hgt u2)).
      { destruct C2' as [|[[e3 g] o3] C3 _] using rev_ind.
        - exists node, E, E. unfold u. cbn [plug]. split; [now destruct d|]. rewrite F1d, Hdn. cbn. auto.
        - unfold u in *. rewrite plug_app in *. cbn [plug] in *.
          assert (Dg : dr s1 g = Some e3). { rewrite F1d. apply (Hd2 (e3, g, o3)). rewrite !in_app_iff. cbn. auto. }
          assert (Wg : wt s1 g = Some e3). { apply (W2 (e3, g, o3)). rewrite !in_app_iff. cbn. auto. }
          apply bal_nd in Bu. destruct Bu as (Bu1 & Bu2 & Bg). rewrite Wg in Bg.
          destruct (side_cases d e3) as [->| ->].
          + exists g, (plug C3 (N E node E)), o3. rewrite Dg, Wg. auto.
          + exists g, o3, (plug C3 (N E node E)). rewrite Dg, Wg. split; [apply nd_opp|]. repeat split; auto.
            cbn in Bg |- *. rewrite side_eqb_refl in Bg. rewrite side_eqb_opp'. auto. }
      clearbody u. destruct HU as (g & u1 & u2 & -> & Wg & Bu1 & Bu2 & Bg).
      pose proof (proj1 (rep_nd _ _ _ _ _ _) HRu) as (Eg & Ag & HRu1 & HRu2). rewrite Eg, Ag. cbn [obind].
      destruct (rotate_3_tree s1 C1 d (dr s1 g) c x g u1 u2 o b c HC1) as (s2 & -> & R2 & _ & W3 & HC2 & HR2); auto.
      exists s2, (plug C1 (nd d g (nd (opp d) x u1 o) (nd d c u2 b))). split; auto. split; [eapply rest_trans; [apply frest_rest|]; eauto|].
      split; [eapply repc_rep; eauto|]. split; [apply ino_plug_eq, ino_rot3|].
      assert (W4 : forall q, q <> c -> q <> x -> q <> g -> wt s2 q = wt s1 q).
      { intros q H1 H2 H3. rewrite W3. destruct (Nat.eqb_spec q g), (Nat.eqb_spec q c), (Nat.eqb_spec q x); congruence. }
      pose proof (proj1 (NoDup_nd _ _ _ _) Nt) as (Nx1 & Nx2 & Nu & _ & Duo).
      pose proof (proj1 (NoDup_nd _ _ _ _) Nu) as (Ng1 & Ng2 & _ & _ & Duu).
      assert (Qcx : c <> x) by (intros ->; apply Nc1; apply In_nd; auto).
      assert (Qcg : c <> g) by (intros ->; apply Nc1; apply In_nd; right; left; apply In_nd; auto).
      assert (Qxg : x <> g) by (intros ->; apply Nx1; apply In_nd; auto).
      assert (U1 : forall q, In q (ino u1) -> wt s2 q = wt s1 q).
      { intros q Hq. apply W4; [| |congruence]; intros ->; [apply Nc1|apply Nx1]; repeat (apply In_nd; right; left || apply In_nd); auto. }
      assert (U2 : forall q, In q (ino u2) -> wt s2 q = wt s1 q).
      { intros q Hq. apply W4; [| |congruence]; intros ->; [apply Nc1; apply In_nd; right; left|apply Nx1]; apply In_nd; auto. }
      assert (U3 : forall q, In q (ino o) -> wt s2 q = wt s1 q).
      { intros q Hq. apply W4; [|congruence|]; intros ->; [apply Nc1; apply In_nd; auto|apply (Duo g); auto; apply In_nd; auto]. }
      assert (U4 : forall q, In q (ino b) -> wt s2 q = wt s1 q).
      { intros q Hq. apply W4; [congruence| |]; intros ->; [apply (Dtb x)|apply (Dtb g)]; auto; apply In_nd; auto. right; left; apply In_nd; auto. }
      assert (Vg : wt s2 g = None) by (rewrite W3, Nat.eqb_refl; auto).
      assert (Vc : wt s2 c = if oside_eqb (dr s1 g) (Some d) then Some (opp d) else None).
      { rewrite W3. destruct (Nat.eqb_spec c g); [congruence|]. now rewrite Nat.eqb_refl. }
      assert (Vx : wt s2 x = if oside_eqb (dr s1 g) (Some (opp d)) then Some d else None).
      { rewrite W3. destruct (Nat.eqb_spec x g); [congruence|]. destruct (Nat.eqb_spec x c); [congruence|]. now rewrite Nat.eqb_refl. }
      rewrite hgt_nd in Bx, Ht.
      assert (HH : (dr s1 g = None /\ hgt u1 = hgt u2) \/ (dr s1 g = Some d /\ hgt u1 = hgt u2 + 1) \/ (dr s1 g = Some (opp d) /\ hgt u2 = hgt u1 + 1)).
      { destruct (dr s1 g) as [e3|]; cbn in Bg; auto. destruct (side_cases d e3) as [->| ->];
          rewrite ?side_eqb_refl, ?side_eqb_opp' in Bg; auto. }
      apply bal_plug. split.
      + apply bal_nd. rewrite !hgt_nd, Vg. cbn [wg].
        split; [|split]; [| |destruct HH as [(_ & ?)|[(_ & ?)|(_ & ?)]]; lia].
        * apply bal_nd. rewrite Vx. split; [|split]; [eapply bal_ext; eauto|eapply bal_ext; eauto|].
          destruct HH as [(-> & ?)|[(-> & ?)|(-> & ?)]]; cbn; rewrite ?side_eqb_refl, ?side_eqb_opp; cbn; rewrite ?side_eqb_opp; lia.
        * apply bal_nd. rewrite Vc. split; [|split]; [eapply bal_ext; eauto|eapply bal_ext; eauto|].
          destruct HH as [(-> & ?)|[(-> & ?)|(-> & ?)]]; cbn; rewrite ?side_eqb_refl, ?side_eqb_opp'; cbn; rewrite ?side_eqb_opp'; lia.
      + rewrite !hgt_nd.
        replace (S (Nat.max (S (Nat.max (hgt u1) (hgt o))) (S (Nat.max (hgt u2) (hgt b))))) with (S (Nat.max h (hgt b)))
          by (destruct HH as [(_ & ?)|[(_ & ?)|(_ & ?)]]; lia).
        apply balc_ext with (wt s); auto. intros q Hq. rewrite W4; auto.
        * intros ->. apply (HD c); auto. apply In_nd. auto.
        * intros ->. apply (HD x); auto. apply In_nd. right. left. apply In_nd. auto.
        * intros ->. apply (HD g); auto. apply In_nd. right. left. apply In_nd. right. left. apply In_nd. auto.
  Qed.

  (** *** ascending keys *)
  Fixpoint asc (f : nat -> K) (l : list nat) : Prop :=
    match l with [] => True | a :: r => (forall b, In b r -> lt (f a) (f b) = true) /\ asc f r end.
  Lemma asc_app f A B : asc f (A ++ B) <-> asc f A /\ asc f B /\ forall a b, In a A -> In b B -> lt (f a) (f b) = true.
  Proof.
    induction A as [|a A IH]; cbn.
    - split; [intros; repeat split; auto; intros ? ? []|tauto].
    - rewrite IH. split.
      + intros (H1 & H2 & H3 & H4). repeat split; auto; [intros; apply H1; rewrite in_app_iff; auto|].
        intros x b [<-|Hx] Hb; auto. apply H1. rewrite in_app_iff; auto.
      + intros ((H1 & H2) & H3 & H4). repeat split; auto. intros b Hb. rewrite in_app_iff in Hb. destruct Hb; auto.
  Qed.
  Lemma asc_ext f g l : (forall q, In q l -> g q = f q) -> asc f l -> asc g l.
  Proof.
    induction l as [|a l IH]; cbn; auto. intros H (H1 & H2). split; [|apply IH; auto].
    intros b Hb. rewrite !H by auto. auto.
  Qed.
  Hypothesis trans : forall x y z, lt x y = true -> lt y z = true -> lt x z = true.
  Definition upper (s : st) (k : K) (l : list nat) : Prop := forall q, In q l -> lt k (K_of s q) = true.
  Definition lower (s : st) (k : K) (l : list nat) : Prop := forall q, In q l -> lt (K_of s q) k = true.
  Lemma upper_app s k A B : upper s k (A ++ B) <-> upper s k A /\ upper s k B.
  Proof. unfold upper. split; [intros H; split; intros; apply H; rewrite in_app_iff; auto|intros [H1 H2] q Hq; rewrite in_app_iff in Hq; destruct Hq; auto]. Qed.
  Lemma lower_app s k A B : lower s k (A ++ B) <-> lower s k A /\ lower s k B.
  Proof. unfold lower. split; [intros H; split; intros; apply H; rewrite in_app_iff; auto|intros [H1 H2] q Hq; rewrite in_app_iff in Hq; destruct Hq; auto]. Qed.
  (** descending to the side the key belongs to *)
  Lemma step_order (s : st) k x d a b C : lower s k (pre C) -> upper s k (post C) -> asc (K_of s) (ino (nd d x a b)) ->
    (if match d with L => lt k (K_of s x) | R => lt (K_of s x) k end then True else False) ->
    lower s k (pre ((d, x, b) :: C)) /\ upper s k (post ((d, x, b) :: C)) /\ asc (K_of s) (ino a).
  Proof.
    intros Hl Hu Ha Hk. destruct d; cbn [nd ino pre post pref postf] in *.
    - destruct (lt k (K_of s x)) eqn:Ek; [|easy]. apply asc_app in Ha. destruct Ha as (A1 & (A2 & A3) & A4).
      rewrite app_nil_r. split; auto. split; auto. intros q [<-|Hq]; auto. apply in_app_iff in Hq. destruct Hq; auto. eauto.
    - destruct (lt (K_of s x) k) eqn:Ek; [|easy]. apply asc_app in Ha. destruct Ha as (A1 & (A2 & A3) & A4).
      split; [|split; auto]. apply lower_app. split; auto. intros q Hq. apply in_app_iff in Hq. destruct Hq as [Hq|[<-|[]]]; auto.
      eapply trans; [|exact Ek]. apply A4; cbn; auto.
  Qed.

  (** *** the descent of insert_node *)
  Lemma insert_loop_ok : forall n (s : st) C t x cp c node, hgt t <= n -> t <> E -> al s 0 = false -> al s node = true ->
    ~ In node (ino (plug C t)) -> NoDup (ino (plug C t)) -> repc s C x -> rep s x t ->
    (forall g, In g C -> dr s (fad g) = Some (fsd g)) ->
    lower s (K_of s node) (pre C) -> upper s (K_of s node) (post C) -> asc (K_of s) (ino t) -> HeadInv (wt s) C x cp c ->
    exists s' fnd cp' c', insert_loop key lt n s x cp c node = Some (s', fnd, cp', c') /\
      ( (In fnd (ino t) /\ lt (K_of s node) (K_of s fnd) = false /\ lt (K_of s fnd) (K_of s node) = false /\ c' = 0 /\
         ch s' = ch s /\ wt s' = wt s /\ el s' = el s /\ rt s' = rt s /\ sz s' = sz s /\
         al s' = fupd (al s) node false /\ fr s' = node :: fr s)
      \/ (exists C', C' <> [] /\ plug C' E = plug C t /\ fnd = node /\ repc s' C' node /\ rep s' node (N E node E) /\
            dr s' node = None /\ (forall g, In g C' -> dr s' (fad g) = Some (fsd g)) /\
            wt s' node = None /\ (forall q, q <> node -> wt s' q = wt s q) /\
            el s' = el s /\ al s' = al s /\ fr s' = fr s /\ sz s' = sz s + 1 /\ Crit (wt s) C' cp' c' /\
            lower s (K_of s node) (pre C') /\ upper s (K_of s node) (post C'))).
  Proof.
    induction n as [|n IH]; intros s C t x cp c node Hn Ht H0 Hnode Hni HN HC HR Hdr Hlo Hup Ha HH.
    { destruct t; [congruence|]. cbn in Hn. lia. }
    assert (Ax : al s x = true). { destruct t; [congruence|]. destruct HR as (-> & ? & _). auto. }
    cbn [insert_loop]. destruct (Nat.eqb_spec x 0); [congruence|].
    unfold rw, re. rewrite Ax, Hnode. cbn [obind].
    set (c0 := match wt s x with Some _ => x | None => c end).
    assert (Hcr : forall d b, Crit (wt s) ((d, x, b) :: C) cp c0).
    { intros d b. unfold HeadInv in HH. unfold c0. destruct (wt s x) eqn:Ew.
      - exists [], (d, x, b), C. cbn. repeat split; auto; [intros g []|]. right. congruence.
      - destruct HH as [(-> & -> & ->)|(C2 & f & C1 & -> & -> & -> & H1 & H2)].
        + exists [], (d, x, b), []. cbn. repeat split; auto. intros g [].
        + exists ((d, x, b) :: C2), f, C1. repeat split; auto. intros g [<-|Hg]; auto. }
    assert (Hxn : x <> node). { intros ->. apply Hni. apply In_plug. left. destruct t; [congruence|]. destruct HR as (-> & _). cbn. rewrite in_app_iff. cbn. auto. }
    (* the step to side d *)
    assert (GO : forall d, (if match d with L => lt (K_of s node) (K_of s x) | R => lt (K_of s x) (K_of s node) end then True else False) ->
      exists s' fnd cp' c',
        (let? s0 := wd s x (Some d) in
         let? y := rc s0 x d in
         if Nat.eqb y 0 then
           let? s1 := attach_node s0 (Lch x d) node in
           let? x0 := rc s1 x d in Some (s1, x0, cp, c0)
         else let? wx := rw s0 y in
              insert_loop key lt n s0 y (match wx with Some _ => x | None => cp end) c0 node) = Some (s', fnd, cp', c') /\
      ( (In fnd (ino t) /\ lt (K_of s node) (K_of s fnd) = false /\ lt (K_of s fnd) (K_of s node) = false /\ c' = 0 /\
         ch s' = ch s /\ wt s' = wt s /\ el s' = el s /\ rt s' = rt s /\ sz s' = sz s /\
         al s' = fupd (al s) node false /\ fr s' = node :: fr s)
      \/ (exists C', C' <> [] /\ plug C' E = plug C t /\ fnd = node /\ repc s' C' node /\ rep s' node (N E node E) /\
            dr s' node = None /\ (forall g, In g C' -> dr s' (fad g) = Some (fsd g)) /\
            wt s' node = None /\ (forall q, q <> node -> wt s' q = wt s q) /\
            el s' = el s /\ al s' = al s /\ fr s' = fr s /\ sz s' = sz s + 1 /\ Crit (wt s) C' cp' c' /\
            lower s (K_of s node) (pre C') /\ upper s (K_of s node) (post C')))).
    { intros d Hk. destruct (nd_cases d t) as [->|(p & a & b & ->)]; [congruence|].
      pose proof (proj1 (rep_nd _ _ _ _ _ _) HR) as (<- & _ & HRa & HRb).
      unfold wd. rewrite Ax. cbn [obind]. set (s0 := set_dr s x (Some d)).
      unfold rc at 1. cbn [al s0 set_dr]. rewrite Ax. cbn [obind ch s0 set_dr].
      pose proof (step_order s (K_of s node) x d a b C Hlo Hup Ha Hk) as (Hlo' & Hup' & Ha').
      pose proof (proj1 (NoDup_plug _ _) HN) as (HN1 & HNC & HD).
      assert (Hdr0 : forall g, In g ((d, x, b) :: C) -> dr s0 (fad g) = Some (fsd g)).
      { intros g [<-|Hg]; cbn; unfold fupd; [now rewrite Nat.eqb_refl|].
        destruct (Nat.eqb_spec (fad g) x); [|now apply Hdr]. exfalso. apply (HD x); [apply In_nd; auto|].
        rewrite <- e. now apply In_fad. }
      assert (HC0 : repc s0 ((d, x, b) :: C) (ch s x d)).
      { cbn [repc]. repeat split; auto.
        - apply rep_frame with s; auto.
        - apply repc_frame with s; auto. }
      assert (HRa0 : rep s0 (ch s x d) a) by (apply rep_frame with s; auto).
      destruct (Nat.eqb_spec (ch s x d) 0) as [Ey|Ey].
      - (* attach *)
        assert (a = E). { destruct a; auto. destruct HRa as (H1 & H2 & _). rewrite <- H1 in H2. rewrite Ey in H2. congruence. }
        subst a. unfold attach_node, ww, wd, wc, wl, wc. cbn [al s0 set_dr set_wt set_ch obind]. rewrite Hnode. cbn [obind al s0 set_dr set_wt set_ch].
        rewrite Hnode. cbn [obind al s0 set_dr set_wt set_ch]. rewrite Hnode. cbn [obind al s0 set_dr set_wt set_ch]. rewrite Hnode.
        cbn [obind al s0 set_dr set_wt set_ch]. unfold rc. cbn [obind al s0 set_dr set_wt set_ch set_sz ch sz]. rewrite Ax.
        cbn [obind al s0 set_dr set_wt set_ch set_sz ch sz].
        set (s1 := set_sz _ _).
        assert (Ec : cupd (cupd (cupd (ch s) node L 0) node R 0) x d node x d = node).
        { unfold cupd. now rewrite Nat.eqb_refl, side_eqb_refl. }
        rewrite Ec, Ax. cbn [obind]. eexists _, _, _, _. split; [reflexivity|]. right. exists ((d, x, b) :: C).
        assert (Nc : forall q e, q <> node -> Lch q e <> Lch x d -> ch s1 q e = ch s q e).
        { intros q e Hq He. cbn. unfold cupd. destruct (Nat.eqb_spec q x); cbn.
          - subst q. destruct (side_cases d e) as [->| ->]; [congruence|]. rewrite side_eqb_opp'.
            destruct (Nat.eqb_spec x node); [congruence|]. reflexivity.
          - destruct (Nat.eqb_spec q node); [congruence|]. reflexivity. }
        split; [discriminate|]. split; [cbn [plug]; reflexivity|]. split; auto.
        split. { apply repc_move with s0 (ch s x d) (fun q => q = node); auto.
          - apply NoDup_plug with (t := E). exact HN.
          - split; [|split; auto]. intros q e Hq He. now apply Nc.
          - intros q -> Hq. apply Hni. apply (In_plug node ((d, x, b) :: C) E). auto.
          - cbn [locof rl]. unfold rc. cbn. rewrite Ax. f_equal. exact Ec. }
        split. { cbn. split; auto. split; auto. unfold cupd. rewrite Nat.eqb_refl.
          destruct (Nat.eqb_spec node x); [congruence|]. cbn. auto. }
        split. { cbn. unfold fupd. now rewrite Nat.eqb_refl. }
        split. { intros g Hg. cbn. unfold fupd at 1. destruct (Nat.eqb_spec (fad g) node).
          - exfalso. apply Hni. apply (In_plug node ((d, x, b) :: C) E). right. rewrite <- e. now apply In_fad.
          - now apply (Hdr0 g). }
        split. { cbn. unfold fupd. now rewrite Nat.eqb_refl. }
        split. { intros q Hq. cbn. unfold fupd. destruct (Nat.eqb_spec q node); congruence. }
        repeat (split; auto).
      - assert (Ha1 : a <> E) by (intros ->; now apply Ey in HRa).
        assert (Ay : al s (ch s x d) = true). { destruct a; [congruence|]. destruct HRa as (H1 & H2 & _). rewrite H1. auto. }
        unfold rw. cbn [al s0 set_dr wt]. rewrite Ay. cbn [obind].
        rewrite hgt_nd in Hn.
        destruct (IH s0 ((d, x, b) :: C) a (ch s x d) (match wt s (ch s x d) with Some _ => x | None => cp end) c0 node)
          as (s' & fnd & cp' & c' & E1 & E2); auto; [lia| |].
        { unfold HeadInv. cbn [wt s0 set_dr]. destruct (wt s (ch s x d)); cbn; auto. }
        exists s', fnd, cp', c'. split; [exact E1|]. cbn [plug s0 set_dr wt el al fr sz ch rt] in E2.
        destruct E2 as [(Q1 & Q2)|Q]; [left|right; auto].
        split; [|exact Q2]. apply In_nd. auto. }
    destruct t as [|l p r]; [congruence|].
    destruct (lt (key (el s node)) (key (el s x))) eqn:E1.
    { apply (GO L). unfold K_of. now rewrite E1. }
    destruct (lt (key (el s x)) (key (el s node))) eqn:E2.
    { apply (GO R). unfold K_of. now rewrite E2. }
    unfold wd, release. rewrite Ax. cbn [obind al set_dr]. rewrite Hnode. cbn [obind].
    eexists _, _, _, _. split; [reflexivity|]. left. destruct HR as (-> & _).
    split; [cbn; rewrite in_app_iff; cbn; auto|]. cbn. unfold K_of. auto 12.
  Qed.

  (** *** insert_node *)
  (** the tree [t] is well represented in [s]: shape, weights, pool *)
  Record wft (s : st) (t : tr) : Prop := {
    wf_rep : rep s (rt s) t;
    wf_bal : bal (wt s) t;
    wf_nodup : NoDup (ino t);
    wf_null : al s 0 = false;
    wf_al : forall q, al s q = true <-> In q (ino t);
    wf_sz : sz s = length (ino t);
    wf_free : NoDup (fr s) /\ forall q, In q (fr s) -> al s q = false /\ q <> 0;
    wf_asc : asc (K_of s) (ino t) }.

  Lemma hgtc_ge C : forall h, length C + h <= hgtc C h.
  Proof. induction C as [|[[d p] b] C IH]; intros h; cbn [hgtc length]; [lia|]. specialize (IH (S (Nat.max h (hgt b)))). lia. Qed.
  Lemma length_ctx C t : length C <= hgt (plug C t).
  Proof. rewrite hgt_plug. pose proof (hgtc_ge C (hgt t)). lia. Qed.
  Lemma rep_root (s : st) x t : rep s x t -> al s 0 = false -> (x = 0 <-> t = E).
  Proof. destruct t; cbn; [tauto|]. intros (-> & H & _) H0. split; [congruence|discriminate]. Qed.

  Lemma insert_ok n (s : st) t s0 node e : wft s t -> allocate s e = Some (s0, node) -> length (ino t) < n ->
    exists s' fnd, insert_node key lt n s0 node = Some (s', fnd) /\
      ( (In fnd (ino t) /\ lt (key e) (K_of s fnd) = false /\ lt (K_of s fnd) (key e) = false /\ wft s' t /\
         (forall q, In q (ino t) -> el s' q = el s q) /\ fr s' = fr s)
      \/ (exists l1 l2 t', ino t = l1 ++ l2 /\ fnd = node /\ ino t' = l1 ++ node :: l2 /\ wft s' t' /\ el s' node = e /\
            (forall q, In q (ino t) -> el s' q = el s q) /\ fr s = node :: fr s' /\ ~ In node (ino t) /\
            lower s (key e) l1 /\ upper s (key e) l2)).
  Proof.
    intros W Hal Hn. unfold allocate in Hal. destruct (fr s) as [|p f] eqn:Ef; [discriminate|]. injection Hal as <- <-.
    destruct W as [HR HB HN H0 Hal Hsz HF Ha]. rewrite Ef in HF. destruct HF as [HF1 HF2].
    destruct (HF2 p) as [Hp Hp0]; [cbn; auto|].
    assert (Hpt : ~ In p (ino t)) by (rewrite <- Hal; congruence).
    set (s0 := set_el _ p e).
    assert (K0 : K_of s0 p = key e) by (unfold K_of; cbn; unfold fupd; now rewrite Nat.eqb_refl).
    assert (Kq : forall q, In q (ino t) -> K_of s0 q = K_of s q).
    { intros q Hq. unfold K_of; cbn; unfold fupd. destruct (Nat.eqb_spec q p); [congruence|auto]. }
    assert (Ela : forall q, In q (ino t) -> el s0 q = el s q).
    { intros q Hq. cbn; unfold fupd. destruct (Nat.eqb_spec q p); [congruence|auto]. }
    assert (Ala : forall q, In q (ino t) -> al s0 q = true).
    { intros q Hq. cbn; unfold fupd. destruct (Nat.eqb_spec q p); [auto|]. now apply Hal. }
    assert (Als : forall q, al s0 q = true <-> q = p \/ In q (ino t)).
    { intros q. cbn; unfold fupd. destruct (Nat.eqb_spec q p); [tauto|]. rewrite Hal. tauto. }
    assert (A0 : al s0 0 = false). { cbn; unfold fupd. destruct (Nat.eqb_spec 0 p); [congruence|auto]. }
    assert (Ap : al s0 p = true) by (apply Als; auto).
    assert (HR0 : rep s0 (rt s0) t).
    { eapply rep_frame; [|exact HR]. intros q Hq. split; auto. rewrite Ala by auto. symmetry. now apply Hal. }
    unfold insert_node. cbn [rt s0 set_el set_pool] in *. fold s0.
    destruct (Nat.eqb_spec (rt s) 0) as [Er|Er].
    - apply (rep_root s (rt s) t HR H0) in Er. subst t.
      unfold attach_node, ww, wd, wc, wl. cbn [al set_wt set_dr set_ch set_rt obind]. rewrite Ap. cbn [obind al set_wt set_dr set_ch].
      rewrite Ap. cbn [obind al set_wt set_dr set_ch]. rewrite Ap. cbn [obind al set_wt set_dr set_ch]. rewrite Ap.
      cbn [obind al set_wt set_dr set_ch set_rt set_sz rt]. eexists _, _. split; [reflexivity|]. right.
      exists [], [], (N E p E). split; auto. split; auto. split; auto. split.
      { constructor; cbn [rt set_sz set_rt al set_ch set_wt set_dr sz fr ch wt].
        - cbn. split; auto. split; [exact Ap|]. unfold cupd. rewrite Nat.eqb_refl. auto.
        - cbn. unfold fupd. rewrite Nat.eqb_refl. cbn. auto.
        - cbn. repeat constructor. intros [].
        - exact A0.
        - intros q. fold (al s0 q). rewrite Als. cbn. intuition.
        - cbn in Hsz. cbn. lia.
        - inversion HF1; subst. split; auto. intros q Hq. change (In q f) in Hq. cbn. unfold fupd. destruct (Nat.eqb_spec q p); [congruence|].
          apply HF2. cbn. auto.
        - cbn. split; [intros b []|exact I]. }
      cbn. unfold fupd. rewrite Nat.eqb_refl. repeat split; auto; intros q [].
    - assert (Ht : t <> E) by (intros ->; now apply Er in HR).
      pose proof (hgt_ino t).
      destruct (insert_loop_ok n s0 [] t (rt s) 0 (rt s) p) as (s1 & fnd & cp & c & E1 & E2); auto; try (cbn; auto; fail).
      + lia.
      + intros g [].
      + intros q [].
      + intros q [].
      + apply asc_ext with (K_of s); auto.
      + unfold HeadInv. cbn. destruct (wt s (rt s)); auto.
      + rewrite E1. cbn [obind]. destruct E2 as [(Q1 & Q2 & Q3 & -> & Q4 & Q5 & Q6 & Q7 & Q8 & Q9 & Q10)|
           (C' & Q0 & Q1 & -> & Q2 & Q3 & Q4 & Q5 & Q6 & Q7 & Q8 & Q9 & Q10 & Q11 & (C2 & [[d x] b] & C1 & -> & -> & -> & Q12 & Q13) & Q14 & Q15)].
        * cbn [Nat.eqb obind]. eexists _, _. split; [reflexivity|]. left.
          rewrite K0, Kq in Q2, Q3 by auto. split; auto. split; auto. split; auto.
          assert (A1 : forall q, al s1 q = al s q).
          { intros q. rewrite Q9. cbn. unfold fupd. destruct (Nat.eqb_spec q p); congruence. }
          split.
          { constructor.
            - rewrite Q7. cbn. eapply rep_frame; [|exact HR]. intros q Hq. rewrite A1, Q4. auto.
            - rewrite Q5. auto.
            - auto.
            - rewrite A1; auto.
            - intros q. now rewrite A1.
            - rewrite Q8. auto.
            - rewrite Q10. cbn [fr s0 set_el set_pool]. split; auto. intros q Hq. rewrite A1. auto.
            - apply asc_ext with (K_of s0); [intros q Hq; unfold K_of; now rewrite Q6|]. apply asc_ext with (K_of s); auto. }
          split; [intros q Hq; rewrite Q6; auto|]. rewrite Q10. reflexivity.
        * cbn [plug] in Q1. cbn [fad fst snd] in Q13. cbn [fad fsd fst snd] in *.
          assert (EP : plug (C2 ++ (d, x, b) :: C1) (N E p E) = plug C1 (nd d x (plug C2 (N E p E)) b)) by (now rewrite plug_app).
          assert (EP' : plug (C2 ++ (d, x, b) :: C1) E = plug C1 (nd d x (plug C2 E) b)) by (now rewrite plug_app).
          assert (R1 : rep s1 (rt s1) (plug C1 (nd d x (plug C2 (N E p E)) b))).
          { rewrite <- EP. eapply repc_rep; eauto. }
          apply rep_plug in R1. destruct R1 as (y & RC1 & RT1).
          pose proof (proj1 (rep_nd _ _ _ _ _ _) RT1) as (-> & Ax & _).
          assert (NE : ino (plug (C2 ++ (d, x, b) :: C1) (N E p E)) = pre (C2 ++ (d, x, b) :: C1) ++ p :: post (C2 ++ (d, x, b) :: C1)) by (now rewrite ino_plug).
          assert (NE' : ino t = pre (C2 ++ (d, x, b) :: C1) ++ post (C2 ++ (d, x, b) :: C1)) by (rewrite <- Q1; now rewrite ino_plug).
          assert (ND : NoDup (ino (plug (C2 ++ (d, x, b) :: C1) (N E p E)))).
          { rewrite NE. apply (NoDup_Add (a := p) (l := pre (C2 ++ (d, x, b) :: C1) ++ post (C2 ++ (d, x, b) :: C1))); [apply Add_app|].
            rewrite <- NE'. auto. }
          rewrite <- Q1 in HB. apply bal_plug in HB. destruct HB as [_ HB].
          assert (Wp : forall q, In q (cadr (C2 ++ (d, x, b) :: C1)) -> wt s1 q = wt s q).
          { intros q Hq. rewrite Q7; auto. intros ->. apply Hpt. rewrite <- Q1. apply In_plug. auto. }
          pose proof (length_ctx (C2 ++ (d, x, b) :: C1) E) as HL. replace (hgt _) with (hgt t) in HL by (now rewrite <- Q1). rewrite app_length in HL. cbn [length] in HL.
          destruct (balance_ok n s1 C2 d x b C1 p) as (s2 & t' & E3 & R3 & HR3 & HI & HB3).
          { eapply Nat.lt_le_trans; [|apply Nat.lt_le_incl; exact Hn]. eapply Nat.lt_le_trans; [|exact H].
            eapply Nat.lt_le_trans; [|exact HL]. apply Nat.lt_add_pos_r. apply Nat.lt_0_succ. }
          { rewrite Q9. auto. }
          { auto. }
          { auto. }
          { rewrite <- EP. auto. }
          { auto. }
          { auto. }
          { apply (Q5 (d, x, b)). rewrite in_app_iff. cbn. auto. }
          { intros g Hg. apply Q5. rewrite in_app_iff. auto. }
          { intros g Hg. rewrite Wp; [|apply In_fad; rewrite in_app_iff; auto]. now apply Q12. }
          { eapply balc_ext; [|exact HB]. auto. }
          { rewrite Wp; [exact Q13|]. apply In_cadr_app. right. apply In_cadr_cons. auto. }
          assert (Hx0 : x <> 0) by (intros ->; rewrite Q9 in Ax; congruence).
          destruct (Nat.eqb_spec x 0); [congruence|].
          assert (EB : (if Nat.eqb (hda C1) 0 && Nat.eqb x (rt s1) then balance_node n s1 Lroot
                        else if Nat.eqb (hda C1) 0 then Some s1
                        else let? d0 := ri s1 (hda C1) in balance_node n s1 (Lch (hda C1) d0)) = Some s2).
          { destruct C1 as [|[[d1 x1] b1] C1].
            - cbn [hda]. cbn in RC1. rewrite RC1, !Nat.eqb_refl. exact E3.
            - cbn [hda fad fst snd]. pose proof (proj1 (proj2 RC1)) as A1.
              destruct (Nat.eqb_spec x1 0); [subst; rewrite Q9 in A1; congruence|]. cbn [andb].
              unfold ri. rewrite A1. pose proof (Q5 (d1, x1, b1) ltac:(rewrite in_app_iff; cbn; auto)) as Q5'. cbn in Q5'. rewrite Q5'. exact E3. }
          cbn [fad fst snd]. rewrite EB. cbn [obind]. eexists _, _. split; [reflexivity|]. right.
          rewrite <- EP, NE in HI. rewrite NE' in *.
          exists (pre (C2 ++ (d, x, b) :: C1)), (post (C2 ++ (d, x, b) :: C1)), t'.
          destruct R3 as (D1 & D2 & D3 & D4 & D5).
          split; auto. split; auto. split; auto. split.
          { constructor; auto.
            - rewrite HI, <- NE. auto.
            - rewrite D3, Q9. auto.
            - intros q. rewrite D3, Q9, Als, HI, !in_app_iff. cbn. intuition.
            - rewrite D4, Q11, HI. cbn [s0 set_el set_pool sz]. rewrite Hsz, !app_length. cbn. lia.
            - rewrite D5, Q10. cbn [s0 set_el set_pool fr]. inversion HF1; subst. split; auto.
              intros q Hq. rewrite D3, Q9. cbn. unfold fupd. destruct (Nat.eqb_spec q p); [congruence|]. apply HF2. cbn. auto.
            - assert (KE : forall q, K_of s2 q = K_of s0 q) by (intros q; unfold K_of; now rewrite D2, Q8).
              apply asc_ext with (K_of s0); auto. rewrite HI.
              apply asc_ext with (g := K_of s0) in Ha; auto. apply asc_app in Ha. destruct Ha as (A1 & A2 & A3).
              apply asc_app. split; auto. split.
              + cbn [asc]. split; auto.
              + intros a q Ha Hq. destruct Hq as [<-|Hq]; auto. }
          rewrite D2, Q8, D5, Q10. cbn [s0 set_el set_pool fr].
          split. { cbn. unfold fupd. now rewrite Nat.eqb_refl. }
          split; auto. split; auto. split; auto.
          unfold lower, upper in *. rewrite K0 in *. split; intros q Hq; rewrite <- Kq; auto; rewrite in_app_iff; auto.
  Qed.
End Ins.
