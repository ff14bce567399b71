(** * Removal from the balanced tree of multimap/multiset: the path and the detached node (proof support for C51) *)
From Coq Require Import List Arith Lia Bool.
From Verif Require Import Util SortSpec HeapProofs AvlModel AvlTree AvlRot AvlIns AvlDel AvlRem MmModel MmTree MmIns MmDel.
Import ListNotations.

Section Rem.
  Context {X K : Type}.
  Variable key : X -> K.
  Variable lt : K -> K -> bool.
  Hypothesis O : strict_weak_order lt.
  Notation st := (st X).
  Notation K_of := (K_of key).

  Lemma drest_trans (s1 s2 s3 : st) : drest s1 s2 -> drest s2 s3 -> drest s1 s3.
  Proof using. unfold drest. intuition congruence. Qed.
  Lemma drest_dr (s : st) p w : drest s (set_dr s p w).
  Proof using. repeat split. Qed.

  Lemma mark_path_ok C : forall n (s : st) g x T, length C < n -> po s g (plug C T) -> repc s C x -> rep s x T -> T <> E ->
    exists s', mark_path n s g x = Some (s', rt s) /\ drest s s' /\ drs s' C /\ (forall q, ~ In q (cadr C) -> dr s' q = dr s q).
  Proof using.
    induction C as [|[[d p] b] C IH]; intros n s g x T Hn HP HC HR HT; (destruct n; [cbn in Hn; lia|]); cbn [mark_path].
    - destruct T as [|l y r]; [congruence|]. pose proof (po_prep _ _ _ HP) as HPP. cbn in HC, HR, HPP. destruct HR as (Ey & Ax & _). subst x. unfold rp. rewrite Ey, Ax. cbn [obind]. destruct HPP as (-> & _). cbn [Nat.eqb].
      exists s. rewrite <- Ey. split; auto. split; [repeat split|]. split; [intros h []|auto].
    - pose proof HC as HC'. cbn [repc] in HC. destruct HC as (E1 & Ap & HRb & HC). cbn [plug] in HP.
      assert (Hp0 : p <> 0) by (intros ->; rewrite (po_null _ _ _ HP) in Ap; discriminate).
      assert (Ax : al s x = true /\ x <> 0 /\ g x = p).
      { pose proof (po_prep _ _ _ HP) as HPP. apply prep_plug in HPP. destruct HPP as [HPP _]. apply prep_nd in HPP. destruct HPP as (_ & HPP & _).
        destruct T as [|l y r]; [congruence|]. cbn in HR. destruct HR as (-> & Ay & _). cbn in HPP. repeat split; try tauto. intros ->. rewrite (po_null _ _ _ HP) in Ay. discriminate. }
      destruct Ax as (Ax & Hx0 & Gx). unfold rp. rewrite Ax. cbn [obind]. rewrite Gx. destruct (Nat.eqb_spec p 0); [congruence|].
      unfold rc. rewrite Ap. cbn [obind].
      assert (Ip : In p (ino (plug C (nd d p T b)))) by (apply In_plug; left; apply In_nd; auto).
      rewrite (child_dir s g _ x p d HP Ip Hx0 E1). rewrite wd_eq by auto. cbn [obind].
      pose proof (drest_dr s p (Some d)) as D1.
      destruct (IH n (set_dr s p (Some d)) g p (nd d p T b)) as (s' & E2 & D2 & D3 & D4).
      + cbn in Hn. lia.
      + eapply po_drest; eauto.
      + eapply repc_drest; eauto.
      + eapply rep_drest; [exact D1|]. apply rep_nd. rewrite E1. auto.
      + apply nd_neq.
      + exists s'. split; [exact E2|]. split; [first [exact (drest_trans _ _ _ D1 D2)|exact (drest_trans _ _ _ D1 Q2)]|].
        pose proof (proj1 (NoDup_plug _ _) (po_nd _ _ _ HP)) as (_ & _ & HD).
        assert (Npc : ~ In p (cadr C)) by (intros Hx; apply (HD p); auto; apply In_nd; auto).
        split.
        * intros h [<-|Hh]; [|now apply D3]. cbn. rewrite D4 by auto. cbn. apply fupd_eq.
        * intros q Hq. rewrite In_cadr_cons in Hq. rewrite D4 by tauto. cbn. apply fupd_ne. intros ->. tauto.
  Qed.

  Lemma absorbs_ok (s : st) x d a b : rep s x (nd d x a b) -> bal (wt s) (nd d x a b) -> absorbs s x d = Some (absb (wt s) (d, x, b)).
  Proof using.
    intros HR HB. apply bal_nd in HB. destruct HB as (Ba & Bb & Bx). pose proof (proj1 (rep_nd _ _ _ _ _ _) HR) as (_ & Ax & HRa & HRb).
    unfold absorbs, absb. unfold rw at 1. rewrite Ax. cbn [obind]. destruct (wt s x) as [w|]; auto. destruct (side_cases d w) as [->| ->]; [now rewrite side_eqb_opp|].
    rewrite side_eqb_refl. unfold rc, rw. rewrite Ax. cbn [obind].
    cbn in Bx. rewrite side_eqb_opp' in Bx. destruct b as [|b1 nb b2]; [cbn in Bx; lia|].
    destruct HRb as (-> & Anb & _). rewrite Anb. cbn. reflexivity.
  Qed.
  Definition BI (w : nat -> option side) (C : ctx) (x b : nat) : Prop := exists bp, BalInv w C x b bp.
  Lemma BI_step w C x b d o y : BI w C x b -> BI w ((d, x, o) :: C) y (if absb w (d, x, o) then x else b).
  Proof using.
    intros (bp & H). destruct (absb w (d, x, o)) eqn:Ea.
    - exists (hda C). right. exists [], (d, x, o), C. cbn [app fad fst snd]. repeat split; auto. intros h [].
    - destruct H as [(-> & -> & ->)|(P & h & Cb & -> & -> & -> & Q1 & Q2)].
      + exists 0. right. exists [], (d, x, o), []. cbn. repeat split; auto. intros h [].
      + exists (hda Cb). right. exists ((d, x, o) :: P), h, Cb. repeat split; auto. intros h' [<-|Hh]; auto.
  Qed.

  Lemma to_found_ok f a b P : forall n (s : st) C x balance, length P < n -> al s 0 = false -> rep s x (plug P (N a f b)) ->
    NoDup (ino (plug P (N a f b))) -> bal (wt s) (plug P (N a f b)) -> drs s P -> BI (wt s) C x balance ->
    exists s' balance', to_found n s x f balance = Some (s', f, balance') /\ drest s s' /\ (forall q, q <> f -> dr s' q = dr s q) /\
      dr s' f = Some (if Nat.eqb (ch s f L) 0 then R else L) /\ BI (wt s) (P ++ C) f balance'.
  Proof using.
    induction P as [|[[d p] o] P IH] using rev_ind; intros n s C x balance Hn H0 HR HN HB Hdr HBI.
    - destruct n; [cbn in Hn; lia|]. cbn [plug] in *. destruct HR as (-> & Af & _). cbn [to_found]. destruct (Nat.eqb_spec f 0); [congruence|]. rewrite Nat.eqb_refl.
      unfold rc. rewrite Af. cbn [obind]. rewrite wd_eq by auto. cbn [obind]. eexists _, _. split; [reflexivity|]. split; [apply drest_dr|].
      split; [intros q Hq; cbn; now apply fupd_ne|]. split; [cbn; apply fupd_eq|]. exact HBI.
    - rewrite app_length in Hn. cbn in Hn. destruct n; [lia|]. rewrite plug_app in *. cbn [plug] in *. set (u := plug P (N a f b)) in *.
      pose proof (proj1 (rep_nd _ _ _ _ _ _) HR) as (-> & Ap & HRu & HRo).
      pose proof (proj1 (NoDup_nd _ _ _ _) HN) as (Np1 & _ & Nu & _ & _).
      cbn [to_found]. destruct (Nat.eqb_spec p 0); [congruence|]. destruct (Nat.eqb_spec p f).
      { exfalso. apply Np1. unfold u. apply In_plug. left. cbn. rewrite in_app_iff. cbn. auto. }
      unfold ri. rewrite Ap. assert (Dp : dr s p = Some d) by (apply (Hdr (d, p, o)); rewrite in_app_iff; cbn; auto). rewrite Dp. cbn [obind].
      rewrite (absorbs_ok s p d u o HR HB). cbn [obind]. unfold rc. rewrite Ap. cbn [obind].
      apply bal_nd in HB. destruct HB as (Bu & _ & _).
      destruct (IH n s ((d, p, o) :: C) (ch s p d) (if absb (wt s) (d, p, o) then p else balance)) as (s' & b' & Q1 & Q2 & Q3 & Q4 & Q5); auto.
      { lia. }
      { intros h Hh. apply Hdr. rewrite in_app_iff. auto. }
      { now apply BI_step. }
      exists s', b'. do 4 (split; auto). rewrite <- app_assoc. exact Q5.
  Qed.

  (** the descent into a subtree of smaller keys *)
  Lemma to_replace_left (e : X) : forall n (s : st) C d x a b balance, hgt a < n -> al s 0 = false -> repc s C x -> rep s x (nd d x a b) ->
    NoDup (ino (plug C (nd d x a b))) -> bal (wt s) (nd d x a b) -> drs s C -> dr s x = Some d -> BI (wt s) C x balance ->
    (forall z, In z (ino a) -> lt (K_of s z) (key e) = true) ->
    exists s' C' r dT q balance', to_replace key lt n s x e balance = Some (s', r, balance') /\ drest s s' /\
      plug C' (nd dT r E q) = plug C (nd d x a b) /\ repc s' C' r /\ rep s' r (nd dT r E q) /\ drs s' C' /\ dr s' r = Some dT /\ BI (wt s) C' r balance' /\
      ((a = E /\ C' = C /\ r = x /\ dT = d /\ q = b) \/ (exists A, C' = A ++ (d, x, b) :: C /\ (forall h, In h A -> fsd h = R) /\ dT = R)).
  Proof using O.
    induction n as [|n IH]; intros s C d x a b balance Hn H0 HC HR HN HB HdC Hdx HBI Hlt; [lia|].
    pose proof (proj1 (rep_nd _ _ _ _ _ _) HR) as (_ & Ax & HRa & HRb). assert (x <> 0) by congruence.
    cbn [to_replace]. destruct (Nat.eqb_spec x 0); [congruence|]. unfold ri. rewrite Ax, Hdx. cbn [obind]. unfold rc at 1. rewrite Ax. cbn [obind].
    destruct (Nat.eqb_spec (ch s x d) 0) as [Ey|Ey].
    - assert (a = E). { destruct a; auto. destruct HRa as (H1 & H2 & _). rewrite <- H1 in H2. rewrite Ey in H2. congruence. } subst a.
      exists s, C, x, d, b, balance. split; auto. split; [repeat split|]. do 6 (split; auto). left. auto.
    - rewrite (absorbs_ok s x d a b HR HB). cbn [obind].
      destruct (nd_cases R a) as [->|(y & a1 & b1 & ->)]; [cbn in HRa; congruence|].
      pose proof (proj1 (rep_nd _ _ _ _ _ _) HRa) as (EY & Ay & HRa1 & HRb1). rewrite EY in *. unfold re. unfold rc at 1. rewrite Ay. cbn [obind].
      assert (L1 : lt (key (el s y)) (key e) = true) by (apply (Hlt y), In_nd; auto). rewrite L1, (lt_asym lt O _ _ L1).
      rewrite wd_eq by auto. cbn [obind]. set (s1 := set_dr s y (Some R)). pose proof (drest_dr s y (Some R) : drest s s1) as D1.
      apply bal_nd in HB. destruct HB as (Ba & Bb & Bw).
      pose proof (proj1 (NoDup_plug _ _) HN) as (HN1 & HNC & HD). pose proof (proj1 (NoDup_nd _ _ _ _) HN1) as (Nx1 & Nx2 & Na & Nb & Dab).
      assert (Iy : In y (ino (nd R y a1 b1))) by (apply In_nd; auto).
      destruct (IH s1 ((d, x, b) :: C) R y a1 b1 (if absb (wt s) (d, x, b) then x else balance)) as (s' & C' & r & dT & q & b' & Q1 & Q2 & Q3 & Q4 & Q5 & Q6 & Q7 & Q8 & Q9).
      { rewrite hgt_nd in Hn. lia. }
      { exact H0. }
      { eapply repc_drest; [exact D1|]. cbn [repc]. auto. }
      { eapply rep_drest; eauto. }
      { exact HN. }
      { exact Ba. }
      { intros h [<-|Hh]; cbn.
        - rewrite fupd_ne; auto. intros ->. auto.
        - rewrite fupd_ne; [now apply HdC|]. intros Hx. apply (HD y); [apply In_nd; auto|]. rewrite <- Hx. now apply In_fad. }
      { cbn. apply fupd_eq. }
      { now apply BI_step. }
      { intros z Hz. apply Hlt. apply In_nd. auto. }
      exists s', C', r, dT, q, b'. split; [exact Q1|]. split; [first [exact (drest_trans _ _ _ D1 D2)|exact (drest_trans _ _ _ D1 Q2)]|]. split; [exact Q3|]. do 5 (split; auto).
      right. destruct Q9 as [(_ & -> & -> & -> & ->)|(A & -> & QA & ->)].
      + exists []. split; auto. split; auto. intros h [].
      + exists (A ++ [(R, y, b1)]). rewrite <- app_assoc. split; auto. split; auto. intros h Hh. rewrite in_app_iff in Hh. destruct Hh as [Hh|[<-|[]]]; auto.
  Qed.
  (** the node has no left child: its right child, if any, is a leaf *)
  Lemma to_replace_right (e : X) n (s : st) C x a balance : 1 < n -> al s 0 = false -> repc s C x -> rep s x (nd R x a E) ->
    NoDup (ino (plug C (nd R x a E))) -> bal (wt s) (nd R x a E) -> drs s C -> dr s x = Some R -> BI (wt s) C x balance ->
    exists s' C' r dT balance', to_replace key lt n s x e balance = Some (s', r, balance') /\ drest s s' /\
      plug C' (nd dT r E E) = plug C (nd R x a E) /\ repc s' C' r /\ rep s' r (nd dT r E E) /\ drs s' C' /\ dr s' r = Some dT /\ BI (wt s) C' r balance' /\
      ((C' = C /\ r = x) \/ C' = (R, x, E) :: C).
  Proof using.
    intros Hn H0 HC HR HN HB HdC Hdx HBI. destruct n as [|n]; [lia|].
    pose proof (proj1 (rep_nd _ _ _ _ _ _) HR) as (_ & Ax & HRa & HRb). assert (x <> 0) by congruence.
    cbn [to_replace]. destruct (Nat.eqb_spec x 0); [congruence|]. unfold ri at 1. rewrite Ax, Hdx. cbn [obind]. unfold rc at 1. rewrite Ax. cbn [obind].
    destruct (Nat.eqb_spec (ch s x R) 0) as [Ey|Ey].
    - assert (a = E). { destruct a; auto. destruct HRa as (H1 & H2 & _). rewrite <- H1 in H2. rewrite Ey in H2. congruence. } subst a.
      exists s, C, x, R, balance. split; auto. split; [repeat split|]. do 6 (split; auto).
    - rewrite (absorbs_ok s x R a E HR HB). cbn [obind].
      apply bal_nd in HB. destruct HB as (Ba & _ & Bw).
      destruct a as [|a1 y a2]; [cbn in HRa; congruence|].
      assert (a1 = E /\ a2 = E) as [-> ->].
      { destruct a1, a2; auto; cbn in Bw; destruct (wt s x) as [[]|]; cbn in Bw; lia. }
      pose proof HRa as (EY & Ay & HRa1 & HRa2). rewrite EY in *. unfold re. unfold rc at 1. rewrite Ay. cbn [obind]. rewrite wd_eq by auto. cbn [obind].
      set (d := if lt (key e) (key (el s y)) then L else if lt (key (el s y)) (key e) then R else if ch s y L =? 0 then R else L). clearbody d.
      set (s1 := set_dr s y (Some d)). pose proof (drest_dr s y (Some d) : drest s s1) as D1.
      destruct n as [|n]; [lia|]. cbn [to_replace]. assert (y <> 0) by congruence. destruct (Nat.eqb_spec y 0); [congruence|]. unfold ri. cbn [al s1 set_dr dr]. rewrite Ay, fupd_eq. cbn [obind].
      unfold rc. cbn [al s1 set_dr ch]. rewrite Ay. cbn [obind]. replace (ch s y d =? 0) with true by (cbn in HRa1, HRa2; destruct d; rewrite ?HRa1, ?HRa2; reflexivity).
      pose proof (proj1 (NoDup_plug _ _) HN) as (HN1 & HNC & HD). pose proof (proj1 (NoDup_nd _ _ _ _) HN1) as (Nx1 & _ & _ & _ & _).
      eexists _, ((R, x, E) :: C), y, d, _. split; [reflexivity|]. split; [exact D1|]. split; [cbn [plug]; now destruct d|].
      split. { eapply repc_drest; [exact D1|]. cbn [repc]. auto. }
      split. { eapply rep_drest; [exact D1|]. destruct d; exact HRa. }
      split. { intros h [<-|Hh]; cbn.
        - rewrite fupd_ne; auto. intros ->. apply Nx1. cbn. auto.
        - rewrite fupd_ne; [now apply HdC|]. intros Hx. apply (HD y); [cbn; auto|]. rewrite <- Hx. now apply In_fad. }
      split; [cbn; apply fupd_eq|]. split; [now apply BI_step|]. auto.
  Qed.

  Lemma mdetach_base (s s' : st) g pos repl dt sw d x : rl s pos = Some dt -> rl s repl = Some sw -> detach_node s pos repl = Some s' ->
    dr s sw = Some d -> (forall s1, wl s pos sw = Some s1 -> ch s1 sw (opp d) = x) ->
    (x <> 0 -> al s x = true) -> (forall e, ch s' sw e <> 0 -> al s (ch s' sw e) = true) ->
    mdetach_node s g pos repl = Some (s', gset (gset (fupd (gset g x (g sw)) sw (gset g x (g sw) dt)) (ch s' sw L) sw) (ch s' sw R) sw).
  Proof using.
    intros H1 H2 HD Hd Hx Ax Ac. unfold detach_node in HD. unfold mdetach_node. rewrite H1, H2 in *. cbn [obind] in *.
    assert (WL : forall (s s1 : st) l y, wl s l y = Some s1 -> al s1 = al s /\ dr s1 = dr s).
    { intros a a1 l y. destruct l as [|p e]; cbn; [intros [= <-]; auto|]. unfold wc. destruct (al a p); [|discriminate]. intros [= <-]. auto. }
    destruct (wl s pos sw) as [s1|] eqn:E1; [|discriminate]. cbn [obind] in *. specialize (Hx s1 eq_refl). destruct (WL _ _ _ _ E1) as [A1 D1].
    unfold ri at 1 in HD. unfold ri at 1. destruct (al s1 sw) eqn:Asw; [|discriminate]. rewrite D1, Hd in *. cbn [obind] in *.
    unfold rc at 1 in HD. unfold rc at 1. rewrite Asw in HD |- *. cbn [obind] in *. rewrite Hx in *.
    destruct (wl s1 repl x) as [s2|] eqn:E2; [|discriminate]. cbn [obind] in *. destruct (WL _ _ _ _ E2) as [A2 D2].
    assert (W : forall (a : st) (g : par) y p, al a = al s -> (y <> 0 -> al s y = true) -> wpn (E:=X) a g y p = Some (gset g y p)).
    { intros a g0 y p Ha Hy. unfold wpn, gset, wp. destruct (Nat.eqb_spec y 0); auto. rewrite Ha, Hy; auto. }
    assert (As : al s sw = true) by congruence. rewrite A1 in A2. clear E1 E2 Hx.
    unfold rp at 1. rewrite A2, As. cbn [obind]. rewrite W by (congruence || auto). cbn [obind].
    unfold rc in HD at 1. destruct (al s2 dt) eqn:Adt; [|discriminate]. cbn [obind] in HD. assert (Asd : al s dt = true) by congruence.
    unfold rp. rewrite A2, Asd. cbn [obind]. unfold wp at 1. rewrite A2, As. cbn [obind]. unfold rc at 1. rewrite Adt. cbn [obind].
    unfold wc at 1 in HD. unfold wc at 1. rewrite A2, As in HD |- *. cbn [obind] in *.
    unfold rc at 1 in HD. unfold rc at 1. cbn [al set_ch] in *. rewrite A2, Asd in HD |- *. cbn [obind] in *.
    unfold wc at 1 in HD. unfold wc at 1. cbn [al set_ch] in *. rewrite A2, As in HD |- *. cbn [obind] in *.
    unfold rw in *. cbn [al set_ch wt] in *. rewrite A2, Asd in HD |- *. cbn [obind] in *. rewrite ww_eq in HD by (cbn; congruence). injection HD as HD.
    unfold rc at 1. cbn [al set_ch]. rewrite A2, As. cbn [obind].
    set (s3 := set_ch (set_ch s2 sw L _) sw R _) in *.
    assert (CE : forall e, ch s3 sw e = ch s' sw e) by (intros; now rewrite <- HD).
    rewrite CE. rewrite W; [|cbn; congruence|apply Ac]. cbn [obind]. unfold rc at 1. cbn [al s3 set_ch]. rewrite A2, As. cbn [obind]. fold s3. rewrite CE.
    rewrite W; [|cbn; congruence|apply Ac]. cbn [obind]. rewrite ww_eq by (cbn; congruence). cbn [obind]. rewrite HD. reflexivity.
  Qed.
End Rem.
