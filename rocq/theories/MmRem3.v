(** * Removal from the balanced tree of multimap/multiset: remove_node (proof support for C51) *)
From Coq Require Import List Arith Lia Bool.
From Verif Require Import Util SortSpec HeapProofs AvlModel AvlTree AvlRot AvlIns AvlDel AvlRem AvlFind MmModel MmTree MmIns MmDel MmRem MmRem2.
Import ListNotations.

Section Rem.
  Context {X K : Type}.
  Variable key : X -> K.
  Variable lt : K -> K -> bool.
  Hypothesis O : strict_weak_order lt.
  Notation st := (st X).
  Notation K_of := (K_of key).
  Notation mwf := (mwf key lt).

  Lemma nodup_mid {A : Type} (x : A) l1 l2 l1' l2' : NoDup (l1 ++ x :: l2) -> l1 ++ x :: l2 = l1' ++ x :: l2' -> l1 = l1' /\ l2 = l2'.
  Proof using.
    revert l1'. induction l1 as [|a l1 IH]; intros [|b l1'] HN HE; cbn in *; apply NoDup_cons_iff in HN; destruct HN as [HN1 HN2].
    - injection HE as ->. auto.
    - injection HE as E1 E2. exfalso. subst b. apply HN1. rewrite E2, in_app_iff. cbn. auto.
    - injection HE as E1 E2. exfalso. subst a. apply HN1. rewrite in_app_iff. cbn. auto.
    - injection HE as E1 E2. subst b. destruct (IH l1') as [-> ->]; auto.
  Qed.
  Lemma nasc_remove f (A : list nat) x B : nasc (K := K) lt f (A ++ x :: B) -> nasc lt f (A ++ B).
  Proof using. rewrite !nasc_app. cbn [nasc]. intros (H1 & (H2 & H3) & H4). repeat split; auto. intros a b Ha Hb. apply H4; cbn; auto. Qed.

  Lemma path_replace n (s : st) C f a b balance e : hgt a < n -> 1 < n -> al s 0 = false -> repc s C f -> rep s f (N a f b) -> NoDup (ino (plug C (N a f b))) ->
    bal (wt s) (N a f b) -> drs s C -> dr s f = Some (if Nat.eqb (ch s f L) 0 then R else L) -> BI (wt s) C f balance ->
    (forall z, In z (ino a) -> lt (K_of s z) (key e) = true) ->
    exists s' C' r dT q balance', to_replace key lt n s f e balance = Some (s', r, balance') /\ drest s s' /\
      plug C' (nd dT r E q) = plug C (N a f b) /\ repc s' C' r /\ rep s' r (nd dT r E q) /\ drs s' C' /\ dr s' r = Some dT /\ BI (wt s) C' r balance' /\
      MTR C' r dT q f.
  Proof using O.
    intros Hn1 Hn2 H0 HC HR HN HB HdC Hdf HBI Hlt. pose proof HR as (_ & Af & HRa & HRb).
    destruct (Nat.eqb_spec (ch s f L) 0) as [Ey|Ey].
    - assert (a = E). { destruct a; auto. destruct HRa as (Q1 & Q2 & _). rewrite <- Q1, Ey in Q2. congruence. } subst a.
      destruct (to_replace_right key lt e n s C f b balance Hn2 H0 HC HR HN HB HdC Hdf HBI) as (s' & C' & r & dT & b' & Q1 & Q2 & Q3 & Q4 & Q5 & Q6 & Q7 & Q8 & Q9).
      exists s', C', r, dT, E, b'. do 8 (split; auto). destruct Q9 as [[-> ->]| ->]; [right; auto|].
      left. exists [], R, E, C. split; [reflexivity|]. split; [intros h []|auto].
    - destruct (to_replace_left key lt O e n s C L f a b balance Hn1 H0 HC HR HN HB HdC Hdf HBI Hlt) as (s' & C' & r & dT & q & b' & Q1 & Q2 & Q3 & Q4 & Q5 & Q6 & Q7 & Q8 & Q9).
      exists s', C', r, dT, q, b'. do 8 (split; auto).
      destruct Q9 as [(-> & _)|(A & -> & QA & ->)]; [cbn in HRa; congruence|].
      left. exists A, L, b, C. auto.
  Qed.

  Lemma mremove_ok n (s : st) g t f l1 l2 : mwf s g t -> length (ino t) + 1 < n -> ino t = l1 ++ f :: l2 -> (forall z, In z l1 -> lt (K_of s z) (K_of s f) = true) ->
    exists s' g' t', mremove_node key lt n s g f = Some (s', g') /\ ino t' = l1 ++ l2 /\ mwf s' g' t' /\ el s' = el s /\ fr s' = f :: fr s.
  Proof using O.
    intros W Hn Hf Hlt. destruct W as [HPO HB Hal Hsz HF Ha]. pose proof HPO as [HR HN H0 HP].
    assert (If : In f (ino t)) by (rewrite Hf, in_app_iff; cbn; auto).
    assert (Af : al s f = true) by (now apply Hal). assert (Hf0 : f <> 0) by congruence.
    destruct (in_split_tree t f If) as (C & a & b & ->).
    pose proof (length_ctx C (N a f b)) as HLC. pose proof (hgt_ino (plug C (N a f b))) as Hh.
    assert (Ea : forall z, In z (ino a) -> In z l1).
    { rewrite ino_plug in Hf, HN. cbn [ino] in Hf, HN. rewrite <- !app_assoc in Hf, HN. cbn [app] in Hf, HN.
      rewrite !app_assoc in Hf, HN. rewrite <- app_assoc in Hf, HN.
      destruct (nodup_mid f (pre C ++ ino a) (ino b ++ post C) l1 l2) as [<- _]; auto; try (cbn in *; rewrite <- ?app_assoc in *; cbn in *; auto; fail).
      intros z Hz. rewrite in_app_iff. auto. }
    destruct (proj1 (rep_plug _ _ _) HR) as (x & HC & HRf). assert (x = f) by (destruct HRf; auto). subst x.
    unfold mremove_node. destruct (Nat.eqb_spec f 0); [congruence|]. unfold re at 1. rewrite Af. cbn [obind].
    destruct (mark_path_ok C n s g f (N a f b)) as (s1 & E1 & D1 & P1 & P2); auto; [lia|discriminate|].
    rewrite E1. cbn [obind].
    pose proof D1 as (D11 & D12 & D13 & D14 & D15 & D16 & D17).
    destruct (to_found_ok f a b C n s1 [] (rt s) (rt s1)) as (s2 & bal2 & E2 & D2 & P3 & P4 & P5); auto.
    { lia. }
    { rewrite D14; auto. }
    { eapply rep_drest; eauto. }
    { rewrite D12; auto. }
    { exists 0. left. auto. }
    rewrite E2. cbn [obind]. rewrite app_nil_r in P5.
    pose proof (drest_trans _ _ _ D1 D2) as D3. pose proof D3 as (D31 & D32 & D33 & D34 & D35 & D36 & D37).
    pose proof D2 as (D21 & D22 & _).
    pose proof (proj1 (bal_plug _ _ _) HB) as (HBf & HBC).
    pose proof (proj1 (NoDup_plug _ _) HN) as (_ & _ & HD).
    destruct (path_replace n s2 C f a b bal2 (el s f)) as (s3 & C' & r & dT & q & b3 & E3 & D4 & Q1 & Q2 & Q3 & Q4 & Q5 & Q6 & Q7); auto.
    { pose proof (hgt_ino a) as Hga. clear - Hga Hn. rewrite ino_plug in Hn. cbn [ino] in Hn. rewrite !app_length in Hn. lia. }
    { rewrite Hf, app_length in Hn. cbn in Hn. lia. }
    { rewrite D34; auto. }
    { eapply repc_drest; eauto. }
    { eapply rep_drest; eauto. }
    { rewrite D32; auto. }
    { intros h Hh'. rewrite P3; [now apply P1|]. intros Hx. apply (HD f); [cbn; rewrite in_app_iff; cbn; auto|]. rewrite <- Hx. now apply In_fad. }
    { rewrite P4. now rewrite D21. }
    { now rewrite D22. }
    { intros z Hz. unfold AvlIns.K_of. rewrite D33. apply Hlt; auto. }
    rewrite E3. cbn [obind].
    pose proof (drest_trans _ _ _ D3 D4) as D5. pose proof D5 as (S1 & S2 & S3 & S4 & S5 & S6 & S7). clear D11 D12 D13 D14 D15 D16 D17 D21 D22 P1 P2 P3 P4 P5 E1 E2.
    assert (HPO3 : po s3 g (plug C' (nd dT r E q))) by (rewrite Q1; eapply po_drest; eauto).
    assert (HB3 : bal (wt s3) (plug C' (nd dT r E q))) by (rewrite Q1, S2; auto).
    assert (RB : exists s4 g4 C4, mrebalance_loop n s3 g b3 = Some (s4, g4) /\ po s4 g4 (plug C4 (nd dT r E q)) /\ repc s4 C4 r /\ rep s4 r (nd dT r E q) /\
      balc (wt s4) C4 (hgt (nd dT r E q) - 1) /\ bal (wt s4) q /\ pre C4 = pre C' /\ post C4 = post C' /\
      drs s4 C4 /\ MTR C4 r dT q f /\ el s4 = el s3 /\ al s4 = al s3 /\ sz s4 = sz s3 /\ fr s4 = fr s3 /\ dr s4 r = Some dT).
    { pose proof (length_ctx C' (nd dT r E q)) as HL. rewrite Q1 in HL.
      destruct Q6 as (bp & [(-> & -> & ->)|(P & h & Cb & -> & -> & -> & G1 & G2)]).
      - apply (mrebal_loop_ok dT r q f [] n s3 g [] r); auto; try (cbn; lia); try exact (fun _ => I).
        intros P' h Hx. destruct P'; discriminate.
      - rewrite D32, <- S2 in G1, G2. assert (EC : P ++ h :: Cb = (P ++ [h]) ++ Cb) by (now rewrite <- app_assoc).
        rewrite EC in *. rewrite app_length in HL. rewrite plug_app in HPO3, HB3.
        apply bal_plug in HB3. destruct HB3 as [HB1 HB2].
        destruct (proj1 (rep_plug _ _ _) (po_rep _ _ _ HPO3)) as (y & HCb & RY).
        assert (Ey : y = fad h) by (destruct h as [[dg pg] og]; rewrite plug_app in RY; cbn [plug] in RY; apply rep_nd in RY; tauto). subst y.
        apply mrebal_loop_ok; auto.
        + lia.
        + intros Hx. destruct P; discriminate.
        + intros P' g' Hx. apply app_inj_tail in Hx. destruct Hx as [-> ->]. split; auto.
          destruct G2 as [-> | ->]; [|cbn; auto]. rewrite Nat.sub_0_r. auto. }
    destruct RB as (s4 & g4 & C4 & E4 & B1 & B2 & B3 & B4 & B5 & B6 & B7 & B8 & B9 & B10 & B11 & B12 & B13 & B14).
    rewrite E4. cbn [obind].
    assert (HT : hgt (nd dT r E q) - 1 = hgt q) by (rewrite hgt_nd; cbn; lia). rewrite HT in B4.
    destruct (mdetach_ok s4 g4 C4 r dT q f B1 B2 B3 B14 B4 B5 B8 B9) as (s5 & g5 & t' & k1 & k2 & E5 & F1 & F2 & F3 & F4 & F5 & (T1 & T2 & T3 & T4 & T5)).
    assert (E5' : forall (Y : Type) (M : st * par -> option Y), (let? fp := rp s4 g4 f in let? np := rp s4 g4 r in
        let? z := (if negb (Nat.eqb fp 0) then
          let? df := ri s4 fp in
          let? dn := ri s4 np in
          mdetach_node s4 g4 (Lch fp df) (Lch np dn)
        else if negb (Nat.eqb np 0) then
          let? dn := ri s4 np in
          mdetach_node s4 g4 Lroot (Lch np dn)
        else mdetach_node s4 g4 Lroot Lroot) in M z) = M (s5, g5)).
    { intros Y M. destruct (rp s4 g4 f); [|discriminate]. cbn [obind] in *. destruct (rp s4 g4 r); [|discriminate]. cbn [obind] in *. rewrite E5. reflexivity. }
    rewrite E5'.
    assert (INO : ino (plug C4 (nd dT r E q)) = ino (plug C (N a f b))) by (rewrite <- Q1, !ino_plug, B6, B7; auto).
    rewrite INO, Hf in F4. destruct (nodup_mid f l1 l2 k1 k2) as [<- <-]; [rewrite <- Hf; auto|auto|].
    unfold release. cbn [al set_sz].
    assert (AE : forall z, al s5 z = al s z) by (intros; rewrite T3, B11, S4; auto).
    rewrite AE, Af. cbn [obind].
    eexists _, _, t'. split; [reflexivity|]. split; auto.
    rewrite Hf in HN. pose proof (NoDup_remove _ _ _ HN) as [HNa HNb].
    assert (FR : fr s5 = fr s) by congruence.
    split; [|cbn; rewrite FR, T2, B10, S3; auto].
    constructor; cbn [rt set_pool set_sz wt al sz fr el].
    - constructor.
      + rewrite <- F5 in HNb. cbn [rt set_pool set_sz]. eapply rep_frame; [|exact F1]. intros z Hz. cbn. unfold fupd.
        destruct (Nat.eqb_spec z f); [congruence|]. auto.
      + rewrite F5. auto.
      + cbn. unfold fupd. rewrite AE. destruct (Nat.eqb 0 f); auto.
      + exact F3.
    - auto.
    - intros z. unfold fupd. rewrite AE. destruct (Nat.eqb_spec z f).
      + subst z. rewrite F5. split; [discriminate|tauto].
      + rewrite Hal, Hf, F5, !in_app_iff. cbn. intuition congruence.
    - rewrite T4, B12, S6, Hsz, Hf, F5, !app_length. cbn. lia.
    - rewrite FR. destruct HF as [HF1 HF2]. split.
      + constructor; auto. intros Hx. apply HF2 in Hx. destruct Hx as [Hx _]. congruence.
      + intros z [<-|Hz]; unfold fupd.
        * rewrite Nat.eqb_refl. split; auto.
        * rewrite AE. apply HF2 in Hz. destruct Hz as [Hz1 Hz2]. rewrite Hz1. destruct (Nat.eqb z f); auto.
    - rewrite F5. apply nasc_remove with f. rewrite <- Hf. eapply nasc_ext; [|exact Ha]. intros z Hz. unfold AvlIns.K_of. cbn. rewrite T2, B10, S3. auto.
  Qed.
End Rem.
