(** * Proofs about unordered_map/unordered_set (support for C16) *)
From Coq Require Import List Arith Lia Bool Permutation.
From Verif Require Import Util FlatSpec UmSpec AvlModel UmModel.
Import ListNotations.

Section P.
  Context {E K : Type}.
  Variable key : E -> K.
  Variable keq : K -> K -> bool.
  Variable hash : K -> nat.
  Variable B N : nat.
  Notation ust := (ust E).
  Notation bucket := (bucket hash B).

  (** ** buckets *)
  Definition upd (bk : nat -> list nat) (b : nat) (v : list nat) : nat -> list nat := fun c => if Nat.eqb c b then v else bk c.
  Definition before_b (bk : nat -> list nat) b := flat_map bk (seq 0 b).
  Definition after_b (bk : nat -> list nat) b := flat_map bk (seq (S b) (B - S b)).
  Definition all (bk : nat -> list nat) := flat_map bk (seq 0 B).
  Lemma all_split bk b : b < B -> all bk = before_b bk b ++ bk b ++ after_b bk b.
  Proof.
    intros H. unfold all, before_b, after_b. replace B with (b + S (B - S b)) at 1 by lia. rewrite seq_app, flat_map_app. reflexivity.
  Qed.
  Lemma flat_map_upd bk b v xs : ~ In b xs -> flat_map (upd bk b v) xs = flat_map bk xs.
  Proof.
    induction xs as [|c xs IH]; cbn; auto. intros H. rewrite IH by tauto. unfold upd at 1. destruct (Nat.eqb_spec c b); [subst; tauto|]. reflexivity.
  Qed.
  Lemma before_upd bk b v : before_b (upd bk b v) b = before_b bk b.
  Proof. apply flat_map_upd. rewrite in_seq. lia. Qed.
  Lemma after_upd bk b v : after_b (upd bk b v) b = after_b bk b.
  Proof. apply flat_map_upd. rewrite in_seq. lia. Qed.
  Lemma upd_same bk b v : upd bk b v b = v. Proof. unfold upd. now rewrite Nat.eqb_refl. Qed.
  Lemma upd_other bk b v c : c <> b -> upd bk b v c = bk c. Proof. unfold upd. intros H. destruct (Nat.eqb_spec c b); congruence. Qed.
  Lemma all_upd bk b v : b < B -> all (upd bk b v) = before_b bk b ++ v ++ after_b bk b.
  Proof. intros H. rewrite (all_split _ b H), before_upd, after_upd, upd_same. reflexivity. Qed.
  Lemma in_all bk b x : b < B -> In x (bk b) -> In x (all bk).
  Proof. intros H I. rewrite (all_split _ b H), !in_app_iff. auto. Qed.
  Lemma all_in bk x : In x (all bk) -> exists b, b < B /\ In x (bk b).
  Proof. unfold all. rewrite in_flat_map. intros (b & I & J). rewrite in_seq in I. exists b. split; [lia|auto]. Qed.
  Lemma all_nil bk : (forall b, b < B -> bk b = []) <-> all bk = [].
  Proof.
    split.
    - intros H. unfold all. destruct (flat_map bk (seq 0 B)) as [|x r] eqn:Ef; auto. exfalso.
      destruct (all_in bk x) as (b & Hb & I); [unfold all; rewrite Ef; cbn; auto|]. rewrite H in I by auto. destruct I.
    - intros H b Hb. destruct (bk b) as [|x r] eqn:Eb; auto. exfalso. assert (I : In x (all bk)) by (apply (in_all bk b x Hb); rewrite Eb; cbn; auto). rewrite H in I. destruct I.
  Qed.

  (** ** chains *)
  Fixpoint chn (nx : nat -> nat) (xs : list nat) (e : nat) : Prop :=
    match xs with [] => True | x :: r => nx x = hd e r /\ chn nx r e end.
  Lemma hd_app {A} (d : A) xs ys : hd d (xs ++ ys) = hd (hd d ys) xs. Proof. destruct xs; reflexivity. Qed.
  Lemma chn_app nx xs ys e : chn nx (xs ++ ys) e <-> chn nx xs (hd e ys) /\ chn nx ys e.
  Proof. induction xs as [|x xs IH]; cbn; [tauto|]. rewrite IH, hd_app. tauto. Qed.
  Lemma chn_ext nx nx' xs e : (forall x, In x xs -> nx' x = nx x) -> chn nx xs e -> chn nx' xs e.
  Proof. induction xs as [|x xs IH]; cbn; auto. intros H (H1 & H2). split; [rewrite H; auto|apply IH; auto]. Qed.
  Definition lk (b : nat) (xs : list nat) : lnk := match xs with [] => Start b | _ => Lnode (last xs 0) end.
  Lemma lk_snoc b xs x : lk b (xs ++ [x]) = Lnode x.
  Proof. unfold lk. destruct (xs ++ [x]) eqn:Ex; [destruct xs; discriminate|]. rewrite <- Ex, last_last. reflexivity. Qed.

  Lemma last_in (x : nat) xs : In (last (x :: xs) 0) (x :: xs).
  Proof. destruct (exists_last (l := x :: xs)) as (m & w & Ew); [discriminate|]. rewrite Ew, last_last, in_app_iff. cbn. auto. Qed.

  Record core (s : ust) (bk : nat -> list nat) : Prop := {
    ih : forall b, b < B -> uhd s b = hd 0 (bk b);
    ic : forall b, b < B -> chn (unx s) (bk b) 0;
    icnt : forall b, b < B -> ucnt s b = List.length (bk b);
    ind : NoDup (all bk);
    ial : forall x, ual s x = true <-> In x (all bk);
    i0 : ual s 0 = false;
    ihash : forall b x, b < B -> In x (bk b) -> bucket (key (uel s x)) = b;
    ifr : NoDup (ufr s) /\ forall x, In x (ufr s) -> ual s x = false /\ x <> 0;
    ipool : List.length (ufr s) + List.length (all bk) = N }.

  Lemma core_nz s bk x : core s bk -> In x (all bk) -> x <> 0.
  Proof. intros C I ->. apply (ial _ _ C) in I. rewrite (i0 _ _ C) in I. discriminate. Qed.
  Lemma core_len s bk b : core s bk -> b < B -> List.length (bk b) <= N.
  Proof. intros C H. pose proof (ipool _ _ C) as P. rewrite (all_split _ b H), !app_length in P. lia. Qed.
  Lemma bempty_ok s bk b : core s bk -> b < B -> bempty B s b = Some (match bk b with [] => true | _ => false end).
  Proof. intros C H. unfold bempty. destruct (Nat.ltb_spec b B); [|lia]. rewrite (icnt _ _ C b H). destruct (bk b); reflexivity. Qed.
  Lemma lnext_ok s bk b xs ys : core s bk -> b < B -> bk b = xs ++ ys -> lnext B s (lk b xs) = Some (hd 0 ys).
  Proof.
    intros C H E1. destruct xs as [|x0 xs0] using rev_ind; [|clear IHxs0].
    - cbn [lk lnext]. destruct (Nat.ltb_spec b B); [|lia]. rewrite (ih _ _ C b H), E1. reflexivity.
    - rewrite lk_snoc. cbn [lnext]. assert (I : In x0 (bk b)) by (rewrite E1, !in_app_iff; cbn; auto).
      rewrite (proj2 (ial _ _ C x0)) by (eapply in_all; eauto). f_equal. pose proof (ic _ _ C b H) as HC. rewrite E1 in HC. apply chn_app in HC. destruct HC as [HC _].
      apply chn_app in HC. cbn in HC. tauto.
  Qed.
  Lemma lnext_node s bk b xs x ys : core s bk -> b < B -> bk b = xs ++ x :: ys -> lnext B s (Lnode x) = Some (hd 0 ys).
  Proof. intros C H E1. rewrite <- (lk_snoc b xs x). eapply lnext_ok; eauto. now rewrite <- app_assoc. Qed.
  Lemma ure_ok s bk x : core s bk -> In x (all bk) -> ure s x = Some (uel s x).
  Proof. intros C I. unfold ure. now rewrite (proj2 (ial _ _ C x) I). Qed.

  (** the state after setting a link, abstractly *)
  Definition sethd s (p : lnk) y b : nat := match p with Start c => if Nat.eqb b c then y else uhd s b | _ => uhd (E:=E) s b end.
  Definition setnx s (p : lnk) y x : nat := match p with Lnode c => if Nat.eqb x c then y else unx s x | _ => unx (E:=E) s x end.

  Lemma NoDup_parts (xs ys zs : list nat) : NoDup (xs ++ ys ++ zs) -> NoDup ys /\ (forall x, In x xs -> In x ys -> False) /\ (forall x, In x ys -> In x zs -> False).
  Proof.
    induction xs as [|a xs IH]; cbn.
    - intros H. split; [|split; [tauto|]].
      + clear - H. induction ys as [|y ys IH]; [constructor|]. inversion H; subst. constructor; [|auto]. intros I. apply H2. rewrite in_app_iff. auto.
      + clear - H. induction ys as [|y ys IH]; cbn; [tauto|]. inversion H; subst. intros x [<-|I] J; [apply H2; rewrite in_app_iff; auto|eauto].
    - intros H. inversion H; subst. destruct (IH H3) as (A & A1 & A2). split; auto. split; auto. intros x [<-|I] J; [|eauto]. apply H2. rewrite !in_app_iff. auto.
  Qed.
  Lemma other_bucket s bk b c x : core s bk -> b < B -> c < B -> In x (bk b) -> In x (bk c) -> b = c.
  Proof. intros C Hb Hc I J. rewrite <- (ihash _ _ C b x Hb I). apply (ihash _ _ C c x Hc J). Qed.

  (** adding a node *)
  Lemma ins_core s bk e x f b xs ys : core s bk -> ufr s = x :: f -> b < B -> bk b = xs ++ ys -> bucket (key e) = b ->
    exists s1, ualloc s e = Some (s1, x) /\ exists s2, ins_after B s1 b (lk b xs) x = Some s2 /\ core s2 (upd bk b (xs ++ x :: ys)) /\
      uel s2 = fupd (uel s) x e /\ ufr s2 = f /\ ufst s2 = ufst s /\ ulst s2 = ulst s.
  Proof.
    intros C Ef Hb E1 Hk. unfold ualloc. rewrite Ef. eexists. split; [reflexivity|].
    destruct (ifr _ _ C) as [F1 F2]. rewrite Ef in F1, F2. destruct (F2 x) as [Ax Nx]; [cbn; auto|].
    assert (Hx : ~ In x (all bk)) by (rewrite <- (ial _ _ C); congruence).
    set (s1 := pset _ _ _ _). unfold ins_after.
    assert (L1 : lnext B s1 (lk b xs) = Some (hd 0 ys)).
    { rewrite <- (lnext_ok s bk b xs ys C Hb E1). unfold s1, lk. destruct xs as [|x0 xs]; cbn [lnext]; [reflexivity|].
      pose proof (last_in x0 xs) as Lz. remember (last (x0 :: xs) 0) as z eqn:Ez0. clear Ez0. assert (z <> x). { intros Ez. apply Hx. apply (in_all bk b x Hb). rewrite E1, in_app_iff. left. rewrite <- Ez. exact Lz. }
      cbn. unfold fupd. destruct (Nat.eqb_spec z x); [congruence|]. reflexivity. }
    rewrite L1. cbn [obind]. unfold setnext at 1. assert (A1 : ual s1 x = true) by (cbn; unfold fupd; now rewrite Nat.eqb_refl). rewrite A1. cbn [obind].
    set (s1' := bset s1 _ _ _).
    assert (L2 : exists s2, setnext B s1' (lk b xs) x = Some s2 /\ uhd s2 = sethd s1' (lk b xs) x /\ unx s2 = setnx s1' (lk b xs) x /\ uel s2 = uel s1' /\ ual s2 = ual s1' /\ ufr s2 = ufr s1' /\ ucnt s2 = ucnt s1' /\ ufst s2 = ufst s1' /\ ulst s2 = ulst s1').
    { unfold lk. destruct xs as [|x0 xs]; cbn [setnext].
      - destruct (Nat.ltb_spec b B); [|lia]. eexists. split; [reflexivity|]. repeat split.
      - pose proof (last_in x0 xs) as Lz. remember (last (x0 :: xs) 0) as z eqn:Ez0. clear Ez0. assert (Iz : In z (bk b)). { rewrite E1, in_app_iff. left. exact Lz. }
        assert (Az : ual s1' z = true). { cbn. unfold fupd. destruct (Nat.eqb_spec z x); auto. apply (ial _ _ C). eapply in_all; eauto. }
        rewrite Az. eexists. split; [reflexivity|]. repeat split. }
    destruct L2 as (s2 & -> & Hh & Hn & He & Ha & Hf & Hc & Hs & Hl). cbn [obind]. destruct (Nat.ltb_spec b B); [|lia]. eexists. split; [reflexivity|].
    assert (HA : all (upd bk b (xs ++ x :: ys)) = (before_b bk b ++ xs) ++ x :: (ys ++ after_b bk b)) by (rewrite all_upd by auto; now rewrite <- !app_assoc).
    assert (HA0 : all bk = (before_b bk b ++ xs) ++ (ys ++ after_b bk b)) by (rewrite (all_split bk b Hb), E1; now rewrite <- !app_assoc).
    split; [|cbn; rewrite He, Hf, Hs, Hl; repeat split; reflexivity].
    constructor; cbn [uhd ucnt unx uel ual ufr ufst ulst bset].
    - intros c Hc0. rewrite Hh. destruct (Nat.eq_dec c b) as [->|Nc].
      + rewrite upd_same. unfold sethd, lk. destruct xs as [|x0 xs]; cbn [hd app]; [now rewrite Nat.eqb_refl|]. cbn. rewrite (ih _ _ C b Hb), E1. reflexivity.
      + rewrite upd_other by auto. unfold sethd. destruct (lk b xs) eqn:El.
        * assert (b0 = b) by (unfold lk in El; destruct xs; congruence). subst b0. destruct (Nat.eqb_spec c b); [congruence|]. apply (ih _ _ C c Hc0).
        * apply (ih _ _ C c Hc0).
    - intros c Hc0. rewrite Hn. destruct (Nat.eq_dec c b) as [->|Nc].
      + rewrite upd_same. pose proof (ic _ _ C b Hb) as HC. rewrite E1 in HC. apply chn_app in HC. destruct HC as [HC1 HC2].
        assert (Nxs : ~ In x xs) by (intros I; apply Hx; eapply in_all; eauto; rewrite E1, in_app_iff; auto).
        assert (Nys : ~ In x ys) by (intros I; apply Hx; eapply in_all; eauto; rewrite E1, in_app_iff; auto).
        pose proof (ind _ _ C) as HN. rewrite (all_split bk b Hb), E1 in HN. apply NoDup_parts in HN. destruct HN as (HN & _ & _).
        destruct xs as [|x0 xs0] using rev_ind; [|clear IHxs0].
        * cbn [app lk setnx]. cbn [chn]. split; [cbn; unfold fupd; now rewrite Nat.eqb_refl|]. apply chn_ext with (nx := unx s); auto.
          intros z Hz. cbn. unfold fupd. destruct (Nat.eqb_spec z x); [subst; contradiction|reflexivity].
        * rewrite lk_snoc. cbn [setnx]. rewrite chn_app. rewrite in_app_iff in Nxs. cbn in Nxs.
          rewrite <- app_assoc in HN. apply NoDup_parts in HN. destruct HN as (_ & D1 & D2).
          assert (Hz0 : x0 <> x) by (intros ->; tauto).
          split.
          -- apply chn_app in HC1. apply chn_app. cbn [chn hd] in *. split; [|split; [unfold setnx; now rewrite Nat.eqb_refl|auto]].
             apply chn_ext with (nx := unx s); [|tauto]. intros z Hz. unfold setnx. destruct (Nat.eqb_spec z x0) as [->|]; [exfalso; apply (D1 x0); cbn; auto|]. cbn. unfold fupd. destruct (Nat.eqb_spec z x); [subst; tauto|reflexivity].
          -- cbn [chn]. split.
             ++ unfold setnx. destruct (Nat.eqb_spec x x0); [congruence|]. cbn. unfold fupd. now rewrite Nat.eqb_refl.
             ++ apply chn_ext with (nx := unx s); auto. intros z Hz. unfold setnx. destruct (Nat.eqb_spec z x0) as [->|]; [exfalso; apply (D2 x0); cbn; auto|]. cbn. unfold fupd. destruct (Nat.eqb_spec z x); [subst; contradiction|reflexivity].
      + rewrite upd_other by auto. apply chn_ext with (nx := unx s); [|apply (ic _ _ C c Hc0)]. intros z Hz.
        assert (z <> x) by (intros ->; apply Hx; eapply in_all; eauto).
        assert (U : unx s1' z = unx s z) by (cbn; unfold fupd; destruct (Nat.eqb_spec z x); [congruence|reflexivity]).
        unfold setnx. destruct (lk b xs) eqn:El; auto. destruct (Nat.eqb_spec z x0) as [->|]; auto. exfalso. unfold lk in El. destruct xs as [|w xs]; [discriminate|]. injection El as El.
        apply Nc. apply (other_bucket s bk c b x0 C Hc0 Hb Hz). rewrite E1, in_app_iff. left. rewrite <- El. apply last_in.
    - intros c Hc0. unfold fupd. destruct (Nat.eqb_spec c b) as [->|Nc].
      + rewrite upd_same, Hc. cbn. rewrite (icnt _ _ C b Hb), E1, !app_length. cbn. lia.
      + rewrite upd_other by auto. rewrite Hc. cbn. apply (icnt _ _ C c Hc0).
    - rewrite HA. apply NoDup_Add with (a := x) (l := all bk); [rewrite HA0; apply Add_app|]. split; [apply (ind _ _ C)|exact Hx].
    - intros z. rewrite Ha, HA. cbn. unfold fupd. pose proof (ial _ _ C z) as I. rewrite HA0 in I. rewrite in_app_iff in *. cbn. destruct (Nat.eqb_spec z x) as [->|]; [tauto|]. rewrite I. split; [tauto|]. intros [?|[?|?]]; auto. congruence.
    - rewrite Ha. cbn. unfold fupd. destruct (Nat.eqb_spec 0 x); [congruence|]. apply (i0 _ _ C).
    - intros c z Hc0 Hz. rewrite He. cbn. unfold fupd. destruct (Nat.eq_dec c b) as [->|Nc].
      + rewrite upd_same in Hz. destruct (Nat.eqb_spec z x); [exact Hk|]. apply (ihash _ _ C b); auto. rewrite E1. rewrite in_app_iff in *. cbn in Hz. destruct Hz as [?|[?|?]]; auto. congruence.
      + rewrite upd_other in Hz by auto. destruct (Nat.eqb_spec z x) as [->|]; [exfalso; apply Hx; eapply in_all; eauto|]. apply (ihash _ _ C c); auto.
    - rewrite Hf, Ha. cbn. inversion F1; subst. split; auto. intros z Hz. unfold fupd. destruct (Nat.eqb_spec z x) as [->|]; [contradiction|]. apply F2. cbn. auto.
    - rewrite Hf, HA. cbn. pose proof (ipool _ _ C) as P. rewrite Ef, HA0 in P. rewrite !app_length in *. cbn in *. rewrite !app_length in *. lia.
  Qed.

  (** removing a node *)
  Lemma del_core s bk b xs x ys : core s bk -> b < B -> bk b = xs ++ x :: ys ->
    exists s1, era_after B s b (lk b xs) = Some (s1, hd 0 ys) /\ ual s1 x = true /\
      let s2 := pset s1 (uel s1) (fupd (ual s1) x false) (x :: ufr s1) in
      core s2 (upd bk b (xs ++ ys)) /\ uel s2 = uel s /\ ufst s2 = ufst s /\ ulst s2 = ulst s.
  Proof.
    intros C Hb E1. unfold era_after. rewrite (lnext_ok s bk b xs (x :: ys) C Hb E1). cbn [obind hd].
    assert (Ix : In x (bk b)) by (rewrite E1, in_app_iff; cbn; auto). assert (IA : In x (all bk)) by (eapply in_all; eauto).
    pose proof (core_nz _ _ _ C IA) as Nx. destruct (Nat.eqb_spec x 0); [congruence|].
    rewrite (lnext_node s bk b xs x ys C Hb E1). cbn [obind].
    pose proof (ind _ _ C) as HN. pose proof HN as HNb. rewrite (all_split bk b Hb), E1 in HNb. apply NoDup_parts in HNb. destruct HNb as (HNb & _ & _).
    change (xs ++ x :: ys) with (xs ++ [x] ++ ys) in HNb. pose proof (NoDup_parts _ _ _ HNb) as (_ & D1 & D2).
    assert (Dxy : forall z, In z xs -> In z ys -> False).
    { rewrite app_assoc in HNb. rewrite <- (app_nil_r ((xs ++ [x]) ++ ys)) in HNb. rewrite <- !app_assoc in HNb. intros z Hz Hy. clear - HNb Hz Hy.
      revert HNb Hz. induction xs as [|a xs IH]; cbn; [tauto|]. intros H [->|I]; inversion H; subst; [|auto]. apply H2. rewrite !in_app_iff. cbn. rewrite !in_app_iff. tauto. }
    assert (L2 : exists s2, setnext B s (lk b xs) (hd 0 ys) = Some s2 /\ uhd s2 = sethd s (lk b xs) (hd 0 ys) /\ unx s2 = setnx s (lk b xs) (hd 0 ys) /\ uel s2 = uel s /\ ual s2 = ual s /\ ufr s2 = ufr s /\ ucnt s2 = ucnt s /\ ufst s2 = ufst s /\ ulst s2 = ulst s).
    { unfold lk. destruct xs as [|x0 xs]; cbn [setnext].
      - destruct (Nat.ltb_spec b B); [|lia]. eexists. split; [reflexivity|]. repeat split.
      - pose proof (last_in x0 xs) as Lz. remember (last (x0 :: xs) 0) as z eqn:Ez0. clear Ez0. assert (Iz : In z (bk b)). { rewrite E1, in_app_iff. left. exact Lz. }
        rewrite (proj2 (ial _ _ C z)) by (eapply in_all; eauto). eexists. split; [reflexivity|]. repeat split. }
    destruct L2 as (s2 & -> & Hh & Hn & He & Ha & Hf & Hc & Hs & Hl). cbn [obind]. unfold setnext. rewrite Ha, (proj2 (ial _ _ C x) IA). cbn [obind].
    destruct (Nat.ltb_spec b B); [|lia]. eexists. split; [reflexivity|]. cbn [bset ual]. rewrite Ha. split; [apply (ial _ _ C), IA|]. cbv zeta. cbn [bset pset uhd ucnt unx uel ual ufr ufst ulst].
    split; [|rewrite He, Hs, Hl; repeat split; reflexivity].
    assert (HA : all (upd bk b (xs ++ ys)) = (before_b bk b ++ xs) ++ (ys ++ after_b bk b)) by (rewrite all_upd by auto; now rewrite <- !app_assoc).
    assert (HA0 : all bk = (before_b bk b ++ xs) ++ x :: (ys ++ after_b bk b)) by (rewrite (all_split bk b Hb), E1; now rewrite <- !app_assoc).
    assert (NIx : ~ In x (all (upd bk b (xs ++ ys)))) by (rewrite HA0 in HN; rewrite HA; apply NoDup_remove_2 in HN; exact HN).
    assert (Sub : forall c z, c < B -> In z (upd bk b (xs ++ ys) c) -> In z (bk c) /\ z <> x).
    { intros c z Hc0 Hz. split; [|intros ->; apply NIx; eapply in_all; eauto]. destruct (Nat.eq_dec c b) as [->|Nc]; [|now rewrite upd_other in Hz by auto]. rewrite upd_same in Hz. rewrite E1. rewrite in_app_iff in *. cbn. tauto. }
    constructor; cbn [bset pset uhd ucnt unx uel ual ufr ufst ulst].
    - intros c Hc0. rewrite Hh. destruct (Nat.eq_dec c b) as [->|Nc].
      + rewrite upd_same. unfold sethd, lk. destruct xs as [|x0 xs]; cbn [hd app]; [now rewrite Nat.eqb_refl|]. rewrite (ih _ _ C b Hb), E1. reflexivity.
      + rewrite upd_other by auto. unfold sethd. destruct (lk b xs) eqn:El.
        * assert (b0 = b) by (unfold lk in El; destruct xs; congruence). subst b0. destruct (Nat.eqb_spec c b); [congruence|]. apply (ih _ _ C c Hc0).
        * apply (ih _ _ C c Hc0).
    - intros c Hc0. apply chn_ext with (nx := setnx s (lk b xs) (hd 0 ys)).
      { intros z Hz. destruct (Sub c z Hc0 Hz) as [_ Nz]. rewrite Hn. unfold fupd. destruct (Nat.eqb_spec z x); [congruence|reflexivity]. }
      destruct (Nat.eq_dec c b) as [->|Nc].
      + rewrite upd_same. pose proof (ic _ _ C b Hb) as HC. rewrite E1 in HC. apply chn_app in HC. destruct HC as [HC1 HC2]. cbn [chn hd] in HC1, HC2. destruct HC2 as [_ HC2].
        destruct xs as [|x0 xs0] using rev_ind; [|clear IHxs0].
        * cbn [app lk setnx]. exact HC2.
        * rewrite lk_snoc. cbn [setnx]. apply chn_app. split.
          -- apply chn_app in HC1. apply chn_app. cbn [chn hd] in *. split; [|split; [unfold setnx; now rewrite Nat.eqb_refl|auto]].
             apply chn_ext with (nx := unx s); [|tauto]. intros z Hz. unfold setnx. destruct (Nat.eqb_spec z x0) as [->|]; [|reflexivity].
             exfalso. rewrite <- !app_assoc in HNb. apply NoDup_parts in HNb. destruct HNb as (_ & Q & _). apply (Q x0); cbn; auto.
          -- apply chn_ext with (nx := unx s); auto. intros z Hz. unfold setnx. destruct (Nat.eqb_spec z x0) as [->|]; [|reflexivity]. exfalso. apply (Dxy x0); auto. rewrite in_app_iff. cbn. auto.
      + rewrite upd_other by auto. apply chn_ext with (nx := unx s); [|apply (ic _ _ C c Hc0)]. intros z Hz.
        unfold setnx. destruct (lk b xs) eqn:El; auto. destruct (Nat.eqb_spec z x0) as [->|]; auto. exfalso. unfold lk in El. destruct xs as [|w xs]; [discriminate|]. injection El as El.
        apply Nc. apply (other_bucket s bk c b x0 C Hc0 Hb Hz). rewrite E1, in_app_iff. left. rewrite <- El. apply last_in.
    - intros c Hc0. unfold fupd. destruct (Nat.eqb_spec c b) as [->|Nc].
      + rewrite upd_same, Hc, (icnt _ _ C b Hb), E1, !app_length. cbn. lia.
      + rewrite upd_other by auto. rewrite Hc. apply (icnt _ _ C c Hc0).
    - rewrite HA. rewrite HA0 in HN. apply NoDup_remove_1 in HN. exact HN.
    - intros z. rewrite ?Ha. unfold fupd. destruct (Nat.eqb_spec z x) as [->|Nz]; [split; [discriminate|intros I; contradiction]|]. rewrite (ial _ _ C z), HA0, HA, !in_app_iff. cbn. rewrite in_app_iff. split; [|tauto]. intros [?|[?|?]]; auto. congruence.
    - rewrite ?Ha. unfold fupd. destruct (Nat.eqb_spec 0 x); auto. apply (i0 _ _ C).
    - intros c z Hc0 Hz. rewrite He. apply (ihash _ _ C c); auto. now apply Sub.
    - destruct (ifr _ _ C) as [F1 F2]. rewrite ?Hf, ?Ha. split.
      + constructor; auto. intros I. destruct (F2 x I) as [G _]. rewrite (proj2 (ial _ _ C x) IA) in G. discriminate.
      + intros z Hz. unfold fupd. destruct (Nat.eqb_spec z x) as [->|]; [auto|]. destruct Hz as [?|Hz]; [congruence|]. auto.
    - rewrite Hf, HA. pose proof (ipool _ _ C) as P. rewrite HA0 in P. rewrite !app_length in *. cbn in *. rewrite !app_length in *. lia.
  Qed.

  (** ** the first and last marks *)
  Record marks (s : ust) (bk : nat -> list nat) : Prop := {
    mf : ufst s < B; ml : ulst s < B;
    mb : forall b, b < ufst s -> bk b = [];
    mn : bk (ufst s) = [] -> all bk = [] }.
  Definition uniq (s : ust) bk := forall x y, In x (all bk) -> In y (all bk) -> keq (key (uel s x)) (key (uel s y)) = true -> x = y.
  Record inv (s : ust) (bk : nat -> list nat) : Prop := { vc : core s bk; vm : marks s bk; vu : uniq s bk }.

  Lemma core_mset s bk f l : core s bk -> core (mset s f l) bk.
  Proof. intros [? ? ? ? ? ? ? ? ?]. constructor; cbn; auto. Qed.
  Lemma usize_ok s bk : core s bk -> usize N s = List.length (all bk).
  Proof. intros C. unfold usize. pose proof (ipool _ _ C). lia. Qed.

  Lemma adjust_ins_ok s s2 bk b xs x ys : marks s bk -> ufst s2 = ufst s -> ulst s2 = ulst s -> b < B -> bk b = xs ++ ys -> core s2 (upd bk b (xs ++ x :: ys)) ->
    core (adjust_ins N s2 b) (upd bk b (xs ++ x :: ys)) /\ marks (adjust_ins N s2 b) (upd bk b (xs ++ x :: ys)) /\ uel (adjust_ins N s2 b) = uel s2 /\ ufr (adjust_ins N s2 b) = ufr s2.
  Proof.
    intros M Hf Hl Hb E1 C. unfold adjust_ins. rewrite (usize_ok _ _ C).
    assert (NE : upd bk b (xs ++ x :: ys) b <> []) by (rewrite upd_same; destruct xs; discriminate).
    assert (HA : all (upd bk b (xs ++ x :: ys)) = (before_b bk b ++ xs) ++ x :: (ys ++ after_b bk b)) by (rewrite all_upd by auto; now rewrite <- !app_assoc).
    assert (HA0 : all bk = (before_b bk b ++ xs) ++ (ys ++ after_b bk b)) by (rewrite (all_split bk b Hb), E1; now rewrite <- !app_assoc).
    destruct M as [M1 M2 M3 M4].
    destruct (Nat.eqb_spec (List.length (all (upd bk b (xs ++ x :: ys)))) 1) as [L|L].
    - split; [now apply core_mset|]. split; [|auto]. constructor; cbn; auto; [|congruence].
      intros c Hc. rewrite upd_other by lia. assert (A0 : all bk = []) by (apply length_zero_iff_nil; rewrite HA0; rewrite HA in L; rewrite !app_length in *; cbn in *; rewrite !app_length in *; lia).
      apply (proj2 (all_nil bk) A0). lia.
    - rewrite Hf, Hl. assert (K1 : ufst s <= b -> upd bk b (xs ++ x :: ys) (ufst s) = [] -> False).
      { intros Hle. destruct (Nat.eq_dec (ufst s) b) as [Eb|Nb]; [rewrite Eb; auto|]. rewrite upd_other by auto. intros H. apply M4 in H. apply L. rewrite HA. rewrite H in HA0. 
        destruct (before_b bk b ++ xs) as [|? ?]; [|discriminate]. cbn in HA0. rewrite <- HA0. reflexivity. }
      destruct (Nat.ltb_spec b (ufst s)); [|destruct (Nat.ltb_spec (ulst s) b)].
      + split; [now apply core_mset|]. split; [|auto]. constructor; cbn; auto; [|congruence]. intros c Hc. rewrite upd_other by lia. apply M3. lia.
      + split; [now apply core_mset|]. split; [|auto]. constructor; cbn; auto; [|intros; exfalso; eauto]. intros c Hc. rewrite upd_other by lia. apply M3. lia.
      + split; [auto|]. split; [|auto]. constructor; rewrite ?Hf, ?Hl; auto; [|intros; exfalso; eauto]. intros c Hc. rewrite upd_other by lia. apply M3. lia.
  Qed.

  Lemma skip_empty_ok s bk : core s bk -> forall n b c, b <= c -> c < B -> bk c <> [] -> B < b + n ->
    exists d, skip_empty B n s b = Some d /\ b <= d /\ d < B /\ bk d <> [] /\ forall e, b <= e -> e < d -> bk e = [].
  Proof.
    intros C. induction n as [|n IH]; intros b c H1 H2 H3 H4; [lia|]. cbn [skip_empty]. rewrite (bempty_ok s bk b C) by lia. cbn [obind].
    destruct (bk b) as [|z zs] eqn:Eb.
    - assert (b <> c) by (intros ->; congruence). destruct (IH (S b) c ltac:(lia) H2 H3 ltac:(lia)) as (d & -> & D1 & D2 & D3 & D4). exists d. split; auto. conj; auto; [lia|].
      intros e He1 He2. destruct (Nat.eq_dec e b) as [->|]; auto. apply D4; lia.
    - exists b. split; auto. conj; auto; [lia|congruence|]. intros; lia.
  Qed.
  Lemma find_last_ok s bk : core s bk -> forall n b pend l, b <= pend -> pend < B -> pend < b + n -> l < B -> exists d, find_last B n s b pend l = Some d /\ d < B.
  Proof.
    intros C. induction n as [|n IH]; intros b pend l H1 H2 H3 H4; [lia|]. cbn [find_last]. destruct (Nat.eqb_spec b pend); [eauto|].
    rewrite (bempty_ok s bk b C) by lia. cbn [obind]. apply IH; try lia. destruct (bk b); lia.
  Qed.
  Lemma delete_ok s bk b xs x ys : inv s bk -> b < B -> bk b = xs ++ x :: ys ->
    exists s', delete_node B N s b (lk b xs) x = Some (s', hd 0 ys) /\ inv s' (upd bk b (xs ++ ys)) /\ uel s' = uel s.
  Proof.
    intros [C M U] Hb E1. unfold delete_node. destruct (del_core s bk b xs x ys C Hb E1) as (s1 & -> & A1 & C2 & He & Hf & Hl). cbn [obind]. rewrite A1.
    remember (pset s1 (uel s1) (fupd (ual s1) x false) (x :: ufr s1)) as s2 eqn:E2. clear E2. clear A1.
    assert (HA : all (upd bk b (xs ++ ys)) = (before_b bk b ++ xs) ++ (ys ++ after_b bk b)) by (rewrite all_upd by auto; now rewrite <- !app_assoc).
    assert (HA0 : all bk = (before_b bk b ++ xs) ++ x :: (ys ++ after_b bk b)) by (rewrite (all_split bk b Hb), E1; now rewrite <- !app_assoc).
    assert (U2 : forall s3 : ust, uel s3 = uel s2 -> uniq s3 (upd bk b (xs ++ ys))).
    { intros s3 H3 z w Hz Hw. rewrite H3, He. apply U; rewrite HA0; rewrite HA, in_app_iff in *; cbn; tauto. }
    destruct M as [M1 M2 M3 M4].
    assert (NE : bk (ufst s) <> []) by (intros H; apply M4 in H; rewrite HA0 in H; destruct (before_b bk b ++ xs); discriminate).
    assert (LE : ufst s <= b). { destruct (Nat.le_gt_cases (ufst s) b); auto. exfalso. rewrite (M3 b) in E1 by lia. destruct xs; discriminate. }
    assert (B4 : forall c, c < ufst s -> upd bk b (xs ++ ys) c = []) by (intros c Hc; rewrite upd_other by lia; auto).
    unfold adjust_era, uempty. rewrite (usize_ok _ _ C2), Hf, Hl.
    destruct (Nat.eqb_spec (List.length (all (upd bk b (xs ++ ys)))) 0) as [L0|L0].
    - cbn [obind]. eexists. split; [reflexivity|]. split; [|exact He]. apply length_zero_iff_nil in L0. constructor; [now apply core_mset| |now apply U2]. constructor; cbn; auto; intros; lia.
    - destruct (Nat.eqb_spec b (ufst s)) as [Eb|Nb]; [|destruct (Nat.eqb_spec b (ulst s)) as [El|Nl]].
      + assert (Ex : exists c, ufst s <= c /\ c < B /\ upd bk b (xs ++ ys) c <> []).
        { destruct (all (upd bk b (xs ++ ys))) as [|z zs] eqn:Ez; [cbn in L0; congruence|]. destruct (all_in (upd bk b (xs ++ ys)) z) as (c & Hc & I); [rewrite Ez; cbn; auto|].
          exists c. conj; auto; [|intros Q; rewrite Q in I; destruct I]. destruct (Nat.le_gt_cases (ufst s) c); auto. rewrite B4 in I by auto. destruct I. }
        destruct Ex as (c & X1 & X2 & X3). destruct (skip_empty_ok s2 _ C2 (S B) (ufst s) c X1 X2 X3 ltac:(lia)) as (d & -> & D1 & D2 & D3 & D4). cbn [obind].
        eexists. split; [reflexivity|]. split; [|exact He]. constructor; [now apply core_mset| |now apply U2]. constructor; cbn; auto; [|congruence].
        intros e Hd. destruct (Nat.lt_ge_cases e (ufst s)); auto.
      + destruct (find_last_ok s2 _ C2 (S B) (ufst s) (ulst s) (ufst s)) as (d & -> & D1); try lia. cbn [obind].
        eexists. split; [reflexivity|]. split; [|exact He]. constructor; [now apply core_mset| |now apply U2]. constructor; cbn; rewrite ?Hf; auto. rewrite upd_other by auto. congruence.
      + cbn [obind]. eexists. split; [reflexivity|]. split; [|exact He]. constructor; [auto| |now apply U2]. constructor; rewrite ?Hf, ?Hl; auto. rewrite upd_other by auto. congruence.
  Qed.

  (** ** looking for a key *)
  Lemma scan_ok s bk b k : core s bk -> b < B -> forall n xs ys, bk b = xs ++ ys -> List.length ys < n -> (forall x, In x xs -> keq k (key (uel s x)) = false) ->
    (scan key keq B n s (lk b xs) (hd 0 ys) k = Some (lk b (bk b), 0) /\ forall x, In x (bk b) -> keq k (key (uel s x)) = false) \/
    exists zs x ws, bk b = zs ++ x :: ws /\ scan key keq B n s (lk b xs) (hd 0 ys) k = Some (lk b zs, x) /\ keq k (key (uel s x)) = true.
  Proof.
    intros C Hb. induction n as [|n IH]; intros xs ys E1 L H; [lia|]. cbn [scan]. destruct ys as [|y ys]; cbn [hd].
    - cbn [Nat.eqb]. left. rewrite app_nil_r in E1. rewrite E1. auto.
    - assert (I : In y (all bk)) by (apply (in_all bk b); auto; rewrite E1, in_app_iff; cbn; auto).
      destruct (Nat.eqb_spec y 0) as [->|_]; [exfalso; eapply core_nz; eauto|]. rewrite (ure_ok s bk y C I). cbn [obind].
      destruct (keq k (key (uel s y))) eqn:Ek; [right; exists xs, y, ys; auto|].
      rewrite (lnext_node s bk b xs y ys C Hb E1). cbn [obind]. rewrite <- (lk_snoc b xs y). apply IH; [now rewrite <- app_assoc|cbn in L; lia|].
      intros z Hz. rewrite in_app_iff in Hz. cbn in Hz. destruct Hz as [?|[<-|[]]]; auto.
  Qed.
  Lemma bucket_lt (HB : 0 < B) k : bucket k < B. Proof. unfold UmModel.bucket. apply Nat.mod_upper_bound. lia. Qed.
  Lemma scan_bucket_ok (HB : 0 < B) (HH : hashable keq hash) s bk k : core s bk ->
    (scan_bucket key keq hash B N s k = Some (lk (bucket k) (bk (bucket k)), 0) /\ forall x, In x (all bk) -> keq k (key (uel s x)) = false) \/
    exists zs x ws, bk (bucket k) = zs ++ x :: ws /\ scan_bucket key keq hash B N s k = Some (lk (bucket k) zs, x) /\ keq k (key (uel s x)) = true /\ x <> 0 /\ In x (all bk).
  Proof.
    intros C. pose proof (bucket_lt HB k) as Hb. unfold scan_bucket. pose proof (lnext_ok s bk (bucket k) [] (bk (bucket k)) C Hb eq_refl) as L. cbn [lk] in L. rewrite L. cbn [obind].
    destruct (scan_ok s bk (bucket k) k C Hb (ufuel N) [] (bk (bucket k)) eq_refl) as [[H0 H]|(zs & x & ws & E1 & H1 & H2)].
    - unfold ufuel. pose proof (core_len s bk _ C Hb). lia.
    - intros x [].
    - left. cbn [lk] in H0. split; auto. intros x Hx. destruct (keq k (key (uel s x))) eqn:Ek; auto. destruct (all_in bk x Hx) as (c & Hc & I).
      rewrite <- Ek. apply H. pose proof (ihash _ _ C c x Hc I) as Hh. assert (c = bucket k); [|congruence]. rewrite <- Hh. unfold UmModel.bucket. now rewrite (hash_keq _ _ HH _ _ Ek).
    - right. cbn [lk] in H1. exists zs, x, ws. assert (I : In x (all bk)) by (apply (in_all bk (bucket k)); auto; rewrite E1, in_app_iff; cbn; auto). conj; auto. eapply core_nz; eauto.
  Qed.

  (** ** iteration *)
  Definition at_rest (bk : nat -> list nat) (i : nat * nat) (r : list nat) : Prop :=
    (r = [] /\ snd i = 0) \/ exists xs x ys, fst i < B /\ bk (fst i) = xs ++ x :: ys /\ snd i = x /\ r = (x :: ys) ++ after_b bk (fst i).
  Lemma next_bucket_ok s bk : core s bk -> forall n b, b <= B -> B < b + n ->
    exists d, next_bucket B n s b = Some d /\ b <= d /\ ((d = B /\ flat_map bk (seq b (B - b)) = []) \/ (d < B /\ bk d <> [] /\ flat_map bk (seq b (B - b)) = bk d ++ after_b bk d)).
  Proof.
    intros C. induction n as [|n IH]; intros b H1 H2; [lia|]. cbn [next_bucket]. destruct (Nat.eqb_spec b B) as [->|].
    - exists B. split; auto. split; auto. left. split; auto. now rewrite Nat.sub_diag.
    - rewrite (bempty_ok s bk b C) by lia. cbn [obind]. replace (B - b) with (S (B - S b)) by lia. cbn [seq flat_map].
      destruct (bk b) as [|z zs] eqn:Eb.
      + destruct (IH (S b) ltac:(lia) ltac:(lia)) as (d & -> & D1 & D2). exists d. split; auto. split; [lia|]. exact D2.
      + exists b. split; auto. split; auto. right. rewrite Eb. conj; auto; [lia|congruence].
  Qed.
  Lemma bump_ok s bk b xs ys : core s bk -> b < B -> bk b = xs ++ ys ->
    exists j, it_bump B s b (hd 0 ys) = Some j /\ at_rest bk j (ys ++ after_b bk b) /\ (ys = [] -> snd j = 0 \/ b < fst j).
  Proof.
    intros C Hb E1. unfold it_bump. destruct ys as [|y ys]; cbn [hd].
    - cbn [Nat.eqb app]. destruct (next_bucket_ok s bk C (S B) (S b) ltac:(lia) ltac:(lia)) as (d & -> & D1 & [[-> D2]|(D2 & D3 & D4)]); cbn [obind].
      + rewrite Nat.eqb_refl. eexists. split; [reflexivity|]. split; [left; auto|]. left. reflexivity.
      + destruct (Nat.eqb_spec d B); [lia|]. pose proof (lnext_ok s bk d [] (bk d) C D2 eq_refl) as L. cbn [lk] in L. rewrite L. cbn [obind].
        eexists. split; [reflexivity|]. split; [|right; cbn; lia]. right. destruct (bk d) as [|z zs] eqn:Ed; [congruence|]. exists [], z, zs. cbn [fst snd hd app]. conj; auto.
    - assert (I : In y (all bk)) by (apply (in_all bk b); auto; rewrite E1, in_app_iff; cbn; auto).
      destruct (Nat.eqb_spec y 0) as [->|_]; [exfalso; eapply core_nz; eauto|]. eexists. split; [reflexivity|]. split; [|discriminate]. right. exists xs, y, ys. cbn [fst snd]. conj; auto.
  Qed.
  Lemma next_ok s bk i x r : core s bk -> at_rest bk i (x :: r) -> snd i = x /\ exists j, it_next B s i = Some j /\ at_rest bk j r.
  Proof.
    intros C [[Hr _]|(xs & y & ys & Hb & E1 & Hs & Hr)]; [discriminate|]. cbn in Hr. injection Hr as Hx Hr. split; [congruence|].
    unfold it_next. rewrite Hs, (lnext_node s bk (fst i) xs y ys C Hb E1). cbn [obind].
    destruct (bump_ok s bk (fst i) (xs ++ [y]) ys C Hb) as (j & -> & J & _); [now rewrite <- app_assoc|]. exists j. rewrite Hr. auto.
  Qed.
  Lemma rest_hd bk i r : at_rest bk i r -> snd i = hd 0 r.
  Proof. intros [[-> H]|(xs & x & ys & _ & _ & -> & ->)]; [auto|]. reflexivity. Qed.
  Lemma rest_incl bk i r x : at_rest bk i r -> In x r -> In x (all bk).
  Proof. intros [[-> _]|(xs & y & ys & H & E1 & _ & ->)] I; [destruct I|]. rewrite (all_split bk _ H), E1, !in_app_iff. rewrite in_app_iff in I. cbn in *. tauto. Qed.
  Lemma walk_ok s bk e : core s bk -> forall r1 n i r2, at_rest bk i (r1 ++ r2) -> e = hd 0 r2 -> ~ In e r1 -> List.length r1 < n ->
    it_walk B n s i e = Some (map (uel s) r1).
  Proof.
    intros C. induction r1 as [|x r1 IH]; intros n i r2 R He Ni L; (destruct n as [|n]; [cbn in L; lia|]); cbn [it_walk].
    - rewrite (rest_hd _ _ _ R), He. cbn [app]. now rewrite Nat.eqb_refl.
    - assert (I : In x (all bk)) by (eapply rest_incl; eauto; cbn; auto). cbn [app] in R. destruct (next_ok s bk i x _ C R) as (Hs & j & Hj & R').
      rewrite Hs. destruct (Nat.eqb_spec x e); [subst; cbn in Ni; tauto|]. rewrite (ure_ok s bk x C I). cbn [obind]. rewrite Hj. cbn [obind].
      rewrite (IH n j r2 R' He) by (cbn in *; try lia; tauto). reflexivity.
  Qed.
  Lemma begin_ok s bk : inv s bk -> exists i, it_begin B s = Some i /\ at_rest bk i (all bk).
  Proof.
    intros [C [M1 M2 M3 M4] _]. unfold it_begin. pose proof (lnext_ok s bk (ufst s) [] (bk (ufst s)) C M1 eq_refl) as L. cbn [lk] in L. rewrite L. cbn [obind].
    eexists. split; [reflexivity|]. destruct (bk (ufst s)) as [|x xs] eqn:Ef; [left; cbn; split; auto|]. right. exists [], x, xs. cbn [fst snd hd app]. conj; auto.
    rewrite (all_split bk _ M1), Ef. cbn. assert (Hn : before_b bk (ufst s) = []); [|now rewrite Hn].
    unfold before_b. clear - M3. assert (G : forall l, (forall b, In b l -> bk b = []) -> flat_map bk l = []). { induction l as [|b l IH]; cbn; auto. intros H. rewrite (H b) by auto. apply IH; auto. }
    apply G. intros b Hb. rewrite in_seq in Hb. apply M3. lia.
  Qed.
  Lemma nz_all s bk r : core s bk -> incl r (all bk) -> ~ In 0 r.
  Proof. intros C I H. eapply core_nz; eauto. Qed.
  Lemma contents_ok s bk : inv s bk -> u_contents B N s = Some (map (uel s) (all bk)).
  Proof.
    intros V. pose proof (vc _ _ V) as C. unfold u_contents. destruct (begin_ok s bk V) as (i & -> & R). cbn [obind it_end snd].
    apply (walk_ok s bk 0 C (all bk) _ i []); [now rewrite app_nil_r|reflexivity|apply (nz_all s bk); auto; apply incl_refl|]. unfold ufuel. pose proof (ipool _ _ C). lia.
  Qed.
  Lemma advance_ok s bk : core s bk -> forall r1 i r2, at_rest bk i (r1 ++ r2) -> exists j, it_advance B (List.length r1) s i = Some j /\ at_rest bk j r2.
  Proof.
    intros C. induction r1 as [|x r1 IH]; intros i r2 R; cbn [it_advance List.length]; [eauto|]. cbn [app] in R. destruct (next_ok s bk i x _ C R) as (_ & j & -> & R'). cbn [obind]. auto.
  Qed.
  Lemma nth_ok s bk r1 r2 : inv s bk -> all bk = r1 ++ r2 -> exists j, it_nth B s (List.length r1) = Some j /\ at_rest bk j r2.
  Proof. intros V H. unfold it_nth. destruct (begin_ok s bk V) as (i & -> & R). cbn [obind]. rewrite H in R. apply (advance_ok s bk (vc _ _ V)) in R. exact R. Qed.

  Lemma find_prev_ok s bk b x ys : core s bk -> b < B -> forall zs n xs, bk b = xs ++ zs ++ x :: ys -> List.length zs < n -> find_prev B n s (lk b xs) x = Some (lk b (xs ++ zs)).
  Proof.
    intros C Hb. induction zs as [|z zs IH]; intros n xs E1 L; (destruct n as [|n]; [cbn in L; lia|]); cbn [find_prev]; rewrite (lnext_ok s bk b xs _ C Hb E1); cbn [obind hd app].
    - now rewrite Nat.eqb_refl, app_nil_r.
    - assert (z <> x). { intros ->. pose proof (ind _ _ C) as HN. rewrite (all_split bk b Hb), E1 in HN. apply NoDup_parts in HN. destruct HN as (HN & _). apply NoDup_remove_2 in HN. apply HN. rewrite !in_app_iff. cbn. auto. }
      destruct (Nat.eqb_spec z x); [congruence|]. rewrite <- (lk_snoc b xs z). rewrite (IH n (xs ++ [z])); [now rewrite <- app_assoc|now rewrite <- app_assoc|cbn in L; lia].
  Qed.
  Lemma after_upd_gt bk b v c : b < c -> after_b (upd bk b v) c = after_b bk c.
  Proof. intros H. apply flat_map_upd. rewrite in_seq. lia. Qed.
  Lemma erase_at_ok s bk i l1 x l2 : inv s bk -> all bk = l1 ++ x :: l2 -> at_rest bk i (x :: l2) ->
    exists s' j bk', um_erase_at B N s i = Some (s', j) /\ inv s' bk' /\ uel s' = uel s /\ all bk' = l1 ++ l2 /\ at_rest bk' j l2.
  Proof.
    intros V HA [[Hr _]|(xs & y & ys & Hb & E1 & Hs & Hr)]; [discriminate|]. cbn in Hr. injection Hr as <- Hr. pose proof (vc _ _ V) as C.
    unfold um_erase_at, it_next. rewrite Hs, (lnext_node s bk (fst i) xs x ys C Hb E1). cbn [obind].
    destruct (bump_ok s bk (fst i) (xs ++ [x]) ys C Hb) as (j & -> & J & J2); [now rewrite <- app_assoc|]. cbn [obind].
    pose proof (find_prev_ok s bk (fst i) x ys C Hb xs (ufuel N) [] E1) as FP. cbn [lk app] in FP. rewrite FP by (unfold ufuel; pose proof (core_len s bk _ C Hb) as CL; rewrite E1, app_length in CL; lia). cbn [obind].
    destruct (delete_ok s bk (fst i) xs x ys V Hb E1) as (s' & -> & V' & He). cbn [obind]. eexists _, _, _. split; [reflexivity|]. split; [exact V'|]. split; [exact He|].
    assert (HX : l1 = before_b bk (fst i) ++ xs).
    { rewrite (all_split bk _ Hb), E1 in HA. rewrite Hr in HA. pose proof (ind _ _ C) as HN. rewrite (all_split bk _ Hb), E1 in HN.
      assert (Q : (before_b bk (fst i) ++ xs) ++ x :: ys ++ after_b bk (fst i) = l1 ++ x :: ys ++ after_b bk (fst i)) by (rewrite <- HA; now rewrite <- !app_assoc). apply app_inv_tail in Q. congruence. }
    rewrite all_upd by auto. split; [rewrite HX, Hr; now rewrite <- !app_assoc|]. rewrite Hr.
    destruct J as [[J1 J3]|(xs' & z & ys' & K1 & K2 & K3 & K4)].
    - left. split; auto.
    - right. destruct ys as [|y ys].
      + cbn [app] in K4 |- *. destruct J2 as [J2|J2]; [auto| |].
        * exfalso. assert (I : In z (all bk)) by (apply (in_all bk (fst j)); auto; rewrite K2, in_app_iff; cbn; auto). apply (core_nz _ _ _ C I). congruence.
        * exists xs', z, ys'. rewrite upd_other by lia. rewrite after_upd_gt by auto. conj; auto.
      + cbn [app] in K4. injection K4 as <- K4. assert (Eb : fst j = fst i). { apply (other_bucket s bk (fst j) (fst i) y C K1 Hb); [rewrite K2|rewrite E1]; rewrite in_app_iff; cbn; auto. }
        rewrite Eb in *. exists xs, y, ys. rewrite upd_same, after_upd. conj; auto.
  Qed.
End P.
