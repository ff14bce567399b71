(** * Searching and iterating the balanced tree of multimap/multiset (proof support for C51) *)
From Coq Require Import List Arith Lia Bool.
From Verif Require Import Util SortSpec HeapProofs AvlModel AvlTree AvlRot AvlIns AvlDel AvlRem AvlFind MmModel MmTree MmIns.
Import ListNotations.

Section Find.
  Context {X K : Type}.
  Variable key : X -> K.
  Variable lt : K -> K -> bool.
  Hypothesis O : strict_weak_order lt.
  Notation st := (st X).
  Notation kof := (K_of key).
  Notation mwf := (mwf key lt).
  Notation nasc := (nasc lt).

  Lemma nasc_N (s : st) l p r : nasc (kof s) (ino (N l p r)) ->
    nasc (kof s) (ino l) /\ nasc (kof s) (ino r) /\ (forall z, In z (ino l) -> lt (kof s p) (kof s z) = false) /\
    (forall z, In z (ino r) -> lt (kof s z) (kof s p) = false).
  Proof using. cbn. intros H. apply nasc_app in H. destruct H as (H1 & (H2 & H3) & H4). repeat split; auto. intros z Hz. apply H4; cbn; auto. Qed.

  (** find_node gives the first of the equal keys *)
  Lemma mfind_node_ok k t : forall n (s : st) x found, hgt t < n -> al s 0 = false -> rep s x t -> nasc (kof s) (ino t) ->
    mfind_node key lt n s x k found = Some (match find (fun z => equivalent lt (kof s z) k) (ino t) with Some z => z | None => found end).
  Proof using O.
    induction t as [|l IHl p r IHr]; intros n s x found Hn H0 HR Ha; (destruct n; [cbn in Hn; lia|]); cbn [mfind_node].
    - cbn in HR. subst x. reflexivity.
    - pose proof HR as (-> & Ap & Hl & Hr). destruct (Nat.eqb_spec p 0); [congruence|].
      apply nasc_N in Ha. destruct Ha as (A1 & A2 & A3 & A4). cbn [hgt] in Hn.
      unfold re, rc. rewrite Ap. cbn [obind]. fold (kof s p). cbn [ino]. rewrite find_app. cbn [find].
      unfold equivalent at 2. destruct (lt k (kof s p)) eqn:E1.
      + rewrite andb_false_r. rewrite (IHl n s _ found ltac:(lia) H0 Hl A1). rewrite (find_false _ (ino r)).
        { now destruct (find _ (ino l)). }
        intros z Hz. unfold equivalent. assert (lt k (kof s z) = true) as ->. { eapply lt_nlt_trans; eauto. } apply andb_false_r.
      + destruct (lt (kof s p) k) eqn:E2; cbn [negb andb].
        * rewrite (find_false _ (ino l)); [apply IHr; auto; lia|]. intros z Hz. unfold equivalent. assert (lt (kof s z) k = true) as ->; auto. eapply nlt_lt_trans; eauto.
        * rewrite (IHl n s _ p ltac:(lia) H0 Hl A1). now destruct (find _ (ino l)).
  Qed.
  Lemma mfind_lower_ok k t : forall n (s : st) x low, hgt t < n -> al s 0 = false -> rep s x t -> nasc (kof s) (ino t) ->
    mfind_lower key lt n s x k low = Some (match find (fun z => negb (lt (kof s z) k)) (ino t) with Some z => z | None => low end).
  Proof using O.
    induction t as [|l IHl p r IHr]; intros n s x low Hn H0 HR Ha; (destruct n; [cbn in Hn; lia|]); cbn [mfind_lower].
    - cbn in HR. subst x. reflexivity.
    - pose proof HR as (-> & Ap & Hl & Hr). destruct (Nat.eqb_spec p 0); [congruence|].
      apply nasc_N in Ha. destruct Ha as (A1 & A2 & A3 & A4). cbn [hgt] in Hn.
      unfold re, rc. rewrite Ap. cbn [obind]. fold (kof s p). cbn [ino]. rewrite find_app. cbn [find].
      destruct (lt k (kof s p)) eqn:E1.
      + rewrite (lt_asym lt O _ _ E1). cbn [negb].
        destruct (Nat.eqb_spec (ch s p L) 0) as [Ez|Ez].
        * assert (l = E) as ->. { apply (rep_root s _ _ Hl H0). auto. } reflexivity.
        * rewrite (IHl n s _ p ltac:(lia) H0 Hl A1). now destruct (find _ (ino l)).
      + destruct (lt (kof s p) k) eqn:E2; cbn [negb].
        * rewrite (find_false _ (ino l)); [apply IHr; auto; lia|]. intros z Hz. assert (lt (kof s z) k = true) as ->; auto. eapply nlt_lt_trans; eauto.
        * rewrite (IHl n s _ p ltac:(lia) H0 Hl A1). now destruct (find _ (ino l)).
  Qed.

  (** climbing *)
  Lemma mclimb_ok d C : forall n (s : st) g l node r, length C < n -> po s g (plug C (N l node r)) ->
    mclimb n s g node d = Some (match d with R => hd 0 (post C) | L => last (pre C) 0 end).
  Proof using.
    induction C as [|[[e p] o] C IH]; intros n s g l node r Hn HP; pose proof HP as [HR HN H0 HG].
    - destruct n; [lia|]. cbn [mclimb]. cbn in HR, HG. destruct HR as (_ & An & _). destruct HG as (Gn & _). unfold rp. rewrite An, Gn. cbn. now destruct d.
    - destruct n; [cbn in Hn; lia|]. cbn [mclimb].
      cbn [plug] in *. pose proof (proj1 (rep_plug _ _ _) HR) as (x & HC & HX). pose proof (proj1 (prep_plug _ _ _) HG) as (HG1 & _). apply prep_nd in HG1. destruct HG1 as (_ & (Gn & _) & _).
      pose proof (proj1 (rep_nd _ _ _ _ _ _) HX) as (-> & Ap & HXa & HXo). destruct HXa as (Ed & An & _).
      unfold rp. rewrite An, Gn. cbn [obind].
      destruct (Nat.eqb_spec p 0); [congruence|]. unfold rc. rewrite Ap. cbn [obind].
      pose proof (proj1 (NoDup_plug _ _) HN) as (HN1 & _). pose proof (proj1 (NoDup_nd _ _ _ _) HN1) as (Np1 & Np2 & Nu & No & Duo).
      destruct (side_cases e d) as [->| ->].
      + rewrite Ed, Nat.eqb_refl. cbn in Hn.
        assert (G : exists l' r', nd e p (N l node r) o = N l' p r') by (destruct e; cbn; eauto).
        destruct G as (l' & r' & G). rewrite G in *. rewrite (IH n s g l' p r'); auto; [|lia].
        destruct e; cbn [pre post pref postf]; [now rewrite app_nil_r|reflexivity].
      + destruct (Nat.eqb_spec (ch s p (opp e)) node) as [Eo|Eo].
        * exfalso. rewrite Eo in HXo. destruct o; cbn in HXo.
          -- subst node. congruence.
          -- destruct HXo as (<- & _). apply (Duo node); cbn; rewrite in_app_iff; cbn; auto.
        * destruct e; cbn [pre post pref postf opp].
          -- reflexivity.
          -- rewrite app_assoc, last_last. reflexivity.
  Qed.
  Lemma mnext_ok n (s : st) g t l1 x l2 : po s g t -> length (ino t) < n -> ino t = l1 ++ x :: l2 -> mnext_node n s g x = Some (hd 0 l2).
  Proof using.
    intros HP Hn E1. pose proof HP as [HR HN H0 HG].
    assert (Ix : In x (ino t)) by (rewrite E1, in_app_iff; cbn; auto).
    destruct (in_split_tree t x Ix) as (C & a & b & ->).
    rewrite ino_plug in E1. cbn [ino] in E1. pose proof HN as HN'. rewrite ino_plug in HN'. cbn [ino] in HN'.
    replace (pre C ++ (ino a ++ x :: ino b) ++ post C) with ((pre C ++ ino a) ++ x :: (ino b ++ post C)) in * by (now rewrite <- !app_assoc).
    destruct (NoDup_split_unique _ _ _ _ _ HN' E1) as [_ <-].
    pose proof (proj1 (rep_plug _ _ _) HR) as (y & HC & HX). pose proof HX as (-> & Ax & HXa & HXb).
    unfold mnext_node. destruct (Nat.eqb_spec x 0); [congruence|]. unfold rc. rewrite Ax. cbn [obind].
    pose proof (hgt_ino (plug C (N a x b))) as HH. pose proof (length_ctx C (N a x b)) as HL.
    destruct (Nat.eqb_spec (ch s x R) 0) as [Eb|Eb].
    - apply (rep_root s _ _ HXb H0) in Eb. subst b. cbn [ino app].
      rewrite (mclimb_ok R C n s g a x E); auto; lia.
    - rewrite (find_limit_ok L b n s _); auto.
      + destruct b as [|b1 q b2]; [cbn in HXb; congruence|]. f_equal. cbn. destruct (ino b1); reflexivity.
      + assert (hgt b <= hgt (plug C (N a x b))). { rewrite hgt_plug. pose proof (hgtc_ge C (hgt (N a x b))). cbn in *. lia. } lia.
  Qed.
  Lemma mprev_ok n (s : st) g t l1 x l2 : po s g t -> length (ino t) < n -> ino t = l1 ++ x :: l2 -> mprev_node n s g x = Some (last l1 0).
  Proof using.
    intros HP Hn E1. pose proof HP as [HR HN H0 HG].
    assert (Ix : In x (ino t)) by (rewrite E1, in_app_iff; cbn; auto).
    destruct (in_split_tree t x Ix) as (C & a & b & ->).
    rewrite ino_plug in E1. cbn [ino] in E1. pose proof HN as HN'. rewrite ino_plug in HN'. cbn [ino] in HN'.
    replace (pre C ++ (ino a ++ x :: ino b) ++ post C) with ((pre C ++ ino a) ++ x :: (ino b ++ post C)) in * by (now rewrite <- !app_assoc).
    destruct (NoDup_split_unique _ _ _ _ _ HN' E1) as [<- _].
    pose proof (proj1 (rep_plug _ _ _) HR) as (y & HC & HX). pose proof HX as (-> & Ax & HXa & HXb).
    unfold mprev_node. destruct (Nat.eqb_spec x 0); [congruence|]. unfold rc. rewrite Ax. cbn [obind].
    pose proof (hgt_ino (plug C (N a x b))) as HH. pose proof (length_ctx C (N a x b)) as HL.
    destruct (Nat.eqb_spec (ch s x L) 0) as [Eb|Eb].
    - apply (rep_root s _ _ HXa H0) in Eb. subst a. cbn [ino]. rewrite app_nil_r.
      rewrite (mclimb_ok L C n s g E x b); auto; lia.
    - rewrite (find_limit_ok R a n s _); auto.
      + destruct a as [|a1 q a2]; [cbn in HXa; congruence|]. f_equal.
        assert (NE : ino (N a1 q a2) <> []) by (cbn; destruct (ino a1); discriminate).
        clear -NE. destruct (exists_last NE) as (m & z & ->). rewrite app_assoc, !last_last. reflexivity.
      + assert (hgt a <= hgt (plug C (N a x b))). { rewrite hgt_plug. pose proof (hgtc_ge C (hgt (N a x b))). cbn in *. lia. } lia.
  Qed.
  Lemma mprev_end_ok n (s : st) g t : po s g t -> length (ino t) < n -> mprev_node n s g 0 = Some (last (ino t) 0).
  Proof using.
    intros HP Hn. pose proof HP as [HR HN H0 HG]. unfold mprev_node. cbn [Nat.eqb].
    pose proof (hgt_ino t). now rewrite (find_limit_ok R t n s _ ltac:(lia) H0 HR).
  Qed.

  (** find_upper_node: after an equal key it follows the in-order successors *)
  Lemma mupper_chain k m T (s : st) g : po s g T -> length (ino T) < m -> forall M n A Q up, ino T = A ++ M ++ Q -> length M + 1 < n ->
    (forall z, In z M -> lt (kof s z) k = false /\ lt k (kof s z) = false) -> (forall z, In z Q -> lt k (kof s z) = true) -> (Q = [] -> up = 0) ->
    mfind_upper key lt n m s g (hd 0 (M ++ Q)) k true up = Some (hd 0 Q).
  Proof using O.
    intros HP Hm. pose proof HP as [HR HN H0 HG]. induction M as [|x M IH]; intros n A Q up E1 Hn HM HQ Hup; (destruct n; [lia|]).
    - cbn [app hd mfind_upper]. destruct Q as [|y Q]; cbn [hd]; [rewrite Hup; auto|].
      assert (Ay : al s y = true) by (eapply rep_al; [exact HR|rewrite E1, !in_app_iff; cbn; auto]).
      destruct (Nat.eqb_spec y 0); [congruence|]. unfold re, rc. rewrite Ay. cbn [obind]. fold (kof s y).
      pose proof (HQ y ltac:(cbn; auto)) as G. rewrite G, (lt_asym lt O _ _ G). reflexivity.
    - cbn [app hd mfind_upper].
      assert (Ax : al s x = true) by (eapply rep_al; [exact HR|rewrite E1, !in_app_iff; cbn; auto]).
      destruct (Nat.eqb_spec x 0); [congruence|]. unfold re. rewrite Ax. cbn [obind]. fold (kof s x).
      destruct (HM x ltac:(cbn; auto)) as [G1 G2]. rewrite G1, G2.
      rewrite (mnext_ok m s g T A x (M ++ Q) HP Hm E1). cbn [obind].
      apply (IH n (A ++ [x])); auto; [now rewrite <- app_assoc|cbn in Hn; lia|intros z Hz; apply HM; cbn; auto].
  Qed.
  Lemma split_upper k (s : st) xs : nasc (kof s) xs -> (forall z, In z xs -> lt (kof s z) k = false) ->
    exists M Q, xs = M ++ Q /\ (forall z, In z M -> lt (kof s z) k = false /\ lt k (kof s z) = false) /\ (forall z, In z Q -> lt k (kof s z) = true).
  Proof using O.
    induction xs as [|x xs IH]; intros Ha Hx; [exists [], []; split; auto; split; intros z []|]. cbn [MmIns.nasc] in Ha. destruct Ha as [A1 A2].
    destruct (lt k (kof s x)) eqn:E1.
    - exists [], (x :: xs). split; auto. split; [intros z []|]. intros z [<-|Hz]; auto. eapply lt_nlt_trans; eauto.
    - destruct (IH A2) as (M & Q & -> & B1 & B2); [intros; apply Hx; cbn; auto|]. exists (x :: M), Q. split; auto. split; auto.
      intros z [<-|Hz]; auto. split; auto. apply Hx. cbn. auto.
  Qed.
  Lemma mfind_upper_ok k m T (s : st) g : po s g T -> length (ino T) < m -> forall t n x P Q up, ino T = P ++ ino t ++ Q -> hgt t + length (ino T) + 2 < n ->
    rep s x t -> nasc (kof s) (ino t ++ Q) -> (forall z, In z Q -> lt k (kof s z) = true) -> up = hd 0 Q ->
    mfind_upper key lt n m s g x k false up = Some (match find (fun z => lt k (kof s z)) (ino t) with Some z => z | None => up end).
  Proof using O.
    intros HP Hm. pose proof HP as [HRT HN H0 HG]. induction t as [|l IHl p r IHr]; intros n x P Q up E1 Hn HR Ha HQ Hup; (destruct n; [cbn in Hn; lia|]); cbn [mfind_upper].
    - cbn in HR. subst x. reflexivity.
    - pose proof HR as (-> & Ap & Hl & Hr). destruct (Nat.eqb_spec p 0); [congruence|].
      pose proof Ha as Ha'. apply nasc_app in Ha'. destruct Ha' as (Ha1 & _ & _). apply nasc_N in Ha1. destruct Ha1 as (A1 & A2 & A3 & A4). cbn [hgt] in Hn.
      unfold re, rc. rewrite Ap. cbn [obind]. fold (kof s p). cbn [ino] in E1, Ha |- *. rewrite <- app_assoc in E1, Ha. cbn [app] in E1, Ha. rewrite find_app. cbn [find].
      apply nasc_app in Ha. destruct Ha as (B1 & (B2 & B3) & B4).
      destruct (lt (kof s p) k) eqn:E2.
      + rewrite (lt_asym lt O _ _ E2). rewrite (find_false _ (ino l)).
        2:{ intros z Hz. apply (lt_asym lt O). eapply nlt_lt_trans; eauto. }
        eapply (IHr n _ (P ++ ino l ++ [p]) Q); auto; [rewrite <- !app_assoc; auto|lia].
      + destruct (lt k (kof s p)) eqn:E3.
        * destruct (Nat.eqb_spec (ch s p L) 0) as [Ez|Ez]; cbn [negb andb].
          -- apply (rep_root s _ _ Hl H0) in Ez. subst l. reflexivity.
          -- assert (GP : forall z, In z (p :: ino r ++ Q) -> lt k (kof s z) = true).
             { intros z [<-|Hz]; auto. eapply lt_nlt_trans; eauto. }
             rewrite (IHl n (ch s p L) P (p :: ino r ++ Q) p); auto; [now destruct (find _ (ino l))|lia|].
             apply nasc_app. split; auto. split; [cbn; auto|auto].
        * assert (E1' : ino T = (P ++ ino l) ++ p :: (ino r ++ Q)) by (now rewrite <- app_assoc).
          rewrite (mnext_ok m s g T _ p _ HP Hm E1'). cbn [obind].
          destruct (split_upper k s (ino r)) as (M & Q' & Er & C1 & C2); auto.
          { intros z Hz. apply (nlt_trans lt O k (kof s p)); auto. }
          rewrite Er. rewrite <- app_assoc.
          rewrite (mupper_chain k m T s g HP Hm M n ((P ++ ino l) ++ [p]) (Q' ++ Q) up).
          -- rewrite (find_false _ (ino l)). 2:{ intros z Hz. apply (nlt_trans lt O (kof s z) (kof s p)); auto. }
             rewrite find_app, (find_false _ M). 2:{ intros z Hz. apply C1; auto. }
             destruct Q' as [|y Q']; cbn [app hd find]; [now rewrite Hup|]. now rewrite C2 by (cbn; auto).
          -- rewrite E1', Er, <- !app_assoc. reflexivity.
          -- apply (f_equal (@length nat)) in E1. rewrite Er, !app_length in E1. cbn [length] in E1. rewrite !app_length in E1. lia.
          -- exact C1.
          -- intros z Hz. rewrite in_app_iff in Hz. destruct Hz; auto.
          -- intros Hx. apply app_eq_nil in Hx. destruct Hx as [_ ->]. subst up. reflexivity.
  Qed.
End Find.
