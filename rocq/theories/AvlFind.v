(** * Searching and iterating the balanced tree of map/set (proof support for C14/C15) *)
From Coq Require Import List Arith Lia Bool.
From Verif Require Import Util SortSpec HeapProofs AvlModel AvlTree AvlRot AvlIns AvlDel.
Import ListNotations.

Section Find.
  Context {X K : Type}.
  Variable key : X -> K.
  Variable lt : K -> K -> bool.
  Notation st := (st X).
  Hypothesis O : strict_weak_order lt.
  Notation kof := (K_of key).
  Notation asc := (asc lt).

  Lemma asc_N (s : st) l p r : asc (kof s) (ino (N l p r)) ->
    asc (kof s) (ino l) /\ asc (kof s) (ino r) /\ (forall z, In z (ino l) -> lt (kof s z) (kof s p) = true) /\
    (forall z, In z (ino r) -> lt (kof s p) (kof s z) = true).
  Proof. cbn. intros H. apply asc_app in H. destruct H as (H1 & (H2 & H3) & H4). repeat split; auto. intros z Hz. apply H4; cbn; auto. Qed.
  Lemma find_false (P : nat -> bool) l : (forall z, In z l -> P z = false) -> find P l = None.
  Proof. induction l as [|a l IH]; cbn; auto. intros H. rewrite H by auto. apply IH. auto. Qed.
  Lemma find_app (P : nat -> bool) l1 l2 : find P (l1 ++ l2) = match find P l1 with Some z => Some z | None => find P l2 end.
  Proof. induction l1 as [|a l IH]; cbn; auto. destruct (P a); auto. Qed.

  (** find_node *)
  Lemma find_node_ok k t : forall n (s : st) x, hgt t < n -> al s 0 = false -> rep s x t -> asc (kof s) (ino t) ->
    find_node key lt n s x k = Some (match find (fun z => equivalent lt (kof s z) k) (ino t) with Some z => z | None => 0 end).
  Proof.
    induction t as [|l IHl p r IHr]; intros n s x Hn H0 HR Ha; (destruct n; [cbn in Hn; lia|]); cbn [find_node].
    - cbn in HR. subst x. reflexivity.
    - pose proof HR as (-> & Ap & Hl & Hr). destruct (Nat.eqb_spec p 0); [congruence|].
      apply asc_N in Ha. destruct Ha as (A1 & A2 & A3 & A4). cbn [hgt] in Hn.
      unfold re, rc. rewrite Ap. cbn [obind]. fold (kof s p). cbn [ino]. rewrite find_app. cbn [find].
      unfold equivalent at 2. destruct (lt k (kof s p)) eqn:E1.
      + rewrite andb_false_r. rewrite (IHl n s _ ltac:(lia) H0 Hl A1). rewrite (find_false _ (ino r)).
        { now destruct (find _ (ino l)). }
        intros z Hz. unfold equivalent. assert (lt k (kof s z) = true) as ->. { eapply (swo_trans _ O); eauto. } apply andb_false_r.
      + assert (FL : lt (kof s p) k = true \/ lt (kof s p) k = false) by (destruct (lt (kof s p) k); auto).
        rewrite (find_false _ (ino l)).
        2:{ intros z Hz. unfold equivalent. assert (lt (kof s z) k = true) as ->; auto. eapply lt_nlt_trans; eauto. }
        destruct (lt (kof s p) k) eqn:E2; cbn [negb andb].
        * apply IHr; auto. lia.
        * reflexivity.
  Qed.
  Lemma find_lower_ok k t : forall n (s : st) x low, hgt t < n -> al s 0 = false -> rep s x t -> asc (kof s) (ino t) ->
    find_lower_loop key lt n s x k low = Some (match find (fun z => negb (lt (kof s z) k)) (ino t) with Some z => z | None => low end).
  Proof.
    induction t as [|l IHl p r IHr]; intros n s x low Hn H0 HR Ha; (destruct n; [cbn in Hn; lia|]); cbn [find_lower_loop].
    - cbn in HR. subst x. reflexivity.
    - pose proof HR as (-> & Ap & Hl & Hr). destruct (Nat.eqb_spec p 0); [congruence|].
      apply asc_N in Ha. destruct Ha as (A1 & A2 & A3 & A4). cbn [hgt] in Hn.
      unfold re, rc. rewrite Ap. cbn [obind]. fold (kof s p). cbn [ino]. rewrite find_app. cbn [find].
      destruct (lt k (kof s p)) eqn:E1.
      + rewrite (lt_asym lt O _ _ E1). cbn [negb].
        destruct (Nat.eqb_spec (ch s p L) 0) as [Ez|Ez].
        * assert (l = E) as ->. { apply (rep_root s _ _ Hl H0). auto. } reflexivity.
        * rewrite (IHl n s _ p ltac:(lia) H0 Hl A1). now destruct (find _ (ino l)).
      + rewrite (find_false _ (ino l)).
        2:{ intros z Hz. assert (lt (kof s z) k = true) as ->; auto. eapply lt_nlt_trans; eauto. }
        destruct (lt (kof s p) k) eqn:E2; cbn [negb].
        * apply IHr; auto. lia.
        * rewrite (IHl n s _ p ltac:(lia) H0 Hl A1). rewrite (find_false _ (ino l)); auto.
          intros z Hz. assert (lt (kof s z) k = true) as ->; auto. eapply lt_nlt_trans; eauto.
  Qed.
  Lemma find_limit_ok d t : forall n (s : st) x, hgt t < n -> al s 0 = false -> rep s x t ->
    find_limit_node n s x d = Some (match d with L => hd 0 (ino t) | R => last (ino t) 0 end).
  Proof.
    induction t as [|l IHl p r IHr]; intros n s x Hn H0 HR; (destruct n; [cbn in Hn; lia|]); cbn [find_limit_node].
    - cbn in HR. subst x. now destruct d.
    - pose proof HR as (-> & Ap & Hl & Hr). destruct (Nat.eqb_spec p 0); [congruence|]. cbn [hgt] in Hn.
      unfold rc. rewrite Ap. cbn [obind]. cbn [ino]. destruct d.
      + destruct (Nat.eqb_spec (ch s p L) 0) as [Ez|Ez].
        * apply (rep_root s _ _ Hl H0) in Ez. subst l. reflexivity.
        * rewrite (IHl n s _ ltac:(lia) H0 Hl). destruct l as [|l1 q l2]; [cbn in Hl; congruence|]. cbn. destruct (ino l1); reflexivity.
      + destruct (Nat.eqb_spec (ch s p R) 0) as [Ez|Ez].
        * apply (rep_root s _ _ Hr H0) in Ez. subst r. cbn. now rewrite last_last.
        * rewrite (IHr n s _ ltac:(lia) H0 Hr). destruct r as [|r1 q r2]; [cbn in Hr; congruence|]. f_equal.
          assert (NE : ino (N r1 q r2) <> []) by (cbn; destruct (ino r1); discriminate).
          clear -NE. destruct (exists_last NE) as (m & z & ->). rewrite last_last.
          replace (ino l ++ p :: m ++ [z]) with ((ino l ++ p :: m) ++ [z]) by (now rewrite <- app_assoc). now rewrite last_last.
  Qed.
  Lemma find_upper_ok k t : forall n (s : st) x up, hgt t < n -> al s 0 = false -> rep s x t -> asc (kof s) (ino t) ->
    find_upper_loop key lt n s x k up = Some (match find (fun z => lt k (kof s z)) (ino t) with Some z => z | None => up end).
  Proof.
    induction t as [|l IHl p r IHr]; intros n s x up Hn H0 HR Ha; (destruct n; [cbn in Hn; lia|]); cbn [find_upper_loop].
    - cbn in HR. subst x. reflexivity.
    - pose proof HR as (-> & Ap & Hl & Hr). destruct (Nat.eqb_spec p 0); [congruence|].
      apply asc_N in Ha. destruct Ha as (A1 & A2 & A3 & A4). cbn [hgt] in Hn.
      unfold re, rc. rewrite Ap. cbn [obind]. fold (kof s p). cbn [ino]. rewrite find_app. cbn [find].
      destruct (lt k (kof s p)) eqn:E1.
      + rewrite (IHl n s _ p ltac:(lia) H0 Hl A1). now destruct (find _ (ino l)).
      + rewrite (find_false _ (ino l)).
        2:{ intros z Hz. apply (lt_asym lt O). eapply lt_nlt_trans; eauto. }
        destruct (lt (kof s p) k) eqn:E2.
        * apply IHr; auto. lia.
        * destruct (Nat.eqb_spec (ch s p R) 0) as [Ez|Ez].
          -- apply (rep_root s _ _ Hr H0) in Ez. subst r. reflexivity.
          -- rewrite (find_limit_ok L r n s _ ltac:(lia) H0 Hr).
             destruct (ino r) as [|z zs] eqn:Er; [destruct r as [|r1 q r2]; [cbn in Hr; congruence|cbn in Er; destruct (ino r1); discriminate]|].
             cbn. assert (lt k (kof s z) = true) as ->; auto. eapply nlt_lt_trans; eauto. apply A4. cbn; auto.
  Qed.

  (** find_parent_node: the parent of a node given by its context *)
  Lemma find_parent_loop_ok C : forall n (s : st) x l node r, hgt (plug C (N l node r)) <= n -> C <> [] -> al s 0 = false ->
    rep s x (plug C (N l node r)) -> NoDup (ino (plug C (N l node r))) -> asc (kof s) (ino (plug C (N l node r))) ->
    find_parent_loop key lt n s x node = Some (hda C).
  Proof.
    induction C as [|[[d p] o] C IH] using rev_ind; intros n s x l node r Hn HC H0 HR HN Ha; [congruence|].
    rewrite plug_app in *. cbn [plug] in *. rewrite hgt_nd in Hn. destruct n; [lia|].
    pose proof (proj1 (rep_nd _ _ _ _ _ _) HR) as (-> & Ap & HRu & HRo).
    pose proof (proj1 (NoDup_nd _ _ _ _) HN) as (Np1 & Np2 & Nu & No & Duo).
    assert (In_node : In node (ino (plug C (N l node r)))). { apply In_plug. left. cbn. rewrite in_app_iff. cbn. auto. }
    assert (An : al s node = true) by (eapply rep_al; [exact HRu|auto]).
    assert (Ho : ch s p (opp d) <> node).
    { intros Eo. rewrite Eo in HRo. destruct o; cbn in HRo; [congruence|]. destruct HRo as (-> & _). apply (Duo p0); auto. cbn. rewrite in_app_iff; cbn; auto. }
    cbn [find_parent_loop]. destruct (Nat.eqb_spec p 0); [congruence|]. unfold rc. rewrite Ap. cbn [obind].
    destruct C as [|f0 C0] eqn:EC.
    - cbn [plug app hda fad fst snd] in *. destruct HRu as (Ed & _).
      assert ((negb (ch s p L =? node) && negb (ch s p R =? node)) = false) as ->; auto.
      destruct d; rewrite Ed, Nat.eqb_refl; [reflexivity|apply andb_false_r].
    - rewrite <- EC in *. assert (HC' : C <> []) by (rewrite EC; discriminate).
      assert (Hd : ch s p d <> node).
      { intros Ed. rewrite Ed in HRu. destruct C as [|[[dz pz] oz] C1 _] using rev_ind; [congruence|]. clear EC.
        rewrite plug_app in *. cbn [plug] in *. apply rep_nd in HRu. destruct HRu as (<- & _).
        apply NoDup_nd in Nu. destruct Nu as (Nz & _). apply Nz. apply In_plug. left. cbn. rewrite in_app_iff. cbn. auto. }
      assert ((negb (ch s p L =? node) && negb (ch s p R =? node)) = true) as ->.
      { destruct d; cbn in Ho; destruct (Nat.eqb_spec (ch s p L) node), (Nat.eqb_spec (ch s p R) node); cbn; congruence. }
      unfold re. rewrite An, Ap. cbn [obind]. fold (kof s node) (kof s p).
      assert (HH : hda (C ++ [(d, p, o)]) = hda C) by (rewrite EC; reflexivity). apply eq_trans with (Some (hda C)); [|now f_equal].
      destruct d; cbn [nd] in Ha; apply asc_N in Ha; destruct Ha as (A1 & A2 & A3 & A4).
      + rewrite (A3 _ In_node). eapply IH; eauto. lia.
      + rewrite (lt_asym lt O _ _ (A4 _ In_node)), (A4 _ In_node). eapply IH; eauto. lia.
  Qed.
  Lemma find_parent_ok C n (s : st) l node r : hgt (plug C (N l node r)) <= n -> al s 0 = false ->
    rep s (rt s) (plug C (N l node r)) -> NoDup (ino (plug C (N l node r))) -> asc (kof s) (ino (plug C (N l node r))) ->
    find_parent_node key lt n s (rt s) node = Some (hda C).
  Proof.
    intros Hn H0 HR HN Ha. unfold find_parent_node.
    assert (In_node : In node (ino (plug C (N l node r)))). { apply In_plug. left. cbn. rewrite in_app_iff. cbn. auto. }
    assert (An : al s node = true) by (eapply rep_al; [exact HR|auto]).
    assert (Hn0 : node <> 0) by congruence. destruct (Nat.eqb_spec node 0); [congruence|].
    destruct C as [|[[d p] o] C _] using rev_ind.
    - cbn in HR. destruct HR as (-> & _). rewrite Nat.eqb_refl, andb_false_r. reflexivity.
    - pose proof HR as HR'. pose proof HN as HN'. rewrite plug_app in HR', HN'. cbn [plug] in *. apply rep_nd in HR'. destruct HR' as (Er & Ap & _).
      apply NoDup_nd in HN'. destruct HN' as (Np & _). rewrite Er.
      destruct (Nat.eqb_spec p 0); [congruence|]. destruct (Nat.eqb_spec p node).
      + exfalso. subst p. apply Np. apply In_plug. left. cbn. rewrite in_app_iff. cbn. auto.
      + cbn [negb andb]. rewrite Er in HR. eapply find_parent_loop_ok; eauto. intros H. now destruct C.
  Qed.
  Lemma find_ref_ok C : forall n (s : st) x l node r, hgt (plug C (N l node r)) <= n -> al s 0 = false -> 
    rep s x (plug C (N l node r)) -> NoDup (ino (plug C (N l node r))) -> asc (kof s) (ino (plug C (N l node r))) ->
    (C = [] -> rt s = node) -> find_ref_loop key lt n s x node = Some node.
  Proof.
    induction C as [|[[d p] o] C IH] using rev_ind; intros n s x l node r Hn H0 HR HN Ha HC.
    - destruct n; [cbn in Hn; lia|]. cbn [plug] in *. destruct HR as (-> & Ap & Hl & Hr). cbn [find_ref_loop].
      destruct (Nat.eqb_spec node 0); [congruence|]. unfold rc, re. rewrite Ap. cbn [obind].
      destruct (Nat.eqb_spec (ch s node L) node); [congruence|]. destruct (Nat.eqb_spec (ch s node R) node); [congruence|].
      rewrite (swo_irrefl _ O). now rewrite HC.
    - clear HC. rewrite plug_app in *. cbn [plug] in *. rewrite hgt_nd in Hn. destruct n; [lia|].
      pose proof (proj1 (rep_nd _ _ _ _ _ _) HR) as (-> & Ap & HRu & HRo).
      pose proof (proj1 (NoDup_nd _ _ _ _) HN) as (Np1 & Np2 & Nu & No & Duo).
      assert (In_node : In node (ino (plug C (N l node r)))). { apply In_plug. left. cbn. rewrite in_app_iff. cbn. auto. }
      assert (An : al s node = true) by (eapply rep_al; [exact HRu|auto]).
      cbn [find_ref_loop]. destruct (Nat.eqb_spec p 0); [congruence|]. unfold rc. rewrite Ap. cbn [obind].
      destruct (Nat.eqb_spec (ch s p L) node) as [Ea|Ea]; [congruence|]. destruct (Nat.eqb_spec (ch s p R) node) as [Eb|Eb]; [congruence|].
      unfold re. rewrite An, Ap. cbn [obind]. fold (kof s node) (kof s p).
      assert (HC : C <> []). { intros ->. cbn [plug] in HRu. destruct HRu as (Ed & _). destruct d; congruence. }
      destruct d; cbn [nd] in Ha; apply asc_N in Ha; destruct Ha as (A1 & A2 & A3 & A4).
      + rewrite (A3 _ In_node). eapply IH; eauto; [lia|congruence].
      + rewrite (lt_asym lt O _ _ (A4 _ In_node)), (A4 _ In_node). eapply IH; eauto; [lia|congruence].
  Qed.

  (** climbing *)
  Lemma climb_ok d C : forall n m (s : st) l node r, length C < n -> hgt (plug C (N l node r)) <= m -> al s 0 = false ->
    rep s (rt s) (plug C (N l node r)) -> NoDup (ino (plug C (N l node r))) -> asc (kof s) (ino (plug C (N l node r))) ->
    climb key lt n m s node d = Some (match d with R => hd 0 (post C) | L => last (pre C) 0 end).
  Proof.
    induction C as [|[[e p] o] C IH]; intros n m s l node r Hn Hm H0 HR HN Ha.
    - destruct n; [lia|]. cbn [climb]. erewrite find_parent_ok by eauto. cbn. now destruct d.
    - destruct n; [cbn in Hn; lia|]. cbn [climb]. erewrite find_parent_ok by eauto. cbn [obind hda fad fst snd].
      cbn [plug] in *. pose proof (proj1 (rep_plug _ _ _) HR) as (x & HC & HX).
      pose proof (proj1 (rep_nd _ _ _ _ _ _) HX) as (-> & Ap & HXa & HXo). destruct HXa as (Ed & _).
      destruct (Nat.eqb_spec p 0); [congruence|]. unfold rc. rewrite Ap. cbn [obind].
      pose proof (proj1 (NoDup_plug _ _) HN) as (HN1 & _). pose proof (proj1 (NoDup_nd _ _ _ _) HN1) as (Np1 & Np2 & Nu & No & Duo).
      destruct (side_cases e d) as [->| ->].
      + rewrite Ed, Nat.eqb_refl. cbn in Hn.
        assert (G : exists l' r', nd e p (N l node r) o = N l' p r') by (destruct e; cbn; eauto).
        destruct G as (l' & r' & G). rewrite G in *. rewrite (IH n m s l' p r'); auto; [|lia].
        destruct e; cbn [pre post pref postf]; [now rewrite app_nil_r|reflexivity].
      + destruct (Nat.eqb_spec (ch s p (opp e)) node) as [Eo|Eo].
        * exfalso. rewrite Eo in HXo.
          assert (An : al s node = true).
          { eapply rep_al; [exact HR|]. apply In_plug. left. apply In_nd. right. left. cbn. rewrite in_app_iff. cbn. auto. }
          destruct o; cbn in HXo.
          -- rewrite HXo in An. congruence.
          -- destruct HXo as (<- & _). apply (Duo node); cbn; rewrite in_app_iff; cbn; auto.
        * destruct e; cbn [pre post pref postf opp].
          -- reflexivity.
          -- rewrite app_assoc, last_last. reflexivity.
  Qed.

  Lemma in_split_tree t : forall x, In x (ino t) -> exists C l r, t = plug C (N l x r).
  Proof.
    induction t as [|l IHl p r IHr]; cbn; [tauto|]. intros x Hx. rewrite in_app_iff in Hx. destruct Hx as [Hx|[<-|Hx]].
    - destruct (IHl x Hx) as (C & a & b & ->). exists (C ++ [(L, p, r)]), a, b. rewrite plug_app. reflexivity.
    - exists [], l, r. reflexivity.
    - destruct (IHr x Hx) as (C & a & b & ->). exists (C ++ [(R, p, l)]), a, b. rewrite plug_app. reflexivity.
  Qed.
  Lemma NoDup_split_unique (l1 l2 m1 m2 : list nat) x : NoDup (l1 ++ x :: l2) -> l1 ++ x :: l2 = m1 ++ x :: m2 -> l1 = m1 /\ l2 = m2.
  Proof.
    revert m1. induction l1 as [|a l1 IH]; intros [|b m1]; cbn; intros HN E1.
    - split; congruence.
    - exfalso. injection E1 as <- ->. inversion HN as [|y l Hx _]; subst. apply Hx. rewrite in_app_iff. cbn. auto.
    - exfalso. injection E1 as -> <-. inversion HN as [|y l Hx _]; subst. apply Hx. rewrite in_app_iff. cbn. auto.
    - injection E1 as <- E2. inversion HN as [|y l _ HN']; subst. destruct (IH m1 HN' E2). subst. auto.
  Qed.
  Notation wft := (wft key lt).
  Lemma next_ok n (s : st) t l1 x l2 : wft s t -> length (ino t) < n -> ino t = l1 ++ x :: l2 -> next_node key lt n s x = Some (hd 0 l2).
  Proof.
    intros W Hn E1. destruct W as [HR HB HN H0 Hal Hsz HF Ha].
    assert (Ix : In x (ino t)) by (rewrite E1, in_app_iff; cbn; auto).
    destruct (in_split_tree t x Ix) as (C & a & b & ->).
    rewrite ino_plug in E1. cbn [ino] in E1. pose proof HN as HN'. rewrite ino_plug in HN'. cbn [ino] in HN'.
    replace (pre C ++ (ino a ++ x :: ino b) ++ post C) with ((pre C ++ ino a) ++ x :: (ino b ++ post C)) in * by (now rewrite <- !app_assoc).
    destruct (NoDup_split_unique _ _ _ _ _ HN' E1) as [_ <-].
    pose proof (proj1 (rep_plug _ _ _) HR) as (y & HC & HX). pose proof HX as (-> & Ax & HXa & HXb).
    unfold next_node. destruct (Nat.eqb_spec x 0); [congruence|]. unfold rc. rewrite Ax. cbn [obind].
    pose proof (hgt_ino (plug C (N a x b))) as HH. pose proof (length_ctx C (N a x b)) as HL.
    destruct (Nat.eqb_spec (ch s x R) 0) as [Eb|Eb].
    - apply (rep_root s _ _ HXb H0) in Eb. subst b. cbn [ino app].
      rewrite (climb_ok R C n n s a x E); auto; lia.
    - rewrite (find_limit_ok L b n s _); auto.
      + destruct b as [|b1 q b2]; [cbn in HXb; congruence|]. f_equal. cbn. destruct (ino b1); reflexivity.
      + assert (hgt b <= hgt (plug C (N a x b))). { rewrite hgt_plug. pose proof (hgtc_ge C (hgt (N a x b))). cbn in *. lia. } lia.
  Qed.
  Lemma prev_ok n (s : st) t l1 x l2 : wft s t -> length (ino t) < n -> ino t = l1 ++ x :: l2 -> prev_node key lt n s x = Some (last l1 0).
  Proof.
    intros W Hn E1. destruct W as [HR HB HN H0 Hal Hsz HF Ha].
    assert (Ix : In x (ino t)) by (rewrite E1, in_app_iff; cbn; auto).
    destruct (in_split_tree t x Ix) as (C & a & b & ->).
    rewrite ino_plug in E1. cbn [ino] in E1. pose proof HN as HN'. rewrite ino_plug in HN'. cbn [ino] in HN'.
    replace (pre C ++ (ino a ++ x :: ino b) ++ post C) with ((pre C ++ ino a) ++ x :: (ino b ++ post C)) in * by (now rewrite <- !app_assoc).
    destruct (NoDup_split_unique _ _ _ _ _ HN' E1) as [<- _].
    pose proof (proj1 (rep_plug _ _ _) HR) as (y & HC & HX). pose proof HX as (-> & Ax & HXa & HXb).
    unfold prev_node. destruct (Nat.eqb_spec x 0); [congruence|]. unfold rc. rewrite Ax. cbn [obind].
    pose proof (hgt_ino (plug C (N a x b))) as HH. pose proof (length_ctx C (N a x b)) as HL.
    destruct (Nat.eqb_spec (ch s x L) 0) as [Eb|Eb].
    - apply (rep_root s _ _ HXa H0) in Eb. subst a. cbn [ino]. rewrite app_nil_r.
      rewrite (climb_ok L C n n s E x b); auto; lia.
    - rewrite (find_limit_ok R a n s _); auto.
      + destruct a as [|a1 q a2]; [cbn in HXa; congruence|]. f_equal.
        assert (NE : ino (N a1 q a2) <> []) by (cbn; destruct (ino a1); discriminate).
        clear -NE. destruct (exists_last NE) as (m & z & ->). rewrite app_assoc, !last_last. reflexivity.
      + assert (hgt a <= hgt (plug C (N a x b))). { rewrite hgt_plug. pose proof (hgtc_ge C (hgt (N a x b))). cbn in *. lia. } lia.
  Qed.
  (** the decrement of end() *)
  Lemma prev_end_ok n (s : st) t : wft s t -> length (ino t) < n -> prev_node key lt n s 0 = Some (last (ino t) 0).
  Proof.
    intros W Hn. destruct W as [HR HB HN H0 Hal Hsz HF Ha]. unfold prev_node. cbn [Nat.eqb].
    pose proof (hgt_ino t). now rewrite (find_limit_ok R t n s _ ltac:(lia) H0 HR).
  Qed.
  Lemma find_ref_wft n (s : st) t x : wft s t -> length (ino t) < n -> In x (ino t) -> find_ref_loop key lt n s (rt s) x = Some x.
  Proof.
    intros W Hn Ix. destruct W as [HR HB HN H0 Hal Hsz HF Ha]. destruct (in_split_tree t x Ix) as (C & a & b & ->).
    pose proof (hgt_ino (plug C (N a x b))). eapply find_ref_ok; eauto; [lia|]. intros ->. cbn in HR. tauto.
  Qed.
End Find.
