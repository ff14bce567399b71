(** * Operations of unordered_map/unordered_set against the finite-map specification (support for C16) *)
From Coq Require Import List Arith Lia Bool Permutation.
From Verif Require Import Util FlatSpec UmSpec AvlModel UmModel UmProofs.
Import ListNotations.

Section P.
  Context {E K : Type}.
  Variable key : E -> K.
  Variable keq : K -> K -> bool.
  Variable hash : K -> nat.
  Variable B N : nat.
  Variable fl : flavour.
  Variable mk : K -> E.
  Hypothesis HB : 0 < B.
  Hypothesis HH : hashable keq hash.
  Hypothesis Hmk : forall k, key (mk k) = k.
  Notation ust := (ust E).
  Notation bucket := (bucket hash B).
  Notation all := (all B).
  Notation inv := (inv key keq hash B N).
  Notation core := (core key hash B N).
  Notation at_rest := (at_rest B).
  Notation lookup := (lookup key keq).
  Notation remove_key := (remove_key key keq).

  Definition repb (s : ust) bk (l : list E) : Prop := inv s bk /\ Permutation (map (uel s) (all bk)) l.
  Definition rep (s : ust) (l : list E) : Prop := exists bk, repb s bk l.

  Lemma NoDup_app_remove_l {A} (l l' : list A) : NoDup (l ++ l') -> NoDup l'.
  Proof. induction l as [|a l IH]; cbn; auto. intros H. inversion H; auto. Qed.
  (** ** the finite map of a list of nodes *)
  Lemma lookup_none k l : (forall e, In e l -> keq k (key e) = false) -> lookup k l = None.
  Proof. intros H. unfold UmSpec.lookup. induction l as [|e l IH]; cbn; auto. unfold has_key at 1. rewrite H by (cbn; auto). apply IH. intros; apply H; cbn; auto. Qed.
  Lemma lookup_some k l e : In e l -> keq k (key e) = true -> (forall e', In e' l -> keq k (key e') = true -> e' = e) -> lookup k l = Some e.
  Proof.
    intros I Hk U. unfold UmSpec.lookup. induction l as [|a l IH]; [destruct I|]. cbn. unfold has_key at 1. destruct (keq k (key a)) eqn:Ea.
    - f_equal. apply U; cbn; auto.
    - destruct I as [->|I]; [congruence|]. apply IH; auto. intros; apply U; cbn; auto.
  Qed.
  Lemma rep_len s bk l : repb s bk l -> List.length (all bk) = List.length l.
  Proof. intros [_ P]. rewrite <- (Permutation_length P). now rewrite map_length. Qed.
  Lemma rep_none s bk l k : repb s bk l -> (forall x, In x (all bk) -> keq k (key (uel s x)) = false) -> lookup k l = None.
  Proof. intros [_ P] H. apply lookup_none. intros e I. apply (Permutation_in _ (Permutation_sym P)) in I. apply in_map_iff in I. destruct I as (x & <- & I). auto. Qed.
  Lemma uniq_k s bk k x y : inv s bk -> In x (all bk) -> In y (all bk) -> keq k (key (uel s x)) = true -> keq k (key (uel s y)) = true -> y = x.
  Proof. intros V Ix Iy Hx Hy. apply (vu _ _ _ _ _ _ _ V); auto. eapply (keq_trans _ _ HH); [|exact Hx]. now apply (keq_sym _ _ HH). Qed.
  Lemma rep_some s bk l k x : repb s bk l -> In x (all bk) -> keq k (key (uel s x)) = true -> lookup k l = Some (uel s x).
  Proof.
    intros [V P] I Hk. apply lookup_some; auto; [apply (Permutation_in _ P); now apply in_map|]. intros e' I' Hk'. apply (Permutation_in _ (Permutation_sym P)) in I'. apply in_map_iff in I'.
    destruct I' as (y & <- & I'). f_equal. eapply uniq_k; eauto.
  Qed.
  Lemma perm_filter {A} (f : A -> bool) l l' : Permutation l l' -> Permutation (filter f l) (filter f l').
  Proof.
    induction 1; cbn; auto.
    - destruct (f x); auto.
    - destruct (f x), (f y); auto. constructor.
    - etransitivity; eauto.
  Qed.
  Lemma filter_id {A} (f : A -> bool) l : (forall x, In x l -> f x = true) -> filter f l = l.
  Proof. induction l as [|a l IH]; cbn; auto. intros H. rewrite (H a), IH; auto. Qed.
  Lemma rep_remove s bk l k l1 x l2 : repb s bk l -> all bk = l1 ++ x :: l2 -> keq k (key (uel s x)) = true -> Permutation (map (uel s) (l1 ++ l2)) (remove_key k l).
  Proof.
    intros [V P] HA Hk. unfold UmSpec.remove_key. etransitivity; [|apply perm_filter; exact P]. rewrite HA, !map_app, filter_app. cbn. unfold has_key at 2. rewrite Hk. cbn.
    assert (ND : NoDup (l1 ++ x :: l2)) by (rewrite <- HA; apply (ind _ _ _ _ _ _ (vc _ _ _ _ _ _ _ V))).
    assert (G : forall y, In y (l1 ++ l2) -> negb (has_key key keq k (uel s y)) = true).
    { intros y Hy. unfold has_key. destruct (keq k (key (uel s y))) eqn:Ey; auto. exfalso. apply NoDup_remove_2 in ND. apply ND. rewrite <- (uniq_k s bk k x y V); auto; rewrite HA; rewrite !in_app_iff in *; cbn; tauto. }
    rewrite !filter_id; auto; intros y Hy; apply in_map_iff in Hy; destruct Hy as (z & <- & Hz); apply G; rewrite in_app_iff; auto.
  Qed.
  Lemma rep_remove_none s bk l k : repb s bk l -> (forall x, In x (all bk) -> keq k (key (uel s x)) = false) -> remove_key k l = l.
  Proof. intros [_ P] H. apply filter_id. intros e I. apply (Permutation_in _ (Permutation_sym P)) in I. apply in_map_iff in I. destruct I as (x & <- & I). unfold has_key. now rewrite H. Qed.

  Lemma ufull_ok s bk l : repb s bk l -> ufull s = negb (List.length l <? N).
  Proof.
    intros R. pose proof (rep_len _ _ _ R) as L. pose proof (ipool _ _ _ _ _ _ (vc _ _ _ _ _ _ _ (proj1 R))) as P. unfold ufull. destruct (ufr s); cbn in P; destruct (Nat.ltb_spec (List.length l) N); cbn; auto; lia.
  Qed.

  (** a new node for an absent key, at any place of its bucket *)
  Lemma add_ok s bk l e xs ys : repb s bk l -> List.length l < N -> bk (bucket (key e)) = xs ++ ys -> (forall x, In x (all bk) -> keq (key e) (key (uel s x)) = false) ->
    exists s1 x s2, ualloc s e = Some (s1, x) /\ ins_after B s1 (bucket (key e)) (lk (bucket (key e)) xs) x = Some s2 /\
      let s3 := adjust_ins N s2 (bucket (key e)) in let bk' := upd bk (bucket (key e)) (xs ++ x :: ys) in
      repb s3 bk' (l ++ [e]) /\ uel s3 x = e /\ x <> 0 /\ In x (all bk').
  Proof.
    intros [V P] L E1 H. pose proof (vc _ _ _ _ _ _ _ V) as C. destruct (ufr s) as [|x f] eqn:Ef.
    { pose proof (ipool _ _ _ _ _ _ C) as Q. rewrite Ef in Q. rewrite <- (Permutation_length P), map_length in L. cbn in Q. lia. }
    pose proof (bucket_lt hash B HB (key e)) as Hb.
    destruct (ins_core key hash B N s bk e x f _ xs ys C Ef Hb E1 eq_refl) as (s1 & Ha & s2 & Hi & C2 & He & Hf & H1 & H2). exists s1, x, s2. split; auto. split; auto. cbv zeta.
    destruct (adjust_ins_ok key hash B N s s2 bk _ xs x ys (vm _ _ _ _ _ _ _ V) H1 H2 Hb E1 C2) as (C3 & M3 & He3 & _).
    destruct (ifr _ _ _ _ _ _ C) as [_ F2]. rewrite Ef in F2. destruct (F2 x) as [Ax Nx]; [cbn; auto|].
    assert (Hx : ~ In x (all bk)) by (rewrite <- (ial _ _ _ _ _ _ C); congruence).
    assert (HA : all (upd bk (bucket (key e)) (xs ++ x :: ys)) = (before_b bk (bucket (key e)) ++ xs) ++ x :: (ys ++ after_b B bk (bucket (key e)))) by (rewrite all_upd by auto; now rewrite <- !app_assoc).
    assert (HA0 : all bk = (before_b bk (bucket (key e)) ++ xs) ++ (ys ++ after_b B bk (bucket (key e)))) by (rewrite (all_split B bk _ Hb), E1; now rewrite <- !app_assoc).
    assert (G : forall z, In z (all bk) -> fupd (uel s) x e z = uel s z) by (intros z Hz; unfold fupd; destruct (Nat.eqb_spec z x) as [->|]; [contradiction|reflexivity]).
    assert (Gx : fupd (uel s) x e x = e) by (unfold fupd; now rewrite Nat.eqb_refl).
    rewrite He3, He. conj; auto; [|rewrite HA, in_app_iff; cbn; auto]. split; [constructor; auto|].
    - assert (Old : forall z, In z (all (upd bk (bucket (key e)) (xs ++ x :: ys))) -> z = x \/ In z (all bk)) by (intros z; rewrite HA, HA0; rewrite !(in_app_iff (before_b _ _ ++ xs)); cbn; intuition auto).
      intros y z Hy Hz. rewrite He3, He. destruct (Old y Hy) as [->|Iy], (Old z Hz) as [->|Iz]; auto; rewrite ?Gx, ?G by auto.
      + rewrite H by auto. discriminate.
      + intros Hk. apply (keq_sym _ _ HH) in Hk. rewrite H in Hk by auto. discriminate.
      + apply (vu _ _ _ _ _ _ _ V); auto.
    - rewrite He3, He, HA, map_app. cbn [map]. rewrite Gx. etransitivity; [symmetry; apply Permutation_middle|]. etransitivity; [|apply Permutation_cons_append]. constructor.
      rewrite <- map_app. etransitivity; [|exact P]. rewrite <- HA0. apply Permutation_refl'. apply map_ext_in. auto.
  Qed.

  Lemma deref_ok s bk b x : repb s bk [] \/ (exists l, repb s bk l) -> In x (all bk) -> deref s (b, x) = Some (Some (uel s x)).
  Proof.
    intros R I. assert (C : core s bk) by (destruct R as [[V _]|(l & V & _)]; apply (vc _ _ _ _ _ _ _ V)). unfold deref. cbn [snd]. pose proof (core_nz _ _ _ _ _ _ _ C I). destruct (Nat.eqb_spec x 0); [congruence|]. rewrite (ure_ok _ _ _ _ _ _ _ C I). reflexivity.
  Qed.
  Lemma find_ok s bk l k : repb s bk l ->
    (um_find key keq hash B N s k = Some (it_end s) /\ lookup k l = None) \/
    exists x r, um_find key keq hash B N s k = Some (bucket k, x) /\ x <> 0 /\ In x (all bk) /\ lookup k l = Some (uel s x) /\ keq k (key (uel s x)) = true /\ at_rest bk (bucket k, x) (x :: r).
  Proof.
    intros R. unfold um_find. destruct (scan_bucket_ok key keq hash B N HB HH s bk k (vc _ _ _ _ _ _ _ (proj1 R))) as [[-> H]|(zs & x & ws & E1 & -> & H1 & H2 & H3)]; cbn [obind].
    - left. cbn [Nat.eqb]. split; auto. eapply rep_none; eauto.
    - right. destruct (Nat.eqb_spec x 0); [congruence|]. exists x, (ws ++ after_b B bk (bucket k)). conj; auto; [eapply rep_some; eauto|]. right. exists zs, x, ws. cbn [fst snd]. conj; auto. apply bucket_lt; auto.
  Qed.
  Lemma insert_ok s l e r l' : rep s l -> u_insert key keq N fl e l = (r, l') ->
    exists s' q, um_insert key keq hash B N fl s e = Some (s', q) /\ rep s' l' /\
      match q with UFull => r = Ufull_error | UIns i b => exists x, deref s' i = Some x /\ r = Uitb x b end.
  Proof.
    intros (bk & R). unfold u_insert.
    assert (ADD : List.length l < N -> exists s' q, um_add key keq hash B N s e = Some (s', q) /\
      ((lookup (key e) l = None /\ rep s' (l ++ [e]) /\ exists i, q = UIns i true /\ deref s' i = Some (Some e)) \/ (exists x, lookup (key e) l = Some x /\ s' = s /\ q = UIns (it_end s) false))).
    { intros L. unfold um_add. destruct (scan_bucket_ok key keq hash B N HB HH s bk (key e) (vc _ _ _ _ _ _ _ (proj1 R))) as [[-> H]|(zs & x & ws & E1 & -> & H1 & H2 & H3)]; cbn [obind].
      - cbn [Nat.eqb]. destruct (add_ok s bk l e (bk (bucket (key e))) [] R L) as (s1 & x & s2 & -> & Hi & R3 & Hx & Nx & Ix); auto; [now rewrite app_nil_r|]. cbn [obind]. rewrite Hi. cbn [obind].
        eexists _, _. split; [reflexivity|]. left. split; [eapply rep_none; eauto|]. split; [eexists; exact R3|]. eexists. split; [reflexivity|]. erewrite deref_ok; [|right; eexists; exact R3|exact Ix]. now rewrite Hx.
      - destruct (Nat.eqb_spec x 0); [congruence|]. eexists _, _. split; [reflexivity|]. right. eexists. split; [eapply rep_some; eauto|]. auto. }
    unfold um_insert. pose proof (ufull_ok _ _ _ R) as F. destruct (Nat.ltb_spec (List.length l) N) as [L|L]; cbn in F; rewrite F.
    - intros HE. destruct (ADD L) as (s' & q & Hq & [(L0 & R' & i & -> & D)|(x & L0 & -> & ->)]); rewrite L0 in HE; injection HE as <- <-.
      + destruct fl; (eexists _, _; split; [exact Hq|]; split; [exact R'|eauto]).
      + destruct fl; (eexists _, _; split; [exact Hq|]; split; [exists bk; exact R|exists None; split; [reflexivity|reflexivity]]).
    - intros HE. destruct (find_ok s bk l (key e) R) as [[Hf L0]|(x & rr & Hf & Nx & Ix & L0 & _ & _)]; rewrite L0 in HE.
      + injection HE as <- <-. destruct fl.
        * rewrite Hf. cbn [obind]. rewrite Nat.eqb_refl. eexists _, _. split; [reflexivity|]. split; [exists bk; exact R|reflexivity].
        * eexists _, _. split; [reflexivity|]. split; [exists bk; exact R|reflexivity].
      + destruct fl; injection HE as <- <-.
        * rewrite Hf. cbn [obind it_end snd]. destruct (Nat.eqb_spec x 0); [congruence|]. eexists _, _. split; [reflexivity|]. split; [exists bk; exact R|]. eexists. split; [|reflexivity]. apply (deref_ok s bk); eauto.
        * eexists _, _. split; [reflexivity|]. split; [exists bk; exact R|reflexivity].
  Qed.
  Lemma insert_all_ok es : forall s l r l', rep s l -> u_insert_all key keq N fl es l = (r, l') ->
    exists s' b, um_insert_all key keq hash B N fl s es = Some (s', b) /\ rep s' l' /\ r = if (b : bool) then Ufull_error else Uunit.
  Proof.
    induction es as [|e es IH]; intros s l r l' R HE; cbn [um_insert_all u_insert_all] in *.
    - injection HE as <- <-. eexists _, _. split; [reflexivity|]. auto.
    - destruct (u_insert key keq N fl e l) as [r1 l1] eqn:E1. destruct (insert_ok s l e r1 l1 R E1) as (s1 & q & -> & R1 & Hq). cbn [obind]. destruct q as [|i b].
      + subst r1. injection HE as <- <-. eexists _, _. split; [reflexivity|]. auto.
      + destruct Hq as (x & _ & ->). eapply IH; eauto.
  Qed.

  (** ** clear *)
  Lemma collect_ok s bk b : core s bk -> b < B -> forall ys n xs, bk b = xs ++ ys -> List.length ys < n -> collect B n s (hd 0 ys) = Some ys.
  Proof.
    intros C Hb. induction ys as [|y ys IH]; intros n xs E1 L; (destruct n as [|n]; [cbn in L; lia|]); cbn [collect hd]; [reflexivity|].
    assert (I : In y (all bk)) by (apply (in_all B bk b); auto; rewrite E1, in_app_iff; cbn; auto).
    destruct (Nat.eqb_spec y 0) as [->|_]; [exfalso; eapply core_nz; eauto|]. rewrite (lnext_node _ _ _ _ s bk b xs y ys C Hb E1). cbn [obind].
    rewrite (IH n (xs ++ [y])); [reflexivity|now rewrite <- app_assoc|cbn in L; lia].
  Qed.
  Lemma collect_all_ok s bk : core s bk -> forall m b, b + m = B -> collect_all B N m s b = Some (flat_map bk (seq b m)).
  Proof.
    intros C. induction m as [|m IH]; intros b Hb; cbn [collect_all seq flat_map]; [reflexivity|].
    rewrite (bempty_ok _ _ _ _ s bk b C) by lia. cbn [obind]. pose proof (lnext_ok _ _ _ _ s bk b [] (bk b) C ltac:(lia) eq_refl) as L. cbn [lk] in L. rewrite L. cbn [obind].
    rewrite (IH (S b)) by lia. destruct (bk b) as [|z zs] eqn:Eb; cbn [obind]; [reflexivity|].
    rewrite (collect_ok s bk b C ltac:(lia) (z :: zs) _ []) ; [reflexivity|now rewrite Eb|]. unfold ufuel. pose proof (core_len _ _ _ _ s bk b C ltac:(lia)) as CL. rewrite Eb in CL. lia.
  Qed.
  Lemma all_nothing : all (fun _ => []) = [].
  Proof. apply all_nil. auto. Qed.
  Lemma clear_ok s bk : inv s bk -> exists s', um_clear B N s = Some s' /\ inv s' (fun _ => []) /\ uel s' = uel s.
  Proof.
    intros V. pose proof (vc _ _ _ _ _ _ _ V) as C. unfold um_clear, uempty. rewrite (usize_ok _ _ _ _ _ _ C).
    assert (HM : forall s' : ust, ufst s' = 0 -> ulst s' = 0 -> marks B s' (fun _ => [])) by (intros s' H1 H2; constructor; rewrite ?H1, ?H2; auto; intros; apply all_nothing).
    assert (HU : forall s' : ust, uniq key keq B s' (fun _ => [])) by (intros s' x y I; rewrite all_nothing in I; destruct I).
    destruct (Nat.eqb_spec (List.length (all bk)) 0) as [L|L].
    - eexists. split; [reflexivity|]. split; [|reflexivity]. apply length_zero_iff_nil in L. constructor; auto. pose proof (proj2 (all_nil B bk) L) as Z. apply core_mset.
      destruct C as [C1 C2 C3 C4 C5 C6 C7 C8 C9]. constructor; auto.
      + intros b Hb. rewrite C1, Z by auto. reflexivity.
      + intros. exact I.
      + intros b Hb. rewrite C3, Z by auto. reflexivity.
      + rewrite all_nothing. constructor.
      + intros x. rewrite C5, L, all_nothing. tauto.
      + intros b x _ [].
      + rewrite all_nothing. rewrite L in C9. exact C9.
    - rewrite (collect_all_ok s bk C B 0) by lia. cbn [obind]. fold (all bk). eexists. split; [reflexivity|]. split; [|reflexivity].
      assert (EX : forall x, existsb (Nat.eqb x) (all bk) = true <-> In x (all bk)).
      { intros x. rewrite existsb_exists. split; [intros (y & I & Ey); apply Nat.eqb_eq in Ey; congruence|]. intros I. exists x. split; auto. apply Nat.eqb_refl. }
      constructor; auto. apply core_mset. destruct C as [C1 C2 C3 C4 C5 C6 C7 C8 C9]. constructor; cbn [pset bset uhd ucnt unx uel ual ufr].
      + intros b Hb. destruct (Nat.ltb_spec b B); [|lia]. rewrite C3, C1 by auto. destruct (bk b); reflexivity.
      + intros. exact I.
      + intros b Hb. destruct (Nat.ltb_spec b B); [|lia]. rewrite C3 by auto. destruct (bk b); reflexivity.
      + rewrite all_nothing. constructor.
      + intros x. rewrite all_nothing. destruct (existsb (Nat.eqb x) (all bk)) eqn:Ex; [split; [discriminate|intros []]|]. rewrite C5. split; [|intros []]. intros I. apply EX in I. congruence.
      + destruct (existsb (Nat.eqb 0) (all bk)); auto.
      + intros b x _ [].
      + destruct C8 as [F1 F2]. split.
        * clear - C4 C5 F1 F2. revert C4 C5. generalize (all bk) as xs. intros xs H Hs. assert (D : forall x, In x xs -> ~ In x (ufr s)). { intros x Hx Hf. apply F2 in Hf. apply Hs in Hx. destruct Hf. congruence. }
          clear Hs. induction xs as [|x xs IH]; cbn; auto. inversion H; subst. constructor; [|apply IH; auto; intros; apply D; cbn; auto]. rewrite in_app_iff. intros [?|?]; [auto|]. apply (D x); cbn; auto.
        * intros x Hx. rewrite in_app_iff in Hx. destruct (existsb (Nat.eqb x) (all bk)) eqn:Ex.
          -- split; auto. apply EX in Ex. intros ->. apply C5 in Ex. congruence.
          -- destruct Hx as [Hx|Hx]; [apply EX in Hx; congruence|]. auto.
      + rewrite all_nothing, app_length. cbn. lia.
  Qed.
  Lemma clear_rep s l : rep s l -> exists s', um_clear B N s = Some s' /\ rep s' [].
  Proof. intros (bk & V & _). destruct (clear_ok s bk V) as (s' & H & V' & _). exists s'. split; auto. exists (fun _ => []). split; auto. rewrite all_nothing. constructor. Qed.

  (** ** one operation *)
  Theorem op_ok o s l r l' : rep s l -> u_op key keq N fl mk o l = Some (r, l') ->
    exists r' s', um_op key keq hash B N fl mk o s = Some (r', s') /\ same_result r' r /\ rep s' l'.
  Proof.
    intros R HE. destruct o as [e|es|es|k|k| |k|k|k|k|k|k| | | | |]; cbn [u_op um_op] in *.
    - injection HE as HE. destruct (insert_ok s l e r l' R HE) as (s' & q & -> & R' & Hq). cbn [obind]. destruct q as [|i b].
      + subst r. eexists _, _. split; [reflexivity|]. split; [reflexivity|auto].
      + destruct Hq as (x & -> & ->). cbn [obind]. eexists _, _. split; [reflexivity|]. split; [reflexivity|auto].
    - injection HE as HE. destruct (insert_all_ok es s l r l' R HE) as (s' & b & -> & R' & ->). cbn [obind]. eexists _, _. split; [reflexivity|]. split; [destruct b; reflexivity|auto].
    - injection HE as HE. destruct (clear_rep s l R) as (s0 & -> & R0). cbn [obind]. destruct (insert_all_ok es s0 [] r l' R0 HE) as (s' & b & -> & R' & ->). cbn [obind]. eexists _, _. split; [reflexivity|]. split; [destruct b; reflexivity|auto].
    - destruct R as (bk & R). unfold um_erase_key. destruct (scan_bucket_ok key keq hash B N HB HH s bk k (vc _ _ _ _ _ _ _ (proj1 R))) as [[-> H]|(zs & x & ws & E1 & -> & H1 & H2 & H3)]; cbn [obind].
      + cbn [Nat.eqb obind]. rewrite (rep_none s bk l k R H), (rep_remove_none s bk l k R H) in HE. injection HE as <- <-. eexists _, _. split; [reflexivity|]. split; [reflexivity|exists bk; auto].
      + destruct (Nat.eqb_spec x 0); [congruence|]. destruct (delete_ok key keq hash B N s bk (bucket k) zs x ws (proj1 R) (bucket_lt hash B HB k) E1) as (s' & -> & V' & He). cbn [obind].
        rewrite (rep_some s bk l k x R H3 H1) in HE. injection HE as <- <-. eexists _, _. split; [reflexivity|]. split; [reflexivity|]. eexists. split; [exact V'|]. rewrite He, all_upd by (apply bucket_lt; auto).
        rewrite app_assoc. replace ((before_b bk (bucket k) ++ zs ++ ws) ++ after_b B bk (bucket k)) with ((before_b bk (bucket k) ++ zs) ++ (ws ++ after_b B bk (bucket k))) by (now rewrite <- !app_assoc).
        apply (rep_remove s bk l k _ x _ R); auto. rewrite (all_split B bk (bucket k)) by (apply bucket_lt; auto). rewrite E1. now rewrite <- !app_assoc.
    - destruct R as (bk & R). destruct (find_ok s bk l k R) as [[-> L0]|(x & rr & -> & Nx & Ix & L0 & Hk & AR)]; rewrite L0 in HE; [discriminate|]. injection HE as <- <-. cbn [obind].
      assert (HA : exists l1, all bk = l1 ++ x :: rr). { destruct AR as [[? _]|(xs & y & ys & Hb & E1 & Hs & Hr)]; [discriminate|]. cbn [fst snd] in *. rewrite (all_split B bk _ Hb), E1. exists (before_b bk (bucket k) ++ xs). rewrite Hr. now rewrite <- !app_assoc. }
      destruct HA as (l1 & HA). destruct (erase_at_ok key keq hash B N s bk _ l1 x rr (proj1 R) HA AR) as (s' & j & bk' & -> & V' & He & HA' & _). cbn [obind]. eexists _, _. split; [reflexivity|]. split; [reflexivity|].
      exists bk'. split; auto. rewrite He, HA'. eapply rep_remove; eauto.
    - injection HE as <- <-. destruct (clear_rep s l R) as (s0 & -> & R0). cbn [obind]. eexists _, _. split; [reflexivity|]. split; [reflexivity|auto].
    - injection HE as <- <-. destruct R as (bk & R). destruct (find_ok s bk l k R) as [[-> L0]|(x & rr & -> & Nx & Ix & L0 & Hk & AR)]; cbn [obind]; rewrite L0.
      + eexists _, _. split; [reflexivity|]. split; [reflexivity|exists bk; auto].
      + rewrite (deref_ok s bk) by eauto. eexists _, _. split; [reflexivity|]. split; [reflexivity|exists bk; auto].
    - injection HE as <- <-. destruct R as (bk & R). destruct (find_ok s bk l k R) as [[-> L0]|(x & rr & -> & Nx & Ix & L0 & Hk & AR)]; cbn [obind it_end snd]; rewrite L0.
      + cbn. eexists _, _. split; [reflexivity|]. split; [reflexivity|exists bk; auto].
      + destruct (Nat.eqb_spec x 0); [congruence|]. eexists _, _. split; [reflexivity|]. split; [reflexivity|exists bk; auto].
    - injection HE as <- <-. destruct R as (bk & R). destruct (find_ok s bk l k R) as [[-> L0]|(x & rr & -> & Nx & Ix & L0 & Hk & AR)]; cbn [obind it_end snd]; rewrite L0.
      + cbn. eexists _, _. split; [reflexivity|]. split; [reflexivity|exists bk; auto].
      + destruct (Nat.eqb_spec x 0); [congruence|]. eexists _, _. split; [reflexivity|]. split; [reflexivity|exists bk; auto].
    - injection HE as <- <-. destruct R as (bk & R). pose proof (vc _ _ _ _ _ _ _ (proj1 R)) as C. destruct (find_ok s bk l k R) as [[-> L0]|(x & rr & -> & Nx & Ix & L0 & Hk & AR)]; cbn [obind it_end snd]; rewrite L0.
      + cbn [Nat.eqb obind snd]. erewrite (walk_ok key hash B N s bk 0 C [] _ _ []); [|left; split; reflexivity|reflexivity|intros []|unfold ufuel; cbn; lia]. cbn [obind map]. eexists _, _. split; [reflexivity|]. split; [cbn; constructor|exists bk; auto].
      + destruct (Nat.eqb_spec x 0); [congruence|]. destruct (next_ok key hash B N s bk _ x rr C AR) as (_ & j & -> & AJ). cbn [obind].
        assert (LN : 0 < N). { pose proof (ipool _ _ _ _ _ _ C). destruct (all bk); [destruct Ix|]. cbn in *. lia. }
        erewrite (walk_ok key hash B N s bk (snd j) C [x] _ _ rr); [|exact AR|eapply rest_hd; eauto| |unfold ufuel; cbn; lia].
        * cbn [obind map]. eexists _, _. split; [reflexivity|]. split; [cbn; constructor; constructor|exists bk; auto].
        * intros [Hx|[]]. rewrite (rest_hd _ _ _ _ AJ) in Hx. destruct rr as [|y rr]; cbn in Hx; [congruence|]. subst y.
          destruct AR as [[? _]|(xs & y & ys & Hb & E1 & Hs & Hr)]; [discriminate|]. pose proof (ind _ _ _ _ _ _ C) as ND. rewrite (all_split B bk _ Hb), E1 in ND. rewrite <- app_assoc in ND.
          rewrite <- Hr in ND. apply NoDup_app_remove_l, NoDup_app_remove_l in ND. inversion ND; subst. cbn in *. tauto.
    - destruct fl; [discriminate|]. injection HE as <- <-. destruct R as (bk & R). destruct (scan_bucket_ok key keq hash B N HB HH s bk k (vc _ _ _ _ _ _ _ (proj1 R))) as [[-> H]|(zs & x & ws & E1 & -> & H1 & H2 & H3)]; cbn [obind].
      + rewrite (rep_none s bk l k R H). eexists _, _. split; [reflexivity|]. split; [reflexivity|exists bk; auto].
      + destruct (Nat.eqb_spec x 0); [congruence|]. rewrite (rep_some s bk l k x R H3 H1). rewrite (ure_ok _ _ _ _ _ _ _ (vc _ _ _ _ _ _ _ (proj1 R)) H3). eexists _, _. split; [reflexivity|]. split; [reflexivity|exists bk; auto].
    - destruct fl; [discriminate|]. injection HE as HE. destruct R as (bk & R). unfold um_index. destruct (scan_bucket_ok key keq hash B N HB HH s bk k (vc _ _ _ _ _ _ _ (proj1 R))) as [[-> H]|(zs & x & ws & E1 & -> & H1 & H2 & H3)]; cbn [obind].
      + rewrite (rep_none s bk l k R H) in HE. cbn [Nat.eqb]. destruct (Nat.ltb_spec (List.length l) N) as [L|L].
        * injection HE as <- <-. destruct (add_ok s bk l (mk k) [] (bk (bucket k)) R L) as (s1 & x & s2 & -> & Hi & R3 & Hx & Nx & Ix); [now rewrite Hmk|rewrite Hmk; auto|]. rewrite Hmk in *. cbn [lk app] in *. rewrite Hi. cbn [obind].
          pose proof (lnext_ok _ _ _ _ _ _ (bucket k) [] _ (vc _ _ _ _ _ _ _ (proj1 R3)) (bucket_lt hash B HB k) eq_refl) as LN. cbn [lk] in LN. rewrite upd_same in LN. cbn [hd] in LN. rewrite LN. cbn [obind].
          rewrite (ure_ok _ _ _ _ _ _ _ (vc _ _ _ _ _ _ _ (proj1 R3)) Ix), Hx. cbn [obind]. eexists _, _. split; [reflexivity|]. split; [reflexivity|]. eexists. exact R3.
        * injection HE as <- <-. pose proof (ipool _ _ _ _ _ _ (vc _ _ _ _ _ _ _ (proj1 R))) as Q. rewrite (rep_len _ _ _ R) in Q. unfold ualloc. destruct (ufr s); [|cbn in Q; lia]. cbn [obind].
          eexists _, _. split; [reflexivity|]. split; [reflexivity|exists bk; auto].
      + destruct (Nat.eqb_spec x 0); [congruence|]. rewrite (rep_some s bk l k x R H3 H1) in HE. injection HE as <- <-. rewrite (ure_ok _ _ _ _ _ _ _ (vc _ _ _ _ _ _ _ (proj1 R)) H3). eexists _, _. split; [reflexivity|]. split; [reflexivity|exists bk; auto].
    - injection HE as <- <-. destruct R as (bk & R). rewrite (contents_ok key keq hash B N s bk (proj1 R)). cbn [obind]. eexists _, _. split; [reflexivity|]. split; [exact (proj2 R)|exists bk; auto].
    - injection HE as <- <-. destruct R as (bk & R). rewrite (usize_ok _ _ _ _ _ _ (vc _ _ _ _ _ _ _ (proj1 R))), (rep_len _ _ _ R). eexists _, _. split; [reflexivity|]. split; [reflexivity|exists bk; auto].
    - injection HE as <- <-. destruct R as (bk & R). unfold uempty. rewrite (usize_ok _ _ _ _ _ _ (vc _ _ _ _ _ _ _ (proj1 R))), (rep_len _ _ _ R). eexists _, _. split; [reflexivity|]. split; [reflexivity|exists bk; auto].
    - injection HE as <- <-. destruct R as (bk & R). rewrite (ufull_ok s bk l R). pose proof (ipool _ _ _ _ _ _ (vc _ _ _ _ _ _ _ (proj1 R))) as Q. rewrite (rep_len _ _ _ R) in Q.
      eexists _, _. split; [reflexivity|]. split; [|exists bk; auto]. unfold same_result. f_equal. destruct (Nat.ltb_spec (List.length l) N), (Nat.eqb_spec (List.length l) N); cbn; auto; lia.
    - injection HE as <- <-. destruct R as (bk & R). pose proof (ipool _ _ _ _ _ _ (vc _ _ _ _ _ _ _ (proj1 R))) as Q. rewrite (rep_len _ _ _ R) in Q.
      eexists _, _. split; [reflexivity|]. split; [|exists bk; auto]. cbn. f_equal. lia.
  Qed.
  Theorem ops_ok os : forall s l rs l', rep s l -> u_ops key keq N fl mk os l = Some (rs, l') ->
    exists rs' s', um_ops key keq hash B N fl mk os s = Some (rs', s') /\ Forall2 same_result rs' rs /\ rep s' l'.
  Proof.
    induction os as [|o os IH]; intros s l rs l' R HE; cbn [um_ops u_ops] in *.
    - injection HE as <- <-. eexists _, _. split; [reflexivity|]. split; [constructor|auto].
    - destruct (u_op key keq N fl mk o l) as [[x l1]|] eqn:E1; [|discriminate]. destruct (u_ops key keq N fl mk os l1) as [[xs l2]|] eqn:E2; [|discriminate]. injection HE as <- <-.
      destruct (op_ok o s l x l1 R E1) as (x' & s1 & -> & Hx & R1). cbn [obind]. destruct (IH s1 l1 xs l2 R1 E2) as (xs' & s2 & -> & Hxs & R2). cbn [obind]. eexists _, _. split; [reflexivity|]. split; [constructor; auto|auto].
  Qed.
  Lemma new_rep n e pool : NoDup pool -> List.length pool = N -> ~ In 0 pool -> rep (um_new n e pool) [].
  Proof.
    intros H1 H2 H3. exists (fun _ => []). split; [|rewrite all_nothing; constructor]. constructor.
    - constructor; cbn; auto.
      + rewrite all_nothing. constructor.
      + intros x. rewrite all_nothing. split; [discriminate|intros []].
      + intros b x _ [].
      + split; auto. intros x Hx. split; auto. intros ->. auto.
      + rewrite all_nothing. cbn. lia.
    - constructor; cbn; auto. intros; apply all_nothing.
    - intros x y I. rewrite all_nothing in I. destruct I.
  Qed.
  Lemma rep_distinct s l : rep s l -> distinct key keq l.
  Proof.
    intros (bk & V & P). assert (D : forall l1 e l2, map (uel s) (all bk) = l1 ++ e :: l2 -> forall x, In x (l1 ++ l2) -> keq (key e) (key x) = false).
    { intros l1 e l2 HE x I. destruct (keq (key e) (key x)) eqn:Ek; auto. exfalso. apply map_eq_app in HE. destruct HE as (a & b & Ha & Hl1 & Hb). apply map_eq_cons in Hb. destruct Hb as (z & c & -> & He & Hc).
      assert (Iw : exists w, In w (a ++ c) /\ uel s w = x). { subst l1 l2. rewrite <- map_app in I. apply in_map_iff in I. destruct I as (w & Hw & Iw). eauto. } destruct Iw as (w & Iw & <-). subst e.
      pose proof (ind _ _ _ _ _ _ (vc _ _ _ _ _ _ _ V)) as ND. rewrite Ha in ND. apply NoDup_remove_2 in ND. apply ND. rewrite (vu _ _ _ _ _ _ _ V z w); auto; rewrite Ha; rewrite !in_app_iff in *; cbn; tauto. }
    clear V. revert D P. generalize (map (uel s) (all bk)) as m. intros m D P.
    assert (D' : forall l1 e l2, l = l1 ++ e :: l2 -> forall x, In x (l1 ++ l2) -> keq (key e) (key x) = false).
    { intros l1 e l2 -> x I. assert (Ie : In e m) by (apply (Permutation_in _ (Permutation_sym P)); rewrite in_app_iff; cbn; auto). apply in_split in Ie. destruct Ie as (m1 & m2 & ->).
      apply (D m1 e m2 eq_refl). apply Permutation_app_inv in P. apply (Permutation_in _ (Permutation_sym P)). auto. }
    clear D P. induction l as [|e r IH]; cbn; auto. split; [intros x I; apply (D' [] e r eq_refl); auto|]. apply IH. intros l1 e' l2 -> x I. apply (D' (e :: l1) e' l2 eq_refl). cbn. auto.
  Qed.

  (** ** range erase up to an element *)
  Lemma after_to bk b c : b < c -> c < B -> after_b B bk b = flat_map bk (seq (S b) (c - S b)) ++ bk c ++ after_b B bk c.
  Proof.
    intros H1 H2. unfold after_b. replace (B - S b) with ((c - S b) + S (B - S c)) by lia. rewrite seq_app, flat_map_app. replace (S b + (c - S b)) with c by lia. reflexivity.
  Qed.
  Lemma flat_nil (bk : nat -> list nat) b c : (forall d, b < d -> d < c -> bk d = []) -> flat_map bk (seq (S b) (c - S b)) = [].
  Proof.
    intros H. assert (G : forall xs, (forall d, In d xs -> bk d = []) -> flat_map bk xs = []) by (induction xs as [|d xs IH]; cbn; auto; intros Hd; rewrite (Hd d) by auto; apply IH; auto).
    apply G. intros d Hd. rewrite in_seq in Hd. apply H; lia.
  Qed.
  Lemma in_after bk b x : b < B -> In x (after_b B bk b) -> exists c, b < c /\ c < B /\ In x (bk c).
  Proof. intros Hb H. unfold after_b in H. apply in_flat_map in H. destruct H as (c & H1 & H2). rewrite in_seq in H1. exists c. conj; auto; lia. Qed.
  Lemma erase_loop_ok e l3 : forall l2 n s bk b xs ys pend, inv s bk -> b < B -> pend < B -> In e (bk pend) -> bk b = xs ++ ys -> ys <> [] -> ys ++ after_b B bk b = l2 ++ e :: l3 -> List.length l2 < n ->
    exists s' bk', erase_loop B N n s b (lk b xs) (hd 0 ys) pend e = Some s' /\ inv s' bk' /\ uel s' = uel s /\ (forall c, c < b -> bk' c = bk c) /\
      exists ys', bk' b = xs ++ ys' /\ ys' ++ after_b B bk' b = e :: l3.
  Proof.
    induction l2 as [|x l2 IH]; intros n s bk b xs ys pend V Hb Hp Ie E1 NE HR L; (destruct n as [|n]; [cbn in L; lia|]); cbn [erase_loop]; pose proof (vc _ _ _ _ _ _ _ V) as C; (destruct ys as [|y ys]; [congruence|]); cbn [hd app] in *; injection HR as Hy HR.
    - subst y. assert (b = pend) by (apply (other_bucket key hash B N s bk b pend e C Hb Hp); auto; rewrite E1, in_app_iff; cbn; auto). subst pend. rewrite !Nat.eqb_refl. cbn [andb].
      exists s, bk. conj; auto. exists (e :: ys). split; auto. cbn. now f_equal.
    - subst y. pose proof (ind _ _ _ _ _ _ C) as ND. assert (Nxe : x <> e).
      { intros ->. rewrite (all_split B bk b Hb), E1, <- app_assoc in ND. apply NoDup_app_remove_l, NoDup_app_remove_l in ND. cbn in ND. rewrite HR in ND. inversion ND; subst. apply H1. rewrite in_app_iff. cbn. auto. }
      destruct (Nat.eqb_spec x e); [congruence|]. cbn [andb]. destruct (delete_ok key keq hash B N s bk b xs x ys V Hb E1) as (s1 & -> & V1 & He1). cbn [obind].
      assert (Ie1 : In e (upd bk b (xs ++ ys) pend)). { destruct (Nat.eq_dec pend b) as [->|Np]; [|now rewrite upd_other by auto]. rewrite upd_same. rewrite E1 in Ie. rewrite in_app_iff in *. cbn in Ie. intuition congruence. }
      assert (Ne0 : e <> 0) by (apply (core_nz key hash B N s bk); auto; eapply in_all; eauto).
      destruct ys as [|y ys].
      + cbn [hd]. destruct (Nat.eqb_spec 0 e); [congruence|]. cbn [andb Nat.eqb]. rewrite app_nil_r in V1. rewrite app_nil_r in Ie1. cbn [app] in HR.
        assert (Hpb : b < pend). { assert (I : In e (after_b B bk b)) by (rewrite HR, in_app_iff; cbn; auto). apply in_after in I; auto. destruct I as (c & I1 & I2 & I3). rewrite (other_bucket key hash B N s bk pend c e C Hp I2 Ie I3). auto. }
        destruct (skip_empty_ok key hash B N s1 _ (vc _ _ _ _ _ _ _ V1) (S B) (S b) pend) as (d & -> & D1 & D2 & D3 & D4); [lia|auto|intros Q; rewrite Q in Ie1; destruct Ie1|lia|]. cbn [obind].
        pose proof (lnext_ok _ _ _ _ _ _ d [] _ (vc _ _ _ _ _ _ _ V1) D2 eq_refl) as LN. cbn [lk] in LN. rewrite LN. cbn [obind].
        assert (Z : forall c, b < c -> c < d -> upd bk b xs c = []) by (intros c Hc1 Hc2; apply D4; lia).
        destruct (IH n s1 (upd bk b xs) d [] (upd bk b xs d) pend V1 D2 Hp Ie1 eq_refl D3) as (s' & bk' & Hs' & V' & He' & Hpre & ys' & Hys & Hrest).
        { rewrite <- HR, <- (after_upd B bk b xs). rewrite (after_to _ b d) by (auto; lia). rewrite flat_nil by auto. reflexivity. } { cbn in L. lia. }
        cbn [lk] in Hs'. exists s', bk'. conj; auto; [congruence| |].
        * intros c Hc. rewrite Hpre by lia. apply upd_other. lia.
        * exists []. rewrite app_nil_r. rewrite Hpre, upd_same by lia. split; auto. rewrite (after_to _ b d) by (auto; lia). rewrite flat_nil by (intros c Hc1 Hc2; rewrite Hpre by auto; auto). rewrite Hys. exact Hrest.
      + assert (Hend : forall m : nat, y = e -> exists s' bk', Some s1 = Some s' /\ inv s' bk' /\ uel s' = uel s /\ (forall c, c < b -> bk' c = bk c) /\ exists ys', bk' b = xs ++ ys' /\ ys' ++ after_b B bk' b = e :: l3).
        { intros _ ->. exists s1, (upd bk b (xs ++ e :: ys)). conj; auto; [intros c Hc; apply upd_other; lia|]. exists (e :: ys). rewrite upd_same, after_upd. split; auto.
          destruct l2 as [|z l2]; [cbn in *; exact HR|]. exfalso. cbn in HR. injection HR as <- HR. rewrite (all_split B bk b Hb), E1, <- app_assoc in ND. apply NoDup_app_remove_l, NoDup_app_remove_l in ND. cbn in ND. rewrite HR in ND.
          inversion ND; subst. inversion H2; subst. apply H3. rewrite in_app_iff. cbn. auto. }
        cbn [hd]. destruct (Nat.eqb_spec y e) as [Ey|Ny].
        * assert (b = pend). { apply (other_bucket key hash B N s bk b pend e C Hb Hp); auto. rewrite E1, in_app_iff. cbn. subst. auto. } subst pend. rewrite Nat.eqb_refl. cbn [andb]. apply Hend; auto.
        * cbn [andb]. assert (Ny0 : y <> 0) by (apply (core_nz key hash B N s bk); auto; apply (in_all B bk b); auto; rewrite E1, in_app_iff; cbn; auto). destruct (Nat.eqb_spec y 0); [congruence|].
          destruct (IH n s1 (upd bk b (xs ++ y :: ys)) b xs (y :: ys) pend V1 Hb Hp Ie1) as (s' & bk' & Hs' & V' & He' & Hpre & R'); [apply upd_same|discriminate|rewrite after_upd; exact HR|cbn in L; lia|].
          cbn [hd] in Hs'. exists s', bk'. conj; auto; [congruence|]. intros c Hc. rewrite Hpre by auto. apply upd_other. lia.
  Qed.
  Lemma erase_range_ok s bk i j l1 l2 e l3 : inv s bk -> all bk = l1 ++ l2 ++ e :: l3 -> at_rest bk i (l2 ++ e :: l3) -> at_rest bk j (e :: l3) ->
    exists s' bk' k, um_erase_range B N s i j = Some (s', k) /\ inv s' bk' /\ uel s' = uel s /\ all bk' = l1 ++ e :: l3 /\ at_rest bk' k (e :: l3).
  Proof.
    intros V HA Ri Rj. pose proof (vc _ _ _ _ _ _ _ V) as C. unfold um_erase_range. destruct (begin_ok key keq hash B N s bk V) as (b0 & -> & _). cbn [obind it_end snd].
    destruct Rj as [[? _]|(xsj & ej & ysj & Hbj & Ej & Hsj & Hrj)]; [discriminate|]. cbn in Hrj. injection Hrj as <- Hrj.
    assert (Iej : In e (bk (fst j))) by (rewrite Ej, in_app_iff; cbn; auto).
    assert (Ne0 : e <> 0) by (apply (core_nz key hash B N s bk); auto; eapply in_all; eauto).
    rewrite Hsj. destruct (Nat.eqb_spec e 0); [congruence|]. rewrite andb_false_r.
    destruct Ri as [[Hr _]|(xs & x & ys & Hb & E1 & Hs & Hr)]; [destruct l2; discriminate|].
    pose proof (find_prev_ok _ _ _ _ s bk (fst i) x ys C Hb xs (ufuel N) [] E1) as FP. cbn [lk app] in FP. rewrite Hs, FP by (unfold ufuel; pose proof (core_len _ _ _ _ s bk _ C Hb) as CL; rewrite E1, app_length in CL; lia). cbn [obind].
    destruct (erase_loop_ok e l3 l2 (ufuel N) s bk (fst i) xs (x :: ys) (fst j) V Hb Hbj Iej E1) as (s' & bk' & Hl & V' & He & Hpre & ys' & Hy & Hrest); [discriminate|auto| |].
    { unfold ufuel. pose proof (ipool _ _ _ _ _ _ C) as Q. rewrite HA, !app_length in Q. lia. }
    cbn [hd] in Hl. rewrite Hl. cbn [obind]. rewrite (lnext_ok _ _ _ _ s' bk' (fst i) xs ys' (vc _ _ _ _ _ _ _ V') Hb Hy). cbn [obind].
    destruct (bump_ok _ _ _ _ s' bk' (fst i) xs ys' (vc _ _ _ _ _ _ _ V') Hb Hy) as (k & -> & Rk & _). cbn [obind]. exists s', bk', k. conj; auto; [|now rewrite <- Hrest].
    assert (HB0 : before_b bk' (fst i) = before_b bk (fst i)).
    { unfold before_b. clear - Hpre. assert (G : forall l, (forall c, In c l -> bk' c = bk c) -> flat_map bk' l = flat_map bk l) by (induction l as [|c l IH]; cbn; auto; intros Hc; rewrite (Hc c), IH; auto). apply G. intros c Hc. rewrite in_seq in Hc. apply Hpre. lia. }
    rewrite (all_split B bk' _ Hb), Hy, HB0, <- app_assoc, Hrest, app_assoc. f_equal. rewrite Hr, (all_split B bk _ Hb), E1 in HA.
    rewrite <- !app_assoc in HA. rewrite app_assoc in HA. apply app_inv_tail in HA. exact HA.
  Qed.
End P.
