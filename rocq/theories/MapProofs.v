(** * Proofs about the interface of map/set (support for C14/C15) *)
From Coq Require Import List Arith Lia Bool.
From Verif Require Import Util SortSpec HeapProofs FlatSpec FlatProofs AvlModel AvlTree AvlRot AvlIns AvlDel AvlRem AvlFind MapModel MapSpec.
Import ListNotations.

Section P.
  Context {X K : Type}.
  Variable key : X -> K.
  Variable lt : K -> K -> bool.
  Hypothesis O : strict_weak_order lt.
  Variable N : nat.
  Variable fl : flavour.
  Variable mk : K -> X.
  Hypothesis Hmk : forall k, key (mk k) = k.
  Notation st := (st X).
  Notation wft := (wft key lt).
  Notation kof := (K_of key).

  Record minvt (s : st) (t : tr) (l : list X) : Prop := {
    mi_wf : wft s t;
    mi_map : map (el s) (ino t) = l;
    mi_pool : List.length (fr s) + List.length (ino t) = N }.
  Definition minv (s : st) (l : list X) : Prop := exists t, minvt s t l.

  Lemma mi_len s t l : minvt s t l -> List.length (ino t) = List.length l.
  Proof. intros [_ <- _]. now rewrite map_length. Qed.
  Lemma mi_le s t l : minvt s t l -> List.length l <= N.
  Proof. intros H. rewrite <- (mi_len _ _ _ H). destruct H. lia. Qed.
  Lemma mi_fuel s t l : minvt s t l -> List.length (ino t) < fuel N.
  Proof. intros [_ _ H]. unfold fuel. lia. Qed.
  Lemma nz s t x : wft s t -> In x (ino t) -> x <> 0.
  Proof. intros W H ->. apply (wf_al _ _ _ _ W) in H. rewrite (wf_null _ _ _ _ W) in H. discriminate. Qed.
  Lemma al_in s t x : wft s t -> In x (ino t) -> al s x = true.
  Proof. intros W H. now apply (wf_al _ _ _ _ W). Qed.

  Lemma asc_ordered (s : st) xs : asc lt (kof s) xs -> ordered key lt true (map (el s) xs).
  Proof.
    unfold ordered. induction xs as [|x xs IH]; cbn [map asc]; intros H i j a b Hij Ha Hb.
    - destruct i; discriminate.
    - destruct H as (H1 & H2). destruct j; [lia|]. destruct i.
      + cbn in Ha, Hb. injection Ha as <-. apply nth_error_In, in_map_iff in Hb. destruct Hb as (y & <- & Hy). exact (H1 y Hy).
      + cbn in Ha, Hb. apply (IH H2 i j a b); auto. lia.
  Qed.
  Lemma mi_ordered s t l : minvt s t l -> ordered key lt true l.
  Proof. intros [W <- _]. apply asc_ordered, W. Qed.

  (** the nodes below, at and above a key *)
  Lemma nview s t l k : minvt s t l -> exists P M S, ino t = P ++ M ++ S /\ List.length M <= 1 /\
    view key lt k l (map (el s) P) (map (el s) M) (map (el s) S).
  Proof.
    intros H. destruct (view_exists key lt O true k l (mi_ordered _ _ _ H)) as (p & m & q & W & Hm). specialize (Hm eq_refl).
    pose proof W as (El & _). destruct H as [_ HM _]. rewrite El in HM.
    apply map_eq_app in HM. destruct HM as (P & R & E1 & <- & E2). apply map_eq_app in E2. destruct E2 as (M & Q & -> & <- & <-).
    exists P, M, Q. rewrite map_length in Hm. auto.
  Qed.
  Lemma F_in (Q : X -> Prop) (s : st) xs : Forall Q (map (el s) xs) -> forall z, In z xs -> Q (el s z).
  Proof. rewrite Forall_forall. intros H z Hz. apply H, in_map, Hz. Qed.

  Lemma begin_ok s t l : minvt s t l -> m_begin N s = Some (hd 0 (ino t)).
  Proof.
    intros H. unfold m_begin. destruct H as [W HM HP]. pose proof (hgt_ino t).
    rewrite (find_limit_ok L t (fuel N) s _); auto; [|apply W|apply W]. unfold fuel. lia.
  Qed.
  Lemma next_at s t l l1 x l2 : minvt s t l -> ino t = l1 ++ x :: l2 -> m_next key lt N s x = Some (hd 0 l2).
  Proof. intros H E. unfold m_next. eapply next_ok; eauto; [apply H|]. eapply mi_fuel; eauto. Qed.
  Lemma advance_ok s t l i : forall l1 l2, minvt s t l -> ino t = l1 ++ l2 -> i <= List.length l2 -> m_advance key lt N i s (hd 0 l2) = Some (hd 0 (skipn i l2)).
  Proof.
    induction i as [|i IH]; intros l1 l2 H E Hi; [now rewrite skipn_O|]. destruct l2 as [|x l2]; [cbn in Hi; lia|]. cbn [m_advance hd skipn].
    erewrite next_at by eauto. cbn [obind]. apply (IH (l1 ++ [x])); auto; [now rewrite <- app_assoc|cbn in Hi; lia].
  Qed.
  Lemma iter_ok s t l i : minvt s t l -> i <= List.length l -> m_iter key lt N s i = Some (hd 0 (skipn i (ino t))).
  Proof. intros H Hi. unfold m_iter. erewrite begin_ok by eauto. cbn [obind]. eapply (advance_ok s t l i []); eauto. now erewrite mi_len by eauto. Qed.
  Lemma distance_ok s t l a : forall n l1 b, minvt s t l -> ino t = l1 ++ a ++ b -> List.length a < n ->
    m_distance key lt N n s (hd 0 (a ++ b)) (hd 0 b) = Some (List.length a).
  Proof.
    induction a as [|x a IH]; intros n l1 b H E Hn; (destruct n; [cbn in Hn; lia|]); cbn [m_distance app hd].
    - now rewrite Nat.eqb_refl.
    - pose proof (mi_wf _ _ _ H) as W. assert (Ix : In x (ino t)) by (rewrite E, !in_app_iff; cbn; auto).
      pose proof (nz _ _ _ W Ix). destruct (Nat.eqb_spec x (hd 0 b)) as [Ex|Ex].
      + exfalso. destruct b as [|y b]; [cbn in Ex; congruence|]. cbn in Ex. subst y.
        pose proof (wf_nodup _ _ _ _ W) as HN. rewrite E in HN. apply NoDup_app3 in HN. destruct HN as (_ & HN & _).
        cbn in HN. inversion HN as [|y z Hx _]; subst. apply Hx. rewrite in_app_iff. cbn. auto.
      + destruct (Nat.eqb_spec x 0); [congruence|]. rewrite (next_at s t l l1 x (a ++ b) H E). cbn [obind].
        rewrite (IH n (l1 ++ [x]) b); auto; [now rewrite <- app_assoc|cbn in Hn; lia].
  Qed.
  Lemma pos_ok s t l a b : minvt s t l -> ino t = a ++ b -> m_pos key lt N s (hd 0 b) = Some (List.length a).
  Proof.
    intros H E. unfold m_pos. erewrite begin_ok by eauto. cbn [obind]. rewrite E. eapply (distance_ok s t l a (fuel N) [] b); eauto.
    pose proof (mi_fuel _ _ _ H) as F. rewrite E, app_length in F. lia.
  Qed.
  Lemma pos_at s t l a x b : minvt s t l -> ino t = a ++ x :: b -> m_pos key lt N s x = Some (List.length a).
  Proof. intros H E. exact (pos_ok s t l a (x :: b) H E). Qed.
  Lemma pos_end s t l : minvt s t l -> m_pos key lt N s 0 = Some (List.length l).
  Proof. intros H. rewrite <- (mi_len _ _ _ H). apply (pos_ok s t l (ino t) [] H). now rewrite app_nil_r. Qed.
  Lemma walk_ok s t l b : forall n l1, minvt s t l -> ino t = l1 ++ b -> List.length b < n -> m_walk key lt N n s (hd 0 b) = Some (map (el s) b).
  Proof.
    induction b as [|x b IH]; intros n l1 H E Hn; (destruct n; [cbn in Hn; lia|]); cbn [m_walk hd map]; [reflexivity|].
    pose proof (mi_wf _ _ _ H) as W. assert (Ix : In x (ino t)) by (rewrite E, !in_app_iff; cbn; auto).
    pose proof (nz _ _ _ W Ix). destruct (Nat.eqb_spec x 0); [congruence|]. unfold re. rewrite (al_in _ _ _ W Ix). cbn [obind].
    erewrite next_at by eauto. cbn [obind]. rewrite (IH n (l1 ++ [x])); auto; [now rewrite <- app_assoc|cbn in Hn; lia].
  Qed.
  Lemma contents_ok s l : minv s l -> m_contents key lt N s = Some l.
  Proof.
    intros [t H]. unfold m_contents. erewrite begin_ok by eauto. cbn [obind]. rewrite (walk_ok s t l (ino t) (fuel N) []); auto.
    - f_equal. apply H.
    - eapply mi_fuel; eauto.
  Qed.
  Lemma sz_ok s l : minv s l -> sz s = List.length l.
  Proof. intros [t H]. rewrite <- (mi_len _ _ _ H). apply H. Qed.

  (** the searches *)
  Lemma mfind_ok s t l k P M Q : minvt s t l -> ino t = P ++ M ++ Q -> view key lt k l (map (el s) P) (map (el s) M) (map (el s) Q) ->
    m_find key lt N s k = Some (hd 0 M).
  Proof.
    intros H E W. unfold m_find. pose proof (mi_wf _ _ _ H) as HW. pose proof (mi_fuel _ _ _ H). pose proof (hgt_ino t).
    rewrite (find_node_ok key lt O k t (fuel N) s _); [|lia|apply HW|apply HW|apply HW]. f_equal. rewrite E.
    destruct W as (_ & Fp & Fm & Fs). rewrite AvlFind.find_app, find_false, AvlFind.find_app.
    - destruct M as [|m M]; cbn [find hd].
      + rewrite find_false; auto. intros z Hz. pose proof (F_in _ _ _ Fs z Hz) as G. cbn in G. unfold equivalent, K_of. rewrite G. apply andb_false_r.
      + destruct (F_in _ _ _ Fm m) as [G1 G2]; [cbn; auto|]. unfold equivalent, K_of. now rewrite G1, G2.
    - intros z Hz. pose proof (F_in _ _ _ Fp z Hz) as G. cbn in G. unfold equivalent, K_of. now rewrite G.
  Qed.
  Lemma mlower_ok s t l k P M Q : minvt s t l -> ino t = P ++ M ++ Q -> view key lt k l (map (el s) P) (map (el s) M) (map (el s) Q) ->
    find_lower_loop key lt (fuel N) s (rt s) k 0 = Some (hd 0 (M ++ Q)).
  Proof.
    intros H E W. pose proof (mi_wf _ _ _ H) as HW. pose proof (mi_fuel _ _ _ H). pose proof (hgt_ino t).
    rewrite (find_lower_ok key lt O k t (fuel N) s _); [|lia|apply HW|apply HW|apply HW]. f_equal. rewrite E.
    destruct W as (_ & Fp & Fm & Fs). rewrite AvlFind.find_app, find_false.
    - destruct (M ++ Q) as [|m R] eqn:ER; cbn [find hd]; auto.
      assert (G : lt (kof s m) k = false). { assert (I : In m (M ++ Q)) by (rewrite ER; cbn; auto). rewrite in_app_iff in I. destruct I as [I|I].
        - exact (proj1 (F_in _ _ _ Fm m I)).
        - apply (lt_asym lt O). exact (F_in _ _ _ Fs m I). }
      now rewrite G.
    - intros z Hz. pose proof (F_in _ _ _ Fp z Hz) as G. cbn in G. unfold K_of. now rewrite G.
  Qed.
  Lemma mupper_ok s t l k P M Q : minvt s t l -> ino t = P ++ M ++ Q -> view key lt k l (map (el s) P) (map (el s) M) (map (el s) Q) ->
    find_upper_loop key lt (fuel N) s (rt s) k 0 = Some (hd 0 Q).
  Proof.
    intros H E W. pose proof (mi_wf _ _ _ H) as HW. pose proof (mi_fuel _ _ _ H). pose proof (hgt_ino t).
    rewrite (find_upper_ok key lt O k t (fuel N) s _); [|lia|apply HW|apply HW|apply HW]. f_equal. rewrite E.
    destruct W as (_ & Fp & Fm & Fs). rewrite app_assoc, AvlFind.find_app, find_false.
    - destruct Q as [|m R]; cbn [find hd]; auto. pose proof (F_in _ _ _ Fs m) as G. cbn in G. unfold K_of. rewrite G by auto. reflexivity.
    - intros z Hz. rewrite in_app_iff in Hz. unfold K_of. destruct Hz as [Hz|Hz].
      + apply (lt_asym lt O). exact (F_in _ _ _ Fp z Hz).
      + exact (proj2 (F_in _ _ _ Fm z Hz)).
  Qed.

  (** adding *)
  Lemma madd_ok s l e : minv s l -> List.length l < N -> exists s' x, 
    m_add key lt N s e = Some (s', Node x (negb (present key lt (key e) l))) /\
    let l' := if present key lt (key e) l then l else inserted key lt e l in
    minv s' l' /\ al s' x = true /\
    (if present key lt (key e) l then find (same_key key lt (key e)) l = Some (el s' x) else el s' x = e) /\
    m_pos key lt N s' x = Some (if present key lt (key e) l then before key lt (key e) l else upto key lt (key e) l).
  Proof.
    intros [t H] Hl. pose proof H as [W HM HP]. rewrite <- (mi_len _ _ _ H) in Hl.
    destruct (fr s) as [|p f] eqn:Ef; [cbn in HP; lia|]. unfold m_add.
    assert (EA : allocate s e = Some (set_el (set_pool s (fupd (al s) p true) f) p e, p)) by (unfold allocate; now rewrite Ef).
    rewrite EA. cbn [obind].
    assert (Hp : ~ In p (ino t)). { destruct (wf_free _ _ _ _ W) as [_ F]. rewrite Ef in F. destruct (F p) as [F1 _]; [cbn; auto|]. intros I. apply (al_in _ _ _ W) in I. congruence. }
    destruct (insert_ok key lt (swo_trans lt O) (fuel N) s t _ p e W EA (mi_fuel _ _ _ H)) as (s' & x & EI & C). rewrite EI. cbn [obind].
    destruct (nview s t l (key e) H) as (P & M & Q & Ei & LM & V). pose proof V as (El & Fp & Fm & Fs).
    exists s', x. destruct C as [(Ix & L1 & L2 & W' & Hel & Hfr)|(l1 & l2 & t' & E1 & -> & E2 & W' & Ee & Hel & Hfr & Np & Lo & Up)].
    - assert (EM : M = [x]).
      { rewrite Ei, !in_app_iff in Ix. destruct Ix as [I|[I|I]].
        - pose proof (F_in _ _ _ Fp x I) as G. cbn in G. unfold K_of in L2. congruence.
        - destruct M as [|m [|]]; cbn in LM, I; try tauto; try lia. destruct I as [->|[]]. reflexivity.
        - pose proof (F_in _ _ _ Fs x I) as G. cbn in G. unfold K_of in L1. congruence. }
      rewrite EM in *. rewrite (v_present _ _ _ _ _ _ _ V). cbn [map negb].
      destruct (Nat.eqb_spec x p) as [->|_]; [contradiction|]. split; [reflexivity|]. cbn zeta.
      assert (H' : minvt s' t l). { constructor; auto; [|now rewrite Hfr, Ef]. rewrite <- HM. apply map_ext_in. auto. }
      split; [exists t; exact H'|]. split; [eapply al_in; eauto|]. split.
      + rewrite (v_find _ _ _ _ _ _ _ V). cbn [map]. now rewrite Hel.
      + rewrite (v_before _ _ O _ _ _ _ _ V), map_length. eapply pos_at; eauto.
    - assert (EM : M = []).
      { destruct M as [|m M]; auto. exfalso. assert (I : In m (ino t)) by (rewrite Ei, !in_app_iff; cbn; auto).
        destruct (F_in _ _ _ Fm m) as [G1 G2]; [cbn; auto|]. rewrite E1, in_app_iff in I. destruct I as [I|I].
        - apply Lo in I. unfold K_of in I. congruence.
        - apply Up in I. unfold K_of in I. congruence. }
      subst M. rewrite (v_present _ _ _ _ _ _ _ V). cbn [map negb]. rewrite Nat.eqb_refl. split; [reflexivity|]. cbn zeta.
      assert (PQ : l1 = P /\ l2 = Q).
      { cbn [app] in Ei. rewrite E1 in Ei. clear - Ei Lo Up Fp Fs O. revert P Ei Fp. induction l1 as [|a l1 IH]; intros P Ei Fp.
        - destruct P as [|b P]; auto. exfalso. cbn in Ei. subst l2. pose proof (Up b ltac:(cbn; auto)) as G1. inversion Fp; subst.
          unfold K_of in G1. rewrite (lt_asym lt O _ _ G1) in H1. discriminate.
        - destruct P as [|b P].
          + exfalso. cbn in Ei. subst Q. pose proof (Lo a ltac:(cbn; auto)) as G1. inversion Fs; subst. unfold K_of in G1. rewrite (lt_asym lt O _ _ G1) in H1. discriminate.
          + cbn in Ei. injection Ei as <- Ei. inversion Fp; subst. destruct (IH ltac:(intros q Hq; apply Lo; cbn; auto) P Ei H2) as [-> ->]. auto. }
      destruct PQ as [-> ->].
      assert (H' : minvt s' t' (inserted key lt e l)).
      { constructor; auto.
        - unfold inserted. rewrite (v_ngs _ _ O _ _ _ _ _ V), (v_gs _ _ O _ _ _ _ _ V).
          cbn [map]. rewrite app_nil_r, E2, map_app. cbn [map]. rewrite Ee. f_equal; [|f_equal]; apply map_ext_in; intros z Hz; apply Hel; rewrite E1, in_app_iff; auto.
        - rewrite E2, app_length. rewrite E1, app_length in HP. rewrite Ef in Hfr. injection Hfr as Hfr. rewrite Hfr in HP. cbn in *. lia. }
      split; [exists t'; exact H'|]. split; [eapply al_in; eauto; rewrite E2, in_app_iff; cbn; auto|]. split; [exact Ee|].
      rewrite (v_upto _ _ O _ _ _ _ _ V). cbn [map List.length]. rewrite map_length, Nat.add_0_r. eapply pos_at; eauto.
  Qed.

  (** removing *)
  Lemma asc_unique (s : st) xs : asc lt (kof s) xs -> forall a b, In a xs -> In b xs -> eqv lt (kof s a) (kof s b) -> a = b.
  Proof.
    clear Hmk. induction xs as [|x xs IH]; cbn [asc In]; [tauto|]. intros (H1 & H2) a b [<-|Ha] [<-|Hb] [G1 G2]; auto.
    - rewrite H1 in G1 by auto. discriminate.
    - rewrite H1 in G2 by auto. discriminate.
    - apply IH; auto. split; auto.
  Qed.
  Lemma erase_at_ok s t l l1 x l2 : minvt s t l -> ino t = l1 ++ x :: l2 ->
    exists s' t', m_erase_at key lt N s x = Some (s', hd 0 l2) /\ ino t' = l1 ++ l2 /\ el s' = el s /\ minvt s' t' (map (el s) (l1 ++ l2)).
  Proof.
    intros H Ei. pose proof H as [W HM HP]. pose proof (mi_fuel _ _ _ H) as HF.
    assert (Ix : In x (ino t)) by (rewrite Ei, in_app_iff; cbn; auto). unfold m_erase_at.
    rewrite (find_ref_wft key lt O (fuel N) s t x W HF Ix). cbn [obind]. erewrite next_at by eauto. cbn [obind].
    unfold re. rewrite (al_in _ _ _ W Ix). cbn [obind].
    destruct (remove_ok key lt O (fuel N) s t (key (el s x)) W HF) as (s' & f & ER & C). rewrite ER. cbn [obind].
    destruct C as [(_ & C & _)|(m1 & m2 & t' & Hf & E1 & E2 & Eq & W' & Hel & Hfr)].
    - exfalso. destruct (C x Ix) as [G|G]; unfold K_of in G; rewrite (swo_irrefl lt O) in G; discriminate.
    - assert (f = x). { apply (asc_unique s (ino t)); auto; [apply W|rewrite E1, in_app_iff; cbn; auto]. } subst f.
      pose proof (wf_nodup _ _ _ _ W) as HN. rewrite E1 in HN, Ei. destruct (NoDup_split_unique _ _ _ _ _ HN Ei) as [-> ->].
      exists s', t'. split; [reflexivity|]. split; [exact E2|]. split; [exact Hel|]. constructor; auto; [now rewrite E2, Hel|].
      rewrite Hfr, E2. cbn. rewrite E1, app_length in HP. cbn in HP. rewrite app_length. lia.
  Qed.
  Lemma erase_range_ok B : forall n s t l A C, minvt s t l -> ino t = A ++ B ++ C -> List.length B < n ->
    exists s' t', m_erase_range key lt N n s (hd 0 (B ++ C)) (hd 0 C) = Some s' /\ ino t' = A ++ C /\ el s' = el s /\ minvt s' t' (map (el s) (A ++ C)).
  Proof.
    induction B as [|x B IH]; intros n s t l A C H Ei Hn; (destruct n; [cbn in Hn; lia|]); cbn [m_erase_range app hd].
    - rewrite Nat.eqb_refl. exists s, t. split; [reflexivity|]. split; [exact Ei|]. split; [reflexivity|]. cbn [app] in Ei. destruct H as [W HM HP]. constructor; auto. now rewrite Ei.
    - pose proof (mi_wf _ _ _ H) as W. assert (Ix : In x (ino t)) by (rewrite Ei, !in_app_iff; cbn; auto). pose proof (nz _ _ _ W Ix).
      destruct (Nat.eqb_spec x (hd 0 C)) as [Ex|Ex].
      { exfalso. destruct C as [|y C]; [cbn in Ex; congruence|]. cbn in Ex. subst y.
        pose proof (wf_nodup _ _ _ _ W) as HN. rewrite Ei in HN. apply NoDup_app3 in HN. destruct HN as (_ & HN & _).
        cbn in HN. inversion HN as [|y z Hx _]; subst. apply Hx. rewrite in_app_iff. cbn. auto. }
      destruct (erase_at_ok s t l A x (B ++ C) H Ei) as (s1 & t1 & E1 & E2 & E3 & H1). rewrite E1. cbn [obind].
      destruct (IH n s1 t1 _ A C H1 E2 ltac:(cbn in Hn; lia)) as (s2 & t2 & F1 & F2 & F3 & H2). exists s2, t2. rewrite F1, F3, E3. rewrite E3 in H2. auto.
  Qed.
  Lemma clear_ok s l : minv s l -> exists s', m_clear key lt N s = Some s' /\ minv s' [].
  Proof.
    intros [t H]. unfold m_clear. erewrite begin_ok by eauto. cbn [obind].
    destruct (erase_range_ok (ino t) (fuel N) s t l [] [] H) as (s1 & t1 & E1 & E2 & E3 & H1).
    - now rewrite app_nil_r.
    - eapply mi_fuel; eauto.
    - rewrite app_nil_r in E1. exists s1. split; [exact E1|]. exists t1. exact H1.
  Qed.

  Lemma insert_all_shape e l : (exists i b l', t_insert key lt N fl e l = (Ritb i b, l')) \/ t_insert key lt N fl e l = (Rfull, l).
  Proof.
    unfold t_insert, s_insert. destruct fl; destruct (List.length l <? N); cbn [andb]; destruct (present key lt (key e) l); eauto.
  Qed.
  Lemma minsert_ok s l e : minv s l -> exists s' r, m_insert key lt N fl s e = Some (s', r) /\ minv s' (snd (t_insert key lt N fl e l)) /\
    match fst (t_insert key lt N fl e l) with
    | Ritb i b => exists x, r = Node x b /\ m_pos key lt N s' x = Some i
    | _ => r = Full
    end.
  Proof.
    intros H. pose proof (sz_ok _ _ H) as HS. assert (HL : List.length l <= N) by (destruct H as [t H]; eapply mi_le; eauto).
    unfold m_insert, t_insert, s_insert, m_full. rewrite HS. cbn [andb].
    assert (FullCase : List.length l = N -> exists x, m_find key lt N s (key e) = Some x /\
              (if present key lt (key e) l then x <> 0 /\ m_pos key lt N s x = Some (before key lt (key e) l) else x = 0)).
    { intros _. destruct H as [t H]. destruct (nview s t l (key e) H) as (P & M & Q & Ei & LM & V).
      exists (hd 0 M). split; [eapply mfind_ok; eauto|]. rewrite (v_present _ _ _ _ _ _ _ V). destruct M as [|m M]; cbn [map hd]; auto. split.
      - eapply nz; [apply H|]. rewrite Ei, !in_app_iff. cbn. auto.
      - rewrite (v_before _ _ O _ _ _ _ _ V), map_length. eapply pos_at; eauto. }
    destruct (Nat.eqb_spec (List.length l) N) as [Ef|Ef].
    - destruct (Nat.ltb_spec (List.length l) N); [lia|]. destruct fl.
      + destruct (FullCase Ef) as (x & E1 & E2). rewrite E1. cbn [obind]. destruct (present key lt (key e) l).
        * destruct E2 as [E2 E3]. destruct (Nat.eqb_spec x 0); [congruence|]. eexists _, _. split; [reflexivity|]. split; [exact H|]. cbn. eauto.
        * subst x. cbn [Nat.eqb]. eexists _, _. split; [reflexivity|]. split; [exact H|]. reflexivity.
      + eexists _, _. split; [reflexivity|]. split; [exact H|]. reflexivity.
    - destruct (Nat.ltb_spec (List.length l) N); [|lia].
      destruct (madd_ok s l e H H0) as (s' & x & E1 & H' & _ & _ & EP). cbv zeta in H'.
      destruct fl; rewrite E1; eexists _, _; (split; [reflexivity|]); destruct (present key lt (key e) l); cbn [fst snd]; (split; [exact H'|]); cbn; eauto.
  Qed.
  Lemma minsert_all_ok es : forall s l, minv s l -> exists s' b, m_insert_all key lt N fl s es = Some (s', b) /\
    minv s' (snd (t_insert_all key lt N fl es l)) /\ fst (t_insert_all key lt N fl es l) = if b then Rfull else Runit.
  Proof.
    induction es as [|e es IH]; intros s l H; cbn [m_insert_all t_insert_all].
    - eexists _, _. split; [reflexivity|]. split; [exact H|]. reflexivity.
    - destruct (minsert_ok s l e H) as (s' & r & E1 & H' & E2). rewrite E1. cbn [obind].
      destruct (insert_all_shape e l) as [(i & b & l' & ET)|ET]; rewrite ET in *; cbn [fst snd] in *.
      + destruct E2 as (x & -> & _). apply IH, H'.
      + subst r. eexists _, _. split; [reflexivity|]. split; [exact H'|]. reflexivity.
  Qed.

  Lemma skipn_skipn {A} (xs : list A) : forall a b, skipn a (skipn b xs) = skipn (a + b) xs.
  Proof. induction xs as [|x xs IH]; intros a [|b]; rewrite ?skipn_nil; auto; [now rewrite Nat.add_0_r|]. rewrite Nat.add_succ_r. cbn [skipn]. apply IH. Qed.
  Lemma skipn_split {A} (xs : list A) i : xs = firstn i xs ++ skipn i xs. Proof. symmetry. apply firstn_skipn. Qed.
  Lemma firstn_len {A} (xs : list A) i : i <= List.length xs -> List.length (firstn i xs) = i. Proof. apply firstn_length_le. Qed.

  Theorem mop_ok o s l r l' : minv s l -> t_op key lt N fl mk o l = Some (r, l') -> exists s', m_op key lt N fl mk o s = Some (r, s') /\ minv s' l'.
  Proof.
    intros H. pose proof (sz_ok _ _ H) as HS. assert (HL : List.length l <= N) by (destruct H as [t H]; eapply mi_le; eauto).
    assert (NV : forall k, exists t P M Q, minvt s t l /\ ino t = P ++ M ++ Q /\ List.length M <= 1 /\ view key lt k l (map (el s) P) (map (el s) M) (map (el s) Q)).
    { intros k. destruct H as [t H]. destruct (nview s t l k H) as (P & M & Q & A & B & C). exists t, P, M, Q. auto. }
    destruct o as [e|e|es|es|k|i|a b| |k|k|k|k|k|k|k|k| | | | | ]; cbn [t_op s_op m_op]; intros ET.
    - (* insert *) injection ET as ET. destruct (minsert_ok s l e H) as (s' & q & E1 & H' & E2). rewrite E1. cbn [obind]. rewrite ET in *. cbn [fst snd] in *.
      destruct (insert_all_shape e l) as [(i & b & l2 & ET2)|ET2]; rewrite ET in ET2; injection ET2 as -> ->.
      + destruct E2 as (x & -> & EP). rewrite EP. cbn [obind]. eauto.
      + subst q. eauto.
    - discriminate.
    - injection ET as ET. destruct (minsert_all_ok es s l H) as (s' & b & E1 & H' & E2). rewrite E1. cbn [obind]. rewrite ET in *. cbn [fst snd] in *. subst r. eauto.
    - injection ET as ET. destruct (clear_ok s l H) as (s0 & E0 & H0). rewrite E0. cbn [obind].
      destruct (minsert_all_ok es s0 [] H0) as (s' & b & E1 & H' & E2). rewrite E1. cbn [obind]. rewrite ET in *. cbn [fst snd] in *. subst r. eauto.
    - (* erase key *) destruct (NV k) as (t & P & M & Q & Ht & Ei & LM & V). pose proof Ht as [W HM HP].
      destruct (remove_ok key lt O (fuel N) s t k W (mi_fuel _ _ _ Ht)) as (s' & f & ER & C). rewrite ER. cbn [obind].
      rewrite (v_same _ _ _ _ _ _ _ V), (v_not_same _ _ _ _ _ _ _ V) in ET. injection ET as <- <-. rewrite map_length. pose proof V as (El & Fp & Fm & Fs).
      destruct C as [(-> & C & W' & Hel & Hfr)|(m1 & m2 & t' & Hf & E1 & E2 & Eq & W' & Hel & Hfr)].
      + assert (M = []). { destruct M as [|m M]; auto. exfalso. destruct (F_in _ _ _ Fm m) as [G1 G2]; [cbn; auto|]. destruct (C m) as [G|G]; [rewrite Ei, !in_app_iff; cbn; auto|..]; unfold K_of in G; congruence. }
        subst M. cbn. eexists. split; [reflexivity|]. exists t. constructor; auto; [|now rewrite Hfr]. rewrite Hel, Ei, map_app. reflexivity.
      + assert (EM : M = [f]).
        { assert (If : In f (ino t)) by (rewrite E1, in_app_iff; cbn; auto). destruct Eq as [G1 G2]. unfold K_of in G1, G2. rewrite Ei, !in_app_iff in If. destruct If as [I|[I|I]].
          - pose proof (F_in _ _ _ Fp f I) as G. cbn in G. congruence.
          - destruct M as [|m [|]]; cbn in LM, I; try tauto; try lia. destruct I as [->|[]]. reflexivity.
          - pose proof (F_in _ _ _ Fs f I) as G. cbn in G. congruence. }
        subst M. destruct (Nat.eqb_spec f 0); [congruence|]. cbn [List.length]. eexists. split; [reflexivity|].
        pose proof (wf_nodup _ _ _ _ W) as HN. rewrite E1 in HN. cbn [app] in Ei. pose proof Ei as Ei'. rewrite E1 in Ei'. destruct (NoDup_split_unique _ _ _ _ _ HN Ei') as [-> ->].
        exists t'. constructor; auto; [now rewrite E2, Hel, map_app|]. rewrite Hfr, E2. rewrite E1 in HP. rewrite app_length in *. cbn in *. lia.
    - (* erase at *) destruct (Nat.ltb_spec i (List.length l)) as [Hi|]; [|discriminate]. injection ET as <- <-. destruct H as [t H]. pose proof (mi_len _ _ _ H) as HT.
      rewrite (iter_ok s t l i H) by lia. cbn [obind]. pose proof (skipn_split (ino t) i) as Es. destruct (skipn i (ino t)) as [|x l2] eqn:E2.
      { exfalso. apply (f_equal (@List.length _)) in E2. rewrite skipn_length in E2. cbn in E2. lia. }
      cbn [hd]. destruct (erase_at_ok s t l _ x l2 H Es) as (s' & t' & E3 & E4 & E5 & H'). rewrite E3. cbn [obind].
      rewrite (pos_ok s' t' _ _ l2 H' E4). cbn [obind]. rewrite firstn_len by lia. eexists. split; [reflexivity|]. exists t'.
      assert (EQ : firstn i l ++ skipn (S i) l = map (el s) (firstn i (ino t) ++ l2)); [|change (minvt s' t' (firstn i l ++ skipn (S i) l)); rewrite EQ; exact H'].
      destruct H as [_ <- _]. rewrite firstn_map, skipn_map, map_app. f_equal. f_equal. change (S i) with (1 + i). rewrite <- skipn_skipn, E2. reflexivity.
    - (* erase range *) destruct ((a <=? b) && (b <=? List.length l)) eqn:Hab; [|discriminate]. apply andb_true_iff in Hab. destruct Hab as [Ha Hb]. apply Nat.leb_le in Ha, Hb.
      injection ET as <- <-. destruct H as [t H]. pose proof (mi_len _ _ _ H) as HT.
      rewrite (iter_ok s t l a H) by lia. rewrite (iter_ok s t l b H) by lia. cbn [obind].
      assert (Es : ino t = firstn a (ino t) ++ firstn (b - a) (skipn a (ino t)) ++ skipn b (ino t)).
      { rewrite (skipn_split (ino t) a) at 1. f_equal. rewrite (skipn_split (skipn a (ino t)) (b - a)) at 1. f_equal. rewrite skipn_skipn. f_equal. lia. }
      assert (Eb : skipn a (ino t) = firstn (b - a) (skipn a (ino t)) ++ skipn b (ino t)).
      { rewrite (skipn_split (skipn a (ino t)) (b - a)) at 1. f_equal. rewrite skipn_skipn. f_equal. lia. }
      destruct (erase_range_ok _ (fuel N) s t l _ _ H Es) as (s' & t' & E3 & E4 & E5 & H').
      { rewrite firstn_length, skipn_length. unfold fuel. lia. }
      rewrite <- Eb in E3. rewrite E3. cbn [obind]. rewrite (pos_ok s' t' _ _ _ H' E4). cbn [obind]. rewrite firstn_len by lia. eexists. split; [reflexivity|]. exists t'.
      replace (firstn a l ++ skipn b l) with (map (el s) (firstn a (ino t) ++ skipn b (ino t))); [exact H'|].
      destruct H as [_ <- _]. now rewrite firstn_map, skipn_map, map_app.
    - injection ET as <- <-. destruct (clear_ok s l H) as (s0 & E0 & H0). rewrite E0. cbn [obind]. eauto.
    - (* find *) injection ET as <- <-. destruct (NV k) as (t & P & M & Q & Ht & Ei & LM & V). rewrite (mfind_ok s t l k P M Q Ht Ei V). cbn [obind].
      unfold s_find. rewrite (v_present _ _ _ _ _ _ _ V). destruct M as [|m M]; cbn [map hd].
      + rewrite (pos_end s t l Ht). cbn. eauto.
      + rewrite (v_before _ _ O _ _ _ _ _ V), map_length. cbn [app] in Ei. rewrite (pos_at s t l P m (M ++ Q) Ht Ei). cbn. eauto.
    - (* contains *) injection ET as <- <-. destruct (NV k) as (t & P & M & Q & Ht & Ei & LM & V). rewrite (mfind_ok s t l k P M Q Ht Ei V). cbn [obind].
      rewrite (v_present _ _ _ _ _ _ _ V). destruct M as [|m M]; cbn [map hd]; [eauto|].
      destruct (Nat.eqb_spec m 0) as [Em|]; [|eauto]. exfalso. revert Em. eapply nz; [apply Ht|]. rewrite Ei, !in_app_iff. cbn. auto.
    - (* count *) injection ET as <- <-. destruct (NV k) as (t & P & M & Q & Ht & Ei & LM & V). rewrite (mfind_ok s t l k P M Q Ht Ei V). cbn [obind].
      rewrite (v_same _ _ _ _ _ _ _ V), map_length. destruct M as [|m [|]]; cbn [map hd List.length] in *; [eauto| |lia].
      destruct (Nat.eqb_spec m 0) as [Em|]; [|eauto]. exfalso. revert Em. eapply nz; [apply Ht|]. rewrite Ei, !in_app_iff. cbn. auto.
    - (* lower *) injection ET as <- <-. destruct (NV k) as (t & P & M & Q & Ht & Ei & LM & V). rewrite (mlower_ok s t l k P M Q Ht Ei V). cbn [obind].
      rewrite (pos_ok s t l P _ Ht Ei). cbn [obind]. rewrite (v_before _ _ O _ _ _ _ _ V), map_length. eauto.
    - (* upper *) injection ET as <- <-. destruct (NV k) as (t & P & M & Q & Ht & Ei & LM & V). rewrite (mupper_ok s t l k P M Q Ht Ei V). cbn [obind].
      rewrite app_assoc in Ei. rewrite (pos_ok s t l (P ++ M) _ Ht Ei). cbn [obind]. rewrite (v_upto _ _ O _ _ _ _ _ V), !map_length, app_length. eauto.
    - (* equal range *) injection ET as <- <-. destruct (NV k) as (t & P & M & Q & Ht & Ei & LM & V). rewrite (mlower_ok s t l k P M Q Ht Ei V), (mupper_ok s t l k P M Q Ht Ei V). cbn [obind].
      rewrite (pos_ok s t l P _ Ht Ei). cbn [obind]. rewrite app_assoc in Ei. rewrite (pos_ok s t l (P ++ M) _ Ht Ei). cbn [obind].
      rewrite (v_before _ _ O _ _ _ _ _ V), (v_upto _ _ O _ _ _ _ _ V), !map_length, app_length. eauto.
    - (* at *) destruct fl; [discriminate|]. injection ET as <- <-. destruct (NV k) as (t & P & M & Q & Ht & Ei & LM & V). rewrite (mfind_ok s t l k P M Q Ht Ei V). cbn [obind].
      rewrite (v_find _ _ _ _ _ _ _ V). destruct M as [|m M]; cbn [map hd]; [cbn [Nat.eqb]; eauto|].
      assert (Im : In m (ino t)) by (rewrite Ei, !in_app_iff; cbn; auto). pose proof (nz _ _ _ (mi_wf _ _ _ Ht) Im).
      destruct (Nat.eqb_spec m 0) as [Em|]; [congruence|]. unfold re. rewrite (al_in _ _ _ (mi_wf _ _ _ Ht) Im). cbn [obind]. eauto.
    - (* index *) destruct fl; [discriminate|]. injection ET as ET. destruct (NV k) as (t & P & M & Q & Ht & Ei & LM & V). rewrite (mfind_ok s t l k P M Q Ht Ei V). cbn [obind].
      rewrite (v_find _ _ _ _ _ _ _ V) in ET. destruct M as [|m M]; cbn [map hd] in *.
      + cbn [Nat.eqb negb]. unfold m_full. rewrite HS. destruct (Nat.ltb_spec (List.length l) N) as [Hl|Hl].
        * destruct (Nat.eqb_spec (List.length l) N); [lia|]. destruct (madd_ok s l (mk k) H Hl) as (s' & x & E1 & H' & E2 & E3 & _). rewrite Hmk in *.
          rewrite (v_present _ _ _ _ _ _ _ V) in *. cbn [negb] in E1. rewrite E1. cbn [obind]. unfold re. rewrite E2. cbn [obind]. rewrite E3. injection ET as <- <-. eauto.
        * destruct (Nat.eqb_spec (List.length l) N); [|lia]. injection ET as <- <-. eauto.
      + injection ET as <- <-. assert (Im : In m (ino t)) by (rewrite Ei, !in_app_iff; cbn; auto). pose proof (nz _ _ _ (mi_wf _ _ _ Ht) Im).
        destruct (Nat.eqb_spec m 0) as [Em|]; [congruence|]. cbn [negb]. unfold re. rewrite (al_in _ _ _ (mi_wf _ _ _ Ht) Im). cbn [obind]. eauto.
    - injection ET as <- <-. rewrite (contents_ok s l H). cbn [obind]. eauto.
    - injection ET as <- <-. rewrite HS. eauto.
    - injection ET as <- <-. rewrite HS. eauto.
    - injection ET as <- <-. unfold m_full. rewrite HS. eauto.
    - injection ET as <- <-. rewrite HS. eauto.
  Qed.
  Theorem mops_ok os : forall s l rs l', minv s l -> t_ops key lt N fl mk os l = Some (rs, l') -> exists s', m_ops key lt N fl mk os s = Some (rs, s') /\ minv s' l'.
  Proof.
    induction os as [|o os IH]; intros s l rs l' H; cbn [t_ops m_ops]; intros ET.
    - injection ET as <- <-. eauto.
    - destruct (t_op key lt N fl mk o l) as [[x l1]|] eqn:E1; [|discriminate]. destruct (t_ops key lt N fl mk os l1) as [[xs l2]|] eqn:E2; [|discriminate]. injection ET as <- <-.
      destruct (mop_ok o s l x l1 H E1) as (s1 & F1 & H1). destruct (IH s1 l1 xs l2 H1 E2) as (s2 & F2 & H2). rewrite F1. cbn [obind]. rewrite F2. cbn [obind]. eauto.
  Qed.
  Lemma new_ok c w d e pool : NoDup pool -> ~ In 0 pool -> List.length pool = N -> minv (m_new c w d e pool) [].
  Proof.
    intros H1 H2 H3. exists AvlTree.E. constructor; cbn; auto; [|lia]. constructor; cbn; auto; try constructor; try tauto; auto. 
    - discriminate.
    - intros q Hq. split; auto. intros ->. auto.
  Qed.
End P.
