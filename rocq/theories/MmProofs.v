(** * Proofs about the interface of multimap/multiset (support for C51) *)
From Coq Require Import List Arith Lia Bool.
From Verif Require Import Util SortSpec HeapProofs FlatSpec FlatProofs AvlModel AvlTree AvlRot AvlIns AvlDel AvlRem AvlFind MapProofs MmModel MmSpec MmTree MmIns MmRem3 MmFind.
Import ListNotations.

Section P.
  Context {X K : Type}.
  Variable key : X -> K.
  Variable lt : K -> K -> bool.
  Hypothesis O : strict_weak_order lt.
  Variable N : nat.
  Notation st := (st X).
  Notation sp := (@sp X).
  Notation mwf := (mwf key lt).
  Notation kof := (K_of key).

  Record uinvt (q : sp) (t : tr) (l : list X) : Prop := {
    ui_wf : mwf (fst q) (snd q) t;
    ui_map : map (el (fst q)) (ino t) = l;
    ui_pool : List.length (fr (fst q)) + List.length (ino t) = N }.
  Definition uinv (q : sp) (l : list X) : Prop := exists t, uinvt q t l.

  Lemma ui_len q t l : uinvt q t l -> List.length (ino t) = List.length l.
  Proof using. intros [_ <- _]. now rewrite map_length. Qed.
  Lemma ui_le q t l : uinvt q t l -> List.length l <= N.
  Proof using. intros H. rewrite <- (ui_len _ _ _ H). destruct H. lia. Qed.
  Lemma ui_fuel q t l : uinvt q t l -> List.length (ino t) + List.length (ino t) + 3 < mfuel N.
  Proof using. intros [_ _ H]. unfold mfuel. lia. Qed.
  Lemma uin s g t x : mwf s g t -> In x (ino t) -> al s x = true /\ x <> 0.
  Proof using. intros W H. apply (mw_al _ _ _ _ _ W) in H. split; auto. intros ->. rewrite (po_null _ _ _ (mw_po _ _ _ _ _ W)) in H. discriminate. Qed.

  Lemma nasc_ordered (s : st) xs : nasc lt (kof s) xs -> ordered key lt false (map (el s) xs).
  Proof using.
    unfold ordered. induction xs as [|x xs IH]; cbn [map nasc]; intros H i j a b Hij Ha Hb.
    - destruct i; discriminate.
    - destruct H as (H1 & H2). destruct j; [lia|]. destruct i.
      + cbn in Ha, Hb. injection Ha as <-. apply nth_error_In, in_map_iff in Hb. destruct Hb as (y & <- & Hy). exact (H1 y Hy).
      + cbn in Ha, Hb. apply (IH H2 i j a b); auto. lia.
  Qed.
  Lemma ui_ordered q t l : uinvt q t l -> ordered key lt false l.
  Proof using. intros [W <- _]. apply nasc_ordered, W. Qed.

  Lemma uview q t l k : uinvt q t l -> exists P M S, ino t = P ++ M ++ S /\ view key lt k l (map (el (fst q)) P) (map (el (fst q)) M) (map (el (fst q)) S).
  Proof using O.
    intros H. destruct (view_exists key lt O false k l (ui_ordered _ _ _ H)) as (p & m & r & W & _).
    pose proof W as (El & _). destruct H as [_ HM _]. rewrite El in HM.
    apply map_eq_app in HM. destruct HM as (P & R & E1 & <- & E2). apply map_eq_app in E2. destruct E2 as (M & Q & -> & <- & <-).
    exists P, M, Q. auto.
  Qed.

  Lemma ubegin_ok q t l : uinvt q t l -> mm_begin N q = Some (hd 0 (ino t)).
  Proof using.
    intros H. unfold mm_begin. pose proof (ui_fuel _ _ _ H). destruct H as [W HM HP]. pose proof (hgt_ino t).
    rewrite (find_limit_ok L t (mfuel N) (fst q) _); auto; [lia|apply W|apply W].
  Qed.
  Lemma unext_at q t l l1 x l2 : uinvt q t l -> ino t = l1 ++ x :: l2 -> mm_next N q x = Some (hd 0 l2).
  Proof using. intros H E. unfold mm_next. pose proof (ui_fuel _ _ _ H). eapply mnext_ok; eauto; [apply H|]. lia. Qed.
  Lemma uadvance_ok q t l i : forall l1 l2, uinvt q t l -> ino t = l1 ++ l2 -> i <= List.length l2 -> mm_advance N i q (hd 0 l2) = Some (hd 0 (skipn i l2)).
  Proof using.
    induction i as [|i IH]; intros l1 l2 H E Hi; [now rewrite skipn_O|]. destruct l2 as [|x l2]; [cbn in Hi; lia|]. cbn [mm_advance hd skipn].
    erewrite unext_at by eauto. cbn [obind]. apply (IH (l1 ++ [x])); auto; [now rewrite <- app_assoc|cbn in Hi; lia].
  Qed.
  Lemma uiter_ok q t l i : uinvt q t l -> i <= List.length l -> mm_iter N q i = Some (hd 0 (skipn i (ino t))).
  Proof using. intros H Hi. unfold mm_iter. erewrite ubegin_ok by eauto. cbn [obind]. eapply (uadvance_ok q t l i []); eauto. now erewrite ui_len by eauto. Qed.
  Lemma unodup_hd q t l A x B C : uinvt q t l -> ino t = A ++ (x :: B) ++ C -> x <> hd 0 C.
  Proof using.
    intros H E Ex. pose proof (ui_wf _ _ _ H) as W. assert (Ix : In x (ino t)) by (rewrite E, !in_app_iff; cbn; auto).
    destruct (uin _ _ _ _ W Ix) as [_ Hx]. destruct C as [|y C]; [cbn in Ex; congruence|]. cbn in Ex. subst y.
    pose proof (po_nd _ _ _ (mw_po _ _ _ _ _ W)) as HN. rewrite E in HN. apply NoDup_app3 in HN. destruct HN as (_ & HN & _).
    cbn in HN. inversion HN as [|y z Hz _]; subst. apply Hz. rewrite in_app_iff. cbn. auto.
  Qed.
  Lemma udistance_ok q t l a : forall n l1 b, uinvt q t l -> ino t = l1 ++ a ++ b -> List.length a < n ->
    mm_distance N n q (hd 0 (a ++ b)) (hd 0 b) = Some (List.length a).
  Proof using.
    induction a as [|x a IH]; intros n l1 b H E Hn; (destruct n; [cbn in Hn; lia|]); cbn [mm_distance app hd].
    - now rewrite Nat.eqb_refl.
    - pose proof (unodup_hd _ _ _ _ _ _ _ H E) as Hx. pose proof (ui_wf _ _ _ H) as W. assert (Ix : In x (ino t)) by (rewrite E, !in_app_iff; cbn; auto).
      destruct (uin _ _ _ _ W Ix) as [_ Hx0]. destruct (Nat.eqb_spec x (hd 0 b)) as [Ex|Ex]; [congruence|].
      destruct (Nat.eqb_spec x 0); [congruence|]. rewrite (unext_at q t l l1 x (a ++ b) H E). cbn [obind].
      rewrite (IH n (l1 ++ [x]) b); auto; [now rewrite <- app_assoc|cbn in Hn; lia].
  Qed.
  Lemma upos_ok q t l a b : uinvt q t l -> ino t = a ++ b -> mm_pos N q (hd 0 b) = Some (List.length a).
  Proof using.
    intros H E. unfold mm_pos. erewrite ubegin_ok by eauto. cbn [obind]. rewrite E. eapply (udistance_ok q t l a (mfuel N) [] b); eauto.
    pose proof (ui_fuel _ _ _ H) as F. rewrite E, app_length in F. lia.
  Qed.
  Lemma upos_at q t l a x b : uinvt q t l -> ino t = a ++ x :: b -> mm_pos N q x = Some (List.length a).
  Proof using. intros H E. exact (upos_ok q t l a (x :: b) H E). Qed.
  Lemma upos_end q t l : uinvt q t l -> mm_pos N q 0 = Some (List.length l).
  Proof using. intros H. rewrite <- (ui_len _ _ _ H). apply (upos_ok q t l (ino t) [] H). now rewrite app_nil_r. Qed.
  Lemma uwalk_ok q t l b : forall n l1, uinvt q t l -> ino t = l1 ++ b -> List.length b < n -> mm_walk N n q (hd 0 b) = Some (map (el (fst q)) b).
  Proof using.
    induction b as [|x b IH]; intros n l1 H E Hn; (destruct n; [cbn in Hn; lia|]); cbn [mm_walk hd map]; [reflexivity|].
    pose proof (ui_wf _ _ _ H) as W. assert (Ix : In x (ino t)) by (rewrite E, !in_app_iff; cbn; auto).
    destruct (uin _ _ _ _ W Ix) as [Ax Hx0]. destruct (Nat.eqb_spec x 0); [congruence|]. unfold re. rewrite Ax. cbn [obind].
    erewrite unext_at by eauto. cbn [obind]. rewrite (IH n (l1 ++ [x])); auto; [now rewrite <- app_assoc|cbn in Hn; lia].
  Qed.
  Lemma ucontents_ok q l : uinv q l -> mm_contents N q = Some l.
  Proof using.
    intros [t H]. unfold mm_contents. erewrite ubegin_ok by eauto. cbn [obind]. pose proof (ui_fuel _ _ _ H). rewrite (uwalk_ok q t l (ino t) (mfuel N) []); auto; [|lia].
    f_equal. apply H.
  Qed.
  Lemma uback_ok q t l A : forall n B, uinvt q t l -> ino t = A ++ B -> List.length A < n -> mm_back N n q (hd 0 B) (hd 0 (ino t)) = Some (rev (map (el (fst q)) A)).
  Proof using.
    induction A as [|x A IH] using rev_ind; intros n B H E Hn; (destruct n; [cbn in Hn; lia|]); cbn [mm_back].
    - cbn in E. rewrite E, Nat.eqb_refl. reflexivity.
    - pose proof (ui_wf _ _ _ H) as W. pose proof (ui_fuel _ _ _ H) as F. rewrite app_length in Hn. cbn in Hn.
      assert (Ix : In x (ino t)) by (rewrite E, !in_app_iff; cbn; auto). destruct (uin _ _ _ _ W Ix) as [Ax Hx0].
      assert (Hne : hd 0 B <> hd 0 (ino t)).
      { destruct (A ++ [x]) as [|y A1] eqn:EA; [destruct A; discriminate|]. rewrite E. cbn [app hd].
        pose proof (unodup_hd q t l [] y A1 B H) as Hy. cbn [app] in Hy. intros Hz. apply Hy; auto. }
      destruct (Nat.eqb_spec (hd 0 B) (hd 0 (ino t))); [congruence|].
      assert (Ep : mprev_node (mfuel N) (fst q) (snd q) (hd 0 B) = Some x).
      { destruct B as [|b B]; cbn [hd].
        - rewrite (mprev_end_ok (mfuel N) (fst q) (snd q) t); [|apply W|lia]. rewrite E, app_nil_r, last_last. reflexivity.
        - rewrite (mprev_ok (mfuel N) (fst q) (snd q) t (A ++ [x]) b B); [|apply W|lia|exact E]. rewrite last_last. reflexivity. }
      rewrite Ep. cbn [obind]. unfold re. rewrite Ax. cbn [obind].
      pose proof (IH n (x :: B) H ltac:(now rewrite E, <- app_assoc) ltac:(lia)) as E2. cbn [hd] in E2. rewrite E2. cbn [obind]. rewrite map_app, rev_app_distr. reflexivity.
  Qed.
  Lemma ubackwards_ok q l : uinv q l -> mm_backwards N q = Some (rev l).
  Proof using.
    intros [t H]. unfold mm_backwards. erewrite ubegin_ok by eauto. cbn [obind]. pose proof (ui_fuel _ _ _ H).
    pose proof (uback_ok q t l (ino t) (mfuel N) [] H ltac:(now rewrite app_nil_r) ltac:(lia)) as E1. cbn [hd] in E1. rewrite E1. f_equal. f_equal. apply H.
  Qed.
  Lemma usz_ok q l : uinv q l -> sz (fst q) = List.length l.
  Proof using. intros [t H]. rewrite <- (ui_len _ _ _ H). apply H. Qed.

  (** the searches *)
  Lemma ufind_ok q t l k P M Q : uinvt q t l -> ino t = P ++ M ++ Q -> view key lt k l (map (el (fst q)) P) (map (el (fst q)) M) (map (el (fst q)) Q) ->
    mm_find key lt N q k = Some (hd 0 M).
  Proof using O.
    intros H E W. unfold mm_find. pose proof (ui_wf _ _ _ H) as HW. pose proof (ui_fuel _ _ _ H). pose proof (hgt_ino t).
    rewrite (mfind_node_ok key lt O k t (mfuel N) (fst q) _ _); [|lia|apply HW|apply HW|apply HW]. f_equal. rewrite E.
    destruct W as (_ & Fp & Fm & Fs). rewrite AvlFind.find_app, find_false, AvlFind.find_app.
    - destruct M as [|m M]; cbn [find hd].
      + rewrite find_false; auto. intros z Hz. pose proof (F_in _ _ _ Fs z Hz) as G. cbn in G. unfold equivalent, K_of. rewrite G. apply andb_false_r.
      + destruct (F_in _ _ _ Fm m) as [G1 G2]; [cbn; auto|]. unfold equivalent, K_of. now rewrite G1, G2.
    - intros z Hz. pose proof (F_in _ _ _ Fp z Hz) as G. cbn in G. unfold equivalent, K_of. now rewrite G.
  Qed.
  Lemma ulower_ok q t l k P M Q : uinvt q t l -> ino t = P ++ M ++ Q -> view key lt k l (map (el (fst q)) P) (map (el (fst q)) M) (map (el (fst q)) Q) ->
    mm_lower key lt N q k = Some (hd 0 (M ++ Q)).
  Proof using O.
    intros H E W. unfold mm_lower. pose proof (ui_wf _ _ _ H) as HW. pose proof (ui_fuel _ _ _ H). pose proof (hgt_ino t).
    rewrite (mfind_lower_ok key lt O k t (mfuel N) (fst q) _ _); [|lia|apply HW|apply HW|apply HW]. f_equal. rewrite E.
    destruct W as (_ & Fp & Fm & Fs). rewrite AvlFind.find_app, find_false.
    - destruct (M ++ Q) as [|m R] eqn:ER; cbn [find hd]; auto.
      assert (G : lt (kof (fst q) m) k = false). { assert (I : In m (M ++ Q)) by (rewrite ER; cbn; auto). rewrite in_app_iff in I. destruct I as [I|I].
        - exact (proj1 (F_in _ _ _ Fm m I)).
        - apply (lt_asym lt O). exact (F_in _ _ _ Fs m I). }
      now rewrite G.
    - intros z Hz. pose proof (F_in _ _ _ Fp z Hz) as G. cbn in G. unfold K_of. now rewrite G.
  Qed.
  Lemma uupper_ok q t l k P M Q : uinvt q t l -> ino t = P ++ M ++ Q -> view key lt k l (map (el (fst q)) P) (map (el (fst q)) M) (map (el (fst q)) Q) ->
    mm_upper key lt N q k = Some (hd 0 Q).
  Proof using O.
    intros H E W. unfold mm_upper. pose proof (ui_wf _ _ _ H) as HW. pose proof (ui_fuel _ _ _ H). pose proof (hgt_ino t).
    rewrite (mfind_upper_ok key lt O k (mfuel N) t (fst q) (snd q) (mw_po _ _ _ _ _ HW) ltac:(lia) t (mfuel N) _ [] [] 0); auto.
    - f_equal. rewrite E. destruct W as (_ & Fp & Fm & Fs). rewrite app_assoc, AvlFind.find_app, find_false.
      + destruct Q as [|m R]; cbn [find hd]; auto. pose proof (F_in _ _ _ Fs m) as G. cbn in G. unfold K_of. rewrite G by auto. reflexivity.
      + intros z Hz. rewrite in_app_iff in Hz. unfold K_of. destruct Hz as [Hz|Hz].
        * apply (lt_asym lt O). exact (F_in _ _ _ Fp z Hz).
        * exact (proj2 (F_in _ _ _ Fm z Hz)).
    - now rewrite app_nil_r.
    - lia.
    - apply HW.
    - rewrite app_nil_r. apply HW.
  Qed.
  Lemma ucount_ok q t l k M : forall n P Q, uinvt q t l -> ino t = P ++ M ++ Q -> List.length M < n ->
    (forall z, In z M -> lt (kof (fst q) z) k = false /\ lt k (kof (fst q) z) = false) ->
    mm_count_loop key lt N n q k (hd 0 (M ++ Q)) (hd 0 Q) = Some (List.length M).
  Proof using.
    induction M as [|x M IH]; intros n P Q H E Hn HM; (destruct n; [cbn in Hn; lia|]); cbn [mm_count_loop app hd].
    - now rewrite Nat.eqb_refl.
    - pose proof (unodup_hd _ _ _ _ _ _ _ H E) as Hx. destruct (Nat.eqb_spec x (hd 0 Q)); [congruence|].
      pose proof (ui_wf _ _ _ H) as W. assert (Ix : In x (ino t)) by (rewrite E, !in_app_iff; cbn; auto). destruct (uin _ _ _ _ W Ix) as [Ax _].
      unfold re. rewrite Ax. cbn [obind]. rewrite (unext_at q t l P x (M ++ Q) H E). cbn [obind].
      rewrite (IH n (P ++ [x]) Q); auto; [|now rewrite <- app_assoc|cbn in Hn; lia|intros z Hz; apply HM; cbn; auto].
      cbn [obind]. destruct (HM x ltac:(cbn; auto)) as [G1 G2]. unfold K_of in G1, G2. rewrite G1, G2. reflexivity.
  Qed.

  (** insert *)
  Lemma uinsert_ok q l e : uinv q l -> exists q' r, mm_insert key lt N q e = Some (q', r) /\ uinv q' (snd (s_insert key lt N false e l)) /\
    match r with
    | Some x => exists i, fst (s_insert key lt N false e l) = Ritb i true /\ mm_pos N q' x = Some i
    | None => fst (s_insert key lt N false e l) = Rfull
    end.
  Proof using O.
    intros Hu. pose proof (usz_ok _ _ Hu) as HS. assert (HL : List.length l <= N) by (destruct Hu as [t H]; eapply ui_le; eauto).
    unfold mm_insert, s_insert, mm_full. rewrite HS. cbn [andb].
    destruct (Nat.eqb_spec (List.length l) N) as [Ef|Ef].
    - destruct (Nat.ltb_spec (List.length l) N); [lia|]. exists q, None. cbn. auto.
    - destruct (Nat.ltb_spec (List.length l) N); [|lia]. cbn [fst snd].
      destruct Hu as [t Ht]. pose proof Ht as [W HM HP]. pose proof (ui_fuel _ _ _ Ht) as F. rewrite <- (ui_len _ _ _ Ht) in Ef, H.
      destruct (fr (fst q)) as [|p f] eqn:Efr; [cbn in HP; lia|].
      assert (EA : allocate (fst q) e = Some (set_el (set_pool (fst q) (fupd (al (fst q)) p true) f) p e, p)) by (unfold allocate; now rewrite Efr).
      rewrite EA. cbn [obind].
      destruct (minsert_ok key lt O (mfuel N) (fst q) (snd q) t _ p e W EA ltac:(lia)) as (s' & g' & l1 & l2 & t' & EI & E1 & E2 & W' & Ee & Hel & Hfr & Np & Lo & Up).
      rewrite EI. cbn [obind]. exists (s', g'), (Some p). split; [reflexivity|].
      destruct (uview q t l (key e) Ht) as (P & M & Q & Ei & V). pose proof V as (El & Fp & Fm & Fs).
      assert (PQ : l1 = P ++ M /\ l2 = Q).
      { assert (FF : Forall (fun x => lt (key e) (key x) = false) (map (el (fst q)) (P ++ M))).
        { apply Forall_forall. intros x Hx. apply in_map_iff in Hx. destruct Hx as (z & <- & Hz). rewrite in_app_iff in Hz. destruct Hz as [Hz|Hz].
          - apply (lt_asym lt O). exact (F_in _ _ _ Fp z Hz).
          - exact (proj2 (F_in _ _ _ Fm z Hz)). }
        rewrite app_assoc, E1 in Ei. set (PM := P ++ M) in *. clearbody PM. clear - Ei Lo Up FF Fs O. revert PM Ei FF. induction l1 as [|a l1 IH]; intros P Ei FF.
        - destruct P as [|b P]; auto. exfalso. cbn in Ei. subst l2. pose proof (Up b ltac:(cbn; auto)) as G1. inversion FF; subst.
          unfold K_of in G1. congruence.
        - destruct P as [|b P].
          + exfalso. cbn in Ei. subst Q. pose proof (Lo a ltac:(cbn; auto)) as G1. inversion Fs; subst. unfold K_of in G1. congruence.
          + cbn in Ei. injection Ei as <- Ei. inversion FF; subst. destruct (IH ltac:(intros z Hz; apply Lo; cbn; auto) P Ei H2) as [-> ->]. auto. }
      destruct PQ as [-> ->].
      assert (H' : uinvt (s', g') t' (inserted key lt e l)).
      { constructor; auto; cbn [fst snd].
        - unfold inserted. rewrite (v_ngs _ _ O _ _ _ _ _ V), (v_gs _ _ O _ _ _ _ _ V).
          rewrite E2, map_app. cbn [map]. rewrite Ee, <- map_app. f_equal; [|f_equal]; apply map_ext_in; intros z Hz; apply Hel; rewrite E1, in_app_iff; auto.
        - rewrite E2, app_length. rewrite E1, app_length in HP. rewrite Efr in Hfr. injection Hfr as Hfr. rewrite Hfr in HP. cbn in *. lia. }
      split; [exists t'; exact H'|]. eexists. split; [reflexivity|].
      rewrite (v_upto _ _ O _ _ _ _ _ V), !map_length, <- app_length. eapply upos_at; eauto.
  Qed.
  Lemma uinsert_all_ok es : forall q l, uinv q l -> exists q' b, mm_insert_all key lt N q es = Some (q', b) /\
    uinv q' (snd (s_insert_all key lt N false es l)) /\ fst (s_insert_all key lt N false es l) = if b then Rfull else Runit.
  Proof using O.
    induction es as [|e es IH]; intros q l H; cbn [mm_insert_all s_insert_all].
    - eexists _, _. split; [reflexivity|]. split; [exact H|]. reflexivity.
    - destruct (uinsert_ok q l e H) as (q' & r & E1 & H' & E2). rewrite E1. cbn [obind].
      destruct (s_insert key lt N false e l) as [x l'] eqn:ES. cbn [fst snd] in *. destruct r as [y|].
      + destruct E2 as (i & -> & _). apply IH, H'.
      + subst x. eexists _, _. split; [reflexivity|]. split; [exact H'|]. reflexivity.
  Qed.

  (** erase *)
  Lemma uerase_at_ok q t l l1 x l2 : uinvt q t l -> ino t = l1 ++ x :: l2 -> (forall z, In z l1 -> lt (kof (fst q) z) (kof (fst q) x) = true) ->
    exists q' t', mm_erase_at key lt N q x = Some (q', hd 0 l2) /\ ino t' = l1 ++ l2 /\ el (fst q') = el (fst q) /\ uinvt q' t' (map (el (fst q)) (l1 ++ l2)).
  Proof using O.
    intros H Ei Hlt. pose proof H as [W HM HP]. pose proof (ui_fuel _ _ _ H) as HF. unfold mm_erase_at.
    erewrite unext_at by eauto. cbn [obind].
    destruct (mremove_ok key lt O (mfuel N) (fst q) (snd q) t x l1 l2 W ltac:(lia) Ei Hlt) as (s' & g' & t' & ER & E2 & W' & Hel & Hfr). rewrite ER. cbn [obind].
    exists (s', g'), t'. split; [reflexivity|]. split; [exact E2|]. cbn [fst]. split; [exact Hel|]. constructor; auto; cbn [fst snd]; [now rewrite E2, Hel|].
    rewrite Hfr, E2. cbn. rewrite Ei, app_length in HP. cbn in HP. rewrite app_length. lia.
  Qed.
  Lemma uerase_range_ok B : forall n q t l A C, uinvt q t l -> ino t = A ++ B ++ C -> List.length B < n ->
    (forall z w, In z A -> In w B -> lt (kof (fst q) z) (kof (fst q) w) = true) ->
    exists q' t', mm_erase_range key lt N n q (hd 0 (B ++ C)) (hd 0 C) = Some (q', List.length B) /\ ino t' = A ++ C /\ el (fst q') = el (fst q) /\ uinvt q' t' (map (el (fst q)) (A ++ C)).
  Proof using O.
    induction B as [|x B IH]; intros n q t l A C H Ei Hn HAB; (destruct n; [cbn in Hn; lia|]); cbn [mm_erase_range app hd].
    - rewrite Nat.eqb_refl. exists q, t. split; [reflexivity|]. split; [exact Ei|]. split; [reflexivity|]. cbn [app] in Ei. destruct H as [W HM HP]. constructor; auto. now rewrite Ei.
    - pose proof (unodup_hd _ _ _ _ _ _ _ H Ei) as Hx. destruct (Nat.eqb_spec x (hd 0 C)) as [Ex|Ex]; [congruence|].
      destruct (uerase_at_ok q t l A x (B ++ C) H Ei) as (s1 & t1 & E1 & E2 & E3 & H1); [intros; apply HAB; cbn; auto|]. rewrite E1. cbn [obind].
      destruct (IH n s1 t1 _ A C H1 E2 ltac:(cbn in Hn; lia)) as (s2 & t2 & F1 & F2 & F3 & H2).
      { intros z w Hz Hw. unfold K_of. rewrite E3. apply HAB; cbn; auto. }
      exists s2, t2. rewrite F1, F3, E3. rewrite E3 in H2. cbn [obind List.length]. auto.
  Qed.
  Lemma uclear_ok q l : uinv q l -> exists q', mm_clear key lt N q = Some q' /\ uinv q' [].
  Proof using O.
    intros [t H]. unfold mm_clear. erewrite ubegin_ok by eauto. cbn [obind]. pose proof (ui_fuel _ _ _ H).
    destruct (uerase_range_ok (ino t) (mfuel N) q t l [] [] H) as (s1 & t1 & E1 & E2 & E3 & H1).
    - now rewrite app_nil_r.
    - lia.
    - intros z w [].
    - rewrite app_nil_r in E1. cbn [hd] in E1. exists s1. rewrite E1. cbn [obind fst]. split; [reflexivity|]. exists t1. exact H1.
  Qed.
  (** elements behind the first of its key *)
  Lemma first_lt q t l A x B : uinvt q t l -> ino t = A ++ x :: B -> first_of_its_key key lt (List.length A) l = true ->
    forall z w, In z A -> In w (x :: B) -> lt (kof (fst q) z) (kof (fst q) w) = true.
  Proof using O.
    intros H Ei Hf z w Hz Hw. unfold first_of_its_key in Hf. destruct H as [W HM HP]. rewrite <- HM, Ei, map_app in Hf. cbn [map] in Hf.
    rewrite nth_error_app2 in Hf by (rewrite map_length; lia). rewrite map_length, Nat.sub_diag in Hf. cbn [nth_error] in Hf.
    rewrite firstn_app, map_length, Nat.sub_diag in Hf. cbn [firstn] in Hf. rewrite app_nil_r, firstn_all2 in Hf by (rewrite map_length; lia).
    rewrite forallb_forall in Hf. pose proof (Hf (el (fst q) z) (in_map _ _ _ Hz)) as G. fold (kof (fst q) z) (kof (fst q) x) in G.
    destruct Hw as [<-|Hw]; auto. pose proof (mw_asc _ _ _ _ _ W) as Ha. rewrite Ei in Ha. apply nasc_app in Ha. destruct Ha as (_ & (Ha & _) & _).
    eapply lt_nlt_trans; eauto.
  Qed.

  Theorem uop_ok o q l r l' : uinv q l -> u_op key lt N o l = Some (r, l') -> exists q', mm_op key lt N o q = Some (r, q') /\ uinv q' l'.
  Proof using O.
    intros H. pose proof (usz_ok _ _ H) as HS. assert (HL : List.length l <= N) by (destruct H as [t H]; eapply ui_le; eauto).
    assert (NV : forall k, exists t P M Q, uinvt q t l /\ ino t = P ++ M ++ Q /\ view key lt k l (map (el (fst q)) P) (map (el (fst q)) M) (map (el (fst q)) Q)).
    { intros k. destruct H as [t H]. destruct (uview q t l k H) as (P & M & Q & A & B). exists t, P, M, Q. auto. }
    destruct o as [e|e|es|es|k|i|a b| |k|k|k|k|k|k|k|k| | | | | ]; cbn [u_op mm_op]; intros ET; try discriminate.
    - (* insert *) injection ET as ET. destruct (uinsert_ok q l e H) as (q' & x & E1 & H' & E2). rewrite E1. cbn [obind]. rewrite ET in *. cbn [fst snd] in *.
      destruct x as [x|].
      + destruct E2 as (i & -> & EP). rewrite EP. cbn [obind]. eauto.
      + subst r. eauto.
    - injection ET as ET. destruct (uinsert_all_ok es q l H) as (s' & b & E1 & H' & E2). rewrite E1. cbn [obind]. rewrite ET in *. cbn [fst snd] in *. subst r. eauto.
    - injection ET as ET. destruct (uclear_ok q l H) as (s0 & E0 & H0). rewrite E0. cbn [obind].
      destruct (uinsert_all_ok es s0 [] H0) as (s' & b & E1 & H' & E2). rewrite E1. cbn [obind]. rewrite ET in *. cbn [fst snd] in *. subst r. eauto.
    - (* erase key *) destruct (NV k) as (t & P & M & Q & Ht & Ei & V). pose proof (ui_fuel _ _ _ Ht) as F. pose proof V as (El & Fp & Fm & Fs).
      rewrite (ulower_ok q t l k P M Q Ht Ei V), (uupper_ok q t l k P M Q Ht Ei V). cbn [obind].
      destruct (uerase_range_ok M (mfuel N) q t l P Q Ht Ei) as (q' & t' & E1 & E2 & E3 & H').
      { apply (f_equal (@List.length nat)) in Ei. rewrite !app_length in Ei. lia. }
      { intros z w Hz Hw. pose proof (F_in _ _ _ Fp z Hz) as G1. destruct (F_in _ _ _ Fm w Hw) as [G2 G3]. unfold K_of. exact (lt_nlt_trans lt O _ _ _ G1 G2). }
      rewrite E1. cbn [obind]. rewrite (v_same _ _ _ _ _ _ _ V), (v_not_same _ _ _ _ _ _ _ V), map_length, <- map_app in ET. injection ET as <- <-. eexists. split; [reflexivity|]. exists t'. exact H'.
    - (* erase at *) destruct (first_of_its_key key lt i l) eqn:Ef; [|discriminate]. injection ET as <- <-. destruct H as [t H]. pose proof (ui_len _ _ _ H) as HT.
      assert (Hi : i < List.length l) by (apply nth_error_Some; unfold first_of_its_key in Ef; destruct (nth_error l i); [discriminate|discriminate Ef]).
      rewrite (uiter_ok q t l i H) by lia. cbn [obind]. pose proof (skipn_split (ino t) i) as Es. destruct (skipn i (ino t)) as [|x l2] eqn:E2.
      { exfalso. apply (f_equal (@List.length _)) in E2. rewrite skipn_length in E2. cbn in E2. lia. }
      cbn [hd]. destruct (uerase_at_ok q t l _ x l2 H Es) as (s' & t' & E3 & E4 & E5 & H').
      { intros z Hz. eapply (first_lt q t l _ x l2 H Es); cbn; auto. now rewrite firstn_len by lia. }
      rewrite E3. cbn [obind].
      rewrite (upos_ok s' t' _ _ l2 H' E4). cbn [obind]. rewrite firstn_len by lia. eexists. split; [reflexivity|]. exists t'.
      assert (EQ : firstn i l ++ skipn (S i) l = map (el (fst q)) (firstn i (ino t) ++ l2)); [|change (uinvt s' t' (firstn i l ++ skipn (S i) l)); rewrite EQ; exact H'].
      destruct H as [_ <- _]. rewrite firstn_map, skipn_map, map_app. f_equal. f_equal. change (S i) with (1 + i). rewrite <- skipn_skipn, E2. reflexivity.
    - (* erase range *) destruct ((a <=? b) && (b <=? List.length l) && ((a =? b) || first_of_its_key key lt a l)) eqn:Hab; [|discriminate]. apply andb_true_iff in Hab. destruct Hab as [Hab Hf]. apply andb_true_iff in Hab. destruct Hab as [Ha Hb]. apply Nat.leb_le in Ha, Hb.
      injection ET as <- <-. destruct H as [t H]. pose proof (ui_len _ _ _ H) as HT.
      rewrite (uiter_ok q t l a H) by lia. rewrite (uiter_ok q t l b H) by lia. cbn [obind].
      assert (Eb : skipn a (ino t) = firstn (b - a) (skipn a (ino t)) ++ skipn b (ino t)).
      { rewrite (skipn_split (skipn a (ino t)) (b - a)) at 1. f_equal. rewrite skipn_skipn. f_equal. lia. }
      assert (Es : ino t = firstn a (ino t) ++ firstn (b - a) (skipn a (ino t)) ++ skipn b (ino t)).
      { rewrite <- Eb. apply skipn_split. }
      destruct (uerase_range_ok _ (mfuel N) q t l _ _ H Es) as (s' & t' & E3 & E4 & E5 & H').
      { rewrite firstn_length, skipn_length. unfold mfuel. lia. }
      { intros z w Hz Hw. apply orb_true_iff in Hf. destruct Hf as [Hf|Hf].
        - apply Nat.eqb_eq in Hf. subst b. rewrite Nat.sub_diag in Hw. destruct Hw.
        - pose proof (skipn_split (ino t) a) as Ea. destruct (skipn a (ino t)) as [|x l2] eqn:E2; [rewrite firstn_nil in Hw; destruct Hw|].
          eapply (first_lt q t l _ x l2 H Ea); eauto; [now rewrite firstn_len by lia|].
          rewrite <- (firstn_skipn (b - a) (x :: l2)), in_app_iff. auto. }
      rewrite <- Eb in E3. rewrite E3. cbn [obind]. rewrite (upos_ok s' t' _ _ _ H' E4). cbn [obind]. rewrite firstn_len by lia. eexists. split; [reflexivity|]. exists t'.
      replace (firstn a l ++ skipn b l) with (map (el (fst q)) (firstn a (ino t) ++ skipn b (ino t))); [exact H'|].
      destruct H as [_ <- _]. now rewrite firstn_map, skipn_map, map_app.
    - injection ET as <- <-. destruct (uclear_ok q l H) as (s0 & E0 & H0). rewrite E0. cbn [obind]. eauto.
    - (* find *) injection ET as <- <-. destruct (NV k) as (t & P & M & Q & Ht & Ei & V). rewrite (ufind_ok q t l k P M Q Ht Ei V). cbn [obind].
      unfold s_find. rewrite (v_present _ _ _ _ _ _ _ V). destruct M as [|m M]; cbn [map hd].
      + rewrite (upos_end q t l Ht). cbn. eauto.
      + rewrite (v_before _ _ O _ _ _ _ _ V), map_length. cbn [app] in Ei. rewrite (upos_at q t l P m (M ++ Q) Ht Ei). cbn. eauto.
    - (* contains *) injection ET as <- <-. destruct (NV k) as (t & P & M & Q & Ht & Ei & V). rewrite (ufind_ok q t l k P M Q Ht Ei V). cbn [obind].
      rewrite (v_present _ _ _ _ _ _ _ V). destruct M as [|m M]; cbn [map hd]; [eauto|].
      destruct (Nat.eqb_spec m 0) as [Em|]; [|eauto]. exfalso. revert Em. eapply uin; [apply Ht|]. rewrite Ei, !in_app_iff. cbn. auto.
    - (* count *) injection ET as <- <-. destruct (NV k) as (t & P & M & Q & Ht & Ei & V). pose proof (ui_fuel _ _ _ Ht) as F. pose proof V as (El & Fp & Fm & Fs).
      rewrite (ulower_ok q t l k P M Q Ht Ei V), (uupper_ok q t l k P M Q Ht Ei V). cbn [obind].
      rewrite (ucount_ok q t l k M (mfuel N) P Q Ht Ei).
      + cbn [obind]. rewrite (v_same _ _ _ _ _ _ _ V), map_length. eauto.
      + apply (f_equal (@List.length nat)) in Ei. rewrite !app_length in Ei. lia.
      + intros z Hz. exact (F_in _ _ _ Fm z Hz).
    - (* lower *) injection ET as <- <-. destruct (NV k) as (t & P & M & Q & Ht & Ei & V). rewrite (ulower_ok q t l k P M Q Ht Ei V). cbn [obind].
      rewrite (upos_ok q t l P _ Ht Ei). cbn [obind]. rewrite (v_before _ _ O _ _ _ _ _ V), map_length. eauto.
    - (* upper *) injection ET as <- <-. destruct (NV k) as (t & P & M & Q & Ht & Ei & V). rewrite (uupper_ok q t l k P M Q Ht Ei V). cbn [obind].
      rewrite app_assoc in Ei. rewrite (upos_ok q t l (P ++ M) _ Ht Ei). cbn [obind]. rewrite (v_upto _ _ O _ _ _ _ _ V), !map_length, app_length. eauto.
    - (* equal range *) injection ET as <- <-. destruct (NV k) as (t & P & M & Q & Ht & Ei & V). rewrite (ulower_ok q t l k P M Q Ht Ei V), (uupper_ok q t l k P M Q Ht Ei V). cbn [obind].
      rewrite (upos_ok q t l P _ Ht Ei). cbn [obind]. rewrite app_assoc in Ei. rewrite (upos_ok q t l (P ++ M) _ Ht Ei). cbn [obind].
      rewrite (v_before _ _ O _ _ _ _ _ V), (v_upto _ _ O _ _ _ _ _ V), !map_length, app_length. eauto.
    - injection ET as <- <-. rewrite (ucontents_ok q l H). cbn [obind]. eauto.
    - injection ET as <- <-. rewrite HS. eauto.
    - injection ET as <- <-. rewrite HS. eauto.
    - injection ET as <- <-. unfold mm_full. rewrite HS. eauto.
    - injection ET as <- <-. rewrite HS. eauto.
  Qed.
  Theorem uops_ok os : forall q l rs l', uinv q l -> u_ops key lt N os l = Some (rs, l') -> exists q', mm_ops key lt N os q = Some (rs, q') /\ uinv q' l'.
  Proof using O.
    induction os as [|o os IH]; intros q l rs l' H; cbn [u_ops mm_ops]; intros ET.
    - injection ET as <- <-. eauto.
    - destruct (u_op key lt N o l) as [[x l1]|] eqn:E1; [|discriminate]. destruct (u_ops key lt N os l1) as [[xs l2]|] eqn:E2; [|discriminate]. injection ET as <- <-.
      destruct (uop_ok o q l x l1 H E1) as (s1 & F1 & H1). destruct (IH s1 l1 xs l2 H1 E2) as (s2 & F2 & H2). rewrite F1. cbn [obind]. rewrite F2. cbn [obind]. eauto.
  Qed.
  Lemma unew_ok c w d e g pool : NoDup pool -> ~ In 0 pool -> List.length pool = N -> uinv (mm_new c w d e g pool) [].
  Proof using.
    intros H1 H2 H3. exists AvlTree.E. constructor; cbn; auto; [|lia]. constructor; cbn; auto.
    - constructor; cbn; auto. constructor.
    - intros x. split; [discriminate|tauto].
    - split; auto. intros x Hx. split; auto. intros ->. auto.
  Qed.
End P.
