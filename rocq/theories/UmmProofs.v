(** * Proofs about unordered_multimap/unordered_multiset (support for C50) *)
From Coq Require Import List Arith Lia Bool.
From Verif Require Import Util FlatSpec UmSpec AvlModel UmModel UmProofs UmOps UmmSpec UmmModel.
Import ListNotations.

Section P.
  Context {E K : Type}.
  Variable key : E -> K.
  Variable keq : K -> K -> bool.
  Variable hash : K -> nat.
  Variable B N : nat.
  Hypothesis HB : 0 < B.
  Hypothesis HH : hashable keq hash.
  Notation ust := (ust E).
  Notation bucket := (bucket hash B).
  Notation all := (all B).
  Notation after_b := (after_b B).
  Notation core := (core key hash B N).
  Notation at_rest := (at_rest B).
  Notation same_key := (same_key key keq).
  Notation has := (has key keq).
  Notation matching := (matching key keq).
  Notation others := (others key keq).
  Notation from_key := (from_key key keq).
  (** the invariant of UmProofs.v without uniqueness: it is stated for a key equality, take the one that is never true *)
  Definition q0 : K -> K -> bool := fun _ _ => false.
  Notation inv := (inv key q0 hash B N).

  Lemma keq_flip a b : keq a b = keq b a.
  Proof using HH. clear HB. destruct (keq a b) eqn:E1, (keq b a) eqn:E2; auto; [apply (keq_sym _ _ HH) in E1|apply (keq_sym _ _ HH) in E2]; congruence. Qed.
  Lemma keq_class a b c : keq a b = true -> keq a c = keq b c.
  Proof using HH. clear HB.
    intros H. destruct (keq a c) eqn:E1, (keq b c) eqn:E2; auto.
    - rewrite <- E2. symmetry. apply (keq_trans _ _ HH) with a; auto. now apply (keq_sym _ _ HH).
    - rewrite <- E1. apply (keq_trans _ _ HH) with b; auto.
  Qed.

  (** ** grouped lists *)
  Definition lead (k : K) (l : list E) : Prop := match l with [] => True | y :: _ => same_key k y = true \/ has k l = false end.
  Fixpoint gr (l : list E) : Prop := match l with [] => True | e :: r => gr r /\ lead (key e) r end.
  Lemma has_app k l1 l2 : has k (l1 ++ l2) = has k l1 || has k l2.
  Proof using. clear HB. apply existsb_app. Qed.
  Lemma has_cons k e l : has k (e :: l) = same_key k e || has k l.
  Proof using. clear HB. reflexivity. Qed.
  Lemma has_in k l x : In x l -> same_key k x = true -> has k l = true.
  Proof using. clear HB. intros I H. apply existsb_exists. eauto. Qed.
  Lemma has_none k l : has k l = false <-> forall x, In x l -> same_key k x = false.
  Proof using. clear HB.
    split.
    - intros H x I. destruct (same_key k x) eqn:Ex; auto. rewrite (has_in k l x I Ex) in H. discriminate.
    - intros H. destruct (has k l) eqn:Eh; auto. apply existsb_exists in Eh. destruct Eh as (x & I & Ex). rewrite H in Ex by auto. discriminate.
  Qed.
  Lemma gr_suffix l1 l2 : gr (l1 ++ l2) -> gr l2.
  Proof using. clear HB. induction l1 as [|a l1 IH]; cbn; auto. tauto. Qed.
  Lemma class_key k x y : same_key k x = true -> same_key (key x) y = same_key k y.
  Proof using HH. clear HB. unfold UmmSpec.same_key. intros H. symmetry. now apply keq_class. Qed.
  Lemma class_has k x l : same_key k x = true -> has (key x) l = has k l.
  Proof using HH. clear HB. intros H. unfold UmmSpec.has. induction l as [|y l IH]; cbn; auto. now rewrite IH, (class_key k x y H). Qed.
  Lemma lead_suffix k a l : gr (a ++ l) -> lead k (a ++ l) -> lead k l.
  Proof using HH. clear HB.
    induction a as [|y a IH]; cbn [app gr]; auto. intros (G & L) L2. apply IH; auto. cbn [lead] in L2. destruct L2 as [L2|L2].
    - destruct (a ++ l) as [|z r] eqn:Er; [cbn; auto|]. cbn [lead] in *. rewrite (class_key k y z L2), (class_has k y _ L2) in L. exact L.
    - rewrite has_cons in L2. apply orb_false_iff in L2. destruct L2 as [_ L2]. destruct (a ++ l); cbn; auto.
  Qed.
  Lemma gr_cut l1 l2 l3 : gr (l1 ++ l2 ++ l3) -> gr (l1 ++ l3).
  Proof using HH. clear HB.
    induction l1 as [|a l1 IH]; cbn [app]; [apply gr_suffix|]. cbn [gr]. intros (G & L). split; [auto|]. destruct l1 as [|b l1]; cbn [app] in *.
    - now apply lead_suffix with l2.
    - cbn [lead] in *. destruct L as [L|L]; auto. right. rewrite has_cons in *. rewrite !has_app in *. apply orb_false_iff in L. destruct L as [-> L]. apply orb_false_iff in L. destruct L as [-> L]. apply orb_false_iff in L. now destruct L as [_ ->].
  Qed.
  Lemma gr_others k l : gr l -> gr (others k l).
  Proof using HH. clear HB.
    induction l as [|e r IH]; cbn [gr]; auto. intros (G & L). unfold UmmSpec.others. cbn [filter]. fold (others k r). destruct (negb (same_key k e)) eqn:Ek; [|auto]. cbn [gr]. split; [auto|].
    destruct r as [|y r]; [cbn; auto|]. cbn [lead] in L. destruct L as [L|L].
    - unfold UmmSpec.others. cbn [filter]. assert (Q : same_key k y = same_key k e). { unfold UmmSpec.same_key in *. rewrite (keq_flip k (key y)), (keq_flip k (key e)). symmetry. now apply keq_class. }
      rewrite Q, Ek. cbn. auto.
    - assert (Q : has (key e) (others k (y :: r)) = false). { apply has_none. intros z I. unfold UmmSpec.others in I. apply filter_In in I. apply (proj1 (has_none _ _) L). tauto. }
      destruct (others k (y :: r)) as [|z zs]; cbn [lead]; auto.
  Qed.
  Lemma gr_add_lead e l1 y l2 : gr (l1 ++ y :: l2) -> has (key e) l1 = false -> same_key (key e) y = true -> gr (l1 ++ e :: y :: l2).
  Proof using HH. clear HB.
    intros G H1 H2. induction l1 as [|a l1 IH]; cbn [app gr] in *; [split; [auto|cbn; auto]|]. destruct G as [G L]. rewrite has_cons in H1. apply orb_false_iff in H1. destruct H1 as [H0 H1]. split; [auto|].
    assert (Ha : same_key (key a) e = false) by (unfold UmmSpec.same_key in *; now rewrite keq_flip).
    destruct l1 as [|b l1]; cbn [app lead] in *.
    - right. rewrite has_cons, Ha. cbn [orb]. destruct L as [L|L]; [|exact L]. exfalso. unfold UmmSpec.same_key in *. rewrite (keq_flip (key a)) in L. rewrite <- (keq_class _ _ (key a) H2) in L. congruence.
    - destruct L as [L|L]; auto. right. rewrite has_cons in *. rewrite has_app in *. rewrite !(has_cons _ e). rewrite Ha. exact L.
  Qed.
  Lemma gr_add_end e l1 l2 : gr (l1 ++ l2) -> has (key e) l1 = false -> has (key e) l2 = false -> (forall a, In a l1 -> has (key a) l2 = false) -> gr (l1 ++ e :: l2).
  Proof using HH. clear HB.
    intros G H1 H2 HS. induction l1 as [|a l1 IH]; cbn [app gr] in *; [split; [auto|destruct l2; cbn; auto]|]. destruct G as [G L]. rewrite has_cons in H1. apply orb_false_iff in H1. destruct H1 as [H0 H1]. split; [apply IH; auto; intros b I; apply HS; cbn; auto|].
    assert (Ha : same_key (key a) e = false) by (unfold UmmSpec.same_key in *; now rewrite keq_flip).
    destruct l1 as [|b l1]; cbn [app lead] in *.
    - right. rewrite has_cons, Ha. apply HS. cbn; auto.
    - destruct L as [L|L]; auto. right. rewrite has_cons in *. rewrite has_app in *. rewrite has_cons, Ha. exact L.
  Qed.
  Lemma gr_grouped l : gr l -> grouped key keq l.
  Proof using HH. clear HB.
    intros G l1 x l2 y l3 -> Hy z Hz. apply gr_suffix in G. cbn [gr] in G. destruct G as [G L]. apply in_split in Hz. destruct Hz as (a & b & ->). rewrite <- app_assoc in *. cbn [app] in *.
    apply lead_suffix in L; auto. cbn [lead] in L. destruct L as [L|L]; auto. exfalso. rewrite has_cons, has_app, has_cons in L. unfold UmmSpec.same_key in L. rewrite Hy in L. rewrite !orb_true_r in L. discriminate.
  Qed.
  Lemma gr_run k e r : gr (e :: r) -> same_key k e = true -> exists g r', r = g ++ r' /\ (forall x, In x g -> same_key k x = true) /\ has k r' = false.
  Proof using HH. clear HB.
    revert e. induction r as [|y r IH]; intros e G He; [exists [], []; cbn; auto; tauto|]. cbn [gr] in G. destruct G as [G L]. cbn [lead] in L. rewrite (class_key k e y He), (class_has k e _ He) in L. destruct L as [L|L].
    - destruct (IH y G L) as (g & r' & -> & H1 & H2). exists (y :: g), r'. conj; auto. intros x [<-|I]; auto.
    - exists [], (y :: r). conj; auto.
  Qed.

  (** ** lists with a key *)
  Lemma matching_none k l : has k l = false -> matching k l = [].
  Proof using. clear HB. intros H. induction l as [|x l IH]; cbn; auto. rewrite has_cons in H. apply orb_false_iff in H. destruct H as [-> H]. auto. Qed.
  Lemma matching_all k l : (forall x, In x l -> same_key k x = true) -> matching k l = l.
  Proof using. clear HB. intros H. apply filter_id. exact H. Qed.
  Lemma matching_app k l1 l2 : matching k (l1 ++ l2) = matching k l1 ++ matching k l2.
  Proof using. clear HB. apply filter_app. Qed.
  Lemma others_none k l : has k l = false -> others k l = l.
  Proof using. clear HB. intros H. apply filter_id. intros x I. now rewrite (proj1 (has_none _ _) H). Qed.
  Lemma from_key_app k l1 l2 : has k l1 = false -> from_key k (l1 ++ l2) = from_key k l2.
  Proof using. clear HB. induction l1 as [|x l1 IH]; cbn [app UmmSpec.from_key]; auto. intros H. rewrite has_cons in H. apply orb_false_iff in H. destruct H as [-> H]. auto. Qed.

  (** ** the bucket of a key *)
  Lemma in_before bk b x : In x (before_b bk b) -> exists c, c < b /\ In x (bk c).
  Proof using. clear HB. unfold before_b. rewrite in_flat_map. intros (c & I & J). rewrite in_seq in I. exists c. split; auto. lia. Qed.
  Lemma elsewhere s bk k b c x : core s bk -> c < B -> In x (bk c) -> keq k (key (uel s x)) = true -> b = bucket k -> c = b.
  Proof using HH. clear HB. intros C Hc I Hk ->. rewrite <- (ihash _ _ _ _ _ _ C c x Hc I). unfold UmModel.bucket. now rewrite (hash_keq _ _ HH _ _ Hk). Qed.
  Lemma none_before s bk k : core s bk -> has k (map (uel s) (before_b bk (bucket k))) = false.
  Proof using HB HH.
    intros C. apply has_none. intros e I. apply in_map_iff in I. destruct I as (x & <- & I). apply in_before in I. destruct I as (c & Hc & I). pose proof (bucket_lt hash B HB k).
    unfold UmmSpec.same_key. destruct (keq k (key (uel s x))) eqn:Ek; auto. assert (c = bucket k) by (eapply elsewhere; eauto; lia). lia.
  Qed.
  Lemma none_after s bk k : core s bk -> has k (map (uel s) (after_b bk (bucket k))) = false.
  Proof using HB HH.
    intros C. pose proof (bucket_lt hash B HB k). apply has_none. intros e I. apply in_map_iff in I. destruct I as (x & <- & I). apply in_after in I; auto. destruct I as (c & Hc & Hc2 & I).
    unfold UmmSpec.same_key. destruct (keq k (key (uel s x))) eqn:Ek; auto. assert (c = bucket k) by (eapply elsewhere; eauto; lia). lia.
  Qed.

  Definition rep (s : ust) (l : list E) : Prop := exists bk, inv s bk /\ l = map (uel s) (all bk) /\ gr l.

  (** ** scanning a bucket *)
  Lemma scan_first (f : K -> K -> bool) s bk b k : core s bk -> b < B -> forall n xs ys, bk b = xs ++ ys -> List.length ys < n -> (forall x, In x xs -> f k (key (uel s x)) = false) ->
    exists zs ws, bk b = zs ++ ws /\ scan key f B n s (lk b xs) (hd 0 ys) k = Some (lk b zs, hd 0 ws) /\ (forall x, In x zs -> f k (key (uel s x)) = false) /\ match ws with [] => True | x :: _ => f k (key (uel s x)) = true end.
  Proof using. clear HB.
    intros C Hb. induction n as [|n IH]; intros xs ys E1 L H; [lia|]. cbn [scan]. destruct ys as [|y ys]; cbn [hd].
    - cbn [Nat.eqb]. exists xs, []. auto.
    - assert (I : In y (all bk)) by (apply (in_all B bk b); auto; rewrite E1, in_app_iff; cbn; auto).
      destruct (Nat.eqb_spec y 0) as [->|_]; [exfalso; eapply core_nz; eauto|]. rewrite (ure_ok _ _ _ _ s bk y C I). cbn [obind].
      destruct (f k (key (uel s y))) eqn:Ek; [exists xs, (y :: ys); auto|].
      rewrite (lnext_node _ _ _ _ s bk b xs y ys C Hb E1). cbn [obind]. rewrite <- (lk_snoc b xs y). apply IH; [now rewrite <- app_assoc|cbn in L; lia|].
      intros z Hz. rewrite in_app_iff in Hz. cbn in Hz. destruct Hz as [?|[<-|[]]]; auto.
  Qed.
  Lemma scan_start (f : K -> K -> bool) s bk b k : core s bk -> b < B ->
    exists zs ws, bk b = zs ++ ws /\ scan key f B (ufuel N) s (Start b) (hd 0 (bk b)) k = Some (lk b zs, hd 0 ws) /\ (forall x, In x zs -> f k (key (uel s x)) = false) /\ match ws with [] => True | x :: _ => f k (key (uel s x)) = true end.
  Proof using. clear HB. intros C Hb. apply (scan_first f s bk b k C Hb (ufuel N) [] (bk b)); auto; [unfold ufuel; pose proof (core_len _ _ _ _ s bk b C Hb); lia|intros x []]. Qed.
  Lemma start_next s bk b : core s bk -> b < B -> lnext B s (Start b) = Some (hd 0 (bk b)).
  Proof using. clear HB. intros C Hb. apply (lnext_ok _ _ _ _ s bk b [] (bk b) C Hb eq_refl). Qed.

  Lemma to_end_ok s bk i r a : core s bk -> at_rest bk i r -> all bk = a ++ r -> to_end B N s i = Some (map (uel s) r).
  Proof using. clear HB.
    intros C R HA. unfold to_end. cbn [it_end snd]. apply (walk_ok key hash B N s bk 0 C r _ i []); [now rewrite app_nil_r|reflexivity|apply (nz_all key hash B N s bk); auto; intros x I; rewrite HA, in_app_iff; auto|].
    unfold ufuel. pose proof (ipool _ _ _ _ _ _ C) as P. rewrite HA, app_length in P. lia.
  Qed.

  (** ** insert *)
  Lemma ufull_ok s l : rep s l -> ufull s = negb (List.length l <? N).
  Proof using. clear HB.
    intros (bk & V & -> & _). pose proof (ipool _ _ _ _ _ _ (vc _ _ _ _ _ _ _ V)) as P. rewrite map_length. unfold ufull. destruct (ufr s); cbn in P; destruct (Nat.ltb_spec (List.length (all bk)) N); cbn; auto; lia.
  Qed.
  Lemma add_ok s bk e zs ws : inv s bk -> gr (map (uel s) (all bk)) -> ufr s <> [] -> bk (bucket (key e)) = zs ++ ws -> (forall x, In x zs -> same_key (key e) (uel s x) = false) -> match ws with [] => True | x :: _ => same_key (key e) (uel s x) = true end ->
    exists s1 x s2, ualloc s e = Some (s1, x) /\ ins_after B s1 (bucket (key e)) (lk (bucket (key e)) zs) x = Some s2 /\
      let s3 := adjust_ins N s2 (bucket (key e)) in
      lnext B s3 (lk (bucket (key e)) zs) = Some x /\
      exists l' rest, added key keq e (map (uel s) (all bk)) l' rest /\ rep s3 l' /\ to_end B N s3 (bucket (key e), x) = Some rest.
  Proof using HB HH.
    intros V G NF E1 Hz Hw. pose proof (vc _ _ _ _ _ _ _ V) as C. destruct (ufr s) as [|x f] eqn:Ef; [congruence|]. pose proof (bucket_lt hash B HB (key e)) as Hb.
    destruct (ins_core key hash B N s bk e x f _ zs ws C Ef Hb E1 eq_refl) as (s1 & Ha & s2 & Hi & C2 & He & Hf & H1 & H2). exists s1, x, s2. split; auto. split; auto. cbv zeta.
    destruct (adjust_ins_ok key hash B N s s2 bk _ zs x ws (vm _ _ _ _ _ _ _ V) H1 H2 Hb E1 C2) as (C3 & M3 & He3 & _).
    set (b := bucket (key e)) in *. set (s3 := adjust_ins N s2 b) in *. set (bk' := upd bk b (zs ++ x :: ws)) in *.
    assert (Eb' : bk' b = zs ++ x :: ws) by apply upd_same. split; [exact (lnext_ok _ _ _ _ s3 bk' b zs (x :: ws) C3 Hb Eb')|].
    destruct (ifr _ _ _ _ _ _ C) as [_ F2]. rewrite Ef in F2. destruct (F2 x) as [Ax Nx]; [cbn; auto|].
    assert (Hx : ~ In x (all bk)) by (rewrite <- (ial _ _ _ _ _ _ C); congruence).
    assert (HA : all bk' = (before_b bk b ++ zs) ++ x :: (ws ++ after_b bk b)) by (unfold bk'; rewrite all_upd by auto; now rewrite <- !app_assoc).
    assert (HA0 : all bk = (before_b bk b ++ zs) ++ (ws ++ after_b bk b)) by (rewrite (all_split B bk _ Hb), E1; now rewrite <- !app_assoc).
    assert (Gx : uel s3 x = e) by (rewrite He3, He; unfold fupd; now rewrite Nat.eqb_refl).
    assert (GG : forall z, In z (all bk) -> uel s3 z = uel s z) by (intros z Hz0; rewrite He3, He; unfold fupd; destruct (Nat.eqb_spec z x) as [->|]; [contradiction|reflexivity]).
    set (l1 := map (uel s) (before_b bk b ++ zs)). set (l2 := map (uel s) (ws ++ after_b bk b)).
    assert (HL : map (uel s) (all bk) = l1 ++ l2) by (unfold l1, l2; now rewrite HA0, map_app).
    assert (HL2 : map (uel s3) (ws ++ after_b bk b) = l2) by (apply map_ext_in; intros z Hz0; apply GG; rewrite HA0, (in_app_iff (before_b bk b ++ zs)); auto).
    assert (HL1 : map (uel s3) (before_b bk b ++ zs) = l1) by (apply map_ext_in; intros z Hz0; apply GG; rewrite HA0, (in_app_iff (before_b bk b ++ zs)); auto).
    assert (N1 : has (key e) l1 = false).
    { unfold l1. rewrite map_app, has_app. unfold b. rewrite (none_before s bk (key e) C). cbn [orb]. apply has_none. intros y Hy. apply in_map_iff in Hy. destruct Hy as (z & <- & Iz). auto. }
    exists (l1 ++ e :: l2), (e :: l2). split; [exists l1, l2; conj; auto|]. split.
    - exists bk'. split; [constructor; auto; intros y z Hy Hz0 Q; discriminate|]. split; [rewrite HA, map_app; cbn [map]; rewrite Gx, HL1, HL2; reflexivity|].
      rewrite HL in G. destruct ws as [|w ws].
      + apply gr_add_end; auto; [unfold l2; cbn [app]; unfold b; apply none_after; auto|]. intros a Ia. unfold l1 in Ia. apply in_map_iff in Ia. destruct Ia as (z & <- & Iz). apply has_none. intros y Iy. unfold l2 in Iy. apply in_map_iff in Iy. destruct Iy as (v & <- & Iv). cbn [app] in Iv.
        apply in_after in Iv; auto. destruct Iv as (c & Hc & Hc2 & Iv). unfold UmmSpec.same_key. destruct (keq (key (uel s z)) (key (uel s v))) eqn:Ek; auto. exfalso.
        assert (Iz2 : exists d, d <= b /\ In z (bk d)). { rewrite in_app_iff in Iz. destruct Iz as [Iz|Iz]; [apply in_before in Iz; destruct Iz as (d & ? & ?); exists d; split; auto; lia|]. exists b. split; auto. rewrite E1, in_app_iff. auto. }
        destruct Iz2 as (d & Hd & Id). assert (Hd2 : d < B) by lia. pose proof (elsewhere s bk _ _ c v C Hc2 Iv Ek eq_refl) as Q. rewrite (ihash _ _ _ _ _ _ C d z Hd2 Id) in Q. lia.
      + unfold l2 in *. cbn [app map] in *. apply gr_add_lead; auto.
    - rewrite (to_end_ok s3 bk' (b, x) (x :: ws ++ after_b bk b) (before_b bk b ++ zs) C3); [cbn [map]; now rewrite Gx, HL2| |exact HA].
      right. exists zs, x, ws. cbn [fst snd]. conj; auto. unfold bk'. now rewrite after_upd.
  Qed.
  Lemma insert_ok s l e : rep s l ->
    if List.length l <? N then exists s' i l' rest, mm_insert key keq hash B N s e = Some (s', Some i) /\ added key keq e l l' rest /\ rep s' l' /\ to_end B N s' i = Some rest
    else mm_insert key keq hash B N s e = Some (s, None).
  Proof using HB HH.
    intros R. pose proof (ufull_ok s l R) as F. unfold mm_insert. rewrite F. destruct (Nat.ltb_spec (List.length l) N) as [L|L]; cbn [negb]; [|reflexivity].
    destruct R as (bk & V & -> & G). pose proof (vc _ _ _ _ _ _ _ V) as C. pose proof (bucket_lt hash B HB (key e)) as Hb. rewrite (bempty_ok _ _ _ _ s bk _ C Hb). cbn [obind].
    assert (NF : ufr s <> []) by (intros Q; unfold ufull in F; rewrite Q in F; destruct (Nat.ltb_spec (List.length (map (uel s) (all bk))) N); [discriminate|lia]).
    set (b := bucket (key e)) in *. destruct (bk b) as [|y r] eqn:Eb.
    - destruct (add_ok s bk e [] [] V G NF) as (s1 & x & s2 & Ha & Hi & Hn & l' & rest & HA & R' & HT); [exact Eb|intros x []|auto|]. fold b in Hi, Hn, HT, R'. rewrite Ha. cbn [obind lk] in *. rewrite Hi. cbn [obind]. rewrite Hn. cbn [obind].
      exists (adjust_ins N s2 b), (b, x), l', rest. conj; auto.
    - rewrite (start_next s bk b C Hb). cbn [obind]. destruct (scan_start (fun k k' => keq k' k) s bk b (key e) C Hb) as (zs & ws & Ez & -> & H1 & H2). cbn [obind].
      destruct (add_ok s bk e zs ws V G NF Ez) as (s1 & x & s2 & Ha & Hi & Hn & l' & rest & HA & R' & HT).
      { intros z Iz. unfold UmmSpec.same_key. rewrite keq_flip. auto. } { destruct ws; auto. unfold UmmSpec.same_key. now rewrite keq_flip. }
      fold b in Hi, Hn, HT, R'. rewrite Ha. cbn [obind]. rewrite Hi. cbn [obind]. rewrite Hn. cbn [obind]. exists (adjust_ins N s2 b), (b, x), l', rest. conj; auto.
  Qed.
  Lemma rep_len s l : rep s l -> List.length l <= N /\ usize N s = List.length l /\ List.length (ufr s) = N - List.length l.
  Proof using. clear HB. intros (bk & V & -> & _). pose proof (vc _ _ _ _ _ _ _ V) as C. pose proof (ipool _ _ _ _ _ _ C). rewrite map_length, (usize_ok _ _ _ _ _ _ C). conj; lia. Qed.
  Lemma insert_all_ok es : forall s l, rep s l -> exists s' b l', mm_insert_all key keq hash B N s es = Some (s', negb b) /\ adds key keq N es l b l' /\ rep s' l'.
  Proof using HB HH.
    induction es as [|e es IH]; intros s l R; cbn [mm_insert_all].
    - exists s, true, l. conj; auto. constructor.
    - pose proof (insert_ok s l e R) as H. destruct (Nat.ltb_spec (List.length l) N) as [L|L].
      + destruct H as (s1 & i & l1 & rest & -> & HA & R1 & _). cbn [obind]. destruct (IH s1 l1 R1) as (s' & b & l' & -> & H1 & H2). exists s', b, l'. conj; auto. econstructor; eauto.
      + rewrite H. cbn [obind]. exists s, false, l. conj; auto. constructor. pose proof (rep_len s l R). lia.
  Qed.

  (** ** erase(key) *)
  Lemma erase_loop_ok k : forall ys n s bk b xs c, inv s bk -> b < B -> bk b = xs ++ ys -> List.length ys < n ->
    exists s' bk', mm_erase_loop key keq B N n s b (lk b xs) (hd 0 ys) (Kval k) c = Some (s', c + List.length (matching k (map (uel s) ys))) /\ inv s' bk' /\ uel s' = uel s /\
      map (uel s) (all bk') = map (uel s) (before_b bk b ++ xs) ++ others k (map (uel s) ys) ++ map (uel s) (after_b bk b).
  Proof using HH. clear HB.
    induction ys as [|y ys IH]; intros n s bk b xs c V Hb E1 L; (destruct n as [|n]; [cbn in L; lia|]); cbn [mm_erase_loop hd].
    - cbn [Nat.eqb]. exists s, bk. cbn. rewrite Nat.add_0_r. conj; auto. rewrite (all_split B bk b Hb), E1, app_nil_r, !map_app, app_assoc. reflexivity.
    - pose proof (vc _ _ _ _ _ _ _ V) as C. assert (I : In y (all bk)) by (apply (in_all B bk b); auto; rewrite E1, in_app_iff; cbn; auto).
      destruct (Nat.eqb_spec y 0) as [->|_]; [exfalso; eapply core_nz; eauto|]. rewrite (ure_ok _ _ _ _ s bk y C I). cbn [obind kread].
      unfold UmmSpec.matching, UmmSpec.others. cbn [map filter]. fold (matching k (map (uel s) ys)). fold (others k (map (uel s) ys)).
      rewrite keq_flip. change (keq k (key (uel s y))) with (same_key k (uel s y)). destruct (same_key k (uel s y)) eqn:Ek; cbn [negb].
      + destruct (delete_ok key q0 hash B N s bk b xs y ys V Hb E1) as (s1 & -> & V1 & He). cbn [obind].
        rewrite (lnext_ok _ _ _ _ s1 _ b xs ys (vc _ _ _ _ _ _ _ V1) Hb) by apply upd_same. cbn [obind].
        destruct (IH n s1 _ b xs (S c) V1 Hb (upd_same _ _ _)) as (s' & bk' & -> & V' & He' & HM); [cbn in L; lia|]. exists s', bk'. rewrite He in *. conj; auto; [cbn [List.length]; f_equal; f_equal; lia|]. rewrite HM, before_upd, after_upd. reflexivity.
      + rewrite (lnext_ok _ _ _ _ s bk b xs (y :: ys) C Hb E1). cbn [obind hd]. rewrite (lnext_node _ _ _ _ s bk b xs y ys C Hb E1). cbn [obind]. rewrite <- (lk_snoc b xs y).
        destruct (IH n s bk b (xs ++ [y]) c V Hb) as (s' & bk' & -> & V' & He' & HM); [now rewrite <- app_assoc|cbn in L; lia|]. exists s', bk'. conj; auto. rewrite HM. rewrite !map_app. cbn [map app]. now rewrite <- !app_assoc.
  Qed.
  Lemma erase_key_ok s l k : rep s l -> exists s', mm_erase_key key keq hash B N s (Kval k) = Some (s', List.length (matching k l)) /\ rep s' (others k l).
  Proof using HB HH.
    intros (bk & V & -> & G). pose proof (vc _ _ _ _ _ _ _ V) as C. pose proof (bucket_lt hash B HB k) as Hb. unfold mm_erase_key. cbn [kread obind]. rewrite (start_next s bk _ C Hb). cbn [obind].
    destruct (erase_loop_ok k (bk (bucket k)) (ufuel N) s bk (bucket k) [] 0 V Hb eq_refl) as (s' & bk' & HE & V' & He & HM); [unfold ufuel; pose proof (core_len _ _ _ _ s bk _ C Hb); lia|].
    cbn [lk] in HE. rewrite HE. exists s'. rewrite app_nil_r in HM. pose proof (none_before s bk k C) as NB. pose proof (none_after s bk k C) as NA.
    assert (HO : others k (map (uel s) (all bk)) = map (uel s) (all bk')).
    { rewrite HM, (all_split B bk _ Hb), !map_app. unfold UmmSpec.others. rewrite !filter_app. fold (others k (map (uel s) (before_b bk (bucket k)))). fold (others k (map (uel s) (after_b bk (bucket k)))). rewrite !others_none by auto. reflexivity. }
    split.
    - rewrite (all_split B bk _ Hb), !map_app, !matching_app, (matching_none k _ NB), (matching_none k _ NA), app_nil_r. reflexivity.
    - exists bk'. split; auto. rewrite He. split; [exact HO|]. now apply gr_others.
  Qed.

  (** ** finding *)
  Lemma find_ok s l k : rep s l -> exists bk i a r, inv s bk /\ um_find key keq hash B N s k = Some i /\ at_rest bk i r /\ all bk = a ++ r /\ l = map (uel s) a ++ map (uel s) r /\ has k (map (uel s) a) = false /\
    match r with [] => True | x :: _ => same_key k (uel s x) = true end.
  Proof using HB HH.
    intros (bk & V & -> & G). pose proof (vc _ _ _ _ _ _ _ V) as C. pose proof (bucket_lt hash B HB k) as Hb. unfold um_find, scan_bucket. rewrite (start_next s bk _ C Hb). cbn [obind].
    destruct (scan_start keq s bk (bucket k) k C Hb) as (zs & ws & Ez & -> & H1 & H2). cbn [obind]. exists bk. pose proof (none_before s bk k C) as NB. pose proof (none_after s bk k C) as NA.
    assert (HZ : has k (map (uel s) zs) = false) by (apply has_none; intros e I; apply in_map_iff in I; destruct I as (x & <- & I); apply H1; auto).
    destruct ws as [|x ws]; cbn [hd].
    - cbn [Nat.eqb]. exists (it_end s), (all bk), []. rewrite app_nil_r in *. conj; auto; [left; auto|now rewrite app_nil_r|]. rewrite (all_split B bk _ Hb), Ez, !map_app, !has_app, NB, NA, HZ. reflexivity.
    - assert (I : In x (all bk)) by (apply (in_all B bk (bucket k)); auto; rewrite Ez, in_app_iff; cbn; auto). destruct (Nat.eqb_spec x 0) as [->|_]; [exfalso; eapply core_nz; eauto|].
      exists (bucket k, x), (before_b bk (bucket k) ++ zs), (x :: ws ++ after_b bk (bucket k)). conj; auto.
      + right. exists zs, x, ws. cbn [fst snd]. conj; auto.
      + rewrite (all_split B bk _ Hb), Ez. now rewrite <- !app_assoc.
      + rewrite (all_split B bk _ Hb), Ez, <- map_app. f_equal. now rewrite <- !app_assoc.
      + rewrite map_app, has_app, NB, HZ. reflexivity.
  Qed.
  Lemma eq_run_ok s bk k : core s bk -> forall g n i r c, at_rest bk i (g ++ r) -> (forall x, In x g -> same_key k (uel s x) = true) -> match r with [] => True | x :: _ => same_key k (uel s x) = false end -> List.length g < n ->
    exists j, eq_run key keq B n s i k c = Some (j, c + List.length g) /\ at_rest bk j r.
  Proof using. clear HB.
    intros C. induction g as [|x g IH]; intros n i r c R Hg Hr L; (destruct n as [|n]; [cbn in L; lia|]); cbn [eq_run it_end snd].
    - cbn [app] in R. rewrite (rest_hd _ _ _ _ R). cbn [List.length]. rewrite Nat.add_0_r. destruct r as [|x r]; cbn [hd]; [cbn [Nat.eqb]; eauto|].
      assert (I : In x (all bk)) by (eapply rest_incl; eauto; cbn; auto). destruct (Nat.eqb_spec x 0) as [->|_]; [exfalso; eapply core_nz; eauto|]. rewrite (ure_ok _ _ _ _ s bk x C I). cbn [obind]. unfold UmmSpec.same_key in Hr. rewrite Hr. eauto.
    - cbn [app] in R. assert (I : In x (all bk)) by (eapply rest_incl; eauto; cbn; auto). destruct (next_ok key hash B N s bk i x _ C R) as (Hs & j & Hj & R'). rewrite Hs.
      destruct (Nat.eqb_spec x 0) as [->|_]; [exfalso; eapply core_nz; eauto|]. rewrite (ure_ok _ _ _ _ s bk x C I). cbn [obind]. pose proof (Hg x (or_introl eq_refl)) as Hx. unfold UmmSpec.same_key in Hx. rewrite Hx, Hj. cbn [obind].
      destruct (IH n j r (S c) R') as (j' & -> & RJ); auto; [intros; apply Hg; cbn; auto|cbn in L; lia|]. exists j'. split; auto. f_equal. f_equal. cbn. lia.
  Qed.
  (** the run of equal keys that find() leads *)
  Lemma find_run s l k : rep s l -> exists bk f a, inv s bk /\ um_find key keq hash B N s k = Some f /\
    ((snd f = 0 /\ at_rest bk f [] /\ has k l = false) \/
     exists x g r j, snd f = x /\ x <> 0 /\ at_rest bk f (x :: g ++ r) /\ it_next B s f = Some j /\ at_rest bk j (g ++ r) /\ all bk = a ++ x :: g ++ r /\ (forall y, In y g -> same_key k (uel s y) = true) /\
       match r with [] => True | x :: _ => same_key k (uel s x) = false end /\ matching k l = map (uel s) (x :: g) /\ has k l = true).
  Proof using HB HH.
    intros R. destruct (find_ok s l k R) as (bk & f & a & r0 & V & Hf & AR & HA & Hl & Ha & Hr). assert (G : gr l) by (destruct R as (? & _ & _ & G); exact G). pose proof (vc _ _ _ _ _ _ _ V) as C. exists bk, f, a. conj; auto. destruct r0 as [|x r0].
    - left. pose proof (rest_hd _ _ _ _ AR). rewrite Hl. cbn. rewrite app_nil_r. auto.
    - right. rewrite Hl in G. cbn [map] in G. destruct (gr_run k (uel s x) (map (uel s) r0) (gr_suffix _ _ G) Hr) as (g' & r' & Er & Hg & Hn).
      apply map_eq_app in Er. destruct Er as (g & r & -> & <- & <-). destruct (next_ok key hash B N s bk f x _ C AR) as (Hs & j & Hj & R'). exists x, g, r, j.
      assert (I : In x (all bk)) by (apply (rest_incl B bk f (x :: g ++ r) x AR); cbn; auto). pose proof (core_nz _ _ _ _ _ _ _ C I) as Nx. conj; auto.
      + intros y Iy. apply Hg. now apply in_map.
      + destruct r as [|y r]; auto. apply (proj1 (has_none _ _) Hn). cbn. auto.
      + rewrite Hl, matching_app, (matching_none _ _ Ha). cbn [app map UmmSpec.matching filter]. rewrite Hr. f_equal. rewrite map_app, filter_app. fold (matching k (map (uel s) r)). rewrite (matching_none _ _ Hn), app_nil_r. apply matching_all; auto.
      + rewrite Hl, has_app. cbn [map]. rewrite has_cons, Hr. rewrite !orb_true_r. reflexivity.
  Qed.
  Lemma run_fuel s bk a x g r : core s bk -> all bk = a ++ x :: g ++ r -> List.length g < ufuel N /\ List.length (x :: g) < ufuel N.
  Proof using. clear HB. intros C HA. pose proof (ipool _ _ _ _ _ _ C) as P. rewrite HA, app_length in P. cbn [List.length] in P. rewrite app_length in P. unfold ufuel. cbn [List.length]. lia. Qed.
  Lemma skipn_len {A} (l1 : list A) l2 n : n = List.length l1 -> skipn n (l1 ++ l2) = l2.
  Proof using. clear HB. intros ->. now rewrite skipn_app, skipn_all, Nat.sub_diag. Qed.
  Lemma firstn_len {A} (l1 : list A) l2 n : n = List.length l1 -> firstn n (l1 ++ l2) = l1.
  Proof using. clear HB. intros ->. now rewrite firstn_app, firstn_all, Nat.sub_diag, firstn_O, app_nil_r. Qed.
  Lemma clear_rep s l : rep s l -> exists s', um_clear B N s = Some s' /\ rep s' [].
  Proof using HB. intros (bk & V & _). destruct (clear_ok key q0 hash B N HB s bk V) as (s' & H & V' & _). exists s'. split; auto. exists (fun _ => []). split; auto. rewrite all_nothing. cbn. auto. Qed.

  Theorem op_ok o s l : rep s l -> m_pre o l -> exists r s' l', mm_op key keq hash B N o s = Some (r, s') /\ m_step key keq N o l r l' /\ rep s' l'.
  Proof using HB HH.
    intros R HP. destruct o as [e|es|es|k|i|i j| |k|k|k|k| | | | |]; cbn [mm_op m_step m_pre] in *.
    - pose proof (insert_ok s l e R) as H. destruct (List.length l <? N).
      + destruct H as (s' & i & l' & rest & -> & HA & R' & HT). cbn [obind]. rewrite HT. cbn [obind]. exists (Mrest rest), s', l'. conj; auto. exists rest. auto.
      + rewrite H. cbn [obind]. eexists _, _, _. split; [reflexivity|]. split; [split; reflexivity|auto].
    - destruct (insert_all_ok es s l R) as (s' & b & l' & -> & HA & R'). cbn [obind]. eexists _, _, _. split; [reflexivity|]. split; [exists b; split; [exact HA|destruct b; reflexivity]|auto].
    - destruct (clear_rep s l R) as (s0 & -> & R0). cbn [obind]. destruct (insert_all_ok es s0 [] R0) as (s' & b & l' & -> & HA & R'). cbn [obind]. eexists _, _, _. split; [reflexivity|]. split; [exists b; split; [exact HA|destruct b; reflexivity]|auto].
    - destruct (erase_key_ok s l k R) as (s' & -> & R'). cbn [obind]. eexists _, _, _. split; [reflexivity|]. split; [split; reflexivity|auto].
    - destruct R as (bk & V & -> & G). pose proof (vc _ _ _ _ _ _ _ V) as C. rewrite map_length in HP.
      assert (Sp : exists a x c, all bk = a ++ x :: c /\ i = List.length a). { exists (firstn i (all bk)). pose proof (firstn_skipn i (all bk)) as Q. destruct (skipn i (all bk)) as [|x c] eqn:Es; [exfalso; apply (f_equal (@List.length nat)) in Es; rewrite skipn_length in Es; cbn in Es; lia|]. exists x, c. split; [auto|]. rewrite firstn_length. lia. }
      destruct Sp as (a & x & c & HA & ->). destruct (nth_ok key q0 hash B N s bk a (x :: c) V HA) as (it & Hi & AR). unfold mm_nth. rewrite Hi. cbn [obind].
      destruct (erase_at_ok key q0 hash B N s bk it a x c V HA AR) as (s' & j & bk' & -> & V' & He & HA' & AR'). cbn [obind]. rewrite (to_end_ok s' bk' j c a (vc _ _ _ _ _ _ _ V') AR' HA'). cbn [obind].
      assert (Hl : map (uel s) (all bk) = map (uel s) a ++ [uel s x] ++ map (uel s) c) by (rewrite HA, map_app; reflexivity).
      eexists _, _, (map (uel s) (a ++ c)). split; [reflexivity|]. rewrite Hl in *. rewrite !app_assoc. rewrite skipn_len by (rewrite app_length, map_length; cbn; lia). rewrite <- app_assoc. rewrite firstn_len by (now rewrite map_length).
      split; [rewrite He, map_app; auto|]. exists bk'. rewrite He, HA'. conj; auto. rewrite map_app. now apply gr_cut with [uel s x].
    - destruct HP as [Hij HP]. pose proof (rep_len s l R) as (_ & Hu & _). rewrite Hu. destruct (Nat.eqb_spec j (List.length l)) as [Ej|Nj].
      + assert (i = 0 /\ j = List.length l) as [-> _] by (destruct HP as [?|?]; [lia|auto]). destruct R as (bk & V & -> & G). pose proof (vc _ _ _ _ _ _ _ V) as C.
        unfold mm_nth, it_nth. destruct (begin_ok key q0 hash B N s bk V) as (i & Hi & AR). rewrite Hi. cbn [obind it_advance]. unfold um_erase_range. rewrite Hi. cbn [obind it_end snd]. rewrite !Nat.eqb_refl. cbn [andb].
        destruct (clear_ok key q0 hash B N HB s bk V) as (s' & -> & V' & He). cbn [obind].
        assert (R' : rep s' []) by (exists (fun _ => []); rewrite all_nothing; cbn; auto). rewrite (to_end_ok s' (fun _ => []) (it_end s') [] [] (vc _ _ _ _ _ _ _ V')); [|left; auto|apply all_nothing]. cbn [obind map].
        eexists _, _, []. split; [reflexivity|]. rewrite Ej, skipn_all. cbn. auto.
      + destruct HP as [HP|[_ ?]]; [|congruence]. destruct R as (bk & V & -> & G). pose proof (vc _ _ _ _ _ _ _ V) as C. rewrite map_length in *.
        assert (Sp : exists a b x c, all bk = a ++ b ++ x :: c /\ i = List.length a /\ j = List.length (a ++ b)).
        { exists (firstn i (all bk)), (firstn (j - i) (skipn i (all bk))). pose proof (firstn_skipn i (all bk)) as Q. pose proof (firstn_skipn (j - i) (skipn i (all bk))) as Q2. destruct (skipn (j - i) (skipn i (all bk))) as [|x c] eqn:Es; [exfalso; apply (f_equal (@List.length nat)) in Es; rewrite !skipn_length in Es; cbn in Es; lia|].
          exists x, c. rewrite Q2, Q. split; auto. rewrite app_length, !firstn_length, skipn_length. lia. }
        destruct Sp as (a & b & x & c & HA & -> & ->). destruct (nth_ok key q0 hash B N s bk a (b ++ x :: c) V HA) as (f & Hf & AF). destruct (nth_ok key q0 hash B N s bk (a ++ b) (x :: c) V) as (t & Ht & AT); [now rewrite <- app_assoc|].
        unfold mm_nth. rewrite Hf, Ht. cbn [obind]. destruct (erase_range_ok key q0 hash B N HB s bk f t a b x c V HA AF AT) as (s' & bk' & j & -> & V' & He & HA' & AR'). cbn [obind]. rewrite (to_end_ok s' bk' j (x :: c) a (vc _ _ _ _ _ _ _ V') AR' HA'). cbn [obind].
        assert (Hl : map (uel s) (all bk) = map (uel s) a ++ map (uel s) b ++ map (uel s) (x :: c)) by (now rewrite HA, !map_app).
        eexists _, _, (map (uel s) (a ++ x :: c)). split; [reflexivity|]. rewrite Hl in *. rewrite app_assoc. rewrite skipn_len by (rewrite !app_length, !map_length; lia). rewrite <- app_assoc. rewrite firstn_len by (now rewrite map_length).
        split; [rewrite He, map_app; auto|]. exists bk'. rewrite He, HA'. conj; auto. rewrite map_app. now apply gr_cut with (map (uel s) b).
    - destruct (clear_rep s l R) as (s0 & -> & R0). cbn [obind]. eexists _, _, _. split; [reflexivity|]. split; [split; reflexivity|auto].
    - destruct (find_ok s l k R) as (bk & f & a & r0 & V & -> & AR & HA & Hl & Ha & Hr). cbn [obind]. rewrite (to_end_ok s bk f r0 a (vc _ _ _ _ _ _ _ V) AR HA). cbn [obind]. eexists _, _, l. split; [reflexivity|]. split; auto. split; auto. f_equal. rewrite Hl, from_key_app by auto. destruct r0 as [|x r0]; cbn [map UmmSpec.from_key]; auto. now rewrite Hr.
    - destruct (find_run s l k R) as (bk & f & a & V & -> & [(H0 & AR & Hn)|(x & g & r & j & Hx & Nx & H)]); cbn [obind it_end snd].
      + rewrite H0. cbn [Nat.eqb negb]. eexists _, _, l. split; [reflexivity|]. rewrite Hn. auto.
      + rewrite Hx. destruct (Nat.eqb_spec x 0); [congruence|]. cbn [negb]. eexists _, _, l. split; [reflexivity|]. destruct H as (_ & _ & _ & _ & _ & _ & _ & Hh). rewrite Hh. auto.
    - unfold mm_count. destruct (find_run s l k R) as (bk & f & a & V & -> & [(H0 & AR & Hn)|(x & g & r & j & Hx & Nx & A1 & Hj & A2 & HA & Hg & Hr & Hm & Hh)]); cbn [obind it_end snd].
      + rewrite H0. cbn [Nat.eqb obind]. eexists _, _, l. split; [reflexivity|]. rewrite (matching_none _ _ Hn). auto.
      + rewrite Hx. destruct (Nat.eqb_spec x 0); [congruence|]. rewrite Hj. cbn [obind]. pose proof (vc _ _ _ _ _ _ _ V) as C. destruct (run_fuel s bk a x g r C HA) as [F1 F2].
        destruct (eq_run_ok s bk k C g (ufuel N) j r 1 A2 Hg Hr F1) as (t & -> & AT). cbn [obind snd]. eexists _, _, l. split; [reflexivity|]. rewrite Hm, map_length. auto.
    - unfold mm_equal_range. destruct (find_run s l k R) as (bk & f & a & V & -> & [(H0 & AR & Hn)|(x & g & r & j & Hx & Nx & A1 & Hj & A2 & HA & Hg & Hr & Hm & Hh)]); cbn [obind it_end snd]; pose proof (vc _ _ _ _ _ _ _ V) as C.
      + rewrite H0. cbn [Nat.eqb obind fst snd]. rewrite (walk_ok key hash B N s bk (snd f) C [] _ f []); [|exact AR|now rewrite H0|intros []|unfold ufuel; cbn; lia]. cbn [obind map]. eexists _, _, l. split; [reflexivity|]. rewrite (matching_none _ _ Hn). auto.
      + rewrite Hx. destruct (Nat.eqb_spec x 0); [congruence|]. rewrite Hj. cbn [obind]. destruct (run_fuel s bk a x g r C HA) as [F1 F2].
        destruct (eq_run_ok s bk k C g (ufuel N) j r 1 A2 Hg Hr F1) as (t & -> & AT). cbn [obind fst snd]. rewrite (rest_hd _ _ _ _ AT).
        assert (NI : ~ In (hd 0 r) (x :: g)).
        { destruct r as [|y r]; cbn [hd]; [apply (nz_all key hash B N s bk); auto; intros z Iz; rewrite HA, in_app_iff, app_nil_r; auto|]. pose proof (ind _ _ _ _ _ _ C) as ND. rewrite HA in ND. apply NoDup_app_remove_l in ND.
          change (x :: g ++ y :: r) with ((x :: g) ++ y :: r) in ND. apply NoDup_remove_2 in ND. rewrite in_app_iff in ND. tauto. }
        rewrite (walk_ok key hash B N s bk (hd 0 r) C (x :: g) _ f r); [|exact A1|reflexivity|exact NI|exact F2]. cbn [obind]. eexists _, _, l. split; [reflexivity|]. rewrite Hm. auto.
    - destruct R as (bk & V & -> & G). rewrite (contents_ok key q0 hash B N s bk V). cbn [obind]. eexists _, _, _. split; [reflexivity|]. split; [split; reflexivity|exists bk; auto].
    - destruct (rep_len s l R) as (_ & -> & _). eexists _, _, _. split; [reflexivity|]. split; [split; reflexivity|auto].
    - unfold uempty. destruct (rep_len s l R) as (_ & -> & _). eexists _, _, _. split; [reflexivity|]. split; [split; reflexivity|auto].
    - rewrite (ufull_ok s l R). destruct (rep_len s l R) as (HL & _ & _). eexists _, _, l. split; [reflexivity|]. split; [|auto]. split; auto. f_equal. destruct (Nat.ltb_spec (List.length l) N), (Nat.eqb_spec (List.length l) N); cbn; auto; lia.
    - destruct (rep_len s l R) as (_ & _ & ->). eexists _, _, _. split; [reflexivity|]. split; [split; reflexivity|auto].
  Qed.
  Lemma new_rep n e pool : NoDup pool -> List.length pool = N -> ~ In 0 pool -> rep (um_new n e pool) [].
  Proof using HB.
    intros H1 H2 H3. destruct (UmOps.new_rep key q0 hash B N HB n e pool H1 H2 H3) as (bk & V & P). apply Permutation.Permutation_sym, Permutation.Permutation_nil in P. exists bk. split; auto. split; auto. cbn. auto.
  Qed.
  Lemma rep_contents s l : rep s l -> u_contents B N s = Some l.
  Proof using. clear HB. intros (bk & V & -> & _). apply (contents_ok key q0 hash B N s bk V). Qed.
End P.
