From Coq Require Import List Bool Arith Lia.
From Verif Require Import Util MrangeModel MrangeSpec.
Import ListNotations.
Section Proofs.
Context {V : Type}.
Implicit Types (h : heap V) (r s : range V).
Lemma upd_same i x h : i < List.length h -> nth_error (upd i x h) i = Some x.
Proof using. revert i. induction h; intros [|i]; cbn; intros; try lia; auto. apply IHh. lia. Qed.
Lemma upd_other i j x h : i <> j -> nth_error (upd i x h) j = nth_error h j.
Proof using. revert i j. induction h; intros [|i] [|j] Hn; cbn; auto; try congruence. Qed.
Lemma upd_some i x h r : nth_error h i = Some r -> nth_error (upd i x h) i = Some x.
Proof using. intros H. apply upd_same. apply nth_error_Some. congruence. Qed.

Definition sim r s : Prop := same_loop r s /\ inner r = inner s.
Definition shape h h' : Prop := forall j, match nth_error h j, nth_error h' j with Some r, Some s => sim r s | None, None => True | _, _ => False end.
Lemma sim_refl r : sim r r.
Proof using. repeat split. Qed.
Lemma sim_trans r s t : sim r s -> sim s t -> sim r t.
Proof using. unfold sim, same_loop. intuition congruence. Qed.
Lemma shape_refl h : shape h h.
Proof using. intros j. destruct (nth_error h j); auto using sim_refl. Qed.
Lemma shape_trans h h1 h2 : shape h h1 -> shape h1 h2 -> shape h h2.
Proof using. intros A B j. specialize (A j). specialize (B j). destruct (nth_error h j), (nth_error h1 j), (nth_error h2 j); try tauto. eauto using sim_trans. Qed.
Lemma shape_upd i r s h : nth_error h i = Some r -> sim r s -> shape h (upd i s h).
Proof using. intros H S j. destruct (Nat.eq_dec i j). { subst. rewrite H, (upd_some _ _ _ _ H). exact S. } rewrite upd_other by auto. apply shape_refl. Qed.
Lemma shape_set i r c d h : nth_error h i = Some r -> shape h (upd i (set_current c d r) h).
Proof using. intros H. apply (shape_upd i r); auto. repeat split. Qed.

Lemma nested_shape h h' i l : shape h h' -> nested h i l -> nested h' i l.
Proof using.
  intros S H. induction H as [i r H Hi|i r j l H Hi N IH].
  - specialize (S i). rewrite H in S. destruct (nth_error h' i) as [s|] eqn:E; [|tauto]. apply nested_last with s; auto. destruct S as (_ & S). congruence.
  - specialize (S i). rewrite H in S. destruct (nth_error h' i) as [s|] eqn:E; [|tauto]. apply nested_more with s j; auto. destruct S as (_ & S). congruence.
Qed.
Lemma nested_det h i l l' : nested h i l -> nested h i l' -> l = l'.
Proof using.
  intros H. revert l'. induction H as [i r H Hi|i r j l H Hi N IH]; intros l' H'; inversion H'; subst; try congruence.
  f_equal. apply IH. congruence.
Qed.
Lemma nested_in h i l j : nested h i l -> In j l -> exists m k, nested h j k /\ l = m ++ k.
Proof using.
  intros H. induction H as [i r H Hi|i r p l H Hi N IH]; intros Hj.
  - destruct Hj as [->|[]]. exists [], [j]. split; [|reflexivity]. now apply nested_last with r.
  - destruct Hj as [->|Hj].
    + exists [], (j :: l). split; [|reflexivity]. now apply nested_more with r p.
    + destruct (IH Hj) as (m & k & Nk & ->). exists (i :: m), k. auto.
Qed.
Lemma nested_nodup h i l : nested h i l -> NoDup l.
Proof using.
  intros H. induction H as [i r H Hi|i r j l H Hi N IH]; [repeat constructor; intros []|].
  constructor; [|exact IH]. intros I. destruct (nested_in _ _ _ _ N I) as (m & k & Nk & E).
  assert (k = i :: l) as -> by (apply (nested_det h i); [exact Nk|]; now apply nested_more with r j). apply (f_equal (@List.length _)) in E. rewrite app_length in E. cbn in E. lia.
Qed.
Lemma nested_hd h i l : nested h i l -> exists l', l = i :: l'.
Proof using. destruct 1; eauto. Qed.

Definition stands h (j : nat) (F P : list V) : Prop :=
  exists r, nth_error h j = Some r /\ loops r F /\ F <> [] /\ runs (stepper r) (fun x => compare r x (last r)) (current r) P /\ P <> [].
Fixpoint st h (l : list nat) (fs ps : list (list V)) : Prop :=
  match l, fs, ps with [], [], [] => True | j :: l, F :: fs, P :: ps => stands h j F P /\ st h l fs ps | _, _, _ => False end.
Definition agree (l : list nat) h h' : Prop := forall j, In j l -> nth_error h' j = nth_error h j.
Lemma st_agree l : forall h h' fs ps, agree l h h' -> st h l fs ps -> st h' l fs ps.
Proof using.
  induction l as [|j l IH]; intros h h' [|F fs] [|P ps]; cbn [st]; auto. intros A ((r & Hr & R) & S). split.
  - exists r. rewrite (A j) by now left. auto.
  - apply (IH h); auto. intros k Hk. apply A. now right.
Qed.
Fixpoint rem (fs ps : list (list V)) : list (list V) :=
  match fs, ps with F :: fs, P :: ps => match P with x :: P' => map (cons x) (rem fs ps) ++ product (P' :: fs) | [] => [] end | _, _ => [[]] end.
Lemma rem_full fs : Forall (fun F => F <> []) fs -> rem fs fs = product fs.
Proof using. induction 1 as [|F fs HF H IH]; [reflexivity|]. cbn [rem]. destruct F; [congruence|]. now rewrite IH. Qed.
Lemma st_ne l : forall h fs ps, st h l fs ps -> Forall (fun F => F <> []) fs.
Proof using. induction l; intros h [|F fs] [|P ps]; cbn [st]; try tauto; intros; constructor; [|destruct H; eauto]. destruct H as ((r & ? & ? & ? & ?) & ?). auto. Qed.

Lemma step_at_ok i h r F x P : nth_error h i = Some r -> loops r F -> F <> [] -> runs (stepper r) (fun y => compare r y (last r)) (current r) (x :: P) ->
  exists h', step_at i h = Some h' /\ shape h h' /\ (forall j, j <> i -> nth_error h' j = nth_error h j) /\
    match P with [] => completed i h' = Some true /\ stands h' i F F | _ => completed i h' = Some false /\ stands h' i F P end.
Proof using.
  intros Hr HF Fn HR. inversion HR as [|? ? Hx HR']; subst x l. unfold step_at. rewrite Hr. unfold step.
  destruct P as [|y P].
  - inversion HR' as [? Hf|]; subst. rewrite Hf. cbn [negb]. eexists. split; [reflexivity|]. conj.
    + now apply shape_set.
    + intros j Hj. apply upd_other; congruence.
    + unfold completed. rewrite (upd_some _ _ _ _ Hr). reflexivity.
    + eexists. rewrite (upd_some _ _ _ _ Hr). split; [reflexivity|]. unfold loops in *. cbn. auto.
  - inversion HR' as [|? ? Hy HR2]; subst. rewrite Hy. cbn [negb]. eexists. split; [reflexivity|]. conj.
    + now apply shape_set.
    + intros j Hj. apply upd_other; congruence.
    + unfold completed. rewrite (upd_some _ _ _ _ Hr). reflexivity.
    + eexists. rewrite (upd_some _ _ _ _ Hr). split; [reflexivity|]. unfold loops in *. cbn. conj; auto. discriminate.
Qed.

Lemma values_agree l : forall h h', agree l h h' -> values l h' = values l h.
Proof using. induction l; intros h h' A; cbn [values]; [reflexivity|]. unfold value. rewrite (A a) by now left. rewrite (IHl h h'); [reflexivity|]. intros j Hj. apply A. now right. Qed.

Lemma next_ok l : forall f i h fs ps, nested h i l -> st h l fs ps -> List.length l <= f ->
  exists h' cur more, next f i h = Some h' /\ shape h h' /\ (forall j, ~ In j l -> nth_error h' j = nth_error h j) /\ rem fs ps = cur :: more /\ values l h = Some cur /\
    match more with [] => completed i h' = Some true /\ st h' l fs fs | _ => completed i h' = Some false /\ exists ps', st h' l fs ps' /\ rem fs ps' = more end.
Proof using.
  induction l as [|a l IH]; intros f i h fs ps HN HS Hf; [inversion HN|].
  destruct f as [|f]; [cbn in Hf; lia|]. destruct fs as [|F fs]; [destruct HS|]. destruct ps as [|P ps]; [destruct HS|]. destruct HS as ((r & Hr & HL & HF & HR & HP) & HS).
  destruct P as [|x P]; [congruence|]. pose proof (nested_nodup _ _ _ HN) as ND. inversion ND as [|? ? NI ND']; subst.
  assert (Hx : current r = x) by (inversion HR; congruence).
  inversion HN as [i0 r0 H1 H2|i0 r0 j l0 H1 H2 N]; subst i0.
  - (* innermost *)
    subst a l. replace r0 with r in * by congruence. destruct fs as [|? ?]; [|destruct HS]. destruct ps as [|? ?]; [|destruct HS].
    cbn [next]. rewrite Hr, H2. set (h1 := upd i (set_current (current r) false r) h).
    destruct (step_at_ok i h1 (set_current (current r) false r) F x P) as (h' & E & S1 & FR & C); auto.
    { apply (upd_some _ _ _ _ Hr). }
    exists h', [x], (map (cons x) [] ++ product [P]). conj.
    + exact E.
    + eapply shape_trans; [|exact S1]. now apply shape_set.
    + intros j Hj. rewrite FR by (intros ->; apply Hj; now left). unfold h1. apply upd_other. intros ->. apply Hj. now left.
    + cbn [rem map app product]. reflexivity.
    + cbn [values]. unfold value. rewrite Hr, Hx. reflexivity.
    + destruct P as [|y P]; cbn [map app product flat_map].
      * destruct C as (C1 & C2). cbn [st]. auto.
      * destruct C as (C1 & C2). split; [exact C1|]. exists [y :: P]. split; [cbn [st]; auto|]. reflexivity.
  - (* an inner range *)
    subst a l0. replace r0 with r in * by congruence. cbn [next]. rewrite Hr, H2. set (h1 := upd i (set_current (current r) false r) h).
    assert (S1 : shape h h1) by now apply shape_set.
    assert (A1 : agree l h h1). { intros k Hk. apply upd_other. intros ->. tauto. }
    destruct (IH f j h1 fs ps (nested_shape _ _ _ _ S1 N) (st_agree _ _ _ _ _ A1 HS) ltac:(cbn in Hf; lia)) as (h2 & cur & more & E2 & S2 & FR2 & R2 & V2 & C2).
    rewrite E2. assert (Hi2 : nth_error h2 i = Some (set_current (current r) false r)). { rewrite FR2 by assumption. apply (upd_some _ _ _ _ Hr). }
    rewrite (values_agree l h h1 A1) in V2.
    assert (VV : values (i :: l) h = Some (x :: cur)). { cbn [values]. unfold value. rewrite Hr, Hx, V2. reflexivity. }
    destruct more as [|m more].
    + destruct C2 as (C2 & S3). unfold completed in C2. destruct (nth_error h2 j) as [rj|] eqn:Ej; [|discriminate]. injection C2 as Cj. rewrite Cj.
      destruct (step_at_ok i h2 _ F x P Hi2) as (h' & E & S4 & FR & C); auto.
      assert (A3 : agree l h2 h'). { intros k Hk. apply FR. intros ->. tauto. }
      exists h', (x :: cur), (product (P :: fs)). conj.
      * exact E.
      * eapply shape_trans; [exact S1|]. eapply shape_trans; eauto.
      * intros k Hk. rewrite FR by (intros ->; apply Hk; now left). rewrite FR2 by (intros Q; apply Hk; now right). apply upd_other. intros ->. apply Hk. now left.
      * cbn [rem]. rewrite R2. reflexivity.
      * exact VV.
      * pose proof (st_agree _ _ _ _ _ A3 S3) as S3'. pose proof (st_ne _ _ _ _ S3) as NE.
        destruct P as [|y P].
        -- cbn [product flat_map]. destruct C as (C1 & C3). split; [exact C1|]. cbn [st]. auto.
        -- destruct C as (C1 & C3).
           assert (PR : rem (F :: fs) ((y :: P) :: fs) = product ((y :: P) :: fs)). { cbn [rem]. rewrite rem_full by exact NE. reflexivity. }
           destruct (product ((y :: P) :: fs)) as [|q qs] eqn:EP.
           ++ exfalso. revert EP NE. clear. cbn [product flat_map]. intros EP NE. apply app_eq_nil in EP as (EP & _). apply map_eq_nil in EP.
              revert EP. induction NE as [|G gs HG NE IH]; cbn [product]; [discriminate|]. destruct G; [congruence|]. cbn [flat_map]. intros EP. apply app_eq_nil in EP as (EP & _). apply map_eq_nil in EP. auto.
           ++ split; [exact C1|]. exists ((y :: P) :: fs). split; [cbn [st]; auto|exact PR].
    + destruct C2 as (C2 & ps' & S3 & R3). unfold completed in C2. destruct (nth_error h2 j) as [rj|] eqn:Ej; [|discriminate]. injection C2 as Cj. rewrite Cj.
      exists h2, (x :: cur), (map (cons x) (m :: more) ++ product (P :: fs)). conj.
      * reflexivity.
      * eapply shape_trans; eauto.
      * intros k Hk. rewrite FR2 by (intros Q; apply Hk; now right). apply upd_other. intros ->. apply Hk. now left.
      * cbn [rem]. rewrite R2. reflexivity.
      * exact VV.
      * cbn [map app]. split; [unfold completed; rewrite Hi2; reflexivity|]. exists ((x :: P) :: ps'). split.
        -- cbn [st]. split; [|exact S3]. eexists. split; [exact Hi2|]. unfold loops in *. cbn. conj; auto.
        -- cbn [rem]. rewrite R3. reflexivity.
Qed.

Definition lo h (j : nat) (F : list V) : Prop := exists r, nth_error h j = Some r /\ loops r F.
Lemma lo_shape h h' j F : shape h h' -> lo h j F -> lo h' j F.
Proof using. intros S (r & Hr & L). specialize (S j). rewrite Hr in S. destruct (nth_error h' j) as [s|] eqn:E; [|tauto]. exists s. split; [exact E|]. destruct S as ((A & B & C & D) & _). unfold loops in *. rewrite <- A, <- B, <- C, <- D. exact L. Qed.

Lemma start_ok l : forall f i h fs, nested h i l -> Forall2 (lo h) l fs -> Forall (fun F => F <> []) (tl fs) -> List.length l <= f ->
  exists h', start f i h = Some h' /\ shape h h' /\ (forall j, ~ In j l -> nth_error h' j = nth_error h j) /\
    match fs with [] :: _ => completed i h' = Some true | _ => completed i h' = Some false /\ st h' l fs fs end.
Proof using.
  induction l as [|a l IH]; intros f i h fs HN HF NE Hf; [inversion HN|].
  destruct f as [|f]; [cbn in Hf; lia|]. inversion HF as [|? F ? fs' Hlo HF']; subst. cbn [tl] in NE.
  pose proof (nested_nodup _ _ _ HN) as ND. inversion ND as [|? ? NI ND']; subst.
  assert (FIN : forall h1 r, shape h h1 -> nth_error h1 i = Some r -> loops r F ->
     (forall j, ~ In j (i :: l) -> nth_error h1 j = nth_error h j) -> (l <> [] -> st h1 l fs' fs') -> a = i -> 
     exists h', Some (upd i (set_current (first r) (negb (compare r (first r) (last r))) r) h1) = Some h' /\ shape h h' /\ (forall j, ~ In j (a :: l) -> nth_error h' j = nth_error h j) /\
       match F with [] => completed i h' = Some true | _ => completed i h' = Some false /\ st h' (a :: l) (F :: fs') (F :: fs') end).
  { intros h1 r S1 Hr HL FR HS ->. eexists. split; [reflexivity|]. conj.
    - eapply shape_trans; [exact S1|]. now apply shape_set.
    - intros j Hj. rewrite upd_other by (intros ->; apply Hj; now left). auto.
    - unfold completed. rewrite (upd_some _ _ _ _ Hr). cbn [has_completed set_current]. inversion HL as [x Hc Ex En|x lx Hc HR Ex En]; subst; rewrite Hc; cbn [negb]; [reflexivity|]. split; [reflexivity|].
      cbn [st]. split.
      + eexists. split; [apply (upd_some _ _ _ _ Hr)|]. unfold loops in *. cbn. conj; auto; discriminate.
      + destruct l as [|b l]; [inversion HF'; subst; exact I|]. eapply st_agree; [|apply HS; discriminate]. intros k Hk. apply upd_other. intros ->. tauto. }
  destruct Hlo as (r0 & Hr0 & HL0).
  inversion HN as [i0 r1 H1 H2|i0 r1 j l0 H1 H2 N]; subst i0.
  - subst a l. replace r1 with r0 in * by congruence. cbn [start]. rewrite Hr0, H2, Hr0. apply FIN; auto using shape_refl. congruence.
  - subst a l0. replace r1 with r0 in * by congruence. cbn [start]. rewrite Hr0, H2.
    destruct (IH f j h fs' N HF') as (h1 & E1 & S1 & FR1 & C1).
    { destruct fs'; [constructor|]. now inversion NE. } { cbn in Hf. lia. }
    rewrite E1. assert (HI : nth_error h1 i = Some r0) by (rewrite FR1; assumption). rewrite HI. apply FIN; auto.
    + intros k Hk. apply FR1. intros Q. apply Hk. now right.
    + intros _. destruct fs' as [|[|y G] gs]; [inversion HF'; subst; inversion N|inversion NE; congruence|]. apply C1.
Qed.

Lemma loop_ok more : forall n f i l h fs ps cur, nested h i l -> List.length l <= f -> S (List.length more) < n ->
  completed i h = Some false -> st h l fs ps -> rem fs ps = cur :: more ->
  exists h', loop n f i l h = Some (cur :: more, h') /\ (forall c, count_loop n f i c h = Some (c + S (List.length more), h')) /\ shape h h' /\ (forall j, ~ In j l -> nth_error h' j = nth_error h j).
Proof using.
  induction more as [|m more IH]; intros n f i l h fs ps cur HN Hf Hn HC HS HR; (destruct n as [|n]; [lia|]); cbn [loop count_loop]; rewrite HC;
    destruct (next_ok l f i h fs ps HN HS Hf) as (h1 & cur1 & more1 & E1 & S1 & FR1 & R1 & V1 & C1); rewrite HR in R1; injection R1 as <- <-; rewrite E1, V1.
  - destruct C1 as (C1 & _). exists h1. destruct n as [|n]; [cbn in Hn; lia|]. cbn [loop count_loop]. rewrite C1. conj; auto. intros c. cbn [List.length]. now rewrite Nat.add_1_r.
  - destruct C1 as (C1 & ps' & S2 & R2). destruct (IH n f i l h1 fs ps' m (nested_shape _ _ _ _ S1 HN) Hf ltac:(cbn in Hn; lia) C1 S2 R2) as (h2 & E2 & E3 & S3 & FR3).
    rewrite E2. exists h2. conj.
    + reflexivity.
    + intros c. rewrite E3. cbn [List.length]. do 2 f_equal. lia.
    + eapply shape_trans; eauto.
    + intros j Hj. rewrite FR3 by assumption. auto.
Qed.

Lemma product_ne fs : Forall (fun F : list V => F <> []) fs -> product fs <> [].
Proof using. induction 1 as [|F fs HF H IH]; cbn [product]; [discriminate|]. destruct F; [congruence|]. cbn [flat_map]. intros E. apply app_eq_nil in E as (E & _). apply map_eq_nil in E. auto. Qed.

Lemma iterate_ok h i l fs f n : nested h i l -> Forall2 (lo h) l fs -> Forall (fun F => F <> []) (tl fs) -> List.length l <= f -> List.length (product fs) < n ->
  exists h', iterate n f i l h = Some (product fs, h') /\ number_of_iterations n f i h = Some (List.length (product fs), h') /\ shape h h' /\ (forall j, ~ In j l -> nth_error h' j = nth_error h j).
Proof using.
  intros HN HF NE Hf Hn. destruct (start_ok l f i h fs HN HF NE Hf) as (h1 & E1 & S1 & FR1 & C1). unfold iterate, number_of_iterations. rewrite E1.
  assert (fs <> []) as Hfs. { intros ->. inversion HF; subst. inversion HN. }
  destruct fs as [|[|x F] fs]; [congruence| |].
  - exists h1. destruct n as [|n]; [lia|]. cbn [loop count_loop]. rewrite C1. conj; auto.
  - destruct C1 as (C1 & S2). pose proof (st_ne _ _ _ _ S2) as NE2. pose proof (rem_full _ NE2) as HR.
    destruct (product ((x :: F) :: fs)) as [|cur more] eqn:EP; [exfalso; exact (product_ne _ NE2 EP)|].
    destruct (loop_ok more n f i l h1 _ _ cur (nested_shape _ _ _ _ S1 HN) Hf ltac:(cbn in Hn; lia) C1 S2 HR) as (h2 & E2 & E3 & S3 & FR3).
    exists h2. conj; [exact E2|apply E3|eapply shape_trans; eauto|]. intros j Hj. rewrite FR3 by assumption. auto.
Qed.

(** building the nest *)
Lemma is_valid_ok m : forall f this x h, nested h x m -> List.length m <= f -> is_valid f this (Some x) h = Some (negb (existsb (Nat.eqb this) m)).
Proof using.
  induction m as [|a m IH]; intros f this x h HN Hf; [inversion HN|].
  inversion HN as [i0 r H1 H2|i0 r j l0 H1 H2 N]; subst; (destruct f as [|f]; [cbn in Hf; lia|]); cbn [is_valid existsb]; rewrite (Nat.eqb_sym this a); destruct (Nat.eqb a this); cbn [orb negb]; try reflexivity; rewrite H1, H2.
  - now destruct f.
  - apply IH; auto. cbn in Hf. lia.
Qed.

(** writing the inner pointer of a range that is not in a nest *)
Lemma nested_upd h i x k l : ~ In i l -> nested h k l -> nested (upd i x h) k l.
Proof using.
  intros Hi HN. induction HN as [k r H1 H2|k r j l H1 H2 N IH].
  - apply nested_last with r; auto. rewrite upd_other; auto. intros ->. apply Hi. now left.
  - apply nested_more with r j; auto; [|apply IH; intros Q; apply Hi; now right]. rewrite upd_other; auto. intros ->. apply Hi. now left.
Qed.
(** the tail of a nest replaced *)
Lemma nested_last_upd l : forall h k z r p m, nested h k (l ++ [z]) -> nth_error h z = Some r -> ~ In z l -> (forall j, In j m -> ~ In j (l ++ [z])) ->
  match p with Some y => nested h y m | None => m = [] end -> nested (upd z (set_inner p r) h) k (l ++ z :: m).
Proof using.
  induction l as [|a l IH]; intros h k z r p m HN Hz NI D HM.
  - cbn [app] in *. inversion HN as [i0 r0 H1 H2|i0 r0 j l0 H1 H2 N]; subst; [|inversion N].
    destruct p as [y|].
    + apply nested_more with (set_inner (Some y) r) y; [apply (upd_some _ _ _ _ Hz)|reflexivity|]. apply nested_upd; auto. intros Q. apply (D z Q). now left.
    + subst m. apply nested_last with (set_inner None r); [apply (upd_some _ _ _ _ Hz)|reflexivity].
  - cbn [app] in *. inversion HN as [i0 r0 H1 H2|i0 r0 j l0 H1 H2 N]; subst; [destruct l; discriminate|].
    apply nested_more with r0 j; auto.
    + rewrite upd_other; auto. intros ->. apply NI. now left.
    + apply IH; auto.
      * intros Q. apply NI. now right.
      * intros q Hq Q. apply (D q Hq). now right.
Qed.

Lemma nested_frame h h' k l : (forall j, In j l -> nth_error h' j = nth_error h j) -> nested h k l -> nested h' k l.
Proof using.
  intros A HN. induction HN as [k r H1 H2|k r j l H1 H2 N IH].
  - apply nested_last with r; auto. rewrite A; [exact H1|now left].
  - apply nested_more with r j; auto; [rewrite A; [exact H1|now left]|]. apply IH. intros q Hq. apply A. now right.
Qed.

(** the last range of a nest *)
Lemma nested_split h k l : nested h k l -> exists l' z r, l = l' ++ [z] /\ nth_error h z = Some r /\ inner r = None.
Proof using.
  induction 1 as [k r H1 H2|k r j l H1 H2 N (l' & z & s & -> & Hz & Hs)].
  - exists [], k, r. auto.
  - exists (k :: l'), z, s. auto.
Qed.
Lemma nested_tl h i x r l : nested h i (i :: x :: l) -> nth_error h i = Some r -> inner r = Some x /\ nested h x (x :: l).
Proof using. intros HN Hr. inversion HN as [|i0 r0 j l0 H1 H2 N]; subst. replace r0 with r in * by congruence. destruct (nested_hd _ _ _ N) as (q & E). injection E as E1 E2. subst. split; [congruence|exact N]. Qed.

Lemma set_last_ok m : forall f x h z r p, nested h x (m ++ [z]) -> nth_error h z = Some r -> List.length (m ++ [z]) <= f ->
  set_last f x p h = Some (upd z (set_inner p r) h).
Proof using.
  induction m as [|a m IH]; intros f x h z r p HN Hz Hf; (destruct f as [|f]; [cbn in Hf; lia|]); cbn [app] in *.
  - inversion HN as [i0 r0 H1 H2|i0 r0 j l0 H1 H2 N]; subst; [|inversion N]. cbn [set_last]. rewrite H1, H2. congruence.
  - inversion HN as [i0 r0 H1 H2|i0 r0 j l0 H1 H2 N]; subst; [destruct m; discriminate|]. cbn [set_last]. rewrite H1, H2. apply IH; auto. cbn in Hf. lia.
Qed.

Lemma nodup_last (l : list nat) z : NoDup (l ++ [z]) -> ~ In z l.
Proof using. intros H Q. apply NoDup_remove_2 in H. rewrite app_nil_r in H. auto. Qed.

Lemma append_ok l : forall f i x h m, nested h i l -> nested h x m -> List.length l + List.length m <= f ->
  (exists j, In j l /\ In j m) /\ append f i x h = Some (Circular h) \/
  (forall j, In j l -> ~ In j m) /\ exists l' z r, l = l' ++ [z] /\ nth_error h z = Some r /\ append f i x h = Some (Done (upd z (set_inner (Some x) r) h)).
Proof using.
  induction l as [|a l IH]; intros f i x h m HN HM Hf; [inversion HN|].
  destruct f as [|f]; [cbn in Hf; lia|]. cbn [append]. rewrite (is_valid_ok m) by (auto; cbn in Hf; lia).
  assert (a = i) as -> by (inversion HN; auto). destruct (existsb (Nat.eqb i) m) eqn:E; cbn [negb].
  - left. split; [|reflexivity]. apply existsb_exists in E as (y & Hy & Ey). apply Nat.eqb_eq in Ey. subst. exists y. split; [now left|exact Hy].
  - assert (Ni : ~ In i m). { intros Q. assert (existsb (Nat.eqb i) m = true) by (apply existsb_exists; exists i; split; [exact Q|apply Nat.eqb_refl]). congruence. }
    inversion HN as [i0 r0 H1 H2|i0 r0 j l0 H1 H2 N]; subst; rewrite H1, H2.
    + right. split; [intros q [<-|[]]; exact Ni|]. exists [], i, r0. auto.
    + destruct (IH f j x h m N HM ltac:(cbn in Hf; lia)) as [((q & Q1 & Q2) & E2)|(D & l' & z & r & -> & Hz & E2)].
      * left. split; [|exact E2]. exists q. split; [now right|exact Q2].
      * right. split; [intros q [<-|Hq]; auto|]. exists (i :: l'), z, r. auto.
Qed.

Lemma count_ranges_ok l : forall f i c h, nested h i l -> List.length l <= f -> count_ranges f (Some i) c h = Some (c + List.length l).
Proof using.
  induction l as [|a l IH]; intros f i c h HN Hf; [inversion HN|]. destruct f as [|f]; [cbn in Hf; lia|]. cbn [count_ranges].
  inversion HN as [i0 r0 H1 H2|i0 r0 j l0 H1 H2 N]; subst; rewrite H1, H2.
  - destruct f; cbn; now rewrite Nat.add_1_r.
  - rewrite IH by (auto; cbn in Hf; lia). cbn [List.length]. f_equal. lia.
Qed.

Lemma detach_all_ok l : forall f i h, nested h i l -> List.length l <= f ->
  exists h', detach_all f i h = Some h' /\ (forall j, In j l -> exists r, nth_error h j = Some r /\ nth_error h' j = Some (set_inner None r)) /\ (forall j, ~ In j l -> nth_error h' j = nth_error h j).
Proof using.
  induction l as [|a l IH]; intros f i h HN Hf; [inversion HN|]. destruct f as [|f]; [cbn in Hf; lia|]. cbn [detach_all].
  pose proof (nested_nodup _ _ _ HN) as ND. inversion ND as [|? ? NI ND']; subst.
  inversion HN as [i0 r0 H1 H2|i0 r0 j l0 H1 H2 N]; subst; rewrite H1, H2.
  - unfold detach. rewrite H1. eexists. split; [reflexivity|]. split.
    + intros q [<-|[]]. exists r0. split; [exact H1|]. apply (upd_some _ _ _ _ H1).
    + intros q Hq. apply upd_other. intros ->. apply Hq. now left.
  - destruct (IH f j h N ltac:(cbn in Hf; lia)) as (h1 & E1 & A1 & B1). rewrite E1. unfold detach. rewrite B1 by assumption. rewrite H1. eexists. split; [reflexivity|].
    assert (HI : nth_error h1 a = Some r0) by (rewrite B1; assumption). split.
    + intros q [<-|Hq]; [exists r0; split; [exact H1|]; apply (upd_some _ _ _ _ HI)|]. destruct (A1 q Hq) as (r & Hr & Hr'). exists r. split; [exact Hr|]. rewrite upd_other by (intros ->; tauto). exact Hr'.
    + intros q Hq. rewrite upd_other by (intros ->; apply Hq; now left). apply B1. intros Q. apply Hq. now right.
Qed.
End Proofs.
