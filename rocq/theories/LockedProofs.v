From Coq Require Import List Bool Arith Lia.
From Verif Require Import Util LockedModel LockedSpec.
Import ListNotations.

Section P.
Context {A : Type}.
Variable MAX : nat.
Notation memA := (mem A).

Lemma run_trans p m m1 p1 m2 p2 : run p m m1 p1 -> run p1 m1 m2 p2 -> @run A p m m2 p2.
Proof. induction 1; intros U; [exact U|]. econstructor; eauto. Qed.
Lemma run_one p m m1 p1 : access p m = Some (m1, p1) -> @run A p m m1 p1.
Proof. intros H. eapply run_step; [exact H|apply run_stop]. Qed.

(** the memory holds the queue *)
Definition rep (q : fifo A) (m : memA) : Prop :=
  length (items q) <= MAX /\ cs m = length (items q) /\ ri m = gone q mod MAX /\ wi m = (gone q + length (items q)) mod MAX /\
  forall i, i < MAX -> buf m ((gone q + i) mod MAX) = nth_error (items q) i.
Lemma next_mod i : 0 < MAX -> get_next_index (i mod MAX) MAX = (i + 1) mod MAX.
Proof.
  intros HM. unfold get_next_index. pose proof (Nat.mod_upper_bound i MAX ltac:(lia)) as B.
  rewrite (Nat.add_mod i 1) by lia. destruct (Nat.eqb_spec (S (i mod MAX)) MAX) as [E|E].
  - destruct (Nat.eq_dec MAX 1) as [->|N1]; [reflexivity|]. rewrite (Nat.mod_small 1) by lia. replace (i mod MAX + 1) with MAX by lia. now rewrite Nat.mod_same by lia.
  - rewrite (Nat.mod_small 1) by lia. rewrite (Nat.mod_small (i mod MAX + 1)) by lia. lia.
Qed.
Lemma mod_inj g i j : 0 < MAX -> i < MAX -> j < MAX -> (g + i) mod MAX = (g + j) mod MAX -> i = j.
Proof.
  intros HM Hi Hj E. pose proof (Nat.div_mod (g + i) MAX ltac:(lia)). pose proof (Nat.div_mod (g + j) MAX ltac:(lia)).
  rewrite E in H. assert ((g + i) / MAX = (g + j) / MAX \/ (g + i) / MAX <> (g + j) / MAX) as [Q|Q] by lia; nia.
Qed.
Lemma pop_rep q m x l : rep q m -> items q = x :: l ->
  rep (mkfifo l (gone q + 1)) (mkmem (wi m) (get_next_index (ri m) MAX) (cs m - 1) (upd (buf m) (ri m) None)) /\ buf m (ri m) = Some x.
Proof.
  intros (H1 & H2 & H3 & H4 & H5) E. rewrite E in *. cbn [length] in *. assert (HM : 0 < MAX) by lia.
  assert (B0 : buf m (ri m) = Some x). { rewrite H3. specialize (H5 0 HM). rewrite Nat.add_0_r in H5. exact H5. }
  split; [|exact B0]. unfold rep. cbn [items gone cs ri wi buf]. conj.
  - lia.
  - lia.
  - rewrite H3. now apply next_mod.
  - rewrite H4. f_equal. lia.
  - intros i Hi. unfold upd. destruct (Nat.eqb_spec ((gone q + 1 + i) mod MAX) (ri m)) as [E2|E2].
    + destruct (Nat.eq_dec (S i) MAX) as [EM|NM].
      * symmetry. apply nth_error_None. lia.
      * exfalso. rewrite H3 in E2. replace (gone q + 1 + i) with (gone q + S i) in E2 by lia. replace (gone q) with (gone q + 0) in E2 at 2 by lia.
        apply mod_inj in E2; lia.
    + destruct (Nat.eq_dec (S i) MAX) as [EM|NM].
      * exfalso. apply E2. rewrite H3. replace (gone q + 1 + i) with (gone q + 1 * MAX) by lia. now rewrite Nat.mod_add by lia.
      * replace (gone q + 1 + i) with (gone q + S i) by lia. rewrite H5 by lia. reflexivity.
Qed.
Lemma push_rep q m v : rep q m -> length (items q) < MAX ->
  rep (mkfifo (items q ++ [v]) (gone q)) (mkmem (get_next_index (wi m) MAX) (ri m) (cs m + 1) (upd (buf m) (wi m) (Some v))) /\ buf m (wi m) = None.
Proof.
  intros (H1 & H2 & H3 & H4 & H5) L. assert (HM : 0 < MAX) by lia.
  assert (B0 : buf m (wi m) = None). { rewrite H4, H5 by lia. apply nth_error_None. lia. }
  split; [|exact B0]. unfold rep. cbn [items gone cs ri wi buf]. rewrite app_length. cbn [length]. conj.
  - lia.
  - lia.
  - exact H3.
  - rewrite H4, next_mod by lia. f_equal. lia.
  - intros i Hi. unfold upd. destruct (Nat.eqb_spec ((gone q + i) mod MAX) (wi m)) as [E2|E2].
    + rewrite H4 in E2. apply mod_inj in E2; try lia. subst i. rewrite nth_error_app2 by lia. rewrite Nat.sub_diag. reflexivity.
    + rewrite H5 by lia. destruct (Nat.lt_ge_cases i (length (items q))).
      * now rewrite nth_error_app1 by lia.
      * assert (i <> length (items q)) by (intros ->; apply E2; now rewrite H4). rewrite !(proj2 (nth_error_None _ _)); [reflexivity| |lia]. rewrite app_length. cbn [length]. lia.
Qed.
(** a call inside the lock has the effect of the FIFO operation *)
Lemma pop_run q m k : rep q m -> exists m', rep (fst (fifo_op MAX q Pop)) m' /\
  run (pop_implementation MAX k) m m' (k (match items q with [] => false | _ => true end)).
Proof.
  intros R. destruct (items q) as [|x l] eqn:E.
  - exists m. cbn [fifo_op]. rewrite E. cbn [fst]. split; [exact R|]. destruct R as (_ & H2 & _). rewrite E in H2. eapply run_step; [reflexivity|]. rewrite H2. apply run_stop.
  - destruct (pop_rep q m x l R E) as [R' B]. eexists. cbn [fifo_op]. rewrite E. cbn [fst]. split; [exact R'|].
    destruct R as (_ & H2 & _). rewrite E in H2. cbn [length] in H2. eapply run_step; [reflexivity|]. destruct (Nat.eqb_spec (cs m) 0) as [Z0|Z0]; [lia|].
    eapply run_step; [reflexivity|]. eapply run_step. { cbn [access]. rewrite B. reflexivity. }
    eapply run_step; [reflexivity|]. eapply run_step; [reflexivity|]. eapply run_step; [reflexivity|]. eapply run_step; [reflexivity|]. apply run_stop.
Qed.
Lemma clear_run k : forall n q m, rep q m -> length (items q) < n -> exists m', rep (mkfifo [] (gone q + length (items q))) m' /\ run (clear_loop MAX n k) m m' k.
Proof.
  induction n as [|n IH]; intros q m R L; [lia|]. cbn [clear_loop].
  destruct (pop_run q m (fun b => if b then clear_loop MAX n k else k) R) as (m1 & R1 & U). cbn [fifo_op] in R1. destruct (items q) as [|x l] eqn:E.
  - exists m1. cbn [fst length] in *. split; [|exact U]. destruct q as [it g]. cbn in *. subst it. rewrite Nat.add_0_r. exact R1.
  - cbn [fst] in R1. destruct (IH _ m1 R1) as (m2 & R2 & U2); [cbn [items length] in *; lia|]. cbn [items gone length] in *. exists m2. split.
    + replace (gone q + S (length l)) with (gone q + 1 + length l) by lia. exact R2.
    + eapply run_trans; eassumption.
Qed.
Lemma body_run q m o k : rep q m -> exists m', rep (fst (fifo_op MAX q o)) m' /\ run (body MAX o k) m m' (k (snd (fifo_op MAX q o))).
Proof.
  intros R. pose proof R as (H1 & H2 & H3 & H4 & H5). destruct o; cbn [body].
  - cbn [fifo_op]. destruct (Nat.ltb_spec (length (items q)) MAX) as [L|L].
    + destruct (push_rep q m v R L) as [R' B]. eexists. cbn [fst snd]. split; [exact R'|]. eapply run_step; [reflexivity|].
      destruct (Nat.eqb_spec (cs m) MAX); [lia|]. eapply run_step; [reflexivity|]. eapply run_step. { cbn [access]. rewrite B. reflexivity. }
      eapply run_step; [reflexivity|]. eapply run_step; [reflexivity|]. eapply run_step; [reflexivity|]. eapply run_step; [reflexivity|]. apply run_stop.
    + exists m. cbn [fst snd]. split; [exact R|]. eapply run_step; [reflexivity|]. destruct (Nat.eqb_spec (cs m) MAX); [|lia]. apply run_stop.
  - destruct (pop_run q m (fun b => k (Bool b)) R) as (m' & R' & U). exists m'. split; [exact R'|]. cbn [fifo_op]. destruct (items q); exact U.
  - cbn [fifo_op]. destruct (items q) as [|x l] eqn:E.
    + exists m. cbn [fst snd]. split; [exact R|]. cbn [length] in H2. eapply run_step; [reflexivity|]. rewrite H2. apply run_stop.
    + destruct (pop_rep q m x l R E) as [R' B]. eexists. cbn [fst snd]. split; [exact R'|].
      cbn [length] in H2. eapply run_step; [reflexivity|]. destruct (Nat.eqb_spec (cs m) 0) as [Z0|Z0]; [lia|].
      eapply run_step; [reflexivity|]. eapply run_step. { cbn [access]. rewrite B. reflexivity. }
      eapply run_step; [reflexivity|]. eapply run_step. { cbn [access]. rewrite B. reflexivity. }
      eapply run_step; [reflexivity|]. eapply run_step; [reflexivity|]. eapply run_step; [reflexivity|]. eapply run_step; [reflexivity|]. apply run_stop.
  - destruct (clear_run (k Done) (S MAX) q m R ltac:(lia)) as (m' & R' & U). exists m'. split; assumption.
  - exists m. split; [exact R|]. cbn [fifo_op snd]. rewrite <- H2. apply run_one. reflexivity.
  - exists m. split; [exact R|]. cbn [fifo_op snd]. rewrite <- H2. apply run_one. reflexivity.
  - exists m. split; [exact R|]. cbn [fifo_op snd]. rewrite <- H2. apply run_one. reflexivity.
  - exists m. split; [exact R|]. cbn [fifo_op snd]. rewrite <- H2. apply run_one. reflexivity.
  - exists m. split; [exact R|]. cbn [fifo_op snd]. rewrite <- H3. apply run_one. reflexivity.
Qed.
(** runs are deterministic *)
Lemma run_det p m m1 r1 m2 r2 : run p m m1 (Ret r1) -> run p m m2 (Ret r2) -> m1 = m2 /\ @Ret A r1 = Ret r2.
Proof.
  intros H. remember (Ret r1) as e. induction H as [p m|p m ma pa mb pb Ha _ IH]; intros U; subst.
  - inversion U; subst; [split; reflexivity|discriminate].
  - inversion U; subst; [discriminate|]. rewrite Ha in H. injection H as <- <-. auto.
Qed.

(** ** marked histories *)
Lemma own_app w (l1 l2 : list (mark A)) : own w (l1 ++ l2) = own w l1 ++ own w l2.
Proof. apply filter_app. Qed.
Lemma visible_app (l1 l2 : list (mark A)) : visible (l1 ++ l2) = visible l1 ++ visible l2.
Proof. apply flat_map_app. Qed.
Definition progress (w : world A) (marked : list (mark A)) (q : fifo A) (t : nat) : Prop :=
  exists l1, finished (Thread t) l1 /\
  ((doing w t = None /\ own (Thread t) marked = l1 /\ holder w <> Some t) \/
   (exists o, doing w t = Some (locked MAX o) /\ own (Thread t) marked = l1 ++ [Visible (Call (Thread t) o)] /\ holder w <> Some t) \/
   (exists o p q' r m', holder w = Some t /\ doing w t = Some p /\ own (Thread t) marked = l1 ++ [Visible (Call (Thread t) o)] /\
      fifo_op MAX q o = (q', r) /\ rep q' m' /\ run p (memory w) m' (Unlock (Ret r))) \/
   (exists o r, doing w t = Some (Ret r) /\ own (Thread t) marked = l1 ++ [Visible (Call (Thread t) o); Effect (Thread t) o r] /\ holder w <> Some t)).
Definition inv (w : world A) (evs : list (event A)) : Prop :=
  exists marked q, visible marked = evs /\ legal MAX marked q /\ finished Isr (own Isr marked) /\
    (holder w = None -> rep q (memory w)) /\ forall t, progress w marked q t.
Lemma rep0 : rep (mkfifo [] 0) mem0.
Proof.
  unfold rep. cbn [items gone length cs ri wi buf mem0]. conj; try lia.
  - destruct MAX; [reflexivity|]. symmetry. apply Nat.mod_0_l. lia.
  - cbn [Nat.add]. destruct MAX; [reflexivity|]. symmetry. apply Nat.mod_0_l. lia.
  - intros i Hi. symmetry. apply nth_error_None. cbn. lia.
Qed.
Lemma own_other (x : mark A) l w : mark_of w x = false -> own w (l ++ [x]) = own w l.
Proof. intros H. rewrite own_app. unfold own at 2. cbn [filter]. rewrite H. apply app_nil_r. Qed.
Lemma own_self (x : mark A) l w : mark_of w x = true -> own w (l ++ [x]) = own w l ++ [x].
Proof. intros H. rewrite own_app. unfold own at 2. cbn [filter]. rewrite H. reflexivity. Qed.
Lemma upd_same {B} (f : nat -> B) i b : upd f i b i = b.
Proof. unfold upd. now rewrite Nat.eqb_refl. Qed.
Lemma upd_other {B} (f : nat -> B) i j b : j <> i -> upd f i b j = f j.
Proof. unfold upd. destruct (Nat.eqb_spec j i); [contradiction|reflexivity]. Qed.
Lemma frame w w1 marked marked1 q q1 j : progress w marked q j -> doing w1 j = doing w j -> own (Thread j) marked1 = own (Thread j) marked ->
  (holder w = Some j -> holder w1 = Some j /\ memory w1 = memory w /\ q1 = q) -> (holder w <> Some j -> holder w1 <> Some j) -> progress w1 marked1 q1 j.
Proof.
  intros (l1 & F & P) D O H1 H2. exists l1. split; [exact F|]. rewrite D, O. destruct P as [(P1 & P2 & P3)|[(o & P1 & P2 & P3)|[(o & p & q' & r & m' & P1 & P2 & P3 & P4 & P5 & P6)|(o & r & P1 & P2 & P3)]]].
  - left. auto.
  - right; left. exists o. auto.
  - right; right; left. destruct (H1 P1) as (E1 & E2 & ->). rewrite E2. exists o, p, q', r, m'. conj; auto.
  - right; right; right. exists o, r. auto.
Qed.
Lemma thread_neq j t : j <> t -> (j =? t) = false.
Proof. apply Nat.eqb_neq. Qed.
Lemma inv_step w evs evs1 w1 : inv w evs -> step MAX w evs1 w1 -> inv w1 (evs ++ evs1).
Proof.
  intros (marked & q & V & L & FI & R & P) S.
  assert (HP : forall t, holder w = Some t -> forall j, j <> t -> holder w <> Some j) by (intros t E j N; rewrite E; congruence).
  destruct S as [w t o D|w t k D HN|w t k D|w t p m p' D Ac|w t r D|w o m r HN U].
  - exists (marked ++ [Visible (Call (Thread t) o)]), q. conj.
    + rewrite visible_app, V. reflexivity.
    + now constructor.
    + rewrite own_other by reflexivity. exact FI.
    + exact R.
    + intros j. destruct (Nat.eq_dec j t) as [->|N].
      * destruct (P t) as (l1 & F & [(P1 & P2 & P3)|[(o' & P1 & P2 & P3)|[(o' & p & q' & r & m' & P1 & P2 & P3 & P4 & P5 & P6)|(o' & r & P1 & P2 & P3)]]]); try (rewrite D in *; discriminate).
        exists l1. split; [exact F|]. right; left. exists o. cbn [doing holder]. rewrite upd_same. conj; auto. rewrite own_self by (cbn [mark_of]; apply Nat.eqb_refl). now rewrite P2.
      * apply (frame w _ marked _ q _ j (P j)); cbn [doing holder memory]; auto; [now apply upd_other|apply own_other; now apply thread_neq].
  - destruct (P t) as (l1 & F & [(P1 & P2 & P3)|[(o' & P1 & P2 & P3)|[(o' & p & q' & r & m' & P1 & P2 & P3 & P4 & P5 & P6)|(o' & r & P1 & P2 & P3)]]]); try (rewrite D in P1; discriminate); [|rewrite HN in P1; discriminate].
    rewrite D in P1. injection P1 as ->. exists marked, q. rewrite app_nil_r. conj; try assumption.
    + cbn [holder]. discriminate.
    + intros j. destruct (Nat.eq_dec j t) as [->|N].
      * exists l1. split; [exact F|]. right; right; left. destruct (body_run q (memory w) o' (fun r => Unlock (Ret r)) (R HN)) as (m' & R' & U).
        destruct (fifo_op MAX q o') as [q' r] eqn:EO. cbn [fst snd] in *. exists o', (body MAX o' (fun r => Unlock (Ret r))), q', r, m'. cbn [doing holder memory]. rewrite upd_same. conj; auto.
      * apply (frame w _ marked _ q _ j (P j)); cbn [doing holder memory]; auto; [now apply upd_other|rewrite HN; discriminate|congruence].
  - destruct (P t) as (l1 & F & [(P1 & P2 & P3)|[(o' & P1 & P2 & P3)|[(o' & p & q' & r & m' & P1 & P2 & P3 & P4 & P5 & P6)|(o' & r & P1 & P2 & P3)]]]); try (rewrite D in P1; discriminate).
    rewrite D in P2. injection P2 as <-. assert (EU : k = Ret r /\ m' = memory w) by (inversion P6; subst; [split; reflexivity|discriminate]). destruct EU as [-> ->].
    exists (marked ++ [Effect (Thread t) o' r]), q'. conj.
    + rewrite visible_app, V. reflexivity.
    + econstructor; eassumption.
    + rewrite own_other by reflexivity. exact FI.
    + intros _. exact P5.
    + intros j. destruct (Nat.eq_dec j t) as [->|N].
      * exists l1. split; [exact F|]. right; right; right. exists o', r. cbn [doing holder]. rewrite upd_same. conj; auto; [|discriminate].
        rewrite own_self by (cbn [mark_of]; apply Nat.eqb_refl). rewrite P3, <- app_assoc. reflexivity.
      * apply (frame w _ marked _ q _ j (P j)); cbn [doing holder memory]; auto; [now apply upd_other|apply own_other; now apply thread_neq|rewrite P1; congruence|discriminate].
  - destruct (P t) as (l1 & F & [(P1 & P2 & P3)|[(o' & P1 & P2 & P3)|[(o' & p0 & q' & r & m' & P1 & P2 & P3 & P4 & P5 & P6)|(o' & r & P1 & P2 & P3)]]]); try (rewrite D in P1; try discriminate).
    + injection P1 as ->. discriminate Ac.
    + rewrite D in P2. injection P2 as <-. exists marked, q. rewrite app_nil_r. conj; try assumption.
      * cbn [holder]. rewrite P1. discriminate.
      * intros j. destruct (Nat.eq_dec j t) as [->|N].
        -- exists l1. split; [exact F|]. right; right; left. exists o', p', q', r, m'. cbn [doing holder memory]. rewrite upd_same. conj; auto.
           inversion P6; subst; [discriminate Ac|]. rewrite Ac in H. injection H as <- <-. assumption.
        -- apply (frame w _ marked _ q _ j (P j)); cbn [doing holder memory]; auto; [now apply upd_other|rewrite P1; congruence].
    + injection P1 as ->. discriminate Ac.
  - destruct (P t) as (l1 & F & [(P1 & P2 & P3)|[(o' & P1 & P2 & P3)|[(o' & p0 & q' & r' & m' & P1 & P2 & P3 & P4 & P5 & P6)|(o' & r' & P1 & P2 & P3)]]]); try (rewrite D in P1; try discriminate).
    + rewrite D in P2. injection P2 as <-. inversion P6; subst. discriminate.
    + injection P1 as <-. exists (marked ++ [Visible (Return (Thread t) r)]), q. conj.
      * rewrite visible_app, V. reflexivity.
      * now constructor.
      * rewrite own_other by reflexivity. exact FI.
      * exact R.
      * intros j. destruct (Nat.eq_dec j t) as [->|N].
        -- exists (l1 ++ [Visible (Call (Thread t) o'); Effect (Thread t) o' r; Visible (Return (Thread t) r)]). split; [now constructor|]. left. cbn [doing holder]. rewrite upd_same. conj; auto.
           rewrite own_self by (cbn [mark_of]; apply Nat.eqb_refl). rewrite P2, <- app_assoc. reflexivity.
        -- apply (frame w _ marked _ q _ j (P j)); cbn [doing holder memory]; auto; [now apply upd_other|apply own_other; now apply thread_neq].
  - destruct (body_run q (memory w) o Ret (R HN)) as (m' & R' & U'). destruct (run_det _ _ _ _ _ _ U U') as [-> E]. injection E as ->.
    destruct (fifo_op MAX q o) as [q' r] eqn:EO. cbn [fst snd] in *.
    exists (((marked ++ [Visible (Call Isr o)]) ++ [Effect Isr o r]) ++ [Visible (Return Isr r)]), q'. conj.
    + rewrite !visible_app, V. rewrite <- !app_assoc. reflexivity.
    + constructor. eapply legal_effect; [|exact EO]. now constructor.
    + rewrite !own_self by reflexivity. rewrite <- !app_assoc. cbn [app]. now constructor.
    + intros _. exact R'.
    + intros j. apply (frame w _ marked _ q _ j (P j)); cbn [doing holder memory]; auto; [now rewrite !own_other by reflexivity|rewrite HN; discriminate].
Qed.
Lemma inv_ok evs w : execution MAX evs w -> inv w evs.
Proof.
  induction 1 as [|evs w evs1 w1 _ IH S].
  - exists [], (mkfifo [] 0). conj.
    + reflexivity.
    + constructor.
    + constructor.
    + intros _. apply rep0.
    + intros t. exists []. split; [constructor|]. left. conj; try reflexivity. discriminate.
  - eapply inv_step; eassumption.
Qed.
End P.
