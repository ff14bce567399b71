(** * Proofs about the delta list of the timers *)
From Coq Require Import List Arith Lia Bool String ZArith Sorted.
From Verif Require Import Util Slots Cmd TimerModel TimerSpec.
Import ListNotations.
Local Open Scope Z_scope.

Lemma cbind_ok {S A B} (m : Cmd S A) (f : A -> Cmd S B) s s' a :
  m s = Ok s' a -> cbind m f s = f a s'.
Proof. intros H. unfold cbind. now rewrite H. Qed.
Lemma rd_ok i s t : nth_error (arr s) i = Some t -> rd i s = Ok s t.
Proof. unfold rd. now intros ->. Qed.
Lemma up_ok i f s t : nth_error (arr s) i = Some t -> up i f s = Ok (set_arr (upd (arr s) i (f t)) s) tt.
Proof. unfold up. now intros ->. Qed.
Ltac step H := rewrite (cbind_ok _ _ _ _ _ H).
Ltac rd_ t := rewrite (cbind_ok _ _ _ _ _ (rd_ok _ _ t ltac:(cbn; eassumption))).

(** ** doubly linked segments with deltas *)
Definition hd_id (l : list (Z * nat)) (n : nat) : nat := match l with [] => n | (_, i) :: _ => i end.
Fixpoint last_id (p : nat) (l : list (Z * nat)) : nat := match l with [] => p | (_, i) :: r => last_id i r end.
Fixpoint last_due (b : Z) (l : list (Z * nat)) : Z := match l with [] => b | (d, _) :: r => last_due d r end.
Definition ids (l : list (Z * nat)) : list nat := map snd l.

Fixpoint seg (a : list timer) (p : nat) (b : Z) (l : list (Z * nat)) (n : nat) : Prop :=
  match l with
  | [] => True
  | (d, i) :: r =>
      (exists t, nth_error a i = Some t /\ delta t = d - b /\ prev t = p /\ next t = hd_id r n)
      /\ seg a i d r n
  end.

Lemma seg_frame a a' l : forall p b n,
  (forall i, In i (ids l) -> nth_error a' i = nth_error a i) -> seg a p b l n -> seg a' p b l n.
Proof.
  induction l as [|[d i] r IH]; intros p b n Hf H; [exact I|].
  cbn [seg] in *. destruct H as [(t & H1 & H2) H3]. split.
  - exists t. split; [|exact H2]. rewrite Hf; [exact H1|left; reflexivity].
  - apply IH; [|exact H3]. intros j Hj. apply Hf. right. exact Hj.
Qed.
Lemma seg_upd a l p b n j x : ~ In j (ids l) -> seg a p b l n -> seg (upd a j x) p b l n.
Proof.
  intros Hj. apply seg_frame. intros i Hi. apply upd_other. intros ->. contradiction.
Qed.

Lemma hd_id_app l1 l2 n : hd_id (l1 ++ l2) n = hd_id l1 (hd_id l2 n).
Proof. destruct l1 as [|[? ?] ?]; reflexivity. Qed.
Lemma last_id_app p l1 l2 : last_id p (l1 ++ l2) = last_id (last_id p l1) l2.
Proof. revert p; induction l1 as [|[? ?] ? IH]; intros; cbn; auto. Qed.
Lemma last_due_app b l1 l2 : last_due b (l1 ++ l2) = last_due (last_due b l1) l2.
Proof. revert b; induction l1 as [|[? ?] ? IH]; intros; cbn; auto. Qed.
Lemma seg_app a l1 l2 : forall p b n,
  seg a p b (l1 ++ l2) n <-> seg a p b l1 (hd_id l2 n) /\ seg a (last_id p l1) (last_due b l1) l2 n.
Proof.
  induction l1 as [|[d i] r IH]; intros p b n; cbn [app seg last_id last_due]; [tauto|].
  rewrite IH, hd_id_app. tauto.
Qed.
Lemma last_id_in p l : l <> [] -> In (last_id p l) (ids l).
Proof.
  revert p. induction l as [|[d i] r IH]; intros p H; [congruence|]. cbn.
  destruct r as [|e r']; [left; reflexivity|right]. apply IH. congruence.
Qed.
Lemma last_due_in p l : l <> [] -> In (last_due p l) (map fst l).
Proof.
  revert p. induction l as [|[d i] r IH]; intros p H; [congruence|]. cbn.
  destruct r as [|e r']; [left; reflexivity|right]. apply IH. congruence.
Qed.
Lemma hd_id_in n l : l <> [] -> In (hd_id l n) (ids l).
Proof. destruct l as [|[? ?] ?]; [congruence|left; reflexivity]. Qed.
Lemma ids_app l1 l2 : ids (l1 ++ l2) = ids l1 ++ ids l2.
Proof. apply map_app. Qed.

Lemma seg_in a l : forall p b n i, seg a p b l n -> In i (ids l) -> exists t, nth_error a i = Some t.
Proof.
  induction l as [|[d j] r IH]; intros p b n i H Hi; [contradiction|].
  destruct H as [(t & H1 & _) H3]. destruct Hi as [<-|Hi]; eauto.
Qed.

(** change of the next pointer of the last element *)
Lemma seg_set_next a l : forall p b n n' t, l <> [] -> NoDup (ids l) ->
  seg a p b l n -> nth_error a (last_id p l) = Some t ->
  seg (upd a (last_id p l) (set_next n' t)) p b l n'.
Proof.
  induction l as [|[d i] r IH]; intros p b n n' t Hne Hnd H Ht; [congruence|].
  cbn [seg last_id ids map] in *. inversion_clear Hnd as [|? ? Hni Hnd'].
  destruct H as [(u & H1 & H2 & H3 & H4) H5].
  destruct r as [|e r'].
  - cbn [last_id] in *. split; [|exact I]. exists (set_next n' t).
    rewrite upd_same by (apply nth_error_Some; congruence).
    assert (u = t) by congruence. subst u. cbn. auto.
  - assert (Hin : In (last_id i (e :: r')) (ids (e :: r'))) by (apply last_id_in; congruence).
    split.
    + exists u. rewrite upd_other by (intros E; rewrite <- E in Hni; contradiction). repeat split; auto.
    + apply (IH i d n); auto. congruence.
Qed.

(** change of the first element *)
Lemma seg_set_first a d j l p b n p' b' t : NoDup (j :: ids l) ->
  seg a p b ((d, j) :: l) n -> nth_error a j = Some t ->
  seg (upd a j (set_delta (d - b') (set_prev p' t))) p' b' ((d, j) :: l) n.
Proof.
  intros Hnd [(u & H1 & H2 & H3 & H4) H5] Ht. inversion_clear Hnd as [|? ? Hni Hnd'].
  split.
  - eexists. rewrite upd_same by (apply nth_error_Some; congruence). split; [reflexivity|].
    assert (u = t) by congruence. subst u. cbn. auto.
  - apply seg_upd; auto.
Qed.

Definition static (t : timer) := (cbk t, period t, tid t, repeating t).
(** two arrays that differ only in the link fields of the given timers *)
Record similar (js : list nat) (a a' : list timer) : Prop := {
  sim_len : List.length a' = List.length a;
  sim_other : forall i, ~ In i js -> nth_error a' i = nth_error a i;
  sim_static : forall i t, nth_error a i = Some t -> exists t', nth_error a' i = Some t' /\ static t' = static t }.
Lemma similar_refl js a : similar js a a.
Proof. split; eauto. Qed.
Lemma similar_trans js a b c : similar js a b -> similar js b c -> similar js a c.
Proof.
  intros [A1 A2 A3] [B1 B2 B3]. split; [congruence| |].
  - intros i Hi. rewrite B2, A2 by auto. reflexivity.
  - intros i t Ht. destruct (A3 i t Ht) as (t1 & H1 & H2). destruct (B3 i t1 H1) as (t2 & H3 & H4).
    exists t2. split; [exact H3|congruence].
Qed.
Lemma similar_upd js a i t x : In i js -> nth_error a i = Some t -> static x = static t -> similar js a (upd a i x).
Proof.
  intros Hi Ht Hs. split; [apply upd_length| |].
  - intros k Hk. apply upd_other. intros ->. contradiction.
  - intros k u Hu. destruct (Nat.eq_dec i k) as [->|Hne].
    + exists x. rewrite upd_same by (apply nth_error_Some; congruence). split; [reflexivity|congruence].
    + exists u. rewrite upd_other by exact Hne. auto.
Qed.
Lemma similar_weaken js js' a b : incl js js' -> similar js a b -> similar js' a b.
Proof. intros Hi [A1 A2 A3]. split; auto. Qed.

Definition due_ok (b : Z) (l : list (Z * nat)) : Prop :=
  Forall (fun e => b <= fst e <= b + Inactive - 1) l.
Definition sorted (b : Z) (l : list (Z * nat)) : Prop := Sorted Z.le (b :: map fst l).

Lemma u32_id x : 0 <= x < 4294967296 -> u32 x = x.
Proof. intros. unfold u32. apply Z.mod_small. lia. Qed.

(** ** remove *)
Lemma sorted_mid l1 : forall b d i l2, sorted b (l1 ++ (d, i) :: l2) -> b <= last_due b l1 <= d /\ sorted d l2.
Proof.
  unfold sorted. induction l1 as [|[d1 j] r IH]; intros b d i l2 H; cbn [app map fst last_due] in *.
  - inversion_clear H as [|? ? H1 H2]. inversion_clear H2. split; [lia|auto].
  - inversion_clear H as [|? ? H1 H2]. inversion_clear H2. destruct (IH _ _ _ _ H1). split; [lia|auto].
Qed.
Lemma nil_or (l : list (Z * nat)) : l = [] \/ exists d j r, l = (d, j) :: r.
Proof. destruct l as [|[d j] r]; eauto 6. Qed.

Section Remove.
  Variables (s : st) (l1 l2 : list (Z * nat)) (d : Z) (i : nat) (b : Z).
  Let l := l1 ++ (d, i) :: l2.
  Hypothesis Hseg : seg (arr s) NO_TIMER b l NO_TIMER.
  Hypothesis Hnd : NoDup (ids l).
  Hypothesis Hno : ~ In NO_TIMER (ids l).
  Hypothesis Hh : head s = hd_id l NO_TIMER.
  Hypothesis Ht : tail s = last_id NO_TIMER l.
  Hypothesis Hsort : sorted b l.
  Hypothesis Hdue : Forall (fun e => fst e <= b + Inactive - 1) l.

  Lemma rm_nd : NoDup (ids l1) /\ NoDup (ids l2) /\ ~ In i (ids l1) /\ ~ In i (ids l2) /\
    (forall k, In k (ids l1) -> In k (ids l2) -> False).
  Proof.
    unfold l in Hnd. rewrite ids_app in Hnd. cbn in Hnd. apply NoDup_app_iff in Hnd.
    destruct Hnd as (A & B & C). inversion_clear B. conj; auto.
    - intros E. apply (C i E). left. reflexivity.
    - intros k E1 E2. apply (C k E1). right. exact E2.
  Qed.

  Lemma remove_ok he : (he = false \/ l1 = []) ->
    exists a', remove i he s = Ok (mkS a' (hd_id (l1 ++ l2) NO_TIMER) (last_id NO_TIMER (l1 ++ l2)) (enabled s) (registered s) (log s)) tt /\
      seg a' NO_TIMER (if he then d else b) (l1 ++ l2) NO_TIMER /\ similar (ids l) (arr s) a' /\
      (exists t, nth_error a' i = Some t /\ delta t = Inactive).
  Proof.
    intros Hhe. destruct rm_nd as (N1 & N2 & N3 & N4 & N5).
    assert (NO1 : ~ In NO_TIMER (ids l1)) by (intros E; apply Hno; unfold l; rewrite ids_app, in_app_iff; auto).
    assert (NO2 : ~ In NO_TIMER (ids l2)) by (intros E; apply Hno; unfold l; rewrite ids_app, in_app_iff; right; right; auto).
    assert (NOi : i <> NO_TIMER) by (intros E; apply Hno; unfold l; rewrite ids_app, in_app_iff; right; left; auto).
    pose proof Hseg as Hs. unfold l in Hs. apply seg_app in Hs. destruct Hs as [S1 S2].
    cbn [seg hd_id] in S1, S2. destruct S2 as [(t & T1 & T2 & T3 & T4) S2].
    unfold remove. unfold cbind at 1. cbn [state].
    step (rd_ok _ _ _ T1).
    (* step 1 *)
    set (n2 := hd_id l2 NO_TIMER) in *.
    assert (E1 : exists s1, (if Nat.eqb (head s) i then modify (set_head (next t)) else up (prev t) (set_next (next t))) s = Ok s1 tt /\
       head s1 = hd_id (l1 ++ l2) NO_TIMER /\ tail s1 = tail s /\ enabled s1 = enabled s /\ registered s1 = registered s /\ log s1 = log s /\
       seg (arr s1) NO_TIMER b l1 n2 /\ nth_error (arr s1) i = Some t /\ seg (arr s1) i d l2 NO_TIMER /\ similar (ids l) (arr s) (arr s1)).
    { rewrite Hh. unfold l. rewrite hd_id_app. cbn [hd_id]. destruct (nil_or l1) as [El|(d1 & j1 & l1' & El)].
      - rewrite El in *. cbn [hd_id]. rewrite Nat.eqb_refl. eexists. split; [reflexivity|]. cbn. conj; auto; apply similar_refl.
      - assert (l1 <> []) by congruence.
        destruct (Nat.eqb_spec (hd_id l1 i) i) as [E|E].
        { exfalso. apply N3. rewrite <- E at 1. apply hd_id_in. auto. }
        assert (Hin : In (last_id NO_TIMER l1) (ids l1)) by (apply last_id_in; auto).
        destruct (seg_in _ _ _ _ _ _ S1 Hin) as (u & Hu). rewrite T3, (up_ok _ _ _ _ Hu).
        eexists. split; [reflexivity|]. cbn [arr set_arr head tail enabled registered log]. rewrite T4.
        conj; auto.
        + rewrite Hh. unfold l. rewrite !hd_id_app. rewrite El; reflexivity.
        + apply (seg_set_next _ _ _ _ i); auto.
        + rewrite upd_other; auto. intros E'. rewrite E' in Hin. contradiction.
        + apply seg_upd; auto. intros E'. eapply N5; eauto.
        + eapply similar_upd; [|exact Hu|reflexivity]. unfold l. rewrite ids_app, in_app_iff. auto. }
    destruct E1 as (s1 & E1 & A1 & A2 & A3 & A4 & A5 & A6 & A7 & A8 & A9). step E1.
    unfold cbind at 1. cbn [state]. step (rd_ok _ _ _ A7).
    (* step 2 *)
    assert (E2 : exists s2, (if Nat.eqb (tail s1) i then modify (set_tail (prev t)) else up (next t) (set_prev (prev t))) s1 = Ok s2 tt /\
       head s2 = hd_id (l1 ++ l2) NO_TIMER /\ tail s2 = last_id NO_TIMER (l1 ++ l2) /\ enabled s2 = enabled s /\ registered s2 = registered s /\ log s2 = log s /\
       seg (arr s2) NO_TIMER b l1 n2 /\ nth_error (arr s2) i = Some t /\ seg (arr s2) (last_id NO_TIMER l1) d l2 NO_TIMER /\ similar (ids l) (arr s) (arr s2)).
    { rewrite A2, Ht. unfold l. rewrite last_id_app. cbn [last_id]. destruct (nil_or l2) as [El|(d2 & j & l2' & El)].
      - rewrite El in *. cbn [last_id]. rewrite Nat.eqb_refl. eexists. split; [reflexivity|]. cbn. rewrite T3, app_nil_r in *.
        conj; auto. unfold l in A9; rewrite El in A9; exact A9.
      - assert (l2 <> []) by congruence.
        assert (Hj : In j (ids l2)) by (rewrite El; left; reflexivity).
        destruct (Nat.eqb_spec (last_id i l2) i) as [E|E].
        { exfalso. apply N4. rewrite <- E at 1. apply last_id_in. auto. }
        rewrite T4. assert (Hn2 : n2 = j) by (unfold n2; rewrite El; reflexivity). rewrite Hn2; rewrite Hn2 in A6.
        destruct (seg_in _ _ _ _ _ _ A8 Hj) as (u & Hu). rewrite (up_ok _ _ _ _ Hu).
        eexists. split; [reflexivity|]. cbn [arr set_arr head tail enabled registered log]. rewrite T3.
        conj; auto.
        + rewrite A2, Ht. unfold l. rewrite !last_id_app. rewrite El. reflexivity.
        + apply seg_upd; [intros E'; eapply N5; eauto|]. exact A6.
        + rewrite upd_other; auto. intros E'. rewrite E' in Hj. contradiction.
        + rewrite El. rewrite El in A8, N2. pose proof (seg_set_first (arr s1) d2 j l2' i d NO_TIMER (last_id NO_TIMER l1) d u N2 A8 Hu) as Q.
          destruct Q as [(v & Q1 & Q2 & Q3 & Q4) Q5]. rewrite upd_same in Q1 by (apply nth_error_Some; congruence). injection Q1 as <-.
          split; [|apply seg_upd; [inversion_clear N2; auto|apply A8]].
          eexists. rewrite upd_same by (apply nth_error_Some; congruence). split; [reflexivity|]. cbn.
          destruct A8 as [(w & W1 & W2 & W3 & W4) _]. assert (w = u) by congruence. subst w. auto.
        + eapply similar_trans; [exact A9|]. eapply similar_upd; [|exact Hu|reflexivity]. unfold l.
          rewrite ids_app, in_app_iff. right. right. auto. }
    destruct E2 as (s2 & E2 & B1 & B2 & B3 & B4 & B5 & B6 & B7 & B8 & B9). step E2.
    step (rd_ok _ _ _ B7).
    (* step 3 *)
    set (base := if he then d else last_due b l1).
    assert (E3 : exists s3, (if he then ret tt else if Nat.eqb (next t) NO_TIMER then ret tt else
          up (next t) (fun t0 : timer => set_delta (u32 (delta t0 + delta t)) t0)) s2 = Ok s3 tt /\
       head s3 = hd_id (l1 ++ l2) NO_TIMER /\ tail s3 = last_id NO_TIMER (l1 ++ l2) /\ enabled s3 = enabled s /\ registered s3 = registered s /\ log s3 = log s /\
       seg (arr s3) NO_TIMER b l1 n2 /\ nth_error (arr s3) i = Some t /\ seg (arr s3) (last_id NO_TIMER l1) base l2 NO_TIMER /\ similar (ids l) (arr s) (arr s3)).
    { unfold base. destruct he.
      - exists s2. conj; auto.
      - rewrite T4. unfold n2. destruct (nil_or l2) as [El|(d2 & j & l2' & El)].
        + unfold n2 in B6. rewrite El in *. cbn. exists s2. conj; auto.
        +
          assert (Hj : In j (ids l2)) by (rewrite El; left; reflexivity).
          assert (Hn2 : n2 = j) by (unfold n2; rewrite El; reflexivity). fold n2. rewrite Hn2; rewrite Hn2 in B6. destruct (Nat.eqb_spec j NO_TIMER) as [E|E]; [rewrite E in Hj; contradiction|].
          destruct (seg_in _ _ _ _ _ _ B8 Hj) as (u & Hu).
          rewrite (up_ok _ _ _ _ Hu).
          eexists. split; [reflexivity|]. cbn [arr set_arr head tail enabled registered log].
          assert (Hd2 : delta u = d2 - d).
          { rewrite El in B8. destruct B8 as [(w & W1 & W2 & _) _]. congruence. }
          assert (Hlo : b <= last_due b l1 <= d /\ d <= d2 /\ d2 <= b + Inactive - 1).
          { unfold l in Hsort, Hdue. destruct (sorted_mid _ _ _ _ _ Hsort) as [Q1 Q2]. rewrite El in Q2, Hdue.
            destruct (sorted_mid [] d d2 j l2' Q2) as [Q3 _]. cbn in Q3. rewrite Forall_forall in Hdue.
            assert (d2 <= b + Inactive - 1); [|lia].
            apply (Hdue (d2, j)). apply in_app_iff. right. right. left. reflexivity. }
          conj; auto.
          * apply seg_upd; [intros E'; eapply N5; eauto|]. exact B6.
          * rewrite upd_other; auto. intros E'. rewrite E' in Hj. contradiction.
          * rewrite El. rewrite El in B8, N2. rewrite T2, Hd2, u32_id by (unfold Inactive in *; lia).
            replace (d2 - d + (d - last_due b l1)) with (d2 - last_due b l1) by lia.
            destruct B8 as [(w & W1 & W2 & W3 & W4) W5]. assert (w = u) by congruence. subst w.
            split; [|apply seg_upd; [inversion_clear N2; auto|exact W5]].
            eexists. rewrite upd_same by (apply nth_error_Some; congruence). split; [reflexivity|]. cbn. auto.
          * eapply similar_trans; [exact B9|]. eapply similar_upd; [|exact Hu|reflexivity]. unfold l.
            rewrite ids_app, in_app_iff. right. right. auto. }
    destruct E3 as (s3 & E3 & C1 & C2 & C3 & C4 & C5 & C6 & C7 & C8 & C9). step E3.
    step (up_ok i (set_prev NO_TIMER) _ _ C7).
    assert (Hil : forall A (a : list A) x, nth_error a i <> None -> nth_error (upd a i x) i = Some x).
    { intros A a x H. apply upd_same. apply nth_error_Some. exact H. }
    assert (D1 : nth_error (arr (set_arr (upd (arr s3) i (set_prev NO_TIMER t)) s3)) i = Some (set_prev NO_TIMER t)).
    { cbn. apply Hil. congruence. }
    step (up_ok i (set_next NO_TIMER) _ _ D1).
    match goal with |- context [up i (set_delta Inactive) ?S0] => set (s4 := S0) end.
    assert (D2 : nth_error (arr s4) i = Some (set_next NO_TIMER (set_prev NO_TIMER t))).
    { cbn. apply Hil. rewrite Hil by congruence. congruence. }
    rewrite (up_ok i (set_delta Inactive) _ _ D2). eexists. split.
    { unfold set_arr. cbn. rewrite C1, C2, C3, C4, C5. reflexivity. }
    assert (Hi_in : In i (ids l)) by (unfold l; rewrite ids_app, in_app_iff; right; left; reflexivity).
    split; [|split].
    - apply seg_upd; [rewrite ids_app, in_app_iff; tauto|]. cbn.
      do 2 (apply seg_upd; [rewrite ids_app, in_app_iff; tauto|]).
      apply seg_app. unfold base in C8. destruct he.
      + destruct Hhe as [Hhe|Hhe]; [discriminate|]. rewrite Hhe in *. cbn [seg last_due] in *. auto.
      + auto.
    - eapply similar_trans; [exact C9|]. cbn.
      eapply similar_trans; [eapply similar_upd; [exact Hi_in|exact C7|]|]; [|eapply similar_trans; [eapply similar_upd; [exact Hi_in|exact D1|]|eapply similar_upd; [exact Hi_in|exact D2|]]]; reflexivity.
    - eexists. split; [apply Hil; cbn in D2; congruence|reflexivity].
  Qed.
End Remove.

(** ** insert *)
Lemma schedule_app_lt d i l1 l2 :
  Forall (fun e => fst e < d) l1 -> schedule d i (l1 ++ l2) = l1 ++ schedule d i l2.
Proof.
  induction 1 as [|[d' j] r H F IH]; [reflexivity|]. cbn in *.
  destruct (Z.leb_spec d d'); [lia|]. now rewrite IH.
Qed.
Lemma seg_set_next_nil a l p b n n' t : NoDup (ids l) ->
  seg a p b l n -> (l <> [] -> nth_error a (last_id p l) = Some t) ->
  seg (if match l with [] => true | _ => false end then a else upd a (last_id p l) (set_next n' t)) p b l n'.
Proof.
  intros H1 H2 H3. destruct l as [|e l]; [exact I|]. eapply seg_set_next; eauto; [congruence|apply H3; congruence].
Qed.

  Lemma seg_length a p0 b0 l0 n0 : NoDup (ids l0) -> seg a p0 b0 l0 n0 -> (List.length l0 <= List.length a)%nat.
  Proof.
    intros N Hs. replace (List.length l0) with (List.length (ids l0)) by apply map_length.
    rewrite <- (seq_length (List.length a) 0). apply NoDup_incl_length; [exact N|].
    intros k Hk. destruct (seg_in _ _ _ _ _ _ Hs Hk) as (t & Ht). apply in_seq.
    assert (k < List.length a)%nat by (apply nth_error_Some; congruence). lia.
  Qed.

Section Insert.
  Variables (d : Z) (id : nat) (b : Z) (l : list (Z * nat)).
  Hypothesis Hnd : NoDup (ids l).
  Hypothesis Hno : ~ In NO_TIMER (ids l).
  Hypothesis Hid : ~ In id (ids l).
  Hypothesis HidN : id <> NO_TIMER.
  Hypothesis Hsort : sorted b l.
  Hypothesis Hdue : Forall (fun e => fst e <= b + Inactive - 1) l.
  Hypothesis Hd : b <= d <= b + Inactive - 1.

  (** the state when the loop looks at the head of [l2] *)
  Definition looking (s : st) (l1 l2 : list (Z * nat)) : Prop :=
    l = l1 ++ l2 /\ seg (arr s) NO_TIMER b l NO_TIMER /\
    (forall j t, In j (id :: ids l) -> nth_error (arr s) j = Some t -> tid t = j) /\
    head s = hd_id l NO_TIMER /\
    Forall (fun e => fst e < d) l1 /\
    exists t, nth_error (arr s) id = Some t /\ delta t = d - last_due b l1.

  Lemma insert_loop_ok : forall l2 fuel s l1, (List.length l2 < fuel)%nat -> looking s l1 l2 ->
    exists s', insert_loop fuel id (hd_id l2 NO_TIMER) s = Ok s' (hd_id (filter (fun e => d <=? fst e) l2) NO_TIMER) /\
      tail s' = tail s /\ enabled s' = enabled s /\ registered s' = registered s /\ log s' = log s /\
      similar (id :: ids l) (arr s) (arr s') /\
      match filter (fun e => d <=? fst e) l2 with
      | [] => looking s' l []
      | _ => head s' = hd_id (schedule d id l) NO_TIMER /\ seg (arr s') NO_TIMER b (schedule d id l) NO_TIMER /\
             last_id NO_TIMER (schedule d id l) = last_id NO_TIMER l
      end.
  Proof.
    induction l2 as [|[d2 j] l2 IH]; intros fuel s l1 Hf (El & Hs & Htid & Hh & Hlt & t & Ht & Hdt);
      destruct fuel as [|f]; cbn [List.length] in Hf; try lia.
    - cbn. exists s. conj; auto; [apply similar_refl|]. rewrite app_nil_r in El. subst l1.
      unfold looking. conj; auto; [rewrite app_nil_r; reflexivity|]. exists t. auto.
    - cbn [insert_loop hd_id filter fst].
      assert (Hjl : In j (ids l)) by (rewrite El, ids_app, in_app_iff; right; left; reflexivity).
      destruct (Nat.eqb_spec j NO_TIMER) as [E|_]; [rewrite E in Hjl; contradiction|].
      step (rd_ok _ _ _ Ht).
      pose proof Hs as Hs'. rewrite El in Hs'. apply seg_app in Hs'. destruct Hs' as [S1 S2].
      cbn [seg] in S2. destruct S2 as [(u & U1 & U2 & U3 & U4) S2].
      step (rd_ok _ _ _ U1).
      assert (Q := Hsort). rewrite El in Q. apply sorted_mid in Q. destruct Q as [Q1 Q2].
      assert (Hidj : id <> j) by (intros E; subst j; contradiction).
      assert (Nd := Hnd). rewrite El, ids_app in Nd. apply NoDup_app_iff in Nd. destruct Nd as (N1 & N2 & N3).
      cbn [ids map] in N2. inversion_clear N2 as [|? ? N4 N5].
      assert (Nj : ~ In j (ids l1)) by (intros E; apply (N3 j E); left; reflexivity).
      assert (Ni1 : ~ In id (ids l1)) by (intros E; apply Hid; rewrite El, ids_app, in_app_iff; auto).
      assert (Ni2 : ~ In id (ids l2)) by (intros E; apply Hid; rewrite El, ids_app, in_app_iff; right; right; auto).
      assert (Hd2 : d2 <= b + Inactive - 1).
      { rewrite Forall_forall in Hdue. apply (Hdue (d2, j)). rewrite El. apply in_app_iff. right. left. reflexivity. }
      assert (Hl1 : last_due b l1 <= d).
      { destruct l1 as [|e r] eqn:E1; [cbn; lia|]. rewrite Forall_forall in Hlt.
        assert (Hin : In (last_due b (e :: r)) (map fst (e :: r))) by (apply last_due_in; congruence).
        apply in_map_iff in Hin. destruct Hin as (x & X1 & X2). specialize (Hlt x X2). lia. }
      rewrite Hdt, U2.
      destruct (Z.leb_spec (d - last_due b l1) (d2 - last_due b l1)) as [Hle|Hgt].
      + destruct (Z.leb_spec d d2) as [_|]; [|lia]. cbn [hd_id].
        unfold cbind at 1. cbn [state].
        rewrite (Htid id t (or_introl eq_refl) Ht), (Htid j u (or_intror Hjl) U1).
        assert (Hsch : schedule d id l = l1 ++ (d, id) :: (d2, j) :: l2).
        { rewrite El, schedule_app_lt by exact Hlt. cbn. destruct (Z.leb_spec d d2); [reflexivity|lia]. }
        (* head *)
        assert (E1 : exists s1, (if Nat.eqb j (head s) then modify (set_head id) else ret tt) s = Ok s1 tt /\ arr s1 = arr s /\
            tail s1 = tail s /\ enabled s1 = enabled s /\ registered s1 = registered s /\ log s1 = log s /\
            head s1 = hd_id (schedule d id l) NO_TIMER).
        { rewrite Hsch, Hh, El. rewrite !hd_id_app. cbn [hd_id]. destruct (nil_or l1) as [E|(d1 & j1 & r & E)].
          - rewrite E. cbn. rewrite Nat.eqb_refl. eexists. split; [reflexivity|]. cbn. auto 10.
          - destruct (Nat.eqb_spec j (hd_id l1 j)) as [E'|_].
            { exfalso. apply Nj. rewrite E'. apply hd_id_in. congruence. }
            exists s. conj; auto. rewrite Hh, El, hd_id_app, E. reflexivity. }
        destruct E1 as (s1 & E1 & A0 & A1 & A2 & A3 & A4 & A5). step E1.
        assert (U1' := U1). rewrite <- A0 in U1'. step (rd_ok _ _ _ U1').
        assert (Ht' := Ht). rewrite <- A0 in Ht'.
        step (up_ok id (set_prev (prev u)) _ _ Ht'). rewrite A0.
        set (a1 := upd (arr s) id (set_prev (prev u) t)).
        assert (L1 : nth_error a1 id = Some (set_prev (prev u) t)) by (apply upd_same, nth_error_Some; congruence).
        assert (J1 : nth_error a1 j = Some u) by (unfold a1; rewrite upd_other; auto).
        rewrite (cbind_ok _ _ _ _ _ (rd_ok id (set_arr a1 s1) _ L1)).
        rewrite (cbind_ok _ _ _ _ _ (up_ok j (set_prev (tid (set_prev (prev u) t))) (set_arr a1 s1) _ J1)).
        cbn [arr set_arr tid set_prev]. rewrite (Htid id t (or_introl eq_refl) Ht).
        set (a2 := upd a1 j (set_prev id u)).
        assert (J2 : nth_error a2 j = Some (set_prev id u)) by (apply upd_same, nth_error_Some; congruence).
        assert (L2 : nth_error a2 id = Some (set_prev (prev u) t)) by (unfold a2; rewrite upd_other; auto).
        rewrite (cbind_ok _ _ _ _ _ (rd_ok j (set_arr a2 (set_arr a1 s1)) _ J2)).
        rewrite (cbind_ok _ _ _ _ _ (up_ok id (set_next (tid (set_prev id u))) (set_arr a2 (set_arr a1 s1)) _ L2)).
        cbn [arr set_arr tid set_prev]. rewrite (Htid j u (or_intror Hjl) U1).
        set (t3 := set_next j (set_prev (prev u) t)). set (a3 := upd a2 id t3).
        assert (L3 : nth_error a3 id = Some t3) by (apply upd_same, nth_error_Some; congruence).
        assert (J3 : nth_error a3 j = Some (set_prev id u)) by (unfold a3; rewrite upd_other; auto).
        match goal with |- context [cbind (rd id) _ ?S] => rewrite (cbind_ok _ _ _ _ _ (rd_ok id S _ L3)) end.
        match goal with |- context [cbind (up j ?F) _ ?S] => rewrite (cbind_ok _ _ _ _ _ (up_ok j F S _ J3)) end.
        cbn [arr set_arr delta set_prev]. 
        replace (u32 (delta u - delta t3)) with (d2 - d)
          by (cbn; rewrite U2, Hdt, u32_id by (unfold Inactive in *; lia); lia).
        set (u4 := set_delta (d2 - d) (set_prev id u)). set (a4 := upd a3 j u4).
        assert (J4 : nth_error a4 j = Some u4) by (apply upd_same, nth_error_Some; congruence).
        assert (L4 : nth_error a4 id = Some t3) by (unfold a4; rewrite upd_other; auto).
        match goal with |- context [cbind (rd id) _ ?S] => rewrite (cbind_ok _ _ _ _ _ (rd_ok id S _ L4)) end.
        assert (F4 : forall k, k <> id -> k <> j -> nth_error a4 k = nth_error (arr s) k).
        { intros k K1 K2. unfold a4, a3, a2, a1. rewrite !upd_other; auto. }
        assert (Sim4 : similar (id :: ids l) (arr s) a4).
        { assert (In id (id :: ids l)) by (left; auto). assert (In j (id :: ids l)) by (right; auto).
          apply (similar_trans _ _ a1); [apply (similar_upd _ _ _ t); auto|].
          apply (similar_trans _ _ a2); [apply (similar_upd _ _ _ u); auto|].
          apply (similar_trans _ _ a3); [apply (similar_upd _ _ _ (set_prev (prev u) t)); auto|].
          apply (similar_upd _ _ _ (set_prev id u)); auto. }
        assert (S4 : seg a4 NO_TIMER b l1 j).
        { eapply seg_frame; [|exact S1]. intros k Hk. apply F4; intros ->; contradiction. }
        assert (S5 : seg a4 j d2 l2 NO_TIMER).
        { eapply seg_frame; [|exact S2]. intros k Hk. apply F4; intros ->; contradiction. }
        assert (Hprev : prev t3 = last_id NO_TIMER l1) by (cbn; exact U3).
        assert (Htt : tid t3 = id) by (cbn; apply (Htid id t (or_introl eq_refl) Ht)).
        rewrite Hprev, Htt.
        assert (Hlast : last_id NO_TIMER (schedule d id l) = last_id NO_TIMER l).
        { rewrite Hsch, El, !last_id_app. reflexivity. }
        destruct (nil_or l1) as [E|(d1 & j1 & r & E)].
        * rewrite E in *. cbn [last_id]. rewrite (proj2 (Nat.eqb_eq NO_TIMER NO_TIMER) eq_refl).
          eexists. split; [reflexivity|]. cbn [arr set_arr tail enabled registered log head].
          conj; auto. rewrite Hsch. cbn [app seg hd_id last_due] in *. conj.
          -- exists t3. conj; auto.
          -- exists u4. conj; auto.
          -- exact S5.
        * assert (Hin : In (last_id NO_TIMER l1) (ids l1)) by (apply last_id_in; congruence).
          assert (Hinl : In (last_id NO_TIMER l1) (ids l)) by (rewrite El, ids_app, in_app_iff; auto).
          destruct (Nat.eqb_spec (last_id NO_TIMER l1) NO_TIMER) as [E'|_]; [rewrite E' in Hinl; contradiction|].
          destruct (seg_in _ _ _ _ _ _ S4 Hin) as (w & W).
          match goal with |- context [cbind (up ?J ?F) _ ?S] => rewrite (cbind_ok _ _ _ _ _ (up_ok J F S _ W)) end.
          eexists. split; [reflexivity|]. cbn [arr set_arr tail enabled registered log head].
          conj; auto.
          -- eapply similar_trans; [exact Sim4|]. eapply similar_upd; [|exact W|reflexivity]. right. exact Hinl.
          -- rewrite Hsch. apply seg_app. split.
             ++ cbn [hd_id]. apply (seg_set_next a4 l1 NO_TIMER b j); auto. congruence.
             ++ cbn [seg hd_id]. conj.
                ** exists t3. conj; auto. rewrite upd_other; auto. intros E'. rewrite E' in Hin. contradiction.
                ** exists u4. conj; auto. rewrite upd_other; auto. intros E'. rewrite E' in Hin. contradiction.
                ** apply seg_upd; auto. intros E'. apply (N3 _ Hin). right. exact E'.
      + destruct (Z.leb_spec d d2) as [|_]; [lia|].
        match goal with |- context [cbind (up id ?F) _ ?S] => rewrite (cbind_ok _ _ _ _ _ (up_ok id F S _ Ht)) end.
        rewrite u32_id by (unfold Inactive in *; lia).
        set (t1 := set_delta (d - last_due b l1 - (d2 - last_due b l1)) t). set (a1 := upd (arr s) id t1).
        assert (J1 : nth_error a1 j = Some u) by (unfold a1; rewrite upd_other; auto).
        rewrite (cbind_ok _ _ _ _ _ (rd_ok j (set_arr a1 s) _ J1)).
        rewrite U4.
        assert (Look : looking (set_arr a1 s) (l1 ++ [(d2, j)]) l2).
        { unfold looking. cbn [arr set_arr head]. conj; auto.
          - rewrite <- app_assoc. exact El.
          - apply seg_upd; auto.
          - intros k v Hk Hv. unfold a1 in Hv. rewrite upd_nth in Hv. destruct (Nat.eqb_spec id k) as [->|].
            + destruct (k <? List.length (arr s))%nat; [|discriminate]. injection Hv as <-. cbn. apply Htid; auto.
            + apply Htid; auto.
          - apply Forall_app. split; [exact Hlt|]. repeat constructor. cbn. lia.
          - exists t1. split; [apply upd_same, nth_error_Some; congruence|].
            unfold t1. cbn. rewrite last_due_app. cbn. lia. }
        destruct (IH f (set_arr a1 s) (l1 ++ [(d2, j)]) ltac:(lia) Look) as (s' & E & B1 & B2 & B3 & B4 & B5 & B6).
        exists s'. conj; auto.
        eapply similar_trans; [|exact B5]. cbn. eapply similar_upd; [left; reflexivity|exact Ht|reflexivity].
  Qed.

  Lemma filter_nil_lt m : filter (fun e : Z * nat => d <=? fst e) m = [] -> schedule d id m = m ++ [(d, id)].
  Proof.
    induction m as [|[d' j] r IH]; [reflexivity|]. cbn. destruct (d <=? d'); [discriminate|]. intros H. now rewrite IH.
  Qed.
  Lemma filter_ne m k r : filter (fun e : Z * nat => d <=? fst e) m = k :: r -> In (snd k) (ids m).
  Proof.
    intros H. apply in_map. assert (In k (filter (fun e : Z * nat => d <=? fst e) m)) by (rewrite H; left; reflexivity).
    apply filter_In in H0. tauto.
  Qed.

  Lemma insert_ok s : looking s [] l -> tail s = last_id NO_TIMER l ->
    exists a', insert id s = Ok (mkS a' (hd_id (schedule d id l) NO_TIMER) (last_id NO_TIMER (schedule d id l)) (enabled s) (registered s) (log s)) tt /\
      seg a' NO_TIMER b (schedule d id l) NO_TIMER /\ similar (id :: ids l) (arr s) a'.
  Proof.
    intros Look Htl. pose proof Look as (El & Hs & Htid & Hh & Hlt & t & Ht & Hdt).
    unfold insert. unfold cbind at 1. cbn [state]. rewrite Hh.
    destruct (nil_or l) as [E|(d1 & j1 & r & E)].
    - rewrite E. cbn [hd_id]. rewrite (proj2 (Nat.eqb_eq NO_TIMER NO_TIMER) eq_refl). unfold cbind at 1, modify. cbn [set_head].
      unfold cbind at 1. cbn [set_tail arr head tail enabled registered log].
      match goal with |- context [cbind (up id ?F) _ ?S] => rewrite (cbind_ok _ _ _ _ _ (up_ok id F S t Ht)) end.
      match goal with |- context [up id ?F ?S] => rewrite (up_ok id F S (set_prev NO_TIMER t)) end.
      2: { cbn. apply upd_same, nth_error_Some. congruence. }
      unfold set_arr. cbn. eexists. split; [reflexivity|].
      assert (N : nth_error (arr s) id <> None) by congruence.
      split.
      + conj; auto. eexists. split; [apply upd_same; rewrite upd_length; apply nth_error_Some; exact N|]. cbn. conj; auto.
      + apply (similar_trans _ _ (upd (arr s) id (set_prev NO_TIMER t))).
        * apply (similar_upd _ _ _ t); auto. left; auto.
        * apply (similar_upd _ _ _ (set_prev NO_TIMER t)); auto; [left; auto|apply upd_same, nth_error_Some; exact N].
    - assert (Hne : l <> []) by congruence.
      assert (Hj1 : In (hd_id l NO_TIMER) (ids l)) by (apply hd_id_in; auto).
      destruct (Nat.eqb_spec (hd_id l NO_TIMER) NO_TIMER) as [E'|_]; [rewrite E' in Hj1; contradiction|].
      destruct (insert_loop_ok l (S (MAX s)) s [] ltac:(apply seg_length in Hs; auto; unfold MAX; lia) Look)
        as (s1 & E1 & A1 & A2 & A3 & A4 & A5 & A6).
      step E1. destruct (filter (fun e => d <=? fst e) l) as [|k kr] eqn:Ef.
      + cbn [hd_id]. rewrite (proj2 (Nat.eqb_eq NO_TIMER NO_TIMER) eq_refl).
        destruct A6 as (_ & Hs1 & Htid1 & Hh1 & Hlt1 & t1 & Ht1 & Hdt1).
        unfold cbind at 1. cbn [state]. step (rd_ok _ _ _ Ht1).
        rewrite A1, Htl, (Htid1 id t1 (or_introl eq_refl) Ht1).
        assert (Hin : In (last_id NO_TIMER l) (ids l)) by (apply last_id_in; congruence).
        destruct (seg_in _ _ _ _ _ _ Hs1 Hin) as (w & W).
        match goal with |- context [cbind (up ?J ?F) _ ?S] => rewrite (cbind_ok _ _ _ _ _ (up_ok J F S _ W)) end.
        set (a1 := upd (arr s1) (last_id NO_TIMER l) (set_next id w)).
        assert (I1 : nth_error a1 id = Some t1) by (unfold a1; rewrite upd_other; auto; intros E'; rewrite E' in Hin; contradiction).
        match goal with |- context [cbind (up id ?F) _ ?S] => rewrite (cbind_ok _ _ _ _ _ (up_ok id F S _ I1)) end.
        cbn [arr set_arr].
        set (t2 := set_prev (last_id NO_TIMER l) t1). set (a2 := upd a1 id t2).
        assert (I2 : nth_error a2 id = Some t2) by (apply upd_same, nth_error_Some; congruence).
        match goal with |- context [cbind (up id ?F) _ ?S] => rewrite (cbind_ok _ _ _ _ _ (up_ok id F S _ I2)) end.
        cbn [arr set_arr]. unfold modify, set_arr. cbn.
        set (t3 := set_next NO_TIMER t2). set (a3 := upd a2 id t3).
        assert (I3 : nth_error a3 id = Some t3) by (apply upd_same, nth_error_Some; congruence).
        rewrite (filter_nil_lt l Ef). rewrite hd_id_app, last_id_app. cbn [last_id hd_id].
        exists a3. split; [unfold set_tail; cbn; rewrite Hh1, A2, A3, A4, E; reflexivity|]. split.
        * apply seg_app. split.
          -- cbn [hd_id]. unfold a3, a2. do 2 (apply seg_upd; auto). apply (seg_set_next _ _ _ _ NO_TIMER); auto.
          -- cbn [seg hd_id]. split; [|exact I]. exists t3. conj; auto.
        * eapply similar_trans; [exact A5|].
          apply (similar_trans _ _ a1); [apply (similar_upd _ _ _ w); auto; right; auto|].
          apply (similar_trans _ _ a2); [apply (similar_upd _ _ _ t1); auto; left; auto|].
          apply (similar_upd _ _ _ t2); auto; left; auto.
      + destruct A6 as (B1 & B2 & B3).
        assert (Hk : hd_id (k :: kr) NO_TIMER = snd k) by (destruct k; reflexivity). rewrite Hk.
        destruct (Nat.eqb_spec (snd k) NO_TIMER) as [E'|_].
        { exfalso. apply Hno. rewrite <- E'. eapply filter_ne. exact Ef. }
        unfold ret. exists (arr s1). split; [|split; auto].
        f_equal. destruct s1; cbn in *. rewrite B1, A1, A2, A3, A4, B3, Htl. reflexivity.
  Qed.
End Insert.
