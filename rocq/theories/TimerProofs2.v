(** * The timers refine the clock specification *)
From Coq Require Import List Arith Lia Bool String ZArith Sorted.
From Verif Require Import Util Slots Cmd TimerModel TimerSpec TimerProofs.
Import ListNotations.
Local Open Scope Z_scope.

Definition is_some {A} (o : option A) : bool := match o with Some _ => true | None => false end.
Definition count_some {A} (l : list (option A)) : nat := List.length (filter is_some l).

Definition slot_ok (c : clock) (i : nat) (t : timer) : Prop :=
  match nth_error (timers c) i with
  | Some None => t = blank
  | Some (Some r) => static t = (r_cb r, r_period r, i, r_repeat r) /\ 0 <= r_period r < 4294967296 /\
                     (~ In i (ids (pending c)) -> delta t = Inactive)
  | None => False
  end.

Record rep (s : st) (c : clock) : Prop := {
  p_len : List.length (arr s) = List.length (timers c);
  p_max : (List.length (timers c) <= 254)%nat;
  p_slot : forall i t, nth_error (arr s) i = Some t -> slot_ok c i t;
  p_seg : seg (arr s) NO_TIMER (now c) (pending c) NO_TIMER;
  p_head : head s = hd_id (pending c) NO_TIMER;
  p_tail : tail s = last_id NO_TIMER (pending c);
  p_nd : NoDup (ids (pending c));
  p_sort : sorted (now c) (pending c);
  p_due : Forall (fun e => fst e <= now c + Inactive - 1) (pending c);
  p_pend : forall i, In i (ids (pending c)) -> exists r, nth_error (timers c) i = Some (Some r) /\ r_period r <> Inactive;
  p_reg : registered s = count_some (timers c);
  p_en : enabled s = running c;
  p_log : log s = fired c }.

Lemma rep_no s c : rep s c -> ~ In NO_TIMER (ids (pending c)).
Proof.
  intros R H. destruct (p_pend _ _ R _ H) as (r & Hr & _).
  assert (NO_TIMER < List.length (timers c))%nat by (apply nth_error_Some; congruence).
  pose proof (p_max _ _ R). unfold NO_TIMER in *. lia.
Qed.
Lemma count_none {A} m : count_some (repeat (@None A) m) = 0%nat.
Proof. unfold count_some. induction m; cbn; auto. Qed.
Lemma rep_make max : (max <= 254)%nat -> rep (make max) (power_up max).
Proof.
  intros H. split; cbn; auto.
  - now rewrite ?repeat_length.
  - now rewrite ?repeat_length.
  - intros i t Ht. unfold slot_ok. cbn. rewrite nth_error_repeat_if; rewrite nth_error_repeat_if in Ht. destruct (i <? max)%nat; congruence.
  - constructor.
  - constructor; constructor.
  - intros i [].
  - symmetry; apply count_none.
Qed.

Lemma seg_delta a l : forall p b n i M, seg a p b l n -> In i (ids l) -> sorted b l ->
  Forall (fun e => fst e <= M) l -> exists t, nth_error a i = Some t /\ 0 <= delta t <= M - b.
Proof.
  induction l as [|[d j] r IH]; intros p b n i M Hs Hi Ho F; [contradiction|].
  destruct Hs as [(t & H1 & H2 & _) H3]. inversion_clear F as [|? ? F1 F2]. cbn in F1.
  destruct (sorted_mid [] b d j r Ho) as [Q1 Q2]. cbn in Q1.
  destruct Hi as [<-|Hi]; [exists t; split; [exact H1|lia]|].
  destruct (IH _ _ _ _ M H3 Hi Q2 F2) as (u & U1 & U2). exists u. split; [exact U1|lia].
Qed.

Lemma is_pending_in i l : is_pending i l = true <-> In i (ids l).
Proof.
  unfold is_pending, ids. rewrite existsb_exists, in_map_iff. split.
  - intros (e & H1 & H2). apply Nat.eqb_eq in H2. eauto.
  - intros (e & H1 & H2). exists e. split; auto. apply Nat.eqb_eq. auto.
Qed.
Lemma active_iff s c i t r : rep s c -> nth_error (arr s) i = Some t -> nth_error (timers c) i = Some (Some r) ->
  Z.eqb (delta t) Inactive = negb (is_pending i (pending c)).
Proof.
  intros R Ht Hr. destruct (is_pending i (pending c)) eqn:E; cbn.
  - apply is_pending_in in E. destruct (seg_delta _ _ _ _ _ _ _ (p_seg _ _ R) E (p_sort _ _ R) (p_due _ _ R)) as (u & U1 & U2).
    assert (u = t) by congruence. subst. apply Z.eqb_neq. lia.
  - assert (~ In i (ids (pending c))) by (rewrite <- is_pending_in; congruence).
    pose proof (p_slot _ _ R _ _ Ht) as S. unfold slot_ok in S. rewrite Hr in S. apply Z.eqb_eq. tauto.
Qed.

Lemma cancel_notin i l : ~ In i (ids l) -> cancel i l = l.
Proof.
  unfold cancel. induction l as [|[d j] r IH]; intros H; [reflexivity|]. cbn in *.
  destruct (Nat.eqb_spec j i) as [->|]; [tauto|]. cbn. f_equal. apply IH. tauto.
Qed.
Lemma cancel_split i d l1 l2 : NoDup (ids (l1 ++ (d, i) :: l2)) -> cancel i (l1 ++ (d, i) :: l2) = l1 ++ l2.
Proof.
  intros H. rewrite ids_app in H. apply NoDup_app_iff in H. destruct H as (A & B & C). cbn in B. inversion_clear B.
  unfold cancel. rewrite filter_app. cbn. rewrite Nat.eqb_refl. cbn. fold (cancel i l1). fold (cancel i l2).
  rewrite !cancel_notin; auto. intros E. apply (C i E). left. reflexivity.
Qed.
Lemma cancel_in i j l : In j (ids (cancel i l)) -> In j (ids l) /\ j <> i.
Proof.
  unfold cancel, ids. rewrite !in_map_iff. intros (e & H1 & H2). apply filter_In in H2. destruct H2 as [H2 H3].
  split; [exists e; auto|]. apply negb_true_iff, Nat.eqb_neq in H3. congruence.
Qed.
Lemma sorted_app_del b l1 d i l2 : sorted b (l1 ++ (d, i) :: l2) -> sorted b (l1 ++ l2).
Proof.
  unfold sorted. rewrite !map_app. cbn [map fst].
  revert b. induction l1 as [|[e j] r IH]; intros b H; cbn in *.
  - inversion_clear H as [|? ? H1 H2]. inversion_clear H1 as [|? ? H3 H4]. constructor; auto. inversion_clear H2.
    inversion H4; constructor; lia.
  - inversion_clear H as [|? ? H1 H2]. constructor; [apply IH; exact H1|]. inversion_clear H2. constructor. lia.
Qed.

Lemma similar_slot js s a' c i t t' : rep s c -> similar js (arr s) a' ->
  nth_error (arr s) i = Some t -> nth_error a' i = Some t' ->
  static t' = static t.
Proof.
  intros R [A1 A2 A3] H1 H2. destruct (A3 i t H1) as (u & U1 & U2). congruence.
Qed.

Lemma blank_static t' : static t' = static blank -> delta t' = Inactive -> prev t' = NO_TIMER -> next t' = NO_TIMER -> t' = blank.
Proof. destruct t'; unfold static, blank; cbn. intros H; injection H as -> -> -> ->. intros -> -> ->. reflexivity. Qed.

(** how the representation survives a change confined to the links of pending timers *)
Lemma rep_links s c js a' h t p' n' :
  rep s c -> similar js (arr s) a' ->
  (forall i, In i js -> exists r, nth_error (timers c) i = Some (Some r) /\ r_period r <> Inactive) ->
  (forall i, In i (ids p') -> In i js) ->
  (forall i u, nth_error a' i = Some u -> In i js -> ~ In i (ids p') -> delta u = Inactive) ->
  (forall i, In i (ids (pending c)) -> In i js) ->
  NoDup (ids p') -> sorted n' p' -> Forall (fun e => fst e <= n' + Inactive - 1) p' ->
  seg a' NO_TIMER n' p' NO_TIMER -> h = hd_id p' NO_TIMER -> t = last_id NO_TIMER p' ->
  rep (mkS a' h t (enabled s) (registered s) (log s)) (mkC n' (timers c) p' (running c) (fired c)).
Proof.
  intros R Sim Hreg Hin Hina Hpj Nd Hso Hdu Hsg -> ->.
  split; cbn; auto; try apply R.
  - rewrite (sim_len _ _ _ Sim). apply R.
  - intros i u Hu.
    assert (exists w, nth_error (arr s) i = Some w) as (w & Hw).
    { destruct (nth_error (arr s) i) eqn:E; [eauto|]. apply nth_error_None in E.
      assert (i < List.length a')%nat by (apply nth_error_Some; congruence). rewrite (sim_len _ _ _ Sim) in H. lia. }
    pose proof (similar_slot _ _ _ _ _ _ _ R Sim Hw Hu) as Hst.
    pose proof (p_slot _ _ R _ _ Hw) as S. unfold slot_ok in *. cbn.
    destruct (in_dec Nat.eq_dec i js) as [Hj|Hj].
    + destruct (Hreg i Hj) as (r & Hr & _). rewrite Hr in *. destruct S as (S1 & S2 & S3). rewrite Hst.
      split; [exact S1|split; [exact S2|]]. intros Hn. eapply Hina; eauto.
    + rewrite (sim_other _ _ _ Sim i Hj) in Hu. assert (u = w) by congruence. subst u.
      destruct (nth_error (timers c) i) as [[r|]|]; auto. destruct S as (S1 & S2 & S3).
      split; [exact S1|split; [exact S2|]]. intros _. apply S3. auto.
Qed.

Lemma remove_rep s c i : rep s c -> In i (ids (pending c)) ->
  exists s', remove i false s = Ok s' tt /\ rep s' (with_pending (cancel i (pending c)) c).
Proof.
  intros R Hi. pose proof Hi as Hi0. unfold ids in Hi. apply in_map_iff in Hi. destruct Hi as ([d i'] & E & Hi). cbn in E. subst i'.
  apply in_split in Hi. destruct Hi as (l1 & l2 & El).
  pose proof (p_seg _ _ R) as Hs. pose proof (p_nd _ _ R) as Nd. pose proof (rep_no _ _ R) as No.
  pose proof (p_head _ _ R) as Hh. pose proof (p_tail _ _ R) as Ht. pose proof (p_sort _ _ R) as So. pose proof (p_due _ _ R) as Du.
  rewrite El in *.
  destruct (remove_ok s l1 l2 d i (now c) Hs Nd No Hh Ht So Du false (or_introl eq_refl)) as (a' & E & S & Sim & t & T1 & T2).
  eexists. split; [exact E|]. rewrite cancel_split by exact Nd.
  assert (Hsub : forall k, In k (ids (l1 ++ l2)) -> In k (ids (l1 ++ (d, i) :: l2))).
  { intros k. rewrite !ids_app, !in_app_iff. cbn. tauto. }
  apply (rep_links s c (ids (l1 ++ (d, i) :: l2))); auto.
  - intros k Hk. apply (p_pend _ _ R). rewrite El. exact Hk.
  - intros k u Hu Hk Hn. assert (k = i) as -> by (rewrite !ids_app, !in_app_iff in *; cbn in *; intuition).
    congruence.
  - intros k Hk. rewrite El in Hk. exact Hk.
  - rewrite ids_app in *. apply NoDup_app_iff in Nd. destruct Nd as (A & B & C). cbn in B. inversion_clear B.
    apply NoDup_app_iff. conj; auto. intros k K1 K2. apply (C k K1). right. exact K2.
  - eapply sorted_app_del. exact So.
  - rewrite Forall_app in *. destruct Du as [D1 D2]. inversion_clear D2. auto.
Qed.

Lemma expire_rep s c d i rest : rep s c -> pending c = (d, i) :: rest ->
  exists s', remove i true s = Ok s' tt /\ rep s' (with_now d (with_pending rest c)).
Proof.
  intros R El.
  pose proof (p_seg _ _ R) as Hs. pose proof (p_nd _ _ R) as Nd. pose proof (rep_no _ _ R) as No.
  pose proof (p_head _ _ R) as Hh. pose proof (p_tail _ _ R) as Ht. pose proof (p_sort _ _ R) as So. pose proof (p_due _ _ R) as Du.
  rewrite El in *.
  destruct (remove_ok s [] rest d i (now c) Hs Nd No Hh Ht So Du true (or_intror eq_refl)) as (a' & E & S & Sim & t & T1 & T2).
  eexists. split; [exact E|]. destruct (sorted_mid [] _ _ _ _ So) as [Q1 Q2]. cbn in Q1.
  apply (rep_links s c (ids ((d, i) :: rest))); auto.
  - intros k Hk. apply (p_pend _ _ R). rewrite El. exact Hk.
  - intros k Hk. right. exact Hk.
  - intros k u Hu Hk Hn. cbn in Hk. destruct Hk as [Hk|Hk]; [|contradiction]. subst k. congruence.
  - intros k Hk. rewrite El in Hk. exact Hk.
  - inversion_clear Nd. auto.
  - inversion_clear Du as [|? ? D1 D2]. eapply Forall_impl; [|exact D2]. cbn. intros. lia.
Qed.

Lemma schedule_in d i l e : In e (schedule d i l) <-> e = (d, i) \/ In e l.
Proof.
  induction l as [|[d' j] r IH]; cbn; [intuition|]. destruct (d <=? d'); cbn; [intuition congruence|]. rewrite IH. intuition.
Qed.
Lemma schedule_ids d i l k : In k (ids (schedule d i l)) <-> k = i \/ In k (ids l).
Proof.
  unfold ids. rewrite !in_map_iff. split.
  - intros (e & <- & H). apply schedule_in in H. destruct H as [->|H]; [left; reflexivity|right; eauto].
  - intros [->|(e & <- & H)]; [exists (d, i)|exists e]; (split; [reflexivity|]); apply schedule_in; auto.
Qed.
Lemma schedule_nodup d i l : NoDup (ids l) -> ~ In i (ids l) -> NoDup (ids (schedule d i l)).
Proof.
  induction l as [|[d' j] r IH]; intros N Hi; [cbn; repeat constructor; auto|].
  cbn [schedule]. destruct (d <=? d'); cbn in *; [constructor; auto|].
  inversion_clear N. constructor; [|apply IH; tauto]. intros E. apply schedule_ids in E. destruct E as [->|E]; tauto.
Qed.
Lemma schedule_sorted d i l : forall b, b <= d -> sorted b l -> sorted b (schedule d i l).
Proof.
  unfold sorted. induction l as [|[d' j] r IH]; intros b Hb S; cbn in *.
  - constructor; [constructor; constructor|constructor; lia].
  - inversion_clear S as [|? ? S1 S2]. inversion_clear S2. destruct (Z.leb_spec d d').
    + cbn. constructor; [constructor; [exact S1|constructor; lia]|constructor; lia].
    + cbn. constructor; [apply IH; auto; lia|constructor; lia].
Qed.

Lemma insert_rep s c i t r d : rep s c -> ~ In i (ids (pending c)) ->
  nth_error (arr s) i = Some t -> nth_error (timers c) i = Some (Some r) -> r_period r <> Inactive ->
  now c <= d <= now c + Inactive - 1 ->
  exists s', insert i (set_arr (upd (arr s) i (set_delta (d - now c) t)) s) = Ok s' tt /\
             rep s' (with_pending (schedule d i (pending c)) c).
Proof.
  intros R Hn Ht Hr Hp Hd. set (s0 := set_arr _ s).
  assert (Hlt : (i < List.length (timers c))%nat) by (apply nth_error_Some; congruence).
  assert (HiN : i <> NO_TIMER) by (pose proof (p_max _ _ R); unfold NO_TIMER; lia).
  assert (Ltid : forall j u, In j (i :: ids (pending c)) -> nth_error (arr s) j = Some u -> tid u = j).
  { intros j u Hj Hu. pose proof (p_slot _ _ R _ _ Hu) as S. unfold slot_ok in S.
    assert (exists r', nth_error (timers c) j = Some (Some r')) as (r' & Hr').
    { destruct Hj as [<-|Hj]; [eauto|]. destruct (p_pend _ _ R _ Hj) as (r' & ? & _). eauto. }
    rewrite Hr' in S. destruct S as [S _]. unfold static in S. congruence. }
  assert (Sim0 : similar (i :: ids (pending c)) (arr s) (arr s0)).
  { unfold s0. cbn. apply (similar_upd _ _ _ t); auto. left; auto. }
  assert (Look : looking d i (now c) (pending c) s0 [] (pending c)).
  { unfold looking, s0. cbn [arr set_arr head last_due]. conj; auto.
    - apply seg_upd; auto. apply R.
    - intros j u Hj Hu. rewrite upd_nth in Hu. destruct (Nat.eqb_spec i j) as [->|].
      + destruct (j <? List.length (arr s))%nat; [|discriminate]. injection Hu as <-. cbn. apply Ltid; auto.
      + apply Ltid; auto.
    - apply R.
    - eexists. split; [apply upd_same, nth_error_Some; congruence|reflexivity]. }
  destruct (insert_ok d i (now c) (pending c) (p_nd _ _ R) (rep_no _ _ R) Hn HiN (p_sort _ _ R) (p_due _ _ R) Hd s0 Look (p_tail _ _ R))
    as (a' & E & S & Sim).
  eexists. split; [exact E|].
  apply (rep_links s c (i :: ids (pending c))); auto.
  - eapply similar_trans; eauto.
  - intros k [<-|Hk]; [eauto|]. apply (p_pend _ _ R). exact Hk.
  - intros k Hk. apply schedule_ids in Hk. destruct Hk as [->|Hk]; [left; auto|right; auto].
  - intros k u Hu Hk Hnn. exfalso. apply Hnn. apply schedule_ids. destruct Hk as [<-|Hk]; auto.
  - intros k Hk. right. exact Hk.
  - apply schedule_nodup; [apply R|exact Hn].
  - apply schedule_sorted; [lia|apply R].
  - rewrite Forall_forall. intros e He. apply schedule_in in He. destruct He as [->|He]; [cbn; lia|].
    pose proof (p_due _ _ R) as F. rewrite Forall_forall in F. auto.
Qed.

Lemma first_free_spec l k i : first_free l k = Some i ->
  (k <= i)%nat /\ nth_error l (i - k) = Some None.
Proof.
  revert k. induction l as [|[r|] l IH]; intros k H; cbn in H; [discriminate| |].
  - destruct (IH (S k) H) as [A B]. split; [lia|]. replace (i - k)%nat with (S (i - S k)) by lia. exact B.
  - injection H as <-. rewrite Nat.sub_diag. auto.
Qed.
Lemma count_some_le {A} (l : list (option A)) : (count_some l <= List.length l)%nat.
Proof. unfold count_some. induction l as [|[a|] l IH]; cbn; lia. Qed.
Lemma first_free_none l : forall k, first_free l k = None <-> count_some l = List.length l.
Proof.
  unfold count_some. induction l as [|[r|] l IH]; intros k; cbn; [tauto| |].
  - rewrite IH. cbn. lia.
  - pose proof (count_some_le l). unfold count_some in H. split; [discriminate|lia].
Qed.
Lemma find_free_spec s c : rep s c -> find_free (arr s) 0 = first_free (timers c) 0.
Proof.
  intros R. pose proof (p_len _ _ R) as L. pose proof (p_max _ _ R) as Mx.
  assert (H : forall i t, nth_error (arr s) i = Some t -> Nat.eqb (tid t) NO_TIMER = negb (match nth_error (timers c) i with Some (Some _) => true | _ => false end)).
  { intros i t Ht. pose proof (p_slot _ _ R _ _ Ht) as S. unfold slot_ok in S.
    destruct (nth_error (timers c) i) as [[r|]|] eqn:E; cbn.
    - destruct S as [S _]. unfold static in S. assert (tid t = i) as -> by congruence.
      apply Nat.eqb_neq. assert (i < List.length (timers c))%nat by (apply nth_error_Some; congruence). unfold NO_TIMER. lia.
    - subst t. reflexivity.
    - contradiction. }
  clear R Mx. revert L H. generalize (arr s) as a, (timers c) as l. intros a l.
  generalize 0%nat as k. revert l. induction a as [|t a IH]; intros [|o l] k L H; cbn in *; try discriminate; [reflexivity|].
  pose proof (H 0%nat t eq_refl) as H0. cbn in H0. rewrite H0.
  assert (H1 : forall i u, nth_error a i = Some u -> (tid u =? NO_TIMER)%nat = negb (match nth_error l i with Some (Some _) => true | _ => false end))
    by (intros i u Hu; apply (H (S i) u Hu)).
  destruct o; cbn; [apply IH; auto|reflexivity].
Qed.

Lemma count_some_upd {A} (l : list (option A)) i o x : nth_error l i = Some o ->
  (count_some (upd l i x) + (if is_some o then 1 else 0) = count_some l + (if is_some x then 1 else 0))%nat.
Proof.
  unfold count_some. revert i. induction l as [|y l IH]; intros [|i] H; cbn in *; try discriminate.
  - injection H as ->. destruct o, x; cbn; lia.
  - specialize (IH i H). destruct y; cbn; lia.
Qed.

(** replacing the registration of a timer that is not pending *)
Lemma rep_slot s c i o o' t' n' :
  rep s c -> nth_error (timers c) i = Some o -> ~ In i (ids (pending c)) ->
  (match o' with None => t' = blank | Some r => static t' = (r_cb r, r_period r, i, r_repeat r) /\ 0 <= r_period r < 4294967296 /\ delta t' = Inactive end) ->
  n' = count_some (upd (timers c) i o') ->
  rep (mkS (upd (arr s) i t') (head s) (tail s) (enabled s) n' (log s)) (with_timer i o' c).
Proof.
  intros R Ho Hn Ht ->. assert (Hi : (i < List.length (timers c))%nat) by (apply nth_error_Some; congruence).
  split; cbn; auto; try apply R.
  - rewrite !upd_length. apply R.
  - rewrite upd_length. apply R.
  - intros k t Hk. unfold slot_ok. cbn. rewrite upd_nth. rewrite upd_nth in Hk. destruct (Nat.eqb_spec i k) as [->|].
    + rewrite (p_len _ _ R) in Hk. destruct (k <? List.length (timers c))%nat; [|discriminate]. injection Hk as <-.
      destruct o'; [|exact Ht]. destruct Ht as (A & B & C). auto.
    + apply (p_slot _ _ R _ _ Hk).
  - apply seg_upd; [exact Hn|apply R].
  - intros k Hk. rewrite upd_other by (intros ->; contradiction). apply (p_pend _ _ R _ Hk).
Qed.

Section Variant.
  Variable msg cb_first : bool.
  Variable callback : nat -> list (nat * nat) -> prog.

  Lemma is_u32_spec x : is_u32 x = true <-> 0 <= x < 4294967296.
  Proof. unfold is_u32. lia. Qed.

  Lemma rep_rd s c i o : rep s c -> nth_error (timers c) i = Some o ->
    exists t, nth_error (arr s) i = Some t /\ slot_ok c i t.
  Proof.
    intros R H. assert (Hi : (i < List.length (timers c))%nat) by (apply nth_error_Some; congruence).
    rewrite <- (p_len _ _ R) in Hi. apply nth_error_Some in Hi. destruct (nth_error (arr s) i) as [t|] eqn:E; [|congruence].
    exists t. split; [reflexivity|]. apply (p_slot _ _ R _ _ E).
  Qed.

  (** the common part of stop/start/set_period/set_mode/unregister *)
  Lemma deactivate_ok s c i t r : rep s c -> nth_error (arr s) i = Some t -> nth_error (timers c) i = Some (Some r) ->
    exists s', (if Z.eqb (delta t) Inactive then ret tt else remove (tid t) false) s = Ok s' tt /\
               rep s' (with_pending (cancel i (pending c)) c).
  Proof.
    intros R Ht Hr. rewrite (active_iff _ _ _ _ _ R Ht Hr).
    pose proof (p_slot _ _ R _ _ Ht) as S. unfold slot_ok in S. rewrite Hr in S. destruct S as [S _].
    assert (tid t = i) as -> by (unfold static in S; congruence).
    destruct (is_pending i (pending c)) eqn:E; cbn [negb].
    - apply remove_rep; [exact R|]. apply is_pending_in. exact E.
    - exists s. split; [reflexivity|]. rewrite cancel_notin by (rewrite <- is_pending_in; congruence).
      destruct c; exact R.
  Qed.

  Definition call_sim (s : st) (x : res * clock) (m : Out st res) : Prop :=
    match m with Ok s' r => r = fst x /\ rep s' (snd x) | _ => False end.

  Lemma on_timer_ok self id s c f x k :
    rep s c -> on_timer self id c f = Some x ->
    (forall t r, nth_error (arr s) id = Some t -> nth_error (timers c) id = Some (Some r) -> tid t = id -> f r = Some x ->
        static t = (r_cb r, r_period r, id, r_repeat r) -> 0 <= r_period r < 4294967296 ->
        call_sim s x (k t s)) ->
    call_sim s x ((if Nat.eqb id NO_TIMER then ret (RBool false) else
      let! timer := rd id in if Nat.eqb (tid timer) NO_TIMER then ret (RBool false) else k timer) s).
  Proof.
    intros R H K. unfold on_timer in H. destruct (Nat.eqb_spec id NO_TIMER) as [_|Hid].
    - injection H as <-. cbn. auto.
    - destruct (nth_error (timers c) id) as [[r|]|] eqn:E; [| |discriminate].
      + destruct (rep_rd _ _ _ _ R E) as (t & Ht & S). unfold slot_ok in S. rewrite E in S.
        destruct S as (S1 & S2 & S3). assert (Hti : tid t = id) by (unfold static in S1; congruence).
        step (rd_ok _ _ _ Ht). rewrite Hti. destruct (Nat.eqb_spec id NO_TIMER); [congruence|].
        destruct (match self with Some s0 => (s0 =? id)%nat | None => false end); [discriminate|]. eauto.
      + destruct (rep_rd _ _ _ _ R E) as (t & Ht & S). unfold slot_ok in S. rewrite E in S. subst t.
        step (rd_ok _ _ _ Ht). cbn. injection H as <-. cbn. auto.
  Qed.

  Lemma cancel_not_in i l : ~ In i (ids (cancel i l)).
  Proof. intros H. apply cancel_in in H. tauto. Qed.

  Lemma stop_ok id s c t r :
    rep s c -> nth_error (arr s) id = Some t -> nth_error (timers c) id = Some (Some r) -> tid t = id -> id <> NO_TIMER ->
    exists s', stop id s = Ok s' true /\ rep s' (with_pending (cancel id (pending c)) c).
  Proof.
    intros R Ht Hr Hti Hid. unfold stop. destruct (Nat.eqb_spec id NO_TIMER); [congruence|].
    step (rd_ok _ _ _ Ht). rewrite Hti. destruct (Nat.eqb_spec id NO_TIMER); [congruence|].
    destruct (deactivate_ok s c id t r R Ht Hr) as (s' & E & R'). rewrite Hti in E. step E. exists s'. auto.
  Qed.
  Lemma stop_false id s c self f x : rep s c -> on_timer self id c f = Some x ->
    (exists t r, nth_error (arr s) id = Some t /\ nth_error (timers c) id = Some (Some r) /\ tid t = id /\ id <> NO_TIMER /\ f r = Some x /\
       static t = (r_cb r, r_period r, id, r_repeat r) /\ 0 <= r_period r < 4294967296) \/
    (stop id s = Ok s false /\ x = (RBool false, c)).
  Proof.
    intros R H. unfold on_timer in H. unfold stop. destruct (Nat.eqb_spec id NO_TIMER) as [_|Hid].
    - injection H as <-. right. auto.
    - destruct (nth_error (timers c) id) as [[r|]|] eqn:E; [| |discriminate].
      + left. destruct (rep_rd _ _ _ _ R E) as (t & Ht & S). unfold slot_ok in S. rewrite E in S. destruct S as (S1 & S2 & S3).
        destruct (match self with Some s0 => (s0 =? id)%nat | None => false end); [discriminate|].
        exists t, r. conj; auto; try lia. unfold static in S1; congruence.
      + right. destruct (rep_rd _ _ _ _ R E) as (t & Ht & S). unfold slot_ok in S. rewrite E in S. subst t.
        step (rd_ok _ _ _ Ht). cbn. injection H as <-. auto.
  Qed.

  Lemma clear_loop_ok a : forall l fuel s p b, seg (arr s) p b l NO_TIMER -> NoDup (ids l) -> ~ In NO_TIMER (ids l) ->
    (List.length l < fuel)%nat -> List.length (arr s) = a ->
    exists s', clear_loop fuel (hd_id l NO_TIMER) s = Ok s' tt /\ List.length (arr s') = a /\ enabled s' = enabled s /\ log s' = log s.
  Proof.
    induction l as [|[d j] r IH]; intros fuel s p b Hs N No Hf La; destruct fuel as [|f]; cbn [List.length] in Hf; try lia.
    - cbn. exists s. auto.
    - cbn [clear_loop hd_id]. destruct Hs as [(t & T1 & T2 & T3 & T4) S].
      destruct (Nat.eqb_spec j NO_TIMER) as [->|]; [exfalso; apply No; left; auto|].
      step (rd_ok _ _ _ T1). step (up_ok j (set_next NO_TIMER) _ _ T1). rewrite T4. inversion_clear N as [|? ? N1 N2].
      destruct (IH f (set_arr (upd (arr s) j (set_next NO_TIMER t)) s) j d) as (s' & E & A & B & C); auto.
      + cbn. apply seg_upd; auto.
      + intros E. apply No. right. exact E.
      + lia.
      + cbn. now rewrite upd_length.
      + exists s'. cbn in *. auto.
  Qed.

  Lemma spec_call_self self k c x : spec_call msg self k c = Some x -> spec_call msg None k c = Some x.
  Proof.
    assert (W : forall id f, on_timer self id c f = Some x -> on_timer None id c f = Some x).
    { intros id f. unfold on_timer. destruct (Nat.eqb id NO_TIMER); auto.
      destruct (nth_error (timers c) id) as [[r|]|]; auto.
      destruct (match self with Some s => (s =? id)%nat | None => false end); [discriminate|auto]. }
    destruct k; cbn; auto; try (destruct (is_u32 p); auto; fail).
    destruct self; [discriminate|auto].
  Qed.

  Lemma call_ok k s c x : rep s c -> spec_call msg None k c = Some x -> call_sim s x (exec_call msg k s).
  Proof.
    intros R H. destruct k; cbn [spec_call exec_call] in *.
    - (* Register *)
      destruct (is_u32 p) eqn:Hp; [|discriminate]. apply is_u32_spec in Hp.
      unfold register_timer. unfold cbind at 1. cbn [state].
      assert (Hfull : first_free (timers c) 0 = None -> (registered s <? MAX s)%nat = false).
      { intros E. apply first_free_none in E. rewrite (p_reg _ _ R). unfold MAX. rewrite (p_len _ _ R).
        destruct (Nat.ltb_spec (count_some (timers c)) (List.length (timers c))); lia. }
      assert (Hsp : forall i, first_free (timers c) 0 = Some i -> (registered s <? MAX s)%nat = true).
      { intros i E. rewrite (p_reg _ _ R). unfold MAX. rewrite (p_len _ _ R). pose proof (count_some_le (timers c)).
        destruct (Nat.ltb_spec (count_some (timers c)) (List.length (timers c))) as [|G]; auto.
        assert (first_free (timers c) 0 = None) by (apply first_free_none; lia). congruence. }
      destruct (msg && match cb with None => true | _ => false end) eqn:Em.
      { injection H as <-. destruct (registered s <? MAX s)%nat; cbn; auto. }
      rewrite (find_free_spec _ _ R). destruct (first_free (timers c) 0) as [i|] eqn:Ef.
      + rewrite (Hsp i eq_refl). injection H as <-. apply first_free_spec in Ef. destruct Ef as [_ Ef]. rewrite Nat.sub_0_r in Ef.
        destruct (rep_rd _ _ _ _ R Ef) as (t & Ht & S). step (up_ok i (fun _ => fresh i cb p r) _ _ Ht).
        unfold cbind, modify, ret, set_registered. cbn. split; [reflexivity|].
        eapply rep_slot; eauto.
        * intros E. destruct (p_pend _ _ R _ E) as (r' & E' & _). congruence.
        * pose proof (count_some_upd _ _ _ (Some (mkR cb p r)) Ef) as Q. cbn in Q. rewrite (p_reg _ _ R). lia.
      + rewrite (Hfull eq_refl). injection H as <-. cbn. auto.
    - (* Unregister *)
      unfold unregister_timer.
      refine (on_timer_ok None id s c _ x
        (fun timer => (if Z.eqb (delta timer) Inactive then ret tt else remove (tid timer) msg) ;;
             up id (fun _ => blank) ;; modify (fun s => set_registered (registered s - 1) s) ;; ret (RBool true)) R H _).
      intros t r Ht Hr Hti Hx Hst Hper. cbn beta.
      destruct (msg && is_pending id (pending c)) eqn:Em; [discriminate|]. injection Hx as <-.
      assert (exists s', (if Z.eqb (delta t) Inactive then ret tt else remove (tid t) msg) s = Ok s' tt /\
                   rep s' (with_pending (cancel id (pending c)) c)) as (s' & E & R').
      { destruct msg eqn:Emsg; cbn in Em.
        - rewrite (active_iff _ _ _ _ _ R Ht Hr), Em. cbn. exists s. split; [reflexivity|].
          rewrite cancel_notin by (rewrite <- is_pending_in; congruence). destruct c; exact R.
        - apply (deactivate_ok s c id t r); auto. }
      step E. destruct (rep_rd _ _ id (Some r) R' Hr) as (t' & Ht' & S').
      step (up_ok id (fun _ => blank) _ _ Ht'). unfold cbind, modify, ret, set_registered. cbn. split; [reflexivity|].
      apply (rep_slot s' _ id (Some r)); auto.
      + apply cancel_not_in.
      + pose proof (count_some_upd _ _ _ None Hr) as Q. cbn [is_some] in Q. rewrite (p_reg _ _ R'). cbn [timers with_pending]. lia.
    - (* Start *)
      unfold start.
      refine (on_timer_ok None id s c _ x
        (fun timer => if Z.eqb (period timer) Inactive then ret (RBool false) else
            (if Z.eqb (delta timer) Inactive then ret tt else remove (tid timer) false) ;;
            up id (set_delta (if immediate then 0 else period timer)) ;;
            let! timer := rd id in insert (tid timer) ;; ret (RBool true)) R H _).
      intros t r Ht Hr Hti Hx Hst Hper. cbn beta.
      assert (Hp : period t = r_period r) by (unfold static in Hst; congruence). rewrite Hp.
      destruct (Z.eqb_spec (r_period r) Inactive) as [|Hne]; [injection Hx as <-; cbn; auto|]. injection Hx as <-.
      destruct (deactivate_ok s c id t r R Ht Hr) as (s' & E & R'). step E.
      destruct (rep_rd _ _ id (Some r) R' Hr) as (t' & Ht' & S'). unfold slot_ok in S'. cbn in S'. rewrite Hr in S'. destruct S' as (S1 & S2 & S3).
      match goal with |- context [cbind (up id ?F) _ ?S] => rewrite (cbind_ok _ _ _ _ _ (up_ok id F S _ Ht')) end.
      set (dl := if immediate then 0 else r_period r).
      assert (T2 : nth_error (arr (set_arr (upd (arr s') id (set_delta dl t')) s')) id = Some (set_delta dl t')).
      { cbn. apply upd_same, nth_error_Some. congruence. }
      step (rd_ok _ _ _ T2).
      assert (tid (set_delta dl t') = id) as -> by (cbn; unfold static in S1; congruence).
      assert (Hbound : 0 <= dl <= Inactive - 1) by (unfold dl, Inactive in *; destruct immediate; lia).
      destruct (insert_rep s' _ id t' r (now c + dl) R' (cancel_not_in _ _) Ht' Hr Hne ltac:(cbn; lia)) as (s2 & E2 & R2).
      cbn [now with_pending] in E2. replace (now c + dl - now c) with dl in E2 by lia. step E2. cbn. split; [reflexivity|].
      replace (if immediate then now c else now c + r_period r) with (now c + dl) by (unfold dl; destruct immediate; lia).
      exact R2.
    - (* Stop *)
      destruct (stop_false id s c None _ x R H) as [(t & r & Ht & Hr & Hti & Hid & Hx & _)|[E ->]].
      + destruct (stop_ok id s c t r R Ht Hr Hti Hid) as (s' & E & R'). step E. cbn beta in Hx. injection Hx as <-. cbn. auto.
      + step E. cbn. auto.
    - (* SetPeriod *)
      destruct (is_u32 p) eqn:Hp; [|discriminate]. apply is_u32_spec in Hp. unfold set_period.
      destruct (stop_false id s c None _ x R H) as [(t & r & Ht & Hr & Hti & Hid & Hx & Hst & Hper)|[E ->]].
      + destruct (stop_ok id s c t r R Ht Hr Hti Hid) as (s' & E & R'). step E. cbn beta in Hx. injection Hx as <-.
        destruct (rep_rd _ _ id (Some r) R' Hr) as (t' & Ht' & S'). unfold slot_ok in S'. cbn in S'. rewrite Hr in S'. destruct S' as (S1 & S2 & S3).
        step (up_ok id (set_per p) _ _ Ht'). cbn. split; [reflexivity|].
        apply (rep_slot s' (with_pending (cancel id (pending c)) c) id (Some r)); auto.
        * apply cancel_not_in.
        * cbn. conj; auto; try lia; [unfold static in *; cbn; congruence|apply S3, cancel_not_in].
        * pose proof (count_some_upd _ _ _ (Some (mkR (r_cb r) p (r_repeat r))) Hr) as Q. cbn [is_some] in Q. rewrite (p_reg _ _ R'). cbn [timers with_pending]. lia.
      + step E. cbn. auto.
    - (* SetMode *)
      unfold set_mode.
      destruct (stop_false id s c None _ x R H) as [(t & r' & Ht & Hr & Hti & Hid & Hx & Hst & Hper)|[E ->]].
      + destruct (stop_ok id s c t r' R Ht Hr Hti Hid) as (s' & E & R'). step E. cbn beta in Hx. injection Hx as <-.
        destruct (rep_rd _ _ id (Some r') R' Hr) as (t' & Ht' & S'). unfold slot_ok in S'. cbn in S'. rewrite Hr in S'. destruct S' as (S1 & S2 & S3).
        step (up_ok id (set_rep r) _ _ Ht'). cbn. split; [reflexivity|].
        apply (rep_slot s' (with_pending (cancel id (pending c)) c) id (Some r')); auto.
        * apply cancel_not_in.
        * cbn. conj; auto; try lia; [unfold static in *; cbn; congruence|apply S3, cancel_not_in].
        * pose proof (count_some_upd _ _ _ (Some (mkR (r_cb r') (r_period r') r)) Hr) as Q. cbn [is_some] in Q. rewrite (p_reg _ _ R'). cbn [timers with_pending]. lia.
      + step E. cbn. auto.
    - (* Enable *) injection H as <-. cbn. split; [reflexivity|]. destruct R. split; auto.
    - (* IsRunning *) injection H as <-. cbn. split; [|exact R]. f_equal. apply R.
    - (* Clear *)
      injection H as <-. unfold clear, list_clear.
      destruct (clear_loop_ok (List.length (arr s)) (pending c) (S (MAX s)) s NO_TIMER (now c) (p_seg _ _ R) (p_nd _ _ R) (rep_no _ _ R)) as (s' & E & A & B & C); auto.
      { pose proof (p_seg _ _ R) as Q. apply seg_length in Q; [|apply R]. unfold MAX. lia. }
      unfold cbind at 1. unfold cbind at 1. cbn [state]. rewrite (p_head _ _ R). step E. cbn. split; [reflexivity|].
      pose proof (p_max _ _ R). pose proof (p_len _ _ R).
      unfold MAX. cbn. rewrite A.
      split; cbn; auto; try (rewrite ?repeat_length; lia).
      + intros i t Ht. unfold slot_ok. cbn. rewrite nth_error_repeat_if; rewrite nth_error_repeat_if in Ht. rewrite H0 in Ht.
        destruct (i <? List.length (timers c))%nat; congruence.
      + constructor.
      + constructor; constructor.
      + symmetry; apply count_none.
      + rewrite B. apply R.
      + rewrite C. apply R.
    - (* HasActive *)
      injection H as <-. unfold has_active_timer, list_empty, cbind, state, ret. cbn. split; [|exact R].
      rewrite (p_head _ _ R). f_equal. destruct (pending c) as [|[d j] r] eqn:El; cbn; [reflexivity|].
      destruct (Nat.eqb_spec j NO_TIMER) as [->|]; [|reflexivity]. exfalso. apply (rep_no _ _ R). rewrite El. left. reflexivity.
    - (* TimeToNext *)
      injection H as <-. unfold time_to_next, has_active_timer, list_empty. unfold cbind at 1 2 3, state, ret at 1 2. cbn [arr].
      rewrite (p_head _ _ R). destruct (pending c) as [|[d j] r] eqn:El; cbn [hd_id].
      + cbn. auto.
      + destruct (Nat.eqb_spec j NO_TIMER) as [->|]; [exfalso; apply (rep_no _ _ R); rewrite El; left; reflexivity|]. cbn [negb].
        unfold cbind at 1. cbn [state].
        pose proof (p_seg _ _ R) as Hs. rewrite El in Hs. destruct Hs as [(t & T1 & T2 & _) _].
        unfold cbind at 1. rewrite (p_head _ _ R), El. cbn [hd_id]. rewrite (rd_ok _ _ _ T1). cbn. split; [congruence|exact R].
    - (* IsActive *)
      injection H as <-. unfold is_active. unfold cbind at 1. cbn [state]. unfold MAX. rewrite (p_len _ _ R).
      assert (Hlt : forall j, In j (ids (pending c)) -> (j < List.length (timers c))%nat).
      { intros j Hj. destruct (p_pend _ _ R _ Hj) as (r & Hr & _). apply nth_error_Some. congruence. }
      destruct (Nat.ltb_spec id (List.length (timers c))) as [Hi|Hi].
      + unfold has_active_timer, list_empty. unfold cbind at 1 2 3, state, ret at 1 2.
        rewrite (p_head _ _ R). destruct (pending c) as [|[d j] r] eqn:El; cbn [hd_id].
        * cbn. auto.
        * destruct (Nat.eqb_spec j NO_TIMER) as [->|]; [exfalso; apply (rep_no _ _ R); rewrite El; left; reflexivity|]. cbn [negb].
          destruct (nth_error (timers c) id) as [o|] eqn:Eo; [|apply nth_error_None in Eo; lia].
          destruct (rep_rd _ _ _ _ R Eo) as (t & Ht & S). unfold slot_ok in S. rewrite Eo in S.
          step (rd_ok _ _ _ Ht). destruct o as [r'|].
          -- destruct S as (S1 & _). assert (tid t = id) as -> by (unfold static in S1; congruence).
             destruct (Nat.eqb_spec id NO_TIMER) as [E|]; [pose proof (p_max _ _ R); unfold NO_TIMER in E; lia|].
             cbn. rewrite (active_iff _ _ _ _ _ R Ht Eo), El, negb_involutive. split; [reflexivity|exact R].
          -- subst t. cbn. split; [|exact R]. f_equal.
             destruct (is_pending id ((d, j) :: r)) eqn:E; [|unfold is_pending in E; cbn in E; congruence].
             apply is_pending_in in E. rewrite <- El in E. destruct (p_pend _ _ R _ E) as (r0 & E0 & _). congruence.
      + cbn. split; [|exact R]. f_equal. destruct (is_pending id (pending c)) eqn:E; auto.
        apply is_pending_in in E. apply Hlt in E. lia.
  Qed.

  Lemma prog_ok self p : forall s c c', rep s c -> spec_prog msg self p c = Some c' ->
    exists s', exec_prog msg p s = Ok s' tt /\ rep s' c'.
  Proof.
    induction p as [|k f IH]; intros s c c' R H; cbn in *.
    - injection H as <-. exists s. auto.
    - destruct (spec_call msg self k c) as [[r c1]|] eqn:E; [|discriminate].
      apply spec_call_self in E. pose proof (call_ok k s c _ R E) as Q. unfold call_sim in Q. unfold cbind.
      destruct (exec_call msg k s) as [s1 r1| |]; try contradiction. cbn in Q. destruct Q as [-> R1]. eauto.
  Qed.
End Variant.
