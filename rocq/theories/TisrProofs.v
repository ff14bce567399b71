(** Interrupted calls: every action of a thread keeps the clock of C25, and the ticks in between pass it on *)
From Coq Require Import List Arith Lia Bool String ZArith Sorted.
From Verif Require Import Util Slots Cmd TimerModel TimerSpec TimerProofs TimerProofs2 TimerProofs3 TimerProofs4 TisrModel TisrSpec.
Import ListNotations.
Local Open Scope Z_scope.

(** m answers a in s' for every fuel that is large enough *)
Definition runs {A} (m : nat -> Cmd st A) (s s' : st) (a : A) : Prop := exists F, forall f, (F <= f)%nat -> m f s = Ok s' a.
Lemma runs_bind {A B} (m : nat -> Cmd st A) (k : nat -> A -> Cmd st B) s s1 a s2 b :
  runs m s s1 a -> runs (fun f => k f a) s1 s2 b -> runs (fun f => cbind (m f) (k f)) s s2 b.
Proof. intros (F & H) (G & K). exists (Nat.max F G). intros f Hf. unfold cbind. rewrite H by lia. apply K. lia. Qed.
Lemma runs_const {A} (m : Cmd st A) s s' a : m s = Ok s' a -> runs (fun _ => m) s s' a.
Proof. intros H. exists 0%nat. auto. Qed.

Section Timer.
Variable msg : bool.
Variable kd : kind.
Notation cb := (callback_first kd).
Notation el := (elapse msg cb quiet).

Lemma accepted_app l l' : accepted (l ++ l') = accepted l ++ accepted l'.
Proof. unfold accepted. now rewrite filter_app, map_app. Qed.

(** ** ticks on the clock *)
Definition pass (c : clock) (n : Z) (c' : clock) : Prop := is_u32 n = true /\ running c = true /\ exists F, forall f, (F <= f)%nat -> el f (now c + n) c = Some c'.
Inductive passes : clock -> list Z -> clock -> Prop :=
| passes_nil c : passes c [] c
| passes_cons c n c1 ns c2 : pass c n c1 -> passes c1 ns c2 -> passes c (n :: ns) c2.
Lemma passes_app c a c1 b c2 : passes c a c1 -> passes c1 b c2 -> passes c (a ++ b) c2.
Proof. induction 1; cbn; auto. intros. econstructor; eauto. Qed.

Definition all_regs (P : reg -> Prop) (c : clock) : Prop := forall i r, nth_error (timers c) i = Some (Some r) -> P r.
Definition sane := all_regs (fun r => 1 <= r_period r).

(** expire without callbacks *)
Lemma expire_quiet d i c c' : expire msg cb quiet d i c = Some c' ->
  exists r, nth_error (timers c) i = Some (Some r) /\ timers c' = timers c /\ running c' = running c /\ now c' = now c /\
    pending c' = (if r_repeat r then schedule (d + r_period r) i (pending c) else pending c) /\
    forall id o, id <> i -> expire msg cb quiet d i (with_timer id o c) = Some (with_timer id o c').
Proof.
  assert (CB : forall c c', call_back msg cb quiet i c = Some c' -> exists r, nth_error (timers c) i = Some (Some r) /\ c' = mkC (now c) (timers c) (pending c) (running c) (fired c') /\
     forall x, fired c' = fired x -> c' = c' ).
  { intros x x' H. unfold call_back in H. destruct (nth_error (timers x) i) as [[r|]|]; try discriminate. exists r. conj; auto.
    destruct (r_cb r); cbn in H; injection H as <-; destruct x; reflexivity. }
  assert (CW : forall c c' id o, id <> i -> call_back msg cb quiet i c = Some c' -> call_back msg cb quiet i (with_timer id o c) = Some (with_timer id o c')).
  { intros x x' id o Hne H. unfold call_back in *. cbn [timers with_timer]. rewrite upd_other by congruence. destruct (nth_error (timers x) i) as [[r|]|]; try discriminate.
    destruct (r_cb r); cbn in *; injection H as <-; reflexivity. }
  assert (RW : forall c c' id o, id <> i -> rearm d i c = Some c' -> rearm d i (with_timer id o c) = Some (with_timer id o c')).
  { intros x x' id o Hne H. unfold rearm in *. cbn [timers with_timer]. rewrite upd_other by congruence. destruct (nth_error (timers x) i) as [[r|]|]; try discriminate.
    destruct (r_repeat r); injection H as <-; reflexivity. }
  intros H. unfold expire in *.
  assert (X : exists r, nth_error (timers c) i = Some (Some r) /\ timers c' = timers c /\ running c' = running c /\ now c' = now c /\
    pending c' = (if r_repeat r then schedule (d + r_period r) i (pending c) else pending c)).
  { destruct cb eqn:Ecb.
    - destruct (call_back msg true quiet i c) as [c1|] eqn:E1; cbn [obind] in H; [|discriminate]. rewrite <- Ecb in E1. destruct (CB _ _ E1) as (r & Hr & E & _).
      rewrite E in H. unfold rearm in H. cbn [timers pending] in H. rewrite Hr in H. exists r. destruct (r_repeat r); injection H as <-; cbn; auto.
    - destruct (rearm d i c) as [c1|] eqn:E1; cbn [obind] in H; [|discriminate]. rewrite <- Ecb in H. destruct (CB _ _ H) as (r & Hr & E & _). rewrite E.
      unfold rearm in E1. destruct (nth_error (timers c) i) as [[r'|]|] eqn:Er; try discriminate. exists r'. cbn. destruct (r_repeat r'); injection E1 as <-; cbn; auto. }
  destruct X as (r & A1 & A2 & A3 & A4 & A5). exists r. conj; auto. intros id o Hne.
  destruct cb eqn:Ecb.
  - destruct (call_back msg true quiet i c) as [c1|] eqn:E1; cbn [obind] in H; [|discriminate]. rewrite <- Ecb in *. rewrite (CW _ _ id o Hne E1). cbn [obind]. auto.
  - destruct (rearm d i c) as [c1|] eqn:E1; cbn [obind] in H; [|discriminate]. rewrite (RW _ _ id o Hne E1). cbn [obind]. rewrite <- Ecb in *. auto.
Qed.

Lemma elapse_quiet : forall f t c c', el f t c = Some c' -> timers c' = timers c /\ running c' = running c /\ now c' = t /\
  (forall id, ~ In id (ids (pending c)) -> ~ In id (ids (pending c')) /\ forall o, el f t (with_timer id o c) = Some (with_timer id o c')) /\
  (all_regs (fun r => r_repeat r = true) c -> forall id, In id (ids (pending c)) -> In id (ids (pending c'))).
Proof.
  induction f as [|f IH]; intros t c c' H; cbn [elapse] in H; [discriminate|]. destruct (pending c) as [|[d i] rest] eqn:El.
  - injection H as <-. cbn. rewrite El. conj; auto.
  - destruct (d <=? t) eqn:Ed.
    + destruct (expire msg cb quiet d i (with_now d (with_pending rest c))) as [c1|] eqn:Ex; cbn [obind] in H; [|discriminate].
      destruct (expire_quiet _ _ _ _ Ex) as (r & Hr & T & R & N & P & W). cbn in Hr, T, R, N, P. destruct (IH _ _ _ H) as (A & B & C & D & E).
      conj; try congruence.
      * intros id Hid. cbn in Hid. assert (Hne : id <> i) by (intros ->; apply Hid; auto).
        assert (Hp1 : ~ In id (ids (pending c1))).
        { rewrite P. destruct (r_repeat r); [|tauto]. intros Hx. apply schedule_ids in Hx. tauto. }
        destruct (D id Hp1) as (D1 & D2). split; [exact D1|]. intros o. cbn [elapse with_timer pending]. rewrite El, Ed.
        specialize (W id o Hne). unfold with_timer, with_now, with_pending in *. cbn in *. rewrite W. cbn [obind]. apply D2.
      * intros Hall id Hid. apply E.
        -- intros j q Hj. rewrite T in Hj. eauto.
        -- rewrite P. rewrite (Hall _ _ Hr). apply schedule_ids. cbn in Hid. destruct Hid as [<-|Hid]; auto.
    + injection H as <-. cbn. rewrite El. conj; auto. intros id Hid. split; [exact Hid|]. intros o. cbn. rewrite ?El, Ed. reflexivity.
Qed.
Lemma passes_keep c ns c' : passes c ns c' -> timers c' = timers c /\ running c' = running c /\
  (forall id, ~ In id (ids (pending c)) -> ~ In id (ids (pending c')) /\ forall o, passes (with_timer id o c) ns (with_timer id o c')) /\
  (all_regs (fun r => r_repeat r = true) c -> forall id, In id (ids (pending c)) -> In id (ids (pending c'))).
Proof.
  induction 1 as [c|c n c1 ns c2 (Hn & Hr & F & HF) H IH].
  - conj; auto. intros id Hid. split; [exact Hid|]. intros; constructor.
  - destruct IH as (A & B & C & D). destruct (elapse_quiet _ _ _ _ (HF F (le_n _))) as (A1 & B1 & N1 & C1 & D1). conj; try congruence.
    + intros id Hid. destruct (C1 id Hid) as (Q1 & Q2). destruct (C id Q1) as (Q3 & Q4). split; [exact Q3|]. intros o. apply passes_cons with (with_timer id o c1); [|apply Q4].
      unfold pass. conj; [exact Hn|exact Hr|]. exists F. intros f Hf. cbn [now with_timer]. change (now (with_timer id o c)) with (now c).
      destruct (elapse_quiet _ _ _ _ (HF f Hf)) as (_ & _ & _ & C2 & _). apply (proj2 (C2 id Hid)).
    + intros Hall id Hid. apply D; [|auto]. intros j q Hj. rewrite A1 in Hj. eauto.
Qed.

(** ** ticks on the timers *)
Lemma tick_loop_mono f : forall f' n s s' r, (f <= f')%nat -> tick_loop msg cb quiet f n s = Ok s' r -> tick_loop msg cb quiet f' n s = Ok s' r.
Proof.
  induction f as [|f IH]; intros f' n s s' r Hf H; [discriminate|]. destruct f' as [|f']; [lia|]. cbn [tick_loop] in *.
  unfold cbind at 1 in H. unfold cbind at 1. destruct (list_empty s) as [s1 e| |]; try discriminate. destruct e; [exact H|].
  unfold cbind at 1 in H. unfold cbind at 1. cbn [state] in *.
  unfold cbind at 1 in H. unfold cbind at 1. destruct (rd (head s1) s1) as [s2 t| |]; try discriminate. destruct (delta t <=? n); [|exact H].
  unfold cbind at 1 in H. unfold cbind at 1. destruct (remove (tid t) true s2) as [s3 u| |]; try discriminate.
  unfold cbind at 1 in H. unfold cbind at 1. match goal with |- match ?m with _ => _ end = _ => destruct m as [s4 u'| |] end; try discriminate.
  apply IH; [lia|exact H].
Qed.
Lemma tick_mono f f' n s s' r : (f <= f')%nat -> tick msg cb quiet f n s = Ok s' r -> tick msg cb quiet f' n s = Ok s' r.
Proof.
  intros Hf H. unfold tick in *. unfold cbind at 1 in H. unfold cbind at 1. cbn [state] in *. destruct (enabled s); [|exact H]. unfold cbind at 1 in H. unfold cbind at 1.
  destruct (tick_loop msg cb quiet f n s) as [s1 x| |] eqn:E; try discriminate. rewrite (tick_loop_mono f f' n s s1 x Hf E). exact H.
Qed.
Lemma tick_ok s c n : rep s c -> sane c -> is_u32 n = true ->
  exists s' b c', runs (fun f => handler msg kd f 0 n) s s' b /\ rep s' c' /\ (if b then pass c n c' else s' = s /\ c' = c) /\ (running c = b).
Proof.
  intros R Sa Hn. destruct (running c) eqn:Er.
  - pose proof Hn as Hn2. apply is_u32_spec in Hn2.
    destruct (elapse_total msg cb quiet ltac:(reflexivity) (now c + n) _ c s (le_n _) R Sa ltac:(lia)) as (c' & Ec). set (F := S (total c (now c + n) (pending c))) in *.
    pose proof (step_refines msg cb quiet F (Tick n) s c (Returned (RTick true (fired c'))) c' R) as St. cbn [timer_spec exec] in St. rewrite Hn, Er, Ec in St. specialize (St eq_refl).
    destruct (tick msg cb quiet F n s) as [s' r|s' e|] eqn:Et; try contradiction; [|destruct St as (St & _); discriminate]. destruct St as (E & R'). injection E as <-.
    exists s', true, c'. conj; auto.
    + exists F. intros f Hf. unfold handler. unfold cbind, state. rewrite (p_en _ _ R), Er. cbn [Nat.eqb negb andb]. rewrite (tick_mono F f n s s' _ Hf Et). reflexivity.
    + unfold pass. conj; auto. exists F. intros f Hf. exact (elapse_mono _ _ _ F f _ _ _ Hf Ec).
  - exists s, false, c. conj; auto. exists 0%nat. intros f _. unfold handler, cbind, state. rewrite (p_en _ _ R), Er. cbn [Nat.eqb negb andb]. unfold tick, cbind, state. rewrite (p_en _ _ R), Er. reflexivity.
Qed.
Lemma sane_same P c c' : timers c' = timers c -> all_regs P c -> all_regs P c'.
Proof. intros E H i r. rewrite E. apply H. Qed.
Lemma handlers_ok : forall ns s c, rep s c -> sane c -> Forall (fun n => is_u32 n = true) ns ->
  exists s' rec c', runs (fun f => handlers msg kd f 0 ns) s s' rec /\ rep s' c' /\ map fst rec = ns /\ passes c (accepted rec) c' /\ (running c = true -> accepted rec = ns).
Proof.
  induction ns as [|n ns IH]; intros s c R Sa F.
  - exists s, [], c. conj; auto; [apply runs_const; reflexivity|constructor].
  - inversion_clear F as [|? ? Hn F']. destruct (tick_ok s c n R Sa Hn) as (s1 & b & c1 & A & R1 & P & Rb).
    assert (T1 : timers c1 = timers c /\ running c1 = running c).
    { destruct b; [|destruct P; subst; auto]. destruct (passes_keep c [n] c1) as (X & Y & _); [|auto]. econstructor; [exact P|constructor]. }
    destruct T1 as (T1 & T2). destruct (IH s1 c1 R1 (sane_same _ _ _ T1 Sa) F') as (s2 & rec & c2 & B & R2 & M & Ps & Al).
    exists s2, ((n, b) :: rec), c2. conj; auto.
    + cbn [handlers]. eapply runs_bind; [exact A|]. eapply runs_bind; [exact B|]. apply runs_const. reflexivity.
    + cbn. now rewrite M.
    + unfold accepted. cbn [filter snd]. destruct b; [econstructor; eauto|]. destruct P as (-> & ->). exact Ps.
    + intros Hr. rewrite Hr in Rb. subst b. unfold accepted in *. cbn. rewrite Al by congruence. reflexivity.
Qed.

(** the counter of the registered timers is not touched by a tick *)
Definition same_but_reg {A} (x y : Out st A) (m : nat) : Prop :=
  match x, y with Ok s a, Ok s' b => s' = set_registered m s /\ a = b | Ex s e, Ex s' e' => s' = set_registered m s /\ e = e' | Bad, Bad => True | _, _ => False end.
Definition blind {A} (c : Cmd st A) : Prop := forall m s, same_but_reg (c s) (c (set_registered m s)) m.
Lemma blind_bind {A B} (c : Cmd st A) (k : A -> Cmd st B) : blind c -> (forall a, blind (k a)) -> blind (cbind c k).
Proof.
  intros Hc Hk m s. unfold cbind. specialize (Hc m s). unfold same_but_reg in Hc.
  destruct (c s) as [s1 a|s1 e|], (c (set_registered m s)) as [s2 b|s2 e2|]; try contradiction; try exact I; destruct Hc as (-> & ->); [apply Hk|split; auto].
Qed.
Lemma blind_ret {A} (a : A) : blind (ret a). Proof. intros m s. split; reflexivity. Qed.
Lemma blind_rd i : blind (rd i). Proof. intros m s. unfold rd. cbn [arr set_registered]. destruct (nth_error (arr s) i); cbn; auto. Qed.
Lemma blind_up i f : blind (up i f). Proof. intros m s. unfold up. cbn [arr set_registered]. destruct (nth_error (arr s) i); cbn; auto. Qed.
Lemma blind_state {B} (k : st -> Cmd st B) : (forall m s, same_but_reg (k s s) (k (set_registered m s) (set_registered m s)) m) -> blind (let! s := state in k s).
Proof. intros H m s. exact (H m s). Qed.
Lemma blind_modify f : (forall m s, f (set_registered m s) = set_registered m (f s)) -> blind (modify f).
Proof. intros H m s. cbn. rewrite H. auto. Qed.
Lemma blind_bad {A} : blind (fun _ => @Bad st A). Proof. intros m s. exact I. Qed.
Ltac bl := repeat first [apply blind_rd | apply blind_up | apply blind_ret | apply blind_bad | (apply blind_modify; reflexivity) | (apply blind_bind; [|intros ?])
  | match goal with |- blind (if ?b then _ else _) => destruct b end ].
Lemma blind_insert_loop id : forall f t, blind (insert_loop f id t).
Proof.
  induction f as [|f IH]; intros t; cbn [insert_loop]; [bl|]. destruct (Nat.eqb t NO_TIMER); [bl|]. apply blind_bind; [bl|intros t1]. apply blind_bind; [bl|intros t2].
  destruct (delta t1 <=? delta t2); [|bl; apply IH].
  apply blind_state. intros m s. change (head (set_registered m s)) with (head s). revert m s. change (blind (A := nat) ?x) with (blind x).
  match goal with |- forall m s, same_but_reg (?k s) _ m => idtac end.
  intros m s.
  match goal with |- same_but_reg ((?a;;?b) s) _ m => assert (G : blind (a ;; b)) by bl; exact (G m s) end.
Qed.
Lemma blind_insert id : blind (insert id).
Proof.
  unfold insert. apply blind_state. intros m s. change (head (set_registered m s)) with (head s). change (MAX (set_registered m s)) with (MAX s).
  match goal with |- same_but_reg (?c s) _ m => assert (G : blind c); [|exact (G m s)] end. destruct (Nat.eqb (head s) NO_TIMER); [bl|].
  apply blind_bind; [apply blind_insert_loop|intros t]. destruct (Nat.eqb t NO_TIMER); [|bl].
  apply blind_state. clear m s. intros m s. change (tail (set_registered m s)) with (tail s).
  match goal with |- same_but_reg (?c s) _ m => assert (G : blind c) by bl; exact (G m s) end.
Qed.
Lemma blind_remove id b : blind (remove id b).
Proof.
  unfold remove. apply blind_state. intros m s. change (head (set_registered m s)) with (head s).
  match goal with |- same_but_reg (?c s) _ m => assert (G : blind c); [|exact (G m s)] end. apply blind_bind; [bl|intros t]. apply blind_bind; [bl|intros _].
  apply blind_state. clear m s. intros m s. change (tail (set_registered m s)) with (tail s).
  match goal with |- same_but_reg (?c s) _ m => assert (G : blind c) by bl; exact (G m s) end.
Qed.
Lemma blind_empty : blind list_empty.
Proof. intros m s. cbn. auto. Qed.
Lemma blind_invoke i o : blind (invoke msg quiet i o).
Proof. unfold invoke. destruct o; [|bl]. intros m s. cbn. auto. Qed.
Lemma blind_reinsert i : blind (reinsert i).
Proof. unfold reinsert. apply blind_bind; [bl|intros t]. destruct (repeating t); [|bl]. apply blind_bind; [bl|intros _]. apply blind_bind; [bl|intros t']. apply blind_insert. Qed.
Lemma blind_tick_loop : forall f n, blind (tick_loop msg cb quiet f n).
Proof.
  induction f as [|f IH]; intros n; cbn [tick_loop]; [bl|]. apply blind_bind; [apply blind_empty|intros e]. destruct e; [bl|].
  apply blind_state. intros m s. change (head (set_registered m s)) with (head s).
  match goal with |- same_but_reg (?c s) _ m => assert (G : blind c); [|exact (G m s)] end. apply blind_bind; [bl|intros t]. destruct (delta t <=? n); [|bl].
  apply blind_bind; [apply blind_remove|intros _]. apply blind_bind; [|intros _; apply IH].
  destruct cb; [apply blind_bind; [bl|intros t']; apply blind_bind; [apply blind_invoke|intros _; apply blind_reinsert]|
    apply blind_bind; [apply blind_reinsert|intros _]; apply blind_bind; [bl|intros t']; apply blind_invoke].
Qed.
Lemma blind_handler f n : blind (handler msg kd f 0 n).
Proof.
  unfold handler. apply blind_state. intros m s. change (enabled (set_registered m s)) with (enabled s). cbn [Nat.eqb negb]. rewrite andb_false_r.
  match goal with |- same_but_reg (?c s) _ m => assert (G : blind c); [|exact (G m s)] end. apply blind_bind; [|intros r; destruct r; bl].
  unfold tick. clear. intros m s. unfold cbind at 1. unfold cbind at 5. cbn [state]. change (enabled (set_registered m s)) with (enabled s). destruct (enabled s); [|split; reflexivity].
  match goal with |- same_but_reg (?c s) _ m => assert (G : blind c); [|exact (G m s)] end.
  apply blind_bind; [apply blind_tick_loop|intros (cnt, ha)]. apply blind_bind.
  - destruct ha; [|bl]. apply blind_state. clear m s. intros m s. change (head (set_registered m s)) with (head s).
    match goal with |- same_but_reg (?c s) _ m => assert (G : blind c) by bl; exact (G m s) end.
  - intros _. clear m s. intros m s. cbn. auto.
Qed.
Lemma blind_handlers f : forall ns, blind (handlers msg kd f 0 ns).
Proof. induction ns; cbn [handlers]; [bl|]. apply blind_bind; [apply blind_handler|intros b]. apply blind_bind; [exact IHns|intros r; bl]. Qed.
End Timer.
