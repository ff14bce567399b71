(** Interrupted calls: the rules for threads, and every call *)
From Coq Require Import List Arith Lia Bool String ZArith Sorted.
From Verif Require Import Util Slots Cmd TimerModel TimerSpec TimerProofs TimerProofs2 TimerProofs3 TimerProofs4 TisrModel TisrSpec TisrProofs.
Import ListNotations.
Local Open Scope Z_scope.

Section Timer.
Variable msg : bool.
Variable kd : kind.
Notation cb := (callback_first kd).
Notation passes := (passes msg kd).
Notation pass := (pass msg kd).
Definition u32s (ns : list Z) : Prop := Forall (fun n => is_u32 n = true) ns.
Definition Fine (pend : list Z) (arr : list (list Z)) : Prop := u32s (pend ++ List.concat arr).
Lemma concat_hd (arr : list (list Z)) : List.concat arr = hd [] arr ++ List.concat (tl arr).
Proof. destruct arr; reflexivity. Qed.
Lemma Fine_tl pend arr : Fine pend arr -> u32s (pend ++ hd [] arr) /\ Fine [] (tl arr).
Proof. unfold Fine. rewrite concat_hd, app_assoc. intros H. apply Forall_app in H as (A & B). auto. Qed.
Lemma Fine_move pend arr : Fine pend arr -> Fine (pend ++ hd [] arr) (tl arr).
Proof. unfold Fine. rewrite concat_hd, app_assoc. auto. Qed.

(** a relation between the timers and the clock that a tick keeps *)
Definition tickable (J : st -> clock -> Prop) : Prop := forall ns s c, J s c -> sane c -> u32s ns ->
  exists s' rec c', runs (fun f => handlers msg kd f 0 ns) s s' rec /\ J s' c' /\ map fst rec = ns /\ passes c (accepted rec) c' /\ (running c = true -> accepted rec = ns).
Lemma tickable_rep : tickable rep.
Proof. intros ns s c R Sa F. exact (handlers_ok msg kd ns s c R Sa F). Qed.
Definition off (m : nat) (s : st) (c : clock) : Prop := exists s0, rep s0 c /\ s = set_registered m s0.
Lemma tickable_off m : tickable (off m).
Proof.
  intros ns s c (s0 & R & ->) Sa F. destruct (handlers_ok msg kd ns s0 c R Sa F) as (s1 & rec & c1 & (N & A) & R1 & M & P & Al).
  exists (set_registered m s1), rec, c1. conj; auto; [|exists s1; auto]. exists N. intros f Hf. pose proof (blind_handlers msg kd f ns m s0) as B. rewrite (A f Hf) in B.
  unfold same_but_reg in B. destruct (handlers msg kd f 0 ns (set_registered m s0)); try contradiction. destruct B as (-> & ->). reflexivity.
Qed.
Definition idle (P : st -> Prop) (s : st) (c : clock) : Prop := P s /\ head s = NO_TIMER /\ enabled s = running c /\ log s = fired c /\ pending c = [] /\ timers c = repeat None (MAX s).
Lemma tickable_idle P : tickable (idle P).
Proof.
  intros ns. induction ns as [|n ns IH]; intros s c J Sa F.
  - exists s, [], c. conj; auto; [apply runs_const; reflexivity|constructor].
  - inversion_clear F as [|? ? Hn F']. destruct J as (Ps & H1 & H2 & H3 & H4 & H5).
    set (c1 := if running c then with_now (now c + n) c else c).
    assert (J1 : idle P s c1) by (unfold c1; destruct (running c) eqn:Er; unfold idle; cbn; rewrite ?Er; auto 10).
    assert (Sa1 : sane c1) by (unfold c1; destruct (running c); exact Sa).
    assert (T : runs (fun f => handler msg kd f 0 n) s s (running c)).
    { exists 1%nat. intros [|f] Hf; [lia|]. unfold handler. unfold cbind at 1. cbn [state Nat.eqb negb]. rewrite andb_false_r. unfold tick. unfold cbind at 1. unfold cbind at 1. cbn [state].
      rewrite H2. destruct (running c); [|reflexivity]. cbn [tick_loop]. unfold list_empty. unfold cbind, state, ret. rewrite H1. reflexivity. }
    destruct (IH s c1 J1 Sa1 F') as (s2 & rec & c2 & A & J2 & M & Pa & Al). exists s2, ((n, running c) :: rec), c2. conj; auto.
    + cbn [handlers]. eapply runs_bind; [exact T|]. eapply runs_bind; [exact A|]. apply runs_const. reflexivity.
    + cbn. now rewrite M.
    + unfold accepted, c1 in *. cbn [filter snd]. destruct (running c) eqn:Er; [|exact Pa]. cbn [map fst]. econstructor; [|exact Pa]. unfold TisrProofs.pass. conj; auto.
      exists 1%nat. intros [|f] Hf; [lia|]. cbn. rewrite H4. reflexivity.
    + intros Hr. unfold accepted, c1 in *. rewrite Hr in *. cbn. rewrite Al by (cbn; auto). reflexivity.
Qed.

(** a fact about the ticks so far and the clock that ticks keep *)
Definition closed (Ph : list (Z * bool) -> clock -> Prop) : Prop := forall pre c q c1,
  Ph pre c -> passes c (accepted q) c1 -> (defers kd = true -> running c = true -> accepted q = map fst q) -> Ph (pre ++ q) c1.

Definition Good (t : thread) (arr : list (list Z)) (pend : list Z) (l : nat) (s : st) (pre : list (Z * bool)) (Q : st -> res -> list (Z * bool) -> Prop) : Prop :=
  exists s' r rec, runs (fun f => exec_thread msg kd f t arr pend l) s s' (r, rec) /\ map fst rec = pend ++ List.concat arr /\ Q s' r (pre ++ rec).

Lemma point_open J Ph ns pend s c pre : tickable J -> closed Ph -> J s c -> sane c -> Ph pre c -> u32s (pend ++ ns) ->
  exists s1 c1 q, runs (fun f => point msg kd f 0 pend ns) s s1 (q, []) /\ J s1 c1 /\ sane c1 /\ Ph (pre ++ q) c1 /\ passes c (accepted q) c1 /\ map fst q = pend ++ ns.
Proof.
  intros TJ Cl Hj Sa Hp F. destruct (TJ (pend ++ ns) s c Hj Sa F) as (s1 & q & c1 & A & B & M & P & Al). exists s1, c1, q. conj; auto.
  - unfold point. cbn [Nat.eqb negb]. rewrite andb_false_r. eapply runs_bind; [exact A|]. apply runs_const. reflexivity.
  - destruct (passes_keep _ _ _ _ _ P) as (T & _). exact (sane_same _ _ _ T Sa).
  - eapply Cl; eauto. intros _ Hr. rewrite M. auto.
Qed.
Lemma handler_locked l n f s : handler msg kd f (S l) n s = Ok s false.
Proof.
  unfold handler. unfold cbind at 1. cbn [state Nat.eqb negb]. rewrite andb_true_r. destruct (enabled s) eqn:E; [reflexivity|].
  unfold tick, cbind, state. rewrite E. reflexivity.
Qed.
Lemma handlers_locked l ns f s : handlers msg kd f (S l) ns s = Ok s (map (fun n => (n, false)) ns).
Proof. induction ns as [|n ns IH]; [reflexivity|]. cbn [handlers]. unfold cbind at 1. rewrite handler_locked. unfold cbind. rewrite IH. reflexivity. Qed.
(** while a lock is held the ticks change nothing *)
Lemma point_closed Ph l ns pend s c pre : closed Ph -> Ph pre c ->
  exists q p, (forall f, point msg kd f (S l) pend ns s = Ok s (q, p)) /\ Ph (pre ++ q) c /\ map fst q ++ p = pend ++ ns.
Proof.
  intros Cl Hp. unfold point. cbn [Nat.eqb negb]. rewrite andb_true_r. destruct (defers kd) eqn:D.
  - exists [], (pend ++ ns). conj; auto. rewrite app_nil_r. exact Hp.
  - exists (map (fun n => (n, false)) (pend ++ ns)), []. conj.
    + intros f. unfold cbind. rewrite handlers_locked. reflexivity.
    + eapply Cl; [exact Hp| |congruence]. replace (accepted _) with (@nil Z); [constructor|]. unfold accepted. induction (pend ++ ns); auto.
    + rewrite app_nil_r, map_map. cbn. apply map_id.
Qed.

Section Rules.
Variables (J : st -> clock -> Prop) (Ph : list (Z * bool) -> clock -> Prop).
Hypotheses (TJ : tickable J) (Cl : closed Ph).
Variable Q : st -> res -> list (Z * bool) -> Prop.
Lemma g_fin r arr pend s c pre : J s c -> sane c -> Ph pre c -> Fine pend arr -> (forall s1 c1 pre1, J s1 c1 -> sane c1 -> Ph pre1 c1 -> Q s1 r pre1) -> Good (Fin r) arr pend 0 s pre Q.
Proof.
  intros Hj Sa Hp F K. destruct (point_open J Ph (List.concat arr) pend s c pre TJ Cl Hj Sa Hp F) as (s1 & c1 & q & A & B & C & D & _ & M).
  exists s1, r, q. conj; auto; [|eapply K; eauto]. cbn [exec_thread]. eapply runs_bind; [exact A|]. apply runs_const. reflexivity.
Qed.
Lemma g_act {A} (act : Cmd st A) k arr pend s c pre : J s c -> sane c -> Ph pre c -> Fine pend arr ->
  (forall s1 c1 pre1 ns, J s1 c1 -> sane c1 -> Ph pre1 c1 -> passes c ns c1 -> (hd [] arr = [] -> pend = [] -> ns = []) -> Fine [] (tl arr) ->
     exists s2 a, act s1 = Ok s2 a /\ Good (k a) (tl arr) [] 0 s2 pre1 Q) ->
  Good (Act act k) arr pend 0 s pre Q.
Proof.
  intros Hj Sa Hp F K. destruct (Fine_tl _ _ F) as (F1 & F2). destruct (point_open J Ph (hd [] arr) pend s c pre TJ Cl Hj Sa Hp F1) as (s1 & c1 & q & A1 & B & C & D & P & M).
  destruct (K s1 c1 (pre ++ q) (accepted q) B C D P) as (s2 & a & E & s3 & r & rec & R1 & M1 & HQ); auto.
  { intros Ha ->. rewrite Ha in M. cbn in M. destruct q; [reflexivity|discriminate]. }
  exists s3, r, (q ++ rec). conj.
  - cbn [exec_thread]. eapply runs_bind; [exact A1|]. eapply runs_bind; [apply runs_const; exact E|]. eapply runs_bind; [exact R1|]. apply runs_const. reflexivity.
  - rewrite map_app, M, M1, (concat_hd arr), <- app_assoc. reflexivity.
  - rewrite app_assoc. exact HQ.
Qed.
Lemma g_lock k arr pend s c pre : J s c -> sane c -> Ph pre c -> Fine pend arr ->
  (forall s1 c1 pre1 ns, J s1 c1 -> sane c1 -> Ph pre1 c1 -> passes c ns c1 -> (hd [] arr = [] -> pend = [] -> ns = []) -> Fine [] (tl arr) -> Good k (tl arr) [] 1 s1 pre1 Q) ->
  Good (Lock k) arr pend 0 s pre Q.
Proof.
  intros Hj Sa Hp F K. destruct (Fine_tl _ _ F) as (F1 & F2). destruct (point_open J Ph (hd [] arr) pend s c pre TJ Cl Hj Sa Hp F1) as (s1 & c1 & q & A1 & B & C & D & P & M).
  destruct (K s1 c1 (pre ++ q) (accepted q) B C D P) as (s3 & r & rec & R1 & M1 & HQ); auto.
  { intros Ha ->. rewrite Ha in M. cbn in M. destruct q; [reflexivity|discriminate]. }
  exists s3, r, (q ++ rec). conj.
  - cbn [exec_thread Nat.eqb negb]. eapply runs_bind; [exact A1|]. destruct kd; (eapply runs_bind; [exact R1|]; apply runs_const; reflexivity).
  - rewrite map_app, M, M1, (concat_hd arr), <- app_assoc. reflexivity.
  - rewrite app_assoc. exact HQ.
Qed.
End Rules.
Section Locked.
Variable Ph : list (Z * bool) -> clock -> Prop.
Hypothesis Cl : closed Ph.
Variable Q : st -> res -> list (Z * bool) -> Prop.
Lemma moved (q : list (Z * bool)) p pend arr : map fst q ++ p = pend ++ hd [] arr -> Fine pend arr -> Fine p (tl arr).
Proof using. intros E F. apply Fine_move in F. unfold Fine in *. rewrite <- E, <- app_assoc in F. apply Forall_app in F as (_ & F). exact F. Qed.
Lemma moved_eq (q : list (Z * bool)) p pend arr (rec : list (Z * bool)) : map fst q ++ p = pend ++ hd [] arr -> map fst rec = p ++ List.concat (tl arr) -> map fst (q ++ rec) = pend ++ List.concat arr.
Proof using. intros E M. rewrite map_app, M, app_assoc, E, (concat_hd arr), app_assoc. reflexivity. Qed.
Lemma l_act {A} (act : Cmd st A) k arr pend l s c pre : Ph pre c -> Fine pend arr ->
  (forall pre1 p, Ph pre1 c -> Fine p (tl arr) -> exists s2 a, act s = Ok s2 a /\ Good (k a) (tl arr) p (S l) s2 pre1 Q) ->
  Good (Act act k) arr pend (S l) s pre Q.
Proof.
  intros Hp F K. destruct (point_closed Ph l (hd [] arr) pend s c pre Cl Hp) as (q & p & A1 & B & M).
  destruct (K (pre ++ q) p B (moved _ _ _ _ M F)) as (s2 & a & E & s3 & r & rec & R1 & M1 & HQ). exists s3, r, (q ++ rec). conj.
  - cbn [exec_thread]. eapply runs_bind; [exists 0%nat; intros f _; apply A1|]. eapply runs_bind; [apply runs_const; exact E|]. eapply runs_bind; [exact R1|]. apply runs_const. reflexivity.
  - eapply moved_eq; eauto.
  - rewrite app_assoc. exact HQ.
Qed.
Lemma l_unlock k arr pend l s c pre : Ph pre c -> Fine pend arr -> (forall pre1 p, Ph pre1 c -> Fine p (tl arr) -> Good k (tl arr) p l s pre1 Q) -> Good (Unlock k) arr pend (S l) s pre Q.
Proof.
  intros Hp F K. destruct (point_closed Ph l (hd [] arr) pend s c pre Cl Hp) as (q & p & A1 & B & M).
  destruct (K (pre ++ q) p B (moved _ _ _ _ M F)) as (s3 & r & rec & R1 & M1 & HQ). exists s3, r, (q ++ rec). conj.
  - cbn [exec_thread]. eapply runs_bind; [exists 0%nat; intros f _; apply A1|]. replace (S l - 1)%nat with l by lia. eapply runs_bind; [exact R1|]. apply runs_const. reflexivity.
  - eapply moved_eq; eauto.
  - rewrite app_assoc. exact HQ.
Qed.
Lemma l_lock k arr pend l s c pre : kd <> Locked -> Ph pre c -> Fine pend arr -> (forall pre1 p, Ph pre1 c -> Fine p (tl arr) -> Good k (tl arr) p (S (S l)) s pre1 Q) -> Good (Lock k) arr pend (S l) s pre Q.
Proof.
  intros Hk Hp F K. destruct (point_closed Ph l (hd [] arr) pend s c pre Cl Hp) as (q & p & A1 & B & M).
  destruct (K (pre ++ q) p B (moved _ _ _ _ M F)) as (s3 & r & rec & R1 & M1 & HQ). exists s3, r, (q ++ rec). conj.
  - cbn [exec_thread Nat.eqb negb]. eapply runs_bind; [exists 0%nat; intros f _; apply A1|]. destruct kd; try congruence; (eapply runs_bind; [exact R1|]; apply runs_const; reflexivity).
  - eapply moved_eq; eauto.
  - rewrite app_assoc. exact HQ.
Qed.
End Locked.

(** ** before and after the call takes effect *)
Definition all_in (c0 : clock) (pre : list (Z * bool)) : Prop := defers kd = true -> running c0 = true -> accepted pre = map fst pre.
Definition Before (c0 : clock) (pre : list (Z * bool)) (c : clock) : Prop := passes c0 (accepted pre) c /\ all_in c0 pre.
Definition After (c0 : clock) (k : call) (r : res) (pre : list (Z * bool)) (c : clock) : Prop :=
  exists bef aft c1 c2, accepted pre = bef ++ aft /\ passes c0 bef c1 /\ spec_call msg None k c1 = Some (r, c2) /\ passes c2 aft c /\ (running c2 = running c0 -> all_in c0 pre).
Lemma closed_before c0 : closed (Before c0).
Proof.
  intros pre c q c1 (P & A) P1 A1. split.
  - rewrite accepted_app. eapply passes_app; eauto.
  - intros D R. rewrite accepted_app, map_app, A, A1; auto. destruct (passes_keep _ _ _ _ _ P) as (_ & X & _). congruence.
Qed.
Lemma closed_after c0 k r : closed (After c0 k r).
Proof.
  intros pre c q c1 (bef & aft & d1 & d2 & E & P & S & P2 & A) P1 A1. exists bef, (aft ++ accepted q), d1, d2. conj; auto.
  - rewrite accepted_app, E, app_assoc. reflexivity.
  - eapply passes_app; eauto.
  - intros Hr D R. rewrite accepted_app, map_app, (A Hr D R), A1; auto. destruct (passes_keep _ _ _ _ _ P2) as (_ & X & _). congruence.
Qed.
Lemma effect c0 k r pre c c2 : Before c0 pre c -> spec_call msg None k c = Some (r, c2) -> After c0 k r pre c2.
Proof. intros (P & A) S. exists (accepted pre), [], c, c2. rewrite app_nil_r. conj; auto. constructor. Qed.
Definition Done_ok (c0 : clock) (k : call) (s' : st) (r : res) (rec : list (Z * bool)) : Prop := exists c3, After c0 k r rec c3 /\ rep s' c3.
Lemma finish c0 k r arr pend s c pre : rep s c -> sane c -> After c0 k r pre c -> Fine pend arr -> Good (Fin r) arr pend 0 s pre (Done_ok c0 k).
Proof. intros R Sa A F. eapply (g_fin rep (After c0 k r)); eauto using tickable_rep, closed_after. intros s1 c1 pre1 R1 _ A1. exists c1. auto. Qed.
Lemma before_nil c : Before c [] c. Proof. split; [constructor|intros _ _; reflexivity]. Qed.
Lemma after_timers c0 pre c : Before c0 pre c -> timers c = timers c0.
Proof. intros (P & _). apply (passes_keep _ _ _ _ _ P). Qed.

(** an action that reads, then the end *)
Lemma read_end {A} (act : Cmd st A) (g : A -> res) c0 k arr s pre : rep s c0 -> sane c0 -> Fine [] arr ->
  (forall s1 c1, rep s1 c1 -> timers c1 = timers c0 -> exists a, act s1 = Ok s1 a /\ spec_call msg None k c1 = Some (g a, c1)) -> pre = [] ->
  Good (Act act (fun a => Fin (g a))) arr [] 0 s pre (Done_ok c0 k).
Proof.
  intros R Sa F K ->. eapply (g_act rep (Before c0)); eauto using tickable_rep, closed_before, before_nil. intros s1 c1 pre1 ns R1 Sa1 B1 P1 _ F1.
  destruct (K s1 c1 R1 (after_timers _ _ _ B1)) as (a & E & S). exists s1, a. split; [exact E|]. eapply finish; eauto. eapply effect; eauto.
Qed.
End Timer.
