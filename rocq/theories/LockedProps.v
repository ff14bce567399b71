(** C37: the queues protected by a lock are linearizable bounded FIFOs, for every number of threads (and
    interrupts), every schedule and every history. *)
From Coq Require Import List Bool Arith Lia.
From Verif Require Import Util LockedModel LockedSpec LockedProofs.
Import ListNotations.

(** every execution: each call takes effect at one instant between call and return, with the result returned
    (see LockedSpec), in an order that is a history of the bounded FIFO; while the lock is free the storage
    holds exactly the elements of that FIFO *)
Theorem C37_linearizable : forall (A : Type) (MAX : nat) (evs : list (event A)) (w : world A), execution MAX evs w ->
  exists marked q, linearizes MAX marked evs q /\
    (holder w = None -> forall i, i < MAX -> buf (memory w) ((gone q + i) mod MAX) = nth_error (items q) i).
Proof.
  intros A MAX evs w X. destruct (inv_ok MAX evs w X) as (marked & q & V & L & FI & R & P). exists marked, q. split.
  - split; [exact V|]. split; [exact L|]. intros [t|].
    + destruct (P t) as (l1 & F & [(P1 & P2 & P3)|[(o & P1 & P2 & P3)|[(o & p & q' & r & m' & P1 & P2 & P3 & _)|(o & r & P1 & P2 & P3)]]]); exists l1; (split; [exact F|]).
      * left. exact P2.
      * right; left. exists o. exact P2.
      * right; left. exists o. exact P3.
      * right; right. exists o, r. exact P2.
    + exists (own Isr marked). split; [exact FI|]. left. reflexivity.
  - intros HN. apply (R HN).
Qed.
Print Assumptions C37_linearizable.

(** the values accepted (in the order of their effects) and those handed out *)
Definition accepted {A} (l : list (mark A)) : list A := flat_map (fun x => match x with Effect _ (Push v) (Bool true) => [v] | _ => [] end) l.
Definition handed_out {A} (l : list (mark A)) : list A := flat_map (fun x => match x with Effect _ Pop_into (Popped (Some v)) => [v] | _ => [] end) l.
(** nothing is lost, duplicated or reordered: as long as nobody discards elements (pop() and clear()), the values
    handed out followed by those still stored are the values accepted *)
Theorem C37_fifo : forall (A : Type) (MAX : nat) marked (evs : list (event A)) q, linearizes MAX marked evs q ->
  (forall w o, In (Call w o) evs -> o <> Pop /\ o <> Clear) ->
  accepted marked = handed_out marked ++ items q /\ length (items q) <= MAX.
Proof.
  intros A MAX marked evs q (V & L & P) ND.
  assert (G : forall l (q : fifo A), legal MAX l q -> length (items q) <= MAX /\ ((forall w o r, In (Effect w o r) l -> o <> Pop /\ o <> Clear) -> accepted l = handed_out l ++ items q)).
  { clear. induction 1 as [|l q e L IH|l q w o q' r L IH E].
    - split; [cbn; lia|]. reflexivity.
    - destruct IH as [IH1 IH2]. split; [exact IH1|]. intros ND. unfold accepted, handed_out in *. rewrite !flat_map_app. cbn [flat_map]. rewrite !app_nil_r. apply IH2. intros w o r I. apply (ND w o r). apply in_or_app. now left.
    - destruct IH as [IH1 IH2]. split.
      + destruct o; cbn [fifo_op] in E; try (injection E as <- _; exact IH1).
        * destruct (Nat.ltb_spec (length (items q)) MAX); injection E as <- _; [|exact IH1]. cbn [items]. rewrite app_length. cbn [length]. lia.
        * destruct (items q) eqn:EI; injection E as <- _; cbn [items length] in *; [rewrite EI; cbn [length]; lia|lia].
        * destruct (items q) eqn:EI; injection E as <- _; cbn [items length] in *; [rewrite EI; cbn [length]; lia|lia].
        * injection E as <- _. cbn. lia.
      + intros ND. assert (IH3 : accepted l = handed_out l ++ items q). { apply IH2. intros w' o' r' I. apply (ND w' o' r'). apply in_or_app. now left. }
        destruct (ND w o r) as [NP NC]. { apply in_or_app. right. now left. }
        unfold accepted, handed_out in *. rewrite !flat_map_app, IH3. cbn [flat_map]. rewrite !app_nil_r.
        destruct o; cbn [fifo_op] in E; try contradiction; try (injection E as <- <-; now rewrite !app_nil_r).
        * destruct (Nat.ltb_spec (length (items q)) MAX); injection E as <- <-; cbn [items]; rewrite ?app_nil_r; [now rewrite app_assoc|reflexivity].
        * destruct (items q) eqn:EI; injection E as <- <-; cbn [items]; rewrite ?EI, !app_nil_r; [reflexivity|]. now rewrite <- app_assoc. }
  destruct (G marked q L) as [G1 G2]. split; [|exact G1]. apply G2. intros w o r I. apply (ND w o). rewrite <- V. unfold visible. apply in_flat_map. exists (Visible (Call w o)). split; [|now left].
  assert (IO : In (Effect w o r) (own w marked)). { unfold own. apply filter_In. split; [exact I|]. cbn. destruct w; [apply Nat.eqb_refl|reflexivity]. }
  assert (K : forall l, finished w l -> In (Effect w o r) l -> In (Visible (Call w o)) l).
  { clear. induction 1 as [|l o' r' F IH]; intros I; [contradiction|]. apply in_app_or in I as [I|I]; apply in_or_app; [left; auto|]. right. cbn in I. destruct I as [I|[I|[I|I]]]; try discriminate; [|contradiction]. injection I as -> ->. now left. }
  assert (IC : In (Visible (Call w o)) (own w marked)).
  { destruct (P w) as (l1 & F & [E|[(o' & E)|(o' & r' & E)]]); rewrite E in *.
    - now apply K.
    - apply in_app_or in IO as [IO|IO]; apply in_or_app; [left; now apply K|]. destruct IO as [IO|IO]; [discriminate|contradiction].
    - apply in_app_or in IO as [IO|IO]; apply in_or_app; [left; now apply K|]. right. destruct IO as [IO|[IO|IO]]; try discriminate; [|contradiction]. injection IO as -> ->. now left. }
  unfold own in IC. now apply filter_In in IC as [IC _].
Qed.
Print Assumptions C37_fifo.

(** a thread that is about to touch a shared variable *)
Definition touching {A} (w : world A) (t : nat) : Prop :=
  match doing w t with
  | None | Some (Ret _) | Some (Lock _) | Some (Unlock _) => False
  | Some _ => True
  end.
(** no data race: only the holder of the lock touches the shared variables, so never two threads, nor a thread
    and an interrupt *)
Theorem C37_no_data_race : forall (A : Type) (MAX : nat) (evs : list (event A)) (w : world A), execution MAX evs w ->
  (forall t, touching w t -> holder w = Some t) /\
  (forall t u, touching w t -> touching w u -> t = u) /\
  (forall t o evs1 w1 m r, touching w t -> ~ (step MAX w evs1 w1 /\ holder w = None /\ run (unlocked MAX o) (memory w) m (Ret r) /\ evs1 = [Call Isr o; Return Isr r])).
Proof.
  intros A MAX evs w X. destruct (inv_ok MAX evs w X) as (marked & q & V & L & FI & R & P).
  assert (H : forall t, touching w t -> holder w = Some t).
  { intros t T. unfold touching in T. destruct (P t) as (l1 & F & [(P1 & P2 & P3)|[(o & P1 & P2 & P3)|[(o & p & q' & r & m' & P1 & P2 & P3 & _)|(o & r & P1 & P2 & P3)]]]); try (rewrite P1 in T; contradiction). exact P1. }
  split; [exact H|]. split.
  - intros t u T U. apply H in T, U. congruence.
  - intros t o evs1 w1 m r T (_ & HN & _). apply H in T. congruence.
Qed.
Print Assumptions C37_no_data_race.

(** the thread can take its next step, and that step is not undefined behaviour *)
Definition can_go {A} (w : world A) (t : nat) : Prop :=
  match doing w t with
  | None => False
  | Some (Ret _) | Some (Unlock _) => True
  | Some (Lock _) => holder w = None
  | Some p => exists x, access p (memory w) = Some x
  end.
(** no deadlock and no undefined behaviour: a thread inside a call can go on, or waits for the lock while its
    holder can go on; the holder gives the lock back after finitely many accesses; an interrupt's call ends *)
Theorem C37_never_stuck : forall (A : Type) (MAX : nat) (evs : list (event A)) (w : world A), execution MAX evs w ->
  (forall t, doing w t <> None -> can_go w t \/ exists h, holder w = Some h /\ h <> t /\ can_go w h /\ exists k, doing w t = Some (Lock k)) /\
  (forall t, holder w = Some t -> exists p m r, doing w t = Some p /\ run p (memory w) m (Unlock (Ret r))) /\
  (holder w = None -> forall o, exists m r, run (unlocked MAX o) (memory w) m (Ret r)).
Proof.
  intros A MAX evs w X. destruct (inv_ok MAX evs w X) as (marked & q & V & L & FI & R & P).
  assert (HG : forall t, holder w = Some t -> can_go w t).
  { intros t HT. destruct (P t) as (l1 & F & [(P1 & P2 & P3)|[(o & P1 & P2 & P3)|[(o & p & q' & r & m' & P1 & P2 & P3 & _ & _ & U)|(o & r & P1 & P2 & P3)]]]); try contradiction.
    unfold can_go. rewrite P2. inversion U; subst; [exact I|]. destruct p; cbn [access] in H; try discriminate H; eexists; exact H. }
  split; [|split].
  - intros t D. destruct (P t) as (l1 & F & [(P1 & P2 & P3)|[(o & P1 & P2 & P3)|[(o & p & q' & r & m' & P1 & P2 & P3 & _ & _ & U)|(o & r & P1 & P2 & P3)]]]).
    + contradiction.
    + destruct (holder w) as [h|] eqn:EH.
      * right. exists h. conj; [reflexivity|congruence|now apply HG|]. eexists. exact P1.
      * left. unfold can_go. rewrite P1. exact EH.
    + left. now apply HG.
    + left. unfold can_go. rewrite P1. exact I.
  - intros t HT. destruct (P t) as (l1 & F & [(P1 & P2 & P3)|[(o & P1 & P2 & P3)|[(o & p & q' & r & m' & P1 & P2 & P3 & _ & _ & U)|(o & r & P1 & P2 & P3)]]]); try contradiction. eauto.
  - intros HN o. destruct (body_run MAX q (memory w) o Ret (R HN)) as (m' & _ & U). eauto.
Qed.
Print Assumptions C37_never_stuck.

(** ** what does not hold *)
Inductive steps {A} (MAX : nat) : world A -> list (event A) -> world A -> Prop :=
| st_nil w : steps MAX w [] w
| st_cons w e1 w1 e2 w2 : step MAX w e1 w1 -> steps MAX w1 e2 w2 -> steps MAX w (e1 ++ e2) w2.
Lemma execution_steps {A} MAX (w : world A) e w1 : steps MAX w e w1 -> forall evs, execution MAX evs w -> execution MAX (evs ++ e) w1.
Proof. induction 1 as [w|w e1 w1 e2 w2 S _ IH]; intros evs X; [now rewrite app_nil_r|]. rewrite app_assoc. apply IH. econstructor; eassumption. Qed.
(** the reference returned by front() is not protected: when the call returns, another thread may have removed
    the element, and the reference designates a destroyed object *)
Theorem C37_front_refuted : exists (evs : list (event nat)) w, execution 2 evs w /\
  evs = [Call (Thread 0) (Push 7); Return (Thread 0) (Bool true); Call (Thread 1) Front; Call (Thread 0) Pop; Return (Thread 0) (Bool true); Return (Thread 1) (Ref 0)] /\
  buf (memory w) 0 = None.
Proof.
  eexists. eexists. split.
  - apply (execution_steps (A := nat) 2 world0) with (evs := []); [|constructor].
    eapply st_cons; [apply (s_call 2 _ 0 (Push 7)); reflexivity|cbn [memory holder doing]].
    eapply st_cons; [apply (s_lock 2 _ 0); reflexivity|cbn [memory holder doing]]. do 7 (eapply st_cons; [eapply (s_access 2 _ 0); reflexivity|cbn [memory holder doing]]).
    eapply st_cons; [apply (s_unlock 2 _ 0); reflexivity|cbn [memory holder doing]].
    eapply st_cons; [apply (s_return 2 _ 0); reflexivity|cbn [memory holder doing]].
    eapply st_cons; [apply (s_call 2 _ 1 Front); reflexivity|cbn [memory holder doing]].
    eapply st_cons; [apply (s_lock 2 _ 1); reflexivity|cbn [memory holder doing]]. eapply st_cons; [eapply (s_access 2 _ 1); reflexivity|cbn [memory holder doing]].
    eapply st_cons; [apply (s_unlock 2 _ 1); reflexivity|cbn [memory holder doing]].
    eapply st_cons; [apply (s_call 2 _ 0 Pop); reflexivity|cbn [memory holder doing]].
    eapply st_cons; [apply (s_lock 2 _ 0); reflexivity|cbn [memory holder doing]]. do 7 (eapply st_cons; [eapply (s_access 2 _ 0); reflexivity|cbn [memory holder doing]]).
    eapply st_cons; [apply (s_unlock 2 _ 0); reflexivity|cbn [memory holder doing]].
    eapply st_cons; [apply (s_return 2 _ 0); reflexivity|cbn [memory holder doing]].
    eapply st_cons; [apply (s_return 2 _ 1); reflexivity|cbn [memory holder doing]].
    apply st_nil.
  - split; reflexivity.
Qed.
Print Assumptions C37_front_refuted.

(** ** a concrete case: an interrupt pushes between the call of pop(value) and its lock *)
Example locked_ex : exists (evs : list (event nat)) w, execution 1 evs w /\
  evs = [Call (Thread 0) Pop_into; Call Isr (Push 5); Return Isr (Bool true); Call Isr (Push 6); Return Isr (Bool false); Return (Thread 0) (Popped (Some 5))].
Proof.
  eexists. eexists. split.
  - apply (execution_steps (A := nat) 1 world0) with (evs := []); [|constructor].
    eapply st_cons; [apply (s_call 1 _ 0 Pop_into); reflexivity|cbn [memory holder doing]].
    eapply st_cons; [apply (s_isr 1 _ (Push 5)) with (r := Bool true); [reflexivity|do 7 (eapply run_step; [reflexivity|]); apply run_stop]|cbn [memory holder doing]].
    eapply st_cons; [apply (s_isr 1 _ (Push 6)) with (r := Bool false); [reflexivity|eapply run_step; [reflexivity|]; apply run_stop]|cbn [memory holder doing]].
    eapply st_cons; [apply (s_lock 1 _ 0); reflexivity|cbn [memory holder doing]]. do 9 (eapply st_cons; [eapply (s_access 1 _ 0); reflexivity|cbn [memory holder doing]]).
    eapply st_cons; [apply (s_unlock 1 _ 0); reflexivity|cbn [memory holder doing]].
    eapply st_cons; [apply (s_return 1 _ 0); reflexivity|cbn [memory holder doing]].
    apply st_nil.
  - reflexivity.
Qed.
