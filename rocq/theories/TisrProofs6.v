(** Interrupted calls: whole histories *)
From Coq Require Import List Arith Lia Bool String ZArith Sorted.
From Verif Require Import Util Slots Cmd TimerModel TimerSpec TimerProofs TimerProofs2 TimerProofs3 TimerProofs4 TisrModel TisrSpec TisrProofs TisrProofs2 TisrProofs3 TisrProofs4 TisrProofs5.
Import ListNotations.
Local Open Scope Z_scope.

Section Timer.
Variable msg : bool.
Variable kd : kind.
Notation cb := (callback_first kd).
Notation passes := (passes msg kd).
Notation Good := (Good msg kd).
Notation After := (After msg kd).
Notation Done_ok := (Done_ok msg kd).
Notation spec f := (timer_spec msg cb quiet f).

Lemma thread_ok k arr s c : rep s c -> sane c -> allowed msg (List.length (timers c)) k -> Fine [] arr -> (window_free msg kd (k, arr) \/ all_repeat c) ->
  Good (threads msg kd k) arr [] 0 s [] (Done_ok c k).
Proof.
  intros R Sa Al F W. destruct k; cbn [allowed window_free fst snd threads] in *.
  - apply register_thread; auto.
  - destruct Al. apply unregister_thread; auto.
  - apply start_thread; auto.
  - apply stop_thread; auto.
  - destruct Al. apply set_period_thread; auto.
  - apply set_mode_thread; auto.
  - apply enable_thread; auto.
  - apply running_thread; auto.
  - apply clear_thread; auto.
  - apply has_active_thread; auto.
  - apply time_thread; auto. intros Hb. destruct W; auto.
  - apply is_active_thread; auto.
Qed.

(** what a call keeps *)
Lemma regs_upd P c id r : all_regs P c -> P r -> all_regs P (with_timer id (Some r) c).
Proof. intros H Hr j q. cbn. rewrite upd_nth. destruct (Nat.eqb id j); [|apply H]. destruct (j <? _)%nat; [|discriminate]. now intros [= <-]. Qed.
Lemma regs_none P c id : all_regs P c -> all_regs P (with_timer id None c).
Proof. intros H j q. cbn. rewrite upd_nth. destruct (Nat.eqb id j); [|apply H]. destruct (j <? _)%nat; discriminate. Qed.
Lemma on_timer_inv id c f x : on_timer None id c f = Some x -> x = (RBool false, c) \/ exists r, nth_error (timers c) id = Some (Some r) /\ f r = Some x.
Proof.
  unfold on_timer. destruct (Nat.eqb id NO_TIMER); [intros [= <-]; auto|]. destruct (nth_error (timers c) id) as [[r|]|]; [intros H; right; eauto|intros [= <-]; auto|discriminate].
Qed.
Lemma spec_keeps P k c r c2 : spec_call msg None k c = Some (r, c2) -> all_regs P c ->
  match k with Register o p b => P (mkR o p b) | SetPeriod id p => forall q, P q -> P (mkR (r_cb q) p (r_repeat q)) | SetMode id b => forall q, P q -> P (mkR (r_cb q) (r_period q) b) | _ => True end ->
  all_regs P c2 /\ List.length (timers c2) = List.length (timers c) /\ (match k with Enable _ => False | _ => True end -> running c2 = running c).
Proof.
  intros H A K. destruct k; cbn [spec_call] in H.
  - destruct (is_u32 p); [|discriminate]. destruct (msg && _); [injection H as _ <-; auto|]. destruct (first_free (timers c) 0); injection H as _ <-; auto.
    conj; auto; [apply regs_upd; auto|cbn; apply upd_length].
  - apply on_timer_inv in H as [[= _ ->]|(q & Hq & H)]; auto. destruct (msg && _); [discriminate|]. injection H as _ <-. conj; auto; [apply regs_none; exact A|cbn; apply upd_length].
  - apply on_timer_inv in H as [[= _ ->]|(q & Hq & H)]; auto. destruct (Z.eqb _ _); injection H as _ <-; auto.
  - apply on_timer_inv in H as [[= _ ->]|(q & Hq & H)]; auto. injection H as _ <-. auto.
  - destruct (is_u32 p); [|discriminate]. apply on_timer_inv in H as [[= _ ->]|(q & Hq & H)]; auto. injection H as _ <-. conj; auto; [apply regs_upd; [exact A|eauto]|cbn; apply upd_length].
  - apply on_timer_inv in H as [[= _ ->]|(q & Hq & H)]; auto. injection H as _ <-. conj; auto; [apply regs_upd; [exact A|eauto]|cbn; apply upd_length].
  - injection H as _ <-. conj; auto. intros [].
  - injection H as _ <-. auto.
  - injection H as _ <-. conj; auto; [|cbn; apply repeat_length]. intros j q. cbn. intros X. apply nth_error_In in X. apply repeat_spec in X. discriminate.
  - injection H as _ <-. auto.
  - injection H as _ <-. auto.
  - injection H as _ <-. auto.
Qed.

(** the processed ticks and the call, on the clock of C25 *)
Lemma passes_run c ns c' : passes c ns c' -> exists F seen, List.length seen = List.length ns /\ Forall processed seen /\
  forall f, (F <= f)%nat -> spec_run (spec f) (map Tick ns) c = Some (seen, c').
Proof.
  induction 1 as [c|c n c1 ns c2 (U & R & F & HF) _ (G & seen & L & Pr & HG)].
  - exists 0%nat, []. auto.
  - exists (Nat.max F G), (Returned (RTick true (fired c1)) :: seen). conj.
    + cbn. now rewrite L.
    + constructor; [eexists; reflexivity|exact Pr].
    + intros f Hf. cbn [map spec_run timer_spec]. rewrite U, R, HF by lia. rewrite HG by lia. reflexivity.
Qed.
Lemma spec_run_app f l : forall l' c s1 c1 s2 c2, spec_run (spec f) l c = Some (s1, c1) -> spec_run (spec f) l' c1 = Some (s2, c2) -> spec_run (spec f) (l ++ l') c = Some (s1 ++ s2, c2).
Proof.
  induction l as [|o l IH]; intros l' c s1 c1 s2 c2 H1 H2; cbn [spec_run app] in *; [injection H1 as <- <-; exact H2|].
  destruct (spec f o c) as [[x d]|]; [|discriminate]. destruct (spec_run (spec f) l d) as [[s3 d2]|] eqn:E; [|discriminate]. injection H1 as <- <-.
  rewrite (IH _ _ _ _ _ _ E H2). reflexivity.
Qed.

Definition combine_with (h : list (call * list (list Z))) (l : list (res * list (Z * bool))) : list (call * res * list (Z * bool)) := map (fun x => (fst (fst x), fst (snd x), snd (snd x))) (combine h l).
Definition quiet_on (k : call) : Prop := match k with Enable _ => False | _ => True end.

Lemma history_ok : forall h s c, rep s c -> sane c -> Forall (fun x => allowed msg (List.length (timers c)) (fst x)) h ->
  Forall (fun x => Forall (Forall (fun n => is_u32 n = true)) (snd x)) h -> (Forall (window_free msg kd) h \/ (all_repeat c /\ Forall (fun x => repeats (fst x)) h)) ->
  exists s' l c' ops seen F, rep s' c' /\ List.length l = List.length h /\ Forall2 (fun x y => map fst (snd y) = List.concat (snd x)) h l /\ serial (combine_with h l) ops seen /\
    (forall f, (F <= f)%nat -> exec_history msg kd f h s = Ok s' l /\ spec_run (spec f) ops c = Some (seen, c')) /\
    (defers kd = true -> running c = true -> Forall (fun x => quiet_on (fst x)) h -> Forall (fun y => Forall (fun t => snd t = true) (snd y)) l).
Proof.
  induction h as [|[k arr] h IH]; intros s c R Sa Al F W.
  - exists s, [], c, [], [], 0%nat. conj; auto; constructor.
  - inversion_clear Al as [|? ? Al1 Al2]. inversion_clear F as [|? ? F1 F2]. cbn [fst snd] in *.
    assert (W1 : window_free msg kd (k, arr) \/ all_repeat c) by (destruct W as [W|[W _]]; [inversion_clear W|]; auto).
    assert (F1' : Fine [] arr) by (unfold Fine, u32s; cbn; apply Forall_concat; exact F1).
    destruct (thread_ok k arr s c R Sa Al1 F1' W1) as (s1 & r & rec & (N1 & E1) & M1 & c1 & A1 & R1). cbn [app] in M1, A1.
    destruct A1 as (bef & aft & d1 & d2 & Eb & P1 & Sp & P2 & In1).
    destruct (passes_keep _ _ _ _ _ P1) as (T1 & Ru1 & _). destruct (passes_keep _ _ _ _ _ P2) as (T2 & Ru2 & _).
    assert (Sad : sane d1) by exact (sane_same _ _ _ T1 Sa).
    destruct (spec_keeps (fun q => 1 <= r_period q) k d1 r d2 Sp Sad) as (Sa2 & L2 & Run2).
    { destruct k; cbn [allowed] in *; auto; cbn; intros; lia. }
    assert (L1 : List.length (timers c1) = List.length (timers c)) by congruence.
    assert (Rep : Forall (window_free msg kd) h \/ (all_repeat c1 /\ Forall (fun x => repeats (fst x)) h)).
    { destruct W as [W|[Wc W]]; [left; inversion_clear W; auto|right]. inversion_clear W as [|? ? Wk Wh]. split; [|exact Wh].
      apply (sane_same _ _ _ T2). apply (spec_keeps (fun q => r_repeat q = true) k d1 r d2 Sp (sane_same _ _ _ T1 Wc)). destruct k; cbn [fst repeats] in *; auto. }
    destruct (IH s1 c1 R1 (sane_same _ _ _ T2 Sa2)) as (s2 & l & c2 & ops & seen & N2 & R2 & L & Fm & Se & E2 & Q2); auto; [rewrite L1; auto|].
    destruct (passes_run _ _ _ P1) as (G1 & o1 & Lo1 & Po1 & H1). destruct (passes_run _ _ _ P2) as (G2 & o2 & Lo2 & Po2 & H2).
    exists s2, ((r, rec) :: l), c2, (map Tick bef ++ Call k :: map Tick aft ++ ops), (o1 ++ Returned r :: o2 ++ seen), (N1 + N2 + G1 + G2)%nat. conj; auto.
    + cbn. now rewrite L.
    + cbn. apply serial_call; auto.
    + intros f Hf. destruct (E2 f ltac:(lia)) as (E2a & E2b). split.
      * cbn [exec_history]. unfold cbind at 1. rewrite E1 by lia. unfold cbind. rewrite E2a. reflexivity.
      * eapply spec_run_app; [apply H1; lia|]. cbn [spec_run timer_spec]. rewrite Sp.
        rewrite (spec_run_app f (map Tick aft) ops d2 o2 c1 seen c2); auto. apply H2. lia.
    + intros D Hr Hq. inversion_clear Hq as [|? ? Hk Hh]. cbn [fst] in Hk. assert (Rd : running d2 = running c) by (rewrite Run2; auto).
      constructor; [|apply Q2; auto; congruence]. cbn [snd]. specialize (In1 Rd D Hr). clear - In1. unfold accepted in In1.
      assert (Le : forall l : list (Z * bool), (List.length (filter snd l) <= List.length l)%nat) by (induction l as [|[? []] l IH]; cbn; lia).
      induction rec as [|[n b] rec IH]; [constructor|]. cbn in In1. destruct b.
      * injection In1 as In1. constructor; auto.
      * exfalso. apply (f_equal (@List.length Z)) in In1. cbn in In1. rewrite !map_length in In1. specialize (Le rec). lia.
Qed.
End Timer.
