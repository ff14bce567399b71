(** * C04, C05: bip_buffer_spsc_atomic

    All executions: every schedule [acts] of the two threads, where every load may return any message the memory model
    allows (RA.v), every capacity [R], every request and every commit of part of a span.
    [Undef] is an access outside the buffer, a data race, constructing over a live element, or reading or destroying
    an element that does not exist; so "no step is [Undef]" says that the spans are inside the buffer, that a write span
    holds no unread element, that a read span holds only committed unread elements and that the two never overlap.

    The code keeps these promises as long as the writer wraps around at ascending positions ([ascending (wraps …)]), which
    clients that write blocks dividing the capacity do ([C05_blocks_safe]).  For clients that do not, the reader is given
    elements that do not exist: [C05_wrap_lower_refuted], and this one is a defect of the code: the commit that wraps around
    does not store [last] (lines 281-285).  [modest] requests only: [C05_optimal_refuted] is a defect for the others. *)
From Coq Require Import List Arith Lia Bool.
From Verif Require Import Util RA BipModel BipSpec BipProofs BipSteps BipSteps2 BipSteps3 BipSys BipBlocks.
Import ListNotations.

Section Props.
  Variable T : Type.
  Variable MAX : nat.
  Variable promoted : bool.
  Variable R : nat.
  Notation state := (sys T (op T) (res T)).
  Notation allowed := (fun t o => role T t o && modest T MAX promoted R o).
  Notation Run := (run (code T MAX promoted R) allowed).
  Notation exec := (exec_all T MAX promoted R).

  Definition ascends (s : state) : Prop := ascending (wraps (write_positions s)).

  (** C04: what the reader sees, committed or only looked at, is the committed stream in order; no commit fails.
      (A commit counts from its last store on: [in_flight] are the elements of a commit that is about to return.) *)
  Theorem C04_stream : forall acts s, R <= MAX -> exec acts = Next s -> ascends s ->
    consumes (written (slog s Prod) ++ in_flight s) (slog s Cons) /\ no_error (slog s Prod) /\ no_error (slog s Cons).
  Proof.
    intros acts s HM HR Ha. destruct (exec_Inv T MAX promoted R acts s HM HR Ha) as (es & acc & w & wl & nW & rl & nR & rs & js & lv & nL & pn & xs & fl & dn & d & HS).
    pose proof (acc_flight _ _ _ _ _ _ _ _ _ _ _ _ _ _ _ _ _ _ _ _ _ HS) as E. destruct HS as (_ & _ & _ & Hc & G1 & G2).
    rewrite <- E. split; [exact Hc|]. rewrite Forall_forall in G1, G2. split; intros o Hi; [apply G1 in Hi|apply G2 in Hi]; now destruct o.
  Qed.

  Theorem C04_prefix : forall acts s, R <= MAX -> exec acts = Next s -> ascends s ->
    exists rest, written (slog s Prod) ++ in_flight s = taken (slog s Cons) ++ rest.
  Proof. intros acts s HM HR Ha. destruct (C04_stream acts s HM HR Ha) as (Hc & _). eapply consumes_taken; eauto. Qed.

  (** C04: when the writer has stopped, the reader alone can drain everything by repeating read_reserve() and committing the span *)
  Theorem C04_drain : forall acts s, R <= MAX -> 0 < MAX -> exec acts = Next s -> ascends s ->
    scur s Prod = None -> scur s Cons = None ->
    exists acts' s', Run s acts' = Next s' /\
      Forall (fun a => a = Invoke Cons (BRead MAX (fun _ n => n)) \/ exists c, a = Step Cons c) acts' /\
      slog s' Prod = slog s Prod /\ taken (slog s' Cons) = written (slog s Prod).
  Proof.
    intros acts s HM H0 HR Ha HP HC. destruct (exec_Inv T MAX promoted R acts s HM HR Ha) as (es & acc & w & wl & nW & rl & nR & rs & js & lv & nL & pn & xs & fl & dn & d & HS).
    pose proof (acc_flight _ _ _ _ _ _ _ _ _ _ _ _ _ _ _ _ _ _ _ _ _ HS) as E. unfold in_flight in E. rewrite HP, app_nil_r in E.
    destruct (drain T MAX promoted R (S (length acc)) _ _ _ _ _ _ _ _ _ _ _ _ _ _ _ _ _ HM H0 HS HC ltac:(lia)) as (acts' & s' & A & B & _ & C & D).
    exists acts', s'. rewrite <- E. auto.
  Qed.

  (** C05: whatever a thread does next is defined *)
  Theorem C05_no_undefined_step : forall acts s a, R <= MAX -> exec acts = Next s -> ascends s ->
    step (code T MAX promoted R) allowed s a <> Undef.
  Proof.
    intros acts s a HM HR Ha. pose proof (step_SI T MAX promoted R s a HM (exec_Inv T MAX promoted R acts s HM HR Ha)) as H.
    intros E. rewrite E in H. exact H.
  Qed.
  (** C05: every span lies in the buffer *)
  Theorem C05_in_range : forall acts s, R <= MAX -> exec acts = Next s -> ascends s ->
    forall o r, In (o, r) (slog s Prod ++ slog s Cons) ->
    match r with RWrite i n xs | RRead i n xs => i + n <= R /\ length xs <= n | RPeek i n xs => i + n <= R /\ length xs = n | _ => True end.
  Proof.
    intros acts s HM HR Ha o r Hi. destruct (exec_Inv T MAX promoted R acts s HM HR Ha) as (es & acc & w & wl & nW & rl & nR & rs & js & lv & nL & pn & xs & fl & dn & d & HS).
    destruct HS as (_ & _ & _ & Hc & G1 & G2). assert (Hg : good T R (o, r)). { apply in_app_iff in Hi. rewrite Forall_forall in G1, G2. destruct Hi; auto. }
    destruct o, r; cbn in *; try contradiction; tauto.
  Qed.

  (** C04, C05 without the hypothesis on the positions, for clients that ask for [H] elements and commit all of them or none,
      when [H] divides the capacity *)
  Definition block_writer (H : nat) (a : act (op T)) : Prop :=
    match a with
    | Invoke Prod (BWrite q dd) => q = Reserve H /\ forall i n, length (firstn n (dd i n)) = 0 \/ length (firstn n (dd i n)) = H
    | _ => True
    end.
  Theorem C05_blocks_safe : forall H acts, R <= MAX -> 0 < H -> Nat.divide H R -> Forall (block_writer H) acts ->
    match exec acts with Next s => ascends s | Disabled => True | Undef => False end.
  Proof.
    intros H acts HM H0 Hd Hb. pose proof (run_blocks T MAX promoted R H acts HM H0 Hd Hb (init_sys R) (Inv_init T MAX promoted R) (BI_init T R H)) as Hr.
    unfold exec_all. destruct (run _ _ _ acts) as [s| |]; auto. destruct Hr as (_ & (l & w & _ & _ & _ & Hw & _)). eapply asc_const; eauto.
  Qed.
  Theorem C04_blocks_stream : forall H acts s, R <= MAX -> 0 < H -> Nat.divide H R -> Forall (block_writer H) acts -> exec acts = Next s ->
    consumes (written (slog s Prod) ++ in_flight s) (slog s Cons) /\ no_error (slog s Prod) /\ no_error (slog s Cons).
  Proof. intros H acts s HM H0 Hd Hb He. pose proof (C05_blocks_safe H acts HM H0 Hd Hb) as Ha. rewrite He in Ha. eapply C04_stream; eauto. Qed.
End Props.

Print Assumptions C04_stream.
Print Assumptions C04_prefix.
Print Assumptions C04_drain.
Print Assumptions C05_no_undefined_step.
Print Assumptions C05_in_range.
Print Assumptions C05_blocks_safe.
Print Assumptions C04_blocks_stream.

(** ** schedules used below: one call run with the given choices of messages *)
Definition call {T} (t : tid) (o : op T) (cs : list nat) : list (act (op T)) := Invoke t o :: map (Step t) cs.
Definition put (q : req) (a n : nat) (cs : list nat) : list (act (op nat)) := call Prod (BWrite q (fun _ _ => seq a n)) cs.
Definition get (cs : list nat) : list (act (op nat)) := call Cons (BRead 255 (fun _ n => n)) cs.
Definition zeros (n : nat) : list nat := repeat 0 n.
(** write 8, read 8, write 7, which wraps around at 8 *)
Definition once : list (act (op nat)) :=
  put (Reserve 8) 0 8 (zeros 15) ++ get ([0;1] ++ zeros 16 ++ [0;1;0;0]) ++
  put (Reserve 7) 8 7 ([1;1] ++ zeros 7 ++ [1;1;0;0]).
(** then read these 7, write 6, which wraps around at 7 *)
Definition twice : list (act (op nat)) :=
  once ++ get ([1;2;1] ++ zeros 14 ++ [1;2;1;0;0]) ++ put (Reserve 6) 15 6 ([2;2] ++ zeros 6 ++ [2;2;0;0]).

Lemma after {A} (o : outcome A) (P : A -> Prop) : match o with Next s => P s | _ => False end -> exists s, o = Next s /\ P s.
Proof. destruct o; eauto; contradiction. Qed.
(** the cell a thread is about to read *)
Definition about_to_read {T} (s : sys T (op T) (res T)) (t : tid) : option nat := match scur s t with Some (_, Get i _) => Some i | _ => None end.
Definition idle {T} (s : sys T (op T) (res T)) (t : tid) : bool := match scur s t with None => true | _ => false end.

(** the hypotheses hold after the wrap-around, with 15 elements written and 8 read *)
Example C04_hypotheses : exists s, exec_all nat 255 true 10 once = Next s /\ ascends nat s /\ wraps (write_positions s) = [8] /\
  length (written (slog s Prod)) = 15 /\ taken (slog s Cons) = seq 0 8 /\ idle s Prod = true /\ idle s Cons = true.
Proof. apply after. vm_compute. repeat split. Qed.

(** C05: the second wrap-around is lower; read_reserve then gives a span of elements nobody wrote, and reading it is undefined *)
Theorem C05_wrap_lower_refuted : ~ (forall T MAX promoted R acts, R <= MAX -> exec_all T MAX promoted R acts <> Undef).
Proof. intros H. apply (H nat 255 true 10 (twice ++ call Cons (BPeek 255) [2;3;1;0])); [lia|]. vm_compute. reflexivity. Qed.
(** The span: the writer committed 6 elements at offset 0 and the buffer holds only these; the reader is given one element at
    offset 7. *)
Example C05_wrap_lower_span : exists s, exec_all nat 255 true 10 (twice ++ call Cons (BPeek 255) [2;3;1]) = Next s /\
  wraps (write_positions s) = [8; 7] /\ about_to_read s Cons = Some 7 /\
  written (slog s Prod) = taken (slog s Cons) ++ seq 15 6.
Proof. apply after. vm_compute. repeat split. Qed.

(** C05: write_reserve_optimal with a size_type as wide as int or wider, behind a wrap-around: the span has the size of the
    largest size_type (255 here: the argument does not depend on it), far outside the buffer. *)
Definition opt : list (act (op nat)) :=
  put (Reserve 4) 0 4 (zeros 11) ++ call Cons (BRead 3 (fun _ n => n)) ([0;1] ++ zeros 6 ++ [0;1;0;0]) ++
  put (Reserve 2) 4 1 ([1;1;0;1;1;0;0]) ++ call Prod (BWrite (Optimal 1) (fun _ _ => [])) [2;1;0].
Theorem C05_optimal_refuted : ~ (forall T MAX R acts s, R <= MAX -> exec_any T MAX false R acts = Next s -> ascends T s ->
  forall o i n xs, In (o, RWrite i n xs) (slog s Prod) -> i + n <= R).
Proof.
  intros H.
  refine ((fun Hx => _) (fun s => H nat 255 4 opt s)). 
  assert (He : exists s, exec_any nat 255 false 4 opt = Next s /\ ascends nat s /\ exists o, In (o, RWrite 1 255 []) (slog s Prod)).
  { apply after. vm_compute. repeat split. eexists. right. right. left. reflexivity. }
  destruct He as (s & E & A & o & I). specialize (Hx s ltac:(lia) E A o 1 255 [] I). lia.
Qed.
Print Assumptions C05_wrap_lower_refuted.
Print Assumptions C05_optimal_refuted.

(** block writers: 2 elements at a time in a buffer of 4, wrapping around *)
Definition two (a : nat) (cs : list nat) : list (act (op nat)) := call Prod (BWrite (Reserve 2) (fun _ n => if n =? 2 then seq a 2 else [])) cs.
Definition blocks : list (act (op nat)) :=
  two 0 (zeros 9) ++ two 2 ([1;0;0;0;1;0;0;0;0]) ++ call Cons (BRead 4 (fun _ n => n)) ([0;2] ++ zeros 8 ++ [0;2;0;0]) ++
  two 4 [2;1;0;0;2;1;0;0].
Lemma steps_blocks t cs : Forall (block_writer nat 2) (map (Step t) cs).
Proof. induction cs; constructor; auto. exact I. Qed.
Lemma two_blocks a cs : Forall (block_writer nat 2) (two a cs).
Proof.
  constructor; [|apply steps_blocks]. split; [reflexivity|]. intros i n. destruct (Nat.eqb_spec n 2) as [->|E]; [right; reflexivity|].
  left. now rewrite firstn_nil.
Qed.
Example C05_blocks_case : (exists s, exec_all nat 255 true 4 blocks = Next s /\ wraps (write_positions s) = [4] /\ written (slog s Prod) = seq 0 6) /\
  Forall (block_writer nat 2) blocks /\ Nat.divide 2 4.
Proof.
  split; [apply after; vm_compute; split; reflexivity|]. split; [|exists 2; reflexivity].
  unfold blocks. repeat (apply Forall_app; split); try apply two_blocks. constructor; [exact I|]. apply steps_blocks.
Qed.
