(** * C18: priority_queue yields the greatest element *)
From Coq Require Import List Arith Bool Permutation Lia String.
From Verif Require Import Util Slots SortModel SortSpec HeapProofs SortProofs SortProofs2 SortProps PrioSpec PrioModel.
Import ListNotations.

Section P.
  Context {A : Type}.
  Variable lt : A -> A -> bool.
  Variable N : nat.
  Hypothesis O : strict_weak_order lt.
  (** the calls a client may make: top, pop and pop_into only on a non-empty queue *)
  Definition allowed (n : nat) (o : pop_t A) : Prop := match o with Ppop | Ptop | Ppop_into => 0 < n | _ => True end.
  Lemma op_ok o c : heap lt c -> List.length c <= N -> allowed (List.length c) o ->
    exists r c', pq_op lt N o c = V (r, c') /\ pstep lt N c o r c' /\ heap lt c' /\ List.length c' <= N.
  Proof.
    intros H L Al.
    assert (Pop : 0 < List.length c -> exists m c', rd c 0 = Some m /\ pq_pop lt c = V c' /\ Permutation (m :: c') c /\ heap lt c' /\ greatest lt m c).
    { intros P. destruct (rd_lt c 0 P) as [m Hm]. destruct (pop_heap_ok lt O c m H Hm) as (c' & E & Pm & Hh & G).
      exists m, c'. unfold pq_pop. rewrite E; cbn [lift bind]. rewrite removelast_last. auto. }
    destruct o as [x| | | | |xs| | | |]; cbn [pq_op allowed] in *.
    - unfold pq_push, pq_full. destruct (Nat.eqb_spec (List.length c) N) as [E|E]; cbn [negb etl_assert bind].
      + do 2 eexists. conj; [reflexivity|now apply s_push_full|assumption|lia].
      + destruct (push_heap_ok lt O c x H) as (c' & Ep & P & Hh). rewrite Ep; cbn [lift].
        assert (P' : Permutation c' (x :: c)) by (rewrite P; symmetry; apply Permutation_cons_append).
        do 2 eexists. conj; [reflexivity|apply s_push; [lia|assumption]|assumption|]. apply Permutation_length in P'. cbn in P'. lia.
    - destruct (Pop Al) as (m & c' & Hm & E & P & Hh & G). rewrite E; cbn [bind]. do 2 eexists. conj; [reflexivity|eapply s_pop; eauto|assumption|]. apply Permutation_length in P. cbn in P. lia.
    - destruct (Pop Al) as (m & c' & Hm & E & P & Hh & G). unfold pq_top. rewrite Hm; cbn [lift bind]. do 2 eexists. conj; [reflexivity|now apply s_top|assumption|assumption].
    - destruct (Pop Al) as (m & c' & Hm & E & P & Hh & G). unfold pq_pop_into, pq_top. rewrite Hm; cbn [lift bind]. rewrite E; cbn [bind fst snd].
      do 2 eexists. conj; [reflexivity|eapply s_pop_into; eauto|assumption|]. apply Permutation_length in P. cbn in P. lia.
    - do 2 eexists. conj; [reflexivity|constructor| |cbn; lia]. intros i p q Hi Hp. now destruct ((i - 1) / 2).
    - unfold pq_assign. destruct (Nat.leb_spec (List.length xs) N) as [Lx|Lx]; cbn [etl_assert bind].
      + destruct (make_heap_ok lt O xs) as (c' & E & P & Hh). rewrite E; cbn [lift]. do 2 eexists. conj; [reflexivity|now apply s_assign|assumption|]. apply Permutation_length in P. lia.
      + do 2 eexists. conj; [reflexivity|apply s_assign_full; [lia|reflexivity]|assumption|assumption].
    - do 2 eexists. conj; [reflexivity|now apply s_size|assumption|assumption].
    - do 2 eexists. conj; [reflexivity|now apply s_empty|assumption|assumption].
    - do 2 eexists. conj; [reflexivity|now apply s_full|assumption|assumption].
    - do 2 eexists. conj; [reflexivity|now apply s_available|assumption|assumption].
  Qed.
End P.

(** how many elements there are after a call: decides which calls are allowed next *)
Definition count_after {A} (N n : nat) (o : pop_t A) : nat :=
  match o with
  | Ppush _ => if Nat.eqb n N then n else S n | Ppop | Ppop_into => n - 1 | Pclear => 0
  | Passign xs => if Nat.leb (List.length xs) N then List.length xs else n
  | _ => n
  end.
Fixpoint all_allowed {A} (N n : nat) (os : list (pop_t A)) : Prop := match os with [] => True | o :: r => allowed n o /\ all_allowed N (count_after N n o) r end.

(** Every history of calls on a new queue, in which top/pop/pop_into are made only when the queue is not empty,
    runs without undefined behaviour and its results are those of the bag. *)
Theorem C18_priority_queue : forall (A : Type) (lt : A -> A -> bool) (N : nat) (ops : list (pop_t A)), strict_weak_order lt ->
  all_allowed N 0 ops ->
  exists results c, pq_ops lt N ops [] = V (results, c) /\ psteps lt N [] ops results c /\ heap lt c /\ List.length c <= N.
Proof.
  intros A lt N ops O.
  assert (G : forall ops c, heap lt c -> List.length c <= N -> all_allowed N (List.length c) ops ->
    exists results c', pq_ops lt N ops c = V (results, c') /\ psteps lt N c ops results c' /\ heap lt c' /\ List.length c' <= N).
  { induction ops0 as [|o os IH]; intros c H L Al.
    - exists [], c. conj; [reflexivity|constructor|assumption|assumption].
    - destruct Al as [A1 A2]. destruct (op_ok lt N O o c H L A1) as (r & c1 & E & S1 & H1 & L1).
      assert (Cn : List.length c1 = count_after N (List.length c) o).
      { inversion S1; subst; cbn [count_after]; repeat match goal with P : Permutation _ _ |- _ => apply Permutation_length in P; cbn [List.length] in P end;
          repeat match goal with |- context [Nat.eqb ?x ?y] => destruct (Nat.eqb_spec x y) | |- context [Nat.leb ?x ?y] => destruct (Nat.leb_spec x y) end; cbn [List.length]; lia. }
      destruct (IH c1 H1 L1) as (rs & c2 & E2 & S2 & H2 & L2); [now rewrite Cn|].
      exists (r :: rs), c2. cbn [pq_ops]. rewrite E; cbn [bind fst snd]. rewrite E2; cbn [bind fst snd]. conj; [reflexivity|econstructor; eauto|assumption|assumption]. }
  intros Al. apply G; [|cbn; lia|assumption]. intros i p q Hi Hp. now destruct ((i - 1) / 2).
Qed.
Print Assumptions C18_priority_queue.

(** Popping everything gives the contents in non-increasing order. *)
Theorem C18_drain_is_sorted : forall (A : Type) (lt : A -> A -> bool) (N : nat) (c : list A), strict_weak_order lt -> heap lt c -> List.length c <= N ->
  exists xs, pq_ops lt N (repeat Ppop_into (List.length c)) c = V (map (@Rval A) xs, []) /\ Permutation xs c /\ sorted (fun x y => lt y x) xs.
Proof.
  intros A lt N c O H L. remember (List.length c) as n eqn:E. revert c E H L. induction n as [|n IH]; intros c E H L.
  - destruct c; [|discriminate]. exists []. conj; try reflexivity. intros i j a b _ Ha. destruct i; discriminate.
  - destruct (op_ok lt N O Ppop_into c H ltac:(lia) ltac:(cbn; lia)) as (r & c1 & E1 & S1 & H1 & L1). inversion S1; subst.
    match goal with P : Permutation _ c, G : greatest _ _ _ |- _ => pose proof P as Pm; pose proof (proj2 G) as Gr end.
    pose proof (Permutation_length Pm) as Ll. cbn [List.length] in Ll.
    destruct (IH c1) as (xs & E2 & P2 & S2); [lia|assumption|lia|].
    exists (m :: xs). cbn [repeat pq_ops]. rewrite E1; cbn [bind fst snd]. rewrite E2; cbn [bind fst snd map]. conj; [reflexivity|now rewrite P2|].
    intros i j a b Lij Ha Hb. destruct j as [|j]; [lia|]. cbn in Hb. destruct i as [|i].
    + cbn in Ha. injection Ha as <-. apply Gr. eapply Permutation_in; [exact Pm|]. right. eapply Permutation_in; [exact P2|]. eapply nth_error_In; eauto.
    + cbn in Ha. apply (S2 i j); [lia|assumption|assumption].
Qed.
Print Assumptions C18_drain_is_sorted.

(** Beyond the contract: pop and top of an empty queue are undefined (documented). *)
Theorem C18_pop_empty_undefined : forall (A : Type) (lt : A -> A -> bool) N, pq_op lt N Ppop [] = UB /\ pq_op lt N Ptop [] = UB.
Proof. intros; split; reflexivity. Qed.

(** non-vacuity *)
Example ex_pq : exists c, pq_ops Nat.ltb 3 [Ppush 4; Ppush 9; Ppush 4; Ppush 7; Ptop; Ppop_into; Psize; Ppush 1; Ppop; Ptop] [] =
  V ([Rok; Rok; Rok; Rfull; Rval 9; Rval 9; Rnat 2; Rok; Rok; Rval 4], c).
Proof. eexists. vm_compute. reflexivity. Qed.
Example ex_pq_allowed : all_allowed 3 0 [Ppush 4; Ppush 9; Ppush 4; Ppush 7; Ptop; Ppop_into; Psize; Ppush 1; Ppop; Ptop].
Proof. cbn. repeat split; lia. Qed.
