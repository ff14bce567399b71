(** * C12: list.h behaves as sequences that take their nodes from pools, for every history *)
From Coq Require Import List Arith Bool Lia Permutation.
From Verif Require Import Util SortSpec ListSpec Dll ListModel MergeSort ListProofs.
Import ListNotations.
Section Props.
  Context {A : Type}.
  Variables (n : nat) (term pool : nat -> nat) (shared : nat -> bool) (blocks : nat -> list nat) (check triv : bool).
  Local Notation capacity := (fun p => length (blocks p)).
  Local Notation start := (fun _ => []).
  Lemma constructed_sim (w : @world A) : config_ok n term pool shared blocks -> constructed n term blocks w -> sim n term pool blocks w start.
  Proof.
    intros [C1 C2 C3 C4 C5] (H1 & H2). exists (fun _ => []). split; [|intros i Hi; reflexivity].
    assert (all n (fun _ : nat => @nil (nat * A)) = []) as E. { unfold all. induction (seq 0 (S n)); [reflexivity|assumption]. }
    unfold Inv. conj.
    - constructor; rewrite ?E; [constructor|intros x v []|intros i x Hi []|intros x []|intros p; rewrite H2; apply C3|]. intros p x. rewrite H2. cbn. tauto.
    - intros i Hi. unfold ring. cbn. destruct (H1 i Hi). tauto.
    - reflexivity.
  Qed.
  (** every history of operations a caller may make gives the results of the sequences *)
  Theorem C12_history : forall (os : list (lop A)) (w : world), config_ok n term pool shared blocks -> constructed n term blocks w -> all_allowed n pool capacity check os start ->
    exists w', list_ops term pool shared blocks check triv os w = Some (fst (l_steps n pool capacity os start), w').
  Proof.
    intros os w Cf Hw Ha. pose proof (constructed_sim w Cf Hw) as S0. destruct Cf as [C1 C2 C3 C4 C5]. destruct (steps_ok n term pool shared blocks check triv C1 C2 C3 C4 C5 os w start S0 Ha) as (w' & E & _). now exists w'.
  Qed.
  (** no node is lost or handed out twice: after every history, the free nodes of a pool and the elements of its lists are as many as its blocks *)
  Theorem C12_no_leak : forall (os : list (lop A)) (w w' : world) rs, config_ok n term pool shared blocks -> constructed n term blocks w -> all_allowed n pool capacity check os start -> list_ops term pool shared blocks check triv os w = Some (rs, w') ->
    forall p, NoDup (free w' p) /\ incl (free w' p) (blocks p) /\ length (free w' p) + used n pool (snd (l_steps n pool capacity os start)) p = length (blocks p).
  Proof.
    intros os w w' rs Cf Hw Ha E p. pose proof (constructed_sim w Cf Hw) as S0. destruct Cf as [C1 C2 C3 C4 C5]. destruct (steps_ok n term pool shared blocks check triv C1 C2 C3 C4 C5 os w start S0 Ha) as (w2 & E2 & nd & J & G). change (cap blocks) with capacity in *. rewrite E2 in E. injection E as _ <-. conj.
    - destruct J as (O & _). apply (o_fnd _ _ _ _ _ O).
    - intros x I. destruct J as (O & _). apply (o_free _ _ _ _ _ O) in I. apply I.
    - rewrite (used_agree n pool _ nd p G). apply (free_used n term pool blocks); assumption.
  Qed.
End Props.
(** what "sorted" means in the sequences: sorted, a permutation, stable *)
Theorem C12_sort_meaning : forall (A : Type) (lt : A -> A -> bool) (l : list A), strict_weak_order lt ->
  sorted lt (stable_sort lt l) /\ Permutation (stable_sort lt l) l /\ stable lt l (stable_sort lt l).
Proof. intros A lt l O. conj; [apply srt_sorted, stable_sort_srt, O|apply stable_sort_perm|apply stable_sort_stable, O]. Qed.
(** two sorted lists merge into a sorted one in which equal elements of the first list come first *)
Theorem C12_merge_meaning : forall (A : Type) (lt : A -> A -> bool) (xs ys : list A), strict_weak_order lt -> stable_sort lt xs = xs -> stable_sort lt ys = ys -> merged lt xs ys = stable_sort lt (xs ++ ys).
Proof.
  intros A lt xs ys O Ex Ey. assert (srt lt xs) as Sx by (rewrite <- Ex; apply stable_sort_srt, O). assert (srt lt ys) as Sy by (rewrite <- Ey; apply stable_sort_srt, O).
  rewrite <- (srt_stable lt (merged lt xs ys)) by (apply merged_srt; assumption). apply (merged_sort lt O xs ys [] Sx).
Qed.
(** ** a concrete configuration: two lists with their own pools of 3 and 4 nodes; two with a shared pool of 3 *)
Definition ex_term (i : nat) : nat := i.
Definition ex_blocks (p : nat) : list nat := match p with 0 => [10; 11; 12] | 1 => [20; 21; 22; 23] | 2 => [30; 31; 32] | _ => [] end.
Definition ex_pool (i : nat) : nat := match i with 0 => 0 | 1 => 1 | _ => 2 end.
Definition ex_shared (i : nat) : bool := 2 <=? i.
Definition ex_world : @world nat := {| hp := {| nxt := fun x => x; prv := fun x => x |}; val := fun _ => None; free := ex_blocks |}.
Lemma ex_config : config_ok 4 ex_term ex_pool ex_shared ex_blocks.
Proof.
  constructor.
  - intros i j _ _ H. exact H.
  - intros i p Hi. destruct p as [|[|[|p]]]; cbn; unfold ex_term; lia.
  - intros p. destruct p as [|[|[|p]]]; cbn; repeat constructor; cbn; lia.
  - intros p q x. destruct p as [|[|[|p]]], q as [|[|[|q]]]; cbn; lia.
  - intros i j Hi Hj Hs Hp. unfold ex_shared in Hs. apply Nat.leb_gt in Hs. destruct i as [|[|i]]; [| |lia]; destruct j as [|[|j]]; cbn in Hp; lia.
Qed.
Lemma ex_constructed : constructed 4 ex_term ex_blocks ex_world.
Proof. split; [intros; split; reflexivity|reflexivity]. Qed.
Definition ex_ops : list (lop nat) :=
  [LpushBack 1 3; LpushFront 1 2; LpushBack 1 1; LpushBack 0 5; Lsort 1 Nat.ltb; Lforward 1; Lmerge 0 1 Nat.ltb; Lforward 0; Lsize 1; LpushBack 1 9; LpushBack 1 9; Lunique 1 Nat.eqb; Lforward 1;
   Lreverse 0; Lbackward 0; LpushBack 2 7; LpushBack 2 8; LpushBack 3 4; LspliceOne 3 0 2 1; LpopFront 2; LspliceOne 3 0 2 0; LmoveFrom 2 3; Lforward 2; Lfull 3; LspliceOne 2 0 2 1; Lforward 2].
Example C12_example_allowed : all_allowed 4 ex_pool (fun p => length (ex_blocks p)) true ex_ops (fun _ => []).
Proof.
  assert (strict_weak_order Nat.ltb) as O. { constructor; intros *; rewrite ?Nat.ltb_ge, ?Nat.ltb_lt; lia. }
  unfold ex_ops. cbn [all_allowed allowed]. repeat (exact O || apply conj || exact I); try (vm_compute; lia); try discriminate.
Qed.
Example C12_example : option_map fst (list_ops ex_term ex_pool ex_shared ex_blocks true false ex_ops ex_world) = Some (fst (l_steps 4 ex_pool (fun p => length (ex_blocks p)) ex_ops (fun _ => []))).
Proof. vm_compute. reflexivity. Qed.
Example C12_example_results : fst (l_steps 4 ex_pool (fun p => length (ex_blocks p)) ex_ops (fun _ => [])) =
  [Rok; Rok; Rok; Rok; Rok; Rl [1; 2; 3]; Rfull; Rl [1; 2; 5]; Rn 3; Rok; Rfull; Rok; Rl [1; 2; 3; 9]; Rok; Rl [1; 2; 5]; Rok; Rok; Rok; Rfull; Rok; Rok; Rok; Rl [8; 4]; Rb false; Rok; Rl [4; 8]].
Proof. vm_compute. reflexivity. Qed.
(** FINDING: splice(to, list&&) puts the elements in reverse order (list.h: 1437-1441: "to" is not advanced past the element just inserted) *)
Theorem C12_splice_rvalue_refuted : option_map fst (list_ops ex_term ex_pool ex_shared ex_blocks true false [LpushBack 0 1; LpushBack 1 2; LpushBack 1 3; LspliceMove 0 1 1; Lforward 0] ex_world) = Some [Rok; Rok; Rok; Rok; Rl [1; 3; 2]].
Proof. vm_compute. reflexivity. Qed.
(** FINDING: splice of an empty range [x, x) of the same list before another element loses the elements in between (list.h: 1952-1978) *)
Theorem C12_splice_empty_range_refuted : option_map fst (list_ops ex_term ex_pool ex_shared ex_blocks true false [LpushBack 0 1; LpushBack 0 2; LpushBack 0 3; LspliceRange 0 0 0 2 2; Lforward 0; Lsize 0] ex_world) = Some [Rok; Rok; Rok; Rok; Rl [3]; Rn 3].
Proof. vm_compute. reflexivity. Qed.
(** FINDING: splice between two lists of one pool copies: it throws list_full when the pool is exhausted, although the number of elements does not change *)
Theorem C12_splice_shared_pool_refuted : option_map fst (list_ops ex_term ex_pool ex_shared ex_blocks true false [LpushBack 2 1; LpushBack 2 2; LpushBack 3 3; LspliceOne 3 0 2 0; Lforward 2; Lforward 3] ex_world) = Some [Rok; Rok; Rok; Rfull; Rl [1; 2]; Rl [3]].
Proof. vm_compute. reflexivity. Qed.
Print Assumptions C12_history.
Print Assumptions C12_no_leak.
Print Assumptions C12_sort_meaning.
Print Assumptions C12_merge_meaning.
Print Assumptions C12_splice_rvalue_refuted.
Print Assumptions C12_splice_empty_range_refuted.
Print Assumptions C12_splice_shared_pool_refuted.
