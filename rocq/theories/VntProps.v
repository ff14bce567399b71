(** C41, etl::variant and etl::expected: a variable holds exactly the
    alternative last put there, with that value, over every history; objects
    are constructed and destroyed in pairs.  The specification is VntSpec.v. *)
From Coq Require Import List String Bool Arith Lia.
From Verif Require Import Cmd OptModel OptProofs VntSpec VntModel VntProofs ExpProofs Util.
Import ListNotations.

Ltac go := repeat (progress (unfold cbind, arm, vunit_, vemplace_i, take_var, do_destroy, build, put_var, vnote, vdrop, vget, vget_rv, vset_val, assert_, ret, vread, index; cbn; rewrite ?Nat.eqb_refl)).
Section C41.
Context {V : Type}.
Variables (moved : V -> V) (dflt : nat -> V).

(** Every history of calls that the specification covers (constructors that
    throw included) is performed without undefined behaviour and with the
    specified results; every variable has seen one construction more than
    destructions if it is alive, and equally many otherwise. *)
Theorem C41_variant_history (TS : list nat) h xs a' :
  TS <> [] ->
  spec_run (vspec moved dflt TS) h vnothing = Some (xs, a') ->
  exists w, run (vexec moved dflt TS) h vstart = Some (xs, w) /\
    (forall n, cnt (Ctor (U n)) (vlog w) = cnt (Dtor (U n)) (vlog w) + match a' n with Some _ => 1 | None => 0 end) /\
    cnt (Ctor Tmp) (vlog w) = cnt (Dtor Tmp) (vlog w).
Proof.
  intros Hne Hs.
  assert (R0 : vrep TS (vstart (V := V)) vnothing) by (unfold vrep; conj; [reflexivity|discriminate|reflexivity|intros x; reflexivity]).
  destruct (run_refines (vexec moved dflt TS) (vspec moved dflt TS) (vrep TS)) with (ops := h) (s := vstart (V := V)) (a := @vnothing V) (l := xs) (a' := a')
    as (w & E & RV & RI & RT & L); auto.
  - intros [t o] w a x a1 R S1. apply (step_v moved dflt TS Hne t o w a x a1 R S1).
  - exists w. conj; auto.
    + intros n. rewrite (L (U n)), RV. destruct (a' n) as [[k v]|]; reflexivity.
    + rewrite (L Tmp), RT. cbn. lia.
Qed.

(** expected<T, E> holds a value or an error, for all types T and E; only the
    (unexpect, ...) constructor needs T and E to differ. *)
Theorem C41_expected_history (mono tv te : nat) (distinct : bool) eqv eqe h xs a' :
  tv <> mono -> te <> mono -> (distinct = true -> tv <> te) ->
  spec_run (espec moved (dflt tv) eqv eqe distinct) h enothing = Some (xs, a') ->
  exists w, run (eexec moved dflt eqv eqe mono tv te) h vstart = Some (xs, w) /\
    (forall n, cnt (Ctor (U n)) (vlog w) = cnt (Dtor (U n)) (vlog w) + match a' n with Some _ => 1 | None => 0 end) /\
    cnt (Ctor Tmp) (vlog w) = cnt (Dtor Tmp) (vlog w).
Proof.
  intros Htv Hte Hd Hs.
  assert (R0 : erep mono tv te (vstart (V := V)) enothing) by (unfold erep, vrep; conj; [reflexivity|discriminate|reflexivity|intros x; reflexivity]).
  destruct (run_refines (eexec moved dflt eqv eqe mono tv te) (espec moved (dflt tv) eqv eqe distinct) (erep mono tv te))
    with (ops := h) (s := vstart (V := V)) (a := @enothing V) (l := xs) (a' := a') as (w & E & RV & RI & RT & L); auto.
  - intros [t o] w a x a1 R S1. apply (step_e moved dflt eqv eqe mono tv te Htv Hte distinct Hd t o w a x a1 R S1).
  - exists w. conj; auto.
    + intros n. rewrite (L (U n)), RV. unfold encm. destruct (a' n) as [[k|v]|]; reflexivity.
    + rewrite (L Tmp), RT. cbn. lia.
Qed.

(** FINDING: expected<T, T>(etl::unexpect, e) holds a VALUE: error() raises the
    variant error and value() returns e. *)
Theorem C41_expected_unexpect_refuted (mono t : nat) eqv eqe (e : V) :
  t <> mono ->
  exists w, run (eexec moved dflt eqv eqe mono t t) [(false, ENewUnexpect 0 e); (false, EHas 0); (false, EError 0); (false, EValue 0)] vstart =
    Some ([Returned VUnit; Returned (VBool true); Threw bad_type; Returned (VVal e)], w).
Proof.
  intros H. unfold run, eexec, eexec_op. cbn [fst snd].
  assert (E : index_of_type (ETS mono t t) t = 1).
  { destruct (first_of_spec (ETS mono t t) t 1) as (_ & _ & E); auto. apply first_tv; auto. }
  unfold vnew_val. rewrite E. clear E. cbn. unfold e_value, vget, cbind. cbn. rewrite Nat.eqb_refl. eexists. reflexivity.
Qed.

(** FINDING: v = get<k>(v) destroys the held object and copies from it. *)
Theorem C41_variant_self_value_refuted (TS : list nat) (k : nat) (v : V) :
  k < List.length TS ->
  run (vexec moved dflt TS) [(false, VNewIdx 0 k v); (false, VSetHeld 0 0 k)] vstart = None.
Proof.
  intros H. unfold run, vexec, vexec_op. cbn [fst snd]. go. reflexivity.
Qed.

(** FINDING: a constructor that throws in emplace or assignment leaves the old
    index over a destroyed object: the variant is not valueless, get is
    undefined behaviour and so is the destructor. *)
Theorem C41_variant_throw_refuted (TS : list nat) (k : nat) (v u : V) :
  k < List.length TS ->
  let h := [(false, VNewIdx 0 k v); (true, VEmplaceI 0 k u)] in
  (exists w, run (vexec moved dflt TS) (h ++ [(false, VIndex 0); (false, VValueless 0)]) vstart =
     Some ([Returned VUnit; Threw "T"%string; Returned (VNat k); Returned (VBool false)], w)) /\
  run (vexec moved dflt TS) (h ++ [(false, VGetI 0 k)]) vstart = None /\
  run (vexec moved dflt TS) (h ++ [(false, VDrop 0)]) vstart = None.
Proof.
  intros H h. unfold h. cbn [app]. unfold run, vexec, vexec_op. cbn [fst snd]. go. conj; auto. eexists. reflexivity.
Qed.

(** FINDING: get<m>(std::move(v)) does not check the index: with another
    alternative held, no error is raised and the bytes are read as the wrong type. *)
Theorem C41_variant_get_rvalue_refuted (TS : list nat) (k m : nat) (v : V) :
  k < List.length TS -> m < List.length TS -> nth k TS 0 <> nth m TS 0 ->
  run (vexec moved dflt TS) [(false, VNewIdx 0 k v); (false, VGetRv 0 m)] vstart = None.
Proof.
  intros H1 H2 N. unfold run, vexec, vexec_op. cbn [fst snd]. go. rewrite !type_from_index_ty by auto. cbn.
  unfold ty. now rewrite (proj2 (Nat.eqb_neq _ _) N).
Qed.
End C41.
Print Assumptions C41_variant_history.
Print Assumptions C41_expected_history.
Print Assumptions C41_expected_unexpect_refuted.
Print Assumptions C41_variant_self_value_refuted.
Print Assumptions C41_variant_throw_refuted.
Print Assumptions C41_variant_get_rvalue_refuted.

(** variant<A, B, A>: throwing constructor, moves, swaps with itself and
    another, access by index and type, wrong access *)
Example demo_v : exists a', spec_run (vspec (fun _ => 0) (fun t => 100 + t) [5; 6; 5])
  [(false, VNew 0); (true, VNewIdx 1 1 7); (false, VNewIdx 1 1 7); (false, VSet true 0 1); (false, VVisit 0); (false, VVisit 1);
   (false, VSwap 0 1); (false, VSwap 0 0); (false, VGetT 0 6); (false, VGetI 0 2); (false, VEmplaceI 0 2 8); (false, VHoldsT 0 5);
   (false, VSetVal 0 5 9); (false, VIndex 0); (false, VSetHeld 1 0 0); (false, VGetIf 1 1); (false, VDrop 0); (false, VDrop 1)] vnothing =
  Some ([Returned VUnit; Threw "T"%string; Returned VUnit; Returned VUnit; Returned (VSeen 1 7); Returned (VSeen 1 0);
         Returned VUnit; Returned VUnit; Returned (VVal 0); Threw bad_type; Returned VUnit; Returned (VBool false);
         Returned VUnit; Returned (VNat 0); Returned VUnit; Returned (VPtr None); Returned VUnit; Returned VUnit], a').
Proof. eexists. reflexivity. Qed.
Example demo_e : exists a', spec_run (espec (fun _ => 0) 42 Nat.eqb Nat.eqb true)
  [(false, ENew 0); (false, ENewUnexpect 1 3); (false, EEq 0 1); (false, ESwap 0 1); (false, EValue 0); (false, EDeref 0); (false, EValueOr 1 5);
   (false, ESet true 0 1); (false, EEmplace 1 7); (false, EEq 0 1); (false, EDrop 0); (false, EDrop 1)] enothing =
  Some ([Returned VUnit; Returned VUnit; Returned (VBool false); Returned VUnit; Threw bad_type; Threw "expected_invalid"%string; Returned (VVal 42);
         Returned VUnit; Returned VUnit; Returned (VBool false); Returned VUnit; Returned VUnit], a').
Proof. eexists. reflexivity. Qed.
Example demo_expected_hyps : 1 <> 0 /\ 2 <> 0 /\ (true = true -> 1 <> 2). Proof. repeat split; discriminate. Qed.
