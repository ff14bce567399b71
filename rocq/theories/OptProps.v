(** C41, etl::optional: the variables of a program behave as "holds v" /
    "holds nothing" over every history, and the objects held are constructed
    and destroyed in pairs.  The specification is OptSpec.v. *)
From Coq Require Import List String Bool Arith Lia ZArith.
From Verif Require Import Cmd OptSpec OptModel OptProofs Util.
Import ListNotations.

Section C41.
Context {T : Type}.
Variables (moved : T -> T) (cmpT : T -> T -> comparison) (zero : T).

(** Class types.  Every history of calls - constructors, assignments between
    and to optionals, emplace, reset, swap, observers, comparisons, destructors,
    with a constructor of T throwing wherever the program asks for it - that the
    specification covers is performed by the code without undefined behaviour,
    with the results the specification gives; and at the end each variable has
    seen as many constructions of a T as destructions, plus one if it holds one. *)
Theorem C41_optional_history h xs a' :
  (forall x y, cmpT y x = CompOpp (cmpT x y)) ->
  spec_run (spec moved cmpT false) h nothing = Some (xs, a') ->
  exists w, run (exec cmpT (storage_n moved)) h start = Some (xs, w) /\
    (forall n, cnt (Ctor (U n)) (log w) = cnt (Dtor (U n)) (log w) + match a' n with Some (Some _) => 1 | _ => 0 end) /\
    cnt (Ctor Tmp) (log w) = cnt (Dtor Tmp) (log w).
Proof.
  intros Hc Hs.
  assert (R0 : rep (start (T := T)) nothing) by (split; [|split]; [reflexivity..|intros x; reflexivity]).
  destruct (run_refines (exec cmpT (storage_n moved)) (spec moved cmpT false) rep) with (ops := h) (s := start (T := T)) (a := @nothing T) (l := xs) (a' := a')
    as (w & E & RV & RT & L); auto.
  - intros [t o] w a x a1 R S1. apply (step_n moved cmpT Hc t o w a x a1 R S1).
  - exists w. conj; auto.
    + intros n. rewrite (L (U n)), RV. destruct (a' n) as [[v|]|]; reflexivity.
    + rewrite (L Tmp), RT. cbn. lia.
Qed.

(** In particular, a program whose T does not throw, that uses only live
    variables and does not assign an optional its own content by reference,
    runs without undefined behaviour and sees what the specification says. *)
Theorem C41_optional_scoped h :
  (forall x y, cmpT y x = CompOpp (cmpT x y)) ->
  scoped false (fun _ => false) h ->
  exists xs a' w, spec_run (spec moved cmpT false) (map (fun o => (false, o)) h) nothing = Some (xs, a') /\
    run (exec cmpT (storage_n moved)) (map (fun o => (false, o)) h) start = Some (xs, w).
Proof.
  intros Hc Hs. destruct (scoped_run moved cmpT false h (fun _ => false) nothing) as (xs & a' & E); auto.
  destruct (C41_optional_history _ xs a' Hc E) as (w & Ew & _). eauto.
Qed.

(** Fundamental types: the same, also for x = x.value(). *)
Theorem C41_optional_fundamental h xs a' :
  (forall x y, cmpT y x = CompOpp (cmpT x y)) ->
  spec_run (spec moved cmpT true) h nothing = Some (xs, a') ->
  exists w, run (exec cmpT (storage_f zero)) h start = Some (xs, w).
Proof.
  intros Hc Hs.
  assert (R0 : repf (start (T := T)) nothing) by (split; [|split]; reflexivity).
  destruct (run_refines (exec cmpT (storage_f zero)) (spec moved cmpT true) repf) with (ops := h) (s := start (T := T)) (a := @nothing T) (l := xs) (a' := a')
    as (w & E & _); eauto.
  intros [t o] w a x a1 R S1. apply (step_f moved cmpT zero Hc t o w a x a1 R S1).
Qed.
Theorem C41_optional_fundamental_scoped h :
  (forall x y, cmpT y x = CompOpp (cmpT x y)) ->
  scoped true (fun _ => false) h ->
  exists xs a' w, spec_run (spec moved cmpT true) (map (fun o => (false, o)) h) nothing = Some (xs, a') /\
    run (exec cmpT (storage_f zero)) (map (fun o => (false, o)) h) start = Some (xs, w).
Proof.
  intros Hc Hs. destruct (scoped_run moved cmpT true h (fun _ => false) nothing) as (xs & a' & E); auto.
  destruct (C41_optional_fundamental _ xs a' Hc E) as (w & Ew). eauto.
Qed.

(** FINDING: o = o.value() for a class type destroys the held object and then
    copies from it: undefined behaviour, whatever the value. *)
Theorem C41_optional_self_value_refuted (v : T) :
  run (exec cmpT (storage_n moved)) [(false, NewVal 0 v); (false, SetHeld 0 0)] start = None.
Proof. reflexivity. Qed.

(** FINDING: if the constructor of T throws while the optional holds a value,
    the optional still says it has one; reading it or destroying the optional
    is then undefined behaviour (a second destruction). *)
Theorem C41_optional_throw_refuted (v u : T) :
  let h := [(false, NewVal 0 v); (true, SetVal 0 u)] in
  (exists w, run (exec cmpT (storage_n moved)) (h ++ [(false, HasValue 0)]) start =
     Some ([Returned RUnit; Threw "T"%string; Returned (RBool true)], w) /\
     cnt (Ctor (U 0)) (log w) = 1 /\ cnt (Dtor (U 0)) (log w) = 1) /\
  run (exec cmpT (storage_n moved)) (h ++ [(false, Value 0)]) start = None /\
  run (exec cmpT (storage_n moved)) (h ++ [(false, Drop 0)]) start = None.
Proof. repeat split; try reflexivity. eexists. repeat split. Qed.
End C41.
Print Assumptions C41_optional_history.
Print Assumptions C41_optional_scoped.
Print Assumptions C41_optional_fundamental.
Print Assumptions C41_optional_fundamental_scoped.
Print Assumptions C41_optional_self_value_refuted.
Print Assumptions C41_optional_throw_refuted.

(** a history with moves, a self-assignment, a self-swap, a throwing
    constructor and comparisons meets the hypotheses *)
Definition demo : list (bool * oop nat) :=
  [(false, NewVal 0 7); (false, New 1); (true, SetVal 1 3); (false, HasValue 1); (false, Value 1);
   (false, SetOpt true 1 0); (false, Value 0); (false, SetOpt false 1 1); (false, Swap 0 1); (false, Swap 0 0);
   (false, Cmp CLt (OVar 1) (OVar 0)); (false, Cmp CGe ONull (OVar 1)); (true, Emplace03 1 9); (false, ValueOr 1 5);
   (false, SetHeld 1 0); (false, Drop 0); (false, Value 1); (false, Drop 1)].
Example demo_spec : exists a', spec_run (spec (fun _ => 0) Nat.compare false) demo nothing =
  Some ([Returned RUnit; Returned RUnit; Threw "T"%string; Returned (RBool false); Threw "optional_invalid"%string;
         Returned RUnit; Returned (RVal 0); Returned RUnit; Returned RUnit; Returned RUnit;
         Returned (RBool true); Returned (RBool false); Threw "T"%string; Returned (RVal 5);
         Returned RUnit; Returned RUnit; Returned (RVal 7); Returned RUnit], a').
Proof. eexists. reflexivity. Qed.
Example demo_cmp : forall x y, Nat.compare y x = CompOpp (Nat.compare x y).
Proof. intros. apply Nat.compare_antisym. Qed.
Example demo_scoped : scoped (T := nat) false (fun _ => false) [NewVal 0 7; NewCopy 1 0; SetHeld 1 0; Drop 0; Value 1; Drop 1] /\
  scoped (T := nat) true (fun _ => false) [NewVal 0 7; SetHeld 0 0; Value 0].
Proof. split; exact I. Qed.
