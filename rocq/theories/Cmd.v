(** * State + exception + undefined behaviour monad used by the sequential
    container models, and the generic history runner. *)
From Coq Require Import List String Bool.
From Verif Require Import Slots.
Import ListNotations.

(** [Ok s a]: returned [a] in state [s].  [Ex s e]: exception [e] thrown, the
    object is left in state [s].  [Bad]: undefined behaviour. *)
Inductive Out (S A : Type) := Ok (s : S) (a : A) | Ex (s : S) (e : string) | Bad.
Arguments Ok {S A}. Arguments Ex {S A}. Arguments Bad {S A}.

Definition Cmd (S A : Type) := S -> Out S A.
Definition ret {S A} (a : A) : Cmd S A := fun s => Ok s a.
Definition cbind {S A B} (m : Cmd S A) (f : A -> Cmd S B) : Cmd S B :=
  fun s => match m s with Ok s' a => f a s' | Ex s' e => Ex s' e | Bad => Bad end.
Definition throw {S A} (e : string) : Cmd S A := fun s => Ex s e.
(** ETL_ASSERT(b, e) *)
Definition assert_ {S} (b : bool) (e : string) : Cmd S unit :=
  fun s => if b then Ok s tt else Ex s e.
Definition state {S} : Cmd S S := fun s => Ok s s.
Definition set {S} (s : S) : Cmd S unit := fun _ => Ok s tt.
Definition modify {S} (f : S -> S) : Cmd S unit := fun s => Ok (f s) tt.
(** a storage operation: its only failure is undefined behaviour *)
Definition lift {S A} (m : M A) : Cmd S A :=
  fun s => match m with V a => Ok s a | X e => Ex s e | UB => Bad end.
Notation "'let!' p := m 'in' k" := (cbind m (fun p => k))
  (at level 200, p pattern, m at level 100, k at level 200).
Notation "m ;; k" := (cbind m (fun _ => k)) (at level 199, right associativity).

(** ** Histories of calls on an object *)
Inductive obs (A : Type) := Returned (a : A) | Threw (e : string).
Arguments Returned {A}. Arguments Threw {A}.

Section Run.
  Context {S Op R : Type}.
  Variable exec : Op -> Cmd S R.
  (** run a list of calls; [None] = undefined behaviour somewhere *)
  Fixpoint run (ops : list Op) (s : S) : option (list (obs R) * S) :=
    match ops with
    | [] => Some ([], s)
    | o :: r =>
        match exec o s with
        | Ok s' a => match run r s' with Some (l, s2) => Some (Returned a :: l, s2) | None => None end
        | Ex s' e => match run r s' with Some (l, s2) => Some (Threw e :: l, s2) | None => None end
        | Bad => None
        end
    end.

  (** A specification: what a call observes and the next abstract state;
      [None] = the caller broke a documented precondition. *)
  Context {A : Type}.
  Variable spec : Op -> A -> option (obs R * A).
  Fixpoint spec_run (ops : list Op) (a : A) : option (list (obs R) * A) :=
    match ops with
    | [] => Some ([], a)
    | o :: r =>
        match spec o a with
        | Some (x, a') => match spec_run r a' with Some (l, a2) => Some (x :: l, a2) | None => None end
        | None => None
        end
    end.

  (** one-step simulation gives agreement of whole histories *)
  Variable rep : S -> A -> Prop.
  Hypothesis Hstep : forall o s a x a', rep s a -> spec o a = Some (x, a') ->
    match exec o s with
    | Ok s' r => x = Returned r /\ rep s' a'
    | Ex s' e => x = Threw e /\ rep s' a'
    | Bad => False
    end.
  Lemma run_refines : forall ops s a l a',
    rep s a -> spec_run ops a = Some (l, a') ->
    exists s', run ops s = Some (l, s') /\ rep s' a'.
  Proof.
    induction ops as [|o r IH]; intros s a l a' Hr Hs; cbn in *.
    - injection Hs as <- <-. eauto.
    - destruct (spec o a) as [[x a1]|] eqn:E; [|discriminate].
      destruct (spec_run r a1) as [[l1 a2]|] eqn:E2; [|discriminate]. injection Hs as <- <-.
      specialize (Hstep o s a x a1 Hr E).
      destruct (exec o s) as [s' v|s' e|]; [| |contradiction]; destruct Hstep as (-> & Hr');
        destruct (IH s' a1 l1 a2 Hr' E2) as (s2 & -> & Hr2); eauto.
  Qed.
End Run.
