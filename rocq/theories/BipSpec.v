(** * What users of bip_buffer_spsc_atomic observe.  Independent of the indices and atomics of the code, but for [wraps]. *)
From Coq Require Import List Arith Bool.
From Verif Require Import RA BipModel.
Import ListNotations.

Section Spec.
  Variable T : Type.
  Notation log := (list (op T * res T)).
  Notation state := (sys T (op T) (res T)).

  (** the elements of all committed write spans, in order *)
  Fixpoint written (l : log) : list T :=
    match l with
    | [] => []
    | (_, RWrite _ _ xs) :: r => xs ++ written r
    | _ :: r => written r
    end.
  (** the elements of all committed read spans, in order *)
  Fixpoint taken (l : log) : list T :=
    match l with
    | [] => []
    | (_, RRead _ _ xs) :: r => xs ++ taken r
    | _ :: r => taken r
    end.
  (** [consumes stream l]: every read span holds the next elements of the stream; a committed one removes them *)
  Fixpoint consumes (stream : list T) (l : log) : Prop :=
    match l with
    | [] => True
    | (_, RRead _ n xs) :: r => exists rest, stream = xs ++ rest /\ length xs <= n /\ consumes rest r
    | (_, RPeek _ n xs) :: r => (exists rest, stream = xs ++ rest) /\ length xs = n /\ consumes stream r
    | _ :: r => consumes stream r
    end.
  (** the elements of a commit whose last store is done and which only has to return to its caller *)
  Definition in_flight (s : state) : list T :=
    match scur s Prod with Some (_, Ret (RWrite _ _ xs)) => xs | _ => [] end.
  (** no commit was rejected *)
  Definition no_error (l : log) : Prop := forall o, ~ In (o, RError) l.

  (** The write positions: the ends of the committed spans, as successive values of the write index.  A position below
      the one before it is a wrap-around; [wraps] lists where the writer stood when it wrapped. *)
  Definition write_positions (s : state) : list nat := map mval (hist (smem s) Wr).
  Fixpoint wraps (l : list nat) : list nat :=
    match l with
    | a :: ((b :: _) as r) => if b <? a then a :: wraps r else wraps r
    | _ => []
    end.
  (** every wrap-around happens at or beyond the place of the one before *)
  Fixpoint ascending (l : list nat) : Prop :=
    match l with
    | a :: ((b :: _) as r) => a <= b /\ ascending r
    | _ => True
    end.
End Spec.
Arguments written {T}. Arguments in_flight {T}. Arguments taken {T}. Arguments consumes {T}. Arguments no_error {T}. Arguments write_positions {T}.
