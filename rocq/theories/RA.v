(** * A two-thread release/acquire memory machine with race detection.

    This file models the part of the C++11 memory model that the lock-free
    single-producer / single-consumer containers of ETL rely on
    (include/etl/atomic.h maps etl::atomic onto std::atomic, whose load/store
    with memory_order_relaxed / acquire / release is what is modelled here).

    - Every atomic location has a modification order: the list of the messages
      stored to it; the position in the list is the timestamp.
    - A load may return ANY message whose timestamp is not older than what the
      loading thread already knows of (coherence); the choice is made by the
      schedule.  An acquire load also imports the view carried by the message;
      a relaxed load does not.
    - A release store attaches the view of the storing thread to the message,
      a relaxed store attaches the empty view.
      (Both containers have one writer per atomic location, so a new store is
      always the last of the modification order.)
    - Buffer cells are non-atomic.  Each cell records the epoch of the last
      access by each thread; an access by a thread that does not know (by its
      view) of the last access of the other thread is a DATA RACE: outcome
      [Undef].  Reads are treated as conflicting with reads too (stronger
      than C++ requires).
    - A cell is a raw storage slot: [Some x] when an object is alive in it.
      Constructing over a live object, destroying or reading a dead one, or
      going outside the buffer is [Undef] too.

    Programs are trees of atomic actions, so each memory access of the code is
    one scheduling step. *)

From Coq Require Import List Arith Lia Bool.
Import ListNotations.

Inductive tid := Prod | Cons.
Definition other (t : tid) : tid := match t with Prod => Cons | Cons => Prod end.
Definition tid_eqb (a b : tid) : bool :=
  match a, b with Prod, Prod => true | Cons, Cons => true | _, _ => false end.

Definition tset {A} (f : tid -> A) (t : tid) (x : A) : tid -> A :=
  fun u => if tid_eqb t u then x else f u.
Definition nset {A} (f : nat -> A) (i : nat) (x : A) : nat -> A :=
  fun j => if Nat.eqb i j then x else f j.

(** Memory orders, atomic.h *)
Inductive ord := Rlx | Acq | Rel.

(** What a thread knows: newest known timestamp of each atomic location, and
    the newest known epoch of each thread (vector clock). *)
Record view := mkview { va : nat -> nat; vc : tid -> nat }.
Definition view0 : view := mkview (fun _ => 0) (fun _ => 0).
Definition vjoin (a b : view) : view :=
  mkview (fun l => Nat.max (va a l) (va b l)) (fun t => Nat.max (vc a t) (vc b t)).

Record msg := mkmsg { mval : nat; mview : view }.

Section Machine.
  Variable T : Type.          (* element type *)
  Variable Op : Type.         (* operations a thread can invoke *)
  Variable Res : Type.        (* their results *)

  Record cell := mkcell { cval : option T; cacc : tid -> nat }.

  Record mem := mkmem {
    hist   : nat -> list msg;   (* atomic location -> modification order *)
    cells  : nat -> cell;       (* the raw element buffer *)
    nslots : nat }.             (* its size in elements *)

  Inductive prog : Type :=
  | Ret (r : Res)
  | Load (l : nat) (o : ord) (k : nat -> prog)
  | Store (l : nat) (v : nat) (o : ord) (k : prog)
  | Construct (i : nat) (x : T) (k : prog)   (* ::new (&buf[i]) T(x) *)
  | Destroy (i : nat) (k : prog)             (* buf[i].~T() *)
  | Get (i : nat) (k : T -> prog).           (* read / move from buf[i] *)

  Inductive outcome (A : Type) := Next (a : A) | Disabled | Undef.
  Arguments Next {A}. Arguments Disabled {A}. Arguments Undef {A}.

  (** Access of cell [i] by thread [t] with view [v]: race check, then tick. *)
  Definition access (m : mem) (t : tid) (v : view) (i : nat)
    : option (view * (tid -> nat)) :=
    if Nat.ltb i (nslots m) then
      let c := cells m i in
      if Nat.leb (cacc c (other t)) (vc v (other t)) then
        let e := S (vc v t) in
        Some (mkview (va v) (tset (vc v) t e), tset (cacc c) t e)
      else None
    else None.

  Definition exec (t : tid) (choice : nat) (p : prog) (v : view) (m : mem)
    : outcome (prog * view * mem) :=
    match p with
    | Ret _ => Disabled
    | Load l o k =>
        if Nat.leb (va v l) choice then
          match nth_error (hist m l) choice with
          | Some ms =>
              let v1 := mkview (nset (va v) l choice) (vc v) in
              let v2 := match o with Acq => vjoin v1 (mview ms) | _ => v1 end in
              Next (k (mval ms), v2, m)
          | None => Disabled
          end
        else Disabled
    | Store l x o k =>
        let ts := length (hist m l) in
        let v1 := mkview (nset (va v) l ts) (vc v) in
        let mv := match o with Rel => v1 | _ => view0 end in
        Next (k, v1, mkmem (nset (hist m) l (hist m l ++ [mkmsg x mv])) (cells m) (nslots m))
    | Construct i x k =>
        match access m t v i, cval (cells m i) with
        | Some (v1, acc), None =>
            Next (k, v1, mkmem (hist m) (nset (cells m) i (mkcell (Some x) acc)) (nslots m))
        | _, _ => Undef
        end
    | Destroy i k =>
        match access m t v i, cval (cells m i) with
        | Some (v1, acc), Some _ =>
            Next (k, v1, mkmem (hist m) (nset (cells m) i (mkcell None acc)) (nslots m))
        | _, _ => Undef
        end
    | Get i k =>
        match access m t v i, cval (cells m i) with
        | Some (v1, acc), Some x =>
            Next (k x, v1, mkmem (hist m) (nset (cells m) i (mkcell (Some x) acc)) (nslots m))
        | _, _ => Undef
        end
    end.

  Record sys := mksys {
    smem  : mem;
    sview : tid -> view;
    scur  : tid -> option (Op * prog);        (* the call in progress *)
    slog  : tid -> list (Op * Res) }.         (* completed calls, oldest first *)

  Inductive act := Invoke (t : tid) (o : Op) | Step (t : tid) (choice : nat).

  Variable code : Op -> prog.
  Variable allowed : tid -> Op -> bool.

  Definition step (s : sys) (a : act) : outcome sys :=
    match a with
    | Invoke t o =>
        match scur s t with
        | Some _ => Disabled
        | None =>
            if allowed t o
            then Next (mksys (smem s) (sview s) (tset (scur s) t (Some (o, code o))) (slog s))
            else Disabled
        end
    | Step t choice =>
        match scur s t with
        | None => Disabled
        | Some (o, Ret r) =>
            Next (mksys (smem s) (sview s) (tset (scur s) t None)
                        (tset (slog s) t (slog s t ++ [(o, r)])))
        | Some (o, p) =>
            match exec t choice p (sview s t) (smem s) with
            | Next (p', v', m') =>
                Next (mksys m' (tset (sview s) t v') (tset (scur s) t (Some (o, p'))) (slog s))
            | Disabled => Disabled
            | Undef => Undef
            end
        end
    end.

  Fixpoint run (s : sys) (acts : list act) : outcome sys :=
    match acts with
    | [] => Next s
    | a :: r => match step s a with Next s' => run s' r | Disabled => Disabled | Undef => Undef end
    end.

  Definition init_mem (n : nat) : mem :=
    mkmem (fun _ => [mkmsg 0 view0]) (fun _ => mkcell None (fun _ => 0)) n.
  Definition init_sys (n : nat) : sys :=
    mksys (init_mem n) (fun _ => view0) (fun _ => None) (fun _ => []).
End Machine.

Arguments Next {A}. Arguments Disabled {A}. Arguments Undef {A}.
Arguments Ret {T Res}. Arguments Load {T Res}. Arguments Store {T Res}.
Arguments Construct {T Res}. Arguments Destroy {T Res}. Arguments Get {T Res}.
Arguments mkcell {T}. Arguments cval {T}. Arguments cacc {T}.
Arguments mkmem {T}. Arguments hist {T}. Arguments cells {T}. Arguments nslots {T}.
Arguments mksys {T Op Res}. Arguments smem {T Op Res}. Arguments sview {T Op Res}.
Arguments scur {T Op Res}. Arguments slog {T Op Res}.
Arguments access {T}. Arguments exec {T Res}.
Arguments Invoke {Op}. Arguments Step {Op}.
Arguments step {T Op Res}. Arguments run {T Op Res}.
Arguments init_sys {T Op Res}. Arguments init_mem {T}.

(** Schedules are closed under prefixes. *)
Lemma run_app {T Op Res} (code : Op -> prog T Res) al (s : sys T Op Res) a b :
  run code al s (a ++ b) =
  match run code al s a with Next s' => run code al s' b | Disabled => Disabled | Undef => Undef end.
Proof.
  revert s; induction a as [|x a IH]; intros s; cbn; [reflexivity|].
  destruct (step code al s x); auto.
Qed.

Lemma run_inv {T Op Res} (code : Op -> prog T Res) al (Inv : sys T Op Res -> Prop) :
  (forall s a, Inv s ->
     match step code al s a with Next s' => Inv s' | Disabled => True | Undef => False end) ->
  forall acts s, Inv s ->
     match run code al s acts with Next s' => Inv s' | Disabled => True | Undef => False end.
Proof.
  intros Hs acts; induction acts as [|a r IH]; intros s Hi; cbn; [exact Hi|].
  specialize (Hs s a Hi). destruct (step code al s a); [apply IH; exact Hs | exact I | contradiction].
Qed.
