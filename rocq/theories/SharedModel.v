(** * Model of shared_message.h, reference_counted_message.h, reference_counted_message_pool.h and reference_counted_object.h.
    [None] is undefined behaviour: a null p_rcmessage dereferenced, a message used after its block went back to the pool, or a block released twice. *)
From Coq Require Import List Arith Bool.
From Verif Require Import Slots SharedSpec.
Import ListNotations.
(** reference_counted_message.h: 144-145, reference_counted_object.h: 277-278: a message in a block with its counter (TCounter: 87-136, a number here: no overflow),
    or a persistent message, whose counter is reference_counter<void> (142-185) and whose release() does nothing (reference_counted_message.h: 210-213) *)
Inductive cell : Type := Counted (n : nat) | Persistent.
Definition mem : Type := nat -> option cell.
Definition mset (m : mem) (b : nat) (c : option cell) : mem := fun x => if Nat.eqb x b then c else m x.
(** reference_counted_object.h: 102-113, 157-168 *)
Definition set_count (m : mem) (b n : nat) : option mem :=
  match m b with Some (Counted _) => Some (mset m b (Some (Counted n))) | Some Persistent => Some m | None => None end.
Definition increment (m : mem) (b : nat) : option mem :=
  match m b with Some (Counted n) => Some (mset m b (Some (Counted (n + 1)))) | Some Persistent => Some m | None => None end.
(** reference_counted_object.h: 118-123 (the assertion that the count is positive failing is [None] too), 173-176 *)
Definition decrement (m : mem) (b : nat) : option (mem * nat) :=
  match m b with
  | Some (Counted (S n)) => Some (mset m b (Some (Counted n)), n)
  | Some (Counted 0) => None
  | Some Persistent => Some (m, 1)
  | None => None
  end.
(** reference_counted_message_pool.h: 189-202 with reference_counted_message.h: 137-140, 210-213: the message is destroyed and its block returned to the owner *)
Definition release (m : mem) (b : nat) : option (mem * list nat) :=
  match m b with Some (Counted _) => Some (mset m b None, [b]) | Some Persistent => Some (m, []) | None => None end.
(** shared_message.h: 137-140, 159-162, 180-183: decrement, and release if that was the last *)
Definition drop (m : mem) (b : nat) : option (mem * list nat) :=
  match decrement m b with Some (m, n) => if Nat.eqb n 0 then release m b else Some (m, []) | None => None end.
Section Shared.
  (** with exceptions, a failed allocation throws and no handle is constructed (reference_counted_message_pool.h: 126, 154, 181) *)
  Definition handle_op (o : hop) (v : list var) (m : mem) : option (hres * list var * mem) :=
    match o with
    | Hcreate h None => Some (Halloc_failure, v, m)
    (** shared_message.h: 67-78, 85-96 with reference_counted_message_pool.h: 115-128, 143-156: the counter is constructed with 0, then set to 1 *)
    | Hcreate h (Some b) => match set_count (mset m b (Some (Counted 0))) b 1 with Some m => Some (Hreleased [], upd v h (Some (Some b)), m) | None => None end
    (** shared_message.h: 102-107 *)
    | Hwrap h b => match set_count m b 1 with Some m => Some (Hreleased [], upd v h (Some (Some b)), m) | None => None end
    (** shared_message.h: 112-116 *)
    | Hcopy h f => match get v f with Some (Some b) => match increment m b with Some m => Some (Hreleased [], upd v h (Some (Some b)), m) | None => None end | _ => None end
    (** shared_message.h: 122-126 *)
    | Hmove h f => match get v f with Some p => Some (Hreleased [], upd (upd v h (Some p)) f (Some None), m) | None => None end
    (** shared_message.h: 132-148 *)
    | Hassign h f =>
      if negb (Nat.eqb f h)
      then match get v h, get v f with
           | Some (Some b), Some p =>
             match drop m b with
             | Some (m, r) => match p with Some c => match increment m c with Some m => Some (Hreleased r, upd v h (Some (Some c)), m) | None => None end | None => None end
             | None => None
             end
           | _, _ => None
           end
      else Some (Hreleased [], v, m)
    (** shared_message.h: 154-170 *)
    | HmoveAssign h f =>
      if negb (Nat.eqb f h)
      then match get v h, get v f with
           | Some (Some b), Some p => match drop m b with Some (m, r) => Some (Hreleased r, upd (upd v h (Some p)) f (Some None), m) | None => None end
           | _, _ => None
           end
      else Some (Hreleased [], v, m)
    (** shared_message.h: 177-184 *)
    | Hdestroy h =>
      match get v h with
      | Some (Some b) => match drop m b with Some (m, r) => Some (Hreleased r, upd v h None, m) | None => None end
      | Some None => Some (Hreleased [], upd v h None, m)
      | None => None
      end
    (** shared_message.h: 205-208, reference_counted_object.h: 128-131, 181-184 *)
    | Hcount h => match get v h with Some (Some b) => match m b with Some (Counted n) => Some (Hn n, v, m) | Some Persistent => Some (Hn 1, v, m) | None => None end | _ => None end
    (** shared_message.h: 213-216 *)
    | Hvalid h => match get v h with Some p => Some (Hb (match p with Some _ => true | None => false end), v, m) | None => None end
    end.
  Fixpoint handle_ops (os : list hop) (v : list var) (m : mem) : option (list hres * list var * mem) :=
    match os with
    | [] => Some ([], v, m)
    | o :: r => match handle_op o v m with Some (x, v, m) => match handle_ops r v m with Some (xs, v, m) => Some (x :: xs, v, m) | None => None end | None => None end
    end.
End Shared.

(** ** One message shared by threads, with TCounter = etl::atomic_int (atomic_counted_message_pool, reference_counted_message_pool.h: 317-319).
    Each step is one atomic access; thread [t] has [nth t held] handles of its own (a handle is used by one thread at a time). *)
Record sys : Type := { count : nat; held : list nat; releasing : list nat; freed : nat }.
Inductive sstep : sys -> sys -> Prop :=
(** shared_message.h: 115 with reference_counted_object.h: 112: ++reference_count *)
| s_copy : forall s t k, nth_error (held s) t = Some (S k) ->
    sstep s {| count := count s + 1; held := upd (held s) t (S (S k)); releasing := releasing s; freed := freed s |}
(** a handle is handed to another thread *)
| s_give : forall s t u k j, t <> u -> nth_error (held s) t = Some (S k) -> nth_error (held s) u = Some j ->
    sstep s {| count := count s; held := upd (upd (held s) t k) u (S j); releasing := releasing s; freed := freed s |}
(** shared_message.h: 137, 159, 180 with reference_counted_object.h: 122: --reference_count, whose result decides whether this thread releases *)
| s_drop : forall s t k, nth_error (held s) t = Some (S k) ->
    sstep s {| count := count s - 1; held := upd (held s) t k; releasing := (if Nat.eqb (count s - 1) 0 then [t] else []) ++ releasing s; freed := freed s |}
(** shared_message.h: 139, 161, 182: p_rcmessage->release() *)
| s_release : forall s t a b, releasing s = a ++ t :: b ->
    sstep s {| count := count s; held := held s; releasing := a ++ b; freed := S (freed s) |}.
Inductive sreach (s0 : sys) : sys -> Prop := sr_refl : sreach s0 s0 | sr_step : forall s s', sreach s0 s -> sstep s s' -> sreach s0 s'.
