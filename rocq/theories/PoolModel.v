(** * Model of etl::ipool / etl::generic_pool / etl::pool (include/etl/ipool.h, generic_pool.h, pool.h)

    The pool's storage is raw bytes and its free list is kept INSIDE the free
    blocks, so memory is modelled byte by byte: [mem] maps an address to a
    byte.  A pointer occupies [PS] bytes (sizeof(char-pointer)), little endian (the byte
    order is irrelevant to the properties).  Addresses are [Z].
    uint32_t arithmetic wraps ([u32]).

    Not modelled: create()/destroy() run a constructor/destructor in the block
    between/before allocate_item/release_item (ipool.h: 202-231); the check
    sizeof(T) > Item_Size (lines 115-118) which is a property of the type. *)
From Coq Require Import ZArith List Lia Bool.
Import ListNotations.
Local Open Scope Z_scope.

Definition mem := Z -> Z.
Definition u32 (x : Z) : Z := x mod 4294967296.

(** Store / load a little endian word of [n] bytes. *)
Fixpoint wr (n : nat) (m : mem) (a v : Z) : mem :=
  match n with
  | O => m
  | S n => wr n (fun x => if x =? a then v mod 256 else m x) (a + 1) (v / 256)
  end.
Fixpoint rd (n : nat) (m : mem) (a : Z) : Z :=
  match n with O => 0 | S n => m a mod 256 + 256 * rd n m (a + 1) end.

(** ipool.h: 430-437 *)
Record pool := mkpool {
  p_buffer : Z; p_next : Z;
  items_allocated : Z; items_initialised : Z;
  Item_Size : Z; Max_Size : Z }.

Inductive error := pool_no_allocation | pool_object_not_in_pool.
Inductive result (A : Type) := Ok (a : A) | Throw (e : error).
Arguments Ok {A}. Arguments Throw {A}.

Section Pool.
  Variable PS : nat.          (* sizeof(char-pointer) *)
  Variable debug : bool.      (* ETL_IS_DEBUG_BUILD *)

  (** ipool.h: 329-337 constructor *)
  Definition make (buf item_size max_size : Z) : pool :=
    mkpool buf buf 0 0 item_size max_size.

  (** ipool.h: 344-381 allocate_item *)
  Definition allocate_item (p : pool) (m : mem) : result (Z * pool * mem) :=
    if items_allocated p <? Max_Size p then
      let '(init, m) :=
        if items_initialised p <? Max_Size p then
          let a := p_buffer p + u32 (items_initialised p * Item_Size p) in     (* line 354 *)
          let np := a + Item_Size p in                                         (* line 355 *)
          (u32 (items_initialised p + 1), wr PS m a np)                        (* lines 356-357 *)
        else (items_initialised p, m) in
      let p_value := p_next p in                                               (* line 361 *)
      let alloc := u32 (items_allocated p + 1) in                              (* line 363 *)
      let next := if alloc <? Max_Size p then rd PS m (p_next p)               (* line 367 *)
                  else 0 (* ETL_NULLPTR, line 372 *) in
      Ok (p_value, mkpool (p_buffer p) next alloc init (Item_Size p) (Max_Size p), m)
    else Throw pool_no_allocation.                                             (* line 377 *)

  (** ipool.h: 409-424 is_item_in_pool; the range expression of line 413 is uint32_t arithmetic *)
  Definition is_item_in_pool (p : pool) (a : Z) : bool :=
    let distance := a - p_buffer p in
    let is_within_range :=
      (0 <=? distance) && (distance <=? u32 (u32 (Item_Size p * Max_Size p) - Item_Size p)) in
    let is_valid_address := if debug then Z.rem distance (Item_Size p) =? 0 else true in
    is_within_range && is_valid_address.

  (** ipool.h: 386-404 release_item *)
  Definition release_item (p : pool) (m : mem) (a : Z) : result (pool * mem) :=
    if is_item_in_pool p a then
      if 0 <? items_allocated p then
        Ok (mkpool (p_buffer p) a (u32 (items_allocated p - 1)) (items_initialised p) (Item_Size p) (Max_Size p),
            wr PS m a (p_next p))
      else Throw pool_no_allocation
    else Throw pool_object_not_in_pool.

  (** ipool.h: 248-253 *)
  Definition release_all (p : pool) : pool :=
    mkpool (p_buffer p) (p_buffer p) 0 0 (Item_Size p) (Max_Size p).

  (** ipool.h: 293-322 *)
  Definition available (p : pool) : Z := Max_Size p - items_allocated p.
  Definition size (p : pool) : Z := items_allocated p.
  Definition empty (p : pool) : bool := items_allocated p =? 0.
  Definition full (p : pool) : bool := items_allocated p =? Max_Size p.

  (** What a client does with a pool. [Write] is the client storing a byte
      anywhere in memory it may write to. *)
  Inductive op := Allocate | Release (a : Z) | ReleaseAll | Write (a b : Z).
  Inductive res := RAddr (a : Z) | RDone | RError (e : error).

  (** a throwing call leaves the object as it was: all updates come after the assert *)
  Definition step (o : op) (p : pool) (m : mem) : res * pool * mem :=
    match o with
    | Allocate => match allocate_item p m with
                  | Ok (a, p', m') => (RAddr a, p', m')
                  | Throw e => (RError e, p, m) end
    | Release a => match release_item p m a with
                   | Ok (p', m') => (RDone, p', m')
                   | Throw e => (RError e, p, m) end
    | ReleaseAll => (RDone, release_all p, m)
    | Write a b => (RDone, p, fun x => if x =? a then b else m x)
    end.
End Pool.
