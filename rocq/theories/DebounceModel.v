(** debounce.h *)
From Coq Require Import ZArith NArith List Bool Arith.
Import ListNotations.

(** debounce.h: 105-114; the flags are kept as fields: State (bits 0-1), Sample (bit 2), Change (bit 3) *)
Inductive level := Off | On | Held | Repeating.
Record db := mkdb { st : level; smp : bool; chg : bool; cnt : nat }.
Definition level_eqb (a b : level) : bool :=
  match a, b with Off, Off | On, On | Held, Held | Repeating, Repeating => true | _, _ => false end.
Definition u16max : nat := N.to_nat 65535.

(** debounce.h: 119-123 *)
Definition d_new (initial_state : bool) : db := mkdb (if initial_state then On else Off) false false 0.
(** debounce.h: 55-65 *)
Definition add_sample (d : db) (sample : bool) : db :=
  if negb (Bool.eqb sample (smp d)) then mkdb (st d) sample false 0 else mkdb (st d) (smp d) false (cnt d).
(** debounce.h: 71-101 *)
Definition has_changed (d : db) : bool := chg d.
Definition is_set (d : db) : bool := match st d with Off => false | _ => true end.
Definition is_held (d : db) : bool := match st d with Held | Repeating => true | _ => false end.
Definition is_repeating (d : db) : bool := match st d with Repeating => true | _ => false end.
(** debounce.h: 135-155; [table s sample condition] is state_table[index1][index2] *)
Definition get_next (table : level -> bool -> bool -> level) (d : db) (sample cset cclear : bool) : db :=
  let next := table (st d) sample (if sample then cset else cclear) in
  mkdb next (smp d) (negb (level_eqb next (st d))) (cnt d).
(** debounce.h: 185-191, 263-271, 350-360 *)
Definition table2 (s : level) (sample condition : bool) : level :=
  match s, sample with
  | Off, false => Off
  | Off, true => if condition then On else Off
  | On, false => if condition then Off else On
  | On, true => On
  | s, _ => s (* not in the table: not used, 223-226 *)
  end.
Definition table3 (s : level) (sample condition : bool) : level :=
  match s, sample with
  | Off, false => Off
  | Off, true => if condition then On else Off
  | On, false => if condition then Off else On
  | On, true => if condition then Held else On
  | Held, false => if condition then Off else Held
  | Held, true => Held
  | s, _ => s
  end.
Definition table4 (s : level) (sample condition : bool) : level :=
  match s, sample with
  | Off, false => Off
  | Off, true => if condition then On else Off
  | On, false => if condition then Off else On
  | On, true => if condition then Held else On
  | Held, false => if condition then Off else Held
  | Held, true => if condition then Repeating else Held
  | Repeating, false => if condition then Off else Repeating
  | Repeating, true => Repeating
  end.
(** debounce.h: 203-206 (283-286, 372-375) *)
Definition bump (d : db) : db := mkdb (st d) (smp d) (chg d) (if cnt d <? u16max then S (cnt d) else cnt d).
(** debounce.h: 230-233 (317-320, 419-422) *)
Definition settle (d : db) : db := if chg d then mkdb (st d) (smp d) (chg d) 0 else d.
(** debounce.h: 199-236 *)
Definition process2 (d : db) (sample : bool) (valid_count : nat) : db :=
  let d := bump (add_sample d sample) in
  let valid := cnt d =? valid_count in
  settle match st d with
         | Off => get_next table2 d sample valid valid
         | On => get_next table2 d sample valid valid
         | _ => d
         end.
(** debounce.h: 279-323 *)
Definition process3 (d : db) (sample : bool) (valid_count hold_count : nat) : db :=
  let d := bump (add_sample d sample) in
  let valid := cnt d =? valid_count in
  let hold := cnt d =? hold_count in
  settle match st d with
         | Off => get_next table3 d sample valid valid
         | On => get_next table3 d sample hold valid
         | Held => get_next table3 d sample hold valid
         | _ => d
         end.
(** debounce.h: 368-425 *)
Definition process4 (d : db) (sample : bool) (valid_count hold_count repeat_count : nat) : db :=
  let d := bump (add_sample d sample) in
  let valid := cnt d =? valid_count in
  let hold := cnt d =? hold_count in
  let repeat := cnt d =? repeat_count in
  settle match st d with
         | Off => get_next table4 d sample valid valid
         | On => get_next table4 d sample hold valid
         | Held => get_next table4 d sample repeat valid
         | Repeating =>
             let d1 := get_next table4 d sample repeat valid in
             if sample && repeat then mkdb (st d1) (smp d1) true 0 else d1
         end.
(** debounce.h: 434-577: which process() add() calls: the template arguments (constants), or, all
    zero, the members set at run time ([dynamic], 526-584) *)
Definition add (dynamic : bool) (v h r : nat) (d : db) (sample : bool) : db :=
  if dynamic then process4 d sample v h r
  else match r, h with
       | O, O => process2 d sample v
       | O, _ => process3 d sample v h
       | _, _ => process4 d sample v h r
       end.
(** a history of samples; the reports are the values returned by add (Change) *)
Fixpoint feed (dynamic : bool) (v h r : nat) (d : db) (samples : list bool) : db * list bool :=
  match samples with
  | [] => (d, [])
  | s :: t => let d1 := add dynamic v h r d s in
              let (d2, reports) := feed dynamic v h r d1 t in (d2, chg d1 :: reports)
  end.
