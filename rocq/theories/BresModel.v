(** bresenham_line.h: the points of a line, with coordinates and working values of int16_t (T = int16_t, TWork = int16_t, its default).
    Every stored value is reduced to int16_t as the C++ assignment does; the sums themselves are computed in int.
    Simplification: the friend operators of const_iterator compare the pointer to the line only; a loop over one line is modelled, not iterators of different lines. *)
From Coq Require Import ZArith List.
Import ListNotations.
Local Open Scope Z_scope.

Definition i16 (n : Z) : Z := (n + 32768) mod 65536 - 32768.

(** bresenham_line.h: 348-356 *)
Record line := mkLine { first : Z * Z; last : Z * Z; coordinate : Z * Z; x_increment : Z; y_increment : Z; dx : Z; dy : Z; balance : Z; do_minor_increment : bool }.

(** bresenham_line.h: 300-303 *)
Definition y_is_major_axis (l : line) : bool := dx l <? dy l.

(** bresenham_line.h: 272-295; the differences are taken before y_is_major_axis is asked *)
Definition initialise (first_x first_y last_x last_y : Z) : line :=
  let x_inc := if last_x <? first_x then -1 else 1 in
  let y_inc := if last_y <? first_y then -1 else 1 in
  let dx := i16 (if last_x <? first_x then first_x - last_x else last_x - first_x) in
  let dy := i16 (if last_y <? first_y then first_y - last_y else last_y - first_y) in
  let f := (first_x, first_y) in
  if dx <? dy then
    let dx := i16 (dx * 2) in
    let b := i16 (dx - dy) in
    mkLine f (last_x, last_y) f x_inc y_inc dx (i16 (dy * 2)) b false
  else
    let dy := i16 (dy * 2) in
    let b := i16 (dy - dx) in
    mkLine f (last_x, last_y) f x_inc y_inc (i16 (dx * 2)) dy b false.

(** bresenham_line.h: 205-210 *)
Definition begin (l : line) : line := mkLine (first l) (last l) (first l) (x_increment l) (y_increment l) (dx l) (dy l) (balance l) (do_minor_increment l).

(** bresenham_line.h: 239-249 *)
Definition size (l : line) : Z := if y_is_major_axis l then Z.quot (dy l) 2 + 1 else Z.quot (dx l) 2 + 1.

(** bresenham_line.h: 308-336 *)
Definition next (l : line) : line :=
  let (x, y) := coordinate l in
  if y_is_major_axis l then
    let (x, b) := if do_minor_increment l then (i16 (x + x_increment l), i16 (balance l - dy l)) else (x, balance l) in
    let y := i16 (y + y_increment l) in
    let b := i16 (b + dx l) in
    mkLine (first l) (last l) (x, y) (x_increment l) (y_increment l) (dx l) (dy l) b (0 <=? b)
  else
    let (y, b) := if do_minor_increment l then (i16 (y + y_increment l), i16 (balance l - dx l)) else (y, balance l) in
    let x := i16 (x + x_increment l) in
    let b := i16 (b + dy l) in
    mkLine (first l) (last l) (x, y) (x_increment l) (y_increment l) (dx l) (dy l) b (0 <=? b).

(** for (itr = begin(); itr != end(); ++itr) points.push_back( *itr ): bresenham_line.h: 104-126, 205-218.
    [loop l ps l']: entered with the line in state l (coordinate = the point of itr), the loop ends; ps are the points, l' is the state of the line afterwards *)
Inductive loop : line -> list (Z * Z) -> line -> Prop :=
| loop_last : forall l, coordinate l = last l -> loop l [coordinate l] l
| loop_next : forall l ps l', coordinate l <> last l -> loop (next l) ps l' -> loop l (coordinate l :: ps) l'.
