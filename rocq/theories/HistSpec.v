(** A histogram is a bag of keys. Independent of the code but for the names of the operations. *)
From Coq Require Import ZArith List Bool.
From Verif Require Import HistModel.
Import ListNotations.
Open Scope Z_scope.
Definition occurrences (k : Z) (bag : list Z) : Z := Z.of_nat (count_occ Z.eq_dec bag k).
Section Dense.
Variables (n : nat) (w : Z) (fixed : option Z).
(** [from]: the key of the first cell, None if nothing is known about it; [bag]: the keys that were added, minus the first key *)
Record bag := { from : option Z; items : list Z }.
Definition offset (b : bag) (k : Z) : option Z := match from b with Some s => if (s <=? k) && (k - s <? Z.of_nat n) then Some (k - s) else None | None => None end.
Fixpoint offsets (b : bag) (ks : list Z) : option (list Z) :=
  match ks with [] => Some [] | k :: ks => match offset b k, offsets b ks with Some o, Some os => Some (o :: os) | _, _ => None end end.
Definition put (b : bag) (ks : list Z) : option bag := match offsets b ks with Some os => Some {| from := from b; items := items b ++ os |} | None => None end.
Definition cell (b : bag) (i : nat) : Z := occurrences (Z.of_nat i) (items b) mod 2 ^ w.
Definition cells (b : bag) : list Z := map (cell b) (seq 0 n).
(** what the code does, said in terms of bags: a copy keeps the bag of offsets but knows the first key only if the type does; assignment replaces the bag of
    offsets and not the first key *)
Definition s_step (o : op) (st : list bag) : option (res * list bag) :=
  match o with
  | New s ks => match put {| from := match fixed with Some f => Some f | None => Some s end; items := [] |} ks with Some b => Some (Runit, st ++ [b]) | None => None end
  | Copy i => match nth_error st i with Some b => Some (Runit, st ++ [{| from := fixed; items := items b |}]) | None => None end
  | Assign i j => match nth_error st i, nth_error st j with Some b, Some c => Some (Runit, set i {| from := from b; items := items c |} st) | _, _ => None end
  | Add i k => match nth_error st i with Some b => match put b [k] with Some b => Some (Runit, set i b st) | None => None end | None => None end
  | AddRange i ks => match nth_error st i with Some b => match put b ks with Some b => Some (Runit, set i b st) | None => None end | None => None end
  | Clear i => match nth_error st i with Some b => Some (Runit, set i {| from := from b; items := [] |} st) | None => None end
  | Read i k => match nth_error st i with Some b => match offset b k with Some o => Some (Rv (occurrences o (items b) mod 2 ^ w), st) | None => None end | None => None end
  | Count i => match nth_error st i with Some b => Some (Rv (fold_right Z.add 0 (cells b) mod 2 ^ 64), st) | None => None end
  | Contents i => match nth_error st i with Some b => Some (Rl (cells b), st) | None => None end
  end.
Fixpoint s_run (os : list op) (st : list bag) : option (list res * list bag) :=
  match os with [] => Some ([], st) | o :: os => match s_step o st with Some (r, st) => match s_run os st with Some (rs, st) => Some (r :: rs, st) | None => None end | None => None end end.
End Dense.
Section Sparse.
Variables (N : nat) (w : Z).
Definition distinct (ks : list Z) : nat := List.length (nodup Z.eq_dec ks).
(** one key: refused if it is new and N different keys are there *)
Definition s_add (k : Z) (ks : list Z) : option (list Z) := if (if in_dec Z.eq_dec k ks then true else Nat.ltb (distinct ks) N) then Some (k :: ks) else None.
Fixpoint s_add_all (l ks : list Z) : bool * list Z := match l with [] => (true, ks) | k :: l => match s_add k ks with Some ks => s_add_all l ks | None => (false, ks) end end.
Definition ss_step (o : sop) (ks : list Z) : sres * list Z :=
  match o with
  | SAddRange l => match s_add_all l ks with (true, ks) => (Sunit, ks) | (false, ks) => (Sfull, ks) end
  | SAdd k => match s_add k ks with Some ks => (Sunit, ks) | None => (Sfull, ks) end
  | SClear => (Sunit, [])
  | SRead k => (Se (if in_dec Z.eq_dec k ks then (k, occurrences k ks mod 2 ^ w) else (0, 0)), ks)
  | SSize => (Sn (Z.of_nat (distinct ks)), ks)
  | SCount => (Sn (Z.of_nat (List.length ks) mod 2 ^ w), ks)
  | SContents => (Sl [], ks)
  end.
Fixpoint ss_run (os : list sop) (ks : list Z) : list sres * list Z :=
  match os with [] => ([], ks) | o :: os => let (r, ks) := ss_step o ks in let (rs, ks) := ss_run os ks in (r :: rs, ks) end.
End Sparse.
