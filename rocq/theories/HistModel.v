(** histogram.h. TCount is an unsigned type of [w] bits, so ++ wraps at 2^w. Keys are integers. None: undefined behaviour (an index outside of the
    array, line 214, or the use of a start index that was never set). Copy and move are the same for an array of integers. *)
From Coq Require Import ZArith List Bool.
Import ListNotations.
Open Scope Z_scope.
Section Dense.
Variables (n : nat) (w : Z).
(** Some s: histogram<TKey, TCount, Max_Size, s> (lines 137-254); None: the specialisation whose start is an argument of the constructor (259-382) *)
Variable fixed : option Z.
(** [start] is None if the member start_index is indeterminate *)
Record hist := { start : option Z; acc : list Z }.
Definition inc (x : Z) : Z := (x + 1) mod 2 ^ w.
(** etl::array operator[]; the index key - Start_Index is converted to size_t, 214, 252, 338, 376 *)
Definition index (h : hist) (k : Z) : option nat := match start h with Some s => if (s <=? k) && (k - s <? Z.of_nat n) then Some (Z.to_nat (k - s)) else None | None => None end.
Fixpoint bump (i : nat) (l : list Z) : list Z := match l, i with [] , _ => [] | x :: l, O => inc x :: l | x :: l, S i => x :: bump i l end.
(** add, 212-215 and 336-339 *)
Definition add (k : Z) (h : hist) : option hist := match index h k with Some i => Some {| start := start h; acc := bump i (acc h) |} | None => None end.
(** add of a range, 221-228 and 345-352; operator() 233-245 and 357-369 call add *)
Fixpoint add_all (ks : list Z) (h : hist) : option hist := match ks with [] => Some h | k :: ks => match add k h with Some h => add_all ks h | None => None end end.
(** constructors, 154-167 and 276-291 *)
Definition make (s : Z) (ks : list Z) : option hist := add_all ks {| start := match fixed with Some f => Some f | None => Some s end; acc := repeat 0 n |}.
(** copy and move constructors, 172-185 and 296-309: only the accumulator is copied; the start of the specialisation stays uninitialised *)
Definition copy (h : hist) : hist := {| start := fixed; acc := acc h |}.
(** assignments, 190-206 and 314-330: only the accumulator *)
Definition assign (h other : hist) : hist := {| start := start h; acc := acc other |}.
(** clear, 96-99 *)
Definition clear (h : hist) : hist := {| start := start h; acc := repeat 0 (List.length (acc h)) |}.
(** operator[], 250-253 and 374-377 *)
Definition read (h : hist) (k : Z) : option Z := match index h k with Some i => nth_error (acc h) i | None => None end.
(** count, 120-123: etl::accumulate in size_t *)
Fixpoint accumulate (l : list Z) (sum : Z) : Z := match l with [] => sum | x :: l => accumulate l ((sum + x) mod 2 ^ 64) end.
Definition count (h : hist) : Z := accumulate (acc h) 0.
(** begin() to end(), 64-91 *)
Definition contents (h : hist) : list Z := acc h.

(** a program: several histograms, named by the order of their construction *)
Inductive op := New (s : Z) (ks : list Z) | Copy (i : nat) | Assign (i j : nat) | Add (i : nat) (k : Z) | AddRange (i : nat) (ks : list Z) | Clear (i : nat) | Read (i : nat) (k : Z) | Count (i : nat) | Contents (i : nat).
Inductive res := Runit | Rv (v : Z) | Rl (l : list Z).
Fixpoint set {A} (i : nat) (x : A) (l : list A) : list A := match l, i with [], _ => [] | _ :: l, O => x :: l | y :: l, S i => y :: set i x l end.
Definition step (o : op) (st : list hist) : option (res * list hist) :=
  match o with
  | New s ks => match make s ks with Some h => Some (Runit, st ++ [h]) | None => None end
  | Copy i => match nth_error st i with Some h => Some (Runit, st ++ [copy h]) | None => None end
  | Assign i j => match nth_error st i, nth_error st j with Some h, Some g => Some (Runit, set i (assign h g) st) | _, _ => None end
  | Add i k => match nth_error st i with Some h => match add k h with Some h => Some (Runit, set i h st) | None => None end | None => None end
  | AddRange i ks => match nth_error st i with Some h => match add_all ks h with Some h => Some (Runit, set i h st) | None => None end | None => None end
  | Clear i => match nth_error st i with Some h => Some (Runit, set i (clear h) st) | None => None end
  | Read i k => match nth_error st i with Some h => match read h k with Some v => Some (Rv v, st) | None => None end | None => None end
  | Count i => match nth_error st i with Some h => Some (Rv (count h), st) | None => None end
  | Contents i => match nth_error st i with Some h => Some (Rl (contents h), st) | None => None end
  end.
Fixpoint run (os : list op) (st : list hist) : option (list res * list hist) :=
  match os with [] => Some ([], st) | o :: os => match step o st with Some (r, st) => match run os st with Some (rs, st) => Some (r :: rs, st) | None => None end | None => None end end.
End Dense.

Section Sparse.
Variables (N : nat) (w : Z).
(** sparse_histogram, 387-597. The flat_map is its list of (key, count) in iteration order (C17 proves that of flat_map). *)
Definition sparse := list (Z * Z).
(** ++accumulator[key], 498-501: flat_map::operator[] finds the element or inserts a zero at its place; None: flat_map_full is raised, nothing changes *)
Fixpoint place (k : Z) (l : sparse) : sparse := match l with [] => [(k, inc w 0)] | (x, c) :: l => if k <? x then (k, inc w 0) :: (x, c) :: l else (x, c) :: place k l end.
Fixpoint hit (k : Z) (l : sparse) : sparse := match l with [] => [] | (x, c) :: l => if x =? k then (x, inc w c) :: l else (x, c) :: hit k l end.
Fixpoint look (k : Z) (l : sparse) : option (Z * Z) := match l with [] => None | (x, c) :: l => if x =? k then Some (x, c) else look k l end.
Definition sp_add (k : Z) (l : sparse) : option sparse :=
  match look k l with Some _ => Some (hit k l) | None => if Nat.ltb (List.length l) N then Some (place k l) else None end.
(** 507-514: an exception ends the loop, the keys before it stay counted. true: no exception *)
Fixpoint sp_add_all (ks : list Z) (l : sparse) : bool * sparse := match ks with [] => (true, l) | k :: ks => match sp_add k l with Some l => sp_add_all ks l | None => (false, l) end end.
(** operator[], 536-550: the element, or a pair of the default key and zero *)
Definition sp_read (k : Z) (l : sparse) : Z * Z := match look k l with Some e => e | None => (0, 0) end.
(** begin() to end(), 466-493: end() and cend() return accumulator.begin() *)
Definition sp_contents (l : sparse) : list (Z * Z) := let b := O in let e := O in firstn (e - b) (skipn b l).
(** count, 579-592: the sum is a count_type *)
Fixpoint sp_sum (l : sparse) (sum : Z) : Z := match l with [] => sum | (_, c) :: l => sp_sum l ((sum + c) mod 2 ^ w) end.
Definition sp_count (l : sparse) : Z := sp_sum l 0.
Inductive sop := SAddRange (ks : list Z) | SAdd (k : Z) | SClear | SRead (k : Z) | SSize | SCount | SContents.
Inductive sres := Sunit | Sfull | Se (e : Z * Z) | Sn (x : Z) | Sl (l : list (Z * Z)).
Definition sp_step (o : sop) (l : sparse) : sres * sparse :=
  match o with
  | SAddRange ks => match sp_add_all ks l with (true, l) => (Sunit, l) | (false, l) => (Sfull, l) end
  | SAdd k => match sp_add k l with Some l => (Sunit, l) | None => (Sfull, l) end
  | SClear => (Sunit, [])
  | SRead k => (Se (sp_read k l), l)
  | SSize => (Sn (Z.of_nat (List.length l)), l)
  | SCount => (Sn (sp_count l), l)
  | SContents => (Sl (sp_contents l), l)
  end.
Fixpoint sp_run (os : list sop) (l : sparse) : list sres * sparse :=
  match os with [] => ([], l) | o :: os => let (r, l) := sp_step o l in let (rs, l) := sp_run os l in (r :: rs, l) end.
End Sparse.
