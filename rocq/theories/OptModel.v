(** Model of etl::optional (optional.h): both storage implementations, in a
    world of several optional variables, with the construction and destruction
    of the held objects made explicit. *)
From Coq Require Import List String Bool Arith.
From Verif Require Import Cmd OptSpec.
Import ListNotations.

(** A variable of the program, or the temporary of swap (466). *)
Inductive var := U (n : nat) | Tmp.
Definition var_eqb (x y : var) : bool :=
  match x, y with U n, U m => n =? m | Tmp, Tmp => true | _, _ => false end.
(** one event per construction / destruction of an object of type T inside the storage of a variable *)
Inductive ev := Ctor (x : var) | Dtor (x : var).

Section Opt.
Context {T : Type}.
(** what the move constructor of T leaves in its argument *)
Variable moved : T -> T.
(** T's order, used by the comparison operators *)
Variable cmpT : T -> T -> comparison.
(** T() *)
Variable zero : T.

(** optional.h: 596-680 (and 1160-1208): [valid] and the bytes of [u.value];
    [obj] is the live object in those bytes, if any. *)
Record opt := mkOpt { valid : bool; obj : option T }.
(** [boom]: the next constructor of T that runs throws. *)
Record world := mkW { vars : var -> option opt; boom : bool; log : list ev }.
Definition upd (f : var -> option opt) (x : var) (o : option opt) : var -> option opt :=
  fun y => if var_eqb y x then o else f y.
Definition set_var (x : var) (o : option opt) : Cmd world unit :=
  fun w => Ok (mkW (upd (vars w) x o) (boom w) (log w)) tt.
Definition note (e : ev) : Cmd world unit := fun w => Ok (mkW (vars w) (boom w) (log w ++ [e])) tt.
Definition get_var (x : var) : Cmd world opt :=
  fun w => match vars w x with Some o => Ok w o | None => Bad end.

(** The argument of a constructor of T: a value outside, or a reference to the
    object held by a variable. *)
Inductive src := Ext (v : T) | In (x : var).
Definition read (s : src) : Cmd world T :=
  match s with
  | Ext v => ret v
  | In y => let! o := get_var y in match obj o with Some v => ret v | None => fun _ => Bad end
  end.

(** etl::construct_at(&u.value, arg) (optional.h: 615, 629, 643): a throwing
    constructor leaves no object; constructing on top of a live object is a
    leak, taken as undefined.  A move ([mv]) leaves [moved v] in a held source. *)
Definition construct_at (x : var) (s : src) (mv : bool) : Cmd world unit :=
  let! v := read s in
  fun w => if boom w then Ex w "T" else
  (let! o := get_var x in
   match obj o with
   | Some _ => fun _ => Bad
   | None =>
       set_var x (Some (mkOpt (valid o) (Some v))) ;; note (Ctor x) ;;
       match s, mv with
       | In y, true => let! p := get_var y in set_var y (Some (mkOpt (valid p) (Some (moved v))))
       | _, _ => ret tt
       end
   end) w.
(** etl::destroy_at(&u.value) (612, 626, 640, 654) *)
Definition destroy_at (x : var) : Cmd world unit :=
  let! o := get_var x in
  match obj o with
  | None => fun _ => Bad
  | Some _ => set_var x (Some (mkOpt (valid o) None)) ;; note (Dtor x)
  end.
Definition set_valid (x : var) (b : bool) : Cmd world unit :=
  let! o := get_var x in set_var x (Some (mkOpt b (obj o))).

(** The two storage types as the operations the optional uses. *)
Record storage := mkSt {
  st_init : opt;
  st_construct : var -> src -> bool -> Cmd world unit;
  st_destroy : var -> Cmd world unit;
  st_dtor : var -> Cmd world unit;
  st_emplace03 : var -> src -> Cmd world unit }.

(** optional.h: 608-645 *)
Definition construct_n (x : var) (s : src) (mv : bool) : Cmd world unit :=
  let! o := get_var x in
  (if valid o then destroy_at x else ret tt) ;;
  construct_at x s mv ;; set_valid x true.
(** optional.h: 650-657 *)
Definition destroy_n (x : var) : Cmd world unit :=
  let! o := get_var x in if valid o then (destroy_at x ;; set_valid x false) else ret tt.
(** emplace of the C++03 build, optional.h: 498-585 *)
Definition emplace03_n (x : var) (s : src) : Cmd world unit :=
  let! o := get_var x in
  (if valid o then destroy_n x else ret tt) ;;
  construct_at x s false ;; set_valid x true.
(** optional_impl<T, false>, optional.h: 112-680; 188-191 the destructor *)
Definition storage_n : storage := mkSt (mkOpt false None) construct_n destroy_n destroy_n emplace03_n.

(** optional.h: 1172-1194: the value is assigned, no object is created *)
Definition construct_f (x : var) (s : src) (mv : bool) : Cmd world unit :=
  let! v := read s in set_var x (Some (mkOpt true (Some v))).
(** optional.h: 1199-1202 *)
Definition destroy_f (x : var) : Cmd world unit := set_valid x false.
(** emplace of the C++03 build, optional.h: 1064-1151 *)
Definition emplace03_f (x : var) (s : src) : Cmd world unit :=
  let! o := get_var x in
  (if valid o then destroy_f x else ret tt) ;;
  let! v := read s in set_var x (Some (mkOpt false (Some v))) ;; set_valid x true.
(** optional_impl<T, true>, optional.h: 687-1208; the destructor is implicit *)
Definition storage_f : storage := mkSt (mkOpt false (Some zero)) construct_f destroy_f (fun _ => ret tt) emplace03_f.

Variable st : storage.

(** optional.h: 361-365 (and 929) *)
Definition has_value (x : var) : Cmd world bool := let! o := get_var x in ret (valid o).
(** value(), operator *, operator -> : optional.h: 281-397, 415-434 (847-1000) *)
Definition value (x : var) : Cmd world T :=
  let! b := has_value x in assert_ b "optional_invalid" ;; read (In x).
(** a constructor: the object does not exist if its body throws *)
Definition ctor (x : var) (body : Cmd world unit) : Cmd world unit :=
  set_var x (Some (st_init st)) ;;
  fun w => match body w with
           | Ex w' e => Ex (mkW (upd (vars w') x None) (boom w') (log w')) e
           | o => o
           end.
(** optional.h: 121-135, 1240-1291 *)
Definition new_empty (x : var) : Cmd world unit := ctor x (ret tt).
(** optional.h: 167-181, 1351-1397 (the argument is outside the optionals) *)
Definition new_value (x : var) (v : T) : Cmd world unit := ctor x (st_construct st x (Ext v) false).
(** optional.h: 141-148, 1298-1320.  The move constructor of etl::optional
    (1329-1345) passes its argument on as an lvalue: it copies as well. *)
Definition new_copy (x y : var) : Cmd world unit :=
  ctor x (let! b := has_value y in if b then (value y ;; st_construct st x (In y) false) else ret tt).
(** optional.h: 188-191 *)
Definition drop (x : var) : Cmd world unit := st_dtor st x ;; set_var x None.
(** optional.h: 197-205 *)
Definition assign_null (x : var) : Cmd world unit :=
  let! b := has_value x in if b then st_destroy st x else ret tt.
(** optional.h: 211-226 (copy), 233-248 (move) *)
Definition assign_opt (mv : bool) (x y : var) : Cmd world unit :=
  if var_eqb x y then ret tt else
  let! b := has_value y in
  if b then (value y ;; st_construct st x (In y) mv) else st_destroy st x.
(** optional.h: 255-272, the argument outside the optionals *)
Definition assign_value (x : var) (v : T) : Cmd world unit := st_construct st x (Ext v) false.
(** optional.h: 255-260, the argument is *y *)
Definition assign_held (x y : var) : Cmd world unit := value y ;; st_construct st x (In y) false.
(** optional.h: 487-492 *)
Definition emplace (x : var) (v : T) : Cmd world unit := st_construct st x (Ext v) false.
(** optional.h: 498-585 *)
Definition emplace03 (x : var) (v : T) : Cmd world unit := st_emplace03 st x (Ext v).
(** optional.h: 475-478 *)
Definition reset (x : var) : Cmd world unit := st_destroy st x.
(** optional.h: 405-457: [T value_or(default)] *)
Definition value_or (x : var) (v : T) : Cmd world T :=
  let! b := has_value x in if b then value x else ret v.
(** optional.h: 464-469; the temporary is destroyed also when an exception passes *)
Definition finally (m c : Cmd world unit) : Cmd world unit :=
  fun w => match m w with
           | Ok w' _ => c w'
           | Ex w' e => match c w' with Ok w2 _ => Ex w2 e | o => o end
           | Bad => Bad
           end.
Definition swap (x y : var) : Cmd world unit :=
  new_copy Tmp x ;; finally (assign_opt false x y ;; assign_opt false y Tmp) (drop Tmp).

(** ** Comparison operators *)
Definition ltT (a b : T) : bool := match cmpT a b with Lt => true | _ => false end.
Definition eqT (a b : T) : bool := match cmpT a b with Eq => true | _ => false end.
Definition leT (a b : T) : bool := match cmpT a b with Gt => false | _ => true end.
Definition gtT (a b : T) : bool := match cmpT a b with Gt => true | _ => false end.
Definition geT (a b : T) : bool := match cmpT a b with Lt => false | _ => true end.
(** optional.h: 1567-1601 *)
Definition op_eq (x y : var) : Cmd world bool :=
  let! b := has_value x in let! c := has_value y in
  if negb (Bool.eqb b c) then ret false
  else if negb b && negb c then ret true
  else let! v := value x in let! u := value y in ret (eqT v u).
(** optional.h: 1625-1659 *)
Definition op_lt (x y : var) : Cmd world bool :=
  let! c := has_value y in let! b := has_value x in
  if negb c then ret false else if negb b then ret true
  else let! v := value x in let! u := value y in ret (ltT v u).
Definition not_ (m : Cmd world bool) : Cmd world bool := let! b := m in ret (negb b).
(** optional.h: 1567-1714 *)
Definition cmp_oo (c : cmpop) (x y : var) : Cmd world bool :=
  match c with
  | CEq => op_eq x y | CNe => not_ (op_eq x y) | CLt => op_lt x y
  | CLe => not_ (op_lt y x) | CGt => op_lt y x | CGe => not_ (op_lt x y)
  end.
(** optional op nullopt, optional.h: 1719-1731, 1755-1767, 1791-1803, 1827-1839, 1863-1875, 1899-1911 *)
Definition cmp_on (c : cmpop) (x : var) : Cmd world bool :=
  match c with
  | CEq => not_ (has_value x) | CNe => not_ (not_ (has_value x)) | CLt => ret false
  | CLe => not_ (has_value x) | CGt => has_value x | CGe => ret true
  end.
(** nullopt op optional, optional.h: 1737-1749, 1773-1785, 1809-1821, 1845-1857, 1881-1893, 1917-1929 *)
Definition cmp_no (c : cmpop) (x : var) : Cmd world bool :=
  match c with
  | CEq => not_ (has_value x) | CNe => not_ (not_ (has_value x)) | CLt => has_value x
  | CLe => ret true | CGt => ret false | CGe => not_ (has_value x)
  end.
(** optional op value, optional.h: 1935-1965, 2007-2019, 2043-2055, 2079-2091, 2115-2127 *)
Definition cmp_ov (c : cmpop) (x : var) (v : T) : Cmd world bool :=
  let sel (d : bool) (f : T -> T -> bool) :=
    let! b := has_value x in if b then (let! u := value x in ret (f u v)) else ret d in
  match c with
  | CEq => sel false eqT | CNe => not_ (sel false eqT) | CLt => sel true ltT
  | CLe => sel true leT | CGt => sel false gtT | CGe => sel false geT
  end.
(** value op optional, optional.h: 1971-2001, 2025-2037, 2061-2073, 2097-2109, 2133-2145 *)
Definition cmp_vo (c : cmpop) (v : T) (x : var) : Cmd world bool :=
  let sel (d : bool) (f : T -> T -> bool) :=
    let! b := has_value x in if b then (let! u := value x in ret (f u v)) else ret d in
  let sel' (d : bool) (f : T -> T -> bool) :=
    let! b := has_value x in if b then (let! u := value x in ret (f v u)) else ret d in
  match c with
  | CEq => sel false eqT | CNe => not_ (sel false eqT) | CLt => sel' false ltT
  | CLe => sel' false leT | CGt => sel' true gtT | CGe => sel' true geT
  end.
Definition compare (c : cmpop) (l r : operand T) : Cmd world bool :=
  match l, r with
  | OVar i, OVar j => cmp_oo c (U i) (U j)
  | OVar i, ONull => cmp_on c (U i)
  | ONull, OVar j => cmp_no c (U j)
  | OVar i, OVal v => cmp_ov c (U i) v
  | OVal v, OVar j => cmp_vo c v (U j)
  | _, _ => fun _ => Bad
  end.

Definition unit_ (m : Cmd world unit) : Cmd world (ores T) := m ;; ret RUnit.
(** one call of the program; [t]: the first constructor of T it runs throws *)
Definition exec_op (o : oop T) : Cmd world (ores T) :=
  match o with
  | New i => unit_ (new_empty (U i))
  | NewVal i v => unit_ (new_value (U i) v)
  | NewCopy i j => unit_ (new_copy (U i) (U j))
  | Drop i => unit_ (drop (U i))
  | SetNull i => unit_ (assign_null (U i))
  | SetOpt mv i j => unit_ (assign_opt mv (U i) (U j))
  | SetVal i v => unit_ (assign_value (U i) v)
  | SetHeld i j => unit_ (assign_held (U i) (U j))
  | Emplace i v => unit_ (emplace (U i) v)
  | Emplace03 i v => unit_ (emplace03 (U i) v)
  | Reset i => unit_ (reset (U i))
  | Swap i j => unit_ (swap (U i) (U j))
  | HasValue i => let! b := has_value (U i) in ret (RBool b)
  | Value i => let! v := value (U i) in ret (RVal v)
  | ValueOr i v => let! u := value_or (U i) v in ret (RVal u)
  | Cmp c l r => let! b := compare c l r in ret (RBool b)
  end.
Definition exec (c : bool * oop T) : Cmd world (ores T) :=
  (fun w => Ok (mkW (vars w) (fst c) (log w)) tt) ;; exec_op (snd c).
Definition start : world := mkW (fun _ => None) false [].
End Opt.
Arguments opt : clear implicits. Arguments world : clear implicits. Arguments src : clear implicits. Arguments storage : clear implicits.
