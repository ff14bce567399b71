(** Model of etl::variant (private/variant_variadic.h) and etl::expected
    (expected.h) in a world of several variables, with the construction and
    destruction of the held objects made explicit. *)
From Coq Require Import List String Bool Arith.
From Verif Require Import Cmd OptModel VntSpec.
Import ListNotations.

(** variant_variadic.h: 83-110: index_of_type (the first alternative of that
    type; the helper counts from 1 and the last case answers 1 without a test) *)
Fixpoint index_helper (t : nat) (l : list nat) : nat :=
  match l with
  | [] => 0
  | [u] => 1
  | u :: r => if t =? u then 1 else 1 + index_helper t r
  end.
Definition index_of_type (TS : list nat) (t : nat) : nat := index_helper t TS - 1.
(** variant_variadic.h: 115-138: type_from_index *)
Fixpoint type_helper (i n : nat) (l : list nat) : nat :=
  match l with
  | [] => 0
  | [u] => u
  | u :: r => if i =? n then u else type_helper i (S n) r
  end.
Definition type_from_index (TS : list nat) (k : nat) : nat := type_helper k 0 TS.

Section Vnt.
Context {V : Type}.
Variable moved : V -> V.
Variable dflt : nat -> V.
Variable TS : list nat.

(** variant_variadic.h: 1453-1463: [type_id] ([None] = variant_npos),
    [operation] (the type whose operation_type is stored, [None] = the null
    operation, 169-178) and the object in [data] with its type. *)
Record vnt := mkV { type_id : option nat; oper : option nat; vobj : option (nat * V) }.
Record vworld := mkVW { vvars : var -> option vnt; vboom : bool; vlog : list ev }.
Definition vupd (f : var -> option vnt) (x : var) (o : option vnt) : var -> option vnt :=
  fun y => if var_eqb y x then o else f y.
Definition put_var (x : var) (o : option vnt) : Cmd vworld unit :=
  fun w => Ok (mkVW (vupd (vvars w) x o) (vboom w) (vlog w)) tt.
Definition vnote (e : ev) : Cmd vworld unit := fun w => Ok (mkVW (vvars w) (vboom w) (vlog w ++ [e])) tt.
Definition take_var (x : var) : Cmd vworld vnt :=
  fun w => match vvars w x with Some o => Ok w o | None => Bad end.

Inductive vsrc := VExt (v : V) | VIn (x : var).
(** read an argument as an object of type t *)
Definition vread (t : nat) (s : vsrc) : Cmd vworld V :=
  match s with
  | VExt v => ret v
  | VIn y => let! o := take_var y in
             match vobj o with Some (u, v) => if u =? t then ret v else (fun _ => Bad) | None => fun _ => Bad end
  end.
(** ::new (data) T(arg): variant_variadic.h: 218, 251, 284, 290 and
    construct_in_place(_args), default_construct_in_place *)
Definition build (x : var) (t : nat) (s : vsrc) (mv : bool) : Cmd vworld unit :=
  let! v := vread t s in
  fun w => if vboom w then Ex w "T" else
  (let! o := take_var x in
   match vobj o with
   | Some _ => fun _ => Bad
   | None =>
       put_var x (Some (mkV (type_id o) (oper o) (Some (t, v)))) ;; vnote (Ctor x) ;;
       match s, mv with
       | VIn y, true => let! p := take_var y in put_var y (Some (mkV (type_id p) (oper p) (Some (t, moved v))))
       | _, _ => ret tt
       end
   end) w.
(** operation(Destroy, data, nullptr): 182-312; the null operation does nothing *)
Definition do_destroy (x : var) : Cmd vworld unit :=
  let! o := take_var x in
  match oper o with
  | None => ret tt
  | Some t =>
      match vobj o with
      | Some (u, _) => if u =? t then (put_var x (Some (mkV (type_id o) (oper o) None)) ;; vnote (Dtor x)) else (fun _ => Bad)
      | None => fun _ => Bad
      end
  end.
(** operation(Copy / Move, data, other.data) *)
Definition do_copy (mv : bool) (x y : var) : Cmd vworld unit :=
  let! o := take_var x in
  match oper o with None => ret tt | Some t => build x t (VIn y) mv end.
Definition set_oper (x : var) (t : option nat) : Cmd vworld unit :=
  let! o := take_var x in put_var x (Some (mkV (type_id o) t (vobj o))).
Definition set_id (x : var) (k : option nat) : Cmd vworld unit :=
  let! o := take_var x in put_var x (Some (mkV k (oper o) (vobj o))).
(** a constructor starting from the member initialisers [o] *)
Definition vctor (x : var) (o : vnt) (body : Cmd vworld unit) : Cmd vworld unit :=
  put_var x (Some o) ;;
  fun w => match body w with
           | Ex w' e => Ex (mkVW (vupd (vvars w') x None) (vboom w') (vlog w')) e
           | r => r
           end.
(** the raw storage before a constructor body has run *)
Definition raw : vnt := mkV None None None.

(** variant_variadic.h: 875-878 *)
Definition index (x : var) : Cmd vworld (option nat) := let! o := take_var x in ret (type_id o).
Definition is_id (k : nat) (i : option nat) : bool := match i with Some j => k =? j | None => false end.
(** variant_variadic.h: 547-554 *)
Definition vnew (x : var) : Cmd vworld unit :=
  let t := type_from_index TS 0 in
  vctor x raw (build x t (VExt (dflt t)) false ;; set_oper x (Some t) ;; set_id x (Some 0)).
(** variant_variadic.h: 562-569, 577-584, 610-617 *)
Definition vnew_val (x : var) (t : nat) (v : V) : Cmd vworld unit :=
  vctor x (mkV (Some (index_of_type TS t)) (Some t) None) (build x t (VExt v) false).
(** variant_variadic.h: 592-601, 625-634 *)
Definition vnew_idx (x : var) (k : nat) (v : V) : Cmd vworld unit :=
  let t := type_from_index TS k in
  vctor x (mkV (Some k) None None) (build x t (VExt v) false ;; set_oper x (Some t)).
(** variant_variadic.h: 643-658 (copy), 666-685 (move); [this != &other] holds
    for a constructor *)
Definition vnew_from (mv : bool) (x y : var) : Cmd vworld unit :=
  let! p := take_var y in
  vctor x (mkV (type_id p) (oper p) None)
    (let! i := index y in match i with None => set_id x None | Some _ => do_copy mv x y end).
(** variant_variadic.h: 691-700 *)
Definition vdrop (x : var) : Cmd vworld unit :=
  let! i := index x in
  (match i with Some _ => do_destroy x | None => ret tt end) ;; put_var x None.
(** variant_variadic.h: 706-721, 728-743 *)
Definition vemplace_t (x : var) (t : nat) (v : V) : Cmd vworld unit :=
  do_destroy x ;; build x t (VExt v) false ;; set_oper x (Some t) ;; set_id x (Some (index_of_type TS t)).
(** variant_variadic.h: 750-765, 772-787 *)
Definition vemplace_i (x : var) (k : nat) (v : V) : Cmd vworld unit :=
  let t := type_from_index TS k in
  do_destroy x ;; build x t (VExt v) false ;; set_oper x (Some t) ;; set_id x (Some k).
(** variant_variadic.h: 795-809; the argument is [s] *)
Definition vset_val (x : var) (t : nat) (s : vsrc) : Cmd vworld unit :=
  do_destroy x ;; build x t s false ;; set_oper x (Some t) ;; set_id x (Some (index_of_type TS t)).
(** variant_variadic.h: 815-835 (copy), 841-861 (move) *)
Definition vassign (mv : bool) (x y : var) : Cmd vworld unit :=
  if var_eqb x y then ret tt else
  let! i := index y in
  match i with
  | None => set_id x None
  | Some _ =>
      do_destroy x ;;
      (let! p := take_var y in set_oper x (oper p)) ;;
      do_copy mv x y ;;
      (let! p := take_var y in set_id x (type_id p))
  end.
Definition vfinally (m c : Cmd vworld unit) : Cmd vworld unit :=
  fun w => match m w with
           | Ok w' _ => c w'
           | Ex w' e => match c w' with Ok w2 _ => Ex w2 e | o => o end
           | Bad => Bad
           end.
(** variant_variadic.h: 923-928 *)
Definition vswap (x y : var) : Cmd vworld unit :=
  vnew_from true Tmp x ;; vfinally (vassign true x y ;; vassign true y Tmp) (vdrop Tmp).
(** variant_variadic.h: 867-870 *)
Definition valueless (x : var) : Cmd vworld bool := let! i := index x in ret (match i with None => true | Some _ => false end).
(** variant_variadic.h: 1470-1475 ([index_of_type] of a supported type is never npos); is_type 896-900 *)
Definition holds_t (x : var) (t : nat) : Cmd vworld bool := let! i := index x in ret (is_id (index_of_type TS t) i).
(** variant_variadic.h: 1480-1493 *)
Definition holds_i (x : var) (k : nat) : Cmd vworld bool := let! i := index x in ret (is_id k i).
(** variant_variadic.h: 915-918 *)
Definition same_type (x y : var) : Cmd vworld bool :=
  let! i := index x in let! j := index y in
  ret (match i, j with Some k, Some m => k =? m | None, None => true | _, _ => false end).
(** get<Index>(v): variant_variadic.h: 1498-1511, 1528-1557 *)
Definition vget (x : var) (k : nat) : Cmd vworld V :=
  let! i := index x in assert_ (is_id k i) bad_type ;; vread (type_from_index TS k) (VIn x).
(** get<Index>(variant&&): 1514-1525: no assertion *)
Definition vget_rv (x : var) (k : nat) : Cmd vworld V := vread (type_from_index TS k) (VIn x).
(** variant_variadic.h: 1560-1593 *)
Definition vget_t (x : var) (t : nat) : Cmd vworld V := vget x (index_of_type TS t).
(** variant_variadic.h: 1598-1656 *)
Definition vget_if (x : var) (k : nat) : Cmd vworld (option V) :=
  let! i := index x in if is_id k i then (let! v := vget x k in ret (Some v)) else ret None.
(** accept / do_visitor: 933-958, 1108-1121, 1416-1447: the first Index that
    equals index() is visited *)
Fixpoint visit_from (x : var) (ks : list nat) : Cmd vworld (option (nat * V)) :=
  match ks with
  | [] => ret None
  | k :: r => let! i := index x in
              if is_id k i then (let! v := vget x k in ret (Some (k, v))) else visit_from x r
  end.
Definition visit (x : var) : Cmd vworld (option (nat * V)) := visit_from x (seq 0 (List.length TS)).

Definition vunit_ (m : Cmd vworld unit) : Cmd vworld (vres V) := m ;; ret VUnit.
Definition vexec_op (o : vop V) : Cmd vworld (vres V) :=
  match o with
  | VNew i => vunit_ (vnew (U i))
  | VNewVal i t v => vunit_ (vnew_val (U i) t v)
  | VNewIdx i k v => vunit_ (vnew_idx (U i) k v)
  | VNewFrom mv i j => vunit_ (vnew_from mv (U i) (U j))
  | VDrop i => vunit_ (vdrop (U i))
  | VEmplaceT i t v => vunit_ (vemplace_t (U i) t v)
  | VEmplaceI i k v => vunit_ (vemplace_i (U i) k v)
  | VSetVal i t v => vunit_ (vset_val (U i) t (VExt v))
  | VSetHeld i j k => vunit_ (vget (U j) k ;; vset_val (U i) (type_from_index TS k) (VIn (U j)))
  | VSet mv i j => vunit_ (vassign mv (U i) (U j))
  | VSwap i j => vunit_ (vswap (U i) (U j))
  | VIndex i => let! k := index (U i) in match k with Some k => ret (VNat k) | None => ret VUnit end
  | VValueless i => let! b := valueless (U i) in ret (VBool b)
  | VHoldsT i t => let! b := holds_t (U i) t in ret (VBool b)
  | VHoldsI i k => let! b := holds_i (U i) k in ret (VBool b)
  | VSame i j => let! b := same_type (U i) (U j) in ret (VBool b)
  | VGetI i k => let! v := vget (U i) k in ret (VVal v)
  | VGetT i t => let! v := vget_t (U i) t in ret (VVal v)
  | VGetIf i k => let! p := vget_if (U i) k in ret (VPtr p)
  | VGetRv i k => let! v := vget_rv (U i) k in ret (VVal v)
  | VVisit i => let! p := visit (U i) in match p with Some (k, v) => ret (VSeen k v) | None => ret VUnit end
  end.
Definition arm (t : bool) : Cmd vworld unit := fun w => Ok (mkVW (vvars w) t (vlog w)) tt.
Definition vexec (c : bool * vop V) : Cmd vworld (vres V) := arm (fst c) ;; vexec_op (snd c).
Definition vstart : vworld := mkVW (fun _ => None) false [].
End Vnt.
Arguments vnt : clear implicits. Arguments vworld : clear implicits. Arguments vsrc : clear implicits.

(** ** etl::expected<TValue, TError>, expected.h: 241-753 *)
Section Exp.
Context {V : Type}.
Variable moved : V -> V.
Variable dflt : nat -> V.
(** operator == of the value and of the error type *)
Variable eqv eqe : V -> V -> bool.
(** etl::monostate, the value type and the error type *)
Variables mono tv te : nat.
(** expected.h: 752 *)
Definition ETS : list nat := [mono; tv; te].
(** expected.h: 745-750 *)
Definition Value_Type : nat := 1.
Definition Error_Type : nat := 2.
Notation vw := (vworld V).
(** expected.h: 516 *)
Definition e_has (x : var) : Cmd vw bool := let! i := index x in ret (is_id Value_Type i).
(** expected.h: 471-505 *)
Definition e_value (x : var) : Cmd vw V := vget ETS x Value_Type.
(** expected.h: 576-606, 663-666 *)
Definition e_error (x : var) : Cmd vw V := vget ETS x Error_Type.
(** operator * and ->: expected.h: 672-740 *)
Definition e_deref (x : var) : Cmd vw V :=
  let! b := e_has x in assert_ b "expected_invalid" ;; vget_t ETS x tv.
(** expected.h: 538-566, 648-657 *)
Definition e_value_or (x : var) (v : V) : Cmd vw V := let! b := e_has x in if b then e_value x else ret v.
(** expected.h: 966-979 *)
Definition e_eq (x y : var) : Cmd vw bool :=
  let! b := e_has x in let! c := e_has y in
  if negb (Bool.eqb b c) then ret false
  else if b then (let! u := e_value x in let! v := e_value y in ret (eqv u v))
  else (let! u := e_error x in let! v := e_error y in ret (eqe u v)).
Definition eexec_op (o : eop V) : Cmd vw (vres V) :=
  match o with
  | ENew i => vunit_ (vnew_idx moved ETS (U i) Value_Type (dflt tv))        (* 257-261 *)
  | ENewVal i v => vunit_ (vnew_idx moved ETS (U i) Value_Type v)           (* 265-278, 351-365 *)
  | ENewErr i e => vunit_ (vnew_idx moved ETS (U i) Error_Type e)           (* 303-336 *)
  | ENewUnexpect i e => vunit_ (vnew_val moved ETS (U i) te e)              (* 371-385: storage(error_type(args...)) *)
  | ENewFrom mv i j => vunit_ (vnew_from moved mv (U i) (U j))              (* 283-296 *)
  | EDrop i => vunit_ (vdrop (U i))
  | ESetVal i v => vunit_ (vemplace_i moved ETS (U i) Value_Type v)         (* 418-438 *)
  | ESetErr i e => vunit_ (vemplace_i moved ETS (U i) Error_Type e)         (* 444-464 *)
  | ESet mv i j => vunit_ (vassign moved mv (U i) (U j))                    (* 392-412 *)
  | EEmplace i v => vunit_ (vemplace_t moved ETS (U i) tv v)                (* 623-641 *)
  | ESwap i j => vunit_ (vswap moved (U i) (U j))                           (* 613-618 *)
  | EHas i => let! b := e_has (U i) in ret (VBool b)
  | EValue i => let! v := e_value (U i) in ret (VVal v)
  | EError i => let! v := e_error (U i) in ret (VVal v)
  | EDeref i => let! v := e_deref (U i) in ret (VVal v)
  | EValueOr i v => let! u := e_value_or (U i) v in ret (VVal u)
  | EEq i j => let! b := e_eq (U i) (U j) in ret (VBool b)
  end.
Definition eexec (c : bool * eop V) : Cmd vw (vres V) := arm (fst c) ;; eexec_op (snd c).
End Exp.
