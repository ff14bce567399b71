(** * What the operations of etl::string do to the text, as if there were no limit; and which characters count as lost. *)
From Coq Require Import List Arith Bool.
From Verif Require Import StrModel.
Import ListNotations.

Section Spec.
  Variable T : Type.
  Variable z : T.
  Variable is_z : T -> bool.
  Variable MAX : nat.
  Notation text_ := (fun s : str T => map (buf s) (seq 0 (sz s))).
  (** the characters from begin() to end() *)
  Definition text (s : str T) : list T := text_ s.

  Fixpoint until_null (l : list T) : list T := match l with [] => [] | x :: r => if is_z x then [] else x :: until_null r end.
  (** the characters of a source *)
  Definition chars (src : source T) : list T :=
    match src with
    | Chars l => l
    | CStr l => until_null l
    | Whole o => text o
    | Sub o p n => firstn n (skipn p (text o))
    end.
  Definition source_truncated (src : source T) : bool := match src with Whole o | Sub o _ _ => tr o | _ => false end.
  Definition source_throws (src : source T) : bool := match src with Sub o p _ => negb (p <=? sz o) | _ => false end.

  Definition splice (t : list T) (p n : nat) (new : list T) : list T := firstn p t ++ new ++ skipn (p + n) t.

  (** the text wanted *)
  Definition wanted (o : op T) (t : list T) : list T :=
    match o with
    | OAssign src => chars src
    | OAssignFill n v => repeat v n
    | OClear => []
    | OResize n v => firstn n t ++ repeat v (n - length t)
    | OPush v => t ++ [v]
    | OPop => firstn (length t - 1) t
    | OAppend src => t ++ chars src
    | OAppendFill n v => t ++ repeat v n
    | OInsert p src => splice t p 0 (chars src)
    | OInsertFill p n v | OInsertItFill p n v => splice t p 0 (repeat v n)
    | OInsertChar p v => splice t p 0 [v]
    | OInsertIt p l => splice t p 0 l
    | OErase p n => splice t p n []
    | OEraseOne p => splice t p 1 []
    | OEraseRange f l => splice t f (l - f) []
    | OReplace p n src => splice t p n (chars src)
    | OReplaceFill p n m v => splice t p n (repeat v m)
    | OReplaceIt f l src => splice t f (l - f) (chars src)
    | OReplaceItFill f l m v => splice t f (l - f) (repeat v m)
    | OSecure | OClearTruncated => t
    end.
  (** the calls that fail *)
  Definition throws (o : op T) (t : list T) : bool :=
    match o with
    | OAssign src | OAppend src => source_throws src
    | OInsert p src | OReplace p _ src => negb (p <=? length t) || source_throws src
    | OInsertFill p _ _ | OReplaceFill p _ _ _ => negb (p <=? length t)
    | _ => false
    end.
  (** is_truncated() afterwards: assignments, clear() and clear_truncated() start afresh, the others keep the flag set *)
  Definition flag (o : op T) (c : nat) (t : list T) (before : bool) : bool :=
    match o with
    | OAssign src => (c <? length (chars src)) || source_truncated src
    | OAssignFill n v => c <? n
    | OClear | OClearTruncated => false
    | OAppend src | OInsert _ src | OReplace _ _ src | OReplaceIt _ _ src =>
        before || (c <? length (wanted o t)) || source_truncated src
    | _ => before || (c <? length (wanted o t))
    end.

  (** a string that can exist *)
  Definition valid (s : str T) : Prop := sz s <= cap s /\ cap s < MAX /\ buf s (sz s) = z.

  (** ** calls the documentation allows: iterators of this string, arrays that contain what is asked for *)
  Definition source_ok (src : source T) : Prop :=
    match src with
    | Chars l => True
    | CStr l => exists x, In x l /\ is_z x = true
    | Whole o => valid o
    | Sub o p n => valid o
    end.
  Definition call_ok (o : op T) (t : list T) : Prop :=
    match o with
    | OAssign src | OAppend src | OInsert _ src | OReplace _ _ src => source_ok src
    | OInsertChar p _ | OInsertItFill p _ _ | OInsertIt p _ => p <= length t
    | OEraseOne p => p < length t
    | OEraseRange f l => f <= l /\ l <= length t
    | OReplaceIt f l src => f <= l /\ l <= length t /\ source_ok src /\ match src with Sub _ _ _ => False | _ => True end
    | OReplaceItFill f l _ _ => f <= l /\ l <= length t
    | _ => True
    end.
  (** ** the calls for which the code keeps its promises:
      sums of counts and positions that do not wrap; assign of a part that lies within its source; erase within the string *)
  Definition sums_ok (src : source T) (n : nat) : Prop :=
    n + length (chars src) <= MAX /\ match src with Sub o p m => m = MAX \/ p + m <= MAX | _ => True end.
  Definition safe (o : op T) (t : list T) : Prop :=
    match o with
    | OAssign (Sub o p n) => n = MAX \/ p + n <= sz o
    | OErase p _ => p <= length t
    | OAppend src | OInsert _ src => sums_ok src (length t)
    | OReplace _ _ src => length t + length (chars src) <= MAX
    | OReplaceIt _ _ src => length t + length (chars src) <= MAX
    | OInsertIt _ l => length t + length l <= MAX
    | OAppendFill n _ | OInsertFill _ n _ | OInsertItFill _ n _ | OReplaceFill _ _ n _ | OReplaceItFill _ _ n _ => length t + n <= MAX
    | _ => True
    end.
End Spec.
Arguments text {T}. Arguments chars {T}. Arguments wanted {T}. Arguments throws {T}. Arguments flag {T}. Arguments valid {T}. Arguments call_ok {T}. Arguments safe {T}.
Arguments source_throws {T}. Arguments source_truncated {T}. Arguments source_ok {T}. Arguments sums_ok {T}. Arguments splice {T}. Arguments until_null {T}.
