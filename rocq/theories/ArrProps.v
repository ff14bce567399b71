(** C62: inserting into, erasing from and assigning to an array (array.h).
    All positions of the array are 0 .. SIZE - 1; the contents after an operation are stated with firstn and skipn of the contents before it. *)
From Coq Require Import List Arith Bool Lia.
From Verif Require Import ArrModel ArrProofs.
Import ListNotations.

Section P.
Variables (T : Type) (after self : T -> T).
Notation insert := (insert T after self).
Notation insert_range := (insert_range T after self).
Notation erase := (erase T after self).
Notation erase_range := (erase_range T after self).
Notation erase_value := (erase_value T after self).
Notation erase_range_value := (erase_range_value T after self).
Ltac cases := repeat match goal with |- _ => cbn [andb]; match goal with
  | |- context [Nat.eqb ?x ?y] => destruct (Nat.eqb_spec x y); try (exfalso; lia)
  | |- context [Nat.leb ?x ?y] => destruct (Nat.leb_spec x y); try (exfalso; lia)
  | |- context [Nat.ltb ?x ?y] => destruct (Nat.ltb_spec x y); try (exfalso; lia) end; cbn [andb] end.
Ltac lens := repeat rewrite ?app_length, ?firstn_length, ?skipn_length, ?repeat_length, ?map_length, ?upd_length; cbn [length].
Ltac nths := repeat rewrite ?nth_app, ?nth_firstn, ?nth_skipn, ?nth_repeat, ?nth_one, ?nth_map; lens.
Ltac fin := cases; try reflexivity; try (f_equal; lia); try (do 2 f_equal; lia); try (rewrite !nth_none by (lens; lia); reflexivity).

(** insert (at every position but end()): the elements behind move back by one, the last one is dropped; whatever an object holds after a move is never left in the array *)
Theorem C62_insert : forall a p v, p < length a -> insert a p (inl v) = Some (firstn (length a) (firstn p a ++ [v] ++ skipn p a), p).
Proof.
  intros a p v H. unfold ArrModel.insert. destruct (mb_ok T after self (length a - 1 - p) p (length a) a) as (r & E & L & N); try lia. replace (p + (length a - 1 - p)) with (length a - 1) in * by lia.
  rewrite E. cbn [bind rd]. rewrite put_ok by lia. cbn [bind]. f_equal. f_equal. apply ext. intros i. rewrite upd_nth, N, L. nths. fin.
Qed.
(** value may be a reference to an element of the array in front of the position *)
Theorem C62_insert_own : forall a p k v, p < length a -> k < p -> nth_error a k = Some v -> insert a p (inr k) = insert a p (inl v).
Proof.
  intros a p k v H K V. unfold ArrModel.insert. destruct (mb_ok T after self (length a - 1 - p) p (length a) a) as (r & E & L & N); try lia. replace (p + (length a - 1 - p)) with (length a - 1) in * by lia.
  rewrite E. cbn [bind rd]. rewrite N. cases. rewrite V. reflexivity.
Qed.
(** REFUTED for an element at or behind the position: the reference sees the element that the move has put there *)
Theorem C62_insert_own_refuted : forall a p k v, p < k -> k < length a -> nth_error a (k - 1) = Some v -> insert a p (inr k) = insert a p (inl v).
Proof.
  intros a p k v H K V. unfold ArrModel.insert. destruct (mb_ok T after self (length a - 1 - p) p (length a) a) as (r & E & L & N); try lia. replace (p + (length a - 1 - p)) with (length a - 1) in * by lia.
  rewrite E. cbn [bind rd]. rewrite N. replace (k - (length a - (length a - 1))) with (k - 1) by lia. cases. rewrite V. reflexivity.
Qed.
(** REFUTED at end(): the call leaves the array *)
Lemma mb_bad sb : forall se de a, se < sb -> de = S se -> de <= length a -> ArrModel.move_backward T after self a sb se de = None.
Proof.
  induction se as [|se IH]; intros de a H -> B; cbn [ArrModel.move_backward].
  - destruct (Nat.eqb_spec sb 0); [lia|reflexivity].
  - destruct (Nat.eqb_spec sb (S se)); [lia|]. destruct (am_ok T after self a (S se) se) as (r & E & L & _); try lia. rewrite E. cbn [bind]. apply IH; lia.
Qed.
Theorem C62_insert_end_refuted : forall a v, a <> [] -> insert a (length a) v = None.
Proof. intros a v N. destruct a as [|x a]; [contradiction|]. unfold ArrModel.insert. rewrite mb_bad; [reflexivity| | |]; cbn [length]; lia. Qed.

(** inserting a range (not empty, or moving an object onto itself leaves it alone): what does not fit is dropped *)
Theorem C62_insert_range : forall a p src, p <= length a -> src <> [] \/ (forall x, self x = x) -> insert_range a p src = Some (firstn (length a) (firstn p a ++ src ++ skipn p a), p).
Proof.
  intros a p src H S. unfold ArrModel.insert_range. destruct (Nat.ltb_spec (length src) (length a - p)) as [Q|Q].
  - assert (X : exists r, ArrModel.move_backward T after self a p (p + (length a - (p + length src))) (length a) = Some (r, p + length src) /\ length r = length a /\ forall i, i < p \/ p + length src <= i -> nth_error r i = nth_error (firstn (length a) (firstn p a ++ src ++ skipn p a)) i).
    { destruct src as [|x src].
      - destruct S as [S|S]; [contradiction|]. cbn [length]. rewrite Nat.add_0_r. destruct (mb_self T after self (length a - p) p a) as (r & E & L & N); [lia|]. replace (p + (length a - p)) with (length a) in * by lia. exists r. rewrite E. split; [reflexivity|]. split; [exact L|].
        intros i _. cbn [app]. rewrite firstn_skipn, firstn_all, N. cases; try reflexivity. destruct (nth_error a i); cbn; [rewrite S|]; reflexivity.
      - cbn [length] in Q. destruct (mb_ok T after self (length a - (p + length (x :: src))) p (length a) a) as (r & E & L & N); try (cbn [length]; lia). exists r. rewrite E. split; [f_equal; f_equal; cbn [length]; lia|]. split; [exact L|].
        intros i Hi. rewrite N. nths. cbn [length] in *. fin. }
    destruct X as (r & E & L & N). rewrite E. cbn [bind]. destruct (cs_ok T src r p) as (r' & E' & L' & N'); [lia|]. rewrite E'. cbn [bind]. f_equal. f_equal. apply ext. intros i. rewrite N'.
    destruct (Nat.lt_ge_cases i p); [|destruct (Nat.le_gt_cases (p + length src) i)].
    + rewrite <- N by (left; assumption). cases. reflexivity.
    + rewrite <- N by (right; assumption). cases; reflexivity.
    + nths. fin.
  - cbn [bind]. destruct (cs_ok T src a p) as (r' & E' & L' & N'); [lia|]. rewrite E'. cbn [bind]. f_equal. f_equal. apply ext. intros i. rewrite N'. nths. fin.
Qed.
(** REFUTED otherwise: inserting an empty range moves every element behind the position onto itself *)
Theorem C62_insert_empty_refuted : forall a p, p < length a -> insert_range a p [] = Some (firstn p a ++ map self (skipn p a), p).
Proof.
  intros a p H. unfold ArrModel.insert_range. cbn [length]. destruct (Nat.ltb_spec 0 (length a - p)); [|lia]. rewrite Nat.add_0_r. destruct (mb_self T after self (length a - p) p a) as (r & E & L & N); [lia|]. replace (p + (length a - p)) with (length a) in * by lia.
  rewrite E. cbn [bind copy_s]. f_equal. f_equal. apply ext. intros i. rewrite N. nths. fin.
Qed.

(** erase(position): the elements behind close up; the last one is left with what a move leaves (or alone, when it was the one to erase) *)
Theorem C62_erase : forall a p, p < length a -> exists r, erase a p = Some (r, p) /\ length r = length a /\ firstn (length a - 1) r = firstn p a ++ skipn (p + 1) a.
Proof.
  intros a p H. unfold ArrModel.erase, move. destruct (ml_ok T after self (length a) (length a - (p + 1)) (p + 1) p a) as (r & E & L & N); try lia. replace (p + 1 + (length a - (p + 1))) with (length a) in * by lia.
  rewrite E. cbn [bind]. exists r. split; [reflexivity|]. split; [exact L|]. apply ext. intros i. nths. rewrite N. fin.
Qed.
Theorem C62_erase_end_refuted : forall a, erase a (length a) = None.
Proof.
  intros a. unfold ArrModel.erase, move. destruct a as [|x a]; [reflexivity|]. remember (x :: a) as l. assert (length l <> 0) by (subst; discriminate). clear Heql x a.
  destruct (length l) as [|n] eqn:E; [lia|]. cbn [move_loop]. destruct (Nat.eqb_spec (S n + 1) (S n)); [lia|]. unfold assign_move. rewrite nth_none by lia. reflexivity.
Qed.
Theorem C62_erase_range : forall a f l, f < l -> l <= length a -> exists r, erase_range a f l = Some (r, f) /\ length r = length a /\ firstn (length a - (l - f)) r = firstn f a ++ skipn l a.
Proof.
  intros a f l H B. unfold ArrModel.erase_range, move. destruct (ml_ok T after self (length a) (length a - l) l f a) as (r & E & L & N); try lia. replace (l + (length a - l)) with (length a) in * by lia.
  rewrite E. cbn [bind]. exists r. split; [reflexivity|]. split; [exact L|]. apply ext. intros i. nths. rewrite N. fin.
Qed.
(** REFUTED for an empty range: it moves every element behind the position onto itself *)
Theorem C62_erase_empty_refuted : forall a f, f <= length a -> erase_range a f f = Some (firstn f a ++ map self (skipn f a), f).
Proof.
  intros a f B. unfold ArrModel.erase_range, move. destruct (ml_self T after self (length a) (length a - f) f a) as (r & E & L & N); try lia. replace (f + (length a - f)) with (length a) in * by lia.
  rewrite E. cbn [bind]. f_equal. f_equal. apply ext. intros i. nths. rewrite N. fin.
Qed.
(** with a value: the places that become free hold it *)
Theorem C62_erase_value : forall a p v, p < length a -> erase_value a p (inl v) = Some (firstn p a ++ skipn (p + 1) a ++ [v], p).
Proof.
  intros a p v H. unfold ArrModel.erase_value, move. destruct (ml_ok T after self (length a) (length a - (p + 1)) (p + 1) p a) as (r & E & L & N); try lia. replace (p + 1 + (length a - (p + 1))) with (length a) in * by lia.
  rewrite E. cbn [bind rd]. rewrite put_ok by lia. cbn [bind]. f_equal. f_equal. apply ext. intros i. rewrite upd_nth, N. nths. fin.
Qed.
Theorem C62_erase_range_value : forall a f l v, f <= l -> l <= length a -> f < l \/ (forall x, self x = x) -> erase_range_value a f l (inl v) = Some (firstn f a ++ skipn l a ++ repeat v (l - f), f).
Proof.
  intros a f l v H B S. unfold ArrModel.erase_range_value, move.
  assert (X : exists r, move_loop T after self (length a) a l (length a) f = Some (r, f + (length a - l)) /\ length r = length a /\ forall i, i < f + (length a - l) -> nth_error r i = nth_error (firstn f a ++ skipn l a) i).
  { destruct (Nat.eq_dec f l) as [->|N0].
    - destruct S as [S|S]; [lia|]. destruct (ml_self T after self (length a) (length a - l) l a) as (r & E & L & N); try lia. replace (l + (length a - l)) with (length a) in * by lia. exists r. split; [exact E|]. split; [exact L|].
      intros i _. rewrite firstn_skipn, N. cases; try reflexivity. destruct (nth_error a i); cbn; [rewrite S|]; reflexivity.
    - destruct (ml_ok T after self (length a) (length a - l) l f a) as (r & E & L & N); try lia. replace (l + (length a - l)) with (length a) in * by lia. exists r. split; [exact E|]. split; [exact L|].
      intros i Hi. rewrite N. nths. fin. }
  destruct X as (r & E & L & N). rewrite E. cbn [bind]. unfold fill_range. destruct (fl_ok T (length r) v (length a - (f + (length a - l))) (f + (length a - l)) r) as (r' & E' & L' & N'); try lia.
  replace (f + (length a - l) + (length a - (f + (length a - l)))) with (length r) in * by lia. rewrite E'. cbn [bind]. f_equal. f_equal. apply ext. intros i. rewrite N'.
  destruct (Nat.lt_ge_cases i (f + (length a - l))).
  - rewrite N by assumption. nths. fin.
  - nths. fin.
Qed.

Theorem C62_assign : forall a src, assign T a src = Some (firstn (length a) src ++ skipn (length src) a, Nat.min (length src) (length a)).
Proof. intros a src. unfold assign. destruct (cs_ok T src a 0) as (r & E & L & N); [lia|]. rewrite E. f_equal. f_equal. apply ext. intros i. rewrite N. nths. rewrite ?Nat.sub_0_r. fin. destruct (Nat.lt_ge_cases i (length a)); [f_equal; lia|rewrite !nth_none by lia; reflexivity]. Qed.
Theorem C62_assign_value : forall a src v, assign_value T a src (inl v) = Some (firstn (length a) src ++ repeat v (length a - length src), Nat.min (length src) (length a)).
Proof.
  intros a src v. unfold assign_value. destruct (cs_ok T src a 0) as (r & E & L & N); [lia|]. rewrite E. cbn [bind]. unfold fill_range. set (p := Nat.min (0 + length src) (length a)).
  destruct (fl_ok T (length r) v (length r - p) p r) as (r' & E' & L' & N'); try lia. replace (p + (length r - p)) with (length r) in * by lia. rewrite E'. cbn [bind]. f_equal. f_equal. apply ext. intros i. rewrite N', N. subst p. nths. rewrite ?Nat.sub_0_r. fin.
Qed.
Theorem C62_fill : forall a v, fill T a (inl v) = Some (repeat v (length a)).
Proof. intros a v. unfold fill, fill_range. destruct (fl_ok T (length a) v (length a) 0 a) as (r & E & L & N); try lia. rewrite Nat.add_0_l in *. rewrite E. f_equal. apply ext. intros i. rewrite N. nths. fin. Qed.
End P.

(** a type whose moved-from objects hold 0 and that loses its value when it is moved onto itself *)
Definition z (_ : nat) := 0.
Example C62_run :
  insert nat z z [1; 2; 3; 4; 5] 1 (inl 9) = Some ([1; 9; 2; 3; 4], 1) /\ insert nat z z [1; 2; 3; 4; 5] 3 (inr 0) = Some ([1; 2; 3; 1; 4], 3) /\ insert nat z z [1; 2; 3; 4; 5] 1 (inr 3) = Some ([1; 3; 2; 3; 4], 1)
  /\ insert_range nat z z [1; 2; 3; 4; 5] 2 [7; 8] = Some ([1; 2; 7; 8; 3], 2) /\ insert_range nat z z [1; 2; 3; 4; 5] 3 [7; 8; 9] = Some ([1; 2; 3; 7; 8], 3) /\ insert_range nat z z [1; 2; 3; 4; 5] 2 [] = Some ([1; 2; 0; 0; 0], 2)
  /\ erase nat z z [1; 2; 3; 4; 5] 1 = Some ([1; 3; 4; 5; 0], 1) /\ erase_range nat z z [1; 2; 3; 4; 5] 1 3 = Some ([1; 4; 5; 0; 0], 1) /\ erase_range_value nat z z [1; 2; 3; 4; 5] 1 3 (inl 6) = Some ([1; 4; 5; 6; 6], 1)
  /\ assign nat [1; 2; 3; 4; 5] [8; 9] = Some ([8; 9; 3; 4; 5], 2).
Proof. repeat split. Qed.
Print Assumptions C62_insert.
Print Assumptions C62_insert_range.
Print Assumptions C62_insert_end_refuted.
Print Assumptions C62_erase_range.
Print Assumptions C62_erase_range_value.
Print Assumptions C62_assign_value.
Print Assumptions C62_fill.
