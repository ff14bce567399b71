From Coq Require Import List Arith Bool Lia.
From Verif Require Import ArrModel.
Import ListNotations.

Section P.
Variables (T : Type) (after self : T -> T).
Notation nth := (@nth_error T).
Notation assign_move := (assign_move T after self).
Notation move_backward := (move_backward T after self).
Notation move_loop := (move_loop T after self).
Ltac cases := repeat match goal with |- _ => cbn [andb]; match goal with
  | |- context [Nat.eqb ?x ?y] => destruct (Nat.eqb_spec x y); try (exfalso; lia)
  | |- context [Nat.leb ?x ?y] => destruct (Nat.leb_spec x y); try (exfalso; lia)
  | |- context [Nat.ltb ?x ?y] => destruct (Nat.ltb_spec x y); try (exfalso; lia) end; cbn [andb] end.

Lemma upd_length a i v : length (upd T a i v) = length a.
Proof. revert i. induction a; intros [|i]; cbn; auto. Qed.
Lemma upd_nth a i v j : nth (upd T a i v) j = if Nat.eqb j i then (if Nat.ltb i (length a) then Some v else None) else nth a j.
Proof.
  revert i j. induction a as [|x a IH]; intros i j.
  - cbn. destruct j; cbn; destruct i; try reflexivity; destruct (Nat.eqb _ _); reflexivity.
  - destruct i, j; cbn [upd nth_error length]; try reflexivity. rewrite IH. cbn [Nat.eqb]. replace (Nat.ltb (S i) (S (length a))) with (Nat.ltb i (length a)); [reflexivity|]. cases; reflexivity.
Qed.
Lemma put_ok a i v : i < length a -> put T a i v = Some (upd T a i v).
Proof. intros H. unfold put. destruct (Nat.ltb_spec i (length a)); [reflexivity|lia]. Qed.
Lemma nth_some (a : list T) i : i < length a -> exists v, nth a i = Some v.
Proof. intros H. destruct (nth a i) eqn:E; [eauto|]. apply nth_error_None in E. lia. Qed.
Lemma am_ok a d s : d < length a -> s < length a -> d <> s -> exists r, assign_move a d s = Some r /\ length r = length a /\ forall i, nth r i = if Nat.eqb i d then nth a s else if Nat.eqb i s then option_map after (nth a i) else nth a i.
Proof.
  intros D S N. unfold ArrModel.assign_move. destruct (nth_some a s S) as (v & V). rewrite V. cbn [bind]. destruct (Nat.eqb_spec d s); [contradiction|]. rewrite put_ok by exact S. cbn [bind]. rewrite put_ok by (rewrite upd_length; exact D).
  eexists. split; [reflexivity|]. rewrite !upd_length. split; [reflexivity|]. intros i. rewrite !upd_nth, upd_length. cases; subst; try contradiction; try rewrite V; reflexivity.
Qed.
Lemma am_self a s : s < length a -> exists r, assign_move a s s = Some r /\ length r = length a /\ forall i, nth r i = if Nat.eqb i s then option_map self (nth a i) else nth a i.
Proof.
  intros S. unfold ArrModel.assign_move. destruct (nth_some a s S) as (v & V). rewrite V. cbn [bind]. rewrite Nat.eqb_refl. rewrite put_ok by exact S.
  eexists. split; [reflexivity|]. rewrite !upd_length. split; [reflexivity|]. intros i. rewrite !upd_nth. cases; subst; try rewrite V; reflexivity.
Qed.
Lemma mb_ok n : forall sb de a, sb + n < de -> de <= length a -> exists r, move_backward a sb (sb + n) de = Some (r, de - n) /\ length r = length a /\
  forall i, nth r i = if Nat.leb (de - n) i && Nat.ltb i de then nth a (i - (de - (sb + n))) else if Nat.leb sb i && Nat.ltb i (sb + n) then option_map after (nth a i) else nth a i.
Proof.
  induction n as [|n IH]; intros sb de a H B.
  - exists a. rewrite Nat.add_0_r, Nat.sub_0_r. split; [destruct sb; cbn [ArrModel.move_backward]; rewrite Nat.eqb_refl; reflexivity|]. split; [reflexivity|]. intros i. cases; reflexivity.
  - rewrite Nat.add_succ_r in *. destruct de as [|de]; [lia|]. destruct (am_ok a de (sb + n)) as (a1 & E1 & L1 & N1); try lia. destruct (IH sb de a1) as (r & E & L & N); try lia.
    exists r. cbn [ArrModel.move_backward]. destruct (Nat.eqb_spec sb (S (sb + n))); [lia|]. rewrite E1. cbn [bind]. rewrite E. split; [reflexivity|]. split; [lia|]. intros i. rewrite N, !N1. cases; subst; try reflexivity; try (f_equal; lia).
    all: try (replace (S de - S (sb + n)) with (de - (sb + n)) by lia; reflexivity).
Qed.
Lemma mb_self n : forall sb a, sb + n <= length a -> exists r, move_backward a sb (sb + n) (sb + n) = Some (r, sb) /\ length r = length a /\ forall i, nth r i = if Nat.leb sb i && Nat.ltb i (sb + n) then option_map self (nth a i) else nth a i.
Proof.
  induction n as [|n IH]; intros sb a B.
  - exists a. rewrite Nat.add_0_r. split; [destruct sb; cbn [ArrModel.move_backward]; rewrite Nat.eqb_refl; reflexivity|]. split; [reflexivity|]. intros i. cases; reflexivity.
  - rewrite Nat.add_succ_r in *. destruct (am_self a (sb + n)) as (a1 & E1 & L1 & N1); try lia. destruct (IH sb a1) as (r & E & L & N); try lia.
    exists r. cbn [ArrModel.move_backward]. destruct (Nat.eqb_spec sb (S (sb + n))); [lia|]. rewrite E1. cbn [bind]. rewrite E. split; [reflexivity|]. split; [lia|]. intros i. rewrite N, !N1. cases; subst; reflexivity.
Qed.
Lemma ml_ok k : forall n sb db a, db < sb -> sb + n <= length a -> n <= k -> exists r, move_loop k a sb (sb + n) db = Some (r, db + n) /\ length r = length a /\
  forall i, nth r i = if Nat.leb db i && Nat.ltb i (db + n) then nth a (i + (sb - db)) else if Nat.leb sb i && Nat.ltb i (sb + n) then option_map after (nth a i) else nth a i.
Proof.
  induction k as [|k IH]; intros n sb db a H B K.
  - assert (n = 0) by lia. subst n. exists a. rewrite !Nat.add_0_r. cbn [ArrModel.move_loop fill_loop]. rewrite Nat.eqb_refl. split; [reflexivity|]. split; [reflexivity|]. intros i. cases; reflexivity.
  - destruct n as [|n]. { exists a. rewrite !Nat.add_0_r. cbn [ArrModel.move_loop]. rewrite Nat.eqb_refl. split; [reflexivity|]. split; [reflexivity|]. intros i. cases; reflexivity. }
    destruct (am_ok a db sb) as (a1 & E1 & L1 & N1); try lia. destruct (IH n (S sb) (S db) a1) as (r & E & L & N); try lia.
    exists r. cbn [ArrModel.move_loop]. destruct (Nat.eqb_spec sb (sb + S n)); [lia|]. rewrite E1. cbn [bind]. replace (sb + S n) with (S sb + n) by lia. rewrite E. split; [f_equal; f_equal; lia|]. split; [lia|]. intros i. rewrite N, !N1.
    replace (S sb - S db) with (sb - db) by lia. cases; subst; try reflexivity; try (f_equal; lia).
Qed.
Lemma ml_self k : forall n sb a, sb + n <= length a -> n <= k -> exists r, move_loop k a sb (sb + n) sb = Some (r, sb + n) /\ length r = length a /\ forall i, nth r i = if Nat.leb sb i && Nat.ltb i (sb + n) then option_map self (nth a i) else nth a i.
Proof.
  induction k as [|k IH]; intros n sb a B K.
  - assert (n = 0) by lia. subst n. exists a. rewrite !Nat.add_0_r. cbn [ArrModel.move_loop fill_loop]. rewrite Nat.eqb_refl. split; [reflexivity|]. split; [reflexivity|]. intros i. cases; reflexivity.
  - destruct n as [|n]. { exists a. rewrite !Nat.add_0_r. cbn [ArrModel.move_loop]. rewrite Nat.eqb_refl. split; [reflexivity|]. split; [reflexivity|]. intros i. cases; reflexivity. }
    destruct (am_self a sb) as (a1 & E1 & L1 & N1); try lia. destruct (IH n (S sb) a1) as (r & E & L & N); try lia.
    exists r. cbn [ArrModel.move_loop]. destruct (Nat.eqb_spec sb (sb + S n)); [lia|]. rewrite E1. cbn [bind]. replace (sb + S n) with (S sb + n) by lia. rewrite E. split; [reflexivity|]. split; [lia|]. intros i. rewrite N, !N1. cases; subst; reflexivity.
Qed.
Lemma fl_ok k v : forall n first a, first + n <= length a -> n <= k -> exists r, fill_loop T k a first (first + n) (inl v) = Some r /\ length r = length a /\ forall i, nth r i = if Nat.leb first i && Nat.ltb i (first + n) then Some v else nth a i.
Proof.
  induction k as [|k IH]; intros n sb a B K.
  - assert (n = 0) by lia. subst n. exists a. rewrite !Nat.add_0_r. cbn [ArrModel.move_loop fill_loop]. rewrite Nat.eqb_refl. split; [reflexivity|]. split; [reflexivity|]. intros i. cases; reflexivity.
  - destruct n as [|n]. { exists a. rewrite !Nat.add_0_r. cbn [fill_loop]. rewrite Nat.eqb_refl. split; [reflexivity|]. split; [reflexivity|]. intros i. cases; reflexivity. }
    destruct (IH n (S sb) (upd T a sb v)) as (r & E & L & N); try lia; [rewrite upd_length; lia|]. rewrite upd_length in L.
    exists r. cbn [fill_loop rd bind]. destruct (Nat.eqb_spec sb (sb + S n)); [lia|]. rewrite put_ok by lia. cbn [bind]. replace (sb + S n) with (S sb + n) by lia. rewrite E. split; [reflexivity|]. split; [lia|]. intros i. rewrite N, !upd_nth. cases; subst; reflexivity.
Qed.
Lemma cs_ok src : forall a o, o <= length a -> exists r, copy_s T src a o = Some (r, Nat.min (o + length src) (length a)) /\ length r = length a /\ forall i, nth r i = if Nat.leb o i && Nat.ltb i (o + length src) && Nat.ltb i (length a) then nth src (i - o) else nth a i.
Proof.
  induction src as [|x src IH]; intros a o H; cbn [copy_s].
  - exists a. cbn [length]. rewrite Nat.add_0_r, Nat.min_l by lia. split; [reflexivity|]. split; [reflexivity|]. intros i. cases; reflexivity.
  - destruct (Nat.eqb_spec o (length a)) as [E|E].
    + exists a. cbn [length]. rewrite Nat.min_r by lia. split; [now subst|]. split; [reflexivity|]. intros i. cases; reflexivity.
    + rewrite put_ok by lia. cbn [bind]. destruct (IH (upd T a o x) (S o)) as (r & E1 & L & N); [rewrite upd_length; lia|]. rewrite upd_length in *. exists r. rewrite E1. split; [replace (o + length (x :: src)) with (S o + length src) by (cbn [length]; lia); reflexivity|]. split; [exact L|].
      intros i. rewrite N, upd_nth. cbn [length]. cases; subst; try reflexivity.
      * rewrite Nat.sub_diag. reflexivity.
      * replace (i - o) with (S (i - S o)) by lia. reflexivity.
Qed.
Lemma ext (a b : list T) : (forall i, nth a i = nth b i) -> a = b.
Proof. revert b. induction a as [|x a IH]; intros [|y b] H; [reflexivity|discriminate (H 0)|discriminate (H 0)|]. pose proof (H 0) as H0. cbn in H0. injection H0 as ->. f_equal. apply IH. intros i. exact (H (S i)). Qed.
Lemma nth_app (a b : list T) i : nth (a ++ b) i = if Nat.ltb i (length a) then nth a i else nth b (i - length a).
Proof. cases; [apply nth_error_app1; lia|apply nth_error_app2; lia]. Qed.
Lemma nth_firstn n (a : list T) i : nth (firstn n a) i = if Nat.ltb i n then nth a i else None.
Proof. revert n i. induction a as [|x a IH]; intros [|n] [|i]; cbn [firstn nth_error]; try reflexivity; [destruct (Nat.ltb _ _); reflexivity|]. rewrite IH. replace (Nat.ltb (S i) (S n)) with (Nat.ltb i n); [reflexivity|]. cases; reflexivity. Qed.
Lemma nth_skipn n (a : list T) i : nth (skipn n a) i = nth a (n + i).
Proof. revert a. induction n as [|n IH]; intros a; [reflexivity|]. destruct a; cbn; [destruct i; reflexivity|apply IH]. Qed.
Lemma nth_repeat (v : T) n i : nth (repeat v n) i = if Nat.ltb i n then Some v else None.
Proof. revert i. induction n as [|n IH]; intros [|i]; cbn [repeat nth_error]; try reflexivity. rewrite IH. replace (Nat.ltb (S i) (S n)) with (Nat.ltb i n); [reflexivity|]. cases; reflexivity. Qed.
Lemma nth_none (a : list T) i : length a <= i -> nth a i = None.
Proof. apply nth_error_None. Qed.
Lemma nth_one (v : T) i : nth [v] i = if Nat.eqb i 0 then Some v else None.
Proof. destruct i as [|[|i]]; reflexivity. Qed.
Lemma nth_map (f : T -> T) (a : list T) i : nth (map f a) i = option_map f (nth a i).
Proof. apply nth_error_map. Qed.
End P.
