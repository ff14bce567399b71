(** * Proofs about the deque model: the ring of live objects and its logical view *)
From Coq Require Import List Arith Lia Bool String.
From Verif Require Import VecModel.
From Verif Require Import Util Slots Cmd DequeSpec DequeModel.
Import ListNotations.

Ltac cmp := repeat match goal with
  | |- context [?a =? ?b] => destruct (Nat.eqb_spec a b)
  | |- context [?a <? ?b] => destruct (Nat.ltb_spec a b)
  | |- context [?a <=? ?b] => destruct (Nat.leb_spec a b)
  end.

(** ** pointwise facts about lists *)
Section Lists.
  Context {T : Type}.
  Implicit Types (l xs : list T).
  Variables (mv smv : T -> T).

  Lemma nth_error_nil t : nth_error (@nil T) t = None. Proof. now destruct t. Qed.
  Lemma ext_lt l l' : List.length l = List.length l' ->
    (forall t, t < List.length l -> nth_error l t = nth_error l' t) -> l = l'.
  Proof.
    intros HL H. apply nth_error_ext. intros i. destruct (Nat.lt_ge_cases i (List.length l)) as [Hi|Hi]; [auto|].
    rewrite (proj2 (nth_error_None l i)) by lia. symmetry. apply nth_error_None. lia.
  Qed.
  Lemma nth_firstn_if l n t : nth_error (firstn n l) t = if t <? n then nth_error l t else None.
  Proof.
    revert l t. induction n; intros l t; destruct l, t; cbn [firstn nth_error]; try reflexivity.
    - cmp; [reflexivity|reflexivity].
    - now rewrite IHn.
  Qed.
  Lemma nth_skipn_add l n t : nth_error (skipn n l) t = nth_error l (n + t).
  Proof. revert l. induction n; intros l; destruct l; cbn; auto. now destruct t. Qed.
  Lemma nth_app_if l l' t : nth_error (l ++ l') t = if t <? List.length l then nth_error l t else nth_error l' (t - List.length l).
  Proof. cmp; [now apply nth_error_app1|now apply nth_error_app2]. Qed.
  Lemma nth_cons_if x l t : nth_error (x :: l) t = if t =? 0 then Some x else nth_error l (t - 1).
  Proof. destruct t; cbn; [reflexivity|]. now rewrite Nat.sub_0_r. Qed.
  Lemma nth_ins l p xs t : p <= List.length l ->
    nth_error (ins l p xs) t = if t <? p then nth_error l t
      else if t <? p + List.length xs then nth_error xs (t - p) else nth_error l (t - List.length xs).
  Proof.
    intros H. unfold ins. rewrite !nth_app_if, nth_firstn_if, nth_skipn_add, firstn_length.
    replace (Nat.min p (List.length l)) with p by lia.
    cmp; try lia; try reflexivity; f_equal; lia.
  Qed.
  Lemma ins_length l p xs : List.length (ins l p xs) = List.length l + List.length xs.
  Proof. unfold ins. rewrite !app_length, firstn_length, skipn_length. lia. Qed.
  Lemma nth_del l p q t : p <= List.length l -> p <= q ->
    nth_error (del l p q) t = if t <? p then nth_error l t else nth_error l (t + (q - p)).
  Proof.
    intros H Hq. unfold del. rewrite !nth_app_if, nth_firstn_if, nth_skipn_add, firstn_length.
    replace (Nat.min p (List.length l)) with p by lia.
    cmp; try lia; try reflexivity; f_equal; lia.
  Qed.
  Lemma del_length l p q : p <= q <= List.length l -> List.length (del l p q) = List.length l - (q - p).
  Proof. intros. unfold del. rewrite !app_length, firstn_length, skipn_length. lia. Qed.
  Lemma nth_upd_if l i x t : i < List.length l -> nth_error (upd l i x) t = if t =? i then Some x else nth_error l t.
  Proof. intros. cmp; subst; [now apply upd_same|]. now apply upd_other; auto. Qed.

  (** the effect on the sequence of *i = move( *j) *)
  Definition lmasg l (i j : nat) : list T :=
    match nth_error l j with
    | None => l
    | Some x => if i =? j then upd l j (smv x) else upd (upd l i x) j (mv x)
    end.
  Fixpoint lmove (k : nat) l (i j : nat) : list T :=
    match k with 0 => l | S k => lmove k (lmasg l j i) (S i) (S j) end.
  Fixpoint lmove_back (k : nat) l (ie je : nat) : list T :=
    match k with 0 => l | S k => lmove_back k (lmasg l (je - 1) (ie - 1)) (ie - 1) (je - 1) end.
  Lemma lmasg_len l i j : List.length (lmasg l i j) = List.length l.
  Proof. unfold lmasg. destruct (nth_error l j); [|reflexivity]. cmp; now rewrite ?upd_length. Qed.
  Lemma lmove_len k : forall l i j, List.length (lmove k l i j) = List.length l.
  Proof. induction k; intros; cbn [lmove]; [reflexivity|]. now rewrite IHk, lmasg_len. Qed.
  Lemma lmove_back_len k : forall l i j, List.length (lmove_back k l i j) = List.length l.
  Proof. induction k; intros; cbn [lmove_back]; [reflexivity|]. now rewrite IHk, lmasg_len. Qed.
  Lemma lmasg_out l i j t : t <> i -> t <> j -> nth_error (lmasg l i j) t = nth_error l t.
  Proof. intros. unfold lmasg. destruct (nth_error l j); [|reflexivity]. cmp; now rewrite ?upd_other by auto. Qed.
  Lemma lmasg_at l i j : i < List.length l -> j < List.length l -> i <> j -> nth_error (lmasg l i j) i = nth_error l j.
  Proof.
    intros. unfold lmasg. destruct (nth_error l j) eqn:E.
    - cmp; [contradiction|]. rewrite upd_other by auto. now apply upd_same.
    - apply nth_error_None in E. lia.
  Qed.
  Lemma lmove_out k : forall l i j t, ~ (i <= t < i + k) -> ~ (j <= t < j + k) ->
    nth_error (lmove k l i j) t = nth_error l t.
  Proof.
    induction k; intros l i j t Hi Hj; cbn [lmove]; [reflexivity|].
    rewrite IHk by lia. apply lmasg_out; lia.
  Qed.
  Lemma lmove_at k : forall l i j t, j < i -> i + k <= List.length l -> j <= t < j + k ->
    nth_error (lmove k l i j) t = nth_error l (t + (i - j)).
  Proof.
    induction k; intros l i j t Hji HL Ht; cbn [lmove]; [lia|].
    destruct (Nat.eq_dec t j) as [->|N].
    - rewrite lmove_out by lia. rewrite lmasg_at by lia. f_equal; lia.
    - rewrite IHk by (rewrite ?lmasg_len; lia). rewrite lmasg_out by lia. f_equal; lia.
  Qed.
  Lemma lmove_back_out k : forall l i j t, k <= i -> k <= j -> ~ (i - k <= t < i) -> ~ (j - k <= t < j) ->
    nth_error (lmove_back k l i j) t = nth_error l t.
  Proof.
    induction k; intros l i j t Hk1 Hk2 Hi Hj; cbn [lmove_back]; [reflexivity|].
    rewrite IHk by lia. apply lmasg_out; lia.
  Qed.
  Lemma lmove_back_at k : forall l i j t, i < j -> k <= i -> j <= List.length l -> j - k <= t < j ->
    nth_error (lmove_back k l i j) t = nth_error l (t - (j - i)).
  Proof.
    induction k; intros l i j t Hij Hk HL Ht; cbn [lmove_back]; [lia|].
    destruct (Nat.eq_dec t (j - 1)) as [->|N].
    - rewrite lmove_back_out by lia. rewrite lmasg_at by lia. f_equal; lia.
    - rewrite IHk by (rewrite ?lmasg_len; lia). rewrite lmasg_out by lia. f_equal; lia.
  Qed.
  (** for types with harmless self move, moving a range onto itself does nothing *)
  Lemma upd_id l i x : nth_error l i = Some x -> upd l i x = l.
  Proof. revert i. induction l; intros [] H; cbn in *; try congruence. f_equal. auto. Qed.
  Lemma lmove_self k : (forall x, smv x = x) -> forall l i, lmove k l i i = l.
  Proof.
    intros Q. induction k; intros l i; cbn [lmove]; [reflexivity|]. rewrite IHk.
    unfold lmasg. destruct (nth_error l i) eqn:E; [|reflexivity]. rewrite Nat.eqb_refl, Q. now apply upd_id.
  Qed.
  Lemma lmove_back_self k : (forall x, smv x = x) -> forall l i, lmove_back k l i i = l.
  Proof.
    intros Q. induction k; intros l i; cbn [lmove_back]; [reflexivity|]. rewrite IHk.
    unfold lmasg. destruct (nth_error l (i - 1)) eqn:E; [|reflexivity]. rewrite Nat.eqb_refl, Q. now apply upd_id.
  Qed.

  (** writing a range *)
  Fixpoint lcopy xs l (i : nat) : list T :=
    match xs with [] => l | x :: r => lcopy r (upd l i x) (S i) end.
  Lemma lcopy_len xs : forall l i, List.length (lcopy xs l i) = List.length l.
  Proof. induction xs; intros; cbn [lcopy]; [reflexivity|]. now rewrite IHxs, upd_length. Qed.
  Lemma nth_lcopy xs : forall l i t, i + List.length xs <= List.length l ->
    nth_error (lcopy xs l i) t = if (i <=? t) && (t <? i + List.length xs) then nth_error xs (t - i) else nth_error l t.
  Proof.
    induction xs as [|x xs IH]; intros l i t H; cbn [lcopy List.length] in *.
    - cmp; try lia; reflexivity.
    - rewrite IH by (rewrite upd_length; lia). rewrite nth_cons_if, nth_upd_if by lia.
      cmp; cbn [andb]; try lia; try reflexivity. f_equal; lia.
  Qed.
End Lists.

Section P.
  Context {T : Type}.
  Variables (triv chk : bool) (mv smv : T -> T) (SZ R : nat).
  Implicit Types (d : dq T) (l xs : list T).
  Notation ring := (ring triv R).
  Notation ix o k := ((o + k) mod R).

  (** [dr d o l]: the deque [d], whose first element is in slot [o], holds [l] *)
  Record dr d o l : Prop := {
    d_ring : ring (db d) o l;
    d_bg : bg d = o;
    d_en : en d = ix o (List.length l);
    d_sz : sz d = List.length l;
    d_lt : List.length l < R }.
  Hint Resolve d_ring d_bg d_en d_sz d_lt : core.
  Lemma dr_o d o l : dr d o l -> o < R. Proof. intros H. apply (r_o _ _ _ _ _ (d_ring _ _ _ H)). Qed.
  Lemma dr_len d o l : dr d o l -> List.length (db d) = R. Proof. intros H. apply (r_len _ _ _ _ _ (d_ring _ _ _ H)). Qed.

  (** *** iterator arithmetic *)
  Lemma inc_mod i : i < R -> inc R i = (i + 1) mod R.
  Proof.
    intros. unfold inc. destruct (Nat.eqb_spec i (R - 1)).
    - subst. replace (R - 1 + 1) with R by lia. now rewrite Nat.mod_same by lia.
    - rewrite Nat.mod_small; lia.
  Qed.
  Lemma inc_ix o k : o < R -> inc R (ix o k) = ix o (S k).
  Proof.
    intros. rewrite inc_mod by (apply mod_lt; lia). rewrite Nat.add_mod_idemp_l by lia. f_equal; lia.
  Qed.
  Lemma plus_mod i n : i < R -> n <= R -> plus R i n = (i + n) mod R.
  Proof.
    intros. unfold plus. destruct (Nat.eqb_spec n 0).
    - subst. rewrite Nat.add_0_r. now rewrite Nat.mod_small.
    - destruct (Nat.ltb_spec (R - 1) (i + n)).
      + replace (i + n) with (i + n - R + 1 * R) at 2 by lia. rewrite Nat.mod_add by lia. rewrite Nat.mod_small; lia.
      + rewrite Nat.mod_small; lia.
  Qed.
  Lemma plus_ix o k n : o < R -> n <= R -> plus R (ix o k) n = ix o (k + n).
  Proof.
    intros. rewrite plus_mod by (auto; apply mod_lt; lia). rewrite Nat.add_mod_idemp_l by lia. f_equal; lia.
  Qed.
  Lemma minus_mod i n : i < R -> n <= R -> minus R i n = (i + (R - n)) mod R.
  Proof.
    intros. unfold minus. destruct (Nat.eqb_spec n 0).
    - subst. replace (i + (R - 0)) with (i + 1 * R) by lia. rewrite Nat.mod_add by lia. now rewrite Nat.mod_small.
    - destruct (Nat.ltb_spec i n).
      + rewrite Nat.mod_small; lia.
      + replace (i + (R - n)) with (i - n + 1 * R) by lia. rewrite Nat.mod_add by lia. rewrite Nat.mod_small; lia.
  Qed.
  Lemma minus_ix o k n : o < R -> n <= R -> n <= k -> minus R (ix o k) n = ix o (k - n).
  Proof.
    intros. rewrite minus_mod by (auto; apply mod_lt; lia). rewrite Nat.add_mod_idemp_l by lia.
    replace (o + k + (R - n)) with (o + (k - n) + 1 * R) by lia. rewrite Nat.mod_add by lia. reflexivity.
  Qed.
  Lemma dec_minus i : i < R -> dec R i = minus R i 1.
  Proof.
    intros. unfold dec, minus. destruct (Nat.eqb_spec 1 0); [lia|].
    destruct (Nat.eqb_spec i 0), (Nat.ltb_spec i 1); lia.
  Qed.
  Lemma dec_ix o k : o < R -> 0 < k -> dec R (ix o k) = ix o (k - 1).
  Proof. intros. rewrite dec_minus by (apply mod_lt; lia). apply minus_ix; lia. Qed.
  Lemma minus_lt i n : i < R -> n <= R -> minus R i n < R.
  Proof. intros. rewrite minus_mod by auto. apply Nat.mod_upper_bound. lia. Qed.
  (** moving the first slot back by [n] shifts the positions by [n] *)
  Lemma ix_minus o n k : o < R -> n <= R -> ix (minus R o n) (n + k) = ix o k.
  Proof.
    intros. rewrite minus_mod by auto. rewrite Nat.add_mod_idemp_l by lia.
    replace (o + (R - n) + (n + k)) with (o + k + 1 * R) by lia. now rewrite Nat.mod_add by lia.
  Qed.
  Lemma ix_dec o k : o < R -> ix (dec R o) (S k) = ix o k.
  Proof. intros. rewrite dec_minus by auto. apply (ix_minus o 1 k); lia. Qed.
  Lemma dec_lt o : o < R -> dec R o < R.
  Proof. intros. rewrite dec_minus by auto. apply minus_lt; lia. Qed.
  Lemma ix_inc o k : o < R -> ix (inc R o) k = ix o (S k).
  Proof. intros. rewrite inc_mod by auto. rewrite Nat.add_mod_idemp_l by lia. f_equal; lia. Qed.
  Lemma inc_lt o : o < R -> inc R o < R.
  Proof. intros. rewrite inc_mod by auto. apply Nat.mod_upper_bound. lia. Qed.
  Lemma ix0 o : o < R -> ix o 0 = o. Proof. intros. rewrite Nat.add_0_r. now apply Nat.mod_small. Qed.
  Lemma ix_eqb o i j : o < R -> i < R -> j < R -> (ix o i =? ix o j) = (i =? j).
  Proof.
    intros. destruct (Nat.eqb_spec i j) as [->|N]; [apply Nat.eqb_refl|].
    apply Nat.eqb_neq. intros E. apply N. apply (mod_inj R o i j); auto.
  Qed.
  Lemma dist1_ix d o l k : dr d o l -> k < R -> dist1 R d (ix o k) = k.
  Proof.
    intros D Hk. unfold dist1. rewrite (d_bg _ _ _ D). pose proof (dr_o _ _ _ D). rewrite mod_in by auto.
    cmp; lia.
  Qed.
  Lemma dist_ix d o l i j : dr d o l -> i < R -> j < R -> dist R d (ix o i) (ix o j) = j - i.
  Proof. intros D Hi Hj. unfold dist. now rewrite !(dist1_ix _ _ _ _ D) by auto. Qed.

  Lemma dr_get d o l k x : dr d o l -> nth_error l k = Some x -> get (db d) (ix o k) = V x.
  Proof. intros D H. eapply ring_get; eauto. Qed.
  Lemma dr_rd d o l k x : dr d o l -> nth_error l k = Some x -> rd (db d) (Ref (ix o k)) = V x.
  Proof. intros. cbn [rd]. eapply dr_get; eauto. Qed.

  Lemma lift_V {S A} (a : A) (s : S) : lift (V a) s = Ok s a. Proof. reflexivity. Qed.
  Lemma bind_ok {S A B} (m : Cmd S A) (f : A -> Cmd S B) s s' a : m s = Ok s' a -> cbind m f s = f a s'.
  Proof. unfold cbind. now intros ->. Qed.
  Ltac st := unfold state; rewrite ?(bind_ok state _ _ _ _ eq_refl).

  (** *** creation and destruction *)
  Lemma create_front_ok d o l a x : dr d o l -> rd (db d) a = V x -> S (List.length l) < R ->
    exists d', create_front triv R a d = Ok d' tt /\ dr d' (dec R o) (x :: l).
  Proof.
    intros D Ea HL. pose proof (dr_o _ _ _ D) as Ho.
    destruct (ring_push_front triv R _ _ _ x (d_ring _ _ _ D) ltac:(lia)) as (b' & Ec & Hr).
    change (if o =? 0 then R - 1 else o - 1) with (dec R o) in *.
    unfold create_front, cbind, state, lift, set. rewrite Ea, (d_bg _ _ _ D), Ec.
    eexists. split; [reflexivity|]. constructor; cbn [db bg en sz]; eauto.
    - rewrite (d_en _ _ _ D). cbn [List.length]. now rewrite ix_dec.
    - rewrite (d_sz _ _ _ D). cbn [List.length]. lia.
  Qed.
  Lemma create_back_ok d o l a x : dr d o l -> rd (db d) a = V x -> S (List.length l) < R ->
    exists d', create_back triv R a d = Ok d' tt /\ dr d' o (l ++ [x]).
  Proof.
    intros D Ea HL. pose proof (dr_o _ _ _ D) as Ho.
    destruct (ring_push triv R _ _ _ x (d_ring _ _ _ D) ltac:(lia)) as (b' & Ec & Hr).
    unfold create_back, cbind, state, lift, set. rewrite Ea, (d_en _ _ _ D), Ec.
    eexists. split; [reflexivity|]. constructor; cbn [db bg en sz]; eauto; rewrite ?app_length; cbn [List.length]; try lia.
    - rewrite inc_ix by auto. f_equal; lia.
    - rewrite (d_sz _ _ _ D). lia.
  Qed.
  Lemma destroy_front_ok d o l x : dr d o (x :: l) ->
    exists d', destroy_front triv R d = Ok d' tt /\ dr d' (inc R o) l.
  Proof.
    intros D. pose proof (dr_o _ _ _ D) as Ho. pose proof (d_lt _ _ _ D) as HL. cbn [List.length] in HL.
    pose proof (ring_pop triv R _ _ _ _ (d_ring _ _ _ D)) as HP.
    unfold destroy_front, cbind, state, lift, set. rewrite (d_bg _ _ _ D), (d_sz _ _ _ D).
    destruct HP as (_ & b' & Ed & Hr). rewrite <- inc_mod in Hr by auto. rewrite Ed. cbn [List.length Nat.eqb].
    eexists. split; [reflexivity|]. constructor; cbn [db bg en sz]; eauto; try lia.
    - rewrite (d_en _ _ _ D). cbn [List.length]. now rewrite ix_inc.
  Qed.
  Lemma destroy_back_ok d o l x : dr d o (l ++ [x]) ->
    exists d', destroy_back triv R d = Ok d' tt /\ dr d' o l.
  Proof.
    intros D. pose proof (dr_o _ _ _ D) as Ho. pose proof (d_lt _ _ _ D) as HL. rewrite app_length in HL. cbn in HL.
    destruct (ring_pop_back triv R _ _ _ _ (d_ring _ _ _ D)) as (_ & b' & Ed & Hr).
    unfold destroy_back, cbind, state, lift, set. rewrite (d_en _ _ _ D), (d_sz _ _ _ D), app_length.
    cbn [List.length]. rewrite dec_ix by lia. replace (List.length l + 1 - 1) with (List.length l) by lia.
    rewrite Ed. destruct (Nat.eqb_spec (List.length l + 1) 0); [lia|].
    eexists. split; [reflexivity|]. constructor; cbn [db bg en sz]; eauto; lia.
  Qed.

  (** *** loops *)
  Lemma rep_create_front n : forall d o l x, dr d o l -> n + List.length l < R ->
    exists d' o', rep n (create_front triv R (Val x)) d = Ok d' tt /\ dr d' o' (repeat x n ++ l)
      /\ forall k, ix o' (n + k) = ix o k.
  Proof.
    induction n; intros d o l x D HL; cbn [rep].
    - exists d, o. conj; auto.
    - destruct (create_front_ok d o l (Val x) x D eq_refl ltac:(lia)) as (d1 & E1 & D1).
      rewrite (bind_ok _ _ _ _ _ E1).
      destruct (IHn d1 _ _ x D1 ltac:(cbn [List.length]; lia)) as (d2 & o2 & E2 & D2 & H2).
      exists d2, o2. conj; auto.
      + replace (repeat x (S n) ++ l) with (repeat x n ++ x :: l); [exact D2|].
        clear. induction n; cbn [repeat app]; [reflexivity|]. now rewrite IHn.
      + intros k. replace (S n + k) with (n + S k) by lia. rewrite H2. apply ix_dec. eapply dr_o; eauto.
  Qed.
  Lemma each_create_back xs : forall d o l, dr d o l -> List.length l + List.length xs < R ->
    exists d', each xs (fun x => create_back triv R (Val x)) d = Ok d' tt /\ dr d' o (l ++ xs).
  Proof.
    induction xs as [|x xs IH]; intros d o l D HL; cbn [each List.length] in *.
    - exists d. rewrite app_nil_r. conj; auto.
    - destruct (create_back_ok d o l (Val x) x D eq_refl ltac:(lia)) as (d1 & E1 & D1).
      rewrite (bind_ok _ _ _ _ _ E1).
      destruct (IH d1 _ _ D1 ltac:(rewrite app_length; cbn [List.length]; lia)) as (d2 & E2 & D2).
      exists d2. rewrite <- app_assoc in D2. conj; auto.
  Qed.
  Lemma rep_each n (x : T) d : rep n (create_back triv R (Val x)) d = each (repeat x n) (fun x => create_back triv R (Val x)) d.
  Proof.
    revert d. induction n; intros d; cbn [rep each repeat]; [reflexivity|].
    unfold cbind. destruct (create_back triv R (Val x) d); auto.
  Qed.
  Lemma rep_create_back n d o l x : dr d o l -> List.length l + n < R ->
    exists d', rep n (create_back triv R (Val x)) d = Ok d' tt /\ dr d' o (l ++ repeat x n).
  Proof. intros. rewrite rep_each. apply each_create_back; auto. rewrite repeat_length. lia. Qed.

  Lemma front_copies_ok n : forall d o l s from, dr d o l -> s + n <= List.length l -> n + List.length l < R ->
    (0 < n -> from = ix o (s + n - 1)) ->
    exists d' o', front_copies triv R n from d = Ok d' tt /\ dr d' o' (firstn n (skipn s l) ++ l)
      /\ forall k, ix o' (n + k) = ix o k.
  Proof.
    induction n; intros d o l s from D Hs HL Hf; cbn [front_copies].
    - exists d, o. conj; auto.
    - rewrite Hf by lia. clear Hf from. pose proof (dr_o _ _ _ D) as Ho.
      destruct (nth_error l (s + S n - 1)) as [y|] eqn:Ey; [|apply nth_error_None in Ey; lia].
      destruct (create_front_ok d o l _ y D (dr_rd _ _ _ _ _ D Ey) ltac:(lia)) as (d1 & E1 & D1).
      rewrite (bind_ok _ _ _ _ _ E1).
      destruct (IHn d1 _ _ (S s) (dec R (ix o (s + S n - 1))) D1) as (d2 & o2 & E2 & D2 & H2).
      + cbn [List.length]; lia. + cbn [List.length]; lia.
      + intros Hn. rewrite dec_ix by lia. rewrite <- ix_dec by auto. f_equal; lia.
      + exists d2, o2. conj; auto.
        * cbn [skipn] in D2. replace (firstn (S n) (skipn s l)) with (firstn n (skipn s l) ++ [y]).
          -- now rewrite <- app_assoc.
          -- symmetry. apply firstn_S_nth. rewrite nth_skipn_add. rewrite <- Ey. f_equal; lia.
        * intros k. replace (S n + k) with (n + S k) by lia. rewrite H2. now apply ix_dec.
  Qed.
  Lemma back_copies_ok n : forall d o l s, dr d o l -> s + n <= List.length l -> n + List.length l < R ->
    exists d', back_copies triv R n (ix o s) d = Ok d' tt /\ dr d' o (l ++ firstn n (skipn s l)).
  Proof.
    induction n; intros d o l s D Hs HL; cbn [back_copies].
    - exists d. cbn [firstn]. rewrite app_nil_r. conj; auto.
    - pose proof (dr_o _ _ _ D) as Ho.
      destruct (nth_error l s) as [y|] eqn:Ey; [|apply nth_error_None in Ey; lia].
      destruct (create_back_ok d o l _ y D (dr_rd _ _ _ _ _ D Ey) ltac:(lia)) as (d1 & E1 & D1).
      rewrite (bind_ok _ _ _ _ _ E1). rewrite inc_ix by auto.
      destruct (IHn d1 _ _ (S s) D1) as (d2 & E2 & D2).
      + rewrite app_length; cbn [List.length]; lia. + rewrite app_length; cbn [List.length]; lia.
      + exists d2. conj; auto.
        rewrite (skipn_nth _ _ _ Ey). cbn [firstn].
        rewrite <- app_assoc in D2. cbn [app] in D2.
        replace (firstn n (skipn (S s) l)) with (firstn n (skipn (S s) (l ++ [y]))); [exact D2|].
        rewrite skipn_app, firstn_app, skipn_length. replace (n - (List.length l - S s)) with 0 by lia.
        cbn [firstn]. now rewrite app_nil_r.
  Qed.
  Lemma rep_destroy_front n : forall d o l, dr d o l -> n <= List.length l ->
    exists d' o', rep n (destroy_front triv R) d = Ok d' tt /\ dr d' o' (skipn n l) /\ forall k, ix o' k = ix o (n + k).
  Proof.
    induction n; intros d o l D HL; cbn [rep].
    - exists d, o. conj; auto.
    - destruct l as [|x l]; cbn [List.length] in HL; [lia|].
      destruct (destroy_front_ok _ _ _ _ D) as (d1 & E1 & D1). rewrite (bind_ok _ _ _ _ _ E1).
      destruct (IHn _ _ _ D1 ltac:(lia)) as (d2 & o2 & E2 & D2 & H2).
      exists d2, o2. conj; auto. intros k. rewrite H2, ix_inc by (eapply dr_o; eauto). f_equal; lia.
  Qed.
  Lemma rep_destroy_back n : forall d o l, dr d o l -> n <= List.length l ->
    exists d', rep n (destroy_back triv R) d = Ok d' tt /\ dr d' o (firstn (List.length l - n) l).
  Proof.
    induction n; intros d o l D HL; cbn [rep].
    - exists d. rewrite Nat.sub_0_r, firstn_all. conj; auto.
    - destruct (exists_last (l := l)) as (l' & x & ->); [destruct l; [cbn in HL; lia|discriminate]|].
      rewrite app_length in HL. cbn [List.length] in HL.
      destruct (destroy_back_ok _ _ _ _ D) as (d1 & E1 & D1). rewrite (bind_ok _ _ _ _ _ E1).
      destruct (IHn _ _ _ D1 ltac:(lia)) as (d2 & E2 & D2).
      exists d2. conj; auto. rewrite app_length. cbn [List.length].
      replace (List.length l' + 1 - S n) with (List.length l' - n) by lia.
      rewrite firstn_app. replace (List.length l' - n - List.length l') with 0 by lia. cbn [firstn]. now rewrite app_nil_r.
  Qed.
  Lemma ring_nil_any (b : buf T) o o' : ring b o [] -> o' < R -> ring b o' [].
  Proof.
    intros [H1 H2 H3 H4 H5] Ho. constructor; auto.
    - intros k x H. now rewrite nth_error_nil in H.
    - intros Ht k Hk. destruct (mod_surj R o ((o' + k) mod R) H2) as (j & Hj & Ej).
      + apply mod_lt. auto.
      + rewrite <- Ej. apply H5; auto. cbn [List.length]. lia.
  Qed.
  Lemma initialise_ok d o l : dr d o l -> exists d', initialise triv R d = Ok d' tt /\ dr d' 0 [].
  Proof.
    intros D. pose proof (dr_o _ _ _ D) as Ho. unfold initialise, cbind, state, set.
    assert (Hr0 : 0 = 0 mod R) by (symmetry; apply Nat.mod_small; lia).
    destruct triv eqn:Et.
    - eexists. split; [reflexivity|]. constructor; cbn [db bg en sz List.length]; auto; try lia.
      destruct (d_ring _ _ _ D). constructor; auto; try (cbn [List.length]; lia); [|congruence].
      intros k x H. now rewrite nth_error_nil in H.
    - destruct (rep_destroy_back (sz d) d o l D) as (d1 & E1 & D1).
      + rewrite (d_sz _ _ _ D). lia.
      + rewrite <- Et in *. rewrite E1. rewrite (d_sz _ _ _ D), Nat.sub_diag in D1. cbn [firstn] in D1.
        eexists. split; [reflexivity|]. constructor; cbn [db bg en sz List.length]; auto; try lia.
        * eapply ring_nil_any; [exact (d_ring _ _ _ D1)|lia].
        * exact (d_sz _ _ _ D1).
  Qed.

  (** *** moves, assignments *)
  Lemma masg_ok (b : buf T) o l i j : ring b o l -> i < List.length l -> j < List.length l -> List.length l <= R ->
    exists b', masg mv smv b (ix o i) (ix o j) = V b' /\ ring b' o (lmasg mv smv l i j).
  Proof.
    intros Hr Hi Hj HL. unfold masg, lmasg. pose proof (r_o _ _ _ _ _ Hr) as Ho.
    destruct (nth_error l j) as [x|] eqn:Ex; [|apply nth_error_None in Ex; lia].
    rewrite (ring_get _ _ _ _ _ _ _ Hr Ex). cbn [bind]. rewrite ix_eqb by lia.
    destruct (Nat.eqb_spec i j) as [->|N].
    - apply ring_put; auto.
    - destruct (ring_put triv R b o l i x Hr Hi) as (b1 & E1 & H1). rewrite E1. cbn [bind].
      apply ring_put; auto. now rewrite upd_length.
  Qed.
  Lemma move_loop_ok k : forall fuel b o l i j, ring b o l -> List.length l < R -> i + k <= List.length l -> j + k <= List.length l -> k <= fuel ->
    exists b', move_loop mv smv R fuel b (ix o i) (ix o (i + k)) (ix o j) = V b' /\ ring b' o (lmove mv smv k l i j).
  Proof.
    induction k; intros fuel b o l i j Hr HL Hi Hj Hf; pose proof (r_o _ _ _ _ _ Hr) as Ho.
    - exists b. rewrite Nat.add_0_r. split; [|exact Hr]. destruct fuel; cbn [move_loop]; now rewrite Nat.eqb_refl.
    - destruct fuel as [|fuel]; [lia|]. cbn [move_loop lmove]. rewrite ix_eqb by lia.
      destruct (Nat.eqb_spec i (i + S k)); [lia|].
      destruct (masg_ok b o l j i Hr ltac:(lia) ltac:(lia) ltac:(lia)) as (b1 & E1 & H1). rewrite E1. cbn [bind].
      rewrite !inc_ix by auto. replace (i + S k) with (S i + k) by lia.
      apply IHk; auto; rewrite ?lmasg_len; lia.
  Qed.
  Lemma move_back_loop_ok k : forall fuel b o l ie je, ring b o l -> List.length l < R -> k <= ie -> k <= je -> ie <= List.length l -> je <= List.length l -> k <= fuel ->
    exists b', move_back_loop mv smv R fuel b (ix o (ie - k)) (ix o ie) (ix o je) = V b' /\ ring b' o (lmove_back mv smv k l ie je).
  Proof.
    induction k; intros fuel b o l i j Hr HL Hi Hj Hi' Hj' Hf; pose proof (r_o _ _ _ _ _ Hr) as Ho.
    - exists b. rewrite Nat.sub_0_r. split; [|exact Hr]. destruct fuel; cbn [move_back_loop]; now rewrite Nat.eqb_refl.
    - destruct fuel as [|fuel]; [lia|]. cbn [move_back_loop lmove_back]. rewrite ix_eqb by lia.
      destruct (Nat.eqb_spec (i - S k) i); [lia|]. rewrite !dec_ix by lia.
      destruct (masg_ok b o l (j - 1) (i - 1) Hr ltac:(lia) ltac:(lia) ltac:(lia)) as (b1 & E1 & H1). rewrite E1. cbn [bind].
      replace (i - S k) with (i - 1 - k) by lia.
      apply IHk; auto; rewrite ?lmasg_len; lia.
  Qed.
  Lemma dr_buf d o l b l' : dr d o l -> ring b o l' -> List.length l' = List.length l -> dr (mkdq b (bg d) (en d) (sz d)) o l'.
  Proof. intros [H1 H2 H3 H4 H5] Hr HL. constructor; cbn [db bg en sz]; rewrite ?HL; auto. Qed.
  Lemma moves_ok d o l i k j : dr d o l -> i + k <= List.length l -> j + k <= List.length l ->
    exists d', moves mv smv R (ix o i) (ix o (i + k)) (ix o j) d = Ok d' tt /\ dr d' o (lmove mv smv k l i j).
  Proof.
    intros D Hi Hj. pose proof (d_lt _ _ _ D).
    destruct (move_loop_ok k R (db d) o l i j (d_ring _ _ _ D) ltac:(lia) Hi Hj ltac:(lia)) as (b & E & Hb).
    unfold moves, cbind, state, lift, set. rewrite E. eexists. split; [reflexivity|].
    eapply dr_buf; eauto. apply lmove_len.
  Qed.
  Lemma moves_back_ok d o l s k je : dr d o l -> s + k <= List.length l -> k <= je -> je <= List.length l ->
    exists d', moves_back mv smv R (ix o s) (ix o (s + k)) (ix o je) d = Ok d' tt /\ dr d' o (lmove_back mv smv k l (s + k) je).
  Proof.
    intros D Hi Hj Hj'. pose proof (d_lt _ _ _ D).
    destruct (move_back_loop_ok k R (db d) o l (s + k) je (d_ring _ _ _ D) ltac:(lia) ltac:(lia) Hj Hi Hj' ltac:(lia)) as (b & E & Hb).
    replace (s + k - k) with s in E by lia.
    unfold moves_back, cbind, state, lift, set. rewrite E. eexists. split; [reflexivity|].
    eapply dr_buf; eauto. apply lmove_back_len.
  Qed.
  Lemma assign_at_ok d o l k a x : dr d o l -> k < List.length l -> rd (db d) a = V x ->
    exists d', assign_at (ix o k) a d = Ok d' tt /\ dr d' o (upd l k x).
  Proof.
    intros D Hk Ea. destruct (ring_put triv R (db d) o l k x (d_ring _ _ _ D) Hk) as (b & E & Hb).
    unfold assign_at, cbind, state, lift, set. rewrite Ea, E. eexists. split; [reflexivity|].
    eapply dr_buf; eauto. apply upd_length.
  Qed.
  Lemma renew_ok d o l k x : dr d o l -> k < List.length l ->
    exists d', renew triv (ix o k) x d = Ok d' tt /\ dr d' o (upd l k x).
  Proof.
    intros D Hk. destruct (ring_put triv R (db d) o l k x (d_ring _ _ _ D) Hk) as (b & E & Hb).
    destruct (nth_error l k) as [y|] eqn:Ey; [|apply nth_error_None in Ey; lia].
    pose proof (r_live _ _ _ _ _ (d_ring _ _ _ D) _ _ Ey) as En.
    assert (Hl : ix o k < List.length (db d)) by (eapply nth_error_lt; eauto).
    exists (mkdq b (bg d) (en d) (sz d)). split; [|eapply dr_buf; eauto; apply upd_length].
    unfold put in E. rewrite En in E. injection E as <-.
    unfold renew, cbind, state, lift, set, destroy, construct. rewrite En. destruct triv.
    - now rewrite En.
    - rewrite upd_same by auto.
      replace (upd (upd (db d) (ix o k) None) (ix o k) (Some x)) with (upd (db d) (ix o k) (Some x)); [reflexivity|].
      apply nth_error_ext. intros t. destruct (Nat.eq_dec t (ix o k)) as [->|Nt].
      + rewrite !upd_same; auto. now rewrite upd_length.
      + now rewrite !upd_other by auto.
  Qed.
  Lemma copy_in_ok xs : forall d o l i, dr d o l -> i + List.length xs <= List.length l ->
    exists d', copy_in R xs (ix o i) d = Ok d' tt /\ dr d' o (lcopy xs l i).
  Proof.
    induction xs as [|x xs IH]; intros d o l i D HL; cbn [copy_in lcopy List.length] in *.
    - exists d. conj; auto.
    - destruct (assign_at_ok d o l i (Val x) x D ltac:(lia) eq_refl) as (d1 & E1 & D1). rewrite (bind_ok _ _ _ _ _ E1).
      rewrite inc_ix by (eapply dr_o; eauto). apply IH; auto. rewrite upd_length. lia.
  Qed.
  Lemma fill_copy n (x : T) : forall i d, fill_n R n i (Val x) d = copy_in R (repeat x n) i d.
  Proof. induction n; intros; cbn [fill_n copy_in repeat]; [reflexivity|]. unfold cbind. destruct (assign_at _ _ _); auto. Qed.
  Lemma fill_n_ok n (x : T) d o l i : dr d o l -> i + n <= List.length l ->
    exists d', fill_n R n (ix o i) (Val x) d = Ok d' tt /\ dr d' o (lcopy (repeat x n) l i).
  Proof. intros. rewrite fill_copy. apply copy_in_ok; auto. now rewrite repeat_length. Qed.
  Lemma fill_loop_ok k : forall fuel d o l i x, dr d o l -> i + k = List.length l -> k <= fuel ->
    exists d', fill_loop R fuel (ix o i) (ix o (i + k)) (Val x) d = Ok d' tt /\ dr d' o (lcopy (repeat x k) l i).
  Proof.
    induction k; intros fuel d o l i x D HL Hf; pose proof (dr_o _ _ _ D) as Ho; pose proof (d_lt _ _ _ D).
    - exists d. rewrite Nat.add_0_r. split; [|exact D]. destruct fuel; cbn [fill_loop]; now rewrite Nat.eqb_refl.
    - destruct fuel as [|fuel]; [lia|]. cbn [fill_loop repeat lcopy]. rewrite ix_eqb by lia.
      destruct (Nat.eqb_spec i (i + S k)); [lia|].
      destruct (assign_at_ok d o l i (Val x) x D ltac:(lia) eq_refl) as (d1 & E1 & D1). rewrite (bind_ok _ _ _ _ _ E1).
      rewrite inc_ix by auto. replace (i + S k) with (S i + k) by lia. apply IHk; auto; rewrite ?upd_length; lia.
  Qed.

  (** *** create_element_front(n, from) *)
  Lemma create_at_ok (xs : list (arg T)) : forall (vs : list T) (d : dq T) o j,
    o < R -> List.length (db d) = R -> List.length xs = List.length vs -> j + List.length vs <= R ->
    (forall k, j <= k < j + List.length vs -> triv = true \/ nth_error (db d) (ix o k) = Some None) ->
    (forall k a v, nth_error xs k = Some a -> nth_error vs k = Some v ->
       a = Val v \/ exists p, a = Ref (ix o p) /\ j + List.length vs <= p < R /\ nth_error (db d) (ix o p) = Some (Some v)) ->
    exists d', create_at triv R xs (ix o j) d = Ok d' tt /\ List.length (db d') = R
      /\ bg d' = bg d /\ en d' = en d /\ sz d' = sz d + List.length vs
      /\ forall k, k < R -> nth_error (db d') (ix o k) =
           if (j <=? k) && (k <? j + List.length vs) then Some (nth_error vs (k - j)) else nth_error (db d) (ix o k).
  Proof.
    induction xs as [|a xs IH]; intros [|v vs] d o j Ho HB HL HR HF HV; cbn [List.length] in *; try discriminate; cbn [create_at].
    - exists d. conj; auto. intros k Hk. cmp; try lia; reflexivity.
    - assert (Ev : rd (db d) a = V v).
      { destruct (HV 0 a v eq_refl eq_refl) as [->|(p & -> & Hp & Ep)]; [reflexivity|]. cbn [rd]. unfold get. now rewrite Ep. }
      assert (Hj : ix o j < List.length (db d)) by (rewrite HB; apply mod_lt; auto).
      assert (Ec : construct triv (db d) (ix o j) v = V (upd (db d) (ix o j) (Some v))).
      { unfold construct. destruct (HF j ltac:(lia)) as [Et|En].
        - destruct (nth_error (db d) (ix o j)) as [[]|] eqn:E; rewrite ?Et; auto. apply nth_error_None in E. lia.
        - now rewrite En. }
      unfold state, lift, set. unfold cbind at 1. unfold cbind at 1. rewrite Ev. unfold cbind at 1. rewrite Ec. unfold cbind at 1.
      rewrite inc_ix by auto.
      assert (Hne : forall k, k < R -> k <> j -> ix o k <> ix o j).
      { intros k Hk N E. apply N. apply (mod_inj R o k j); auto. lia. }
      destruct (IH vs (mkdq (upd (db d) (ix o j) (Some v)) (bg d) (en d) (sz d + 1)) o (S j)) as (d' & E' & B' & H1 & H2 & H3 & H4);
        cbn [db bg en sz] in *; auto; try (now rewrite upd_length); try lia.
      + intros k Hk. destruct (HF k ltac:(lia)); auto. right. rewrite upd_other; auto. intros E. now apply (Hne k ltac:(lia) ltac:(lia)).
      + intros k a' v' Ea Ev'. destruct (HV (S k) a' v' Ea Ev') as [|(p & -> & Hp & Ep)]; auto.
        right. exists p. conj; auto; try lia. rewrite upd_other; auto. intros E. now apply (Hne p ltac:(lia) ltac:(lia)).
      + exists d'. conj; auto; try lia. intros k Hk. rewrite H4 by auto.
        destruct (Nat.eq_dec k j) as [->|N].
        * rewrite upd_same by auto. rewrite Nat.sub_diag. cbn [nth_error]. cmp; cbn [andb]; try lia; reflexivity.
        * rewrite upd_other by (intros E; now apply (Hne k Hk N)).
          cmp; cbn [andb]; try lia; try reflexivity. f_equal. rewrite nth_cons_if. cmp; [lia|]. f_equal; lia.
  Qed.
  Lemma create_front_n_ok (xs : list (arg T)) (vs : list T) d o l : dr d o l -> List.length xs = List.length vs -> List.length vs + List.length l < R ->
    (forall k a v, nth_error xs k = Some a -> nth_error vs k = Some v ->
       a = Val v \/ exists p, a = Ref (ix o p) /\ nth_error l p = Some v) ->
    exists d' o', create_front_n triv R xs d = Ok d' tt /\ dr d' o' (vs ++ l) /\ forall k, ix o' (List.length vs + k) = ix o k.
  Proof.
    intros D HL HR HV. pose proof (dr_o _ _ _ D) as Ho. unfold create_front_n.
    destruct xs as [|a0 xs0] eqn:Exs.
    - destruct vs; [|discriminate]. exists d, o. conj; auto.
    - rewrite <- Exs in *. assert (Hx : xs <> []) by (rewrite Exs; discriminate). clear Exs a0 xs0.
      set (n := List.length vs) in *. rewrite HL. unfold state, set. unfold cbind at 1. unfold cbind at 1. rewrite (d_bg _ _ _ D).
      set (o' := minus R o n). assert (Ho' : o' < R) by (apply minus_lt; lia).
      assert (Hs : forall k, ix o' (n + k) = ix o k) by (intros k; apply ix_minus; lia).
      replace (create_at triv R xs o') with (create_at triv R xs (ix o' 0)) by now rewrite ix0.
      destruct (d_ring _ _ _ D) as [B1 B2 B3 B4 B5].
      destruct (create_at_ok xs vs (mkdq (db d) o' (en d) (sz d)) o' 0 Ho' B1 HL ltac:(fold n; lia)) as (d' & E & B' & H1 & H2 & H3 & H4); [| |fold n in H3, H4]; cbn [db bg en sz] in *; fold n.
      + intros k Hk. destruct triv; auto. right.
        (* slot o' + k is o + (R - n + k) *)
        replace (ix o' k) with (ix o (R - n + k)).
        * apply B5; auto. lia.
        * rewrite <- Hs. replace (o' + (n + (R - n + k))) with (o' + k + 1 * R) by lia. now rewrite Nat.mod_add by lia.
      + intros k a v Ea Ev. destruct (HV k a v Ea Ev) as [|(p & -> & Ep)]; auto. right.
        exists (n + p). rewrite !Hs. pose proof (nth_error_lt _ _ _ Ep). conj; auto; lia.
      + exists d', o'. conj; auto. constructor; auto.
        * constructor; auto; try (rewrite app_length; fold n; lia).
          -- intros k x Ek. rewrite nth_app_if in Ek. fold n in Ek.
             assert (k < n + List.length l).
             { destruct (Nat.ltb_spec k n); [lia|]. apply nth_error_lt in Ek. lia. }
             rewrite H4 by lia. rewrite Nat.sub_0_r. destruct (Nat.ltb_spec k n).
             ++ cmp; cbn [andb]; try lia. now rewrite Ek.
             ++ cmp; cbn [andb]; try lia. replace k with (n + (k - n)) by lia. rewrite Hs. apply B4.
                exact Ek.
          -- intros Ht k Hk. rewrite app_length in Hk. fold n in Hk. rewrite H4 by lia. cmp; cbn [andb]; try lia.
             replace k with (n + (k - n)) by lia. rewrite Hs. apply B5; auto. lia.
        * rewrite H2, (d_en _ _ _ D), app_length. fold n. now rewrite Hs.
        * rewrite H3, (d_sz _ _ _ D), app_length. fold n. lia.
        * rewrite app_length. fold n. lia.
  Qed.
  Lemma nth_refs n : forall o i k a, o < R -> nth_error (refs R n (ix o i)) k = Some a -> a = @Ref T (ix o (i + k)).
  Proof.
    induction n; intros o i k a Ho H; cbn [refs] in H; [destruct k; discriminate|].
    destruct k; cbn [nth_error] in H.
    - injection H as <-. now rewrite Nat.add_0_r.
    - rewrite inc_ix in H by auto. rewrite (IHn _ _ _ _ Ho H). do 2 f_equal; lia.
  Qed.
  Lemma refs_len n : forall i, List.length (@refs T R n i) = n.
  Proof. induction n; intros; cbn; auto. Qed.
End P.
