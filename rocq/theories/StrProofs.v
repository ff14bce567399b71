(** Support for C11: loops over the buffer and the insertions. *)
From Coq Require Import List Arith Lia Bool.
From Verif Require Import Util StrModel StrSpec.
Import ListNotations.

Section Proofs.
  Variable T : Type.
  Variable z : T.
  Variable is_z : T -> bool.
  Variable MAX : nat.
  Notation str := (str T).
  Notation out := (out T).
  Notation upd := (upd T).

  Ltac sc := cbn [buf set_buf set_sz set_tr set_sec sz cap tr sec].
  Tactic Notation "sc" "in" ident(H) := cbn [buf set_buf set_sz set_tr set_sec sz cap tr sec] in H.
  (** ** loops *)
  Lemma fill_loop_spec n : forall b i v j, fill_loop T b i n v j = if (i <=? j) && (j <? i + n) then v else b j.
  Proof.
    induction n as [|n IH]; intros b i v j; cbn [fill_loop].
    - destruct (Nat.leb_spec i j), (Nat.ltb_spec j (i + 0)); cbn [andb]; auto; lia.
    - rewrite IH. unfold StrModel.upd. destruct (Nat.leb_spec (S i) j), (Nat.ltb_spec j (S i + n)), (Nat.leb_spec i j), (Nat.ltb_spec j (i + S n)), (Nat.eqb_spec j i); cbn [andb]; auto; lia.
  Qed.
  Lemma copy_loop_spec n : forall b i d j, d <= i -> copy_loop T b i n d j = if (d <=? j) && (j <? d + n) then b (i + (j - d)) else b j.
  Proof.
    induction n as [|n IH]; intros b i d j L; cbn [copy_loop].
    - destruct (Nat.leb_spec d j), (Nat.ltb_spec j (d + 0)); cbn [andb]; auto; lia.
    - rewrite IH by lia. unfold StrModel.upd. destruct (Nat.leb_spec (S d) j), (Nat.ltb_spec j (S d + n)), (Nat.leb_spec d j), (Nat.ltb_spec j (d + S n)), (Nat.eqb_spec j d); cbn [andb]; auto; try lia.
      + destruct (Nat.eqb_spec (S i + (j - S d)) d); [lia|]. f_equal. lia.
      + subst. f_equal. lia.
  Qed.
  Lemma copy_back_loop_spec n : forall b last d j, last <= d -> n <= last ->
    copy_back_loop T b last n d j = if (d - n <=? j) && (j <? d) then b (j + last - d) else b j.
  Proof.
    induction n as [|n IH]; intros b last d j L Ln; cbn [copy_back_loop].
    - destruct (Nat.leb_spec (d - 0) j), (Nat.ltb_spec j d); cbn [andb]; auto; lia.
    - rewrite IH by lia. unfold StrModel.upd.
      destruct (Nat.leb_spec (d - 1 - n) j), (Nat.ltb_spec j (d - 1)), (Nat.leb_spec (d - S n) j), (Nat.ltb_spec j d), (Nat.eqb_spec j (d - 1)); cbn [andb]; auto; try lia.
      + destruct (Nat.eqb_spec (j + (last - 1) - (d - 1)) (d - 1)); [lia|]. f_equal. lia.
      + subst. f_equal. lia.
  Qed.
  Lemma put_ok (s : str) i v : i <= cap s -> put T s i v = Done (set_buf T s (upd (buf s) i v)).
  Proof. intros H. unfold put. now rewrite (proj2 (Nat.leb_le _ _) H). Qed.
  Lemma fill_ok (s : str) a b v : a <= b -> b <= S (cap s) -> fill T s a b v = Done (set_buf T s (fill_loop T (buf s) a (b - a) v)).
  Proof. intros H H2. unfold fill. now rewrite (proj2 (Nat.leb_le _ _) H), (proj2 (Nat.leb_le _ _) H2). Qed.
  Lemma copy_ok (s : str) a b d : a <= b -> b <= S (cap s) -> d + (b - a) <= S (cap s) -> copy T s a b d = Done (set_buf T s (copy_loop T (buf s) a (b - a) d)).
  Proof. intros H H2 H3. unfold copy. now rewrite (proj2 (Nat.leb_le _ _) H), (proj2 (Nat.leb_le _ _) H2), (proj2 (Nat.leb_le _ _) H3). Qed.
  Lemma copy_backward_ok (s : str) a b d : a <= b -> b <= S (cap s) -> b - a <= d -> d <= S (cap s) ->
    copy_backward T s a b d = Done (set_buf T s (copy_back_loop T (buf s) b (b - a) d)).
  Proof. intros H H2 H3 H4. unfold copy_backward. now rewrite (proj2 (Nat.leb_le _ _) H), (proj2 (Nat.leb_le _ _) H2), (proj2 (Nat.leb_le _ _) H3), (proj2 (Nat.leb_le _ _) H4). Qed.

  Lemma write_loop_ok (rd : nat -> option T) (f : nat -> T) n : forall k pos (s : str), (forall i, i < k + n -> rd i = Some (f i)) -> pos + n <= S (cap s) ->
    exists b, write_loop T rd k n pos s = Done (set_buf T s b) /\ forall j, b j = if (pos <=? j) && (j <? pos + n) then f (k + (j - pos)) else buf s j.
  Proof.
    induction n as [|n IH]; intros k pos s Hf Hp; cbn [write_loop].
    - exists (buf s). split; [destruct s; reflexivity|]. intros j. destruct (Nat.leb_spec pos j), (Nat.ltb_spec j (pos + 0)); cbn [andb]; auto; lia.
    - rewrite Hf by lia. rewrite put_ok by lia. cbn [bind].
      destruct (IH (S k) (S pos) (set_buf T s (upd (buf s) pos (f k)))) as (b & E & Hb); [intros i Hi; apply Hf; lia|cbn; lia|].
      exists b. split; [rewrite E; reflexivity|]. intros j. rewrite Hb. sc. unfold StrModel.upd.
      destruct (Nat.leb_spec (S pos) j), (Nat.ltb_spec j (S pos + n)), (Nat.leb_spec pos j), (Nat.ltb_spec j (pos + S n)), (Nat.eqb_spec j pos); cbn [andb]; auto; try lia; f_equal; lia.
  Qed.
  Lemma assign_loop_ok (rd : nat -> option T) (f : nat -> T) n : forall k (s : str), (forall i, i < k + n -> rd i = Some (f i)) -> sz s <= cap s ->
    exists b, assign_loop T rd k n s = Done (set_sz T (set_buf T s b) (Nat.min (sz s + n) (cap s)), n - (cap s - sz s)) /\
      forall j, b j = if (sz s <=? j) && (j <? Nat.min (sz s + n) (cap s)) then f (k + (j - sz s)) else buf s j.
  Proof.
    induction n as [|n IH]; intros k s Hf Hp; cbn [assign_loop].
    - exists (buf s). split; [destruct s; unfold set_sz, set_buf; cbn in *; repeat f_equal; lia|]. intros j. destruct (Nat.leb_spec (sz s) j), (Nat.ltb_spec j (Nat.min (sz s + 0) (cap s))); cbn [andb]; auto; lia.
    - destruct (Nat.eqb_spec (sz s) (cap s)) as [E|E].
      + exists (buf s). split; [replace (Nat.min (sz s + S n) (cap s)) with (sz s) by lia; replace (S n - (cap s - sz s)) with (S n) by lia; destruct s; reflexivity|]. intros j. destruct (Nat.leb_spec (sz s) j), (Nat.ltb_spec j (Nat.min (sz s + S n) (cap s))); cbn [andb]; auto; lia.
      + rewrite Hf by lia. rewrite put_ok by lia. cbn [bind].
        destruct (IH (S k) (set_sz T (set_buf T s (upd (buf s) (sz s) (f k))) (S (sz s)))) as (b & E2 & Hb); [intros i Hi; apply Hf; lia|cbn; lia|].
        exists b. split; [etransitivity; [exact E2|]; sc; unfold set_sz, set_buf; sc; f_equal; f_equal; [f_equal|]; lia|]. intros j. rewrite Hb. sc. unfold StrModel.upd.
        destruct (Nat.leb_spec (S (sz s)) j), (Nat.ltb_spec j (Nat.min (S (sz s) + n) (cap s))), (Nat.leb_spec (sz s) j), (Nat.ltb_spec j (Nat.min (sz s + S n) (cap s))), (Nat.eqb_spec j (sz s)); cbn [andb]; auto; try lia; f_equal; lia.
  Qed.

  (** ** texts *)
  Lemma text_len (s : str) : length (text s) = sz s.
  Proof. unfold text. now rewrite map_length, seq_length. Qed.
  Lemma nth_text (s : str) i : i < sz s -> nth i (text s) z = buf s i.
  Proof. intros H. unfold text. rewrite (nth_indep _ z (buf s 0)) by (rewrite map_length, seq_length; lia). rewrite map_nth, seq_nth by lia. reflexivity. Qed.
  Lemma text_eq (s : str) l : length l = sz s -> (forall i, i < sz s -> nth i l z = buf s i) -> text s = l.
  Proof.
    intros Hl Hn. apply (nth_ext _ _ z z); [rewrite text_len; auto|]. intros i Hi. rewrite text_len in Hi. rewrite nth_text by lia. symmetry. auto.
  Qed.
  Lemma nth_firstn' (l : list T) n i : i < n -> nth i (firstn n l) z = nth i l z.
  Proof. revert n i. induction l as [|x l IH]; intros [|n] [|i] H; cbn; auto; try lia. apply IH. lia. Qed.
  Lemma nth_skipn' (l : list T) n i : nth i (skipn n l) z = nth (n + i) l z.
  Proof. revert n. induction l as [|x l IH]; intros [|n]; cbn; auto; destruct i; auto. Qed.
  Lemma nth_rep v n i : i < n -> nth i (repeat v n) z = v.
  Proof. revert i. induction n as [|n IH]; intros [|i] H; cbn; auto; try lia. apply IH. lia. Qed.
  (** the character of a spliced text *)
  Lemma splice_len (t : list T) p n l : p <= length t -> length (splice t p n l) = p + length l + (length t - (p + n)).
  Proof. intros H. unfold splice. rewrite !app_length, firstn_length, skipn_length. lia. Qed.
  Lemma nth_splice (t : list T) p n l i : p <= length t ->
    nth i (splice t p n l) z = if i <? p then nth i t z else if i <? p + length l then nth (i - p) l z else nth (i - length l + n) t z.
  Proof.
    intros H. unfold splice. destruct (Nat.ltb_spec i p).
    - rewrite app_nth1 by (rewrite firstn_length; lia). now rewrite nth_firstn' by lia.
    - rewrite app_nth2 by (rewrite firstn_length; lia). rewrite firstn_length, Nat.min_l by lia. destruct (Nat.ltb_spec i (p + length l)).
      + now rewrite app_nth1 by lia.
      + rewrite app_nth2 by lia. rewrite nth_skipn'. f_equal. lia.
  Qed.

  (** ** an insertion *)
  Definition inserted (s : str) (p n : nat) (f : nat -> T) (s' : str) : Prop :=
    cap s' = cap s /\ sec s' = sec s /\ sz s' = Nat.min (sz s + n) (cap s) /\ tr s' = tr s || (cap s <? sz s + n) /\ buf s' (sz s') = z /\
    (forall j, j < sz s' -> buf s' j = if j <? p then buf s j else if j <? p + n then f (j - p) else buf s (j - n)) /\
    (forall j, sz s' < j -> buf s' j = buf s j).
  Lemma inserted_text (s : str) p n f s' l : inserted s p n f s' -> p <= sz s -> length l = n -> (forall i, i < n -> nth i l z = f i) ->
    text s' = firstn (cap s) (splice (text s) p 0 l) /\ length (splice (text s) p 0 l) = sz s + n.
  Proof.
    intros (E1 & E2 & E3 & E4 & E5 & E6 & E7) Hp Hl Hf.
    assert (Hlen : length (splice (text s) p 0 l) = sz s + n) by (rewrite splice_len; rewrite text_len; lia).
    split; [|exact Hlen]. apply text_eq.
    - rewrite firstn_length. lia.
    - intros i Hi. rewrite nth_firstn' by lia. rewrite nth_splice by (rewrite text_len; lia). rewrite E6 by lia. rewrite Hl.
      destruct (Nat.ltb_spec i p); [apply nth_text; lia|]. destruct (Nat.ltb_spec i (p + n)); [apply Hf; lia|].
      replace (i - n + 0) with (i - n) by lia. apply nth_text. lia.
  Qed.

  Lemma add_small a b : a + b <= MAX -> add MAX a b = a + b.
  Proof. intros H. unfold add. apply Nat.mod_small. lia. Qed.
  Lemma sub_small a b : b <= a -> sub MAX a b = a - b.
  Proof. intros H. unfold sub. now rewrite (proj2 (Nat.leb_le _ _) H). Qed.

  (** goals about the buffer: split all comparisons *)
  Ltac cmp := repeat match goal with
    | |- context [?a <=? ?b] => destruct (Nat.leb_spec a b); cbn [andb]
    | |- context [?a <? ?b] => destruct (Nat.ltb_spec a b); cbn [andb]
    | |- context [?a =? ?b] => destruct (Nat.eqb_spec a b)
    end; try lia; auto; try (f_equal; lia).

  Lemma insert_fill_ok (s : str) p n v : valid z MAX s -> p <= sz s -> sz s + n <= MAX ->
    exists s', insert_fill T z MAX p n v s = Done (s', p) /\ inserted s p n (fun _ => v) s'.
  Proof.
    intros (V1 & V2 & V3) Hp Hn. unfold insert_fill. destruct (Nat.eqb_spec n 0) as [->|Hn0].
    { exists s. split; [reflexivity|]. unfold inserted. conj; auto; try lia.
      - destruct (Nat.ltb_spec (cap s) (sz s + 0)); [lia|]. now rewrite orb_false_r.
      - intros j Hj. cmp. }
    destruct (Nat.leb_spec (cap s) p) as [Hc|Hc].
    { eexists. split; [reflexivity|]. unfold inserted. sc. conj; auto; try lia.
      - destruct (Nat.ltb_spec (cap s) (sz s + n)); [now rewrite orb_true_r|lia].
      - intros j Hj. cmp. }
    rewrite !add_small by lia. destruct (Nat.leb_spec (cap s) (p + n)) as [L|L].
    - set (s1 := if cap s <? sz s + n then set_tr T s true else s). 
      assert (C1 : cap s1 = cap s) by (unfold s1; destruct (_ <? _); reflexivity). assert (C2 : buf s1 = buf s) by (unfold s1; destruct (_ <? _); reflexivity).
      assert (C3 : sec s1 = sec s) by (unfold s1; destruct (_ <? _); reflexivity). assert (C4 : tr s1 = tr s || (cap s <? sz s + n)) by (unfold s1; destruct (_ <? _); cbn; now rewrite ?orb_true_r, ?orb_false_r).
      clearbody s1. cbn [sz set_sz]. rewrite fill_ok by (cbn; lia). cbn [bind]. rewrite put_ok by (cbn; lia). cbn [bind]. eexists. split; [reflexivity|].
      unfold inserted. sc. rewrite C1, C3, C4, C2. conj; auto; try lia.
      + unfold StrModel.upd. now rewrite Nat.eqb_refl.
      + intros j Hj. unfold StrModel.upd. rewrite fill_loop_spec. cmp.
      + intros j Hj. unfold StrModel.upd. rewrite fill_loop_spec. cmp.
    - rewrite !(sub_small (cap s) p) by lia. rewrite !sub_small by lia.
      set (s1 := if cap s <? p + n + (sz s - p) then _ else _).
      assert (C1 : cap s1 = cap s) by (unfold s1; destruct (_ <? _); reflexivity). assert (C2 : buf s1 = buf s) by (unfold s1; destruct (_ <? _); reflexivity).
      assert (C3 : sec s1 = sec s) by (unfold s1; destruct (_ <? _); reflexivity).
      assert (C4 : tr s1 = tr s || (cap s <? sz s + n)) by (unfold s1; destruct (Nat.ltb_spec (cap s) (p + n + (sz s - p))), (Nat.ltb_spec (cap s) (sz s + n)); cbn; rewrite ?orb_true_r, ?orb_false_r; auto; lia).
      assert (C5 : sz s1 = Nat.min (sz s + n) (cap s)) by (unfold s1; destruct (Nat.ltb_spec (cap s) (p + n + (sz s - p))); cbn; lia).
      clearbody s1. set (k := Nat.min (cap s - p - n) (sz s - p)). assert (Hk : k <= sz s - p /\ k <= cap s - p - n /\ (k = sz s - p \/ k = cap s - p - n)) by (unfold k; lia). clearbody k.
      rewrite copy_backward_ok by lia. cbn [bind]. rewrite fill_ok by (cbn; lia). cbn [bind]. rewrite put_ok by (cbn; lia). cbn [bind]. eexists. split; [reflexivity|].
      unfold inserted. sc. rewrite C1, C3, C4, C2, C5. conj; auto; try lia.
      + unfold StrModel.upd. now rewrite Nat.eqb_refl.
      + intros j Hj. unfold StrModel.upd. rewrite fill_loop_spec. rewrite copy_back_loop_spec by lia. cmp.
      + intros j Hj. unfold StrModel.upd. rewrite fill_loop_spec. rewrite copy_back_loop_spec by lia. cmp.
  Qed.

  Lemma insert_range_ok (s : str) p n rd f : valid z MAX s -> p <= sz s -> sz s + n <= MAX -> (forall i, i < n -> rd i = Some (f i)) ->
    exists s', insert_range T z MAX p rd n s = Done (s', Nat.min (p + n) (Nat.max p (cap s))) /\ inserted s p n f s'.
  Proof.
    intros (V1 & V2 & V3) Hp Hn Hf. unfold insert_range. destruct (Nat.eqb_spec n 0) as [->|Hn0].
    { exists s. split; [repeat f_equal; lia|]. unfold inserted. conj; auto; try lia.
      - destruct (Nat.ltb_spec (cap s) (sz s + 0)); [lia|]. now rewrite orb_false_r.
      - intros j Hj. cmp. }
    destruct (Nat.leb_spec (cap s) p) as [Hc|Hc].
    { eexists. split; [repeat f_equal; lia|]. unfold inserted. sc. conj; auto; try lia.
      - destruct (Nat.ltb_spec (cap s) (sz s + n)); [now rewrite orb_true_r|lia].
      - intros j Hj. cmp. }
    rewrite !add_small by lia. destruct (Nat.leb_spec (cap s) (p + n)) as [L|L].
    - set (s1 := if cap s <? sz s + n then set_tr T s true else s). 
      assert (C1 : cap s1 = cap s) by (unfold s1; destruct (_ <? _); reflexivity). assert (C2 : buf s1 = buf s) by (unfold s1; destruct (_ <? _); reflexivity).
      assert (C3 : sec s1 = sec s) by (unfold s1; destruct (_ <? _); reflexivity). assert (C4 : tr s1 = tr s || (cap s <? sz s + n)) by (unfold s1; destruct (_ <? _); cbn; now rewrite ?orb_true_r, ?orb_false_r).
      clearbody s1. cbn [sz set_sz].
      destruct (write_loop_ok rd f (cap s1 - p) 0 p (set_sz T s1 (cap s1))) as (b & E & Hb); [intros i Hi; apply Hf; lia|cbn; lia|]. rewrite E. cbn [bind]. clear E.
      rewrite put_ok by (cbn; lia). cbn [bind]. eexists. split; [cbn; repeat f_equal; lia|].
      unfold inserted. sc. sc in Hb. rewrite C1, C3, C4. rewrite C1, C2 in Hb. conj; auto; try lia.
      + unfold StrModel.upd. now rewrite Nat.eqb_refl.
      + intros j Hj. unfold StrModel.upd. rewrite Hb. cmp.
      + intros j Hj. unfold StrModel.upd. rewrite Hb. cmp.
    - rewrite !(sub_small (cap s) p) by lia. rewrite !sub_small by lia.
      set (s1 := if cap s <? p + n + (sz s - p) then _ else _).
      assert (C1 : cap s1 = cap s) by (unfold s1; destruct (_ <? _); reflexivity). assert (C2 : buf s1 = buf s) by (unfold s1; destruct (_ <? _); reflexivity).
      assert (C3 : sec s1 = sec s) by (unfold s1; destruct (_ <? _); reflexivity).
      assert (C4 : tr s1 = tr s || (cap s <? sz s + n)) by (unfold s1; destruct (Nat.ltb_spec (cap s) (p + n + (sz s - p))), (Nat.ltb_spec (cap s) (sz s + n)); cbn; rewrite ?orb_true_r, ?orb_false_r; auto; lia).
      assert (C5 : sz s1 = Nat.min (sz s + n) (cap s)) by (unfold s1; destruct (Nat.ltb_spec (cap s) (p + n + (sz s - p))); cbn; lia).
      clearbody s1. set (k := Nat.min (cap s - p - n) (sz s - p)). assert (Hk : k <= sz s - p /\ k <= cap s - p - n /\ (k = sz s - p \/ k = cap s - p - n)) by (unfold k; lia). clearbody k.
      rewrite copy_backward_ok by lia. cbn [bind].
      match goal with |- context [write_loop T rd 0 n p ?s2] => destruct (write_loop_ok rd f n 0 p s2) as (b & E & Hb); [intros i Hi; apply Hf; lia|cbn; lia|]; rewrite E; clear E end.
      cbn [bind]. rewrite put_ok by (cbn; lia). cbn [bind]. eexists. split; [replace (Nat.min (p + n) (Nat.max p (cap s))) with (p + n) by lia; reflexivity|].
      unfold inserted. sc. sc in Hb. rewrite C1, C3, C4, C5. rewrite C2 in Hb. conj; auto; try lia.
      + unfold StrModel.upd. now rewrite Nat.eqb_refl.
      + intros j Hj. unfold StrModel.upd. rewrite Hb. rewrite copy_back_loop_spec by lia. cmp.
      + intros j Hj. unfold StrModel.upd. rewrite Hb. rewrite copy_back_loop_spec by lia. cmp.
  Qed.

  Lemma insert_char_ok (s : str) p v : valid z MAX s -> p <= sz s ->
    exists s', insert_char T z p v s = Done (s', p) /\ inserted s p 1 (fun _ => v) s'.
  Proof.
    intros (V1 & V2 & V3) Hp. unfold insert_char. destruct (Nat.ltb_spec (sz s) (cap s)) as [L|L].
    - destruct (Nat.eqb_spec p (sz s)) as [->|N].
      + rewrite put_ok by lia. cbn [bind]. rewrite put_ok by (cbn; lia). cbn [bind]. eexists. split; [reflexivity|]. unfold inserted. sc. conj; auto; try lia.
        * destruct (Nat.ltb_spec (cap s) (sz s + 1)); [lia|]. now rewrite orb_false_r.
        * unfold StrModel.upd. now rewrite Nat.eqb_refl.
        * intros j Hj. unfold StrModel.upd. cmp.
        * intros j Hj. unfold StrModel.upd. cmp.
      + cbn [sz set_sz]. rewrite copy_backward_ok by (cbn; lia). cbn [bind]. rewrite put_ok by (cbn; lia). cbn [bind]. rewrite put_ok by (cbn; lia). cbn [bind]. eexists. split; [reflexivity|].
        unfold inserted. sc. conj; auto; try lia.
        * destruct (Nat.ltb_spec (cap s) (sz s + 1)); [lia|]. now rewrite orb_false_r.
        * unfold StrModel.upd. now rewrite Nat.eqb_refl.
        * intros j Hj. unfold StrModel.upd. rewrite copy_back_loop_spec by lia. cmp.
        * intros j Hj. unfold StrModel.upd. rewrite copy_back_loop_spec by lia. cmp.
    - assert (E : sz s = cap s) by lia. destruct (Nat.eqb_spec p (sz s)) as [->|N].
      + cbn [bind]. rewrite put_ok by (cbn; lia). cbn [bind]. eexists. split; [reflexivity|]. unfold inserted. sc. conj; auto; try lia.
        * destruct (Nat.ltb_spec (cap s) (sz s + 1)); [now rewrite orb_true_r|lia].
        * unfold StrModel.upd. now rewrite Nat.eqb_refl.
        * intros j Hj. unfold StrModel.upd. cmp.
        * intros j Hj. unfold StrModel.upd. cmp.
      + rewrite copy_backward_ok by lia. cbn [bind]. rewrite put_ok by (cbn; lia). cbn [bind]. rewrite put_ok by (cbn; lia). cbn [bind]. eexists. split; [reflexivity|].
        unfold inserted. sc. conj; auto; try lia.
        * destruct (Nat.ltb_spec (cap s) (sz s + 1)); [now rewrite orb_true_r|lia].
        * unfold StrModel.upd. now rewrite Nat.eqb_refl.
        * intros j Hj. unfold StrModel.upd. rewrite copy_back_loop_spec by lia. cmp.
        * intros j Hj. unfold StrModel.upd. rewrite copy_back_loop_spec by lia. cmp.
  Qed.

  (** ** cleanup *)
  Lemma cleanup_ok (s : str) : valid z MAX s ->
    exists s', cleanup T z s = Done s' /\ cap s' = cap s /\ sec s' = sec s /\ sz s' = sz s /\ tr s' = tr s /\
      (forall j, buf s' j = if sec s && (sz s <=? j) && (j <? cap s) then z else buf s j).
  Proof.
    intros (V1 & V2 & V3). unfold cleanup. destruct (sec s) eqn:E.
    - rewrite fill_ok by lia. eexists. split; [reflexivity|]. sc. conj; auto. intros j. rewrite fill_loop_spec. cbn [andb]. cmp.
    - exists s. conj; auto.
  Qed.
End Proofs.
