(** Support for C11: every operation. *)
From Coq Require Import List Arith Lia Bool.
From Verif Require Import Util StrModel StrSpec StrProofs.
Import ListNotations.

Section Ops.
  Variable T : Type.
  Variable z : T.
  Variable is_z : T -> bool.
  Variable MAX : nat.
  Notation str := (str T).
  Notation upd := (StrModel.upd T).
  Notation valid := (valid z MAX).
  Ltac sc := cbn [buf set_buf set_sz set_tr set_sec sz cap tr sec].
  Tactic Notation "sc" "in" ident(H) := cbn [buf set_buf set_sz set_tr set_sec sz cap tr sec] in H.
  Ltac cmp := repeat match goal with
    | |- context [?a <=? ?b] => destruct (Nat.leb_spec a b); cbn [andb]
    | |- context [?a <? ?b] => destruct (Nat.ltb_spec a b); cbn [andb]
    | |- context [?a =? ?b] => destruct (Nat.eqb_spec a b)
    end; try lia; auto; try (f_equal; lia).

  Definition clean (s : str) : Prop := sec s = true -> forall j, sz s <= j -> j < cap s -> buf s j = z.
  (** [s'] holds [t] cut to the capacity *)
  Record res (s s' : str) (t : list T) (b sc : bool) : Prop := {
    r_cap : cap s' = cap s; r_sec : sec s' = sc; r_valid : valid s'; r_text : text s' = firstn (cap s) t; r_tr : tr s' = b;
    r_clean : clean s -> clean s' }.
  Lemma res_sz s s' t b sc : res s s' t b sc -> sz s' = Nat.min (cap s) (length t).
  Proof. intros [? ? ? E ? ?]. rewrite <- (text_len T s'), E. apply firstn_length. Qed.

  Definition reads (rd : nat -> option T) (l : list T) : Prop := forall i, i < length l -> rd i = Some (nth i l z).
  Lemma reads_list l : reads (nth_error l) l.
  Proof. intros i Hi. now apply nth_error_nth'. Qed.
  Lemma reads_str o : valid o -> reads (read_str T o 0) (text o).
  Proof. intros (V & _) i Hi. rewrite text_len in Hi. unfold read_str. cbn [Nat.add]. rewrite (proj2 (Nat.leb_le _ _)) by lia. now rewrite (nth_text T z). Qed.
  Lemma reads_sub o p n : valid o -> p + n <= sz o -> reads (read_str T o p) (firstn n (skipn p (text o))) /\ length (firstn n (skipn p (text o))) = n.
  Proof.
    intros (V & _) Hn. assert (Hl : length (firstn n (skipn p (text o))) = n) by (rewrite firstn_length, skipn_length, text_len; lia). split; [|exact Hl].
    intros i Hi. rewrite Hl in Hi. unfold read_str. rewrite (proj2 (Nat.leb_le _ _)) by lia. f_equal.
    rewrite (nth_firstn' T z) by lia. rewrite (nth_skipn' T z). rewrite (nth_text T z) by lia. reflexivity.
  Qed.
  Lemma reads_cstr l : (exists x, In x l /\ is_z x = true) -> strlen T is_z l = Some (length (until_null is_z l)) /\ reads (nth_error l) (until_null is_z l).
  Proof.
    induction l as [|x l IH]; intros (y & Hy & Hz); [contradiction|]. cbn. destruct (is_z x) eqn:Ex; [split; [reflexivity|intros i Hi; cbn in Hi; lia]|].
    destruct Hy as [->|Hy]; [congruence|]. destruct IH as (A & B); [eauto|]. rewrite A. split; [reflexivity|]. intros [|i] Hi; cbn in *; auto. apply B. lia.
  Qed.

  (** ** insertions *)
  Lemma inserted_res s p l s' : valid s -> inserted T z s p (length l) (fun i => nth i l z) s' -> p <= sz s ->
    res s s' (splice (text s) p 0 l) (tr s || (cap s <? length (splice (text s) p 0 l))) (sec s).
  Proof.
    intros V I Hp. destruct (inserted_text T z s p (length l) _ s' l I Hp eq_refl ltac:(auto)) as (E1 & E2). destruct I as (I1 & I2 & I3 & I4 & I5 & I6 & I7). destruct V as (V1 & V2 & V3).
    constructor; auto.
    - unfold StrSpec.valid. rewrite I1. conj; auto. lia.
    - now rewrite E2.
    - intros C H j Hj Hj2. destruct (Nat.eq_dec j (sz s')) as [->|]; [exact I5|]. rewrite I7 by lia. apply C; [congruence|lia|lia].
  Qed.
  Lemma insert_list s p l rd : valid s -> p <= sz s -> sz s + length l <= MAX -> reads rd l ->
    exists s', insert_range T z MAX p rd (length l) s = Done (s', Nat.min (p + length l) (Nat.max p (cap s))) /\
      res s s' (splice (text s) p 0 l) (tr s || (cap s <? length (splice (text s) p 0 l))) (sec s).
  Proof.
    intros V Hp Hn Hr. destruct (insert_range_ok T z MAX s p (length l) rd (fun i => nth i l z) V Hp Hn Hr) as (s' & E & I). exists s'. split; [exact E|]. now apply inserted_res.
  Qed.
  Lemma insert_rep s p n v : valid s -> p <= sz s -> sz s + n <= MAX ->
    exists s', insert_fill T z MAX p n v s = Done (s', p) /\
      res s s' (splice (text s) p 0 (repeat v n)) (tr s || (cap s <? length (splice (text s) p 0 (repeat v n)))) (sec s).
  Proof.
    intros V Hp Hn. destruct (insert_fill_ok T z MAX s p n v V Hp Hn) as (s' & E & I). exists s'. split; [exact E|]. apply inserted_res; auto.
    rewrite repeat_length. unfold inserted in *. destruct I as (I1 & I2 & I3 & I4 & I5 & I6 & I7). conj; auto. intros j Hj. rewrite I6 by lia. cmp. now rewrite nth_rep by lia.
  Qed.
  Lemma insert_one s p v : valid s -> p <= sz s ->
    exists s', insert_char T z p v s = Done (s', p) /\ res s s' (splice (text s) p 0 [v]) (tr s || (cap s <? length (splice (text s) p 0 [v]))) (sec s).
  Proof.
    intros V Hp. destruct (insert_char_ok T z MAX s p v V Hp) as (s' & E & I). exists s'. split; [exact E|]. apply inserted_res; auto.
    cbn [length]. unfold inserted in *. destruct I as (I1 & I2 & I3 & I4 & I5 & I6 & I7). conj; auto. intros j Hj. rewrite I6 by lia. cmp. replace (j - p) with 0 by lia. reflexivity.
  Qed.
  Lemma inherit_res s s' t b c o : res s s' t b c -> res s (inherit T o s') t (b || tr o) c.
  Proof.
    intros [? ? ? ? ? ?]. unfold inherit. destruct (tr o); [|rewrite orb_false_r; constructor; auto]. constructor; auto. sc. now rewrite orb_true_r.
  Qed.

  (** ** removals *)
  Lemma erase_range_ok s f l : valid s -> f <= l -> l <= sz s ->
    exists s', erase_range T z MAX f l s = Done s' /\ res s s' (splice (text s) f (l - f) []) (tr s) (sec s) /\ length (splice (text s) f (l - f) []) = sz s - (l - f).
  Proof.
    intros V Hf Hl. assert (Hlen : length (splice (text s) f (l - f) []) = sz s - (l - f)) by (rewrite splice_len; rewrite text_len; cbn; lia).
    unfold erase_range. destruct (Nat.eqb_spec f l) as [->|N].
    - exists s. split; [reflexivity|]. split; [|exact Hlen]. constructor; auto. rewrite Nat.sub_diag. unfold splice. rewrite Nat.add_0_r, firstn_skipn. rewrite firstn_all2; auto. rewrite text_len. apply V.
    - destruct V as (V1 & V2 & V3). rewrite copy_ok by lia. cbn [bind]. sc. rewrite (sub_small MAX l f) by lia. rewrite sub_small by lia.
      rewrite put_ok by (sc; lia). cbn [bind]. match goal with |- context [cleanup T z ?x] => set (s1 := x) end.
      assert (V' : valid s1) by (unfold StrSpec.valid, s1; sc; conj; try lia; unfold StrModel.upd; now rewrite Nat.eqb_refl).
      destruct (cleanup_ok T z MAX s1 V') as (s' & E & C1 & C2 & C3 & C4 & C5). exists s'. split; [exact E|]. split; [|exact Hlen].
      assert (B : forall j, j < sz s - (l - f) -> buf s' j = if j <? f then buf s j else buf s (j + (l - f))).
      { intros j Hj. rewrite C5. unfold s1. sc. unfold StrModel.upd. rewrite copy_loop_spec by lia. destruct (sec s); cbn [andb]; cmp. }
      constructor; auto.
      + destruct V' as (V4 & V5 & V6). unfold StrSpec.valid. rewrite C1, C3. conj; auto. rewrite C5. rewrite V6. destruct (_ && _ && _); auto.
      + apply (text_eq T z). { rewrite firstn_length, Hlen, C3. unfold s1. sc. lia. }
        rewrite C3. unfold s1. sc. intros i Hi. rewrite (nth_firstn' T z) by lia. rewrite (nth_splice T z) by (rewrite text_len; lia). rewrite B by lia. cbn [length]. rewrite Nat.add_0_r, Nat.sub_0_r.
        destruct (Nat.ltb_spec i f); rewrite (nth_text T z) by lia; auto.
      + intros Cl Hs j Hj Hj2. rewrite C2 in Hs. rewrite C1 in Hj2. rewrite C3 in Hj. rewrite C5, Hs. cbn [andb]. cmp.
  Qed.
  Lemma splice_clip (t : list T) p n l : p <= length t -> splice t p (Nat.min n (length t - p)) l = splice t p n l.
  Proof.
    intros H. unfold splice. destruct (Nat.le_gt_cases n (length t - p)); [now rewrite Nat.min_l by lia|]. rewrite Nat.min_r by lia. f_equal. f_equal.
    rewrite !skipn_all2 by lia. reflexivity.
  Qed.
  Lemma erase_ok s p n : valid s -> p <= sz s ->
    exists s', erase T z MAX p n s = Done s' /\ res s s' (splice (text s) p n []) (tr s) (sec s) /\ length (splice (text s) p n []) <= sz s /\ length (splice (text s) p n []) >= p.
  Proof.
    intros V Hp. unfold erase. rewrite sub_small by lia. destruct (Nat.leb_spec (p + Nat.min n (sz s - p)) (S (cap s))); [|destruct V; lia].
    destruct (erase_range_ok s p (p + Nat.min n (sz s - p)) V ltac:(lia) ltac:(lia)) as (s' & E & R & L). exists s'. split; [exact E|].
    replace (p + Nat.min n (sz s - p) - p) with (Nat.min n (length (text s) - p)) in * by (rewrite text_len; lia). rewrite splice_clip in * by (rewrite text_len; lia).
    split; [exact R|]. rewrite text_len in L. lia.
  Qed.
  Lemma splice_splice (t : list T) p n l : p <= length t -> splice (splice t p n []) p 0 l = splice t p n l.
  Proof.
    intros H. unfold splice at 1 3. unfold splice. cbn [app]. rewrite Nat.add_0_r. rewrite firstn_app, firstn_firstn, firstn_length, Nat.min_id. replace (p - Nat.min p (length t)) with 0 by lia. cbn [firstn]. rewrite app_nil_r.
    rewrite skipn_app, firstn_length. rewrite (skipn_all2 (firstn p t)) by (rewrite firstn_length; lia). replace (p - Nat.min p (length t)) with 0 by lia. reflexivity.
  Qed.
  (** replace: removal, then insertion *)
  Lemma res_trans s s1 s' p n l b : valid s -> p <= sz s -> res s s1 (splice (text s) p n []) (tr s) (sec s) -> length (splice (text s) p n []) <= sz s ->
    res s1 s' (splice (text s1) p 0 l) (tr s1 || (cap s1 <? length (splice (text s1) p 0 l)) || b) (sec s1) ->
    res s s' (splice (text s) p n l) (tr s || (cap s <? length (splice (text s) p n l)) || b) (sec s).
  Proof.
    intros V Hp [A1 A2 A3 A4 A5 A6] L [B1 B2 B3 B4 B5 B6].
    assert (E : text s1 = splice (text s) p n []) by (rewrite A4; apply firstn_all2; destruct V; lia). rewrite E in *. rewrite splice_splice in * by (rewrite text_len; lia).
    rewrite A1, A2, A5 in *. constructor; auto.
  Qed.

  Lemma erase_one_ok s p : valid s -> p < sz s -> exists s', erase_one T z MAX p s = Done s' /\ res s s' (splice (text s) p 1 []) (tr s) (sec s).
  Proof.
    intros (V1 & V2 & V3) Hp. unfold erase_one. rewrite copy_ok by lia. cbn [bind]. sc. rewrite sub_small by lia. rewrite put_ok by (sc; lia). eexists. split; [reflexivity|].
    constructor; auto.
    - unfold StrSpec.valid. sc. conj; try lia. unfold StrModel.upd. now rewrite Nat.eqb_refl.
    - apply (text_eq T z). { rewrite firstn_length, splice_len; rewrite ?text_len; sc; cbn [length]; lia. }
      sc. intros i Hi. rewrite (nth_firstn' T z) by lia. rewrite (nth_splice T z) by (rewrite text_len; lia). unfold StrModel.upd. rewrite copy_loop_spec by lia. cbn [length].
      destruct (Nat.ltb_spec i p).
      + rewrite (nth_text T z) by lia. cmp.
      + destruct (Nat.ltb_spec i (p + 0)); [lia|]. rewrite (nth_text T z) by lia. cmp.
    - unfold clean. sc. intros C H j Hj Hj2. unfold StrModel.upd. rewrite copy_loop_spec by lia. cmp. apply C; auto; lia.
  Qed.
  Lemma pop_back_ok s : valid s -> exists s', pop_back T z s = Done s' /\ res s s' (firstn (sz s - 1) (text s)) (tr s) (sec s).
  Proof.
    intros V. pose proof V as (V1 & V2 & V3). unfold pop_back. destruct (Nat.eqb_spec (sz s) 0) as [E|E].
    - exists s. split; [reflexivity|]. constructor; auto. rewrite E. cbn. rewrite firstn_nil. unfold text. now rewrite E.
    - rewrite put_ok by (sc; lia). eexists. split; [reflexivity|]. constructor; auto.
      + unfold StrSpec.valid. sc. conj; try lia. unfold StrModel.upd. now rewrite Nat.eqb_refl.
      + apply (text_eq T z). { rewrite !firstn_length, text_len. sc. lia. }
        sc. intros i Hi. rewrite !(nth_firstn' T z) by lia. rewrite (nth_text T z) by lia. unfold StrModel.upd. cmp.
      + unfold clean. sc. intros C H j Hj Hj2. unfold StrModel.upd. cmp. apply C; auto; lia.
  Qed.
  Lemma push_back_ok s v : valid s -> exists s', push_back T z v s = Done s' /\ res s s' (text s ++ [v]) (tr s || (cap s <? length (text s ++ [v]))) (sec s).
  Proof.
    intros V. pose proof V as (V1 & V2 & V3). rewrite app_length, text_len. cbn [length]. unfold push_back. destruct (Nat.eqb_spec (sz s) (cap s)) as [E|E].
    - eexists. split; [reflexivity|]. constructor; auto.
      + sc. rewrite firstn_app, text_len, E, Nat.sub_diag. cbn. rewrite app_nil_r. rewrite <- E. rewrite firstn_all2 by (rewrite text_len; lia). reflexivity.
      + sc. destruct (Nat.ltb_spec (cap s) (sz s + 1)); [now rewrite orb_true_r|lia].
    - rewrite put_ok by (sc; lia). cbn [bind]. rewrite put_ok by (sc; lia). eexists. split; [reflexivity|]. constructor; auto.
      + unfold StrSpec.valid. sc. conj; try lia. unfold StrModel.upd. now rewrite Nat.eqb_refl.
      + apply (text_eq T z). { rewrite !firstn_length, app_length, text_len. sc. cbn [length]. lia. }
        sc. intros i Hi. rewrite !(nth_firstn' T z) by lia. unfold StrModel.upd. destruct (Nat.eq_dec i (sz s)) as [->|].
        * rewrite app_nth2, text_len, Nat.sub_diag by (rewrite text_len; lia). cbn [nth]. cmp.
        * rewrite app_nth1 by (rewrite text_len; lia). rewrite (nth_text T z) by lia. cmp.
      + sc. destruct (Nat.ltb_spec (cap s) (sz s + 1)); [lia|]. now rewrite orb_false_r.
      + unfold clean. sc. intros C H j Hj Hj2. unfold StrModel.upd. cmp. apply C; auto; lia.
  Qed.

  (** ** assignments *)
  Lemma initialise_ok s : valid s -> exists s', initialise T z s = Done s' /\ cap s' = cap s /\ sec s' = sec s /\ sz s' = 0 /\ tr s' = false /\ buf s' 0 = z /\
    (sec s = true -> forall j, j < cap s -> buf s' j = z).
  Proof.
    intros (V1 & V2 & V3). unfold initialise, cleanup. sc. destruct (sec s) eqn:Es.
    - rewrite fill_ok by (sc; lia). cbn [bind]. rewrite put_ok by (sc; lia). cbn [bind]. eexists. split; [reflexivity|]. sc. conj; auto.
      intros _ j Hj. unfold StrModel.upd. rewrite fill_loop_spec. cmp.
    - cbn [bind]. rewrite put_ok by (sc; lia). cbn [bind]. eexists. split; [reflexivity|]. sc. conj; auto. discriminate.
  Qed.
  Lemma assign_list s l rd t c : valid s -> reads rd l -> exists s', assign_impl T z rd (length l) t c s = Done s' /\ res s s' l ((cap s <? length l) || t) (sec s || c).
  Proof.
    intros V Hr. unfold assign_impl. destruct (initialise_ok s V) as (s1 & E & I1 & I2 & I3 & I4 & I5 & I6). rewrite E. cbn [bind]. destruct V as (V1 & V2 & V3).
    destruct (assign_loop_ok T rd (fun i => nth i l z) (length l) 0 s1) as (b & E2 & Hb); [exact Hr|lia|]. rewrite E2. cbn [bind]. rewrite I1, I3 in *. cbn [Nat.add] in *.
    rewrite put_ok by (sc; lia). cbn [bind]. match goal with |- context [cleanup T z ?x] => set (s2 := x) end.
    assert (S2 : cap s2 = cap s /\ sz s2 = Nat.min (length l) (cap s) /\ sec s2 = sec s || c /\ tr s2 = (cap s <? length l) || t /\ buf s2 (sz s2) = z /\ forall j, j <> sz s2 -> buf s2 j = b j).
    { unfold s2. destruct c; sc; conj; rewrite ?orb_true_r, ?orb_false_r; auto; try (f_equal; cmp); try (unfold StrModel.upd; now rewrite Nat.eqb_refl); intros j Hj; unfold StrModel.upd; cmp. }
    clearbody s2. destruct S2 as (S1 & S2 & S3 & S4 & S5 & S6).
    assert (V' : valid s2) by (unfold StrSpec.valid; rewrite S1, S2 in *; conj; auto; lia).
    destruct (cleanup_ok T z MAX s2 V') as (s' & E3 & C1 & C2 & C3 & C4 & C5). exists s'. split; [exact E3|]. constructor; try congruence.
    - destruct V' as (W1 & W2 & W3). unfold StrSpec.valid. rewrite C1, C3. conj; auto. rewrite C5, W3. destruct (_ && _ && _); auto.
    - apply (text_eq T z). { rewrite firstn_length. lia. } rewrite C3, S2. intros i Hi. rewrite (nth_firstn' T z) by lia. rewrite C5, S6 by lia. rewrite Hb. replace (0 + (i - 0)) with i by lia.
      destruct (sec s2); cbn [andb]; cmp.
    - intros Cl H j Hj Hj2. rewrite C5. rewrite C2 in H. rewrite H. rewrite C1 in Hj2. rewrite C3 in Hj. cbn [andb]. cmp.
  Qed.
  Lemma assign_n_ok s n v : valid s -> exists s', assign_n T z n v s = Done s' /\ res s s' (repeat v n) (cap s <? n) (sec s).
  Proof.
    intros V. unfold assign_n. destruct (initialise_ok s V) as (s1 & E & I1 & I2 & I3 & I4 & I5 & I6). rewrite E. cbn [bind]. destruct V as (V1 & V2 & V3). sc. rewrite I1.
    rewrite fill_ok by (sc; lia). cbn [bind]. rewrite put_ok by (sc; lia). eexists. split; [reflexivity|]. constructor; auto.
    - unfold StrSpec.valid. sc. conj; try lia. unfold StrModel.upd. now rewrite Nat.eqb_refl.
    - apply (text_eq T z). { rewrite firstn_length, repeat_length. sc. lia. } sc. intros i Hi. rewrite (nth_firstn' T z) by lia. rewrite (nth_rep T z) by lia. unfold StrModel.upd. rewrite fill_loop_spec. cmp.
    - unfold clean. sc. intros C H j Hj Hj2. unfold StrModel.upd. rewrite fill_loop_spec. cmp. apply I6; auto; [congruence|lia].
  Qed.
  Lemma resize_ok s n v : valid s -> exists s', resize T z n v s = Done s' /\
    res s s' (firstn n (text s) ++ repeat v (n - sz s)) (tr s || (cap s <? length (firstn n (text s) ++ repeat v (n - sz s)))) (sec s).
  Proof.
    intros V. pose proof V as (V1 & V2 & V3). assert (Hlen : length (firstn n (text s) ++ repeat v (n - sz s)) = n) by (rewrite app_length, firstn_length, repeat_length, text_len; lia).
    unfold resize. set (s1 := if cap s <? n then set_tr T s true else s).
    assert (S1 : cap s1 = cap s /\ sz s1 = sz s /\ sec s1 = sec s /\ buf s1 = buf s /\ tr s1 = tr s || (cap s <? n)).
    { unfold s1. destruct (cap s <? n); sc; rewrite ?orb_true_r, ?orb_false_r; auto. }
    clearbody s1. destruct S1 as (S1 & S2 & S3 & S4 & S5). rewrite S1. set (m := Nat.min n (cap s)). 
    set (s2 := if sz s1 <? m then _ else _).
    assert (H2 : exists b, s2 = Done (set_buf T s1 b) /\ forall j, b j = if (sz s <=? j) && (j <? m) then v else buf s j).
    { unfold s2. rewrite S2. destruct (Nat.ltb_spec (sz s) m).
      - rewrite fill_ok by lia. eexists. split; [reflexivity|]. intros j. rewrite fill_loop_spec, S4. cmp.
      - exists (buf s). rewrite <- S4. split; [now destruct s1|]. intros j. cmp. }
    destruct H2 as (b & -> & Hb). cbn [bind]. rewrite put_ok by (sc; lia). cbn [bind]. match goal with |- context [cleanup T z ?x] => set (s3 := x) end.
    assert (V' : valid s3) by (unfold StrSpec.valid, s3; sc; conj; try lia; unfold StrModel.upd; now rewrite Nat.eqb_refl).
    destruct (cleanup_ok T z MAX s3 V') as (s' & E3 & C1 & C2 & C3 & C4 & C5). exists s'. split; [exact E3|]. rewrite Hlen. constructor.
    - rewrite C1. exact S1.
    - rewrite C2. exact S3.
    - destruct V' as (W1 & W2 & W3). unfold StrSpec.valid. rewrite C1, C3. conj; auto. rewrite C5, W3. destruct (_ && _ && _); auto.
    - apply (text_eq T z). { rewrite firstn_length, Hlen, C3. unfold s3. sc. lia. } rewrite C3. unfold s3 at 1. sc. intros i Hi. rewrite (nth_firstn' T z) by lia. rewrite C5. unfold s3. sc.
      replace (sec s1 && (m <=? i) && (i <? cap s1)) with false by (destruct (Nat.leb_spec m i); [lia|]; now rewrite andb_false_r).
      unfold StrModel.upd. destruct (Nat.eqb_spec i m); [lia|]. rewrite Hb. destruct (Nat.leb_spec (sz s) i).
      + rewrite app_nth2 by (rewrite firstn_length, text_len; lia). rewrite (nth_rep T z) by (rewrite firstn_length, text_len; lia). cbn [andb]. cmp.
      + rewrite app_nth1 by (rewrite firstn_length, text_len; lia). rewrite (nth_firstn' T z) by lia. rewrite (nth_text T z) by lia. cmp.
    - rewrite C4. exact S5.
    - intros Cl H j Hj Hj2. rewrite C5. rewrite C2 in H. rewrite H. rewrite C1 in Hj2. rewrite C3 in Hj. cbn [andb]. cmp.
  Qed.
End Ops.
