(** * C11: etl::string truncates, never overflows, and flags truncation.  C44: a secure string leaves no characters behind.

    [wanted o t] (StrSpec) is the text the operation would give without a limit, [throws] says which calls fail,
    [flag] which truncation flag is left.  [call_ok] is what the documentation asks of the caller, [safe] excludes the
    calls for which the code is wrong; each of these is shown below to be wrong ([_refuted]). *)
From Coq Require Import List Arith Lia Bool.
From Verif Require Import Util StrModel StrSpec StrProofs StrOps.
Import ListNotations.

Section Props.
  Variable T : Type.
  Variable z : T.
  Variable is_z : T -> bool.
  Variable MAX : nat.                (** npos *)
  Notation str := (str T).
  Notation apply := (apply T z is_z MAX).
  Notation valid := (valid z MAX).
  Notation wanted := (wanted is_z).
  Notation call_ok := (call_ok z is_z MAX).
  Notation safe := (safe is_z MAX).
  Notation flag := (flag is_z).

  Definition becomes_secure (o : op T) : bool :=
    match o with OSecure => true | OAssign (Whole o) | OAssign (Sub o _ _) => sec o | _ => false end.

  Lemma main o s : valid s -> call_ok o (text s) -> safe o (text s) ->
    if throws o (text s) then apply o s = Throw s
    else exists s', apply o s = Done s' /\ cap s' = cap s /\ valid s' /\ text s' = firstn (cap s) (wanted o (text s)) /\ tr s' = flag o (cap s) (text s) (tr s) /\
         sec s' = sec s || becomes_secure o /\ (o <> OSecure -> clean T z s -> clean T z s').
  Proof.
    intros V Hc Hs.
    assert (Hres : forall r b c (k : out T str), (exists s', k = Done s' /\ res T z MAX s s' r b c) -> r = wanted o (text s) -> b = flag o (cap s) (text s) (tr s) -> c = sec s || becomes_secure o ->
      exists s', k = Done s' /\ cap s' = cap s /\ valid s' /\ text s' = firstn (cap s) (wanted o (text s)) /\ tr s' = flag o (cap s) (text s) (tr s) /\
         sec s' = sec s || becomes_secure o /\ (o <> OSecure -> clean T z s -> clean T z s')).
    { intros r b c k (s' & E & R) -> -> ->. exists s'. destruct R. auto 10. }
    assert (Hd : forall p r b c (k : out T (str * nat)), (exists s', k = Done (s', p) /\ res T z MAX s s' r b c) -> exists s', drop T k = Done s' /\ res T z MAX s s' r b c).
    { intros p r b c k (s' & -> & R). exists s'. auto. }
    assert (He : forall l, text s ++ l = splice (text s) (sz s) 0 l).
    { intros l. unfold splice. rewrite Nat.add_0_r. rewrite skipn_all2, firstn_all2 by (rewrite text_len; lia). now rewrite app_nil_r. }
    assert (Hi : forall p r b c (k : out T (str * nat)) (x : str), (exists s', k = Done (s', p) /\ res T z MAX s s' r b c) -> exists s', bind T (drop T k) (fun s => Done (inherit T x s)) = Done s' /\ res T z MAX s s' r (b || tr x) c).
    { intros p r b c k x (s' & -> & R). exists (inherit T x s'). split; [reflexivity|]. now apply inherit_res. }
    pose proof (text_len T s) as TL.
    assert (Hsec : forall b, b = b || false) by (intros; now rewrite orb_false_r).
    (* insert_at *)
    assert (Hins : forall s1 p src, valid s1 -> p <= sz s1 -> source_ok z is_z MAX src -> source_throws src = false -> sz s1 + length (chars is_z src) <= MAX ->
       match src with Sub _ q m => m = MAX \/ q + m <= MAX | _ => True end ->
       exists s', insert_at T z is_z MAX p src s1 = Done s' /\
         res T z MAX s1 s' (splice (text s1) p 0 (chars is_z src)) (tr s1 || (cap s1 <? length (splice (text s1) p 0 (chars is_z src))) || source_truncated src) (sec s1)).
    { intros s1 p src V1 Hp Hok Hnt Hl Hsub. unfold insert_at. rewrite (proj2 (Nat.leb_le _ _) Hp). destruct src as [l|l|x|x q m]; cbn [source_truncated chars source_ok] in *.
      - destruct (insert_list T z MAX s1 p l (nth_error l) V1 Hp Hl (reads_list T z l)) as (s' & E & R). rewrite E. exists s'. rewrite orb_false_r. auto.
      - destruct (reads_cstr T z is_z l Hok) as (E1 & E2). rewrite E1. destruct (insert_list T z MAX s1 p _ (nth_error l) V1 Hp Hl E2) as (s' & E & R). rewrite E. exists s'. rewrite orb_false_r. auto.
      - rewrite <- (text_len T x). destruct (insert_list T z MAX s1 p _ _ V1 Hp Hl (reads_str T z MAX x Hok)) as (s' & E & R). rewrite E. eexists. split; [reflexivity|]. now apply inherit_res.
      - cbn [source_throws] in Hnt. apply negb_false_iff in Hnt. rewrite Hnt. apply Nat.leb_le in Hnt. set (n := if _ || _ then _ else _).
        assert (Hn : q + n <= sz x /\ firstn m (skipn q (text x)) = firstn n (skipn q (text x))).
        { unfold n, npos. destruct (Nat.eqb_spec m MAX) as [->|Nm]; cbn [orb].
          - rewrite sub_small by lia. split; [lia|]. rewrite !firstn_all2; auto; rewrite skipn_length, text_len; destruct Hok; lia.
          - destruct Hsub as [|Hsub]; [contradiction|]. rewrite add_small by lia. destruct (Nat.ltb_spec (sz x) (q + m)); [|split; [lia|reflexivity]]. rewrite sub_small by lia. split; [lia|]. rewrite !firstn_all2; auto; rewrite skipn_length, text_len; lia. }
        destruct Hn as (Hn & En). rewrite En in *. destruct (Nat.leb_spec (q + n) (S (cap x))); [|destruct Hok; lia]. destruct (reads_sub T z MAX x q n Hok Hn) as (R1 & R2).
        destruct (insert_list T z MAX s1 p _ _ V1 Hp Hl R1) as (s' & E & R). rewrite R2 in E. rewrite E. eexists. split; [reflexivity|]. now apply inherit_res. }
    destruct o; cbn [throws StrModel.apply StrSpec.call_ok StrSpec.safe] in *.
    - (* assign *) destruct src as [l|l|x|x q m]; cbn [source_throws StrModel.assign source_ok].
      + eapply Hres; [apply (assign_list T z MAX s l); auto; apply reads_list|auto..].
      + destruct (reads_cstr T z is_z l Hc) as (E1 & E2). rewrite E1. eapply Hres; [apply (assign_list T z MAX s _ _ _ _ V E2)|auto..].
      + rewrite <- (text_len T x). eapply Hres; [apply (assign_list T z MAX s _ _ _ _ V (reads_str T z MAX x Hc))|auto..].
      + destruct (Nat.leb_spec q (sz x)) as [L|L]; cbn [negb]; [|reflexivity]. set (n := if m =? npos MAX then _ else _).
        assert (Hn : q + n <= sz x /\ firstn m (skipn q (text x)) = firstn n (skipn q (text x))).
        { unfold n, npos. destruct (Nat.eqb_spec m MAX) as [->|Nm].
          - rewrite sub_small by lia. split; [lia|]. cbn [source_ok] in Hc. rewrite !firstn_all2; auto; rewrite skipn_length, text_len; destruct Hc; lia.
          - split; [lia|reflexivity]. }
        destruct Hn as (Hn & En). destruct (Nat.leb_spec (q + n) (S (cap x))); [|destruct Hc; lia]. destruct (reads_sub T z MAX x q n Hc Hn) as (R1 & R2). pose proof (assign_list T z MAX s _ _ (tr x) (sec x) V R1) as (s' & E & R). rewrite R2 in E.
        eapply Hres; [exists s'; split; [exact E|exact R]|cbn [StrSpec.wanted chars]; now rewrite En|cbn [StrSpec.flag chars]; now rewrite En|reflexivity].
    - eapply Hres; [apply assign_n_ok; auto|auto..].
    - destruct (initialise_ok T z MAX s V) as (s' & E & I1 & I2 & I3 & I4 & I5 & I6). exists s'. split; [exact E|]. split; [exact I1|]. destruct V as (V1 & V2 & V3). conj.
      + unfold StrSpec.valid. rewrite I1, I3. conj; auto; lia.
      + cbn. rewrite firstn_nil. unfold text. now rewrite I3.
      + exact I4.
      + cbn. rewrite orb_false_r. exact I2.
      + intros _ C H j _ Hj. apply I6; [congruence|lia].
    - eapply Hres; [apply resize_ok; auto|cbn [StrSpec.wanted]; now rewrite TL|cbn [StrSpec.flag StrSpec.wanted]; now rewrite TL|auto].
    - eapply Hres; [apply push_back_ok; auto|auto..].
    - eapply Hres; [apply pop_back_ok; auto|cbn [StrSpec.wanted]; now rewrite TL| |auto]. cbn [StrSpec.flag StrSpec.wanted]. destruct (Nat.ltb_spec (cap s) (length (firstn (length (text s) - 1) (text s)))) as [L|L]; [|now rewrite orb_false_r].
      rewrite firstn_length, TL in L. destruct V. lia.
    - (* append *) unfold append. destruct Hs as (Hs1 & Hs2). rewrite TL in Hs1. cbn [StrSpec.wanted]. rewrite He.
      assert (HW : StrSpec.wanted is_z (OAppend src) (text s) = splice (text s) (sz s) 0 (chars is_z src)) by (cbn [StrSpec.wanted]; apply He).
      assert (HF : flag (OAppend src) (cap s) (text s) (tr s) = tr s || (cap s <? length (splice (text s) (sz s) 0 (chars is_z src))) || source_truncated src) by (cbn [StrSpec.flag StrSpec.wanted]; now rewrite He).
      destruct (source_throws src) eqn:Et.
      + destruct src; cbn in Et; try discriminate. now apply negb_true_iff in Et; rewrite Et.
      + rewrite <- He. destruct src as [l|l|x|x q m].
        * eapply Hres; [eapply Hd, (insert_list T z MAX s (sz s) l); auto; apply reads_list|now rewrite HW|now rewrite HF, orb_false_r|auto].
        * eapply Hres; [apply (Hins s (sz s) (CStr l)); auto|now rewrite HW|now rewrite HF|auto].
        * rewrite <- (text_len T x). eapply Hres; [eapply Hi, (insert_list T z MAX s (sz s) (text x)); auto; apply (reads_str T z MAX); auto|now rewrite HW|now rewrite HF|auto].
        * pose proof Et as Et'. cbn in Et'. apply negb_false_iff in Et'. rewrite Et'. eapply Hres; [apply (Hins s (sz s) (Sub x q m)); auto|now rewrite HW|now rewrite HF|auto].
    - unfold append_fill, insert_fill_at. rewrite Nat.leb_refl. eapply Hres; [eapply Hd, (insert_rep T z MAX s (sz s) n v); auto; lia|cbn [StrSpec.wanted]; now rewrite He|cbn [StrSpec.flag StrSpec.wanted]; now rewrite He|auto].
    - (* insert_at *) destruct Hs as (Hs1 & Hs2). rewrite TL in Hs1. rewrite TL. destruct (Nat.leb_spec pos (sz s)) as [L|L]; cbn [negb orb]; [|unfold insert_at; now rewrite (proj2 (Nat.leb_gt _ _) L)].
      destruct (source_throws src) eqn:Et.
      + unfold insert_at. rewrite (proj2 (Nat.leb_le _ _) L). destruct src; cbn in Et; try discriminate. now apply negb_true_iff in Et; rewrite Et.
      + eapply Hres; [apply Hins; auto|auto..].
    - unfold insert_fill_at. rewrite TL. destruct (Nat.leb_spec pos (sz s)) as [L|L]; cbn [negb]; [|reflexivity]. rewrite TL in Hs. eapply Hres; [eapply Hd, (insert_rep T z MAX s pos n v); auto|auto..].
    - rewrite TL in *. eapply Hres; [eapply Hd, (insert_one T z MAX s); auto|auto..].
    - rewrite TL in *. eapply Hres; [eapply Hd, (insert_list T z MAX s it l); auto; apply reads_list|auto..].
    - rewrite TL in *. eapply Hres; [eapply Hd, (insert_rep T z MAX s); auto|auto..].
    - rewrite TL in *. destruct (erase_ok T z MAX s pos n V Hs) as (s' & E & R & L & _). eapply Hres; [eauto|auto| |auto]. cbn [StrSpec.flag StrSpec.wanted].
      destruct (Nat.ltb_spec (cap s) (length (splice (text s) pos n []))); [destruct V; lia|now rewrite orb_false_r].
    - rewrite TL in *. eapply Hres; [apply (erase_one_ok T z MAX s); auto|auto| |auto]. cbn [StrSpec.flag StrSpec.wanted]. rewrite splice_len by lia. rewrite TL. cbn [length].
      destruct (Nat.ltb_spec (cap s) (it + 0 + (sz s - (it + 1)))); [destruct V; lia|now rewrite orb_false_r].
    - rewrite TL in *. destruct Hc as (Hc1 & Hc2). destruct (erase_range_ok T z MAX s first last V Hc1 Hc2) as (s' & E & R & L). eapply Hres; [eauto|auto| |auto]. cbn [StrSpec.flag StrSpec.wanted].
      rewrite L. destruct (Nat.ltb_spec (cap s) (sz s - (last - first))); [destruct V; lia|now rewrite orb_false_r].
    - (* replace_at *) rewrite TL in *. unfold replace_at. destruct (Nat.leb_spec pos (sz s)) as [L|L]; cbn [negb orb]; [|reflexivity].
      assert (Hsn : forall src', source_throws src = false -> chars is_z src' = chars is_z src -> source_truncated src' = source_truncated src -> source_ok z is_z MAX src' -> source_throws src' = false -> match src' with Sub _ q m => m = MAX \/ q + m <= MAX | _ => True end ->
        exists s', bind T (erase T z MAX pos (Nat.min n (sub MAX (sz s) pos)) s) (fun s => insert_at T z is_z MAX pos src' s) = Done s' /\
         res T z MAX s s' (splice (text s) pos n (chars is_z src)) (tr s || (cap s <? length (splice (text s) pos n (chars is_z src))) || source_truncated src) (sec s)).
      { intros src' Et Ec Etr Hok Et' Hsub. rewrite sub_small by lia. destruct (erase_ok T z MAX s pos (Nat.min n (sz s - pos)) V L) as (s1 & E & R & L1 & L2). rewrite E. cbn [bind].
        assert (L3 : sz s1 = length (splice (text s) pos (Nat.min n (sz s - pos)) [])) by (rewrite (res_sz _ _ _ _ _ _ _ _ R); destruct V; lia).
        destruct (Hins s1 pos src') as (s' & E' & R'); auto; [apply R|lia|rewrite Ec; lia|]. rewrite Ec, Etr in R'. exists s'. split; [exact E'|].
        rewrite <- TL in R, L1, L3. rewrite splice_clip in * by lia. rewrite TL in *. eapply res_trans; eauto. }
      destruct (source_throws src) eqn:Et.
      + destruct src; cbn in Et; try discriminate. now apply negb_true_iff in Et; rewrite Et.
      + destruct src as [l|l|x|x q m].
        1-3: eapply Hres; [apply Hsn; auto|auto..].
        pose proof Et as Et'. cbn in Et'. apply negb_false_iff in Et'. rewrite Et'. apply Nat.leb_le in Et'. rewrite (sub_small MAX (sz x) q) by lia.
        assert (Ech : chars is_z (Sub x q (Nat.min m (sz x - q))) = chars is_z (Sub x q m)).
        { cbn [chars]. destruct (Nat.le_gt_cases m (sz x - q)); [now rewrite Nat.min_l by lia|]. rewrite Nat.min_r by lia. rewrite !firstn_all2; auto; rewrite skipn_length, text_len; lia. }
        destruct (Hsn (Sub x q (Nat.min m (sz x - q)))) as (s' & E & R); auto. { right. cbn [source_ok] in Hc. destruct Hc. lia. }
        eapply Hres; [|reflexivity|reflexivity|reflexivity]. exists (inherit T x s'). split.
        { destruct (erase T z MAX pos (Nat.min n (sub MAX (sz s) pos)) s) as [s1| |]; cbn [bind] in E |- *; try discriminate. now rewrite E. }
        cbn [StrSpec.wanted StrSpec.flag]. pose proof (inherit_res T z MAX s s' _ _ _ x R) as R'. cbn [source_truncated] in R'. rewrite <- !orb_assoc, orb_diag in R'. rewrite !orb_assoc in R'. cbn [becomes_secure]. rewrite orb_false_r. exact R'.
    - rewrite TL in *. unfold replace_fill_at. destruct (Nat.leb_spec pos (sz s)) as [L|L]; cbn [negb]; [|reflexivity]. rewrite sub_small by lia.
      destruct (erase_ok T z MAX s pos (Nat.min n (sz s - pos)) V L) as (s1 & E & R & L1 & L2). rewrite E. cbn [bind].
      assert (L3 : sz s1 = length (splice (text s) pos (Nat.min n (sz s - pos)) [])) by (rewrite (res_sz _ _ _ _ _ _ _ _ R); destruct V; lia).
      unfold insert_fill_at. rewrite (proj2 (Nat.leb_le _ _)) by lia. destruct (insert_rep T z MAX s1 pos m v) as (s' & E' & R'); [apply R|lia|lia|]. rewrite E'.
      eapply Hres; [exists s'; split; [reflexivity|]|reflexivity|reflexivity|reflexivity]. cbn [StrSpec.wanted StrSpec.flag becomes_secure]. rewrite <- TL in R, L1. rewrite splice_clip in * by lia. rewrite orb_false_r.
      rewrite <- (orb_false_r (_ || _)). eapply res_trans; eauto; [lia|]. now rewrite orb_false_r.
    - rewrite TL in *. destruct Hc as (Hc1 & Hc2 & Hc3 & Hc4). unfold replace_range. destruct (erase_range_ok T z MAX s first last V Hc1 Hc2) as (s1 & E & R & L). rewrite E. cbn [bind].
      assert (L3 : sz s1 = sz s - (last - first)) by (rewrite (res_sz _ _ _ _ _ _ _ _ R); destruct V; lia). pose proof (r_valid _ _ _ _ _ _ _ _ R) as V1.
      assert (Htr : forall s', res T z MAX s1 s' (splice (text s1) first 0 (chars is_z src)) (tr s1 || (cap s1 <? length (splice (text s1) first 0 (chars is_z src))) || source_truncated src) (sec s1) ->
         res T z MAX s s' (splice (text s) first (last - first) (chars is_z src)) (tr s || (cap s <? length (splice (text s) first (last - first) (chars is_z src))) || source_truncated src) (sec s)).
      { intros s' R'. eapply res_trans; eauto; lia. }
      eapply Hres; [|reflexivity|reflexivity|cbn [becomes_secure]; apply Hsec]. cbn [StrSpec.wanted StrSpec.flag].
      destruct src as [l|l|x|x q m]; [| | |contradiction]; cbn [chars source_ok] in *.
      + destruct (insert_list T z MAX s1 first l (nth_error l) V1 ltac:(lia) ltac:(lia) (reads_list T z l)) as (s' & E' & R'). rewrite E'. exists s'. split; [reflexivity|]. apply Htr. cbn [source_truncated]. now rewrite orb_false_r.
      + destruct (reads_cstr T z is_z l Hc3) as (E1 & E2). rewrite E1. destruct (insert_list T z MAX s1 first (until_null is_z l) (nth_error l) V1 ltac:(lia) ltac:(lia) E2) as (s' & E' & R'). rewrite E'. exists s'. split; [reflexivity|]. apply Htr. cbn [source_truncated]. now rewrite orb_false_r.
      + rewrite <- (text_len T x). destruct (insert_list T z MAX s1 first (text x) _ V1 ltac:(lia) ltac:(lia) (reads_str T z MAX x Hc3)) as (s' & E' & R'). rewrite E'. eexists. split; [reflexivity|]. apply Htr. now apply inherit_res.
    - rewrite TL in *. destruct Hc as (Hc1 & Hc2). unfold replace_range_fill. destruct (erase_range_ok T z MAX s first last V Hc1 Hc2) as (s1 & E & R & L). rewrite E. cbn [bind].
      assert (L3 : sz s1 = sz s - (last - first)) by (rewrite (res_sz _ _ _ _ _ _ _ _ R); destruct V; lia). pose proof (r_valid _ _ _ _ _ _ _ _ R) as V1.
      destruct (insert_rep T z MAX s1 first m v V1 ltac:(lia) ltac:(lia)) as (s' & E' & R'). rewrite E'. eapply Hres; [exists s'; split; [reflexivity|]|reflexivity|reflexivity|reflexivity].
      cbn [StrSpec.wanted StrSpec.flag becomes_secure]. rewrite orb_false_r. rewrite <- (orb_false_r (_ || _)). eapply res_trans; eauto; [lia|lia|]. now rewrite orb_false_r.
    - eexists. split; [reflexivity|]. cbn [StrSpec.wanted StrSpec.flag becomes_secure cap sz buf tr sec set_sec set_tr]. conj; auto; [| |now rewrite orb_true_r|contradiction].
      + rewrite firstn_all2; auto. rewrite TL. apply V.
      + destruct (Nat.ltb_spec (cap s) (length (text s))); [destruct V; lia|now rewrite orb_false_r].
    - eexists. split; [reflexivity|]. cbn [StrSpec.wanted StrSpec.flag becomes_secure cap sz buf tr sec set_sec set_tr]. conj; auto.
      rewrite firstn_all2; auto. rewrite TL. apply V.
  Qed.

  (** C11: the text is the first max_size() characters of the untruncated result, the string is null terminated, its size at
      most max_size(), and the flag tells whether characters were lost *)
  Theorem C11_operation : forall o s, valid s -> call_ok o (text s) -> safe o (text s) -> throws o (text s) = false ->
    exists s', apply o s = Done s' /\ cap s' = cap s /\
      text s' = firstn (cap s) (wanted o (text s)) /\ sz s' <= cap s' /\ buf s' (sz s') = z /\ tr s' = flag o (cap s) (text s) (tr s).
  Proof.
    intros o s V Hc Hs Ht. pose proof (main o s V Hc Hs) as H. rewrite Ht in H. destruct H as (s' & E & C & (V1 & V2 & V3) & X & F & _). exists s'. conj; auto.
  Qed.
  (** C11: the calls that throw leave the string as it was *)
  Theorem C11_throws : forall o s, valid s -> call_ok o (text s) -> safe o (text s) -> throws o (text s) = true -> apply o s = Throw s.
  Proof. intros o s V Hc Hs Ht. pose proof (main o s V Hc Hs) as H. now rewrite Ht in H. Qed.

  (** every history of allowed calls *)
  Fixpoint allowed (c : nat) (t : list T) (l : list (op T)) : Prop :=
    match l with
    | [] => True
    | o :: r => call_ok o t /\ safe o t /\ allowed c (if throws o t then t else firstn c (wanted o t)) r
    end.
  Fixpoint final (c : nat) (t : list T) (b : bool) (l : list (op T)) : list T * bool :=
    match l with
    | [] => (t, b)
    | o :: r => if throws o t then final c t b r else final c (firstn c (wanted o t)) (flag o c t b) r
    end.
  Theorem C11_history : forall c b l, c < MAX -> allowed c [] l ->
    exists s, run T z is_z MAX (fresh T z c b) l = Done s /\ (text s, tr s) = final c [] false l /\ sz s <= c /\ cap s = c /\ buf s (sz s) = z.
  Proof.
    intros c b l Hc. assert (H : forall s, valid s -> cap s = c -> allowed c (text s) l ->
      exists s', run T z is_z MAX s l = Done s' /\ (text s', tr s') = final c (text s) (tr s) l /\ valid s' /\ cap s' = c).
    { induction l as [|o l IH]; intros s V C A; [exists s; auto|]. destruct A as (A1 & A2 & A3). cbn [run final].
      pose proof (main o s V A1 A2) as M. destruct (throws o (text s)).
      - rewrite M. apply IH; auto.
      - destruct M as (s' & E & C' & V' & X & F & _). rewrite E. rewrite C in *. rewrite <- X, <- F in *. apply IH; auto. }
    intros A. destruct (H (fresh T z c b)) as (s & R1 & R2 & (V1 & V2 & V3) & R4); auto.
    - unfold StrSpec.valid, fresh, upd. cbn. repeat split; lia.
    - exists s. rewrite R4 in *. auto.
  Qed.

  (** C11: where insert by iterator leaves its result: the fill and the single character give the first character inserted, the
      range gives the place behind the last one written *)
  Theorem C11_insert_result : forall s it, valid s -> it <= length (text s) ->
    (forall v s' r, insert_char T z it v s = Done (s', r) -> r = it) /\
    (forall n v s' r, length (text s) + n <= MAX -> insert_fill T z MAX it n v s = Done (s', r) -> r = it) /\
    (forall l s' r, length (text s) + length l <= MAX -> insert_range T z MAX it (nth_error l) (length l) s = Done (s', r) ->
       r = Nat.min (it + length l) (cap s)).
  Proof.
    intros s it V Hi. rewrite text_len in *. conj.
    - intros v s' r E. destruct (insert_one T z MAX s it v V Hi) as (s2 & E2 & _). congruence.
    - intros n v s' r Hn E. destruct (insert_rep T z MAX s it n v V Hi Hn) as (s2 & E2 & _). congruence.
    - intros l s' r Hn E. destruct (insert_list T z MAX s it l _ V Hi Hn (reads_list T z l)) as (s2 & E2 & _). rewrite E in E2. injection E2 as _ ->. destruct V. lia.
  Qed.

  (** C44: while a string is secure and its free space is clear, every operation leaves the free space clear *)
  Theorem C44_stays_clear : forall o s s', valid s -> call_ok o (text s) -> safe o (text s) -> o <> OSecure -> sec s = true ->
    (forall j, sz s <= j -> j < cap s -> buf s j = z) -> apply o s = Done s' -> forall j, sz s' <= j -> j < cap s' -> buf s' j = z.
  Proof.
    intros o s s' V Hc Hs Ho Hsec Hcl E. pose proof (main o s V Hc Hs) as M. destruct (throws o (text s)); [congruence|].
    destruct M as (s2 & E2 & _ & _ & _ & _ & S2 & C2). assert (s2 = s') by congruence. subst s2. apply (C2 Ho); [intros _; exact Hcl|]. now rewrite S2, Hsec.
  Qed.
  (** C44: a string is secure from set_secure() on, and from the assignment of a secure string or a part of one on *)
  Theorem C44_inherited : forall o s s', valid s -> call_ok o (text s) -> safe o (text s) -> apply o s = Done s' ->
    (sec s' = true <-> sec s = true \/ o = OSecure \/ exists x, sec x = true /\ (o = OAssign (Whole x) \/ exists p n, o = OAssign (Sub x p n))).
  Proof.
    intros o s s' V Hc Hs E. pose proof (main o s V Hc Hs) as M. destruct (throws o (text s)); [congruence|].
    destruct M as (s2 & E2 & _ & _ & _ & _ & S2 & _). assert (s2 = s') by congruence. subst s2. rewrite S2, orb_true_iff.
    split; intros [H|H]; auto.
    - right. destruct o; try discriminate; auto. destruct src; try discriminate; right; eexists; split; eauto.
    - right. destruct H as [->|(x & Hx & [->|(p & n & ->)])]; auto.
  Qed.
  (** C44: clear() (and with it the destructor, line 2617-2625), resize() and every assignment that gives a secure string clear the
      free space whatever was there *)
  Theorem C44_clears : forall o s s', valid s -> call_ok o (text s) -> safe o (text s) -> sec s = true ->
    (match o with OClear | OResize _ _ | OAssign _ => True | _ => False end) ->
    apply o s = Done s' -> forall j, sz s' <= j -> j < cap s' -> buf s' j = z.
  Proof.
    intros o s s' V Hc Hs Hsec Ho E j Hj Hj2. destruct o; try contradiction; cbn [StrModel.apply] in E.
    - assert (Hcl : forall s1, cleanup T z s1 = Done s' -> sz s1 <= cap s1 -> sec s1 = true -> buf s' j = z).
      { intros s1 E1 L1 S1. unfold cleanup in E1. rewrite S1 in E1. rewrite fill_ok in E1 by lia. injection E1 as <-. cbn in *. rewrite fill_loop_spec.
        destruct (Nat.leb_spec (sz s1) j), (Nat.ltb_spec j (sz s1 + (cap s1 - sz s1))); auto; lia. }
      assert (HA : forall rd l n t c, reads T z rd l -> n = length l -> assign_impl T z rd n t c s = Done s' -> buf s' j = z).
      { intros rd l n t c R -> EA. destruct (initialise_ok T z MAX s V) as (s1 & E1 & I1 & I2 & I3 & I4 & I5 & I6). unfold assign_impl in EA. rewrite E1 in EA. cbn [bind] in EA. destruct V as (V1 & V2 & V3).
        destruct (assign_loop_ok T rd (fun i => nth i l z) (length l) 0 s1) as (b & E2 & Hb); [exact R|lia|]. rewrite E2 in EA. cbn [bind] in EA. rewrite put_ok in EA by (cbn; lia). cbn [bind] in EA.
        eapply Hcl; [exact EA|destruct c; cbn; lia|destruct c; cbn; congruence]. }
      destruct src as [l|l|x|x q m]; cbn [StrModel.assign] in E.
      + eapply HA; [apply reads_list|reflexivity|exact E].
      + destruct (reads_cstr T z is_z l Hc) as (E1 & E2). rewrite E1 in E. eapply HA; [exact E2|reflexivity|exact E].
      + eapply HA; [apply (reads_str T z MAX x Hc)|now rewrite text_len|exact E].
      + destruct (Nat.leb_spec q (sz x)); [|discriminate]. destruct (_ <=? S (cap x)) eqn:El; [|discriminate]. cbn [StrSpec.safe StrSpec.call_ok source_ok] in *.
        set (n := if m =? npos MAX then sub MAX (sz x) q else m) in *. assert (Hn : q + n <= sz x). { unfold n, npos. destruct (Nat.eqb_spec m MAX); [rewrite sub_small by lia; lia|]. destruct Hs; [contradiction|assumption]. }
        destruct (reads_sub T z MAX x q n Hc Hn) as (R1 & R2). eapply HA; [exact R1|symmetry; exact R2|exact E].
    - destruct (initialise_ok T z MAX s V) as (s1 & E1 & I1 & I2 & I3 & I4 & I5 & I6). rewrite E1 in E. injection E as <-. apply I6; auto. lia.
    - unfold resize in E. set (s1 := if cap s <? n then set_tr T s true else s) in *. assert (S1 : cap s1 = cap s /\ sz s1 = sz s /\ sec s1 = sec s) by (unfold s1; destruct (cap s <? n); auto). clearbody s1. destruct S1 as (S1 & S2 & S3).
      destruct V as (V1 & V2 & V3). destruct (sz s1 <? Nat.min n (cap s1)) eqn:El.
      + apply Nat.ltb_lt in El. rewrite fill_ok in E by lia. cbn [bind] in E. rewrite put_ok in E by (cbn; lia). cbn [bind] in E. unfold cleanup in E. cbn [sec set_sz set_buf] in E. rewrite S3, Hsec in E.
        rewrite fill_ok in E by (cbn; lia). injection E as <-. cbn [buf set_buf sz set_sz cap] in *. rewrite fill_loop_spec. destruct (Nat.leb_spec (Nat.min n (cap s1)) j); [|lia]. destruct (Nat.ltb_spec j (Nat.min n (cap s1) + (cap s1 - Nat.min n (cap s1)))); [reflexivity|lia].
      + cbn [bind] in E. rewrite put_ok in E by (cbn; lia). cbn [bind] in E. unfold cleanup in E. cbn [sec set_sz set_buf] in E. rewrite S3, Hsec in E.
        rewrite fill_ok in E by (cbn; lia). injection E as <-. cbn [buf set_buf sz set_sz cap] in *. rewrite fill_loop_spec. destruct (Nat.leb_spec (Nat.min n (cap s1)) j); [|lia]. destruct (Nat.ltb_spec j (Nat.min n (cap s1) + (cap s1 - Nat.min n (cap s1)))); [reflexivity|lia].
  Qed.
End Props.

Print Assumptions C11_operation.
Print Assumptions C11_throws.
Print Assumptions C11_history.
Print Assumptions C11_insert_result.
Print Assumptions C44_stays_clear.
Print Assumptions C44_clears.
Print Assumptions C44_inherited.

(** ** defects: calls outside [safe] *)
Notation nstr := (StrModel.str nat).
Definition isz (n : nat) : bool := n =? 0.
(** a string of capacity [c] with text [l] *)
Definition mk (c : nat) (l : list nat) : nstr := mkstr c (length l) (fun i => nth i l 0) false false.
Lemma mk_valid c l : length l <= c -> c < 255 -> valid 0 255 (mk c l).
Proof. intros H H2. unfold valid, mk. cbn. repeat split; auto. now apply nth_overflow. Qed.

Lemma done {A} (o : out nat A) (P : A -> Prop) : match o with Done s => P s | _ => False end -> exists s, o = Done s /\ P s.
Proof. destruct o; eauto; contradiction. Qed.

(** assign(other, subposition, sublength) does not limit the sublength (lines 678-690): characters behind the end of the source are
    copied.  Here the source held [1;2;3;4] and was shortened to [1]. *)
Theorem C11_assign_part_refuted : ~ (forall o s s', valid 0 255 s -> call_ok 0 isz 255 o (text s) -> apply nat 0 isz 255 o s = Done s' ->
  text s' = firstn (cap s) (wanted isz o (text s))).
Proof.
  intros H. set (src := mkstr 4 1 (fun i => nth i [1;0;3;4] 0) false false : nstr).
  assert (E : exists s', apply nat 0 isz 255 (OAssign (Sub src 0 3)) (mk 8 []) = Done s' /\ text s' = [1;0;3]).
  { apply done. vm_compute. reflexivity. }
  assert (V : valid 0 255 src) by (unfold valid, src; conj; [cbn; lia|cbn; lia|reflexivity]).
  destruct E as (s' & E & X). specialize (H (OAssign (Sub src 0 3)) (mk 8 []) s' (mk_valid 8 [] ltac:(cbn; lia) ltac:(lia)) V E). rewrite X in H. vm_compute in H. discriminate.
Qed.
(** … and beyond its buffer: undefined behaviour *)
Theorem C11_assign_part_overrun_refuted : ~ (forall o s, valid 0 255 s -> call_ok 0 isz 255 o (text s) -> apply nat 0 isz 255 o s <> Undef).
Proof. intros H. apply (H (OAssign (Sub (mk 4 [1;2]) 1 9)) (mk 8 []) (mk_valid 8 [] ltac:(cbn; lia) ltac:(lia)) ltac:(apply mk_valid; cbn; lia)). vm_compute. reflexivity. Qed.
(** erase(position, length) does not check the position (lines 1282-1290) *)
Theorem C11_erase_position_refuted : ~ (forall p n s, valid 0 255 s -> apply nat 0 isz 255 (OErase p n) s <> Undef).
Proof. intros H. apply (H 3 255 (mk 8 [1;2]) (mk_valid 8 [1;2] ltac:(cbn; lia) ltac:(lia))). vm_compute. reflexivity. Qed.
(** insert / append of a count close to the maximum of size_type: the sum start + n wraps (line 981), and the fill runs out of the buffer *)
Theorem C11_count_wrap_refuted : ~ (forall n v s, valid 0 255 s -> n <= 255 -> apply nat 0 isz 255 (OAppendFill n v) s <> Undef).
Proof. intros H. apply (H 255 7 (mk 8 [1;2]) (mk_valid 8 [1;2] ltac:(cbn; lia) ltac:(lia))); [lia|]. vm_compute. reflexivity. Qed.
(** insert(position, string, subposition, sublength): the sum wraps (line 1191) and the sublength is not limited *)
Theorem C11_insert_part_wrap_refuted : ~ (forall p m s x, valid 0 255 s -> valid 0 255 x -> p <= sz x -> m <= 255 -> apply nat 0 isz 255 (OInsert 0 (Sub x p m)) s <> Undef).
Proof. intros H. apply (H 2 254 (mk 8 [1;2]) (mk 8 [3;4;5]) (mk_valid 8 [1;2] ltac:(cbn; lia) ltac:(lia)) (mk_valid 8 [3;4;5] ltac:(cbn; lia) ltac:(lia))); [cbn; lia|lia|]. vm_compute. reflexivity. Qed.
(** uninitialized_resize() to a smaller size leaves the characters of a secure string in the buffer *)
Theorem C44_uninitialized_resize_refuted : ~ (forall n s s', valid 0 255 s -> sec s = true -> (forall j, sz s <= j -> j < cap s -> buf s j = 0) ->
  uninitialized_resize nat 0 n s = Done s' -> forall j, sz s' <= j -> j < cap s' -> buf s' j = 0).
Proof.
  intros H. set (s := set_sec nat (mk 4 [1;2;3])).
  assert (Hc : forall j, sz s <= j -> j < cap s -> buf s j = 0). { cbn. intros j H1 H2. assert (j = 3) by lia. now subst. }
  assert (V : valid 0 255 s) by (apply (mk_valid 4 [1;2;3]); cbn; lia).
  assert (E : exists s', uninitialized_resize nat 0 1 s = Done s' /\ sz s' <= 2 /\ 2 < cap s' /\ buf s' 2 = 3). { eexists. split; [reflexivity|]. cbn. repeat split; lia. }
  destruct E as (s' & E & H1 & H2 & H3). specialize (H 1 s s' V eq_refl Hc E 2 H1 H2). congruence.
Qed.
Print Assumptions C11_assign_part_refuted.
Print Assumptions C11_assign_part_overrun_refuted.
Print Assumptions C11_erase_position_refuted.
Print Assumptions C11_count_wrap_refuted.
Print Assumptions C11_insert_part_wrap_refuted.
Print Assumptions C44_uninitialized_resize_refuted.

(** ** the hypotheses are met *)
(** a truncating replace in the middle *)
Example C11_case : valid 0 255 (mk 6 [1;2;3;4]) /\ call_ok 0 isz 255 (OReplace 1 2 (Chars [7;8;9;7;8])) (text (mk 6 [1;2;3;4])) /\ safe isz 255 (OReplace 1 2 (Chars [7;8;9;7;8])) (text (mk 6 [1;2;3;4])) /\
  throws (OReplace 1 2 (Chars [7;8;9;7;8])) (text (mk 6 [1;2;3;4])) = false /\
  exists s', apply nat 0 isz 255 (OReplace 1 2 (Chars [7;8;9;7;8])) (mk 6 [1;2;3;4]) = Done s' /\ text s' = [1;7;8;9;7;8] /\ tr s' = true.
Proof. conj; try (cbn; lia); try (apply mk_valid; cbn; lia); auto. apply done. vm_compute. auto. Qed.
Example C11_throw_case : throws (OInsert 5 (Chars [1])) (text (mk 6 [1;2;3;4])) = true.
Proof. reflexivity. Qed.
Example C11_history_case : allowed nat 0 isz 255 5 [] [OAssign (CStr [1;2;3;0]); OAppendFill 4 9; OErase 1 2; OSecure; OInsert 1 (Whole (mk 4 [4;5])); OResize 2 0] /\
  final nat isz 5 [] false [OAssign (CStr [1;2;3;0]); OAppendFill 4 9; OErase 1 2; OSecure; OInsert 1 (Whole (mk 4 [4;5])); OResize 2 0] = ([1;4], true).
Proof. split; [|reflexivity]. cbn - [Nat.leb]. conj; auto; try lia.
  - exists 0; split; [auto 10|reflexivity].
  - apply (mk_valid 4 [4;5]); cbn; lia.
  - split; [cbn; lia|exact I].
Qed.
Example C44_case : forall j, sz (set_sec nat (mk 4 [1;2;3])) <= j -> j < cap (set_sec nat (mk 4 [1;2;3])) -> buf (set_sec nat (mk 4 [1;2;3])) j = 0.
Proof. cbn. intros j H1 H2. assert (j = 3) by lia. now subst. Qed.
