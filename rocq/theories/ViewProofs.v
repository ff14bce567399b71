From Coq Require Import List Arith Bool ZArith String Lia.
From Verif Require Import Util Slots SortModel SortSpec HeapProofs SortProofs AlgoSpec AlgoModel AlgoProofs ViewSpec ViewModel.
Import ListNotations.

Lemma slice_mid {A} (a l c : list A) : slice (a ++ l ++ c) (List.length a) (List.length a + List.length l) = l.
Proof.
  unfold slice. replace (List.length a + List.length l - List.length a) with (List.length l) by lia.
  rewrite skipn_app, skipn_all, Nat.sub_diag. cbn [app skipn]. rewrite firstn_app, firstn_all, Nat.sub_diag. cbn [firstn]. apply app_nil_r.
Qed.
Lemma range_ok {A} (m : list A) b e l : shows m b e l -> range m b e = V l.
Proof.
  intros (a & c & -> & -> & ->). unfold range. rewrite !app_length.
  replace (Nat.leb (List.length a) (List.length a + List.length l)) with true by (symmetry; apply Nat.leb_le; lia).
  replace (Nat.leb (List.length a + List.length l) (List.length a + (List.length l + List.length c))) with true by (symmetry; apply Nat.leb_le; lia).
  cbn [andb]. now rewrite slice_mid.
Qed.
Lemma shows_len {A} (m : list A) b e l : shows m b e l -> b <= e /\ e <= List.length m /\ e - b = List.length l /\ e = b + List.length l.
Proof. intros (a & c & -> & -> & ->). rewrite !app_length. lia. Qed.
Lemma shows_load {A} (m : list A) b e l i : shows m b e l -> i < List.length l -> exists x, nth_error l i = Some x /\ load m (b + i) = V x.
Proof.
  intros (a & c & -> & -> & ->) Hi. destruct (nth_error l i) as [x|] eqn:E; [|apply nth_error_None in E; lia].
  exists x. split; [reflexivity|]. unfold load. rewrite nth_error_app2 by lia. replace (List.length a + i - List.length a) with i by lia.
  rewrite nth_error_app1 by lia. now rewrite E.
Qed.
Lemma shows_sub {A} (m : list A) b e l p n : shows m b e l -> p + n <= List.length l -> shows m (b + p) (b + p + n) (firstn n (skipn p l)).
Proof.
  intros (a & c & -> & -> & ->) H. exists (a ++ firstn p l), (skipn n (skipn p l) ++ c). conj.
  - rewrite <- !app_assoc. f_equal. rewrite (app_assoc (firstn n _)), firstn_skipn, app_assoc, firstn_skipn. reflexivity.
  - rewrite app_length, firstn_length. lia.
  - rewrite app_length, !firstn_length, skipn_length. lia.
Qed.
Lemma padd_ok {A} (m : list A) p k : p + k <= List.length m -> padd m p k = V (p + k).
Proof. intros H. unfold padd. now rewrite (proj2 (Nat.leb_le _ _) H). Qed.
Lemma psub_ok p k : k <= p -> psub p k = V (p - k).
Proof. intros H. unfold psub. now rewrite (proj2 (Nat.leb_le _ _) H). Qed.

Lemma found_occurs (l s : list Z) i : found_at l s i <-> occurs_at Z.eqb l s i.
Proof.
  split.
  - intros (a & c & -> & <-). split; [rewrite !app_length; lia|]. intros j x y Hx Hy.
    rewrite nth_error_app2 in Hx by lia. replace (List.length a + j - List.length a) with j in Hx by lia.
    rewrite nth_error_app1 in Hx by (apply nth_error_Some; congruence). apply Z.eqb_eq. congruence.
  - intros (L & H). exists (firstn i l), (skipn (List.length s) (skipn i l)). split; [|rewrite firstn_length; lia].
    assert (firstn (List.length s) (skipn i l) = s) as E.
    { apply nth_error_ext. intros j. destruct (Nat.lt_ge_cases j (List.length s)) as [Hj|Hj].
      - rewrite nth_error_firstn. destruct (Nat.ltb_spec j (List.length s)) as [_|K]; [|lia]. rewrite nth_error_skipn.
        destruct (nth_error l (i + j)) as [x|] eqn:Ex; [|apply nth_error_None in Ex; lia].
        destruct (nth_error s j) as [y|] eqn:Ey; [|apply nth_error_None in Ey; lia]. f_equal. apply Z.eqb_eq, (H j); assumption.
      - rewrite (proj2 (nth_error_None s j)) by lia. apply nth_error_None. rewrite firstn_length. lia. }
    rewrite <- E at 1. now rewrite !firstn_skipn.
Qed.

Section V.
  Variable W : nat.
  Variables (m : list Z) (v : view) (l : list Z).
  Hypothesis H : shows m (vb v) (ve v) l.
  Lemma size_ok : size W v = List.length l.
  Proof using H. pose proof (shows_len _ _ _ _ H). unfold size. rewrite (proj2 (Nat.leb_le _ _)) by lia. lia. Qed.
  Lemma empty_ok : empty v = match l with [] => true | _ => false end.
  Proof using H. pose proof (shows_len _ _ _ _ H). unfold empty. destruct l; cbn in *; [apply Nat.eqb_eq; lia|apply Nat.eqb_neq; lia]. Qed.
  Lemma at_ok i : isnull v = false -> at_ W m v i = match nth_error l i with Some c => V c | None => X "string_view_bounds" end.
  Proof using H.
    intros Hn. unfold at_. rewrite Hn, size_ok. cbn [negb etl_assert bind]. destruct (Nat.ltb_spec i (List.length l)) as [L|L].
    - destruct (shows_load m _ _ l i H L) as (x & -> & E). exact E.
    - now rewrite (proj2 (nth_error_None l i) L).
  Qed.
  Lemma index_ok i : i < List.length l -> exists c, nth_error l i = Some c /\ index m v i = V c.
  Proof using H. intros Hi. exact (shows_load m _ _ l i H Hi). Qed.
  Lemma front_ok c r : l = c :: r -> front m v = V c.
  Proof using H.
    intros E. unfold front. destruct (index_ok 0) as (x & Ex & Ei); [rewrite E; cbn; lia|]. unfold index in Ei. rewrite Nat.add_0_r in Ei. rewrite Ei. rewrite E in Ex. cbn in Ex. congruence.
  Qed.
  Lemma back_ok c r : l = r ++ [c] -> back m v = V c.
  Proof using H.
    intros E. pose proof (shows_len _ _ _ _ H) as L. assert (List.length l = S (List.length r)) as Ll by (rewrite E, app_length; cbn; lia).
    unfold back. rewrite psub_ok by lia. cbn [bind]. destruct (index_ok (List.length r)) as (x & Ex & Ei); [lia|].
    unfold index in Ei. replace (ve v - 1) with (vb v + List.length r) by lia. rewrite Ei. rewrite E, nth_error_app2, Nat.sub_diag in Ex by lia. cbn in Ex. congruence.
  Qed.
  (** substr *)
  Lemma substr_ok position count :
    exists u, substr W m v position count = V u /\ shows m (vb u) (ve u) (firstn count (skipn position l)) /\
      (position < List.length l -> isnull u = false /\ vb v <= vb u /\ ve u <= ve v) /\ (List.length l <= position -> u = null_view).
  Proof using H.
    pose proof (shows_len _ _ _ _ H) as L. unfold substr. rewrite size_ok. destruct (Nat.ltb_spec position (List.length l)) as [Hp|Hp].
    - rewrite padd_ok by lia. cbn [bind]. rewrite padd_ok by lia. cbn [bind]. eexists. split; [reflexivity|]. cbn [vb ve isnull]. conj.
      + pose proof (shows_sub m _ _ l position (Nat.min count (List.length l - position)) H ltac:(lia)) as S1.
        replace (firstn count (skipn position l)) with (firstn (Nat.min count (List.length l - position)) (skipn position l)); [exact S1|].
        destruct (Nat.le_ge_cases count (List.length l - position)) as [K|K].
        * now rewrite Nat.min_l.
        * rewrite Nat.min_r by lia. rewrite !firstn_all2; rewrite ?skipn_length; try lia. reflexivity.
      + intros _. split; [reflexivity|]. lia.
      + lia.
    - exists null_view. split; [reflexivity|]. cbn [vb ve isnull null_view]. conj; [|lia|reflexivity].
      rewrite skipn_all2, firstn_nil by lia. exists [], m. now cbn.
  Qed.
  Lemma copy_loop_ok n : forall p d o, p + n <= List.length m -> o + n <= List.length d -> copy_loop n m p d o = V (placed d o (firstn n (skipn p m))).
  Proof using.
    clear H. induction n as [|n IH]; intros p d o Hp Ho; cbn [copy_loop].
    - unfold placed. cbn [firstn List.length app]. now rewrite Nat.add_0_r, firstn_skipn.
    - unfold load at 1. destruct (nth_error m p) as [x|] eqn:E; [|apply nth_error_None in E; lia]. cbn [of_opt bind].
      rewrite (proj2 (Nat.ltb_lt o (List.length d))) by lia. rewrite IH by (rewrite ?upd_length; lia). f_equal.
      assert (skipn p m = x :: skipn (S p) m) as Ep.
      { clear - E. revert m E. induction p as [|p IH]; intros [|y r] E; cbn in *; try discriminate; [congruence|now apply IH]. }
      rewrite Ep. cbn [firstn]. unfold placed. cbn [List.length]. apply nth_error_ext. intros k.
      assert (List.length (firstn n (skipn (S p) m)) = n) as Ln by (rewrite firstn_length, skipn_length; lia). rewrite Ln.
      replace (o + S n) with (S o + n) by lia.
      destruct (Nat.lt_ge_cases k o) as [K|K].
      + rewrite !nth_error_app1 by (rewrite firstn_length, ?upd_length; lia). rewrite !nth_error_firstn. 
        rewrite (proj2 (Nat.ltb_lt k o)), (proj2 (Nat.ltb_lt k (S o))) by lia. apply upd_other. lia.
      + destruct (Nat.eq_dec k o) as [->|Nk].
        * rewrite nth_error_app1 by (rewrite firstn_length, upd_length; lia). rewrite nth_error_firstn, (proj2 (Nat.ltb_lt o (S o))) by lia.
          rewrite upd_same by lia. rewrite nth_error_app2 by (rewrite firstn_length; lia). rewrite firstn_length, Nat.min_l, Nat.sub_diag by lia. reflexivity.
        * rewrite nth_error_app2 by (rewrite firstn_length, upd_length; lia). rewrite (nth_error_app2 (firstn o d)) by (rewrite firstn_length; lia).
          rewrite !firstn_length, upd_length, !Nat.min_l by lia. replace (k - o) with (S (k - S o)) by lia. cbn [app nth_error].
          destruct (Nat.lt_ge_cases (k - S o) n) as [K2|K2]; [rewrite !nth_error_app1 by lia; reflexivity|].
          rewrite !nth_error_app2 by lia. rewrite Ln, !nth_error_skipn. apply upd_other. lia.
  Qed.
  Lemma copy_ok d o count position : o + Nat.min count (List.length l - position) <= List.length d ->
    copy W m v d o count position = V (placed d o (firstn count (skipn position l)), List.length (firstn count (skipn position l))).
  Proof using H.
    intros Hd. pose proof (shows_len _ _ _ _ H) as L. unfold copy. rewrite size_ok. destruct (Nat.ltb_spec position (List.length l)) as [Hp|Hp].
    - rewrite padd_ok by lia. cbn [bind]. rewrite padd_ok by lia. cbn [bind]. set (n := Nat.min count (List.length l - position)) in *.
      replace (vb v + position + n - (vb v + position)) with n by lia. rewrite copy_loop_ok by lia. cbn [bind].
      assert (firstn n (skipn (vb v + position) m) = firstn count (skipn position l)) as E.
      { destruct (H) as (a & c & Em & Eb & Ee). rewrite Em, Eb, skipn_app, skipn_all2 by lia. cbn [app]. replace (List.length a + position - List.length a) with position by lia.
        rewrite skipn_app, firstn_app, skipn_length. replace (n - (List.length l - position)) with 0 by lia. cbn [firstn]. rewrite app_nil_r. unfold n.
        destruct (Nat.le_ge_cases count (List.length l - position)) as [K|K]; [now rewrite Nat.min_l|]. rewrite Nat.min_r by lia. rewrite !firstn_all2; rewrite ?skipn_length; try lia. reflexivity. }
      rewrite E. f_equal. f_equal. rewrite firstn_length, skipn_length. reflexivity.
    - rewrite skipn_all2, firstn_nil by lia. unfold placed. cbn [app List.length]. now rewrite Nat.add_0_r, firstn_skipn.
  Qed.
  Lemma remove_prefix_ok n : n <= List.length l -> exists u, remove_prefix m v n = V u /\ shows m (vb u) (ve u) (skipn n l) /\ ve u = ve v.
  Proof using H.
    intros Hn. pose proof (shows_len _ _ _ _ H) as L. unfold remove_prefix. rewrite padd_ok by lia. cbn [bind]. eexists. split; [reflexivity|]. cbn [vb ve]. split; [|reflexivity].
    pose proof (shows_sub m _ _ l n (List.length l - n) H ltac:(lia)) as K. rewrite firstn_all2 in K by (rewrite skipn_length; lia). now replace (ve v) with (vb v + n + (List.length l - n)) by lia.
  Qed.
  Lemma remove_suffix_ok n : n <= List.length l -> exists u, remove_suffix m v n = V u /\ shows m (vb u) (ve u) (firstn (List.length l - n) l) /\ vb u = vb v.
  Proof using H.
    intros Hn. pose proof (shows_len _ _ _ _ H) as L. unfold remove_suffix. rewrite psub_ok by lia. cbn [bind]. eexists. split; [reflexivity|]. cbn [vb ve]. split; [|reflexivity].
    pose proof (shows_sub m _ _ l 0 (List.length l - n) H ltac:(lia)) as K. cbn [skipn] in K. rewrite Nat.add_0_r in K. now replace (ve v - n) with (vb v + (List.length l - n)) by lia.
  Qed.
End V.

(** ** dictionary order on Z *)
Lemma zlt_asym x y : Z.ltb x y = true -> Z.ltb y x = false.
Proof. rewrite Z.ltb_lt, Z.ltb_ge. lia. Qed.
Lemma lex_cons x l y s : lexicographically_less Z.ltb (x :: l) (y :: s) <-> (x < y)%Z \/ (x = y /\ lexicographically_less Z.ltb l s).
Proof.
  split.
  - intros (a1 & a2 & r1 & r2 & E1 & E2 & F & D). destruct F as [|u w a1 a2 (U1 & U2) F].
    + cbn in E1, E2. subst r1 r2. destruct D as [(D & _)|(u & w & t1 & t2 & D1 & D2 & D3)]; [discriminate|]. injection D1 as <- <-. injection D2 as <- <-. left. now apply Z.ltb_lt.
    + cbn in E1, E2. injection E1 as <- ->. injection E2 as <- ->. right. apply Z.ltb_ge in U1, U2. split; [lia|]. exists a1, a2, r1, r2. now conj.
  - intros [L|(-> & (a1 & a2 & r1 & r2 & E1 & E2 & F & D))].
    + exists [], [], (x :: l), (y :: s). conj; try reflexivity; [constructor|]. right. exists x, y, l, s. conj; try reflexivity. now apply Z.ltb_lt.
    + exists (y :: a1), (y :: a2), r1, r2. conj; [now rewrite E1|now rewrite E2| |exact D]. constructor; [|exact F]. rewrite Z.ltb_irrefl. now split.
Qed.
Lemma lex_nil_l s : lexicographically_less Z.ltb [] s <-> s <> [].
Proof.
  split.
  - intros (a1 & a2 & r1 & r2 & E1 & E2 & F & D) ->. symmetry in E1, E2. apply app_eq_nil in E1 as (-> & ->). apply app_eq_nil in E2 as (-> & ->).
    destruct D as [(_ & D)|(u & w & t1 & t2 & D1 & _)]; [congruence|discriminate].
  - intros Hs. exists [], [], [], s. conj; try reflexivity; [constructor|]. now left.
Qed.
Lemma lex_nil_r l : ~ lexicographically_less Z.ltb l [].
Proof.
  intros (a1 & a2 & r1 & r2 & E1 & E2 & F & D). symmetry in E2. apply app_eq_nil in E2 as (-> & ->).
  destruct D as [(_ & D)|(u & w & t1 & t2 & _ & D1 & _)]; [congruence|discriminate].
Qed.
Lemma lex_total l : forall s, l = s \/ lexicographically_less Z.ltb l s \/ lexicographically_less Z.ltb s l.
Proof.
  induction l as [|x l IH]; intros [|y s].
  - now left.
  - right. left. now apply lex_nil_l.
  - right. right. now apply lex_nil_l.
  - rewrite !lex_cons. destruct (Z.lt_total x y) as [L|[->|L]]; [tauto| |tauto]. destruct (IH s) as [->|[K|K]]; tauto.
Qed.
Lemma lex_irrefl l : ~ lexicographically_less Z.ltb l l.
Proof. induction l as [|x l IH]; [apply lex_nil_r|]. rewrite lex_cons. intros [K|(_ & K)]; [lia|tauto]. Qed.
Lemma lex_asym l : forall s, lexicographically_less Z.ltb l s -> ~ lexicographically_less Z.ltb s l.
Proof.
  induction l as [|x l IH]; intros [|y s]; intros H1 H2; try (now apply lex_nil_r in H1); try (now apply lex_nil_r in H2).
  apply lex_cons in H1, H2. destruct H1 as [H1|(-> & H1)], H2 as [H2|(E & H2)]; try lia. exact (IH s H1 H2).
Qed.
Lemma three_way_zero l s z : three_way l s z -> (Z.eqb z 0 = true <-> l = s).
Proof.
  rewrite Z.eqb_eq. intros [(-> & ->)|[(-> & L)|(-> & L)]]; split; intros E; try reflexivity; try discriminate; subst; exfalso; eapply lex_irrefl; exact L.
Qed.
Lemma forall2_eqb l s : Forall2 (fun x y => Z.eqb x y = true) l s <-> l = s.
Proof.
  split.
  - induction 1 as [|x y l s E F IH]; [reflexivity|]. apply Z.eqb_eq in E. congruence.
  - intros ->. induction s as [|x s IH]; constructor; [apply Z.eqb_refl|exact IH].
Qed.

Section V2.
  Variable W : nat.
  Variables (m : list Z) (v : view) (l : list Z) (m2 : list Z) (v2 : view) (s : list Z).
  Hypothesis H : shows m (vb v) (ve v) l.
  Hypothesis H2 : shows m2 (vb v2) (ve v2) s.
  Lemma eq_ok : exists b, op_eq W m v m2 v2 = V b /\ (b = true <-> l = s).
  Proof using H H2.
    unfold op_eq. rewrite (size_ok W m v l H), (size_ok W m2 v2 s H2). destruct (Nat.eqb_spec (List.length l) (List.length s)) as [E|E].
    - rewrite (range_ok _ _ _ _ H). cbn [bind]. destruct (H2) as (a & c & Em & Eb & Ee).
      assert (shows m2 (vb v2) (List.length m2) (s ++ c)) as K. { exists a, []. rewrite app_nil_r. conj; [exact Em|exact Eb|]. rewrite Em, !app_length. lia. }
      rewrite (range_ok _ _ _ _ K). cbn [bind]. destruct (equal_loop_ok Z.eqb l [] s [] c eq_refl E) as (b & Hb & B). cbn [app List.length] in Hb.
      unfold equal3. rewrite Hb. exists b. split; [reflexivity|]. rewrite B. apply forall2_eqb.
    - exists false. split; [reflexivity|]. split; [discriminate|]. intros ->. congruence.
  Qed.
  Lemma lt_ok : exists b, op_lt m v m2 v2 = V b /\ (b = true <-> lexicographically_less Z.ltb l s).
  Proof using H H2.
    unfold op_lt. rewrite (range_ok _ _ _ _ H). cbn [bind]. rewrite (range_ok _ _ _ _ H2). cbn [bind].
    destruct (lex_loop_ok Z.ltb l (S (List.length l)) [] s [] ltac:(lia) eq_refl zlt_asym) as (b & Hb & B). cbn [app List.length] in Hb. unfold lexicographical_compare. rewrite Hb.
    exists b. split; [reflexivity|exact B].
  Qed.
End V2.
Lemma compare_ok W m v l m2 v2 s : shows m (vb v) (ve v) l -> shows m2 (vb v2) (ve v2) s -> exists z, compare W m v m2 v2 = V z /\ three_way l s z.
Proof.
  intros H H2. unfold compare. destruct (eq_ok W m v l m2 v2 s H H2) as (b & -> & B). cbn [bind]. destruct b.
  - exists 0%Z. split; [reflexivity|]. left. split; [reflexivity|now apply B].
  - unfold op_gt. destruct (lt_ok m2 v2 s m v l H2 H) as (g & -> & G). cbn [bind]. eexists. split; [reflexivity|]. destruct g.
    + right. right. split; [reflexivity|now apply G].
    + right. left. split; [reflexivity|]. destruct (lex_total l s) as [E|[E|E]]; [apply B in E; discriminate|exact E|apply G in E; discriminate].
Qed.
Lemma text_loop_ok m e t : forall l s fuel i j rest, shows m i e l -> nth_error t j = hd_error (s ++ 0%Z :: rest) -> skipn j t = s ++ 0%Z :: rest -> ~ In 0%Z s -> List.length l < fuel ->
  exists z, (let* (i, j, r) := text_loop fuel m i e t j in
    match r with Some z => V z | None => if Nat.eqb i e then (let* c := load t j in if Z.eqb c 0 then V 0%Z else V (-1)%Z) else V 1%Z end) = V z /\ three_way l s z.
Proof.
  induction l as [|x l IH]; intros s fuel i j rest Hs Hj Sj N0 Hf; (destruct fuel as [|fuel]; [cbn in Hf; lia|]); cbn [text_loop]; pose proof (shows_len _ _ _ _ Hs) as L; cbn [List.length] in *.
  - rewrite (proj2 (Nat.eqb_eq i e)) by lia. cbn [bind]. rewrite (proj2 (Nat.eqb_eq i e)) by lia. unfold load. rewrite Hj. destruct s as [|c s]; cbn [app hd_error of_opt bind].
    + exists 0%Z. split; [reflexivity|]. left. now split.
    + destruct (Z.eqb_spec c 0) as [->|Nc]; [exfalso; apply N0; now left|]. exists (-1)%Z. split; [reflexivity|]. right. left. split; [reflexivity|]. now apply lex_nil_l.
  - rewrite (proj2 (Nat.eqb_neq i e)) by lia. unfold load at 1. rewrite Hj. destruct s as [|c s]; cbn [app hd_error of_opt bind].
    + cbn [Z.eqb bind]. rewrite (proj2 (Nat.eqb_neq i e)) by lia. exists 1%Z. split; [reflexivity|]. right. right. split; [reflexivity|]. now apply lex_nil_l.
    + destruct (Z.eqb_spec c 0) as [->|Nc]; [exfalso; apply N0; now left|].
      destruct (shows_load m i e (x :: l) 0 Hs ltac:(cbn; lia)) as (y & Ey & El). cbn in Ey. injection Ey as <-. rewrite Nat.add_0_r in El. rewrite El. cbn [bind].
      destruct (Z.ltb_spec x c) as [Lt|Ge].
      * exists (-1)%Z. split; [reflexivity|]. right. left. split; [reflexivity|]. apply lex_cons. now left.
      * destruct (Z.ltb_spec c x) as [Lt|Ge2].
        -- exists 1%Z. split; [reflexivity|]. right. right. split; [reflexivity|]. apply lex_cons. now left.
        -- assert (x = c) as -> by lia.
           destruct (IH s fuel (S i) (S j) rest) as (z & Hz & T).
           ++ destruct Hs as (a & b & Em & Ei & Ee). exists (a ++ [c]), b. rewrite app_length. cbn [List.length]. conj; [rewrite Em, <- app_assoc; reflexivity|lia|cbn in Ee; lia].
           ++ assert (skipn (S j) t = s ++ 0%Z :: rest) as K. { cbn [app] in Sj. clear - Sj. revert t Sj. induction j as [|j IHj]; intros [|y r] Sj; cbn in *; try discriminate; [congruence|now apply IHj]. }
              rewrite <- K. clear. revert t. induction (S j) as [|k IHk]; intros [|y r]; cbn; try reflexivity. apply IHk.
           ++ cbn [app] in Sj. clear - Sj. revert t Sj. induction j as [|j IHj]; intros [|y r] Sj; cbn in *; try discriminate; [congruence|now apply IHj].
           ++ intros K. apply N0. now right.
           ++ lia.
           ++ exists z. split; [exact Hz|]. destruct T as [(-> & ->)|[(-> & T)|(-> & T)]]; [left; now split|right; left|right; right]; (split; [reflexivity|]); apply lex_cons; right; now split.
Qed.
Lemma compare_text_ok m v l t s : shows m (vb v) (ve v) l -> terminated t s -> exists z, compare_text m v t = V z /\ three_way l s z.
Proof.
  intros H (rest & -> & N0). pose proof (shows_len _ _ _ _ H) as L. unfold compare_text.
  apply (text_loop_ok m (ve v) (s ++ 0%Z :: rest) l s (S (List.length m)) (vb v) 0 rest); [exact H|destruct s; reflexivity|reflexivity|exact N0|lia].
Qed.
Lemma strlen_ok t s : terminated t s -> strlen t = V (List.length s).
Proof.
  intros (rest & -> & N0). unfold strlen.
  assert (forall r d fuel, s = d ++ r -> List.length r < fuel -> strlen_loop fuel (s ++ 0%Z :: rest) (List.length d) = V (List.length s)) as K.
  { induction r as [|c r IH]; intros d [|fuel] E Hf; try (cbn in Hf; lia); cbn [strlen_loop].
    - rewrite app_nil_r in E. subst d. unfold load. rewrite nth_error_app2, Nat.sub_diag by lia. reflexivity.
    - unfold load. rewrite E at 1. rewrite <- app_assoc, nth_error_app2, Nat.sub_diag by lia. cbn [app nth_error of_opt bind].
      destruct (Z.eqb_spec c 0) as [->|_]; [exfalso; apply N0; rewrite E; apply in_or_app; right; now left|].
      specialize (IH (d ++ [c]) fuel). rewrite app_length in IH. cbn [List.length] in IH. rewrite Nat.add_1_r in IH. apply IH; [rewrite E, <- app_assoc; reflexivity|cbn in Hf; lia]. }
  apply (K s [] (S (List.length (s ++ 0%Z :: rest)))); [reflexivity|]. rewrite app_length. lia.
Qed.
Lemma of_text_ok t s : terminated t s -> exists v, of_text t = V v /\ shows t (vb v) (ve v) s /\ isnull v = false.
Proof.
  intros T. unfold of_text. rewrite (strlen_ok t s T). cbn [bind]. eexists. split; [reflexivity|]. split; [|reflexivity]. destruct T as (rest & -> & _). exists [], (0%Z :: rest). now conj.
Qed.

(** ** searches *)
Section V3.
  Variable W : nat.
  Variables (m : list Z) (v : view) (l : list Z) (m2 : list Z) (v2 : view) (s : list Z).
  Hypothesis H : shows m (vb v) (ve v) l.
  Hypothesis H2 : shows m2 (vb v2) (ve v2) s.
  Lemma found_skip p k : p <= List.length l -> (found_at (skipn p l) s k <-> found_at l s (p + k)).
  Proof using.
    clear H H2. intros Hp. split.
    - intros (a & c & E & <-). exists (firstn p l ++ a), c. rewrite <- app_assoc, <- E, firstn_skipn, app_length, firstn_length. split; [reflexivity|lia].
    - intros (a & c & E & La). exists (skipn p a), c. rewrite E, skipn_app, skipn_length. replace (p - List.length a) with 0 by lia. split; [reflexivity|lia].
  Qed.
  Lemma found_first p k : p <= List.length l -> (found_at (firstn p l) s k <-> found_at l s k /\ k + List.length s <= p).
  Proof using.
    clear H H2. intros Hp. split.
    - intros (a & c & E & <-). split.
      + exists a, (c ++ skipn p l). split; [|reflexivity]. rewrite <- (firstn_skipn p l) at 1. rewrite E, <- !app_assoc. reflexivity.
      + assert (List.length (firstn p l) = p) as L by (rewrite firstn_length; lia). rewrite E, !app_length in L. lia.
    - intros ((a & c & E & La) & L). exists a, (firstn (p - List.length a - List.length s) c). split; [|exact La]. rewrite E, !firstn_app, !firstn_all2 by lia. reflexivity.
  Qed.
  Lemma found_bound k : found_at l s k -> k + List.length s <= List.length l.
  Proof using. clear H H2. intros (a & c & -> & <-). rewrite !app_length. lia. Qed.
  Lemma find_ok position : position <= List.length l -> (s <> [] \/ position < List.length l) ->
    exists r, find W m v m2 v2 position = V r /\ first_in (found_at l s) position (List.length l) r.
  Proof using H H2.
    intros Hp Hs. pose proof (shows_len _ _ _ _ H) as L. unfold find. rewrite (size_ok W m v l H), (size_ok W m2 v2 s H2).
    destruct (Nat.ltb_spec (List.length l) (List.length s)) as [K|K].
    { exists None. split; [reflexivity|]. intros k Hk F. apply found_bound in F. lia. }
    rewrite padd_ok by lia. cbn [bind]. assert (shows m (vb v + position) (ve v) (skipn position l)) as Hsk.
    { pose proof (shows_sub m _ _ l position (List.length l - position) H ltac:(lia)) as K2. rewrite firstn_all2 in K2 by (rewrite skipn_length; lia). now replace (ve v) with (vb v + position + (List.length l - position)) by lia. }
    rewrite (range_ok _ _ _ _ Hsk). cbn [bind]. rewrite (range_ok _ _ _ _ H2). cbn [bind]. unfold search.
    destruct (search_loop_ok Z.eqb (skipn position l) s (S (List.length (skipn position l))) 0) as (r & Hr & Hle & _ & Hno & Hor); [lia|lia|]. rewrite Hr. cbn [of_opt bind].
    rewrite skipn_length in *. assert (forall k, position <= k < position + r -> ~ found_at l s k) as No.
    { intros k Hk F. apply (Hno (k - position)); [lia|]. apply found_occurs, found_skip; [lia|]. now replace (position + (k - position)) with k by lia. }
    destruct (Nat.eqb_spec (vb v + position + r) (ve v)) as [E|E].
    - exists None. split; [reflexivity|]. intros k Hk. apply No. lia.
    - exists (Some (position + r)). split; [f_equal; f_equal; lia|]. cbn. conj; [lia|lia| |exact No].
      destruct Hor as [Ho|(Ho & _)]; [|lia]. apply found_occurs, found_skip in Ho; [exact Ho|lia].
  Qed.
  Lemma find_outside position : List.length s <= List.length l -> List.length l < position -> find W m v m2 v2 position = UB.
  Proof using H H2.
    intros Hs Hp. pose proof (shows_len _ _ _ _ H) as L. unfold find. rewrite (size_ok W m v l H), (size_ok W m2 v2 s H2).
    rewrite (proj2 (Nat.ltb_ge _ _)) by lia. unfold padd. destruct (Nat.leb_spec (vb v + position) (List.length m)) as [K|K]; [|reflexivity].
    cbn [bind]. unfold range at 1. rewrite (proj2 (Nat.leb_gt _ _)) by lia. reflexivity.
  Qed.
  Lemma find_empty_end : s = [] -> find W m v m2 v2 (List.length l) = V None.
  Proof using H H2.
    intros E. pose proof (shows_len _ _ _ _ H) as L. unfold find. rewrite (size_ok W m v l H), (size_ok W m2 v2 s H2). rewrite E. cbn [List.length Nat.ltb Nat.leb].
    rewrite padd_ok by lia. cbn [bind]. assert (shows m (vb v + List.length l) (ve v) []) as Hsk.
    { destruct H as (a & c & Em & Eb & Ee). exists (a ++ l), c. rewrite <- app_assoc, app_length. cbn. conj; [exact Em|lia|lia]. }
    rewrite (range_ok _ _ _ _ Hsk). cbn [bind]. rewrite (range_ok _ _ _ _ H2), E. cbn. now rewrite (proj2 (Nat.eqb_eq _ _)) by lia.
  Qed.
  Lemma rfind_ok position : s <> [] -> let p := Nat.min position (List.length l) in
    exists r, rfind W m v m2 v2 position = V r /\
      ((exists i, r = Some i /\ found_at l s i /\ i + List.length s <= p /\ forall k, i < k -> k + List.length s <= p -> ~ found_at l s k) \/
       ((forall k, k + List.length s <= p -> ~ found_at l s k) /\ r = if Nat.ltb (List.length l) (List.length s) then None else if Nat.ltb position (List.length l) then Some position else None)).
  Proof using H H2.
    intros Hs p. pose proof (shows_len _ _ _ _ H) as L. unfold rfind. rewrite (size_ok W m v l H), (size_ok W m2 v2 s H2).
    destruct (Nat.ltb_spec (List.length l) (List.length s)) as [K|K].
    { exists None. split; [reflexivity|]. right. split; [|reflexivity]. intros k Hk F. apply found_bound in F. lia. }
    cbv zeta. fold p. rewrite padd_ok by lia. cbn [bind]. assert (shows m (vb v) (vb v + p) (firstn p l)) as Hsk.
    { pose proof (shows_sub m _ _ l 0 p H ltac:(lia)) as K2. cbn [skipn] in K2. now rewrite Nat.add_0_r in K2. }
    rewrite (range_ok _ _ _ _ Hsk). cbn [bind]. rewrite (range_ok _ _ _ _ H2). cbn [bind]. unfold find_end.
    replace (Nat.eqb 0 (List.length s)) with false by (destruct s; [congruence|reflexivity]). assert (0 < List.length s) as Lp by (destruct s; [congruence|cbn; lia]).
    destruct (find_end_loop_ok Z.eqb (firstn p l) s Hs (S (List.length (firstn p l))) 0 (List.length (firstn p l))) as (r & Hr & D); [lia|lia|left; split; [reflexivity|lia]|].
    rewrite Hr. cbn [of_opt bind]. assert (List.length (firstn p l) = p) as Lf by (rewrite firstn_length; lia). rewrite Lf in D. destruct D as [(-> & D)|(D1 & D2)].
    - exists (if Nat.ltb position (List.length l) then Some position else None). split.
      + destruct (Nat.ltb_spec position (List.length l)) as [Hp|Hp].
        * rewrite (proj2 (Nat.eqb_neq _ _)) by lia. f_equal. f_equal. lia.
        * now rewrite (proj2 (Nat.eqb_eq _ _)) by lia.
      + right. split; [|reflexivity].
        intros k Hk F. apply (D k), found_occurs, found_first; [lia|]. now split.
    - apply found_occurs, found_first in D1; [|lia]. destruct D1 as (D1 & D3). exists (Some r). split.
      + now rewrite (proj2 (Nat.eqb_neq _ _)) by lia.
      + left. exists r. conj; [reflexivity|exact D1|exact D3|]. intros k Hk Hk2 F. apply (D2 k Hk), found_occurs, found_first; [lia|]. now split.
  Qed.
  Lemma rfind_empty_needle position : s = [] -> rfind W m v m2 v2 position = V (if Nat.ltb position (List.length l) then Some position else None).
  Proof using H H2.
    intros E. pose proof (shows_len _ _ _ _ H) as L. unfold rfind. rewrite (size_ok W m v l H), (size_ok W m2 v2 s H2). rewrite E. cbn [List.length].
    rewrite (proj2 (Nat.ltb_ge _ 0)) by lia. cbv zeta. rewrite padd_ok by lia. cbn [bind].
    set (p := Nat.min position (List.length l)). assert (shows m (vb v) (vb v + p) (firstn p l)) as Hsk.
    { pose proof (shows_sub m _ _ l 0 p H ltac:(lia)) as K2. cbn [skipn] in K2. now rewrite Nat.add_0_r in K2. }
    rewrite (range_ok _ _ _ _ Hsk). cbn [bind]. rewrite (range_ok _ _ _ _ H2), E. cbn [bind find_end List.length Nat.eqb of_opt]. rewrite firstn_length, Nat.min_l by lia.
    destruct (Nat.ltb_spec position (List.length l)) as [Hp|Hp].
    - rewrite (proj2 (Nat.eqb_neq _ _)) by lia. f_equal. f_equal. lia.
    - now rewrite (proj2 (Nat.eqb_eq _ _)) by lia.
  Qed.
  (** character sets *)
  Lemma member_ok c : exists b, member W m2 v2 c = V b /\ (b = true <-> In c s).
  Proof using H2.
    unfold member. rewrite (size_ok W m2 v2 s H2).
    assert (forall r d, s = d ++ r -> exists b, member_loop (List.length r) m2 v2 c (List.length d) = V b /\ (b = true <-> In c r)) as K.
    { induction r as [|y r IH]; intros d E; cbn [member_loop List.length].
      - exists false. split; [reflexivity|]. split; [discriminate|intros []].
      - destruct (index_ok m2 v2 s H2 (List.length d)) as (x & Ex & ->); [rewrite E, app_length; cbn; lia|]. rewrite E, nth_error_app2, Nat.sub_diag in Ex by lia. injection Ex as <-. cbn [bind].
        destruct (Z.eqb_spec c y) as [->|N]; [exists true; split; [reflexivity|]; split; [left; reflexivity|reflexivity]|].
        specialize (IH (d ++ [y])). rewrite app_length in IH. cbn [List.length] in IH. rewrite Nat.add_1_r in IH. destruct IH as (b & Hb & B); [rewrite E, <- app_assoc; reflexivity|].
        exists b. split; [exact Hb|]. rewrite B. cbn. split; [now right|]. intros [K|K]; [congruence|exact K]. }
    exact (K s [] eq_refl).
  Qed.
  Definition wanted (want : bool) := if want then char_in l s else char_not_in l s.
  Lemma wanted_dec want i c b : nth_error l i = Some c -> (b = true <-> In c s) -> (Bool.eqb b want = true <-> wanted want i).
  Proof using.
    clear H H2. intros E B. unfold wanted, char_in, char_not_in. destruct want, b; cbn; split; intros K; try discriminate; try reflexivity.
    - exists c. split; [exact E|now apply B].
    - destruct K as (c' & E' & I). assert (c' = c) as -> by congruence. now apply B.
    - destruct K as (c' & E' & I). assert (c' = c) as -> by congruence. exfalso. apply I. now apply B.
    - exists c. split; [exact E|]. intros I. apply B in I. discriminate.
  Qed.
  Lemma find_first_ok want position : exists r, find_first W want m v m2 v2 position = V r /\ first_in (wanted want) position (List.length l) r.
  Proof using H H2.
    unfold find_first. rewrite (size_ok W m v l H). destruct (Nat.ltb_spec position (List.length l)) as [Hp|Hp].
    - assert (forall n p, p + n = List.length l -> exists r, first_loop W n want m v m2 v2 p = V r /\ first_in (wanted want) p (List.length l) r) as K.
      { induction n as [|n IH]; intros p E; cbn [first_loop].
        - exists None. split; [reflexivity|]. intros k Hk. lia.
        - destruct (index_ok m v l H p) as (c & Ec & ->); [lia|]. cbn [bind]. destruct (member_ok c) as (b & -> & B). cbn [bind].
          pose proof (wanted_dec want p c b Ec B) as Wd. destruct (Bool.eqb b want).
          + exists (Some p). split; [reflexivity|]. cbn. conj; [lia|lia|now apply Wd|intros k Hk; lia].
          + assert (~ wanted want p) as Np by (intros K; apply Wd in K; discriminate). destruct (IH (S p)) as (r & Hr & F); [lia|]. exists r. split; [exact Hr|]. destruct r as [i|]; cbn in *.
            * destruct F as (F1 & F2 & F3). conj; [lia|lia|exact F2|]. intros k Hk. destruct (Nat.eq_dec k p) as [->|]; [exact Np|apply F3; lia].
            * intros k Hk. destruct (Nat.eq_dec k p) as [->|]; [exact Np|apply F; lia]. }
      apply K. lia.
    - exists None. split; [reflexivity|]. intros k Hk. lia.
  Qed.
  Lemma find_last_ok want position : exists r, find_last W want m v m2 v2 position = V r /\ last_in (wanted want) 0 (Nat.min (S position) (List.length l)) r.
  Proof using H H2.
    unfold find_last. rewrite (empty_ok m v l H), (size_ok W m v l H). destruct l as [|c0 l0] eqn:El.
    - exists None. split; [reflexivity|]. cbn. intros k Hk. lia.
    - rewrite <- El in *. assert (0 < List.length l) as Lp by (rewrite El; cbn; lia). clear El c0 l0.
      assert (forall n, n <= List.length l -> exists r, last_loop W n want m v m2 v2 = V r /\ last_in (wanted want) 0 n r) as K.
      { induction n as [|p IH]; intros E; cbn [last_loop].
        - exists None. split; [reflexivity|]. intros k Hk. lia.
        - destruct (index_ok m v l H p) as (c & Ec & ->); [lia|]. cbn [bind]. destruct (member_ok c) as (b & -> & B). cbn [bind].
          pose proof (wanted_dec want p c b Ec B) as Wd. destruct (Bool.eqb b want).
          + exists (Some p). split; [reflexivity|]. cbn. conj; [lia|lia|now apply Wd|intros k Hk; lia].
          + assert (~ wanted want p) as Np by (intros K; apply Wd in K; discriminate). destruct IH as (r & Hr & F); [lia|]. exists r. split; [exact Hr|]. destruct r as [i|]; cbn in *.
            * destruct F as (F1 & F2 & F3). conj; [lia|lia|exact F2|]. intros k Hk. destruct (Nat.eq_dec k p) as [->|]; [exact Np|apply F3; lia].
            * intros k Hk. destruct (Nat.eq_dec k p) as [->|]; [exact Np|apply F; lia]. }
      replace (S (Nat.min position (List.length l - 1))) with (Nat.min (S position) (List.length l)) by lia. apply K. lia.
  Qed.
End V3.
