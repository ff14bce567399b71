(** * C39: etl::bitset<N, TElement> is the bit vector of N bits.

    [bits W N ws] is the list of the N bits held by the element array [ws] (bit p is bit
    p mod W of element p / W); [wf W N ws]: the array has the right number of elements, each
    of W bits; [clean W N ws]: the unused bits of the last element (positions N and above)
    are 0.  The operations on lists of bits are in BitsetSpec.v. *)
From Coq Require Import List Bool Arith ZArith Lia.
From Verif Require Import Util BinaryModel BitsetSpec BitsetModel BitsetProofs BitsetOps BitsetOps2 BitsetOps3 BitsetOps4 BitsetOps5 BitsetAbs.
Import ListNotations.
Local Open Scope nat_scope.

(** ** observers that depend on the N bits only *)
Theorem C39_test_all_text : forall W N ws, bwidth W -> 0 < N -> wf W N ws ->
  (forall p, bs_test W N ws p = if p <? N then Ok (sp_test (bits W N ws) p) else Overflow) /\
  (forall p, p < N -> bs_index W ws p = Ok (sp_test (bits W N ws) p)) /\
  bs_all W N ws = sp_all (bits W N ws) /\
  (forall C (zero one : C), bs_text W N ws zero one = Ok (sp_text (bits W N ws) zero one)).
Proof.
  intros W N ws HW HN Hw. conj.
  - intros p. rewrite (test_ok W N HW HN ws p Hw). destruct (Nat.ltb_spec p N) as [L|L]; [|reflexivity]. unfold sp_test. now rewrite bits_nth.
  - intros p Hp. unfold sp_test. rewrite bits_nth by exact Hp. now apply (index_ok W N HW HN).
  - apply eq_true_iff_eq. rewrite (all_ok W N HW HN ws Hw). unfold sp_all. rewrite forallb_nth, bits_len. split; intros H q Hq; [rewrite bits_nth by exact Hq|rewrite <- (bits_nth W N ws q Hq)]; auto.
  - intros C zero one. now apply (text_ok W N HW HN).
Qed.

(** find_first / find_next: the least position from p on in the wanted state *)
Theorem C39_find : forall W N ws state p, bwidth W -> 0 < N -> wf W N ws -> find_fine W N p ->
  bs_find_next W N ws state p = Ok (sp_find (bits W N ws) state p).
Proof. intros W N ws state p HW HN Hw Hf. now apply find_ok. Qed.
Corollary C39_find_first : forall W N ws state, bwidth W -> 0 < N -> wf W N ws ->
  bs_find_first W N ws state = Ok (sp_find (bits W N ws) state 0).
Proof. intros W N ws state HW HN Hw. apply C39_find; auto. right. left. rewrite Nat.mod_0_l; [lia|]. apply bw_pos in HW. lia. Qed.
(** what [sp_find] is *)
Theorem C39_find_is_least : forall b state p q,
  (sp_find b state p = Some q <-> p <= q < List.length b /\ sp_test b q = state /\ (forall r, p <= r < q -> sp_test b r <> state)) /\
  (sp_find b state p = None <-> (forall r, p <= r < List.length b -> sp_test b r <> state)).
Proof.
  intros b state p q. rewrite sp_find_ffrom. unfold sp_test. set (f := fun q => nth q b false).
  assert (G : forall k a, (ffrom (fun q => Bool.eqb (f q) state) a k = Some q <-> a <= q < a + k /\ f q = state /\ (forall r, a <= r < q -> f r <> state)) /\
                          (ffrom (fun q => Bool.eqb (f q) state) a k = None <-> (forall r, a <= r < a + k -> f r <> state))).
  { induction k as [|k IH]; intros a; cbn [ffrom].
    - split; split; try discriminate; try (intros; reflexivity); [intros [H _]; lia|intros _ r Hr; lia].
    - destruct (Bool.eqb (f a) state) eqn:E.
      + apply Bool.eqb_prop in E. split; split.
        * intros [= <-]. conj; auto; lia.
        * intros (H1 & H2 & H3). destruct (Nat.eq_dec a q) as [->|]; [reflexivity|]. exfalso. apply (H3 a); [lia|exact E].
        * discriminate.
        * intros H. exfalso. apply (H a); [lia|exact E].
      + assert (E' : f a <> state) by (intros E'; rewrite E', Bool.eqb_reflx in E; discriminate). destruct (IH (S a)) as [I1 I2]. split.
        * rewrite I1. split; intros (H1 & H2 & H3); conj; auto; try lia.
          -- intros r Hr. destruct (Nat.eq_dec r a) as [->|]; [exact E'|]. apply H3. lia.
          -- destruct (Nat.eq_dec a q) as [<-|]; [contradiction|lia].
          -- intros r Hr. apply H3. lia.
        * rewrite I2. split; intros H r Hr; [|apply H; lia]. destruct (Nat.eq_dec r a) as [->|]; [exact E'|]. apply H. lia. }
  destruct (G (List.length b - p) p) as [G1 G2]. destruct (Nat.le_gt_cases p (List.length b)) as [L|L].
  - replace (p + (List.length b - p)) with (List.length b) in * by lia. split; [exact G1|exact G2].
  - replace (List.length b - p) with 0 in * by lia. split; [rewrite G1|rewrite G2]; split; [intros (H & _)|intros (H & _)|intros _ r Hr|intros _ r Hr]; lia.
Qed.

(** ** changes: the resulting N bits *)
Theorem C39_set_reset_flip : forall W N ws p v, bwidth W -> 0 < N -> wf W N ws ->
  let b := bits W N ws in
  (p < N -> exact W N (bs_set W N ws p v) (sp_put b p v) /\ exact W N (bs_reset W N ws p) (sp_put b p false) /\
            exact W N (bs_flip W N ws p) (sp_flip b p)) /\
  (N <= p -> bs_set W N ws p v = Overflow /\ bs_reset W N ws p = Overflow /\ bs_flip W N ws p = Overflow).
Proof.
  intros W N ws p v HW HN Hw b. split.
  - intros Hp. assert (Lb : forall p v, List.length (sp_put b p v) = N) by (intros; rewrite put_len; apply bits_len).
    assert (Pn : forall p v q, q < N -> nth q (sp_put b p v) false = if q =? p then v else bitat W ws q).
    { intros p0 v0 q Hq. rewrite put_nth by (unfold b; rewrite bits_len; exact Hq). unfold b. now rewrite bits_nth. }
    conj.
    + eapply (post_exact W N HW HN); [apply (set_ok W N HW HN ws p v Hw Hp)|apply Lb|]. intros q Hq. now rewrite Pn.
    + eapply (post_exact W N HW HN); [apply (reset_ok W N HW HN ws p Hw Hp)|apply Lb|]. intros q Hq. now rewrite Pn.
    + eapply (post_exact W N HW HN); [apply (flip_ok W N HW HN ws p Hw Hp)|apply Lb|]. intros q Hq. unfold sp_flip. rewrite Pn by exact Hq. unfold sp_test, b. rewrite bits_nth by exact Hp. reflexivity.
  - intros Hp. unfold bs_set, bs_reset, bs_flip. destruct (Nat.ltb_spec p N); [lia|]. conj; reflexivity.
Qed.
Theorem C39_set_all_reset_all_not : forall W N ws, bwidth W -> 0 < N -> wf W N ws ->
  let b := bits W N ws in
  exact W N (Ok (bs_set_all W N ws)) (sp_fill b true) /\ exact W N (Ok (bs_reset_all ws)) (sp_fill b false) /\
  exact W N (Ok (bs_flip_all W ws)) (sp_not b) /\ exact W N (Ok (bs_not W ws)) (sp_not b).
Proof.
  intros W N ws HW HN Hw b. assert (Lb : List.length b = N) by apply bits_len.
  assert (Fl : forall v q, q < N -> nth q (sp_fill b v) false = v) by (intros v q Hq; unfold sp_fill; rewrite Lb; rewrite (nth_indep _ false v) by (now rewrite repeat_length); apply nth_repeat).
  assert (Nt : exact W N (Ok (bs_flip_all W ws)) (sp_not b)).
  { destruct (flip_all_ok W N HW HN ws Hw) as [F1 F2]. eexists. split; [reflexivity|]. split; [exact F1|]. apply bits_ext; [unfold sp_not; now rewrite map_length|].
    intros p Hp. rewrite F2 by (pose proof (nelem_bound W N (proj1 (bw_pos W HW))); lia). unfold sp_not. rewrite (nth_indep _ false (negb false)) by (now rewrite map_length, Lb). rewrite map_nth. unfold b. now rewrite bits_nth. }
  conj; try exact Nt.
  - destruct (set_all_ok W N HW HN ws Hw) as [F1 F2]. eexists. split; [reflexivity|]. split; [exact F1|]. apply bits_ext; [unfold sp_fill; now rewrite repeat_length|].
    intros p Hp. rewrite F2 by (pose proof (nelem_bound W N (proj1 (bw_pos W HW))); lia). rewrite Fl by exact Hp. now apply Nat.ltb_lt.
  - destruct (reset_all_ok W N HW HN ws Hw) as [F1 F2]. eexists. split; [reflexivity|]. split; [exact F1|]. apply bits_ext; [unfold sp_fill; now rewrite repeat_length|].
    intros p Hp. rewrite F2. now rewrite Fl.
Qed.
Theorem C39_and_or_xor : forall W N l r, bwidth W -> 0 < N -> wf W N l -> wf W N r ->
  exact W N (Ok (bs_and l r)) (sp_map2 (bits W N l) andb (bits W N r)) /\
  exact W N (Ok (bs_or l r)) (sp_map2 (bits W N l) orb (bits W N r)) /\
  exact W N (Ok (bs_xor l r)) (sp_map2 (bits W N l) xorb (bits W N r)).
Proof.
  intros W N l r HW HN Hl Hr. pose proof (proj1 (nelem_bound W N (proj1 (bw_pos W HW)))) as B.
  assert (G : forall ws f, wf W N ws -> (forall q, q < nelem W N * W -> bitat W ws q = f (bitat W l q) (bitat W r q)) -> exact W N (Ok ws) (sp_map2 (bits W N l) f (bits W N r))).
  { intros ws f F1 F2. eexists. split; [reflexivity|]. split; [exact F1|]. apply bits_ext; [rewrite map2_len'; apply bits_len|]. intros p Hp. rewrite F2 by lia. rewrite map2_nth' by (now rewrite bits_len). now rewrite !bits_nth. }
  conj; [destruct (and_ok W N HW HN l r Hl Hr)|destruct (or_ok W N HW HN l r Hl Hr)|destruct (xor_ok W N HW HN l r Hl Hr)]; now apply G.
Qed.
(** a text longer than N contributes its first N characters; no text (null) clears *)
Theorem C39_from_string : forall W N ws t, bwidth W -> 0 < N -> wf W N ws -> (N <= W -> t <> []) ->
  exact W N (bs_from_string W N ws (Some t)) (sp_of_text N t) /\
  exact W N (bs_from_string W N ws None) (repeat false N).
Proof.
  intros W N ws t HW HN Hw Ht. split.
  - eapply (post_exact W N HW HN); [apply (from_string_ok W N HW HN ws t Hw)|apply (sp_of_text_len W N HW HN)|reflexivity].
    intros E. apply Ht. pose proof (nelem_bound W N (proj1 (bw_pos W HW))). rewrite E in H. lia.
  - eapply (post_exact W N HW HN); [apply (from_null_ok W N HW HN ws Hw)|apply repeat_length|]. intros q Hq. now rewrite nth_repeat.
Qed.
(** construction from a number: its N low bits *)
Theorem C39_of_value : forall W N v, bwidth W -> 0 < N -> (0 <= v < 2 ^ 64)%Z ->
  exact W N (Ok (bs_of_value W N v)) (sp_of_value N v) /\ exact W N (Ok (bs_new W N)) (repeat false N).
Proof.
  intros W N v HW HN Hv. pose proof (proj1 (nelem_bound W N (proj1 (bw_pos W HW)))) as B. split.
  - destruct (of_value_ok W N HW HN v Hv) as [F1 F2]. eexists. split; [reflexivity|]. split; [exact F1|]. apply bits_ext; [unfold sp_of_value; now rewrite map_length, seq_length|].
    intros p Hp. rewrite F2 by lia. unfold sp_of_value. now rewrite nth_seq_map.
  - destruct (new_ok W N HW HN) as [F1 F2]. eexists. split; [reflexivity|]. split; [exact F1|]. apply bits_ext; [apply repeat_length|]. intros p Hp. now rewrite F2, nth_repeat.
Qed.
(** << *)
Theorem C39_shift_left : forall W N ws s, bwidth W -> 0 < N -> wf W N ws -> shl_fine W N s ->
  exact W N (bs_shl W N ws s) (sp_shl (bits W N ws) s) /\ exact W N (bs_shl_assign W N ws s) (sp_shl (bits W N ws) s).
Proof.
  intros W N ws s HW HN Hw Hf. pose proof (proj1 (nelem_bound W N (proj1 (bw_pos W HW)))) as B.
  assert (Lb : List.length (sp_shl (bits W N ws) s) = N) by (rewrite shl_len; apply bits_len).
  assert (G : exact W N (bs_shl W N ws s) (sp_shl (bits W N ws) s)).
  { destruct (Nat.le_gt_cases N s) as [L|L].
    - rewrite (proj1 (sh_all_eq W N HW HN ws s L)). destruct (reset_all_ok W N HW HN ws Hw) as [F1 F2]. eexists. split; [reflexivity|]. split; [exact F1|]. apply bits_ext; [exact Lb|].
      intros p Hp. rewrite F2, shl_nth by (now rewrite bits_len). destruct (Nat.leb_spec s p); [lia|reflexivity].
    - eapply (post_exact W N HW HN); [now apply shl_ok_|exact Lb|]. intros q Hq. rewrite shl_nth by (now rewrite bits_len). unfold raw_shl. destruct (Nat.leb_spec s q); [|reflexivity]. now rewrite bits_nth by lia. }
  split; [exact G|]. unfold bs_shl_assign. destruct (Nat.leb_spec N s) as [L|L]; [|exact G]. rewrite <- (proj1 (sh_all_eq W N HW HN ws s L)). exact G.
Qed.

(** ** observers that look at whole elements: right when the unused bits are 0 *)
Theorem C39_count_any_none_value_eq : forall W N ws, bwidth W -> 0 < N -> wf W N ws -> clean W N ws ->
  let b := bits W N ws in
  bs_count W ws = Z.of_nat (sp_count b) /\ bs_any ws = sp_any b /\ bs_none ws = sp_none b /\
  (forall wt, nelem W N * W <= wt -> bs_value W wt ws = sp_value b) /\
  bs_to_ullong W N ws = (if N <=? 64 then Ok (sp_value b) else Overflow) /\
  (forall ws2, wf W N ws2 -> clean W N ws2 -> bs_eq ws ws2 = true <-> b = bits W N ws2).
Proof.
  intros W N ws HW HN Hw Hc b. conj.
  - now apply clean_count.
  - rewrite (bs_any_eq W N HW HN), (clean_none W N HW HN ws Hw Hc). apply negb_involutive.
  - rewrite (bs_none_eq W N HW HN), (clean_none W N HW HN ws Hw Hc). reflexivity.
  - intros wt H. now apply clean_value.
  - unfold bs_to_ullong. destruct (Nat.leb_spec N 64); [|reflexivity]. f_equal. apply (clean_value W N HW HN); auto. now apply to_ullong_fits.
  - intros ws2 Hw2 Hc2. now apply clean_eq.
Qed.
(** >> *)
Theorem C39_shift_right : forall W N ws s, bwidth W -> 0 < N -> wf W N ws -> clean W N ws -> shr_fine W N s ->
  exact W N (bs_shr W N ws s) (sp_shr (bits W N ws) s) /\ exact W N (bs_shr_assign W N ws s) (sp_shr (bits W N ws) s).
Proof.
  intros W N ws s HW HN Hw Hc Hf. pose proof (proj1 (nelem_bound W N (proj1 (bw_pos W HW)))) as B.
  assert (Lb : List.length (sp_shr (bits W N ws) s) = N) by (rewrite shr_len; apply bits_len).
  assert (G : exact W N (bs_shr W N ws s) (sp_shr (bits W N ws) s)).
  { destruct (Nat.le_gt_cases N s) as [L|L].
    - rewrite (proj2 (sh_all_eq W N HW HN ws s L)). destruct (reset_all_ok W N HW HN ws Hw) as [F1 F2]. eexists. split; [reflexivity|]. split; [exact F1|]. apply bits_ext; [exact Lb|].
      intros p Hp. rewrite F2, shr_nth by (now rewrite bits_len). rewrite nth_overflow; [reflexivity|rewrite bits_len; lia].
    - eapply (post_exact W N HW HN); [now apply shr_ok_|exact Lb|]. intros q Hq. rewrite shr_nth by (now rewrite bits_len). unfold raw_shr.
      destruct (Nat.lt_ge_cases (q + s) N) as [G1|G1].
      + rewrite bits_nth by lia. destruct (Nat.ltb_spec (q + s) (nelem W N * W)); [reflexivity|lia].
      + rewrite nth_overflow by (rewrite bits_len; lia). destruct (Nat.ltb_spec (q + s) (nelem W N * W)); [|reflexivity]. cbn [andb]. apply Hc; lia. }
  split; [exact G|]. unfold bs_shr_assign. destruct (Nat.leb_spec N s) as [L|L]; [|exact G]. rewrite <- (proj2 (sh_all_eq W N HW HN ws s L)). exact G.
Qed.
(** extract<T>(position, length): T of wt bits *)
Theorem C39_extract : forall W N wt is_signed ws pos len, bwidth W -> 0 < N -> wf W N ws -> (Z.of_nat N < 2 ^ 64)%Z -> 0 < len <= wt ->
  (pos + len <= N -> bs_extract W N wt is_signed ws (Z.of_nat pos) (Z.of_nat len) =
     Ok (let b := sp_slice (bits W N ws) pos len in if is_signed then sp_signed b else sp_value b)) /\
  (N < pos + len -> (Z.of_nat (pos + len) < 2 ^ 64)%Z -> bs_extract W N wt is_signed ws (Z.of_nat pos) (Z.of_nat len) = Overflow).
Proof.
  intros W N wt sgn ws pos len HW HN Hw HN64 Hl. split.
  - intros Hp. now apply extract_ok.
  - intros Hp H64. unfold bs_extract. destruct (Z.leb_spec (Z.of_nat len) (Z.of_nat wt)); [|lia]. unfold tr. rewrite Z.mod_small by lia.
    destruct (Z.leb_spec (Z.of_nat pos + Z.of_nat len) (Z.of_nat N)); [lia|reflexivity].
Qed.

(** ** histories: any number of bitsets, any sequence of operations *)
Inductive op : Type :=
| OSet (i p : nat) (v : bool) | OReset (i p : nat) | OFlip (i p : nat) | OSetAll (i : nat) | OResetAll (i : nat)
| OText (i : nat) (t : option (list bool)) | OCopy (i j : nat) | OAnd (i j : nat) | OOr (i j : nat) | OXor (i j : nat)
| OShr (i s : nat) | OFlipAll (i : nat) | OShl (i s : nat) | OValue (i : nat) (v : Z).
Definition put {A} (e : nat -> A) (i : nat) (x : A) : nat -> A := fun k => if k =? i then x else e k.
Definition putr (e : nat -> list Z) (i : nat) (r : res (list Z)) : res (nat -> list Z) := do! w <- r; Ok (put e i w).
Definition step (W N : nat) (e : nat -> list Z) (o : op) : res (nat -> list Z) :=
  match o with
  | OSet i p v => putr e i (bs_set W N (e i) p v)
  | OReset i p => putr e i (bs_reset W N (e i) p)
  | OFlip i p => putr e i (bs_flip W N (e i) p)
  | OSetAll i => putr e i (Ok (bs_set_all W N (e i)))
  | OResetAll i => putr e i (Ok (bs_reset_all (e i)))
  | OText i t => putr e i (bs_from_string W N (e i) t)
  | OCopy i j => putr e i (Ok (e j))
  | OAnd i j => putr e i (Ok (bs_and (e i) (e j)))
  | OOr i j => putr e i (Ok (bs_or (e i) (e j)))
  | OXor i j => putr e i (Ok (bs_xor (e i) (e j)))
  | OShr i s => putr e i (bs_shr_assign W N (e i) s)
  | OFlipAll i => putr e i (Ok (bs_flip_all W (e i)))
  | OShl i s => putr e i (bs_shl_assign W N (e i) s)
  | OValue i v => putr e i (Ok (bs_of_value W N v))
  end.
Definition sp_step (N : nat) (e : nat -> list bool) (o : op) : nat -> list bool :=
  match o with
  | OSet i p v => put e i (sp_put (e i) p v)
  | OReset i p => put e i (sp_put (e i) p false)
  | OFlip i p => put e i (sp_flip (e i) p)
  | OSetAll i => put e i (sp_fill (e i) true)
  | OResetAll i => put e i (sp_fill (e i) false)
  | OText i (Some t) => put e i (sp_of_text N t)
  | OText i None => put e i (repeat false N)
  | OCopy i j => put e i (e j)
  | OAnd i j => put e i (sp_map2 (e i) andb (e j))
  | OOr i j => put e i (sp_map2 (e i) orb (e j))
  | OXor i j => put e i (sp_map2 (e i) xorb (e j))
  | OShr i s => put e i (sp_shr (e i) s)
  | OFlipAll i => put e i (sp_not (e i))
  | OShl i s => put e i (sp_shl (e i) s)
  | OValue i v => put e i (sp_of_value N v)
  end.
(** the calls a caller may make; the last three need N to be a multiple of the element width
    (or, for a number, one of N bits) *)
Definition allowed (W N : nat) (o : op) : Prop :=
  match o with
  | OSet _ p _ | OReset _ p | OFlip _ p => p < N
  | OText _ (Some t) => N <= W -> t <> []
  | OShr _ s => shr_fine W N s
  | OFlipAll _ => N mod W = 0
  | OShl _ s => N mod W = 0 /\ shl_fine W N s
  | OValue _ v => (0 <= v < 2 ^ 64)%Z /\ (N mod W = 0 \/ (v < 2 ^ Z.of_nat N)%Z)
  | _ => True
  end.
Fixpoint run (W N : nat) (e : nat -> list Z) (l : list op) : res (nat -> list Z) :=
  match l with [] => Ok e | o :: r => do! e' <- step W N e o; run W N e' r end.
Definition agrees (W N : nat) (e : nat -> list Z) (s : nat -> list bool) : Prop :=
  forall i, wf W N (e i) /\ clean W N (e i) /\ bits W N (e i) = s i.

Lemma step_agrees W N e s o : bwidth W -> 0 < N -> agrees W N e s -> allowed W N o ->
  exists e', step W N e o = Ok e' /\ agrees W N e' (sp_step N s o).
Proof.
  intros HW HN A Ho. pose proof (proj1 (nelem_bound W N (proj1 (bw_pos W HW)))) as B.
  assert (Put : forall i r b, exact W N r b -> (exists w, r = Ok w /\ clean W N w) -> exists e', putr e i r = Ok e' /\ agrees W N e' (put s i b)).
  { intros i r b (w & -> & Hw & Hb) (w' & [= <-] & Hc). eexists. split; [reflexivity|]. intros k. unfold put. destruct (k =? i); [conj; auto|apply A]. }
  assert (Full : N mod W = 0 -> forall w, clean W N w).
  { intros H w p Hp Hp2. rewrite (nelem_exact W N (proj1 (bw_pos W HW)) H) in Hp2. lia. }
  assert (Wf : forall i, wf W N (e i)) by (intros; apply A). assert (Cl : forall i, clean W N (e i)) by (intros; apply A). assert (Eb : forall i, s i = bits W N (e i)) by (intros; symmetry; apply A).
  destruct o as [i p v|i p|i p|i|i|i [t|]|i j|i j|i j|i j|i sh|i|i sh|i v]; cbn [step sp_step allowed] in *; rewrite ?Eb.
  - destruct (C39_set_reset_flip W N (e i) p v HW HN (Wf i)) as [H _]. apply Put; [apply H; exact Ho|].
    eapply (post_clean W N HW HN); [apply (set_ok W N HW HN (e i) p v (Wf i) Ho)|]. intros q Hq Hq2; cbv beta; destruct (Nat.eqb_spec q p); [lia|]. now apply Cl.
  - destruct (C39_set_reset_flip W N (e i) p false HW HN (Wf i)) as [H _]. apply Put; [apply H; exact Ho|].
    eapply (post_clean W N HW HN); [apply (reset_ok W N HW HN (e i) p (Wf i) Ho)|]. intros q Hq Hq2; cbv beta; destruct (Nat.eqb_spec q p); [lia|]. now apply Cl.
  - destruct (C39_set_reset_flip W N (e i) p false HW HN (Wf i)) as [H _]. apply Put; [apply H; exact Ho|].
    eapply (post_clean W N HW HN); [apply (flip_ok W N HW HN (e i) p (Wf i) Ho)|]. intros q Hq Hq2; cbv beta; destruct (Nat.eqb_spec q p); [lia|]. now apply Cl.
  - apply Put; [apply (C39_set_all_reset_all_not W N (e i) HW HN (Wf i))|]. eexists. split; [reflexivity|]. intros p Hp Hp2. rewrite (proj2 (set_all_ok W N HW HN (e i) (Wf i))) by lia. apply Nat.ltb_ge. lia.
  - apply Put; [apply (C39_set_all_reset_all_not W N (e i) HW HN (Wf i))|]. eexists. split; [reflexivity|]. intros p Hp Hp2. apply (proj2 (reset_all_ok W N HW HN (e i) (Wf i))).
  - apply Put; [apply (C39_from_string W N (e i) t HW HN (Wf i) Ho)|]. eapply (post_clean W N HW HN); [apply (from_string_ok W N HW HN (e i) t (Wf i))|].
    + intros E. apply Ho. pose proof (nelem_bound W N (proj1 (bw_pos W HW))) as B'. rewrite E in B'. lia.
    + intros q Hq Hq2. apply nth_overflow. rewrite (sp_of_text_len W N HW HN). exact Hq.
  - apply Put; [refine (proj2 (C39_from_string W N (e i) [true] HW HN (Wf i) _)); discriminate|]. eapply (post_clean W N HW HN); [apply (from_null_ok W N HW HN (e i) (Wf i))|]. reflexivity.
  - apply Put; [exists (e j); conj; auto|exists (e j); auto].
  - apply Put; [apply (C39_and_or_xor W N (e i) (e j) HW HN (Wf i) (Wf j))|]. eexists. split; [reflexivity|]. intros p Hp Hp2. rewrite (proj2 (and_ok W N HW HN _ _ (Wf i) (Wf j))) by lia. rewrite !Cl by lia. reflexivity.
  - apply Put; [apply (C39_and_or_xor W N (e i) (e j) HW HN (Wf i) (Wf j))|]. eexists. split; [reflexivity|]. intros p Hp Hp2. rewrite (proj2 (or_ok W N HW HN _ _ (Wf i) (Wf j))) by lia. rewrite !Cl by lia. reflexivity.
  - apply Put; [apply (C39_and_or_xor W N (e i) (e j) HW HN (Wf i) (Wf j))|]. eexists. split; [reflexivity|]. intros p Hp Hp2. rewrite (proj2 (xor_ok W N HW HN _ _ (Wf i) (Wf j))) by lia. rewrite !Cl by lia. reflexivity.
  - apply Put; [apply (C39_shift_right W N (e i) sh HW HN (Wf i) (Cl i) Ho)|]. unfold bs_shr_assign. destruct (Nat.leb_spec N sh) as [L|L].
    + eexists. split; [reflexivity|]. intros p Hp Hp2. apply (proj2 (reset_all_ok W N HW HN (e i) (Wf i))).
    + eapply (post_clean W N HW HN); [apply (shr_ok_ W N HW HN (e i) sh (Wf i) Ho L)|]. intros q Hq Hq2. unfold raw_shr. destruct (Nat.ltb_spec (q + sh) (nelem W N * W)); [|reflexivity]. cbn [andb]. apply Cl; lia.
  - apply Put; [apply (C39_set_all_reset_all_not W N (e i) HW HN (Wf i))|]. eexists. split; [reflexivity|]. now apply Full.
  - destruct Ho as [Ho1 Ho2]. destruct (C39_shift_left W N (e i) sh HW HN (Wf i) Ho2) as [_ H]. apply Put; [exact H|]. destruct H as (w & E & _). exists w. split; [exact E|]. now apply Full.
  - destruct Ho as [Ho1 Ho2]. apply Put; [apply (C39_of_value W N v HW HN Ho1)|]. eexists. split; [reflexivity|]. destruct Ho2 as [H|H]; [now apply Full|]. intros p Hp Hp2. rewrite (proj2 (of_value_ok W N HW HN v Ho1)) by lia.
    apply (word_bit N); [unfold word, zw; lia|unfold zw; lia].
Qed.
(** starting from freshly constructed bitsets, every allowed history leaves every bitset with the
    specified bits, and then every observer above gives the specified answer *)
Theorem C39_history : forall W N l, bwidth W -> 0 < N -> Forall (allowed W N) l ->
  exists e', run W N (fun _ => bs_new W N) l = Ok e' /\
    agrees W N e' (fold_left (sp_step N) l (fun _ => repeat false N)).
Proof.
  intros W N l HW HN Hl.
  assert (G : forall e s, agrees W N e s -> exists e', run W N e l = Ok e' /\ agrees W N e' (fold_left (sp_step N) l s)).
  { induction Hl as [|o r Ho Hr IH]; intros e s A; [exists e; split; [reflexivity|exact A]|].
    destruct (step_agrees W N e s o HW HN A Ho) as (e1 & E1 & A1). cbn [run fold_left]. rewrite E1. cbn [rbind]. now apply IH. }
  apply G. intros i. destruct (new_ok W N HW HN) as [F1 F2]. conj; [exact F1|intros p Hp Hp2; apply F2|].
  destruct (C39_of_value W N 0 HW HN ltac:(lia)) as [_ (w & [= <-] & _ & H)]. exact H.
Qed.

(** ** what the code does not do (N not a multiple of the element width) *)
(** flip(), operator~ leave ones in the unused bits: count() and == are wrong *)
Theorem C39_flip_all_count_refuted : exists W N ws, bwidth W /\ wf W N ws /\ clean W N ws /\
  bs_count W (bs_flip_all W ws) <> Z.of_nat (sp_count (bits W N (bs_flip_all W ws))).
Proof. exists 8, 10, (bs_new 8 10). split; [left; reflexivity|]. split; [apply (new_ok 8 10); [left; reflexivity|lia]|]. split; [|vm_compute; discriminate]. intros p _ _. apply (new_ok 8 10); [left; reflexivity|lia]. Qed.
(** ~bitset<10>() has the same ten bits as bitset<10>().set() and differs from it *)
Theorem C39_not_equality_refuted : exists W N ws, bwidth W /\ wf W N ws /\ clean W N ws /\
  bits W N (bs_not W ws) = bits W N (bs_set_all W N ws) /\ bs_eq (bs_not W ws) (bs_set_all W N ws) = false.
Proof. exists 8, 10, (bs_new 8 10). split; [left; reflexivity|]. split; [apply (new_ok 8 10); [left; reflexivity|lia]|]. split; [|split; vm_compute; reflexivity]. intros p _ _. apply (new_ok 8 10); [left; reflexivity|lia]. Qed.
(** all bits of bitset<4>().set().flip() are 0, but any() holds, to_ulong() is 240 and >> 1 brings in a 1 *)
Theorem C39_flip_any_value_shift_refuted : exists ws, ws = bs_flip_all 8 (bs_set_all 8 4 (bs_new 8 4)) /\
  bits 8 4 ws = [false; false; false; false] /\ bs_any ws = true /\ bs_none ws = false /\ bs_to_ullong 8 4 ws = Ok 240%Z /\
  (exists ws', bs_shr 8 4 ws 1 = Ok ws' /\ bits 8 4 ws' = [false; false; false; true]).
Proof. eexists. split; [reflexivity|]. conj; try (vm_compute; reflexivity). eexists. split; vm_compute; reflexivity. Qed.
(** bitset<4>(255).count() = 8; (bitset<4>().set() << 2).count() = 4, two bits are set *)
Theorem C39_value_shift_left_count_refuted :
  bs_count 8 (bs_of_value 8 4 255) = 8%Z /\ sp_count (bits 8 4 (bs_of_value 8 4 255)) = 4 /\
  (exists ws', bs_shl 8 4 (bs_set_all 8 4 (bs_new 8 4)) 2 = Ok ws' /\ bs_count 8 ws' = 4%Z /\ sp_count (bits 8 4 ws') = 2).
Proof. split; [vm_compute; reflexivity|]. split; [vm_compute; reflexivity|]. eexists. split; [vm_compute; reflexivity|]. split; vm_compute; reflexivity. Qed.
(** a shift by a multiple of the width of a 32 or 64 bit element (even by 0) shifts an element by its width *)
Theorem C39_shift_by_element_width_refuted :
  bs_shr 32 64 (bs_new 32 64) 32 = Undefined /\ bs_shr 32 64 (bs_new 32 64) 0 = Undefined /\ bs_shl 64 128 (bs_new 64 128) 0 = Undefined.
Proof. conj; vm_compute; reflexivity. Qed.
(** 64 bit elements: find_next(true, 31) answers 31 when only bit 40 is set, find_next(.., 32) shifts an int by 32 *)
Theorem C39_find_next_64_refuted : exists ws, bs_set 64 128 (bs_new 64 128) 40 true = Ok ws /\
  bs_find_next 64 128 ws true 31 = Ok (Some 31) /\ sp_find (bits 64 128 ws) true 31 = Some 40 /\
  bs_find_next 64 128 ws true 32 = Undefined /\ bs_find_next 64 64 [0%Z] true 32 = Undefined.
Proof. eexists. split; [vm_compute; reflexivity|]. conj; vm_compute; reflexivity. Qed.
(** an empty text: the mask is 1 << (0 - 1) when the bitset fits one element *)
Theorem C39_empty_text_refuted : bs_from_string 8 8 (bs_new 8 8) (Some []) = Undefined.
Proof. vm_compute. reflexivity. Qed.
(** extract: the range check wraps: position = 2^64 - 1, length = 1 passes it *)
Theorem C39_extract_check_refuted : bs_extract 8 8 8 false (bs_new 8 8) (2 ^ 64 - 1) 1 = Undefined.
Proof. vm_compute. reflexivity. Qed.

(** ** the hypotheses are met *)
Example bs_ex_hist : Forall (allowed 8 16) [OText 0 (Some [true; false; true; true]); OValue 1 0x1234; OShl 1 3; OFlipAll 1; OXor 0 1; OShr 0 5; OSet 0 15 true] /\
  match run 8 16 (fun _ => bs_new 8 16) [OText 0 (Some [true; false; true; true]); OValue 1 0x1234; OShl 1 3; OFlipAll 1; OXor 0 1; OShr 0 5; OSet 0 15 true] with
  | Ok e => e 0 = [114; 131]%Z /\ bs_count 8 (e 0) = 7%Z
  | _ => False
  end.
Proof.
  split; [repeat constructor; cbn; try lia; try discriminate; unfold shl_fine, shr_fine; lia|]. vm_compute. split; reflexivity.
Qed.
Example bs_ex_odd : Forall (allowed 8 10) [OSetAll 0; OReset 0 3; OCopy 1 0; OShr 1 4; OAnd 0 1; OValue 2 0x3FF] /\ find_fine 64 128 30 /\ find_fine 32 64 31 /\ shl_fine 32 64 33 /\ shr_fine 8 24 8.
Proof. split; [repeat constructor; cbn; try lia; unfold shr_fine; lia|]. unfold find_fine, shl_fine, shr_fine. conj; try lia; right; left; vm_compute; lia. Qed.
Example bs_ex_extract : bs_extract 8 24 16 true [0xF0; 0xAB; 0x12]%Z 4 12 = Ok (-1345)%Z /\ bs_extract 8 24 16 false [0xF0; 0xAB; 0x12]%Z 4 16 = Ok (0x2ABF)%Z.
Proof. split; vm_compute; reflexivity. Qed.

Print Assumptions C39_test_all_text.
Print Assumptions C39_find.
Print Assumptions C39_find_first.
Print Assumptions C39_find_is_least.
Print Assumptions C39_set_reset_flip.
Print Assumptions C39_set_all_reset_all_not.
Print Assumptions C39_and_or_xor.
Print Assumptions C39_from_string.
Print Assumptions C39_of_value.
Print Assumptions C39_shift_left.
Print Assumptions C39_count_any_none_value_eq.
Print Assumptions C39_shift_right.
Print Assumptions C39_extract.
Print Assumptions C39_history.
Print Assumptions C39_flip_all_count_refuted.
Print Assumptions C39_not_equality_refuted.
Print Assumptions C39_flip_any_value_shift_refuted.
Print Assumptions C39_value_shift_left_count_refuted.
Print Assumptions C39_shift_by_element_width_refuted.
Print Assumptions C39_find_next_64_refuted.
Print Assumptions C39_empty_text_refuted.
Print Assumptions C39_extract_check_refuted.
