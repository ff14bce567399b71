From Coq Require Import ZArith List Bool Lia.
From Verif Require Import Util MathModel MathProofs RoundModel RoundSpec.
Open Scope Z_scope.
Section P.
Variables (sg : bool) (w s : Z).
Hypothesis w8 : 8 <= w.
Hypothesis s2 : 2 <= s.
Lemma cw_w : w <= cw w /\ 32 <= cw w. Proof using w8 s2. unfold cw. lia. Qed.
Lemma to_T_ok x : in_type sg w x -> to_T sg w x = x.
Proof using w8 s2. unfold in_type, to_T. destruct sg; intros H; [apply to_s_small; lia|apply Z.mod_small, H]. Qed.
Lemma arith_ok x : in_type sg (cw w) x -> arith sg w x = Some x.
Proof using w8 s2.
  unfold in_type, arith. destruct sg; intros H; [|now rewrite Z.mod_small by lia]. destruct (Z.leb_spec (- 2 ^ (cw w - 1)) x); [|lia]. destruct (Z.ltb_spec x (2 ^ (cw w - 1))); [reflexivity|lia].
Qed.
(** the magnitude m, with the sign of v *)
Definition signed_as (v m : Z) : Z := if 0 <=? v then m else - m.
Lemma quot_signed v m r : 0 <= m -> 0 <= r < s -> Z.quot (signed_as v (s * m + r)) s = signed_as v m.
Proof using w8 s2.
  intros Hm Hr. unfold signed_as. assert (Z.quot (s * m + r) s = m) as E. { rewrite Z.quot_div_nonneg by nia. rewrite Z.mul_comm, Z.div_add_l by lia. rewrite Z.div_small by lia. lia. }
  destruct (0 <=? v); [exact E|]. rewrite Z.quot_opp_l by lia. now rewrite E.
Qed.
Lemma magnitude v : signed_as v (Z.abs v) = v. Proof using w8 s2. unfold signed_as. destruct (Z.leb_spec 0 v); lia. Qed.
Lemma pw : 2 ^ 7 <= 2 ^ (w - 1) /\ 2 ^ w = 2 * 2 ^ (w - 1). Proof using w8 s2. split; [apply Z.pow_le_mono_r; lia|apply pow_half; lia]. Qed.
Lemma in_type_abs v : in_type sg w v -> (sg = true /\ Z.abs v <= 2 ^ (w - 1)) \/ (sg = false /\ 0 <= v < 2 ^ w).
Proof using w8 s2. unfold in_type. destruct sg; intros H; [left|right]; split; try reflexivity; lia. Qed.
Lemma divide_ok v m r : in_type sg w v -> 0 <= m -> 0 <= r < s -> s * m + r <= Z.abs v + s -> divide sg w s (Some (signed_as v (s * m + r))) = Some (signed_as v m).
Proof using w8 s2.
  intros Hv Hm Hr Hle. unfold divide. rewrite quot_signed by assumption. rewrite to_T_ok; [reflexivity|]. pose proof pw as (P1 & P2). change (2 ^ 7) with 128 in P1. destruct (in_type_abs v Hv) as [(-> & A)|(-> & A)]; unfold in_type.
  - assert (m <= 2 ^ (w - 1) - 1) by nia. unfold signed_as. destruct (0 <=? v); lia.
  - unfold signed_as. destruct (Z.leb_spec 0 v); [|lia]. rewrite Z.abs_eq in Hle by lia. nia.
Qed.
Definition addq (h v : Z) : option Z := if 0 <=? v then divide sg w s (arith sg w (v + h)) else divide sg w s (arith sg w (v - h)).
Lemma addq_ok h v : in_type sg w v -> 0 <= h <= s -> in_type sg (cw w) (Z.abs v + s) ->
  exists m r, Z.abs v + h = s * m + r /\ 0 <= r < s /\ 0 <= m /\ addq h v = Some (signed_as v m).
Proof using w8 s2.
  intros Hv Hh Hc. exists ((Z.abs v + h) / s), ((Z.abs v + h) mod s). pose proof (Z.div_mod (Z.abs v + h) s ltac:(lia)) as E. pose proof (Z.mod_pos_bound (Z.abs v + h) s ltac:(lia)) as R. assert (0 <= (Z.abs v + h) / s) as M by (apply Z.div_pos; lia).
  split; [exact E|split; [exact R|split; [exact M|]]]. set (m := (Z.abs v + h) / s) in *. set (r := (Z.abs v + h) mod s) in *. clearbody m r.
  transitivity (divide sg w s (Some (signed_as v (s * m + r)))); [|apply divide_ok; [exact Hv|exact M|exact R|lia]].
  unfold addq, signed_as. rewrite <- E. pose proof cw_w. assert (0 < 2 ^ (cw w - 1)) by (apply Z.pow_pos_nonneg; lia). destruct (Z.leb_spec 0 v) as [L|L]; rewrite arith_ok; try (f_equal; f_equal; lia); unfold in_type in *; destruct sg; lia.
Qed.
Lemma divide_plain v : in_type sg w v -> exists m r, Z.abs v = s * m + r /\ 0 <= r < s /\ 0 <= m /\ divide sg w s (Some v) = Some (signed_as v m).
Proof using w8 s2.
  intros Hv. exists (Z.abs v / s), (Z.abs v mod s). pose proof (Z.div_mod (Z.abs v) s ltac:(lia)) as E. pose proof (Z.mod_pos_bound (Z.abs v) s ltac:(lia)) as R. assert (0 <= Z.abs v / s) as M by (apply Z.div_pos; lia).
  split; [exact E|split; [exact R|split; [exact M|]]]. rewrite <- (magnitude v) at 1. rewrite E at 1. apply divide_ok; [exact Hv|exact M|exact R|lia].
Qed.
Lemma scaled_ok q : in_type sg w (q * s) -> scaled sg w s (Some q) = Some (q * s).
Proof using w8 s2.
  intros H. unfold scaled. rewrite arith_ok; [now rewrite to_T_ok|]. pose proof cw_w. assert (2 ^ w <= 2 ^ cw w) by (apply Z.pow_le_mono_r; lia). assert (2 ^ (w - 1) <= 2 ^ (cw w - 1)) by (apply Z.pow_le_mono_r; lia). unfold in_type in *. destruct sg; lia.
Qed.
Lemma mult_lt a b : a * s < b * s -> a < b. Proof using w8 s2. nia. Qed.
Lemma half_facts : Z.even s = true -> s = 2 * (s / 2).
Proof using w8 s2. intros E. apply Z.even_spec in E as (k & ->). rewrite Z.mul_comm, Z.div_mul by lia. lia. Qed.
(** rounding to the nearest *)
Lemma half_up_ok v : in_type sg w v -> Z.even s = true -> in_type sg (cw w) (Z.abs v + s) ->
  exists q, round_half_up_unscaled sg w s v = Some q /\ nearest s v q /\ (tie s v -> Z.abs v < Z.abs (q * s)).
Proof using w8 s2.
  intros Hv He Hc. pose proof (half_facts He) as Hs. destruct (addq_ok (s / 2) v Hv ltac:(lia) Hc) as (m & r & E & R & M & A). exists (signed_as v m). split; [exact A|].
  generalize dependent (s / 2). intros h Hs E A. clear A Hc. split.
  - intros p. unfold signed_as. destruct (Z.leb_spec 0 v); [destruct (Z.lt_trichotomy p m) as [L|[->|L]]|destruct (Z.lt_trichotomy (- p) m) as [L|[L|L]]]; try (replace p with (- m) by lia); nia.
  - intros (p & T). unfold signed_as. destruct (Z.leb_spec 0 v) as [L|L].
    + assert (r = 0). { assert (m = p + 1); [|nia]. assert (p < m) by nia. nia. } nia.
    + assert (r = 0). { assert (m = - p); [|nia]. assert (- p <= m) by nia. nia. } nia.
Qed.
Lemma half_down_ok v : in_type sg w v -> Z.even s = true -> in_type sg (cw w) (Z.abs v + s) ->
  exists q, round_half_down_unscaled sg w s v = Some q /\ nearest s v q /\ (tie s v -> Z.abs (q * s) < Z.abs v).
Proof using w8 s2.
  intros Hv He Hc. pose proof (half_facts He) as Hs. destruct (addq_ok (s / 2 - 1) v Hv ltac:(lia) Hc) as (m & r & E & R & M & A). exists (signed_as v m). split; [exact A|].
  generalize dependent (s / 2). intros h Hs E A. clear A Hc. split.
  - intros p. unfold signed_as. destruct (Z.leb_spec 0 v); [destruct (Z.lt_trichotomy p m) as [L|[->|L]]|destruct (Z.lt_trichotomy (- p) m) as [L|[L|L]]]; try (replace p with (- m) by lia); nia.
  - intros (p & T). unfold signed_as. destruct (Z.leb_spec 0 v) as [L|L].
    + assert (m = p). { assert (p <= m) by nia. nia. } nia.
    + assert (m = - p - 1). { assert (- p - 1 <= m) by nia. nia. } nia.
Qed.
Lemma tie_test v a : Z.even s = true -> a = Z.abs v -> (Z.rem a s =? s / 2) = true <-> tie s v.
Proof using w8 s2.
  intros He ->. pose proof (half_facts He) as Hs. rewrite Z.eqb_eq. rewrite Z.rem_mod_nonneg by lia. split.
  - intros E. pose proof (Z.div_mod (Z.abs v) s ltac:(lia)) as D. rewrite E in D. destruct (Z.leb_spec 0 v).
    + exists (Z.abs v / s). lia.
    + exists (- (Z.abs v / s) - 1). lia.
  - intros (p & T). destruct (Z.leb_spec 0 v).
    + replace (Z.abs v) with (s / 2 + p * s) by lia. rewrite Z.mod_add by lia. apply Z.mod_small. lia.
    + replace (Z.abs v) with (s / 2 + (- p - 1) * s) by lia. rewrite Z.mod_add by lia. apply Z.mod_small. lia.
Qed.
(** at a tie the truncated quotient and its outer neighbour are the two candidates *)
Lemma tie_quot v : Z.even s = true -> tie s v -> forall q, nearest s v q -> (Z.abs (q * s) < Z.abs v -> q = Z.quot v s) /\ (Z.abs v < Z.abs (q * s) -> q = Z.quot v s + signed_as v 1).
Proof using w8 s2.
  intros He (p & T) q N. pose proof (half_facts He) as Hs. unfold signed_as. specialize (N p). set (h := s / 2) in *. clearbody h. assert (v = p * s + h) as V by lia. destruct (Z.leb_spec 0 v) as [L|L].
  - assert (0 <= p) by nia. assert (Z.quot v s = p) as ->. { rewrite Z.quot_div_nonneg by lia. rewrite V, Z.div_add_l by lia. rewrite Z.div_small by lia. lia. }
    assert (q = p \/ q = p + 1) as [-> | ->]. { assert (p - 1 < q < p + 2); [|lia]. split; nia. } split; [reflexivity|nia]. split; [nia|reflexivity].
  - assert (p <= -1) by nia. assert (Z.quot v s = p + 1) as ->. { replace v with (- (- v)) by lia. rewrite Z.quot_opp_l by lia. rewrite Z.quot_div_nonneg by lia. replace (- v) with ((- p - 1) * s + h) by lia. rewrite Z.div_add_l by lia. rewrite Z.div_small by lia. lia. }
    assert (q = p \/ q = p + 1) as [-> | ->]. { assert (p - 1 < q < p + 2); [|lia]. split; nia. } split; [nia|lia]. split; [reflexivity|nia].
Qed.
Lemma not_min v : in_type sg w v -> (sg = true -> v <> - 2 ^ (w - 1)) -> absolute_T sg w v = Some (Z.abs v).
Proof using w8 s2. intros Hv Hm. unfold absolute_T, in_type in *. destruct sg; [apply absolute_ok; [lia|specialize (Hm eq_refl); lia]|f_equal; lia]. Qed.
Lemma half_even_ok v : in_type sg w v -> (sg = true -> v <> - 2 ^ (w - 1)) -> Z.even s = true -> in_type sg (cw w) (Z.abs v + s) ->
  exists q, round_half_even_unscaled sg w s v = Some q /\ nearest s v q /\ (tie s v -> Z.even q = true).
Proof using w8 s2.
  intros Hv Hm He Hc. unfold round_half_even_unscaled. rewrite (not_min v Hv Hm). pose proof (tie_test v _ He eq_refl) as T. destruct (half_up_ok v Hv He Hc) as (q & Q1 & Q2 & Q3). destruct (half_down_ok v Hv He Hc) as (p & P1 & P2 & P3).
  destruct (Z.rem (Z.abs v) s =? s / 2).
  - assert (tie s v) as Ti by (apply T; reflexivity). destruct (tie_quot v He Ti q Q2) as (_ & TQ). destruct (tie_quot v He Ti p P2) as (TP & _). specialize (TQ (Q3 Ti)). specialize (TP (P3 Ti)). destruct (Z.odd (Z.quot v s)) eqn:O.
    + exists q. split; [exact Q1|split; [exact Q2|]]. intros _. rewrite TQ. rewrite Z.even_add. rewrite <- Z.negb_odd, O. unfold signed_as. now destruct (0 <=? v).
    + exists p. split; [exact P1|split; [exact P2|]]. intros _. rewrite TP. now rewrite <- Z.negb_odd, O.
  - exists q. split; [exact Q1|split; [exact Q2|]]. intros Ti. apply T in Ti. discriminate.
Qed.
Lemma half_odd_ok v : in_type sg w v -> (sg = true -> v <> - 2 ^ (w - 1)) -> Z.even s = true -> in_type sg (cw w) (Z.abs v + s) ->
  exists q, round_half_odd_unscaled sg w s v = Some q /\ nearest s v q /\ (tie s v -> Z.odd q = true).
Proof using w8 s2.
  intros Hv Hm He Hc. unfold round_half_odd_unscaled. rewrite (not_min v Hv Hm). pose proof (tie_test v _ He eq_refl) as T. destruct (half_up_ok v Hv He Hc) as (q & Q1 & Q2 & Q3). destruct (half_down_ok v Hv He Hc) as (p & P1 & P2 & P3).
  destruct (Z.rem (Z.abs v) s =? s / 2).
  - assert (tie s v) as Ti by (apply T; reflexivity). destruct (tie_quot v He Ti q Q2) as (_ & TQ). destruct (tie_quot v He Ti p P2) as (TP & _). specialize (TQ (Q3 Ti)). specialize (TP (P3 Ti)). destruct (Z.odd (Z.quot v s)) eqn:O.
    + exists p. split; [exact P1|split; [exact P2|]]. intros _. now rewrite TP.
    + exists q. split; [exact Q1|split; [exact Q2|]]. intros _. rewrite TQ. rewrite Z.odd_add, O. unfold signed_as. now destruct (0 <=? v).
  - exists q. split; [exact Q1|split; [exact Q2|]]. intros Ti. apply T in Ti. discriminate.
Qed.
Lemma zero_ok v : in_type sg w v -> exists q, round_zero_unscaled sg w s v = Some q /\ toward_zero s v q.
Proof using w8 s2.
  intros Hv. destruct (divide_plain v Hv) as (m & r & E & R & M & A). exists (signed_as v m). split; [exact A|]. unfold toward_zero, floor, ceiling, signed_as. split; intros L; (destruct (Z.leb_spec 0 v); [|try lia]); (split; [nia|intros p Hp]); nia.
Qed.
(** where the value is not a multiple *)
Lemma infinity_ok v : in_type sg w v -> in_type sg (cw w) (Z.abs v + s) -> exists q, round_infinity_unscaled sg w s v = Some q /\ (~ (s | v) -> away_from_zero s v q) /\ ((s | v) -> q * s = v + signed_as v s).
Proof using w8 s2.
  intros Hv Hc. destruct (addq_ok s v Hv ltac:(lia) Hc) as (m & r & E & R & M & A). exists (signed_as v m). split; [exact A|]. clear A Hc. split.
  - intros D. assert (r <> 0) as D0. { intros ->. apply D. exists (signed_as v (m - 1)). unfold signed_as. destruct (Z.leb_spec 0 v); lia. } assert (v <> 0) as V0 by (intros ->; apply D; apply Z.divide_0_r). unfold away_from_zero, floor, ceiling, signed_as. split; intros L; (destruct (Z.leb_spec 0 v); [|try lia]); (split; [nia|intros p Hp]); nia.
  - intros (k & ->). unfold signed_as in *. destruct (Z.leb_spec 0 (k * s)).
    + assert (m = k + 1); [|lia]. assert (0 <= k) by nia. rewrite Z.abs_eq in E by lia. nia.
    + assert (m = - k + 1); [|lia]. assert (k < 0) by nia. rewrite Z.abs_neq in E by lia. nia.
Qed.
Lemma ceiling_ok v : in_type sg w v -> in_type sg (cw w) (Z.abs v + s) -> exists q, round_ceiling_unscaled sg w s v = Some q /\ (~ (s | v) \/ v < 0 -> ceiling s v q) /\ ((s | v) -> 0 <= v -> q * s = v + s).
Proof using w8 s2.
  intros Hv Hc. unfold round_ceiling_unscaled. destruct (Z.leb_spec 0 v) as [L|L].
  - destruct (infinity_ok v Hv Hc) as (q & Q & Q1 & Q2). unfold round_infinity_unscaled, signed_as in *. destruct (Z.leb_spec 0 v); [|lia]. exists q. split; [exact Q|split; [|intros; now apply Q2]]. intros [D|D]; [|lia]. now apply Q1.
  - destruct (zero_ok v Hv) as (q & Q & Q1 & Q2). exists q. split; [exact Q|split; [intros _; apply Q2; lia|lia]].
Qed.
Lemma floor_ok v : in_type sg w v -> in_type sg (cw w) (Z.abs v + s) -> exists q, round_floor_unscaled sg w s v = Some q /\ (~ (s | v) \/ 0 <= v -> floor s v q) /\ ((s | v) -> v < 0 -> q * s = v - s).
Proof using w8 s2.
  intros Hv Hc. unfold round_floor_unscaled. destruct (Z.leb_spec 0 v) as [L|L].
  - destruct (zero_ok v Hv) as (q & Q & Q1 & Q2). exists q. split; [exact Q|split; [intros _; apply Q1; lia|lia]].
  - destruct (infinity_ok v Hv Hc) as (q & Q & Q1 & Q2). unfold round_infinity_unscaled, signed_as in *. destruct (Z.leb_spec 0 v); [lia|]. exists q. split; [exact Q|split; [|intros; now apply Q2]]. intros [D|D]; [|lia]. apply Q1; [exact D|lia].
Qed.
End P.
