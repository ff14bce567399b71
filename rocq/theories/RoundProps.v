(** C45: rounding of scaled integers. T is a signed or unsigned type of w >= 8 bits, SCALING = s >= 2 (even, where half way matters: static assert
    in the code); value +- SCALING is representable in the type in which it is computed. *)
From Coq Require Import ZArith List Bool Lia.
From Verif Require Import Util MathModel RoundModel RoundSpec RoundProofs.
Open Scope Z_scope.
(** round_half_up: to the nearest, half way away from zero *)
Theorem C45_half_up : forall sg w s v, 8 <= w -> 2 <= s -> in_type sg w v -> Z.even s = true -> in_type sg (cw w) (Z.abs v + s) -> 
  exists q, round_half_up_unscaled sg w s v = Some q /\ (nearest s v q /\ (tie s v -> Z.abs v < Z.abs (q * s))) /\ (in_type sg w (q * s) -> round_half_up_scaled sg w s v = Some (q * s)).
Proof.
  intros sg w s v Hw Hs Hv He Hc. destruct (half_up_ok sg w s Hw Hs v Hv He Hc) as (q & Q & R). exists q. split; [exact Q|split; [exact R|]]. intros Hq. unfold round_half_up_scaled. rewrite Q. exact (scaled_ok sg w s Hw Hs q Hq).
Qed.
Print Assumptions C45_half_up.
(** round_half_down: to the nearest, half way toward zero *)
Theorem C45_half_down : forall sg w s v, 8 <= w -> 2 <= s -> in_type sg w v -> Z.even s = true -> in_type sg (cw w) (Z.abs v + s) -> 
  exists q, round_half_down_unscaled sg w s v = Some q /\ (nearest s v q /\ (tie s v -> Z.abs (q * s) < Z.abs v)) /\ (in_type sg w (q * s) -> round_half_down_scaled sg w s v = Some (q * s)).
Proof.
  intros sg w s v Hw Hs Hv He Hc. destruct (half_down_ok sg w s Hw Hs v Hv He Hc) as (q & Q & R). exists q. split; [exact Q|split; [exact R|]]. intros Hq. unfold round_half_down_scaled. rewrite Q. exact (scaled_ok sg w s Hw Hs q Hq).
Qed.
Print Assumptions C45_half_down.
(** round_half_even: to the nearest, half way to the even one *)
Theorem C45_half_even : forall sg w s v, 8 <= w -> 2 <= s -> in_type sg w v -> (sg = true -> v <> - 2 ^ (w - 1)) -> Z.even s = true -> in_type sg (cw w) (Z.abs v + s) -> 
  exists q, round_half_even_unscaled sg w s v = Some q /\ (nearest s v q /\ (tie s v -> Z.even q = true)) /\ (in_type sg w (q * s) -> round_half_even_scaled sg w s v = Some (q * s)).
Proof.
  intros sg w s v Hw Hs Hv Hm He Hc. destruct (half_even_ok sg w s Hw Hs v Hv Hm He Hc) as (q & Q & R). exists q. split; [exact Q|split; [exact R|]]. intros Hq. unfold round_half_even_scaled. rewrite Q. exact (scaled_ok sg w s Hw Hs q Hq).
Qed.
Print Assumptions C45_half_even.
(** round_half_odd: to the nearest, half way to the odd one *)
Theorem C45_half_odd : forall sg w s v, 8 <= w -> 2 <= s -> in_type sg w v -> (sg = true -> v <> - 2 ^ (w - 1)) -> Z.even s = true -> in_type sg (cw w) (Z.abs v + s) -> 
  exists q, round_half_odd_unscaled sg w s v = Some q /\ (nearest s v q /\ (tie s v -> Z.odd q = true)) /\ (in_type sg w (q * s) -> round_half_odd_scaled sg w s v = Some (q * s)).
Proof.
  intros sg w s v Hw Hs Hv Hm He Hc. destruct (half_odd_ok sg w s Hw Hs v Hv Hm He Hc) as (q & Q & R). exists q. split; [exact Q|split; [exact R|]]. intros Hq. unfold round_half_odd_scaled. rewrite Q. exact (scaled_ok sg w s Hw Hs q Hq).
Qed.
Print Assumptions C45_half_odd.
(** round_zero: toward zero *)
Theorem C45_zero : forall sg w s v, 8 <= w -> 2 <= s -> in_type sg w v -> 
  exists q, round_zero_unscaled sg w s v = Some q /\ (toward_zero s v q) /\ (in_type sg w (q * s) -> round_zero_scaled sg w s v = Some (q * s)).
Proof.
  intros sg w s v Hw Hs Hv. destruct (zero_ok sg w s Hw Hs v Hv) as (q & Q & R). exists q. split; [exact Q|split; [exact R|]]. intros Hq. unfold round_zero_scaled. rewrite Q. exact (scaled_ok sg w s Hw Hs q Hq).
Qed.
Print Assumptions C45_zero.
(** round_ceiling: the ceiling, but a non-negative value that is already a multiple is raised by one more *)
Theorem C45_ceiling_exact : forall sg w s v, 8 <= w -> 2 <= s -> in_type sg w v -> in_type sg (cw w) (Z.abs v + s) -> 
  exists q, round_ceiling_unscaled sg w s v = Some q /\ ((~ (s | v) \/ v < 0 -> ceiling s v q) /\ ((s | v) -> 0 <= v -> q * s = v + s)) /\ (in_type sg w (q * s) -> round_ceiling_scaled sg w s v = Some (q * s)).
Proof.
  intros sg w s v Hw Hs Hv Hc. destruct (ceiling_ok sg w s Hw Hs v Hv Hc) as (q & Q & R). exists q. split; [exact Q|split; [exact R|]]. intros Hq. unfold round_ceiling_scaled. rewrite Q. exact (scaled_ok sg w s Hw Hs q Hq).
Qed.
Print Assumptions C45_ceiling_exact.
(** round_floor: the floor, but a negative value that is already a multiple is lowered by one more *)
Theorem C45_floor_exact : forall sg w s v, 8 <= w -> 2 <= s -> in_type sg w v -> in_type sg (cw w) (Z.abs v + s) -> 
  exists q, round_floor_unscaled sg w s v = Some q /\ ((~ (s | v) \/ 0 <= v -> floor s v q) /\ ((s | v) -> v < 0 -> q * s = v - s)) /\ (in_type sg w (q * s) -> round_floor_scaled sg w s v = Some (q * s)).
Proof.
  intros sg w s v Hw Hs Hv Hc. destruct (floor_ok sg w s Hw Hs v Hv Hc) as (q & Q & R). exists q. split; [exact Q|split; [exact R|]]. intros Hq. unfold round_floor_scaled. rewrite Q. exact (scaled_ok sg w s Hw Hs q Hq).
Qed.
Print Assumptions C45_floor_exact.
(** round_infinity: away from zero, but a value that is already a multiple is moved by one more *)
Theorem C45_infinity_exact : forall sg w s v, 8 <= w -> 2 <= s -> in_type sg w v -> in_type sg (cw w) (Z.abs v + s) -> 
  exists q, round_infinity_unscaled sg w s v = Some q /\ ((~ (s | v) -> away_from_zero s v q) /\ ((s | v) -> q * s = v + (if 0 <=? v then s else - s))) /\ (in_type sg w (q * s) -> round_infinity_scaled sg w s v = Some (q * s)).
Proof.
  intros sg w s v Hw Hs Hv Hc. destruct (infinity_ok sg w s Hw Hs v Hv Hc) as (q & Q & R). exists q. split; [exact Q|split; [exact R|]]. intros Hq. unfold round_infinity_scaled. rewrite Q. exact (scaled_ok sg w s Hw Hs q Hq).
Qed.
Print Assumptions C45_infinity_exact.
(** FINDING: a multiple is not left as it is *)
Theorem C45_ceiling_refuted : forall sg w s v, 8 <= w -> 2 <= s -> in_type sg w v -> in_type sg (cw w) (Z.abs v + s) -> (s | v) -> 0 <= v ->
  exists q, round_ceiling_unscaled sg w s v = Some q /\ ~ ceiling s v q.
Proof.
  intros sg w s v Hw Hs Hv Hc Hd Hp. destruct (C45_ceiling_exact sg w s v Hw Hs Hv Hc) as (q & Q & (_ & R) & _). exists q. split; [exact Q|]. destruct Hd as (k & ->). specialize (R ltac:(exists k; reflexivity) Hp). intros C.
  destruct C as (C1 & C2). specialize (C2 k ltac:(lia)). nia.
Qed.
Print Assumptions C45_ceiling_refuted.
(** FINDING: a multiple is not left as it is *)
Theorem C45_floor_refuted : forall sg w s v, 8 <= w -> 2 <= s -> in_type sg w v -> in_type sg (cw w) (Z.abs v + s) -> (s | v) -> v < 0 ->
  exists q, round_floor_unscaled sg w s v = Some q /\ ~ floor s v q.
Proof.
  intros sg w s v Hw Hs Hv Hc Hd Hp. destruct (C45_floor_exact sg w s v Hw Hs Hv Hc) as (q & Q & (_ & R) & _). exists q. split; [exact Q|]. destruct Hd as (k & ->). specialize (R ltac:(exists k; reflexivity) Hp). intros C.
  destruct C as (C1 & C2). specialize (C2 k ltac:(lia)). nia.
Qed.
Print Assumptions C45_floor_refuted.
(** FINDING: a multiple is not left as it is *)
Theorem C45_infinity_refuted : forall sg w s v, 8 <= w -> 2 <= s -> in_type sg w v -> in_type sg (cw w) (Z.abs v + s) -> (s | v) -> True ->
  exists q, round_infinity_unscaled sg w s v = Some q /\ ~ away_from_zero s v q.
Proof.
  intros sg w s v Hw Hs Hv Hc Hd Hp. destruct (C45_infinity_exact sg w s v Hw Hs Hv Hc) as (q & Q & (_ & R) & _). exists q. split; [exact Q|]. destruct Hd as (k & ->). specialize (R ltac:(exists k; reflexivity)). intros C.
  destruct C as (C1 & C2). destruct (Z.leb_spec 0 (k * s)) as [L|L]; [destruct (C1 L) as (_ & C3)|destruct (C2 ltac:(lia)) as (_ & C3)]; specialize (C3 k ltac:(lia)); nia.
Qed.
Print Assumptions C45_infinity_refuted.
(** the hypotheses are met, on both sides of zero; the scaling is 100, T is int16_t *)
Example C45_ex_hyps : in_type true 16 (-250) /\ in_type true (cw 16) (Z.abs (-250) + 100) /\ Z.even 100 = true /\ tie 100 (-250) /\ (100 | 200) /\ in_type true 16 (-300).
Proof. unfold in_type. cbn. repeat split; try lia; [exists (-3); reflexivity|exists 2; reflexivity]. Qed.
Example C45_ex : round_half_up_unscaled true 16 100 (-250) = Some (-3) /\ round_half_down_unscaled true 16 100 (-250) = Some (-2) /\ round_half_even_unscaled true 16 100 (-250) = Some (-2) /\ round_half_odd_scaled true 16 100 (-250) = Some (-300)
  /\ round_zero_scaled true 16 100 (-299) = Some (-200) /\ round_ceiling_unscaled true 16 100 200 = Some 3 /\ round_floor_unscaled true 16 100 (-200) = Some (-3) /\ round_infinity_scaled false 16 100 201 = Some 300.
Proof. vm_compute. repeat split. Qed.
