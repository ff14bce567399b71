(** C52: etl::midpoint never overflows and gives the middle of its two arguments; if there are two middle integers, the one nearer to the first. *)
From Coq Require Import ZArith List Bool Lia.
From Verif Require Import MathModel MidModel.
Open Scope Z_scope.
(** Specification, not using the model: the value half way from a to b, a half being rounded towards a. *)
Definition Middle (a b m : Z) : Prop :=
  (2 * m = a + b) \/ (a < b /\ 2 * m = a + b - 1) \/ (b < a /\ 2 * m = a + b + 1).

Lemma Middle_unique a b m m' : Middle a b m -> Middle a b m' -> m = m'.
Proof. unfold Middle. lia. Qed.

Lemma shiftr1 d : Z.shiftr d 1 = d / 2.
Proof. rewrite Z.shiftr_div_pow2 by lia. reflexivity. Qed.

Lemma pow_le a b : 0 <= a <= b -> 2 ^ a <= 2 ^ b.
Proof. intros. apply Z.pow_le_mono_r; lia. Qed.
Lemma pow_half k : 1 <= k -> 2 ^ k = 2 * 2 ^ (k - 1).
Proof. intros. replace k with (Z.succ (k - 1)) at 1 by lia. rewrite Z.pow_succ_r by lia. reflexivity. Qed.

Lemma u_expr_id w x : 8 <= w -> 0 <= x < 2 ^ w -> u_expr w x = Some x.
Proof.
  intros Hw Hx. unfold u_expr. destruct (w <? 32) eqn:E.
  - apply Z.ltb_lt in E. pose proof (pow_le w 31 ltac:(lia)). rewrite (proj2 (Z.leb_le _ _)), (proj2 (Z.ltb_lt _ _)) by lia. reflexivity.
  - now rewrite Z.mod_small.
Qed.

Lemma to_u_id w x : 0 <= x < 2 ^ w -> to_u w x = x.
Proof. intros. unfold to_u. now apply Z.mod_small. Qed.

Lemma to_s_id w x : 1 <= w -> - 2 ^ (w - 1) <= x < 2 ^ (w - 1) -> to_s w x = x.
Proof.
  intros Hw Hx. unfold to_s. pose proof (pow_half w Hw) as Hp. cbv zeta.
  destruct (Z_lt_le_dec x 0).
  - replace (x mod 2 ^ w) with (x + 2 ^ w) by (apply Z.mod_unique with (-1); lia).
    rewrite (proj2 (Z.ltb_ge _ _)) by lia. lia.
  - rewrite Z.mod_small by lia. rewrite (proj2 (Z.ltb_lt _ _)) by lia. reflexivity.
Qed.

Lemma s_expr_id w x : 1 <= w -> - 2 ^ (w - 1) <= x < 2 ^ (w - 1) -> s_expr w x = Some x.
Proof.
  intros Hw Hx. unfold s_expr. cbv zeta. pose proof (pow_le (w - 1) (Z.max w 32 - 1) ltac:(lia)).
  rewrite (proj2 (Z.leb_le _ _)), (proj2 (Z.ltb_lt _ _)) by lia. reflexivity.
Qed.

(** every unsigned type of at least 8 bits *)
Theorem C52_midpoint_unsigned w a b :
  8 <= w -> 0 <= a < 2 ^ w -> 0 <= b < 2 ^ w -> exists m, midpoint_u w a b = Some m /\ Middle a b m.
Proof.
  intros Hw Ha Hb. unfold midpoint_u. 
  destruct (b <? a) eqn:E; [apply Z.ltb_lt in E | apply Z.ltb_ge in E].
  - rewrite u_expr_id by lia. cbn [bind]. rewrite shiftr1. pose proof (Z.div_mod (a - b) 2 ltac:(lia)). pose proof (Z.mod_pos_bound (a - b) 2 ltac:(lia)).
    rewrite u_expr_id by lia. cbn [bind]. rewrite to_u_id by lia. eexists. split; [reflexivity|]. unfold Middle. lia.
  - rewrite u_expr_id by lia. cbn [bind]. rewrite shiftr1. pose proof (Z.div_mod (b - a) 2 ltac:(lia)). pose proof (Z.mod_pos_bound (b - a) 2 ltac:(lia)).
    rewrite u_expr_id by lia. cbn [bind]. rewrite to_u_id by lia. eexists. split; [reflexivity|]. unfold Middle. lia.
Qed.

(** utype(x) *)
Lemma to_u_s w x : 1 <= w -> - 2 ^ (w - 1) <= x < 2 ^ (w - 1) -> to_u w x = if x <? 0 then x + 2 ^ w else x.
Proof.
  intros Hw Hx. unfold to_u. pose proof (pow_half w Hw). destruct (x <? 0) eqn:E; [apply Z.ltb_lt in E | apply Z.ltb_ge in E].
  - symmetry. apply Z.mod_unique with (-1); lia.
  - apply Z.mod_small. lia.
Qed.

Lemma s_big w a b : 1 <= w -> - 2 ^ (w - 1) <= a < 2 ^ (w - 1) -> - 2 ^ (w - 1) <= b < 2 ^ (w - 1) -> b <= a -> (to_u w a - to_u w b) mod 2 ^ w = a - b.
Proof.
  intros Hw Ha Hb Hab. rewrite !to_u_s by assumption. pose proof (pow_half w Hw).
  destruct (a <? 0) eqn:Ea; destruct (b <? 0) eqn:Eb; rewrite ?Z.ltb_lt, ?Z.ltb_ge in *;
    first [ now (symmetry; apply Z.mod_unique with 0; lia) | now (symmetry; apply Z.mod_unique with (-1); lia) | now (symmetry; apply Z.mod_unique with 1; lia) ].
Qed.

Lemma u_expr_diff w a b : 8 <= w -> - 2 ^ (w - 1) <= a < 2 ^ (w - 1) -> - 2 ^ (w - 1) <= b < 2 ^ (w - 1) ->
  exists d, u_expr w (to_u w a - to_u w b) = Some d /\ (w < 32 -> d = to_u w a - to_u w b) /\ (32 <= w -> d = (to_u w a - to_u w b) mod 2 ^ w).
Proof.
  intros Hw Ha Hb. unfold u_expr. destruct (w <? 32) eqn:E; [apply Z.ltb_lt in E | apply Z.ltb_ge in E].
  - pose proof (pow_le w 31 ltac:(lia)). unfold to_u. pose proof (Z.mod_pos_bound a (2 ^ w) ltac:(lia)). pose proof (Z.mod_pos_bound b (2 ^ w) ltac:(lia)).
    rewrite (proj2 (Z.leb_le _ _)), (proj2 (Z.ltb_lt _ _)) by lia. eexists. split; [reflexivity|]. lia.
  - eexists. split; [reflexivity|]. lia.
Qed.

(** the exact result for every signed type of at least 8 bits: the middle, except for a type narrower than int with a negative first and a
    non-negative second argument, where it is 2^(w-1) off *)
Theorem C52_midpoint_signed_exact w a b :
  8 <= w -> - 2 ^ (w - 1) <= a < 2 ^ (w - 1) -> - 2 ^ (w - 1) <= b < 2 ^ (w - 1) ->
  exists m r, Middle a b m /\ midpoint_s w a b = Some r /\
    (32 <= w \/ 0 <= a \/ b < 0 -> r = m) /\
    (w < 32 -> a < 0 -> 0 <= b -> (r = m - 2 ^ (w - 1) \/ r = m + 2 ^ (w - 1))).
Proof.
  intros Hw Ha Hb. unfold midpoint_s. assert (Hw1 : 1 <= w) by lia. pose proof (pow_half w Hw1) as Hp. pose proof (pow_le 0 (w - 1) ltac:(lia)) as Hp1. change (2 ^ 0) with 1 in Hp1.
  destruct (b <? a) eqn:E; [apply Z.ltb_lt in E | apply Z.ltb_ge in E].
  - destruct (u_expr_diff w a b Hw Ha Hb) as (d & -> & D1 & D2). cbn [bind]. rewrite shiftr1.
    assert (to_u w d = a - b) as ->.
    { pose proof (s_big w a b Hw1 Ha Hb ltac:(lia)). unfold to_u at 1. destruct (Z_lt_le_dec w 32); [rewrite D1 by lia; assumption|]. rewrite D2 by lia. rewrite Z.mod_mod by lia. assumption. }
    pose proof (Z.div_mod (a - b) 2 ltac:(lia)). pose proof (Z.mod_pos_bound (a - b) 2 ltac:(lia)).
    rewrite (to_s_id w ((a - b) / 2)) by lia. rewrite s_expr_id by lia. cbn [bind]. rewrite to_s_id by lia.
    exists (a - (a - b) / 2), (a - (a - b) / 2). unfold Middle. split; [lia|]. split; [reflexivity|]. lia.
  - destruct (u_expr_diff w b a Hw Hb Ha) as (d & -> & D1 & D2). cbn [bind]. rewrite shiftr1.
    pose proof (Z.div_mod (b - a) 2 ltac:(lia)). pose proof (Z.mod_pos_bound (b - a) 2 ltac:(lia)).
    exists (a + (b - a) / 2).
    destruct (Z_lt_le_dec w 32) as [W|W].
    + rewrite D1 by lia. rewrite !to_u_s by assumption.
      destruct (a <? 0) eqn:Ea; destruct (b <? 0) eqn:Eb; rewrite ?Z.ltb_lt, ?Z.ltb_ge in *; try lia.
      * replace (b + 2 ^ w - (a + 2 ^ w)) with (b - a) by lia. rewrite to_s_id by lia. rewrite s_expr_id by lia. cbn [bind]. rewrite to_s_id by lia. eexists. unfold Middle. split; [|split; [reflexivity|]]; lia.
      * assert ((b - (a + 2 ^ w)) / 2 = (b - a) / 2 - 2 ^ (w - 1)) as ->.
        { replace (b - (a + 2 ^ w)) with (b - a + (- 2 ^ (w - 1)) * 2) by lia. rewrite Z.div_add by lia. lia. }
        rewrite to_s_id by lia.
        assert (Hs : s_expr w (a + ((b - a) / 2 - 2 ^ (w - 1))) = Some (a + ((b - a) / 2 - 2 ^ (w - 1)))).
        { unfold s_expr. replace (Z.max w 32) with 32 by lia. pose proof (pow_le w 31 ltac:(lia)). change (32 - 1) with 31. cbv zeta.
          rewrite (proj2 (Z.leb_le _ _)), (proj2 (Z.ltb_lt _ _)) by lia. reflexivity. }
        rewrite Hs. cbn [bind]. eexists. split; [unfold Middle; lia|]. split; [reflexivity|]. split; [lia|]. intros _ _ _.
        destruct (Z_lt_le_dec (a + (b - a) / 2) 0).
        -- right. unfold to_s. cbv zeta.
           replace ((a + ((b - a) / 2 - 2 ^ (w - 1))) mod 2 ^ w) with (a + (b - a) / 2 + 2 ^ (w - 1)) by (apply Z.mod_unique with (-1); lia).
           rewrite (proj2 (Z.ltb_lt _ _)) by lia. lia.
        -- left. rewrite to_s_id by lia. lia.
      * rewrite to_s_id by lia. rewrite s_expr_id by lia. cbn [bind]. rewrite to_s_id by lia. eexists. unfold Middle. split; [|split; [reflexivity|]]; lia.
    + rewrite D2 by lia. rewrite (s_big w b a Hw1 Hb Ha) by lia. rewrite to_s_id by lia. rewrite s_expr_id by lia. cbn [bind]. rewrite to_s_id by lia. eexists. unfold Middle. split; [|split; [reflexivity|]]; lia.
Qed.

(** FINDING: int8_t and int16_t arguments of opposite signs: midpoint<int8_t>(-1, 1) is -128, midpoint<int16_t>(-1, 1) is -32768. *)
Theorem C52_midpoint_signed_refuted :
  ~ (forall w a b r, 8 <= w -> - 2 ^ (w - 1) <= a < 2 ^ (w - 1) -> - 2 ^ (w - 1) <= b < 2 ^ (w - 1) -> midpoint_s w a b = Some r -> a <= r <= b \/ b <= r <= a).
Proof. intros H. specialize (H 8 (-1) 1 (-128) ltac:(lia) ltac:(cbn; lia) ltac:(cbn; lia) eq_refl). lia. Qed.

(** pointers and random access iterators into one array: the half way element, the lower of two, whatever the order of the arguments *)
Theorem C52_midpoint_pointer len a b :
  (a <= len)%nat -> (b <= len)%nat -> exists m, midpoint_p len a b = Some m /\ (2 * m <= a + b <= 2 * m + 1)%nat.
Proof.
  intros Ha Hb. unfold midpoint_p. destruct (Nat.ltb_spec b a).
  - pose proof (Nat.div_mod (a - b) 2 ltac:(lia)). pose proof (Nat.mod_upper_bound (a - b) 2 ltac:(lia)).
    destruct (Nat.leb_spec (b + (a - b) / 2) len); [|lia]. eexists. split; [reflexivity|]. lia.
  - pose proof (Nat.div_mod (b - a) 2 ltac:(lia)). pose proof (Nat.mod_upper_bound (b - a) 2 ltac:(lia)).
    destruct (Nat.leb_spec (a + (b - a) / 2) len); [|lia]. eexists. split; [reflexivity|]. lia.
Qed.

Lemma distance_ok f : forall a b, (a <= b)%nat -> (b - a <= f)%nat -> distance f a b = Some (b - a)%nat.
Proof.
  induction f; intros a b Hab Hf; cbn [distance]; destruct (Nat.eqb_spec a b).
  - subst. now rewrite Nat.sub_diag.
  - lia.
  - subst. now rewrite Nat.sub_diag.
  - rewrite IHf by lia. cbn [option_map]. f_equal. lia.
Qed.
Lemma advance_ok n : forall a, advance a n = (a + n)%nat.
Proof. induction n; intros a; cbn [advance]; [lia|]. rewrite IHn. lia. Qed.

Theorem C52_midpoint_iterator len a b :
  (a <= b)%nat -> (b <= len)%nat -> exists m, midpoint_f len a b = Some m /\ (2 * m <= a + b <= 2 * m + 1)%nat.
Proof.
  intros Hab Hb. unfold midpoint_f. rewrite distance_ok by lia. rewrite advance_ok. eexists. split; [reflexivity|].
  pose proof (Nat.div_mod (b - a) 2 ltac:(lia)). pose proof (Nat.mod_upper_bound (b - a) 2 ltac:(lia)). lia.
Qed.

(** concrete cases *)
Example ex_u : midpoint_u 8 250 255 = Some 252. Proof. reflexivity. Qed.
Example ex_u2 : midpoint_u 32 (2 ^ 32 - 1) (2 ^ 32 - 4) = Some (2 ^ 32 - 2). Proof. reflexivity. Qed.
Example ex_s : midpoint_s 32 (- 2 ^ 31) (2 ^ 31 - 1) = Some (-1). Proof. reflexivity. Qed.
Example ex_s2 : midpoint_s 16 (-1) 1 = Some (-32768). Proof. reflexivity. Qed.
Example ex_s3 : midpoint_s 8 1 (-1) = Some 0. Proof. reflexivity. Qed.
Example ex_p : midpoint_p 10 7 2 = Some 4%nat. Proof. reflexivity. Qed.
Print Assumptions C52_midpoint_unsigned.
Print Assumptions C52_midpoint_signed_exact.
Print Assumptions C52_midpoint_signed_refuted.
Print Assumptions C52_midpoint_pointer.
Print Assumptions C52_midpoint_iterator.
