From Coq Require Import ZArith List Bool Lia.
From Verif Require Import Util BinaryModel BinarySpec ConvModel ConvSpec.
Import ListNotations.
Open Scope Z_scope.

Lemma align_eq before t f : add_alignment before t f = before ++ padded f t.
Proof.
  unfold add_alignment, padded. destruct (Nat.ltb_spec (List.length t) (fwidth f)).
  - destruct (left_just f); reflexivity.
  - replace (fwidth f - List.length t)%nat with 0%nat by lia. cbn [repeat app]. rewrite app_nil_r. destruct (left_just f); reflexivity.
Qed.
Lemma number_snoc r ds d : number r (ds ++ [d]) = number r ds * r + d.
Proof. unfold number. rewrite fold_left_app. reflexivity. Qed.
Lemma number_from r ds : forall a, fold_left (fun a d => a * r + d) ds a = a * r ^ Z.of_nat (List.length ds) + number r ds.
Proof.
  unfold number. induction ds as [|d ds IH]; intros a; cbn [fold_left List.length].
  - rewrite Z.pow_0_r. lia.
  - rewrite IH, (IH (0 * r + d)). rewrite Nat2Z.inj_succ, Z.pow_succ_r by lia. lia.
Qed.
Lemma number_nonneg r ds : 0 <= r -> Forall (fun d => 0 <= d < r) ds -> 0 <= number r ds.
Proof.
  intros Hr. unfold number. assert (G : forall a, 0 <= a -> Forall (fun d => 0 <= d < r) ds -> 0 <= fold_left (fun a d => a * r + d) ds a).
  { induction ds as [|d ds IH]; intros a Ha H; cbn [fold_left]; [exact Ha|]. inversion H; subst. apply IH; [nia|assumption]. }
  now apply G.
Qed.
Lemma number_lt r ds : 0 < r -> Forall (fun d => 0 <= d < r) ds -> number r ds < r ^ Z.of_nat (List.length ds).
Proof.
  intros Hr H. induction ds as [|d ds IH] using rev_ind; [cbn; lia|]. rewrite number_snoc, app_length, Nat2Z.inj_add. cbn [List.length].
  apply Forall_app in H as [H1 H2]. inversion H2; subst. specialize (IH H1). rewrite Z.pow_add_r by lia. change (Z.of_nat 1) with 1. rewrite Z.pow_1_r. nia.
Qed.
Lemma number_ge r ds : 0 < r -> Forall (fun d => 0 <= d < r) ds -> ds <> [] -> hd 0 ds <> 0 -> r ^ (Z.of_nat (List.length ds) - 1) <= number r ds.
Proof.
  intros Hr H Hn Hh. destruct ds as [|d ds]; [contradiction|]. cbn [hd] in Hh. inversion H as [|? ? H1 H2]; subst. cbn [List.length].
  unfold number. cbn [fold_left]. rewrite number_from. pose proof (number_nonneg r ds ltac:(lia) H2).
  replace (Z.of_nat (S (List.length ds)) - 1) with (Z.of_nat (List.length ds)) by lia.
  assert (0 < r ^ Z.of_nat (List.length ds)) by (apply Z.pow_pos_nonneg; lia). nia.
Qed.

(** ** to_string *)
Lemma digit_char_eq up d : digit_char up d = (if d <? 10 then d + 48 else if up then d + 55 else d + 87).
Proof. unfold digit_char. destruct (Z.ltb_spec 9 d), (Z.ltb_spec d 10); try lia. destruct up; lia. Qed.
Lemma loop_ok f : 2 <= base f -> forall fuel v, Z.abs v < 2 ^ Z.of_nat fuel -> exists ds,
  digits_loop fuel v f = Some (map (digit_char (upper f)) ds) /\ number (base f) (rev ds) = Z.abs v /\
  Forall (fun d => 0 <= d < base f) ds /\ (v <> 0 -> ds <> [] /\ hd 0 (rev ds) <> 0).
Proof.
  intros Hb. set (b := base f) in *. induction fuel as [|k IH]; intros v Hv.
  - replace v with 0 by (cbn in Hv; lia). exists []. cbn. conj; auto; lia.
  - cbn [digits_loop]. destruct (Z.eqb_spec v 0) as [->|Nz].
    + exists []. cbn. conj; auto; lia.
    + fold b. assert (Q : Z.abs (Z.quot v b) = Z.abs v / b).
      { rewrite <- Z.quot_abs by lia. rewrite (Z.abs_eq b) by lia. apply Z.quot_div_nonneg; lia. }
      assert (R : Z.abs (Z.rem v b) = Z.abs v mod b).
      { rewrite <- Z.rem_abs by lia. rewrite (Z.abs_eq b) by lia. apply Z.rem_mod_nonneg; lia. }
      assert (DM := Z.div_mod (Z.abs v) b ltac:(lia)). assert (MB := Z.mod_pos_bound (Z.abs v) b ltac:(lia)).
      rewrite Nat2Z.inj_succ, Z.pow_succ_r in Hv by lia.
      destruct (IH (Z.quot v b)) as (ds & E & N & F & H).
      { rewrite Q. apply Z.div_lt_upper_bound; [lia|]. assert (0 < 2 ^ Z.of_nat k) by (apply Z.pow_pos_nonneg; lia). nia. }
      rewrite E, R. exists (Z.abs v mod b :: ds). cbn [map rev]. rewrite number_snoc, N, Q. conj.
      * reflexivity.
      * lia.
      * constructor; [lia|exact F].
      * intros _. split; [discriminate|]. destruct (Z.eq_dec (Z.quot v b) 0) as [Z0|Z0].
        -- rewrite Z0, Z.abs_0 in Q. destruct ds as [|d ds]; [cbn; lia|]. exfalso. rewrite Z0 in E. clear - E Z0. destruct k; discriminate E.
        -- destruct (H Z0) as [H1 H2]. destruct (rev ds) as [|x l] eqn:ER; [apply (f_equal (@rev Z)) in ER; rewrite rev_involutive in ER; contradiction|]. exact H2.
Qed.
Lemma add_integral_ok f str append negative v : 2 <= base f -> Z.abs v < 2 ^ 64 -> exists ds,
  digits_of (base f) (Z.abs v) ds /\
  add_integral v str f append negative = Some ((if append then str else []) ++
    padded f ((if (base f =? 10) && negative then [45] else []) ++ (if v =? 0 then [] else prefix f) ++ chars (upper f) ds)).
Proof.
  intros Hb Hv. unfold add_integral. destruct (Z.eqb_spec v 0) as [->|Nz].
  - exists [0]. split.
    + unfold digits_of. cbn. conj; try lia; try discriminate; auto. constructor; [lia|constructor].
    + rewrite align_eq. cbn [app chars map]. reflexivity.
  - destruct (loop_ok f Hb 64 v Hv) as (ds & E & N & F & H). rewrite E. exists (rev ds). destruct (H Nz) as [H1 H2]. split.
    + unfold digits_of. conj; auto; try lia.
      * apply Forall_forall. intros d Hd. apply in_rev in Hd. rewrite Forall_forall in F. auto.
      * intros Q. apply (f_equal (@rev Z)) in Q. rewrite rev_involutive in Q. contradiction.
    + rewrite align_eq. do 3 f_equal. rewrite !rev_app_distr.
      assert (RC : rev (map (digit_char (upper f)) ds) = chars (upper f) (rev ds)).
      { rewrite <- map_rev. unfold chars. apply map_ext. intros. apply digit_char_eq. }
      rewrite RC. unfold prefix.
      destruct (Z.eqb_spec (base f) 10) as [E10|N10].
      * rewrite !E10. cbn [andb Z.eqb Pos.eqb]. destruct (show_base f), negative; reflexivity.
      * cbn [andb rev app]. destruct (show_base f); [|reflexivity].
        destruct (Z.eqb_spec (base f) 2); [reflexivity|]. destruct (Z.eqb_spec (base f) 8); [reflexivity|]. destruct (Z.eqb_spec (base f) 16); reflexivity.
Qed.

(** ** to_arithmetic *)
Lemma sg8_narrow c : -128 <= c < 128 -> sg 8 c = c.
Proof.
  intros H. unfold sg. change (2 ^ 8) with 256. change (2 ^ (8 - 1)) with 128. cbv zeta.
  destruct (Z.leb_spec 0 c).
  - rewrite Z.mod_small by lia. destruct (Z.ltb_spec c 128); lia.
  - replace (c mod 256) with (c + 256) by (symmetry; rewrite <- (Z.mod_small (c + 256) 256) by lia; rewrite <- (Z.mod_add c 1 256) by lia; f_equal; lia).
    destruct (Z.ltb_spec (c + 256) 128); lia.
Qed.
Ltac zb := repeat match goal with
  | |- context [?a <=? ?b] => destruct (Z.leb_spec a b); try (exfalso; lia)
  | |- context [?a <? ?b] => destruct (Z.ltb_spec a b); try (exfalso; lia)
  | |- context [?a =? ?b] => destruct (Z.eqb_spec a b); try (exfalso; lia)
  end.
Definition radix_ok (r : Z) : Prop := r = 2 \/ r = 8 \/ r = 10 \/ r = 16.
Lemma is_valid_digit c r : -128 <= c < 128 -> radix_ok r ->
  match digit r c with
  | Some d => is_valid (convert c) r = true /\ digit_value (convert c) r = d /\ 0 <= d < r
  | None => is_valid (convert c) r = false
  end.
Proof.
  intros Hc Hr. unfold convert. rewrite sg8_narrow by exact Hc. cbv zeta. unfold digit, is_valid, digit_value.
  destruct Hr as [->|[->|[->| ->]]]; cbn [Z.eqb Pos.eqb orb];
  destruct (Z.leb_spec 48 c), (Z.leb_spec c 57), (Z.leb_spec 97 c), (Z.leb_spec c 102), (Z.leb_spec 65 c), (Z.leb_spec c 70), (Z.leb_spec c 90);
    cbn [andb]; try (exfalso; lia); zb; cbn [andb orb]; conj; try reflexivity; try lia.
Qed.
Lemma accumulate_ok wa r mx : radix_ok r -> 0 < wa -> 15 <= mx < 2 ^ wa -> forall text v, Forall (fun c => -128 <= c < 128) text -> 0 <= v <= mx ->
  accumulate wa r mx text v =
  let (ds, rest) := leading r text in
  let n := fold_left (fun a d => a * r + d) ds v in
  if mx <? n then Overflow else match rest with [] => Value n | _ => Invalid_Format end.
Proof.
  intros Hr Hwa Hmx. assert (R2 : 2 <= r <= 16) by (unfold radix_ok in Hr; lia).
  assert (Mono : forall ds a, Forall (fun d => 0 <= d) ds -> 0 <= a -> a <= fold_left (fun a d => a * r + d) ds a).
  { induction ds as [|d ds IH]; intros a Hd Ha; cbn [fold_left]; [lia|]. inversion Hd; subst. specialize (IH (a * r + d) H2 ltac:(nia)). nia. }
  assert (Lead : forall text, Forall (fun c => -128 <= c < 128) text -> Forall (fun d => 0 <= d) (fst (leading r text))).
  { induction text as [|c t IH]; intros H; cbn [leading]; [constructor|]. inversion H; subst. pose proof (is_valid_digit c r H2 Hr) as K.
    destruct (digit r c) as [d|]; [|constructor]. specialize (IH H3). destruct (leading r t). cbn [fst] in *. constructor; [lia|exact IH]. }
  cbv zeta. induction text as [|c t IH]; intros v Ht Hv; cbn [accumulate leading].
  - cbn [fold_left]. destruct (Z.ltb_spec mx v); [lia|reflexivity].
  - inversion Ht as [|? ? Hc Ht']; subst. pose proof (is_valid_digit c r Hc Hr) as K. specialize (Lead t Ht').
    destruct (digit r c) as [d|].
    + destruct K as (K1 & K2 & K3). rewrite K1, K2.
      assert (Over : forall a, mx < a -> 0 <= a -> (let (ds, rest) := let (ds, rest) := leading r t in (d :: ds, rest) in
         if mx <? fold_left (fun a d => a * r + d) ds v then Overflow else match rest with [] => Value (fold_left (fun a d => a * r + d) ds v) | _ => Invalid_Format end) = Overflow \/ v * r + d <> a).
      { intros a Ha Ha0. destruct (Z.eq_dec (v * r + d) a) as [E|]; [left|now right]. destruct (leading r t) as [ds rest]. cbn [fst fold_left] in *. rewrite E.
        pose proof (Mono ds a Lead Ha0). cbv zeta. destruct (Z.ltb_spec mx (fold_left (fun a d => a * r + d) ds a)); [reflexivity|lia]. }
      unfold tr at 1. destruct (Z.ltb_spec (v * r) (2 ^ wa)) as [L|L].
      * rewrite (Z.mod_small (v * r)) by nia. rewrite Z.div_mul by lia. rewrite Z.eqb_refl.
        replace (tr wa (mx - d)) with (mx - d) by (unfold tr; rewrite Z.mod_small; lia). unfold tr at 1.
        rewrite (Z.mod_small (v * r)) by nia. destruct (Z.leb_spec (v * r) (mx - d)) as [M|M].
        -- unfold tr. rewrite (Z.mod_small (v * r)) by nia. rewrite (Z.mod_small (v * r + d)) by lia. rewrite IH by (try assumption; nia). destruct (leading r t) as [ds rest]. reflexivity.
        -- destruct (Over (v * r + d) ltac:(lia) ltac:(nia)) as [E|E]; [now rewrite E|lia].
      * destruct (Z.eqb_spec ((v * r) mod 2 ^ wa / r) v) as [E|_].
        -- exfalso. assert (P : 0 < 2 ^ wa) by lia. pose proof (Z.mod_pos_bound (v * r) (2 ^ wa) P). pose proof (Z.div_mod (v * r) (2 ^ wa) ltac:(lia)).
           assert (1 <= v * r / 2 ^ wa) by (apply Z.div_le_lower_bound; lia).
           assert (D2 := Z.mul_div_le ((v * r) mod 2 ^ wa) r ltac:(lia)). assert (MM := Z.mod_pos_bound ((v * r) mod 2 ^ wa) r ltac:(lia)).
           assert (DD := Z.div_mod ((v * r) mod 2 ^ wa) r ltac:(lia)). rewrite E in *. nia.
        -- destruct (Over (v * r + d) ltac:(lia) ltac:(nia)) as [E|E]; [now rewrite E|lia].
    + rewrite K. cbn [fold_left]. destruct (Z.ltb_spec mx v); [lia|reflexivity].
Qed.
Lemma width_facts w : width w -> 0 < 2 ^ (w - 1) /\ 2 ^ w = 2 * 2 ^ (w - 1) /\ 128 <= 2 ^ (w - 1) /\ 2 ^ w <= 2 ^ acc_bits w /\ 0 < acc_bits w.
Proof. intros [->|[->|[->| ->]]]; vm_compute; repeat split; congruence. Qed.
Lemma sg_small w x : width w -> - 2 ^ (w - 1) <= x < 2 ^ (w - 1) -> sg w x = x.
Proof.
  intros Hw Hx. destruct (width_facts w Hw) as (P1 & P2 & _). unfold sg. cbv zeta. destruct (Z.leb_spec 0 x).
  - rewrite Z.mod_small by lia. destruct (Z.ltb_spec x (2 ^ (w - 1))); lia.
  - replace (x mod 2 ^ w) with (x + 2 ^ w). 2:{ rewrite <- (Z.mod_add x 1 (2 ^ w)) by lia. rewrite Z.mod_small by lia. lia. }
    destruct (Z.ltb_spec (x + 2 ^ w) (2 ^ (w - 1))); lia.
Qed.
Lemma leading_nonneg r text : radix_ok r -> Forall (fun c => -128 <= c < 128) text -> Forall (fun d => 0 <= d < r) (fst (leading r text)).
Proof.
  intros Hr. induction text as [|c t IH]; intros H; cbn [leading]; [constructor|]. inversion H; subst. pose proof (is_valid_digit c r H2 Hr) as K.
  destruct (digit r c) as [d|]; [|constructor]. specialize (IH H3). destruct (leading r t). cbn [fst] in *. constructor; [lia|exact IH].
Qed.
Lemma to_arithmetic_ok w sgn text r : width w -> radix_ok r -> Forall (fun c => -128 <= c < 128) text ->
  to_arithmetic w sgn text r = parse w sgn r text.
Proof.
  intros Hw Hr Ht. unfold to_arithmetic, parse.
  assert (Rv : is_valid_radix r = true) by (unfold is_valid_radix; destruct Hr as [->|[->|[->| ->]]]; reflexivity). rewrite Rv.
  assert (RS : remove_sign text = match text with c :: t => if c =? 45 then (true, t) else if c =? 43 then (false, t) else (false, text) | [] => (false, []) end).
  { destruct text as [|c t]; [reflexivity|]. inversion Ht; subst. unfold remove_sign. unfold convert. rewrite sg8_narrow by assumption. cbv zeta.
    destruct (Z.leb_spec 65 c), (Z.leb_spec c 90); cbn [andb]; zb; cbn [orb]; try reflexivity; lia. }
  rewrite RS. clear RS.
  assert (Hb : forall b v, match text with c :: t => if c =? 45 then (true, t) else if c =? 43 then (false, t) else (false, text) | [] => (false, []) end = (b, v) -> Forall (fun c => -128 <= c < 128) v).
  { intros b v E. destruct text as [|c t]; [injection E as <- <-; constructor|]. inversion Ht; subst.
    destruct (c =? 45); [injection E as <- <-; assumption|]. destruct (c =? 43); injection E as <- <-; assumption. }
  destruct (match text with c :: t => if c =? 45 then (true, t) else if c =? 43 then (false, t) else (false, text) | [] => (false, []) end) as [neg body].
  specialize (Hb _ _ eq_refl). destruct body as [|c0 body0]; [reflexivity|]. set (body := c0 :: body0) in *. clearbody body.
  destruct (neg && negb sgn) eqn:NS; [reflexivity|].
  destruct (width_facts w Hw) as (P1 & P2 & P3 & P4 & P5).
  assert (MX : (if neg then absolute_unsigned w sgn (- 2 ^ (w - 1)) else if r =? 10 then if sgn then 2 ^ (w - 1) - 1 else 2 ^ w - 1 else 2 ^ w - 1) = largest w sgn r neg).
  { unfold largest, high, low. destruct neg; [|reflexivity]. destruct sgn; [|discriminate NS]. unfold absolute_unsigned. rewrite Z.eqb_refl.
    rewrite P2. replace (2 * 2 ^ (w - 1) - 1) with (1 + (2 ^ (w - 1) - 1) * 2) by lia. rewrite Z.div_add by lia. change (1 / 2) with 0. lia. }
  rewrite MX.
  assert (B : 15 <= largest w sgn r neg < 2 ^ w /\ (neg = true -> largest w sgn r neg = 2 ^ (w - 1)) /\ (neg = false -> sgn = false -> largest w sgn r neg < 2 ^ w)).
  { unfold largest, high, low. destruct neg; [destruct sgn; [|discriminate NS]|]; [|destruct (r =? 10), sgn]; conj; try lia; try discriminate. }
  destruct B as (B1 & B2 & B3).
  rewrite (accumulate_ok (acc_bits w) r (largest w sgn r neg) Hr P5) by (try assumption; lia).
  fold (number r). pose proof (leading_nonneg r body Hr Hb) as LN. destruct (leading r body) as [ds rest]. cbn [fst] in LN.
  change (fold_left (fun a d => a * r + d) ds 0) with (number r ds). cbv zeta.
  pose proof (number_nonneg r ds ltac:(unfold radix_ok in Hr; lia) LN) as NN.
  destruct (Z.ltb_spec (largest w sgn r neg) (number r ds)) as [O|O]; [reflexivity|]. destruct rest; [|reflexivity]. f_equal.
  unfold tr. rewrite Z.mod_small by lia. destruct neg.
  - rewrite B2 in O by reflexivity. rewrite sg_small by (try assumption; lia). lia.
  - unfold same_bits. destruct sgn; cbn [andb]; [|reflexivity]. unfold sg. cbv zeta. rewrite Z.mod_small by lia.
    destruct (Z.ltb_spec (number r ds) (2 ^ (w - 1))), (Z.leb_spec (2 ^ (w - 1)) (number r ds)); lia.
Qed.

(** ** the round trip *)
Lemma digit_of_char (r : Z) (up : bool) (d : Z) : radix_ok r -> 0 <= d < r -> digit r (if d <? 10 then d + 48 else if up then d + 55 else d + 87) = Some d /\
  -128 <= (if d <? 10 then d + 48 else if up then d + 55 else d + 87) < 128 /\ (if d <? 10 then d + 48 else if up then d + 55 else d + 87) <> 45 /\ (if d <? 10 then d + 48 else if up then d + 55 else d + 87) <> 43.
Proof.
  intros Hr Hd. assert (r <= 16) by (unfold radix_ok in Hr; lia). unfold digit.
  set (c := if d <? 10 then d + 48 else if up then d + 55 else d + 87).
  assert (Hc : (d < 10 /\ c = d + 48) \/ (10 <= d /\ c = d + 55) \/ (10 <= d /\ c = d + 87)) by (unfold c; destruct (Z.ltb_spec d 10), up; lia).
  clearbody c.
  assert (I : (if (48 <=? c) && (c <=? 57) then c - 48 else if (97 <=? c) && (c <=? 102) then c - 87 else if (65 <=? c) && (c <=? 70) then c - 55 else r) = d).
  { destruct (Z.leb_spec 48 c), (Z.leb_spec c 57), (Z.leb_spec 97 c), (Z.leb_spec c 102), (Z.leb_spec 65 c), (Z.leb_spec c 70); cbn [andb]; lia. }
  rewrite I. destruct (Z.ltb_spec d r); [|lia]. conj; try reflexivity; lia.
Qed.
Lemma leading_chars (r : Z) (up : bool) (ds : list Z) : radix_ok r -> Forall (fun d => 0 <= d < r) ds -> leading r (chars up ds) = (ds, []) /\ Forall (fun c => -128 <= c < 128) (chars up ds).
Proof.
  intros Hr. induction 1 as [|d ds H _ IH]; cbn [chars map leading]; [split; [reflexivity|constructor]|]. fold (chars up ds).
  destruct (digit_of_char r up d Hr H) as (E & B & _). rewrite E. destruct IH as [IH1 IH2]. rewrite IH1. split; [reflexivity|constructor; assumption].
Qed.

(** ** denominated integers *)
Lemma times10_ok w n : forall x, 0 <= x -> x * 10 ^ Z.of_nat n < 2 ^ w -> times10 w n x = x * 10 ^ Z.of_nat n.
Proof.
  induction n as [|n IH]; intros x Hx Hl; cbn [times10]; [rewrite Z.pow_0_r; lia|].
  rewrite Nat2Z.inj_succ, Z.pow_succ_r in * by lia. assert (0 < 10 ^ Z.of_nat n) by (apply Z.pow_pos_nonneg; lia).
  unfold tr. rewrite (Z.mod_small (x * 10)) by nia. rewrite IH; lia.
Qed.
Lemma over10_ok n : forall x, over10 n x = x / 10 ^ Z.of_nat n.
Proof.
  induction n as [|n IH]; intros x; cbn [over10]; [rewrite Z.pow_0_r, Z.div_1_r; reflexivity|].
  rewrite Nat2Z.inj_succ, Z.pow_succ_r by lia. rewrite IH. assert (0 < 10 ^ Z.of_nat n) by (apply Z.pow_pos_nonneg; lia). now rewrite Z.div_div by lia.
Qed.
Lemma absolute_ok w sgn v : 0 < w -> fits w sgn v -> absolute_unsigned w sgn v = Z.abs v.
Proof.
  intros Hw H. unfold fits, low, high in H. unfold absolute_unsigned. destruct sgn; [|lia].
  assert (P : 0 < 2 ^ (w - 1)) by (apply Z.pow_pos_nonneg; lia). assert (P2 : 2 ^ w = 2 * 2 ^ (w - 1)) by (rewrite <- Z.pow_succ_r by lia; f_equal; lia).
  destruct (Z.eqb_spec v (- 2 ^ (w - 1))) as [E|E].
  - rewrite P2. replace (2 * 2 ^ (w - 1) - 1) with (1 + (2 ^ (w - 1) - 1) * 2) by lia. rewrite Z.div_add by lia. change (1 / 2) with 0. lia.
  - destruct (Z.ltb_spec v 0); unfold tr; rewrite Z.mod_small; lia.
Qed.
Lemma number_zeros r n ds : number r (repeat 0 n ++ ds) = number r ds.
Proof. unfold number. rewrite fold_left_app. f_equal. induction n as [|n IH]; cbn [repeat fold_left]; [reflexivity|]. exact IH. Qed.
Lemma half_power (n : nat) : (0 < n)%nat -> 2 * (5 * 10 ^ Z.of_nat (n - 1)) = 10 ^ Z.of_nat n.
Proof. intros H. replace (Z.of_nat n) with (Z.succ (Z.of_nat (n - 1))) by lia. rewrite Z.pow_succ_r by lia. lia. Qed.
Lemma denominated_ok w sgn v e str f append : w = 32 \/ w = 64 -> fits w sgn v -> 10 ^ Z.of_nat e < 2 ^ w ->
  let p := Nat.min (prec f) e in
  ((p < e)%nat -> 5 * 10 ^ Z.of_nat (e - p - 1) < 2 ^ 32) ->
  Z.abs v + (if (p <? e)%nat then 5 * 10 ^ Z.of_nat (e - p - 1) else 0) < 2 ^ w ->
  exists di df, digits_of 10 (rounded v e p / 10 ^ Z.of_nat p) di /\
    List.length df = p /\ Forall (fun d => 0 <= d < 10) df /\ number 10 df = rounded v e p mod 10 ^ Z.of_nat p /\
    add_integral_denominated w sgn v e str f append = Some ((if append then str else []) ++
      padded f ((if sgn && (v <? 0) then [45] else []) ++ chars (upper f) di ++ (if (0 <? p)%nat then 46 :: chars (upper f) df else []))).
Proof.
  intros Hw Hf He p H5 Hs. set (P := Z.of_nat p) in *. set (E := Z.of_nat e) in *. set (u := 10 ^ Z.of_nat (e - p)).
  assert (Pe : (p <= e)%nat) by (unfold p; lia).
  assert (Upos : 0 < u) by (apply Z.pow_pos_nonneg; lia). assert (Ppos : 0 < 10 ^ P) by (apply Z.pow_pos_nonneg; lia).
  assert (Epos : 10 ^ E = u * 10 ^ P). { unfold u, E, P. rewrite <- Z.pow_add_r by lia. f_equal. lia. }
  assert (W64 : 2 ^ w <= 2 ^ 64) by (destruct Hw as [-> | ->]; vm_compute; congruence).
  set (A := Z.abs v + (if (p <? e)%nat then 5 * 10 ^ Z.of_nat (e - p - 1) else 0)) in *.
  assert (A0 : 0 <= A). { unfold A. destruct (p <? e)%nat; [|lia]. assert (0 < 10 ^ Z.of_nat (e - p - 1)) by (apply Z.pow_pos_nonneg; lia). lia. }
  assert (M : rounded v e p = A / u).
  { unfold rounded, A. fold u. destruct (Nat.ltb_spec p e) as [L|L].
    - pose proof (half_power (e - p) ltac:(lia)) as HP. fold u in HP. replace (2 * Z.abs v + u) with (2 * (Z.abs v + 5 * 10 ^ Z.of_nat (e - p - 1))) by lia.
      rewrite Z.div_mul_cancel_l by lia. reflexivity.
    - assert (u = 1) as ->. { unfold u. replace (e - p)%nat with 0%nat by lia. reflexivity. }
      rewrite Z.div_1_r. replace (2 * Z.abs v + 1) with (1 + Z.abs v * 2) by lia. rewrite Z.div_add by lia. change (1 / (2 * 1)) with 0. lia. }
  assert (M0 : 0 <= rounded v e p) by (rewrite M; apply Z.div_pos; lia).
  assert (Q : A / 10 ^ E = rounded v e p / 10 ^ P) by (rewrite M, Epos, Z.div_div by lia; reflexivity).
  assert (R : (A mod 10 ^ E) / u = rounded v e p mod 10 ^ P).
  { rewrite M, Epos, Z.rem_mul_r by lia. rewrite (Z.mul_comm u), Z.div_add by lia. rewrite (Z.div_small (A mod u)) by (apply Z.mod_pos_bound; lia). lia. }
  unfold add_integral_denominated.
  replace (if (e <? prec f)%nat then e else prec f) with p by (unfold p; destruct (Nat.ltb_spec e (prec f)); lia).
  rewrite (times10_ok w e 1) by (fold E; lia). fold E. rewrite Z.mul_1_l. rewrite absolute_ok by (try exact Hf; lia).
  replace (if (p <? e)%nat then tr w (Z.abs v + times10 32 (e - p - 1) 5) else Z.abs v) with A.
  2:{ unfold A. destruct (Nat.ltb_spec p e) as [L|L]; [|lia]. rewrite times10_ok by (try lia; exact (H5 L)). unfold tr. rewrite Z.mod_small; [reflexivity|].
      unfold A in Hs, A0. lia. }
  cbv zeta. rewrite over10_ok. fold u. rewrite Q, R. unfold add_integral_and_fractional.
  set (fi := mkfmt 10 0 (prec f) (upper f) (left_just f) (boolalpha f) (show_base f) (fill f)).
  set (ff := mkfmt 10 p p (upper f) false (boolalpha f) (show_base f) 48). set (m := rounded v e p) in *.
  assert (mA : m <= A) by (rewrite M; apply Z.div_le_upper_bound; nia).
  assert (B1 : Z.abs (m / 10 ^ P) < 2 ^ 64). { assert (0 <= m / 10 ^ P <= m) by (split; [apply Z.div_pos; lia|apply Z.div_le_upper_bound; nia]). lia. }
  assert (B2 : 0 <= m mod 10 ^ P < 10 ^ P) by (apply Z.mod_pos_bound; lia).
  assert (B3 : 10 ^ P <= 10 ^ E) by nia.
  destruct (add_integral_ok fi [] true (sgn && (v <? 0)) (m / 10 ^ P) ltac:(cbn; lia) B1) as (di & Di & Ei). rewrite Ei. cbn [base fi] in *.
  rewrite (Z.abs_eq (m / 10 ^ P)) in Di by (apply Z.div_pos; lia). exists di.
  assert (Pi : padded fi ((if (10 =? 10) && (sgn && (v <? 0)) then [45] else []) ++ (if m / 10 ^ P =? 0 then [] else prefix fi) ++ chars (upper fi) di) =
               (if sgn && (v <? 0) then [45] else []) ++ chars (upper f) di).
  { unfold padded. cbn [fwidth left_just fi Nat.sub repeat]. unfold prefix. cbn [show_base base upper fi Z.eqb Pos.eqb andb].
    replace (if m / 10 ^ P =? 0 then [] else if show_base f then [] else []) with (@nil Z) by (destruct (m / 10 ^ P =? 0), (show_base f); reflexivity).
    cbn [app]. destruct (left_just f); [now rewrite app_nil_r|reflexivity]. }
  rewrite Pi. cbn [app prec ff].
  destruct (Nat.ltb_spec 0 p) as [Lp|Lp].
  - destruct (add_integral_ok ff (((if sgn && (v <? 0) then [45] else []) ++ chars (upper f) di) ++ [46]) true false (m mod 10 ^ P) ltac:(cbn; lia) ltac:(lia)) as (ds & Ds & Es).
    cbn [base ff] in *. rewrite Es. rewrite (Z.abs_eq (m mod 10 ^ P)) in Ds by lia. destruct Ds as (D1 & D2 & D3 & D4 & D5).
    assert (Len : (List.length ds <= p)%nat).
    { destruct (Z.eq_dec (m mod 10 ^ P) 0) as [Z0|Z0]; [rewrite (D5 Z0); cbn; lia|].
      pose proof (number_ge 10 ds ltac:(lia) D2 D3 (D4 Z0)) as G. rewrite D1 in G. destruct (le_lt_dec (List.length ds) p) as [?|L]; [assumption|exfalso].
      assert (10 ^ P <= 10 ^ (Z.of_nat (List.length ds) - 1)) by (apply Z.pow_le_mono_r; unfold P; lia). lia. }
    exists (repeat 0 (p - List.length ds) ++ ds). conj; auto.
    + rewrite app_length, repeat_length. lia.
    + apply Forall_app. split; [|exact D2]. apply Forall_forall. intros x Hx. apply repeat_spec in Hx. subst. lia.
    + rewrite number_zeros. exact D1.
    + rewrite align_eq. do 3 f_equal.
      assert (Pf : padded ff ((if (10 =? 10) && false then [45] else []) ++ (if m mod 10 ^ P =? 0 then [] else prefix ff) ++ chars (upper ff) ds) =
                   chars (upper f) (repeat 0 (p - List.length ds) ++ ds)).
      { unfold prefix. cbn [show_base base upper ff Z.eqb Pos.eqb andb].
        replace (if m mod 10 ^ P =? 0 then [] else if show_base f then [] else []) with (@nil Z) by (destruct (m mod 10 ^ P =? 0), (show_base f); reflexivity).
        cbn [app]. unfold padded. cbn [fwidth left_just fill ff]. unfold chars. rewrite map_app, map_length. f_equal.
        clear. induction (p - List.length ds)%nat as [|k IH]; cbn [repeat map]; [reflexivity|]. now rewrite IH. }
      rewrite Pf. rewrite <- !app_assoc. reflexivity.
  - exists []. assert (p0 : p = 0%nat) by lia. conj; auto.
    + unfold P. rewrite p0. cbn [Z.of_nat]. rewrite Z.pow_0_r, Z.mod_1_r. reflexivity.
    + rewrite align_eq. now rewrite app_nil_r.
Qed.
