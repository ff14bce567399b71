(** C24: etl::to_string and etl::to_arithmetic for integers, booleans and denominated integers. *)
From Coq Require Import ZArith List Bool Lia.
From Verif Require Import Util BinaryModel BinarySpec ConvModel ConvSpec ConvProofs.
Import ListNotations.
Open Scope Z_scope.

(** the text of a value: its digits without leading zeros, the minus sign (base 10 only) and the base
    prefix (not for 0) in front, padded to the width; appended to what the string held or replacing it *)
Theorem C24_to_string_exact : forall (is64 signed : bool) (value : Z) str f append, 2 <= base f -> fits (if is64 then 64 else 32) signed value ->
  exists ds, digits_of (base f) (Z.abs value) ds /\
  to_string is64 signed value str f append = Some ((if append then str else []) ++
    padded f ((if (base f =? 10) && (value <? 0) then [45] else []) ++ (if value =? 0 then [] else prefix f) ++ chars (upper f) ds)).
Proof.
  intros is64 sgn v str f append Hb Hf.
  assert (Hv : Z.abs v < 2 ^ 64). { unfold fits, low, high in Hf. destruct is64, sgn; cbn in Hf |- *; lia. }
  assert (E : (if is64 then v else if sgn then sg 32 v else tr 32 v) = v).
  { destruct is64; [reflexivity|]. unfold fits, low, high in Hf. destruct sgn.
    - apply sg_small; [right; right; left; reflexivity|lia].
    - unfold tr. apply Z.mod_small. lia. }
  assert (S : sgn && (v <? 0) = (v <? 0)). { unfold fits, low in Hf. destruct sgn; [reflexivity|]. destruct (Z.ltb_spec v 0); [lia|reflexivity]. }
  unfold to_string. rewrite E, S. exact (add_integral_ok f str append (v <? 0) v Hb Hv).
Qed.
Print Assumptions C24_to_string_exact.

Theorem C24_boolean_exact : forall (value : bool) str f append,
  add_boolean value str f append = (if append then str else []) ++
    padded f (match boolalpha f, value with true, true => [116; 114; 117; 101] | true, false => [102; 97; 108; 115; 101] | false, true => [49] | false, false => [48] end).
Proof. intros v str f append. unfold add_boolean. rewrite align_eq. destruct (boolalpha f), v; reflexivity. Qed.
Print Assumptions C24_boolean_exact.

(** to_arithmetic of any text of (8 bit) characters gives what the text means or the exact error *)
Theorem C24_parse_exact : forall w signed text radix, width w -> Forall (fun c => -128 <= c < 128) text ->
  to_arithmetic w signed text radix = if existsb (Z.eqb radix) [2; 8; 10; 16] then parse w signed radix text else Invalid_Radix.
Proof.
  intros w sgn t r Hw Ht. cbn [existsb]. destruct (Z.eqb_spec r 2) as [->|N2]; [apply to_arithmetic_ok; auto; left; reflexivity|].
  destruct (Z.eqb_spec r 8) as [->|N8]; [apply to_arithmetic_ok; auto; right; left; reflexivity|].
  destruct (Z.eqb_spec r 10) as [->|N10]; [apply to_arithmetic_ok; auto; right; right; left; reflexivity|].
  destruct (Z.eqb_spec r 16) as [->|N16]; [apply to_arithmetic_ok; auto; right; right; right; reflexivity|].
  cbn [orb]. unfold to_arithmetic, is_valid_radix.
  destruct (Z.eqb_spec r 2); [contradiction|]. destruct (Z.eqb_spec r 8); [contradiction|]. destruct (Z.eqb_spec r 10); [contradiction|]. destruct (Z.eqb_spec r 16); [contradiction|]. reflexivity.
Qed.
Print Assumptions C24_parse_exact.

(** a value whose text is taken never lies outside the type *)
Theorem C24_parse_in_range : forall w signed text radix v, width w -> Forall (fun c => -128 <= c < 128) text ->
  to_arithmetic w signed text radix = Value v -> fits w signed v.
Proof.
  intros w sgn t r v Hw Ht. rewrite C24_parse_exact by assumption. destruct (existsb (Z.eqb r) [2; 8; 10; 16]) eqn:Er; [|discriminate].
  assert (Hr : radix_ok r).
  { cbn [existsb] in Er. unfold radix_ok. destruct (Z.eqb_spec r 2); [lia|]. destruct (Z.eqb_spec r 8); [lia|]. destruct (Z.eqb_spec r 10); [lia|]. destruct (Z.eqb_spec r 16); [lia|]. discriminate Er. }
  unfold parse. destruct (width_facts w Hw) as (P1 & P2 & P3 & _).
  assert (Hb : forall b l, match t with c :: t' => if c =? 45 then (true, t') else if c =? 43 then (false, t') else (false, t) | [] => (false, []) end = (b, l) -> Forall (fun c => -128 <= c < 128) l).
  { intros b l E. destruct t as [|c t']; [injection E as <- <-; constructor|]. inversion Ht; subst.
    destruct (c =? 45); [injection E as <- <-; assumption|]. destruct (c =? 43); injection E as <- <-; assumption. }
  destruct (match t with c :: t' => if c =? 45 then (true, t') else if c =? 43 then (false, t') else (false, t) | [] => (false, []) end) as [neg body].
  specialize (Hb _ _ eq_refl). destruct body as [|c0 body0]; [discriminate|]. destruct (neg && negb sgn) eqn:NS; [discriminate|].
  pose proof (leading_nonneg r _ Hr Hb) as LN. destruct (leading r (c0 :: body0)) as [ds rest]. cbn [fst] in LN.
  pose proof (number_nonneg r ds ltac:(unfold radix_ok in Hr; lia) LN) as NN. destruct (Z.ltb_spec (largest w sgn r neg) (number r ds)) as [O|O]; [discriminate|].
  destruct rest; [|discriminate]. intros E. injection E as <-. unfold fits, low, high, same_bits, largest in *. unfold low, high in O.
  destruct neg; [destruct sgn; [lia|discriminate NS]|]. destruct sgn; cbn [andb].
  - destruct (Z.leb_spec (2 ^ (w - 1)) (number r ds)); destruct (Z.eqb_spec r 10); lia.
  - destruct (r =? 10); lia.
Qed.
Print Assumptions C24_parse_in_range.

(** the round trip: the text of a value is converted back to the value, in every base in which the sign is
    shown, upper or lower case, for every type *)
Theorem C24_round_trip : forall w signed value f, width w -> fits w signed value -> In (base f) [2; 8; 10; 16] ->
  0 <= value \/ base f = 10 -> fwidth f = 0%nat -> show_base f = false ->
  exists text, to_string (w =? 64) signed value [] f false = Some text /\ to_arithmetic w signed text (base f) = Value value.
Proof.
  intros w sgn v f Hw Hf Hbs Hs Hwd Hsb. assert (Hr : radix_ok (base f)) by (cbn in Hbs; unfold radix_ok; lia).
  destruct (width_facts w Hw) as (P1 & P2 & P3 & _).
  assert (F32 : fits (if w =? 64 then 64 else 32) sgn v).
  { unfold fits, low, high in *. destruct Hw as [->|[->|[->| ->]]]; cbn in Hf |- *; destruct sgn; lia. }
  destruct (C24_to_string_exact (w =? 64) sgn v [] f false ltac:(unfold radix_ok in Hr; lia) F32) as (ds & (D1 & D2 & D3 & D4 & D5) & E). eexists. split; [exact E|].
  cbn [app]. unfold padded, prefix. rewrite Hwd, Hsb. cbn [Nat.sub repeat app].
  set (body := (if (base f =? 10) && (v <? 0) then [45] else []) ++ (if v =? 0 then [] else []) ++ chars (upper f) ds).
  replace (if left_just f then body ++ [] else body) with body by (destruct (left_just f); [now rewrite app_nil_r|reflexivity]).
  unfold body. replace (if v =? 0 then [] else []) with (@nil Z) by (destruct (v =? 0); reflexivity). cbn [app].
  destruct (leading_chars (base f) (upper f) ds Hr D2) as [L1 L2].
  rewrite to_arithmetic_ok; [|exact Hw|exact Hr|].
  2:{ apply Forall_app. split; [|exact L2]. destruct ((base f =? 10) && (v <? 0)); constructor; [lia|constructor]. }
  unfold parse.
  destruct (chars (upper f) ds) as [|c0 cs] eqn:EC. { destruct ds; [contradiction|discriminate EC]. }
  assert (C0 : c0 <> 45 /\ c0 <> 43).
  { destruct ds as [|d ds']; [contradiction|]. cbn [chars map] in EC. injection EC as <- _. inversion D2; subst. destruct (digit_of_char (base f) (upper f) d Hr H1) as (_ & _ & K). exact K. }
  destruct (Z.ltb_spec v 0) as [Neg|Pos].
  - assert (B10 : base f = 10) by lia. rewrite B10 in *. cbn [Z.eqb Pos.eqb andb app]. unfold fits, low, high in Hf.
    destruct sgn; [|lia]. cbn [andb negb]. rewrite L1. cbn [app]. rewrite D1. unfold largest, low.
    destruct (Z.ltb_spec (- - 2 ^ (w - 1)) (Z.abs v)); [lia|]. f_equal. lia.
  - rewrite andb_false_r. cbn [app]. destruct (Z.eqb_spec c0 45); [lia|]. destruct (Z.eqb_spec c0 43); [lia|]. cbn [andb]. rewrite L1, D1. rewrite Z.abs_eq by lia.
    unfold fits, low, high in Hf. unfold largest, high, same_bits.
    destruct (Z.ltb_spec (if base f =? 10 then if sgn then 2 ^ (w - 1) - 1 else 2 ^ w - 1 else 2 ^ w - 1) v) as [O|O].
    + exfalso. destruct (base f =? 10), sgn; lia.
    + f_equal. destruct sgn; cbn [andb]; [|reflexivity]. destruct (Z.leb_spec (2 ^ (w - 1)) v); lia.
Qed.
Print Assumptions C24_round_trip.

(** a denominated integer v / 10^e is written rounded (half away from zero) to p = min(precision, e) decimals,
    as long as the rounding stays within the working type *)
Theorem C24_denominated_exact : forall w signed v e str f append, w = 32 \/ w = 64 -> fits w signed v -> 10 ^ Z.of_nat e < 2 ^ w ->
  let p := Nat.min (prec f) e in
  ((p < e)%nat -> 5 * 10 ^ Z.of_nat (e - p - 1) < 2 ^ 32) ->
  Z.abs v + (if (p <? e)%nat then 5 * 10 ^ Z.of_nat (e - p - 1) else 0) < 2 ^ w ->
  exists whole decimals, digits_of 10 (rounded v e p / 10 ^ Z.of_nat p) whole /\
    List.length decimals = p /\ Forall (fun d => 0 <= d < 10) decimals /\ number 10 decimals = rounded v e p mod 10 ^ Z.of_nat p /\
    add_integral_denominated w signed v e str f append = Some ((if append then str else []) ++
      padded f ((if signed && (v <? 0) then [45] else []) ++ chars (upper f) whole ++ (if (0 <? p)%nat then 46 :: chars (upper f) decimals else []))).
Proof. exact denominated_ok. Qed.
Print Assumptions C24_denominated_exact.

(** ** what does not hold *)
Definition hex : fmt := mkfmt 16 0 0 false false false false 32.
(** the sign of a negative value is lost in the bases 2, 8 and 16: the text of -5 is the text of 5, and the
    round trip fails *)
Theorem C24_negative_hex_refuted : exists v, fits 32 true v /\ v < 0 /\ to_string false true v [] hex false = to_string false true (- v) [] hex false /\
  forall text, to_string false true v [] hex false = Some text -> to_arithmetic 32 true text 16 <> Value v.
Proof.
  exists (-5). split; [unfold fits; cbn; lia|]. split; [lia|]. split; [vm_compute; reflexivity|].
  intros text E. assert (text = [53]) as -> by (vm_compute in E; congruence). vm_compute. discriminate.
Qed.
Print Assumptions C24_negative_hex_refuted.
(** a 64 bit type other than int64_t / uint64_t (long long where int64_t is long) is cut to 32 bits *)
Theorem C24_long_long_refuted : exists v, fits 64 true v /\ v <> 0 /\ to_string false true v [] default_fmt false = Some [48].
Proof. exists (2 ^ 40). split; [unfold fits; cbn; lia|]. split; [discriminate|]. vm_compute. reflexivity. Qed.
Print Assumptions C24_long_long_refuted.
(** a wide character is cut to 8 bits before it is looked at: U+0131 is taken for '1' *)
Theorem C24_wide_character_refuted : exists c, digit 10 c = None /\ to_arithmetic 32 true [c] 10 = Value 1.
Proof. exists 305. split; vm_compute; reflexivity. Qed.
Print Assumptions C24_wide_character_refuted.
(** the rounding of a denominated value can overflow: 429496729.5 rounded to no decimals is written "0" *)
Theorem C24_denominated_refuted : exists v, fits 32 false v /\ rounded v 1 0 = 429496730 /\
  add_integral_denominated 32 false v 1 [] default_fmt false = Some [48].
Proof. exists 4294967295. split; [unfold fits; cbn; lia|]. split; vm_compute; reflexivity. Qed.
Print Assumptions C24_denominated_refuted.
(** a negative value that rounds to zero is written "-0" *)
Theorem C24_minus_zero_refuted : exists v, rounded v 2 1 = 0 /\ add_integral_denominated 32 true v 2 [] (mkfmt 10 0 1 false false false false 32) false = Some [45; 48; 46; 48].
Proof. exists (-4). split; vm_compute; reflexivity. Qed.
Print Assumptions C24_minus_zero_refuted.

(** ** concrete cases *)
Example conv_ex1 : to_string false true (-300) [33] (mkfmt 10 6 0 false false false false 42) true = Some [33; 42; 42; 45; 51; 48; 48].
Proof. vm_compute. reflexivity. Qed.
Example conv_ex2 : to_string false false 48879 [] (mkfmt 16 8 0 true true false true 46) false = Some [48; 88; 66; 69; 69; 70; 46; 46].
Proof. vm_compute. reflexivity. Qed.
Example conv_ex3 : to_arithmetic 8 true [45; 49; 50; 56] 10 = Value (-128) /\ to_arithmetic 8 true [49; 50; 56] 10 = Overflow /\
  to_arithmetic 8 true [102; 70] 16 = Value (-1) /\ to_arithmetic 8 false [45; 49] 10 = Signed_To_Unsigned /\ to_arithmetic 8 true [49; 120] 10 = Invalid_Format /\ to_arithmetic 8 true [49] 7 = Invalid_Radix.
Proof. vm_compute. repeat split; reflexivity. Qed.
Example conv_ex4 : fits 16 true (-32768) /\ to_string false true (-32768) [] default_fmt false = Some [45; 51; 50; 55; 54; 56] /\ to_arithmetic 16 true [45; 51; 50; 55; 54; 56] 10 = Value (-32768).
Proof. split; [unfold fits; cbn; lia|]. vm_compute. split; reflexivity. Qed.
Example conv_ex5 : add_integral_denominated 32 true (-12345) 3 [] (mkfmt 10 8 2 false false false false 32) false = Some [32; 32; 45; 49; 50; 46; 51; 53] /\ rounded (-12345) 3 2 = 1235.
Proof. vm_compute. split; reflexivity. Qed.
