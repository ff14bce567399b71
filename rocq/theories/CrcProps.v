(** * C20: the CRC classes compute the parametrised bit-serial CRC; C43: burst errors are detected. *)
From Coq Require Import List Arith Lia Bool ZArith.
From Verif Require Import Util BinaryModel BinarySpec BitLib BinaryProofs BinaryProofs2 BinaryProofs3 BinaryProofs4 CrcModel CrcSpec CrcProofs.
Import ListNotations.
Local Open Scope Z_scope.

(** the bytes that count: those given since the last reset, in order, however split into calls *)
Definition since_reset (calls : list call) : list Z :=
  fold_left (fun acc c => match c with Add l => acc ++ l | Add1 b => acc ++ [b] | Reset => [] end) calls [].
Definition call_bytes (c : call) : list Z := match c with Add l => l | Add1 b => [b] | Reset => [] end.
Definition table_size (n : Z) : Prop := n = 4 \/ n = 16 \/ n = 256.
Definition valid_params (q : crc_params) : Prop :=
  width (Accumulator_Bits q) /\ unsigned (Accumulator_Bits q) (Polynomial q) /\ unsigned (Accumulator_Bits q) (Initial q) /\ unsigned (Accumulator_Bits q) (Xor_Out q).
Definition crc_of (q : crc_params) (bytes : list Z) : Z := crc (Accumulator_Bits q) (Polynomial q) (Initial q) (Xor_Out q) (Reflect q) bytes.

(** calls only concatenate, for any policy *)
Lemma calls_concat p calls : forall acc, fold_left (do_call p) calls (fold_left (padd p) acc (initial p)) =
  fold_left (padd p) (fold_left (fun acc c => match c with Add l => acc ++ l | Add1 b => acc ++ [b] | Reset => [] end) calls acc) (initial p).
Proof.
  induction calls as [|c calls IH]; intros acc; [reflexivity|]. cbn [fold_left]. rewrite <- IH. f_equal. destruct c; cbn [do_call]; rewrite ?fold_left_app; reflexivity.
Qed.
Theorem C20_any_split : forall p calls, value_after p calls = pfinal p (fold_left (padd p) (since_reset calls) (initial p)).
Proof. intros p calls. unfold value_after, since_reset. rewrite <- (calls_concat p calls []). reflexivity. Qed.

Lemma since_bytes (B : Z -> Prop) calls : Forall (fun c => Forall B (call_bytes c)) calls -> Forall B (since_reset calls).
Proof.
  unfold since_reset. assert (G : forall acc, Forall B acc -> Forall (fun c => Forall B (call_bytes c)) calls ->
    Forall B (fold_left (fun acc c => match c with Add l => acc ++ l | Add1 b => acc ++ [b] | Reset => [] end) calls acc)).
  { induction calls as [|c calls IH]; intros acc Ha Hc; [exact Ha|]. inversion_clear Hc. cbn [fold_left]. apply IH; [|assumption].
    destruct c; cbn in *; [apply Forall_app; auto|apply Forall_app; auto|constructor]. }
  intros H. apply G; [constructor|exact H].
Qed.
Lemma crc_value q n l : valid_params q -> table_size n -> Forall byte l ->
  pfinal (crc_policy q n) (fold_left (padd (crc_policy q n)) l (initial (crc_policy q n))) = crc_of q l.
Proof.
  intros (Hw & Hp & Hi & Hx) Hn Hl. unfold crc_policy, crc_of, crc. cbn [pfinal padd initial]. f_equal.
  change (if Reflect q then reverse_bits (Accumulator_Bits q) (Initial q) else Initial q) with (shown q (Initial q)).
  rewrite (shown_adds q Hw Hp n l Hn (Initial q) Hi Hl). unfold shown. destruct (Reflect q); [|reflexivity]. symmetry. apply reflected_ok; [exact Hw|apply fold_word; assumption].
Qed.
(** C20: any parameters of the right shape, any table size, any bytes, any split into calls *)
Theorem C20_crc_is_bit_serial : forall q n calls, valid_params q -> table_size n -> Forall (fun c => Forall byte (call_bytes c)) calls ->
  value_after (crc_policy q n) calls = crc_of q (since_reset calls).
Proof. intros q n calls Hq Hn Hc. rewrite C20_any_split. apply crc_value; [exact Hq|exact Hn|apply since_bytes; exact Hc]. Qed.

(** all parameter sets of the library are of the right shape *)
Definition params_ck (q : crc_params) : bool :=
  let w := Accumulator_Bits q in
  ((w =? 8) || (w =? 16) || (w =? 32) || (w =? 64)) && (0 <=? Polynomial q) && (Polynomial q <? 2 ^ w) && (0 <=? Initial q) && (Initial q <? 2 ^ w) && (0 <=? Xor_Out q) && (Xor_Out q <? 2 ^ w).
Theorem C20_library_parameters_valid : Forall valid_params crc_parameters.
Proof.
  assert (C : forallb params_ck crc_parameters = true) by (vm_compute; reflexivity). rewrite forallb_forall in C. apply Forall_forall. intros q Hq. specialize (C q Hq).
  unfold params_ck in C. rewrite !andb_true_iff, !orb_true_iff, !Z.eqb_eq, !Z.leb_le, !Z.ltb_lt in C. unfold valid_params, width, unsigned. tauto.
Qed.
(** the published parameters (width, poly, init, xorout, refin = refout), in the order of the library *)
Definition published : list (Z * Z * Z * Z * bool) :=
  [ (8,0x07,0x00,0x00,false); (8,0x07,0xFF,0x00,true); (8,0x9B,0xFF,0x00,false); (8,0x39,0x00,0x00,true); (8,0xD5,0x00,0x00,false); (8,0x1D,0xFF,0x00,true);
    (8,0x1D,0xFD,0x00,false); (8,0x07,0x00,0x55,false); (8,0x31,0x00,0x00,true); (8,0x9B,0x00,0x00,true); (8,0x1D,0xFF,0xFF,false); (8,0x1D,0x00,0x00,false);
    (16,0x8005,0x0000,0x0000,true); (16,0x1021,0xFFFF,0x0000,false); (16,0x1021,0x1D0F,0x0000,false); (16,0x8005,0x0000,0x0000,false); (16,0x1021,0xFFFF,0xFFFF,false);
    (16,0x1DCF,0xFFFF,0xFFFF,false); (16,0x1021,0x0000,0x0000,true); (16,0x8005,0xFFFF,0x0000,true); (16,0x8005,0xFFFF,0xFFFF,true); (16,0x1021,0xFFFF,0xFFFF,true);
    (16,0x1021,0x0000,0x0000,false); (16,0xC867,0xFFFF,0x0000,false); (16,0x8005,0x800D,0x0000,false); (16,0x0589,0x0000,0x0001,false); (16,0x0589,0x0000,0x0000,false);
    (16,0x3D65,0x0000,0xFFFF,true); (16,0x3D65,0x0000,0xFFFF,false); (16,0x8005,0x0000,0xFFFF,true); (16,0x1021,0xFFFF,0x0000,true); (16,0x1021,0xB2AA,0x0000,true);
    (16,0x8BB7,0x0000,0x0000,false); (16,0xA097,0x0000,0x0000,false); (16,0x1021,0x89EC,0x0000,true); (16,0x1021,0xC6C6,0x0000,true); (16,0x8005,0x0000,0x0000,true); (16,0x5935,0xFFFF,0x0000,false);
    (32,0x04C11DB7,0xFFFFFFFF,0xFFFFFFFF,true); (32,0x1EDC6F41,0xFFFFFFFF,0xFFFFFFFF,true); (32,0x04C11DB7,0xFFFFFFFF,0xFFFFFFFF,false); (32,0x04C11DB7,0xFFFFFFFF,0x00000000,false);
    (32,0x04C11DB7,0x00000000,0xFFFFFFFF,false); (32,0xA833982B,0xFFFFFFFF,0xFFFFFFFF,true); (32,0x814141AB,0x00000000,0x00000000,false); (32,0x04C11DB7,0xFFFFFFFF,0x00000000,true);
    (32,0x000000AF,0x00000000,0x00000000,false); (64,0x42F0E1EBA9EA3693,0x0000000000000000,0x0000000000000000,false) ].
(** the check values of the CRC catalogue (CRC of the ASCII string "123456789") *)
Definition check_values : list Z :=
  [ 0xF4; 0xD0; 0xDA; 0x15; 0xBC; 0x97; 0x7E; 0xA1; 0xA1; 0x25; 0x4B; 0x37;
    0xBB3D; 0x29B1; 0xE5CC; 0xFEE8; 0xD64E; 0xA819; 0x2189; 0x4B37; 0xB4C8; 0x906E; 0x31C3; 0x4C06; 0x9ECF; 0x007E; 0x007F; 0xEA82; 0xC2B7; 0x44C2; 0x6F91; 0x63D0; 0xD0DB; 0x0FB3; 0x26B1; 0xBF05; 0xBB3D; 0x772B;
    0xCBF43926; 0xE3069283; 0xFC891918; 0x0376E6E7; 0x765E7680; 0x87315576; 0x3010BF7F; 0x340BC6D9; 0xBD0BE338; 0x6C40DF5F0B497347 ].
Theorem C20_library_crcs : forall n calls, table_size n -> Forall (fun c => Forall byte (call_bytes c)) calls ->
  map (fun q => value_after (crc_policy q n) calls) crc_parameters =
  map (fun '(w, poly, init, xo, r) => crc w poly init xo r (since_reset calls)) published.
Proof.
  intros n calls Hn Hc. transitivity (map (fun q => crc_of q (since_reset calls)) crc_parameters).
  - apply map_ext_in. intros q Hq. apply C20_crc_is_bit_serial; [|exact Hn|exact Hc]. pose proof C20_library_parameters_valid as V. rewrite Forall_forall in V. apply V. exact Hq.
  - reflexivity.
Qed.
Example C20_check_values : map (fun '(w, poly, init, xo, r) => crc w poly init xo r [49;50;51;52;53;54;55;56;57]) published = check_values.
Proof. vm_compute. reflexivity. Qed.
Example C20_code_check_values : map (fun q => value_after (crc_policy q 16) [Add [7; 7]; Reset; Add [49;50;51]; Add1 52; Add []; Add [53;54;55;56;57]]) crc_parameters = check_values.
Proof. vm_compute. reflexivity. Qed.

(** crc1: the parity of the message *)
Fixpoint total (f : Z -> Z) (l : list Z) : Z := match l with [] => 0 | a :: r => f a + total f r end.
Theorem C20_crc1_is_parity : forall calls, Forall (fun c => Forall byte (call_bytes c)) calls ->
  value_after crc1_policy calls = total (popcount 8) (since_reset calls) mod 2.
Proof.
  intros calls Hc. rewrite C20_any_split. pose proof (since_bytes _ _ Hc) as Hb. unfold crc1_policy. cbn [pfinal padd initial]. set (l := since_reset calls) in *. clearbody l.
  assert (G : forall p, p = 0 \/ p = 1 -> fold_left (fun p value => tr 8 (p ^^^ parity 8 value)) l p = (p + total (popcount 8) l) mod 2).
  { induction Hb as [|v l Hv Hl IH]; intros p Hp; cbn [fold_left total].
    - destruct Hp as [->| ->]; reflexivity.
    - rewrite parity_ok by (unfold width; tauto || exact Hv). pose proof (Z.mod_pos_bound (popcount 8 v) 2 ltac:(lia)) as B.
      assert (E : tr 8 (p ^^^ popcount 8 v mod 2) = (p + popcount 8 v) mod 2).
      { rewrite <- Z.add_mod_idemp_r by lia. assert (popcount 8 v mod 2 = 0 \/ popcount 8 v mod 2 = 1) as [->| ->] by lia; destruct Hp as [->| ->]; reflexivity. }
      rewrite E, IH by (pose proof (Z.mod_pos_bound (p + popcount 8 v) 2 ltac:(lia)); lia). rewrite Z.add_mod_idemp_l by lia. f_equal. lia. }
  rewrite G by tauto. reflexivity.
Qed.

(** ** C43: error detection.  Two different messages of the same length whose
    differing bits lie in a window of at most w bits never have the same CRC. *)
Lemma crc_bit_lin w poly a b x y : width w -> unsigned w poly -> word w a -> word w b ->
  crc_bit w poly (a ^^^ b) (xorb x y) = crc_bit w poly a x ^^^ crc_bit w poly b y.
Proof.
  intros Hw Hp Ha Hb. pose proof (width_pos w Hw). rewrite !crc_bit_P by (try assumption; apply word_lxor; assumption).
  assert (W : forall c, word w (bz c << (w - 1))).
  { intros c. rewrite Z.shiftl_mul_pow2 by lia. assert (2 ^ (w - 1) < 2 ^ w) by (apply Z.pow_lt_mono_r; lia). pose proof (Z.pow_pos_nonneg 2 (w - 1) ltac:(lia) ltac:(lia)). unfold word, bz. destruct c; lia. }
  rewrite <- P_lin by (try assumption; apply word_lxor; auto). f_equal. replace (bz (xorb x y)) with (bz x ^^^ bz y) by (destruct x, y; reflexivity).
  rewrite Z.shiftl_lxor. apply Z.bits_inj'. intros i Hi. rewrite !Z.lxor_spec. destruct (Z.testbit a i), (Z.testbit b i), (Z.testbit (bz x << (w - 1)) i), (Z.testbit (bz y << (w - 1)) i); reflexivity.
Qed.
Fixpoint xors (x y : list bool) : list bool := match x, y with a :: x, b :: y => xorb a b :: xors x y | _, _ => [] end.
Lemma fold_xors w poly : width w -> unsigned w poly -> forall x y a b, List.length x = List.length y -> word w a -> word w b ->
  fold_left (crc_bit w poly) (xors x y) (a ^^^ b) = fold_left (crc_bit w poly) x a ^^^ fold_left (crc_bit w poly) y b.
Proof.
  intros Hw Hp. induction x as [|c x IH]; intros [|d y] a b L Ha Hb; try discriminate; [reflexivity|]. cbn in *. rewrite crc_bit_lin by assumption. apply IH; [lia|apply crc_bit_word; assumption|apply crc_bit_word; assumption].
Qed.
Lemma P_inj0 w poly e : width w -> unsigned w poly -> Z.odd poly = true -> word w e -> P w poly e = 0 -> e = 0.
Proof.
  intros Hw Hp Ho He H. pose proof (width_pos w Hw). unfold P in H. destruct (Z.testbit e (w - 1)) eqn:T.
  - assert (B : Z.testbit (tr w (e << 1) ^^^ poly) 0 = true).
    { rewrite Z.lxor_spec, testbit_tr by lia. destruct (Z.ltb_spec 0 w); [|lia]. rewrite Z.shiftl_spec, Z.testbit_neg_r by lia. rewrite xorb_false_l. rewrite Z.bit0_odd. exact Ho. }
    rewrite H, Z.bits_0 in B. discriminate.
  - rewrite Z.lxor_0_r in H. apply (word_ext w); [exact He|split; [lia|apply Z.pow_pos_nonneg; lia]|]. intros i Hi. rewrite Z.bits_0.
    destruct (Z.eq_dec i (w - 1)) as [->|N]; [exact T|]. assert (B : Z.testbit (tr w (e << 1)) (i + 1) = Z.testbit e i).
    { rewrite testbit_tr by lia. destruct (Z.ltb_spec (i + 1) w); [|lia]. rewrite Z.shiftl_spec by lia. f_equal. lia. }
    rewrite <- B, H. apply Z.bits_0.
Qed.
Lemma Pn_inj0 w poly n e : width w -> unsigned w poly -> Z.odd poly = true -> word w e -> Nat.iter n (P w poly) e = 0 -> e = 0.
Proof.
  intros Hw Hp Ho. revert e. induction n as [|n IH]; intros e He H; [exact H|]. rewrite iter_S in H. apply (P_inj0 w poly); auto. apply IH; [apply P_word; assumption|exact H].
Qed.
Lemma zeros_iter w poly n : width w -> unsigned w poly -> forall e, word w e -> fold_left (crc_bit w poly) (repeat false n) e = Nat.iter n (P w poly) e.
Proof.
  intros Hw Hp. induction n as [|n IH]; intros e He; [reflexivity|]. rewrite iter_S. cbn [repeat fold_left]. rewrite crc_bit_P by assumption. cbn [bz]. rewrite Z.shiftl_0_l, Z.lxor_0_r.
  apply IH. apply P_word; assumption.
Qed.
Lemma bits_top (l : list bool) : exists v, word (Z.of_nat (List.length l)) v /\ l = top_bits (List.length l) v /\ (v = 0 -> l = repeat false (List.length l)).
Proof.
  induction l as [|b l (v & Hv & E & Z0)]; [exists 0; repeat split; cbn; try lia; auto|]. exists (v + 2 ^ Z.of_nat (List.length l) * bz b). cbn [List.length].
  assert (B : forall i, 0 <= i -> Z.testbit (v + 2 ^ Z.of_nat (List.length l) * bz b) i = if i <? Z.of_nat (List.length l) then Z.testbit v i else Z.testbit (bz b) (i - Z.of_nat (List.length l))) by (intros; apply testbit_dv; try lia; exact Hv).
  pose proof (Z.pow_pos_nonneg 2 (Z.of_nat (List.length l)) ltac:(lia) ltac:(lia)). conj.
  - unfold word in *. rewrite Nat2Z.inj_succ, Z.pow_succ_r by lia. unfold bz. destruct b; lia.
  - rewrite top_bits_S. rewrite B by lia. destruct (Z.ltb_spec (Z.of_nat (List.length l)) (Z.of_nat (List.length l))); [lia|]. rewrite Z.sub_diag. replace (Z.testbit (bz b) 0) with b by (destruct b; reflexivity). f_equal.
    rewrite E at 1. unfold top_bits. apply map_ext_in. intros i Hi. apply in_seq in Hi. rewrite B by lia. destruct (Z.ltb_spec (Z.of_nat (List.length l - 1 - i)) (Z.of_nat (List.length l))); [reflexivity|lia].
  - intros Hz. destruct b; cbn [bz] in Hz; [unfold word in Hv; lia|]. cbn [repeat]. f_equal. apply Z0. lia.
Qed.
Lemma xors_self l : xors l l = repeat false (List.length l).
Proof. induction l as [|b l IH]; [reflexivity|]. cbn. rewrite IH, xorb_nilpotent. reflexivity. Qed.
Lemma xors_app a : forall b c d, List.length a = List.length b -> xors (a ++ c) (b ++ d) = xors a b ++ xors c d.
Proof. induction a as [|x a IH]; intros [|y b] c d H; try discriminate; [reflexivity|]. cbn in *. f_equal. apply IH. lia. Qed.
Lemma xors_false x : forall y, List.length x = List.length y -> xors x y = repeat false (List.length x) -> x = y.
Proof. induction x as [|a x IH]; intros [|b y] L H; try discriminate; [reflexivity|]. cbn in *. injection H as H1 H2. apply xorb_eq in H1. f_equal; auto. Qed.
Lemma xors_length x : forall y, List.length x = List.length y -> List.length (xors x y) = List.length x.
Proof. induction x as [|a x IH]; intros [|b y] L; try discriminate; [reflexivity|]. cbn in *. f_equal. apply IH. lia. Qed.

Theorem C43_crc_detects_bursts : forall q m1 m2 before x y after, valid_params q -> Z.odd (Polynomial q) = true ->
  message_bits (Reflect q) m1 = before ++ x ++ after -> message_bits (Reflect q) m2 = before ++ y ++ after ->
  List.length x = List.length y -> Z.of_nat (List.length x) <= Accumulator_Bits q -> x <> y ->
  crc_of q m1 <> crc_of q m2.
Proof.
  intros q m1 m2 before x y after (Hw & Hp & Hi & Hx) Ho E1 E2 L Lw Nxy Heq. unfold crc_of, crc in Heq. rewrite E1, E2 in Heq. set (w := Accumulator_Bits q) in *. set (poly := Polynomial q) in *.
  set (r1 := fold_left (crc_bit w poly) (before ++ x ++ after) (Initial q)) in *. set (r2 := fold_left (crc_bit w poly) (before ++ y ++ after) (Initial q)) in *.
  assert (FW : forall l e, word w e -> word w (fold_left (crc_bit w poly) l e)) by (intros; apply fold_word; assumption).
  assert (W1 : word w r1) by (apply FW; exact Hi). assert (W2 : word w r2) by (apply FW; exact Hi).
  assert (Er : r1 = r2).
  { assert (E : (if Reflect q then reflected w r1 else r1) = (if Reflect q then reflected w r2 else r2)).
    { rewrite <- (Z.lxor_0_r (if Reflect q then reflected w r1 else r1)), <- (Z.lxor_0_r (if Reflect q then reflected w r2 else r2)). rewrite <- (Z.lxor_nilpotent (Xor_Out q)), <- !Z.lxor_assoc. f_equal. exact Heq. }
    destruct (Reflect q); [|exact E]. rewrite !reflected_ok in E by assumption. apply (word_ext w); auto. pose proof (width_pos w Hw). intros i Hi2.
    assert (B : bit (reverse_bits w r1) (w - 1 - i) = bit (reverse_bits w r2) (w - 1 - i)) by (rewrite E; reflexivity). rewrite !reverse_bits_bit in B by (try assumption; lia).
    unfold bit in B. replace (w - 1 - (w - 1 - i)) with i in B by lia. exact B. }
  pose proof (width_pos w Hw) as Wp. assert (W0 : word w 0) by (split; [lia|apply Z.pow_pos_nonneg; lia]).
  pose proof (fold_xors w poly Hw Hp (before ++ x ++ after) (before ++ y ++ after) (Initial q) (Initial q) ltac:(rewrite !app_length; lia) Hi Hi) as D.
  fold r1 r2 in D. rewrite Er, !Z.lxor_nilpotent in D. rewrite !xors_app, !xors_self in D by (auto; lia). rewrite !fold_left_app in D.
  rewrite (zeros_iter w poly (List.length before) Hw Hp 0 W0) in D. replace (Nat.iter (List.length before) (P w poly) 0) with 0 in D.
  2: { symmetry. apply (lin_0 w); [lia|]. apply iter_lin; [intros; apply P_word; assumption|apply P_lin; assumption]. }
  destruct (bits_top (xors x y)) as (v & Hv & Ev & Zv). rewrite (xors_length x y L) in *. rewrite Ev in D. rewrite (bits_P w poly Hw Hp) in D by (try assumption; lia). rewrite Z.lxor_0_l in D.
  assert (Ws : word w (v << (w - Z.of_nat (List.length x)))).
  { unfold word in *. rewrite Z.shiftl_mul_pow2 by lia. replace (2 ^ w) with (2 ^ Z.of_nat (List.length x) * 2 ^ (w - Z.of_nat (List.length x))) by (rewrite <- Z.pow_add_r by lia; f_equal; lia).
    pose proof (Z.pow_pos_nonneg 2 (w - Z.of_nat (List.length x)) ltac:(lia) ltac:(lia)). nia. }
  assert (Wi : word w (Nat.iter (List.length x) (P w poly) (v << (w - Z.of_nat (List.length x))))) by (apply iter_word; [intros; apply P_word; assumption|exact Ws]).
  rewrite zeros_iter in D by assumption. apply Pn_inj0 in D; [|assumption..]. apply Pn_inj0 in D; [|assumption..].
  apply Nxy. apply xors_false; [exact L|]. apply Zv. rewrite Z.shiftl_mul_pow2 in D by lia. pose proof (Z.pow_pos_nonneg 2 (w - Z.of_nat (List.length x)) ltac:(lia) ltac:(lia)). nia.
Qed.
Theorem C43_library_polynomials_odd : Forall (fun q => Z.odd (Polynomial q) = true) crc_parameters.
Proof. repeat constructor. Qed.
(** in terms of the classes: a corrupted transmission never gives the same value *)
Theorem C43_value_detects_bursts : forall q n m1 m2 before x y after, In q crc_parameters -> table_size n -> Forall byte m1 -> Forall byte m2 ->
  message_bits (Reflect q) m1 = before ++ x ++ after -> message_bits (Reflect q) m2 = before ++ y ++ after ->
  List.length x = List.length y -> Z.of_nat (List.length x) <= Accumulator_Bits q -> x <> y ->
  value_after (crc_policy q n) [Add m1] <> value_after (crc_policy q n) [Add m2].
Proof.
  intros q n m1 m2 before x y after Hq Hn H1 H2 E1 E2 L Lw N. pose proof C20_library_parameters_valid as V. rewrite Forall_forall in V. pose proof C43_library_polynomials_odd as O. rewrite Forall_forall in O.
  rewrite !C20_crc_is_bit_serial by (try (apply V; exact Hq); try exact Hn; repeat constructor; assumption). cbn [since_reset fold_left app].
  apply (C43_crc_detects_bursts q m1 m2 before x y after); auto.
Qed.
Example C43_case : exists before x y after, message_bits true [1; 200; 3] = before ++ x ++ after /\ message_bits true [1; 201; 2] = before ++ y ++ after /\ x <> y /\ (List.length x = 16)%nat /\ (List.length y = 16)%nat.
Proof.
  exists (firstn 8 (message_bits true [1; 200; 3])), (skipn 8 (message_bits true [1; 200; 3])), (skipn 8 (message_bits true [1; 201; 2])), []. repeat split. vm_compute. discriminate.
Qed.

Print Assumptions C20_any_split.
Print Assumptions C20_crc_is_bit_serial.
Print Assumptions C20_library_crcs.
Print Assumptions C20_crc1_is_parity.
Print Assumptions C43_value_detects_bursts.
