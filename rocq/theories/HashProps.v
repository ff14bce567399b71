(** C40: incremental hashes and checksums depend on the bytes only, not on how they are fed. C46: they notice every changed byte. *)
From Coq Require Import List Arith Lia Bool ZArith.
From Verif Require Import Util BinaryModel BinarySpec BitLib BinaryProofs BinaryProps CrcModel HashModel HashSpec HashProofs HashProofs2 HashProofs3 HashProofs4.
Import ListNotations.
Local Open Scope Z_scope.
(** [H] is, after every history of calls with bytes, that has no add after value(): the function F of the bytes since the last reset.
    If there is such an add, hash_finalised is raised. *)
Definition finalising {V} (empty_counts : bool) (H : hasher V) (okc : hcall -> Prop) (F : list Z -> V) : Prop :=
  forall h, bytes_only h -> Forall okc h ->
  match run H (fresh H) h with
  | Some s => ~ adds_after_value empty_counts false h /\ snd (value H s) = F (fed [] h)
  | None => adds_after_value empty_counts false h
  end.
(** [H] is, after every history of calls with bytes, the function F of the bytes since the last reset; nothing is ever raised *)
Definition computes {V} (H : hasher V) (F : list Z -> V) : Prop :=
  forall h, bytes_only h -> exists s, run H (fresh H) h = Some s /\ snd (value H s) = F (fed [] h).
(** checksum: the sum of the bytes modulo 2^w *)
Theorem C40_checksum : forall w, width w -> computes (of_policy (sum_policy w)) (fun l => HashSpec.total l mod 2 ^ w).
Proof.
  intros w Hw h Hb. pose proof (width_pos w Hw). destruct (run_policy (sum_policy w) h Hb) as (s & E & V). exists s. split; [exact E|]. rewrite V. cbn [pfinal initial sum_policy]. pose proof (sum_closed w (fed [] h) ltac:(lia) 0) as C. unfold tr in C at 1. rewrite Z.mod_0_l in C by (apply Z.pow_nonzero; lia). exact C.
Qed.
Print Assumptions C40_checksum.
Lemma fed_bytes h : bytes_only h -> forall acc, Forall is_byte acc -> Forall is_byte (fed acc h).
Proof.
  induction 1 as [|c h Hc Hh IH]; intros acc Ha; [exact Ha|]. destruct c; cbn [fed bytes_of] in *; try (apply IH; apply Forall_app; split; assumption). apply IH. constructor.
Qed.
(** xor_checksum: bit i is set when an odd number of bytes has it *)
Theorem C40_xor_checksum : forall w, width w -> forall h, bytes_only h ->
  exists s, run (of_policy (xor_policy w)) (fresh (of_policy (xor_policy w))) h = Some s /\ forall i, 0 <= i -> bit (snd (value (of_policy (xor_policy w)) s)) i = Nat.odd (having i (fed [] h)).
Proof.
  intros w Hw h Hb. pose proof (width_pos w Hw). destruct (run_policy (xor_policy w) h Hb) as (s & E & V). exists s. split; [exact E|]. intros i Hi. rewrite V. cbn [pfinal initial xor_policy].
  rewrite xor_closed; [unfold bit at 1; rewrite Z.bits_0; apply xorb_false_l|exact Hw|apply fed_bytes; [exact Hb|constructor]|exact Hi|]. unfold word. split; [lia|apply Z.pow_pos_nonneg; lia].
Qed.
Print Assumptions C40_xor_checksum.
(** parity_checksum: 1 when the number of ones is odd *)
Theorem C40_parity_checksum : forall w, width w -> computes (of_policy (parity_policy w)) (fun l => HashSpec.total (map (popcount 8) l) mod 2).
Proof.
  intros w Hw h Hb. pose proof (width_pos w Hw) as Wp. destruct (run_policy (parity_policy w) h Hb) as (s & E & V). exists s. split; [exact E|]. rewrite V. cbn [pfinal initial parity_policy]. assert (Forall is_byte (fed [] h)) as Hl by (apply fed_bytes; [exact Hb|constructor]). generalize dependent (fed [] h). intros l V Hl. clear V E.
  enough (forall p, p = 0 \/ p = 1 -> fold_left (padd (parity_policy w)) l p = (p + HashSpec.total (map (popcount 8) l)) mod 2) as G by (apply G; now left).
  assert (2 <= 2 ^ w) as P2 by (change 2 with (2 ^ 1) at 1; apply Z.pow_le_mono_r; lia). induction Hl as [|b l Hb' Hl IH]; intros p Hp; cbn [fold_left map].
  - cbn. destruct Hp as [-> | ->]; reflexivity.
  - cbn [HashSpec.total fold_right]. fold (HashSpec.total (map (popcount 8) l)). cbn [padd parity_policy]. assert (width 8) as W8 by (unfold width; tauto). assert (unsigned 8 b) as U8 by exact Hb'. rewrite (C23_parity_correct 8 b W8 U8). pose proof (Z.mod_pos_bound (popcount 8 b) 2 ltac:(lia)) as B.
    assert (tr w (p ^^^ popcount 8 b mod 2) = (p + popcount 8 b) mod 2) as Ex.
    { rewrite <- Z.add_mod_idemp_r by lia. unfold tr. assert (popcount 8 b mod 2 = 0 \/ popcount 8 b mod 2 = 1) as [-> | ->] by lia; destruct Hp as [-> | ->]; cbn [Z.lxor Pos.lxor Z.add Pos.add]; rewrite (Z.mod_small _ (2 ^ w)) by (cbn; lia); reflexivity. }
    rewrite Ex. rewrite IH; [|pose proof (Z.mod_pos_bound (p + popcount 8 b) 2 ltac:(lia)); lia]. rewrite Z.add_mod_idemp_l by lia. f_equal. lia.
Qed.
Print Assumptions C40_parity_checksum.
(** bsd_checksum: the sum is rotated right by one place before each byte is added *)
Theorem C40_bsd_checksum : forall w, width w -> exists F, computes (of_policy (bsd_policy w)) F /\ F [] = 0 /\
  (forall l, Forall is_byte l -> 0 <= F l < 2 ^ w) /\ forall l b, Forall is_byte l -> F (l ++ [b]) = (F l / 2 + (F l mod 2) * 2 ^ (w - 1) + b) mod 2 ^ w.
Proof.
  intros w Hw. pose proof (width_pos w Hw). exists (fun l => fold_left (padd (bsd_policy w)) l 0). destruct (good_bsd w Hw) as [G1 G2 _ _ _]. assert (forall l, Forall is_byte l -> word w (fold_left (padd (bsd_policy w)) l 0)) as Wl by (intros; apply (fold_word w); assumption).
  split; [|split; [reflexivity|split; [exact Wl|]]].
  - intros h Hb. apply (run_policy (bsd_policy w) h Hb).
  - intros l b Hl. rewrite fold_left_app. cbn [fold_left]. specialize (Wl l Hl). generalize dependent (fold_left (padd (bsd_policy w)) l 0). intros s Hs. cbn [padd bsd_policy]. rewrite rotate_right1_arith by (assumption || lia). reflexivity.
Qed.
Print Assumptions C40_bsd_checksum.
Lemma rotl1_lxor w x y : width w -> word w x -> word w y -> rotate_left1 w (x ^^^ y) = rotate_left1 w x ^^^ rotate_left1 w y.
Proof.
  intros Hw Hx Hy. pose proof (width_pos w Hw). rewrite !(proj1 (rot1 w _ Hw)). apply (word_ext w).
  - apply rotate_left_word; [lia|now apply word_lxor].
  - apply word_lxor; apply rotate_left_word; (lia || assumption).
  - intros i Hi. rewrite Z.lxor_spec. pose proof (rotate_left_bit w (x ^^^ y) 1 ltac:(lia) ltac:(now apply word_lxor) ltac:(lia) i Hi) as A. pose proof (rotate_left_bit w x 1 ltac:(lia) Hx ltac:(lia) i Hi) as B. pose proof (rotate_left_bit w y 1 ltac:(lia) Hy ltac:(lia) i Hi) as C. unfold bit in *. rewrite A, B, C. apply Z.lxor_spec.
Qed.
Lemma rotl1_rotation w d x y : width w -> is_rotation w d x y -> is_rotation w (d + 1) x (rotate_left1 w y).
Proof.
  intros Hw (R1 & R2). pose proof (width_pos w Hw). split; [apply word_tr; lia|]. intros i Hi. rewrite (proj1 (rot1 w _ Hw)). rewrite rotate_left_bit; [|lia|exact R1|lia|apply Z.mod_pos_bound; lia]. rewrite <- (R2 i Hi). f_equal. rewrite Zminus_mod_idemp_l. f_equal. lia.
Qed.
Lemma fold_lxor_word w rs : 0 <= w -> Forall (word w) rs -> word w (fold_right Z.lxor 0 rs).
Proof. intros Hw. induction 1 as [|r rs Hr Hs IH]; cbn [fold_right]; [unfold word; split; [lia|apply Z.pow_pos_nonneg; lia]|now apply word_lxor]. Qed.
Lemma rotl1_fold w rs : width w -> Forall (word w) rs -> rotate_left1 w (fold_right Z.lxor 0 rs) = fold_right Z.lxor 0 (map (rotate_left1 w) rs).
Proof.
  intros Hw. pose proof (width_pos w Hw). induction 1 as [|r rs Hr Hs IH]; cbn [fold_right map]; [unfold rotate_left1, tr; cbn; rewrite Z.shiftr_0_l; reflexivity|]. rewrite rotl1_lxor by (assumption || (apply fold_lxor_word; [lia|assumption])). now rewrite IH.
Qed.
Lemma fold_lxor_snoc rs x : fold_right Z.lxor 0 (rs ++ [x]) = fold_right Z.lxor 0 rs ^^^ x.
Proof. induction rs as [|r rs IH]; cbn [app fold_right]; [now rewrite Z.lxor_0_r, Z.lxor_0_l|]. now rewrite IH, Z.lxor_assoc. Qed.
(** xor_rotate_checksum: the exclusive or of the bytes, each rotated left by the number of bytes that follow it *)
Theorem C40_xor_rotate_checksum : forall w, width w -> exists F, computes (of_policy (xor_rotate_policy w)) F /\
  forall l, Forall is_byte l -> exists rs, length rs = length l /\ (forall k, (k < length l)%nat -> is_rotation w (Z.of_nat (length l - 1 - k)) (nth k l 0) (nth k rs 0)) /\ F l = fold_right Z.lxor 0 rs.
Proof.
  intros w Hw. pose proof (width_pos w Hw). exists (fun l => fold_left (padd (xor_rotate_policy w)) l 0). split; [intros h Hb; apply (run_policy (xor_rotate_policy w) h Hb)|].
  induction l as [|b l IH] using rev_ind; intros Hl; [exists []; split; [reflexivity|split; [cbn; lia|reflexivity]]|]. apply Forall_app in Hl as (Hl & Hb). inversion Hb as [|? ? B _]; subst. destruct (IH Hl) as (rs & L & R & E).
  assert (Forall (word w) rs) as Wr. { apply Forall_forall. intros x Hx. apply (In_nth _ _ 0) in Hx as (k & Hk & <-). rewrite L in Hk. apply R. exact Hk. }
  exists (map (rotate_left1 w) rs ++ [b]). split; [rewrite !app_length, map_length, L; reflexivity|split].
  - intros k Hk. rewrite app_length in Hk |- *. cbn [length] in *. destruct (Nat.eq_dec k (length l)) as [->|D].
    + rewrite !app_nth2, map_length, L, Nat.sub_diag by (rewrite ?map_length; lia). cbn [nth]. replace (length l + 1 - 1 - length l)%nat with 0%nat by lia. split; [now apply byte_word|]. intros i Hi. now rewrite Z.add_0_r, Z.mod_small by exact Hi.
    + rewrite !app_nth1 by (rewrite ?map_length; lia). rewrite (nth_indep (map (rotate_left1 w) rs) 0 (rotate_left1 w 0)) by (rewrite map_length; lia). rewrite map_nth. replace (Z.of_nat (length l + 1 - 1 - k)) with (Z.of_nat (length l - 1 - k) + 1) by lia. apply rotl1_rotation; [exact Hw|]. apply R. lia.
  - rewrite fold_left_app. cbn [fold_left]. rewrite E. cbn [padd xor_rotate_policy]. rewrite rotl1_fold by assumption. rewrite fold_lxor_snoc. apply tr_id. apply word_lxor; [|now apply byte_word]. apply fold_lxor_word; [lia|]. apply Forall_forall. intros x Hx. apply in_map_iff in Hx as (y & <- & _). apply word_tr. lia.
Qed.
Print Assumptions C40_xor_rotate_checksum.
(** fnv-1 and fnv-1a, 32 and 64 bits *)
Definition fnv_1_is (w basis prime : Z) (F : list Z -> Z) : Prop := F [] = basis /\ forall l b, F (l ++ [b]) = Z.lxor ((F l * prime) mod 2 ^ w) b.
Definition fnv_1a_is (w basis prime : Z) (F : list Z -> Z) : Prop := F [] = basis /\ forall l b, F (l ++ [b]) = (Z.lxor (F l) b * prime) mod 2 ^ w.
Theorem C40_fnv :
  (exists F, computes (of_policy fnv_1_policy_64) F /\ fnv_1_is 64 0xcbf29ce484222325 0x100000001b3 F) /\ (exists F, computes (of_policy fnv_1a_policy_64) F /\ fnv_1a_is 64 0xcbf29ce484222325 0x100000001b3 F)
  /\ (exists F, computes (of_policy fnv_1_policy_32) F /\ fnv_1_is 32 0x811c9dc5 0x01000193 F) /\ (exists F, computes (of_policy fnv_1a_policy_32) F /\ fnv_1a_is 32 0x811c9dc5 0x01000193 F).
Proof.
  assert (forall p, computes (of_policy p) (fun l => pfinal p (fold_left (padd p) l (initial p)))) as C by (intros p h Hb; apply (run_policy p h Hb)).
  split; [|split; [|split]]; (eexists; split; [apply C|split; [reflexivity|]]; intros l b; rewrite fold_left_app; reflexivity).
Qed.
Print Assumptions C40_fnv.
(** jenkins (one at a time) *)
Definition jenkins_is (F G : list Z -> Z) : Prop :=
  G [] = 0
  /\ (forall l b, exists h, h = ((G l + b) * 1025) mod 2 ^ 32 /\ G (l ++ [b]) = Z.lxor h (h / 2 ^ 6))
  /\ (forall l, exists h, h = (G l * 9) mod 2 ^ 32 /\ F l = (Z.lxor h (h / 2 ^ 11) * 32769) mod 2 ^ 32).
Theorem C40_jenkins : exists F G, finalising false jenkins (fun _ => True) F /\ jenkins_is F G.
Proof.
  exists jenkins_hash, (fun l => fold_left jenkins_add l 0). split; [intros h Hb _; now apply run_jenkins|]. split; [reflexivity|split].
  - intros l b. eexists. split; [reflexivity|]. rewrite fold_left_app. cbn [fold_left]. unfold jenkins_add at 1. cbv zeta. rewrite shl_mul by lia. rewrite Z.shiftr_div_pow2 by lia. unfold tr. change (1 + 2 ^ 10) with 1025. now rewrite Z.mul_mod_idemp_l by lia.
  - intros l. eexists. split; [reflexivity|]. unfold jenkins_hash, jenkins_final. cbv zeta. rewrite !shl_mul by lia. rewrite !Z.shiftr_div_pow2 by lia. reflexivity.
Qed.
Print Assumptions C40_jenkins.
(** murmur3<uint32_t>: MurmurHash3_x86_32, unless signed characters above 127 are fed *)
Theorem C40_murmur3_32 : forall seed, 0 <= seed < 2 ^ 32 -> finalising true (murmur3 32 seed) plain_chars (murmur3_x86_32 seed).
Proof.
  intros seed Hs h Hb Hp. pose proof (run_murmur 32 seed (or_introl eq_refl) Hs h Hb Hp) as R. destruct (run (murmur3 32 seed) (fresh (murmur3 32 seed)) h); [|exact R]. destruct R as (R1 & R2). split; [exact R1|]. rewrite R2. apply murmur_reference; [exact Hs|]. apply fed_bytes; [exact Hb|constructor].
Qed.
Print Assumptions C40_murmur3_32.
(** murmur3<uint64_t> depends on the bytes only, too *)
Theorem C40_murmur3_64 : forall seed, 0 <= seed < 2 ^ 64 -> exists F, finalising true (murmur3 64 seed) plain_chars F.
Proof. intros seed Hs. exists (murmur_value 64 seed). intros h Hb Hp. now apply run_murmur; [right|..]. Qed.
Print Assumptions C40_murmur3_64.
(** FINDING: a byte above 127 that is fed by an iterator to signed char gives another hash than the same byte fed by add(uint8_t) *)
Theorem C40_murmur3_signed_char_refuted : exists l s1 s2, Forall is_byte l /\
  run (murmur3 32 0) (fresh (murmur3 32 0)) [HAdd true l] = Some s1 /\ run (murmur3 32 0) (fresh (murmur3 32 0)) (map HAdd1 l) = Some s2 /\ snd (value (murmur3 32 0) s1) <> snd (value (murmur3 32 0) s2).
Proof.
  exists [200; 1]. eexists. eexists. split; [repeat constructor; unfold is_byte; lia|]. split; [reflexivity|]. split; [reflexivity|]. vm_compute. discriminate.
Qed.
Print Assumptions C40_murmur3_signed_char_refuted.
(** pearson: the hash of the bytes, if there was nothing to be reset ... *)
Theorem C40_pearson_exact : forall N h, bytes_only h -> exists s, run (pearson N) (fresh (pearson N)) h = Some s /\
  snd (value (pearson N) s) = map (fun i => if reset_after_data false h then pearson_from lookup 0 (fed [] h) else pearson_at lookup i (fed [] h)) (seq 0 N).
Proof.
  intros N h Hb. destruct (pearson_value N h Hb) as (s & E & V). exists s. split; [exact E|]. rewrite V. destruct (reset_after_data false h); reflexivity.
Qed.
Print Assumptions C40_pearson_exact.
(** ... FINDING: after reset() the object is not as new: the same bytes give another hash, and all its elements are equal *)
Theorem C40_pearson_reset_refuted : exists N l s1 s2, Forall is_byte l /\
  run (pearson N) (fresh (pearson N)) [HAdd false l] = Some s1 /\ run (pearson N) (fresh (pearson N)) [HAdd false l; HReset; HAdd false l] = Some s2 /\ snd (value (pearson N) s1) <> snd (value (pearson N) s2).
Proof.
  exists 2%nat, [1; 2]. eexists. eexists. split; [repeat constructor; unfold is_byte; lia|]. split; [reflexivity|]. split; [reflexivity|]. vm_compute. discriminate.
Qed.
Print Assumptions C40_pearson_reset_refuted.
(** ** C46: if exactly one byte of the message is changed, the value changes *)
Definition notices_a_byte {V} (F : list Z -> V) : Prop :=
  forall a x y l, Forall is_byte a -> Forall is_byte l -> is_byte x -> is_byte y -> x <> y -> F (a ++ x :: l) <> F (a ++ y :: l).
Lemma good_notices w p : good_policy w p -> exists F, computes (of_policy p) F /\ notices_a_byte F.
Proof.
  intros G. exists (fun l => pfinal p (fold_left (padd p) l (initial p))). split; [intros h Hb; apply (run_policy p h Hb)|]. intros a x y l Ha Hl Hx Hy D. now apply (good_byte w).
Qed.
Theorem C46_checksums_notice_a_byte : forall w p, width w -> In p [sum_policy w; bsd_policy w; xor_policy w; xor_rotate_policy w] -> exists F, computes (of_policy p) F /\ notices_a_byte F.
Proof.
  intros w p Hw [<-|[<-|[<-|[<-|[]]]]]; apply (good_notices w); [apply good_sum|apply good_bsd|apply good_xor|apply good_xor_rotate]; exact Hw.
Qed.
Print Assumptions C46_checksums_notice_a_byte.
Theorem C46_fnv_notices_a_byte : forall p, In p [fnv_1_policy_64; fnv_1a_policy_64; fnv_1_policy_32; fnv_1a_policy_32] -> exists F, computes (of_policy p) F /\ notices_a_byte F.
Proof.
  assert (width 32) as W32 by (unfold width; tauto). assert (width 64) as W64 by (unfold width; tauto).
  intros p [<-|[<-|[<-|[<-|[]]]]]; [apply (good_notices 64), good_fnv_1|apply (good_notices 64), good_fnv_1a|apply (good_notices 32), good_fnv_1|apply (good_notices 32), good_fnv_1a]; try assumption; try reflexivity; unfold word; lia.
Qed.
Print Assumptions C46_fnv_notices_a_byte.
Theorem C46_jenkins_notices_a_byte : exists F, finalising false jenkins (fun _ => True) F /\ notices_a_byte F.
Proof.
  exists jenkins_hash. split; [intros h Hb _; now apply run_jenkins|]. intros a x y l Ha Hl Hx Hy D. exact (good_byte 32 jenkins_plain a x y l good_jenkins Ha Hl Hx Hy D).
Qed.
Print Assumptions C46_jenkins_notices_a_byte.
Theorem C46_murmur3_notices_a_byte : forall w seed, w = 32 \/ w = 64 -> 0 <= seed < 2 ^ w -> exists F, finalising true (murmur3 w seed) plain_chars F /\ notices_a_byte F.
Proof.
  intros w seed Hw Hs. exists (murmur_value w seed). split; [intros h Hb Hp; now apply run_murmur|]. intros a x y l Ha Hl Hx Hy D. now apply (murmur_byte w seed).
Qed.
Print Assumptions C46_murmur3_notices_a_byte.
Theorem C46_pearson_notices_a_byte : forall N a x y l, (0 < N)%nat -> Forall is_byte a -> Forall is_byte l -> is_byte x -> is_byte y -> x <> y ->
  exists s t, run (pearson N) (fresh (pearson N)) [HAdd false (a ++ x :: l)] = Some s /\ run (pearson N) (fresh (pearson N)) [HAdd false (a ++ y :: l)] = Some t /\ snd (value (pearson N) s) <> snd (value (pearson N) t).
Proof.
  intros N a x y l HN Ha Hl Hx Hy D. destruct (C40_pearson_exact N [HAdd false (a ++ x :: l)]) as (s & E & V). { repeat constructor. cbn. apply Forall_app. split; [exact Ha|now constructor]. } destruct (C40_pearson_exact N [HAdd false (a ++ y :: l)]) as (t & E' & V'). { repeat constructor. cbn. apply Forall_app. split; [exact Ha|now constructor]. }
  exists s, t. split; [exact E|split; [exact E'|]]. rewrite V, V'. cbn [reset_after_data fed bytes_of app]. destruct N as [|N]; [lia|]. cbn [seq map]. intros C. injection C as C _. revert C. now apply pearson_one_byte.
Qed.
Print Assumptions C46_pearson_notices_a_byte.
(** the hypotheses are met, and the values are those of the literature *)
Example C40_ex_history : bytes_only [HAdd false [49; 50]; HAdd1 51; HValue; HReset; HAdd true [52; 53]; HValue] /\ Forall plain_chars [HAdd false [49; 200]; HAdd true [52; 53]] /\ ~ adds_after_value true false [HAdd false [49; 50]; HAdd1 51; HValue; HReset; HAdd true [52; 53]; HValue].
Proof. split; [repeat constructor; unfold is_byte; lia|split; [repeat constructor; lia|]]. cbn. intuition discriminate. Qed.
Definition check_string : list Z := [49; 50; 51; 52; 53; 54; 55; 56; 57].
Definition value_of {V} (H : hasher V) (h : list hcall) : option V := match run H (fresh H) h with Some s => Some (snd (value H s)) | None => None end.
Example C40_ex_values : value_of (of_policy fnv_1a_policy_32) [HAdd false check_string] = Some 0xbb86b11c /\ value_of (murmur3 32 0) [HAdd1 49; HAdd false (tl check_string)] = Some 0xb4fef382 /\ value_of (of_policy (sum_policy 8)) [HAdd false check_string] = Some 221
  /\ value_of jenkins [HAdd1 97] = Some 0xca2e9442 /\ value_of jenkins [HAdd1 97; HValue; HAdd1 98] = None.
Proof. vm_compute. repeat split. Qed.
