From Coq Require Import List Arith Lia Bool ZArith Znumtheory Zpow_facts.
From Verif Require Import Util BinaryModel BinarySpec BitLib BinaryProofs CrcModel HashModel HashSpec.
Import ListNotations.
Local Open Scope Z_scope.
(** ** injective steps *)
Lemma mul_odd_inj w p a b : 0 <= w -> Z.odd p = true -> word w a -> word w b -> tr w (a * p) = tr w (b * p) -> a = b.
Proof.
  unfold word, tr. intros Hw Hp Ha Hb E. assert (0 < 2 ^ w) as P by (apply Z.pow_pos_nonneg; lia). assert ((2 ^ w | (a - b) * p)) as D.
  { apply Z.mod_divide; [lia|]. rewrite Z.mul_sub_distr_r, Zminus_mod, E, Z.sub_diag. apply Z.mod_0_l. lia. }
  rewrite Z.mul_comm in D. apply Gauss in D.
  - destruct D as (k & D). assert (k = 0) by nia. subst k. lia.
  - apply rel_prime_sym. apply rel_prime_Zpower_r; [exact Hw|]. apply rel_prime_sym, prime_rel_prime; [exact prime_2|]. intros (k & ->). rewrite Z.odd_mul in Hp. cbn in Hp. now rewrite andb_false_r in Hp.
Qed.
Lemma add_inj w c a b : 0 <= w -> word w a -> word w b -> tr w (a + c) = tr w (b + c) -> a = b.
Proof.
  unfold word, tr. intros Hw Ha Hb E. assert (0 < 2 ^ w) as P by (apply Z.pow_pos_nonneg; lia). assert ((2 ^ w | a - b)) as (k & D).
  { apply Z.mod_divide; [lia|]. replace (a - b) with ((a + c) - (b + c)) by lia. rewrite Zminus_mod, E, Z.sub_diag. apply Z.mod_0_l. lia. }
  assert (k = 0) by nia. subst k. lia.
Qed.
Lemma xorshift_inj k a b : 0 < k -> 0 <= a -> 0 <= b -> a ^^^ (a >> k) = b ^^^ (b >> k) -> a = b.
Proof.
  intros Hk Ha Hb E. apply Z.lxor_eq. set (d := a ^^^ b). assert (d = d >> k) as D.
  { unfold d. rewrite Z.shiftr_lxor. apply Z.lxor_eq. rewrite <- Z.lxor_assoc. rewrite (Z.lxor_assoc a b (a >> k)), (Z.lxor_comm b (a >> k)), <- (Z.lxor_assoc a). rewrite E. rewrite (Z.lxor_assoc _ b), (Z.lxor_comm b (b >> k)).
    apply Z.lxor_nilpotent. }
  assert (0 <= d) by (apply Z.lxor_nonneg; tauto). rewrite Z.shiftr_div_pow2 in D by lia. destruct (Z.eq_dec d 0) as [|N]; [assumption|]. assert (2 ^ 1 <= 2 ^ k) by (apply Z.pow_le_mono_r; lia). pose proof (Z.div_lt d (2 ^ k)). lia.
Qed.
Lemma lxor_inj_l a b c : a ^^^ c = b ^^^ c -> a = b.
Proof. intros E. assert ((a ^^^ c) ^^^ c = (b ^^^ c) ^^^ c) as F by now rewrite E. now rewrite !Z.lxor_assoc, Z.lxor_nilpotent, !Z.lxor_0_r in F. Qed.
Lemma lxor_inj_r a b c : c ^^^ a = c ^^^ b -> a = b.
Proof. intros E. apply (lxor_inj_l a b c). now rewrite (Z.lxor_comm a), (Z.lxor_comm b). Qed.
Lemma tr_id w x : word w x -> tr w x = x. Proof. apply Z.mod_small. Qed.
Lemma rotl_inj w d a b : 0 < w -> 0 <= d -> word w a -> word w b -> rotate_left w a d = rotate_left w b d -> a = b.
Proof.
  intros Hw Hd Ha Hb E. apply (word_ext w); [exact Ha|exact Hb|]. intros i Hi. assert (0 <= (i + d) mod w < w) as J by (apply Z.mod_pos_bound; lia).
  pose proof (rotate_left_bit w a d Hw Ha Hd _ J) as A. pose proof (rotate_left_bit w b d Hw Hb Hd _ J) as B. unfold bit in *. rewrite E in A. rewrite A in B. rewrite Zminus_mod_idemp_l in B. replace (i + d - d) with i in B by lia. rewrite Z.mod_small in B by lia. exact B.
Qed.
Lemma rotr_inj w d a b : 0 < w -> 0 <= d -> word w a -> word w b -> rotate_right w a d = rotate_right w b d -> a = b.
Proof.
  intros Hw Hd Ha Hb E. apply (word_ext w); [exact Ha|exact Hb|]. intros i Hi. assert (0 <= (i - d) mod w < w) as J by (apply Z.mod_pos_bound; lia).
  pose proof (rotate_right_bit w a d Hw Ha Hd _ J) as A. pose proof (rotate_right_bit w b d Hw Hb Hd _ J) as B. unfold bit in *. rewrite E in A. rewrite A in B. rewrite Zplus_mod_idemp_l in B. replace (i - d + d) with i in B by lia. rewrite Z.mod_small in B by lia. exact B.
Qed.
Lemma rot1 w x : width w -> rotate_left1 w x = rotate_left w x 1 /\ rotate_right1 w x = rotate_right w x 1.
Proof. intros Hw. unfold rotate_left1, rotate_left, rotate_right1, rotate_right. widths Hw; split; reflexivity. Qed.
Lemma byte_word w b : width w -> is_byte b -> word w b.
Proof. unfold is_byte, word. intros Hw Hb. widths Hw; lia. Qed.
Lemma word_inj_bytes w c x y : width w -> is_byte x -> is_byte y -> tr w (c + x) = tr w (c + y) -> x = y.
Proof. intros Hw Hx Hy E. rewrite (Z.add_comm c x), (Z.add_comm c y) in E. pose proof (width_pos w Hw). apply (add_inj w c); [lia|now apply byte_word|now apply byte_word|exact E]. Qed.
(** ** one byte makes a difference, for anything that folds an injective step *)
Section Fold.
Variables (w : Z) (step : Z -> Z -> Z).
Hypothesis Sword : forall s v, word w s -> is_byte v -> word w (step s v).
Hypothesis Sinj : forall s t v, word w s -> word w t -> is_byte v -> step s v = step t v -> s = t.
Hypothesis Vinj : forall s x y, word w s -> is_byte x -> is_byte y -> step s x = step s y -> x = y.
Lemma fold_word l : Forall is_byte l -> forall s, word w s -> word w (fold_left step l s).
Proof using Sword. induction 1 as [|b l Hb Hl IH]; intros s Hs; cbn [fold_left]; [exact Hs|]. apply IH. now apply Sword. Qed.
Lemma fold_inj l : Forall is_byte l -> forall s t, word w s -> word w t -> fold_left step l s = fold_left step l t -> s = t.
Proof using Sword Sinj. induction 1 as [|b l Hb Hl IH]; intros s t Hs Ht E; cbn [fold_left] in E; [exact E|]. apply (Sinj s t b); [exact Hs|exact Ht|exact Hb|]. apply IH; [now apply Sword|now apply Sword|exact E]. Qed.
Lemma fold_byte p x y l s : Forall is_byte p -> Forall is_byte l -> is_byte x -> is_byte y -> x <> y -> word w s -> fold_left step (p ++ x :: l) s <> fold_left step (p ++ y :: l) s.
Proof using Sword Sinj Vinj.
  intros Hp Hl Hx Hy D Hs E. rewrite !fold_left_app in E. cbn [fold_left] in E. pose proof (fold_word p Hp s Hs) as W. apply D. eapply Vinj; [exact W|exact Hx|exact Hy|]. eapply fold_inj; [exact Hl|now apply Sword|now apply Sword|exact E].
Qed.
End Fold.
(** ** the policies *)
Record good_policy (w : Z) (p : policy) : Prop := {
  gp_init : word w (initial p);
  gp_word : forall s v, word w s -> is_byte v -> word w (padd p s v);
  gp_sinj : forall s t v, word w s -> word w t -> is_byte v -> padd p s v = padd p t v -> s = t;
  gp_vinj : forall s x y, word w s -> is_byte x -> is_byte y -> padd p s x = padd p s y -> x = y;
  gp_final : forall s t, word w s -> word w t -> pfinal p s = pfinal p t -> s = t }.
Lemma good_byte w p a x y l : good_policy w p -> Forall is_byte a -> Forall is_byte l -> is_byte x -> is_byte y -> x <> y ->
  pfinal p (fold_left (padd p) (a ++ x :: l) (initial p)) <> pfinal p (fold_left (padd p) (a ++ y :: l) (initial p)).
Proof.
  intros G Ha Hl Hx Hy D E. destruct G as [G1 G2 G3 G4 G5]. apply G5 in E; [|apply (fold_word w); [exact G2| |exact G1]..].
  - revert E. apply (fold_byte w); assumption.
  - apply Forall_app. split; [exact Ha|now constructor].
  - apply Forall_app. split; [exact Ha|now constructor].
Qed.
Lemma good_sum w : width w -> good_policy w (sum_policy w).
Proof.
  intros Hw. pose proof (width_pos w Hw). constructor; cbn [initial padd pfinal sum_policy].
  - unfold word. split; [lia|apply Z.pow_pos_nonneg; lia].
  - intros. apply word_tr. lia.
  - intros s t v Hs Ht Hv E. apply (add_inj w v); [lia|exact Hs|exact Ht|exact E].
  - intros s x y Hs Hx Hy E. now apply (word_inj_bytes w s).
  - tauto.
Qed.
Lemma good_bsd w : width w -> good_policy w (bsd_policy w).
Proof.
  intros Hw. pose proof (width_pos w Hw). constructor; cbn [initial padd pfinal bsd_policy].
  - unfold word. split; [lia|apply Z.pow_pos_nonneg; lia].
  - intros. apply word_tr. lia.
  - intros s t v Hs Ht Hv E. rewrite !(proj2 (rot1 w _ Hw)) in E. apply (add_inj w v) in E; [|lia|now apply rotate_right_word..]. apply rotr_inj in E; [exact E|lia|lia|exact Hs|exact Ht].
  - intros s x y Hs Hx Hy E. now apply (word_inj_bytes w (rotate_right1 w s)).
  - tauto.
Qed.
Lemma good_xor w : width w -> good_policy w (xor_policy w).
Proof.
  intros Hw. pose proof (width_pos w Hw). constructor; cbn [initial padd pfinal xor_policy].
  - unfold word. split; [lia|apply Z.pow_pos_nonneg; lia].
  - intros. apply word_tr. lia.
  - intros s t v Hs Ht Hv E. pose proof (byte_word w v Hw Hv). rewrite !tr_id in E by now apply word_lxor. now apply lxor_inj_l in E.
  - intros s x y Hs Hx Hy E. pose proof (byte_word w x Hw Hx). pose proof (byte_word w y Hw Hy). rewrite !tr_id in E by now apply word_lxor. now apply lxor_inj_r in E.
  - tauto.
Qed.
Lemma good_xor_rotate w : width w -> good_policy w (xor_rotate_policy w).
Proof.
  intros Hw. pose proof (width_pos w Hw). assert (forall s, word w s -> word w (rotate_left1 w s)) as R by (intros; apply word_tr; lia). constructor; cbn [initial padd pfinal xor_rotate_policy].
  - unfold word. split; [lia|apply Z.pow_pos_nonneg; lia].
  - intros. apply word_tr. lia.
  - intros s t v Hs Ht Hv E. pose proof (byte_word w v Hw Hv). rewrite !tr_id in E by (apply word_lxor; auto). apply lxor_inj_l in E. rewrite !(proj1 (rot1 w _ Hw)) in E. apply rotl_inj in E; [exact E|lia|lia|exact Hs|exact Ht].
  - intros s x y Hs Hx Hy E. pose proof (byte_word w x Hw Hx). pose proof (byte_word w y Hw Hy). rewrite !tr_id in E by (apply word_lxor; auto). now apply lxor_inj_r in E.
  - tauto.
Qed.
Lemma good_fnv_1 w b p : width w -> word w b -> Z.odd p = true -> good_policy w (fnv_1_policy w b p).
Proof.
  intros Hw Hb Hp. pose proof (width_pos w Hw). constructor; cbn [initial padd pfinal fnv_1_policy].
  - exact Hb.
  - intros. apply word_lxor; [apply word_tr; lia|now apply byte_word].
  - intros s t v Hs Ht Hv E. apply lxor_inj_l in E. apply mul_odd_inj in E; [exact E|lia|exact Hp|exact Hs|exact Ht].
  - intros s x y Hs Hx Hy E. now apply lxor_inj_r in E.
  - tauto.
Qed.
Lemma good_fnv_1a w b p : width w -> word w b -> Z.odd p = true -> good_policy w (fnv_1a_policy w b p).
Proof.
  intros Hw Hb Hp. pose proof (width_pos w Hw). constructor; cbn [initial padd pfinal fnv_1a_policy].
  - exact Hb.
  - intros. apply word_tr. lia.
  - intros s t v Hs Ht Hv E. pose proof (byte_word w v Hw Hv). apply mul_odd_inj in E; [|lia|exact Hp|now apply word_lxor|now apply word_lxor]. now apply lxor_inj_l in E.
  - intros s x y Hs Hx Hy E. pose proof (byte_word w x Hw Hx). pose proof (byte_word w y Hw Hy). apply mul_odd_inj in E; [|lia|exact Hp|now apply word_lxor|now apply word_lxor]. now apply lxor_inj_r in E.
  - tauto.
Qed.
(** jenkins, as a policy without the flag *)
Definition jenkins_plain : policy := {| initial := 0; padd := jenkins_add; pfinal := jenkins_final |}.
Lemma shl_mul w h k : 0 <= k -> tr w (h + tr w (h << k)) = tr w (h * (1 + 2 ^ k)).
Proof. intros Hk. unfold tr. rewrite Z.shiftl_mul_pow2 by exact Hk. destruct (Z.eq_dec (2 ^ w) 0) as [E|E]; [rewrite E, !Zmod_0_r; lia|]. rewrite Z.add_mod_idemp_r by exact E. f_equal. lia. Qed.
Lemma word_xorshift w h k : 0 <= k -> word w h -> word w (h ^^^ (h >> k)).
Proof. intros Hk Hh. apply word_lxor; [exact Hh|now apply word_shr]. Qed.
Lemma good_jenkins : good_policy 32 jenkins_plain.
Proof.
  assert (width 32) as Hw by (unfold width; tauto). constructor; cbn [initial padd pfinal jenkins_plain].
  - unfold word. lia.
  - intros s v Hs Hv. unfold jenkins_add. cbv zeta. apply word_xorshift; [lia|]. apply word_tr. lia.
  - intros s t v Hs Ht Hv E. unfold jenkins_add in E. cbv zeta in E. apply xorshift_inj in E; [|lia|apply word_tr; lia|apply word_tr; lia]. rewrite !shl_mul in E by lia. apply mul_odd_inj in E; [|lia|reflexivity|apply word_tr; lia|apply word_tr; lia]. apply add_inj in E; [exact E|lia|exact Hs|exact Ht].
  - intros s x y Hs Hx Hy E. unfold jenkins_add in E. cbv zeta in E. apply xorshift_inj in E; [|lia|apply word_tr; lia|apply word_tr; lia]. rewrite !shl_mul in E by lia. apply mul_odd_inj in E; [|lia|reflexivity|apply word_tr; lia|apply word_tr; lia]. now apply (word_inj_bytes 32 s).
  - intros s t Hs Ht E. unfold jenkins_final in E. cbv zeta in E. rewrite !shl_mul in E by lia. apply mul_odd_inj in E; [|lia|reflexivity|apply word_xorshift; [lia|apply word_tr; lia]..]. apply xorshift_inj in E; [|lia|apply word_tr; lia|apply word_tr; lia]. apply mul_odd_inj in E; [exact E|lia|reflexivity|exact Hs|exact Ht].
Qed.
