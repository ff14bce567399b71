From Coq Require Import List Arith Lia Bool ZArith.
From Verif Require Import Util BinaryModel BinarySpec BitLib BinaryProofs CrcModel HashModel HashSpec HashProofs HashProofs2.
Import ListNotations.
Local Open Scope Z_scope.
Lemma lor_low_high k lo hi : 0 <= k -> 0 <= lo < 2 ^ k -> lo ||| (hi * 2 ^ k) = lo + hi * 2 ^ k.
Proof.
  intros Hk Hl. rewrite <- Z.lxor_lor, <- Z.add_nocarry_lxor; [reflexivity|..]; (apply Z.bits_inj'; intros i Hi; rewrite Z.land_spec, Z.bits_0; destruct (Z.lt_ge_cases i k); [rewrite Z.mul_pow2_bits_low by lia; apply andb_false_r|]; rewrite (word_high k lo) by (unfold word; lia || assumption); reflexivity).
Qed.
Section Murmur.
Variables (w seed : Z).
Hypothesis Hw : w = 32 \/ w = 64.
Hypothesis Hseed : word w seed.
Definition contribution (v f : Z) : Z := if (f =? 3) && (128 <=? v) then (2 ^ w - 2 ^ 32) / 2 ^ 24 + v else v.
Lemma shifted v f : is_byte v -> 0 <= f <= 3 -> tr w (sg 32 (v << (f * 8))) = contribution v f * 2 ^ (f * 8).
Proof using Hw Hseed.
  intros Hv Hf. unfold contribution, is_byte, tr, sg in *. cbv zeta. rewrite Z.shiftl_mul_pow2 by lia. change (2 ^ (32 - 1)) with 2147483648. change (2 ^ 32) with 4294967296. change (2 ^ 24) with 16777216.
  assert (f = 0 \/ f = 1 \/ f = 2 \/ f = 3) as [->|[->|[->| ->]]] by lia; cbn [Z.eqb andb Pos.eqb]; [change (2 ^ (0 * 8)) with 1|change (2 ^ (1 * 8)) with 256|change (2 ^ (2 * 8)) with 65536|change (2 ^ (3 * 8)) with 16777216]; rewrite (Z.mod_small (v * _)) by lia.
  1,2,3: (match goal with |- context [?a <? ?b] => destruct (Z.ltb_spec a b); [|lia] end); destruct Hw as [-> | ->]; apply Z.mod_small; lia.
  destruct (Z.leb_spec 128 v).
  - destruct (Z.ltb_spec (v * 16777216) 2147483648); [lia|]. destruct Hw as [-> | ->]; [change (2 ^ 32) with 4294967296; change ((4294967296 - 4294967296) / 16777216) with 0|change (2 ^ 64) with 18446744073709551616; change ((18446744073709551616 - 4294967296) / 16777216) with 1099511627520].
    + replace (v * 16777216 - 4294967296) with (v * 16777216 + (-1) * 4294967296) by lia. rewrite Z.mod_add by lia. rewrite Z.mod_small by lia. lia.
    + replace (v * 16777216 - 4294967296) with ((1099511627520 + v) * 16777216 + (-1) * 18446744073709551616) by lia. rewrite Z.mod_add by lia. rewrite Z.mod_small by lia. lia.
  - destruct (Z.ltb_spec (v * 16777216) 2147483648); [|lia]. destruct Hw as [-> | ->]; apply Z.mod_small; lia.
Qed.
Lemma contribution_inj x y f : contribution x f = contribution y f -> is_byte x -> is_byte y -> x = y.
Proof using Hw Hseed.
  unfold contribution, is_byte. intros E Hx Hy. destruct (f =? 3); cbn [andb] in E; [|exact E]. destruct Hw as [-> | ->].
  - change ((2 ^ 32 - 2 ^ 32) / 2 ^ 24) with 0 in E. destruct (128 <=? x), (128 <=? y); lia.
  - change ((2 ^ 64 - 2 ^ 32) / 2 ^ 24) with 1099511627520 in E. destruct (Z.leb_spec 128 x), (Z.leb_spec 128 y); lia.
Qed.
Lemma w_pos : 0 < w /\ 2 ^ 32 <= 2 ^ w. Proof using Hw Hseed. split; [lia|]. apply Z.pow_le_mono_r; lia. Qed.
Lemma contribution_word v f : is_byte v -> 0 <= f <= 3 -> 0 <= contribution v f /\ contribution v f * 2 ^ (f * 8) + 2 ^ (f * 8) <= 2 ^ w /\ (f < 3 -> contribution v f < 256).
Proof using Hw Hseed.
  intros Hv Hf. unfold contribution, is_byte in *. assert (f = 0 \/ f = 1 \/ f = 2 \/ f = 3) as [->|[->|[->| ->]]] by lia; cbn [Z.eqb Pos.eqb andb].
  1,2,3: destruct Hw as [-> | ->]; [change (2 ^ 32) with 4294967296|change (2 ^ 64) with 18446744073709551616]; cbn; lia.
  change (2 ^ (3 * 8)) with 16777216. destruct Hw as [-> | ->]; [change ((2 ^ 32 - 2 ^ 32) / 2 ^ 24) with 0; change (2 ^ 32) with 4294967296|change ((2 ^ 64 - 2 ^ 32) / 2 ^ 24) with 1099511627520; change (2 ^ 64) with 18446744073709551616]; destruct (128 <=? v); lia.
Qed.
(** the block being filled *)
Definition wf (s : mstate) : Prop := is_finalised s = false /\ 0 <= fill s <= 3 /\ 0 <= block s < 2 ^ (fill s * 8) /\ word w (mhash s).
Lemma new_block s v : wf s -> is_byte v -> block s ||| tr w (sg 32 (v << (fill s * 8))) = block s + contribution v (fill s) * 2 ^ (fill s * 8).
Proof using Hw Hseed. intros (_ & F & B & _) Hv. rewrite shifted by assumption. apply lor_low_high; [lia|exact B]. Qed.
Lemma add_block_word h b : word w (add_block w h b). Proof using Hw Hseed. apply word_tr. lia. Qed.
Lemma m_byte_wf s v : wf s -> is_byte v -> wf (m_byte w s v).
Proof using Hw Hseed.
  intros W Hv. unfold m_byte. rewrite new_block by assumption. destruct W as (Fi & F & B & Hh). pose proof (contribution_word v (fill s) Hv F) as (C1 & C2 & C3). destruct (Z.eqb_spec (fill s + 1) 4); unfold wf; cbn [is_finalised fill block mhash].
  - split; [exact Fi|split; [lia|split; [lia|apply add_block_word]]].
  - split; [exact Fi|split; [lia|split; [|exact Hh]]]. specialize (C3 ltac:(lia)). replace (2 ^ ((fill s + 1) * 8)) with (256 * 2 ^ (fill s * 8)); [nia|]. replace ((fill s + 1) * 8) with (8 + fill s * 8) by lia. rewrite Z.pow_add_r by lia. reflexivity.
Qed.
Lemma fold_wf l : Forall is_byte l -> forall s, wf s -> wf (fold_left (m_byte w) l s).
Proof using Hw Hseed. induction 1 as [|b l Hb Hl IH]; intros s W; [exact W|]. cbn [fold_left]. apply IH. now apply m_byte_wf. Qed.
Lemma reset_wf : wf (m_reset seed). Proof using Hw Hseed. unfold wf. cbn. split; [reflexivity|split; [lia|split; [lia|exact Hseed]]]. Qed.
Lemma mix_word b : word w (mix_block w b). Proof using Hw Hseed. apply word_tr. lia. Qed.
Lemma mix_inj a b : word w a -> word w b -> mix_block w a = mix_block w b -> a = b.
Proof using Hw Hseed.
  intros Ha Hb E. pose proof w_pos as (P & _). unfold mix_block in E. apply mul_odd_inj in E; [|lia|reflexivity|apply rotate_left_word; [lia|apply word_tr; lia]..]. apply rotl_inj in E; [|lia|unfold SHIFT1; lia|apply word_tr; lia|apply word_tr; lia]. apply mul_odd_inj in E; [exact E|lia|reflexivity|exact Ha|exact Hb].
Qed.
Lemma add_block_inj_x x y b c : word w x -> word w y -> add_block w x b = add_block w y c -> x ^^^ mix_block w b = y ^^^ mix_block w c.
Proof using Hw Hseed.
  intros Hx Hy E. pose proof w_pos as (P & _). pose proof (mix_word b). pose proof (mix_word c). unfold add_block in E. assert (tr w (rotate_left w (x ^^^ mix_block w b) SHIFT2 * MULTIPLY) = tr w (rotate_left w (y ^^^ mix_block w c) SHIFT2 * MULTIPLY)) as E2.
  { apply (add_inj w ADD); [lia|apply word_tr; lia|apply word_tr; lia|]. unfold tr in *. rewrite !Z.add_mod_idemp_l by lia. exact E. }
  apply mul_odd_inj in E2; [|lia|reflexivity|apply rotate_left_word; [lia|now apply word_lxor]..]. apply rotl_inj in E2; [exact E2|lia|unfold SHIFT2; lia|now apply word_lxor|now apply word_lxor].
Qed.
(** two runs that differ *)
Definition differ (s t : mstate) : Prop := wf s /\ wf t /\ fill s = fill t /\ char_count s = char_count t /\ ((mhash s <> mhash t /\ block s = block t) \/ (mhash s = mhash t /\ block s <> block t)).
Lemma block_word s : wf s -> word w (block s).
Proof using Hw Hseed. intros (_ & F & B & _). unfold word. pose proof w_pos as (_ & P). assert (2 ^ (fill s * 8) <= 2 ^ 32) by (apply Z.pow_le_mono_r; lia). lia. Qed.
Lemma sum_word s v : wf s -> is_byte v -> word w (block s + contribution v (fill s) * 2 ^ (fill s * 8)).
Proof using Hw Hseed. intros (_ & F & B & _) Hv. pose proof (contribution_word v (fill s) Hv F) as (C1 & C2 & C3). unfold word. nia. Qed.
Lemma differ_step s t v : differ s t -> is_byte v -> differ (m_byte w s v) (m_byte w t v).
Proof using Hw Hseed.
  intros (Ws & Wt & Ef & Ec & D) Hv. unfold differ. split; [now apply m_byte_wf|split; [now apply m_byte_wf|]]. unfold m_byte. rewrite !new_block by assumption. rewrite <- Ef, <- Ec. pose proof (sum_word s v Ws Hv) as S1. pose proof (sum_word t v Wt Hv) as S2. rewrite <- Ef in S2. destruct (Z.eqb_spec (fill s + 1) 4); cbn [fill char_count mhash block].
  - split; [reflexivity|split; [reflexivity|]]. left. split; [|reflexivity]. intros E. apply add_block_inj_x in E; [|apply Ws|apply Wt]. destruct D as [(D & B)|(D & B)].
    + rewrite B in E. now apply lxor_inj_l in E.
    + rewrite D in E. apply lxor_inj_r in E. apply mix_inj in E; [lia|exact S1|exact S2].
  - split; [reflexivity|split; [reflexivity|]]. destruct D as [(D & B)|(D & B)]; [left|right]; (split; [exact D|lia]).
Qed.
Lemma differ_fold l : Forall is_byte l -> forall s t, differ s t -> differ (fold_left (m_byte w) l s) (fold_left (m_byte w) l t).
Proof using Hw Hseed. induction 1 as [|b l Hb Hl IH]; intros s t D; [exact D|]. cbn [fold_left]. apply IH. now apply differ_step. Qed.
Lemma differ_start s x y : wf s -> is_byte x -> is_byte y -> x <> y -> differ (m_byte w s x) (m_byte w s y).
Proof using Hw Hseed.
  intros W Hx Hy D. unfold differ. split; [now apply m_byte_wf|split; [now apply m_byte_wf|]]. unfold m_byte. rewrite !new_block by assumption. pose proof (sum_word s x W Hx) as S1. pose proof (sum_word s y W Hy) as S2.
  assert (block s + contribution x (fill s) * 2 ^ (fill s * 8) <> block s + contribution y (fill s) * 2 ^ (fill s * 8)) as N. { intros E. apply D. apply (contribution_inj x y (fill s)); [|exact Hx|exact Hy]. assert (0 < 2 ^ (fill s * 8)) by (apply Z.pow_pos_nonneg; destruct W; lia). nia. }
  destruct (Z.eqb_spec (fill s + 1) 4); cbn [fill char_count mhash block]; (split; [reflexivity|split; [reflexivity|]]).
  - left. split; [|reflexivity]. intros E. apply add_block_inj_x in E; [|apply W|apply W]. apply lxor_inj_r in E. apply mix_inj in E; [contradiction|exact S1|exact S2].
  - right. split; [reflexivity|exact N].
Qed.
Lemma differ_final s t : differ s t -> mhash (m_finalise w s) <> mhash (m_finalise w t).
Proof using Hw Hseed.
  intros (Ws & Wt & Ef & Ec & D) E. pose proof w_pos as (P & _). unfold m_finalise in E. rewrite (proj1 Ws), (proj1 Wt) in E. cbv zeta in E. cbn [mhash] in E. rewrite Ec in E. pose proof (block_word s Ws) as Bs. pose proof (block_word t Wt) as Bt. assert (word w (mhash s)) as Hs by apply Ws. assert (word w (mhash t)) as Ht by apply Wt. pose proof (mix_word (block s)). pose proof (mix_word (block t)). assert (word w (tr w (char_count t))) by (apply word_tr; lia).
  assert (forall h b, word w h -> word w b -> word w (h ^^^ b ^^^ tr w (char_count t))) as W1 by (intros; apply word_lxor; [now apply word_lxor|assumption]).
  apply xorshift_inj in E; [|lia|apply word_tr; lia|apply word_tr; lia]. apply mul_odd_inj in E; [|lia|reflexivity|apply word_xorshift; [lia|apply word_tr; lia]..]. apply xorshift_inj in E; [|lia|apply word_tr; lia|apply word_tr; lia]. apply mul_odd_inj in E; [|lia|reflexivity|apply word_xorshift; [lia|now apply W1]..].
  apply xorshift_inj in E; [|lia|apply (W1 (mhash s) (mix_block w (block s))); assumption|apply (W1 (mhash t) (mix_block w (block t))); assumption]. apply lxor_inj_l in E. destruct D as [(D & B)|(D & B)].
  - rewrite B in E. now apply lxor_inj_l in E.
  - rewrite D in E. apply lxor_inj_r in E. now apply mix_inj in E.
Qed.
Definition murmur_value (l : list Z) : Z := mhash (m_finalise w (fold_left (m_byte w) l (m_reset seed))).
Lemma murmur_byte a x y l : Forall is_byte a -> Forall is_byte l -> is_byte x -> is_byte y -> x <> y -> murmur_value (a ++ x :: l) <> murmur_value (a ++ y :: l).
Proof using Hw Hseed.
  intros Ha Hl Hx Hy D. unfold murmur_value. apply differ_final. rewrite !fold_left_app. cbn [fold_left]. apply differ_fold; [exact Hl|]. apply differ_start; [apply fold_wf; [exact Ha|exact reset_wf]|exact Hx|exact Hy|exact D].
Qed.
Definition plain_chars (c : hcall) : Prop := match c with HAdd true l => Forall (fun b => b < 128) l | _ => True end.
Lemma fold_plain sc l : Forall is_byte l -> plain_chars (HAdd sc l) -> forall s, fold_left (fun s b => m_byte w s (read_as sc b)) l s = fold_left (m_byte w) l s.
Proof using Hw Hseed.
  intros Hl. induction Hl as [|b l Hb Hl IH]; intros Hp s; [reflexivity|]. cbn [fold_left]. replace (read_as sc b) with b.
  - apply IH. destruct sc; [|exact I]. inversion Hp; assumption.
  - destruct sc; [|reflexivity]. inversion Hp; subst. unfold read_as, sg, is_byte in *. cbv zeta. rewrite Z.mod_small by lia. change (2 ^ (8 - 1)) with 128. destruct (Z.ltb_spec b 128); lia.
Qed.
Lemma fin_false l : Forall is_byte l -> is_finalised (fold_left (m_byte w) l (m_reset seed)) = false.
Proof using Hw Hseed. intros Hl. apply (fold_wf l Hl), reset_wf. Qed.
Lemma finalise_fin s : is_finalised (m_finalise w s) = true. Proof using Hw Hseed. unfold m_finalise. destruct (is_finalised s) eqn:E; [exact E|reflexivity]. Qed.
Lemma finalise_twice s : m_finalise w (m_finalise w s) = m_finalise w s. Proof using Hw Hseed. unfold m_finalise at 1. now rewrite finalise_fin. Qed.
Lemma run_murmur h : bytes_only h -> Forall plain_chars h ->
  match run (murmur3 w seed) (fresh (murmur3 w seed)) h with
  | Some s => ~ adds_after_value true false h /\ snd (value (murmur3 w seed) s) = murmur_value (fed [] h)
  | None => adds_after_value true false h
  end.
Proof using Hw Hseed.
  intros Hb Hp. set (F := fun acc => fold_left (m_byte w) acc (m_reset seed)).
  pose proof (run_fin (murmur3 w seed) (fun s acc b => Forall is_byte acc /\ s = if b : bool then m_finalise w (F acc) else F acc) true plain_chars) as R.
  assert (match run (murmur3 w seed) (fresh (murmur3 w seed)) h with Some s => ~ adds_after_value true false h /\ Forall is_byte (fed [] h) /\ s = (if was_read false h then m_finalise w (F (fed [] h)) else F (fed [] h)) | None => adds_after_value true false h end) as G.
  { apply R; clear R.
    - intros s acc b _. split; [constructor|reflexivity].
    - intros s acc b (A & ->). split; [exact A|]. cbn. destruct b; [apply finalise_twice|reflexivity].
    - intros s acc b v (A & ->) Hv. cbn. destruct b; [now rewrite finalise_fin|]. unfold F. rewrite fin_false by exact A. eexists. split; [reflexivity|]. split; [apply Forall_app; split; [exact A|now constructor]|]. now rewrite fold_left_app.
    - intros s acc b sc l (A & ->) Ho Hl. rewrite orb_true_l, andb_true_r. cbn. destruct b; [now rewrite finalise_fin|]. unfold F. rewrite fin_false by exact A. eexists. split; [reflexivity|]. split; [apply Forall_app; now split|]. rewrite fold_left_app. now apply fold_plain.
    - exact Hb.
    - exact Hp.
    - split; [constructor|reflexivity]. }
  destruct (run (murmur3 w seed) (fresh (murmur3 w seed)) h) as [s|]; [|exact G]. destruct G as (G1 & _ & ->). split; [exact G1|]. cbn. unfold murmur_value. fold F. destruct (was_read false h); [now rewrite finalise_twice|reflexivity].
Qed.
End Murmur.
(** ** MurmurHash3_x86_32 *)
Lemma rot32 x d : word 32 x -> 0 < d < 32 -> rotate_left 32 x d = rotl32 x d.
Proof.
  intros Hx Hd. unfold rotate_left, rotl32. rewrite (Z.mod_small d) by lia. destruct (Z.eqb_spec (32 - d) 32); [lia|]. assert (2 ^ 32 = 2 ^ (32 - d) * 2 ^ d) as P by (rewrite <- Z.pow_add_r by lia; f_equal; lia). assert (0 < 2 ^ d) by (apply Z.pow_pos_nonneg; lia). assert (0 < 2 ^ (32 - d)) by (apply Z.pow_pos_nonneg; lia). unfold word in Hx.
  assert (0 <= x / 2 ^ (32 - d) < 2 ^ d) as R by (split; [apply Z.div_pos; lia|apply Z.div_lt_upper_bound; lia]).
  assert ((x << d) ||| (x >> (32 - d)) = x / 2 ^ (32 - d) + x * 2 ^ d) as ->. { rewrite Z.lor_comm, Z.shiftl_mul_pow2, Z.shiftr_div_pow2 by lia. apply lor_low_high; [lia|exact R]. }
  unfold tr. rewrite P at 1. rewrite (Z.add_comm (x / _)). rewrite P. rewrite (Z.mul_comm (2 ^ (32 - d))), (Z.mul_comm x). rewrite Z.mul_mod_distr_l by lia. pose proof (Z.div_mod x (2 ^ (32 - d)) ltac:(lia)) as D. pose proof (Z.mod_pos_bound x (2 ^ (32 - d)) ltac:(lia)) as M.
  replace (2 ^ d * x + x / 2 ^ (32 - d)) with ((2 ^ d * (x mod 2 ^ (32 - d)) + x / 2 ^ (32 - d)) + (x / 2 ^ (32 - d)) * (2 ^ d * 2 ^ (32 - d))) by nia. rewrite Z.mod_add by nia. apply Z.mod_small. nia.
Qed.
Lemma mix32 k : mix_block 32 k = murmur_k k.
Proof. unfold mix_block, murmur_k. rewrite rot32; [reflexivity|apply word_tr; lia|unfold SHIFT1; lia]. Qed.
Lemma c32 v f : contribution 32 v f = v. Proof. unfold contribution. change ((2 ^ 32 - 2 ^ 32) / 2 ^ 24) with 0. now destruct ((f =? 3) && (128 <=? v)). Qed.
Lemma xsh h k : 0 <= k -> h >> k = h / 2 ^ k. Proof. apply Z.shiftr_div_pow2. Qed.
Ltac ft := solve [assumption | constructor | cbn; lia | cbn [app]; repeat first [apply Forall_nil|apply Forall_cons; [assumption|]]].
Section M32.
Variable seed : Z.
Hypothesis Hseed : word 32 seed.
Lemma byte32 s v : wf 32 s -> is_byte v -> m_byte 32 s v =
  if fill s + 1 =? 4 then {| is_finalised := false; fill := 0; char_count := tr 64 (char_count s + 1); block := 0; mhash := add_block 32 (mhash s) (block s + v * 2 ^ (fill s * 8)) |}
  else {| is_finalised := false; fill := fill s + 1; char_count := tr 64 (char_count s + 1); block := block s + v * 2 ^ (fill s * 8); mhash := mhash s |}.
Proof using Hseed. intros W Hv. unfold m_byte. rewrite (new_block 32 seed (or_introl eq_refl) Hseed) by assumption. rewrite c32. now rewrite (proj1 W). Qed.
Definition at_block (h n : Z) : mstate := {| is_finalised := false; fill := 0; char_count := n; block := 0; mhash := h |}.
Lemma wf_at h n : word 32 h -> wf 32 (at_block h n). Proof using. intros H. unfold wf. cbn. split; [reflexivity|split; [lia|split; [lia|exact H]]]. Qed.
Definition partial (h n : Z) (l : list Z) : mstate := {| is_finalised := false; fill := Z.of_nat (length l); char_count := n; block := little_endian l; mhash := h |}.
Lemma le_bound l : Forall is_byte l -> 0 <= little_endian l < 2 ^ (Z.of_nat (length l) * 8).
Proof using. induction 1 as [|b l Hb Hl IH]; [cbn; lia|]. cbn [little_endian fold_right length]. fold (little_endian l). unfold is_byte in Hb. replace (Z.of_nat (S (length l)) * 8) with (8 + Z.of_nat (length l) * 8) by lia. rewrite Z.pow_add_r by lia. change (2 ^ 8) with 256. lia. Qed.
Lemma le_snoc l b : little_endian (l ++ [b]) = little_endian l + b * 2 ^ (Z.of_nat (length l) * 8).
Proof using.
  induction l as [|a l IH]; [cbn; lia|]. cbn [little_endian fold_right length app]. fold (little_endian l). fold (little_endian (l ++ [b])). rewrite IH. replace (Z.of_nat (S (length l)) * 8) with (8 + Z.of_nat (length l) * 8) by lia. rewrite Z.pow_add_r by lia. change (2 ^ 8) with 256. lia.
Qed.
Lemma partial_wf h n l : word 32 h -> Forall is_byte l -> (length l <= 3)%nat -> wf 32 (partial h n l).
Proof using. intros Hh Hl Hn. unfold wf, partial. cbn [is_finalised fill block mhash]. split; [reflexivity|split; [lia|split; [now apply le_bound|exact Hh]]]. Qed.
Lemma partial_step h n l b : word 32 h -> Forall is_byte l -> is_byte b -> (length l <= 2)%nat -> m_byte 32 (partial h n l) b = partial h (tr 64 (n + 1)) (l ++ [b]).
Proof using Hseed.
  intros Hh Hl Hb Hn. rewrite byte32; [|apply partial_wf; [exact Hh|exact Hl|lia]|exact Hb]. unfold partial. cbn [fill char_count block mhash]. destruct (Z.eqb_spec (Z.of_nat (length l) + 1) 4); [lia|]. f_equal; [rewrite app_length; cbn [length]; lia|now rewrite le_snoc].
Qed.
Lemma full_step h n l b : word 32 h -> Forall is_byte l -> is_byte b -> length l = 3%nat -> m_byte 32 (partial h n l) b = at_block (add_block 32 h (little_endian (l ++ [b]))) (tr 64 (n + 1)).
Proof using Hseed.
  intros Hh Hl Hb Hn. rewrite byte32; [|apply partial_wf; [exact Hh|exact Hl|lia]|exact Hb]. unfold partial, at_block. cbn [fill char_count block mhash]. destruct (Z.eqb_spec (Z.of_nat (length l) + 1) 4); [|lia]. now rewrite le_snoc.
Qed.
Lemma fmix32_ok h : let h1 := h ^^^ (h >> 16) in let h2 := tr 32 (h1 * 0x85EBCA6B) in let h3 := h2 ^^^ (h2 >> 13) in let h4 := tr 32 (h3 * 0xC2B2AE35) in h4 ^^^ (h4 >> 16) = fmix32 h.
Proof using. cbv zeta. unfold fmix32. cbv zeta. rewrite !xsh by lia. reflexivity. Qed.
Lemma finish h n l : mhash (m_finalise 32 (partial h n l)) = fmix32 (h ^^^ murmur_k (little_endian l) ^^^ tr 32 n).
Proof using. unfold m_finalise, partial. cbn [is_finalised mhash block char_count]. cbv zeta. cbn [mhash]. rewrite mix32. apply fmix32_ok. Qed.
Lemma add32 h l : word 32 h -> add_block 32 h (little_endian l) = (rotl32 (h ^^^ murmur_k (little_endian l)) 13 * 5 + 0xe6546b64) mod 2 ^ 32.
Proof using. intros Hh. unfold add_block, SHIFT2. rewrite mix32. rewrite rot32; [reflexivity| |lia]. apply word_lxor; [exact Hh|]. apply word_tr. lia. Qed.
Lemma tr_tr n k : tr 64 (tr 64 n + k) = tr 64 (n + k). Proof using. unfold tr. rewrite Z.add_mod_idemp_l by lia. reflexivity. Qed.
Lemma tr32_64 n : tr 32 (tr 64 n) = n mod 2 ^ 32.
Proof using. unfold tr. symmetry. apply Znumtheory.Zmod_div_mod; [lia|lia|]. exists (2 ^ 32). reflexivity. Qed.
Lemma body_ok : forall k l, (length l <= k)%nat -> Forall is_byte l -> forall h n, word 32 h ->
  mhash (m_finalise 32 (fold_left (m_byte 32) l (partial h (tr 64 n) []))) = fmix32 (murmur_body h l ^^^ ((n + Z.of_nat (length l)) mod 2 ^ 32)).
Proof using Hseed.
  induction k as [|k IH]; intros l Hk Hl h n Hh.
  - destruct l; [|cbn in Hk; lia]. cbn [fold_left]. rewrite finish. rewrite tr32_64. cbn [length murmur_body]. now rewrite Z.add_0_r.
  - destruct l as [|a [|b [|c [|d l]]]].
    + cbn [fold_left]. rewrite finish, tr32_64. cbn [length murmur_body]. now rewrite Z.add_0_r.
    + inversion Hl as [|? ? A1 _]; subst. cbn [fold_left]. rewrite partial_step by ft. rewrite finish, tr_tr, tr32_64. cbn [length app murmur_body]. reflexivity.
    + inversion Hl as [|? ? A1 L1]; subst. inversion L1 as [|? ? A2 _]; subst. cbn [fold_left]. rewrite !partial_step by ft. rewrite finish. repeat (rewrite tr_tr || rewrite <- Z.add_assoc). rewrite tr32_64. cbn [length app murmur_body]. do 3 f_equal; try lia.
    + inversion Hl as [|? ? A1 L1]; subst. inversion L1 as [|? ? A2 L2]; subst. inversion L2 as [|? ? A3 _]; subst. cbn [fold_left]. rewrite !partial_step by ft. rewrite finish. repeat (rewrite tr_tr || rewrite <- Z.add_assoc). rewrite tr32_64. cbn [length app murmur_body]. do 3 f_equal; try lia.
    + inversion Hl as [|? ? A1 L1]; subst. inversion L1 as [|? ? A2 L2]; subst. inversion L2 as [|? ? A3 L3]; subst. inversion L3 as [|? ? A4 L4]; subst. cbn [fold_left].
      rewrite !(partial_step h) by ft. rewrite full_step by ft. cbn [app]. repeat (rewrite tr_tr || rewrite <- Z.add_assoc).
      change (at_block (add_block 32 h (little_endian [a; b; c; d])) (tr 64 (n + (1 + (1 + (1 + 1)))))) with (partial (add_block 32 h (little_endian [a; b; c; d])) (tr 64 (n + (1 + (1 + (1 + 1))))) []). rewrite IH; [|cbn in Hk; lia|exact L4|apply word_tr; lia].
      rewrite add32 by exact Hh. cbn [murmur_body length]. do 3 f_equal; try lia.
Qed.
Lemma murmur_reference l : Forall is_byte l -> murmur_value 32 seed l = murmur3_x86_32 seed l.
Proof using Hseed. intros Hl. unfold murmur_value, murmur3_x86_32. pose proof (body_ok (length l) l (le_n _) Hl seed 0 Hseed) as B. exact B. Qed.
End M32.
