(** * binary.h: counting leading / trailing bits *)
From Coq Require Import List Arith Lia ZifyNat Bool ZArith.
From Verif Require Import Util BinaryModel BinarySpec BitLib BinaryProofs.
Import ListNotations.
Local Open Scope Z_scope.

(** [acc v i]: the i-th bit met, [sh k v]: skip k bits *)
Section Runs.
  Variables (w : Z) (acc : Z -> Z -> bool) (sh : Z -> Z -> Z).
  Hypothesis Hw : 0 < w.
  Hypothesis acc_ext : forall x y, word w x -> word w y -> (forall i, 0 <= i < w -> acc x i = acc y i) -> x = y.
  Hypothesis acc_land : forall x y i, acc (x &&& y) i = acc x i && acc y i.
  Hypothesis acc_0 : forall i, acc 0 i = false.
  Hypothesis acc_sh : forall v k i, word w v -> 0 <= k -> 0 <= i -> acc (sh k v) i = acc v (i + k).
  Hypothesis sh_word : forall v k, word w v -> 0 <= k -> word w (sh k v).

  Definition lead (b : bool) (v N : Z) : Prop := 0 <= N <= w /\ (forall i, 0 <= i < N -> acc v i = b) /\ acc v N = negb b.
  Definition gstep (zeros : bool) (st vc : Z * Z) : Z * Z :=
    let (mask, k) := st in let (v, c) := vc in if (v &&& mask) =? (if zeros then 0 else mask) then (sh k v, c + k) else (v, c).
  Definition nstep (st vc : Z * Z) : Z * Z := let (m, k) := st in let (N, c) := vc in if m <=? N then (N - k, c + k) else (N, c).
  (** mask selects the first m bits *)
  Definition mask_ok (mask m : Z) : Prop := word w mask /\ 0 <= m <= w /\ forall i, 0 <= i < w -> acc mask i = (i <? m).
  Lemma word_land v m : word w v -> word w m -> word w (v &&& m).
  Proof.
    intros Hv Hm. apply word_bits; [lia|apply Z.land_nonneg; destruct Hv; lia|]. intros i Hi. rewrite Z.land_spec, (word_high w v) by assumption. reflexivity.
  Qed.
  Lemma test_num zeros v N mask m : word w v -> mask_ok mask m -> lead (negb zeros) v N ->
    ((v &&& mask) =? (if zeros then 0 else mask)) = (m <=? N).
  Proof.
    intros Hv (Wm & Bm & Hm) ((N1 & N2) & L & E). apply eq_iff_eq_true. rewrite Z.eqb_eq, Z.leb_le. split.
    - intros H. destruct (Z.le_gt_cases m N) as [|G]; [assumption|exfalso].
      assert (Q : acc (v &&& mask) N = acc (if zeros then 0 else mask) N) by (rewrite H; reflexivity).
      rewrite acc_land, E, (Hm N) in Q by lia. destruct (Z.ltb_spec N m); [|lia]. destruct zeros; cbn in Q; [rewrite acc_0 in Q; discriminate|].
      rewrite (Hm N) in Q by lia. destruct (Z.ltb_spec N m); [discriminate|lia].
    - intros H. apply acc_ext; [apply word_land; assumption|destruct zeros; [split; [lia|apply Z.pow_pos_nonneg; lia]|assumption]|].
      intros i Hi. rewrite acc_land, (Hm i Hi). destruct (Z.ltb_spec i m).
      + rewrite L by lia. destruct zeros; cbn; [rewrite acc_0; reflexivity|]. rewrite (Hm i Hi). symmetry. apply Z.ltb_lt. assumption.
      + rewrite andb_false_r. destruct zeros; [rewrite acc_0; reflexivity|]. rewrite (Hm i Hi). symmetry. apply Z.ltb_ge. lia.
  Qed.
  Lemma lead_sh b v N k : word w v -> 0 <= k <= N -> lead b v N -> lead b (sh k v) (N - k).
  Proof.
    intros Hv Hk ((N1 & N2) & L & E). split; [lia|]. split.
    - intros i Hi. rewrite acc_sh by (assumption || lia). apply L. lia.
    - rewrite acc_sh by (assumption || lia). rewrite Z.sub_add. exact E.
  Qed.
  Lemma steps_num zeros l nl : Forall2 (fun s n => mask_ok (fst s) (fst n) /\ snd s = snd n /\ 0 <= snd n <= fst n) l nl ->
    forall v N c, word w v -> lead (negb zeros) v N ->
    exists v' N', steps (gstep zeros) l (v, c) = (v', snd (steps nstep nl (N, c))) /\ N' = fst (steps nstep nl (N, c)) /\ word w v' /\ lead (negb zeros) v' N'.
  Proof.
    induction 1 as [|[mask k] [m k'] l nl (Mo & Ek & Bk) _ IH]; intros v N c Hv HN.
    - exists v, N. cbn. auto.
    - cbn [fst snd] in *. subst k'. cbn [steps fold_left]. unfold steps in IH. cbn [gstep nstep]. rewrite (test_num zeros v N mask m Hv Mo HN).
      destruct (Z.leb_spec m N).
      + apply IH; [apply sh_word; [assumption|lia]|apply lead_sh; [assumption|lia|assumption]].
      + apply IH; assumption.
  Qed.
  (** the computed masks *)
  Definition mask_ck (s n : Z * Z) : bool :=
    (0 <=? fst s) && (fst s <? 2 ^ w) && (0 <=? fst n) && (fst n <=? w) && (snd s =? snd n) && (0 <=? snd n) && (snd n <=? fst n) &&
    forallb (fun i => Bool.eqb (acc (fst s) (Z.of_nat i)) (Z.of_nat i <? fst n)) (seq 0 (Z.to_nat w)).
  Lemma mask_ck_ok s n : mask_ck s n = true -> mask_ok (fst s) (fst n) /\ snd s = snd n /\ 0 <= snd n <= fst n.
  Proof.
    unfold mask_ck. rewrite !andb_true_iff, !Z.leb_le, Z.ltb_lt, Z.eqb_eq, forallb_forall. intros (((((((A & B) & C) & D) & E) & F) & G) & H). clear - A B C D E F G H.
    conj; auto; try lia. split; [split; lia|]. split; [lia|]. intros i Hi. assert (Hin : In (Z.to_nat i) (seq 0 (Z.to_nat w))) by (apply in_seq; lia).
    specialize (H _ Hin). apply eqb_prop in H. rewrite Z2Nat.id in H by lia. exact H.
  Qed.
  Fixpoint all2 (l nl : list (Z * Z)) : bool := match l, nl with [], [] => true | s :: l, n :: nl => mask_ck s n && all2 l nl | _, _ => false end.
  Lemma all2_ok l : forall nl, all2 l nl = true -> Forall2 (fun s n => mask_ok (fst s) (fst n) /\ snd s = snd n /\ 0 <= snd n <= fst n) l nl.
  Proof.
    induction l as [|s l IH]; intros [|n nl] H; cbn in H; try discriminate; constructor.
    - apply mask_ck_ok. apply andb_true_iff in H. tauto.
    - apply IH. apply andb_true_iff in H. tauto.
  Qed.
  Lemma lead_first b v N : lead b v N -> acc v 0 = (if 0 <? N then b else negb b).
  Proof. intros HL. clear - HL. destruct HL as ((A & B) & C & D). destruct (Z.ltb_spec 0 N); [apply C; lia|]. replace N with 0 in D by lia. exact D. Qed.

End Runs.

  (** every word has such a run, unless it is all zeros *)
  Lemma run_lead b (n : nat) : forall (g : nat -> bool), let N := run b (map g (seq 0 n)) in
    0 <= N <= Z.of_nat n /\ (forall i, (Z.of_nat i < N) -> g i = b) /\ (N < Z.of_nat n -> g (Z.to_nat N) = negb b).
  Proof.
    induction n as [|n IH]; intros g; cbn [seq map run]; cbv zeta.
    - split; [lia|]. split; [intros; lia|lia].
    - rewrite <- seq_shift, map_map. destruct (IH (fun i => g (S i))) as (A & B & C). cbv beta zeta in *. set (N := run b (map (fun x => g (S x)) (seq 0 n))) in *.
      destruct (Bool.eqb b (g 0%nat)) eqn:E.
      + apply eqb_prop in E. split; [lia|]. split.
        * intros [|i] Hi; [auto|]. apply B. lia.
        * intros H. replace (Z.to_nat (1 + N)) with (S (Z.to_nat N)) by lia. apply C. lia.
      + split; [lia|]. split; [intros; lia|]. intros _. change (Z.to_nat 0) with 0%nat. destruct b, (g 0%nat); cbn in *; congruence.
  Qed.

Definition accr (v i : Z) : bool := Z.testbit v i.
Definition accl (w v i : Z) : bool := Z.testbit v (w - 1 - i).
Lemma accr_ext w x y : word w x -> word w y -> (forall i, 0 <= i < w -> accr x i = accr y i) -> x = y.
Proof. apply word_ext. Qed.
Lemma accl_ext w x y : word w x -> word w y -> (forall i, 0 <= i < w -> accl w x i = accl w y i) -> x = y.
Proof.
  intros Hx Hy H. apply (word_ext w); auto. intros i Hi. specialize (H (w - 1 - i) ltac:(lia)). unfold accl in H. replace (w - 1 - (w - 1 - i)) with i in H by lia. exact H.
Qed.
Lemma accr_sh w v k i : word w v -> 0 <= k -> 0 <= i -> accr (v >> k) i = accr v (i + k).
Proof. intros _ _ Hi. unfold accr. apply Z.shiftr_spec. exact Hi. Qed.
Lemma accl_sh w v k i : 0 < w -> word w v -> 0 <= k -> 0 <= i -> accl w (tr w (v << k)) i = accl w v (i + k).
Proof.
  intros Hw Hv Hk Hi. unfold accl. rewrite testbit_tr by lia. destruct (Z.ltb_spec (w - 1 - i) w); [|lia].
  destruct (Z.lt_ge_cases (w - 1 - i) 0); [rewrite !Z.testbit_neg_r by lia; reflexivity|]. rewrite Z.shiftl_spec by lia. f_equal. lia.
Qed.

Lemma map_bits w v : 0 <= w -> lsb_first w v = map (fun i => accr v (Z.of_nat i)) (seq 0 (Z.to_nat w)).
Proof. reflexivity. Qed.
Lemma rev_seq_map {A} (g : nat -> A) n : rev (map g (seq 0 n)) = map (fun i => g (n - 1 - i)%nat) (seq 0 n).
Proof.
  induction n as [|n IH]; [reflexivity|]. rewrite seq_S at 1. rewrite map_app, rev_app_distr. cbn [plus map rev app]. rewrite IH.
  cbn [seq map]. rewrite <- seq_shift, map_map. f_equal; [f_equal; lia|]. apply map_ext_in. intros i Hi. apply in_seq in Hi. f_equal. lia.
Qed.
Lemma map_bits_l w v : 0 <= w -> msb_first w v = map (fun i => accl w v (Z.of_nat i)) (seq 0 (Z.to_nat w)).
Proof.
  intros Hw. unfold msb_first, lsb_first. rewrite rev_seq_map. apply map_ext_in. intros i Hi. apply in_seq in Hi. unfold bit, accl. f_equal. lia.
Qed.
Lemma lead_r b w v : 0 < w -> word w v -> let N := run b (lsb_first w v) in (b = false -> N < w) -> lead w accr b v N.
Proof.
  intros Hw Hv N HN. unfold N in *. rewrite map_bits in * by lia. destruct (run_lead b (Z.to_nat w) (fun i => accr v (Z.of_nat i))) as (A & B & C).
  rewrite Z2Nat.id in * by lia. split; [exact A|]. split.
  - intros i Hi. specialize (B (Z.to_nat i)). cbv beta in B. rewrite Z2Nat.id in B by lia. apply B. lia.
  - destruct (Z.lt_ge_cases (run b (map (fun i => accr v (Z.of_nat i)) (seq 0 (Z.to_nat w)))) w) as [H|H].
    + specialize (C H). cbv beta in C. rewrite Z2Nat.id in C by lia. exact C.
    + destruct b; [|specialize (HN eq_refl); lia]. apply (word_high w); assumption.
Qed.
Lemma lead_l b w v : 0 < w -> word w v -> let N := run b (msb_first w v) in (b = false -> N < w) -> lead w (accl w) b v N.
Proof.
  intros Hw Hv N HN. unfold N in *. rewrite map_bits_l in * by lia. destruct (run_lead b (Z.to_nat w) (fun i => accl w v (Z.of_nat i))) as (A & B & C).
  rewrite Z2Nat.id in * by lia. split; [exact A|]. split.
  - intros i Hi. specialize (B (Z.to_nat i)). cbv beta in B. rewrite Z2Nat.id in B by lia. apply B. lia.
  - destruct (Z.lt_ge_cases (run b (map (fun i => accl w v (Z.of_nat i)) (seq 0 (Z.to_nat w)))) w) as [H|H].
    + specialize (C H). cbv beta in C. rewrite Z2Nat.id in C by lia. exact C.
    + destruct b; [|specialize (HN eq_refl); lia]. unfold accl at 1. rewrite Z.testbit_neg_r by lia. reflexivity.
Qed.
Lemma run_all b n : forall (g : nat -> bool), run b (map g (seq 0 n)) = Z.of_nat n -> forall i, (i < n)%nat -> g i = b.
Proof. intros g H i Hi. destruct (run_lead b n g) as (A & B & C). rewrite H in B. apply B. lia. Qed.
Lemma run_zero_r w v : 0 < w -> word w v -> run false (lsb_first w v) = w -> v = 0.
Proof.
  intros Hw Hv H. rewrite map_bits in H by lia. apply (word_ext w); [assumption|split; [lia|apply Z.pow_pos_nonneg; lia]|]. intros i Hi. rewrite Z.bits_0.
  pose proof (run_all false (Z.to_nat w) _ ltac:(rewrite Z2Nat.id by lia; exact H) (Z.to_nat i) ltac:(lia)) as E. cbv beta in E. rewrite Z2Nat.id in E by lia. exact E.
Qed.
Lemma run_zero_l w v : 0 < w -> word w v -> run false (msb_first w v) = w -> v = 0.
Proof.
  intros Hw Hv H. rewrite map_bits_l in H by lia. apply (accl_ext w); [assumption|split; [lia|apply Z.pow_pos_nonneg; lia]|]. intros i Hi. unfold accl at 2. rewrite Z.bits_0.
  pose proof (run_all false (Z.to_nat w) _ ltac:(rewrite Z2Nat.id by lia; exact H) (Z.to_nat i) ltac:(lia)) as E. cbv beta in E. rewrite Z2Nat.id in E by lia. exact E.
Qed.
Lemma run_range b l : 0 <= run b l <= Z.of_nat (List.length l).
Proof. induction l as [|c l IH]; cbn [run List.length]; [lia|]. destruct (Bool.eqb b c); lia. Qed.
Lemma lsb_length w v : List.length (lsb_first w v) = Z.to_nat w.
Proof. unfold lsb_first. rewrite map_length, seq_length. reflexivity. Qed.
Lemma msb_length w v : List.length (msb_first w v) = Z.to_nat w.
Proof. unfold msb_first. rewrite rev_length. apply lsb_length. Qed.

(** ** the numeric form of the four functions *)
Definition num (nl : list (Z * Z)) (N : Z) : Z := if 0 <? N then let (N', c) := steps nstep nl (N, 1) in c - (if 0 <? N' then 0 else 1) else 0.

Lemma land1 v : (v &&& 1) =? 0 = negb (accr v 0).
Proof. unfold accr. rewrite Z.bit0_odd. change 1 with (Z.ones 1). rewrite Z.land_ones by lia. change (2 ^ 1) with 2. rewrite Zmod_odd. destruct (Z.odd v); reflexivity. Qed.
Lemma land1v v : v &&& 1 = if accr v 0 then 1 else 0.
Proof. unfold accr. rewrite Z.bit0_odd. change 1 with (Z.ones 1). rewrite Z.land_ones by lia. change (2 ^ 1) with 2. rewrite Zmod_odd. destruct (Z.odd v); reflexivity. Qed.
Lemma landtop w v : width w -> v &&& top w = if accl w v 0 then top w else 0.
Proof.
  intros Hw. unfold accl. assert (T : top w = 2 ^ (w - 1)) by (widths Hw; reflexivity). rewrite T. apply Z.bits_inj'. intros i Hi.
  pose proof (width_pos w Hw). rewrite Z.land_spec, Z.pow2_bits_eqb by lia. rewrite Z.sub_0_r. destruct (Z.eqb_spec (w - 1) i) as [<-|N].
  - rewrite andb_true_r. destruct (Z.testbit v (w - 1)); [rewrite Z.pow2_bits_true by lia|rewrite Z.bits_0]; reflexivity.
  - rewrite andb_false_r. destruct (Z.testbit v (w - 1)); [rewrite Z.pow2_bits_false by lia|rewrite Z.bits_0]; reflexivity.
Qed.
Lemma top_nz w : width w -> (top w =? 0) = false. Proof. intros Hw. widths Hw; reflexivity. Qed.

Lemma ctz_num w v nl : width w -> word w v -> run false (lsb_first w v) < w -> all2 w accr (ctz_steps w) nl = true ->
  count_trailing_zeros w v = num nl (run false (lsb_first w v)).
Proof.
  intros Hw Hv HN Hl. pose proof (width_pos w Hw) as Wp. pose proof (lead_r false w v Wp Hv (fun _ => HN)) as L. set (N := run false (lsb_first w v)) in *.
  unfold count_trailing_zeros, num. rewrite land1, (lead_first w accr false v N L). destruct (Z.ltb_spec 0 N) as [Hn|Hn]; cbn [negb]; [|reflexivity].
  destruct (steps_num w accr (fun k v => v >> k) Wp (accr_ext w) Z.land_spec Z.bits_0 (accr_sh w) (fun v k H1 H2 => word_shr w v k H2 H1) true (ctz_steps w) nl
    (all2_ok w accr _ _ Hl) v N 1 Hv L) as (v' & N' & E & EN & Wv & Lv).
  change (gstep (fun k v => v >> k) true) with (step_r true) in E. rewrite E. destruct (steps nstep nl (N, 1)) as [N2 c]. cbn [fst snd] in *. subst N'.
  rewrite land1v, (lead_first w accr false v' N2 Lv). destruct (Z.ltb_spec 0 N2); reflexivity.
Qed.
Lemma cto_num w v nl : width w -> word w v -> all2 w accr (cto_steps w) nl = true -> count_trailing_ones w v = num nl (run true (lsb_first w v)).
Proof.
  intros Hw Hv Hl. pose proof (width_pos w Hw) as Wp. pose proof (lead_r true w v Wp Hv ltac:(discriminate)) as L. set (N := run true (lsb_first w v)) in *.
  unfold count_trailing_ones, num. rewrite land1, (lead_first w accr true v N L). destruct (Z.ltb_spec 0 N) as [Hn|Hn]; cbn [negb]; [|reflexivity].
  destruct (steps_num w accr (fun k v => v >> k) Wp (accr_ext w) Z.land_spec Z.bits_0 (accr_sh w) (fun v k H1 H2 => word_shr w v k H2 H1) false (cto_steps w) nl
    (all2_ok w accr _ _ Hl) v N 1 Hv L) as (v' & N' & E & EN & Wv & Lv).
  change (gstep (fun k v => v >> k) false) with (step_r false) in E. rewrite E. destruct (steps nstep nl (N, 1)) as [N2 c]. cbn [fst snd] in *. subst N'.
  rewrite land1, (lead_first w accr true v' N2 Lv). destruct (Z.ltb_spec 0 N2); reflexivity.
Qed.
Lemma accl_land w x y i : accl w (x &&& y) i = accl w x i && accl w y i. Proof. apply Z.land_spec. Qed.
Lemma accl_0 w i : accl w 0 i = false. Proof. apply Z.bits_0. Qed.
Lemma clz_num w v nl : width w -> word w v -> run false (msb_first w v) < w -> all2 w (accl w) (clz_steps w) nl = true ->
  count_leading_zeros w v = num nl (run false (msb_first w v)).
Proof.
  intros Hw Hv HN Hl. pose proof (width_pos w Hw) as Wp. pose proof (lead_l false w v Wp Hv (fun _ => HN)) as L. set (N := run false (msb_first w v)) in *.
  unfold count_leading_zeros, num. rewrite (landtop w v Hw), (lead_first w (accl w) false v N L). destruct (Z.ltb_spec 0 N) as [Hn|Hn]; cbn [negb]; [|rewrite top_nz by exact Hw; reflexivity].
  destruct (steps_num w (accl w) (fun k v => tr w (v << k)) Wp (accl_ext w) (accl_land w) (accl_0 w) (fun v k i => accl_sh w v k i Wp) (fun v k _ _ => word_tr w _ (Z.lt_le_incl _ _ Wp)) true (clz_steps w) nl
    (all2_ok w (accl w) _ _ Hl) v N 1 Hv L) as (v' & N' & E & EN & Wv & Lv).
  change (gstep (fun k v => tr w (v << k)) true) with (step_l w true) in E. rewrite Z.eqb_refl, E. destruct (steps nstep nl (N, 1)) as [N2 c]. cbn [fst snd] in *. subst N'.
  rewrite (landtop w v' Hw), (lead_first w (accl w) false v' N2 Lv). destruct (Z.ltb_spec 0 N2); cbn [negb]; [rewrite Z.eqb_sym, top_nz by exact Hw|rewrite Z.eqb_refl]; reflexivity.
Qed.
Lemma clo_num w v nl : width w -> word w v -> all2 w (accl w) (clo_steps w) nl = true -> count_leading_ones w v = num nl (run true (msb_first w v)).
Proof.
  intros Hw Hv Hl. pose proof (width_pos w Hw) as Wp. pose proof (lead_l true w v Wp Hv ltac:(discriminate)) as L. set (N := run true (msb_first w v)) in *.
  unfold count_leading_ones, num. rewrite (landtop w v Hw), (lead_first w (accl w) true v N L). destruct (Z.ltb_spec 0 N) as [Hn|Hn]; cbn [negb]; [|reflexivity].
  destruct (steps_num w (accl w) (fun k v => tr w (v << k)) Wp (accl_ext w) (accl_land w) (accl_0 w) (fun v k i => accl_sh w v k i Wp) (fun v k _ _ => word_tr w _ (Z.lt_le_incl _ _ Wp)) false (clo_steps w) nl
    (all2_ok w (accl w) _ _ Hl) v N 1 Hv L) as (v' & N' & E & EN & Wv & Lv).
  change (gstep (fun k v => tr w (v << k)) false) with (step_l w false) in E. rewrite top_nz, E by exact Hw. destruct (steps nstep nl (N, 1)) as [N2 c]. cbn [fst snd] in *. subst N'.
  rewrite (landtop w v' Hw), (lead_first w (accl w) true v' N2 Lv). destruct (Z.ltb_spec 0 N2); cbn [negb]; [rewrite top_nz by exact Hw|]; reflexivity.
Qed.

(** tables of the numeric form *)
Definition nsteps (w : Z) : list (Z * Z) :=
  if w =? 8 then [(4, 4); (2, 2); (1, 1)]
  else if w =? 16 then [(8, 8); (4, 4); (2, 2); (1, 1)]
  else if w =? 32 then [(16, 16); (8, 8); (4, 4); (2, 2); (1, 1)]
  else [(32, 32); (16, 16); (8, 8); (4, 4); (2, 2); (1, 1)].
Lemma num_table nl (F : Z -> Z) (n : nat) : forallb (fun i => num nl (Z.of_nat i) =? F (Z.of_nat i)) (seq 0 n) = true ->
  forall N, 0 <= N < Z.of_nat n -> num nl N = F N.
Proof.
  intros H N HN. rewrite forallb_forall in H. specialize (H (Z.to_nat N) ltac:(apply in_seq; lia)). rewrite Z2Nat.id in H by lia. apply Z.eqb_eq, H.
Qed.
Lemma ctz_ok w v : width w -> unsigned w v -> count_trailing_zeros w v = run false (lsb_first w v).
Proof.
  intros Hw Hv. pose proof (run_range false (lsb_first w v)) as R. rewrite lsb_length in R. pose proof (width_pos w Hw). rewrite Z2Nat.id in R by lia.
  destruct (Z.eq_dec (run false (lsb_first w v)) w) as [E|N].
  - rewrite E. rewrite (run_zero_r w v) by assumption. widths Hw; reflexivity.
  - rewrite (ctz_num w v (nsteps w)); [|exact Hw|exact Hv|lia|widths Hw; vm_compute; reflexivity].
    apply (num_table _ (fun n => n) (Z.to_nat w)); [widths Hw; vm_compute; reflexivity|lia].
Qed.
Definition cto_nsteps (w : Z) : list (Z * Z) := if w =? 64 then nsteps 32 else nsteps w.
Lemma cto_exact w v : width w -> unsigned w v -> count_trailing_ones w v = Z.min (if w =? 64 then 32 else w) (run true (lsb_first w v)).
Proof.
  intros Hw Hv. pose proof (run_range true (lsb_first w v)) as R. rewrite lsb_length in R. pose proof (width_pos w Hw). rewrite Z2Nat.id in R by lia.
  rewrite (cto_num w v (cto_nsteps w)); [|exact Hw|exact Hv|widths Hw; vm_compute; reflexivity].
  apply (num_table _ (fun n => Z.min (if w =? 64 then 32 else w) n) (S (Z.to_nat w))); [widths Hw; vm_compute; reflexivity|lia].
Qed.
Lemma cto_ok w v : width w -> w <> 64 -> unsigned w v -> count_trailing_ones w v = run true (lsb_first w v).
Proof.
  intros Hw N Hv. rewrite cto_exact by assumption. pose proof (run_range true (lsb_first w v)) as R. rewrite lsb_length in R. pose proof (width_pos w Hw).
  destruct (Z.eqb_spec w 64); [contradiction|]. apply Z.min_r. lia.
Qed.
Definition clz_nsteps (w : Z) : list (Z * Z) := if w =? 64 then (36, 32) :: nsteps 32 else nsteps w.
Definition clz_result (w N : Z) : Z := if (w =? 64) && (33 <=? N) && (N <=? 35) then 32 else N.
Lemma clz_exact w v : width w -> unsigned w v -> count_leading_zeros w v = clz_result w (run false (msb_first w v)).
Proof.
  intros Hw Hv. pose proof (run_range false (msb_first w v)) as R. rewrite msb_length in R. pose proof (width_pos w Hw). rewrite Z2Nat.id in R by lia.
  destruct (Z.eq_dec (run false (msb_first w v)) w) as [E|N].
  - rewrite E. rewrite (run_zero_l w v) by assumption. widths Hw; reflexivity.
  - rewrite (clz_num w v (clz_nsteps w)); [|exact Hw|exact Hv|lia|widths Hw; vm_compute; reflexivity].
    apply (num_table _ (clz_result w) (Z.to_nat w)); [widths Hw; vm_compute; reflexivity|lia].
Qed.
Definition clo_nsteps (w : Z) : list (Z * Z) :=
  if w =? 32 then [(16, 8); (8, 8); (4, 4); (2, 2); (1, 1)] else if w =? 64 then [(32, 8); (16, 8); (8, 8); (4, 4); (2, 2); (1, 1)] else nsteps w.
Definition clo_result (w N : Z) : Z := if w =? 32 then Z.min N 24 else if w =? 64 then (if N <? 32 then Z.min N 24 else 32) else N.
Lemma clo_exact w v : width w -> unsigned w v -> count_leading_ones w v = clo_result w (run true (msb_first w v)).
Proof.
  intros Hw Hv. pose proof (run_range true (msb_first w v)) as R. rewrite msb_length in R. pose proof (width_pos w Hw). rewrite Z2Nat.id in R by lia.
  rewrite (clo_num w v (clo_nsteps w)); [|exact Hw|exact Hv|widths Hw; vm_compute; reflexivity].
  apply (num_table _ (clo_result w) (S (Z.to_nat w))); [widths Hw; vm_compute; reflexivity|lia].
Qed.
