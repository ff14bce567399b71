From Coq Require Import ZArith List Bool Lia Permutation.
From Verif Require Import Util HistModel HistSpec.
Import ListNotations.
Open Scope Z_scope.

Lemma occ_app k l m : occurrences k (l ++ m) = occurrences k l + occurrences k m.
Proof. unfold occurrences. rewrite count_occ_app. lia. Qed.
Lemma occ_cons k x l : occurrences k (x :: l) = (if Z.eq_dec x k then 1 else 0) + occurrences k l.
Proof. unfold occurrences. cbn [count_occ]. destruct (Z.eq_dec x k); lia. Qed.
Lemma occ_nonneg k l : 0 <= occurrences k l.
Proof. unfold occurrences. lia. Qed.

Section Dense.
Variables (n : nat) (w : Z) (fixed : option Z).
Hypothesis Hw : 1 <= w.
Notation pw := (2 ^ w).
Lemma pw_pos : 2 <= pw.
Proof using Hw. change 2 with (2 ^ 1) at 1. apply Z.pow_le_mono_r; lia. Qed.

Lemma bump_map f g : forall len a i, (i < len)%nat -> (forall j, (a <= j < a + len)%nat -> g j = if Nat.eqb j (a + i) then inc w (f j) else f j) ->
  bump w i (map f (seq a len)) = map g (seq a len).
Proof using.
  induction len; intros a i Hi Hg; [lia|]. cbn [seq map]. destruct i; cbn [bump].
  - rewrite (Hg a) by lia. rewrite Nat.add_0_r, Nat.eqb_refl. f_equal. apply map_ext_in. intros j Hj. apply in_seq in Hj. rewrite Hg by lia. rewrite Nat.add_0_r.
    destruct (Nat.eqb_spec j a); [lia|reflexivity].
  - rewrite (Hg a) by lia. destruct (Nat.eqb_spec a (a + S i)); [lia|]. f_equal. apply IHlen; [lia|]. intros j Hj. rewrite Hg by lia. now replace (S a + i)%nat with (a + S i)%nat by lia.
Qed.

Definition rel (h : hist) (b : bag) : Prop := start h = from b /\ acc h = cells n w b /\ Forall (fun o => 0 <= o < Z.of_nat n) (items b).

Lemma cells_len b : List.length (cells n w b) = n.
Proof using. unfold cells. now rewrite map_length, seq_length. Qed.

Lemma index_offset h b k : rel h b -> index n h k = option_map Z.to_nat (offset n b k).
Proof using. intros (E & _). unfold index, offset. rewrite E. destruct (from b); [|reflexivity]. now destruct (_ && _). Qed.
Lemma offset_range b k o : offset n b k = Some o -> 0 <= o < Z.of_nat n.
Proof using. unfold offset. destruct (from b) as [s|]; [|discriminate]. destruct (_ && _) eqn:E; [|discriminate]. intros [= <-]. apply andb_prop in E as (E1 & E2). apply Z.leb_le in E1. apply Z.ltb_lt in E2. lia. Qed.

Lemma add_ok h b k : rel h b -> match put n b [k] with Some b' => exists h', add n w k h = Some h' /\ rel h' b' | None => add n w k h = None end.
Proof using Hw.
  intros R. unfold put. cbn [offsets]. unfold add. rewrite (index_offset _ _ _ R). destruct (offset n b k) as [o|] eqn:E; [|reflexivity].
  cbn [option_map]. eexists. split; [reflexivity|]. pose proof (offset_range _ _ _ E) as Ho. destruct R as (R1 & R2 & R3). unfold rel; conj; cbn [start acc from items]; auto.
  - rewrite R2. apply bump_map; [lia|]. intros j Hj. unfold cell. cbn [items]. rewrite occ_app, occ_cons. change (occurrences (Z.of_nat j) []) with 0. rewrite Z.add_0_r.
    destruct (Nat.eqb_spec j (0 + Z.to_nat o)).
    + subst j. destruct (Z.eq_dec o (Z.of_nat (0 + Z.to_nat o))); [|lia]. unfold inc. now rewrite Zplus_mod_idemp_l.
    + destruct (Z.eq_dec o (Z.of_nat j)); [lia|]. f_equal. lia.
  - apply Forall_app. split; [exact R3|]. constructor; [lia|constructor].
Qed.

Lemma offset_from b c k : from b = from c -> offset n b k = offset n c k.
Proof using. intros E. unfold offset. now rewrite E. Qed.
Lemma offsets_from b c ks : from b = from c -> offsets n b ks = offsets n c ks.
Proof using. intros E. induction ks; cbn [offsets]; [reflexivity|]. now rewrite (offset_from b c) , IHks. Qed.

Lemma put_cons b k ks : put n b (k :: ks) = match put n b [k] with Some b' => put n b' ks | None => None end.
Proof using.
  unfold put. cbn [offsets]. destruct (offset n b k) as [o|]; [|reflexivity]. cbn [from items].
  rewrite (offsets_from {| from := from b; items := items b ++ [o] |} b ks) by reflexivity.
  destruct (offsets n b ks); [|reflexivity]. now rewrite <- app_assoc.
Qed.

Lemma add_all_ok ks : forall h b, rel h b -> match put n b ks with Some b' => exists h', add_all n w ks h = Some h' /\ rel h' b' | None => add_all n w ks h = None end.
Proof using Hw.
  induction ks; intros h b R.
  - unfold put. cbn [offsets]. exists h. split; [reflexivity|]. destruct R as (R1 & R2 & R3). unfold rel; conj; cbn [from items]; rewrite ?app_nil_r; first [exact R1 | exact R2 | exact R3].
  - rewrite put_cons. cbn [add_all]. pose proof (add_ok h b a R) as Ha. destruct (put n b [a]) as [b'|].
    + destruct Ha as (h' & -> & R'). exact (IHks h' b' R').
    + now rewrite Ha.
Qed.

Lemma empty_rel s : rel {| start := s; acc := repeat 0 n |} {| from := s; items := [] |}.
Proof using Hw.
  unfold rel; conj; cbn; auto. unfold cells. pose proof pw_pos. clear Hw. generalize O. induction n; intros a; cbn [repeat seq map]; [reflexivity|]. rewrite <- IHn0. f_equal.
Qed.

Lemma F2_nth {A B} (R : A -> B -> Prop) l m i : Forall2 R l m -> match nth_error m i with Some y => exists x, nth_error l i = Some x /\ R x y | None => nth_error l i = None end.
Proof using. intros F. revert i. induction F; intros [|i]; cbn; eauto. apply IHF. Qed.
Lemma F2_set {A B} (R : A -> B -> Prop) l m i x y : Forall2 R l m -> R x y -> Forall2 R (set i x l) (set i y m).
Proof using. intros F Hr. revert i. induction F; intros [|i]; cbn; constructor; auto. Qed.

Lemma accumulate_ok l : forall s, 0 <= s < 2 ^ 64 -> Forall (fun x => 0 <= x) l -> accumulate l s = (s + fold_right Z.add 0 l) mod 2 ^ 64.
Proof using.
  induction l; intros s Hs F; cbn [accumulate fold_right].
  - rewrite Z.add_0_r. now rewrite Z.mod_small.
  - inversion F; subst. rewrite IHl; auto; [|apply Z.mod_pos_bound; lia]. rewrite Zplus_mod_idemp_l. f_equal. lia.
Qed.

Lemma step_ok o st bs : Forall2 rel st bs ->
  match s_step n w fixed o bs with Some (r, bs') => exists st', step n w fixed o st = Some (r, st') /\ Forall2 rel st' bs' | None => step n w fixed o st = None end.
Proof using Hw.
  intros F. destruct o; cbn [s_step step].
  - pose proof (add_all_ok ks _ _ (empty_rel (match fixed with Some f => Some f | None => Some s end))) as Ha. unfold make. destruct (put n _ ks) as [b|].
    + destruct Ha as (h & -> & R). eexists. split; [reflexivity|]. apply Forall2_app; auto.
    + now rewrite Ha.
  - pose proof (F2_nth _ _ _ i F) as Hn. destruct (nth_error bs i) as [b|]; [|now rewrite Hn]. destruct Hn as (h & -> & R). eexists. split; [reflexivity|].
    apply Forall2_app; auto. constructor; [|constructor]. destruct R as (R1 & R2 & R3). unfold rel; conj; cbn; auto.
  - pose proof (F2_nth _ _ _ i F) as Hn. pose proof (F2_nth _ _ _ j F) as Hm. destruct (nth_error bs i) as [b|]; [|now rewrite Hn]. destruct Hn as (h & -> & R).
    destruct (nth_error bs j) as [c|]; [|now rewrite Hm]. destruct Hm as (g & -> & Q). eexists. split; [reflexivity|]. apply F2_set; auto.
    destruct R as (R1 & R2 & R3), Q as (Q1 & Q2 & Q3). unfold rel; conj; cbn; auto.
  - pose proof (F2_nth _ _ _ i F) as Hn. destruct (nth_error bs i) as [b|]; [|now rewrite Hn]. destruct Hn as (h & -> & R). pose proof (add_ok h b k R) as Ha.
    destruct (put n b [k]); [|now rewrite Ha]. destruct Ha as (h' & -> & R'). eexists. split; [reflexivity|]. apply F2_set; auto.
  - pose proof (F2_nth _ _ _ i F) as Hn. destruct (nth_error bs i) as [b|]; [|now rewrite Hn]. destruct Hn as (h & -> & R). pose proof (add_all_ok ks h b R) as Ha.
    destruct (put n b ks); [|now rewrite Ha]. destruct Ha as (h' & -> & R'). eexists. split; [reflexivity|]. apply F2_set; auto.
  - pose proof (F2_nth _ _ _ i F) as Hn. destruct (nth_error bs i) as [b|]; [|now rewrite Hn]. destruct Hn as (h & -> & R). eexists. split; [reflexivity|]. apply F2_set; auto.
    destruct R as (R1 & R2 & R3). unfold clear. rewrite R2, cells_len, R1. apply empty_rel.
  - pose proof (F2_nth _ _ _ i F) as Hn. destruct (nth_error bs i) as [b|]; [|now rewrite Hn]. destruct Hn as (h & -> & R). unfold read. rewrite (index_offset _ _ _ R).
    destruct (offset n b k) as [o|] eqn:E; [|reflexivity]. cbn [option_map]. pose proof (offset_range _ _ _ E). destruct R as (R1 & R2 & R3). rewrite R2. unfold cells.
    rewrite nth_error_map. rewrite (nth_error_nth' _ O) by (rewrite seq_length; lia). rewrite seq_nth by lia. cbn [option_map]. eexists. split; [|exact F]. unfold cell. do 3 f_equal. now rewrite Nat.add_0_l, Z2Nat.id by lia.
  - pose proof (F2_nth _ _ _ i F) as Hn. destruct (nth_error bs i) as [b|]; [|now rewrite Hn]. destruct Hn as (h & -> & R). destruct R as (R1 & R2 & R3). unfold count. rewrite R2. rewrite accumulate_ok; [|lia|].
    + rewrite Z.add_0_l. eexists. split; [reflexivity|exact F].
    + unfold cells. apply Forall_map. apply Forall_forall. intros j _. unfold cell. pose proof pw_pos. apply Z.mod_pos_bound. lia.
  - pose proof (F2_nth _ _ _ i F) as Hn. destruct (nth_error bs i) as [b|]; [|now rewrite Hn]. destruct Hn as (h & -> & R). destruct R as (R1 & R2 & R3). unfold contents. rewrite R2. eexists. split; [reflexivity|exact F].
Qed.

Lemma run_ok os : forall st bs, Forall2 rel st bs ->
  match s_run n w fixed os bs with Some (rs, bs') => exists st', run n w fixed os st = Some (rs, st') /\ Forall2 rel st' bs' | None => run n w fixed os st = None end.
Proof using Hw.
  induction os; intros st bs F; cbn [s_run run]; [eauto|].
  pose proof (step_ok a st bs F) as Hs. destruct (s_step n w fixed a bs) as [(r & bs')|]; [|now rewrite Hs]. destruct Hs as (st' & -> & F').
  specialize (IHos st' bs' F'). destruct (s_run n w fixed os bs') as [(rs & bs2)|]; [|now rewrite IHos]. destruct IHos as (st2 & -> & F2). eauto.
Qed.

Lemma sum_map_add f g (l : list nat) : fold_right Z.add 0 (map (fun i => f i + g i) l) = fold_right Z.add 0 (map f l) + fold_right Z.add 0 (map g l).
Proof using. induction l; cbn [map fold_right]; lia. Qed.
Lemma sum_one o : forall len a, Z.of_nat a <= o < Z.of_nat (a + len) -> fold_right Z.add 0 (map (fun i => if Z.eq_dec o (Z.of_nat i) then 1 else 0) (seq a len)) = 1.
Proof using.
  assert (Z0 : forall len a, o < Z.of_nat a -> fold_right Z.add 0 (map (fun i => if Z.eq_dec o (Z.of_nat i) then 1 else 0) (seq a len)) = 0).
  { induction len; intros a Ha; cbn [seq map fold_right]; [reflexivity|]. rewrite IHlen by lia. destruct (Z.eq_dec o (Z.of_nat a)); lia. }
  induction len; intros a Ha; [lia|]. cbn [seq map fold_right]. destruct (Z.eq_dec o (Z.of_nat a)).
  - rewrite Z0 by lia. reflexivity.
  - rewrite IHlen by lia. reflexivity.
Qed.
Lemma sum_zero (l : list nat) : fold_right Z.add 0 (map (fun _ => 0) l) = 0.
Proof using. induction l; cbn [map fold_right]; lia. Qed.

Lemma sum_cells b : Forall (fun o => 0 <= o < Z.of_nat n) (items b) -> Z.of_nat (List.length (items b)) < pw -> fold_right Z.add 0 (cells n w b) = Z.of_nat (List.length (items b)).
Proof using. clear Hw.
  intros F Hl. unfold cells.
  rewrite (map_ext (cell w b) (fun i => occurrences (Z.of_nat i) (items b))).
  2:{ intros i. unfold cell. apply Z.mod_small. split; [apply occ_nonneg|]. unfold occurrences. pose proof (count_occ_bound Z.eq_dec (Z.of_nat i) (items b)). lia. }
  clear Hl. induction F as [|o l Ho F IH].
  - unfold occurrences. cbn [count_occ]. change (Z.of_nat 0) with 0. apply sum_zero.
  - rewrite (map_ext _ (fun i => (if Z.eq_dec o (Z.of_nat i) then 1 else 0) + occurrences (Z.of_nat i) l)) by (intros; apply occ_cons).
    rewrite sum_map_add, IH, sum_one by lia. cbn [List.length]. lia.
Qed.
End Dense.

Section Sparse.
Variables (N : nat) (w : Z).
Hypothesis Hw : 1 <= w.
Notation pw := (2 ^ w).
Fixpoint total (l : sparse) : Z := match l with [] => 0 | (_, c) :: l => c + total l end.
Definition srel (l : sparse) (ks : list Z) : Prop :=
  NoDup (map fst l) /\ (forall k, look k l = if in_dec Z.eq_dec k ks then Some (k, occurrences k ks mod pw) else None) /\ total l mod pw = Z.of_nat (List.length ks) mod pw.

Lemma look_in k l : look k l <> None <-> In k (map fst l).
Proof using. induction l as [|(x & c) l IH]; cbn [look map fst In]; [tauto|]. destruct (Z.eqb_spec x k); [split; [auto|discriminate]|]. rewrite IH. split; [auto|]. intros [?|?]; [congruence|assumption]. Qed.

Lemma srel_len l ks : srel l ks -> List.length l = distinct ks.
Proof using.
  intros (D & L & _). unfold distinct. rewrite <- (map_length fst l). apply Permutation_length. apply NoDup_Permutation; [exact D|apply NoDup_nodup|].
  intros k. rewrite nodup_In, <- look_in, L. destruct (in_dec Z.eq_dec k ks); split; try tauto; discriminate.
Qed.

Lemma hit_fst k l : map fst (hit w k l) = map fst l.
Proof using. induction l as [|(x & c) l IH]; cbn [hit map fst]; [reflexivity|]. destruct (x =? k); cbn [map fst]; [reflexivity|]. now rewrite IH. Qed.
Lemma hit_look k j l : look j (hit w k l) = if Z.eq_dec j k then option_map (fun e => (fst e, inc w (snd e))) (look k l) else look j l.
Proof using.
  induction l as [|(x & c) l IH]; cbn [hit look].
  - now destruct (Z.eq_dec j k).
  - destruct (Z.eqb_spec x k); cbn [look].
    + destruct (Z.eq_dec j k), (Z.eqb_spec x j); subst; try congruence; cbn; reflexivity.
    + rewrite IH. destruct (Z.eq_dec j k); [|reflexivity]. subst. destruct (Z.eqb_spec x k); [congruence|reflexivity].
Qed.
Lemma hit_total k l : look k l <> None -> total (hit w k l) mod pw = (total l + 1) mod pw.
Proof using.
  induction l as [|(x & c) l IH]; cbn [hit look total]; [congruence|]. destruct (x =? k); cbn [total]; intros H.
  - unfold inc. rewrite Zplus_mod_idemp_l. f_equal. lia.
  - specialize (IH H). replace (c + total l + 1) with (c + (total l + 1)) by lia. rewrite <- Zplus_mod_idemp_r, IH, Zplus_mod_idemp_r. reflexivity.
Qed.
Lemma place_perm k l : Permutation (place w k l) ((k, inc w 0) :: l).
Proof using. induction l as [|(x & c) l IH]; cbn [place]; [reflexivity|]. destruct (k <? x); [reflexivity|]. rewrite IH. apply perm_swap. Qed.
Lemma place_look k j l : look k l = None -> look j (place w k l) = if Z.eq_dec j k then Some (k, inc w 0) else look j l.
Proof using.
  induction l as [|(x & c) l IH]; cbn [place look]; intros H.
  - destruct (Z.eq_dec j k), (Z.eqb_spec k j); congruence.
  - destruct (Z.eqb_spec x k); [discriminate|]. destruct (k <? x); cbn [look].
    + destruct (Z.eq_dec j k), (Z.eqb_spec k j); try congruence.
    + rewrite IH by assumption. destruct (Z.eq_dec j k); [|reflexivity]. destruct (Z.eqb_spec x j); congruence.
Qed.
Lemma total_perm l m : Permutation l m -> total l = total m.
Proof using. induction 1 as [|(x & c) l m P IH|(x & c) (y & d) l|l m o P IH Q IH2]; cbn [total]; lia. Qed.

Lemma pws : 2 <= pw.
Proof using Hw. change 2 with (2 ^ 1) at 1. apply Z.pow_le_mono_r; lia. Qed.

Lemma sp_add_ok k l ks : srel l ks -> match s_add N k ks with Some ks' => exists l', sp_add N w k l = Some l' /\ srel l' ks' | None => sp_add N w k l = None end.
Proof using Hw.
  intros R. pose proof (srel_len _ _ R) as Hlen. destruct R as (D & L & T). unfold s_add, sp_add. rewrite (L k), Hlen. pose proof pws as Hpw.
  assert (TL : forall t, t mod pw = (total l + 1) mod pw -> t mod pw = Z.of_nat (List.length (k :: ks)) mod pw).
  { intros t ->. cbn [List.length]. rewrite Nat2Z.inj_succ. unfold Z.succ. rewrite <- Zplus_mod_idemp_l, T, Zplus_mod_idemp_l. reflexivity. }
  destruct (in_dec Z.eq_dec k ks) as [Hin|Hin].
  - eexists. split; [reflexivity|]. unfold srel; conj.
    + rewrite hit_fst. exact D.
    + intros j. rewrite hit_look, !L. rewrite occ_cons. destruct (Z.eq_dec j k).
      * subst j. destruct (in_dec Z.eq_dec k ks); [|tauto]. destruct (in_dec Z.eq_dec k (k :: ks)) as [|E]; [|destruct E; now left].
        destruct (Z.eq_dec k k); [|congruence]. cbn [option_map fst snd]. unfold inc. rewrite Zplus_mod_idemp_l. do 2 f_equal. f_equal. lia.
      * destruct (Z.eq_dec k j); [congruence|]. destruct (in_dec Z.eq_dec j ks) as [I|I], (in_dec Z.eq_dec j (k :: ks)) as [I2|I2]; try reflexivity.
        -- destruct I2. now right.
        -- destruct I2; [congruence|tauto].
    + apply TL. apply hit_total. rewrite L. destruct (in_dec Z.eq_dec k ks); [discriminate|tauto].
  - destruct (Nat.ltb (distinct ks) N); [|reflexivity]. eexists. split; [reflexivity|].
    assert (Hn : look k l = None) by (rewrite L; destruct (in_dec Z.eq_dec k ks); [tauto|reflexivity]). unfold srel; conj.
    + apply (Permutation_NoDup (l := k :: map fst l)).
      * symmetry. exact (Permutation_map fst (place_perm k l)).
      * constructor; [|exact D]. rewrite <- look_in. congruence.
    + intros j. rewrite place_look by exact Hn. rewrite L, occ_cons. destruct (Z.eq_dec j k).
      * subst j. destruct (in_dec Z.eq_dec k (k :: ks)) as [|E]; [|destruct E; now left]. destruct (Z.eq_dec k k); [|congruence].
        unfold inc. assert (occurrences k ks = 0) as -> by (unfold occurrences; rewrite (proj1 (count_occ_not_In Z.eq_dec ks k)) by assumption; reflexivity). reflexivity.
      * destruct (Z.eq_dec k j); [congruence|]. destruct (in_dec Z.eq_dec j ks) as [I|I], (in_dec Z.eq_dec j (k :: ks)) as [I2|I2]; try reflexivity.
        -- destruct I2. now right.
        -- destruct I2; [congruence|tauto].
    + apply TL. rewrite (total_perm _ _ (place_perm k l)). cbn [total]. unfold inc. rewrite Zplus_mod_idemp_l. f_equal. lia.
Qed.

Lemma sp_add_all_ok js : forall l ks, srel l ks -> exists l', sp_add_all N w js l = (fst (s_add_all N js ks), l') /\ srel l' (snd (s_add_all N js ks)).
Proof using Hw.
  induction js as [|k js IH]; intros l ks R; cbn [sp_add_all s_add_all]; [eauto|].
  pose proof (sp_add_ok k l ks R) as Ha. destruct (s_add N k ks) as [ks'|].
  - destruct Ha as (l' & -> & R'). exact (IH l' ks' R').
  - rewrite Ha. eauto.
Qed.

Lemma sp_sum_ok l : forall s, 0 <= s < pw -> sp_sum w l s = (s + total l) mod pw.
Proof using Hw.
  induction l as [|(x & c) l IH]; intros s Hs; cbn [sp_sum total].
  - rewrite Z.add_0_r. now rewrite Z.mod_small.
  - pose proof pws. rewrite IH by (apply Z.mod_pos_bound; lia). rewrite Zplus_mod_idemp_l. f_equal. lia.
Qed.

Lemma sp_step_ok o l ks : srel l ks -> exists l', sp_step N w o l = (fst (ss_step N w o ks), l') /\ srel l' (snd (ss_step N w o ks)).
Proof using Hw.
  intros R. destruct o; cbn [sp_step ss_step].
  - destruct (sp_add_all_ok ks0 l ks R) as (l' & -> & R'). destruct (s_add_all N ks0 ks) as ([] & ks'); cbn [fst snd] in *; eauto.
  - pose proof (sp_add_ok k l ks R) as Ha. destruct (s_add N k ks); [destruct Ha as (l' & -> & R')|rewrite Ha]; cbn [fst snd]; eauto.
  - exists []. split; [reflexivity|]. unfold srel; conj; [constructor|reflexivity|reflexivity].
  - exists l. split; [|exact R]. cbn [fst]. unfold sp_read. destruct R as (_ & L & _). rewrite L. now destruct (in_dec Z.eq_dec k ks).
  - exists l. split; [|exact R]. cbn [fst]. now rewrite (srel_len _ _ R).
  - exists l. split; [|exact R]. cbn [fst]. unfold sp_count. pose proof pws. rewrite sp_sum_ok by lia. destruct R as (_ & _ & T). rewrite Z.add_0_l, T. reflexivity.
  - exists l. split; [reflexivity|exact R].
Qed.
Lemma sp_run_ok os : forall l ks, srel l ks -> exists l', sp_run N w os l = (fst (ss_run N w os ks), l') /\ srel l' (snd (ss_run N w os ks)).
Proof using Hw.
  induction os; intros l ks R; cbn [sp_run ss_run]; [eauto|].
  destruct (sp_step_ok a l ks R) as (l' & -> & R'). destruct (ss_step N w a ks) as (r & ks'). cbn [fst snd] in *.
  destruct (IHos l' ks' R') as (l2 & -> & R2). destruct (ss_run N w os ks') as (rs & ks2). cbn [fst snd] in *. eauto.
Qed.
End Sparse.
