From Coq Require Import List FinFun Arith Lia Bool ZArith.
From Verif Require Import Util BinaryModel BinarySpec BitLib BinaryProofs CrcModel HashModel HashSpec HashProofs HashProofs2.
Import ListNotations.
Local Open Scope Z_scope.
Definition covers (T : list Z) (n : nat) : bool := forallb (fun i => existsb (fun v => v =? Z.of_nat i) T) (seq 0 n) && forallb (fun v => (0 <=? v) && (v <? 256)) T.
Lemma covers_ok T n : covers T n = true -> incl (map Z.of_nat (seq 0 n)) T /\ Forall is_byte T.
Proof.
  unfold covers. intros E. apply andb_true_iff in E as (E1 & E2). split.
  - intros x Hx. apply in_map_iff in Hx as (i & <- & Hi). rewrite forallb_forall in E1. specialize (E1 i Hi). apply existsb_exists in E1 as (v & Hv & E). apply Z.eqb_eq in E. now subst.
  - apply Forall_forall. intros v Hv. rewrite forallb_forall in E2. specialize (E2 v Hv). apply andb_true_iff in E2 as (A & B). unfold is_byte. lia.
Qed.
Lemma table_full : incl (map Z.of_nat (seq 0 256)) PEARSON_LOOKUP /\ Forall is_byte PEARSON_LOOKUP.
Proof. apply covers_ok. vm_compute. reflexivity. Qed.
Lemma table_len : length PEARSON_LOOKUP = 256%nat. Proof. reflexivity. Qed.
Lemma table_nodup : NoDup PEARSON_LOOKUP.
Proof.
  apply (@NoDup_incl_NoDup _ (map Z.of_nat (seq 0 256))).
  - apply FinFun.Injective_map_NoDup; [intros a b E; now apply Nat2Z.inj|apply seq_NoDup].
  - rewrite table_len, map_length, seq_length. lia.
  - apply table_full.
Qed.
Lemma lookup_byte i : is_byte i -> is_byte (lookup i).
Proof. intros Hi. unfold lookup. pose proof (proj2 table_full) as F. rewrite Forall_forall in F. apply F. apply nth_In. rewrite table_len. unfold is_byte in Hi. lia. Qed.
Lemma lookup_inj i j : is_byte i -> is_byte j -> lookup i = lookup j -> i = j.
Proof. unfold lookup, is_byte. intros Hi Hj E. pose proof table_nodup as N. rewrite (NoDup_nth _ 0) in N. apply N in E; rewrite ?table_len; lia. Qed.
Lemma byte_8 b : is_byte b <-> word 8 b. Proof. reflexivity. Qed.
Lemma byte_xor a b : is_byte a -> is_byte b -> is_byte (a ^^^ b). Proof. rewrite !byte_8. apply word_lxor. Qed.
Lemma pearson_one_byte a x y l : Forall is_byte a -> Forall is_byte l -> is_byte x -> is_byte y -> x <> y -> pearson_at lookup 0 (a ++ x :: l) <> pearson_at lookup 0 (a ++ y :: l).
Proof.
  intros Ha Hl Hx Hy D.
  assert (forall s v, word 8 s -> is_byte v -> word 8 (lookup (s ^^^ v))) as W by (intros s v Hs Hv; apply lookup_byte, byte_xor; assumption).
  assert (forall s t v, word 8 s -> word 8 t -> is_byte v -> lookup (s ^^^ v) = lookup (t ^^^ v) -> s = t) as Si by (intros s t v Hs Ht Hv E; apply lookup_inj in E; [now apply lxor_inj_l in E|now apply byte_xor|now apply byte_xor]).
  assert (forall s v u, word 8 s -> is_byte v -> is_byte u -> lookup (s ^^^ v) = lookup (s ^^^ u) -> v = u) as Vi by (intros s v u Hs Hv Hu E; apply lookup_inj in E; [now apply lxor_inj_r in E|now apply byte_xor|now apply byte_xor]).
  assert (forall v : Z, is_byte v -> (v + Z.of_nat 0) mod 256 = v) as M by (intros v Hv; rewrite Z.mod_small; unfold is_byte in Hv; lia).
  destruct a as [|b a]; cbn [app pearson_at]; unfold pearson_from.
  - intros E. apply (fold_inj 8 (fun h b => lookup (h ^^^ b)) W Si l Hl) in E; [|rewrite M by assumption; now apply lookup_byte..]. rewrite !M in E by assumption. now apply lookup_inj in E.
  - inversion Ha as [|? ? B1 B2]; subst. apply (fold_byte 8 (fun h b => lookup (h ^^^ b)) W Si Vi); try assumption. rewrite M by assumption. now apply lookup_byte.
Qed.
Section P.
Variable N : nat.
Definition zrun (l : list Z) : list Z := map (fun _ => pearson_from lookup 0 l) (seq 0 N).
Definition prun (l : list Z) : list Z := map (fun i => pearson_at lookup i l) (seq 0 N).
Lemma zeros_z : zrun [] = repeat 0 N. Proof. unfold zrun. cbn. generalize 0%nat at 1. induction N as [|n IH]; intros k; [reflexivity|]. cbn. now rewrite IH. Qed.
Lemma zeros_p : prun [] = repeat 0 N. Proof. unfold prun. cbn. generalize 0%nat at 1. induction N as [|n IH]; intros k; [reflexivity|]. cbn. now rewrite IH. Qed.
Lemma zrun_snoc l b : zrun (l ++ [b]) = map (fun h => lookup (h ^^^ b)) (zrun l).
Proof. unfold zrun. rewrite map_map. apply map_ext. intros i. unfold pearson_from. now rewrite fold_left_app. Qed.
Lemma prun_snoc l b : l <> [] -> prun (l ++ [b]) = map (fun h => lookup (h ^^^ b)) (prun l).
Proof. intros D. unfold prun. rewrite map_map. apply map_ext. intros i. destruct l as [|a l]; [congruence|]. cbn [app pearson_at]. unfold pearson_from. now rewrite fold_left_app. Qed.
Definition PInv (s : bool * list Z) (acc : list Z) (data stale : bool) : Prop :=
  if data then s = (false, if stale then zrun acc else prun acc) /\ (stale = false -> acc <> []) else acc = [] /\ stale = false /\ s = (true, repeat 0 N).
Lemma p_byte_inv s acc data stale v : PInv s acc data stale -> PInv (p_byte N s v) (acc ++ [v]) true stale.
Proof.
  unfold PInv. destruct data; intros I.
  - destruct I as (-> & D). split; [|intros _ C; now apply app_eq_nil in C as (_ & C)]. cbn [p_byte]. f_equal. destruct stale; [symmetry; apply zrun_snoc|symmetry; apply prun_snoc; auto].
  - destruct I as (-> & -> & ->). split; [|discriminate]. cbn [p_byte]. reflexivity.
Qed.
Lemma p_range_inv l : forall s acc data stale, PInv s acc data stale -> PInv (fold_left (p_byte N) l s) (acc ++ l) (data || negb (Nat.eqb (length l) 0)) stale.
Proof.
  induction l as [|b l IH]; intros s acc data stale I; cbn [fold_left].
  - cbn. rewrite app_nil_r, orb_false_r. exact I.
  - pose proof (IH _ _ _ _ (p_byte_inv s acc data stale b I)) as J. rewrite <- app_assoc in J. cbn [length Nat.eqb negb]. rewrite orb_true_r. exact J.
Qed.
Lemma run_pearson h : bytes_only h -> forall s acc data stale, PInv s acc data stale -> exists s' data', run (pearson N) s h = Some s' /\ PInv s' (fed acc h) data' (stale || reset_after_data data h).
Proof.
  induction 1 as [|c h Hc Hh IH]; intros s acc data stale I; cbn [run reset_after_data fed].
  - exists s, data. rewrite orb_false_r. split; [reflexivity|exact I].
  - destruct c as [sc l|v| |]; cbn [call_on bytes_of length Nat.eqb negb] in *.
    + cbn [add_range pearson]. rewrite (fold_read (p_byte N)) by exact Hc. apply IH. now apply p_range_inv.
    + cbn [add1 pearson]. rewrite orb_true_r. apply IH. now apply p_byte_inv with (data := data).
    + cbn [HashModel.reset pearson]. rewrite orb_assoc. apply IH. destruct s as (f & hs). unfold PInv in *. destruct data.
      * destruct I as (E & _). injection E as -> _. rewrite orb_true_r. split; [now rewrite zeros_z|discriminate].
      * destruct I as (_ & -> & E). injection E as -> _. split; [reflexivity|split; reflexivity].
    + rewrite orb_false_r, app_nil_r. cbn [value pearson]. apply IH. destruct s. exact I.
Qed.
Lemma pearson_value h : bytes_only h -> exists s, run (pearson N) (fresh (pearson N)) h = Some s /\ snd (value (pearson N) s) = if reset_after_data false h then zrun (fed [] h) else prun (fed [] h).
Proof.
  intros Hb. destruct (run_pearson h Hb (fresh (pearson N)) [] false false) as (s & d & E & I). { unfold PInv. cbn. split; [reflexivity|split; reflexivity]. } exists s. split; [exact E|]. rewrite orb_false_l in I. unfold PInv in I. destruct d.
  - destruct I as (-> & _). reflexivity.
  - destruct I as (-> & -> & ->). cbn [value pearson snd]. now rewrite zeros_p.
Qed.
End P.
