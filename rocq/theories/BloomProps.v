(** C38: bloom_filter. *)
From Coq Require Import List Bool Arith ZArith Lia.
From Verif Require Import Util BinaryModel BinarySpec BinaryProps BitsetSpec BitsetModel BitsetProofs BitsetOps BitsetOps2 BitsetOps3 BitsetOps4 BitsetOps5 BitsetAbs BitsetProps BloomModel BloomSpec.
Import ListNotations.
Local Open Scope nat_scope.

Lemma bwid_ge D : 0 < D -> D <= bwid D /\ 8 <= bwid D.
Proof.
  intros H. unfold bwid, nelem. pose proof (Nat.div_mod D 8 ltac:(lia)). pose proof (Nat.mod_upper_bound D 8 ltac:(lia)).
  destruct (Nat.eqb_spec (D mod 8) 0); lia.
Qed.
Lemma bwid_pos D : 0 < D -> 0 < bwid D.
Proof. intros H. destruct (bwid_ge D H). lia. Qed.
Lemma filter_map_len {A B} (g : B -> bool) (f : A -> B) l : List.length (filter g (map f l)) = List.length (filter (fun x => g (f x)) l).
Proof. induction l as [|x l IH]; cbn; [reflexivity|]. destruct (g (f x)); cbn; now rewrite IH. Qed.
Lemma hash_in K D (h : K -> Z) k : 0 < D -> (0 <= h k < 2 ^ 64)%Z -> get_hash K D h k < bwid D.
Proof.
  intros HD Hh. destruct (bwid_ge D HD) as [_ H8].
  assert (L1 : 1 <= Nat.log2 (bwid D)) by (apply (Nat.log2_le_mono 2); lia).
  destruct (C23_fold_bits_correct (Nat.log2 (bwid D)) (h k) L1 Hh) as [[F1 F2] _].
  unfold get_hash. apply Nat2Z.inj_lt. rewrite Z2Nat.id by exact F1.
  eapply Z.lt_le_trans; [exact F2|].
  pose proof (Nat.log2_spec (bwid D) ltac:(lia)) as [P _]. apply Nat2Z.inj_le in P. rewrite Nat2Z.inj_pow in P. exact P.
Qed.

Section Proofs.
  Variable K : Type.
  Variables (h1 : K -> Z) (h2 h3 : option (K -> Z)).
  Variable D : nat.
  Hypothesis HD : 0 < D.
  Hypothesis Hh : forall h k, In h (hashes K h1 h2 h3) -> (0 <= h k < 2 ^ 64)%Z.
  Notation N := (bwid D).
  Notation pos := (get_hash K D).
  Notation mk := (marked K pos (hashes K h1 h2 h3)).

  Lemma W8 : bwidth 8. Proof using . left. reflexivity. Qed.
  Lemma Npos : 0 < N. Proof using HD. exact (bwid_pos D HD). Qed.
  Definition ok (ws : list Z) (keys : list K) : Prop :=
    wf 8 N ws /\ forall p, p < N -> (nth p (bits 8 N ws) false = true <-> mk keys p).
  Lemma one_set ws p : wf 8 N ws -> p < N -> exists ws', bs_set 8 N ws p true = Ok ws' /\ wf 8 N ws' /\
    forall q, q < N -> (nth q (bits 8 N ws') false = true <-> q = p \/ nth q (bits 8 N ws) false = true).
  Proof using HD.
    intros Hw Hp. destruct (C39_set_reset_flip 8 N ws p true W8 Npos Hw) as [S1 _]. destruct (S1 Hp) as [(ws' & E & Hw' & Eb) _].
    exists ws'. conj; try assumption. intros q Hq. rewrite Eb. rewrite put_nth by (rewrite bits_len; exact Hq).
    destruct (Nat.eqb_spec q p); [split; auto|]. split; [auto|intros [|]; [contradiction|assumption]].
  Qed.
  Lemma opt_set h ws k : wf 8 N ws -> (match h with Some f => In f (hashes K h1 h2 h3) | None => True end) ->
    exists ws', set_opt K D h k ws = Ok ws' /\ wf 8 N ws' /\
    forall q, q < N -> (nth q (bits 8 N ws') false = true <-> (exists f, h = Some f /\ q = pos f k) \/ nth q (bits 8 N ws) false = true).
  Proof using HD Hh.
    intros Hw Hin. destruct h as [f|]; cbn [set_opt].
    - destruct (one_set ws (pos f k) Hw (hash_in K D f k HD (Hh f k Hin))) as (ws' & E & Hw' & B). exists ws'. conj; try assumption.
      intros q Hq. rewrite (B q Hq). split; intros [A|A]; auto; left; [now exists f|destruct A as (g & [= ->] & A); exact A].
    - exists ws. conj; [reflexivity|assumption|]. intros q Hq. split; [auto|]. intros [(f & A & _)|A]; [discriminate|exact A].
  Qed.
  Lemma add_ok ws keys k : ok ws keys -> exists ws', bl_add K h1 h2 h3 D ws k = Ok ws' /\ ok ws' (k :: keys).
  Proof using HD Hh.
    intros [Hw Hb]. unfold bl_add.
    destruct (one_set ws (pos h1 k) Hw) as (w1 & E1 & W1 & B1); [apply hash_in; [exact HD|]; apply Hh; now left|].
    rewrite E1. cbn [rbind].
    destruct (opt_set h2 w1 k W1) as (w2 & E2 & W2 & B2); [destruct h2; [right; now left|exact I]|]. rewrite E2. cbn [rbind].
    destruct (opt_set h3 w2 k W2) as (w3 & E3 & W3 & B3); [destruct h3; [right; apply in_or_app; right; now left|exact I]|]. rewrite E3.
    exists w3. split; [reflexivity|]. split; [exact W3|]. intros p Hp. rewrite (B3 p Hp), (B2 p Hp), (B1 p Hp), (Hb p Hp).
    unfold marked. split.
    - intros [(f & -> & ->)|[(f & -> & ->)|[->|(h & k' & A & B & C)]]].
      + exists f, k. conj; [right; apply in_or_app; right; now left|now left|reflexivity].
      + exists f, k. conj; [right; apply in_or_app; left; now left|now left|reflexivity].
      + exists h1, k. conj; [now left|now left|reflexivity].
      + exists h, k'. conj; [assumption|now right|assumption].
    - intros (h & k' & A & [<-|B] & C).
      + destruct A as [->|A]; [right; right; left; now symmetry|]. apply in_app_or in A as [A|A].
        * right; left. destruct h2; [destruct A as [->|[]]|destruct A]. eexists. split; [reflexivity|now symmetry].
        * left. destruct h3; [destruct A as [->|[]]|destruct A]. eexists. split; [reflexivity|now symmetry].
      + right; right; right. now exists h, k'.
  Qed.
  Lemma clear_ok ws keys : ok ws keys -> ok (bl_clear ws) [].
  Proof using HD.
    intros [Hw Hb]. destruct (C39_set_all_reset_all_not 8 N ws W8 Npos Hw) as (_ & (ws' & E & Hw' & Eb) & _). injection E as <-.
    split; [exact Hw'|]. intros p Hp. unfold bl_clear. rewrite Eb. unfold sp_fill. rewrite nth_repeat. split; [discriminate|]. intros (h & k & _ & [] & _).
  Qed.
  Lemma new_ok : ok (bl_new D) [].
  Proof using HD Hh.
    assert (Hw : wf 8 N (bl_new D)).
    { unfold bl_new, bs_new, m_reset_all. split; [now rewrite map_length, repeat_length|].
      apply Forall_forall. intros x Hx. apply in_map_iff in Hx as (y & <- & _). unfold word. cbn. lia. }
    split; [exact Hw|]. intros p Hp. rewrite bits_nth by exact Hp. unfold bitat, bl_new, bs_new, m_reset_all.
    assert (Z0 : forall n, nth n (map (fun _ : Z => 0%Z) (repeat 0%Z (nelem 8 N))) 0%Z = 0%Z) by (intros n; change 0%Z with ((fun _ : Z => 0%Z) 0%Z) at 3; now rewrite map_nth).
    rewrite Z0, Z.bits_0. split; [discriminate|]. intros (h & k & _ & [] & _).
  Qed.
  Lemma run_ok os : forall ws keys, ok ws keys -> exists ws', bl_run K h1 h2 h3 D ws os = Ok ws' /\ ok ws' (live K os keys).
  Proof using HD Hh.
    induction os as [|o os IH]; intros ws keys Ho; cbn [bl_run live].
    - exists ws. auto.
    - destruct o as [k|]; cbn [bl_op].
      + destruct (add_ok ws keys k Ho) as (w1 & E1 & O1). rewrite E1. cbn [rbind]. exact (IH w1 _ O1).
      + cbn [rbind]. exact (IH _ _ (clear_ok ws keys Ho)).
  Qed.
  Lemma exists_ok ws keys k : ok ws keys -> exists b, bl_exists K h1 h2 h3 D ws k = Ok b /\
    (b = true <-> forall h, In h (hashes K h1 h2 h3) -> mk keys (pos h k)).
  Proof using HD Hh.
    intros [Hw Hb]. unfold bl_exists. destruct (C39_test_all_text 8 N ws W8 Npos Hw) as (_ & Ti & _).
    assert (T : forall h, In h (hashes K h1 h2 h3) -> exists b, bs_index 8 ws (pos h k) = Ok b /\ (b = true <-> mk keys (pos h k))).
    { intros h Hin. pose proof (hash_in K D h k HD (Hh h k Hin)) as L. eexists. split; [apply Ti; exact L|]. unfold sp_test. apply Hb. exact L. }
    assert (T2 : forall ho, (forall f, ho = Some f -> In f (hashes K h1 h2 h3)) -> exists b, test_opt K D ho k ws = Ok b /\ (b = true <-> forall f, ho = Some f -> mk keys (pos f k))).
    { intros [f|] Q; cbn [test_opt].
      - destruct (T f (Q f eq_refl)) as (b & E & B). exists b. split; [exact E|]. rewrite B. split; [intros X g [= <-]; exact X|auto].
      - exists true. split; [reflexivity|]. split; [intros _ f X; discriminate|auto]. }
    destruct (T h1 (or_introl eq_refl)) as (b1 & E1 & B1).
    destruct (T2 h2) as (b2 & E2 & B2); [intros f ->; right; now left|].
    destruct (T2 h3) as (b3 & E3 & B3); [intros f ->; right; apply in_or_app; right; now left|].
    rewrite E1. cbn [rbind]. rewrite E2. cbn [rbind]. rewrite E3. cbn [rbind]. exists (b1 && b2 && b3). split; [reflexivity|].
    rewrite !andb_true_iff, B1, B2, B3. split.
    - intros [[X1 X2] X3] h [<-|Hin]; [exact X1|]. apply in_app_or in Hin as [Hin|Hin].
      + destruct h2; [destruct Hin as [->|[]]|destruct Hin]. now apply X2.
      + destruct h3; [destruct Hin as [->|[]]|destruct Hin]. now apply X3.
    - intros X. conj.
      + apply X. now left.
      + intros f ->. apply X. right. now left.
      + intros f ->. apply X. right. apply in_or_app. right. now left.
  Qed.
End Proofs.

(** Over every history from a new filter no operation fails, and exists(k) is true exactly when
    every flag of k has been marked by some key added since the last clear. *)
Theorem C38_exact : forall K (h1 : K -> Z) h2 h3 desired os,
  0 < desired -> (forall h k, In h (hashes K h1 h2 h3) -> (0 <= h k < 2 ^ 64)%Z) ->
  exists flags, bl_run K h1 h2 h3 desired (bl_new desired) os = Ok flags /\
    (forall k, exists b, bl_exists K h1 h2 h3 desired flags k = Ok b /\
      (b = true <-> forall h, In h (hashes K h1 h2 h3) ->
         marked K (get_hash K desired) (hashes K h1 h2 h3) (live K os []) (get_hash K desired h k))) /\
    (forall h k, In h (hashes K h1 h2 h3) -> get_hash K desired h k < bwid desired) /\
    (exists marks, NoDup marks /\ (forall p, In p marks <-> marked K (get_hash K desired) (hashes K h1 h2 h3) (live K os []) p) /\
       bl_count flags = Z.of_nat (List.length marks)).
Proof.
  intros K h1 h2 h3 D os HD Hh. destruct (run_ok K h1 h2 h3 D HD Hh os (bl_new D) [] (new_ok K h1 h2 h3 D HD Hh)) as (ws & E & O).
  exists ws. conj.
  - exact E.
  - intros k. exact (exists_ok K h1 h2 h3 D HD Hh ws _ k O).
  - intros h k Hin. apply hash_in; auto.
  - destruct O as [Hw Hb]. set (N := bwid D) in *. exists (filter (fun p => nth p (bits 8 N ws) false) (seq 0 N)). conj.
    + apply NoDup_filter, seq_NoDup.
    + intros p. rewrite filter_In, in_seq. split.
      * intros [Hp Hn]. apply Hb; [lia|exact Hn].
      * intros M. assert (Hp : p < N) by (destruct M as (h & k & A & _ & <-); apply hash_in; auto). split; [lia|]. now apply Hb.
    + assert (C0 : clean 8 N ws).
      { intros p P1 P2. exfalso. unfold N, bwid in P1, P2. unfold nelem in P2 at 1.
        rewrite Nat.mod_mul, Nat.div_mul in P2 by lia. cbn [Nat.eqb] in P2. lia. }
      assert (HN : 0 < N) by (destruct (bwid_ge D HD); lia).
      destruct (C39_count_any_none_value_eq 8 N ws (or_introl eq_refl) HN Hw C0) as [Ec _]. unfold bl_count. rewrite Ec. f_equal.
      unfold sp_count. transitivity (List.length (filter (fun p => bitat 8 ws p) (seq 0 N))).
      * unfold bits. apply (filter_map_len (fun x : bool => x) (bitat 8 ws)).
      * f_equal. apply filter_ext_in. intros p Hp. apply in_seq in Hp. now rewrite bits_nth by lia.
Qed.
Print Assumptions C38_exact.

(** No false negatives: a key added since the last clear is reported as existing. *)
Theorem C38_no_false_negatives : forall K (h1 : K -> Z) h2 h3 desired before k after,
  0 < desired -> (forall h k, In h (hashes K h1 h2 h3) -> (0 <= h k < 2 ^ 64)%Z) ->
  ~ In Clear after ->
  exists flags, bl_run K h1 h2 h3 desired (bl_new desired) (before ++ Add k :: after) = Ok flags /\
    bl_exists K h1 h2 h3 desired flags k = Ok true.
Proof.
  intros K h1 h2 h3 D before k after HD Hh Hc.
  destruct (C38_exact K h1 h2 h3 D (before ++ Add k :: after) HD Hh) as (flags & E & X & _).
  exists flags. split; [exact E|]. destruct (X k) as (b & Eb & B). rewrite Eb. f_equal. apply B. intros h Hin.
  exists h, k. conj; [exact Hin| |reflexivity].
  assert (L1 : forall os a b, live K (os ++ a) b = live K a (live K os b)).
  { induction os as [|[y|] os IH]; intros; cbn [app live]; auto. }
  assert (L2 : forall os b, ~ In Clear os -> In k b -> In k (live K os b)).
  { induction os as [|[y|] os IH]; intros b' NC IK; cbn [live]; auto.
    - apply IH; [intros Q; apply NC; now right|now right].
    - exfalso. apply NC. now left. }
  rewrite L1. cbn [live]. apply L2; [exact Hc|now left].
Qed.
Print Assumptions C38_no_false_negatives.

(** after clear (and before any add) nothing exists *)
Theorem C38_clear : forall K (h1 : K -> Z) h2 h3 desired os k,
  0 < desired -> (forall h k, In h (hashes K h1 h2 h3) -> (0 <= h k < 2 ^ 64)%Z) ->
  exists flags, bl_run K h1 h2 h3 desired (bl_new desired) (os ++ [Clear]) = Ok flags /\
    bl_exists K h1 h2 h3 desired flags k = Ok false /\ bl_count flags = 0%Z /\ bl_usage desired flags = 0%Z.
Proof.
  intros K h1 h2 h3 D os k HD Hh.
  destruct (C38_exact K h1 h2 h3 D (os ++ [Clear]) HD Hh) as (flags & E & X & _ & (marks & ND & Hm & Hc)).
  assert (L1 : live K (os ++ [Clear]) [] = []).
  { clear. generalize (@nil K) at 1. induction os as [|[y|] os IH]; intros b; cbn [app live]; auto. }
  rewrite L1 in *.
  assert (NM : forall p, ~ marked K (get_hash K D) (hashes K h1 h2 h3) [] p) by (intros p (h & k' & _ & [] & _)).
  exists flags. assert (C0 : bl_count flags = 0%Z).
  { rewrite Hc. destruct marks as [|p m]; [reflexivity|]. exfalso. apply (NM p). apply Hm. now left. }
  conj; [exact E| |exact C0|].
  - destruct (X k) as (b & Eb & B). rewrite Eb. destruct b; [|reflexivity]. exfalso.
    apply (NM (get_hash K D h1 k)). apply (proj1 B eq_refl). now left.
  - unfold bl_usage. rewrite C0. reflexivity.
Qed.
Print Assumptions C38_clear.

(** a filter over size_t keys with two hash functions *)
Example C38_nonvacuous :
  match bl_run Z (fun k => k) (Some (fun k => (k * 7) mod 2 ^ 64)%Z) None 20 (bl_new 20) [Add 5%Z; Clear; Add 300%Z; Add 17%Z] with
  | Ok f => bl_exists Z (fun k => k) (Some (fun k => (k * 7) mod 2 ^ 64)%Z) None 20 f 300%Z = Ok true /\
            bl_exists Z (fun k => k) (Some (fun k => (k * 7) mod 2 ^ 64)%Z) None 20 f 5%Z = Ok false /\ bl_count f = 2%Z
  | _ => False
  end.
Proof. vm_compute. auto. Qed.
