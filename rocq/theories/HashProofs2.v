From Coq Require Import List Arith Lia Bool ZArith.
From Verif Require Import Util BinaryModel BinarySpec BitLib BinaryProofs CrcModel HashModel HashSpec HashProofs.
Import ListNotations.
Local Open Scope Z_scope.
Definition bytes_only (h : list hcall) : Prop := Forall (fun c => Forall is_byte (bytes_of c)) h.
(** ** histories of objects that are finalised by value() *)
Section Fin.
Context {V : Type}.
Variables (H : hasher V) (Inv : St H -> list Z -> bool -> Prop) (e : bool) (okc : hcall -> Prop).
Hypothesis Hreset : forall s acc b, Inv s acc b -> Inv (reset H s) [] false.
Hypothesis Hvalue : forall s acc b, Inv s acc b -> Inv (fst (value H s)) acc true.
Hypothesis Hadd1 : forall s acc b v, Inv s acc b -> is_byte v -> if b then add1 H s v = None else exists s', add1 H s v = Some s' /\ Inv s' (acc ++ [v]) false.
Hypothesis Hrange : forall s acc b sc l, Inv s acc b -> okc (HAdd sc l) -> Forall is_byte l ->
  if b && (e || negb (Nat.eqb (length l) 0)) then add_range H s sc l = None else exists s', add_range H s sc l = Some s' /\ Inv s' (acc ++ l) b.
Lemma run_fin h : bytes_only h -> Forall okc h -> forall s acc b, Inv s acc b ->
  match run H s h with Some s' => ~ adds_after_value e b h /\ Inv s' (fed acc h) (was_read b h) | None => adds_after_value e b h end.
Proof using Hreset Hvalue Hadd1 Hrange.
  induction 1 as [|c h Hc Hh IH]; intros Ho s acc b I; cbn [run]; [cbn; tauto|]. inversion Ho as [|? ? O1 O2]; subst. specialize (IH O2). destruct c as [sc l|v| |]; cbn [call_on bytes_of] in *.
  - pose proof (Hrange s acc b sc l I O1 Hc) as R. cbn [fed was_read bytes_of]. destruct (b && (e || negb (Nat.eqb (length l) 0))) eqn:B.
    + rewrite R. apply andb_true_iff in B as (-> & B). cbn [adds_after_value]. destruct l; [|now left]. left. split; [reflexivity|]. destruct e; [reflexivity|discriminate].
    + destruct R as (s' & -> & I'). specialize (IH s' (acc ++ l) b I'). destruct (run H s' h); cbn [adds_after_value].
      * destruct IH as (N & J). split; [|exact J]. destruct l; intros [C|C]; try contradiction; [destruct C as (-> & ->); discriminate|subst b]. cbn in B. rewrite orb_true_r in B. discriminate.
      * destruct l; right; exact IH.
  - inversion Hc as [|? ? V1 _]; subst. pose proof (Hadd1 s acc b v I V1) as R. cbn [fed was_read bytes_of adds_after_value]. destruct b; [rewrite R; now left|]. destruct R as (s' & -> & I'). specialize (IH s' _ false I'). destruct (run H s' h).
    + destruct IH as (N & J). split; [|exact J]. intros [C|C]; [discriminate|contradiction].
    + now right.
  - cbn [fed was_read adds_after_value]. apply IH. eapply Hreset, I.
  - cbn [fed was_read adds_after_value bytes_of]. rewrite app_nil_r. apply IH. eapply Hvalue, I.
Qed.
End Fin.
(** ** objects that are never finalised *)
Section Tot.
Context {V : Type}.
Variables (H : hasher V) (Inv : St H -> list Z -> Prop) (okc : hcall -> Prop).
Hypothesis Hreset : forall s acc, Inv s acc -> Inv (reset H s) [].
Hypothesis Hvalue : forall s acc, Inv s acc -> Inv (fst (value H s)) acc.
Hypothesis Hadd1 : forall s acc v, Inv s acc -> is_byte v -> exists s', add1 H s v = Some s' /\ Inv s' (acc ++ [v]).
Hypothesis Hrange : forall s acc sc l, Inv s acc -> Forall is_byte l -> exists s', add_range H s sc l = Some s' /\ Inv s' (acc ++ l).
Lemma run_tot h : bytes_only h -> forall s acc, Inv s acc -> exists s', run H s h = Some s' /\ Inv s' (fed acc h).
Proof using Hreset Hvalue Hadd1 Hrange.
  induction 1 as [|c h Hc Hh IH]; intros s acc I; cbn [run]; [exists s; split; [reflexivity|exact I]|]. destruct c as [sc l|v| |]; cbn [call_on bytes_of fed] in *.
  - destruct (Hrange s acc sc l I Hc) as (s' & -> & I'). now apply IH.
  - inversion Hc as [|? ? V1 _]; subst. destruct (Hadd1 s acc v I V1) as (s' & -> & I'). now apply IH.
  - apply IH. eapply Hreset, I.
  - rewrite app_nil_r. apply IH. eapply Hvalue, I.
Qed.
End Tot.
Lemma read_back sc b : is_byte b -> tr 8 (read_as sc b) = b.
Proof. unfold is_byte, read_as, tr, sg. intros Hb. destruct sc; [|apply Z.mod_small; lia]. cbv zeta. change (2 ^ 8) with 256. change (2 ^ (8 - 1)) with 128. rewrite (Z.mod_small b) by lia. destruct (Z.ltb_spec b 128); [apply Z.mod_small; lia|]. replace (b - 256) with (b + (-1) * 256) by lia. rewrite Z.mod_add by lia. apply Z.mod_small. lia. Qed.
Lemma fold_read {A} (f : A -> Z -> A) sc l : Forall is_byte l -> forall s, fold_left (fun f' b => f f' (tr 8 (read_as sc b))) l s = fold_left f l s.
Proof. induction 1 as [|b l Hb Hl IH]; intros s; [reflexivity|]. cbn [fold_left]. now rewrite read_back, IH. Qed.
Lemma run_policy p h : bytes_only h -> exists s, run (of_policy p) (initial p) h = Some s /\ snd (value (of_policy p) s) = pfinal p (fold_left (padd p) (fed [] h) (initial p)).
Proof.
  intros Hb. destruct (run_tot (of_policy p) (fun s acc => s = fold_left (padd p) acc (initial p))) with (h := h) (s := initial p) (acc := @nil Z) as (s & E & I).
  - reflexivity.
  - intros s acc I. exact I.
  - intros s acc v I Hv. eexists. split; [reflexivity|]. now rewrite fold_left_app, <- I.
  - intros s acc sc l I Hl. eexists. split; [reflexivity|]. cbn. now rewrite (fold_read (padd p)), fold_left_app, <- I by exact Hl.
  - exact Hb.
  - reflexivity.
  - exists s. split; [exact E|]. cbn. now rewrite I.
Qed.
Lemma jenkins_range_ok sc l : Forall is_byte l -> forall h, jenkins_range sc (h, false) l = Some (fold_left jenkins_add l h, false).
Proof. induction 1 as [|b l Hb Hl IH]; intros h; [reflexivity|]. cbn [jenkins_range fold_left]. rewrite read_back by exact Hb. apply IH. Qed.
Definition jenkins_hash (l : list Z) : Z := jenkins_final (fold_left jenkins_add l 0).
Lemma run_jenkins h : bytes_only h ->
  match run jenkins (fresh jenkins) h with Some s => ~ adds_after_value false false h /\ snd (value jenkins s) = jenkins_hash (fed [] h) | None => adds_after_value false false h end.
Proof.
  intros Hb. pose proof (run_fin jenkins (fun s acc b => s = (fold_left jenkins_add acc 0, b)) false (fun _ => True)) as R.
  assert (match run jenkins (fresh jenkins) h with Some s => ~ adds_after_value false false h /\ s = (fold_left jenkins_add (fed [] h) 0, was_read false h) | None => adds_after_value false false h end) as G.
  { apply R; clear R.
    - intros s acc b _. reflexivity.
    - intros s acc b ->. reflexivity.
    - intros s acc b v -> Hv. destruct b; [reflexivity|]. eexists. split; [reflexivity|]. now rewrite fold_left_app.
    - intros s acc b sc l -> _ Hl. destruct b; cbn [andb orb].
      + destruct l as [|x l]; cbn [length Nat.eqb negb]; [|reflexivity]. eexists. split; [reflexivity|]. now rewrite app_nil_r.
      + eexists. split; [now apply jenkins_range_ok|]. now rewrite fold_left_app.
    - exact Hb.
    - apply Forall_forall. auto.
    - reflexivity. }
  destruct (run jenkins (fresh jenkins) h) as [s|]; [|exact G]. destruct G as (G1 & ->). split; [exact G1|reflexivity].
Qed.
(** ** closed forms *)
Lemma sum_closed w l : 0 <= w -> forall s, fold_left (padd (sum_policy w)) l (tr w s) = (s + HashSpec.total l) mod 2 ^ w.
Proof.
  intros Hw. assert (2 ^ w <> 0) by (apply Z.pow_nonzero; lia). induction l as [|b l IH]; intros s; cbn [fold_left HashSpec.total fold_right]; [unfold tr; f_equal; lia|]. replace (padd (sum_policy w) (tr w s) b) with (tr w (s + b)) by (cbn [padd sum_policy]; unfold tr; now rewrite Z.add_mod_idemp_l by assumption). rewrite IH. f_equal. unfold HashSpec.total. lia.
Qed.
Lemma xor_closed w l i : width w -> Forall is_byte l -> 0 <= i -> forall s, word w s ->
  bit (fold_left (padd (xor_policy w)) l s) i = xorb (bit s i) (Nat.odd (having i l)).
Proof.
  intros Hw Hl Hi. induction Hl as [|b l Hb Hl IH]; intros s Hs; cbn [fold_left]; [now rewrite xorb_false_r|]. cbn [padd xor_policy]. pose proof (byte_word w b Hw Hb). rewrite tr_id by now apply word_lxor. rewrite IH by now apply word_lxor.
  unfold bit. rewrite Z.lxor_spec. unfold having. cbn [filter]. fold (bit b i). destruct (bit b i); cbn [length]; [|now rewrite xorb_false_r]. rewrite Nat.odd_succ, <- Nat.negb_odd. unfold bit. now destruct (Z.testbit s i), (Nat.odd _).
Qed.
Lemma rotate_right1_arith w s : 0 < w -> word w s -> rotate_right1 w s = s / 2 + (s mod 2) * 2 ^ (w - 1).
Proof.
  intros Hw Hs. assert (2 ^ w = 2 * 2 ^ (w - 1)) as P by (rewrite <- Z.pow_succ_r by lia; f_equal; lia). assert (0 < 2 ^ (w - 1)) by (apply Z.pow_pos_nonneg; lia). unfold word in Hs. unfold rotate_right1. cbv zeta. pose proof (Z.div_mod s 2 ltac:(lia)) as D. pose proof (Z.mod_pos_bound s 2 ltac:(lia)) as M.
  assert ((s >> 1) ||| (s << (w - 1)) = s / 2 + s * 2 ^ (w - 1)) as ->.
  { rewrite Z.shiftr_div_pow2, Z.shiftl_mul_pow2 by lia. change (2 ^ 1) with 2. rewrite <- Z.lxor_lor, <- Z.add_nocarry_lxor; [reflexivity|..];
    (apply Z.bits_inj'; intros i Hi; rewrite Z.land_spec, Z.bits_0; destruct (Z.lt_ge_cases i (w - 1)); [rewrite Z.mul_pow2_bits_low by lia; apply andb_false_r|]; rewrite (word_high (w - 1) (s / 2)) by (unfold word; lia); reflexivity). }
  unfold tr. rewrite D at 2. rewrite Z.mul_add_distr_r. replace (2 * (s / 2) * 2 ^ (w - 1)) with (s / 2 * 2 ^ w) by lia. replace (s / 2 + (s / 2 * 2 ^ w + s mod 2 * 2 ^ (w - 1))) with ((s / 2 + s mod 2 * 2 ^ (w - 1)) + s / 2 * 2 ^ w) by lia. rewrite Z.mod_add by lia. apply Z.mod_small. split; [nia|]. assert (s / 2 < 2 ^ (w - 1)) by lia. nia.
Qed.
