(** etl::expected on top of the variant. *)
From Coq Require Import List String Bool Arith Lia.
From Verif Require Import Cmd OptModel OptProofs VntSpec VntModel VntProofs Util.
Import ListNotations.

Section E.
Context {V : Type}.
Variables (moved : V -> V) (dflt : nat -> V) (eqv eqe : V -> V -> bool) (mono tv te : nat).
Notation ETS := (ETS mono tv te). Notation vw := (vworld V).
Hypothesis Htv : tv <> mono.
Hypothesis Hte : te <> mono.
Definition enc (x : V + V) : nat * V := match x with inl v => (1, v) | inr e => (2, e) end.
Definition encm (a : emap V) : vmap V := fun n => match a n with Some x => Some (enc x) | None => None end.
Lemma encm_set a i x n : encm (eset a i (Some x)) n = vset (encm a) i (Some (enc x)) n.
Proof using Type. cbv [encm eset vset]. now destruct (n =? i). Qed.
Lemma encm_del a i n : encm (eset a i None) n = vset (encm a) i None n.
Proof using Type. cbv [encm eset vset]. now destruct (n =? i). Qed.
Lemma vrep_ext w (a b : vmap V) : (forall n, a n = b n) -> vrep ETS w a -> vrep ETS w b.
Proof using Type.
  intros H (R & RI & RT & L). unfold vrep. conj; auto; [intros n; now rewrite <- H|]. intros n k v. rewrite <- H. apply RI.
Qed.
Definition erep (w : vw) (a : emap V) : Prop := vrep ETS w (encm a).
Definition esim (m : Out vw (vres V)) (x : obs (vres V)) (a' : emap V) : Prop :=
  match m with Ok w' r => x = Returned r /\ erep w' a' | Ex w' e => x = Threw e /\ erep w' a' | Bad => False end.
Lemma vsim_esim m x b a' : (forall n, b n = encm a' n) -> vsim ETS m x b -> esim m x a'.
Proof using Type.
  intros H. destruct m; cbn; auto; intros (E & R); split; auto; eapply vrep_ext; eauto.
Qed.
Lemma first_tv : first_of ETS tv = Some 1.
Proof using Htv. cbn. rewrite (proj2 (Nat.eqb_neq mono tv)) by congruence. cbn. rewrite Nat.eqb_refl. rewrite (proj2 (Nat.eqb_neq tv mono)) by congruence. reflexivity. Qed.
Lemma first_te : tv <> te -> first_of ETS te = Some 2.
Proof using Hte.
  intros N. cbn. rewrite (proj2 (Nat.eqb_neq mono te)) by congruence. cbn. rewrite (proj2 (Nat.eqb_neq tv te)) by congruence. cbn.
  rewrite Nat.eqb_refl, (proj2 (Nat.eqb_neq te mono)), (proj2 (Nat.eqb_neq te tv)) by congruence. reflexivity.
Qed.

Variable distinct : bool.
Hypothesis Hd : distinct = true -> tv <> te.
Lemma step_e t o w a x a' : erep w a -> espec moved (dflt tv) eqv eqe distinct (t, o) a = Some (x, a') ->
  esim (eexec moved dflt eqv eqe mono tv te (t, o) w) x a'.
Proof using Htv Hte Hd.
  intros R Hs. unfold espec in Hs. cbn [fst snd] in Hs.
  assert (ST : forall (vo : vop V) b, vspec moved dflt ETS (t, vo) (encm a) = Some (x, b) -> (forall n, b n = encm a' n) ->
    esim (vexec moved dflt ETS (t, vo) w) x a').
  { intros vo b H1 H2. eapply vsim_esim; [exact H2|]. apply (step_v moved dflt ETS ltac:(discriminate) t vo w (encm a)); auto. }
  assert (EN : forall i, a i = None -> encm a i = None) by (intros i E; unfold encm; now rewrite E).
  assert (ES : forall i y, a i = Some y -> encm a i = Some (enc y)) by (intros i y E; unfold encm; now rewrite E).
  assert (W0 : vrep ETS (mkVW (vvars w) t (vlog w)) (encm a)) by exact R.
  destruct W0 as (RV & _ & _ & _). set (w1 := mkVW (vvars w) t (vlog w)) in *.
  assert (HI : forall i y, a i = Some y -> index (U i) w1 = Ok w1 (Some (fst (enc y)))).
  { intros i y E. apply (index_ok ETS w1 (U i) (fst (enc y)) (snd (enc y))). rewrite RV, (ES i y E). now destruct y. }
  assert (HH : forall i y, a i = Some y -> e_has (U i) w1 = Ok w1 (match y with inl _ => true | inr _ => false end)).
  { intros i y E. unfold e_has, cbind. rewrite (HI i y E). now destruct y. }
  assert (HV : forall i v, a i = Some (inl v) -> e_value mono tv te (U i) w1 = Ok w1 v).
  { intros i v E. apply (vget_ok ETS w1 (U i) 1 v); [cbn; lia|]. now rewrite RV, (ES i _ E). }
  assert (HE : forall i v, a i = Some (inr v) -> e_error mono tv te (U i) w1 = Ok w1 v).
  { intros i v E. apply (vget_ok ETS w1 (U i) 2 v); [cbn; lia|]. now rewrite RV, (ES i _ E). }
  destruct o as [i|i v|i e|i e|mv i j|i|i v|i e|mv i j|i v|i j|i|i|i|i|i v|i j]; cbn [espec_op] in Hs.
  - unfold emake in Hs. destruct (a i) eqn:Ei; [discriminate|].
    apply (ST (VNewIdx i 1 (dflt tv)) (if t then encm a else vset (encm a) i (Some (1, dflt tv)))).
    + cbn. rewrite (EN i Ei). unfold make. destruct t; injection Hs as <- <-; reflexivity.
    + intros n. destruct t; injection Hs as <- <-; [reflexivity|]. now rewrite encm_set.
  - unfold emake in Hs. destruct (a i) eqn:Ei; [discriminate|].
    apply (ST (VNewIdx i 1 v) (if t then encm a else vset (encm a) i (Some (1, v)))).
    + cbn. rewrite (EN i Ei). unfold make. destruct t; injection Hs as <- <-; reflexivity.
    + intros n. destruct t; injection Hs as <- <-; [reflexivity|]. now rewrite encm_set.
  - unfold emake in Hs. destruct (a i) eqn:Ei; [discriminate|].
    apply (ST (VNewIdx i 2 e) (if t then encm a else vset (encm a) i (Some (2, e)))).
    + cbn. rewrite (EN i Ei). unfold make. destruct t; injection Hs as <- <-; reflexivity.
    + intros n. destruct t; injection Hs as <- <-; [reflexivity|]. now rewrite encm_set.
  - destruct distinct eqn:Ed; [|discriminate]. unfold emake in Hs. destruct (a i) eqn:Ei; [discriminate|].
    apply (ST (VNewVal i te e) (if t then encm a else vset (encm a) i (Some (2, e)))).
    + unfold vspec, vspec_op. cbn [fst snd]. rewrite (EN i Ei), first_te by auto. unfold make. destruct t; injection Hs as <- <-; reflexivity.
    + intros n. destruct t; injection Hs as <- <-; [reflexivity|]. now rewrite encm_set.
  - destruct (a i) eqn:Ei; [discriminate|]. destruct (a j) as [y|] eqn:Ej; [|discriminate].
    apply (ST (VNewFrom mv i j) (if t then encm a else let b := vset (encm a) i (Some (enc y)) in if mv then vset b j (Some (enc (emoved moved y))) else b)).
    + unfold vspec, vspec_op. cbn [fst snd]. rewrite (EN i Ei), (ES j y Ej). destruct y; cbn [enc]; destruct t; injection Hs as <- <-; reflexivity.
    + intros n. destruct t; injection Hs as <- <-; [reflexivity|]. cbn zeta. destruct mv; rewrite !encm_set; [|reflexivity].
      cbv [vset]. destruct (n =? j); auto. now rewrite encm_set.
  - destruct (a i) as [y|] eqn:Ei; [|discriminate]. injection Hs as <- <-. apply (ST (VDrop i) (vset (encm a) i None)).
    + unfold vspec, vspec_op. cbn [fst snd]. rewrite (ES i y Ei). reflexivity.
    + intros n. now rewrite encm_del.
  - unfold echange in Hs. destruct (a i) as [y|] eqn:Ei; [|discriminate]. destruct t; [discriminate|]. injection Hs as <- <-.
    apply (ST (VEmplaceI i 1 v) (vset (encm a) i (Some (1, v)))).
    + unfold vspec, vspec_op. cbn [fst snd]. rewrite (ES i y Ei). reflexivity.
    + intros n. now rewrite encm_set.
  - unfold echange in Hs. destruct (a i) as [y|] eqn:Ei; [|discriminate]. destruct t; [discriminate|]. injection Hs as <- <-.
    apply (ST (VEmplaceI i 2 e) (vset (encm a) i (Some (2, e)))).
    + unfold vspec, vspec_op. cbn [fst snd]. rewrite (ES i y Ei). reflexivity.
    + intros n. now rewrite encm_set.
  - destruct (a i) as [y0|] eqn:Ei; [|discriminate]. destruct (a j) as [y|] eqn:Ej; [|discriminate].
    destruct (Nat.eqb_spec i j) as [->|N].
    + injection Hs as <- <-. apply (ST (VSet mv j j) (encm a)); auto. unfold vspec, vspec_op. cbn [fst snd]. rewrite (ES j y Ej). destruct y; cbn [enc]; now rewrite Nat.eqb_refl.
    + destruct t; [discriminate|]. injection Hs as <- <-.
      apply (ST (VSet mv i j) (let b := vset (encm a) i (Some (enc y)) in if mv then vset b j (Some (enc (emoved moved y))) else b)).
      * unfold vspec, vspec_op. cbn [fst snd]. rewrite (ES i y0 Ei), (ES j y Ej). rewrite (proj2 (Nat.eqb_neq i j) N). destruct y; reflexivity.
      * intros n. cbn zeta. destruct mv; rewrite !encm_set; [|reflexivity]. cbv [vset]. destruct (n =? j); auto. now rewrite encm_set.
  - unfold echange in Hs. destruct (a i) as [y|] eqn:Ei; [|discriminate]. destruct t; [discriminate|]. injection Hs as <- <-.
    apply (ST (VEmplaceT i tv v) (vset (encm a) i (Some (1, v)))).
    + unfold vspec, vspec_op. cbn [fst snd]. rewrite (ES i y Ei), first_tv. reflexivity.
    + intros n. now rewrite encm_set.
  - destruct (a i) as [y0|] eqn:Ei; [|discriminate]. destruct (a j) as [y|] eqn:Ej; [|discriminate]. destruct t; [discriminate|]. injection Hs as <- <-.
    apply (ST (VSwap i j) (vset (vset (encm a) i (Some (enc y))) j (Some (enc y0)))).
    + unfold vspec, vspec_op. cbn [fst snd]. rewrite (ES i y0 Ei), (ES j y Ej). reflexivity.
    + intros n. rewrite !encm_set. cbv [vset]. destruct (n =? j); auto. now rewrite encm_set.
  - destruct (a i) as [y|] eqn:Ei; [|discriminate]. injection Hs as <- <-.
    unfold eexec, eexec_op, arm. cbn [fst snd]. fold w1. unfold cbind at 1. fold w1. unfold cbind. rewrite (HH i y Ei). split; auto.
  - destruct (a i) as [[v|e]|] eqn:Ei; [| |discriminate]; injection Hs as <- <-.
    + apply (ST (VGetI i 1) (encm a)); auto. unfold vspec, vspec_op. cbn [fst snd]. now rewrite (ES i _ Ei).
    + apply (ST (VGetI i 1) (encm a)); auto. unfold vspec, vspec_op. cbn [fst snd]. now rewrite (ES i _ Ei).
  - destruct (a i) as [[v|e]|] eqn:Ei; [| |discriminate]; injection Hs as <- <-.
    + apply (ST (VGetI i 2) (encm a)); auto. unfold vspec, vspec_op. cbn [fst snd]. now rewrite (ES i _ Ei).
    + apply (ST (VGetI i 2) (encm a)); auto. unfold vspec, vspec_op. cbn [fst snd]. now rewrite (ES i _ Ei).
  - assert (E0 : exists y, a i = Some y) by (destruct (a i); [eauto|discriminate]). destruct E0 as (y & Ei). rewrite Ei in Hs.
    unfold eexec, eexec_op, arm. cbn [fst snd]. unfold cbind at 1. fold w1. unfold cbind at 1. unfold e_deref. unfold cbind at 1. rewrite (HH i y Ei).
    destruct y as [v|e]; injection Hs as <- <-; unfold cbind, assert_; [|split; auto].
    unfold vget_t. destruct (first_of_spec ETS tv 1 first_tv) as (_ & _ & ->). change (vget ETS (U i) 1 w1) with (e_value mono tv te (U i) w1).
    rewrite (HV i v Ei). split; auto.
  - destruct (a i) as [y|] eqn:Ei; [|discriminate]. injection Hs as <- <-.
    unfold eexec, eexec_op, arm. cbn [fst snd]. unfold cbind at 1. fold w1. unfold cbind at 1. unfold e_value_or. unfold cbind at 1. rewrite (HH i y Ei).
    destruct y as [u|e]; [rewrite (HV i u Ei)|]; split; auto.
  - assert (E0 : exists y z, a i = Some y /\ a j = Some z) by (destruct (a i) as [[|]|], (a j) as [[|]|]; try discriminate; eauto).
    destruct E0 as (y & z & Ei & Ej). rewrite Ei, Ej in Hs.
    unfold eexec, eexec_op, arm. cbn [fst snd]. unfold cbind at 1. fold w1. unfold cbind at 1. unfold e_eq. unfold cbind. rewrite (HH i y Ei), (HH j z Ej).
    destruct y as [u|u], z as [v|v]; injection Hs as <- <-; cbn [Bool.eqb negb]; rewrite ?(HV i _ Ei), ?(HV j _ Ej), ?(HE i _ Ei), ?(HE j _ Ej); split; auto.
Qed.
End E.
