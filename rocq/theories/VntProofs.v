(** Proofs about the variant and expected models. *)
From Coq Require Import List String Bool Arith Lia.
From Verif Require Import Cmd OptModel OptProofs VntSpec VntModel Util.
Import ListNotations.

Section P.
Context {V : Type}.
Variables (moved : V -> V) (dflt : nat -> V) (TS : list nat).
Notation vw := (vworld V). Notation vnt := (vnt V).
Definition ty (k : nat) : nat := nth k TS 0.

(** ** Indices and types *)
Lemma type_helper_nth i l : forall n, n <= i -> i - n < List.length l -> type_helper i n l = nth (i - n) l 0.
Proof using Type.
  induction l as [|u [|u' r] IH]; intros n H1 H2.
  - cbn in H2. lia.
  - cbn in H2. replace (i - n) with 0 by lia. reflexivity.
  - change (type_helper i n (u :: u' :: r)) with (if i =? n then u else type_helper i (S n) (u' :: r)).
    destruct (Nat.eqb_spec i n) as [->|N]; [now rewrite Nat.sub_diag|].
    rewrite IH by (cbn in H2 |- *; lia). replace (i - n) with (S (i - S n)) by lia. reflexivity.
Qed.
Lemma type_from_index_ty k : k < List.length TS -> type_from_index TS k = ty k.
Proof using Type. intros H. unfold type_from_index, ty. rewrite type_helper_nth by lia. now rewrite Nat.sub_0_r. Qed.
Lemma index_helper_first t l : forall k, nth_error l k = Some t -> (forall j, j < k -> nth_error l j <> Some t) -> index_helper t l = S k.
Proof using Type.
  induction l as [|u [|u' r] IH]; intros k H1 H2.
  - destruct k; discriminate.
  - destruct k as [|k]; [reflexivity|]. destruct k; discriminate.
  - change (index_helper t (u :: u' :: r)) with (if t =? u then 1 else 1 + index_helper t (u' :: r)).
    destruct k as [|k].
    + cbn in H1. injection H1 as ->. now rewrite Nat.eqb_refl.
    + destruct (Nat.eqb_spec t u) as [->|N]; [now destruct (H2 0); [lia|]|].
      rewrite (IH k); auto. intros j Hj. apply (H2 (S j)). lia.
Qed.
Lemma nth_firstn (l : list nat) n : forall i, i < n -> nth_error (firstn n l) i = nth_error l i.
Proof using Type. revert l. induction n as [|n IH]; intros l i H; [lia|]. destruct l as [|u r]; [reflexivity|]. destruct i as [|i]; [reflexivity|]. apply (IH r i). lia. Qed.
Lemma first_of_spec t k : first_of TS t = Some k -> k < List.length TS /\ ty k = t /\ index_of_type TS t = k.
Proof using Type.
  intros H. unfold first_of in H. apply find_some in H. destruct H as (Hin & Hf). apply in_seq in Hin.
  unfold is_first in Hf. destruct (nth_error TS k) as [u|] eqn:E; [|discriminate]. apply andb_true_iff in Hf. destruct Hf as (Hu & Hn).
  apply Nat.eqb_eq in Hu. subst u. apply negb_true_iff in Hn. conj; [lia|unfold ty; now apply nth_error_nth|].
  unfold index_of_type. rewrite (index_helper_first t TS k); [lia|auto|].
  intros j Hj E2. assert (F : existsb (Nat.eqb t) (firstn k TS) = true); [|congruence].
  apply existsb_exists. exists t. split; [|apply Nat.eqb_refl].
  assert (Ej : nth_error (firstn k TS) j = Some t). { now rewrite nth_firstn. }
  eapply nth_error_In; eauto.
Qed.

(** ** The ledger *)
Definition valive (o : option vnt) : nat := match o with Some (mkV _ _ (Some _)) => 1 | _ => 0 end.
Definition vled (w : vw) : Prop := forall x, cnt (Ctor x) (vlog w) = cnt (Dtor x) (vlog w) + valive (vvars w x).
Lemma neq_eqb x y : x <> y -> var_eqb x y = false. Proof using Type. destruct (var_eqb_spec x y); congruence. Qed.
Lemma vled_set w x o b d :
  vled w -> (cnt (Ctor x) d + valive (vvars w x) = cnt (Dtor x) d + valive o) ->
  (forall y, y <> x -> cnt (Ctor y) d = cnt (Dtor y) d) ->
  vled (mkVW (vupd (vvars w) x o) b (vlog w ++ d)).
Proof using Type.
  intros L E N y. cbn [vlog vvars]. specialize (L y).
  assert (G : forall e, cnt e (vlog w ++ d) = cnt e (vlog w) + cnt e d) by (intros e; clear; induction (vlog w); cbn; lia).
  rewrite !G. cbv [vupd]. destruct (var_eqb_spec y x); [subst; lia|]. rewrite (N y) by auto. lia.
Qed.
Lemma vled_ext (w w' : vw) : vled w -> vlog w' = vlog w -> (forall y, valive (vvars w' y) = valive (vvars w y)) -> vled w'.
Proof using Type. intros L E A x. rewrite E, A. apply L. Qed.
Definition vagrees (w' : vw) (f : var -> option vnt) : Prop := forall z, vvars w' z = f z.
Lemma vupd_same (f : var -> option vnt) x o : vupd f x o x = o. Proof using Type. cbv [vupd]. now rewrite var_eqb_refl. Qed.
Lemma vupd_other (f : var -> option vnt) x o y : y <> x -> vupd f x o y = f y. Proof using Type. intros. cbv [vupd]. now rewrite neq_eqb. Qed.
Lemma vupd_upd (f : var -> option vnt) x o p y : vupd (vupd f x o) x p y = vupd f x p y.
Proof using Type. cbv [vupd]. now destruct (var_eqb_spec y x). Qed.

Definition vsrc_is (w : vw) (x : var) (t : nat) (s : vsrc V) (v : V) : Prop :=
  match s with VExt u => u = v | VIn y => y <> x /\ exists p, vvars w y = Some p /\ vobj p = Some (t, v) end.
Definition vafter (w : vw) (t : nat) (s : vsrc V) (mv : bool) (v : V) : var -> option vnt :=
  match s, mv with
  | VIn y, true => match vvars w y with Some p => vupd (vvars w) y (Some (mkV (type_id p) (oper p) (Some (t, moved v)))) | None => vvars w end
  | _, _ => vvars w
  end.
Lemma vread_ok w x t s v : vsrc_is w x t s v -> vread t s w = Ok w v.
Proof using Type.
  destruct s; cbn; intros H; [now subst|]. destruct H as (N & p & Ep & Eo). cbv [cbind take_var]. rewrite Ep, Eo, Nat.eqb_refl. reflexivity.
Qed.
Lemma build_ok w x o t s mv v :
  vled w -> vvars w x = Some o -> vobj o = None -> vsrc_is w x t s v -> vboom w = false ->
  exists w', build moved x t s mv w = Ok w' tt /\ vled w' /\ vboom w' = false /\
    vagrees w' (vupd (vafter w t s mv v) x (Some (mkV (type_id o) (oper o) (Some (t, v))))).
Proof using Type.
  intros L Vx Ox Hs B. cbv [build cbind]. rewrite (vread_ok w x t s v Hs), B. cbv [take_var]. rewrite Vx. rewrite Ox.
  cbv [put_var vnote cbind]. cbn [vvars vboom vlog].
  assert (L1 : vled (mkVW (vupd (vvars w) x (Some (mkV (type_id o) (oper o) (Some (t, v))))) (vboom w) (vlog w ++ [Ctor x]))).
  { apply vled_set; auto.
    - cbn. rewrite Vx, var_eqb_refl. destruct o as [i q b]; cbn in Ox |- *. now subst.
    - intros y N. cbn. now rewrite neq_eqb by auto. }
  rewrite B in L1.
  destruct s as [u|y]; [|destruct mv].
  - eexists; split; [reflexivity|]. conj; auto. now intros z.
  - destruct Hs as (N & p & Ep & Eo). cbv [take_var vupd]. cbn [vvars]. rewrite neq_eqb by auto. rewrite Ep.
    eexists; split; [reflexivity|]. conj; auto.
    + eapply vled_ext; [exact L1|reflexivity|]. intros z. cbn [vvars]. cbv [vupd].
      destruct (var_eqb_spec z y); auto. subst z. rewrite neq_eqb by auto. rewrite Ep. destruct p as [i q b]; cbn in Eo |- *. now subst.
    + intros z. cbn [vvars]. cbv [vafter vupd]. rewrite Ep. destruct (var_eqb_spec z y); auto. subst z. now rewrite neq_eqb by auto.
  - eexists; split; [reflexivity|]. conj; auto. now intros z.
Qed.
Lemma build_throw w x t s mv v : vsrc_is w x t s v -> vboom w = true -> build moved x t s mv w = Ex w "T".
Proof using Type. intros Hs B. cbv [build cbind]. now rewrite (vread_ok w x t s v Hs), B. Qed.
Lemma do_destroy_ok w x o t v : vled w -> vvars w x = Some o -> oper o = Some t -> vobj o = Some (t, v) ->
  exists w', do_destroy x w = Ok w' tt /\ vled w' /\ vboom w' = vboom w /\ vagrees w' (vupd (vvars w) x (Some (mkV (type_id o) (oper o) None))).
Proof using Type.
  intros L Vx Ot Ov. cbv [do_destroy cbind take_var]. rewrite Vx, Ot, Ov, Nat.eqb_refl. cbv [put_var vnote cbind]. cbn [vvars vboom vlog].
  eexists; split; [reflexivity|]. conj; auto; [|now intros z].
  apply vled_set; auto.
  - cbn. rewrite Vx, var_eqb_refl. destruct o as [i q b]; cbn in Ov |- *. now subst.
  - intros y N. cbn. now rewrite neq_eqb by auto.
Qed.
Lemma put_ok w x o o' : vled w -> vvars w x = Some o -> vobj o' = vobj o ->
  exists w', put_var x (Some o') w = Ok w' tt /\ vled w' /\ vboom w' = vboom w /\ vagrees w' (vupd (vvars w) x (Some o')).
Proof using Type.
  intros L Vx E. eexists; split; [reflexivity|]. conj; auto; [|now intros z].
  eapply vled_ext; [exact L|reflexivity|]. intros y. cbn. cbv [vupd]. destruct (var_eqb_spec y x); auto. subst. rewrite Vx.
  destruct o as [a b c], o' as [a' b' c']; cbn in E |- *. now subst.
Qed.
Lemma set_oper_ok w x o t : vled w -> vvars w x = Some o ->
  exists w', set_oper x t w = Ok w' tt /\ vled w' /\ vboom w' = vboom w /\ vagrees w' (vupd (vvars w) x (Some (mkV (type_id o) t (vobj o)))).
Proof using Type. intros L Vx. cbv [set_oper cbind take_var]. rewrite Vx. now apply (put_ok w x o). Qed.
Lemma set_id_ok w x o k : vled w -> vvars w x = Some o ->
  exists w', set_id x k w = Ok w' tt /\ vled w' /\ vboom w' = vboom w /\ vagrees w' (vupd (vvars w) x (Some (mkV k (oper o) (vobj o)))).
Proof using Type. intros L Vx. cbv [set_id cbind take_var]. rewrite Vx. now apply (put_ok w x o). Qed.
Lemma vsrc_agree w w' x t s v o : vagrees w' (vupd (vvars w) x o) -> vsrc_is w x t s v -> vsrc_is w' x t s v.
Proof using Type.
  intros A. destruct s as [u|y]; cbn; auto. intros (N & p & Ep & Eo). split; auto. exists p. rewrite A. now rewrite vupd_other.
Qed.
Lemma vafter_agree w w' x t s mv v o : vagrees w' (vupd (vvars w) x o) -> vsrc_is w x t s v ->
  forall q z, vupd (vafter w' t s mv v) x q z = vupd (vafter w t s mv v) x q z.
Proof using Type.
  intros A Hs q z. cbv [vupd]. destruct (var_eqb_spec z x); auto.
  destruct s as [u|y]; [|destruct mv]; cbn [vafter].
  - rewrite A. now rewrite vupd_other.
  - destruct Hs as (N & p & Ep & Eo). rewrite A. rewrite vupd_other by auto. rewrite Ep. cbv [vupd].
    destruct (var_eqb_spec z y); auto. rewrite A. now rewrite vupd_other.
  - rewrite A. now rewrite vupd_other.
Qed.

Definition full (k : nat) (v : V) : vnt := mkV (Some k) (Some (ty k)) (Some (ty k, v)).

(** destroy, construct, set operation and index *)
Lemma replace_ok w x k0 v0 t k s v : vled w -> vvars w x = Some (full k0 v0) -> vsrc_is w x t s v -> vboom w = false ->
  exists w', (do_destroy x ;; build moved x t s false ;; set_oper x (Some t) ;; set_id x (Some k)) w = Ok w' tt /\ vled w' /\
    vagrees w' (vupd (vvars w) x (Some (mkV (Some k) (Some t) (Some (t, v))))).
Proof using Type.
  intros L Vx Hs B. unfold cbind at 1. destruct (do_destroy_ok w x (full k0 v0) (ty k0) v0) as (w1 & -> & L1 & B1 & A1); auto.
  unfold cbind at 1. destruct (build_ok w1 x (mkV (Some k0) (Some (ty k0)) None) t s false v) as (w2 & -> & L2 & B2 & A2); auto; try congruence.
  { rewrite A1. apply vupd_same. } { eapply vsrc_agree; eauto. }
  unfold cbind at 1. destruct (set_oper_ok w2 x (mkV (Some k0) (Some (ty k0)) (Some (t, v))) (Some t) L2) as (w3 & -> & L3 & B3 & A3). { rewrite A2. apply vupd_same. }
  destruct (set_id_ok w3 x (mkV (Some k0) (Some t) (Some (t, v))) (Some k) L3) as (w4 & -> & L4 & B4 & A4). { rewrite A3. apply vupd_same. }
  exists w4. conj; auto. intros z. rewrite A4. cbn [oper vobj]. cbv [vupd]. destruct (var_eqb_spec z x); auto.
  rewrite A3, vupd_other, A2, vupd_other by auto.
  assert (E : vafter w1 t s false v = vvars w1) by (destruct s; reflexivity). rewrite E, A1, vupd_other; auto.
Qed.
Lemma index_ok w x k v : vvars w x = Some (full k v) -> index x w = Ok w (Some k).
Proof using Type. intros H. cbv [index cbind take_var ret]. now rewrite H. Qed.
(** move or copy assignment *)
Lemma vassign_ok w mv x y k0 v0 k v : vled w -> x <> y -> vvars w x = Some (full k0 v0) -> vvars w y = Some (full k v) -> vboom w = false ->
  exists w', vassign moved mv x y w = Ok w' tt /\ vled w' /\ vboom w' = false /\
    vagrees w' (vupd (if mv then vupd (vvars w) y (Some (full k (moved v))) else vvars w) x (Some (full k v))).
Proof using Type.
  intros L N Vx Vy B. cbv [vassign]. rewrite neq_eqb by auto. unfold cbind at 1. rewrite (index_ok w y k v) by auto.
  unfold cbind at 1. destruct (do_destroy_ok w x (full k0 v0) (ty k0) v0) as (w1 & -> & L1 & B1 & A1); auto.
  assert (V1y : vvars w1 y = Some (full k v)) by (rewrite A1, vupd_other; auto).
  unfold cbind at 1. unfold cbind at 1. cbv [take_var]. rewrite V1y. cbn [oper full].
  destruct (set_oper_ok w1 x (mkV (Some k0) (Some (ty k0)) None) (Some (ty k)) L1) as (w2 & -> & L2 & B2 & A2). { rewrite A1. apply vupd_same. }
  unfold cbind at 1. unfold do_copy. unfold cbind at 1. cbv [take_var].
  assert (V2x : vvars w2 x = Some (mkV (Some k0) (Some (ty k)) None)) by (rewrite A2; apply vupd_same).
  assert (V2y : vvars w2 y = Some (full k v)) by (rewrite A2, vupd_other; auto). rewrite V2x. cbn [oper].
  destruct (build_ok w2 x _ (ty k) (VIn y) mv v L2 V2x eq_refl) as (w3 & -> & L3 & B3 & A3).
  { cbn. split; auto. exists (full k v). auto. } { congruence. }
  unfold cbind at 1. cbv [take_var].
  assert (V3y : exists u, vvars w3 y = Some (full k u)).
  { rewrite A3, vupd_other by auto. cbn [vafter]. rewrite V2y. destruct mv; [rewrite vupd_same; eexists; reflexivity|eauto]. }
  destruct V3y as (u & V3y). rewrite V3y. cbn [type_id full].
  destruct (set_id_ok w3 x (mkV (Some k0) (Some (ty k)) (Some (ty k, v))) (Some k) L3) as (w4 & -> & L4 & B4 & A4). { rewrite A3. apply vupd_same. }
  exists w4. conj; auto; [congruence|]. intros z. rewrite A4. cbn [oper vobj]. cbv [vupd]. destruct (var_eqb_spec z x); auto.
  rewrite A3, vupd_other by auto. cbn [vafter]. rewrite V2y. destruct mv.
  - cbv [vupd]. destruct (var_eqb_spec z y); auto. rewrite A2, vupd_other, A1, vupd_other; auto.
  - rewrite A2, vupd_other, A1, vupd_other; auto.
Qed.

(** ** Constructors *)
Notation vbump w x o := (mkVW (vupd (vvars w) x o) (vboom w) (vlog w)).
Lemma vled_new w x o : vled w -> vvars w x = None -> vobj o = None -> vled (vbump w x (Some o)).
Proof using Type.
  intros L H1 H2. eapply vled_ext; [exact L|reflexivity|]. intros y. cbn. cbv [vupd]. destruct (var_eqb_spec y x); auto. subst. rewrite H1.
  destruct o as [i q b]; cbn in H2 |- *. now subst.
Qed.
Lemma vctor_throw w x o body : vled w -> vvars w x = None -> (let w1 := vbump w x (Some o) in body w1 = Ex w1 "T") ->
  exists w', vctor x o body w = Ex w' "T" /\ vled w' /\ vagrees w' (vvars w).
Proof using Type.
  intros L H1 H2. cbv [vctor cbind put_var]. cbn zeta in H2. rewrite H2. eexists; split; [reflexivity|]. cbn [vvars vboom vlog].
  assert (A : forall z, vupd (vupd (vvars w) x (Some o)) x None z = vvars w z).
  { intros z. rewrite vupd_upd. cbv [vupd]. destruct (var_eqb_spec z x); subst; auto. }
  split; [|exact A]. eapply vled_ext; [exact L|reflexivity|]. intros y. cbn [vvars]. now rewrite A.
Qed.
Lemma vctor_ok w x o body (w2 : vw) : (let w1 := vbump w x (Some o) in body w1 = Ok w2 tt) -> vctor x o body w = Ok w2 tt.
Proof using Type. intros H. cbv [vctor cbind put_var]. cbn zeta in H. now rewrite H. Qed.

Lemma vnew_idx_ok w x k v t i q tail : vled w -> vvars w x = None -> vboom w = false ->
  (forall w1 o, vled w1 -> vvars w1 x = Some o -> type_id o = i -> oper o = q -> vobj o = Some (t, v) ->
     exists w2, tail w1 = Ok w2 tt /\ vled w2 /\ vagrees w2 (vupd (vvars w1) x (Some (mkV (Some k) (Some t) (Some (t, v)))))) ->
  exists w', vctor x (mkV i q None) (build moved x t (VExt v) false ;; tail) w = Ok w' tt /\ vled w' /\
    vagrees w' (vupd (vvars w) x (Some (mkV (Some k) (Some t) (Some (t, v))))).
Proof using Type.
  intros L H1 B HT. set (w1 := vbump w x (Some (mkV i q None))).
  destruct (build_ok w1 x (mkV i q None) t (VExt v) false v) as (w2 & E2 & L2 & B2 & A2); auto.
  { now apply vled_new. } { cbn. now rewrite vupd_same. } { reflexivity. }
  destruct (HT w2 (mkV i q (Some (t, v)))) as (w3 & E3 & L3 & A3); auto. { rewrite A2. apply vupd_same. }
  exists w3. split; [|split]; auto.
  - apply vctor_ok. cbn zeta. fold w1. unfold cbind. now rewrite E2.
  - intros z. rewrite A3. cbv [vupd]. destruct (var_eqb_spec z x); auto. rewrite A2, vupd_other by auto. cbn [vafter]. cbn. now rewrite vupd_other.
Qed.
Lemma vnew_from_ok w mv x y k v : vled w -> vvars w x = None -> vvars w y = Some (full k v) -> vboom w = false ->
  exists w', vnew_from moved mv x y w = Ok w' tt /\ vled w' /\ vboom w' = false /\
    vagrees w' (vupd (if mv then vupd (vvars w) y (Some (full k (moved v))) else vvars w) x (Some (full k v))).
Proof using Type.
  intros L Vx Vy B. assert (N : y <> x) by congruence.
  unfold vnew_from. unfold cbind at 1. cbv [take_var]. rewrite Vy. cbn [type_id oper full].
  set (w1 := vbump w x (Some (mkV (Some k) (Some (ty k)) None))).
  assert (V1y : vvars w1 y = Some (full k v)) by (cbn; rewrite vupd_other; auto).
  assert (V1x : vvars w1 x = Some (mkV (Some k) (Some (ty k)) None)) by (cbn; now rewrite vupd_same).
  destruct (build_ok w1 x (mkV (Some k) (Some (ty k)) None) (ty k) (VIn y) mv v)  as (w2 & E2 & L2 & B2 & A2); auto.
  { now apply vled_new. } { cbn. split; auto. exists (full k v). cbn. rewrite vupd_other; auto. }
  exists w2. conj; auto.
  - apply vctor_ok. cbn zeta. fold w1. unfold cbind at 1. rewrite (index_ok w1 y k v) by auto.
    unfold do_copy. unfold cbind. cbv [take_var]. rewrite V1x. cbn [oper]. exact E2.
  - intros z. rewrite A2. cbn [type_id oper]. cbv [vupd]. destruct (var_eqb_spec z x); auto. cbn [vafter]. rewrite V1y. destruct mv.
    + cbv [vupd]. destruct (var_eqb_spec z y); auto. cbn. now rewrite vupd_other.
    + cbn. now rewrite vupd_other.
Qed.
Lemma vdrop_ok w x k v : vled w -> vvars w x = Some (full k v) ->
  exists w', vdrop x w = Ok w' tt /\ vled w' /\ vagrees w' (vupd (vvars w) x None).
Proof using Type.
  intros L Vx. unfold vdrop. unfold cbind at 1. rewrite (index_ok w x k v) by auto. unfold cbind.
  destruct (do_destroy_ok w x (full k v) (ty k) v) as (w1 & -> & L1 & B1 & A1); auto.
  eexists; split; [reflexivity|]. split.
  - eapply vled_ext; [exact L1|reflexivity|]. intros y. cbn. cbv [vupd]. destruct (var_eqb_spec y x); auto. subst. rewrite A1, vupd_same. reflexivity.
  - intros z. cbn. cbv [vupd]. destruct (var_eqb_spec z x); auto. rewrite A1, vupd_other; auto.
Qed.
Lemma vswap_ok w x y k v l u : vled w -> vboom w = false -> vvars w Tmp = None -> x <> Tmp -> y <> Tmp ->
  vvars w x = Some (full k v) -> vvars w y = Some (full l u) ->
  exists w', vswap moved x y w = Ok w' tt /\ vled w' /\ vagrees w' (vupd (vupd (vvars w) x (Some (full l u))) y (Some (full k v))).
Proof using Type.
  intros L B VT Nx Ny Vx Vy. unfold vswap. unfold cbind at 1.
  destruct (vnew_from_ok w true Tmp x k v) as (w1 & -> & L1 & B1 & A1); auto. unfold vfinally, cbind at 1.
  assert (V1T : vvars w1 Tmp = Some (full k v)) by (rewrite A1; apply vupd_same).
  assert (V1x : vvars w1 x = Some (full k (moved v))) by (rewrite A1, vupd_other by auto; apply vupd_same).
  destruct (var_eqb_spec x y) as [<-|N].
  - assert (E : k = l /\ v = u) by (rewrite Vx in Vy; unfold full in Vy; injection Vy; auto). destruct E as [<- <-].
    unfold vassign at 1. rewrite var_eqb_refl. cbv [ret].
    destruct (vassign_ok w1 true x Tmp k (moved v) k v) as (w2 & -> & L2 & B2 & A2); auto.
    destruct (vdrop_ok w2 Tmp k (moved v)) as (w3 & -> & L3 & A3); auto. { rewrite A2, vupd_other by auto. apply vupd_same. }
    exists w3. conj; auto. intros z. rewrite A3. cbv [vupd]. destruct (var_eqb_spec z Tmp) as [->|NT]; [now rewrite neq_eqb by auto|].
    rewrite A2. cbv [vupd]. destruct (var_eqb_spec z x); auto. rewrite neq_eqb by auto. rewrite A1, !vupd_other; auto.
  - assert (V1y : vvars w1 y = Some (full l u)) by (rewrite A1, !vupd_other; auto).
    destruct (vassign_ok w1 true x y k (moved v) l u) as (w2 & -> & L2 & B2 & A2); auto.
    assert (V2y : vvars w2 y = Some (full l (moved u))) by (rewrite A2, vupd_other by auto; apply vupd_same).
    assert (V2T : vvars w2 Tmp = Some (full k v)) by (rewrite A2, !vupd_other; auto).
    destruct (vassign_ok w2 true y Tmp l (moved u) k v) as (w3 & -> & L3 & B3 & A3); auto.
    destruct (vdrop_ok w3 Tmp k (moved v)) as (w4 & -> & L4 & A4); auto. { rewrite A3, vupd_other by auto. apply vupd_same. }
    exists w4. conj; auto. intros z. rewrite A4. cbv [vupd]. destruct (var_eqb_spec z Tmp) as [->|NT]; [now rewrite !neq_eqb by auto|].
    rewrite A3. cbv [vupd]. destruct (var_eqb_spec z y); auto. rewrite neq_eqb by auto. rewrite A2. cbv [vupd]. destruct (var_eqb_spec z x); auto.
    rewrite neq_eqb by auto. rewrite A1, !vupd_other; auto.
Qed.
Lemma vget_ok w x k v : k < List.length TS -> vvars w x = Some (full k v) -> vget TS x k w = Ok w v.
Proof using Type.
  intros H Vx. unfold vget, cbind. rewrite (index_ok w x k v) by auto. cbn [is_id]. rewrite Nat.eqb_refl. cbv [assert_]. rewrite type_from_index_ty by auto.
  cbv [vread cbind take_var]. rewrite Vx. cbn [vobj full]. now rewrite Nat.eqb_refl.
Qed.
Lemma vget_no w x k m v : k <> m -> vvars w x = Some (full k v) -> vget TS x m w = Ex w bad_type.
Proof using Type.
  intros H Vx. unfold vget, cbind. rewrite (index_ok w x k v) by auto. cbn [is_id]. destruct (Nat.eqb_spec m k); [congruence|]. reflexivity.
Qed.
Lemma visit_ok w x k v : vvars w x = Some (full k v) -> k < List.length TS -> forall ks, List.In k ks -> visit_from TS x ks w = Ok w (Some (k, v)).
Proof using Type.
  intros Vx H. induction ks as [|m r IH]; intros Hin; [destruct Hin|]. cbn [visit_from]. unfold cbind at 1. rewrite (index_ok w x k v) by auto. cbn [is_id].
  destruct (Nat.eqb_spec m k) as [->|N].
  - unfold cbind. now rewrite (vget_ok w x k v).
  - apply IH. destruct Hin; [congruence|auto].
Qed.

(** ** One step *)
Definition vimg (o : option (nat * V)) : option vnt := match o with Some (k, v) => Some (full k v) | None => None end.
Definition vrep (w : vw) (a : vmap V) : Prop :=
  (forall n, vvars w (U n) = vimg (a n)) /\ (forall n k v, a n = Some (k, v) -> k < List.length TS) /\ vvars w Tmp = None /\ vled w.
Definition vsim (m : Out vw (vres V)) (x : obs (vres V)) (a' : vmap V) : Prop :=
  match m with Ok w' r => x = Returned r /\ vrep w' a' | Ex w' e => x = Threw e /\ vrep w' a' | Bad => False end.
Lemma vrep_upd w w' a i o : vrep w a -> vled w' -> (forall k v, o = Some (k, v) -> k < List.length TS) ->
  vagrees w' (vupd (vvars w) (U i) (vimg o)) -> vrep w' (vset a i o).
Proof using Type.
  intros (R & RI & RT & _) L Ho A. unfold vrep. conj; auto.
  - intros n. rewrite A. cbv [vupd vset]. cbn [var_eqb]. destruct (n =? i); auto.
  - intros n k v. cbv [vset]. destruct (n =? i); eauto.
  - rewrite A. auto.
Qed.
Lemma vrep_same w w' a : vrep w a -> vled w' -> vagrees w' (vvars w) -> vrep w' a.
Proof using Type. intros (R & RI & RT & _) L A. unfold vrep. conj; auto; [intros n; now rewrite A|now rewrite A]. Qed.

Hypothesis Hne : TS <> [].

Lemma step_v t o w a x a' : vrep w a -> vspec moved dflt TS (t, o) a = Some (x, a') ->
  vsim (vexec moved dflt TS (t, o) w) x a'.
Proof using Hne.
  intros R0 Hs. unfold vexec, cbind at 1, arm. cbn [fst snd]. set (w0 := mkVW (vvars w) t (vlog w)).
  assert (R : vrep w0 a) by exact R0. assert (B : vboom w0 = t) by reflexivity.
  clearbody w0. clear w R0. rename w0 into w. pose proof R as (RV & RI & RT & L). unfold vspec in Hs. cbn [fst snd] in Hs.
  assert (RS : forall n k v, a n = Some (k, v) -> vvars w (U n) = Some (full k v)) by (intros n k v E; now rewrite RV, E).
  assert (RN : forall n, a n = None -> vvars w (U n) = None) by (intros n E; now rewrite RV, E).
  assert (L0 : 0 < List.length TS) by (destruct TS; [congruence|cbn; lia]).
  assert (SK : forall i j, U i <> U j -> i <> j) by (intros; congruence).
  assert (TL : forall y (i q : option nat) (t0 k : nat) v, forall w1 o, vled w1 -> vvars w1 y = Some o -> type_id o = i -> oper o = q -> vobj o = Some (t0, v) ->
     exists w2, (set_oper y (Some t0) ;; set_id y (Some k)) w1 = Ok w2 tt /\ vled w2 /\ vagrees w2 (vupd (vvars w1) y (Some (mkV (Some k) (Some t0) (Some (t0, v)))))).
  { intros y i q t0 k v w1 o1 L1 V1 _ _ O1. unfold cbind. destruct (set_oper_ok w1 y o1 (Some t0) L1 V1) as (w2 & -> & L2 & _ & A2).
    destruct (set_id_ok w2 y (mkV (type_id o1) (Some t0) (vobj o1)) (Some k) L2) as (w3 & -> & L3 & _ & A3). { rewrite A2. apply vupd_same. }
    exists w3. conj; auto. intros z. rewrite A3. cbn [oper vobj]. rewrite O1. cbv [vupd]. destruct (var_eqb_spec z y); auto. rewrite A2, vupd_other; auto. }
  destruct o as [i|i u v|i k v|mv i j|i|i u v|i k v|i u v|i j k|mv i j|i j|i|i|i u|i m|i j|i m|i u|i m|i m|i]; cbn [vspec_op vexec_op] in *; unfold vunit_; unfold cbind at 1.
  - destruct (a i) eqn:Ei; [discriminate|]. unfold make in Hs. unfold vnew. rewrite type_from_index_ty by auto. cbn zeta. fold (ty 0) in Hs. destruct t; injection Hs as <- <-.
    + destruct (vctor_throw w (U i) raw (build moved (U i) (ty 0) (VExt (dflt (ty 0))) false ;; set_oper (U i) (Some (ty 0)) ;; set_id (U i) (Some 0))) as (w' & -> & L' & A'); auto.
      { cbn zeta. unfold cbind at 1. rewrite (build_throw _ _ _ _ _ (dflt (ty 0))); auto. reflexivity. }
      split; auto. now apply (vrep_same w).
    + destruct (vnew_idx_ok w (U i) 0 (dflt (ty 0)) (ty 0) None None (set_oper (U i) (Some (ty 0)) ;; set_id (U i) (Some 0))) as (w' & E' & L' & A'); auto.
      { intros w1 o1 H1 H2 H3 H4 H5. eapply TL; eauto. }
      unfold raw. rewrite E'. split; auto. apply (vrep_upd w); auto. intros k v [= <- <-]. auto.
  - destruct (a i) eqn:Ei; [discriminate|]. destruct (first_of TS u) as [k|] eqn:Ef; [|discriminate]. destruct (first_of_spec u k Ef) as (Hk & Ht & Hi).
    unfold make in Hs. unfold vnew_val. rewrite Hi. destruct t; injection Hs as <- <-.
    + destruct (vctor_throw w (U i) (mkV (Some k) (Some u) None) (build moved (U i) u (VExt v) false)) as (w' & -> & L' & A'); auto.
      { cbn zeta. apply build_throw with (v := v); auto. reflexivity. }
      split; auto. now apply (vrep_same w).
    + destruct (vnew_idx_ok w (U i) k v u (Some k) (Some u) (ret tt)) as (w' & E' & L' & A'); auto.
      { intros w1 o1 L1 V1 H1 H2 H3. exists w1. conj; auto. intros z. cbv [vupd]. destruct (var_eqb_spec z (U i)); auto. subst z. rewrite V1. destruct o1; cbn in *; congruence. }
      assert (E2 : forall w1, (build moved (U i) u (VExt v) false ;; ret tt) w1 = build moved (U i) u (VExt v) false w1).
      { intros w1. unfold cbind, ret. destruct (build moved (U i) u (VExt v) false w1) as [? []| |]; auto. }
      assert (E3 : vctor (U i) (mkV (Some k) (Some u) None) (build moved (U i) u (VExt v) false) w = Ok w' tt).
      { rewrite <- E'. unfold vctor. cbv [put_var]. unfold cbind at 1. unfold cbind at 1. rewrite E2. reflexivity. }
      rewrite E3. split; auto. apply (vrep_upd w); auto; [intros k' v' [= <- <-]; auto|]. cbn [vimg]. unfold full. rewrite Ht. exact A'.
  - destruct (a i) eqn:Ei; [discriminate|]. destruct (Nat.ltb_spec k (List.length TS)) as [Hk|]; [|discriminate].
    unfold make in Hs. unfold vnew_idx. rewrite type_from_index_ty by auto. cbn zeta. destruct t; injection Hs as <- <-.
    + destruct (vctor_throw w (U i) (mkV (Some k) None None) (build moved (U i) (ty k) (VExt v) false ;; set_oper (U i) (Some (ty k)))) as (w' & -> & L' & A'); auto.
      { cbn zeta. unfold cbind at 1. rewrite (build_throw _ _ _ _ _ v); auto. reflexivity. }
      split; auto. now apply (vrep_same w).
    + destruct (vnew_idx_ok w (U i) k v (ty k) (Some k) None (set_oper (U i) (Some (ty k)))) as (w' & -> & L' & A'); auto.
      { intros w1 o1 L1 V1 H1 H2 H3. destruct (set_oper_ok w1 (U i) o1 (Some (ty k)) L1 V1) as (w2 & -> & L2 & _ & A2). exists w2. rewrite H1, H3 in A2. conj; auto. }
      split; auto. apply (vrep_upd w); auto. intros k' v' [= <- <-]. auto.
  - destruct (a i) eqn:Ei; [discriminate|]. destruct (a j) as [[k v]|] eqn:Ej; [|discriminate]. assert (N : U j <> U i) by congruence. destruct t; injection Hs as <- <-.
    + unfold vnew_from. unfold cbind at 1. cbv [take_var]. rewrite (RS j k v Ej). cbn [type_id oper full].
      destruct (vctor_throw w (U i) (mkV (Some k) (Some (ty k)) None) (cbind (index (U j)) (fun i0 => match i0 with Some _ => do_copy moved mv (U i) (U j) | None => set_id (U i) None end))) as (w' & -> & L' & A'); auto.
      { cbn zeta. unfold cbind at 1. rewrite (index_ok _ (U j) k v) by (cbn; rewrite vupd_other; auto). unfold do_copy, cbind. cbv [take_var]. cbn [vvars]. rewrite vupd_same. cbn [oper].
        apply build_throw with (v := v); auto. cbn. split; auto. exists (full k v). cbn. rewrite vupd_other; auto. }
      split; auto. now apply (vrep_same w).
    + destruct (vnew_from_ok w mv (U i) (U j) k v) as (w' & -> & L' & B' & A'); auto. split; auto. unfold vrep. conj; auto.
      * intros n. rewrite A'. destruct mv; cbv [vupd vset]; cbn [var_eqb].
        -- destruct (Nat.eqb_spec n i) as [->|]; [destruct (Nat.eqb_spec i j); [congruence|reflexivity]|]. destruct (n =? j); auto.
        -- destruct (n =? i); auto.
      * intros n k' v'. destruct mv; cbv [vset]; destruct (n =? j), (n =? i); try (intros [= <- <-]); eauto.
      * rewrite A'. destruct mv; rewrite !vupd_other by congruence; auto.
  - destruct (a i) as [[k v]|] eqn:Ei; [|discriminate]. injection Hs as <- <-.
    destruct (vdrop_ok w (U i) k v) as (w' & -> & L' & A'); auto. split; auto. apply (vrep_upd w); auto. congruence.
  - destruct (a i) as [[k v0]|] eqn:Ei; [|discriminate]. destruct (first_of TS u) as [m|] eqn:Ef; [|discriminate]. destruct (first_of_spec u m Ef) as (Hk & Ht & Hi).
    unfold change_ in Hs. destruct t; [discriminate|]. injection Hs as <- <-. unfold vemplace_t. rewrite Hi.
    destruct (replace_ok w (U i) k v0 u m (VExt v) v) as (w' & -> & L' & A'); auto; [reflexivity|]. split; auto.
    apply (vrep_upd w); auto; [intros ? ? [= <- <-]; auto|]. cbn [vimg]. unfold full. rewrite Ht. exact A'.
  - destruct (a i) as [[k0 v0]|] eqn:Ei; [|discriminate]. destruct (Nat.ltb_spec k (List.length TS)) as [Hk|]; [|discriminate].
    unfold change_ in Hs. destruct t; [discriminate|]. injection Hs as <- <-. unfold vemplace_i. rewrite type_from_index_ty by auto. cbn zeta.
    destruct (replace_ok w (U i) k0 v0 (ty k) k (VExt v) v) as (w' & -> & L' & A'); auto; [reflexivity|]. split; auto.
    apply (vrep_upd w); auto. intros ? ? [= <- <-]; auto.
  - destruct (a i) as [[k v0]|] eqn:Ei; [|discriminate]. destruct (first_of TS u) as [m|] eqn:Ef; [|discriminate]. destruct (first_of_spec u m Ef) as (Hk & Ht & Hi).
    unfold change_ in Hs. destruct t; [discriminate|]. injection Hs as <- <-. unfold vset_val. rewrite Hi.
    destruct (replace_ok w (U i) k v0 u m (VExt v) v) as (w' & -> & L' & A'); auto; [reflexivity|]. split; auto.
    apply (vrep_upd w); auto; [intros ? ? [= <- <-]; auto|]. cbn [vimg]. unfold full. rewrite Ht. exact A'.
  - destruct (a i) as [[k0 v0]|] eqn:Ei; [|discriminate]. destruct (a j) as [[l v]|] eqn:Ej; [|discriminate].
    destruct (Nat.eqb_spec k l) as [->|N].
    + destruct (Nat.eqb_spec i j) as [->|N]; [discriminate|]. fold (ty l) in Hs. destruct (first_of TS (ty l)) as [m|] eqn:Ef; [|discriminate].
      destruct (first_of_spec (ty l) m Ef) as (Hk & Ht & Hi). unfold change_ in Hs. destruct t; [discriminate|]. injection Hs as <- <-.
      unfold cbind at 1. rewrite (vget_ok w (U j) l v) by eauto. rewrite type_from_index_ty by eauto. unfold vset_val. rewrite Hi.
      destruct (replace_ok w (U i) k0 v0 (ty l) m (VIn (U j)) v) as (w' & -> & L' & A'); auto.
      { cbn. split; [congruence|]. exists (full l v). auto. }
      split; auto. apply (vrep_upd w); auto; [intros ? ? [= <- <-]; auto|]. cbn [vimg]. unfold full. rewrite Ht. exact A'.
    + destruct (Nat.ltb_spec k (List.length TS)); [|discriminate]. injection Hs as <- <-. unfold cbind at 1. rewrite (vget_no w (U j) l k v) by auto. split; auto.
  - destruct (a i) as [[k0 v0]|] eqn:Ei; [|discriminate]. destruct (a j) as [[k v]|] eqn:Ej; [|discriminate].
    destruct (Nat.eqb_spec i j) as [->|N].
    + injection Hs as <- <-. unfold vassign. rewrite var_eqb_refl. split; auto.
    + unfold change_ in Hs. destruct t; [discriminate|]. injection Hs as <- <-.
      destruct (vassign_ok w mv (U i) (U j) k0 v0 k v) as (w' & -> & L' & B' & A'); auto; [congruence|]. split; auto. unfold vrep. conj; auto.
      * intros n. rewrite A'. destruct mv; cbv [vupd vset]; cbn [var_eqb].
        -- destruct (Nat.eqb_spec n i) as [->|]; [destruct (Nat.eqb_spec i j); [congruence|reflexivity]|]. destruct (n =? j); auto.
        -- destruct (n =? i); auto.
      * intros n k' v'. destruct mv; cbv [vset]; destruct (n =? j), (n =? i); try (intros [= <- <-]); eauto.
      * rewrite A'. destruct mv; rewrite !vupd_other by congruence; auto.
  - destruct (a i) as [[k v]|] eqn:Ei; [|discriminate]. destruct (a j) as [[l u]|] eqn:Ej; [|discriminate].
    unfold change_ in Hs. destruct t; [discriminate|]. injection Hs as <- <-.
    destruct (vswap_ok w (U i) (U j) k v l u) as (w' & -> & L' & A'); auto; try congruence. split; auto. unfold vrep. conj; auto.
    + intros n. rewrite A'. cbv [vupd vset]. cbn [var_eqb]. destruct (n =? j); auto. destruct (n =? i); auto.
    + intros n k' v'. cbv [vset]; destruct (n =? j), (n =? i); try (intros [= <- <-]); eauto.
    + rewrite A'. auto.
  - destruct (a i) as [[k v]|] eqn:Ei; [|discriminate]. injection Hs as <- <-. rewrite (index_ok w (U i) k v) by auto. split; auto.
  - destruct (a i) as [[k v]|] eqn:Ei; [|discriminate]. injection Hs as <- <-. unfold valueless, cbind. rewrite (index_ok w (U i) k v) by auto. split; auto.
  - destruct (a i) as [[k v]|] eqn:Ei; [|discriminate]. destruct (first_of TS u) as [m|] eqn:Ef; [|discriminate]. destruct (first_of_spec u m Ef) as (Hk & Ht & Hi).
    injection Hs as <- <-. unfold holds_t, cbind. rewrite (index_ok w (U i) k v) by auto. rewrite Hi. cbn [is_id]. rewrite Nat.eqb_sym. split; auto.
  - destruct (a i) as [[k v]|] eqn:Ei; [|discriminate]. injection Hs as <- <-. unfold holds_i, cbind. rewrite (index_ok w (U i) k v) by auto. cbn [is_id]. rewrite Nat.eqb_sym. split; auto.
  - destruct (a i) as [[k v]|] eqn:Ei; [|discriminate]. destruct (a j) as [[l u]|] eqn:Ej; [|discriminate]. injection Hs as <- <-. unfold same_type, cbind.
    rewrite (index_ok w (U i) k v) by auto. rewrite (index_ok w (U j) l u) by auto. split; auto.
  - destruct (a i) as [[k v]|] eqn:Ei; [|discriminate]. destruct (Nat.ltb_spec m (List.length TS)); [|discriminate].
    destruct (Nat.eqb_spec k m) as [->|N]; injection Hs as <- <-.
    + rewrite (vget_ok w (U i) m v) by auto. split; auto.
    + rewrite (vget_no w (U i) k m v) by auto. split; auto.
  - destruct (a i) as [[k v]|] eqn:Ei; [|discriminate]. destruct (first_of TS u) as [m|] eqn:Ef; [|discriminate]. destruct (first_of_spec u m Ef) as (Hk & Ht & Hi).
    unfold vget_t. rewrite Hi. destruct (Nat.eqb_spec k m) as [->|N]; injection Hs as <- <-.
    + rewrite (vget_ok w (U i) m v) by auto. split; auto.
    + rewrite (vget_no w (U i) k m v) by auto. split; auto.
  - destruct (a i) as [[k v]|] eqn:Ei; [|discriminate]. destruct (Nat.ltb_spec m (List.length TS)); [|discriminate]. injection Hs as <- <-.
    unfold vget_if, cbind. rewrite (index_ok w (U i) k v) by auto. cbn [is_id]. rewrite Nat.eqb_sym. destruct (Nat.eqb_spec k m) as [->|N].
    + rewrite (vget_ok w (U i) m v) by auto. split; auto.
    + split; auto.
  - destruct (a i) as [[k v]|] eqn:Ei; [|discriminate]. destruct (Nat.eqb_spec k m) as [->|N]; [|discriminate]. injection Hs as <- <-.
    unfold vget_rv. rewrite type_from_index_ty by eauto. cbv [vread cbind take_var ret]. rewrite (RS i m v Ei). cbn [vobj full]. rewrite Nat.eqb_refl. split; auto.
  - destruct (a i) as [[k v]|] eqn:Ei; [|discriminate]. injection Hs as <- <-. unfold visit. rewrite (visit_ok w (U i) k v); eauto.
    + split; auto.
    + apply in_seq. specialize (RI i k v Ei). lia.
Qed.
End P.
