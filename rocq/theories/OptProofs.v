(** Proofs about the optional model. *)
From Coq Require Import List String Bool Arith Lia.
From Verif Require Import Cmd OptSpec OptModel Util.
Import ListNotations.

Lemma var_eqb_spec x y : reflect (x = y) (var_eqb x y).
Proof.
  destruct x as [n|], y as [m|]; cbn; try (constructor; congruence).
  destruct (Nat.eqb_spec n m); constructor; congruence.
Qed.
Lemma var_eqb_refl x : var_eqb x x = true. Proof. destruct (var_eqb_spec x x); congruence. Qed.

(** the number of occurrences of an event *)
Definition ev_eqb (d e : ev) : bool :=
  match d, e with Ctor x, Ctor y | Dtor x, Dtor y => var_eqb x y | _, _ => false end.
Fixpoint cnt (e : ev) (l : list ev) : nat :=
  match l with [] => 0 | d :: r => (if ev_eqb d e then 1 else 0) + cnt e r end.
Lemma cnt_snoc e l d : cnt e (l ++ [d]) = cnt e l + (if ev_eqb d e then 1 else 0).
Proof. induction l; cbn; [lia|rewrite IHl; lia]. Qed.

Section P.
Context {T : Type}.
Variables (moved : T -> T) (cmpT : T -> T -> comparison) (zero : T).
Notation world := (world T). Notation opt := (opt T).
Definition alive (o : option opt) : nat := match o with Some (mkOpt _ (Some _)) => 1 | _ => 0 end.
(** constructions and destructions pair up *)
Definition led (w : world) : Prop := forall x, cnt (Ctor x) (log w) = cnt (Dtor x) (log w) + alive (vars w x).
Definition img (o : option (option T)) : option opt :=
  match o with Some x => Some (mkOpt (match x with Some _ => true | None => false end) x) | None => None end.
Definition rep (w : world) (a : amap T) : Prop :=
  (forall n, vars w (U n) = img (a n)) /\ vars w Tmp = None /\ led w.

Hypothesis Hcmp : forall x y, cmpT y x = CompOpp (cmpT x y).


Definition isS (o : option T) : bool := match o with Some _ => true | None => false end.
Definition full (o : option T) : opt := mkOpt (isS o) o.
Lemma led_set w x o b d :
  led w -> (cnt (Ctor x) d + alive (vars w x) = cnt (Dtor x) d + alive o) ->
  (forall y, y <> x -> cnt (Ctor y) d = cnt (Dtor y) d) ->
  led (mkW (upd (vars w) x o) b (log w ++ d)).
Proof using Type.
  intros L E N y. cbn [log vars]. specialize (L y).
  assert (G : forall e, cnt e (log w ++ d) = cnt e (log w) + cnt e d)
    by (intros e; clear; induction (log w); cbn; lia).
  rewrite !G. cbv [upd]. destruct (var_eqb_spec y x); [subst; lia|]. rewrite (N y) by auto. lia.
Qed.
Lemma led_ext w w' : led w -> log w' = log w -> (forall y, alive (vars w' y) = alive (vars w y)) -> led w'.
Proof using Type. intros L E A x. rewrite E, A. apply L. Qed.

(** the source of a constructor argument denotes v *)
Definition src_is (w : world) (x : var) (s : src T) (v : T) : Prop :=
  match s with Ext u => u = v | In y => y <> x /\ exists p, vars w y = Some p /\ obj p = Some v end.
Definition after_move (w : world) (s : src T) (mv : bool) (v : T) : var -> option opt :=
  match s, mv with
  | In y, true => match vars w y with Some p => upd (vars w) y (Some (mkOpt (valid p) (Some (moved v)))) | None => vars w end
  | _, _ => vars w
  end.
Definition agrees (w' : world) (f : var -> option opt) : Prop := forall z, vars w' z = f z.

Lemma neq_eqb x y : x <> y -> var_eqb x y = false. Proof using Type. destruct (var_eqb_spec x y); congruence. Qed.

Lemma construct_at_ok w x b s mv v :
  led w -> vars w x = Some (mkOpt b None) -> src_is w x s v -> boom w = false ->
  exists w', construct_at moved x s mv w = Ok w' tt /\ led w' /\ boom w' = false /\
    agrees w' (upd (after_move w s mv v) x (Some (mkOpt b (Some v)))).
Proof using Type.
  intros L Vx Hs B. cbv [construct_at cbind].
  assert (R : read s w = Ok w v).
  { destruct s; cbn in *; [now subst|]. destruct Hs as (N & p & Ep & Eo). cbv [cbind get_var]. now rewrite Ep, Eo. }
  rewrite R, B. cbv [get_var]. rewrite Vx. cbn [obj valid]. cbv [set_var note cbind]. cbn [vars boom log].
  assert (L1 : led (mkW (upd (vars w) x (Some (mkOpt b (Some v)))) (boom w) (log w ++ [Ctor x]))).
  { apply led_set; auto.
    - cbn. rewrite Vx, var_eqb_refl. reflexivity.
    - intros y N. cbn. rewrite neq_eqb; auto. }
  rewrite B in L1.
  destruct s as [u|y]; [|destruct mv].
  - eexists; split; [reflexivity|]. conj; auto. now intros z.
  - destruct Hs as (N & p & Ep & Eo). cbv [get_var upd]. cbn [vars]. rewrite neq_eqb by auto. rewrite Ep.
    eexists; split; [reflexivity|]. conj; auto.
    + eapply led_ext; [exact L1|reflexivity|]. intros z. cbn [vars]. cbv [upd].
      destruct (var_eqb_spec z y); auto. subst z. rewrite neq_eqb by auto. rewrite Ep. destruct p as [q o]; cbn in Eo |- *. now subst.
    + intros z. cbn [vars]. cbv [after_move upd]. rewrite Ep. destruct (var_eqb_spec z y); auto. subst z. now rewrite neq_eqb by auto.
  - eexists; split; [reflexivity|]. conj; auto. now intros z.
Qed.
Lemma construct_at_throw w x s mv v : src_is w x s v -> boom w = true ->
  construct_at moved x s mv w = Ex w "T".
Proof using Type.
  intros Hs B. cbv [construct_at cbind].
  assert (R : read s w = Ok w v).
  { destruct s; cbn in *; [now subst|]. destruct Hs as (N & p & Ep & Eo). cbv [cbind get_var]. now rewrite Ep, Eo. }
  now rewrite R, B.
Qed.
Lemma destroy_at_ok w x b v : led w -> vars w x = Some (mkOpt b (Some v)) ->
  exists w', destroy_at x w = Ok w' tt /\ led w' /\ boom w' = boom w /\ agrees w' (upd (vars w) x (Some (mkOpt b None))).
Proof using Type.
  intros L Vx. cbv [destroy_at cbind get_var]. rewrite Vx. cbn [obj valid]. cbv [set_var note cbind]. cbn [vars boom log].
  eexists; split; [reflexivity|]. conj; auto; [|now intros z].
  apply led_set; auto.
  - cbn. rewrite Vx, var_eqb_refl. reflexivity.
  - intros y N. cbn. now rewrite neq_eqb by auto.
Qed.
Lemma set_valid_ok w x b c o : led w -> vars w x = Some (mkOpt b o) ->
  exists w', set_valid x c w = Ok w' tt /\ led w' /\ boom w' = boom w /\ agrees w' (upd (vars w) x (Some (mkOpt c o))).
Proof using Type.
  intros L Vx. cbv [set_valid cbind get_var]. rewrite Vx. cbn [obj]. cbv [set_var].
  eexists; split; [reflexivity|]. conj; auto; [|now intros z].
  eapply led_ext; [exact L|reflexivity|]. intros y. cbn. cbv [upd]. destruct (var_eqb_spec y x); auto. subst. now rewrite Vx.
Qed.

(** after a destructive prefix the source still denotes v *)
Lemma src_is_agree w w' x s v o : agrees w' (upd (vars w) x o) -> src_is w x s v -> src_is w' x s v.
Proof using Type.
  intros A. destruct s as [u|y]; cbn; auto. intros (N & p & Ep & Eo). split; auto. exists p. rewrite A. cbv [upd]. now rewrite neq_eqb by auto.
Qed.
Lemma after_move_agree w w' x s mv v o : agrees w' (upd (vars w) x o) -> src_is w x s v ->
  forall q z, upd (after_move w' s mv v) x q z = upd (after_move w s mv v) x q z.
Proof using Type.
  intros A Hs q z. cbv [upd]. destruct (var_eqb_spec z x); auto.
  destruct s as [u|y]; [|destruct mv]; cbn [after_move].
  - rewrite A. cbv [upd]. now rewrite neq_eqb by auto.
  - destruct Hs as (N & p & Ep & Eo). rewrite A. cbv [upd]. rewrite neq_eqb by auto. rewrite Ep.
    destruct (var_eqb_spec z y); auto. rewrite A. cbv [upd]. now rewrite neq_eqb by auto.
  - rewrite A. cbv [upd]. now rewrite neq_eqb by auto.
Qed.

Lemma construct_n_ok w x o s mv v :
  led w -> vars w x = Some (full o) -> src_is w x s v -> boom w = false ->
  exists w', construct_n moved x s mv w = Ok w' tt /\ led w' /\ boom w' = false /\
    agrees w' (upd (after_move w s mv v) x (Some (full (Some v)))).
Proof using Type.
  intros L Vx Hs B. cbv [construct_n cbind get_var]. rewrite Vx. cbn [valid full].
  assert (P : exists w1, (if isS o then destroy_at x else ret tt) w = Ok w1 tt /\ led w1 /\ boom w1 = false /\
     agrees w1 (upd (vars w) x (Some (mkOpt (isS o) None)))).
  { destruct o as [u|]; cbn [isS].
    - destruct (destroy_at_ok w x true u) as (w1 & E & L1 & B1 & A1); auto. exists w1. rewrite B1. auto.
    - exists w. conj; auto. intros z. cbv [upd]. destruct (var_eqb_spec z x); subst; auto. }
  destruct P as (w1 & -> & L1 & B1 & A1).
  destruct (construct_at_ok w1 x (isS o) s mv v) as (w2 & -> & L2 & B2 & A2); auto.
  { rewrite A1. cbv [upd]. now rewrite var_eqb_refl. }
  { eapply src_is_agree; eauto. }
  destruct (set_valid_ok w2 x (isS o) true (Some v)) as (w3 & E3 & L3 & B3 & A3); auto.
  { rewrite A2. cbv [upd]. now rewrite var_eqb_refl. }
  rewrite E3. exists w3. conj; auto; [congruence|]. intros z. rewrite A3. cbn [full isS].
  rewrite <- (after_move_agree w w1 x s mv v _ A1 Hs). cbv [upd].
  destruct (var_eqb_spec z x); auto. rewrite A2. cbv [upd]. now rewrite neq_eqb by auto.
Qed.
Lemma construct_n_throw w x s mv v :
  vars w x = Some (full None) -> src_is w x s v -> boom w = true -> construct_n moved x s mv w = Ex w "T".
Proof using Type.
  intros Vx Hs B. cbv [construct_n cbind get_var]. rewrite Vx. cbn [valid full isS]. cbv [ret].
  now rewrite (construct_at_throw w x s mv v).
Qed.
Lemma destroy_n_ok w x o : led w -> vars w x = Some (full o) ->
  exists w', destroy_n x w = Ok w' tt /\ led w' /\ boom w' = boom w /\ agrees w' (upd (vars w) x (Some (full None))).
Proof using Type.
  intros L Vx. cbv [destroy_n cbind get_var]. rewrite Vx. cbn [valid full].
  destruct o as [v|]; cbn [isS].
  - destruct (destroy_at_ok w x true v) as (w1 & -> & L1 & B1 & A1); auto.
    destruct (set_valid_ok w1 x true false None) as (w2 & E2 & L2 & B2 & A2); auto.
    { rewrite A1. cbv [upd]. now rewrite var_eqb_refl. }
    rewrite E2. exists w2. conj; auto; [congruence|]. intros z. rewrite A2. cbv [upd].
    destruct (var_eqb_spec z x); auto. rewrite A1. cbv [upd]. now rewrite neq_eqb by auto.
  - exists w. conj; auto. intros z. cbv [upd]. destruct (var_eqb_spec z x); subst; auto.
Qed.

Notation SN := (storage_n moved).
Notation bump w x o := (mkW (upd (vars w) x o) (boom w) (log w)).
Lemma led_new w x : led w -> vars w x = None -> led (bump w x (Some (full None))).
Proof using Type. intros L V. eapply led_ext; [exact L|reflexivity|]. intros y. cbn. cbv [upd]. destruct (var_eqb_spec y x); auto. subst. now rewrite V. Qed.
Lemma led_del w x : led w -> vars w x = Some (full None) -> led (bump w x None).
Proof using Type. intros L V. eapply led_ext; [exact L|reflexivity|]. intros y. cbn. cbv [upd]. destruct (var_eqb_spec y x); auto. subst. now rewrite V. Qed.
Lemma value_ok w x v : vars w x = Some (full (Some v)) -> value x w = Ok w v.
Proof using Type. intros V. cbv [value has_value get_var read cbind ret assert_]. rewrite V. cbn [valid full isS]. rewrite V. reflexivity. Qed.
Lemma value_no w x : vars w x = Some (full None) -> value x w = Ex w "optional_invalid".
Proof using Type. intros V. cbv [value has_value get_var read cbind ret assert_]. rewrite V. reflexivity. Qed.
Lemma has_value_ok w x o : vars w x = Some (full o) -> has_value x w = Ok w (isS o).
Proof using Type. intros V. cbv [has_value get_var read cbind ret]. now rewrite V. Qed.
Lemma upd_same f x o : upd (T := T) f x o x = o. Proof using Type. cbv [upd]. now rewrite var_eqb_refl. Qed.
Lemma upd_other f x o y : y <> x -> upd (T := T) f x o y = f y. Proof using Type. intros. cbv [upd]. now rewrite neq_eqb. Qed.
Lemma upd_upd f x o p y : upd (T := T) (upd f x o) x p y = upd f x p y.
Proof using Type. cbv [upd]. now destruct (var_eqb_spec y x). Qed.

Lemma new_val_ok w x s v : led w -> vars w x = None -> src_is w x s v -> boom w = false ->
  exists w', ctor SN x (construct_n moved x s false) w = Ok w' tt /\ led w' /\ boom w' = false /\ agrees w' (upd (vars w) x (Some (full (Some v)))).
Proof using Type.
  intros L V Hs B. cbv [ctor cbind set_var]. cbn [st_init storage_n]. change (mkOpt false None) with (full None).
  destruct (construct_n_ok (bump w x (Some (full None))) x None s false v) as (w2 & E2 & L2 & B2 & A2); auto.
  - now apply led_new.
  - cbn. now rewrite upd_same.
  - eapply src_is_agree; eauto. intros z. reflexivity.
  - rewrite E2. exists w2. conj; auto. intros z. rewrite A2.
    assert (Am : after_move (bump w x (Some (full None))) s false v = upd (vars w) x (Some (full None))) by (destruct s; reflexivity).
    rewrite Am. apply upd_upd.
Qed.
Lemma new_val_throw w x s v : led w -> vars w x = None -> src_is w x s v -> boom w = true ->
  exists w', ctor SN x (construct_n moved x s false) w = Ex w' "T" /\ led w' /\ agrees w' (vars w).
Proof using Type.
  intros L V Hs B. cbv [ctor cbind set_var]. cbn [st_init storage_n]. change (mkOpt false None) with (full None).
  rewrite (construct_n_throw (bump w x (Some (full None))) x s false v); auto.
  - eexists; split; [reflexivity|]. cbn [vars log boom].
    assert (A : forall z, upd (upd (vars w) x (Some (full None))) x None z = vars w z).
    { intros z. rewrite upd_upd. cbv [upd]. destruct (var_eqb_spec z x); subst; auto. }
    split; [|exact A]. eapply led_ext; [exact L|reflexivity|]. intros y. cbn [vars]. now rewrite A.
  - cbn. now rewrite upd_same.
  - eapply src_is_agree; eauto. intros z. reflexivity.
Qed.
Lemma new_empty_ok w x : led w -> vars w x = None ->
  exists w', new_empty SN x w = Ok w' tt /\ led w' /\ boom w' = boom w /\ agrees w' (upd (vars w) x (Some (full None))).
Proof using Type.
  intros L V. eexists; split; [reflexivity|]. cbn [ctor vars boom log st_init storage_n]. conj; auto; [now apply led_new|now intros z].
Qed.
Lemma new_copy_unfold w x y o : vars w x = None -> vars w y = Some (full o) ->
  new_copy SN x y w = match o with Some _ => ctor SN x (construct_n moved x (In y) false) w | None => new_empty SN x w end.
Proof using Type.
  intros Vx Vy. assert (N : y <> x) by congruence.
  cbv [new_copy new_empty ctor]. cbv [cbind set_var]. cbn [st_init storage_n]. change (mkOpt false None) with (full None).
  rewrite (has_value_ok _ y o) by (cbn; now rewrite upd_other).
  destruct o as [v|]; cbn [isS]; auto. rewrite (value_ok _ y v) by (cbn; now rewrite upd_other). reflexivity.
Qed.
Lemma new_copy_ok w x y o : led w -> vars w x = None -> vars w y = Some (full o) -> (o <> None -> boom w = false) ->
  exists w', new_copy SN x y w = Ok w' tt /\ led w' /\ boom w' = boom w /\ agrees w' (upd (vars w) x (Some (full o))).
Proof using Type.
  intros L Vx Vy B. rewrite (new_copy_unfold w x y o) by auto. destruct o as [v|].
  - assert (Bf : boom w = false) by (apply B; congruence). rewrite Bf.
    apply new_val_ok; auto. cbn. split; [congruence|]. eauto.
  - now apply new_empty_ok.
Qed.
Lemma assign_opt_ok w mv x y o p : led w -> x <> y -> vars w x = Some (full o) -> vars w y = Some (full p) ->
  (p <> None -> boom w = false) ->
  exists w', assign_opt SN mv x y w = Ok w' tt /\ led w' /\ boom w' = boom w /\
    agrees w' (upd (match p with Some v => if mv then upd (vars w) y (Some (full (Some (moved v)))) else vars w | None => vars w end) x (Some (full p))).
Proof using Type.
  intros L N Vx Vy B. cbv [assign_opt]. rewrite neq_eqb by auto. cbv [cbind]. rewrite (has_value_ok w y p) by auto.
  destruct p as [v|]; cbn [isS].
  - assert (Bf : boom w = false) by (apply B; congruence). rewrite (value_ok w y v) by auto. cbn [st_construct storage_n].
    destruct (construct_n_ok w x o (In y) mv v) as (w' & E & L' & B' & A'); auto.
    { cbn. split; [congruence|eauto]. }
    rewrite E. exists w'. conj; auto; [congruence|]. intros z. rewrite A'. cbn [after_move]. rewrite Vy. cbn [valid full isS].
    destruct mv; reflexivity.
  - cbn [st_destroy storage_n]. destruct (destroy_n_ok w x o) as (w' & E & L' & B' & A'); auto.
    rewrite E. exists w'. conj; auto.
Qed.
Lemma assign_opt_throw w mv x y v : x <> y -> vars w x = Some (full None) -> vars w y = Some (full (Some v)) -> boom w = true ->
  assign_opt SN mv x y w = Ex w "T".
Proof using Type.
  intros N Vx Vy B. cbv [assign_opt]. rewrite neq_eqb by auto. cbv [cbind]. rewrite (has_value_ok w y (Some v)) by auto. cbn [isS].
  rewrite (value_ok w y v) by auto. cbn [st_construct storage_n]. apply construct_n_throw with (v := v); auto.
  cbn. split; [congruence|eauto].
Qed.
Lemma drop_ok w x o : led w -> vars w x = Some (full o) ->
  exists w', drop SN x w = Ok w' tt /\ led w' /\ boom w' = boom w /\ agrees w' (upd (vars w) x None).
Proof using Type.
  intros L V. cbv [drop cbind]. cbn [st_dtor storage_n]. destruct (destroy_n_ok w x o) as (w1 & -> & L1 & B1 & A1); auto.
  eexists; split; [reflexivity|]. cbn [boom]. conj; auto.
  - apply led_del; auto. rewrite A1. apply upd_same.
  - intros z. cbn [vars]. cbv [upd]. destruct (var_eqb_spec z x); auto. rewrite A1. cbv [upd]. now rewrite neq_eqb.
Qed.
Lemma swap_ok w x y o p : led w -> boom w = false -> vars w Tmp = None -> x <> Tmp -> y <> Tmp ->
  vars w x = Some (full o) -> vars w y = Some (full p) ->
  exists w', swap SN x y w = Ok w' tt /\ led w' /\ agrees w' (upd (upd (vars w) x (Some (full p))) y (Some (full o))).
Proof using Type.
  intros L B VT Nx Ny Vx Vy. cbv [swap]. unfold cbind at 1.
  destruct (new_copy_ok w Tmp x o) as (w1 & -> & L1 & B1 & A1); auto. cbv [finally]. unfold cbind at 1.
  assert (V1x : vars w1 x = Some (full o)) by (rewrite A1, upd_other; auto).
  assert (V1y : vars w1 y = Some (full p)) by (rewrite A1, upd_other; auto).
  assert (V1T : vars w1 Tmp = Some (full o)) by (rewrite A1; apply upd_same).
  assert (P : exists w2, assign_opt SN false x y w1 = Ok w2 tt /\ led w2 /\ boom w2 = false /\ agrees w2 (upd (vars w1) x (Some (full p)))).
  { destruct (var_eqb_spec x y) as [<-|N].
    - cbv [assign_opt]. rewrite var_eqb_refl. exists w1. conj; auto; [congruence|]. intros z. cbv [upd].
      destruct (var_eqb_spec z x); subst; auto; congruence.
    - destruct (assign_opt_ok w1 false x y o p) as (w2 & E & L2 & B2 & A2); auto; [congruence|]. exists w2. conj; auto; [congruence|].
      intros z. rewrite A2. destruct p; reflexivity. }
  destruct P as (w2 & -> & L2 & B2 & A2).
  assert (V2y : vars w2 y = Some (full p)).
  { rewrite A2. cbv [upd]. destruct (var_eqb_spec y x); auto. }
  assert (V2T : vars w2 Tmp = Some (full o)) by (rewrite A2, upd_other; auto).
  destruct (assign_opt_ok w2 false y Tmp p o) as (w3 & E3 & L3 & B3 & A3); auto. rewrite E3.
  assert (A3' : agrees w3 (upd (vars w2) y (Some (full o)))) by (intros z; rewrite A3; destruct o; reflexivity).
  destruct (drop_ok w3 Tmp o) as (w4 & E4 & L4 & B4 & A4); auto.
  { rewrite A3', upd_other; auto. }
  rewrite E4. exists w4. conj; auto. intros z. rewrite A4. cbv [upd].
  destruct (var_eqb_spec z Tmp) as [->|N].
  - rewrite !neq_eqb by auto. auto.
  - rewrite A3'. cbv [upd]. destruct (var_eqb_spec z y); auto. rewrite A2. cbv [upd].
    destruct (var_eqb_spec z x); auto. rewrite A1, upd_other; auto.
Qed.
Lemma emplace03_ok w x o v : led w -> vars w x = Some (full o) -> boom w = false ->
  exists w', emplace03_n moved x (Ext v) w = Ok w' tt /\ led w' /\ agrees w' (upd (vars w) x (Some (full (Some v)))).
Proof using Type.
  intros L V B. cbv [emplace03_n]. unfold cbind at 1. cbv [get_var]. rewrite V. cbn [valid full]. unfold cbind at 1.
  assert (P : exists w1, (if isS o then destroy_n x else ret tt) w = Ok w1 tt /\ led w1 /\ boom w1 = false /\ agrees w1 (upd (vars w) x (Some (full None)))).
  { destruct o; cbn [isS].
    - destruct (destroy_n_ok w x (Some t)) as (w1 & E & L1 & B1 & A1); auto. exists w1. rewrite B1. auto.
    - exists w. conj; auto. intros z. cbv [upd]. destruct (var_eqb_spec z x); subst; auto. }
  destruct P as (w1 & -> & L1 & B1 & A1). unfold cbind at 1.
  destruct (construct_at_ok w1 x false (Ext v) false v) as (w2 & -> & L2 & B2 & A2); auto.
  { rewrite A1. apply upd_same. } { reflexivity. }
  destruct (set_valid_ok w2 x false true (Some v)) as (w3 & E3 & L3 & B3 & A3); auto.
  { rewrite A2. apply upd_same. }
  rewrite E3. exists w3. conj; auto. intros z. rewrite A3. cbv [upd]. destruct (var_eqb_spec z x); auto.
  rewrite A2. cbv [upd after_move]. rewrite neq_eqb by auto. rewrite A1. now rewrite upd_other.
Qed.
Lemma emplace03_throw w x o v : led w -> vars w x = Some (full o) -> boom w = true ->
  exists w', emplace03_n moved x (Ext v) w = Ex w' "T" /\ led w' /\ agrees w' (upd (vars w) x (Some (full None))).
Proof using Type.
  intros L V B. cbv [emplace03_n]. unfold cbind at 1. cbv [get_var]. rewrite V. cbn [valid full]. unfold cbind at 1.
  assert (P : exists w1, (if isS o then destroy_n x else ret tt) w = Ok w1 tt /\ led w1 /\ boom w1 = true /\ agrees w1 (upd (vars w) x (Some (full None)))).
  { destruct o; cbn [isS].
    - destruct (destroy_n_ok w x (Some t)) as (w1 & E & L1 & B1 & A1); auto. exists w1. rewrite B1. auto.
    - exists w. conj; auto. intros z. cbv [upd]. destruct (var_eqb_spec z x); subst; auto. }
  destruct P as (w1 & -> & L1 & B1 & A1). unfold cbind at 1.
  rewrite (construct_at_throw w1 x (Ext v) false v); auto; [|reflexivity]. exists w1. auto.
Qed.

(** ** Comparisons (both storages) *)
Lemma cmp_ok (w : world) (a : amap T) c l r x y :
  (forall n, match a n with Some o => exists q, vars w (U n) = Some q /\ valid q = isS o /\ (forall v, o = Some v -> obj q = Some v) | None => True end) ->
  (has_var l || has_var r) = true -> operand_value a l = Some x -> operand_value a r = Some y ->
  compare cmpT c l r w = Ok w (test c (ocmp cmpT x y)).
Proof using Hcmp.
  intros H Hv Hl Hr.
  assert (HV : forall n o, a n = Some o -> has_value (U n) w = Ok w (isS o)).
  { intros n o E. specialize (H n). rewrite E in H. destruct H as (q & Eq & Ev & _). cbv [has_value get_var cbind ret]. now rewrite Eq, Ev. }
  assert (VV : forall n v, a n = Some (Some v) -> value (U n) w = Ok w v).
  { intros n v E. unfold value, cbind. rewrite (HV n _ E). cbn [isS assert_]. specialize (H n). rewrite E in H.
    destruct H as (q & Eq & _ & Ev). cbv [read get_var cbind assert_]. rewrite Eq, (Ev v eq_refl). reflexivity. }
  assert (EQ : forall i j o p, a i = Some o -> a j = Some p -> op_eq cmpT (U i) (U j) w = Ok w (test CEq (ocmp cmpT o p))).
  { intros i j o p Ei Ej. unfold op_eq, cbind. rewrite (HV i o Ei), (HV j p Ej).
    destruct o, p; cbn [isS negb Bool.eqb andb ret]; try reflexivity. rewrite (VV i _ Ei), (VV j _ Ej). cbv [ret eqT ocmp test]. reflexivity. }
  assert (LT : forall i j o p, a i = Some o -> a j = Some p -> op_lt cmpT (U i) (U j) w = Ok w (test CLt (ocmp cmpT o p))).
  { intros i j o p Ei Ej. unfold op_lt, cbind. rewrite (HV j p Ej), (HV i o Ei).
    destruct o, p; cbn [isS negb]; try reflexivity. rewrite (VV i _ Ei), (VV j _ Ej). cbv [ret ltT ocmp test]. reflexivity. }
  assert (SY : forall o p, ocmp cmpT p o = CompOpp (ocmp cmpT o p)) by (intros [u|] [v|]; cbn; auto).
  destruct l as [i| |u], r as [j| |v]; try discriminate; cbn [operand_value] in Hl, Hr; cbn [compare].
  - destruct c; cbn [cmp_oo]; unfold not_, cbind, ret; rewrite ?(EQ i j x y), ?(LT i j x y), ?(LT j i y x) by auto; f_equal;
      rewrite ?(SY x y); destruct (ocmp cmpT x y); reflexivity.
  - injection Hr as <-. destruct c; cbn [cmp_on]; unfold not_, cbind, ret; rewrite ?(HV i x Hl); destruct x; reflexivity.
  - injection Hr as <-. destruct c; cbn [cmp_ov]; unfold not_, cbind, ret; rewrite ?(HV i x Hl); destruct x as [u|]; cbn [isS];
      rewrite ?(VV i u Hl); try reflexivity; cbv [eqT ltT leT gtT geT ocmp test]; destruct (cmpT u v); reflexivity.
  - injection Hl as <-. destruct c; cbn [cmp_no]; unfold not_, cbind, ret; rewrite ?(HV j y Hr); destruct y; reflexivity.
  - injection Hl as <-. destruct c; cbn [cmp_vo]; unfold not_, cbind, ret; rewrite ?(HV j y Hr); destruct y as [v|]; cbn [isS];
      rewrite ?(VV j v Hr); try reflexivity; cbv [eqT ltT leT gtT geT ocmp test]; rewrite ?(Hcmp u v); destruct (cmpT u v); reflexivity.
Qed.

(** ** One step *)
Lemma img_full o : img (Some o) = Some (full o). Proof using Type. now destruct o. Qed.
Definition simulates (m : Out world (ores T)) (x : obs (ores T)) (a' : amap T) : Prop :=
  match m with Ok w' r => x = Returned r /\ rep w' a' | Ex w' e => x = Threw e /\ rep w' a' | Bad => False end.
Lemma rep_upd w w' a i o : rep w a -> led w' -> agrees w' (upd (vars w) (U i) (match o with Some q => Some (full q) | None => None end)) ->
  rep w' (aset a i o).
Proof using Type.
  intros (R & RT & _) L A. unfold rep; conj; auto.
  - intros n. rewrite A. cbv [upd aset]. cbn [var_eqb]. destruct (n =? i); auto; now destruct o; rewrite ?img_full.
  - rewrite A. auto.
Qed.
Lemma rep_same w w' a : rep w a -> led w' -> agrees w' (vars w) -> rep w' a.
Proof using Type. intros (R & RT & _) L A. unfold rep; conj; auto; [intros n; now rewrite A|now rewrite A]. Qed.

Lemma step_n t o w a x a' : rep w a -> spec moved cmpT false (t, o) a = Some (x, a') ->
  simulates (exec cmpT SN (t, o) w) x a'.
Proof using Hcmp.
  intros R0 Hs. unfold exec, cbind at 1. cbn [fst snd]. set (w0 := mkW (vars w) t (log w)).
  assert (R : rep w0 a) by (destruct R0 as (R & RT & L); unfold rep; conj; auto). assert (B : boom w0 = t) by reflexivity.
  clearbody w0. clear w R0. rename w0 into w. pose proof R as (RV & RT & L). cbn [spec fst snd] in Hs. unfold spec in Hs. cbn [fst snd] in Hs.
  assert (RS : forall n q, a n = Some q -> vars w (U n) = Some (full q)) by (intros n q E; now rewrite RV, E, img_full).
  assert (RN : forall n, a n = None -> vars w (U n) = None) by (intros n E; now rewrite RV, E).
  destruct o as [i|i v|i j|i|i|mv i j|i v|i j|i v|i v|i|i j|i|i|i v|c l r]; cbn [spec_op exec_op] in *; unfold unit_, cbind.
  - destruct (a i) eqn:Ei; [discriminate|]. injection Hs as <- <-.
    destruct (new_empty_ok w (U i)) as (w' & -> & L' & B' & A'); auto. split; auto. now apply (rep_upd w _ a i (Some None)).
  - destruct (a i) eqn:Ei; [discriminate|]. unfold put in Hs. unfold new_value. cbn [st_construct storage_n]. destruct t.
    + injection Hs as <- <-. destruct (new_val_throw w (U i) (Ext v) v) as (w' & -> & L' & A'); auto; [reflexivity|].
      split; auto. now apply (rep_same w).
    + injection Hs as <- <-. destruct (new_val_ok w (U i) (Ext v) v) as (w' & -> & L' & B' & A'); auto; [reflexivity|].
      split; auto. now apply (rep_upd w _ a i (Some (Some v))).
  - destruct (a i) eqn:Ei; [discriminate|]. destruct (a j) as [[v|]|] eqn:Ej; [| |discriminate].
    + unfold put in Hs. destruct t.
      * injection Hs as <- <-. rewrite (new_copy_unfold w (U i) (U j) (Some v)) by auto.
        destruct (new_val_throw w (U i) (In (U j)) v) as (w' & -> & L' & A'); auto.
        { cbn. split; [congruence|]. exists (full (Some v)). auto. }
        split; auto. now apply (rep_same w).
      * injection Hs as <- <-. destruct (new_copy_ok w (U i) (U j) (Some v)) as (w' & -> & L' & B' & A'); auto.
        split; auto. now apply (rep_upd w _ a i (Some (Some v))).
    + injection Hs as <- <-. destruct (new_copy_ok w (U i) (U j) None) as (w' & -> & L' & B' & A'); auto; [congruence|].
      split; auto. now apply (rep_upd w _ a i (Some None)).
  - destruct (a i) as [q|] eqn:Ei; [|discriminate]. injection Hs as <- <-.
    destruct (drop_ok w (U i) q) as (w' & -> & L' & B' & A'); auto. split; auto. now apply (rep_upd w _ a i None).
  - destruct (a i) as [q|] eqn:Ei; [|discriminate]. injection Hs as <- <-.
    unfold assign_null, cbind. rewrite (has_value_ok w (U i) q) by auto. cbn [st_destroy storage_n].
    destruct q as [v|]; cbn [isS].
    + destruct (destroy_n_ok w (U i) (Some v)) as (w' & -> & L' & B' & A'); auto. split; auto. now apply (rep_upd w _ a i (Some None)).
    + split; auto. apply (rep_upd w _ a i (Some None)); auto. intros z. cbv [upd]. destruct (var_eqb_spec z (U i)); subst; auto.
  - destruct (a i) as [q|] eqn:Ei; [|discriminate]. destruct (a j) as [p|] eqn:Ej; [|discriminate].
    destruct (Nat.eqb_spec i j) as [<-|N].
    + injection Hs as <- <-. unfold assign_opt. rewrite var_eqb_refl. split; auto.
    + assert (N' : U i <> U j) by congruence. destruct p as [v|].
      * unfold put in Hs. destruct t.
        -- destruct q; [discriminate|]. injection Hs as <- <-. rewrite (assign_opt_throw w mv (U i) (U j) v) by auto. split; auto.
        -- injection Hs as <- <-. destruct (assign_opt_ok w mv (U i) (U j) q (Some v)) as (w' & -> & L' & B' & A'); auto.
           split; auto. destruct mv; cbn [andb negb].
           ++ unfold rep; conj; auto.
              ** intros n. rewrite A'. cbv [upd aset]. cbn [var_eqb]. rewrite RV.
                 destruct (Nat.eqb_spec n i) as [->|]; [|now destruct (Nat.eqb_spec n j)]. destruct (Nat.eqb_spec i j); [congruence|]. reflexivity.
              ** rewrite A'. auto.
           ++ now apply (rep_upd w _ a i (Some (Some v))).
      * injection Hs as <- <-. destruct (assign_opt_ok w mv (U i) (U j) q None) as (w' & -> & L' & B' & A'); auto; [congruence|].
        split; auto. now apply (rep_upd w _ a i (Some None)).
  - destruct (a i) as [q|] eqn:Ei; [|discriminate]. unfold put in Hs. unfold assign_value. cbn [st_construct storage_n]. destruct t.
    + destruct q; [discriminate|]. injection Hs as <- <-. rewrite (construct_n_throw w (U i) (Ext v) false v) by (auto; reflexivity). split; auto.
    + injection Hs as <- <-. destruct (construct_n_ok w (U i) q (Ext v) false v) as (w' & -> & L' & B' & A'); auto; [reflexivity|].
      split; auto. now apply (rep_upd w _ a i (Some (Some v))).
  - destruct (a i) as [q|] eqn:Ei; [|discriminate]. destruct (a j) as [[v|]|] eqn:Ej; [| |discriminate].
    + destruct (Nat.eqb_spec i j) as [<-|N]; cbn [andb negb] in Hs; [discriminate|].
      unfold assign_held, cbind. rewrite (value_ok w (U j) v) by auto. cbn [st_construct storage_n]. unfold put in Hs.
      assert (Hsrc : src_is w (U i) (In (U j)) v) by (cbn; split; [congruence|]; exists (full (Some v)); auto).
      destruct t.
      * destruct q; [discriminate|]. injection Hs as <- <-. rewrite (construct_n_throw w (U i) (In (U j)) false v) by auto. split; auto.
      * injection Hs as <- <-. destruct (construct_n_ok w (U i) q (In (U j)) false v) as (w' & -> & L' & B' & A'); auto.
        split; auto. now apply (rep_upd w _ a i (Some (Some v))).
    + injection Hs as <- <-. unfold assign_held, cbind. rewrite (value_no w (U j)) by auto. split; auto.
  - destruct (a i) as [q|] eqn:Ei; [|discriminate]. unfold put in Hs. unfold emplace. cbn [st_construct storage_n]. destruct t.
    + destruct q; [discriminate|]. injection Hs as <- <-. rewrite (construct_n_throw w (U i) (Ext v) false v) by (auto; reflexivity). split; auto.
    + injection Hs as <- <-. destruct (construct_n_ok w (U i) q (Ext v) false v) as (w' & -> & L' & B' & A'); auto; [reflexivity|].
      split; auto. now apply (rep_upd w _ a i (Some (Some v))).
  - destruct (a i) as [q|] eqn:Ei; [|discriminate]. unfold emplace03. cbn [st_emplace03 storage_n]. destruct t; injection Hs as <- <-.
    + destruct (emplace03_throw w (U i) q v) as (w' & -> & L' & A'); auto. split; auto. now apply (rep_upd w _ a i (Some None)).
    + destruct (emplace03_ok w (U i) q v) as (w' & -> & L' & A'); auto. split; auto. now apply (rep_upd w _ a i (Some (Some v))).
  - destruct (a i) as [q|] eqn:Ei; [|discriminate]. injection Hs as <- <-. unfold reset. cbn [st_destroy storage_n].
    destruct (destroy_n_ok w (U i) q) as (w' & -> & L' & B' & A'); auto. split; auto. now apply (rep_upd w _ a i (Some None)).
  - destruct (a i) as [q|] eqn:Ei; [|discriminate]. destruct (a j) as [p|] eqn:Ej; [|discriminate].
    destruct t; [discriminate|]. injection Hs as <- <-.
    destruct (swap_ok w (U i) (U j) q p) as (w' & -> & L' & A'); auto; try congruence. split; auto. unfold rep; conj; auto.
    + intros n. rewrite A'. cbv [upd aset]. cbn [var_eqb]. destruct (n =? j); [now rewrite img_full|]. destruct (n =? i); [now rewrite img_full|]. auto.
    + rewrite A'. auto.
  - destruct (a i) as [q|] eqn:Ei; [|discriminate]. injection Hs as <- <-. rewrite (has_value_ok w (U i) q) by auto. split; auto.
  - destruct (a i) as [[v|]|] eqn:Ei; [| |discriminate]; injection Hs as <- <-.
    + rewrite (value_ok w (U i) v) by auto. split; auto.
    + rewrite (value_no w (U i)) by auto. split; auto.
  - destruct (a i) as [q|] eqn:Ei; [|discriminate]. injection Hs as <- <-. unfold value_or, cbind. rewrite (has_value_ok w (U i) q) by auto.
    destruct q as [u|]; cbn [isS]; [rewrite (value_ok w (U i) u) by auto|]; split; auto.
  - destruct (has_var l || has_var r) eqn:Hv; [|discriminate].
    destruct (operand_value a l) as [p|] eqn:El; [|discriminate]. destruct (operand_value a r) as [q|] eqn:Er; [|discriminate].
    injection Hs as <- <-. rewrite (cmp_ok w a c l r p q); auto.
    + split; auto.
    + intros n. destruct (a n) eqn:En; auto. exists (full o). unfold rep; conj; auto.
Qed.

(** ** Fundamental types *)
Notation SF := (storage_f zero).
Definition repf (w : world) (a : amap T) : Prop :=
  (forall n, match a n with
             | None => vars w (U n) = None
             | Some o => exists q, vars w (U n) = Some q /\ valid q = isS o /\ obj q <> None /\ (forall v, o = Some v -> obj q = Some v)
             end) /\ vars w Tmp = None /\ log w = [].
Definition okf (w : world) (x : var) (o : option T) : Prop :=
  exists q, vars w x = Some q /\ valid q = isS o /\ obj q <> None /\ (forall v, o = Some v -> obj q = Some v).
Lemma has_value_f w x o : okf w x o -> has_value x w = Ok w (isS o).
Proof using Type. intros (q & V & E & _). cbv [has_value get_var cbind ret]. now rewrite V, E. Qed.
Lemma value_f w x v : okf w x (Some v) -> value x w = Ok w v.
Proof using Type.
  intros K. unfold value, cbind. rewrite (has_value_f w x (Some v) K). destruct K as (q & V & E & _ & O). cbv [isS assert_ read cbind get_var ret].
  now rewrite V, (O v eq_refl).
Qed.
Lemma value_f_no w x : okf w x None -> value x w = Ex w "optional_invalid".
Proof using Type. intros K. unfold value, cbind. now rewrite (has_value_f w x None K). Qed.
Lemma read_f w x v : okf w x (Some v) -> read (In x) w = Ok w v.
Proof using Type. intros (q & V & E & _ & O). cbv [read cbind get_var ret]. now rewrite V, (O v eq_refl). Qed.
Lemma repf_upd w a i q o b : repf w a -> valid q = isS o -> obj q <> None -> (forall v, o = Some v -> obj q = Some v) ->
  repf (mkW (upd (vars w) (U i) (Some q)) b (log w)) (aset a i (Some o)).
Proof using Type.
  intros (R & RT & L) E1 E2 E3. unfold repf; conj; cbn [vars log]; auto. intros n. cbv [upd aset]. cbn [var_eqb].
  destruct (n =? i); [eauto|apply R].
Qed.
Lemma repf_ext w w' a : repf w a -> (forall z, vars w' z = vars w z) -> log w' = log w -> repf w' a.
Proof using Type.
  intros (R & RT & L) E E2. unfold repf; conj; [|now rewrite E|congruence]. intros n. specialize (R n). rewrite E. exact R.
Qed.

Definition simulatesf (m : Out world (ores T)) (x : obs (ores T)) (a' : amap T) : Prop :=
  match m with Ok w' r => x = Returned r /\ repf w' a' | Ex w' e => x = Threw e /\ repf w' a' | Bad => False end.
Lemma construct_f_in (w : world) x y v mv : okf w y (Some v) -> construct_f x (In y) mv w = Ok (mkW (upd (vars w) x (Some (mkOpt true (Some v)))) (boom w) (log w)) tt.
Proof using Type. intros K. unfold construct_f, cbind. now rewrite (read_f w y v K). Qed.
Lemma destroy_f_ok w x o : okf w x o -> exists q, obj q <> None /\ valid q = false /\ destroy_f x w = Ok (mkW (upd (vars w) x (Some q)) (boom w) (log w)) tt.
Proof using Type.
  intros (q & V & E & N & O). unfold destroy_f, set_valid, cbind, get_var, set_var. rewrite V. eexists. conj; [| |reflexivity]; auto.
Qed.
Lemma okf_of w a i o : repf w a -> a i = Some o -> okf w (U i) o.
Proof using Type. intros (R & _) E. specialize (R i). rewrite E in R. exact R. Qed.
Lemma repf_del w a i b : repf w a -> repf (mkW (upd (vars w) (U i) None) b (log w)) (aset a i None).
Proof using Type.
  intros (R & RT & L). unfold repf; conj; cbn [vars log]; auto. intros n. cbv [upd aset]. cbn [var_eqb]. destruct (n =? i); [auto|apply R].
Qed.
(** assigning one optional to another, also the temporary of swap *)
Lemma assign_opt_f w mv x y o p : x <> y -> okf w x o -> okf w y p ->
  exists q, valid q = isS p /\ obj q <> None /\ (forall v, p = Some v -> obj q = Some v) /\
    assign_opt SF mv x y w = Ok (mkW (upd (vars w) x (Some q)) (boom w) (log w)) tt.
Proof using Type.
  intros N Kx Ky. unfold assign_opt. rewrite neq_eqb by auto. unfold cbind. rewrite (has_value_f w y p Ky). destruct p as [v|]; cbn [isS].
  - rewrite (value_f w y v Ky). cbn [st_construct storage_f]. rewrite (construct_f_in w x y v mv Ky).
    eexists. conj; [| | |reflexivity]; auto; cbn; congruence.
  - cbn [st_destroy storage_f]. destruct (destroy_f_ok w x o Kx) as (q & E1 & E2 & ->). exists q. conj; auto. congruence.
Qed.
Lemma new_copy_f w x y p : x <> y -> okf w y p ->
  exists q, valid q = isS p /\ obj q <> None /\ (forall v, p = Some v -> obj q = Some v) /\
    exists w', new_copy SF x y w = Ok w' tt /\ boom w' = boom w /\ log w' = log w /\ forall z, vars w' z = upd (vars w) x (Some q) z.
Proof using Type.
  intros N Ky. unfold new_copy, ctor, cbind, set_var. cbn [st_init storage_f].
  set (w1 := mkW (upd (vars w) x (Some (mkOpt false (Some zero)))) (boom w) (log w)).
  assert (K1 : okf w1 y p) by (destruct Ky as (q & V & H); exists q; split; auto; cbn; rewrite upd_other; auto).
  rewrite (has_value_f w1 y p K1). destruct p as [v|]; cbn [isS].
  - rewrite (value_f w1 y v K1). cbn [st_construct storage_f]. rewrite (construct_f_in w1 x y v false K1).
    exists (mkOpt true (Some v)). conj; auto; cbn; try congruence. eexists; split; [reflexivity|]. conj; auto. intros z. cbn. apply upd_upd.
  - exists (mkOpt false (Some zero)). conj; auto; cbn; try congruence. eexists; split; [reflexivity|]. conj; auto.
Qed.
Lemma okf_other w w' x q y o : (forall z, vars w' z = upd (vars w) x (Some q) z) -> y <> x -> okf w y o -> okf w' y o.
Proof using Type. intros E N (p & V & H). exists p. split; auto. rewrite E, upd_other; auto. Qed.
Lemma okf_this (w w' : world) x q o : (forall z, vars w' z = upd (vars w) x (Some q) z) -> valid q = isS o -> obj q <> None -> (forall v, o = Some v -> obj q = Some v) -> okf w' x o.
Proof using Type. intros E H1 H2 H3. exists q. rewrite E, upd_same. auto. Qed.

Lemma step_f t o w a x a' : repf w a -> spec moved cmpT true (t, o) a = Some (x, a') ->
  simulatesf (exec cmpT SF (t, o) w) x a'.
Proof using Hcmp.
  intros R0 Hs. unfold exec, cbind at 1. cbn [fst snd]. set (w0 := mkW (vars w) t (log w)).
  assert (R : repf w0 a) by exact R0.
  clearbody w0. clear w R0. rename w0 into w. pose proof R as (RV & RT & L). unfold spec in Hs. cbn [fst snd] in Hs.
  pose proof (fun i o => okf_of w a i o R) as K.
  destruct o as [i|i v|i j|i|i|mv i j|i v|i j|i v|i v|i|i j|i|i|i v|c l r]; cbn [spec_op exec_op] in *; unfold unit_, cbind.
  - destruct (a i) eqn:Ei; [discriminate|]. injection Hs as <- <-. unfold new_empty, ctor, cbind, set_var, ret. split; auto.
    apply (repf_upd w a i _ None); auto; cbn; congruence.
  - destruct (a i) eqn:Ei; [discriminate|]. unfold put in Hs. destruct t; [discriminate|]. injection Hs as <- <-.
    unfold new_value, ctor, cbind, set_var, ret. cbn [st_construct storage_f]. cbv [construct_f read cbind ret set_var]. cbn [vars boom log]. split; auto.
    eapply repf_ext; [apply (repf_upd w a i (mkOpt true (Some v)) (Some v) (boom w)); auto; cbn; congruence| |reflexivity].
    intros z. cbn. apply upd_upd.
  - destruct (a i) eqn:Ei; [discriminate|]. destruct (a j) as [p|] eqn:Ej; [|discriminate].
    assert (Hx : Some (x, a') = done (aset a i (Some p))).
    { rewrite <- Hs. destruct p; auto. unfold put. destruct t; auto. unfold put in Hs. discriminate. }
    injection Hx as -> ->.
    destruct (new_copy_f w (U i) (U j) p) as (q & E1 & E2 & E3 & w' & -> & B' & L' & A'); auto; [congruence|].
    split; auto. eapply repf_ext; [apply (repf_upd w a i q p (boom w)); auto| |]; auto.
  - destruct (a i) as [q|] eqn:Ei; [|discriminate]. injection Hs as <- <-. cbv [drop cbind set_var ret]. cbn [st_dtor storage_f]. cbv [ret].
    split; auto. now apply repf_del.
  - destruct (a i) as [q|] eqn:Ei; [|discriminate]. injection Hs as <- <-. unfold assign_null, cbind.
    rewrite (has_value_f w (U i) q) by auto. destruct q as [v|]; cbn [isS].
    + cbn [st_destroy storage_f]. destruct (destroy_f_ok w (U i) (Some v)) as (q & E1 & E2 & ->); auto. split; auto.
      apply repf_upd; auto. congruence.
    + split; auto. destruct (K i None Ei) as (q & V & H1 & H2 & H3).
      eapply repf_ext; [apply (repf_upd w a i q None (boom w)); auto| |reflexivity]. intros z. cbn. cbv [upd]. destruct (var_eqb_spec z (U i)); subst; auto.
  - destruct (a i) as [o|] eqn:Ei; [|discriminate]. destruct (a j) as [p|] eqn:Ej; [|discriminate].
    destruct (Nat.eqb_spec i j) as [<-|N].
    + injection Hs as <- <-. unfold assign_opt. rewrite var_eqb_refl. split; auto.
    + assert (Hx : Some (x, a') = done (aset a i (Some p))).
      { rewrite <- Hs. destruct p; auto. unfold put. destruct t; [unfold put in Hs; discriminate|]. now rewrite andb_false_r. }
      injection Hx as -> ->. destruct (assign_opt_f w mv (U i) (U j) o p) as (q & E1 & E2 & E3 & ->); auto; [congruence|].
      split; auto. apply repf_upd; auto.
  - destruct (a i) as [q|] eqn:Ei; [|discriminate]. unfold put in Hs. destruct t; [discriminate|]. injection Hs as <- <-.
    unfold assign_value. cbn [st_construct storage_f]. destruct w as [f b l]; cbn in *. split; auto. apply (repf_upd (mkW f b l)); auto; cbn; congruence.
  - destruct (a i) as [q|] eqn:Ei; [|discriminate]. destruct (a j) as [[v|]|] eqn:Ej; [| |discriminate].
    + rewrite andb_false_r in Hs. unfold put in Hs. destruct t; [discriminate|]. injection Hs as <- <-.
      unfold assign_held, cbind. rewrite (value_f w (U j) v) by auto. cbn [st_construct storage_f]. rewrite (construct_f_in w (U i) (U j) v) by auto.
      split; auto. apply repf_upd; auto; cbn; congruence.
    + injection Hs as <- <-. unfold assign_held, cbind. rewrite (value_f_no w (U j)) by auto. split; auto.
  - destruct (a i) as [q|] eqn:Ei; [|discriminate]. unfold put in Hs. destruct t; [discriminate|]. injection Hs as <- <-.
    unfold emplace. cbn [st_construct storage_f]. destruct w as [f b l]; cbn in *. split; auto. apply (repf_upd (mkW f b l)); auto; cbn; congruence.
  - destruct (a i) as [q|] eqn:Ei; [|discriminate]. destruct t; [discriminate|]. injection Hs as <- <-.
    unfold emplace03. cbn [st_emplace03 storage_f]. unfold emplace03_f, cbind, get_var. destruct (K i q Ei) as (p & V & E1 & E2 & E3). rewrite V.
    assert (P : exists w1, (if valid p then destroy_f (U i) else ret tt) w = Ok w1 tt /\ boom w1 = boom w /\ log w1 = log w /\ (exists u, forall z, vars w1 z = upd (vars w) (U i) (Some u) z)).
    { destruct (valid p) eqn:Ev.
      - destruct (destroy_f_ok w (U i) q (K i q Ei)) as (u & H1 & H2 & ->). eexists; split; [reflexivity|]. conj; auto. exists u. auto.
      - exists w. conj; auto. exists p. intros z. cbv [upd]. destruct (var_eqb_spec z (U i)); subst; auto. }
    destruct P as (w1 & -> & B1 & L1 & u & A1). cbv [read ret set_var set_valid cbind get_var]. cbn [vars]. rewrite upd_same. cbn [obj].
    split; auto. eapply repf_ext; [apply (repf_upd w a i (mkOpt true (Some v)) (Some v) (boom w)); auto; cbn; congruence| |].
    + intros z. cbn [vars]. rewrite upd_upd. cbv [upd]. destruct (var_eqb_spec z (U i)); auto. rewrite A1. now rewrite upd_other.
    + cbn. auto.
  - destruct (a i) as [q|] eqn:Ei; [|discriminate]. injection Hs as <- <-. unfold reset. cbn [st_destroy storage_f].
    destruct (destroy_f_ok w (U i) q) as (u & E1 & E2 & ->); auto. split; auto. apply repf_upd; auto. congruence.
  - destruct (a i) as [o|] eqn:Ei; [|discriminate]. destruct (a j) as [p|] eqn:Ej; [|discriminate].
    destruct t; [discriminate|]. injection Hs as <- <-. unfold swap. unfold cbind at 1.
    destruct (new_copy_f w Tmp (U i) o) as (q & E1 & E2 & E3 & w1 & -> & B1 & L1 & A1); auto; [congruence|].
    unfold finally, cbind at 1.
    assert (K1i : okf w1 (U i) o) by (eapply okf_other; eauto; congruence).
    assert (K1j : okf w1 (U j) p) by (eapply okf_other; eauto; congruence).
    assert (K1T : okf w1 Tmp o) by (eapply okf_this; eauto).
    assert (P : exists w2 q2, assign_opt SF false (U i) (U j) w1 = Ok w2 tt /\ log w2 = log w1 /\ (forall z, vars w2 z = upd (vars w1) (U i) (Some q2) z) /\
      valid q2 = isS p /\ obj q2 <> None /\ (forall v, p = Some v -> obj q2 = Some v)).
    { destruct (Nat.eq_dec i j) as [<-|N].
      - assert (o = p) by congruence; subst p. unfold assign_opt. rewrite var_eqb_refl. destruct K1i as (q2 & V & H1 & H2 & H3). exists w1, q2. conj; auto.
        intros z. cbv [upd]. destruct (var_eqb_spec z (U i)); subst; auto.
      - destruct (assign_opt_f w1 false (U i) (U j) o p) as (q2 & H1 & H2 & H3 & ->); auto; [congruence|]. eexists _, q2. conj; auto. }
    destruct P as (w2 & q2 & -> & L2 & A2 & H1 & H2 & H3).
    assert (K2j : okf w2 (U j) p).
    { destruct (Nat.eq_dec i j) as [<-|N]; [eapply okf_this; eauto|eapply okf_other; eauto; congruence]. }
    assert (K2T : okf w2 Tmp o) by (eapply okf_other; eauto; congruence).
    destruct (assign_opt_f w2 false (U j) Tmp p o) as (q3 & F1 & F2 & F3 & ->); auto; [congruence|].
    unfold drop, cbind. cbn [st_dtor storage_f]. cbv [ret set_var]. split; auto.
    eapply repf_ext; [apply (repf_upd (mkW (upd (vars w) (U i) (Some q2)) true (log w)) (aset a i (Some p)) j q3 o true); auto; apply repf_upd; auto| |].
    + intros z. cbn [vars]. cbv [upd]. destruct (var_eqb_spec z Tmp) as [->|Nz]; [cbn; auto|].
      destruct (var_eqb_spec z (U j)); auto. rewrite A2. cbv [upd]. destruct (var_eqb_spec z (U i)); auto. rewrite A1. now rewrite upd_other.
    + cbn. congruence.
  - destruct (a i) as [q|] eqn:Ei; [|discriminate]. injection Hs as <- <-. rewrite (has_value_f w (U i) q) by auto. split; auto.
  - destruct (a i) as [[v|]|] eqn:Ei; [| |discriminate]; injection Hs as <- <-.
    + rewrite (value_f w (U i) v) by auto. split; auto.
    + rewrite (value_f_no w (U i)) by auto. split; auto.
  - destruct (a i) as [q|] eqn:Ei; [|discriminate]. injection Hs as <- <-. unfold value_or, cbind. rewrite (has_value_f w (U i) q) by auto.
    destruct q as [u|]; cbn [isS]; [rewrite (value_f w (U i) u) by auto|]; split; auto.
  - destruct (has_var l || has_var r) eqn:Hv; [|discriminate].
    destruct (operand_value a l) as [p|] eqn:El; [|discriminate]. destruct (operand_value a r) as [q|] eqn:Er; [|discriminate].
    injection Hs as <- <-. rewrite (cmp_ok w a c l r p q); auto.
    + split; auto.
    + intros n. specialize (RV n). destruct (a n) eqn:En; auto. destruct RV as (u & H1 & H2 & _ & H3). eauto.
Qed.

(** ** Scoped histories satisfy the specification *)
Lemma scoped_spec fund l a o : (forall n, l n = match a n with Some _ => true | None => false end) ->
  forall l', scoped_op fund l o = Some l' ->
  exists x a', spec moved cmpT fund (false, o) a = Some (x, a') /\ (forall n, l' n = match a' n with Some _ => true | None => false end).
Proof using Type.
  intros H l' Hs. unfold spec. cbn [fst snd].
  assert (HA : forall i o, forall n, lset l i (match o with Some _ => true | None => false end) n = match aset (T := T) a i o n with Some _ => true | None => false end).
  { intros i q n. cbv [lset aset]. destruct (n =? i); auto. }
  assert (HB : forall i q b, (forall n, l n = match b n with Some _ => true | None => false end) -> l i = true ->
      forall n, l n = match aset (T := T) b i (Some q) n with Some _ => true | None => false end).
  { intros i q b Hb Hi n. cbv [aset]. destruct (Nat.eqb_spec n i); auto. now subst. }
  pose proof (fun i o => HA i (Some o)) as HS. pose proof (fun i => HA i None) as HN. cbn in HS, HN.
  destruct o as [i|i v|i j|i|i|mv i j|i v|i j|i v|i v|i|i j|i|i|i v|c x y]; cbn [scoped_op spec_op] in *;
    try (pose proof (H i) as Hi; rewrite Hi in Hs; destruct (a i) as [q|] eqn:Ei; try discriminate Hs; cbn [andb negb] in Hs).
  - injection Hs as <-. do 2 eexists. split; [reflexivity|]. apply HS.
  - injection Hs as <-. do 2 eexists. split; [reflexivity|]. apply HS.
  - pose proof (H j) as Hj. rewrite Hj in Hs. destruct (a j) as [[v|]|] eqn:Ej; try discriminate Hs; injection Hs as <-; do 2 eexists; (split; [reflexivity|]; apply HS).
  - injection Hs as <-. do 2 eexists. split; [reflexivity|]. apply HN.
  - injection Hs as <-. do 2 eexists. split; [reflexivity|]. apply HB; auto.
  - pose proof (H j) as Hj. rewrite Hj in Hs. destruct (a j) as [p|] eqn:Ej; try discriminate Hs. injection Hs as <-.
    destruct (i =? j); [do 2 eexists; split; [reflexivity|]; auto|]. destruct p as [v|]; [|do 2 eexists; split; [reflexivity|]; apply HB; auto].
    do 2 eexists. split; [reflexivity|]. destruct (mv && negb fund); [apply HB; auto; apply HB; auto|]. apply HB; auto.
  - injection Hs as <-. do 2 eexists. split; [reflexivity|]. apply HB; auto.
  - pose proof (H j) as Hj. rewrite Hj in Hs. destruct (a j) as [[v|]|] eqn:Ej; try discriminate Hs.
    + cbn [andb] in Hs. destruct fund; cbn [orb negb andb] in *; rewrite ?andb_true_r, ?andb_false_r.
      * injection Hs as <-. do 2 eexists. split; [reflexivity|]. apply HB; auto.
      * destruct (i =? j); [discriminate|]. injection Hs as <-. do 2 eexists. split; [reflexivity|]. apply HB; auto.
    + cbn [andb] in Hs; destruct (fund || negb (i =? j)); [|discriminate]. injection Hs as <-. do 2 eexists. split; [reflexivity|]. auto.
  - injection Hs as <-. do 2 eexists. split; [reflexivity|]. apply HB; auto.
  - injection Hs as <-. do 2 eexists. split; [reflexivity|]. apply HB; auto.
  - injection Hs as <-. do 2 eexists. split; [reflexivity|]. apply HB; auto.
  - pose proof (H j) as Hj. rewrite Hj in Hs. destruct (a j) as [p|] eqn:Ej; try discriminate Hs. injection Hs as <-.
    do 2 eexists. split; [reflexivity|]. apply HB; auto.
  - injection Hs as <-. do 2 eexists. split; [reflexivity|]. auto.
  - injection Hs as <-. destruct q; do 2 eexists; (split; [reflexivity|]; auto).
  - injection Hs as <-. do 2 eexists. split; [reflexivity|]. auto.
  - destruct x as [i| |u], y as [j| |v]; try discriminate Hs; cbn [has_var orb operand_value];
      repeat match goal with E : context [l ?k] |- _ => rewrite (H k) in E; destruct (a k) eqn:?; try discriminate E end;
      injection Hs as <-; do 2 eexists; (split; [reflexivity|]; auto).
Qed.
Lemma scoped_run fund h : forall l a, (forall n, l n = match a n with Some _ => true | None => false end) -> scoped fund l h ->
  exists xs a', spec_run (spec moved cmpT fund) (map (fun o => (false, o)) h) a = Some (xs, a').
Proof using Type.
  induction h as [|o r IH]; intros l a H Hs; cbn [map spec_run scoped] in *; [eauto|].
  destruct (scoped_op fund l o) as [l'|] eqn:E; [|contradiction].
  destruct (scoped_spec fund l a o H l' E) as (x & a1 & -> & H1). destruct (IH l' a1 H1 Hs) as (xs & a2 & ->). eauto.
Qed.
End P.
