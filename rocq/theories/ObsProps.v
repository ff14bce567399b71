(** * C29: observable *)
From Coq Require Import List Arith Bool Lia.
From Verif Require Import Util ObsSpec ObsModel.
Import ListNotations.

Definition rel (l : list item) (s : obs) : Prop := registered s = map fst l /\ (forall it, In it l -> enabled s (fst it) = snd it).
Definition shape (N : nat) (l : list item) : Prop := NoDup (map fst l) /\ length l <= N.
Lemma find_cases x l : (find_observer x l = length l /\ ~ In x (map fst l)) \/ (exists a b e, l = a ++ (x, e) :: b /\ find_observer x l = length a /\ ~ In x (map fst a)).
Proof.
  induction l as [|(y, e) l IH]; [left; split; [reflexivity|intros []]|]. cbn [find_observer fst]. destruct (Nat.eqb_spec x y) as [->|N].
  - right. exists [], l, e. conj; [reflexivity|reflexivity|intros []].
  - destruct IH as [(E & Nin)|(a & b & e' & -> & E & Nin)].
    + left. split; [cbn; lia|]. cbn. intros [C|C]; [congruence|contradiction].
    + right. exists ((y, e) :: a), b, e'. conj; [reflexivity|cbn; lia|]. cbn. intros [C|C]; [congruence|contradiction].
Qed.
Lemma known_in x s : known x s = true <-> In x (registered s).
Proof. unfold known. rewrite existsb_exists. split; [intros (y & H & E); apply Nat.eqb_eq in E; now subst|]. intros H. exists x. split; [exact H|apply Nat.eqb_refl]. Qed.
Lemma known_not x s : known x s = false <-> ~ In x (registered s).
Proof. rewrite <- known_in. destruct (known x s); split; congruence. Qed.
Lemma find_in_mid x a b e : ~ In x (map fst a) -> find_observer x (a ++ (x, e) :: b) = length a.
Proof. induction a as [|(y, e') a IH]; cbn; intros N; [now rewrite Nat.eqb_refl|]. destruct (Nat.eqb_spec x y) as [->|]; [tauto|]. rewrite IH; tauto. Qed.
Lemma filter_neq l x : ~ In x l -> filter (fun y => negb (Nat.eqb y x)) l = l.
Proof. induction l as [|y l IH]; intros N; [reflexivity|]. cbn. destruct (Nat.eqb_spec y x) as [->|]; [exfalso; apply N; now left|]. cbn. f_equal. apply IH. intros C. apply N. now right. Qed.
Lemma loop_ok N react : (forall x, react x = []) -> forall b a fuel, length b <= fuel -> notify_loop N react fuel (length a) (a ++ b) = Some (map fst (filter snd b), a ++ b).
Proof.
  intros Hr. induction b as [|it b IH]; intros a fuel L.
  - destruct fuel; cbn; rewrite app_nil_r, Nat.eqb_refl; reflexivity.
  - destruct fuel as [|f]; [cbn in L; lia|]. cbn [notify_loop]. replace (Nat.eqb (length a) (length (a ++ it :: b))) with false by (symmetry; apply Nat.eqb_neq; rewrite app_length; cbn; lia).
    rewrite nth_error_app2, Nat.sub_diag by lia. cbn [nth_error]. rewrite Hr. cbn [fold_left].
    specialize (IH (a ++ [it]) f ltac:(cbn in L; lia)). rewrite <- app_assoc in IH. cbn [app] in IH. rewrite app_length in IH. cbn [length] in IH. rewrite Nat.add_1_r in IH. rewrite IH. cbn [filter]. destruct (snd it); reflexivity.
Qed.
Lemma op_ok N react : (forall x, react x = []) -> forall o l s, shape N l -> rel l s ->
  exists l', obs_op N react o l = Some (fst (o_step N o s), l') /\ shape N l' /\ rel l' (snd (o_step N o s)).
Proof.
  intros Hr o l s (Nd & Le) (R1 & R2).
  assert (K : forall x, (known x s = false /\ find_observer x l = length l /\ ~ In x (map fst l)) \/ (known x s = true /\ exists a b e, l = a ++ (x, e) :: b /\ find_observer x l = length a /\ ~ In x (map fst a) /\ ~ In x (map fst b))).
  { intros x. destruct (find_cases x l) as [(E & Nin)|(a & b & e & El & E & Nin)].
    - left. conj; try assumption. apply known_not. now rewrite R1.
    - right. split; [apply known_in; rewrite R1, El, map_app; apply in_app_iff; right; now left|]. exists a, b, e. conj; try assumption.
      rewrite El, map_app in Nd. cbn in Nd. apply NoDup_remove_2 in Nd. intros C. apply Nd. apply in_app_iff. now right. }
  assert (En : forall x b, shape N (enable_observer x b l) /\ rel (enable_observer x b l) (if known x s then set_enabled x b s else s)).
  { intros x b. unfold enable_observer. destruct (K x) as [(Kx & E & Nin)|(Kx & a & c & e & El & E & N1 & N2)]; rewrite E, Kx; cbv zeta.
    - rewrite Nat.eqb_refl. split; split; assumption.
    - assert (set_at l (length a) b = a ++ (x, b) :: c) as Es.
      { unfold set_at. rewrite El, nth_error_app2, Nat.sub_diag by lia. cbn [nth_error fst].
        rewrite firstn_app, firstn_all, Nat.sub_diag. cbn [firstn]. rewrite app_nil_r. do 2 f_equal.
        change (a ++ (x, e) :: c) with (a ++ [(x, e)] ++ c). rewrite app_assoc. replace (S (length a)) with (length (a ++ [(x, e)])) by (rewrite app_length; cbn; lia). rewrite skipn_app, skipn_all, Nat.sub_diag. reflexivity. }
      replace (Nat.eqb (length a) (length l)) with false by (symmetry; apply Nat.eqb_neq; rewrite El, app_length; cbn; lia). cbn [negb]. rewrite Es, El in *.
      split; split.
      + rewrite map_app in *. exact Nd.
      + rewrite app_length in *. exact Le.
      + cbn [registered set_enabled]. rewrite R1, !map_app. reflexivity.
      + intros (y, e') Hit. cbn [enabled set_enabled fst snd]. destruct (Nat.eqb_spec y x) as [->|Ny].
        * apply in_app_iff in Hit as [Hit|[Hit|Hit]]; [exfalso; apply N1; apply in_map_iff; now exists (x, e')|congruence|exfalso; apply N2; apply in_map_iff; now exists (x, e')].
        * apply (R2 (y, e')). rewrite in_app_iff in *. cbn in *. destruct Hit as [Hit|[Hit|Hit]]; [tauto|congruence|tauto]. }
  destruct o as [x|x|x b|x| | |]; cbn [obs_op o_step fst snd].
  - unfold add_observer. destruct (K x) as [(Kx & E & Nin)|(Kx & a & b & e & El & E & N1 & N2)]; rewrite E, Kx.
    + rewrite Nat.eqb_refl. rewrite R1, map_length. destruct (Nat.eqb_spec (length l) N) as [Z|Z]; cbn [negb].
      * replace (length l <? N) with false by (symmetry; apply Nat.ltb_ge; lia). eexists. conj; [reflexivity|split; assumption|split; assumption].
      * replace (length l <? N) with true by (symmetry; apply Nat.ltb_lt; lia). eexists. conj; [reflexivity| |].
        -- split; [rewrite map_app; cbn; apply NoDup_app_iff; conj; [exact Nd|repeat constructor; intros []|intros y Hy [<-|[]]; contradiction]|rewrite app_length; cbn; lia].
        -- split; [cbn; now rewrite map_app|]. intros (y, e) Hit. cbn [snd fst set_enabled enabled]. apply in_app_iff in Hit as [Hit|[Hit|[]]].
           ++ destruct (Nat.eqb_spec y x) as [->|Ny]; [exfalso; apply Nin; apply in_map_iff; now exists (x, e)|exact (R2 _ Hit)].
           ++ injection Hit as <- <-. now rewrite Nat.eqb_refl.
    + replace (Nat.eqb (length a) (length l)) with false by (symmetry; apply Nat.eqb_neq; rewrite El, app_length; cbn; lia). eexists. conj; [reflexivity|split; assumption|split; assumption].
  - unfold remove_observer. destruct (K x) as [(Kx & E & Nin)|(Kx & a & b & e & El & E & N1 & N2)]; rewrite E, Kx.
    + rewrite Nat.eqb_refl. eexists. conj; [reflexivity|split; assumption|]. split; [cbn; rewrite R1; now apply filter_neq|exact R2].
    + replace (Nat.eqb (length a) (length l)) with false by (symmetry; apply Nat.eqb_neq; rewrite El, app_length; cbn; lia). cbn [negb fst snd]. rewrite El in *. rewrite firstn_app, firstn_all, Nat.sub_diag. cbn [firstn]. rewrite app_nil_r. replace (skipn (S (length a)) (a ++ (x, e) :: b)) with b.
      2:{ change (a ++ (x, e) :: b) with (a ++ [(x, e)] ++ b). rewrite app_assoc. replace (S (length a)) with (length (a ++ [(x, e)])) by (rewrite app_length; cbn; lia). rewrite skipn_app, skipn_all, Nat.sub_diag. reflexivity. }
      eexists. conj; [reflexivity| |].
      * split; [rewrite map_app in *; cbn in Nd; now apply NoDup_remove_1 in Nd|rewrite app_length in *; cbn in Le; lia].
      * split; [cbn [registered]; rewrite R1, !map_app, filter_app; cbn [map fst filter]; rewrite Nat.eqb_refl; cbn [negb]; rewrite !filter_neq by assumption; reflexivity|].
        intros it Hit. apply R2. rewrite in_app_iff in *. cbn. tauto.
  - destruct (En x b) as (S' & R'). eauto.
  - destruct (En x false) as (S' & R'). eauto.
  - eexists. conj; [reflexivity|split; [constructor|cbn; lia]|split; [reflexivity|intros it []]].
  - rewrite R1, map_length. eexists. conj; [reflexivity|split; assumption|split; assumption].
  - pose proof (loop_ok N react Hr l [] (N + 1) ltac:(lia)) as Q. cbn [app length] in Q. rewrite Q.
    assert (map fst (filter snd l) = filter (enabled s) (map fst l)) as F.
    { clear - R2. induction l as [|it l IH]; [reflexivity|]. cbn. rewrite (R2 it) by now left. destruct (snd it); cbn; rewrite IH; try reflexivity; intros i Hi; apply R2; now right. }
    rewrite F, <- R1. exists l. conj; [reflexivity| |]; split; assumption.
Qed.

(** Every history of calls, with observers that do not call the observable while they are being notified: each call gives the result of ObsSpec.v;
    in particular each notification reaches exactly the registered enabled observers, once each and in the order of registration. *)
Theorem C29_history : forall (N : nat) (react : nat -> list oop), (forall x, react x = []) ->
  forall os, exists l, obs_ops N react os [] = Some (fst (o_steps N os {| registered := []; enabled := fun _ => true |}), l) /\
    NoDup (map fst l) /\ length l <= N /\ registered (snd (o_steps N os {| registered := []; enabled := fun _ => true |})) = map fst l.
Proof.
  intros N react Hr os. assert (forall os l s, shape N l -> rel l s -> exists l', obs_ops N react os l = Some (fst (o_steps N os s), l') /\ shape N l' /\ rel l' (snd (o_steps N os s))) as G.
  { clear os. induction os as [|o os IH]; intros l s S0 R; [exists l; conj; [reflexivity|exact S0|exact R]|]. cbn [obs_ops o_steps]. destruct (op_ok N react Hr o l s S0 R) as (l1 & -> & S1 & R1).
    destruct (o_step N o s) as (x & s1). cbn [fst snd] in *. destruct (IH l1 s1 S1 R1) as (l2 & -> & S2 & R2). destruct (o_steps N os s1) as (xs & s2). exists l2. conj; [reflexivity|exact S2|exact R2]. }
  destruct (G os [] {| registered := []; enabled := fun _ => true |}) as (l & E & (Nd & Le) & (R1 & _)); [split; [constructor|cbn; lia]|split; [reflexivity|intros it []]|].
  exists l. conj; assumption.
Qed.
(** FINDING: an observer that removes itself when notified makes the observable skip the one registered after it. *)
Theorem C29_removal_while_notifying_refuted : ~ (forall N react l ns l', NoDup (map fst l) -> length l <= N -> (forall x o, In o (react x) -> o = Oremove x) ->
  notify_loop N react (N + 1) 0 l = Some (ns, l') -> ns = map fst (filter snd l)).
Proof.
  intros C. specialize (C 2 (fun x => if Nat.eqb x 1 then [Oremove 1] else []) [(1, true); (2, true)] [1] [(2, true)]).
  assert ([1] = [1; 2]) as E; [|discriminate]. apply C.
  - repeat constructor; cbn; intuition discriminate.
  - cbn. lia.
  - intros x o. destruct (Nat.eqb_spec x 1) as [->|]; [intros [<-|[]]; reflexivity|intros []].
  - reflexivity.
Qed.
(** FINDING: an observer that clears the list when notified makes the iterator run past the end. *)
Theorem C29_clear_while_notifying_refuted : exists react, notify_loop 2 react 3 0 [(1, true); (2, true)] = None /\ (forall f, notify_loop 2 react f 0 [(1, true); (2, true)] = None).
Proof. exists (fun _ => [Oclear]). split; [reflexivity|]. intros [|[|f]]; reflexivity. Qed.
Example C29_case : obs_ops 2 (fun _ => []) [Oadd 7; Oadd 5; Oadd 7; Oadd 9; Onotify; Odisable 7; Onotify; Oremove 5; Oremove 5; Oadd 9; Oenable 7 true; Onotify; Ocount; Oclear; Onotify] [] =
  Some ([Ounit; Ounit; Ounit; Ofull; Onotified [7; 5]; Ounit; Onotified [5]; Ob true; Ob false; Ounit; Ounit; Onotified [7; 9]; On 2; Ounit; Onotified []], []).
Proof. reflexivity. Qed.
Print Assumptions C29_history.
Print Assumptions C29_removal_while_notifying_refuted.
Print Assumptions C29_clear_while_notifying_refuted.
