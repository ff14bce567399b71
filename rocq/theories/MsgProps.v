(** * C28: message routers, buses and brokers *)
From Coq Require Import List Arith Bool Lia Sorted.
From Verif Require Import Util SortModel AlgoSpec AlgoProps FlatProofs MsgSpec MsgModel.
Import ListNotations.

Section Bus.
  Variable obj : nat -> router.
  Variable succ : option router.
  Variable N : nat.
  Hypothesis ids : forall a, rid (obj a) < 256.
  Local Notation by_id := (by_id obj).
  Local Notation id a := (rid (obj a)).
  Definition at_id (s : list nat) (k : nat) : list nat := filter (fun a => Nat.eqb (id a) k) s.
  Definition below (s : list nat) (k : nat) : list nat := flat_map (at_id s) (seq 0 k).
  Definition above (s : list nat) (k : nat) : list nat := flat_map (at_id s) (seq (S k) (255 - k)).
  Lemma by_id_split s k : k < 256 -> by_id s = below s k ++ at_id s k ++ above s k.
  Proof.
    intros Hk. unfold MsgSpec.by_id, below, above. replace (seq 0 256) with (seq 0 k ++ k :: seq (S k) (255 - k)).
    - rewrite flat_map_app. reflexivity.
    - transitivity (seq 0 (k + S (255 - k))); [rewrite seq_app; reflexivity|f_equal; lia].
  Qed.
  Lemma in_below s k a : In a (below s k) -> id a < k.
  Proof. intros H. apply in_flat_map in H as (j & Hj & H). apply filter_In in H as (_ & H). apply Nat.eqb_eq in H. apply in_seq in Hj. lia. Qed.
  Lemma in_above s k a : In a (above s k) -> k < id a.
  Proof. intros H. apply in_flat_map in H as (j & Hj & H). apply filter_In in H as (_ & H). apply Nat.eqb_eq in H. apply in_seq in Hj. lia. Qed.
  Lemma in_at s k a : In a (at_id s k) -> id a = k.
  Proof. intros H. apply filter_In in H as (_ & H). now apply Nat.eqb_eq. Qed.
  Lemma flat_ext (s s' : list nat) js : (forall j, In j js -> at_id s j = at_id s' j) -> flat_map (at_id s) js = flat_map (at_id s') js.
  Proof. induction js as [|j js IH]; intros H; [reflexivity|]. cbn. rewrite H, IH; [reflexivity| |now left]. intros; apply H; now right. Qed.
  Lemma by_id_change s s' k : k < 256 -> (forall j, j <> k -> at_id s' j = at_id s j) -> by_id s' = below s k ++ at_id s' k ++ above s k.
  Proof.
    intros Hk H. rewrite (by_id_split s' k Hk). unfold below, above. rewrite (flat_ext s' s (seq 0 k)), (flat_ext s' s (seq (S k) _)); [reflexivity| |]; intros j Hj; apply in_seq in Hj; apply H; lia.
  Qed.
  Lemma bound_at {p : nat -> bool} {l a b} : l = a ++ b -> Forall (fun x => p x = true) a -> Forall (fun x => p x = false) b -> lower_bound_by l p = Some (length a).
  Proof.
    intros -> Fa Fb. destruct (bound_split p (a ++ b)) as (r & E & L & F1 & F2); [exists a, b; conj; try assumption; reflexivity|]. rewrite E. f_equal.
    eapply split_unique; eassumption.
  Qed.
  Lemma lower_ok s k : k < 256 -> lower_id obj (by_id s) k = Some (length (below s k)).
  Proof.
    intros Hk. unfold lower_id. eapply bound_at; [apply (by_id_split s k Hk)| |]; apply Forall_forall; intros a Ha.
    - apply in_below in Ha. now apply Nat.ltb_lt.
    - apply in_app_iff in Ha as [Ha|Ha]; [apply in_at in Ha|apply in_above in Ha]; apply Nat.ltb_ge; lia.
  Qed.
  Lemma upper_ok s k : k < 256 -> upper_id obj (by_id s) k = Some (length (below s k ++ at_id s k)).
  Proof.
    intros Hk. unfold upper_id. change (lower_bound_by (by_id s) (fun x => negb (k <? id x)) = Some (length (below s k ++ at_id s k))).
    eapply bound_at; [rewrite (by_id_split s k Hk), app_assoc; reflexivity| |]; apply Forall_forall; intros a Ha.
    - apply in_app_iff in Ha as [Ha|Ha]; [apply in_below in Ha|apply in_at in Ha]; apply negb_true_iff, Nat.ltb_ge; lia.
    - apply in_above in Ha. apply negb_false_iff. now apply Nat.ltb_lt.
  Qed.
  Lemma upper_big s d : 256 <= d -> upper_id obj (by_id s) d = Some (length (by_id s)) /\ lower_id obj (by_id s) d = Some (length (by_id s)).
  Proof.
    intros Hd. split.
    - change (lower_bound_by (by_id s) (fun x => negb (d <? id x)) = Some (length (by_id s))). apply (@bound_at _ _ (by_id s) []); [now rewrite app_nil_r| |constructor].
      apply Forall_forall. intros a _. apply negb_true_iff, Nat.ltb_ge. specialize (ids a). lia.
    - apply (@bound_at _ _ (by_id s) []); [now rewrite app_nil_r| |constructor]. apply Forall_forall. intros a _. apply Nat.ltb_lt. specialize (ids a). lia.
  Qed.
  Lemma at_none s d : 256 <= d -> at_id s d = [].
  Proof. intros Hd. unfold at_id. induction s as [|a s IH]; [reflexivity|]. cbn. replace (Nat.eqb (id a) d) with false; [exact IH|]. symmetry. apply Nat.eqb_neq. specialize (ids a). lia. Qed.
  Lemma length_flat (js : list nat) s : NoDup js -> (forall a, In a s -> In (id a) js) -> length (flat_map (at_id s) js) = length s.
  Proof.
    intros Nd H. induction s as [|a s IH].
    - clear. induction js; [reflexivity|exact IHjs].
    - assert (forall js', NoDup js' -> length (flat_map (at_id (a :: s)) js') = (if existsb (Nat.eqb (id a)) js' then 1 else 0) + length (flat_map (at_id s) js')) as G.
      { clear. induction js' as [|j js IH]; intros Nd; [reflexivity|]. inversion Nd as [|? ? Nj Nd']; subst. cbn [flat_map existsb]. rewrite !app_length, (IH Nd'). unfold at_id at 1. cbn [filter]. fold (at_id s j). destruct (Nat.eqb_spec (id a) j) as [E|E].
        - replace (existsb (Nat.eqb (id a)) js) with false. + cbn. lia.
          + symmetry. rewrite <- not_true_iff_false, existsb_exists. intros (y & Hy & Ey). apply Nat.eqb_eq in Ey. subst. congruence.
        - cbn [orb]. lia. }
      rewrite (G js Nd), IH by (intros; apply H; now right). replace (existsb (Nat.eqb (id a)) js) with true; [reflexivity|]. symmetry. apply existsb_exists. exists (id a). split; [apply H; now left|apply Nat.eqb_refl].
  Qed.
  Lemma length_by_id s : length (by_id s) = length s.
  Proof. apply length_flat; [apply seq_NoDup|]. intros a _. apply in_seq. specialize (ids a). lia. Qed.
  Lemma in_by_id s a : In a (by_id s) <-> In a s.
  Proof.
    unfold MsgSpec.by_id. rewrite in_flat_map. split; [intros (k & _ & H); now apply filter_In in H|]. intros H. exists (id a). split; [apply in_seq; specialize (ids a); lia|].
    apply filter_In. split; [exact H|apply Nat.eqb_refl].
  Qed.
  Lemma deliver_ok l m : deliver obj l m = flat_map (fun a => recv (obj a) m) (filter (fun a => accepts (obj a) m) l).
  Proof. induction l as [|a l IH]; [reflexivity|]. cbn. rewrite IH. destruct (accepts (obj a) m); reflexivity. Qed.
  Lemma deliver_to_ok l d m : deliver_to obj l d m = flat_map (fun a => recv_to (obj a) d m) l.
  Proof. induction l as [|a l IH]; [reflexivity|]. cbn. now rewrite IH. Qed.
  Lemma filter_filter {A} (p q : A -> bool) l : filter p (filter q l) = filter (fun x => q x && p x) l.
  Proof. induction l as [|a l IH]; [reflexivity|]. cbn. destruct (q a); cbn; [destruct (p a)|]; now rewrite IH. Qed.
  Lemma find_not a l r : ~ In a l -> find_ptr a (l ++ r) = length l + find_ptr a r.
  Proof. induction l as [|b l IH]; intros H; [reflexivity|]. cbn. destruct (Nat.eqb_spec b a) as [->|]; [exfalso; apply H; now left|]. rewrite IH; [reflexivity|]. intros C; apply H; now right. Qed.
  Lemma find_le a l : find_ptr a l <= length l.
  Proof. induction l as [|b l IH]; [cbn; lia|]. cbn. destruct (Nat.eqb b a); lia. Qed.
  Lemma unsub_first a l : bus_unsubscribe_router a l = remove_first a l.
  Proof.
    unfold bus_unsubscribe_router. induction l as [|b l IH]; [reflexivity|]. cbn [find_ptr remove_first]. rewrite (Nat.eqb_sym a b). destruct (Nat.eqb_spec b a) as [->|Ne]; [reflexivity|].
    cbn [length Nat.eqb firstn skipn app]. destruct (negb (Nat.eqb (find_ptr a l) (length l))); [|now rewrite <- IH]. now rewrite <- IH.
  Qed.
  Lemma remove_not a l r : ~ In a l -> remove_first a (l ++ r) = l ++ remove_first a r.
  Proof. induction l as [|b l IH]; intros H; [reflexivity|]. cbn. destruct (Nat.eqb_spec a b) as [->|]; [exfalso; apply H; now left|]. rewrite IH; [reflexivity|]. intros C; apply H; now right. Qed.
  Lemma remove_absent a l : ~ In a l -> remove_first a l = l.
  Proof. intros H. rewrite <- (app_nil_r l) at 1. rewrite remove_not by exact H. cbn. apply app_nil_r. Qed.
  Lemma remove_app a l r : In a l -> remove_first a (l ++ r) = remove_first a l ++ r.
  Proof. induction l as [|b l IH]; intros H; [destruct H|]. cbn. destruct (Nat.eqb_spec a b) as [->|Ne]; [reflexivity|]. destruct H as [H|H]; [congruence|]. now rewrite IH. Qed.
  Lemma remove_filter a (p : nat -> bool) l : filter p (remove_first a l) = if p a then remove_first a (filter p l) else filter p l.
  Proof.
    induction l as [|b l IH]; [cbn; now destruct (p a)|]. cbn [remove_first filter]. destruct (Nat.eqb_spec a b) as [->|Ne].
    - destruct (p b); [cbn; now rewrite Nat.eqb_refl|reflexivity].
    - cbn [filter]. rewrite IH. destruct (p a) eqn:Ea, (p b) eqn:Eb; try reflexivity. cbn. apply Nat.eqb_neq in Ne. now rewrite Ne.
  Qed.
  Lemma op_ok o s : length s <= N -> exists l', bus_op obj succ N o (by_id s) = Some (fst (b_step obj succ N o s), l') /\ l' = by_id (snd (b_step obj succ N o s)) /\ length (snd (b_step obj succ N o s)) <= N.
  Proof.
    intros L. assert (Rx : forall d m, bus_receive obj succ (by_id s) d m = Some (bus_events obj succ s d m)).
    { intros d m. unfold bus_receive, bus_events, all_routers. destruct (Nat.eqb_spec d 253) as [->|Nd]; [now rewrite deliver_ok|].
      rewrite (lower_ok s 254) by lia.
      assert (exists i j, lower_id obj (by_id s) d = Some i /\ upper_id obj (by_id s) d = Some j /\ firstn (j - i) (skipn i (by_id s)) = at_id s d) as (i & j & -> & -> & E).
      { destruct (Nat.lt_ge_cases d 256) as [H|H].
        - exists (length (below s d)), (length (below s d ++ at_id s d)). conj; [now apply lower_ok|now apply upper_ok|].
          rewrite (by_id_split s d H), skipn_app, skipn_all, Nat.sub_diag, app_length. cbn [skipn app]. replace (length (below s d) + length (at_id s d) - length (below s d)) with (length (at_id s d)) by lia.
          rewrite firstn_app, firstn_all, Nat.sub_diag. cbn [firstn]. apply app_nil_r.
        - destruct (upper_big s d H) as (E1 & E2). exists (length (by_id s)), (length (by_id s)). conj; try assumption. now rewrite Nat.sub_diag, at_none. }
      rewrite E, deliver_ok, deliver_to_ok. unfold at_id at 1. rewrite filter_filter. do 4 f_equal.
      rewrite (by_id_split s 254) at 1 by lia. rewrite skipn_app, skipn_all, Nat.sub_diag. cbn [skipn app]. rewrite (by_id_split s 254) by lia.
      rewrite !filter_app, filter_nothing, filter_all, filter_all; [reflexivity| | |]; apply Forall_forall.
      - intros a Ha. apply in_above in Ha. unfold bus_id. apply Nat.leb_le. lia.
      - intros a Ha. apply in_at in Ha. unfold bus_id. apply Nat.leb_le. lia.
      - intros a Ha. apply in_below in Ha. unfold bus_id. apply Nat.leb_gt. lia. }
    destruct o as [a|d|a| | |m|m|d m]; cbn [bus_op b_step fst snd].
    - unfold bus_subscribe. destruct (consumer (obj a)); cbn [negb fst snd]; [|eauto]. rewrite length_by_id. destruct (Nat.eqb_spec (length s) N) as [E|E]; cbn [negb].
      + replace (length s <? N) with false by (symmetry; apply Nat.ltb_ge; lia). eauto.
      + replace (length s <? N) with true by (symmetry; apply Nat.ltb_lt; lia). rewrite upper_ok by apply ids. eexists. conj; [reflexivity| |cbn; rewrite app_length; cbn; lia]. cbn [snd].
        rewrite (by_id_change s (s ++ [a]) (id a) (ids a)).
        * rewrite (by_id_split s (id a)) by apply ids. rewrite app_assoc. rewrite firstn_app, skipn_app, firstn_all, skipn_all, Nat.sub_diag. cbn [firstn skipn app]. rewrite app_nil_r.
          unfold at_id at 2. rewrite filter_app. cbn [filter]. rewrite Nat.eqb_refl, <- !app_assoc. reflexivity.
        * intros j Hj. unfold at_id. rewrite filter_app. cbn [filter]. replace (Nat.eqb (id a) j) with false by (symmetry; apply Nat.eqb_neq; congruence). apply app_nil_r.
    - unfold bus_unsubscribe_id, all_routers. destruct (Nat.eqb_spec d 253) as [->|Nd]; [eexists; conj; [reflexivity|reflexivity|cbn; lia]|].
      assert (length (filter (fun a => negb (Nat.eqb (id a) d)) s) <= N) as L2. { etransitivity; [|exact L]. clear. induction s as [|a s IH]; [reflexivity|]. cbn. destruct (negb _); cbn; lia. }
      destruct (Nat.lt_ge_cases d 256) as [H|H].
      + rewrite lower_ok, upper_ok by exact H. eexists. conj; [reflexivity| |exact L2]. rewrite (by_id_change s (filter (fun a => negb (Nat.eqb (id a) d)) s) d H).
        * rewrite (by_id_split s d H). rewrite firstn_app, firstn_all, Nat.sub_diag. cbn [firstn]. rewrite app_nil_r. f_equal. rewrite app_assoc, skipn_app, skipn_all, Nat.sub_diag. cbn [skipn app].
          replace (at_id (filter _ s) d) with (@nil nat); [reflexivity|]. symmetry. unfold at_id. rewrite filter_filter. apply filter_nothing, Forall_forall. intros a _. destruct (Nat.eqb (id a) d); reflexivity.
        * intros j Hj. unfold at_id. rewrite filter_filter. apply filter_ext. intros a. destruct (Nat.eqb_spec (id a) j) as [->|]; [|apply andb_false_r]. apply Nat.eqb_neq in Hj. now rewrite Hj.
      + destruct (upper_big s d H) as (-> & ->). eexists. conj; [reflexivity| |exact L2]. rewrite firstn_all, skipn_all, app_nil_r. f_equal. symmetry. apply filter_all, Forall_forall. intros a _. apply negb_true_iff, Nat.eqb_neq. specialize (ids a). lia.
    - eexists. conj; [reflexivity| |].
      + rewrite unsub_first. rewrite (by_id_change s (remove_first a s) (id a) (ids a)).
        * rewrite (by_id_split s (id a)) by apply ids. unfold at_id at 2. rewrite remove_filter, Nat.eqb_refl. fold (at_id s (id a)). rewrite remove_not by (intros C; apply in_below in C; lia). f_equal.
          destruct (in_dec Nat.eq_dec a (at_id s (id a))) as [I|I]; [now apply remove_app|]. rewrite remove_not by exact I. rewrite (remove_absent a (at_id s (id a)) I). f_equal. apply remove_absent. intros C. apply in_above in C. lia.
        * intros j Hj. unfold at_id. rewrite remove_filter. replace (Nat.eqb (id a) j) with false by (symmetry; apply Nat.eqb_neq; congruence). reflexivity.
      + etransitivity; [|exact L]. clear. induction s as [|b s IH]; [reflexivity|]. cbn. destruct (Nat.eqb a b); cbn; lia.
    - eexists. conj; [reflexivity|reflexivity|cbn; lia].
    - rewrite length_by_id. eauto.
    - eexists. conj; [|reflexivity|exact L]. unfold bus_accepts. do 3 f_equal. f_equal. apply eq_true_iff_eq. rewrite !existsb_exists. split; intros (a & Ha & E); exists a; split; try exact E; now apply in_by_id.
    - rewrite Rx. eauto.
    - rewrite Rx. eauto.
  Qed.
End Bus.
(** Every history of subscriptions, unsubscriptions and messages on a bus whose routers are arbitrary: each call gives what MsgSpec.v says. *)
Theorem C28_bus_history : forall (obj : nat -> router) (succ : option router) (N : nat), (forall a, rid (obj a) < 256) ->
  forall os, exists l, bus_ops obj succ N os [] = Some (fst (b_steps obj succ N os []), l) /\ l = by_id obj (snd (b_steps obj succ N os [])) /\ length l <= N.
Proof.
  intros obj succ N ids os. assert (forall os s, length s <= N -> exists l, bus_ops obj succ N os (by_id obj s) = Some (fst (b_steps obj succ N os s), l) /\ l = by_id obj (snd (b_steps obj succ N os s)) /\ length (snd (b_steps obj succ N os s)) <= N) as G.
  { clear os. induction os as [|o os IH]; intros s L; [cbn; eauto|]. cbn [bus_ops b_steps]. destruct (op_ok obj succ N ids o s L) as (l1 & -> & -> & L1). destruct (b_step obj succ N o s) as (x & s1). cbn [fst snd] in *.
    destruct (IH s1 L1) as (l2 & -> & -> & L2). destruct (b_steps obj succ N os s1) as (xs & s2). cbn [fst snd] in *. eauto. }
  destruct (G os []) as (l & E & -> & L); [cbn; lia|]. change (by_id obj []) with (@nil nat) in E. eexists. conj; [exact E|reflexivity|]. now rewrite length_by_id.
Qed.
(** In words, for messages sent to all routers: a router that is subscribed once and accepts the message gets it once, one that is not subscribed or does not accept it gets nothing,
    and the order of delivery is by id and then by time of subscription. *)
Theorem C28_bus_exactly_once : forall (obj : nat -> router) subs m, (forall a, rid (obj a) < 256) ->
  (forall a, recv (obj a) m = [Handled a m]) -> NoDup subs ->
  let t := bus_events obj None subs all_routers m in
  NoDup t /\ (forall a, In (Handled a m) t <-> In a subs /\ accepts (obj a) m = true) /\
  (forall i j a b, nth_error t i = Some (Handled a m) -> nth_error t j = Some (Handled b m) -> i < j -> rid (obj a) <= rid (obj b)).
Proof.
  intros obj subs m ids Hr Nd t. assert (t = map (fun a => Handled a m) (filter (fun a => accepts (obj a) m) (by_id obj subs))) as Et.
  { unfold t, bus_events. cbn [Nat.eqb all_routers]. change (Nat.eqb all_routers all_routers) with true. cbv iota. rewrite app_nil_r. induction (filter _ _) as [|a l IH]; [reflexivity|]. cbn. rewrite Hr, IH. reflexivity. }
  assert (forall js, NoDup js -> NoDup (flat_map (at_id obj subs) js)) as Ndf.
  { induction js as [|j js IH]; intros Hj; [constructor|]. inversion Hj as [|? ? Nj Hj']; subst. cbn. apply NoDup_app_iff. conj; [now apply NoDup_filter|now apply IH|].
    intros x Hx Hy. apply in_at in Hx. apply in_flat_map in Hy as (k & Hk & Hy). apply in_at in Hy. congruence. }
  conj.
  - rewrite Et. apply FinFun.Injective_map_NoDup; [intros x y E; now injection E|]. apply NoDup_filter. apply (Ndf (seq 0 256)). apply seq_NoDup.
  - intros a. rewrite Et, in_map_iff. split.
    + intros (b & E & Hb). injection E as ->. apply filter_In in Hb as (Hb & Ha). split; [now apply in_by_id in Hb|exact Ha].
    + intros (Hs & Ha). exists a. split; [reflexivity|]. apply filter_In. split; [now apply in_by_id|exact Ha].
  - intros i j a b Hi Hj Hij. rewrite Et in Hi, Hj. rewrite nth_error_map in Hi, Hj.
    assert (forall p js, StronglySorted lt js -> StronglySorted (fun x y => rid (obj x) <= rid (obj y)) (filter p (flat_map (at_id obj subs) js))) as G.
    { clear. intros p js. induction js as [|k js IH]; intros Hs; [constructor|]. inversion Hs as [|? ? Hs' Hk]; subst. cbn. rewrite filter_app.
      assert (forall x, In x (filter p (at_id obj subs k)) -> rid (obj x) = k) as E1. { intros x Hx. apply filter_In in Hx as (Hx & _). now apply in_at in Hx. }
      assert (forall x, In x (filter p (flat_map (at_id obj subs) js)) -> k < rid (obj x)) as E2. { intros x Hx. apply filter_In in Hx as (Hx & _). apply in_flat_map in Hx as (n & Hn & Hx). apply in_at in Hx. rewrite Forall_forall in Hk. specialize (Hk n Hn). lia. }
      revert E1. induction (filter p (at_id obj subs k)) as [|x l IHl]; intros E1; [exact (IH Hs')|]. cbn. constructor; [apply IHl; intros; apply E1; now right|]. apply Forall_forall. intros y Hy. rewrite (E1 x) by now left.
      apply in_app_iff in Hy as [Hy|Hy]; [rewrite (E1 y) by (now right); lia|specialize (E2 y Hy); lia]. }
    specialize (G (fun a => accepts (obj a) m) (seq 0 256)).
    assert (forall n k, StronglySorted lt (seq k n)) as Hseq. { clear. induction n as [|n IH]; intros k; [constructor|]. cbn. constructor; [apply IH|]. apply Forall_forall. intros x Hx. apply in_seq in Hx. lia. }
    specialize (G (Hseq 256 0)). change (flat_map (at_id obj subs) (seq 0 256)) with (by_id obj subs) in G. clear Et. revert i j Hi Hj Hij. induction G as [|x l Hl IH Hx]; intros i j Hi Hj Hij; [destruct i; discriminate|].
    destruct j as [|j]; [lia|]. cbn in Hj. destruct i as [|i].
    + cbn in Hi. injection Hi as ->. destruct (nth_error l j) as [y|] eqn:Ey; [|discriminate]. injection Hj as ->. rewrite Forall_forall in Hx. apply Hx. eapply nth_error_In; exact Ey.
    + cbn in Hi. eapply IH; eauto. lia.
Qed.
(** FINDING: a message addressed to the id of the buses themselves (MESSAGE_BUS, 254) reaches a router that is subscribed once, below two nested buses, twice. *)
Theorem C28_bus_id_delivers_twice_refuted : ~ (forall (obj : nat -> router) subs d m, (forall a, rid (obj a) < 256) -> NoDup subs -> forall who, List.length (filter (fun e => match e with Handled w _ => Nat.eqb w who | _ => false end) (bus_events obj None subs d m)) <= 1).
Proof.
  intros C. set (leaf := fun _ : nat => plain 7 1 [5] None). set (inner := fun _ : nat => bus_router leaf None [0]). set (outer := fun _ : nat => bus_router inner None [0]).
  specialize (C outer [0] 254 5 ltac:(intros; cbn; lia) ltac:(repeat constructor; intros []) 7). vm_compute in C. lia.
Qed.

Section Broker.
  Variable obj : nat -> router.
  Variable succ : option router.
  Variables (srouter : nat -> nat) (sids : nat -> list nat).
  Local Notation walk := (walk srouter).
  Fixpoint chain (b : broker) (p : option nat) (l : list nat) : Prop := match l with [] => p = None | s :: r => p = Some s /\ chain b (snext b s) r end.
  Definition inv (b : broker) (l : list nat) : Prop := chain b (hnext b) l /\ NoDup (map srouter l).
  Lemma chain_ext b b' l : (forall s, In s l -> snext b' s = snext b s) -> forall p, chain b p l -> chain b' p l.
  Proof. induction l as [|s l IH]; intros H p; [easy|]. intros (-> & C). split; [reflexivity|]. rewrite (H s) by now left. apply IH; [|exact C]. intros; apply H; now right. Qed.
  Lemma nodup_subs l : NoDup (map srouter l) -> NoDup l. Proof. apply NoDup_map_inv. Qed.
  (** [last a] is the node that precedes what follows [a] *)
  Definition last_of (a : list nat) : option nat := last (map (@Some nat) a) None.
  Lemma last_snoc a s : last_of (a ++ [s]) = Some s.
  Proof. unfold last_of. rewrite map_app. cbn. apply last_last. Qed.
  Lemma chain_app b a l : forall p, chain b p (a ++ l) <-> exists q, chain b p (a ++ l) /\ chain b q l /\ q = match rev a with [] => p | s :: _ => snext b s end.
  Proof.
    induction a as [|x a IH]; intros p; cbn [app].
    - cbn. split; [intros H; exists p; tauto|intros (q & H & _); exact H].
    - split; [|intros (q & H & _); exact H]. intros H. exists (match rev (x :: a) with [] => p | s :: _ => snext b s end). conj; try exact H; [|reflexivity]. destruct H as (-> & H). apply IH in H as (q & _ & H & ->). cbn [rev]. destruct (rev a); exact H.
  Qed.
  Lemma chain_tail b a l : chain b (hnext b) (a ++ l) -> chain b (get_next b (last_of a)) l.
  Proof.
    intros H. apply chain_app in H as (q & _ & H & ->). destruct a as [|x a] using rev_ind; [exact H|]. rewrite last_snoc. rewrite rev_app_distr in H. exact H.
  Qed.
  (** a chain is replaced after its prefix [a] by setting the next pointer of the last node of [a] *)
  Lemma chain_relink b b' a l l' : NoDup a -> chain b (hnext b) (a ++ l) -> (forall s, In s a -> Some s <> last_of a -> snext b' s = snext b s) -> (a <> [] -> hnext b' = hnext b) ->
    chain b' (get_next b' (last_of a)) l' -> chain b' (hnext b') (a ++ l').
  Proof.
    intros Nd H E Eh H'. destruct a as [|x a] using rev_ind; [exact H'|]. clear IHa. rewrite last_snoc in *. rewrite Eh by (destruct a; discriminate). clear Eh. rewrite <- app_assoc in *. cbn [app get_next] in *.
    apply NoDup_remove in Nd as (Nd & Nx). rewrite app_nil_r in *. revert E H. generalize (hnext b). induction a as [|y a IH]; intros p E H; cbn [app] in *.
    - destruct H as (-> & _). split; [reflexivity|exact H'].
    - destruct H as (-> & H). split; [reflexivity|]. rewrite E; [|now left|intros C; injection C as ->; apply Nx; now left]. inversion Nd; subst. apply IH; [assumption|intros C; apply Nx; now right| |exact H]. intros s Hs; apply E; now right.
  Qed.
  Lemma walk_ok b target : forall l a fuel, chain b (hnext b) (a ++ l) -> length l < fuel ->
    (~ In target (map srouter l) /\ walk fuel b target (get_next b (last_of a)) (last_of a) = Some (b, last_of (a ++ l))) \/
    (exists c s e, l = c ++ s :: e /\ srouter s = target /\ ~ In target (map srouter c) /\
       walk fuel b target (get_next b (last_of a)) (last_of a) = Some (set_next (set_next b (last_of (a ++ c)) (snext b s)) (Some s) None, last_of (a ++ c))).
  Proof.
    induction l as [|s l IH]; intros a fuel H L; (destruct fuel as [|f]; [lia|]); pose proof (chain_tail _ _ _ H) as T.
    - left. split; [intros []|]. cbn in T. cbn [MsgModel.walk]. rewrite T, app_nil_r. reflexivity.
    - destruct T as (T & _). rewrite T. cbn [MsgModel.walk]. destruct (Nat.eqb_spec (srouter s) target) as [E|E].
      + right. exists [], s, l. conj; [reflexivity|exact E|intros []|]. rewrite app_nil_r. reflexivity.
      + rewrite T. cbn [get_next]. specialize (IH (a ++ [s]) f). rewrite last_snoc, <- app_assoc in IH. cbn [get_next] in IH. destruct (IH H ltac:(cbn in L; lia)) as [(Nin & ->)|(c & s' & e & -> & Es & Nin & ->)].
        * left. split; [|reflexivity]. cbn. intros [C|C]; contradiction.
        * right. exists (s :: c), s', e. conj; [reflexivity|exact Es|cbn; intros [C|C]; contradiction|]. rewrite <- app_assoc. reflexivity.
  Qed.
  Lemma get_set_same b p q : get_next (set_next b p q) p = q.
  Proof. destruct p as [s|]; cbn; [now rewrite Nat.eqb_refl|reflexivity]. Qed.
  Lemma snext_set b p q s : p <> Some s -> snext (set_next b p q) s = snext b s.
  Proof. destruct p as [t|]; cbn; [|reflexivity]. intros H. destruct (Nat.eqb_spec s t) as [->|]; [congruence|reflexivity]. Qed.
  Lemma last_in a s : last_of a = Some s -> In s a.
  Proof. destruct a as [|x a] using rev_ind; [discriminate|]. rewrite last_snoc. intros E. injection E as ->. apply in_app_iff. right. now left. Qed.
  Lemma last_ne a : a <> [] -> last_of a <> None.
  Proof. destruct a as [|x a] using rev_ind; [congruence|]. intros _. rewrite last_snoc. discriminate. Qed.
  Lemma hnext_set b a q : a <> [] -> hnext (set_next b (last_of a) q) = hnext b.
  Proof. intros H. apply last_ne in H. destruct (last_of a); [reflexivity|congruence]. Qed.
  (** appending a subscription that is not in the list after the prefix [a] *)
  Lemma append_ok b a l s : NoDup (a ++ l) -> ~ In s (a ++ l) -> chain b (hnext b) (a ++ l) -> chain (append b (last_of a) s) (hnext (append b (last_of a) s)) (a ++ s :: l).
  Proof.
    intros Nd Ns H. apply NoDup_app_iff in Nd as (Na & Nl & Nal). assert (last_of a <> Some s) as Ls. { intros C. apply last_in in C. apply Ns. apply in_app_iff. now left. }
    unfold append. eapply chain_relink with (b := b) (l := l); [exact Na|exact H| | |].
    - intros t Ht Hl. rewrite snext_set by congruence. apply snext_set. intros C. injection C as ->. apply Ns. apply in_app_iff. now left.
    - intros Ha. rewrite hnext_set by exact Ha. reflexivity.
    - rewrite get_set_same. split; [reflexivity|]. rewrite snext_set by exact Ls. pose proof (get_set_same b (Some s) (get_next b (last_of a))) as E. cbn [get_next] in E. rewrite E.
      eapply chain_ext; [|exact (chain_tail _ _ _ H)]. intros t Ht. rewrite snext_set; [apply snext_set|].
      + intros C. injection C as ->. apply Ns. apply in_app_iff. now right.
      + intros C. apply last_in in C. exact (Nal t C Ht).
  Qed.
  Lemma unlink_ok b a s l : NoDup (a ++ s :: l) -> chain b (hnext b) (a ++ s :: l) ->
    let b' := set_next (set_next b (last_of a) (snext b s)) (Some s) None in chain b' (hnext b') (a ++ l).
  Proof.
    intros Nd H b'. apply NoDup_remove in Nd as (Nd & Ns). apply NoDup_app_iff in Nd as (Na & Nl & Nal). pose proof (chain_tail _ _ _ H) as (T & C).
    unfold b'. eapply chain_relink with (b := b) (l := s :: l); [exact Na|exact H| | |].
    - intros t Ht Hl. rewrite snext_set; [apply snext_set; congruence|]. intros X. injection X as ->. apply Ns. apply in_app_iff. now left.
    - intros Ha. cbn [set_next hnext]. apply hnext_set. exact Ha.
    - assert (get_next (set_next (set_next b (last_of a) (snext b s)) (Some s) None) (last_of a) = snext b s) as E.
      { destruct (last_of a) as [t|] eqn:El; [|reflexivity]. change (get_next ?b (Some t)) with (snext b t). rewrite snext_set; [exact (get_set_same b (Some t) _)|]. intros X. injection X as ->. apply Ns. apply in_app_iff. left. now apply last_in. }
      rewrite E. eapply chain_ext; [|exact C]. intros t Ht. rewrite snext_set; [apply snext_set|].
      + intros X. apply last_in in X. exact (Nal t X Ht).
      + intros X. injection X as ->. apply Ns. apply in_app_iff. now right.
  Qed.
  Lemma loop_ok b d m : forall l p fuel, chain b p l -> length l < fuel ->
    broker_loop obj srouter sids fuel b d m p = Some (flat_map (fun s => recv (obj (srouter s)) m) (filter (fun s => wants sids s m && (Nat.eqb d all_routers || Nat.eqb d (rid (obj (srouter s))))) l)).
  Proof.
    induction l as [|s l IH]; intros p fuel H L; (destruct fuel as [|f]; [lia|]); cbn [broker_loop].
    - cbn in H. now rewrite H.
    - destruct H as (-> & H). rewrite (IH _ f H ltac:(cbn in L; lia)). cbn [filter]. unfold wants at 2. destruct (existsb _ _); cbn [andb]; [|reflexivity]. unfold all_routers at 2. destruct (_ || _); reflexivity.
  Qed.
  Lemma acc_ok b m : forall l p fuel, chain b p l -> length l < fuel ->
    accepts_loop obj srouter sids fuel b m p = Some (existsb (fun s => wants sids s m && accepts (obj (srouter s)) m) l).
  Proof.
    induction l as [|s l IH]; intros p fuel H L; (destruct fuel as [|f]; [lia|]); cbn [accepts_loop].
    - cbn in H. now rewrite H.
    - destruct H as (-> & H). rewrite (IH _ f H ltac:(cbn in L; lia)). cbn [existsb]. unfold wants at 2. destruct (_ && _); reflexivity.
  Qed.
  Lemma empty_ok b l : chain b (hnext b) l -> match hnext b with None => true | _ => false end = match l with [] => true | _ => false end.
  Proof. destruct l; cbn; [intros ->; reflexivity|intros (-> & _); reflexivity]. Qed.
  Lemma map_other target l s : ~ In target (map srouter l) -> map (fun t => if Nat.eqb (srouter t) target then s else t) l = l /\ filter (fun t => negb (Nat.eqb (srouter t) target)) l = l /\ existsb (fun t => Nat.eqb (srouter t) target) l = false.
  Proof.
    induction l as [|x l IH]; intros H; [easy|]. cbn in *. destruct IH as (E1 & E2 & E3); [tauto|]. destruct (Nat.eqb_spec (srouter x) target) as [E|E]; [tauto|]. cbn. now rewrite E1, E2, E3.
  Qed.
  Lemma kop_ok o b l fuel : inv b l -> length l < fuel -> exists b', broker_op obj succ srouter sids fuel o b = Some (fst (k_step obj succ srouter sids o l), b') /\
    inv b' (snd (k_step obj succ srouter sids o l)) /\ length (snd (k_step obj succ srouter sids o l)) <= S (length l).
  Proof.
    intros (H & Nd) L. pose proof (nodup_subs l Nd) as Nl.
    assert (Rx : forall d m, broker_receive obj succ srouter sids fuel b d m = Some (broker_events obj succ srouter sids l d m)).
    { intros d m. unfold broker_receive. rewrite (empty_ok b l H), (loop_ok b d m l _ fuel H L). unfold broker_events. destruct l; reflexivity. }
    destruct o as [s|a| | |m|m|d m]; cbn [broker_op k_step fst snd].
    - unfold initialise_insertion_point. destruct (walk_ok b (srouter s) l [] fuel H L) as [(Nin & E)|(c & s' & e & -> & Es & Nin & E)]; cbn [app last_of map last get_next] in E; change (last_of []) with (@None nat) in E; cbn [get_next] in E; rewrite E; (eexists; split; [reflexivity|]).
      + destruct (map_other (srouter s) l s Nin) as (_ & _ & ->). split; [|rewrite app_length; cbn; lia]. split.
        * replace l with (l ++ []) in H by apply app_nil_r. apply append_ok; rewrite ?app_nil_r in *; try assumption. intros C. apply Nin. apply in_map_iff. now exists s.
        * rewrite map_app. apply NoDup_app_iff. conj; [exact Nd|repeat constructor; intros []|]. intros x Hx [<-|[]]. contradiction.
      + rewrite map_app in Nd. cbn in Nd. pose proof (NoDup_remove _ _ _ Nd) as (Nd' & Ns'). rewrite <- map_app in Nd', Ns'.
        assert (~ In (srouter s) (map srouter e)) as Nine. { rewrite <- Es. intros C. apply Ns'. rewrite map_app. apply in_app_iff. now right. }
        destruct (map_other (srouter s) c s Nin) as (E1 & _ & E3). destruct (map_other (srouter s) e s Nine) as (E1' & _ & _).
        rewrite existsb_app, E3, map_app, E1. cbn [existsb map orb]. rewrite Es, Nat.eqb_refl. cbn [orb]. rewrite E1'. split; [|rewrite !app_length; cbn; lia]. split.
        * apply append_ok; [exact (nodup_subs _ Nd')| |now apply unlink_ok]. intros C. apply Ns'. rewrite Es. apply in_map_iff. now exists s.
        * rewrite map_app. cbn. rewrite <- Es. exact Nd.
    - unfold initialise_insertion_point. destruct (walk_ok b a l [] fuel H L) as [(Nin & E)|(c & s' & e & -> & Es & Nin & E)]; cbn [app last_of map last get_next] in E; change (last_of []) with (@None nat) in E; cbn [get_next] in E; rewrite E; (eexists; split; [reflexivity|]).
      + destruct (map_other a l 0 Nin) as (_ & -> & _). split; [split; assumption|lia].
      + rewrite map_app in Nd. cbn in Nd. pose proof (NoDup_remove _ _ _ Nd) as (Nd' & Ns'). rewrite <- map_app in Nd', Ns'.
        assert (~ In a (map srouter e)) as Nine. { rewrite <- Es. intros C. apply Ns'. rewrite map_app. apply in_app_iff. now right. }
        destruct (map_other a c 0 Nin) as (_ & E1 & _). destruct (map_other a e 0 Nine) as (_ & E1' & _). rewrite filter_app, E1. cbn [filter]. rewrite Es, Nat.eqb_refl. cbn [negb]. rewrite E1'. split; [|rewrite !app_length; cbn; lia]. split; [now apply unlink_ok|exact Nd'].
    - eexists. conj; [reflexivity|split; [reflexivity|constructor]|cbn; lia].
    - eexists. conj; [rewrite (empty_ok b l H); reflexivity|split; assumption|lia].
    - unfold broker_accepts. rewrite (empty_ok b l H), (acc_ok b m l _ fuel H L). exists b. conj; [|split; assumption|lia]. destruct l as [|s l]; [reflexivity|]. cbn [negb]. destruct (existsb _ _); reflexivity.
    - rewrite Rx. eexists. conj; [reflexivity|split; assumption|lia].
    - rewrite Rx. eexists. conj; [reflexivity|split; assumption|lia].
  Qed.
End Broker.
(** Every history on a broker, whatever the next pointers of the subscription objects were at the start. *)
Theorem C28_broker_history : forall (obj : nat -> router) (succ : option router) (srouter : nat -> nat) (sids : nat -> list nat) (garbage : nat -> option nat) os fuel, length os < fuel ->
  exists b, broker_ops obj succ srouter sids fuel os {| hnext := None; snext := garbage |} = Some (fst (k_steps obj succ srouter sids os []), b) /\
    NoDup (map srouter (snd (k_steps obj succ srouter sids os []))).
Proof.
  intros obj succ srouter sids garbage os fuel. assert (forall os b l, inv srouter b l -> length l + length os < fuel -> exists b', broker_ops obj succ srouter sids fuel os b = Some (fst (k_steps obj succ srouter sids os l), b') /\ inv srouter b' (snd (k_steps obj succ srouter sids os l))) as G.
  { clear os. induction os as [|o os IH]; intros b l I L; [cbn; eauto|]. cbn [broker_ops k_steps]. cbn [length] in L. destruct (kop_ok obj succ srouter sids o b l fuel I ltac:(lia)) as (b1 & -> & I1 & L1). destruct (k_step obj succ srouter sids o l) as (x & l1). cbn [fst snd] in *.
    destruct (IH b1 l1 I1 ltac:(lia)) as (b2 & -> & I2). destruct (k_steps obj succ srouter sids os l1) as (xs & l2). cbn [fst snd] in *. eauto. }
  intros L. destruct (G os {| hnext := None; snext := garbage |} [] ltac:(split; [reflexivity|constructor]) L) as (b & E & _ & Nd). exists b. split; assumption.
Qed.

(** ** message_router with successors: exactly one handler runs, in the first router of the chain that lists the message, or on_receive_unknown of the last *)
Definition chain_of (rs : list (nat * nat * list nat)) : option router := fold_right (fun r succ => Some (plain (fst (fst r)) (snd (fst r)) (snd r) succ)) None rs.
Theorem C28_router_chain : forall pre who id types m rest, (forall w i ts, In (w, i, ts) pre -> ~ In m ts) -> In m types ->
  exists r, chain_of (pre ++ (who, id, types) :: rest) = Some r /\ recv r m = [Handled who m] /\ ((forall w i ts, In (w, i, ts) pre -> ts <> []) -> accepts r m = true).
Proof.
  intros pre who id types m rest. induction pre as [|((w, i), ts) pre IH]; intros Hp Hin; cbn [app chain_of fold_right fst snd].
  - eexists. conj; [reflexivity| |]; cbn [recv accepts plain].
    + unfold plain_recv. clear - Hin. induction types as [|t types IH]; [destruct Hin|]. destruct (Nat.eqb_spec t m) as [E|E]; [reflexivity|]. apply IH. destruct Hin; [congruence|assumption].
    + intros _. unfold plain_accepts. apply existsb_exists. exists m. split; [exact Hin|]. now rewrite Nat.eqb_refl.
  - destruct IH as (r & E & R & Ac); [intros; eapply Hp; right; eassumption|exact Hin|]. unfold chain_of in E. rewrite E. eexists. conj; [reflexivity| |]; cbn [recv accepts plain].
    + unfold plain_recv. assert (~ In m ts) as Nin by (apply (Hp w i); now left). clear - Nin R. induction ts as [|t ts IH]; [exact R|]. destruct (Nat.eqb_spec t m) as [E|E]; [exfalso; apply Nin; now left|]. apply IH. intros C. apply Nin. now right.
    + intros Ne. unfold plain_accepts. assert (ts <> []) as Nt by (apply (Ne w i); now left). destruct ts as [|t ts]; [congruence|]. cbn. rewrite Ac; [destruct (Nat.eqb t m); reflexivity|]. intros w' i' ts' H. apply (Ne w' i'). now right.
Qed.
Theorem C28_router_unknown : forall pre who id types m, (forall w i ts, In (w, i, ts) (pre ++ [(who, id, types)]) -> ~ In m ts) ->
  exists r, chain_of (pre ++ [(who, id, types)]) = Some r /\ recv r m = [Unknown who m] /\ accepts r m = false.
Proof.
  assert (forall types (succ : option router) m, ~ In m types -> forall who, plain_recv who types succ m = match succ with Some r => recv r m | None => [Unknown who m] end) as G.
  { intros types succ m Nin who. unfold plain_recv. induction types as [|t ts IH]; [reflexivity|]. destruct (Nat.eqb_spec t m) as [E|E]; [exfalso; apply Nin; now left|]. apply IH. intros C. apply Nin. now right. }
  assert (forall types (succ : option router) m, ~ In m types -> (match succ with Some r => accepts r m | None => false end) = false -> plain_accepts types succ m = false) as Ga.
  { intros types succ m Nin E. unfold plain_accepts. rewrite E. induction types as [|t ts IH]; [reflexivity|]. cbn. destruct (Nat.eqb_spec t m) as [X|X]; [exfalso; apply Nin; now left|]. apply IH. intros C. apply Nin. now right. }
  intros pre who id types m. induction pre as [|((w, i), ts) pre IH]; intros Hp; cbn [app chain_of fold_right fst snd].
  - eexists. conj; [reflexivity| |]; cbn [recv accepts plain]; [rewrite G; [reflexivity|]|apply Ga; [|reflexivity]]; apply (Hp who id types); now left.
  - destruct IH as (r & E & R & Ac); [intros; eapply Hp; right; eassumption|]. unfold chain_of in E. rewrite E. eexists. conj; [reflexivity| |]; cbn [recv accepts plain]; [rewrite G; [exact R|]|apply Ga; [|exact Ac]]; apply (Hp w i); now left.
Qed.
(** FINDING: a router asked with a destination id other than its own (and not ALL_MESSAGE_ROUTERS) drops the message, even if its successor has that id and lists the message. *)
Theorem C28_destination_in_successor_refuted : ~ (forall who id types who' id' types' m, id' <= 249 -> ~ In m types -> In m types' ->
  In (Handled who' m) (recv_to (plain who id types (Some (plain who' id' types' None))) id' m)).
Proof. intros C. specialize (C 0 1 [] 1 2 [5] 5 ltac:(lia) ltac:(intros []) ltac:(now left)). exact C. Qed.
(** Non-vacuity: a bus with two routers of equal id, one of a smaller id that subscribed later, a producer, a nested broker, and a full bus. *)
Definition case_obj (a : nat) : router :=
  match a with 0 => plain 0 9 [1; 2] None | 1 => plain 1 9 [2; 3] None | 2 => plain 2 4 [2] (Some (plain 3 5 [1] None)) | 3 => forwarder 255 None | _ => bus_router (fun _ => plain 8 9 [2] None) None [0] end.
Example C28_bus_case : bus_ops case_obj None 4 [Bsubscribe 0; Bsubscribe 3; Bsubscribe 4; Bsubscribe 1; Bsubscribe 2; Bsubscribe 0; Bsize; Bsend 2; BsendTo 9 2; Bsend 1; BunsubscribeRouter 0; Bsend 2; Baccepts 7; BunsubscribeId 9; Bsend 2] [] =
  Some ([Bb true; Bb true; Bb true; Bb true; Bb true; Btoo_many; Bn 4; Bevents [Handled 2 2; Handled 0 2; Handled 1 2; Handled 8 2]; Bevents [Handled 0 2; Handled 1 2; Handled 8 2]; Bevents [Handled 3 1; Handled 0 1]; Bunit;
    Bevents [Handled 2 2; Handled 1 2; Handled 8 2]; Bb false; Bunit; Bevents [Handled 2 2; Handled 8 2]], [2; 4]).
Proof. reflexivity. Qed.
Example C28_broker_case : match broker_ops case_obj (Some (plain 5 7 [] None)) (fun s => s mod 3) (fun s => match s with 0 => [1; 2] | 1 => [2] | 2 => [2] | _ => [1] end) 20
    [Ksubscribe 0; Ksubscribe 1; Ksubscribe 2; Ksend 2; Ksubscribe 3; Ksend 2; Ksend 1; Kunsubscribe 1; KsendTo 4 2; Kclear; Kempty; Ksubscribe 2; Ksubscribe 2; KsendTo 7 2] {| hnext := None; snext := fun _ => Some 77 |} with
  | Some (r, _) => r = [Kunit; Kunit; Kunit; Kevents [Handled 0 2; Handled 1 2; Handled 2 2; Unknown 5 2]; Kunit; Kevents [Handled 1 2; Handled 2 2; Unknown 5 2]; Kevents [Handled 0 1; Unknown 5 1]; Kunit; Kevents [Handled 2 2]; Kunit; Kb true; Kunit; Kunit; Kevents [Unknown 5 2]]
  | None => False end.
Proof. reflexivity. Qed.
Print Assumptions C28_bus_history.
Print Assumptions C28_bus_exactly_once.
Print Assumptions C28_bus_id_delivers_twice_refuted.
Print Assumptions C28_broker_history.
Print Assumptions C28_router_chain.
Print Assumptions C28_router_unknown.
Print Assumptions C28_destination_in_successor_refuted.
