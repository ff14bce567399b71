(** C61: the message router registry (message_router_registry.h) *)
From Coq Require Import List Arith Bool Lia Sorted Permutation.
From Verif Require Import RegModel RegSpec RegProofs.
Import ListNotations.

Section P.
Variables (R : Type) (same : R -> R -> bool) (rid : R -> nat) (Max : nat).
Hypothesis same_ok : forall a b, same a b = true <-> a = b.   (* comparison of addresses *)
Notation history := (history R same rid Max).
Notation under := (under R rid).

(** find: the router that was registered first under this id; none iff none is registered under it *)
Theorem C61_find : forall l reg id, history l reg -> find R l id = hd_error (under reg id).
Proof. intros l reg id H. apply history_inv in H. destruct H as (S & A & _). unfold find. rewrite rfind_spec by exact S. rewrite A. destruct (under reg id); reflexivity. Qed.

Theorem C61_contains_id : forall l reg id, history l reg -> contains_id R l id = true <-> exists r, In r reg /\ rid r = id.
Proof.
  intros l reg id H. unfold contains_id. rewrite (C61_find _ _ _ H). split.
  - destruct (under reg id) as [|r t] eqn:E; [discriminate|]. intros _. exists r. assert (X : In r (under reg id)) by (rewrite E; left; reflexivity). apply filter_In in X. destruct X as (X & Y). apply Nat.eqb_eq in Y. auto.
  - intros (r & X & Y). assert (Z : In r (under reg id)) by (apply filter_In; split; [exact X|apply Nat.eqb_eq, Y]). destruct (under reg id); [destruct Z|reflexivity].
Qed.

Theorem C61_count : forall l reg id, history l reg -> count R l id = length (under reg id).
Proof. intros l reg id H. apply history_inv in H. destruct H as (S & A & _). rewrite count_spec by exact S. now rewrite A. Qed.

Theorem C61_size : forall l reg, history l reg ->
  size R l = length reg /\ size R l <= Max /\ available R Max l = Max - length reg /\ (full R Max l = true <-> length reg = Max) /\ (empty R l = true <-> reg = []).
Proof.
  intros l reg H. apply history_inv in H. destruct H as (_ & _ & L & _ & _ & B). unfold size, available, full, empty. rewrite L in *. repeat split; auto; try apply Nat.eqb_eq; try (intros E; apply Nat.eqb_eq; exact E).
  - intros E. apply Nat.eqb_eq in E. destruct reg; [reflexivity|discriminate].
  - intros ->. reflexivity.
Qed.

(** a walk visits every registered router, by ascending id, and routers with one id in the order of their registration *)
Theorem C61_walk : forall l reg, history l reg ->
  Permutation (walk R l) reg /\ StronglySorted (fun a b => rid a <= rid b) (walk R l) /\ forall id, under (walk R l) id = under reg id.
Proof.
  intros l reg H. apply history_inv in H. destruct H as (S & A & _ & K & P & _). split; [exact P|]. split.
  - clear -S K. unfold walk. induction l as [|x l IH]; [constructor|]. destruct S as (S1 & S2). cbn [map]. constructor; [apply IH; [exact S2|intros e He; apply K; right; exact He]|].
    apply Forall_forall. intros r Hr. apply in_map_iff in Hr. destruct Hr as (e & <- & He). rewrite <- (K x (or_introl eq_refl)), <- (K e (or_intror He)). auto.
  - intros id. rewrite <- A. unfold at_id, walk. clear -K. induction l as [|x l IH]; [reflexivity|]. unfold RegSpec.under in *. cbn [map filter]. rewrite <- (K x (or_introl eq_refl)). rewrite IH by (intros e He; apply K; right; exact He). destruct (Nat.eqb (fst x) id); reflexivity.
Qed.

(** contains(router) looks at the first router with its id only *)
Theorem C61_contains : forall l reg r, history l reg -> contains R same rid l r = true <-> hd_error (under reg (rid r)) = Some r.
Proof.
  intros l reg r H. apply history_inv in H. destruct H as (S & A & _). unfold contains. rewrite rfind_spec by exact S. rewrite A. destruct (under reg (rid r)) as [|q t]; cbn; [split; discriminate|]. rewrite same_ok. split; congruence.
Qed.

Theorem C61_contains_pointer : forall l reg r, history l reg -> contains_pointer R same rid l r = true <-> exists q, r = Some q /\ hd_error (under reg (rid q)) = Some q.
Proof. intros l reg [r|] H; cbn; [rewrite (C61_contains _ _ _ H); split; [intros E; exists r; auto|intros (q & E & F); injection E as ->; exact F]|split; [discriminate|intros (q & E & _); discriminate]]. Qed.

(** add: accepted iff there is room and the registry does not already hold the router as the first of its id; a refused one changes nothing and is an error *)
Theorem C61_add : forall l reg r, history l reg -> (snd (add R same rid Max l r) = true <-> length reg < Max /\ hd_error (under reg (rid r)) <> Some r).
Proof.
  intros l reg r H. pose proof (C61_contains l reg r H) as C. pose proof (C61_size l reg H) as (_ & B & _ & F & _). pose proof (C61_size l reg H) as (L & _). rewrite L in B. unfold add.
  destruct (full R Max l) eqn:E1, (contains R same rid l r) eqn:E2; cbn; (split; [intros X; try discriminate X|intros (X & Y)]); try (rewrite (proj1 F eq_refl) in X; lia); try (exfalso; apply Y, C; reflexivity); auto.
  split; [|intros Z; apply C in Z; discriminate]. destruct (Nat.eq_dec (length reg) Max) as [Q|Q]; [apply F in Q; discriminate|lia].
Qed.
Theorem C61_add_refused : forall l r, snd (add R same rid Max l r) = false -> fst (add R same rid Max l r) = l.
Proof. intros l r. unfold add. destruct (_ && _); [discriminate|reflexivity]. Qed.

(** remove(id): every router with this id goes, every other one stays where it was *)
Theorem C61_remove : forall l reg id, history l reg -> walk R (remove R l id) = filter (fun r => negb (Nat.eqb (rid r) id)) (walk R l).
Proof. intros l reg id H. apply history_inv in H. destruct H as (S & _ & _ & K & _). unfold remove, walk. rewrite erase_spec by exact S. apply filter_map_snd, K. Qed.

(** when different routers have different ids: a router is in the registry at most once, and contains() says whether it is *)
Theorem C61_unique : (forall a b, rid a = rid b -> a = b) -> forall l reg, history l reg -> NoDup reg /\ forall r, contains R same rid l r = true <-> In r reg.
Proof.
  intros U l reg H.
  assert (C : forall l reg r, history l reg -> contains R same rid l r = true <-> In r reg).
  { clear l reg H. intros l reg r H. rewrite (C61_contains _ _ _ H). split.
    - intros E. destruct (under reg (rid r)) as [|q t] eqn:D; [discriminate|]. injection E as ->. assert (X : In r (under reg (rid r))) by (rewrite D; left; reflexivity). apply filter_In in X. apply X.
    - intros I. assert (X : In r (under reg (rid r))) by (apply filter_In; split; [exact I|apply Nat.eqb_refl]). destruct (under reg (rid r)) as [|q t] eqn:D; [destruct X|]. cbn. f_equal.
      assert (Y : In q (under reg (rid r))) by (rewrite D; left; reflexivity). apply filter_In in Y. destruct Y as (_ & Y). apply Nat.eqb_eq in Y. apply U, Y. }
  split; [|intros r; apply C, H]. induction H as [|l reg r l' H IH E|l reg r l' _ IH _|l reg id _ IH].
  - constructor.
  - apply NoDup_rev in IH. rewrite <- rev_involutive. apply NoDup_rev. rewrite rev_app_distr. cbn. constructor; [|exact IH]. rewrite <- in_rev. intros I. apply (C _ _ r H) in I. unfold add in E. rewrite I, andb_false_r in E. discriminate.
  - exact IH.
  - apply NoDup_filter, IH.
Qed.

(** REFUTED without that assumption: when two routers a and b (a registered first) have one id, the registry never says that it contains b, takes it a second time and sends to it twice *)
Theorem C61_same_id_refuted : forall l reg a b, history l reg -> a <> b -> rid a = rid b -> hd_error (under reg (rid a)) = Some a -> In b reg ->
  contains R same rid l b = false /\ (length reg < Max -> exists l', add R same rid Max l b = (l', true) /\ history l' (reg ++ [b])).
Proof.
  intros l reg a b H N I A _. assert (C : contains R same rid l b = false). { destruct (contains R same rid l b) eqn:E; [|reflexivity]. apply (C61_contains _ _ _ H) in E. rewrite <- I, A in E. congruence. }
  split; [exact C|]. intros L. destruct (add R same rid Max l b) as (l' & ok) eqn:E. assert (X : snd (add R same rid Max l b) = true) by (apply (C61_add _ _ _ H); split; [exact L|rewrite <- I, A; congruence]).
  rewrite E in X. cbn in X. subst ok. exists l'. split; [reflexivity|]. eapply h_add; eauto.
Qed.
End P.

(** routers are (name, id) *)
Definition same1 (a b : nat * nat) := Nat.eqb (fst a) (fst b) && Nat.eqb (snd a) (snd b).
Example same1_ok : forall a b, same1 a b = true <-> a = b.
Proof. intros [a1 a2] [b1 b2]. unfold same1. cbn. rewrite andb_true_iff, !Nat.eqb_eq. split; [intros (-> & ->); reflexivity|intros E; injection E as -> ->; auto]. Qed.
(** 4 places; add (1,7), (2,3), (3,7); (3,7) is not found: it is added again; the 5th is refused; 7 is removed *)
Example C61_run : exists l, history (nat * nat) same1 snd 4 l [(1, 7); (2, 3); (3, 7); (3, 7)] /\ walk _ l = [(2, 3); (1, 7); (3, 7); (3, 7)] /\ contains _ same1 snd l (3, 7) = false
  /\ find _ l 7 = Some (1, 7) /\ count _ l 7 = 3 /\ history (nat * nat) same1 snd 4 (remove _ l 7) [(2, 3)] /\ walk _ (remove _ l 7) = [(2, 3)] /\ find _ (remove _ l 7) 7 = None.
Proof.
  pose proof (h_construct _ same1 snd 4) as H0. pose proof (h_add _ same1 snd 4 _ _ (1, 7) _ H0 eq_refl) as H1. pose proof (h_add _ same1 snd 4 _ _ (2, 3) _ H1 eq_refl) as H2.
  pose proof (h_add _ same1 snd 4 _ _ (3, 7) _ H2 eq_refl) as H3. pose proof (h_add _ same1 snd 4 _ _ (3, 7) _ H3 eq_refl) as H4. cbn in H4. eexists. split; [exact H4|]. repeat (split; [reflexivity|]).
  split; [|split; reflexivity]. exact (h_remove _ same1 snd 4 _ _ 7 H4).
Qed.
Print Assumptions C61_find.
Print Assumptions C61_walk.
Print Assumptions C61_add.
Print Assumptions C61_unique.
Print Assumptions C61_same_id_refuted.
Print Assumptions C61_run.
