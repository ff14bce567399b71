(** * Doubly linked nodes: the pointers of all nodes, and chains of them *)
From Coq Require Import List Arith Bool Lia.
From Verif Require Import Util.
Import ListNotations.
(** the fields next and previous of every node; a node is its address *)
Record links : Type := { nxt : nat -> nat; prv : nat -> nat }.
Definition set_nxt (h : links) (a b : nat) : links := {| nxt := fun x => if Nat.eqb x a then b else nxt h x; prv := prv h |}.
Definition set_prv (h : links) (a b : nat) : links := {| nxt := nxt h; prv := fun x => if Nat.eqb x a then b else prv h x |}.
(** list.h: 343-347: join(left, right) *)
Definition join (h : links) (a b : nat) : links := set_prv (set_nxt h a b) b a.
(** the nodes of [c] are linked one after the other *)
Fixpoint linked (h : links) (c : list nat) : Prop :=
  match c with a :: (b :: _) as r => nxt h a = b /\ prv h b = a /\ linked h r | _ => True end.
(** a circular list through the terminal node [t] *)
Definition ring (h : links) (t : nat) (l : list nat) : Prop := linked h (t :: l ++ [t]).

Lemma nxt_set_same h a b : nxt (set_nxt h a b) a = b. Proof. cbn. now rewrite Nat.eqb_refl. Qed.
Lemma join_nxt h a b x : nxt (join h a b) x = if Nat.eqb x a then b else nxt h x. Proof. reflexivity. Qed.
Lemma join_prv h a b x : prv (join h a b) x = if Nat.eqb x b then a else prv h x. Proof. reflexivity. Qed.
Lemma linked_cons h a b c : linked h (a :: b :: c) <-> nxt h a = b /\ prv h b = a /\ linked h (b :: c).
Proof. reflexivity. Qed.
Lemma linked_app h a x b : linked h (a ++ x :: b) <-> linked h (a ++ [x]) /\ linked h (x :: b).
Proof.
  induction a as [|y a IH]; cbn [app]; [cbn; tauto|]. destruct a as [|z a]; cbn [app] in *.
  - rewrite !linked_cons. cbn. tauto.
  - rewrite !linked_cons, IH. tauto.
Qed.
Lemma linked_app2 h a x y b : linked h (a ++ x :: y :: b) <-> linked h (a ++ [x]) /\ nxt h x = y /\ prv h y = x /\ linked h (y :: b).
Proof. rewrite linked_app, linked_cons. tauto. Qed.
(** a chain stays if the next pointers of all but its last node and the previous pointers of all but its first are unchanged *)
Lemma linked_frame h h' a x : (forall y, In y a -> nxt h' y = nxt h y) -> (forall y, In y (tl (a ++ [x])) -> prv h' y = prv h y) -> linked h (a ++ [x]) -> linked h' (a ++ [x]).
Proof.
  induction a as [|y a IH]; intros Hn Hp L; [exact I|]. cbn [app] in *. destruct a as [|z a]; cbn [app] in *.
  - destruct L as (L1 & L2 & _). apply linked_cons. conj; [rewrite Hn by (now left); exact L1|rewrite Hp by (now left); exact L2|exact I].
  - rewrite linked_cons in *. destruct L as (L1 & L2 & L3). conj; [rewrite Hn by (now left); exact L1|rewrite Hp by (now left); exact L2|]. apply IH; [intros; apply Hn; now right| |exact L3]. intros w Hw. apply Hp. now right.
Qed.
Lemma linked_ext h h' c : (forall y, In y c -> nxt h' y = nxt h y) -> (forall y, In y c -> prv h' y = prv h y) -> linked h c -> linked h' c.
Proof.
  intros Hn Hp. destruct c as [|x c] using rev_ind; [easy|]. clear IHc. apply linked_frame; [intros; apply Hn; apply in_app_iff; now left|]. intros y Hy. apply Hp. destruct c; cbn in Hy; [destruct Hy|now right].
Qed.
Lemma linked_mid h a x y b : linked h (a ++ x :: y :: b) -> nxt h x = y /\ prv h y = x.
Proof. rewrite linked_app2. tauto. Qed.
Lemma linked_sub h a b : linked h (a ++ b) -> linked h a /\ linked h b.
Proof.
  intros L. destruct b as [|y b]; [rewrite app_nil_r in L; split; [exact L|exact I]|]. apply linked_app in L as (L1 & L2). split; [|exact L2]. clear L2. destruct a as [|x a] using rev_ind; [exact I|]. clear IHa. rewrite <- app_assoc in L1. apply linked_app in L1. apply L1.
Qed.
(** join of the end of a chain with the start of another *)
Lemma linked_join h a x y b : ~ In x a -> ~ In x (removelast (y :: b)) -> ~ In y (tl (a ++ [x])) -> ~ In y b -> linked h (a ++ [x]) -> linked h (y :: b) -> linked (join h x y) (a ++ x :: y :: b).
Proof.
  intros Xa Xb Ya Yb L1 L2. apply linked_app2. conj.
  - eapply linked_frame; [| |exact L1]; intros z Hz; cbn.
    + destruct (Nat.eqb_spec z x) as [->|]; [contradiction|reflexivity].
    + destruct (Nat.eqb_spec z y) as [->|]; [contradiction|reflexivity].
  - cbn. now rewrite Nat.eqb_refl.
  - cbn. now rewrite Nat.eqb_refl.
  - revert Xb L2 Yb. destruct b as [|z b] using rev_ind; [easy|]. clear IHb. intros Xb L2 Yb. change (y :: b ++ [z]) with ((y :: b) ++ [z]) in *. rewrite removelast_last in Xb. eapply linked_frame; [| |exact L2]; intros w Hw; cbn.
    + destruct (Nat.eqb_spec w x) as [->|]; [contradiction|reflexivity].
    + cbn in Hw. destruct (Nat.eqb_spec w y) as [->|]; [contradiction|reflexivity].
Qed.
Lemma split_last (t : nat) p : exists P, t :: p = P ++ [last p t].
Proof. exists (removelast (t :: p)). assert (last p t = last (t :: p) t) as ->; [destruct p; [reflexivity|cbn; destruct p; reflexivity]|]. apply app_removelast_last. discriminate. Qed.
Lemma split_head (t : nat) q : exists Q, q ++ [t] = hd t q :: Q.
Proof. destruct q as [|y q]; [exists []; reflexivity|]. exists (q ++ [t]). reflexivity. Qed.
Lemma last_in (t : nat) p : In (last p t) (t :: p).
Proof. destruct (split_last t p) as (P & E). rewrite E. apply in_app_iff. right. now left. Qed.
Lemma head_in (t : nat) q : In (hd t q) (q ++ [t]).
Proof. destruct q; cbn; [now left|now left]. Qed.
Lemma ring_join h t p q : NoDup (t :: p ++ q) -> linked h (t :: p) -> linked h (q ++ [t]) -> ring (join h (last p t) (hd t q)) t (p ++ q).
Proof.
  intros Nd L1 L2. unfold ring. rewrite <- app_assoc, app_comm_cons. pose proof (last_in t p) as Hx. pose proof (head_in t q) as Hy. pose proof Nd as Nd0. rewrite app_comm_cons in Nd. apply NoDup_app_iff in Nd as (N1 & N2 & N3).
  destruct (split_last t p) as (P & EP), (split_head t q) as (Q & EQ). assert (removelast (hd t q :: Q) = q) as Eq by (rewrite <- EQ; apply removelast_last). rewrite EP in L1. rewrite EQ in L2.
  rewrite EP, EQ, <- app_assoc. cbn [app]. apply linked_join; try assumption.
  - rewrite EP in N1. apply NoDup_remove_2 in N1. now rewrite app_nil_r in N1.
  - rewrite Eq. intros C. exact (N3 _ Hx C).
  - rewrite <- EP. cbn [tl]. intros C. apply in_app_iff in Hy as [Hy|[Hy|[]]].
    + apply (N3 (hd t q)); [now right|exact Hy].
    + inversion N1; subst. congruence.
  - assert (NoDup (q ++ [t])) as N4. { apply NoDup_app_iff. conj; [exact N2|repeat constructor; intros []|]. intros z Hz [<-|[]]. apply (N3 t); [now left|exact Hz]. }
    rewrite EQ in N4. now inversion N4.
Qed.
(** a segment [m] leaves the ring *)
Lemma ring_unlink h t p m q : NoDup (t :: p ++ m ++ q) -> ring h t (p ++ m ++ q) -> ring (join h (last p t) (hd t q)) t (p ++ q) /\ linked h m.
Proof.
  intros Nd L. unfold ring in L. rewrite <- !app_assoc, app_comm_cons in L. pose proof (linked_sub _ _ _ L) as (L1 & L2). pose proof (linked_sub _ _ _ L2) as (L3 & L4). split; [|exact L3].
  apply ring_join; [|exact L1|exact L4]. rewrite app_comm_cons in *. apply NoDup_app_iff in Nd as (N1 & N2 & N3). apply NoDup_app_iff in N2 as (N4 & N5 & N6). apply NoDup_app_iff. conj; [exact N1|exact N5|]. intros z H1 H2. apply (N3 z H1). apply in_app_iff. now right.
Qed.
(** a segment [m] enters the ring *)
Lemma linked_last_join h p x m t : NoDup (t :: p ++ x :: m) -> linked h (t :: p) -> linked h (x :: m) -> linked (join h (last p t) x) (t :: p ++ x :: m).
Proof.
  intros Nd L1 L2. pose proof (last_in t p) as Hx. rewrite app_comm_cons in *. destruct (split_last t p) as (P & EP). rewrite EP in *. rewrite <- app_assoc. cbn [app]. apply NoDup_app_iff in Nd as (N1 & N2 & N3). apply linked_join; try assumption.
  - apply NoDup_remove_2 in N1. now rewrite app_nil_r in N1.
  - intros C. apply (N3 (last p t)); [apply in_app_iff; right; now left|]. clear - C. revert C. generalize (last p t). induction (x :: m) as [|a l IH]; intros z C; [destruct C|]. cbn in C. destruct l; [destruct C|]. destruct C as [C|C]; [now left|right; now apply IH].
  - intros C. apply (N3 x); [|now left]. destruct P; [destruct C|]. now right.
  - now inversion N2.
Qed.
Lemma last_snoc_mid (m : list nat) p t y : last (p ++ m ++ [y]) t = y.
Proof. rewrite app_assoc. apply last_last. Qed.
Lemma ring_link h t p m q : NoDup (t :: p ++ m ++ q) -> m <> [] -> ring h t (p ++ q) -> linked h m ->
  ring (join (join h (last p t) (hd 0 m)) (last m 0) (hd t q)) t (p ++ m ++ q).
Proof.
  intros Nd Nm L Lm. destruct m as [|x m]; [congruence|]. clear Nm. unfold ring in L. rewrite <- app_assoc, app_comm_cons in L. apply linked_sub in L as (L1 & L2). cbn [hd].
  assert (NoDup (t :: p ++ x :: m)) as N1. { rewrite app_assoc, app_comm_cons in Nd. apply NoDup_app_iff in Nd. apply Nd. }
  assert (last (x :: m) 0 = last (p ++ x :: m) t) as ->. { destruct (exists_last (l := x :: m)) as (m' & y & E); [discriminate|]. rewrite E, last_last. symmetry. apply last_snoc_mid. }
  replace (p ++ (x :: m) ++ q) with ((p ++ x :: m) ++ q) in * by (now rewrite <- app_assoc). apply ring_join; [exact Nd| |].
  - now apply linked_last_join.
  - rewrite app_comm_cons in Nd. apply NoDup_app_iff in Nd as (N2 & N3 & N4). destruct (split_head t q) as (Q & EQ).
    assert (~ In (last p t) q) as Hl. { intros C. refine (N4 _ _ C). rewrite app_comm_cons. apply in_app_iff. left. apply last_in. }
    assert (~ In x (tl (q ++ [t]))) as Hx. { rewrite EQ. cbn [tl]. intros C. assert (In x (q ++ [t])) as C' by (rewrite EQ; now right). apply in_app_iff in C' as [C'|[C'|[]]]; [apply (N4 x); [right; apply in_app_iff; right; now left|exact C']|].
      subst x. inversion N1 as [|? ? Z]; subst. apply Z. apply in_app_iff. right. now left. }
    eapply linked_frame; [| |exact L2]; intros z Hz; cbn.
    + destruct (Nat.eqb_spec z (last p t)) as [->|]; [contradiction|reflexivity].
    + destruct (Nat.eqb_spec z x) as [->|]; [contradiction|reflexivity].
Qed.
(** neighbours in a ring *)
Lemma ring_hd h t l : ring h t l -> nxt h t = hd t l /\ prv h t = last l t.
Proof.
  intros L. unfold ring in L. split.
  - destruct l as [|x l]; cbn in L; apply L.
  - destruct (split_last t l) as (P & E). rewrite app_comm_cons, E, <- app_assoc in L. cbn [app] in L. apply linked_mid in L. apply L.
Qed.
Lemma ring_mid h t p x q : ring h t (p ++ x :: q) -> nxt h x = hd t q /\ prv h x = last p t.
Proof.
  intros L. unfold ring in L. split.
  - rewrite <- app_assoc in L. cbn [app] in L. destruct (split_head t q) as (Q & E). rewrite E, app_comm_cons in L. apply linked_mid in L. apply L.
  - destruct (split_last t p) as (P & E). rewrite <- app_assoc in L. cbn [app] in L. rewrite app_comm_cons, E, <- app_assoc in L. cbn [app] in L. apply linked_mid in L. apply L.
Qed.
Lemma ring_prv_hd h t p q : ring h t (p ++ q) -> prv h (hd t q) = last p t.
Proof. intros L. destruct q as [|x q]; [rewrite app_nil_r in L; apply (ring_hd _ _ _ L)|]. apply (ring_mid _ _ _ _ _ L). Qed.
Lemma ring_nxt_last h t p q : ring h t (p ++ q) -> nxt h (last p t) = hd t q.
Proof. intros L. destruct p as [|x p] using rev_ind; [apply (ring_hd _ _ _ L)|]. rewrite last_last. rewrite <- app_assoc in L. apply (ring_mid _ _ _ _ _ L). Qed.
Lemma ring_ext h h' t l : (forall y, In y (t :: l) -> nxt h' y = nxt h y /\ prv h' y = prv h y) -> ring h t l -> ring h' t l.
Proof. intros H. apply linked_ext; intros y Hy; apply H; rewrite app_comm_cons in Hy; apply in_app_iff in Hy as [Hy|[<-|[]]]; (exact Hy || now left). Qed.
