(** Proofs for intrusive_links.h: chains and rings as one. *)
From Coq Require Import List Arith Bool Lia.
From Verif Require Import Util SortSpec ListSpec Dll ListModel ListProofs IntrModel IntrSpec.
Import ListNotations.

(** equal links except those of node 0 *)
Definition eqv (h h' : links) : Prop := forall y, y <> 0 -> nxt h' y = nxt h y /\ prv h' y = prv h y.
Lemma eqv_refl h : eqv h h. Proof. intros y _. split; reflexivity. Qed.
Lemma eqv_sym h h' : eqv h h' -> eqv h' h. Proof. intros E y Hy. destruct (E y Hy). split; congruence. Qed.
Lemma eqv_trans a b c : eqv a b -> eqv b c -> eqv a c.
Proof. intros E F y Hy. destruct (E y Hy), (F y Hy). split; congruence. Qed.
Lemma eqv_join h h' a b : eqv h h' -> eqv (join h a b) (join h' a b).
Proof. intros E y Hy. destruct (E y Hy). cbn. destruct (y =? a), (y =? b); split; congruence. Qed.
Lemma linked_iff h : forall c, linked h c <-> forall p x y q, c = p ++ x :: y :: q -> nxt h x = y /\ prv h y = x.
Proof.
  intros c. split; [intros L p x y q ->; now apply linked_mid in L|].
  induction c as [|a c IH]; intros H; [exact I|]. destruct c as [|b c]; [exact I|]. apply linked_cons. destruct (H [] a b c eq_refl) as (H1 & H2). conj; [exact H1|exact H2|].
  apply IH. intros p x y q E. apply (H (a :: p) x y q). cbn. now rewrite E.
Qed.
Lemma hd_def (l : list nat) x y : l <> [] -> hd x l = hd y l. Proof. now destruct l. Qed.
Lemma last_def (l : list nat) x y : l <> [] -> last l x = last l y.
Proof. induction l as [|a l IH]; [congruence|]. intros _. destruct l as [|b l]; [reflexivity|]. change (last (b :: l) x = last (b :: l) y). apply IH. discriminate. Qed.
(** chains and rings as one: the links of node 0 may be invented *)
Lemma through_ring h t l : through h t l -> exists h0, eqv h h0 /\ ring h0 t l.
Proof.
  intros (N & Z0 & Ht & Hm).
  exists {| nxt := fun y => if y =? 0 then (if t =? 0 then hd 0 l else nxt h 0) else nxt h y;
            prv := fun y => if y =? 0 then (if t =? 0 then last l 0 else prv h 0) else prv h y |}.
  split. { intros y Hy. cbn. apply Nat.eqb_neq in Hy. rewrite Hy. split; reflexivity. }
  set (h0 := {| nxt := _; prv := _ |}).
  assert (nxt h0 t = hd t l /\ prv h0 t = last l t) as (A1 & A2).
  { cbn. destruct (Nat.eqb_spec t 0) as [->|D]; [split; reflexivity|]. now apply Ht. }
  assert (forall p x q, l = p ++ x :: q -> nxt h0 x = hd t q /\ prv h0 x = last p t) as B.
  { intros p x q E. assert (x <> 0) as D. { intros ->. apply Z0. rewrite E. apply in_app_iff. right. now left. } cbn. apply Nat.eqb_neq in D. rewrite D. now apply Hm. }
  unfold ring. apply linked_iff. intros p x y q E. destruct p as [|t' p]; cbn [app] in E.
  - injection E as <- E. assert (y = hd t l) as ->. { destruct l; cbn in *; congruence. } split; [exact A1|].
    destruct l as [|z l]; [exact A2|]. cbn [hd]. now apply (B [] z l).
  - injection E as <- E. destruct q as [|z q] using rev_ind.
    + change (p ++ [x; y]) with (p ++ [x] ++ [y]) in E. rewrite app_assoc in E. apply app_inj_tail in E as (E & <-). split; [now apply (B p x [])|]. rewrite A2, E. apply last_last.
    + clear IHq. assert (l = p ++ x :: y :: q) as E'. { change (x :: y :: q ++ [z]) with ((x :: y :: q) ++ [z]) in E. rewrite app_assoc in E. apply app_inj_tail in E. apply E. }
      split; [now apply (B p x (y :: q))|]. destruct (B (p ++ [x]) y q) as (_ & ->); [now rewrite <- app_assoc|]. apply last_last.
Qed.
Lemma ring_through h h0 t l : eqv h h0 -> ring h0 t l -> NoDup (t :: l) -> ~ In 0 l -> through h t l.
Proof.
  intros E R N Z0. split; [exact N|split; [exact Z0|split]].
  - intros Ht. destruct (E t Ht) as (<- & <-). now apply ring_hd.
  - intros p x q ->. assert (x <> 0) as D. { intros ->. apply Z0. apply in_app_iff. right. now left. } destruct (E x D) as (<- & <-). now apply ring_mid.
Qed.
Lemma through_eqv h h' t l : eqv h h' -> through h t l -> through h' t l.
Proof. intros E T. destruct (through_ring _ _ _ T) as (h0 & E0 & R). apply (ring_through h' h0 t l); [|exact R|apply T|apply T]. eapply eqv_trans; [apply eqv_sym; exact E|exact E0]. Qed.
Lemma segment_linked h m : m <> [] -> NoDup m -> ~ In 0 m -> linked h m -> segment h m.
Proof. intros H1 H2 H3 L. split; [assumption|split; [assumption|split; [assumption|]]]. now apply linked_iff. Qed.
Lemma segment_eqv h h' m : eqv h h' -> segment h m -> segment h' m.
Proof.
  intros E (H1 & H2 & H3 & H4). split; [assumption|split; [assumption|split; [assumption|]]]. intros p x y q Em. specialize (H4 p x y q Em).
  assert (x <> 0 /\ y <> 0) as (Dx & Dy). { split; intros ->; apply H3; rewrite Em; apply in_app_iff; right; [now left|right; now left]. }
  destruct (E x Dx), (E y Dy). split; [destruct H4; congruence|destruct H4; congruence].
Qed.
Lemma through_neq0 h t l x : through h t l -> In x l -> x <> 0. Proof. intros (_ & Z0 & _) I ->. contradiction. Qed.
(** access *)
Lemma through_nxt h t p q : through h t (p ++ q) -> last p t <> 0 -> nxt h (last p t) = hd t q.
Proof. intros T D. destruct (through_ring _ _ _ T) as (h0 & E & R). destruct (E _ D) as (<- & _). now apply ring_nxt_last. Qed.
Lemma through_prv h t p q : through h t (p ++ q) -> hd t q <> 0 -> prv h (hd t q) = last p t.
Proof. intros T D. destruct (through_ring _ _ _ T) as (h0 & E & R). destruct (E _ D) as (_ & <-). now apply ring_prv_hd. Qed.
Lemma through_mid h t p x q : through h t (p ++ x :: q) -> nxt h x = hd t q /\ prv h x = last p t.
Proof. intros (_ & _ & _ & H). now apply H. Qed.
Lemma through_seg h t p m q : through h t (p ++ m ++ q) -> m <> [] -> segment h m.
Proof.
  intros T Hm. destruct (through_ring _ _ _ T) as (h0 & E & R). destruct T as (N & Z0 & _). apply (segment_eqv h0 h); [now apply eqv_sym|]. apply segment_linked; [exact Hm| | |].
  - inversion N as [|? ? _ N1]; subst. apply NoDup_app_iff in N1 as (_ & N1 & _). apply NoDup_app_iff in N1. apply N1.
  - intros C. apply Z0. apply in_app_iff. right. apply in_app_iff. now left.
  - now destruct (ring_unlink _ _ _ _ _ N R).
Qed.
(** the two ways a chain changes *)
Lemma through_link h t p m q : through h t (p ++ q) -> segment h m -> NoDup (t :: p ++ m ++ q) ->
  through (join (join h (last p t) (hd 0 m)) (last m 0) (hd t q)) t (p ++ m ++ q).
Proof.
  intros T (M1 & M2 & M3 & M4) N. destruct (through_ring _ _ _ T) as (h0 & E & R). destruct T as (_ & Z0 & _).
  eapply ring_through; [|eapply ring_link; [exact N|exact M1|exact R|]|exact N|].
  - now apply eqv_join, eqv_join.
  - assert (segment h0 m) as (_ & _ & _ & K) by (apply (segment_eqv h h0); [exact E|split; [assumption|split; [assumption|split; assumption]]]). now apply linked_iff.
  - rewrite !in_app_iff in *. tauto.
Qed.
Lemma through_unlink h t p m q : through h t (p ++ m ++ q) -> through (join h (last p t) (hd t q)) t (p ++ q).
Proof.
  intros T. destruct (through_ring _ _ _ T) as (h0 & E & R). destruct T as (N & Z0 & _).
  eapply ring_through; [|apply (ring_unlink _ _ _ _ _ N R)| |].
  - now apply eqv_join.
  - rewrite app_comm_cons in *. apply NoDup_app_iff in N as (N1 & N2 & N3). apply NoDup_app_iff in N2 as (N4 & N5 & N6). apply NoDup_app_iff. conj; [exact N1|exact N5|]. intros z H1 H2. apply (N3 z H1). apply in_app_iff. now right.
  - rewrite !in_app_iff in *. tauto.
Qed.
Lemma only_through h h' s t l : only s h h' -> apart s (t :: l) -> through h t l -> through h' t l.
Proof.
  intros O A (N & Z0 & Ht & Hm). split; [exact N|split; [exact Z0|split]].
  - intros D. destruct (O t D) as (-> & ->); [|now apply Ht]. intros C. apply (A t C). now left.
  - intros p x q E. assert (In x l) as I by (rewrite E; apply in_app_iff; right; now left). destruct (O x) as (-> & ->); [now intros ->|intros C; apply (A x C); now right|now apply Hm].
Qed.
Lemma only_segment h h' s m : only s h h' -> apart s m -> segment h m -> segment h' m.
Proof.
  intros O A (H1 & H2 & H3 & H4). split; [assumption|split; [assumption|split; [assumption|]]]. intros p x y q E. destruct (H4 p x y q E) as (E1 & E2).
  assert (In x m /\ In y m) as (Ix & Iy) by (rewrite E; rewrite !in_app_iff; cbn; tauto).
  destruct (O x) as (-> & _); [now intros ->|intros C; exact (A x C Ix)|]. destruct (O y) as (_ & ->); [now intros ->|intros C; exact (A y C Iy)|]. now split.
Qed.
Lemma only_refl s h : only s h h. Proof. intros y _ _. split; reflexivity. Qed.
Lemma only_trans s h1 h2 h3 : only s h1 h2 -> only s h2 h3 -> only s h1 h3.
Proof. intros A B y D N. destruct (A y D N), (B y D N). split; congruence. Qed.
Lemma only_incl s s' h h' : incl s s' -> only s h h' -> only s' h h'.
Proof. intros I A y D N. apply A; [exact D|]. intros C. apply N. now apply I. Qed.
Lemma only_eqv s h h1 h' : eqv h' h1 -> only s h h1 -> only s h h'.
Proof. intros E A y D N. destruct (A y D N), (E y D). split; congruence. Qed.
Lemma only_join s h a b : In a s \/ a = 0 -> In b s \/ b = 0 -> only s h (join h a b).
Proof. intros Ha Hb y D N. cbn. split; [destruct (Nat.eqb_spec y a) as [->|]; [|reflexivity]|destruct (Nat.eqb_spec y b) as [->|]; [|reflexivity]]; exfalso; tauto. Qed.
Lemma only_clear s h x : In x s -> only s h (clear_node h x).
Proof. intros Hx y D N. cbn. destruct (Nat.eqb_spec y x) as [->|]; [contradiction|split; reflexivity]. Qed.
Lemma join_through_clear h t l x : through h t l -> ~ In x (t :: l) -> through (clear_node h x) t l.
Proof. intros T H. apply (only_through h _ [x]); [apply only_clear; now left| |exact T]. intros y [<-|[]]. exact H. Qed.
Lemma loose_clear h x : loose (clear_node h x) x.
Proof. split; cbn; now rewrite Nat.eqb_refl. Qed.

(** ** the functions *)
Lemma link_splice_range_eqv h lhs first last : lhs <> 0 -> last <> lhs ->
  eqv (link_splice_range h lhs first last) (join (join h lhs first) last (nxt h lhs)).
Proof.
  intros D1 D2 y Hy. unfold link_splice_range. cbn.
  assert (last =? lhs = false) as E by (now apply Nat.eqb_neq). assert (lhs =? last = false) as E' by (apply Nat.eqb_neq; congruence).
  rewrite Nat.eqb_refl. destruct (Nat.eqb_spec (nxt h lhs) 0) as [Z1|Z1]; cbn.
  - destruct (Nat.eqb_spec y lhs), (Nat.eqb_spec y last), (Nat.eqb_spec y first), (Nat.eqb_spec y (nxt h lhs)); subst; try congruence; split; congruence.
  - rewrite ?Nat.eqb_refl. destruct (Nat.eqb_spec y lhs), (Nat.eqb_spec y last), (Nat.eqb_spec y first), (Nat.eqb_spec y (nxt h lhs)); subst; try congruence; split; try congruence.
Qed.
Lemma link_splice_eqv h lhs x : lhs <> 0 -> x <> lhs -> eqv (link_splice h lhs x) (join (join h lhs x) x (nxt h lhs)).
Proof.
  intros D1 D2. replace (link_splice h lhs x) with (link_splice_range h lhs x x); [now apply link_splice_range_eqv|].
  unfold link_splice_range, link_splice. cbn. apply not_eq_sym in D2. apply Nat.eqb_neq in D2. rewrite Nat.eqb_refl, D2. reflexivity.
Qed.
Lemma link_splice_pr_eq h lhs x : lhs <> 0 -> link_splice_pr h lhs x = link_splice h lhs x.
Proof. intros D. unfold link_splice_pr, link_splice. apply Nat.eqb_neq in D. rewrite D. reflexivity. Qed.
Lemma link_splice_p_eq h lhs x : lhs <> 0 -> x <> 0 -> link_splice_p h lhs x = link_splice h lhs x.
Proof. intros D D'. unfold link_splice_p, link_splice. apply Nat.eqb_neq in D, D'. rewrite D, D'. reflexivity. Qed.
Lemma link_splice_range_p_eq h lhs a b : lhs <> 0 -> link_splice_range_p h lhs a b = link_splice_range h lhs a b.
Proof. intros D. unfold link_splice_range_p, link_splice_range. apply Nat.eqb_neq in D. rewrite D. reflexivity. Qed.
Lemma only_of_eqv_join2 s h h' a b c d : eqv h' (join (join h a b) c d) -> (forall z, In z [a; b; c; d] -> In z s \/ z = 0) -> only s h h'.
Proof.
  intros E H. eapply only_eqv; [exact E|]. eapply only_trans; apply only_join; apply H; cbn; tauto.
Qed.
Lemma last_In (m : list nat) d : m <> [] -> In (last m d) m.
Proof. intros H. destruct (exists_last H) as (r & x & ->). rewrite last_last. apply in_app_iff. right. now left. Qed.
Lemma hd_In (m : list nat) d : m <> [] -> In (hd d m) m. Proof. destruct m; [congruence|now left]. Qed.

Theorem link_splice_range_ok h t p m q : through h t (p ++ q) -> segment h m -> NoDup (t :: p ++ m ++ q) -> last p t <> 0 ->
  let h' := link_splice_range h (last p t) (hd 0 m) (last m 0) in
  through h' t (p ++ m ++ q) /\ only [last p t; hd 0 m; last m 0; hd t q] h h'.
Proof.
  intros T M N D h'. assert (last m 0 <> last p t) as D2.
  { intros C. pose proof (last_In m 0 (proj1 M)) as I1. pose proof (last_in t p) as I2. rewrite C in I1. rewrite app_comm_cons in N. apply NoDup_app_iff in N as (_ & _ & N). apply (N _ I2). apply in_app_iff. now left. }
  pose proof (link_splice_range_eqv h (last p t) (hd 0 m) (last m 0) D D2) as E. rewrite (through_nxt _ _ _ _ T D) in E. fold h' in E. split.
  - eapply through_eqv; [apply eqv_sym; exact E|]. now apply through_link.
  - eapply only_of_eqv_join2; [exact E|]. intros z. cbn. tauto.
Qed.
Lemma segment1 h x : x <> 0 -> segment h [x].
Proof. intros D. split; [discriminate|split; [repeat constructor; intros []|split; [intros [C|[]]; congruence|]]]. intros p a b q E. destruct p as [|? [|? p]]; discriminate E. Qed.
Lemma nodup_mid (t : nat) p x q : NoDup (t :: p ++ q) -> ~ In x (t :: p ++ q) -> NoDup (t :: p ++ x :: q).
Proof. intros N H. change (NoDup ((t :: p) ++ x :: q)). apply NoDup_Add with (a := x) (l := (t :: p) ++ q); [apply Add_app|]. split; [exact N|exact H]. Qed.
Theorem link_splice_ok h t p x q : through h t (p ++ q) -> x <> 0 -> ~ In x (t :: p ++ q) -> last p t <> 0 ->
  let h' := link_splice h (last p t) x in through h' t (p ++ x :: q) /\ only [last p t; x; hd t q] h h'.
Proof.
  intros T Dx Nx D h'. assert (x <> last p t) as D2. { intros ->. apply Nx. rewrite app_comm_cons. apply in_app_iff. left. apply last_in. }
  pose proof (link_splice_eqv h (last p t) x D D2) as E. rewrite (through_nxt _ _ _ _ T D) in E. fold h' in E. split.
  - eapply through_eqv; [apply eqv_sym; exact E|]. apply (through_link h t p [x] q T); [now apply segment1|]. apply nodup_mid; [apply T|exact Nx].
  - eapply only_of_eqv_join2; [exact E|]. intros z. cbn. tauto.
Qed.
(** unlink *)
Lemma unlink_eqv h x : prv h x <> x -> x <> 0 -> eqv (unlink h x) (clear_node (join h (prv h x) (nxt h x)) x).
Proof.
  intros D D0 y Hy. unfold unlink. assert (x =? prv h x = false) as E by (apply Nat.eqb_neq; congruence).
  destruct (Nat.eqb_spec (prv h x) 0) as [P|P]; cbn; rewrite ?E; destruct (Nat.eqb_spec (nxt h x) 0) as [Q|Q]; cbn; rewrite ?E;
  (destruct (Nat.eqb_spec y x); [split; reflexivity|]); destruct (Nat.eqb_spec y (prv h x)), (Nat.eqb_spec y (nxt h x)); subst; split; congruence.
Qed.
Lemma mid_notin (t : nat) p x q : NoDup (t :: p ++ x :: q) -> ~ In x (t :: p ++ q).
Proof. intros N. change (NoDup ((t :: p) ++ x :: q)) in N. now apply NoDup_remove_2 in N. Qed.
Theorem unlink_ok h t p x q : through h t (p ++ x :: q) -> let h' := unlink h x in through h' t (p ++ q) /\ loose h' x /\ only [last p t; x; hd t q] h h'.
Proof.
  intros T h'. destruct (through_mid _ _ _ _ _ T) as (En & Ep). pose proof (mid_notin _ _ _ _ (proj1 T)) as Nx.
  assert (prv h x <> x) as D. { rewrite Ep. intros C. apply Nx. rewrite app_comm_cons, <- C. apply in_app_iff. left. apply last_in. }
  assert (x <> 0) as D0 by (apply (through_neq0 _ _ _ x T), in_app_iff; right; now left).
  pose proof (unlink_eqv h x D D0) as E. rewrite En, Ep in E. fold h' in E. conj.
  - eapply through_eqv; [apply eqv_sym; exact E|]. apply join_through_clear; [|exact Nx]. now apply (through_unlink h t p [x] q).
  - unfold loose. destruct (E x D0) as (<- & <-). apply loose_clear.
  - eapply only_eqv; [exact E|]. apply (only_trans _ _ (join h (last p t) (hd t q))); [apply only_join; cbn; tauto|apply only_clear; cbn; tauto].
Qed.
Lemma unlink_range_eqv h a b : a <> b -> nxt h b <> a -> prv h a <> b -> a <> 0 -> b <> 0 ->
  eqv (unlink_range h a b) (let j := join h (prv h a) (nxt h b) in set_nxt (set_prv (if prv h a =? 0 then j else clear_node j b) a 0) b 0).
Proof.
  intros D1 D2 D3 Da Db y Hy. unfold unlink_range. rewrite (proj2 (Nat.eqb_neq _ _) D1). cbv zeta.
  assert (prv (if nxt h b =? 0 then h else set_prv h (nxt h b) (prv h a)) a = prv h a) as E1. { destruct (Nat.eqb_spec (nxt h b) 0); [reflexivity|]. cbn. rewrite (proj2 (Nat.eqb_neq _ _) (not_eq_sym D2)). reflexivity. }
  rewrite E1. destruct (Nat.eqb_spec (nxt h b) 0) as [Q|Q]; destruct (Nat.eqb_spec (prv h a) 0) as [P|P]; cbn;
  destruct (Nat.eqb_spec y a), (Nat.eqb_spec y b), (Nat.eqb_spec y (prv h a)), (Nat.eqb_spec y (nxt h b)); subst; split; try congruence; rewrite ?Nat.eqb_refl; try congruence.
Qed.
Lemma forward_links h t l : NoDup (t :: l) -> ~ In 0 l -> (forall p x q, l = p ++ x :: q -> nxt h x = hd t q) -> forward (nxt h) t l.
Proof. intros H1 H2 H3. split; [exact H1|split; [exact H2|exact H3]]. Qed.
Lemma through_forward h t l : through h t l -> forward (nxt h) t l.
Proof. intros (H1 & H2 & _ & H3). split; [exact H1|split; [exact H2|]]. intros p x q E. now apply H3 in E. Qed.
Lemma len2 (m : list nat) : 2 <= length m -> exists a c b, m = a :: c ++ [b].
Proof. destruct m as [|a m]; cbn; [lia|]. destruct m as [|b m] using rev_ind; cbn; [lia|]. intros _. exists a, m, b. reflexivity. Qed.
Lemma hd_app_last (a : nat) c b d : last (a :: c ++ [b]) d = b.
Proof. change (a :: c ++ [b]) with ((a :: c) ++ [b]). apply last_last. Qed.
Theorem unlink_range_ok h t p m q : through h t (p ++ m ++ q) -> 2 <= length m ->
  let h' := unlink_range h (hd 0 m) (last m 0) in
  through h' t (p ++ q) /\ only [last p t; hd 0 m; last m 0; hd t q] h h' /\
  forward (nxt h') 0 m /\ prv h' (hd 0 m) = 0 /\ prv h' (last m 0) = (if last p t =? 0 then prv h (last m 0) else 0) /\
  (last p t = 0 -> through h' 0 m).
Proof.
  intros T L. destruct (len2 _ L) as (a & c & b & ->). clear L. cbn [hd] in *. rewrite hd_app_last in *. set (h' := unlink_range h a b).
  assert (nxt h b = hd t q) as En. { replace (p ++ (a :: c ++ [b]) ++ q) with ((p ++ a :: c) ++ b :: q) in T by (rewrite <- !app_assoc; cbn; now rewrite <- app_assoc). now apply through_mid in T. }
  assert (prv h a = last p t) as Ep by (now apply through_mid in T).
  pose proof T as (N & Z0 & _). assert (a <> b) as D1. { intros ->. inversion N as [|? ? _ N1]; subst. apply NoDup_app_iff in N1 as (_ & N1 & _). inversion N1 as [|? ? N2]; subst. apply N2. rewrite !in_app_iff. cbn. tauto. }
  assert (forall z, In z (a :: c ++ [b]) -> ~ In z (t :: p) /\ ~ In z (q ++ [t])) as Ap.
  { intros z Iz. rewrite app_comm_cons in N. apply NoDup_app_iff in N as (N1 & N2 & N3). apply NoDup_app_iff in N2 as (N4 & N5 & N6). split; [intros C; apply (N3 z C), in_app_iff; now left|]. intros C. apply in_app_iff in C as [C|[<-|[]]]; [exact (N6 z Iz C)|]. apply (N3 t); [now left|apply in_app_iff; now left]. }
  assert (In a (a :: c ++ [b])) as Ia by (now left). assert (In b (a :: c ++ [b])) as Ib by (right; apply in_app_iff; right; now left).
  assert (nxt h b <> a) as D2. { rewrite En. intros C. apply (proj2 (Ap a Ia)). rewrite <- C. apply head_in. }
  assert (prv h a <> b) as D3. { rewrite Ep. intros C. apply (proj1 (Ap b Ib)). rewrite <- C. apply last_in. }
  assert (a <> 0 /\ b <> 0) as (Da & Db). { split; intros ->; apply Z0, in_app_iff; right; apply in_app_iff; left; assumption. }
  pose proof (unlink_range_eqv h a b D1 D2 D3 Da Db) as E. fold h' in E. cbv zeta in E. rewrite Ep, En in E. set (j := join h (last p t) (hd t q)) in *.
  set (h1 := set_nxt _ _ _) in E.
  assert (only [a; b] j h1) as O1. { unfold h1. intros y _ Ny. cbn in *. destruct (last p t =? 0); cbn; destruct (Nat.eqb_spec y a), (Nat.eqb_spec y b); subst; try tauto; split; congruence. }
  assert (only [last p t; a; b; hd t q] h h') as O.
  { eapply only_eqv; [exact E|]. apply (only_trans _ _ j); [apply only_join; cbn; tauto|]. eapply only_incl; [|exact O1]. intros z [<-|[<-|[]]]; cbn; tauto. }
  assert (nxt h' b = 0) as Nb. { destruct (E b Db) as (<- & _). unfold h1. cbn. now rewrite Nat.eqb_refl. }
  assert (prv h' a = 0) as Pa. { destruct (E a Da) as (_ & <-). unfold h1. cbn. now rewrite Nat.eqb_refl. }
  assert (forall p1 x y q1, a :: c ++ [b] = p1 ++ x :: y :: q1 -> nxt h' x = y /\ prv h' y = (if (y =? b) && negb (last p t =? 0) then 0 else x)) as Lk.
  { intros p1 x y q1 Em. pose proof (through_seg _ _ _ _ _ T) as (_ & Nm & Zm & K); [discriminate|]. destruct (K _ _ _ _ Em) as (K1 & K2).
    assert (In x (a :: c ++ [b]) /\ In y (a :: c ++ [b])) as (Ix & Iy) by (rewrite Em; rewrite !in_app_iff; cbn; tauto).
    assert (x <> b). { intros ->. change (a :: c ++ [b]) with ((a :: c) ++ [b]) in *. rewrite Em in Nm. destruct q1 as [|z q1 _] using rev_ind. - change (p1 ++ [b; y]) with (p1 ++ [b] ++ [y]) in Em. rewrite app_assoc in Em. apply app_inj_tail in Em as (_ & <-). apply NoDup_app_iff in Nm as (_ & Nm & _). inversion Nm as [|? ? Nn]; subst. apply Nn. now left.
      - change (p1 ++ b :: y :: q1 ++ [z]) with (p1 ++ (b :: y :: q1) ++ [z]) in Em. rewrite app_assoc in Em. apply app_inj_tail in Em as (_ & <-). apply NoDup_app_iff in Nm as (_ & Nm & _). inversion Nm as [|? ? Nn]; subst. apply Nn. right. apply in_app_iff. right. now left. }
    assert (y <> a). { intros ->. destruct p1 as [|w p1]; cbn in Em; injection Em as <- Em; [|inversion Nm as [|? ? Nn]; subst; apply Nn; rewrite Em; rewrite in_app_iff; cbn; tauto]. inversion Nm as [|? ? Nn]; subst. apply Nn. rewrite Em. now left. }
    assert (x <> 0 /\ y <> 0) as (Dx & Dy) by (split; intros ->; contradiction).
    assert (x <> last p t) as X1 by (intros ->; apply (proj1 (Ap _ Ix)), last_in). assert (y <> hd t q) as Y1 by (intros ->; apply (proj2 (Ap _ Iy)), head_in).
    destruct (E x Dx) as (<- & _), (E y Dy) as (_ & <-). unfold h1, j. apply Nat.eqb_neq in X1, Y1. destruct (last p t =? 0); cbn;
    destruct (Nat.eqb_spec x a), (Nat.eqb_spec x b), (Nat.eqb_spec y a), (Nat.eqb_spec y b); subst; try congruence; rewrite ?X1, ?Y1; try (split; congruence); cbn; split; congruence. }
  assert (forward (nxt h') 0 (a :: c ++ [b])) as F.
  { pose proof (through_seg _ _ _ _ _ T) as (_ & Nm & Zm & _); [discriminate|]. split; [now constructor|split; [exact Zm|]]. intros p1 x q1 Em. destruct q1 as [|y q1]; [|now apply Lk in Em]. cbn [hd]. change (a :: c ++ [b]) with ((a :: c) ++ [b]) in Em. apply app_inj_tail in Em as (_ & <-). exact Nb. }
  assert (prv h' b = if last p t =? 0 then prv h b else 0) as Pb.
  { destruct (E b Db) as (_ & <-). unfold h1, j. assert (b <> hd t q) as Y1 by (intros C; apply (proj2 (Ap _ Ib)); rewrite C; apply head_in). apply Nat.eqb_neq in Y1. assert (b =? a = false) as Y2 by (apply Nat.eqb_neq; congruence). destruct (last p t =? 0); cbn; rewrite ?Y2, ?Y1, ?Nat.eqb_refl; reflexivity. }
  conj.
  - eapply through_eqv; [apply eqv_sym; exact E|]. eapply only_through; [exact O1| |now apply (through_unlink h t p _ q T)].
    intros z Iz C. assert (In z (a :: c ++ [b])) as Iz' by (destruct Iz as [<-|[<-|[]]]; assumption). destruct (Ap z Iz') as (A1 & A2). rewrite app_comm_cons in C. apply in_app_iff in C as [C|C]; [contradiction|]. apply A2, in_app_iff. now left.
  - exact O.
  - exact F.
  - exact Pa.
  - exact Pb.
  - intros P0. destruct F as (F1 & F2 & F3). split; [exact F1|split; [exact F2|split; [congruence|]]]. intros p1 x q1 Em. split; [now apply (F3 p1)|]. destruct p1 as [|y p1 _] using rev_ind.
    + cbn in Em. injection Em as <- _. exact Pa.
    + rewrite last_last. rewrite <- app_assoc in Em. cbn [app] in Em. apply Lk in Em as (_ & ->). rewrite P0. cbn. now rewrite andb_false_r.
Qed.
