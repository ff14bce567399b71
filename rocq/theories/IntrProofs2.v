(** Proofs for intrusive_list.h *)
From Coq Require Import List Arith Bool Lia Permutation.
From Verif Require Import Util SortSpec ListSpec Dll MergeSort ListModel ListProofs IntrModel IntrSpec IntrProofs.
Import ListNotations.


Lemma through_ring' h t l : t <> 0 -> through h t l -> ring h t l.
Proof.
  intros D T. destruct (through_ring _ _ _ T) as (h0 & E & R). apply (ring_ext h0 h); [|exact R]. intros y Hy. destruct (E y); [|split; congruence].
  destruct Hy as [<-|Hy]; [exact D|]. now apply (through_neq0 _ _ _ y T).
Qed.
Lemma ring_through' h t l : ring h t l -> NoDup (t :: l) -> ~ In 0 l -> through h t l.
Proof. apply ring_through, eqv_refl. Qed.
Lemma last_nz (t : nat) p q h : t <> 0 -> through h t (p ++ q) -> last p t <> 0.
Proof. intros D T. destruct (last_in t p) as [<-|I]; [exact D|]. apply (through_neq0 _ _ _ _ T), in_app_iff. now left. Qed.
Lemma hd_nz (t : nat) p q h : t <> 0 -> through h t (p ++ q) -> hd t q <> 0.
Proof. intros D T. pose proof (head_in t q) as I. apply in_app_iff in I as [I|[<-|[]]]; [|exact D]. apply (through_neq0 _ _ _ _ T), in_app_iff. now right. Qed.
(** a node of a list, and its terminal node, is linked *)
Lemma holds_linked h l xs x : holds h l xs -> In x (trm l :: xs) -> is_linked h x = true.
Proof.
  intros (D & T & _) I. unfold is_linked. assert (nxt h x <> 0) as Nx; [|apply Nat.eqb_neq in Nx; rewrite Nx; apply orb_true_r].
  destruct I as [<-|I].
  - pose proof T as (N & Z0 & Ht & _). destruct (Ht D) as (-> & _). now apply (hd_nz (trm l) [] xs h D).
  - apply in_split in I as (p & q & ->). destruct (through_mid _ _ _ _ _ T) as (-> & _). apply (hd_nz (trm l) (p ++ [x]) q h D). now rewrite <- app_assoc.
Qed.
Lemma is_linked_loose h x : is_linked h x = false <-> loose h x.
Proof. unfold is_linked, loose. destruct (Nat.eqb_spec (prv h x) 0), (Nat.eqb_spec (nxt h x) 0); cbn; split; intros; try discriminate; try tauto; split; congruence. Qed.
Lemma fresh_of_loose h l xs x : holds h l xs -> is_linked h x = false -> ~ In x (trm l :: xs).
Proof. intros H E I. rewrite (holds_linked _ _ _ _ H I) in E. discriminate. Qed.
Lemma initialise_ok h l : trm l <> 0 -> let '(h', l') := initialise h l in holds h' l' [] /\ trm l' = trm l /\ only [trm l] h h'.
Proof.
  intros D. cbn. split; [split; [exact D|split; [|reflexivity]]|split; [reflexivity|]].
  - split; [repeat constructor; intros []|split; [intros []|split]]. + intros _. cbn. now rewrite Nat.eqb_refl. + intros p x q E. destruct p; discriminate E.
  - intros y _ Ny. cbn in *. destruct (Nat.eqb_spec y (trm l)); [exfalso; apply Ny; now left|]. split; reflexivity.
Qed.
Lemma insert_link_ok h l a b x : holds h l (a ++ b) -> x <> 0 -> ~ In x (trm l :: a ++ b) ->
  let '(h', l') := insert_link h l (last a (trm l)) x in holds h' l' (a ++ x :: b) /\ trm l' = trm l /\ only (x :: trm l :: a ++ b) h h'.
Proof.
  intros (D & T & Ez) Dx Nx. unfold insert_link. destruct (link_splice_ok h (trm l) a x b T Dx Nx (last_nz _ _ _ _ D T)) as (T' & O'). split; [|split; [reflexivity|]].
  - split; [exact D|split; [exact T'|]]. cbn. rewrite Ez, !app_length. cbn. lia.
  - eapply only_incl; [|exact O']. pose proof (last_in (trm l) a) as I1. pose proof (head_in (trm l) b) as I2. intros z [<-|[<-|[<-|[]]]]; [| now left|].
    + right. destruct I1 as [<-|I1]; [now left|right; apply in_app_iff; now left].
    + right. apply in_app_iff in I2 as [I2|[<-|[]]]; [right; apply in_app_iff; now right|now left].
Qed.
Lemma push_front_ok h l xs x : holds h l xs -> x <> 0 ->
  (is_linked h x = true -> i_push_front h l x = (Already_linked, (h, l))) /\
  (is_linked h x = false -> exists h' l', i_push_front h l x = (Ok, (h', l')) /\ holds h' l' (x :: xs) /\ trm l' = trm l /\ only (x :: trm l :: xs) h h').
Proof.
  intros H D. unfold i_push_front. split; intros E; rewrite E; [reflexivity|]. pose proof (fresh_of_loose _ _ _ _ H E) as F. pose proof (insert_link_ok h l [] xs x H D F) as K. cbn [last app] in K.
  destruct (insert_link h l (trm l) x) as (h' & l'). exists h', l'. now split.
Qed.
Lemma push_back_ok h l xs x : holds h l xs -> x <> 0 ->
  (is_linked h x = true -> i_push_back h l x = (Already_linked, (h, l))) /\
  (is_linked h x = false -> exists h' l', i_push_back h l x = (Ok, (h', l')) /\ holds h' l' (xs ++ [x]) /\ trm l' = trm l /\ only (x :: trm l :: xs) h h').
Proof.
  intros H D. unfold i_push_back. split; intros E; rewrite E; [reflexivity|]. pose proof (fresh_of_loose _ _ _ _ H E) as F. pose proof H as (Dt & (_ & _ & Ht & _) & _). destruct (Ht Dt) as (_ & ->).
  pose proof (insert_link_ok h l xs [] x) as K. rewrite app_nil_r in K. specialize (K H D F). destruct (insert_link h l (last xs (trm l)) x) as (h' & l'). exists h', l'. now split.
Qed.
Lemma disconnect_ok h l p x q : holds h l (p ++ x :: q) -> let '(h', l') := disconnect_link h l x in holds h' l' (p ++ q) /\ trm l' = trm l /\ loose h' x /\ only (trm l :: p ++ x :: q) h h'.
Proof.
  intros (D & T & Ez). unfold disconnect_link. destruct (unlink_ok h (trm l) p x q T) as (T' & L & O). split; [|split; [reflexivity|split; [exact L|]]].
  - split; [exact D|split; [exact T'|]]. cbn. rewrite Ez, !app_length. cbn. lia.
  - eapply only_incl; [|exact O]. pose proof (last_in (trm l) p) as I1. pose proof (head_in (trm l) q) as I2. intros z [<-|[<-|[<-|[]]]].
    + destruct I1 as [<-|I1]; [now left|right; apply in_app_iff; now left].
    + right. apply in_app_iff. right. now left.
    + apply in_app_iff in I2 as [I2|[<-|[]]]; [right; apply in_app_iff; right; now right|now left].
Qed.
Lemma i_empty_ok h l xs : holds h l xs -> i_empty h l = match xs with [] => true | _ => false end.
Proof.
  intros (D & (N & _ & Ht & _) & _). unfold i_empty. destruct (Ht D) as (-> & _). destruct xs as [|x xs]; cbn; [apply Nat.eqb_refl|]. apply Nat.eqb_neq. intros ->. inversion N as [|? ? N1]; subst. apply N1. now left.
Qed.
Lemma pop_front_ok check h l x xs : holds h l (x :: xs) -> exists h' l', i_pop_front check h l = (Ok, (h', l')) /\ holds h' l' xs /\ trm l' = trm l /\ loose h' x /\ only (trm l :: x :: xs) h h'.
Proof.
  intros H. unfold i_pop_front. rewrite (i_empty_ok _ _ _ H), andb_false_r. pose proof H as (D & (_ & _ & Ht & _) & _). destruct (Ht D) as (-> & _). cbn [hd].
  pose proof (disconnect_ok h l [] x xs H) as K. destruct (disconnect_link h l x) as (h' & l'). exists h', l'. now split.
Qed.
Lemma pop_back_ok check h l x xs : holds h l (xs ++ [x]) -> exists h' l', i_pop_back check h l = (Ok, (h', l')) /\ holds h' l' xs /\ trm l' = trm l /\ loose h' x /\ only (trm l :: xs ++ [x]) h h'.
Proof.
  intros H. unfold i_pop_back. rewrite (i_empty_ok _ _ _ H). replace (match xs ++ [x] with [] => true | _ => false end) with false by (now destruct xs). rewrite andb_false_r. pose proof H as (D & (_ & _ & Ht & _) & _). destruct (Ht D) as (_ & ->). rewrite last_last.
  pose proof (disconnect_ok h l xs x [] H) as K. rewrite app_nil_r in K. destruct (disconnect_link h l x) as (h' & l'). exists h', l'. now split.
Qed.
Lemma pop_empty h l : holds h l [] -> i_pop_front true h l = (Empty_error, (h, l)) /\ i_pop_back true h l = (Empty_error, (h, l)).
Proof. intros H. unfold i_pop_front, i_pop_back. now rewrite (i_empty_ok _ _ _ H). Qed.

(** walks *)
Lemma forward_tail n t x m : forward n t (x :: m) -> n x = hd t m /\ x <> t /\ x <> 0 /\ ~ In x m /\ forward n t m.
Proof.
  intros (N & Z0 & H). inversion N as [|? ? N1 N2]; subst. inversion N2 as [|? ? N3 N4]; subst. conj.
  - now apply (H [] x m).
  - intros ->. apply N1. now left.
  - intros ->. apply Z0. now left.
  - exact N3.
  - split; [constructor; [intros C; apply N1; now right|exact N4]|split; [intros C; apply Z0; now right|]]. intros p y q E. apply (H (x :: p) y q). cbn. now rewrite E.
Qed.
Lemma forward_ext n n' t m : (forall x, In x m -> n' x = n x) -> forward n t m -> forward n' t m.
Proof. intros E (H1 & H2 & H3). split; [exact H1|split; [exact H2|]]. intros p x q Em. rewrite E by (rewrite Em; apply in_app_iff; right; now left). now apply (H3 p). Qed.
Lemma through_forward_part h t p m q : through h t (p ++ m ++ q) -> forward (nxt h) (hd t q) m.
Proof.
  intros (N & Z0 & Ht & Hm). assert (NoDup (m ++ q ++ [t])) as N1.
  { inversion N as [|? ? N1 N2]; subst. apply NoDup_app_iff in N2 as (_ & N2 & _). rewrite app_assoc. apply NoDup_app_iff. conj; [exact N2|repeat constructor; intros []|]. intros z Hz [<-|[]]. apply N1, in_app_iff. now right. }
  split; [|split].
  - pose proof (head_in t q) as I. apply NoDup_app_iff in N1 as (N2 & _ & N3). constructor; [intros C; exact (N3 _ C I)|exact N2].
  - intros C. apply Z0. rewrite !in_app_iff. tauto.
  - intros p1 x q1 ->. destruct (Hm (p ++ p1) x (q1 ++ q)) as (-> & _); [now rewrite <- !app_assoc|]. destruct q1; reflexivity.
Qed.
Lemma clear_loop_ok : forall m f h stop, forward (nxt h) stop m -> length m <= f ->
  exists h', clear_loop f h (hd stop m) stop = Some h' /\ (forall x, In x m -> loose h' x) /\ (forall y, ~ In y m -> nxt h' y = nxt h y /\ prv h' y = prv h y).
Proof.
  induction m as [|x m IH]; intros f h stop F Hf.
  - exists h. split; [destruct f; cbn; now rewrite Nat.eqb_refl|]. split; [intros ? []|split; reflexivity].
  - destruct f as [|f]; [cbn in Hf; lia|]. destruct (forward_tail _ _ _ _ F) as (En & D & D0 & Nx & F'). cbn [hd clear_loop]. rewrite (proj2 (Nat.eqb_neq _ _) D). cbv zeta. rewrite En.
    destruct (IH f (clear_node h x) stop) as (h' & E & L & O); [|cbn in Hf; lia|].
    + eapply forward_ext; [|exact F']. intros y Hy. cbn. destruct (Nat.eqb_spec y x) as [->|]; [contradiction|reflexivity].
    + exists h'. split; [exact E|]. split.
      * intros y [<-|Hy]; [|now apply L]. unfold loose. destruct (O x Nx) as (-> & ->). apply loose_clear.
      * intros y Hy. destruct (O y) as (-> & ->); [intros C; apply Hy; now right|]. cbn. destruct (Nat.eqb_spec y x) as [->|]; [exfalso; apply Hy; now left|]. split; reflexivity.
Qed.
Lemma clear_ok fuel h l xs : holds h l xs -> length xs <= fuel -> exists h' l', i_clear fuel h l = Some (h', l') /\ holds h' l' [] /\ trm l' = trm l /\ (forall x, In x xs -> loose h' x) /\ only (trm l :: xs) h h'.
Proof.
  intros (D & T & Ez) Hf. unfold i_clear. pose proof T as (N & _ & Ht & _). destruct (Ht D) as (-> & _). pose proof (through_forward _ _ _ T) as F. destruct (clear_loop_ok xs fuel h (trm l) F Hf) as (h1 & -> & L & O).
  pose proof (initialise_ok h1 l D) as K. destruct (initialise h1 l) as (h' & l'). destruct K as (K1 & K2 & K3). exists h', l'. conj; [reflexivity|exact K1|exact K2| |].
  - intros x Hx. assert (x <> trm l). { intros ->. inversion N; contradiction. } unfold loose. destruct (K3 x) as (-> & ->); [now apply (through_neq0 _ _ _ _ T)|intros [C|[]]; congruence|]. now apply L.
  - intros y Dy Ny. cbn in Ny. destruct (K3 y) as (-> & ->); [exact Dy|cbn; tauto|]. apply O. tauto.
Qed.
Lemma i_trivial_ok h l xs : holds h l xs -> i_trivial h l = (length xs <? 2).
Proof.
  intros (D & T & _). pose proof T as (N & _ & Ht & Hm). unfold i_trivial. destruct (Ht D) as (-> & _). destruct xs as [|x [|y xs]]; cbn [hd].
  - rewrite Nat.eqb_refl. reflexivity.
  - destruct (Hm [] x [] eq_refl) as (-> & _). cbn. rewrite Nat.eqb_refl. now rewrite orb_true_r.
  - destruct (Hm [] x (y :: xs) eq_refl) as (-> & _). cbn [hd]. inversion N as [|? ? N1 _]; subst. assert (x <> trm l /\ y <> trm l) as (A & B) by (split; intros ->; apply N1; cbn; tauto). apply Nat.eqb_neq in A, B. now rewrite A, B.
Qed.
Lemma reverse_ok fuel h l xs : holds h l xs -> length xs <= fuel -> exists h', i_reverse fuel h l = Some (h', l) /\ holds h' l (rev xs) /\ only (trm l :: xs) h h'.
Proof.
  intros H Hf. pose proof H as (D & T & Ez). unfold i_reverse. rewrite (i_trivial_ok _ _ _ H). destruct (Nat.ltb_spec (length xs) 2) as [L|L].
  - exists h. conj; [reflexivity|destruct xs as [|x [|y xs]]; [exact H|exact H|cbn in L; lia]|apply only_refl].
  - pose proof (through_ring' _ _ _ D T) as R. destruct (ring_hd _ _ _ R) as (-> & _). pose proof T as (N & Z0 & _). destruct (reverse_loop_ok h (trm l) xs [] fuel h) as (h' & -> & W); [exact R|exact N|intros x; split; [intros []|split; reflexivity]|exact Hf|].
    cbn [app] in W. exists h'. conj; [reflexivity| |].
    + split; [exact D|split; [|now rewrite rev_length]]. apply ring_through'.
      * unfold ring. replace (trm l :: rev xs ++ [trm l]) with (rev (trm l :: xs ++ [trm l])) by (cbn; rewrite rev_app_distr; reflexivity). apply (linked_rev h); [|exact R]. intros x Hx. apply W. destruct Hx as [<-|Hx]; [apply in_app_iff; right; now left|exact Hx].
      * eapply Permutation_NoDup; [|exact N]. constructor. apply Permutation_rev.
      * now rewrite <- in_rev.
    + intros y Dy Ny. apply W. intros C. apply Ny. apply in_app_iff in C as [C|[C|[]]]; [now right|now left].
Qed.
(** insertions *)
Lemma assign_loop_ok : forall xs h l a, holds h l a -> NoDup (trm l :: a ++ xs) -> ~ In 0 xs ->
  let '(h', l') := assign_loop h l (last a (trm l)) xs in holds h' l' (a ++ xs) /\ trm l' = trm l /\ only (trm l :: a ++ xs) h h'.
Proof.
  induction xs as [|x xs IH]; intros h l a H N Z0; cbn [assign_loop]; [rewrite app_nil_r; conj; [exact H|reflexivity|apply only_refl]|].
  pose proof H as (D & T & _). assert (last a (trm l) <> 0) as Dl by (apply (last_nz _ a [] h D); now rewrite app_nil_r). rewrite link_splice_pr_eq by exact Dl.
  assert (x <> 0) as Dx by (intros ->; apply Z0; now left). assert (~ In x (trm l :: a ++ [])) as Nx. { rewrite app_nil_r. apply mid_notin in N. intros C. apply N. destruct C as [C|C]; [now left|right; apply in_app_iff; now left]. }
  pose proof (insert_link_ok h l a [] x) as K. rewrite app_nil_r in K, Nx. specialize (K H Dx Nx). unfold insert_link in K. destruct K as (K1 & K2 & K3).
  specialize (IH (link_splice h (last a (trm l)) x) (mkilist (trm l) (isize l + 1)) (a ++ [x])). rewrite last_last in IH. cbn [trm] in IH, K1, K2. destruct (assign_loop _ _ x xs) as (h' & l'). rewrite <- app_assoc in IH. cbn [app] in IH.
  destruct IH as (I1 & I2 & I3); [exact K1|exact N|intros C; apply Z0; now right|]. conj; [exact I1|exact I2|]. eapply only_trans; [eapply only_incl; [|exact K3]|exact I3]. intros z [<-|[<-|Hz]]; cbn; rewrite ?in_app_iff; cbn; tauto.
Qed.
Lemma assign_ok h l xs : trm l <> 0 -> NoDup (trm l :: xs) -> ~ In 0 xs -> let '(h', l') := i_assign h l xs in holds h' l' xs /\ trm l' = trm l /\ only (trm l :: xs) h h'.
Proof.
  intros D N Z0. unfold i_assign. pose proof (initialise_ok h l D) as K. destruct (initialise h l) as (h1 & l1). destruct K as (K1 & K2 & K3). pose proof (assign_loop_ok xs h1 l1 [] K1) as A. cbn [app last] in A. rewrite K2 in A. rewrite K2. specialize (A N Z0). destruct (assign_loop h1 l1 (trm l) xs) as (h' & l').
  destruct A as (A1 & A2 & A3). conj; [exact A1|congruence|]. eapply only_trans; [eapply only_incl; [|exact K3]|exact A3]. intros z [<-|[]]. now left.
Qed.
Lemma insert_ok h l a b x : holds h l (a ++ b) -> x <> 0 -> ~ In x (trm l :: a ++ b) ->
  let '(h', l') := i_insert h l (hd (trm l) b) x in holds h' l' (a ++ x :: b) /\ trm l' = trm l /\ only (x :: trm l :: a ++ b) h h'.
Proof.
  intros H Dx Nx. pose proof H as (D & T & _). unfold i_insert. rewrite (through_prv _ _ _ _ T (hd_nz _ _ _ _ D T)). rewrite link_splice_pr_eq by (now apply (last_nz _ _ _ _ D T)). exact (insert_link_ok h l a b x H Dx Nx).
Qed.
Lemma insert_range_ok : forall xs h l a b, holds h l (a ++ b) -> ~ In 0 xs -> NoDup (trm l :: a ++ xs ++ b) ->
  let '(h', l') := i_insert_range h l (hd (trm l) b) xs in holds h' l' (a ++ xs ++ b) /\ trm l' = trm l /\ only (trm l :: a ++ xs ++ b) h h'.
Proof.
  induction xs as [|x xs IH]; intros h l a b H Z0 N; cbn [i_insert_range app]; [conj; [exact H|reflexivity|apply only_refl]|].
  pose proof H as (D & T & _). rewrite (through_prv _ _ _ _ T (hd_nz _ _ _ _ D T)). assert (~ In x (trm l :: a ++ b)) as Nx. { cbn [app] in N. apply mid_notin in N. intros C. apply N. cbn in *. rewrite !in_app_iff in *. tauto. }
  assert (x <> 0) as Dx by (intros ->; apply Z0; now left). pose proof (insert_link_ok h l a b x H Dx Nx) as K. destruct (insert_link h l (last a (trm l)) x) as (h1 & l1). destruct K as (K1 & K2 & K3).
  specialize (IH h1 l1 (a ++ [x]) b). rewrite <- !app_assoc in IH. cbn [app] in IH. rewrite K2 in IH. destruct (i_insert_range h1 l1 (hd (trm l) b) xs) as (h' & l'). destruct IH as (I1 & I2 & I3); [exact K1|intros C; apply Z0; now right|exact N|].
  conj; [exact I1|congruence|]. eapply only_trans; [eapply only_incl; [|exact K3]|exact I3]. intros z Hz. cbn in *. rewrite !in_app_iff in *. cbn. rewrite ?in_app_iff. tauto.
Qed.
(** removals *)
Lemma erase_ok h l p x q : holds h l (p ++ x :: q) ->
  let '(r, (h', l')) := i_erase h l x in r = hd (trm l) q /\ holds h' l' (p ++ q) /\ trm l' = trm l /\ loose h' x /\ only (trm l :: p ++ x :: q) h h'.
Proof. intros H. unfold i_erase. pose proof (disconnect_ok h l p x q H) as K. destruct (disconnect_link h l x) as (h' & l'). split; [|exact K]. destruct H as (_ & T & _). now apply through_mid in T. Qed.
Lemma distance_ok : forall m f h stop, forward (nxt h) stop m -> length m <= f -> distance f h (hd stop m) stop = Some (length m).
Proof.
  induction m as [|x m IH]; intros f h stop F Hf; [destruct f; cbn; now rewrite Nat.eqb_refl|]. destruct f as [|f]; [cbn in Hf; lia|]. destruct (forward_tail _ _ _ _ F) as (En & D & _ & _ & F'). cbn [hd distance]. rewrite (proj2 (Nat.eqb_neq _ _) D), En, (IH f); [reflexivity|exact F'|cbn in Hf; lia].
Qed.
Lemma link_p_eqv h a b : eqv (link_p h a b) (join h a b).
Proof. intros y Hy. unfold link_p. destruct (Nat.eqb_spec a 0), (Nat.eqb_spec b 0); subst; cbn; destruct (Nat.eqb_spec y 0); try congruence; split; reflexivity. Qed.
Lemma hd_app (t : nat) m q : hd t (m ++ q) = hd (hd t q) m. Proof. now destruct m. Qed.
Lemma erase_range_ok fuel h l p m q : holds h l (p ++ m ++ q) -> length m <= fuel -> exists h' l',
  i_erase_range fuel h l (hd (trm l) (m ++ q)) (hd (trm l) q) = Some (hd (trm l) q, (h', l')) /\
  holds h' l' (p ++ q) /\ trm l' = trm l /\ (forall x, In x m -> loose h' x) /\ only (trm l :: p ++ m ++ q) h h'.
Proof.
  intros (D & T & Ez) Hf. unfold i_erase_range. rewrite (hd_app (trm l) m q). pose proof (through_forward_part _ _ _ _ _ T) as F. rewrite (distance_ok m fuel h _ F Hf). cbv zeta. rewrite <- hd_app. rewrite (through_prv _ _ _ _ T (hd_nz _ _ _ _ D T)), hd_app.
  set (t := trm l) in *. set (h1 := link_p h (last p t) (hd t q)). pose proof (link_p_eqv h (last p t) (hd t q)) as E. fold h1 in E. pose proof T as (N & Z0 & _).
  assert (forall x, In x m -> ~ In x (t :: p ++ q)) as Nm. { intros x Hx C. rewrite app_comm_cons in *. apply NoDup_app_iff in N as (_ & N2 & N3). apply in_app_iff in C as [C|C]; [apply (N3 x C), in_app_iff; now left|]. apply NoDup_app_iff in N2 as (_ & _ & N2). exact (N2 x Hx C). }
  assert (forward (nxt h1) (hd t q) m) as F1. { eapply forward_ext; [|exact F]. intros x Hx. assert (x <> 0) as D0 by (apply (through_neq0 _ _ _ _ T); rewrite !in_app_iff; tauto). destruct (E x D0) as (<- & _). cbn. destruct (Nat.eqb_spec x (last p t)) as [->|]; [|reflexivity]. exfalso. apply (Nm _ Hx). rewrite app_comm_cons. apply in_app_iff. left. apply last_in. }
  destruct (clear_loop_ok m fuel h1 (hd t q) F1 Hf) as (h' & -> & L & O). exists h', (mkilist t (isize l - length m)). conj; [reflexivity| |reflexivity|exact L|].
  - split; [exact D|split; [|cbn; rewrite Ez, !app_length; lia]]. cbn [trm]. apply (only_through h1 _ m); [intros y _ Hy; now apply O|intros x Hx; now apply Nm|]. eapply through_eqv; [apply eqv_sym; exact E|]. now apply (through_unlink h t p m q).
  - intros y Dy Ny. destruct (O y) as (-> & ->); [intros C; apply Ny; cbn; rewrite !in_app_iff; tauto|]. destruct (E y Dy) as (<- & <-). apply (only_join (t :: p ++ m ++ q)); [| |exact Dy|exact Ny]; left.
    + destruct (last_in t p) as [<-|I]; [now left|right; apply in_app_iff; now left].
    + pose proof (head_in t q) as I. apply in_app_iff in I as [I|[<-|[]]]; [right; rewrite !in_app_iff; tauto|now left].
Qed.
Lemma in_list_ok : forall m f h stop x, forward (nxt h) stop m -> length m <= f -> in_list f h (hd stop m) stop x = Some (existsb (Nat.eqb x) m).
Proof.
  induction m as [|y m IH]; intros f h stop x F Hf; [destruct f; cbn; now rewrite Nat.eqb_refl|]. destruct f as [|f]; [cbn in Hf; lia|]. destruct (forward_tail _ _ _ _ F) as (En & D & _ & _ & F'). cbn [hd in_list existsb]. rewrite (proj2 (Nat.eqb_neq _ _) D). destruct (x =? y); [reflexivity|]. cbn [orb]. rewrite En. apply IH; [exact F'|cbn in Hf; lia].
Qed.
Lemma existsb_eqb x m : existsb (Nat.eqb x) m = true <-> In x m.
Proof. rewrite existsb_exists. split; [intros (y & I & E); apply Nat.eqb_eq in E; now subst|]. intros I. exists x. split; [exact I|apply Nat.eqb_refl]. Qed.
Lemma erase_node_ok fuel h l p x q : holds h l (p ++ x :: q) -> length (p ++ x :: q) <= fuel ->
  exists h' l', i_erase_node fuel h l x = Some (hd 0 q, (h', l')) /\ holds h' l' (p ++ q) /\ trm l' = trm l /\ loose h' x /\ only (trm l :: p ++ x :: q) h h'.
Proof.
  intros H Hf. pose proof H as (D & T & _). unfold i_erase_node. pose proof T as (N & _ & Ht & _). destruct (Ht D) as (-> & _). pose proof (through_forward _ _ _ T) as F. rewrite (in_list_ok _ fuel h (trm l) x F Hf).
  assert (existsb (Nat.eqb x) (p ++ x :: q) = true) as ->; [apply existsb_eqb, in_app_iff; right; now left|]. cbv zeta. destruct (through_mid _ _ _ _ _ T) as (-> & _). pose proof (disconnect_ok h l p x q H) as K. destruct (disconnect_link h l x) as (h' & l'). exists h', l'. split; [|exact K].
  do 2 f_equal. destruct q as [|y q]; cbn; [now rewrite Nat.eqb_refl|]. destruct (Nat.eqb_spec y (trm l)) as [->|]; [|reflexivity]. inversion N as [|? ? N1]; subst. exfalso. apply N1, in_app_iff. right. right. now left.
Qed.
Lemma erase_node_absent fuel h l xs x : holds h l xs -> length xs <= fuel -> ~ In x xs -> i_erase_node fuel h l x = Some (0, (h, l)).
Proof.
  intros (D & T & _) Hf Nx. unfold i_erase_node. pose proof T as (N & _ & Ht & _). destruct (Ht D) as (-> & _). pose proof (through_forward _ _ _ T) as F. rewrite (in_list_ok _ fuel h (trm l) x F Hf).
  destruct (existsb (Nat.eqb x) xs) eqn:E; [|reflexivity]. apply existsb_eqb in E. contradiction.
Qed.
