(** Proofs for intrusive_list.h: remove_if, unique, sort, splice, merge *)
From Coq Require Import List Arith Bool Lia Permutation.
From Verif Require Import Util SortSpec ListSpec Dll MergeSort ListModel ListProofs IntrModel IntrSpec IntrProofs IntrProofs2.
Import ListNotations.
Section Values.
Context {V : Type}.
Variable value : nat -> V.
Lemma remove_loop_ok p : forall q f h l a, holds h l (a ++ q) -> length q <= f -> exists h' l',
  remove_loop value f h l (hd (trm l) q) p = Some (h', l') /\ holds h' l' (a ++ filter (fun x => negb (p (value x))) q) /\ trm l' = trm l /\
  (forall x, In x q -> p (value x) = true -> loose h' x) /\ only (trm l :: a ++ q) h h'.
Proof.
  induction q as [|x q IH]; intros f h l a H Hf.
  - exists h, l. conj; [destruct f; cbn; now rewrite Nat.eqb_refl|exact H|reflexivity|intros ? []|apply only_refl].
  - destruct f as [|f]; [cbn in Hf; lia|]. cbn [hd remove_loop filter]. pose proof H as (D & T & _). pose proof T as (N & _). assert (x <> trm l) as Dx. { intros ->. inversion N as [|? ? N1]; subst. apply N1, in_app_iff. right. now left. } rewrite (proj2 (Nat.eqb_neq _ _) Dx).
    destruct (p (value x)) eqn:Ep.
    + pose proof (erase_ok h l a x q H) as K. destruct (i_erase h l x) as (r & h1 & l1). destruct K as (-> & K1 & K2 & K3 & K4). rewrite <- K2.
      destruct (IH f h1 l1 a K1) as (h' & l' & E & H' & Et & L & O); [cbn in Hf; lia|]. exists h', l'. conj; [exact E|exact H'|congruence| |].
      * intros y [<-|Hy] Py; [|now apply L]. pose proof (mid_notin _ _ _ _ N) as Nx. unfold loose. destruct (O x) as (-> & ->); [apply (through_neq0 _ _ _ _ T), in_app_iff; right; now left|rewrite K2; exact Nx|exact K3].
      * rewrite K2. eapply only_trans; [exact K4|]. eapply only_incl; [|rewrite K2 in O; exact O]. intros z Hz. cbn in *. rewrite !in_app_iff in *. cbn. tauto.
    + destruct (through_mid _ _ _ _ _ T) as (-> & _). destruct (IH f h l (a ++ [x])) as (h' & l' & E & H' & Et & L & O); [now rewrite <- app_assoc|cbn in Hf; lia|]. rewrite <- app_assoc in H', O. cbn [app] in H', O. exists h', l'. conj; [exact E|exact H'|exact Et| |exact O]. intros y [<-|Hy] Py; [congruence|now apply L].
Qed.
Lemma remove_if_ok fuel h l xs p : holds h l xs -> length xs <= fuel -> exists h' l',
  i_remove_if value fuel h l p = Some (h', l') /\ holds h' l' (filter (fun x => negb (p (value x))) xs) /\ trm l' = trm l /\
  (forall x, In x xs -> p (value x) = true -> loose h' x) /\ only (trm l :: xs) h h'.
Proof. intros H Hf. unfold i_remove_if. pose proof H as (D & (_ & _ & Ht & _) & _). destruct (Ht D) as (-> & _). exact (remove_loop_ok p xs fuel h l [] H Hf). Qed.
Let eqn_ (eq : V -> V -> bool) (a b : nat) : bool := eq (value a) (value b).
Lemma uniques_incl eq : forall q (y x : nat), In x (uniques eq y q) -> In x q.
Proof. induction q as [|z q IH]; intros y x H; [exact H|]. cbn in H. destruct (eq y z); [right; now apply (IH y)|]. destruct H as [<-|H]; [now left|right; now apply (IH z)]. Qed.
Lemma unique_loop_ok eq : forall q f h l a y, holds h l (a ++ y :: q) -> length q <= f -> exists h' l',
  unique_loop value f h l (hd (trm l) q) y eq = Some (h', l') /\ holds h' l' (a ++ y :: uniques (eqn_ eq) y q) /\ trm l' = trm l /\
  (forall x, In x q -> ~ In x (uniques (eqn_ eq) y q) -> loose h' x) /\ only (trm l :: a ++ y :: q) h h'.
Proof.
  induction q as [|x q IH]; intros f h l a y H Hf.
  - exists h, l. conj; [destruct f; cbn; now rewrite Nat.eqb_refl|exact H|reflexivity|intros ? []|apply only_refl].
  - destruct f as [|f]; [cbn in Hf; lia|]. cbn [hd unique_loop uniques]. pose proof H as (D & T & _). pose proof T as (N & _).
    replace (a ++ y :: x :: q) with ((a ++ [y]) ++ x :: q) in * by (now rewrite <- app_assoc).
    assert (x <> trm l) as Dx. { intros ->. inversion N as [|? ? N1]; subst. apply N1, in_app_iff. right. now left. } rewrite (proj2 (Nat.eqb_neq _ _) Dx). change (eqn_ eq y x) with (eq (value y) (value x)).
    pose proof (mid_notin _ _ _ _ N) as Nx. destruct (eq (value y) (value x)) eqn:Ep.
    + pose proof (erase_ok h l (a ++ [y]) x q H) as K. destruct (i_erase h l x) as (r & h1 & l1). destruct K as (-> & K1 & K2 & K3 & K4). rewrite <- K2. rewrite <- !app_assoc in K1. cbn [app] in K1.
      destruct (IH f h1 l1 a y K1) as (h' & l' & E & H' & Et & L & O); [cbn in Hf; lia|]. exists h', l'. conj; [exact E|exact H'|congruence| |].
      * intros z [<-|Hz] Nz; [|now apply L]. unfold loose. destruct (O x) as (-> & ->); [apply (through_neq0 _ _ _ _ T), in_app_iff; right; now left|rewrite K2; rewrite <- app_assoc in Nx; exact Nx|exact K3].
      * eapply only_trans; [rewrite K2; exact K4|]. eapply only_incl; [|exact O]. rewrite K2. intros z Hz. cbn in *. rewrite !in_app_iff in *. cbn in *. tauto.
    + destruct (through_mid _ _ _ _ _ T) as (-> & _). destruct (IH f h l (a ++ [y]) x) as (h' & l' & E & H' & Et & L & O); [exact H|cbn in Hf; lia|]. exists h', l'. conj; [exact E|now rewrite <- app_assoc in H'|exact Et| |exact O]. intros z [<-|Hz] Nz; [exfalso; apply Nz; now left|]. apply L; [exact Hz|]. intros C. apply Nz. now right.
Qed.
Definition uniq (eq : V -> V -> bool) (xs : list nat) : list nat := match xs with [] => [] | x :: r => x :: uniques (eqn_ eq) x r end.
Lemma unique_ok fuel h l xs eq : holds h l xs -> length xs <= fuel -> exists h' l',
  i_unique value fuel h l eq = Some (h', l') /\ holds h' l' (uniq eq xs) /\ trm l' = trm l /\
  (forall x, In x xs -> ~ In x (uniq eq xs) -> loose h' x) /\ only (trm l :: xs) h h'.
Proof.
  intros H Hf. unfold i_unique. rewrite (i_empty_ok _ _ _ H). destruct xs as [|x xs]; [exists h, l; conj; [reflexivity|exact H|reflexivity|intros ? []|apply only_refl]|].
  pose proof H as (D & T & _). pose proof T as (_ & _ & Ht & Hm). destruct (Ht D) as (-> & _). cbn [hd]. destruct (Hm [] x xs eq_refl) as (-> & _).
  destruct (unique_loop_ok eq xs fuel h l [] x H) as (h' & l' & E & H' & Et & L & O); [cbn in Hf; lia|]. exists h', l'. conj; [exact E|exact H'|exact Et| |exact O].
  intros z [<-|Hz] Nz; [exfalso; apply Nz; now left|]. apply L; [exact Hz|]. intros C. apply Nz. now right.
Qed.
(** sort *)
Lemma insert_sorted_map {A B} (f : A -> B) lt x l : map f (insert_sorted (fun a b => lt (f a) (f b)) x l) = insert_sorted lt (f x) (map f l).
Proof. induction l as [|y l IH]; [reflexivity|]. cbn. destruct (lt (f y) (f x)); cbn; [now rewrite IH|reflexivity]. Qed.
Lemma stable_sort_map {A B} (f : A -> B) lt l : map f (stable_sort (fun a b => lt (f a) (f b)) l) = stable_sort lt (map f l).
Proof. induction l as [|y l IH]; [reflexivity|]. cbn. change (map f (insert_sorted (fun a b => lt (f a) (f b)) y (stable_sort (fun a b => lt (f a) (f b)) l)) = insert_sorted lt (f y) (stable_sort lt (map f l))). now rewrite insert_sorted_map, IH. Qed.
Let pair_ (x : nat) : nat * V := (x, value x).
Lemma map_fst_pair l : map fst (map pair_ l) = l.
Proof. rewrite map_map. cbn. apply map_id. Qed.
Lemma sort_ok fuel h l xs lt : strict_weak_order lt -> holds h l xs -> length xs <= fuel ->
  let xs' := stable_sort (fun a b => lt (value a) (value b)) xs in
  exists h', i_sort value fuel h l lt = Some (h', l) /\ holds h' l xs' /\ map value xs' = stable_sort lt (map value xs) /\ Permutation xs' xs /\ only (trm l :: xs) h h'.
Proof.
  intros O H Hf xs'. pose proof H as (D & T & Ez). pose proof T as (N & Z0 & _).
  assert (map value xs' = stable_sort lt (map value xs)) as Ev by apply stable_sort_map.
  assert (map pair_ xs' = stable_sort (fun a b : nat * V => lt (snd a) (snd b)) (map pair_ xs)) as Ep by apply (stable_sort_map pair_ (fun a b => lt (snd a) (snd b))).
  unfold i_sort. rewrite (i_trivial_ok _ _ _ H). destruct (Nat.ltb_spec (length xs) 2) as [L|L].
  - exists h. assert (xs' = xs) as -> by (destruct xs as [|x [|y xs]]; [reflexivity|reflexivity|cbn in L; lia]). conj; [reflexivity|exact H|exact Ev|apply Permutation_refl|apply only_refl].
  - set (w := {| hp := h; val := _; free := _ |}).
    assert (ring h (trm l) (map fst (map pair_ xs))) as R by (rewrite map_fst_pair; now apply through_ring').
    destruct (sort_loop_ok (fun _ => trm l) (fun _ => 0) (fun _ => repeat 0 fuel) w lt (trm l) 0 eq_refl O fuel h 1 (map pair_ xs)) as (h' & l' & -> & R' & P' & E' & F').
    + constructor.
      * cbn [app]. now rewrite map_fst_pair.
      * exact Logic.I.
      * intros []. reflexivity.
      * exact Logic.I.
      * rewrite map_fst_pair. pose proof (ring_chain h (trm l) [] xs []) as K. rewrite app_nil_r in K. rewrite map_fst_pair in R. now apply K.
      * intros x v I. cbn [app] in I. apply in_map_iff in I as (y & E & _). injection E as <- <-. reflexivity.
    + exact R.
    + rewrite map_length. lia.
    + rewrite map_length. unfold ListModel.fuel. rewrite repeat_length. lia.
    + lia.
    + apply chunks_1.
    + rewrite map_length. pose proof (pow2_ge fuel). lia.
    + lia.
    + rewrite <- Ep in E'. subst l'. rewrite map_fst_pair in R'. rewrite map_fst_pair in F'. assert (Permutation xs' xs) as P. { apply (Permutation_map fst) in P'. now rewrite !map_fst_pair in P'. }
      exists h'. conj; [reflexivity| |exact Ev|exact P|].
      * split; [exact D|split; [|rewrite (Permutation_length P); exact Ez]]. apply ring_through'; [exact R'| |].
        -- eapply Permutation_NoDup; [|exact N]. constructor. now apply Permutation_sym.
        -- intros C. apply Z0. now apply (Permutation_in _ P).
      * intros y _ Ny. now apply F'.
Qed.
End Values.
