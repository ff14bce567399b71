From Coq Require Import List Arith Bool Lia Permutation.
From Verif Require Import MbaModel MbaSpec.
Import ListNotations.

Definition fitsb (a : allocator) size align : bool := Nat.leb align (Alignment a) && Nat.leb size (Block_Size a).
Definition with_free (a : allocator) f := Alloc (Block_Size a) (Alignment a) (Size a) f.
Definition replaced (c c' : list allocator) k f : Prop := length c' = length c /\ forall j, nth_error c' j = if Nat.eqb j k then option_map (fun a => with_free a f) (nth_error c j) else nth_error c j.
Lemma allocate_spec c size align :
  match allocate c size align with
  | (Some (k, i), c') => exists a f, nth_error c k = Some a /\ fitsb a size align = true /\ free a = i :: f /\ replaced c c' k f /\ forall j b, j < k -> nth_error c j = Some b -> fitsb b size align = true -> free b = []
  | (None, c') => c' = c /\ forall j b, nth_error c j = Some b -> fitsb b size align = true -> free b = [] end.
Proof.
  induction c as [|a c IH]; cbn [allocate].
  - split; [reflexivity|]. intros [|j] b H; discriminate.
  - unfold allocate_block. fold (fitsb a size align). assert (S : forall Q : Prop, fitsb a size align = false \/ free a = [] -> (fitsb a size align = true -> free a = [] -> Q) -> True) by auto.
    assert (NA : fitsb a size align = false \/ free a = [] \/ exists i f, fitsb a size align = true /\ free a = i :: f) by (destruct (fitsb a size align); [destruct (free a) as [|i f]; [auto|right; right; eauto]|auto]).
    destruct NA as [NA|[NA|(i & f & E1 & E2)]].
    3: { rewrite E1, E2. exists a, f. cbn [nth_error]. repeat split; auto; [|lia]. intros [|j]; reflexivity. }
    all: assert (X : (if fitsb a size align then match free a with [] => None | i :: f => Some (i, Alloc (Block_Size a) (Alignment a) (Size a) f) end else None) = None) by (rewrite NA; try destruct (fitsb a size align); reflexivity); rewrite X; clear X S.
    all: destruct (allocate c size align) as ([(k & i)|] & c').
    1, 3: destruct IH as (b & f & N & F & E & (L & R) & P); exists b, f; cbn [nth_error]; repeat split; auto; [cbn; lia|intros [|j]; [reflexivity|apply R]|].
    1, 2: intros [|j] d J D G; cbn in D; [injection D as <-; congruence|apply (P j d); [lia|exact D|exact G]].
    all: destruct IH as (-> & P); split; [reflexivity|]; intros [|j] d D G; cbn in D; [injection D as <-; congruence|apply (P j d); assumption].
Qed.
Lemma release_spec c : forall p,
  match release c p with
  | (true, c') => exists a, nth_error c (fst p) = Some a /\ snd p < Size a /\ replaced c c' (fst p) (snd p :: free a)
  | (false, c') => c' = c /\ forall a, nth_error c (fst p) = Some a -> Size a <= snd p end.
Proof.
  induction c as [|a c IH]; intros (k & i); cbn [release fst snd].
  - split; [reflexivity|]. destruct k; discriminate.
  - unfold release_block. destruct k as [|k]; cbn [Nat.eqb andb].
    + destruct (Nat.ltb_spec i (Size a)).
      * exists a. cbn. repeat split; auto. intros [|j]; reflexivity.
      * split; [reflexivity|]. intros b E. cbn in E. injection E as <-. assumption.
    + specialize (IH (k, i)). cbn [fst snd] in IH. destruct (release c (k, i)) as ([|] & c').
      * destruct IH as (b & N & I & L & R). exists b. cbn [nth_error]. repeat split; auto; [cbn; lia|]. intros [|j]; [reflexivity|apply R].
      * destruct IH as (-> & H). split; [reflexivity|]. exact H.
Qed.
Lemma owner_spec c : forall p, is_owner_of c p = true <-> exists a, nth_error c (fst p) = Some a /\ snd p < Size a.
Proof.
  induction c as [|a c IH]; intros (k & i); cbn [is_owner_of fst snd].
  - split; [discriminate|intros (a & H & _); destruct k; discriminate].
  - unfold is_owner_of_block. destruct k as [|k]; cbn [Nat.eqb andb nth_error].
    + destruct (Nat.ltb_spec i (Size a)); split; try discriminate; eauto; try (intros (b & E & H1); injection E as <-; lia).
    + apply (IH (k, i)).
Qed.
Definition held_in (held : list (nat * nat)) k := map snd (filter (fun p => Nat.eqb (fst p) k) held).
Definition inv (config : list (nat * nat * nat)) (c : list allocator) (held : list (nat * nat)) : Prop :=
  length c = length config /\ (forall p, In p held -> fst p < length config) /\
  forall k a, nth_error c k = Some a -> exists bs al n, nth_error config k = Some (bs, al, n) /\ Block_Size a = bs /\ Alignment a = al /\ Size a = n /\ Permutation (free a ++ held_in held k) (seq 0 n).
Lemma in_held held k i : In (k, i) held <-> In i (held_in held k).
Proof.
  unfold held_in. rewrite in_map_iff. split.
  - intros H. exists (k, i). split; [reflexivity|]. apply filter_In. split; [exact H|]. apply Nat.eqb_refl.
  - intros ((k' & i') & E & H). apply filter_In in H. destruct H as (H & K). apply Nat.eqb_eq in K. cbn in *. subst. exact H.
Qed.
Lemma eq_ptr_iff p q : eq_ptr p q = true <-> p = q.
Proof. unfold eq_ptr. rewrite andb_true_iff, !Nat.eqb_eq. destruct p, q; cbn. split; [intros (-> & ->); reflexivity|intros E; injection E as -> ->; auto]. Qed.
Lemma held_in_release held p k : held_in (filter (fun q => negb (eq_ptr p q)) held) k = if Nat.eqb k (fst p) then filter (fun i => negb (Nat.eqb i (snd p))) (held_in held k) else held_in held k.
Proof.
  unfold held_in. induction held as [|(a & b) held IH]; [cbn; destruct (Nat.eqb k (fst p)); reflexivity|]. cbn [filter]. unfold eq_ptr at 1. cbn [fst snd].
  destruct (Nat.eqb_spec (fst p) a); destruct (Nat.eqb_spec (snd p) b); cbn [andb negb filter fst snd]; destruct (Nat.eqb_spec a k); cbn [map filter fst snd]; rewrite IH; destruct (Nat.eqb_spec k (fst p)); try (exfalso; congruence); try reflexivity; destruct (Nat.eqb_spec b (snd p)); try (exfalso; congruence); reflexivity.
Qed.
Lemma filter_remove i l l' : NoDup (l ++ l') -> In i l' -> Permutation ((i :: l) ++ filter (fun j => negb (Nat.eqb j i)) l') (l ++ l').
Proof.
  intros N I. apply in_split in I. destruct I as (a & b & ->).
  assert (NI : ~ In i (a ++ b)). { rewrite app_assoc in N. apply NoDup_remove_2 in N. intros X. apply N. rewrite <- app_assoc. apply in_or_app. right. exact X. }
  assert (F : forall m, ~ In i m -> filter (fun j => negb (Nat.eqb j i)) m = m). { induction m as [|x m IH]; intros H; [reflexivity|]. cbn. destruct (Nat.eqb_spec x i) as [->|]; [exfalso; apply H; left; reflexivity|]. cbn. rewrite IH; [reflexivity|]. intros X. apply H. right. exact X. }
  rewrite filter_app. cbn [filter]. rewrite Nat.eqb_refl. cbn [negb]. rewrite !F by (intros X; apply NI; apply in_or_app; auto). cbn [app]. rewrite !app_assoc. apply Permutation_cons_app. reflexivity.
Qed.
Theorem history_inv config c held : history config c held -> inv config c held.
Proof.
  induction 1 as [|c held size align p c' _ IH E|c held size align c' _ IH E|c held p c' b _ IH Hp E].
  - split; [apply map_length|]. split; [intros p []|]. intros k a H. rewrite nth_error_map in H. destruct (nth_error config k) as [((bs & al) & n)|] eqn:N; [|discriminate]. injection H as <-. exists bs, al, n. cbn. rewrite app_nil_r. repeat split; auto.
  - pose proof (allocate_spec c size align) as S. rewrite E in S. destruct p as (k & i). destruct S as (a & f & N & _ & F & (L & R) & _). destruct IH as (I1 & I2 & I3). split; [lia|]. split.
    + intros q [<-|Q]; [cbn; rewrite <- I1; apply nth_error_Some; congruence|auto].
    + intros j x X. rewrite R in X. unfold held_in. cbn [filter fst]. destruct (Nat.eqb_spec j k) as [->|J].
      * rewrite N in X. injection X as <-. destruct (I3 k a N) as (bs & al & n & C & B1 & B2 & B3 & P). exists bs, al, n. cbn. rewrite Nat.eqb_refl. cbn [map snd]. repeat split; auto. rewrite F in P. eapply Permutation_trans; [|exact P]. cbn. apply Permutation_sym, Permutation_middle.
      * destruct (Nat.eqb_spec k j); [congruence|]. apply I3, X.
  - pose proof (allocate_spec c size align) as S. rewrite E in S. destruct S as (-> & _). exact IH.
  - pose proof (release_spec c p) as S. rewrite E in S. destruct IH as (I1 & I2 & I3). destruct b.
    + destruct S as (a & N & I & L & R). split; [lia|]. split; [intros q Q; apply filter_In in Q; apply I2, Q|]. intros j x X. rewrite R in X. rewrite held_in_release. destruct (Nat.eqb_spec j (fst p)) as [->|J].
      * rewrite N in X. injection X as <-. destruct (I3 _ a N) as (bs & al & n & C & B1 & B2 & B3 & P). exists bs, al, n. cbn [Block_Size Alignment Size free with_free]. repeat split; auto. eapply Permutation_trans; [|exact P]. apply filter_remove.
        -- eapply Permutation_NoDup; [apply Permutation_sym, P|apply seq_NoDup].
        -- apply in_held. destruct p. exact Hp.
      * apply I3, X.
    + exfalso. destruct S as (_ & S). pose proof (I2 p Hp) as K. rewrite <- I1 in K. destruct (nth_error c (fst p)) as [a|] eqn:N; [|apply nth_error_None in N; lia]. specialize (S a eq_refl).
      destruct (I3 _ a N) as (bs & al & n & C & B1 & B2 & B3 & P). assert (X : In (snd p) (seq 0 n)) by (eapply Permutation_in; [exact P|]; apply in_or_app; right; apply in_held; destruct p; exact Hp). apply in_seq in X. lia.
Qed.
Lemma in_use_held held k : in_use held k = length (held_in held k).
Proof. unfold in_use, held_in. rewrite map_length. reflexivity. Qed.
