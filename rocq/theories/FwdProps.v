(** * C49: forward_list. *)
From Coq Require Import List Arith Bool Lia Permutation.
From Verif Require Import Util SortSpec ListSpec FwdSpec FwdModel FwdProofs.
Import ListNotations.

(** a configuration: the pool's nodes are distinct and not null, the start node is none of them; only a shared pool has other users *)
Definition config (t : nat) (blocks ext : list nat) (shared : bool) : Prop :=
  NoDup blocks /\ ~ In 0 blocks /\ ~ In t blocks /\ t <> 0 /\ (shared = false -> ext = []).
(** the list (start node t) holds the values vs: there are nodes in the pool, chained from the start node to null, owning these values, and
    every node of the pool is exactly one of: free, in the list, used by others (so nothing has leaked) *)
Definition holds {A} (t : nat) (blocks ext : list nat) (w : fworld A) (vs : list A) : Prop :=
  exists l : list (nat * A), map snd l = vs /\ (forall x v, In (x, v) l -> vl w x = Some v) /\
    Permutation (fr w ++ map fst l ++ ext) blocks /\ chain (nx w) t (map fst l).
(** nodes in use by others, and all memory outside the pool, are as before *)
Definition untouched {A} (t : nat) (blocks ext : list nat) (w w' : fworld A) : Prop :=
  forall y, y <> t -> In y ext \/ ~ In y blocks -> nx w' y = nx w y /\ vl w' y = vl w y.

Lemma holds_inv {A} t blocks ext (w : fworld A) vs : holds t blocks ext w vs <-> exists l, Inv t blocks ext w l /\ map snd l = vs.
Proof. split; [intros (l & E & V & P & C); exists l; split; [split; [split; assumption|exact C]|exact E]|intros (l & ((V & P) & C) & E); exists l; now conj]. Qed.

(** the start: an empty list *)
Theorem C49_start : forall A t blocks ext (w : fworld A), nx w t = 0 -> Permutation (fr w ++ ext) blocks -> holds t blocks ext w [].
Proof. intros A t blocks ext w E P. exists []. conj; [reflexivity|intros x v []|exact P|]. now apply chain_nil. Qed.
Print Assumptions C49_start.

(** ** every history of allowed calls behaves as on the sequence: same answers, same exceptions, nothing undefined, nothing leaked, others untouched *)
Theorem C49_history : forall A t blocks ext check shared triv (w : fworld A) vs os,
  config t blocks ext shared -> holds t blocks ext w vs -> all_allowed (length blocks) (length ext) check os vs ->
  let (rs, vs') := f_steps (length blocks) (length ext) check os vs in
  exists w', fwd_ops t blocks check shared triv os w = Some (rs, w') /\ holds t blocks ext w' vs' /\ untouched t blocks ext w w'.
Proof.
  intros A t blocks ext check shared triv w vs os (H1 & H2 & H3 & H4 & H5) H Ha. apply holds_inv in H as (l & J & <-).
  destruct (ops_ok t blocks ext check shared triv H1 H2 H3 H4 H5 os w l J Ha) as (w' & l' & E & J' & M & K). destruct (f_steps _ _ _ os (map snd l)) as (rs, vs'). cbn [fst snd] in *. exists w'. conj; [exact E| |exact K]. apply holds_inv. now exists l'.
Qed.
Print Assumptions C49_history.
(** a history that uses every kind of call *)
Definition tour : list (fop nat) :=
  [FpushFront 3; FpushFront 1; FinsertAfter 1 2; Fall; FinsertAfterN 3 2 7; FinsertAfterRange 0 [9; 8]; Fall; Ffull; FinsertAfter 0 5; FeraseAfter 0; FeraseAfterRange 1 3; Fall;
   Freverse; Fall; Fsort Nat.ltb; Fall; FmoveAfter 0 3; Fall; FmoveAfterRange 0 3 4; Fall; Funique Nat.eqb; FremoveIf (Nat.eqb 3); Fall; Fsize; Favailable; Ffront; Fresize 4 6; Fall; Fresize 2 0; Fall;
   FassignN 3 4; Fassign [1; 2; 3; 4; 5; 6; 7; 8]; Fall; FpopFront; Fclear; FpopFront; Fempty].
Example tour_answers : option_map fst (fwd_ops 100 [1; 2; 3; 4; 5; 6; 7] true false false tour (FW (fun _ => 0) (fun _ => None) [1; 2; 3; 4; 5; 6; 7])) =
  Some (fst (f_steps 7 0 true tour [])) /\
  fst (f_steps 7 0 true tour []) =
    [Rok; Rok; Rat (Some 2); Rl [1; 2; 3]; Rat (Some 7); Rok; Rl [9; 8; 1; 2; 3; 7; 7]; Rb true; Rfull; Rat (Some 8); Rat (Some 2); Rl [8; 2; 3; 7; 7];
     Rok; Rl [7; 7; 3; 2; 8]; Rok; Rl [2; 3; 7; 7; 8]; Rok; Rl [3; 7; 2; 7; 8]; Rok; Rl [2; 7; 3; 7; 8]; Rok; Rok; Rl [2; 7; 7; 8]; Rn 4; Rn 3; Rv 2; Rok; Rl [2; 7; 7; 8]; Rok; Rl [2; 7];
     Rok; Rfull; Rl [1; 2; 3; 4; 5; 6; 7]; Rok; Rok; Rempty; Rb true].
Proof. vm_compute. now split. Qed.
Lemma tour_start : config 100 [1; 2; 3; 4; 5; 6; 7] [] false /\ holds 100 [1; 2; 3; 4; 5; 6; 7] [] (FW (fun _ => 0) (fun _ => None) [1; 2; 3; 4; 5; 6; 7]) (@nil nat).
Proof.
  split; [|apply C49_start; reflexivity]. unfold config. conj; [|cbn; lia|cbn; lia|lia|reflexivity]. repeat constructor; cbn; lia.
Qed.
Lemma ltb_swo : strict_weak_order Nat.ltb.
Proof. constructor; [intros x; apply Nat.ltb_irrefl|intros x y z; rewrite !Nat.ltb_lt; lia|intros x y z; rewrite !Nat.ltb_ge; lia]. Qed.
Example tour_allowed : all_allowed 7 0 true tour [].
Proof. cbn. conj; try exact ltb_swo; try exact I; try lia; discriminate. Qed.
(** a shared pool whose nodes 2 and 5 are in use by others *)
Example shared_case : option_map fst (fwd_ops 100 [1; 2; 3; 4; 5] true true false [Fassign [4; 6; 5; 1]; Fall; Fsort Nat.ltb; Freverse; Fall; Fsize; FpushFront 1; Fclear; Favailable] (FW (fun x => if Nat.eqb x 2 then 5 else 0) (fun _ => Some 77) [4; 1; 3])) =
  Some [Rfull; Rl [4; 6; 5]; Rok; Rok; Rl [6; 5; 4]; Rn 3; Rfull; Rok; Rn 3].
Proof. vm_compute. reflexivity. Qed.

(** ** FINDINGS *)
(** insert_after(position, n, value) with some room, but not for n: fewer than n elements are inserted and no error is raised *)
Theorem C49_insert_n_refuted : forall A t blocks ext check shared triv (w : fworld A) vs k n v,
  config t blocks ext shared -> holds t blocks ext w vs -> k <= length vs ->
  0 < length blocks - length ext - length vs < n ->
  exists w', fwd_op t blocks check shared triv (FinsertAfterN k n v) w = Some (Rat (Some v), w') /\
    holds t blocks ext w' (ins k (repeat v (length blocks - length ext - length vs)) vs).
Proof.
  intros A t blocks ext check shared triv w vs k n v (H1 & H2 & H3 & H4 & H5) H Hk Hn. apply holds_inv in H as (l & J & <-).
  destruct (op_ok t blocks ext check shared triv H1 H2 H3 H4 H5 (FinsertAfterN k n v) w l J) as (w' & l' & E & J' & M & _); [cbn; lia|]. cbn [f_step] in E, M. unfold room in E, M. rewrite (proj2 (Nat.eqb_neq _ _)) in E, M by lia.
  assert (f_add (length blocks) (length ext) k (repeat v n) (map snd l) = ins k (repeat v (length blocks - length ext - length (map snd l))) (map snd l)) as Ef. { unfold f_add, room. rewrite firstn_repeat, Nat.min_l by lia. reflexivity. }
  cbn [fst snd] in E, M. rewrite Ef in E, M. rewrite (proj2 (Nat.eqb_neq n 0)) in E by lia. exists w'. split; [|apply holds_inv; now exists l']. rewrite E. do 3 f_equal.
  unfold ins. rewrite nth_error_app2 by (rewrite firstn_length; lia). rewrite firstn_length, Nat.min_l, Nat.sub_diag by lia. rewrite nth_error_app1 by (rewrite repeat_length; lia). now apply nth_error_repeat.
Qed.
Print Assumptions C49_insert_n_refuted.
(** erase_after(first, first): nothing to erase, but end() comes back (std::forward_list: last) *)
Theorem C49_erase_nothing_refuted : forall A t blocks ext check shared triv (w : fworld A) vs k,
  config t blocks ext shared -> holds t blocks ext w vs -> k <= length vs -> fwd_op t blocks check shared triv (FeraseAfterRange k k) w = Some (Rat None, w).
Proof.
  intros A t blocks ext check shared triv w vs k (H1 & H2 & H3 & H4 & H5) H Hk. apply holds_inv in H as (l & J & <-). rewrite map_length in Hk.
  cbn [fwd_op]. rewrite (pos_at t blocks ext H1 H2 H3 H4 w l k J) by lia. unfold erase_after_range. rewrite Nat.eqb_refl, andb_false_r. reflexivity.
Qed.
Print Assumptions C49_erase_nothing_refuted.
(** move_after(p, next of p): the element disappears from the list, its node is not given back to the pool *)
Theorem C49_move_after_itself_refuted : forall A t blocks ext check shared triv (w : fworld A) vs k,
  config t blocks ext shared -> holds t blocks ext w vs -> k < length vs ->
  exists w', fwd_op t blocks check shared triv (FmoveAfter k (S k)) w = Some (Rok, w') /\
    fwd_op t blocks check shared triv Fall w' = Some (Rl (cut k (S k) vs), w') /\
    fwd_op t blocks check shared triv Favailable w' = Some (Rn (length blocks - length ext - length vs), w').
Proof.
  intros A t blocks ext check shared triv w vs k (H1 & H2 & H3 & H4 & H5) H Hk. apply holds_inv in H as (l & J & <-). rewrite map_length in Hk.
  cbn [fwd_op]. rewrite !(pos_at t blocks ext H1 H2 H3 H4 w l _ J) by lia. unfold move_after, ok1. rewrite (at_eqb t blocks ext H1 H2 H3 H4 w l _ _ J), (proj2 (Nat.eqb_neq _ _)) by lia.
  destruct (split3 l k (S k) ltac:(lia)) as (a & m & b & El & La & Lm). replace (S k - k) with 1 in Lm by lia. destruct m as [|(x, v) [|]]; [discriminate| |discriminate].
  assert (at_ t l k = adr t a) as Ek by (rewrite El, <- La; apply at_adr). assert (at_ t l (S k) = x) as Ex by (rewrite El, <- La, at_hd; reflexivity). rewrite Ek, Ex.
  pose proof J as (O & C). rewrite El in J. rewrite (nx_adr t blocks ext w a _ J). cbn [map fst hd app]. destruct (own_nodes t blocks ext H1 H2 H3 H4 w l O) as (N & Z & _).
  assert (x <> 0) as X0 by (intros ->; apply Z; rewrite El, !map_app, !in_app_iff; right; left; now left). rewrite (proj2 (Nat.eqb_neq _ _) X0). cbv zeta.
  assert (nx w x = hd 0 (map fst b)) as Nx. { rewrite <- (adr_snoc t a x v) at 1. apply (nx_adr t blocks ext). rewrite <- app_assoc. exact J. }
  rewrite Nx. eexists. conj; [reflexivity| |].
  - rewrite El, !map_app in C, N. destruct (chain_remove t (nx w) (map fst a) [x] (map fst b) N C) as (C1 & _).
    erewrite (walk_ok _ (a ++ b) t (fuel blocks)).
    + do 3 f_equal. rewrite El, !map_app, <- La, <- (map_length snd a). change (map snd [(x, v)]) with [v]. replace (S (length (map snd a))) with (length (map snd a) + length [v]) by (cbn; lia). now rewrite cut_app.
    + rewrite map_app. eapply chain_ext; [|exact C1]. intros y Hy. assert (y <> x) as Dy. { intros ->. cbn [app] in N. rewrite app_comm_cons in N. apply NoDup_remove_2 in N. apply N. exact Hy. }
      cbn [join nx]. rewrite !(set_other _ x) by exact Dy. reflexivity.
    + intros I. apply Z. rewrite El, !map_app, !in_app_iff in *. tauto.
    + intros y u I. apply O. rewrite El, !in_app_iff in *. tauto.
    + unfold fuel. pose proof (own_len blocks ext w l O) as (Q & _). rewrite El, !app_length in Q. rewrite app_length. lia.
  - cbn [join fr]. do 3 f_equal. rewrite map_length. apply (own_len blocks ext w l O).
Qed.
Print Assumptions C49_move_after_itself_refuted.
(** move_after(first, first + 1, to): the empty range.  The elements between the two places disappear (they form a ring) *)
Theorem C49_move_empty_range_refuted : forall A t blocks ext check shared triv (w : fworld A) vs k j,
  config t blocks ext shared -> holds t blocks ext w vs -> k <= length vs -> j <= length vs -> j <> k -> j <> S k ->
  exists w', fwd_op t blocks check shared triv (FmoveAfterRange k (S k) j) w = Some (Rok, w') /\
    fwd_op t blocks check shared triv Fall w' = Some (Rl (cut (Nat.min k j) (Nat.max k j) vs), w') /\
    fwd_op t blocks check shared triv Favailable w' = Some (Rn (length blocks - length ext - length vs), w').
Proof.
  intros A t blocks ext check shared triv w vs k j (H1 & H2 & H3 & H4 & H5) H Hk Hj D1 D2. apply holds_inv in H as (l & J & <-). rewrite map_length in Hk, Hj.
  cbn [fwd_op]. rewrite !(pos_at t blocks ext H1 H2 H3 H4 w l _ J) by lia. unfold move_after_range, ok1. rewrite !(at_eqb t blocks ext H1 H2 H3 H4 w l _ _ J), !(proj2 (Nat.eqb_neq _ _)) by lia. cbn [orb]. cbv zeta.
  assert (forall i, i <= length l -> nx w (at_ t l i) = at_ t l (S i)) as Hn.
  { intros i Hi. destruct (split3 l i i ltac:(lia)) as (a & m & b & El & La & Lm). destruct m; [|cbn in Lm; lia]. cbn [app] in El. subst l i. rewrite at_adr, at_hd. exact (nx_adr t blocks ext w a b J). }
  assert (final_loop (fuel blocks) w (at_ t l k) (at_ t l (S k)) = Some (at_ t l k)) as -> by (unfold fuel; cbn [final_loop]; rewrite Hn by lia; now rewrite Nat.eqb_refl).
  rewrite Hn by lia. pose proof J as (O & C). destruct (own_nodes t blocks ext H1 H2 H3 H4 w l O) as (N & Z & _).
  cbn [join nx]. rewrite set_other by (intros E; apply (at_inj t blocks ext H1 H2 H3 H4 w l _ _ J) in E; lia). rewrite Hn by lia. eexists. conj; [reflexivity| |cbn [join fr]; do 3 f_equal; rewrite map_length; apply (own_len blocks ext w l O)].
  destruct (split3 l (Nat.min k j) (Nat.max k j) ltac:(lia)) as (a & m & b & El & La & Lm).
  assert (at_ t l (Nat.min k j) = adr t a) as Ea by (rewrite El, <- La; apply at_adr).
  assert (at_ t l (S (Nat.max k j)) = hd 0 (map fst b)) as Eb. { rewrite El, app_assoc. replace (Nat.max k j) with (length (a ++ m)) by (rewrite app_length; lia). apply at_hd. }
  assert (at_ t l (Nat.max k j) = adr t (a ++ m)) as Em. { rewrite El, app_assoc. replace (Nat.max k j) with (length (a ++ m)) by (rewrite app_length; lia). apply at_adr. }
  assert (m <> []) as Nm by (intros ->; cbn in Lm; lia).
  assert (In (adr t (a ++ m)) (map fst m)) as Im. { destruct (exists_last Nm) as (c & (x, v) & ->). rewrite app_assoc, adr_snoc, map_app, in_app_iff. right. now left. }
  rewrite El, !map_app in C, N. destruct (chain_remove t (nx w) (map fst a) (map fst m) (map fst b) N C) as (C1 & _).
  erewrite (walk_ok _ (a ++ b) t (fuel blocks)).
  - do 3 f_equal. rewrite El, !map_app. replace (Nat.min k j) with (length (map snd a)) by (rewrite map_length; lia). replace (Nat.max k j) with (length (map snd a) + length (map snd m)) by (rewrite !map_length; lia). now rewrite cut_app.
  - rewrite map_app. eapply chain_ext; [|exact C1]. intros y Hy. cbn [join nx]. fold (adr t a).
    assert (y <> adr t (a ++ m)) as Dy. { intros ->. assert (Permutation (t :: map fst a ++ map fst m ++ map fst b) (map fst m ++ (t :: map fst a ++ map fst b))) as P by (cbn [app]; rewrite (Permutation_app_swap_app (map fst a)); apply Permutation_middle).
      apply (Permutation_NoDup P) in N. apply NoDup_app_iff in N as (_ & _ & N). exact (N _ Im Hy). }
    assert (nx w (adr t (a ++ m)) = hd 0 (map fst b)) as Nm2 by (rewrite <- Em, <- Eb; apply Hn; lia).
    destruct (Nat.le_gt_cases k j) as [Q|Q].
    + rewrite Nat.min_l in Ea by lia. rewrite Nat.max_r in Em, Eb by lia. rewrite Ea, Em, Eb. rewrite (set_other _ (adr t (a ++ m))) by exact Dy. unfold set. destruct (Nat.eqb_spec y (adr t a)); reflexivity.
    + rewrite Nat.min_r in Ea by lia. rewrite Nat.max_l in Em, Eb by lia. rewrite Ea, Em, Eb. unfold set at 1. destruct (Nat.eqb_spec y (adr t a)) as [->|Da]; [now rewrite set_same|]. rewrite !(set_other _ (adr t (a ++ m))) by exact Dy. now rewrite set_other.
  - intros I. apply Z. rewrite El, !map_app, !in_app_iff in *. tauto.
  - intros y u I. apply O. rewrite El, !in_app_iff in *. tauto.
  - unfold fuel. pose proof (own_len blocks ext w l O) as (Q & _). rewrite El, !app_length in Q. rewrite app_length. lia.
Qed.
Print Assumptions C49_move_empty_range_refuted.
(** move_after(first, last, last): the elements should follow the element at last (it is outside the open range); nothing moves *)
Theorem C49_move_to_last_refuted : forall A t blocks ext check shared triv (w : fworld A) vs i j,
  config t blocks ext shared -> holds t blocks ext w vs -> S i < j <= length vs -> fwd_op t blocks check shared triv (FmoveAfterRange i j j) w = Some (Rok, w).
Proof.
  intros A t blocks ext check shared triv w vs i j (H1 & H2 & H3 & H4 & H5) H Hk. apply holds_inv in H as (l & J & <-). rewrite map_length in Hk.
  cbn [fwd_op]. rewrite !(pos_at t blocks ext H1 H2 H3 H4 w l _ J) by lia. unfold move_after_range, ok1. rewrite Nat.eqb_refl, orb_true_r. reflexivity.
Qed.
Print Assumptions C49_move_to_last_refuted.
Example findings_case :
  let w0 := FW (fun _ => 0) (fun _ => None) [1; 2; 3; 4; 5; 6] in
  let run os := option_map fst (fwd_ops 100 [1; 2; 3; 4; 5; 6] true false false os w0) in
  run [Fassign [1; 2; 3; 4]; FinsertAfterN 1 5 9; Fall] = Some [Rok; Rat (Some 9); Rl [1; 9; 9; 2; 3; 4]] /\
  run [Fassign [1; 2; 3; 4]; FeraseAfterRange 1 1] = Some [Rok; Rat None] /\
  run [Fassign [1; 2; 3; 4]; FmoveAfter 1 2; Fall; Fsize; Favailable] = Some [Rok; Rok; Rl [1; 3; 4]; Rn 4; Rn 2] /\
  run [Fassign [1; 2; 3; 4]; FmoveAfterRange 1 2 3; Fall] = Some [Rok; Rok; Rl [1; 4]] /\
  run [Fassign [1; 2; 3; 4]; FmoveAfterRange 3 4 1; Fall] = Some [Rok; Rok; Rl [1; 4]] /\
  run [Fassign [1; 2; 3; 4]; FmoveAfterRange 0 3 3; Fall] = Some [Rok; Rok; Rl [1; 2; 3; 4]].
Proof. vm_compute. now conj. Qed.
