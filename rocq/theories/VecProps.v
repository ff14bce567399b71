(** * Property C10: etl::vector is a bounded sequence.
    Quantified over: element type (trivially destructible or not), the
    unspecified values left by moves, push/pop checking and debug build on or
    off, every capacity, every history of operations with valid positions. *)
From Coq Require Import List Arith Lia Bool String.
From Verif Require Import Util Slots VecSpec VecModel VecProofs.
Import ListNotations.

(** After any history of a vector of capacity [cap] with the checks enabled,
    started empty, where each operation got valid positions, counts that do not
    wrap size_t, and empty insertions / erasures only for types with harmless
    self move: no undefined behaviour; the vector holds exactly the sequence the
    specification says (operations that would exceed the capacity, or pop an
    empty vector, change nothing); size/empty/full/available/at/[] observe it;
    exactly size() elements are alive, and none after destruction. *)
Theorem C10_vector_history :
  forall (T : Type) (triv chk dbg : bool) (mv smv : T -> T) (SZ cap : nat), 2 * cap < SZ ->
  forall os : list (vop T),
    (forall os1 o os2, os = os1 ++ o :: os2 ->
       valid (spec_run cap [] os1) o /\ supported chk dbg smv SZ cap (spec_run cap [] os1) o) ->
    let l := spec_run cap [] os in
    exists v, run triv chk dbg mv smv SZ cap (create cap) os = Some v
      /\ List.length l <= cap
      /\ size v = List.length l /\ empty v = (List.length l =? 0)
      /\ full cap v = (List.length l =? cap) /\ available cap v = cap - List.length l
      /\ (forall i, at_ v i = match nth_error l i with Some x => Ok v x | None => Exc "vector_out_of_bounds" v end)
      /\ (forall i x, nth_error l i = Some x -> index v i = Ok v x)
      /\ (triv = false -> live (vb v) = List.length l)
      /\ exists v', clear triv v = Ok v' tt /\ size v' = 0 /\ (triv = false -> live (vb v') = 0).
Proof.
  intros T triv chk dbg mv smv SZ cap Hc os HO l.
  destruct (run_ok triv chk dbg mv smv SZ cap Hc os (create cap) [] (create_rep triv cap) HO) as (v & E & R).
  exists v. fold l in R. pose proof (vrep_le _ _ _ _ R). pose proof (rep_n _ _ _ _ R) as Hn.
  repeat split; auto.
  - unfold empty. now rewrite Hn.
  - unfold full. now rewrite Hn.
  - unfold available. now rewrite Hn.
  - intros i. unfold at_, size. rewrite Hn. destruct (nth_error l i) as [x|] eqn:Ei.
    + pose proof (nth_error_lt _ _ _ Ei). destruct (Nat.ltb_spec i (List.length l)); [|lia].
      now rewrite (get_rep _ _ _ _ _ _ R Ei).
    + apply nth_error_None in Ei. destruct (Nat.ltb_spec i (List.length l)); [lia|reflexivity].
  - intros i x Ei. unfold index. now rewrite (get_rep _ _ _ _ _ _ R Ei).
  - intros Ht. now apply (live_rep _ _ _ _ R).
  - destruct (initialise_ok _ _ _ _ R) as (v' & E' & R'). exists v'. repeat split; auto.
    + exact (rep_n _ _ _ _ R').
    + intros Ht. now apply (live_rep _ _ _ _ R').
Qed.
Print Assumptions C10_vector_history.

(** One operation on a vector reached by any history: it returns the documented
    position and leaves the specified sequence, or throws the documented
    exception and leaves the very same vector. *)
Theorem C10_vector_operation :
  forall (T : Type) (triv chk dbg : bool) (mv smv : T -> T) (SZ cap : nat), 2 * cap < SZ ->
  forall (os : list (vop T)) (o : vop T),
    (forall os1 o' os2, os ++ [o] = os1 ++ o' :: os2 ->
       valid (spec_run cap [] os1) o' /\ supported chk dbg smv SZ cap (spec_run cap [] os1) o') ->
    exists v, run triv chk dbg mv smv SZ cap (create cap) os = Some v /\
    match spec cap (spec_run cap [] os) o with
    | Content l' => exists v', step triv chk dbg mv smv SZ cap v o = Ok v' (spec_ret o)
                       /\ read_all (size v') (vb v') 0 = V l' /\ size v' = List.length l'
    | Error e => step triv chk dbg mv smv SZ cap v o = Exc e v
    end.
Proof.
  intros T triv chk dbg mv smv SZ cap Hc os o HO.
  destruct (run_ok triv chk dbg mv smv SZ cap Hc os (create cap) [] (create_rep triv cap)) as (v & E & R).
  { intros os1 o' os2 ->. apply (HO os1 o' (os2 ++ [o])). now rewrite <- app_assoc. }
  exists v. split; [exact E|]. destruct (HO os o [] eq_refl) as [H1 H2].
  pose proof (step_ok triv chk dbg mv smv SZ cap Hc v _ o R H1 H2) as Hs.
  destruct (spec cap _ o) as [l'|e]; [|exact Hs]. destruct Hs as (v' & E' & R'). exists v'. repeat split; auto.
  - exact (read_rep _ _ _ _ R').
  - exact (rep_n _ _ _ _ R').
Qed.
Print Assumptions C10_vector_operation.

(** a vector that holds [l] after some history (used to state the remaining results) *)
Definition reached {T} (triv chk dbg : bool) (mv smv : T -> T) (SZ cap : nat) (v : vec T) (l : list T) : Prop :=
  exists os, (forall os1 o os2, os = os1 ++ o :: os2 ->
       valid (spec_run cap [] os1) o /\ supported chk dbg smv SZ cap (spec_run cap [] os1) o)
    /\ run triv chk dbg mv smv SZ cap (create cap) os = Some v /\ l = spec_run cap [] os.
Lemma reached_rep {T} triv chk dbg (mv smv : T -> T) SZ cap v l : 2 * cap < SZ ->
  reached triv chk dbg mv smv SZ cap v l -> vrep triv cap v l.
Proof.
  intros Hc (os & HO & E & ->).
  destruct (run_ok triv chk dbg mv smv SZ cap Hc os (create cap) [] (create_rep triv cap) HO) as (v' & E' & R). congruence.
Qed.

(** Copy assignment between vectors of any capacities copies the content, if it
    fits; otherwise (debug build) vector_full, target unchanged. *)
Theorem C10_copy_assign :
  forall (T : Type) (triv chk dbg : bool) (mv smv : T -> T) (SZ cap rcap : nat), 2 * cap < SZ -> 2 * rcap < SZ ->
  forall v l rhs r, reached triv chk dbg mv smv SZ cap v l -> reached triv chk dbg mv smv SZ rcap rhs r ->
    (List.length r <= cap -> exists v', copy_assign triv dbg cap v rhs = Ok v' tt
        /\ read_all (size v') (vb v') 0 = V r /\ size v' = List.length r)
    /\ (cap < List.length r -> dbg = true -> copy_assign triv dbg cap v rhs = Exc "vector_full" v).
Proof.
  intros T triv chk dbg mv smv SZ cap rcap Hc Hrc v l rhs r Hv Hr.
  apply (reached_rep _ _ _ _ _ _ _ _ _ Hc) in Hv. apply (reached_rep _ _ _ _ _ _ _ _ _ Hrc) in Hr.
  unfold copy_assign. rewrite (read_rep _ _ _ _ Hr).
  pose proof (step_ok triv chk dbg mv smv SZ cap Hc v l (OpAssignRange r) Hv I) as Hs. cbn in Hs. unfold bounded in Hs.
  split.
  - intros Hl. destruct (Nat.leb_spec (List.length r) cap); [|lia]. destruct (Hs (or_intror Hl)) as (v' & E & R).
    destruct (assign_range triv dbg cap v r) as [v1 []| |]; cbn in E; try discriminate. injection E as ->.
    exists v'. repeat split; [exact (read_rep _ _ _ _ R)|exact (rep_n _ _ _ _ R)].
  - intros Hl Hd. destruct (Nat.leb_spec (List.length r) cap); [lia|]. specialize (Hs (or_introl Hd)).
    destruct (assign_range triv dbg cap v r) as [v1 []| |]; cbn in Hs; congruence.
Qed.
Print Assumptions C10_copy_assign.

(** Move assignment moves the content if it fits, leaving the source empty with
    nothing alive. *)
Theorem C10_move_assign :
  forall (T : Type) (triv chk dbg : bool) (mv smv : T -> T) (SZ cap rcap : nat), 2 * cap < SZ -> 2 * rcap < SZ ->
  forall v l rhs r, reached triv chk dbg mv smv SZ cap v l -> reached triv chk dbg mv smv SZ rcap rhs r ->
    List.length r <= cap ->
    exists v' rhs', move_assign triv chk mv cap v rhs = Ok v' rhs'
      /\ read_all (size v') (vb v') 0 = V r /\ size v' = List.length r
      /\ (triv = false -> live (vb v') = List.length r)
      /\ size rhs' = 0 /\ (triv = false -> live (vb rhs') = 0).
Proof.
  intros T triv chk dbg mv smv SZ cap rcap Hc Hrc v l rhs r Hv Hr Hl.
  apply (reached_rep _ _ _ _ _ _ _ _ _ Hc) in Hv. apply (reached_rep _ _ _ _ _ _ _ _ _ Hrc) in Hr.
  unfold move_assign, clear. destruct (initialise_ok _ _ _ _ Hv) as (v1 & -> & R1).
  rewrite (rep_n _ _ _ _ Hr).
  destruct (push_all_ok triv chk mv cap rcap r v1 [] rhs [] R1) as (v2 & rhs2 & E & R2 & R3); auto.
  cbn in E. rewrite E. destruct (initialise_ok _ _ _ _ R3) as (rhs3 & -> & R4).
  exists v2, rhs3. repeat split.
  - exact (read_rep _ _ _ _ R2).
  - exact (rep_n _ _ _ _ R2).
  - intros Ht. now apply (live_rep _ _ _ _ R2).
  - exact (rep_n _ _ _ _ R4).
  - intros Ht. now apply (live_rep _ _ _ _ R4).
Qed.
Print Assumptions C10_move_assign.

(** FINDING (vector.h: 955-971): a move assignment that does not fit throws
    vector_full but does NOT leave the target unchanged: its old content is gone
    and it holds the first capacity() elements of the source. *)
Theorem C10_move_assign_unchanged_refuted :
  forall (T : Type) (triv dbg : bool) (mv smv : T -> T) (SZ cap rcap : nat), 2 * cap < SZ -> 2 * rcap < SZ ->
  forall v l rhs r, reached triv true dbg mv smv SZ cap v l -> reached triv true dbg mv smv SZ rcap rhs r ->
    cap < List.length r ->
    exists v', move_assign triv true mv cap v rhs = Exc "vector_full" v'
      /\ read_all (size v') (vb v') 0 = V (firstn cap r).
Proof.
  intros T triv dbg mv smv SZ cap rcap Hc Hrc v l rhs r Hv Hr Hl.
  apply (reached_rep _ _ _ _ _ _ _ _ _ Hc) in Hv. apply (reached_rep _ _ _ _ _ _ _ _ _ Hrc) in Hr.
  unfold move_assign, clear. destruct (initialise_ok _ _ _ _ Hv) as (v1 & -> & R1).
  rewrite (rep_n _ _ _ _ Hr).
  destruct (push_all_full triv true mv cap rcap r v1 [] rhs [] eq_refl R1) as (v2 & E & R2); auto.
  cbn in E. rewrite E. exists v2. split; [reflexivity|]. exact (read_rep _ _ _ _ R2).
Qed.
Print Assumptions C10_move_assign_unchanged_refuted.

(** FINDING (vector.h: 435-454): without ETL_CHECK_PUSH_POP, push_back on a full
    vector is undefined (it constructs past the storage). *)
Theorem C10_unchecked_push_refuted :
  forall (T : Type) (triv dbg : bool) (mv smv : T -> T) (SZ cap : nat), 2 * cap < SZ ->
  forall v l x, reached triv false dbg mv smv SZ cap v l -> List.length l = cap ->
    push_back triv false cap v (Val x) = Und.
Proof.
  intros T triv dbg mv smv SZ cap Hc v l x Hv Hl. apply (reached_rep _ _ _ _ _ _ _ _ _ Hc) in Hv.
  unfold push_back. cbn. exact (create_back_full _ _ _ _ _ Hv Hl).
Qed.
Print Assumptions C10_unchecked_push_refuted.

Lemma uninit_copy_out {T} triv (xs : list T) : forall b i, List.length b < i + List.length xs -> i <= List.length b ->
  (exists b', uninit_copy triv xs b i = V b' /\ False) \/ uninit_copy triv xs b i = UB.
Proof.
  induction xs as [|x xs IH]; intros b i H1 H2; cbn in *; [lia|].
  destruct (Nat.eq_dec i (List.length b)) as [->|Hne].
  - right. now rewrite construct_out by lia.
  - unfold construct. destruct (nth_error b i) as [[y|]|] eqn:E; cbn; auto.
    + destruct triv; cbn; auto. apply IH; rewrite upd_length; lia.
    + apply IH; rewrite upd_length; lia.
Qed.
(** FINDING (vector.h: 387-390): outside a debug build, assigning a range longer
    than the capacity is not reported: it writes past the storage. *)
Theorem C10_assign_range_release_refuted :
  forall (T : Type) (triv chk : bool) (mv smv : T -> T) (SZ cap : nat), 2 * cap < SZ ->
  forall v l xs, reached triv chk false mv smv SZ cap v l -> cap < List.length xs ->
    assign_range triv false cap v xs = Und.
Proof.
  intros T triv chk mv smv SZ cap Hc v l xs Hv Hl. apply (reached_rep _ _ _ _ _ _ _ _ _ Hc) in Hv.
  unfold assign_range. cbn [negb orb]. destruct (initialise_ok _ _ _ _ Hv) as (v1 & -> & R1).
  pose proof (rep_len _ _ _ _ R1) as HL.
  destruct (uninit_copy_out triv xs (vb v1) 0) as [(b & _ & [])|E]; try lia. now rewrite E.
Qed.
Print Assumptions C10_assign_range_release_refuted.

(** FINDING (vector.h: 776): size() + n is computed in size_t.  On a non-empty
    vector, insert(begin(), SIZE_MAX + 1 - size(), x) passes the capacity check
    and writes outside the storage. *)
Theorem C10_insert_count_wraps_refuted :
  forall (T : Type) (triv chk dbg : bool) (mv smv : T -> T) (SZ cap : nat), 2 * cap < SZ ->
  forall v l x, reached triv chk dbg mv smv SZ cap v l -> l <> [] ->
    insert_n triv mv smv SZ cap v 0 (SZ - List.length l) (Val x) = Und.
Proof.
  intros T triv chk dbg mv smv SZ cap Hc v l x Hv Hl. apply (reached_rep _ _ _ _ _ _ _ _ _ Hc) in Hv.
  pose proof (vrep_le _ _ _ _ Hv) as Hle. unfold insert_n, size. rewrite (rep_n _ _ _ _ Hv).
  replace (List.length l + (SZ - List.length l)) with (0 + 1 * SZ) by lia. rewrite Nat.mod_add, Nat.mod_small by lia.
  cbn [Nat.leb]. unfold make_room, size. rewrite (rep_n _ _ _ _ Hv). cbn [Nat.add].
  assert (Hll : 0 < List.length l) by (destruct l; [congruence|cbn; lia]).
  rewrite Nat.mod_small by lia.
  destruct (Nat.ltb_spec (List.length l) (SZ - List.length l)); [|lia].
  rewrite Nat.sub_0_r, Nat.sub_diag. destruct l as [|z l]; [cbn in Hll; lia|].
  cbn [List.length uninit_move]. rewrite (get_rep _ _ _ _ 0 z Hv eq_refl). cbn [bind].
  rewrite construct_out; [reflexivity|]. rewrite (rep_len _ _ _ _ Hv). cbn [List.length] in *. lia.
Qed.
Print Assumptions C10_insert_count_wraps_refuted.

(** Inserting (a reference to) an element of the vector itself is right as long
    as that element lies before the position ... *)
Theorem C10_insert_own_element_before :
  forall (T : Type) (triv chk dbg : bool) (mv smv : T -> T) (SZ cap : nat), 2 * cap < SZ ->
  forall v l p i x, reached triv chk dbg mv smv SZ cap v l -> p <= List.length l -> List.length l < cap ->
    i < p -> nth_error l i = Some x ->
    exists v', insert triv mv smv cap v p (Ref i) = Ok v' p
      /\ read_all (size v') (vb v') 0 = V (ins l p [x]).
Proof.
  intros T triv chk dbg mv smv SZ cap Hc v l p i x Hv Hp Hl Hi Hx. apply (reached_rep _ _ _ _ _ _ _ _ _ Hc) in Hv.
  destruct (pos_split l p Hp) as (l1 & l2 & -> & ->). rewrite nth_error_app1 in Hx by lia. rewrite app_length in Hl.
  destruct (insert_ok triv mv smv cap v l1 l2 (Ref i) x Hv Hl) as (v' & E & R); [right; eauto|].
  exists v'. split; [exact E|]. rewrite ins_mid. exact (read_rep _ _ _ _ R).
Qed.
Print Assumptions C10_insert_own_element_before.

(** FINDING (vector.h: 591-593): ... but an element after the position is read
    only after it was overwritten by its predecessor: v.insert(v.begin() + p, v[i])
    with i > p inserts v[i - 1]. *)
Theorem C10_insert_own_element_after_refuted :
  forall (T : Type) (triv chk dbg : bool) (mv smv : T -> T) (SZ cap : nat), 2 * cap < SZ ->
  forall v l p i y, reached triv chk dbg mv smv SZ cap v l -> List.length l < cap ->
    p < i -> i < List.length l -> nth_error l (i - 1) = Some y ->
    exists v', insert triv mv smv cap v p (Ref i) = Ok v' p
      /\ read_all (size v') (vb v') 0 = V (ins l p [y]).
Proof.
  intros T triv chk dbg mv smv SZ cap Hc v l p i y Hv Hl Hp Hi Hy. apply (reached_rep _ _ _ _ _ _ _ _ _ Hc) in Hv.
  destruct (pos_split l p) as (l1 & [|z l2] & -> & ->); [lia|rewrite app_length in Hi; cbn in Hi; lia|].
  rewrite app_length in *. cbn [List.length] in *.
  rewrite nth_error_app2 in Hy by lia.
  destruct (insert_alias triv mv smv cap v l1 z l2 (i - List.length l1) Hv Hl) as (v' & x & E & R & Ex); [lia|].
  replace (List.length l1 + (i - List.length l1)) with i in E by lia.
  exists v'. split; [exact E|]. rewrite ins_mid. cbn [app].
  replace y with x; [exact (read_rep _ _ _ _ R)|].
  destruct (i - List.length l1) as [|j] eqn:Ej; [lia|]. rewrite Ex.
  apply nth_error_nth. rewrite <- Hy. f_equal. lia.
Qed.
Print Assumptions C10_insert_own_element_after_refuted.

(** FINDING (vector.h: 926 and 810/867): erasing an empty range, or inserting
    nothing, in the middle self-move-assigns every later element, so for a type
    whose self move is not harmless the content changes. *)
Theorem C10_empty_erase_refuted :
  forall (T : Type) (triv chk dbg : bool) (mv smv : T -> T) (SZ cap : nat), 2 * cap < SZ ->
  forall v l p, reached triv chk dbg mv smv SZ cap v l -> p <= List.length l -> l <> [] ->
    exists v', erase_range triv mv smv v p p = Ok v' p
      /\ read_all (size v') (vb v') 0 = V (firstn p l ++ map smv (skipn p l)).
Proof.
  intros T triv chk dbg mv smv SZ cap Hc v l p Hv Hp Hl. apply (reached_rep _ _ _ _ _ _ _ _ _ Hc) in Hv.
  destruct (pos_split l p Hp) as (l1 & l2 & -> & ->).
  destruct (erase_range_ok triv mv smv cap v l1 [] l2 Hv) as (v' & E & R).
  cbn [List.length] in E, R. rewrite Nat.add_0_r in E. exists v'. split; [exact E|].
  unfold size. rewrite (read_rep _ _ _ _ R). f_equal. rewrite firstn_app, skipn_app, Nat.sub_diag, firstn_all, skipn_all. cbn.
  rewrite app_nil_r. f_equal. destruct l1, l2; reflexivity.
Qed.
Print Assumptions C10_empty_erase_refuted.
Theorem C10_empty_insert_refuted :
  forall (T : Type) (triv chk dbg : bool) (mv smv : T -> T) (SZ cap : nat), 2 * cap < SZ ->
  forall v l p, reached triv chk dbg mv smv SZ cap v l -> p <= List.length l ->
    exists v', insert_range triv mv smv SZ cap v p [] = Ok v' tt
      /\ read_all (size v') (vb v') 0 = V (firstn p l ++ map smv (skipn p l)).
Proof.
  intros T triv chk dbg mv smv SZ cap Hc v l p Hv Hp. apply (reached_rep _ _ _ _ _ _ _ _ _ Hc) in Hv.
  pose proof (vrep_le _ _ _ _ Hv) as Hle.
  destruct (pos_split l p Hp) as (l1 & l2 & -> & ->). rewrite app_length in Hle.
  destruct (insert_range_ok triv mv smv SZ cap Hc v l1 l2 [] Hv) as (v' & E & R); [cbn; lia|].
  cbn in R. exists v'. split; [exact E|].
  unfold size. rewrite (read_rep _ _ _ _ R), firstn_app, skipn_app, Nat.sub_diag, firstn_all, skipn_all. cbn.
  now rewrite app_nil_r.
Qed.
Print Assumptions C10_empty_insert_refuted.

(** ** non-vacuity *)
Definition ex_ops : list (vop nat) :=
  [OpPushBack 1; OpPushBack 2; OpInsert 1 9; OpInsertN 1 2 7; OpPushBack 5; OpInsertRange 0 [3; 4];
   OpErase 0; OpEraseRange 1 3; OpEmplace 0 8; OpPopBack; OpResize 4 6; OpResize 9 6; OpFill 2].
Example ex_content : spec_run 5 [] (firstn 12 ex_ops) = [8; 7; 6; 6].
Proof. vm_compute. reflexivity. Qed.
Example ex_supported : forall os1 o os2, ex_ops = os1 ++ o :: os2 ->
  valid (spec_run 5 [] os1) o /\ supported true true (fun x => x) 100 5 (spec_run 5 [] os1) o.
Proof.
  intros os1 o os2 E. assert (HL : List.length os1 < 13).
  { apply (f_equal (@List.length (vop nat))) in E. rewrite app_length in E. cbn in E. lia. }
  unfold ex_ops in E.
  do 13 (destruct os1 as [|? os1]; cbn in E;
         [injection E as <- _; clear; vm_compute; repeat (exact I || split || (left; reflexivity) || (left; discriminate) || lia)
         |injection E as <- E]).
  cbn in HL. lia.
Qed.
Example ex_run :
  match run false true true (fun _ => 99) (fun x => x) 100 5 (create 5) ex_ops with
  | Some v => read_all (size v) (vb v) 0 = V [2; 2; 2; 2] /\ live (vb v) = 4
  | None => False
  end.
Proof. vm_compute. auto. Qed.
(** std::vector would insert 3 *)
Example ex_alias :
  match run false true true (fun _ => 99) (fun x => x) 100 5 (create 5) [OpAssignRange [1; 2; 3]] with
  | Some v => match insert false (fun _ => 99) (fun x => x) 5 v 0 (Ref 2) with
              | Ok v' _ => read_all (size v') (vb v') 0 = V [2; 1; 2; 3]
              | _ => False
              end
  | None => False
  end.
Proof. vm_compute. auto. Qed.
