(** * Property C09: etl::deque is a bounded double-ended sequence.
    Quantified over: element type (trivially destructible or not), the
    unspecified values left by moves, push/pop checking on or off, every
    capacity, every history of calls (so every position of the ring's seam). *)
From Coq Require Import List Arith Lia Bool String.
From Verif Require Import VecModel.
From Verif Require Import Util Slots Cmd DequeSpec DequeModel DequeProofs DequeOps DequeOps2.
Import ListNotations.

Lemma hist_ok (T : Type) (triv chk : bool) (mv smv : T -> T) (SZ R : nat) os : forall d o l,
  dr triv R d o l -> all_allowed (R - 1) SZ chk (forall x, smv x = x) os l ->
  exists d' o', run (exec triv chk mv smv SZ R) os d = Some (fst (spec_hist (R - 1) os l), d')
    /\ dr triv R d' o' (snd (spec_hist (R - 1) os l)).
Proof.
  induction os as [|op os IH]; intros d o l D A; cbn [run spec_hist all_allowed] in *.
  - exists d, o. conj; auto.
  - destruct A as [A1 A2]. pose proof (exec_ok triv chk mv smv SZ R d o l op D A1) as H.
    destruct (spec (R - 1) op l) as [x l1]. cbn [fst snd] in *. unfold rel in H.
    destruct (exec triv chk mv smv SZ R op d) as [d1 v|d1 e|]; [| |contradiction];
      destruct H as (-> & o1 & D1); destruct (IH d1 o1 l1 D1 A2) as (d2 & o2 & E2 & D2);
      destruct (spec_hist (R - 1) os l1) as [ys l2]; cbn [fst snd] in *; rewrite E2; exists d2, o2; conj; auto.
Qed.
Lemma create_dr (T : Type) triv cap : @dr T triv (cap + 1) (create (cap + 1)) 0 [].
Proof.
  constructor; cbn [db bg en sz create List.length]; try lia.
  - apply ring_raw. lia.
  - symmetry. apply Nat.mod_small. lia.
Qed.

(** After any history on a deque of capacity [cap], started empty, in which each
    call was allowed in the state it was made: no undefined behaviour; every call
    returned exactly what the specification of the mathematical sequence says
    (elements read, positions returned, contents seen by forward and by reverse
    iteration, sizes, and the error of every call that would exceed the capacity,
    pop an empty deque, or read outside); exactly size() elements are alive; and
    clearing (the destructor) leaves none alive. *)
Theorem C09_deque_history :
  forall (T : Type) (triv chk : bool) (mv smv : T -> T) (SZ cap : nat) (os : list (dop T)),
    all_allowed cap SZ chk (forall x, smv x = x) os [] ->
    exists d, run (exec triv chk mv smv SZ (cap + 1)) os (create (cap + 1))
                = Some (fst (spec_hist cap os []), d)
      /\ List.length (snd (spec_hist cap os [])) <= cap
      /\ iterate (cap + 1) d = Ok d (snd (spec_hist cap os []))
      /\ (triv = false -> live (db d) = List.length (snd (spec_hist cap os [])))
      /\ exists d', initialise triv (cap + 1) d = Ok d' tt /\ size d' = 0
           /\ (triv = false -> live (db d') = 0).
Proof.
  intros T triv chk mv smv SZ cap os A.
  assert (HR : cap + 1 - 1 = cap) by lia.
  destruct (hist_ok T triv chk mv smv SZ (cap + 1) os _ 0 [] (create_dr T triv cap)) as (d & o & E & D).
  { now rewrite HR. }
  rewrite HR in *. exists d. pose proof (d_lt _ _ _ _ _ D). pose proof (dr_o _ _ _ _ _ D). conj; auto; try lia.
  - unfold iterate, cbind, state. rewrite (d_bg _ _ _ _ _ D), (d_en _ _ _ _ _ D). set (l := snd _) in *.
    pose proof (walk_ok triv (cap + 1) (List.length l) (cap + 1) d o l 0 D eq_refl ltac:(lia)) as EW.
    rewrite ix0 in EW by auto. cbn [Nat.add skipn] in EW. now rewrite EW.
  - intros Ht. apply (ring_live triv (cap + 1) (db d) o); [exact (d_ring _ _ _ _ _ D)|auto].
  - destruct (initialise_ok triv (cap + 1) d o _ D) as (d' & E' & D'). exists d'. conj; auto.
    + exact (d_sz _ _ _ _ _ D').
    + intros Ht. apply (ring_live triv (cap + 1) (db d') 0 []); [exact (d_ring _ _ _ _ _ D')|auto].
Qed.
Print Assumptions C09_deque_history.

(** Iterators of a deque reached by any history: begin() + i points at element i;
    stepping and offsets move by as many elements, wherever the seam of the ring is;
    differences and comparisons are those of the positions; end() is begin() + size(). *)
Theorem C09_iterators :
  forall (T : Type) (triv chk : bool) (mv smv : T -> T) (SZ cap : nat) (os : list (dop T)) d ys,
    all_allowed cap SZ chk (forall x, smv x = x) os [] ->
    run (exec triv chk mv smv SZ (cap + 1)) os (create (cap + 1)) = Some (ys, d) ->
    let R := cap + 1 in
    let l := snd (spec_hist cap os []) in
    let it i := plus R (bg d) i in
    it 0 = bg d /\ it (List.length l) = en d
    /\ (forall i x, nth_error l i = Some x -> get (db d) (it i) = V x)
    /\ (forall i, i < List.length l -> inc R (it i) = it (i + 1) /\ dec R (it (i + 1)) = it i)
    /\ (forall i n, i + n <= List.length l -> plus R (it i) n = it (i + n) /\ minus R (it (i + n)) n = it i)
    /\ (forall i j, i <= List.length l -> j <= List.length l ->
          (it i = it j <-> i = j) /\ it_lt R d (it i) (it j) = (i <? j) /\ (i <= j -> dist R d (it i) (it j) = j - i)).
Proof.
  intros T triv chk mv smv SZ cap os d ys A ER R l it.
  assert (HR : cap + 1 - 1 = cap) by lia.
  destruct (hist_ok T triv chk mv smv SZ R os _ 0 [] (create_dr T triv cap)) as (d' & o & E & D).
  { unfold R. now rewrite HR. }
  unfold R in E. rewrite ER in E. injection E as _ <-. unfold R in D. rewrite HR in D. fold l R in D.
  pose proof (dr_o _ _ _ _ _ D) as Ho. pose proof (d_lt _ _ _ _ _ D) as HL.
  assert (Hit : forall i, i <= R -> it i = (o + i) mod R).
  { intros i Hi. unfold it. rewrite (d_bg _ _ _ _ _ D). rewrite <- (ix0 R o Ho) at 1. rewrite plus_ix by auto. reflexivity. }
  conj.
  - rewrite Hit, ix0 by lia. symmetry. apply (d_bg _ _ _ _ _ D).
  - rewrite Hit by lia. symmetry. apply (d_en _ _ _ _ _ D).
  - intros i x Hi. pose proof (nth_error_lt _ _ _ Hi). rewrite Hit by lia. eapply dr_get; eauto.
  - intros i Hi. rewrite !Hit by lia. rewrite inc_ix, dec_ix by lia. split; f_equal; lia.
  - intros i n Hi. rewrite !Hit by lia. rewrite plus_ix, minus_ix by lia. split; f_equal; lia.
  - intros i j Hi Hj. rewrite !Hit by lia. conj.
    + split; [|now intros ->]. intros E. apply (mod_inj R o i j); auto; lia.
    + unfold it_lt. now rewrite !(dist1_ix _ _ _ _ _ _ D) by lia.
    + intros Hij. now rewrite (dist_ix _ _ _ _ _ _ _ D) by lia.
Qed.
Print Assumptions C09_iterators.

Lemma drain_ok (T : Type) triv chk (mv : T -> T) R Rr k : forall fuel i dl dr' ol orr l r,
  dr triv R dl ol l -> dr triv Rr dr' orr r -> i + k = List.length r -> k <= fuel ->
  (chk = true \/ List.length l + k < R) ->
  if List.length l + k <? R then
    exists dl2 dr2 r2, drain triv chk mv R Rr fuel ((orr + i) mod Rr) (dl, dr') = Ok (dl2, dr2) tt
      /\ dr triv R dl2 ol (l ++ skipn i r) /\ dr triv Rr dr2 orr r2 /\ List.length r2 = List.length r
  else
    exists dl2 dr2, drain triv chk mv R Rr fuel ((orr + i) mod Rr) (dl, dr') = Ex (dl2, dr2) "deque_full"
      /\ dr triv R dl2 ol (l ++ firstn (R - 1 - List.length l) (skipn i r))
      /\ dr triv Rr dr2 orr (firstn i r ++ map mv (firstn (R - 1 - List.length l) (skipn i r)) ++ skipn (i + (R - 1 - List.length l)) r).
Proof.
  induction k; intros fuel i dl dr' ol orr l r D1 D2 Hi Hf HC;
    pose proof (dr_o _ _ _ _ _ D1) as Ho1; pose proof (d_lt _ _ _ _ _ D1) as HL1;
    pose proof (dr_o _ _ _ _ _ D2) as Ho2; pose proof (d_lt _ _ _ _ _ D2) as HL2.
  - rewrite Nat.add_0_r in *. destruct (Nat.ltb_spec (List.length l) R); [|lia].
    exists dl, dr', r. rewrite Hi, skipn_all, app_nil_r. conj; auto.
    destruct fuel; cbn [drain]; unfold cbind, state; cbn [snd]; now rewrite (d_en _ _ _ _ _ D2), Nat.eqb_refl.
  - destruct fuel as [|fuel]; [lia|]. cbn [drain]. rewrite (bind_ok state _ _ _ _ eq_refl). cbn [snd].
    rewrite (d_en _ _ _ _ _ D2). rewrite ix_eqb by lia. destruct (Nat.eqb_spec i (List.length r)); [lia|].
    destruct (nth_error r i) as [x|] eqn:Ex; [|apply nth_error_None in Ex; lia].
    rewrite (dr_get _ _ _ _ _ _ _ D2 Ex). rewrite (bind_ok (lift (V x)) _ _ _ _ eq_refl).
    destruct (Nat.eq_dec (List.length l) (R - 1)) as [Ef|Ef].
    + destruct HC as [HC|HC]; [|lia]. destruct (Nat.ltb_spec (List.length l + S k) R); [lia|].
      exists dl, dr'. replace (R - 1 - List.length l) with 0 by lia. rewrite Nat.add_0_r. cbn [firstn map]. rewrite app_nil_r.
      cbn [app]. rewrite firstn_skipn. conj; auto.
      unfold on_left, cbind at 1. cbn [fst snd]. now rewrite (push_back_full triv chk R _ _ _ _ D1 HC Ef).
    + destruct (push_back_ok triv chk R _ _ _ x D1 ltac:(lia)) as (dl1 & E1 & D1').
      assert (E1' : on_left (push_back triv chk R (Val x)) (dl, dr') = Ok (dl1, dr') tt).
      { unfold on_left. cbn [fst snd]. now rewrite E1. }
      rewrite (bind_ok _ _ _ _ _ E1').
      destruct (ring_put triv Rr (db dr') orr r i (mv x) (d_ring _ _ _ _ _ D2) ltac:(lia)) as (b & Eb & Hb).
      rewrite Eb. rewrite (bind_ok (lift (V b)) _ _ _ _ eq_refl).
      assert (D2' : dr triv Rr (mkdq b (bg dr') (en dr') (sz dr')) orr (upd r i (mv x))).
      { eapply dr_buf; eauto. apply upd_length. }
      match goal with |- context [on_right ?c] => set (cc := on_right c) end.
      assert (E2' : cc (dl1, dr') = Ok (dl1, mkdq b (bg dr') (en dr') (sz dr')) tt) by (unfold cc; rewrite <- (d_en _ _ _ _ _ D2); reflexivity).
      rewrite (bind_ok _ _ _ _ _ E2'). rewrite inc_ix by auto.
      specialize (IHk fuel (S i) _ _ ol orr _ _ D1' D2'). rewrite upd_length in IHk.
      specialize (IHk ltac:(lia) ltac:(lia)). rewrite app_length in IHk. cbn [List.length] in IHk.
      replace (List.length l + 1 + k) with (List.length l + S k) in IHk by lia. specialize (IHk HC).
      assert (Es : skipn (S i) (upd r i (mv x)) = skipn (S i) r) by (apply skipn_upd; lia). rewrite Es in IHk.
      rewrite (skipn_nth _ _ _ Ex).
      destruct (Nat.ltb_spec (List.length l + S k) R).
      * destruct IHk as (dl2 & dr2 & r2 & E & H1 & H2 & H3). exists dl2, dr2, r2. rewrite <- app_assoc in H1. conj; auto.
      * destruct IHk as (dl2 & dr2 & E & H1 & H2). exists dl2, dr2. rewrite <- app_assoc in H1.
        replace (R - 1 - List.length l) with (S (R - 1 - (List.length l + 1))) by lia. cbn [firstn map app]. conj; auto.
        match type of H2 with dr _ _ _ _ ?a => match goal with |- dr _ _ _ _ ?b => replace b with a; [exact H2|] end end.
        assert (Eu : firstn (S i) (upd r i (mv x)) = firstn i r ++ [mv x]).
        { rewrite (firstn_S_nth (upd r i (mv x)) i (mv x)); [|apply upd_same; lia]. now rewrite firstn_upd by lia. }
        rewrite Eu, <- app_assoc. cbn [app]. f_equal. f_equal. f_equal. rewrite skipn_upd by lia. f_equal; lia.
Qed.

Lemma iterate_ok (T : Type) triv R (d : dq T) o l : dr triv R d o l -> iterate R d = Ok d l.
Proof.
  intros D. pose proof (dr_o _ _ _ _ _ D). pose proof (d_lt _ _ _ _ _ D).
  unfold iterate, cbind, state. rewrite (d_bg _ _ _ _ _ D), (d_en _ _ _ _ _ D).
  pose proof (walk_ok triv R (List.length l) R d o l 0 D eq_refl ltac:(lia)) as EW.
  rewrite ix0 in EW by auto. cbn [Nat.add skipn] in EW. now rewrite EW.
Qed.

(** Move assignment between two deques (of possibly different capacities) reached
    by any histories: if the content fits, the target holds exactly the source's
    old content and the source is empty; with checking on, otherwise deque_full is
    raised, the target holds the part that fitted, and the source still holds its
    elements, those already transferred being in the moved-from state. *)
Theorem C09_move_assign :
  forall (T : Type) (triv chk : bool) (mv smv : T -> T) (SZ cap capr : nat) (os osr : list (dop T)) dl dr' ys zs,
    all_allowed cap SZ chk (forall x, smv x = x) os [] ->
    all_allowed capr SZ chk (forall x, smv x = x) osr [] ->
    run (exec triv chk mv smv SZ (cap + 1)) os (create (cap + 1)) = Some (ys, dl) ->
    run (exec triv chk mv smv SZ (capr + 1)) osr (create (capr + 1)) = Some (zs, dr') ->
    let r := snd (spec_hist capr osr []) in
    chk = true \/ List.length r <= cap ->
    exists dl2 dr2,
      move_assign triv chk mv (cap + 1) (capr + 1) (dl, dr')
        = (if List.length r <=? cap then Ok (dl2, dr2) tt else Ex (dl2, dr2) "deque_full")
      /\ iterate (cap + 1) dl2 = Ok dl2 (firstn cap r)
      /\ iterate (capr + 1) dr2 = Ok dr2 (if List.length r <=? cap then [] else map mv (firstn cap r) ++ skipn cap r)
      /\ (triv = false -> live (db dl2) = List.length (firstn cap r)).
Proof.
  intros T triv chk mv smv SZ cap capr os osr dl dr' ys zs A1 A2 E1 E2 r HC.
  assert (HR : cap + 1 - 1 = cap) by lia. assert (HR' : capr + 1 - 1 = capr) by lia.
  destruct (hist_ok T triv chk mv smv SZ (cap + 1) os _ 0 [] (create_dr T triv cap)) as (d1 & o1 & E1' & D1); [now rewrite HR|].
  destruct (hist_ok T triv chk mv smv SZ (capr + 1) osr _ 0 [] (create_dr T triv capr)) as (d2 & o2 & E2' & D2); [now rewrite HR'|].
  rewrite HR in *. rewrite HR' in *. rewrite E1 in E1'. rewrite E2 in E2'. injection E1' as _ <-. injection E2' as _ <-. fold r in D2.
  destruct (initialise_ok triv (cap + 1) dl o1 _ D1) as (dl1 & Ei & Di).
  unfold move_assign.
  assert (Ei' : on_left (initialise triv (cap + 1)) (dl, dr') = Ok (dl1, dr') tt) by (unfold on_left; cbn [fst snd]; now rewrite Ei).
  rewrite (bind_ok _ _ _ _ _ Ei'). rewrite (bind_ok state _ _ _ _ eq_refl). cbn [snd].
  rewrite (d_bg _ _ _ _ _ D2). pose proof (dr_o _ _ _ _ _ D2) as Ho2. pose proof (d_lt _ _ _ _ _ D2) as HL2.
  pose proof (drain_ok T triv chk mv (cap + 1) (capr + 1) (List.length r) (capr + 1) 0 dl1 dr' 0 o2 [] r Di D2 eq_refl ltac:(lia)) as HD.
  cbn [List.length Nat.add app skipn firstn] in HD. rewrite HR, Nat.sub_0_r, ix0 in HD by auto.
  destruct (Nat.leb_spec (List.length r) cap).
  - destruct (Nat.ltb_spec (List.length r) (cap + 1)); [|lia].
    destruct HD as (dl2 & dr2 & r2 & E & H1 & H2 & H3); [right; lia|]. rewrite (bind_ok _ _ _ _ _ E).
    destruct (initialise_ok triv (capr + 1) dr2 o2 _ H2) as (dr3 & Er & Dr).
    unfold on_right. cbn [fst snd]. rewrite Er. exists dl2, dr3. rewrite firstn_all2 by lia. conj; auto.
    + eapply iterate_ok; eauto.
    + eapply iterate_ok; eauto.
    + intros Ht. apply (ring_live triv (cap + 1) _ 0); [exact (d_ring _ _ _ _ _ H1)|auto].
  - destruct (Nat.ltb_spec (List.length r) (cap + 1)); [lia|].
    destruct HD as (dl2 & dr2 & E & H1 & H2); [destruct HC; [auto|lia]|]. unfold cbind at 1. rewrite E. exists dl2, dr2. conj; auto.
    + eapply iterate_ok; eauto.
    + eapply iterate_ok; eauto.
    + intros Ht. apply (ring_live triv (cap + 1) _ 0); [exact (d_ring _ _ _ _ _ H1)|auto].
Qed.
Print Assumptions C09_move_assign.

(** ** What the code does not guarantee *)
(** erase(end()) passes the range check (the comparison is <=, not <) and runs into
    undefined behaviour: here the deque holds 1 2 3. *)
Theorem C09_erase_end_refuted :
  exists d, run (exec false true (fun _ => 0) (fun x => x) 1000 6) [PushBack 1; PushBack 2; PushBack 3] (create 6)
              = Some ([Returned RUnit; Returned RUnit; Returned RUnit], d)
    /\ iterate 6 d = Ok d [1; 2; 3]
    /\ erase false (fun _ => 0) (fun x => x) 6 (en d) d = Bad.
Proof. eexists. split; [vm_compute; reflexivity|]. try split; vm_compute; reflexivity. Qed.
Print Assumptions C09_erase_end_refuted.

(** insert(position, n, value): the capacity check adds n to size() modulo 2^bits,
    so a huge n passes it and the deque overflows: [Bad] instead of deque_full. *)
Theorem C09_insert_count_wraps_refuted :
  exists d, run (exec false true (fun _ => 0) (fun x => x) 1000 4) [PushBack 1; PushBack 2] (create 4)
              = Some ([Returned RUnit; Returned RUnit], d)
    /\ insert_n false (fun _ => 0) (fun x => x) 1000 4 (en d) 998 (Val 7) d = Bad.
Proof. eexists. split; [vm_compute; reflexivity|]. try split; vm_compute; reflexivity. Qed.
Print Assumptions C09_insert_count_wraps_refuted.

(** without ETL_CHECK_PUSH_POP, assigning a range longer than the capacity raises
    no error: elements are created over live elements *)
Theorem C09_assign_range_unchecked_refuted :
  assign_range false false 4 [1; 2; 3; 4; 5] (create 4) = Bad.
Proof. vm_compute. reflexivity. Qed.
Print Assumptions C09_assign_range_unchecked_refuted.

(** insert(position, value) where value is an element of the deque itself: the
    deque holds 1 2 3; inserting its own third element (3) before the second one
    inserts 2. *)
Theorem C09_insert_own_element_refuted :
  exists d d' i, run (exec false true (fun _ => 0) (fun x => x) 1000 6) [PushBack 1; PushBack 2; PushBack 3] (create 6)
              = Some ([Returned RUnit; Returned RUnit; Returned RUnit], d)
    /\ index 6 2 d = Ok d 3
    /\ insert false (fun _ => 0) (fun x => x) 6 (plus 6 (bg d) 1) (Ref (plus 6 (bg d) 2)) d = Ok d' i
    /\ iterate 6 d' = Ok d' [1; 2; 2; 3].
Proof. eexists _, _, _. split; [vm_compute; reflexivity|]. conj; vm_compute; reflexivity. Qed.
Print Assumptions C09_insert_own_element_refuted.

(** an insertion of nothing in the middle move-assigns elements to themselves *)
Theorem C09_empty_insert_refuted :
  exists d d' i, run (exec false true (fun _ => 0) (fun _ => 0) 1000 6) [PushBack 1; PushBack 2; PushBack 3] (create 6)
              = Some ([Returned RUnit; Returned RUnit; Returned RUnit], d)
    /\ insert_n false (fun _ => 0) (fun _ => 0) 1000 6 (plus 6 (bg d) 1) 0 (Val 7) d = Ok d' i
    /\ iterate 6 d' = Ok d' [0; 2; 3].
Proof. eexists _, _, _. split; [vm_compute; reflexivity|]. conj; vm_compute; reflexivity. Qed.
Print Assumptions C09_empty_insert_refuted.

(** ** Non-vacuity: a history that wraps the ring, inserts and erases on both
    sides, hits the limits, and satisfies the hypothesis of C09_deque_history *)
Definition sample : list (dop nat) :=
  [PushFront 3; PushFront 2; PushBack 4; PushFront 1; Insert 1 9; Insert 4 8; PushBack 5;
   EraseRange 1 2; InsertRange 1 [6; 7]; Erase 4; InsertN 2 1 0; PushBack 5; Iterate; ReverseIterate; PopFront;
   InsertN 4 2 5; At 20; Resize 2 0; Fill 4; EraseRange 0 2; PopBack; Back].
Example sample_allowed : all_allowed 8 20 true (forall x : nat, x = x) (removelast sample) [].
Proof. vm_compute. conj; auto; try lia; intros E; discriminate E. Qed.
Example sample_result : spec_hist 8 (firstn 15 sample) [] =
  ([Returned RUnit; Returned RUnit; Returned RUnit; Returned RUnit; Returned (RPos 1); Returned (RPos 4); Returned RUnit;
    Returned (RPos 1); Returned (RPos 1); Returned (RPos 4); Returned (RPos 2); Threw "deque_full";
    Returned (RList [1; 6; 0; 7; 2; 8; 4; 5]); Returned (RList [5; 4; 8; 2; 7; 0; 6; 1]); Returned RUnit],
   [6; 0; 7; 2; 8; 4; 5]).
Proof. vm_compute. reflexivity. Qed.
