(** C54: a nest of multi_ranges runs through exactly the combinations of values that the nested loops would run through, in the same order. *)
From Coq Require Import List Bool Arith Lia.
From Verif Require Import Util MrangeModel MrangeSpec MrangeProofs.
Import ListNotations.

(** the nest [l] with outermost range i, whose loops run through the lists [fs]; every inner loop has at least one value. Whatever the ranges were doing
    before, one `for (r.start(); !r.completed(); r.next())` sees the product in lexicographic order, number_of_iterations() is its length, and afterwards
    all links and all other ranges are as before (so it can be done again). *)
Theorem C54_iteration : forall (V : Type) (h : heap V) i l fs f n,
  nested h i l -> Forall2 (fun j F => exists r, nth_error h j = Some r /\ loops r F) l fs -> Forall (fun F => F <> []) (tl fs) ->
  List.length l <= f -> List.length (product fs) < n ->
  exists h', iterate n f i l h = Some (product fs, h') /\ number_of_iterations n f i h = Some (List.length (product fs), h') /\
    nested h' i l /\ Forall2 (fun j F => exists r, nth_error h' j = Some r /\ loops r F) l fs /\ (forall j, ~ In j l -> nth_error h' j = nth_error h j).
Proof.
  intros V h i l fs f n HN HF NE Hf Hn. destruct (iterate_ok h i l fs f n HN HF NE Hf Hn) as (h' & E1 & E2 & S & FR).
  exists h'. conj; auto.
  - now apply (nested_shape h).
  - clear -HF S. induction HF; constructor; auto. now apply (lo_shape h).
Qed.

Lemma product_length {V} (fs : list (list V)) : List.length (product fs) = fold_right Nat.mul 1 (map (@List.length V) fs).
Proof.
  induction fs as [|F fs IH]; [reflexivity|]. cbn [product map fold_right]. rewrite <- IH. clear IH. induction F as [|x F IH]; [reflexivity|].
  cbn [flat_map List.length]. rewrite app_length, map_length, IH. reflexivity.
Qed.
(** the number of iterations is the product of the numbers of iterations of the loops *)
Theorem C54_number_of_iterations : forall (V : Type) (h : heap V) i l fs f n,
  nested h i l -> Forall2 (fun j F => exists r, nth_error h j = Some r /\ loops r F) l fs -> Forall (fun F => F <> []) (tl fs) ->
  List.length l <= f -> fold_right Nat.mul 1 (map (@List.length V) fs) < n ->
  exists h', number_of_iterations n f i h = Some (fold_right Nat.mul 1 (map (@List.length V) fs), h').
Proof.
  intros V h i l fs f n HN HF NE Hf Hn. rewrite <- product_length in *. destruct (iterate_ok h i l fs f n HN HF NE Hf Hn) as (h' & _ & E & _). eauto.
Qed.

(** append puts a nest inside another one, or reports a circular reference, exactly if the two share a range *)
Theorem C54_append : forall (V : Type) (h : heap V) i l x m f, nested h i l -> nested h x m -> List.length l + List.length m <= f ->
  ((exists j, In j l /\ In j m) -> append f i x h = Some (Circular h)) /\
  ((forall j, In j l -> ~ In j m) -> exists h', append f i x h = Some (Done h') /\ nested h' i (l ++ m) /\
     (forall j, match nth_error h j, nth_error h' j with Some r, Some s => same_loop r s | None, None => True | _, _ => False end) /\
     (forall j, ~ In j l -> nth_error h' j = nth_error h j)).
Proof.
  intros V h i l x m f HN HM Hf. destruct (append_ok l f i x h m HN HM Hf) as [((j & J1 & J2) & E)|(D & l' & z & r & -> & Hz & E)].
  - split; [intros _; exact E|]. intros D. exfalso. exact (D j J1 J2).
  - split; [intros (j & J1 & J2); exfalso; exact (D j J1 J2)|]. intros _. exists (upd z (set_inner (Some x) r) h). conj.
    + exact E.
    + rewrite <- app_assoc. apply nested_last_upd; auto. { apply nodup_last. exact (nested_nodup _ _ _ HN). } intros j Hj Q. exact (D j Q Hj).
    + intros j. destruct (Nat.eq_dec z j) as [<-|Hj].
      * rewrite Hz, (upd_some _ _ _ _ Hz). repeat split.
      * rewrite upd_other by auto. destruct (nth_error h j); [repeat split|exact I].
    + intros j Hj. apply upd_other. intros ->. apply Hj. apply in_or_app. right. now left.
Qed.

(** insert puts a nest between a range and its inner range, if the two nests share no range *)
Theorem C54_insert : forall (V : Type) (h : heap V) i l x m f, nested h i (i :: l) -> nested h x m -> List.length m <= f ->
  (In i m -> insert f i x h = Some (Circular h)) /\
  ((forall j, In j (i :: l) -> ~ In j m) -> exists h', insert f i x h = Some (Done h') /\ nested h' i (i :: m ++ l) /\
     (forall j, match nth_error h j, nth_error h' j with Some r, Some s => same_loop r s | None, None => True | _, _ => False end)).
Proof.
  intros V h i l x m f HN HM Hf. unfold insert. rewrite (is_valid_ok m) by assumption. split.
  - intros Hi. replace (existsb (Nat.eqb i) m) with true; [reflexivity|]. symmetry. apply existsb_exists. exists i. split; [exact Hi|apply Nat.eqb_refl].
  - intros D. replace (existsb (Nat.eqb i) m) with false.
    2:{ symmetry. destruct (existsb (Nat.eqb i) m) eqn:E; [|reflexivity]. apply existsb_exists in E as (y & Hy & Ey). apply Nat.eqb_eq in Ey. subst y. exfalso. apply (D i); [now left|exact Hy]. }
    cbn [negb]. destruct (nth_error h i) as [r|] eqn:Hr; [|inversion HN; congruence].
    set (h1 := upd i (set_inner (Some x) r) h).
    assert (NI : ~ In i m) by (apply D; now left).
    pose proof (nested_upd h i (set_inner (Some x) r) x m NI HM) as HM1. fold h1 in HM1.
    destruct (nested_split _ _ _ HM1) as (m' & z & s & -> & Hz & Hs). rewrite (set_last_ok m' f x h1 z s (inner r)) by assumption.
    eexists. split; [reflexivity|]. split.
    + pose proof (nested_nodup _ _ _ HM) as NDm. pose proof (nested_nodup _ _ _ HN) as NDl. inversion NDl as [|? ? NIl NDl']; subst.
      assert (Zi : z <> i). { intros ->. apply NI. apply in_or_app. right. now left. }
      apply nested_more with (set_inner (Some x) r) x.
      * rewrite upd_other by auto. apply (upd_some _ _ _ _ Hr).
      * reflexivity.
      * replace ((m' ++ [z]) ++ l) with (m' ++ z :: l) by (rewrite <- app_assoc; reflexivity). apply nested_last_upd; auto.
        { now apply nodup_last. } { intros j Hj. apply D. now right. }
        destruct l as [|y l].
        { inversion HN as [i0 r0 H1 H2|i0 r0 j l0 H1 H2 N]; [|inversion N]. replace r with r0 by congruence. now rewrite H2. }
        destruct (nested_tl _ _ _ _ _ HN Hr) as (E & N). rewrite E. apply nested_upd; [exact NIl|exact N].
    + intros j. destruct (Nat.eq_dec z j) as [<-|Hj].
      * rewrite (upd_some _ _ _ _ Hz). unfold h1 in Hz. destruct (Nat.eq_dec i z) as [<-|Hi].
        { exfalso. apply NI. apply in_or_app. right. now left. }
        rewrite upd_other in Hz by auto. rewrite Hz. repeat split.
      * rewrite upd_other by auto. unfold h1. destruct (Nat.eq_dec i j) as [<-|Hi].
        { rewrite Hr, (upd_some _ _ _ _ Hr). repeat split. }
        rewrite upd_other by auto. destruct (nth_error h j); [repeat split|exact I].
Qed.

(** number_of_ranges is the depth of the nest; detach_all takes every range of the nest apart and touches no other *)
Theorem C54_count_detach : forall (V : Type) (h : heap V) i l f, nested h i l -> List.length l <= f ->
  number_of_ranges f i h = Some (List.length l) /\
  exists h', detach_all f i h = Some h' /\ (forall j, In j l -> nested h' j [j]) /\ (forall j, ~ In j l -> nth_error h' j = nth_error h j).
Proof.
  intros V h i l f HN Hf. split.
  - unfold number_of_ranges. inversion HN as [i0 r0 H1 H2|i0 r0 j l0 H1 H2 N]; subst; rewrite H1, H2.
    + now destruct f.
    + cbn [List.length] in *. rewrite (count_ranges_ok l0) by (auto; lia). reflexivity.
  - destruct (detach_all_ok l f i h HN Hf) as (h' & E & A & B). exists h'. conj; auto. intros j Hj. destruct (A j Hj) as (r & _ & Hr). now apply nested_last with (set_inner None r).
Qed.

(** concrete ranges: 0..1, 0..2, 5..5 (no value), counted up to the end by not_equal_compare *)
Definition up (a b : nat) : range nat := make a b S (fun x y => negb (Nat.eqb x y)).
Definition ex_heap : heap nat := [up 0 2; up 0 3; up 5 5; up 7 8].

(** FINDING: an inner range without values does not make the nest empty. The product of 0..1 and an empty range is empty, but the loop body is executed
    (start, lines 453-462, looks at the own range only), and with the default comparison the inner range then runs past its end for ever. *)
Theorem C54_empty_inner_refuted :
  ~ (forall (V : Type) (h : heap V) i l fs f n, nested h i l -> Forall2 (fun j F => exists r, nth_error h j = Some r /\ loops r F) l fs ->
       List.length l <= f -> List.length (product fs) < n -> exists h', iterate n f i l h = Some (product fs, h')) /\
  (* up to any number of iterations *)
  (forall n f, 2 <= f -> iterate n f 0 [0; 1] [set_inner (Some 1) (up 0 2); up 5 5] = None).
Proof.
  assert (D : forall n f, 2 <= f -> iterate n f 0 [0; 1] [set_inner (Some 1) (up 0 2); up 5 5] = None).
  { intros n f Hf. destruct f as [|[|f]]; try lia. unfold iterate. cbn -[loop]. 
    assert (G : forall n c, 5 <= c -> forall d, loop n (S (S f)) 0 [0; 1] [set_inner (Some 1) (set_current 0 false (up 0 2)); set_current c d (up 5 5)] = None).
    { clear n. induction n as [|n IH]; intros c Hc d; [reflexivity|]. 
      assert (NX : next (S (S f)) 0 [set_inner (Some 1) (set_current 0 false (up 0 2)); set_current c d (up 5 5)] = Some [set_inner (Some 1) (set_current 0 false (up 0 2)); set_current (S c) false (up 5 5)]).
      { cbn -[Nat.eqb]. unfold step. cbn -[Nat.eqb]. replace (Nat.eqb (S c) 5) with false by (symmetry; apply Nat.eqb_neq; lia). reflexivity. }
      cbn [loop]. rewrite NX, (IH (S c) ltac:(lia) false). reflexivity. }
    specialize (G n 5 ltac:(lia) true). exact G. }
  split; [|exact D]. intros H.
  destruct (H nat [set_inner (Some 1) (up 0 2); up 5 5] 0 [0; 1] [[0; 1]; []] 2 1) as (h' & E).
  - eapply nested_more; [reflexivity|reflexivity|]. eapply nested_last; reflexivity.
  - constructor; [eexists; split; [reflexivity|]|constructor; [eexists; split; [reflexivity|]|constructor]].
    + unfold loops. cbn. constructor; [reflexivity|]. constructor; [reflexivity|]. constructor. reflexivity.
    + unfold loops. cbn. constructor. reflexivity.
  - cbn. lia.
  - cbn. lia.
  - rewrite (D 1 2) in E by lia. discriminate.
Qed.

(** FINDING: insert only looks whether the range itself is in the inserted nest (lines 78-92). Inserting a range a second time makes a cycle, which is not
    reported; number_of_ranges(), start() and next() then never end. *)
Theorem C54_insert_circular_refuted :
  ~ (forall (V : Type) (h : heap V) i l x m f, nested h i l -> nested h x m -> List.length l + List.length m <= f ->
       (exists j, In j l /\ In j m) -> insert f i x h = Some (Circular h)) /\
  exists h', insert 9 0 1 [set_inner (Some 1) (up 0 2); up 0 3] = Some (Done h') /\ forall f, number_of_ranges f 0 h' = None /\ start f 0 h' = None /\ next f 0 h' = None.
Proof.
  split.
  - intros H. specialize (H nat [set_inner (Some 1) (up 0 2); up 0 3] 0 [0; 1] 1 [1] 9). discriminate H.
    + eapply nested_more; [reflexivity|reflexivity|]. eapply nested_last; reflexivity.
    + eapply nested_last; reflexivity.
    + cbn. lia.
    + exists 1. cbn. auto.
  - eexists. split; [reflexivity|]. intros f. conj.
    + unfold number_of_ranges. cbn [nth_error upd inner set_inner up make]. generalize 1 at 2. induction f as [|f IH]; intros c; [reflexivity|]. cbn [count_ranges nth_error inner set_inner up make upd]. apply IH.
    + set (h := upd _ _ _). assert (G : forall f h, (exists r, nth_error h 1 = Some r /\ inner r = Some 1) -> start f 1 h = None (A := heap nat)).
      { clear. induction f as [|f IH]; intros h (r & Hr & Hi); [reflexivity|]. cbn [start]. rewrite Hr, Hi. rewrite IH; [reflexivity|]. eauto. }
      destruct f as [|f]; [reflexivity|]. cbn [start]. subst h. cbn [nth_error inner set_inner up make upd]. rewrite G; [reflexivity|]. cbn. eauto.
    + set (h := upd _ _ _). assert (G : forall f h, (exists r, nth_error h 1 = Some r /\ inner r = Some 1) -> next f 1 h = None (A := heap nat)).
      { clear. induction f as [|f IH]; intros h (r & Hr & Hi); [reflexivity|]. cbn [next]. rewrite Hr, Hi. rewrite IH; [reflexivity|]. eexists. split; [apply (upd_some _ _ _ _ Hr)|exact Hi]. }
      destruct f as [|f]; [reflexivity|]. cbn [next]. subst h. cbn [nth_error inner set_inner up make upd]. rewrite G; [reflexivity|]. cbn. eauto.
Qed.

(** concrete cases *)
Example ex_nested : nested [set_inner (Some 1) (up 0 2); up 0 3] 0 [0; 1].
Proof. eapply nested_more; [reflexivity|reflexivity|]. eapply nested_last; reflexivity. Qed.
Example ex_iterate : match append 9 0 1 ex_heap with Some (Done h) => option_map fst (iterate 20 9 0 [0; 1] h) | _ => None end = Some [[0; 0]; [0; 1]; [0; 2]; [1; 0]; [1; 1]; [1; 2]].
Proof. reflexivity. Qed.
Example ex_count : match insert 9 0 1 ex_heap with Some (Done h) => match insert 9 0 3 h with Some (Done h) => option_map fst (number_of_iterations 20 9 0 h) | _ => None end | _ => None end = Some 6.
Proof. reflexivity. Qed.
Print Assumptions C54_iteration.
Print Assumptions C54_number_of_iterations.
Print Assumptions C54_append.
Print Assumptions C54_insert.
Print Assumptions C54_count_detach.
Print Assumptions C54_empty_inner_refuted.
Print Assumptions C54_insert_circular_refuted.
