(** * C27: the hierarchical state machine *)
From Coq Require Import List Arith Bool Lia.
From Verif Require Import Util FsmSpec FsmModel HfsmSpec HfsmModel HfsmProofs.
Import ListNotations.

(** every child state is registered, and there is a state 0 *)
Record setup (parent default : nat -> option nat) (H n max : nat) : Prop := {
  su_hier : hierarchy parent default H;
  su_known : forall s c, default s = Some c -> c < n;
  su_n : 0 < n;
  su_max : n <= max }.
(** Every history of calls ends (every loop and recursion does) and makes exactly the process/exit/enter calls, and reaches exactly the states, of HfsmSpec.v. *)
Theorem C27_history : forall {W Ms : Type} (B : behaviour W Ms) (parent default : nat -> option nat) (H n max : nat), setup parent default H n max ->
  forall fuel os w, H <= fuel -> exists r z, h_ops B n max parent default fuel os (None, default, w) = Some (r, z) /\ hhistory parent default B n max os (None, default, w) r z.
Proof.
  intros W Ms B parent default H n max [S1 S2 S3 S4] fuel os w Hf. apply (ops_ok B n max parent default H S1 S2 S3 S4 fuel Hf). split; [exact (hi_default _ _ _ S1)|exact I].
Qed.
(** The state at which exits stop and below which enters begin is the innermost common ancestor (a state counts as its own ancestor). *)
Theorem C27_common_ancestor : forall (parent default : nat -> option nat) (H : nat), hierarchy parent default H ->
  forall fuel s t ls lt, H <= fuel -> lineage parent s ls -> lineage parent t lt -> exists a, common_ancestor parent fuel (Some s) (Some t) = Some a /\
    match a with
    | Some x => In x ls /\ In x lt /\ forall y lx, lineage parent x lx -> In y ls -> In y lt -> In y lx
    | None => forall y, In y ls -> ~ In y lt
    end.
Proof.
  intros parent default H HH fuel s t ls lt Hf Ls Lt. destruct (common_ok parent default H HH s t ls lt fuel Ls Lt Hf) as (p1 & p2 & c & (El & Et & D1 & D2) & Q). eexists. split; [exact Q|].
  destruct c as [|x c]; cbn [hd_opt].
  - intros y Hy. rewrite El, app_nil_r in Hy. now apply D1.
  - conj; [rewrite El; apply in_app_iff; right; now left|rewrite Et; apply in_app_iff; right; now left|]. intros y lx Lx H1 H2. rewrite El in H1. apply in_app_iff in H1 as [H1|H1]; [exfalso; exact (D1 y H1 H2)|].
    rewrite El in Ls. pose proof (lin_suffix parent s p1 c x Ls) as Lx'. now rewrite (lin_unique _ _ _ _ Lx Lx').
Qed.
(** From a state without children, to a state that is not one of its ancestors: exited are exactly the states that are not ancestors of the target, innermost first;
    entered are exactly the target and those of its ancestors that one was not inside of, outermost first, then the default children. *)
Theorem C27_transition : forall {W Ms : Type} (B : behaviour W Ms) (parent default : nat -> option nat) (H n max : nat), setup parent default H n max ->
  forall fuel s t act w m w' ls lt d, H <= fuel -> s < n -> t < n -> default s = None -> (forall x c, act x = Some c -> parent c = Some x) ->
  lineage parent s ls -> lineage parent t lt -> below default t d -> ~ In t ls ->
  (forall x w, snd (b_enter B x w) = no_state_change max) -> b_process B s m w = (w', t) ->
  exists act' w'', hreceive B n max parent default fuel m (Some s, act, w) =
    Some (Process s m :: map Exit (filter (fun x => negb (mem lt x)) ls) ++ map Enter (rev (filter (fun x => negb (mem ls x)) lt) ++ d), Done, (Some (List.last d t), act', w'')).
Proof.
  intros W Ms B parent default H n max [S1 S2 S3 S4] fuel s t act w m w' ls lt d Hf Hs Ht Es T Ls Lt Bd Nt He Ep.
  assert (good n parent (Some s, act, w)) as G by (split; [exact T|exact Hs]).
  destruct (op_ok B n max parent default H S1 S2 S3 S4 fuel (Receive m) (Some s, act, w) Hf G) as (tr & st & a & y & Q & D & _). cbn [h_op] in Q.
  destruct (hreceive B n max parent default fuel m (Some s, act, w)) as [((tr0 & st0) & y0)|] eqn:Er; [|discriminate]. injection Q as -> -> <- ->.
  inversion D as [| | |? ? ? ? ? r Ep' Hr|? ? ? ? ? r Ep' L C|? ? ? ? ? r tr' ? u act' w'' Ep' L C Mv| | | | | | |]; subst; rewrite Ep in Ep'; injection Ep' as <- <-.
  - exfalso. destruct Hr as [->| ->]; [apply Nt; destruct (lin_parent _ _ _ Ls) as (q & -> & _); now left|]. unfold no_state_change in Ht. lia.
  - lia.
  - inversion Mv as [ls' lt' inner d' k st' w1 Ls' Lt' Bi Bd' Ea]; subst. rewrite (lin_unique _ _ _ _ Ls' Ls), (lin_unique _ _ _ _ Lt' Lt), (below_unique _ _ _ _ Bd' Bd) in *.
    assert (inner = []) as ->. { inversion Bi as [|? c l E Bl]; subst; [reflexivity|]. exfalso. exact (hi_child _ _ _ S1 _ _ (T _ _ E) Es). }
    assert (mem ls t = false) as Em by (now apply mem_notin). unfold to_enter in *. rewrite Em in *. unfold to_exit in *. cbn [rev app] in *.
    assert (forall l w k st w', enter_all B max l w k st w' -> st = Done /\ k = length l) as Ga.
    { clear - He. induction 1 as [w|x l w w' k st w'' Ex Ea IH|x l w w' r Ex N]; [auto|destruct IH; subst; auto|]. exfalso. apply N. rewrite <- (He x w), Ex. reflexivity. }
    destruct (Ga _ _ _ _ _ Ea) as (-> & ->). rewrite firstn_all. unfold innermost. do 2 eexists. reflexivity.
Qed.

(** Being inside: over every history without forbidden changes, quiet starts or resets, in which no message moves the machine to an ancestor of its state,
    the enter and exit actions are properly nested along the hierarchy, and the states entered and not yet exited are exactly the current state and its ancestors. *)
Theorem C27_nested : forall {W Ms : Type} (B : behaviour W Ms) (parent default : nat -> option nat) (H n max : nat), setup parent default H n max ->
  (forall s m w ls, lineage parent s ls -> ~ In (snd (b_process B s m w)) (tl ls)) ->
  forall os w r z, hhistory parent default B n max os (None, default, w) r z ->
  (forall o, In o os -> o <> Start false /\ o <> Reset false) -> (forall x, In x r -> snd (fst x) <> Change_forbidden) ->
  match fst (fst z) with
  | Some s => exists ls, lineage parent s ls /\ default s = None /\ inside parent [] (concat (map (fun x => fst (fst x)) r)) = Some ls
  | None => inside parent [] (concat (map (fun x => fst (fst x)) r)) = Some []
  end.
Proof.
  intros W Ms B parent default H n max [S1 S2 S3 S4] Hp os w r z Hh Ho Hr.
  assert (Iapp : forall (t1 t2 : list (call Ms)) st, inside parent st (t1 ++ t2) = match inside parent st t1 with Some st' => inside parent st' t2 | None => None end).
  { induction t1 as [|c t1 IH]; intros t2 st; [reflexivity|]. destruct c as [s m|s|s]; cbn.
    - apply IH.
    - destruct st as [|y st]; [reflexivity|]. destruct (Nat.eqb s y); [apply IH|reflexivity].
    - destruct (is_top st (parent s)); [apply IH|reflexivity]. }
  assert (Iexit : forall p c, inside parent (p ++ c) (@map _ (call Ms) Exit p) = Some c).
  { induction p as [|x p IH]; intros c; [reflexivity|]. cbn. rewrite Nat.eqb_refl. apply IH. }
  assert (Ienter : forall p t c, lineage parent t (p ++ c) -> inside parent c (@map _ (call Ms) Enter (rev p)) = Some (p ++ c)).
  { induction p as [|x p IH]; intros t c L; [reflexivity|]. cbn [rev]. rewrite map_app, Iapp. destruct (lin_parent _ _ _ L) as (q & E & O). injection E as -> <-.
    assert (inside parent c (@map _ (call Ms) Enter (rev p)) = Some (p ++ c)) as ->. { destruct (parent t) as [u|] eqn:Eu; cbn in O; [exact (IH u c O)|]. apply app_eq_nil in O as (-> & ->). reflexivity. }
    cbn. replace (is_top (p ++ c) (parent t)) with true; [reflexivity|]. rewrite (olin_hd _ _ _ O). destruct (p ++ c); [reflexivity|]. cbn. now rewrite Nat.eqb_refl. }
  assert (Idown : forall d t lt, below default t d -> lineage parent t lt -> inside parent lt (@map _ (call Ms) Enter d) = Some (rev d ++ lt)).
  { induction d as [|c d IH]; intros t lt Bd L; [reflexivity|]. inversion Bd as [|? ? ? E Bd']; subst. pose proof (hi_default _ _ _ S1 _ _ E) as Ep. cbn [map inside]. rewrite Ep.
    destruct (lin_parent _ _ _ L) as (q & -> & O). cbn [is_top]. rewrite Nat.eqb_refl. rewrite (IH c _ Bd'); [cbn; now rewrite <- app_assoc|]. now apply lin_up with t. }
  assert (Kall : forall l w k st w', enter_all B max l w k st w' -> st <> Change_forbidden -> st = Done /\ k = length l).
  { clear. induction 1 as [w|x l w w' k st w'' Ex Ea IH|x l w w' r Ex N]; intros C; [auto| |congruence]. destruct (IH C); subst; auto. }
  assert (G : forall os x r z, hhistory parent default B n max os x r z -> (forall o, In o os -> o <> Start false /\ o <> Reset false) -> (forall x, In x r -> snd (fst x) <> Change_forbidden) ->
    typed parent (snd (fst x)) -> forall stk, match fst (fst x) with Some s => lineage parent s stk /\ default s = None | None => stk = [] end ->
    match fst (fst z) with Some s => exists ls, lineage parent s ls /\ default s = None /\ inside parent stk (concat (map (fun x => fst (fst x)) r)) = Some ls | None => inside parent stk (concat (map (fun x => fst (fst x)) r)) = Some [] end).
  { clear os w r z Hh Ho Hr. induction 1 as [x|o os x y z tr st a r D Hh IH]; intros Ho Hr T stk Hx.
    - destruct (fst (fst x)) as [s|]; cbn; [exists stk; destruct Hx; auto|now rewrite Hx].
    - cbn [map concat fst]. assert (st <> Change_forbidden) as Nst by (apply (Hr (tr, st, a)); now left).
      assert (typed parent (snd (fst y)) /\ exists stk', inside parent stk tr = Some stk' /\ match fst (fst y) with Some s => lineage parent s stk' /\ default s = None | None => stk' = [] end) as (Ty & stk' & Is & Hy).
      { destruct (Ho o (or_introl eq_refl)) as (N1 & N2). clear IH Hh Hr Ho.
        destruct D as [act w lt d k st w' Lt Bd Ea|act w|e s act w|m s act w w' i Ep Hi|m s act w w' i Ep L C|m s act w w' t tr st u act' w'' Ep L C Mv|m act w|s act w ls inner Ls Bi|c act w|e act w|s act w|act w|c act w];
          cbn [fst snd] in *; try congruence; try (split; [exact T|exists stk; split; [reflexivity|assumption]]).
        - split; [now apply typed_activate|]. subst stk. destruct (Kall _ _ _ _ _ Ea Nst) as (-> & ->). rewrite firstn_all, map_app, Iapp. pose proof (Ienter lt 0 []) as I1. rewrite app_nil_r in I1. rewrite (I1 Lt), (Idown d 0 lt Bd Lt).
          eexists. split; [reflexivity|]. split; [apply (below_lin parent default 0 d lt (hi_default _ _ _ S1) Bd Lt)|exact (below_end default 0 d Bd)].
        - destruct Hx as (Ls0 & Es). destruct Mv as [ls lt inner d k st w1 Ls Lt Bi Bd Ea]. rewrite (lin_unique _ _ _ _ Ls0 Ls) in *.
          split; [now apply typed_activate|].
          assert (inner = []) as ->. { inversion Bi as [|? c0 l E Bl]; subst; [reflexivity|]. exfalso. exact (hi_child _ _ _ S1 _ _ (T _ _ E) Es). }
          destruct (common_ok parent default H S1 s t ls lt H Ls Lt (Nat.le_refl _)) as (p1 & p2 & c & Me & _). rewrite (meet_exit _ _ _ _ _ Me).
          destruct (meet_enter parent s t ls lt p1 p2 c Ls Lt Me) as (Qe & Qm). pose proof Me as (El & Et & _).
          assert (mem ls t = false) as Em.
          { apply mem_notin. intros I. apply (Hp s m w ls Ls). rewrite Ep. cbn [snd]. destruct (lin_parent _ _ _ Ls) as (q & -> & _). destruct I as [I|I]; [congruence|exact I]. }
          destruct p2 as [|y0 p2]; [rewrite Em in Qm; discriminate|]. rewrite Qe in *. destruct (Kall _ _ _ _ _ Ea Nst) as (-> & ->). rewrite firstn_all. cbn [rev app].
          cbn [inside]. rewrite Iapp, El, Iexit, map_app, Iapp. rewrite Et in *. change (rev p2 ++ [y0]) with (rev (y0 :: p2)). rewrite (Ienter _ t c Lt), (Idown d t _ Bd Lt). eexists. split; [reflexivity|].
          split; [apply (below_lin parent default t d _ (hi_default _ _ _ S1) Bd Lt)|exact (below_end default t d Bd)].
        - split; [exact T|]. destruct Hx as (Ls0 & Es). rewrite (lin_unique _ _ _ _ Ls0 Ls) in *.
          assert (inner = []) as ->. { inversion Bi as [|? c0 l E Bl]; subst; [reflexivity|]. exfalso. exact (hi_child _ _ _ S1 _ _ (T _ _ E) Es). }
          cbn [rev app]. exists []. split; [|reflexivity]. pose proof (Iexit ls []) as I1. now rewrite app_nil_r in I1. }
      rewrite Iapp, Is. apply IH; [intros o' Ho'; apply Ho; now right|intros x' Hx'; apply Hr; now right|exact Ty|exact Hy]. }
  exact (G _ _ _ _ Hh Ho Hr (hi_default _ _ _ S1) [] eq_refl).
Qed.

(** ** offering an event to the ancestors *)
Theorem C27_dispatch : forall {W Ms : Type} (max : nat) (parent default : nat -> option nat) (H : nat), hierarchy parent default H ->
  forall (handles : nat -> Ms -> W -> option (W * nat)) (unknown : nat -> Ms -> W -> W * nat) fuel s ls m w, H <= fuel -> lineage parent s ls ->
  exists w' r, process_event17 max parent handles unknown fuel s m w = Some (w', r) /\ offered max handles unknown m ls w w' r.
Proof.
  intros W Ms max parent default H HH handles unknown fuel s ls m w Hf L. pose proof (lin_len parent default H HH s ls L) as Le. assert (length ls <= fuel) as Lf by lia. clear Hf Le HH.
  revert fuel w Lf. induction L as [s E|s p l E L IH]; intros fuel w Lf; (destruct fuel as [|f]; [cbn in Lf; lia|]); cbn [process_event17]; cbv zeta; rewrite E.
  - destruct (handles s m w) as [(w1 & r)|] eqn:Eh; cbn [negb orb fst snd].
    + destruct (Nat.eqb_spec r (pass_to_parent max)) as [->|N]; [|do 2 eexists; split; [reflexivity|now constructor]].
      destruct (unknown s m w1) as (w2 & r2) eqn:Eu. do 2 eexists. split; [reflexivity|]. eapply o_passed_top; eassumption.
    + destruct (unknown s m w) as (w2 & r2) eqn:Eu. do 2 eexists. split; [reflexivity|]. eapply o_not_top; eassumption.
  - destruct (lin_parent _ _ _ L) as (q & -> & _). destruct (handles s m w) as [(w1 & r)|] eqn:Eh; cbn [negb orb fst snd].
    + destruct (Nat.eqb_spec r (pass_to_parent max)) as [->|N]; [|do 2 eexists; split; [reflexivity|now constructor]].
      destruct (IH f w1) as (w2 & r2 & -> & O); [cbn in Lf |- *; lia|]. do 2 eexists. split; [reflexivity|]. eapply o_passed; eassumption.
    + destruct (IH f w) as (w2 & r2 & -> & O); [cbn in Lf |- *; lia|]. do 2 eexists. split; [reflexivity|]. eapply o_not; eassumption.
Qed.
(** The implementation used before C++17 gives the same result unless the event reaches a top level state that passes it on. *)
Theorem C27_dispatch_cpp03 : forall {W Ms : Type} (max : nat) (parent default : nat -> option nat) (H : nat), hierarchy parent default H -> 0 < max ->
  forall (handles : nat -> Ms -> W -> option (W * nat)) (unknown : nat -> Ms -> W -> W * nat),
  (forall s m w w1, parent s = None -> handles s m w <> Some (w1, pass_to_parent max)) -> (forall s m w, snd (unknown s m w) <> pass_to_parent max) ->
  forall fuel s m w, H <= fuel -> process_event03 max parent handles unknown fuel s m w = process_event17 max parent handles unknown fuel s m w.
Proof.
  intros W Ms max parent default H HH Hm handles unknown K1 K2 fuel s m w Hf. destruct (lin_exists_len parent default H HH s) as (ls & L & Le). assert (length ls <= fuel) as Lf by lia. clear Hf Le HH.
  assert (process_event03 max parent handles unknown fuel s m w = process_event17 max parent handles unknown fuel s m w /\ (forall w' r, process_event17 max parent handles unknown fuel s m w = Some (w', r) -> r <> pass_to_parent max)) as (G & _); [|exact G].
  revert fuel w Lf. induction L as [s E|s p l E L IH]; intros fuel w Lf; (destruct fuel as [|f]; [cbn in Lf; lia|]); cbn [process_event17 process_event03]; cbv zeta; rewrite E.
  - pose proof (fun w1 => K1 s m w w1 E) as K1'. destruct (handles s m w) as [(w1 & r)|] eqn:Eh; cbn [negb orb fst snd].
    + destruct (Nat.eqb_spec r (pass_to_parent max)) as [->|N]; [exfalso; exact (K1' w1 eq_refl)|]. cbn [negb]. split; [reflexivity|]. intros w' r' Q. injection Q as <- <-. exact N.
    + pose proof (K2 s m w) as K. destruct (unknown s m w) as (w2 & r2). cbn in K. replace (Nat.eqb r2 (pass_to_parent max)) with false by (symmetry; now apply Nat.eqb_neq). cbn [negb]. split; [reflexivity|]. intros w' r' Q. injection Q as <- <-. exact K.
  - destruct (handles s m w) as [(w1 & r)|] eqn:Eh; cbn [negb orb fst snd].
    + destruct (Nat.eqb_spec r (pass_to_parent max)) as [->|N]; cbn [negb]; [apply IH; cbn in Lf |- *; lia|]. split; [reflexivity|]. intros w' r' Q. injection Q as <- <-. exact N.
    + destruct (IH f w) as (IH1 & IH2); [cbn in Lf |- *; lia|]. rewrite IH1. destruct (process_event17 max parent handles unknown f p m w) as [(w2 & r2)|] eqn:Q; [|split; [reflexivity|discriminate]].
      pose proof (IH2 w2 r2 eq_refl) as N. replace (Nat.eqb r2 (pass_to_parent max)) with false by (symmetry; now apply Nat.eqb_neq). cbn [negb]. split; [reflexivity|]. intros w' r' Q'. injection Q' as <- <-. exact N.
Qed.
(** FINDING: when a top level state passes an event on, C++17 calls its on_event_unknown, the older implementation does not. *)
Theorem C27_dispatch_same_refuted : ~ (forall (handles : nat -> nat -> list nat -> option (list nat * nat)) (unknown : nat -> nat -> list nat -> list nat * nat) s m w,
  process_event03 255 (fun _ => None) handles unknown 1 s m w = process_event17 255 (fun _ => None) handles unknown 1 s m w).
Proof. intros C. specialize (C (fun _ _ w => Some (w, 254)) (fun _ _ w => (7 :: w, 255)) 0 0 []). discriminate. Qed.

(** ** FINDING and concrete cases: 0 has the children 1 and 2, 1 has the child 3 *)
Definition tree_parent (s : nat) : option nat := match s with 1 | 2 => Some 0 | 3 => Some 1 | _ => None end.
Definition tree_default (s : nat) : option nat := match s with 0 => Some 1 | 1 => Some 3 | _ => None end.
Definition by_message : behaviour unit nat := {| b_process := fun _ m w => (w, m); b_enter := fun _ w => (w, 255); b_exit := fun _ w => w |}.
Example C27_case_setup : setup tree_parent tree_default 3 4 255.
Proof.
  constructor; [constructor| | |]; try lia.
  - exists (fun s => match s with 1 | 2 => 1 | 3 => 2 | _ => 0 end). split.
    + intros [|[|[|[|s]]]] p E; cbn in E; try discriminate; injection E as <-; reflexivity.
    + intros [|[|[|[|s]]]]; lia.
  - intros [|[|s]] c E; cbn in E; try discriminate; injection E as <-; reflexivity.
  - intros s [|[|[|[|c]]]] E; cbn in E; try discriminate; injection E as <-; discriminate.
  - intros [|[|s]] c E; cbn in E; try discriminate; injection E as <-; lia.
Qed.
Example C27_case : option_map fst (h_ops by_message 4 255 tree_parent tree_default 3 [Start true; Receive 2; Receive 3; Receive 255; Receive 9; Reset true] (None, tree_default, tt)) =
  Some [([Enter 0; Enter 1; Enter 3], Done, Aunit); ([Process 3 2; Exit 3; Exit 1; Enter 2], Done, Aunit); ([Process 2 3; Exit 2; Enter 1; Enter 3], Done, Aunit); ([Process 3 255], Done, Aunit); ([Process 3 9], Bad_state_id, Aunit); ([Exit 3; Exit 1; Exit 0], Done, Aunit)].
Proof. reflexivity. Qed.
(** A transition to an ancestor enters that ancestor again without having exited it. *)
Theorem C27_ancestor_reentered_refuted : ~ (forall (B : behaviour unit nat) parent default H n max, setup parent default H n max ->
  forall os r z, hhistory parent default B n max os (None, default, tt) r z -> (forall o, In o os -> o <> Start false /\ o <> Reset false) -> (forall x, In x r -> snd (fst x) <> Change_forbidden) ->
  inside parent [] (concat (map (fun x => fst (fst x)) r)) <> None).
Proof.
  intros C. destruct (C27_history by_message tree_parent tree_default 3 4 255 C27_case_setup 3 [Start true; Receive 0] tt (Nat.le_refl _)) as (r & z & E & Hh).
  assert (r = [([Enter 0; Enter 1; Enter 3], Done, Aunit); ([Process 3 0; Exit 3; Exit 1; Enter 0; Enter 1; Enter 3], Done, Aunit)]) as -> by (vm_compute in E; congruence).
  apply (C by_message tree_parent tree_default 3 4 255 C27_case_setup _ _ _ Hh).
  - intros o [<-|[<-|[]]]; split; discriminate.
  - intros x [<-|[<-|[]]]; discriminate.
  - reflexivity.
Qed.
(** Self_Transition is not understood: it raises fsm_state_id_exception. *)
Theorem C27_self_transition_refuted : hreceive by_message 4 255 tree_parent tree_default 3 253 (Some 3, tree_default, tt) = Some ([Process 3 253], Bad_state_id, (Some 3, tree_default, tt)).
Proof. reflexivity. Qed.
Example C27_case_nested_hypothesis : exists B : behaviour unit nat, (forall s m w ls, lineage tree_parent s ls -> ~ In (snd (b_process B s m w)) (tl ls)) /\
  option_map fst (h_ops B 4 255 tree_parent tree_default 3 [Start true; Receive 7; Receive 8; Reset true] (None, tree_default, tt)) =
  Some [([Enter 0; Enter 1; Enter 3], Done, Aunit); ([Process 3 7; Exit 3; Exit 1; Enter 2], Done, Aunit); ([Process 2 8; Exit 2; Enter 1; Enter 3], Done, Aunit); ([Exit 3; Exit 1; Exit 0], Done, Aunit)].
Proof.
  exists {| b_process := fun s m w => (w, match s with 3 => 2 | 2 => 3 | _ => 255 end); b_enter := fun _ w => (w, 255); b_exit := fun _ w => w |}. split; [|reflexivity].
  assert (L0 : lineage tree_parent 0 [0]) by (now constructor). assert (L1 : lineage tree_parent 1 [1; 0]) by (now apply lin_up with 0).
  intros s m w ls L C. destruct (lin_parent _ _ _ L) as (q & -> & O). cbn [tl b_process snd] in C. destruct s as [|[|[|[|s]]]]; cbn in O.
  - subst q. destruct C.
  - rewrite (lin_unique _ _ _ _ O L0) in C. destruct C as [C|[]]; discriminate.
  - rewrite (lin_unique _ _ _ _ O L0) in C. destruct C as [C|[]]; discriminate.
  - rewrite (lin_unique _ _ _ _ O L1) in C. destruct C as [C|[C|[]]]; discriminate.
  - subst q. destruct C.
Qed.

Print Assumptions C27_history.
Print Assumptions C27_common_ancestor.
Print Assumptions C27_transition.
Print Assumptions C27_nested.
Print Assumptions C27_dispatch.
Print Assumptions C27_dispatch_cpp03.
Print Assumptions C27_dispatch_same_refuted.
Print Assumptions C27_ancestor_reentered_refuted.
