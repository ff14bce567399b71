(** * Property C06: pools hand out disjoint, in-range, unused blocks.
    Quantified over: every history [reach] of a client that meets its
    obligations [client_ok], every pool configuration, pointer size, debug or
    release build, and every initial content of the memory. *)
From Coq Require Import ZArith List Lia Bool FinFun.
From Verif Require Import Util PoolModel PoolSpec PoolProofs.
Import ListNotations.
Local Open Scope Z_scope.

(** While fewer than max_size() blocks are held, allocate() succeeds with a
    block on an item boundary inside the storage which nobody holds. *)
Theorem C06_pool_allocate :
  forall PS debug base isz max, config_ok PS base isz max ->
  forall p m held, reach PS debug base isz max p m held ->
    Z.of_nat (length held) < max ->
    exists a p' m', step PS debug Allocate p m = (RAddr a, p', m') /\
      ~ In a held /\ exists k, 0 <= k < max /\ a = base + k * isz.
Proof.
  intros PS debug base isz max HC p m held HR HL.
  apply (reach_inv _ _ _ _ _ HC) in HR. destruct HR as (fl & out & V).
  destruct (alloc_ok PS debug base isz max HC p m held fl out V HL)
    as (i & fl' & out' & p' & m' & E & Hn & Hi & -> & _).
  exists (addr base isz i), p', m'. split; [exact E|]. split; [|exists i; split; [exact Hi|reflexivity]].
  intros Hin. apply in_map_iff in Hin. destruct Hin as (j & Ej & Hj).
  apply (addr_inj PS base isz max HC) in Ej. congruence.
Qed.
Print Assumptions C06_pool_allocate.

(** When max_size() blocks are held, allocate() reports pool_no_allocation and changes nothing. *)
Theorem C06_pool_exhausted :
  forall PS debug base isz max, config_ok PS base isz max ->
  forall p m held, reach PS debug base isz max p m held ->
    Z.of_nat (length held) = max ->
    step PS debug Allocate p m = (RError pool_no_allocation, p, m).
Proof.
  intros PS debug base isz max HC p m held HR HL.
  apply (reach_inv _ _ _ _ _ HC) in HR. destruct HR as (fl & out & V).
  exact (alloc_fail _ _ _ _ _ _ _ _ _ _ V HL).
Qed.
Print Assumptions C06_pool_exhausted.

(** The blocks held are always distinct, on item boundaries, inside the storage, pairwise disjoint. *)
Theorem C06_pool_held_blocks_disjoint :
  forall PS debug base isz max, config_ok PS base isz max ->
  forall p m held, reach PS debug base isz max p m held ->
    NoDup held /\
    (forall b, In b held -> exists k, 0 <= k < max /\ b = base + k * isz) /\
    (forall b x, In b held -> block isz b x -> storage base isz max x) /\
    (forall b c x, In b held -> In c held -> block isz b x -> block isz c x -> b = c).
Proof.
  intros PS debug base isz max HC p m held HR.
  apply (reach_inv _ _ _ _ _ HC) in HR. destruct HR as (fl & out & V).
  split; [|split; [|split]].
  - destruct V. subst held. apply Injective_map_NoDup; [intros i j; apply (addr_inj PS base isz max HC)|].
    apply Util.NoDup_app_iff in v_nd. tauto.
  - intros b Hb. destruct V. subst held. apply in_map_iff in Hb. destruct Hb as (i & <- & Hi).
    exists i. split; [|reflexivity]. assert (0 <= i < items_initialised p) by (apply v_rng; rewrite in_app_iff; auto). lia.
  - intros b x Hb Hx. eapply held_storage; eauto.
  - intros b c x Hb Hc Hx Hy.
    destruct (held_storage PS base isz max HC _ _ _ _ _ b x V Hb Hx) as (_ & i & Hi & -> & Hix).
    destruct (held_storage PS base isz max HC _ _ _ _ _ c x V Hc Hy) as (_ & j & Hj & -> & Hjx).
    destruct (Z.eq_dec i j) as [->|Hne]; [reflexivity|]. exfalso.
    exact (addr_sep PS base isz max HC i j x x Hne Hix Hjx eq_refl).
Qed.
Print Assumptions C06_pool_held_blocks_disjoint.

(** size() counts the held blocks; size() + available() = max_size(); empty() and full() agree. *)
Theorem C06_pool_counts :
  forall PS debug base isz max, config_ok PS base isz max ->
  forall p m held, reach PS debug base isz max p m held ->
    size p = Z.of_nat (length held) /\ size p + available p = max /\
    Z.of_nat (length held) <= max /\
    empty p = (Nat.eqb (length held) 0) /\ full p = (Z.of_nat (length held) =? max).
Proof.
  intros PS debug base isz max HC p m held HR.
  apply (reach_inv _ _ _ _ _ HC) in HR. destruct HR as (fl & out & V). destruct V.
  unfold size, available, empty, full. rewrite v_alloc, v_max, v_held, map_length.
  repeat split; try lia. destruct out; reflexivity.
Qed.
Print Assumptions C06_pool_counts.

(** release() of a held block always succeeds; that block is the next one allocated. *)
Theorem C06_pool_release :
  forall PS debug base isz max, config_ok PS base isz max ->
  forall p m held a, reach PS debug base isz max p m held -> In a held ->
    exists p' m', step PS debug (Release a) p m = (RDone, p', m') /\
      size p' = size p - 1 /\
      exists p'' m'', step PS debug Allocate p' m' = (RAddr a, p'', m'').
Proof.
  intros PS debug base isz max HC p m held a HR Ha.
  pose proof (reach_inv _ _ _ _ _ HC _ _ _ HR) as (fl & out & V).
  destruct (release_ok PS debug base isz max HC p m held fl out a V Ha) as (i & p' & m' & -> & Hi & E & V' & Hp & _).
  exists p', m'. split; [exact E|].
  assert (Hlen : length out = S (length (remove Z.eq_dec i out))).
  { apply remove_len; auto. destruct V. apply Util.NoDup_app_iff in v_nd. tauto. }
  split; [unfold size; destruct V, V'; lia|].
  destruct (alloc_ok PS debug base isz max HC p' m' _ _ _ V') as (j & fl2 & out2 & p2 & m2 & E2 & _ & _ & _ & _ & _ & Hj).
  { destruct V, V'. rewrite v_held0, map_length. lia. }
  exists p2, m2. rewrite E2. congruence.
Qed.
Print Assumptions C06_pool_release.

(** release() of an address outside the storage is reported and changes nothing. *)
Theorem C06_pool_release_foreign :
  forall PS debug base isz max, config_ok PS base isz max ->
  forall p m held a, reach PS debug base isz max p m held -> ~ storage base isz max a ->
    step PS debug (Release a) p m = (RError pool_object_not_in_pool, p, m).
Proof.
  intros PS debug base isz max HC p m held a HR Ha.
  apply (reach_inv _ _ _ _ _ HC) in HR. destruct HR as (fl & out & V).
  eapply release_foreign; eauto.
Qed.
Print Assumptions C06_pool_release_foreign.

(** No pool call ever modifies a byte of a block that is held before and after
    it, nor a byte outside the storage. *)
Theorem C06_pool_contents_preserved :
  forall PS debug base isz max, config_ok PS base isz max ->
  forall p m held o r p' m' x, reach PS debug base isz max p m held ->
    client_ok base isz max held o -> (forall a v, o <> Write a v) ->
    step PS debug o p m = (r, p', m') ->
    (exists b, In b held /\ In b (holds held o r) /\ block isz b x) \/
    (o = ReleaseAll) \/ ~ storage base isz max x ->
    m' x = m x.
Proof.
  intros PS debug base isz max HC p m held o r p' m' x HR Hc Hw Hs Hx.
  apply (reach_inv _ _ _ _ _ HC) in HR. destruct HR as (fl & out & V).
  destruct o as [|a| |a v]; [| | |exfalso; eapply Hw; reflexivity].
  - assert (Hlen : length held = length out) by (destruct V; subst held; apply map_length).
    destruct (Z.lt_ge_cases (Z.of_nat (length held)) max) as [L|L].
    + destruct (alloc_ok PS debug base isz max HC p m held fl out V L)
        as (i & fl' & out' & p2 & m2 & E & Hn & Hi & Hh & _ & Hm & _).
      rewrite E in Hs. injection Hs as <- <- <-. apply Hm. intros j Hj Hjx.
      destruct Hx as [(b & Hb & _ & Hbx)|[Hx|Hx]]; [|discriminate|exfalso; apply Hx; eapply addr_storage; eauto].
      subst held. apply in_map_iff in Hb. destruct Hb as (k & <- & Hk).
      destruct (Z.eq_dec j k) as [->|Hne]; [exact Hk|]. exfalso.
      exact (addr_sep PS base isz max HC j k x x Hne Hjx Hbx eq_refl).
    + rewrite (alloc_fail PS debug base isz max p m held fl out V) in Hs.
      * injection Hs as <- <- <-. reflexivity.
      * destruct V; lia.
  - destruct Hc as [Hin|Hout].
    + destruct (release_ok PS debug base isz max HC p m held fl out a V Hin) as (i & p2 & m2 & -> & Hi & E & _ & _ & Hm).
      rewrite E in Hs. injection Hs as <- <- <-. apply Hm. intros Hax.
      destruct Hx as [(b & Hb & Hb2 & Hbx)|[Hx|Hx]]; [|discriminate|].
      * cbn in Hb2. apply in_remove in Hb2. destruct Hb2 as (_ & Hne).
        destruct (held_storage PS base isz max HC _ _ _ _ _ b x V Hb Hbx) as (_ & k & Hk & -> & Hkx).
        assert (Hki : k <> i) by congruence.
        exact (addr_sep PS base isz max HC k i x x Hki Hkx Hax eq_refl).
      * apply Hx. eapply held_storage; eauto.
    + rewrite (release_foreign PS debug base isz max HC p m held fl out a V Hout) in Hs.
      injection Hs as <- <- <-. reflexivity.
  - cbn in Hs. injection Hs as <- <- <-. reflexivity.
Qed.
Print Assumptions C06_pool_contents_preserved.

(** ** Non-vacuity: 8 byte pointers, 3 items of 16 bytes at 4096; a history
    that allocates everything, writes, releases in the middle and reallocates. *)
Example config_met : config_ok 8 4096 16 3.
Proof. unfold config_ok. cbn. lia. Qed.
Fixpoint exec (l : list op) (p : pool) (m : mem) : list res * pool * mem :=
  match l with
  | [] => ([], p, m)
  | o :: l => let '(r, p, m) := step 8 true o p m in
              let '(rs, p, m) := exec l p m in (r :: rs, p, m)
  end.
Example history :
  let '(rs, p, m) := exec [Allocate; Allocate; Write 4113 7; Release 4096; Allocate; Allocate; Allocate;
                           Release 4112; Release 4112; Release 5000; Allocate; ReleaseAll; Allocate]
                          (make 4096 16 3) (fun _ => 99) in
  rs = [RAddr 4096; RAddr 4112; RDone; RDone; RAddr 4096; RAddr 4128; RError pool_no_allocation;
        RDone; RDone; RError pool_object_not_in_pool; RAddr 4112; RDone; RAddr 4096] .
Proof. vm_compute. reflexivity. Qed.
(** (The second [Release 4112] above breaks the client's obligation: ETL does
    not detect a double release; the theorems do not cover it.) *)
Example reachable : reach 8 false 4096 16 3 (mkpool 4096 4112 1 1 16 3) (wr 8 (fun _ => 0) 4096 4112) [4096].
Proof.
  eapply (reach_step 8 false 4096 16 3 _ _ [] Allocate (RAddr 4096)); [apply (reach_init 8 false 4096 16 3 (fun _ => 0))|exact I|].
  vm_compute. reflexivity.
Qed.
