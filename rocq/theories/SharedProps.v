(** * C30: shared messages *)
From Coq Require Import List Arith Bool Lia.
From Verif Require Import Util Slots SharedSpec SharedModel.
Import ListNotations.
Definition ind (v : var) (b : nat) : nat := match v with Some (Some c) => if Nat.eqb c b then 1 else 0 | _ => 0 end.
Lemma refs_upd b s h v old : nth_error s h = Some old -> refs b (upd s h v) + ind old b = refs b s + ind v b.
Proof.
  revert h. induction s as [|x s IH]; intros [|h] H; cbn in H; try discriminate.
  - injection H as ->. unfold refs. cbn. destruct old as [[c|]|], v as [[e|]|]; cbn; repeat (destruct (Nat.eqb _ b)); cbn; lia.
  - specialize (IH h H). unfold refs in *. cbn. destruct x as [[c|]|]; cbn; try exact IH. destruct (Nat.eqb c b); cbn; lia.
Qed.
Lemma get_some s h v : nth_error s h = Some v -> get s h = v.
Proof. unfold get. now intros ->. Qed.
Lemma refs_pos s h b : nth_error s h = Some (Some (Some b)) -> 1 <= refs b s.
Proof.
  revert h. induction s as [|x s IH]; intros [|h] H; cbn in H; try discriminate.
  - injection H as ->. unfold refs. cbn. rewrite Nat.eqb_refl. cbn. lia.
  - specialize (IH h H). unfold refs in *. cbn. destruct x as [[c|]|]; cbn; try exact IH. destruct (Nat.eqb c b); cbn; lia.
Qed.
Lemma refs_none b n : refs b (repeat None n) = 0.
Proof. unfold refs. induction n as [|n IH]; [reflexivity|exact IH]. Qed.
Section Hist.
  Variable persistent : nat -> bool.
  Definition ok (s : list var) (m : mem) : Prop :=
    (forall b, persistent b = true -> m b = Some Persistent) /\
    (forall b, persistent b = false -> m b = if Nat.eqb (refs b s) 0 then None else Some (Counted (refs b s))).
  Lemma ok_alive s m h b : ok s m -> nth_error s h = Some (Some (Some b)) -> m b <> None.
  Proof. intros (P & Q) H. apply refs_pos in H. destruct (persistent b) eqn:E; [rewrite (P b E); discriminate|]. rewrite (Q b E). destruct (refs b s); [lia|discriminate]. Qed.
  (** [m] is right for the references [f]: what [ok] says, of any count *)
  Definition okf (f : nat -> nat) (m : mem) : Prop :=
    (forall b, persistent b = true -> m b = Some Persistent) /\ (forall b, persistent b = false -> m b = if Nat.eqb (f b) 0 then None else Some (Counted (f b))).
  Lemma okf_ext f g m : (forall b, f b = g b) -> okf f m -> okf g m.
  Proof. intros E (P & Q). split; [exact P|]. intros b Hb. rewrite <- E. now apply Q. Qed.
  Lemma inc_ok f m b : okf f m -> 1 <= f b -> exists m', increment m b = Some m' /\ okf (fun x => f x + (if Nat.eqb x b then 1 else 0)) m'.
  Proof.
    intros (P & Q) H. unfold increment. destruct (persistent b) eqn:Eb.
    - rewrite (P b Eb). eexists. split; [reflexivity|]. split; [exact P|]. intros x Hx. rewrite (Q x Hx). destruct (Nat.eqb_spec x b) as [->|]; [congruence|]. now rewrite Nat.add_0_r.
    - rewrite (Q b Eb). destruct (Nat.eqb_spec (f b) 0); [lia|]. eexists. split; [reflexivity|]. split.
      + intros x Hx. unfold mset. destruct (Nat.eqb_spec x b) as [->|]; [congruence|]. now apply P.
      + intros x Hx. unfold mset. destruct (Nat.eqb_spec x b) as [->|]; [|rewrite Nat.add_0_r; now apply Q]. destruct (Nat.eqb_spec (f b + 1) 0); [lia|reflexivity].
  Qed.
  Lemma drop_ok f m b : okf f m -> 1 <= f b -> exists m', drop m b = Some (m', if negb (persistent b) && Nat.eqb (f b - 1) 0 then [b] else []) /\ okf (fun x => f x - (if Nat.eqb x b then 1 else 0)) m'.
  Proof.
    intros (P & Q) H. unfold drop, decrement. destruct (persistent b) eqn:Eb.
    - rewrite (P b Eb). eexists. split; [reflexivity|]. split; [exact P|]. intros x Hx. rewrite (Q x Hx). destruct (Nat.eqb_spec x b) as [->|]; [congruence|]. now rewrite Nat.sub_0_r.
    - rewrite (Q b Eb). destruct (Nat.eqb_spec (f b) 0); [lia|]. destruct (f b) as [|n'] eqn:Ef; [lia|]. replace (S n' - 1) with n' by lia. cbn [negb andb].
      assert (forall x, x <> b -> persistent x = false -> m x = if Nat.eqb (f x - 0) 0 then None else Some (Counted (f x - 0))) as Q'. { intros x _ Hx. rewrite Nat.sub_0_r. now apply Q. }
      destruct (Nat.eqb_spec n' 0) as [Z|Z].
      + unfold release, mset at 1. rewrite Nat.eqb_refl. eexists. split; [reflexivity|]. split; intros x Hx; unfold mset; destruct (Nat.eqb_spec x b) as [->|Nx]; try congruence; [now apply P| |now apply Q']. rewrite Ef. subst n'. reflexivity.
      + eexists. split; [reflexivity|]. split; intros x Hx; unfold mset; destruct (Nat.eqb_spec x b) as [->|Nx]; try congruence; [now apply P| |now apply Q']. rewrite Ef. replace (S n' - 1) with n' by lia. destruct (Nat.eqb_spec n' 0); [lia|reflexivity].
  Qed.
  Lemma op_ok o s m : ok s m -> allowed persistent o s -> exists m', handle_op o s m = Some (fst (h_step persistent o s), snd (h_step persistent o s), m') /\ ok (snd (h_step persistent o s)) m'.
  Proof.
    intros O A. destruct o as [h [b|]|h b|h f|h f|h f|h f|h|h|h]; cbn [handle_op h_step allowed] in *.
    - destruct A as (Hh & Eb & R). unfold set_count, mset at 1. rewrite Nat.eqb_refl. eexists. split; [reflexivity|]. cbn [snd]. destruct O as (P & Q). split; intros x Hx; unfold mset; pose proof (refs_upd x s h (Some (Some b)) None Hh) as E; cbn [ind] in E.
      + destruct (Nat.eqb_spec x b) as [->|]; [congruence|now apply P].
      + destruct (Nat.eqb_spec x b) as [->|Nx].
        * rewrite Nat.eqb_refl in E. replace (refs b (upd s h (Some (Some b)))) with 1 by lia. reflexivity.
        * replace (Nat.eqb b x) with false in E by (symmetry; apply Nat.eqb_neq; congruence). replace (refs x (upd s h (Some (Some b)))) with (refs x s) by lia. now apply Q.
    - eexists. split; [reflexivity|exact O].
    - destruct A as (Hh & Eb). destruct O as (P & Q). unfold set_count. rewrite (P b Eb). eexists. split; [reflexivity|]. cbn [snd]. split; [exact P|]. intros x Hx. pose proof (refs_upd x s h (Some (Some b)) None Hh) as E; cbn [ind] in E.
      destruct (Nat.eqb_spec b x) as [->|]; [congruence|]. replace (refs x (upd s h (Some (Some b)))) with (refs x s) by lia. now apply Q.
    - destruct A as (Hh & b & Hf). rewrite (get_some _ _ _ Hf). destruct (inc_ok (fun x => refs x s) m b O (refs_pos _ _ _ Hf)) as (m' & -> & O'). eexists. split; [reflexivity|]. cbn [snd]. eapply okf_ext; [|exact O']. intros x. cbn beta.
      pose proof (refs_upd x s h (Some (Some b)) None Hh) as E; cbn [ind] in E. rewrite (Nat.eqb_sym x b). lia.
    - destruct A as (Hh & p & Hf). rewrite (get_some _ _ _ Hf). assert (h <> f) as Nhf by (intros ->; congruence).
      assert (upd (upd s h (Some p)) f (Some None) = upd (upd s f (Some None)) h (Some p)) as C. { clear - Nhf. revert h f Nhf. induction s as [|x s IH]; intros [|h] [|f] H; cbn; try reflexivity; [congruence|]. now rewrite IH by congruence. }
      rewrite C. eexists. split; [reflexivity|]. cbn [snd]. eapply okf_ext; [|exact O]. intros x. cbn beta. pose proof (refs_upd x s f (Some None) _ Hf) as E1. assert (nth_error (upd s f (Some None)) h = Some None) as Hh' by (rewrite upd_other by congruence; exact Hh).
      pose proof (refs_upd x (upd s f (Some None)) h (Some p) _ Hh') as E2. cbn [ind] in *. lia.
    - destruct A as ((b & Hh) & (c & Hf)). rewrite (get_some _ _ _ Hf), (get_some _ _ _ Hh). destruct (Nat.eqb_spec f h) as [->|Nfh]; cbn [negb fst snd].
      + assert (c = b) as -> by congruence. assert (upd s h (Some (Some b)) = s) as ->. { clear - Hh. revert h Hh. induction s as [|x s IH]; intros [|h] H; cbn in *; try discriminate; [congruence|]. now rewrite IH. }
        eexists. split; [|exact O]. cbn [gone]. pose proof (refs_pos _ _ _ Hh) as R. destruct (Nat.eqb_spec (refs b s) 0); [lia|]. now rewrite andb_false_r.
      + destruct (drop_ok (fun x => refs x s) m b O (refs_pos _ _ _ Hh)) as (m1 & -> & O1). destruct (inc_ok _ m1 c O1) as (m2 & -> & O2).
        { pose proof (refs_pos _ _ _ Hf). pose proof (refs_pos _ _ _ Hh). destruct (Nat.eqb_spec c b) as [->|]; [|lia].
          pose proof (refs_upd b s h None _ Hh) as E. assert (nth_error (upd s h None) f = Some (Some (Some b))) as Hf' by (rewrite upd_other by congruence; exact Hf). apply refs_pos in Hf'. cbn [ind] in E. rewrite Nat.eqb_refl in E. lia. }
        exists m2. assert (forall x, refs x (upd s h (Some (Some c))) = refs x s - (if Nat.eqb x b then 1 else 0) + (if Nat.eqb x c then 1 else 0)) as E.
        { intros x. pose proof (refs_upd x s h (Some (Some c)) _ Hh) as E. cbn [ind] in E. rewrite (Nat.eqb_sym b x), (Nat.eqb_sym c x) in E. pose proof (refs_pos _ _ _ Hh). destruct (Nat.eqb_spec x b) as [Ex|]; [rewrite Ex in *|]; lia. }
        split; [|eapply okf_ext; [|exact O2]; intros x; now rewrite E]. cbn [gone]. do 3 f_equal. f_equal.
        rewrite E, Nat.eqb_refl. destruct (Nat.eqb_spec b c) as [->|]; [|now rewrite Nat.add_0_r].
        pose proof (refs_upd c s h None _ Hh) as E'. assert (nth_error (upd s h None) f = Some (Some (Some c))) as Hf' by (rewrite upd_other by congruence; exact Hf). apply refs_pos in Hf'. cbn [ind] in E'. rewrite Nat.eqb_refl in E'.
        destruct (Nat.eqb_spec (refs c s - 1) 0); [lia|]. destruct (Nat.eqb_spec (refs c s - 1 + 1) 0); [lia|]. reflexivity.
    - destruct A as ((b & Hh) & (p & Hf)). rewrite (get_some _ _ _ Hf), (get_some _ _ _ Hh), (Nat.eqb_sym h f). destruct (Nat.eqb_spec f h) as [->|Nfh]; cbn [negb fst snd]; [eexists; split; [reflexivity|exact O]|].
      destruct (drop_ok (fun x => refs x s) m b O (refs_pos _ _ _ Hh)) as (m1 & -> & O1). exists m1.
      assert (upd (upd s h (Some p)) f (Some None) = upd (upd s f (Some None)) h (Some p)) as ->. { clear - Nfh. revert h f Nfh. induction s as [|x s IH]; intros [|h] [|f] H; cbn; try reflexivity; [congruence|]. now rewrite IH by congruence. }
      assert (forall x, refs x (upd (upd s f (Some None)) h (Some p)) = refs x s - (if Nat.eqb x b then 1 else 0)) as E.
      { intros x. pose proof (refs_upd x s f (Some None) _ Hf) as E1. assert (nth_error (upd s f (Some None)) h = Some (Some (Some b))) as Hh' by (rewrite upd_other by congruence; exact Hh).
        pose proof (refs_upd x (upd s f (Some None)) h (Some p) _ Hh') as E2. cbn [ind] in *. rewrite (Nat.eqb_sym x b). destruct (Nat.eqb_spec b x) as [Ex|]; [rewrite Ex in *|]; lia. }
      split; [|eapply okf_ext; [|exact O1]; intros x; now rewrite E]. cbn [gone]. rewrite E, Nat.eqb_refl. reflexivity.
    - destruct A as (p & Hh). rewrite (get_some _ _ _ Hh). destruct p as [b|]; cbn [fst snd].
      + destruct (drop_ok (fun x => refs x s) m b O (refs_pos _ _ _ Hh)) as (m1 & -> & O1). exists m1.
        assert (forall x, refs x (upd s h None) = refs x s - (if Nat.eqb x b then 1 else 0)) as E. { intros x. pose proof (refs_upd x s h None _ Hh) as E. cbn [ind] in *. rewrite (Nat.eqb_sym x b). lia. }
        split; [|eapply okf_ext; [|exact O1]; intros x; now rewrite E]. cbn [gone]. rewrite E, Nat.eqb_refl. reflexivity.
      + eexists. split; [reflexivity|]. eapply okf_ext; [|exact O]. intros x. pose proof (refs_upd x s h None _ Hh) as E. cbn [ind] in *. lia.
    - destruct A as (b & Hh). rewrite (get_some _ _ _ Hh). destruct O as (P & Q). destruct (persistent b) eqn:Eb.
      + rewrite (P b Eb). eexists. split; [reflexivity|]. split; assumption.
      + rewrite (Q b Eb). pose proof (refs_pos _ _ _ Hh). destruct (Nat.eqb_spec (refs b s) 0); [lia|]. eexists. split; [reflexivity|]. split; assumption.
    - destruct A as (p & Hh). rewrite (get_some _ _ _ Hh). exists m. split; [destruct p; reflexivity|exact O].
  Qed.
End Hist.
(** Every allowed history of handles: no undefined behaviour; each call gives the result of SharedSpec.v (a message is released by exactly the call that
    makes the last of its handles disappear); at the end the blocks in use are those that some handle refers to, with the number of handles as count. *)
Theorem C30_history : forall (persistent : nat -> bool) (m0 : mem) (vars : nat) os,
  (forall b, m0 b = if persistent b then Some Persistent else None) ->
  all_allowed persistent os (repeat None vars) ->
  exists m, handle_ops os (repeat None vars) m0 = Some (fst (h_steps persistent os (repeat None vars)), snd (h_steps persistent os (repeat None vars)), m) /\
    forall b, persistent b = false -> m b = match refs b (snd (h_steps persistent os (repeat None vars))) with 0 => None | S n => Some (Counted (S n)) end.
Proof.
  intros pers m0 vars os H0. assert (forall os s m, ok pers s m -> all_allowed pers os s -> exists m', handle_ops os s m = Some (fst (h_steps pers os s), snd (h_steps pers os s), m') /\ ok pers (snd (h_steps pers os s)) m') as G.
  { clear os. induction os as [|o os IH]; intros s m O A; [cbn; eauto|]. destruct A as (A & As). cbn [handle_ops h_steps]. destruct (op_ok pers o s m O A) as (m1 & -> & O1). destruct (h_step pers o s) as (x & s1). cbn [fst snd] in *.
    destruct (IH s1 m1 O1 As) as (m2 & -> & O2). destruct (h_steps pers os s1) as (xs & s2). cbn [fst snd] in *. eauto. }
  intros A. destruct (G os (repeat None vars) m0) as (m & E & O); [|exact A|].
  - assert (forall b, refs b (repeat None vars) = 0) as Z. { intros b. apply refs_none. }
    split; intros b Hb; rewrite H0, Hb; [reflexivity|]. now rewrite Z.
  - exists m. split; [exact E|]. intros b Hb. destruct O as (_ & Q). rewrite (Q b Hb). destruct (refs b _); reflexivity.
Qed.
(** Releases: over any allowed history a block is released, counting from the start, as often as it was created, less one if it is still referred to. *)
Definition times_released (b : nat) (rs : list hres) : nat := List.length (filter (fun r => match r with Hreleased bs => existsb (Nat.eqb b) bs | _ => false end) rs).
Definition times_created (b : nat) (os : list hop) : nat := List.length (filter (fun o => match o with Hcreate _ (Some c) => Nat.eqb b c | _ => false end) os).
Lemma times_step persistent o s b : allowed persistent o s -> persistent b = false ->
  times_released b [fst (h_step persistent o s)] + (if refs b (snd (h_step persistent o s)) =? 0 then 0 else 1) = times_created b [o] + (if refs b s =? 0 then 0 else 1).
Proof.
  intros A Pb. assert (G1 : forall v s', times_released b [Hreleased (gone persistent v s')] = if (match v with Some (Some c) => Nat.eqb c b | _ => false end) && (refs b s' =? 0) then 1 else 0).
  { intros v s'. unfold times_released. cbn. destruct v as [[c|]|]; cbn; try reflexivity. destruct (Nat.eqb_spec c b) as [->|Nc].
    - rewrite Pb. cbn. destruct (refs b s' =? 0); [cbn; now rewrite Nat.eqb_refl|reflexivity].
    - destruct (_ && _); [|reflexivity]. cbn. replace (Nat.eqb b c) with false by (symmetry; apply Nat.eqb_neq; congruence). reflexivity. }
  assert (Tc : forall o', match o' with Hcreate _ (Some _) => False | _ => True end -> times_created b [o'] = 0). { intros [h [c|]|h c|h f|h f|h f|h f|h|h|h] H; try reflexivity. destruct H. }
  assert (Z : forall x y : nat, x = y -> (if x =? 0 then 0 else 1) = (if y =? 0 then 0 else 1)) by (now intros x y ->).
  destruct o as [h [c|]|h c|h f|h f|h f|h f|h|h|h]; cbn [h_step fst snd]; try (rewrite Tc by exact I); cbn [allowed] in A.
  - destruct A as (Hh & Pc & R). pose proof (refs_upd b s h (Some (Some c)) _ Hh) as E. cbn [ind] in E. unfold times_created, times_released. cbn [filter existsb]. rewrite (Nat.eqb_sym b c). destruct (Nat.eqb_spec c b) as [->|]; cbn [length].
    + rewrite R in E |- *. destruct (Nat.eqb_spec (refs b (upd s h (Some (Some b)))) 0); cbn; lia.
    + cbn. apply Z. lia.
  - reflexivity.
  - destruct A as (Hh & Pc). pose proof (refs_upd b s h (Some (Some c)) _ Hh) as E. cbn [ind] in E. destruct (Nat.eqb_spec c b) as [->|]; [congruence|]. unfold times_released. cbn. apply Z. lia.
  - destruct A as (Hh & c & Hf). rewrite (get_some _ _ _ Hf). pose proof (refs_upd b s h (Some (Some c)) _ Hh) as E. cbn [ind] in E. pose proof (refs_pos _ _ _ Hf) as R. unfold times_released. cbn [filter existsb length]. cbn [Nat.add].
    destruct (Nat.eqb_spec c b) as [->|]; [|apply Z; lia]. destruct (Nat.eqb_spec (refs b s) 0), (Nat.eqb_spec (refs b (upd s h (Some (Some b)))) 0); lia.
  - destruct A as (Hh & p & Hf). rewrite (get_some _ _ _ Hf). pose proof (refs_upd b s f (Some None) _ Hf) as E1. assert (h <> f) by (intros ->; congruence). assert (nth_error (upd s f (Some None)) h = Some None) as Hh' by (rewrite upd_other by congruence; exact Hh).
    pose proof (refs_upd b (upd s f (Some None)) h (Some p) _ Hh') as E2. cbn [ind] in *. unfold times_released. cbn [filter existsb length Nat.add]. apply Z. lia.
  - destruct A as ((c & Hh) & (d & Hf)). rewrite (get_some _ _ _ Hh), (get_some _ _ _ Hf), G1. pose proof (refs_upd b s h (Some (Some d)) _ Hh) as E. cbn [ind] in E. pose proof (refs_pos _ _ _ Hh). pose proof (refs_pos _ _ _ Hf).
    destruct (Nat.eqb_spec c b) as [->|]; cbn [andb].
    + destruct (Nat.eqb_spec (refs b (upd s h (Some (Some d)))) 0), (Nat.eqb_spec (refs b s) 0); lia.
    + destruct (Nat.eqb_spec d b) as [->|]; [|apply Z; lia]. destruct (Nat.eqb_spec (refs b (upd s h (Some (Some b)))) 0), (Nat.eqb_spec (refs b s) 0); lia.
  - destruct A as ((c & Hh) & (p & Hf)). destruct (Nat.eqb_spec h f) as [->|Nhf]; [reflexivity|]. cbn [fst snd]. rewrite (get_some _ _ _ Hh), (get_some _ _ _ Hf), G1. pose proof (refs_upd b s f (Some None) _ Hf) as E1.
    assert (nth_error (upd s f (Some None)) h = Some (Some (Some c))) as Hh' by (rewrite upd_other by congruence; exact Hh). pose proof (refs_upd b (upd s f (Some None)) h (Some p) _ Hh') as E2. cbn [ind] in *. pose proof (refs_pos _ _ _ Hh).
    destruct (Nat.eqb_spec c b) as [->|]; cbn [andb]; [|apply Z; lia]. destruct (Nat.eqb_spec (refs b (upd (upd s f (Some None)) h (Some p))) 0), (Nat.eqb_spec (refs b s) 0); lia.
  - destruct A as (p & Hh). rewrite (get_some _ _ _ Hh), G1. pose proof (refs_upd b s h None _ Hh) as E. cbn [ind] in E. destruct p as [c|]; cbn [andb]; [|apply Z; lia]. pose proof (refs_pos _ _ _ Hh).
    destruct (Nat.eqb_spec c b) as [->|]; cbn [andb]; [|apply Z; lia]. destruct (Nat.eqb_spec (refs b (upd s h None)) 0), (Nat.eqb_spec (refs b s) 0); lia.
  - reflexivity.
  - reflexivity.
Qed.
Theorem C30_released_once : forall persistent vars os b, all_allowed persistent os (repeat None vars) -> persistent b = false ->
  times_released b (fst (h_steps persistent os (repeat None vars))) + (if refs b (snd (h_steps persistent os (repeat None vars))) =? 0 then 0 else 1) = times_created b os.
Proof.
  intros persistent vars os b A Pb. assert (forall os s, all_allowed persistent os s -> times_released b (fst (h_steps persistent os s)) + (if refs b (snd (h_steps persistent os s)) =? 0 then 0 else 1) = times_created b os + (if refs b s =? 0 then 0 else 1)) as G.
  { clear - Pb. induction os as [|o os IH]; intros s A; [reflexivity|]. destruct A as (A & As). pose proof (times_step persistent o s b A Pb) as T. cbn [h_steps]. destruct (h_step persistent o s) as (x & s1). cbn [fst snd] in *. specialize (IH s1 As).
    destruct (h_steps persistent os s1) as (xs & s2). cbn [fst snd] in *. unfold times_released, times_created in *. cbn [filter] in *.
    destruct (match x with Hreleased bs => existsb (Nat.eqb b) bs | _ => false end), (match o with Hcreate _ (Some c) => Nat.eqb b c | _ => false end); cbn [length] in *; lia. }
  rewrite (G os _ A). rewrite refs_none. cbn. lia.
Qed.
(** FINDING: an empty (moved-from) handle cannot be assigned to: the null pointer is dereferenced. *)
Theorem C30_assign_to_moved_from_refuted : exists os v m, handle_ops os (repeat None 3) (fun _ => None) = Some (v, [Some None; Some (Some 0); Some (Some 1)], m) /\
  handle_op (Hassign 0 2) [Some None; Some (Some 0); Some (Some 1)] m = None /\ handle_op (HmoveAssign 0 2) [Some None; Some (Some 0); Some (Some 1)] m = None /\
  handle_op (Hcopy 0 0) [Some None; Some (Some 0); Some (Some 1)] m = None.
Proof. exists [Hcreate 0 (Some 0); Hmove 1 0; Hcreate 2 (Some 1)]. do 2 eexists. conj; reflexivity. Qed.
(** ** Threads *)
Definition sinv (s : sys) : Prop := count s = list_sum (held s) /\
  ((1 <= count s /\ releasing s = [] /\ freed s = 0) \/ (count s = 0 /\ exists t, releasing s = [t] /\ freed s = 0) \/ (count s = 0 /\ releasing s = [] /\ freed s = 1)).
Lemma sum_upd l t k v : nth_error l t = Some k -> list_sum (upd l t v) + k = list_sum l + v.
Proof. revert t. induction l as [|x l IH]; intros [|t] H; cbn in H; try discriminate; [injection H as ->; cbn; lia|]. specialize (IH t H). unfold list_sum in *. cbn. lia. Qed.
Lemma sstep_inv s s' : sinv s -> sstep s s' -> sinv s'.
Proof.
  intros (C & D) St. destruct St as [s t k Hk|s t u k j Ntu Ht Hu|s t k Hk|s t a b E]; cbn [count held releasing freed].
  - pose proof (sum_upd _ t (S k) (S (S k)) Hk). assert (1 <= count s). { rewrite C. pose proof (sum_upd _ t (S k) 0 Hk). lia. } split; cbn [count held releasing freed]; [lia|]. left. destruct D as [D|[(D & _)|(D & _)]]; [|lia|lia]. conj; lia || apply D.
  - pose proof (sum_upd _ t (S k) k Ht). assert (nth_error (upd (held s) t k) u = Some j) as Hu' by (rewrite upd_other by exact Ntu; exact Hu). pose proof (sum_upd _ u j (S j) Hu'). split; cbn [count held releasing freed]; [lia|exact D].
  - pose proof (sum_upd _ t (S k) k Hk). assert (1 <= count s) by lia. destruct D as [(D1 & D2 & D3)|[(D & _)|(D & _)]]; [|lia|lia]. split; cbn [count held releasing freed]; [lia|]. rewrite D2. destruct (Nat.eqb_spec (count s - 1) 0).
    + right. left. split; [assumption|]. exists t. split; [reflexivity|exact D3].
    + left. conj; [lia|reflexivity|exact D3].
  - destruct D as [(_ & D & _)|[(D & t' & D2 & D3)|(_ & D & _)]]; [rewrite D in E; destruct a; discriminate| |rewrite D in E; destruct a; discriminate]. rewrite D2 in E. destruct a as [|x [|y a]]; try discriminate. injection E as <- <-.
    split; cbn [count held releasing freed]; [exact C|]. right. right. conj; [exact D|reflexivity|lia].
Qed.
(** For any number of threads and every interleaving of copies, hand-overs, drops and releases, starting with one handle in one thread: while a thread has a
    handle the message is alive and the counter is positive; the message is released at most once; and once no handle and no pending release is left, exactly once. *)
Theorem C30_threads : forall (held0 : list nat) s, list_sum held0 = 1 -> sreach {| count := 1; held := held0; releasing := []; freed := 0 |} s ->
  count s = list_sum (held s) /\ freed s <= 1 /\ (forall t k, nth_error (held s) t = Some (S k) -> freed s = 0 /\ releasing s = [] /\ 0 < count s) /\
  (list_sum (held s) = 0 -> releasing s = [] -> freed s = 1) /\ (releasing s <> [] -> freed s = 0).
Proof.
  intros held0 s H0 R. assert (sinv s) as (C & D). { induction R as [|s s' R IH St]; [split; cbn [count held releasing freed]; [lia|left; conj; lia || reflexivity]|]. eapply sstep_inv; eauto. }
  conj.
  - exact C.
  - destruct D as [(_ & _ & D)|[(_ & t & _ & D)|(_ & _ & D)]]; lia.
  - intros t k Hk. pose proof (sum_upd _ t (S k) 0 Hk). destruct D as [(D1 & D2 & D3)|[(D & _)|(D & _)]]; [|lia|lia]. conj; [exact D3|exact D2|lia].
  - intros Z Rl. destruct D as [(D1 & _)|[(_ & t & D & _)|(_ & _ & D)]]; [lia|congruence|exact D].
  - intros Rl. destruct D as [(_ & D & _)|[(_ & t & _ & D)|(_ & D & _)]]; congruence.
Qed.
Example C30_case : all_allowed (fun b => Nat.eqb b 9) [Hcreate 0 (Some 4); Hcopy 1 0; Hmove 2 1; Hcreate 3 None; Hcount 0; Hcreate 3 (Some 5); Hassign 3 0; Hdestroy 0; Hwrap 0 9; HmoveAssign 3 0; HmoveAssign 2 3; Hdestroy 2; Hdestroy 1] (repeat None 4) /\
  fst (h_steps (fun b => Nat.eqb b 9) [Hcreate 0 (Some 4); Hcopy 1 0; Hmove 2 1; Hcreate 3 None; Hcount 0; Hcreate 3 (Some 5); Hassign 3 0; Hdestroy 0; Hwrap 0 9; HmoveAssign 3 0; HmoveAssign 2 3; Hdestroy 2; Hdestroy 1] (repeat None 4)) =
  [Hreleased []; Hreleased []; Hreleased []; Halloc_failure; Hn 2; Hreleased []; Hreleased [5]; Hreleased []; Hreleased []; Hreleased []; Hreleased [4]; Hreleased []; Hreleased []].
Proof. split; [cbn; repeat (split || eexists); reflexivity|reflexivity]. Qed.
Example C30_threads_case : exists s, sreach {| count := 1; held := [1; 0]; releasing := []; freed := 0 |} s /\ freed s = 1 /\ held s = [0; 0].
Proof.
  eexists. split.
  - eapply sr_step; [eapply sr_step; [eapply sr_step; [eapply sr_step; [eapply sr_step; [apply sr_refl|]|]|]|]|].
    + eapply (s_copy _ 0). reflexivity.
    + eapply (s_give _ 0 1); [discriminate|reflexivity|reflexivity].
    + eapply (s_drop _ 0). reflexivity.
    + eapply (s_drop _ 1). reflexivity.
    + eapply (s_release _ 1 [] []). reflexivity.
  - split; reflexivity.
Qed.
Print Assumptions C30_history.
Print Assumptions C30_released_once.
Print Assumptions C30_assign_to_moved_from_refuted.
Print Assumptions C30_threads.
