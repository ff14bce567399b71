(** C67: delegate_service and callback_service call the handler that was registered last. *)
From Coq Require Import ZArith List Bool Lia.
From Verif Require Import DsvSpec DsvModel.
Import ListNotations.
Open Scope Z_scope.

Section P.
Context {F : Type}.
Variables (RANGE OFFSET : Z).
Hypothesis range_ok : 0 <= RANGE.
Hypothesis offset_ok : 0 <= OFFSET.
Hypothesis sum_ok : OFFSET + RANGE < 2^64.
Notation run := (@run F RANGE OFFSET).
Notation call := (@call F RANGE OFFSET).

Lemma in_range_spec : forall id, in_range RANGE OFFSET id = true <-> OFFSET <= id < OFFSET + RANGE.
Proof using range_ok offset_ok sum_ok.
  intro id. unfold in_range, limit. rewrite Z.mod_small by lia. rewrite andb_true_iff, Z.leb_le, Z.ltb_lt. tauto.
Qed.

Lemma put_len : forall (l : list (entry F)) n e l', put l n e = Some l' -> length l' = length l.
Proof. induction l; intros [|n] e l' H; simpl in H; try discriminate. now injection H as <-.
  destruct (put l n e) eqn:E; [|discriminate]. injection H as <-. simpl. f_equal. eauto. Qed.
Lemma put_some : forall (l : list (entry F)) n e, (n < length l)%nat -> exists l', put l n e = Some l'.
Proof. induction l; intros [|n] e H; simpl in *; try lia. eauto. destruct (IHl n e) as [l' ->]; [lia|]. eauto. Qed.
Lemma put_nth : forall (l : list (entry F)) n e l', put l n e = Some l' -> forall i, nth_error l' i = if Nat.eqb i n then Some e else nth_error l i.
Proof. induction l; intros [|n] e l' H i; simpl in H; try discriminate.
  - injection H as <-. destruct i; reflexivity.
  - destruct (put l n e) eqn:E; [|discriminate]. injection H as <-. destruct i; simpl; [reflexivity|]. eauto. Qed.

Definition uinv (u : option F) (regs : list (reg F)) : Prop :=
  match u with Some h => is_last_unhandled h regs | None => forall h, ~ In (RegisterUnhandled h) regs end.
Definition linv (l : list (entry F)) (d : nat) (regs : list (reg F)) : Prop :=
  length l = Z.to_nat RANGE /\
  forall i, 0 <= i < RANGE ->
    (exists h, nth_error l (Z.to_nat i) = Some (Handler h) /\ is_last_for h (OFFSET + i) regs) \/
    (nth_error l (Z.to_nat i) = Some (Unhandled d) /\ forall h, ~ In (Register (OFFSET + i) h) regs).
Definition inv (m : memory F) (k d : nat) (regs : list (reg F)) : Prop :=
  exists s, m k = Some s /\ uinv (unhandled_delegate s) regs /\ linv (lookup s) d regs.

Lemma last_for_snoc : forall (h : F) id r regs, is_last_for h id regs -> (forall h', r <> Register id h') -> is_last_for h id (regs ++ [r]).
Proof. intros h id r regs (a & b & -> & N) D. exists a, (b ++ [r]). split. now rewrite <- app_assoc.
  intros h' I. apply in_app_or in I. destruct I as [I|[I|[]]]; [now apply (N h')|now apply (D h')]. Qed.
Lemma none_for_snoc : forall id (r : reg F) regs, (forall h, ~ In (Register id h) regs) -> (forall h', r <> Register id h') -> forall h, ~ In (Register id h) (regs ++ [r]).
Proof. intros id r regs N D h I. apply in_app_or in I. destruct I as [I|[I|[]]]; [now apply (N h)|now apply (D h)]. Qed.

Lemma inv_construct : forall m k, inv (construct RANGE m k) k k [].
Proof using range_ok.
  intros m k. unfold construct, inv, upd. rewrite Nat.eqb_refl. eexists. split; [reflexivity|]. split.
  - simpl. tauto.
  - split; simpl. apply repeat_length. intros i Hi. right. split; [|tauto]. apply nth_error_repeat. lia.
Qed.

Lemma inv_reg : forall m k d regs r m', inv m k d regs -> step RANGE OFFSET m (Reg k r) = Some m' -> inv m' k d (regs ++ [r]).
Proof using range_ok offset_ok sum_ok.
  intros m k d regs r m' (s & Es & U & L & N) H. simpl in H. destruct r as [id h|h].
  - unfold register_delegate in H. rewrite Es in H.
    assert (U' : uinv (unhandled_delegate s) (regs ++ [Register id h])).
    { unfold uinv in *. destruct (unhandled_delegate s) as [u|].
      - destruct U as (a & b & -> & Nb). exists a, (b ++ [Register id h]). split. now rewrite <- app_assoc.
        intros h' I. apply in_app_or in I. destruct I as [I|[I|[]]]; [now apply (Nb h')|discriminate].
      - intros u I. apply in_app_or in I. destruct I as [I|[I|[]]]; [now apply (U u)|discriminate]. }
    destruct (in_range RANGE OFFSET id) eqn:R.
    + destruct (put _ _ _) as [l|] eqn:P; [|discriminate]. injection H as <-.
      apply in_range_spec in R. exists (mkS (unhandled_delegate s) l). unfold upd. rewrite Nat.eqb_refl. split; [reflexivity|]. split; [exact U'|].
      split; simpl. { rewrite (put_len _ _ _ _ P). exact L. }
      intros i Hi. rewrite (put_nth _ _ _ _ P). destruct (Nat.eqb_spec (Z.to_nat i) (Z.to_nat (id - OFFSET))) as [E|E].
      * left. exists h. split; [reflexivity|]. assert (i = id - OFFSET) by lia. subst i.
        replace (OFFSET + (id - OFFSET)) with id by lia. exists regs, []. split; [reflexivity|]. simpl; tauto.
      * assert (D : forall h', Register id h <> Register (OFFSET + i) h') by (intros h' Q; injection Q as Q; lia).
        destruct (N i Hi) as [(g & G1 & G2)|(G1 & G2)]; [left; exists g|right]; (split; [exact G1|]).
        now apply last_for_snoc. now apply none_for_snoc.
    + injection H as <-. exists s. split; [exact Es|]. split; [exact U'|]. split; [exact L|].
      intros i Hi.
      assert (D : forall h', Register id h <> Register (OFFSET + i) h').
      { intros h' Q. injection Q as Q _. assert (in_range RANGE OFFSET id = true) by (apply in_range_spec; lia). congruence. }
      destruct (N i Hi) as [(g & G1 & G2)|(G1 & G2)]; [left; exists g|right]; (split; [exact G1|]).
      now apply last_for_snoc. now apply none_for_snoc.
  - unfold register_unhandled in H. rewrite Es in H. injection H as <-.
    exists (mkS (Some h) (lookup s)). unfold upd. rewrite Nat.eqb_refl. split; [reflexivity|]. split; simpl.
    + exists regs, []. split; [reflexivity|]. simpl; tauto.
    + split; [exact L|]. intros i Hi.
      assert (D : forall h', RegisterUnhandled h <> Register (OFFSET + i) h') by (intros; discriminate).
      destruct (N i Hi) as [(g & G1 & G2)|(G1 & G2)]; [left; exists g|right]; (split; [exact G1|]).
      now apply last_for_snoc. now apply none_for_snoc.
Qed.

Lemma step_other : forall m o k m', step RANGE OFFSET m o = Some m' -> ~ @renews F k o -> (forall r, o <> Reg k r) -> m' k = m k.
Proof.
  intros m o k m' H N D. destruct o as [j|j f|j|j [id h|h]]; simpl in *.
  - injection H as <-. unfold construct, upd. destruct (Nat.eqb_spec k j); congruence.
  - unfold copy in H. destruct (m f); [|discriminate]. injection H as <-. unfold upd. destruct (Nat.eqb_spec k j); congruence.
  - injection H as <-. unfold destroy, upd. destruct (Nat.eqb_spec k j); congruence.
  - unfold register_delegate in H. destruct (m j) as [s|]; [|discriminate]. destruct (in_range _ _ _); [|congruence].
    destruct (put _ _ _); [|discriminate]. injection H as <-. unfold upd. destruct (Nat.eqb_spec k j) as [->|]; [|reflexivity]. now destruct (D (Register id h)).
  - unfold register_unhandled in H. destruct (m j) as [s|]; [|discriminate]. injection H as <-. unfold upd.
    destruct (Nat.eqb_spec k j) as [->|]; [|reflexivity]. now destruct (D (RegisterUnhandled h)).
Qed.

Lemma inv_run : forall ops m m' k d regs, inv m k d regs -> Forall (fun o => ~ renews k o) ops -> run m ops = Some m' -> inv m' k d (regs ++ regs_of k ops).
Proof using range_ok offset_ok sum_ok.
  induction ops as [|o ops IH]; intros m m' k d regs I FN H; simpl in *.
  - injection H as <-. now rewrite app_nil_r.
  - inversion FN; subst. destruct (step RANGE OFFSET m o) as [m1|] eqn:S; [|discriminate].
    assert (Q : (exists r, o = Reg k r) \/ (forall r, o <> Reg k r)).
    { destruct o as [j|j f|j|j r]; try (right; intros; discriminate). destruct (Nat.eq_dec j k) as [->|]; [left; eauto|right; intros ? Q; congruence]. }
    destruct Q as [[r ->]|D].
    + rewrite Nat.eqb_refl. replace (regs ++ r :: regs_of k ops) with ((regs ++ [r]) ++ regs_of k ops) by now rewrite <- app_assoc.
      eapply IH; eauto. eapply inv_reg; eauto.
    + assert (E : match o with Construct _ | Copy _ _ | Destroy _ => regs_of k ops | Reg j r => if Nat.eqb j k then r :: regs_of k ops else regs_of k ops end = regs_of k ops).
      { destruct o; try reflexivity. destruct (Nat.eqb_spec k0 k) as [->|]; [|reflexivity]. now destruct (D r). }
      replace (match o with Reg j r => if Nat.eqb j k then r :: regs_of k ops else regs_of k ops | _ => regs_of k ops end) with (regs_of k ops) by (destruct o; auto).
      apply (IH m1 m' k d regs); [|assumption|assumption]. destruct I as (s & Es & R). exists s. split; [|exact R]. rewrite <- Es. eapply step_other; eauto.
Qed.

Lemma unhandled_inv : forall m k d regs id, inv m k d regs -> exists calls, unhandled m k id = Some calls /\ unhandled_result regs id calls.
Proof.
  intros m k d regs id (s & Es & U & _). unfold unhandled. rewrite Es. eexists. split; [reflexivity|].
  unfold uinv in U. destruct (unhandled_delegate s); [left; eauto|right; auto].
Qed.

(** C67: after any steps of a program with any number of services, a call of a service that was constructed
    and has not been destroyed since calls the handler that was registered last for the id, with that id; for an
    id without a handler, or out of range, it calls the last unhandled handler; if there is none it calls nothing. *)
Theorem C67_call : forall m0 k ops m id,
  Forall (fun o => ~ renews k o) ops -> run (construct RANGE m0 k) ops = Some m ->
  exists calls, call m k id = Some calls /\ call_result OFFSET RANGE (regs_of k ops) id calls.
Proof using range_ok offset_ok sum_ok.
  intros m0 k ops m id FN H.
  pose proof (inv_run _ _ _ _ _ _ (inv_construct m0 k) FN H) as I. rewrite app_nil_l in I.
  destruct (unhandled_inv _ _ _ _ id I) as (cs & Ec & Rc).
  destruct I as (s & Es & U & L & N). unfold DsvModel.call. rewrite Es.
  destruct (in_range RANGE OFFSET id) eqn:R.
  - apply in_range_spec in R. destruct (N (id - OFFSET) ltac:(lia)) as [(h & -> & G)|(-> & G)];
      replace (OFFSET + (id - OFFSET)) with id in G by lia.
    + eexists. split; [reflexivity|]. left. split; [exact R|]. eauto.
    + exists cs. split; [exact Ec|]. right. split; auto.
  - exists cs. split; [exact Ec|]. right. split; [|exact Rc]. left. intro Q. apply in_range_spec in Q. congruence.
Qed.

(** C67: a registration on a service that lives always succeeds, whatever the id. *)
Theorem C67_register_total : forall m0 k ops m r,
  Forall (fun o => ~ renews k o) ops -> run (construct RANGE m0 k) ops = Some m ->
  exists m', step RANGE OFFSET m (Reg k r) = Some m'.
Proof using range_ok offset_ok sum_ok.
  intros m0 k ops m r FN H.
  pose proof (inv_run _ _ _ _ _ _ (inv_construct m0 k) FN H) as (s & Es & U & L & N).
  destruct r as [id h|h]; simpl; unfold register_delegate, register_unhandled; rewrite Es; [|eauto].
  destruct (in_range RANGE OFFSET id) eqn:R; [|eauto]. apply in_range_spec in R.
  destruct (put_some (lookup s) (Z.to_nat (id - OFFSET)) (Handler h)) as [l ->]; [lia|]. eauto.
Qed.

(** C67, FINDING: a copy of a service calls its own handlers, but for an id in range that has no handler it calls
    the unhandled handler of the service it was copied from, also after its own was registered. *)
Theorem C67_copy : forall m0 k ops1 m1 j ops2 m2 id,
  j <> k -> Forall (fun o => ~ renews k o) ops1 -> Forall (fun o => ~ renews k o /\ ~ renews j o) ops2 ->
  run (construct RANGE m0 k) ops1 = Some m1 -> run m1 (Copy j k :: ops2) = Some m2 ->
  let own := regs_of k ops1 ++ regs_of j ops2 in
  exists calls, call m2 j id = Some calls /\
    ((OFFSET <= id < OFFSET + RANGE /\ exists h, is_last_for h id own /\ calls = [(h, id)]) \/
     (OFFSET <= id < OFFSET + RANGE /\ (forall h, ~ In (Register id h) own) /\ unhandled_result (regs_of k ops1 ++ regs_of k ops2) id calls) \/
     (~ OFFSET <= id < OFFSET + RANGE /\ unhandled_result own id calls)).
Proof using range_ok offset_ok sum_ok.
  intros m0 k ops1 m1 j ops2 m2 id Njk F1 F2 H1 H2 own.
  pose proof (inv_run _ _ _ _ _ _ (inv_construct m0 k) F1 H1) as I1. rewrite app_nil_l in I1.
  simpl in H2. unfold copy in H2. destruct (m1 k) as [s1|] eqn:E1; [|discriminate].
  assert (Fk : Forall (fun o => ~ renews k o) ops2) by (eapply Forall_impl; [|exact F2]; simpl; tauto).
  assert (Fj : Forall (fun o => ~ renews j o) ops2) by (eapply Forall_impl; [|exact F2]; simpl; tauto).
  set (mc := upd m1 j (Some (mkS (unhandled_delegate s1) (lookup s1)))) in *.
  assert (Ik : inv mc k k (regs_of k ops1)).
  { destruct I1 as (s & Es & R). exists s. split; [|exact R]. unfold mc, upd. destruct (Nat.eqb_spec k j); congruence. }
  assert (Ij : inv mc j k (regs_of k ops1)).
  { destruct I1 as (s & Es & R). rewrite E1 in Es. injection Es as ->. eexists. split. unfold mc, upd. rewrite Nat.eqb_refl. reflexivity. exact R. }
  pose proof (inv_run _ _ _ _ _ _ Ik Fk H2) as Jk. pose proof (inv_run _ _ _ _ _ _ Ij Fj H2) as Jj. fold own in Jj.
  destruct (unhandled_inv _ _ _ _ id Jk) as (ck & Ek & Rk).
  destruct (unhandled_inv _ _ _ _ id Jj) as (cj & Ej & Rj).
  destruct Jj as (s & Es & U & L & N). unfold DsvModel.call. rewrite Es.
  destruct (in_range RANGE OFFSET id) eqn:R.
  - apply in_range_spec in R. destruct (N (id - OFFSET) ltac:(lia)) as [(h & -> & G)|(-> & G)];
      replace (OFFSET + (id - OFFSET)) with id in G by lia.
    + eexists. split; [reflexivity|]. left. split; [exact R|]. eauto.
    + exists ck. split; [exact Ek|]. right. left. auto.
  - exists cj. split; [exact Ej|]. right. right. split; [|exact Rj]. intro Q. apply in_range_spec in Q. congruence.
Qed.

(** C67: the static table: the delegate at the place of the id, and the one behind the table for every other id. *)
Theorem C67_static : forall (delegates : list F) id, length delegates = S (Z.to_nat RANGE) ->
  exists h, static_call RANGE OFFSET delegates id = Some [(h, id)] /\
    (OFFSET <= id < OFFSET + RANGE -> nth_error delegates (Z.to_nat (id - OFFSET)) = Some h) /\
    (~ OFFSET <= id < OFFSET + RANGE -> nth_error delegates (Z.to_nat RANGE) = Some h).
Proof using range_ok offset_ok sum_ok.
  intros ds id L. unfold static_call. destruct (in_range RANGE OFFSET id) eqn:R.
  - apply in_range_spec in R. destruct (nth_error ds (Z.to_nat (id - OFFSET))) as [h|] eqn:E.
    + exists h. repeat split; auto. intro; tauto.
    + apply nth_error_None in E. lia.
  - assert (NR : ~ OFFSET <= id < OFFSET + RANGE) by (intro Q; apply in_range_spec in Q; congruence).
    destruct (nth_error ds (Z.to_nat RANGE)) as [h|] eqn:E.
    + exists h. repeat split; auto. intro; tauto.
    + apply nth_error_None in E. lia.
Qed.
End P.

(** Refuted: "a copy of a service is as good as the original". The copy (service 1) has its own unhandled handler,
    but an id without a handler goes to the handler of the original; when the original is destroyed, the call uses
    a dead object (None), although the copy lives. For every range that is not empty. *)
Theorem C67_copy_refuted : forall F (h : F) RANGE OFFSET, 0 < RANGE -> 0 <= OFFSET -> OFFSET + RANGE < 2^64 ->
  (exists m, run RANGE OFFSET (fun _ => None) [Construct 0; Copy 1 0; Reg 1 (RegisterUnhandled h)] = Some m /\
             call RANGE OFFSET m 1 OFFSET = Some [] /\ call RANGE OFFSET m 1 (OFFSET + RANGE) = Some [(h, OFFSET + RANGE)]) /\
  (exists m, run RANGE OFFSET (fun _ => None) [Construct 0; Copy 1 0; Reg 1 (RegisterUnhandled h); Destroy 0] = Some m /\
             call RANGE OFFSET m 1 OFFSET = None).
Proof.
  intros F h RANGE OFFSET R O S.
  assert (I1 : in_range RANGE OFFSET OFFSET = true) by (apply in_range_spec; lia).
  assert (I2 : in_range RANGE OFFSET (OFFSET + RANGE) = false).
  { apply not_true_iff_false. intro Q. apply in_range_spec in Q; lia. }
  assert (E : nth_error (repeat (@Unhandled F 0) (Z.to_nat RANGE)) (Z.to_nat (OFFSET - OFFSET)) = Some (Unhandled 0)) by (apply nth_error_repeat; lia).
  split; (eexists; split; [reflexivity|]).
  - split; unfold call; cbn -[in_range Z.to_nat]; rewrite ?I1, ?I2, ?E; reflexivity.
  - unfold call; cbn -[in_range Z.to_nat]. rewrite I1, E. reflexivity.
Qed.

(** Refuted: "the ids may be any size_t values": for ids that end at the largest size_t the sum Offset + Range is 0
    and no handler is ever called. *)
Theorem C67_top_refuted : forall F (h : F) RANGE, 0 < RANGE < 2^64 -> let OFFSET := 2^64 - RANGE in
  exists m, run RANGE OFFSET (fun _ => None) [Construct 0; Reg 0 (Register OFFSET h)] = Some m /\ call RANGE OFFSET m 0 OFFSET = Some [].
Proof.
  intros F h RANGE R OFFSET.
  assert (I : in_range RANGE OFFSET OFFSET = false).
  { unfold in_range, limit, OFFSET. replace (2^64 - RANGE + RANGE) with (2^64) by lia. rewrite Z.mod_same by lia.
    apply andb_false_iff. right. apply Z.ltb_ge. lia. }
  eexists. split.
  - cbn -[in_range Z.to_nat Z.sub Z.pow OFFSET]. unfold register_delegate. cbn -[in_range Z.to_nat Z.sub Z.pow OFFSET]. rewrite I. reflexivity.
  - unfold call; cbn -[in_range Z.to_nat Z.sub Z.pow OFFSET]. rewrite I. reflexivity.
Qed.

(** a concrete case that meets the hypotheses: ids 10 .. 12, handlers are numbers *)
Example C67_case : exists m,
  run 3 10 (construct 3 (fun _ => None) 0) [Reg 0 (Register 11 7); Construct 1; Reg 1 (Register 11 5); Reg 0 (Register 11 8); Reg 0 (RegisterUnhandled 9); Reg 0 (Register 13 1)] = Some m /\
  call 3 10 m 0 11 = Some [(8, 11)] /\ call 3 10 m 0 12 = Some [(9, 12)] /\ call 3 10 m 0 13 = Some [(9, 13)] /\ call 3 10 m 1 11 = Some [(5, 11)] /\ call 3 10 m 1 10 = Some [].
Proof. eexists. split; [reflexivity|]. repeat split. Qed.

Print Assumptions C67_call.
Print Assumptions C67_register_total.
Print Assumptions C67_copy.
Print Assumptions C67_static.
Print Assumptions C67_copy_refuted.
Print Assumptions C67_top_refuted.
