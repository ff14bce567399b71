(** A writer that works in blocks dividing the buffer always wraps at its end (support for C04, C05). *)
From Coq Require Import List Arith Lia Bool.
From Verif Require Import Util RA BipModel BipSpec BipProofs BipSteps BipSteps2 BipSteps3 BipSys.
Import ListNotations.

Section Blocks.
  Variable T : Type.
  Variable MAX : nat.
  Variable promoted : bool.
  Variable R : nat.
  Variable H : nat.
  Notation state := (sys T (op T) (res T)).
  Notation al := (fun t o => role T t o && modest T MAX promoted R o).
  Notation stp := (step (code T MAX promoted R) al).

  (** block writers: request [H] and commit all of it or nothing *)
  Definition blk (a : act (op T)) : Prop :=
    match a with
    | Invoke Prod (BWrite q dd) => q = Reserve H /\ forall i n, length (firstn n (dd i n)) = 0 \/ length (firstn n (dd i n)) = H
    | _ => True
    end.

  Fixpoint okB (w : nat) (p : prog T (res T)) : Prop :=
    match p with
    | Ret _ => True
    | Load l _ k => if Nat.eqb l Wr then okB w (k w) else forall v, (l = Rd -> v <= R) -> okB w (k v)
    | Store l v _ k => if Nat.eqb l Wr then (v < w -> w = R) /\ (exists q, v = q * H) /\ v <= R /\ okB v k else okB w k
    | Construct _ _ k => okB w k
    | Destroy _ k => okB w k
    | Get _ k => forall x, okB w (k x)
    end.

  Lemma okB_fill w xs : forall i k, okB w k -> okB w (fill T i xs k).
  Proof. induction xs as [|x xs IH]; intros i k Hk; cbn; auto. Qed.

  Lemma mult_end q w : 0 < H -> w <= R -> w = q * H -> (exists z, R = z * H) -> R - w < H -> w = R.
  Proof. intros H0 Hw -> (z & Hz) L. rewrite Hz in *. assert (q <= z) by nia. assert (z < S q) by nia. nia. Qed.

  Lemma okB_code w o : R <= MAX -> 0 < H -> w <= R -> (exists q, w = q * H) -> (exists z, R = z * H) -> blk (Invoke Prod o) -> role T Prod o && modest T MAX promoted R o = true ->
    okB w (code T MAX promoted R o).
  Proof.
    intros HM H0 Hw (q0 & Hq) Hz Hb Hal. apply andb_true_iff in Hal. destruct Hal as (Ha & Hm). destruct o as [q dd| | | | | |]; try discriminate; cbn [code].
    - destruct Hb as (-> & Hlen). unfold get_write_reserve. cbn [okB]. change (Wr =? Wr) with true. change (Rd =? Wr) with false. cbn iota.
      intros r Hr. specialize (Hr eq_refl). destruct (write_span MAX promoted R w r H MAX) as [i n] eqn:Es.
      specialize (Hlen i n). set (xs := firstn n (dd i n)) in *. assert (Hln : length xs <= n) by (unfold xs; rewrite firstn_length; lia). clearbody xs.
      apply okB_fill. unfold apply_write_reserve. destruct (Nat.ltb_spec 0 (length xs)) as [Lx|Lx]; [|exact I].
      assert (El : length xs = H) by lia. rewrite El.
      (* the span *)
      assert (Hsp : (i = w /\ w + H <= R) \/ (i = 0 /\ w = R /\ H <= R)).
      { cbn [modest] in Hm. apply orb_true_iff in Hm. assert (Hm' : promoted = true \/ H + R <= MAX) by (destruct Hm as [Hm|Hm]; [auto|apply Nat.leb_le in Hm; auto]).
        assert (Hu : uk_ok R w (negb (r <=? w), r)). { unfold uk_ok. cbn. destruct (Nat.leb_spec r w); cbn; lia. }
        pose proof (write_span_ok MAX promoted R HM w (negb (r <=? w), r) H MAX i n Hu Hm' Es) as [(-> & A & B)|(-> & A & B)]; cbn [fst snd] in *.
        - left. lia.
        - destruct (Nat.eq_dec w 0) as [->|Nw]; [lia|]. right. split; [reflexivity|].
          assert (Hw' : w = R).
          { apply (mult_end q0); auto. destruct (Nat.leb_spec r w) as [L|L]; [|discriminate]. unfold write_span in Es. rewrite (proj2 (Nat.leb_le _ _) L) in Es.
            rewrite (sub_ok MAX R HM R w) in Es by lia. destruct (Nat.leb_spec H (R - w)); [|lia]. injection Es as E1 _. lia. }
          split; [exact Hw'|]. lia. }
      assert (Hv : add MAX promoted i H = i + H) by (apply (add_ok MAX promoted R HM); lia).
      assert (Hfin : (i + H < w -> w = R) /\ (exists q, i + H = q * H) /\ i + H <= R /\ okB (i + H) (Ret (RWrite i n xs))).
      { split; [lia|]. split; [|split; [lia|exact I]]. destruct Hsp as [(-> & _)|(-> & _)]; [exists (S q0); lia|exists 1; lia]. }
      cbn [okB]. change (Wr =? Wr) with true. change (Rd =? Wr) with false. cbn iota. intros r' Hr'.
      destruct (w <? r').
      + destruct (Nat.eqb i w && (add MAX promoted H 1 <=? r')); [|exact I]. rewrite Hv. exact Hfin.
      + destruct (Nat.eqb i w).
        * destruct (H <=? sub MAX R w); [|exact I]. rewrite Hv. cbn [okB]. change (La =? Wr) with false. change (Wr =? Wr) with true. cbn iota. exact Hfin.
        * destruct (Nat.eqb i 0 && (add MAX promoted H 1 <=? r')); [|exact I]. rewrite Hv. exact Hfin.
    - cbn. intros v Hv. destruct (v <=? w); cbn; auto.
    - cbn. intros v Hv. destruct (v <=? w); cbn; auto. match goal with |- context[if ?b then _ else _] => destruct b end; cbn; auto.
    - cbn. intros v Hv. destruct (v <=? w); cbn; auto.
    - cbn. intros v Hv. destruct (v <=? w); cbn; auto. match goal with |- context[if ?b then _ else _] => destruct b end; cbn; auto.
  Qed.

  Definition BI (s : state) : Prop :=
    exists l w, write_positions s = l ++ [w] /\ (exists q, w = q * H) /\ w <= R /\ Forall (fun x => x = R) (wraps (write_positions s)) /\
      match scur s Prod with Some (_, p) => okB w p | None => True end.

  Lemma asc_const l : Forall (fun x => x = R) l -> ascending l.
  Proof. induction 1 as [|x l -> Hl IH]; cbn; auto. destruct l; auto. split; [|exact IH]. inversion Hl; subst. lia. Qed.

  Lemma step_BI s a : R <= MAX -> 0 < H -> (exists z, R = z * H) -> Inv T MAX promoted R s -> BI s -> blk a ->
    match stp s a with Next s' => BI s' | _ => True end.
  Proof.
    intros HM H0 Hz HI (l & w & Hl & Hq & Hw & Hr & Hp) Hb.
    destruct a as [t o|t c]; cbn [step].
    - destruct (scur s t) eqn:Eq; [exact I|]. destruct (role T t o && modest T MAX promoted R o) eqn:Eal; [|exact I].
      exists l, w. unfold write_positions in *. cbn [smem scur]. conj; auto. destruct t; cbn [tset tid_eqb]; [|exact Hp]. apply okB_code; auto.
    - destruct (scur s t) as [[o p]|] eqn:Eq; [|exact I]. destruct t.
      + rewrite Eq in Hp. destruct HI as (es & acc & w' & wl & nW & rl & nR & rs & js & lv & nL & pn & xs & fl & dn & d & HS). destruct HS as (M & _).
        pose proof (wr_last _ _ _ _ _ _ _ _ _ _ _ _ _ _ _ _ _ _ _ _ _ M) as (l2 & El). unfold write_positions in *. rewrite Hl in El. apply app_inj_tail in El. destruct El as (_ & <-).
        destruct p as [r|lo or k|lo v or k|i x k|i k|i k].
        * exists l, w. cbn [smem scur tset tid_eqb]. conj; auto.
        * cbn [exec]. destruct (Nat.leb_spec (va (sview s Prod) lo) c) as [Hle|]; [|exact I]. destruct (nth_error (hist (smem s) lo) c) as [ms|] eqn:En; [|exact I].
          exists l, w. unfold write_positions. cbn [smem scur tset tid_eqb]. conj; auto. cbn [okB] in Hp. pose proof (nth_error_lt _ _ _ En) as Hc. destruct M.
          destruct (Nat.eqb_spec lo Wr) as [->|].
          -- assert (c = nW) by lia. subst c. destruct (i_w _ _ En) as (V & _). rewrite i_wn in V. cbn in V. now rewrite V.
          -- apply Hp. intros ->. destruct (i_r _ _ En) as (V & _). rewrite V. pose proof (i_rp c ltac:(lia)) as P. unfold pos in P. specialize (i_es (fst (rl c))). lia.
        * cbn [exec]. cbn [okB] in Hp. unfold BI, write_positions. cbn [smem scur tset tid_eqb hist]. unfold nset. destruct (Nat.eqb_spec lo Wr) as [->|].
          -- destruct Hp as (P1 & P2 & P3 & P4). exists (map mval (hist (smem s) Wr)), v. rewrite map_app. cbn [map mval]. conj; auto.
             rewrite Hl, <- app_assoc. cbn [app]. rewrite wraps_snoc. rewrite <- Hl. apply Forall_app. split; [exact Hr|]. destruct (Nat.ltb_spec v w); [|constructor]. constructor; [auto|constructor].
          -- exists l, w. conj; auto.
        * cbn [exec]. destruct (access (smem s) Prod (sview s Prod) i) as [[]|]; [|exact I]. destruct (cval (cells (smem s) i)); [exact I|]. exists l, w. unfold write_positions. cbn. conj; auto.
        * cbn [exec]. destruct (access (smem s) Prod (sview s Prod) i) as [[]|]; [|exact I]. destruct (cval (cells (smem s) i)); [|exact I]. exists l, w. unfold write_positions. cbn. conj; auto.
        * cbn [exec]. destruct (access (smem s) Prod (sview s Prod) i) as [[]|]; [|exact I]. destruct (cval (cells (smem s) i)); [|exact I]. exists l, w. unfold write_positions. cbn. conj; auto.
      + destruct HI as (es & acc & w' & wl & nW & rl & nR & rs & js & lv & nL & pn & xs & fl & dn & d & HS).
        pose proof (C_gen _ _ _ _ _ _ _ _ _ _ _ _ _ _ _ _ _ _ _ _ _ _ _ c HS Eq) as HG.
        destruct p as [r| | | | |]; try (match type of HG with context [exec ?a ?b ?c ?d ?e] => destruct (exec a b c d e) as [[[p' v'] m']| |]; [|exact I|exact I] end;
          destruct HG as (Hh & _); exists l, w; unfold write_positions in *; cbn [smem scur tset tid_eqb]; rewrite Hh; conj; auto).
        exists l, w. cbn [smem scur tset tid_eqb]. conj; auto.
  Qed.

  Lemma run_blocks acts : R <= MAX -> 0 < H -> (exists z, R = z * H) -> Forall blk acts -> forall s, Inv T MAX promoted R s -> BI s ->
    match run (code T MAX promoted R) al s acts with Next s' => Inv T MAX promoted R s' /\ BI s' | Disabled => True | Undef => False end.
  Proof.
    intros HM H0 Hz. induction acts as [|a acts IH]; intros Hb s HI HB; cbn [run]; [auto|]. inversion Hb as [|? ? Hb1 Hb2]; subst.
    pose proof (step_BI s a HM H0 Hz HI HB Hb1) as HB'. pose proof (step_SI T MAX promoted R s a HM HI) as HI'.
    destruct (stp s a) as [s'| |]; auto. apply IH; auto. apply HI'. apply asc_const. destruct HB' as (? & ? & ? & ? & ? & ? & _); auto.
  Qed.
  Lemma BI_init : BI (init_sys R).
  Proof. exists [], 0. cbn. conj; auto; try lia. exists 0. lia. Qed.
End Blocks.
