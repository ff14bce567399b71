From Coq Require Import List Arith Lia Bool.
From Verif Require Import RA SpscModel SpscSpec SpscProofs SpscProofs2.
Import ListNotations.

Section Fresh.
  Variable T : Type.
  Variable R : nat.
  Hypothesis HR : 2 <= R.
  Notation state := (sys T (op T) (res T)).
  Notation stp := (step (code T R) (allowed T)).

  Definition nbr (bad : res T -> bool) (p : prog T (res T)) : Prop :=
    match p with Ret r => bad r = false | _ => True end.

  Fixpoint guarded (fl : nat) (bad : res T -> bool) (p : prog T (res T)) : Prop :=
    match p with
    | Ret _ => True
    | Load l o k => forall v, guarded fl bad (k v) /\ ((l = fl /\ o = Acq) \/ nbr bad (k v))
    | Store _ _ _ k => guarded fl bad k /\ nbr bad k
    | Construct _ _ k => guarded fl bad k /\ nbr bad k
    | Destroy _ k => guarded fl bad k /\ nbr bad k
    | Get _ k => forall x, guarded fl bad (k x) /\ nbr bad (k x)
    end.

  Definition fl (t : tid) : nat := match t with Prod => Rd | Cons => Wr end.

  Lemma guarded_code t o : guarded (fl t) (claims t o) (code T R o).
  Proof.
    destruct t, o; cbn; repeat (intros; split; auto); cbn;
      try (destruct (Nat.eqb _ _); cbn; auto; fail);
      repeat match goal with |- context [if ?b then _ else _] => destruct b; cbn end; intuition.
  Qed.

  Definition W (t : tid) (past : list (act (op T))) (l : list (op T * res T)) : Prop :=
    exists a1 a2 s1, past = a1 ++ a2 /\ exec_all T R a1 = Next s1 /\ slog s1 t = l /\
      scur s1 t <> None /\ claim_holds (R - 1) t s1.

  Lemma W_mono t past l e : W t past l -> W t (past ++ e) l.
  Proof. intros (a1 & a2 & s1 & -> & H). exists a1, (a2 ++ e), s1. rewrite app_assoc. auto. Qed.

  Definition Inv4 (past : list (act (op T))) (s : state) : Prop :=
    Inv T R s /\ exec_all T R past = Next s /\
    (forall t o p, scur s t = Some (o, p) -> guarded (fl t) (claims t o) p) /\
    (forall t o r l1 l2, slog s t = l1 ++ (o, r) :: l2 -> claims t o r = true -> W t past l1) /\
    (forall t o r, scur s t = Some (o, Ret r) -> claims t o r = true -> W t past (slog s t)).

  Lemma claim_now s t o r :
    Inv T R s -> scur s t = Some (o, Ret r) -> claims t o r = true ->
    S (va (sview s t) (fl t)) = length (hist (smem s) (fl t)) ->
    claim_holds (R - 1) t s.
  Proof.
    intros (acc & nc & rs & js & pend & d & M & KP & KC & _) Hs Hc Hf.
    destruct t; cbn [fl claim_holds] in *.
    - unfold curP in KP. rewrite Hs in KP. destruct KP as (_ & KP & Ha). cbn in KP. destruct KP as (-> & KP).
      rewrite (i_vpr _ _ _ _ _ _ _ _ _ _ _ M), (i_lr _ _ _ _ _ _ _ _ _ _ _ M) in Hf.
      assert (Hr : removed (slog s Cons) <= nc).
      { unfold curC in KC. destruct (scur s Cons) as [[o' p']|]; [destruct KC as (_ & _ & H); exact H|destruct KC; lia]. }
      destruct o; try discriminate; destruct r as [[]| |]; try discriminate.
      + destruct KP as (<- & Hl). lia.
      + destruct KP as (<- & Hl). destruct Hl as [Hl _]. specialize (Hl eq_refl). lia.
    - unfold curC in KC. rewrite Hs in KC. destruct KC as (_ & KC & Ha). cbn in KC. destruct KC as (-> & KC).
      rewrite (i_vcw _ _ _ _ _ _ _ _ _ _ _ M), (i_lw _ _ _ _ _ _ _ _ _ _ _ M) in Hf.
      assert (Hr : length (accepted (slog s Prod)) <= length acc).
      { unfold curP in KP. destruct (scur s Prod) as [[o' p']|].
        - destruct KP as (_ & _ & [->|(x & _ & ->)]); rewrite ?app_length; lia.
        - destruct KP as (_ & ->). lia. }
      rewrite firstn_length in KC.
      destruct o; try discriminate; destruct r as [[]|[]|]; try discriminate;
        destruct KC as (H1 & H2); try lia.
  Qed.

  Lemma snoc_inv {A} (l l1 l2 : list A) x y : l ++ [x] = l1 ++ y :: l2 ->
    (l2 = [] /\ l1 = l /\ x = y) \/ (exists l2', l = l1 ++ y :: l2').
  Proof.
    destruct l2 as [|z l2] using rev_ind; intros H.
    - apply app_inj_tail in H. destruct H; subst; auto.
    - right. exists l2. rewrite app_comm_cons, app_assoc in H. apply app_inj_tail in H. tauto.
  Qed.

  Lemma tid_cases t u : (tid_eqb t u = true /\ t = u) \/ (tid_eqb t u = false /\ t <> u).
  Proof. destruct t, u; cbn; auto; right; split; auto; discriminate. Qed.

  Lemma step_Inv4 past s a s' :
    Inv4 past s ->
    match a with
    | Step t c => match scur s t with
                  | Some (_, Load l _ _) => S c = length (hist (smem s) l)
                  | _ => True end
    | _ => True end ->
    stp s a = Next s' -> Inv4 (past ++ [a]) s'.
  Proof.
    intros (HI & Hrun & HG & HL & HC) Hf Hst.
    assert (HI' : Inv T R s').
    { destruct HI as (acc & nc & rs & js & pend & d & H). pose proof (step_SI T R HR s a _ _ _ _ _ _ H) as H1.
      rewrite Hst in H1. exact H1. }
    assert (Hrun' : exec_all T R (past ++ [a]) = Next s').
    { unfold exec_all in *. rewrite run_app, Hrun. cbn. now rewrite Hst. }
    split; [exact HI'|]. split; [exact Hrun'|].
    destruct a as [t o|t c]; cbn [step] in Hst.
    - destruct (scur s t) as [q|] eqn:Eq; [discriminate|].
      destruct (allowed T t o) eqn:Eal; [|discriminate]. injection Hst as <-. cbn [scur slog].
      split; [|split].
      + intros u o' p'. unfold tset. destruct (tid_cases t u) as [(-> & ->)|(-> & Hne)].
        * intros [= <- <-]. apply guarded_code.
        * apply HG.
      + intros u o' r l1 l2 H1 H2. apply W_mono. eapply HL; eauto.
      + intros u o' r. unfold tset. destruct (tid_cases t u) as [(-> & ->)|(-> & Hne)].
        * intros [= <- H1]. destruct o; discriminate H1.
        * intros H1 H2. apply W_mono. eapply HC; eauto.
    - destruct (scur s t) as [[o p]|] eqn:Eq; [|discriminate].
      assert (Hgen : forall p' v' m', exec t c p (sview s t) (smem s) = Next (p', v', m') ->
         s' = mksys m' (tset (sview s) t v') (tset (scur s) t (Some (o, p'))) (slog s) ->
         (forall u o' p0, scur s' u = Some (o', p0) -> guarded (fl u) (claims u o') p0) /\
         (forall u o' r l1 l2, slog s' u = l1 ++ (o', r) :: l2 -> claims u o' r = true -> W u (past ++ [Step t c]) l1) /\
         (forall u o' r, scur s' u = Some (o', Ret r) -> claims u o' r = true -> W u (past ++ [Step t c]) (slog s' u))).
      { intros p' v' m' He ->. cbn [scur slog].
        pose proof (HG t o p Eq) as Hg.
        assert (Hg' : guarded (fl t) (claims t o) p' /\
          (nbr (claims t o) p' \/ exists k, p = Load (fl t) Acq k)).
        { destruct p; cbn in He, Hg; try discriminate.
          - destruct (_ <=? c); [|discriminate]. destruct (nth_error _ c) as [ms|]; [|discriminate].
            injection He as <- <- <-. destruct (Hg (mval ms)) as (H1 & [[-> ->]|H2]); split; auto. right. eauto.
          - injection He as <- <- <-. tauto.
          - destruct (access _ _ _ _) as [[]|]; [|discriminate]. destruct (cval _); [discriminate|]. injection He as <- <- <-. tauto.
          - destruct (access _ _ _ _) as [[]|]; [|discriminate]. destruct (cval _); [|discriminate]. injection He as <- <- <-. tauto.
          - destruct (access _ _ _ _) as [[]|]; [|discriminate]. destruct (cval _) as [x|]; [|discriminate]. injection He as <- <- <-.
            specialize (Hg x). tauto. }
        split; [|split].
        - intros u o' p0. unfold tset. destruct (tid_cases t u) as [(-> & ->)|(-> & Hne)].
          + intros [= <- <-]. apply Hg'.
          + apply HG.
        - intros u o' r l1 l2 H1 H2. apply W_mono. eapply HL; eauto.
        - intros u o' r. unfold tset at 1. destruct (tid_cases t u) as [(-> & ->)|(-> & Hne)].
          + intros [= <- ->] H2. destruct Hg' as (_ & [H3|(k & ->)]); [cbn in H3; congruence|].
            exists (past ++ [Step u c]), [], (mksys m' (tset (sview s) u v') (tset (scur s) u (Some (o, Ret r))) (slog s)).
            split; [now rewrite app_nil_r|]. split; [exact Hrun'|]. split; [reflexivity|].
            cbn [scur]. assert (Hcu : tset (scur s) u (Some (o, Ret r)) u = Some (o, Ret r)).
            { unfold tset. destruct u; reflexivity. }
            split; [rewrite Hcu; discriminate|].
            eapply claim_now; eauto.
            cbn [sview smem]. cbn in He. destruct (_ <=? c); [|discriminate].
            destruct (nth_error (hist (smem s) (fl u)) c) as [ms|] eqn:En; [|discriminate].
            injection He as He1 <- <-. rewrite <- Hf.
            replace (tset (sview s) u _ u) with (vjoin (mkview (nset (va (sview s u)) (fl u) c) (vc (sview s u))) (mview ms))
              by (unfold tset; destruct u; reflexivity).
            cbn [vjoin va]. rewrite nset_same.
            destruct HI as (acc & nc & rs & js & pend & d & M & _). destruct u; cbn [fl] in *.
            * destruct (i_r _ _ _ _ _ _ _ _ _ _ _ M _ _ En) as (_ & H & _). lia.
            * destruct (i_w _ _ _ _ _ _ _ _ _ _ _ M _ _ En) as (_ & H & _). lia.
          + intros H1 H2. apply W_mono. eapply HC; eauto. }
      destruct p as [r| | | | |];
        try (match type of Hst with context [exec ?a ?b ?c ?d ?e] =>
               destruct (exec a b c d e) as [[[p' v'] m']| |] eqn:Ee; try discriminate;
               injection Hst as <-; eapply Hgen; eauto end).
      clear Hgen. injection Hst as <-. cbn [scur slog]. split; [|split].
      + intros u o' p'. unfold tset. destruct (tid_cases t u) as [(-> & ->)|(-> & Hne)]; [discriminate|apply HG].
      + intros u o' r' l1 l2. unfold tset. destruct (tid_cases t u) as [(-> & ->)|(-> & Hne)].
        * intros H1 H2. apply snoc_inv in H1. destruct H1 as [(-> & -> & [= -> ->])|(l2' & H1)].
          -- apply W_mono. eapply HC; eauto.
          -- apply W_mono. eapply HL; eauto.
        * intros H1 H2. apply W_mono. eapply HL; eauto.
      + intros u o' r'. unfold tset at 1. destruct (tid_cases t u) as [(-> & ->)|(E & Hne)]; [discriminate|].
        intros H1 H2. apply W_mono. unfold tset. rewrite E in *. eapply HC; eauto.
  Qed.

  Lemma run_Inv4 acts : forall past s s',
    Inv4 past s -> fresh R s acts -> run (code T R) (allowed T) s acts = Next s' -> Inv4 (past ++ acts) s'.
  Proof.
    induction acts as [|a acts IH]; intros past s s' HI Hf Hr.
    - cbn in Hr. injection Hr as <-. now rewrite app_nil_r.
    - cbn [fresh run] in *. destruct Hf as (Hf1 & Hf2). destruct (stp s a) as [s2| |] eqn:Es; try discriminate.
      replace (past ++ a :: acts) with ((past ++ [a]) ++ acts) by (rewrite <- app_assoc; reflexivity).
      eapply IH; eauto. eapply step_Inv4; eauto.
  Qed.

  Lemma truthful acts s t o r l1 l2 :
    fresh R (init_sys R) acts -> exec_all T R acts = Next s ->
    slog s t = l1 ++ (o, r) :: l2 -> claims t o r = true ->
    exists a1 a2 s1, acts = a1 ++ a2 /\ exec_all T R a1 = Next s1 /\ slog s1 t = l1 /\
      scur s1 t <> None /\ claim_holds (R - 1) t s1.
  Proof.
    intros Hf Hr Hl Hc.
    assert (H0 : Inv4 [] (init_sys R)).
    { split; [apply Inv_init; exact HR|]. split; [reflexivity|]. split; [|split]; cbn; try discriminate.
      intros u o' r' m1 m2 H. destruct m1; discriminate. }
    destruct (run_Inv4 acts [] _ _ H0 Hf Hr) as (_ & _ & _ & HL & _).
    exact (HL t o r l1 l2 Hl Hc).
  Qed.

  (** ** progress *)
  Fixpoint bounded (n : nat) (p : prog T (res T)) : Prop :=
    match n, p with
    | _, Ret _ => True
    | 0, _ => False
    | S n, Load _ _ k => forall v, bounded n (k v)
    | S n, Store _ _ _ k => bounded n k
    | S n, Construct _ _ k => bounded n k
    | S n, Destroy _ k => bounded n k
    | S n, Get _ k => forall x, bounded n (k x)
    end.

  Lemma bounded_code o : bounded 5 (code T R o).
  Proof.
    destruct o; cbn; repeat (intros; split; auto); cbn; intros;
      repeat match goal with |- context [if ?b then _ else _] => destruct b; cbn end; intuition.
  Qed.

  Lemma exec_bounded t c n p v m p' v' m' :
    bounded n p -> exec t c p v m = Next (p', v', m') -> exists n', n = S n' /\ bounded n' p'.
  Proof.
    destruct n as [|n]; destruct p; cbn; try contradiction; try discriminate; intros Hb He; exists n; split; auto.
    - destruct (_ <=? c); [|discriminate]. destruct (nth_error _ c); [|discriminate]. injection He as <- <- <-. apply Hb.
    - injection He as <- <- <-. apply Hb.
    - destruct (access _ _ _ _) as [[]|]; [|discriminate]. destruct (cval _); [discriminate|]. injection He as <- <- <-. apply Hb.
    - destruct (access _ _ _ _) as [[]|]; [|discriminate]. destruct (cval _); [|discriminate]. injection He as <- <- <-. apply Hb.
    - destruct (access _ _ _ _) as [[]|]; [|discriminate]. destruct (cval _); [|discriminate]. injection He as <- <- <-. apply Hb.
  Qed.

  Lemma log_grows s a s' t : stp s a = Next s' -> length (slog s t) <= length (slog s' t).
  Proof.
    destruct a as [u o|u c]; cbn [step]; destruct (scur s u) as [[o' p]|]; try discriminate.
    - destruct (allowed T u o); [|discriminate]. intros [= <-]. cbn. lia.
    - assert (Hgen : match exec u c p (sview s u) (smem s) with
                | Next (p', v', m') => Next (mksys m' (tset (sview s) u v') (tset (scur s) u (Some (o', p'))) (slog s))
                | Disabled => Disabled | Undef => Undef end = Next s' -> length (slog s t) <= length (slog s' t)).
      { destruct (exec _ _ _ _ _) as [[[? ?] ?]| |]; try discriminate. intros [= <-]. cbn. lia. }
      destruct p; try exact Hgen. intros [= <-]. cbn. unfold tset. destruct (tid_eqb u t) eqn:E; [|lia].
      assert (u = t) by (destruct u, t; auto; discriminate). subst. rewrite app_length. lia.
  Qed.
  Lemma log_grows_run acts : forall s s' t, run (code T R) (allowed T) s acts = Next s' -> length (slog s t) <= length (slog s' t).
  Proof.
    induction acts as [|a acts IH]; intros s s' t; cbn [run]; [intros [= <-]; lia|].
    destruct (stp s a) as [s2| |] eqn:E; try discriminate. intros H.
    pose proof (log_grows _ _ _ t E). pose proof (IH _ _ t H). lia.
  Qed.

  Lemma wait_free_run acts : forall n s s' t o p,
    scur s t = Some (o, p) -> bounded n p ->
    run (code T R) (allowed T) s acts = Next s' -> n < count_steps t acts ->
    length (slog s t) < length (slog s' t).
  Proof.
    induction acts as [|a acts IH]; intros n s s' t o p Hc Hb Hr Hn; [cbn in Hn; lia|].
    cbn [run] in Hr. destruct (stp s a) as [s2| |] eqn:E; try discriminate.
    unfold count_steps in Hn. cbn [filter] in Hn.
    destruct (is_step_of T t a) eqn:Ei; cbn [length] in Hn.
    - destruct a as [u o'|u c]; cbn in Ei; [discriminate|].
      assert (t = u) by (destruct t, u; auto; discriminate). subst u.
      cbn [step] in E. rewrite Hc in E.
      assert (Hret : forall r, p = Ret r -> length (slog s t) < length (slog s' t)).
      { intros r ->. injection E as <-. pose proof (log_grows_run _ _ _ t Hr) as H. cbn in H. unfold tset in H.
        rewrite Ei in H. rewrite app_length in H. cbn in H. lia. }
      assert (Hstep : match exec t c p (sview s t) (smem s) with
                | Next (p', v', m') => Next (mksys m' (tset (sview s) t v') (tset (scur s) t (Some (o, p'))) (slog s))
                | Disabled => Disabled | Undef => Undef end = Next s2 -> length (slog s t) < length (slog s' t)).
      { destruct (exec t c p (sview s t) (smem s)) as [[[p' v'] m']| |] eqn:Ee; try discriminate.
        intros [= <-]. destruct (exec_bounded _ _ _ _ _ _ _ _ _ Hb Ee) as (n' & -> & Hb').
        apply (IH n' _ s' t o p') in Hr; auto.
        - cbn. unfold tset. now rewrite Ei.
        - unfold count_steps. lia. }
      destruct p; try (apply Hstep; exact E). eapply Hret; reflexivity.
    - assert (Hs2 : scur s2 t = Some (o, p) /\ slog s2 t = slog s t).
      { destruct a as [u o'|u c]; cbn [step] in E; cbn in Ei.
        - destruct (scur s u) eqn:Eu; [discriminate|]. destruct (allowed T u o'); [|discriminate]. injection E as <-. cbn.
          unfold tset. destruct (tid_cases u t) as [(_ & ->)|(-> & _)]; [congruence|auto].
        - destruct (scur s u) as [[o' q]|]; [|discriminate].
          destruct (tid_cases u t) as [(_ & ->)|(E2 & _)]; [destruct t; discriminate|].
          assert (Hgen : match exec u c q (sview s u) (smem s) with
                | Next (p', v', m') => Next (mksys m' (tset (sview s) u v') (tset (scur s) u (Some (o', p'))) (slog s))
                | Disabled => Disabled | Undef => Undef end = Next s2 -> scur s2 t = Some (o, p) /\ slog s2 t = slog s t).
          { destruct (exec u c q (sview s u) (smem s)) as [[[? ?] ?]| |]; try discriminate. intros [= <-]. cbn. unfold tset. rewrite E2. auto. }
          destruct q; try (apply Hgen; exact E). injection E as <-. cbn. unfold tset. rewrite E2. auto. }
      destruct Hs2 as (H1 & H2). rewrite <- H2. eapply IH; eauto.
  Qed.

  (** a thread that is inside a call can always take a step *)
  Lemma never_stuck acts s t : exec_all T R acts = Next s -> scur s t <> None ->
    exists c s', stp s (Step t c) = Next s'.
  Proof.
    intros Hr Hc. pose proof (exec_all_inv T R HR acts) as HI. rewrite Hr in HI.
    destruct (scur s t) as [[o p]|] eqn:Ec; [|congruence].
    destruct HI as (acc & nc & rs & js & pend & d & HS).
    pose proof HS as (M & _).
    exists (length (hist (smem s) (match p with Load l _ _ => l | _ => 0 end)) - 1).
    pose proof (step_SI T R HR s (Step t (length (hist (smem s) (match p with Load l _ _ => l | _ => 0 end)) - 1)) _ _ _ _ _ _ HS) as H1.
    destruct (stp s _) as [s2| |] eqn:E; [eauto| |contradiction]. exfalso.
    cbn [step] in E. rewrite Ec in E.
    destruct p as [r|l or k|l v or k|i x k|i k|i k]; cbn in E; try discriminate.
    - (* load *)
      assert (Hl : l = Wr \/ l = Rd).
      { destruct HS as (_ & KP & KC & _). destruct t.
        - unfold curP in KP. rewrite Ec in KP. destruct KP as (_ & KP & _). cbn in KP.
          destruct (Nat.eqb_spec l Wr); [auto|]. destruct KP; auto.
        - unfold curC in KC. rewrite Ec in KC. destruct KC as (_ & KC & _). cbn in KC.
          destruct (Nat.eqb_spec l Rd); [auto|]. destruct KC; auto. }
      assert (Hv : va (sview s t) l <= length (hist (smem s) l) - 1 /\ 0 < length (hist (smem s) l)).
      { destruct M, t, Hl as [-> | ->]; lia. }
      destruct (Nat.leb_spec (va (sview s t) l) (length (hist (smem s) l) - 1)); [|lia].
      destruct (nth_error (hist (smem s) l) (length (hist (smem s) l) - 1)) eqn:En; [discriminate|].
      apply nth_error_None in En. lia.
    - destruct (access (smem s) t (sview s t) i) as [[]|]; [|discriminate]. destruct (cval (cells (smem s) i)); discriminate.
    - destruct (access (smem s) t (sview s t) i) as [[]|]; [|discriminate]. destruct (cval (cells (smem s) i)); discriminate.
    - destruct (access (smem s) t (sview s t) i) as [[]|]; [|discriminate]. destruct (cval (cells (smem s) i)); discriminate.
  Qed.
End Fresh.
