(** Preservation of the bip buffer invariant: the reader (support for C04, C05). *)
From Coq Require Import List Arith Lia Bool.
From Verif Require Import Util RA BipModel BipSpec BipProofs BipSteps BipSteps2.
Import ListNotations.

Section CSteps.
  Variable T : Type.
  Variable R : nat.
  Notation MI := (MI T R).
  Ltac fields := constructor; cbn [hist cells nslots va vc mval mview]; auto.

  (** the reader position in the stream, what the reader knows, and the known stream *)
  Definition ncof (es : list nat) (rl : nat -> nat * nat) (nR : nat) : nat := Bs es (fst (rl nR)) + snd (rl nR).
  Definition ksof (es : list nat) (wl : nat -> nat * nat) (js : nat) (rl : nat -> nat * nat) (nR : nat) : kn_t :=
    if Nat.eqb (fst (wl js)) (fst (rl nR)) then KSame (snd (wl js)) else KNext (nth (fst (rl nR)) es 0) (snd (wl js)).
  Definition knof (es : list nat) (acc : list T) (wl : nat -> nat * nat) (js : nat) : list T := firstn (Bs es (fst (wl js)) + snd (wl js)) acc.

  Section One.
    Variables (es : list nat) (acc : list T) (w : nat) (wl : nat -> nat * nat) (nW : nat) (rl : nat -> nat * nat) (nR rs js lv nL : nat)
              (pn : bool) (xs : list T) (fl dn : bool) (d : nat) (m : mem T) (vP vC : view).
    Notation M0 := (MI es acc w wl nW rl nR rs js lv nL pn xs fl dn d m vP vC).

    Lemma C_laps : M0 ->
      (fst (wl js) = fst (rl nR) /\ snd (rl nR) <= snd (wl js) /\ snd (wl js) <= R) \/
      (fst (wl js) = S (fst (rl nR)) /\ fst (wl js) = length es /\ S (fst (rl rs)) = length es /\ (0 < snd (wl js) /\ snd (wl js) < snd (rl nR)) /\ snd (rl nR) <= nth (fst (rl nR)) es 0 /\ snd (wl js) <= w /\ snd (rl rs) <= snd (rl nR)).
    Proof.
      intros M. pose proof (lap _ _ _ _ _ _ _ _ _ _ _ _ _ _ _ _ _ _ _ _ _ M) as Hlap. pose proof (rl_le _ _ _ _ _ _ _ _ _ _ _ _ _ _ _ _ _ _ _ _ _ M rs nR) as Hrl.
      destruct M. specialize (Hrl i_rs (le_n _)). pose proof (gr_ge (rl nR) dn d) as Hg. pose proof (i_wp js i_js) as P1. pose proof (i_rp nR (le_n _)) as P2. unfold pos in P1, P2.
      pose proof (i_es (fst (wl js))) as P3. pose proof (i_w0 js i_js) as P4.
      assert (le2 (rl nR) (wl js)) by (clear - Hg i_gj; lex). clear - H Hrl P1 P2 P3 P4 Hlap i_wR. lex.
    Qed.
    Lemma C_kok : M0 -> k_ok R (snd (rl nR)) (ksof es wl js rl nR).
    Proof.
      intros M. destruct (C_laps M) as [(A & B & C)|(A & B & C & D & E & F & G)]; unfold ksof.
      - rewrite (proj2 (Nat.eqb_eq _ _) A). cbn. lia.
      - destruct (Nat.eqb_spec (fst (wl js)) (fst (rl nR))); [lia|]. cbn. destruct M. specialize (i_es (fst (rl nR))). lia.
    Qed.
    Lemma pos_len p : M0 -> pos es w p -> Bs es (fst p) + snd p <= length acc.
    Proof.
      intros M. destruct M. unfold pos. intros [(A & B)|(A & B)]; [|rewrite A; lia].
      pose proof (Bs_mono es (S (fst p)) (length es) ltac:(lia)) as H. rewrite Bs_S in H by lia. lia.
    Qed.
    Lemma C_len : M0 -> length (knof es acc wl js) = ncof es rl nR + avail (snd (rl nR)) (ksof es wl js rl nR).
    Proof.
      intros M. pose proof (pos_len (wl js) M) as Hp. unfold knof, ncof. rewrite firstn_length, Nat.min_l.
      2:{ apply Hp. destruct M. apply i_wp. exact i_js. }
      destruct (C_laps M) as [(A & B & C)|(A & B & C & D & E & F & G)]; unfold ksof.
      - rewrite (proj2 (Nat.eqb_eq _ _) A). cbn. rewrite A. lia.
      - destruct (Nat.eqb_spec (fst (wl js)) (fst (rl nR))); [lia|]. cbn [avail]. rewrite A. rewrite Bs_S by lia. lia.
    Qed.
    (** the writer is not a lap ahead of an unread element *)
    Lemma C_fr l i : M0 -> le2 (rl nR) (l, i) -> le2 (fr T (length es) w pn xs) (S l, i).
    Proof.
      intros M H. pose proof (rl_le _ _ _ _ _ _ _ _ _ _ _ _ _ _ _ _ _ _ _ _ _ M rs nR) as Hrl. destruct M. specialize (Hrl i_rs (le_n _)).
      clear - H Hrl i_cap. destruct (fr T (length es) w pn xs). lex.
    Qed.
    Lemma fr_ge : le2 (length es, w) (fr T (length es) w pn xs).
    Proof. unfold fr. destruct pn; lex. Qed.

    Definition lof (dn' : bool) := if dn' then S (fst (rl nR)) else fst (rl nR).
    Lemma C_access dn' g i : M0 -> (d = 0 \/ dn' = dn) -> d <= g -> place (snd (rl nR)) (ksof es wl js rl nR) dn' g i ->
      le2 (gr (rl nR) dn d) (lof dn', i) /\ lt2 (lof dn', i) (wl js) /\ elt es w (lof dn') i /\ Bs es (lof dn') + i = ncof es rl nR + g /\ i < R /\
      le2 (fr T (length es) w pn xs) (S (lof dn'), i) /\ cacc (cells m i) Prod <= vc vC Prod /\
      (exists x, cval (cells m i) = Some x /\ nth_error acc (ncof es rl nR + g) = Some x /\ nth_error (knof es acc wl js) (ncof es rl nR + g) = Some x) /\
      (dn' = true -> fst (rl nR) < length es /\ snd (rl nR) = nth (fst (rl nR)) es 0).
    Proof.
      intros M Hd Hg Hp.
      assert (H1 : lt2 (lof dn', i) (wl js) /\ le2 (gr (rl nR) dn d) (lof dn', i) /\ Bs es (lof dn') + i = ncof es rl nR + g /\ (dn' = true -> fst (rl nR) < length es /\ snd (rl nR) = nth (fst (rl nR)) es 0)).
      { unfold ksof, ncof, lof in *. assert (Hd0 : dn = true -> 0 < d) by (destruct M; intros ->; destruct d; [specialize (i_d eq_refl); discriminate|lia]).
        destruct (C_laps M) as [(A & B & C)|(A & B & C & D & E & F & G)].
        - rewrite (proj2 (Nat.eqb_eq _ _) A) in Hp. destruct dn'; cbn [place] in Hp; [contradiction|]. split; [clear - A Hp; lex|]. split; [|split; [lia|discriminate]].
          destruct Hd as [->|<-]; [|cbn; clear - Hg Hp; lex]. destruct dn; [specialize (Hd0 eq_refl); lia|]. cbn; clear - Hg Hp; lex.
        - destruct (Nat.eqb_spec (fst (wl js)) (fst (rl nR))); [lia|]. destruct dn'; cbn [place] in Hp.
          + destruct Hp as (P1 & -> & P2). split; [clear - A P2; lex|]. split; [|split; [rewrite Bs_S by lia; lia|intros; lia]].
            destruct Hd as [->|<-]; [|cbn; clear - Hg; lex]. destruct dn; [specialize (Hd0 eq_refl); lia|]. cbn; clear - Hg; lex.
          + split; [clear - A Hp; lex|]. split; [|split; [lia|discriminate]].
            destruct Hd as [->|<-]; [|cbn; clear - Hg Hp; lex]. destruct dn; [specialize (Hd0 eq_refl); lia|]. cbn; clear - Hg Hp; lex. }
      destruct H1 as (H1 & H2 & H3 & H4).
      assert (He : elt es w (lof dn') i).
      { pose proof (C_laps M) as HL. destruct M. pose proof (i_wp js i_js) as P. unfold pos in P. unfold elt. unfold lof, ksof in *.
        destruct HL as [(A & B & C)|(A & B & C & D & E & F & G)].
        - rewrite (proj2 (Nat.eqb_eq _ _) A) in Hp. destruct dn'; cbn [place] in Hp; [contradiction|]. rewrite <- A. clear - P Hp. lia.
        - destruct (Nat.eqb_spec (fst (wl js)) (fst (rl nR))); [lia|]. destruct dn'; cbn [place] in Hp; [right; lia|left; lia]. }
      assert (HiR : i < R).
      { destruct M. unfold elt in He. pose proof (i_es (lof dn')). lia. }
      assert (Hgl : le2 (rl nR) (lof dn', i)) by (pose proof (gr_ge (rl nR) dn d) as Q; clear - H2 Q; lex).
      pose proof (C_fr _ _ M Hgl) as Hfr.
      split; [exact H2|]. split; [exact H1|]. split; [exact He|]. split; [exact H3|]. split; [exact HiR|]. split; [exact Hfr|]. split; [|split; [|exact H4]].
      - destruct M. destruct (nth_error (hist m Wr) js) as [ms|] eqn:En; [|apply nth_error_None in En; lia].
        specialize (i_kc ms eq_refl). destruct (i_w _ _ En) as (_ & _ & _ & _ & X). specialize (X _ _ HiR H1 Hfr). lia.
      - assert (Hlen : Bs es (lof dn') + i < Bs es (fst (wl js)) + snd (wl js)).
        { rewrite H3. rewrite <- (Nat.min_l (Bs es (fst (wl js)) + snd (wl js)) (length acc)).
          2:{ apply pos_len; [exact M|]. destruct M. apply i_wp. exact i_js. }
          rewrite <- firstn_length. fold (knof es acc wl js). rewrite (C_len M). unfold ksof in *. destruct (fst (wl js) =? fst (rl nR)); destruct dn'; cbn [avail place] in *; try contradiction; lia. }
        pose proof (pos_len (wl js) M) as Hq. destruct M. specialize (Hq (i_wp js i_js)).
        destruct (nth_error acc (ncof es rl nR + g)) as [x|] eqn:Ex; [|apply nth_error_None in Ex; lia].
        exists x. split; [|split; [reflexivity|]].
        + rewrite <- Ex, <- H3. apply i_c1; auto.
        + rewrite <- Ex. unfold knof. rewrite <- (firstn_skipn (Bs es (fst (wl js)) + snd (wl js)) acc) at 2. symmetry. apply nth_error_app1. rewrite firstn_length. lia.
    Qed.
  End One.

  Lemma C_loadR o nc0 es acc w wl nW rl nR rs js lv nL pn xs fl dn d (m : mem T) vP vC or k c :
    MI es acc w wl nW rl nR rs js lv nL pn xs fl dn d m vP vC ->
    okC T R o nc0 (ncof es rl nR) (snd (rl nR)) (ksof es wl js rl nR) (knof es acc wl js) dn d (Load Rd or k) ->
    match exec Cons c (Load Rd or k) vC m with
    | Next (p', v', m') => m' = m /\ MI es acc w wl nW rl nR rs js lv nL pn xs fl dn d m vP v' /\
        okC T R o nc0 (ncof es rl nR) (snd (rl nR)) (ksof es wl js rl nR) (knof es acc wl js) dn d p'
    | Disabled => True | Undef => False
    end.
  Proof.
    intros M K. cbn [exec]. destruct (Nat.leb_spec (va vC Rd) c) as [Hle|]; [|exact I].
    destruct (nth_error (hist m Rd) c) as [ms|] eqn:En; [|exact I]. split; [reflexivity|].
    cbn [okC] in K. change (Rd =? Rd) with true in K. cbn iota in K. destruct M.
    pose proof (nth_error_lt _ _ _ En). assert (c = nR) by lia. subst c.
    destruct (i_r _ _ En) as (V & W1 & W2 & W3 & _). rewrite V. split; [|exact K].
    assert (Hg : forall v', va v' Wr = js -> va v' Rd = nR -> va vC La <= va v' La <= nL -> (forall t, vc vC t <= vc v' t) ->
      MI es acc w wl nW rl nR rs js lv nL pn xs fl dn d m vP v').
    { intros v' A1 A2 A3 A4. fields; try lia.
      - intros i. specialize (i_ec i). specialize (A4 Cons). lia.
      - intros ms' Hm. specialize (i_kc ms' Hm). specialize (A4 Prod). lia.
      - intros ms' Hm. specialize (i_kl ms' Hm). lia. }
    apply Hg; destruct or; cbn; unfold nset; cbn; intros; try lia.
  Qed.

  Lemma C_loadL o nc0 es acc w wl nW rl nR rs js lv nL pn xs fl dn d (m : mem T) vP vC or k c :
    MI es acc w wl nW rl nR rs js lv nL pn xs fl dn d m vP vC ->
    okC T R o nc0 (ncof es rl nR) (snd (rl nR)) (ksof es wl js rl nR) (knof es acc wl js) dn d (Load La or k) ->
    match exec Cons c (Load La or k) vC m with
    | Next (p', v', m') => m' = m /\ MI es acc w wl nW rl nR rs js lv nL pn xs fl dn d m vP v' /\
        okC T R o nc0 (ncof es rl nR) (snd (rl nR)) (ksof es wl js rl nR) (knof es acc wl js) dn d p'
    | Disabled => True | Undef => False
    end.
  Proof.
    intros M K. cbn [exec]. destruct (Nat.leb_spec (va vC La) c) as [Hle|]; [|exact I].
    destruct (nth_error (hist m La) c) as [ms|] eqn:En; [|exact I]. split; [reflexivity|].
    cbn [okC] in K. change (La =? Rd) with false in K. change (La =? Wr) with false in K. cbn iota in K. destruct K as (_ & e & w1 & Ek & K).
    pose proof (C_laps _ _ _ _ _ _ _ _ _ _ _ _ _ _ _ _ _ _ _ M) as HL. unfold ksof in Ek.
    destruct HL as [(A & B & C)|(A & B & C & D & E & F & G)]; [rewrite (proj2 (Nat.eqb_eq _ _) A) in Ek; discriminate|].
    destruct (Nat.eqb_spec (fst (wl js)) (fst (rl nR))); [discriminate|]. injection Ek as Ee Ew.
    destruct M. pose proof (nth_error_lt _ _ _ En) as Hc.
    assert (c = nL).
    { destruct (nth_error (hist m Wr) js) as [mw|] eqn:Ewr; [|apply nth_error_None in Ewr; lia].
      pose proof (i_la C js mw Ewr B). specialize (i_kl mw eq_refl). lia. }
    subst c. destruct (i_lx _ En) as (V & W1 & W2 & W3 & W4). specialize (W4 C js i_js B).
    destruct (i_lv2 C) as (es' & Ees). assert (e = lv).
    { rewrite <- Ee. assert (fst (rl nR) = length es') by (rewrite Ees, app_length in B; cbn in B; lia). rewrite H. rewrite Ees. apply nth_snoc_eq. }
    rewrite V. split; [|rewrite <- H; exact K].
    assert (Hg : forall v', va v' Wr = js -> va v' Rd = nR -> va vC La <= va v' La <= nL -> (forall t, vc vC t <= vc v' t) ->
      MI es acc w wl nW rl nR rs js lv nL pn xs fl dn d m vP v').
    { intros v' A1 A2 A3 A4. fields; try lia.
      - intros i. specialize (i_ec i). specialize (A4 Cons). lia.
      - intros ms' Hm. specialize (i_kc ms' Hm). specialize (A4 Prod). lia.
      - intros ms' Hm. specialize (i_kl ms' Hm). lia. }
    apply Hg; destruct or; cbn; unfold nset; cbn; intros; try lia.
  Qed.

  Lemma C_loadW o nc0 es acc w wl nW rl nR rs js lv nL pn xs fl dn d (m : mem T) vP vC or k c :
    MI es acc w wl nW rl nR rs js lv nL pn xs fl dn d m vP vC ->
    okC T R o nc0 (ncof es rl nR) (snd (rl nR)) (ksof es wl js rl nR) (knof es acc wl js) dn d (Load Wr or k) ->
    match exec Cons c (Load Wr or k) vC m with
    | Next (p', v', m') => m' = m /\ MI es acc w wl nW rl nR rs c lv nL pn xs fl dn d m vP v' /\
        okC T R o nc0 (ncof es rl nR) (snd (rl nR)) (ksof es wl c rl nR) (knof es acc wl c) dn d p'
    | Disabled => True | Undef => False
    end.
  Proof.
    intros M K. cbn [exec]. destruct (Nat.leb_spec (va vC Wr) c) as [Hle|]; [|exact I].
    destruct (nth_error (hist m Wr) c) as [ms|] eqn:En; [|exact I]. split; [reflexivity|].
    cbn [okC] in K. change (Wr =? Rd) with false in K. change (Wr =? Wr) with true in K. cbn iota in K. destruct K as (-> & K).
    assert (Hmono : le2 (wl js) (wl c)).
    { eapply wl_le; [exact M| |]; destruct M; [lia|]. pose proof (nth_error_lt _ _ _ En). lia. }
    pose proof (pos_len _ _ _ _ _ _ _ _ _ _ _ _ _ _ _ _ _ _ _ (wl c) M) as Hpl.
    assert (HM' : MI es acc w wl nW rl nR rs c lv nL pn xs fl dn d m vP (vjoin (mkview (nset (va vC) Wr c) (vc vC)) (mview ms))).
    { destruct M. pose proof (nth_error_lt _ _ _ En) as Hc. destruct (i_w _ _ En) as (V & W1 & W2 & W3 & _).
      fields; unfold nset; cbn; try lia.
      - clear - i_gj Hmono. lex.
      - intros j ms' Hm. destruct (i_r j ms' Hm) as (X1 & X2 & X3 & X4 & X5). repeat split; auto; lia.
      - intros i. specialize (i_ec i). lia.
      - intros ms' Hm. rewrite En in Hm. injection Hm as <-. lia.
      - intros ms' Hm. rewrite En in Hm. injection Hm as <-. lia. }
    split; [exact HM'|].
    assert (V : mval ms = kw (ksof es wl c rl nR)).
    { destruct M. destruct (i_w _ _ En) as (V & _). rewrite V. unfold ksof. destruct (fst (wl c) =? fst (rl nR)); reflexivity. }
    rewrite V.
    assert (Hkn : exists ext, knof es acc wl c = knof es acc wl js ++ ext).
    { assert (Hle2 : Bs es (fst (wl js)) + snd (wl js) <= Bs es (fst (wl c)) + snd (wl c)).
      { destruct M. pose proof (nth_error_lt _ _ _ En) as Hc. pose proof (i_wp js ltac:(lia)) as P. unfold pos in P. 
        destruct (Nat.eq_dec (fst (wl js)) (fst (wl c))) as [E|E]; [rewrite E; clear - Hmono E; lex|].
        assert (Hlt : fst (wl js) < fst (wl c)) by (clear - Hmono E; lex). pose proof (i_wp c ltac:(lia)) as P'. unfold pos in P'.
        pose proof (Bs_mono es (S (fst (wl js))) (fst (wl c)) Hlt) as Q. rewrite Bs_S in Q by lia. lia. }
      unfold knof. exists (skipn (Bs es (fst (wl js)) + snd (wl js)) (firstn (Bs es (fst (wl c)) + snd (wl c)) acc)).
      rewrite <- (firstn_skipn (Bs es (fst (wl js)) + snd (wl js)) (firstn (Bs es (fst (wl c)) + snd (wl c)) acc)) at 1. rewrite firstn_firstn. now rewrite Nat.min_l by lia. }
    destruct Hkn as (ext & Hkn). rewrite Hkn. apply K.
    - split; [apply (C_kok _ _ _ _ _ _ _ _ _ _ _ _ _ _ _ _ _ _ _ HM')|].
      pose proof (C_laps _ _ _ _ _ _ _ _ _ _ _ _ _ _ _ _ _ _ _ M) as L1. pose proof (C_laps _ _ _ _ _ _ _ _ _ _ _ _ _ _ _ _ _ _ _ HM') as L2.
      destruct M. pose proof (i_wp js i_js) as P. unfold pos in P. unfold ksof. destruct (Nat.eqb_spec (fst (wl js)) (fst (rl nR))) as [E1|E1], (Nat.eqb_spec (fst (wl c)) (fst (rl nR))) as [E2|E2].
      + clear - Hmono E1 E2. lex.
      + rewrite <- E1. clear - E1 E2 P L2. lia.
      + clear - L1 L2 E1 E2 Hmono. lex.
      + split; [reflexivity|]. clear - L1 L2 E1 E2 Hmono. lex.
    - rewrite <- Hkn. apply (C_len _ _ _ _ _ _ _ _ _ _ _ _ _ _ _ _ _ _ _ HM').
  Qed.

  Lemma C_get o nc0 es acc w wl nW rl nR rs js lv nL pn xs fl dn d (m : mem T) vP vC i k c :
    MI es acc w wl nW rl nR rs js lv nL pn xs fl dn d m vP vC ->
    okC T R o nc0 (ncof es rl nR) (snd (rl nR)) (ksof es wl js rl nR) (knof es acc wl js) dn d (Get i k) ->
    match exec Cons c (Get i k) vC m with
    | Next (p', v', m') => hist m' = hist m /\ MI es acc w wl nW rl nR rs js lv nL pn xs fl dn d m' vP v' /\
        okC T R o nc0 (ncof es rl nR) (snd (rl nR)) (ksof es wl js rl nR) (knof es acc wl js) dn d p'
    | Disabled => True | Undef => False
    end.
  Proof.
    intros M K. cbn [okC] in K. destruct K as (dn' & g & Hd & Hg & Hp & K).
    destruct (C_access _ _ _ _ _ _ _ _ _ _ _ _ _ _ _ _ _ _ _ dn' g i M Hd Hg Hp) as (H1 & H2 & H3 & H4 & H5 & H6 & H7 & (x & Hx & Hx1 & Hx2) & H8).
    cbn [exec]. unfold access. rewrite (BipProofs.i_n _ _ _ _ _ _ _ _ _ _ _ _ _ _ _ _ _ _ _ _ _ M).
    destruct (Nat.ltb_spec i R); [|lia]. cbn [other]. destruct (Nat.leb_spec (cacc (cells m i) Prod) (vc vC Prod)); [|lia]. rewrite Hx.
    split; [reflexivity|]. split; [|apply K; exact Hx2].
    set (l0 := lof rl nR dn') in *. clearbody l0.
    pose proof (gr_ge (rl nR) dn d) as Hge.
    assert (Hrlj : forall j, j <= nR -> le2 (rl j) (rl nR)) by (intros; eapply rl_le; eauto).
    destruct M. fields; cbn [tset tid_eqb].
    - intros j ms Hm. destruct (i_w j ms Hm) as (X1 & X2 & X3 & X4 & X5). repeat split; auto.
      intros l i2 A B C. unfold nset. destruct (Nat.eqb_spec i i2) as [<-|]; cbn; apply (X5 l); auto.
    - intros j ms Hm. destruct (i_r j ms Hm) as (X1 & X2 & X3 & X4 & X5). repeat split; auto.
      intros l i2 A B C. pose proof (nth_error_lt _ _ _ Hm) as Hj. destruct (Nat.eq_dec i i2) as [<-|Ne].
      + exfalso. specialize (Hrlj j ltac:(lia)). unfold elt in H3. clear - B C H1 Hge H3 Hrlj. lex.
      + rewrite nset_other by auto. apply (X5 l); auto.
    - intros i2 A B. rewrite nset_other; [auto|]. intros <-. unfold elt in H3. lia.
    - intros l i2 A B. unfold nset. destruct (Nat.eqb_spec i i2) as [<-|]; cbn; [rewrite <- Hx; auto|auto].
    - intros i2 A. unfold nset. destruct (Nat.eqb_spec i (pbase w pn + i2)) as [E|]; cbn; [rewrite <- Hx, E; auto|auto].
    - intros i2 A B C. rewrite nset_other; [auto|]. intros <-. specialize (B l0 H3). clear - B H1. lex.
    - intros i2. unfold nset. destruct (Nat.eqb_spec i i2) as [<-|]; cbn; auto.
    - intros i2. unfold nset. destruct (Nat.eqb_spec i i2); cbn; [lia|]. specialize (i_ec i2). lia.
  Qed.

  Lemma C_destroy o nc0 es acc w wl nW rl nR rs js lv nL pn xs fl dn d (m : mem T) vP vC i k c :
    MI es acc w wl nW rl nR rs js lv nL pn xs fl dn d m vP vC ->
    okC T R o nc0 (ncof es rl nR) (snd (rl nR)) (ksof es wl js rl nR) (knof es acc wl js) dn d (Destroy i k) ->
    match exec Cons c (Destroy i k) vC m with
    | Next (p', v', m') => hist m' = hist m /\ exists dn', MI es acc w wl nW rl nR rs js lv nL pn xs fl dn' (S d) m' vP v' /\
        okC T R o nc0 (ncof es rl nR) (snd (rl nR)) (ksof es wl js rl nR) (knof es acc wl js) dn' (S d) p'
    | Disabled => True | Undef => False
    end.
  Proof.
    intros M K. cbn [okC] in K. destruct K as (dn' & Hd & Hp & K).
    destruct (C_access _ _ _ _ _ _ _ _ _ _ _ _ _ _ _ _ _ _ _ dn' d i M Hd (le_n _) Hp) as (H1 & H2 & H3 & H4 & H5 & H6 & H7 & (x & Hx & Hx1 & Hx2) & H8).
    cbn [exec]. unfold access. rewrite (BipProofs.i_n _ _ _ _ _ _ _ _ _ _ _ _ _ _ _ _ _ _ _ _ _ M).
    destruct (Nat.ltb_spec i R); [|lia]. cbn [other]. destruct (Nat.leb_spec (cacc (cells m i) Prod) (vc vC Prod)); [|lia]. rewrite Hx.
    split; [reflexivity|]. exists dn'. split; [|exact K].
    assert (Hgr' : gr (rl nR) dn' (S d) = (lof rl nR dn', S i)).
    { unfold gr, lof. unfold ksof in Hp. destruct dn'; cbn [place] in Hp.
      - destruct (fst (wl js) =? fst (rl nR)); [contradiction|]. f_equal. lia.
      - f_equal. lia. }
    pose proof (gr_ge (rl nR) dn d) as Hge.
    assert (Hrlj : forall j, j <= nR -> le2 (rl j) (rl nR)) by (intros; eapply rl_le; eauto).
    (* an element of another cell before the new frontier was before the old one *)
    assert (Hold : forall l i2, i2 <> i -> elt es w l i2 -> lt2 (l, i2) (lof rl nR dn', S i) -> lt2 (l, i2) (gr (rl nR) dn d)).
    { intros l i2 Ne He Hlt. destruct M.
      assert (Hdd : dn' = dn \/ (d = 0 /\ dn = false)) by (destruct Hd as [->|]; [right; auto|auto]).
      destruct Hdd as [->|(-> & ->)].
      - unfold gr, lof in *. destruct dn; cbn in *.
        + injection Hgr' as E. clear - Hlt Ne E. lex.
        + injection Hgr' as E. clear - Hlt Ne E. lex.
      - unfold gr, lof in *. cbn. destruct dn'; cbn in *.
        + injection Hgr' as E. destruct (H8 eq_refl) as (Q1 & Q2). unfold elt in He. destruct (Nat.eq_dec l (fst (rl nR))) as [El|El]; [subst l; clear - He Q1 Q2; lex|]. clear - Hlt Ne E El. lex.
        + injection Hgr' as E. clear - Hlt Ne E. lex. }
    set (l0 := lof rl nR dn') in *. clearbody l0.
    destruct M. fields; cbn [tset tid_eqb]; rewrite ?Hgr'; try discriminate.
    - unfold elt in H3. unfold pos. cbn [fst snd]. clear - H3. lia.
    - clear - H2. lex.
    - intros j ms Hm. destruct (i_w j ms Hm) as (X1 & X2 & X3 & X4 & X5). repeat split; auto.
      intros l i2 A B C. unfold nset. destruct (Nat.eqb_spec i i2) as [<-|]; cbn; apply (X5 l); auto.
    - intros j ms Hm. destruct (i_r j ms Hm) as (X1 & X2 & X3 & X4 & X5). repeat split; auto.
      intros l i2 A B C. pose proof (nth_error_lt _ _ _ Hm) as Hj. destruct (Nat.eq_dec i i2) as [<-|Ne].
      + exfalso. specialize (Hrlj j ltac:(lia)). unfold elt in H3. clear - B C H1 Hge H3 Hrlj. lex.
      + rewrite nset_other by auto. apply (X5 l); auto.
    - intros i2 A B. rewrite nset_other; [auto|]. intros <-. unfold elt in H3. lia.
    - intros l i2 A B. rewrite nset_other; [apply i_c1; auto; clear - B H1; destruct (gr (rl nR) dn d); lex|]. intros <-.
      pose proof (fr_ge es w pn xs) as Hf. unfold elt in A. clear - A B H6 Hf. destruct (fr T (length es) w pn xs). lex.
    - intros i2 A. rewrite nset_other; [auto|]. intros E. unfold elt in H3. clear - A E H3 H6. unfold fr, pbase in *. destruct pn; lex.
    - intros i2 A B C. unfold nset. destruct (Nat.eqb_spec i i2) as [<-|Ne]; cbn; [reflexivity|]. apply i_c3; auto.
    - intros i2. unfold nset. destruct (Nat.eqb_spec i i2) as [<-|]; cbn; auto.
    - intros i2. unfold nset. destruct (Nat.eqb_spec i i2); cbn; [lia|]. specialize (i_ec i2). lia.
  Qed.

  Lemma C_store es acc w wl nW rl nR rs js lv nL pn xs fl dn d (m : mem T) vP vC :
    MI es acc w wl nW rl nR rs js lv nL pn xs fl dn d m vP vC -> 0 < d ->
    let v1 := mkview (nset (va vC) Rd (length (hist m Rd))) (vc vC) in
    MI es acc w wl nW (nset rl (S nR) (gr (rl nR) dn d)) (S nR) rs js lv nL pn xs fl false 0
       (mkmem (nset (hist m) Rd (hist m Rd ++ [mkmsg (snd (gr (rl nR) dn d)) v1])) (cells m) (nslots m)) vP v1.
  Proof.
    intros M Hd v1. assert (Hrlj : forall j, j <= nR -> le2 (rl j) (rl nR)) by (intros; eapply rl_le; eauto).
    destruct M. assert (Hn : forall j, j <= nR -> nset rl (S nR) (gr (rl nR) dn d) j = rl j) by (intros; apply nset_other; lia).
    assert (Hlt : lt2 (rl nR) (gr (rl nR) dn d)) by (unfold gr; destruct dn; clear - Hd; lex).
    assert (Hg0 : gr (gr (rl nR) dn d) false 0 = gr (rl nR) dn d) by (destruct (gr (rl nR) dn d); unfold gr; cbn; f_equal; lia).
    fields; rewrite ?nset_same, ?app_length, ?(Hn rs) by lia; cbn [length]; rewrite ?Hg0; try lia; auto.
    - intros i j A B. destruct (Nat.eq_dec j (S nR)) as [->|].
      + rewrite nset_same, Hn by lia. specialize (Hrlj i ltac:(lia)). clear - Hlt Hrlj. lex.
      + rewrite !Hn by lia. apply i_rm; lia.
    - intros j A. destruct (Nat.eq_dec j (S nR)) as [->|]; [rewrite nset_same; auto|]. rewrite Hn by lia. apply i_rp. lia.
    - intros j ms Hm. rewrite nth_error_snoc in Hm. destruct (Nat.ltb_spec j (length (hist m Rd))).
      + rewrite Hn by lia. apply i_r, Hm.
      + destruct (Nat.eqb_spec j (length (hist m Rd))) as [->|]; [|discriminate]. injection Hm as <-. cbn [mval mview va vc].
        rewrite i_lr. rewrite nset_same. unfold v1. cbn [va vc]. unfold nset. cbn. repeat split; try lia. intros l i _ _ _. apply i_ec.
    - intros ms Hm. rewrite nth_error_snoc in Hm. destruct (Nat.ltb_spec rs (length (hist m Rd))); [|lia]. auto.
  Qed.
End CSteps.
