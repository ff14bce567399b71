(** The bip buffer invariant holds in every reachable state (support for C04, C05). *)
From Coq Require Import List Arith Lia Bool.
From Verif Require Import Util RA BipModel BipSpec BipProofs BipSteps BipSteps2 BipSteps3.
Import ListNotations.

Lemma wraps_prefix l m : exists k, wraps (l ++ m) = wraps l ++ k.
Proof.
  induction l as [|x l (k & IH)]; [exists (wraps m); reflexivity|]. destruct l as [|y l].
  - cbn [app]. destruct m as [|b m]; [exists []; reflexivity|]. exists (wraps (x :: b :: m)). reflexivity.
  - cbn [app] in *. change (wraps (x :: y :: l ++ m)) with (if y <? x then x :: wraps (y :: l ++ m) else wraps (y :: l ++ m)).
    change (wraps (x :: y :: l)) with (if y <? x then x :: wraps (y :: l) else wraps (y :: l)). rewrite IH. exists k. destruct (y <? x); reflexivity.
Qed.

Section Logs.
  Variable T : Type.
  Notation log := (list (op T * res T)).
  Lemma written_app (a b : log) : written (a ++ b) = written a ++ written b.
  Proof. induction a as [|[o r] a IH]; cbn; auto. destruct r; auto. rewrite IH. apply app_assoc. Qed.
  Lemma taken_app (a b : log) : taken (a ++ b) = taken a ++ taken b.
  Proof. induction a as [|[o r] a IH]; cbn; auto. destruct r; auto. rewrite IH. apply app_assoc. Qed.
  Lemma consumes_app (st : list T) a b : consumes st a -> consumes (skipn (length (taken a)) st) b -> consumes st (a ++ b).
  Proof.
    revert st. induction a as [|[o r] a IH]; intros st; cbn; auto. destruct r; auto.
    - intros (rest & -> & H & H2) H3. exists rest. split; [reflexivity|]. split; [exact H|]. apply IH; auto. rewrite app_length, skipn_app in H3. rewrite skipn_all2 in H3 by lia. cbn in H3.
      replace (length xs + length (taken a) - length xs) with (length (taken a)) in H3 by lia. exact H3.
    - intros (H1 & H2 & H3) H4. auto.
  Qed.
  Lemma consumes_mono (st e : list T) l : consumes st l -> consumes (st ++ e) l.
  Proof.
    revert st. induction l as [|[o r] l IH]; intros st; cbn; auto. destruct r; auto.
    - intros (rest & -> & H & H2). exists (rest ++ e). rewrite app_assoc. auto.
    - intros ((rest & ->) & H & H2). split; [exists (rest ++ e); now rewrite app_assoc|]. auto.
  Qed.
  Lemma consumes_taken (st : list T) l : consumes st l -> exists rest, st = taken l ++ rest.
  Proof.
    revert st. induction l as [|[o r] l IH]; intros st; cbn; eauto. destruct r; auto.
    - intros (rest & -> & H & H2). destruct (IH _ H2) as (q & ->). exists q. now rewrite app_assoc.
    - intros (_ & _ & H). auto.
  Qed.
End Logs.

Section Sys.
  Variable T : Type.
  Variable MAX : nat.
  Variable promoted : bool.
  Variable R : nat.
  Notation state := (sys T (op T) (res T)).
  Notation al := (fun t o => role T t o && modest T MAX promoted R o).
  Notation stp := (step (code T MAX promoted R) al).
  Notation MI := (MI T R).

  Definition curP (s : state) es acc w rl rs pn xs fl : Prop :=
    match scur s Prod with
    | None => xs = [] /\ acc = written (slog s Prod)
    | Some (o, p) => al Prod o = true /\ okP T R o (written (slog s Prod)) acc w (ukof es rl rs) pn xs fl p /\
                     (acc = written (slog s Prod) \/ exists r, p = Ret r)
    end.
  Definition curC (s : state) nc r k (kn : list T) dn d : Prop :=
    match scur s Cons with
    | None => d = 0 /\ nc = length (taken (slog s Cons))
    | Some (o, p) => al Cons o = true /\ okC T R o (length (taken (slog s Cons))) nc r k kn dn d p
    end.
  (** what every completed call gave *)
  Definition good (e : op T * res T) : Prop :=
    match e with
    | (BWrite _ _, RWrite i n ys) => length ys <= n /\ i + n <= R
    | (BRead _ _, RRead i n ys) => length ys <= n /\ i + n <= R
    | (BPeek _, RPeek i n ys) => length ys = n /\ i + n <= R
    | ((BSize | BAvailable), RNat _) | ((BEmpty | BFull), RBool _) => True
    | _ => False
    end.

  Definition SI (s : state) es acc w wl nW rl nR rs js lv nL pn xs fl dn d : Prop :=
    MI es acc w wl nW rl nR rs js lv nL pn xs fl dn d (smem s) (sview s Prod) (sview s Cons) /\
    curP s es acc w rl rs pn xs fl /\ curC s (ncof es rl nR) (snd (rl nR)) (ksof es wl js rl nR) (knof T es acc wl js) dn d /\
    consumes acc (slog s Cons) /\ Forall good (slog s Prod) /\ Forall good (slog s Cons).
  Definition Inv (s : state) : Prop :=
    exists es acc w wl nW rl nR rs js lv nL pn xs fl dn d, SI s es acc w wl nW rl nR rs js lv nL pn xs fl dn d.

  Lemma Inv_init : Inv (init_sys R).
  Proof.
    exists [], [], 0, (fun _ => (0, 0)), 0, (fun _ => (0, 0)), 0, 0, 0, 0, 0, false, [], false, false, 0. split; [|repeat split; cbn; auto].
    constructor; cbn - [Nat.modulo]; auto; try lia.
    - intros [|l]; lia.
    - intros j _. right. cbn. lia.
    - intros j _. right. cbn. lia.
    - right. cbn. lia.
    - lex.
    - intros ms [= <-]. cbn. repeat split; lia.
    - intros [|j] ms; cbn; [|destruct j; discriminate]. intros [= <-]. cbn. repeat split; auto; try lia.
    - intros [|j] ms; cbn; [|destruct j; discriminate]. intros [= <-]. cbn. repeat split; auto; try lia.
    - intros l i [(H & _)|(_ & H)]; cbn in H; lia.
    - intros ms [= <-]. cbn. lia.
    - intros ms [= <-]. cbn. lia.
    - intros ms [= <-]. cbn. lia.
  Qed.

  Lemma SI_uk s es acc w wl nW rl nR rs js lv nL pn xs fl dn d : SI s es acc w wl nW rl nR rs js lv nL pn xs fl dn d -> uk_ok R w (ukof es rl rs).
  Proof.
    intros (M & _). pose proof (lap _ _ _ _ _ _ _ _ _ _ _ _ _ _ _ _ _ _ _ _ _ M) as L. destruct M. unfold uk_ok, ukof. cbn [fst snd]. specialize (i_es (fst (rl rs))).
    destruct (Nat.ltb_spec (fst (rl rs)) (length es)); lia.
  Qed.

  (** the data of the reader do not depend on what the writer adds *)
  Lemma reader_stable es acc w wl nW rl nR rs js lv nL pn xs fl dn d m vP vC el e wl' :
    MI es acc w wl nW rl nR rs js lv nL pn xs fl dn d m vP vC -> wl' js = wl js ->
    ncof (es ++ el) rl nR = ncof es rl nR /\ ksof (es ++ el) wl' js rl nR = ksof es wl js rl nR /\ knof T (es ++ el) (acc ++ e) wl' js = knof T es acc wl js.
  Proof.
    intros M E. pose proof (C_laps _ _ _ _ _ _ _ _ _ _ _ _ _ _ _ _ _ _ _ _ _ M) as L. pose proof (pos_len _ _ _ _ _ _ _ _ _ _ _ _ _ _ _ _ _ _ _ _ _ (wl js) M) as Hl.
    destruct M. pose proof (i_wp js i_js) as P1. pose proof (i_rp nR (le_n _)) as P2. specialize (Hl P1). unfold pos in P1, P2.
    assert (HB : forall l, l <= length es -> Bs (es ++ el) l = Bs es l).
    { intros l H. unfold Bs. rewrite firstn_app. replace (l - length es) with 0 by lia. cbn. now rewrite app_nil_r. }
    unfold ncof, ksof, knof. rewrite E, !HB by lia. split; [reflexivity|]. split.
    - destruct (Nat.eqb_spec (fst (wl js)) (fst (rl nR))); [reflexivity|]. rewrite app_nth1 by lia. reflexivity.
    - rewrite firstn_app. replace (Bs es (fst (wl js)) + snd (wl js) - length acc) with 0 by lia. cbn. now rewrite app_nil_r.
  Qed.

  Lemma writer_stable s es acc w wl nW rl nR rs js lv nL pn xs fl dn d rl' : 
    SI s es acc w wl nW rl nR rs js lv nL pn xs fl dn d -> (forall j, j <= nR -> rl' j = rl j) -> ukof es rl' rs = ukof es rl rs.
  Proof. intros (M & _) H. destruct M. unfold ukof. now rewrite H by lia. Qed.

  Lemma P_gen s es acc w wl nW rl nR rs js lv nL pn xs fl dn d o p c :
    SI s es acc w wl nW rl nR rs js lv nL pn xs fl dn d -> scur s Prod = Some (o, p) ->
    match exec Prod c p (sview s Prod) (smem s) with
    | Next (p', v', m') =>
        let s' := mksys m' (tset (sview s) Prod v') (tset (scur s) Prod (Some (o, p'))) (slog s) in
        ascending (wraps (write_positions s')) -> Inv s'
    | Disabled => True | Undef => False
    end.
  Proof.
    intros HS Eq. pose proof HS as (M & KP & KC & Hc & G1 & G2). unfold curP in KP. rewrite Eq in KP. destruct KP as (Hal & KP & Hacc).
    destruct p as [r|l or k|l v or k|i x k|i k|i k].
    - exact I.
    - assert (Hl : l = Wr \/ l = Rd \/ l = La).
      { cbn [okP] in KP. destruct (Nat.eqb_spec l Wr); [auto|]. destruct (Nat.eqb_spec l Rd); [auto|]. destruct KP; auto. }
      assert (Hacc' : acc = written (slog s Prod)) by (destruct Hacc as [|(r & E)]; [auto|discriminate]).
      destruct Hl as [->|[->| ->]].
      + pose proof (P_loadW _ _ _ _ _ _ _ _ _ _ _ _ _ _ _ _ _ _ _ _ _ _ _ _ _ c M KP) as H. destruct (exec Prod c (Load Wr or k) (sview s Prod) (smem s)) as [[[p' v'] m']| |]; auto.
        destruct H as (-> & M' & K'). intros s' _. exists es, acc, w, wl, nW, rl, nR, rs, js, lv, nL, pn, xs, fl, dn, d.
        split; [exact M'|]. split; [unfold curP; cbn; auto|]. split; [exact KC|]. auto.
      + pose proof (P_loadR _ _ _ _ _ _ _ _ _ _ _ _ _ _ _ _ _ _ _ _ _ _ _ _ _ c M KP) as H. destruct (exec Prod c (Load Rd or k) (sview s Prod) (smem s)) as [[[p' v'] m']| |]; auto.
        destruct H as (-> & M' & K'). intros s' _. exists es, acc, w, wl, nW, rl, nR, c, js, lv, nL, pn, xs, fl, dn, d.
        split; [exact M'|]. split; [unfold curP; cbn; auto|]. split; [exact KC|]. auto.
      + pose proof (P_loadL _ _ _ _ _ _ _ _ _ _ _ _ _ _ _ _ _ _ _ _ _ _ _ _ _ c M KP) as H. destruct (exec Prod c (Load La or k) (sview s Prod) (smem s)) as [[[p' v'] m']| |]; auto.
        destruct H as (-> & M' & K'). intros s' _. exists es, acc, w, wl, nW, rl, nR, rs, js, lv, nL, pn, xs, fl, dn, d.
        split; [exact M'|]. split; [unfold curP; cbn; auto|]. split; [exact KC|]. auto.
    - assert (Hacc' : acc = written (slog s Prod)) by (destruct Hacc as [|(r & E)]; [auto|discriminate]).
      cbn [okP] in KP. destruct KP as (-> & Hx & [(-> & -> & Hu & -> & -> & K)|(-> & -> & Hf & Ha & (r & ->) & K)]); cbn [exec]; intros Has.
      + cbn [ukof fst] in Hu. assert (Hu' : fst (rl rs) = length es). { apply Nat.ltb_ge in Hu. pose proof (lap _ _ _ _ _ _ _ _ _ _ _ _ _ _ _ _ _ _ _ _ _ M). lia. }
        exists es, acc, w, wl, nW, rl, nR, rs, js, (w + length xs), (S nL), false, xs, true, dn, d.
        split; [apply (P_storeL _ _ _ _ _ _ _ _ _ _ _ lv); auto|]. split; [unfold curP; cbn; auto|]. split; [exact KC|]. auto.
      + destruct pn; cbn [orb negb pbase Nat.add] in *.
        * subst fl. pose proof (reader_stable _ _ _ _ _ _ _ _ _ _ _ _ _ _ _ _ _ _ _ [w] xs (nset wl (S nW) (S (length es), length xs)) M) as Hst.
          rewrite nset_other in Hst by (destruct M; lia). destruct (Hst eq_refl) as (S1 & S2 & S3).
          exists (es ++ [w]), (acc ++ xs), (length xs), (nset wl (S nW) (S (length es), length xs)), (S nW), rl, nR, rs, js, lv, nL, false, [], false, dn, d.
          split; [apply P_store_wrap; auto|]. split; [|split; [unfold curC; rewrite S1, S2, S3; exact KC|split; [apply consumes_mono; auto|auto]]].
            unfold curP. cbn [scur tset tid_eqb slog]. split; [exact Hal|]. split; [|right; eauto]. replace (ukof (es ++ [w]) rl rs) with (true, snd (ukof es rl rs)); [exact K|].
            unfold ukof. cbn. f_equal. symmetry. apply Nat.ltb_lt. rewrite app_length. cbn. destruct M. specialize (i_pn eq_refl). lia.
        * cbn [ukof fst] in Hf. pose proof (reader_stable _ _ _ _ _ _ _ _ _ _ _ _ _ _ _ _ _ _ _ [] xs (nset wl (S nW) (length es, w + length xs)) M) as Hst.
          rewrite nset_other in Hst by (destruct M; lia). destruct (Hst eq_refl) as (S1 & S2 & S3). rewrite app_nil_r in *.
          exists es, (acc ++ xs), (w + length xs), (nset wl (S nW) (length es, w + length xs)), (S nW), rl, nR, rs, js, lv, nL, false, [], false, dn, d.
          split; [apply (P_store_lin _ _ _ _ _ _ _ _ _ _ _ _ _ _ fl); auto|]. split; [|split; [unfold curC; rewrite S2, S3; exact KC|split; [apply consumes_mono; auto|auto]]].
          unfold curP. cbn [scur tset tid_eqb slog]. split; [exact Hal|]. split; [|right; eauto]. exact K.
    - assert (Hacc' : acc = written (slog s Prod)) by (destruct Hacc as [|(r & E)]; [auto|discriminate]).
      pose proof (P_construct _ _ _ _ _ _ _ _ _ _ _ _ _ _ _ _ _ _ _ _ _ _ _ _ _ _ c M KP) as H. destruct (exec Prod c (Construct i x k) (sview s Prod) (smem s)) as [[[p' v'] m']| |]; auto.
      destruct H as (_ & pn' & M' & K'). intros s' _. exists es, acc, w, wl, nW, rl, nR, rs, js, lv, nL, pn', (xs ++ [x]), fl, dn, d.
      split; [exact M'|]. split; [unfold curP; cbn; auto|]. split; [exact KC|]. auto.
    - contradiction KP.
    - contradiction KP.
  Qed.

  Lemma C_gen s es acc w wl nW rl nR rs js lv nL pn xs fl dn d o p c :
    SI s es acc w wl nW rl nR rs js lv nL pn xs fl dn d -> scur s Cons = Some (o, p) ->
    match exec Cons c p (sview s Cons) (smem s) with
    | Next (p', v', m') => hist m' Wr = hist (smem s) Wr /\
        exists rl' nR' js' dn' d', SI (mksys m' (tset (sview s) Cons v') (tset (scur s) Cons (Some (o, p'))) (slog s)) es acc w wl nW rl' nR' rs js' lv nL pn xs fl dn' d' /\ js' = match p with Load 0 _ _ => c | _ => js end
    | Disabled => True | Undef => False
    end.
  Proof.
    intros HS Eq. pose proof HS as (M & KP & KC & Hc & G1 & G2). unfold curC in KC. rewrite Eq in KC. destruct KC as (Hal & KC).
    destruct p as [r|l or k|l v or k|i x k|i k|i k].
    - exact I.
    - assert (Hl : l = Wr \/ l = Rd \/ l = La).
      { cbn [okC] in KC. destruct (Nat.eqb_spec l Rd); [auto|]. destruct (Nat.eqb_spec l Wr); [auto|]. destruct KC; auto. }
      destruct Hl as [->|[->| ->]].
      + pose proof (C_loadW _ _ _ _ _ _ _ _ _ _ _ _ _ _ _ _ _ _ _ _ _ _ _ _ _ c M KC) as H. destruct (exec Cons c (Load Wr or k) (sview s Cons) (smem s)) as [[[p' v'] m']| |]; auto.
        destruct H as (-> & M' & K'). split; [reflexivity|]. exists rl, nR, c, dn, d. split; [|reflexivity]. split; [exact M'|]. split; [exact KP|]. split; [unfold curC; cbn; auto|]. auto.
      + pose proof (C_loadR _ _ _ _ _ _ _ _ _ _ _ _ _ _ _ _ _ _ _ _ _ _ _ _ _ c M KC) as H. destruct (exec Cons c (Load Rd or k) (sview s Cons) (smem s)) as [[[p' v'] m']| |]; auto.
        destruct H as (-> & M' & K'). split; [reflexivity|]. exists rl, nR, js, dn, d. split; [|reflexivity]. split; [exact M'|]. split; [exact KP|]. split; [unfold curC; cbn; auto|]. auto.
      + pose proof (C_loadL _ _ _ _ _ _ _ _ _ _ _ _ _ _ _ _ _ _ _ _ _ _ _ _ _ c M KC) as H. destruct (exec Cons c (Load La or k) (sview s Cons) (smem s)) as [[[p' v'] m']| |]; auto.
        destruct H as (-> & M' & K'). split; [reflexivity|]. exists rl, nR, js, dn, d. split; [|reflexivity]. split; [exact M'|]. split; [exact KP|]. split; [unfold curC; cbn; auto|]. auto.
    - cbn [okC] in KC. destruct KC as (-> & -> & Hd & -> & K). cbn [exec]. split; [reflexivity|].
      assert (Hv : (if dn then d else snd (rl nR) + d) = snd (gr (rl nR) dn d)) by (unfold gr; destruct dn; reflexivity). rewrite Hv in *.
      exists (nset rl (S nR) (gr (rl nR) dn d)), (S nR), js, false, 0. split; [|reflexivity].
      split; [apply C_store; auto|]. split; [unfold curP in *; rewrite (writer_stable _ _ _ _ _ _ _ _ _ _ _ _ _ _ _ _ _ _ HS); [exact KP|intros; apply nset_other; lia]|].
      split; [|auto]. unfold curC. cbn [scur tset tid_eqb slog]. split; [exact Hal|]. unfold ncof, ksof. rewrite nset_same. fold (ksof es wl js rl nR).
      destruct (gr (rl nR) dn d) as [gl gi] eqn:Eg. cbn [fst snd] in *. unfold gr in Eg.
      pose proof (C_laps _ _ _ _ _ _ _ _ _ _ _ _ _ _ _ _ _ _ _ _ _ M) as L. destruct M. destruct dn; injection Eg as <- <-.
      + destruct (i_dn eq_refl) as (D1 & D2). rewrite Bs_S by lia. replace (Bs es (fst (rl nR)) + nth (fst (rl nR)) es 0 + d) with (ncof es rl nR + d) by (unfold ncof; lia).
        assert (Hk : (if fst (wl js) =? S (fst (rl nR)) then KSame (snd (wl js)) else KNext (nth (S (fst (rl nR))) es 0) (snd (wl js))) = moved true (ksof es wl js rl nR)).
        { unfold gr in i_gj. unfold le2 in i_gj. cbn [fst snd] in i_gj. assert (E : fst (wl js) = S (fst (rl nR))) by lia. rewrite (proj2 (Nat.eqb_eq _ _) E). unfold ksof.
          destruct (Nat.eqb_spec (fst (wl js)) (fst (rl nR))); [lia|]. reflexivity. }
        rewrite Hk. exact K.
      + replace (Bs es (fst (rl nR)) + (snd (rl nR) + d)) with (ncof es rl nR + d) by (unfold ncof; lia). exact K.
    - contradiction KC.
    - pose proof (C_destroy _ _ _ _ _ _ _ _ _ _ _ _ _ _ _ _ _ _ _ _ _ _ _ _ _ c M KC) as H. destruct (exec Cons c (Destroy i k) (sview s Cons) (smem s)) as [[[p' v'] m']| |]; auto.
      destruct H as (Hh & dn' & M' & K'). split; [now rewrite Hh|]. exists rl, nR, js, dn', (S d). split; [|reflexivity]. split; [exact M'|]. split; [exact KP|]. split; [unfold curC; cbn; auto|]. auto.
    - pose proof (C_get _ _ _ _ _ _ _ _ _ _ _ _ _ _ _ _ _ _ _ _ _ _ _ _ _ c M KC) as H. destruct (exec Cons c (Get i k) (sview s Cons) (smem s)) as [[[p' v'] m']| |]; auto.
      destruct H as (Hh & M' & K'). split; [now rewrite Hh|]. exists rl, nR, js, dn, d. split; [|reflexivity]. split; [exact M'|]. split; [exact KP|]. split; [unfold curC; cbn; auto|]. auto.
  Qed.

  Lemma C_ret s es acc w wl nW rl nR rs js lv nL pn xs fl dn d o r :
    SI s es acc w wl nW rl nR rs js lv nL pn xs fl dn d -> scur s Cons = Some (o, Ret r) ->
    SI (mksys (smem s) (sview s) (tset (scur s) Cons None) (tset (slog s) Cons (slog s Cons ++ [(o, r)]))) es acc w wl nW rl nR rs js lv nL pn xs fl dn 0.
  Proof.
    intros (M & KP & KC & Hc & G1 & G2) Eq. unfold curC in KC. rewrite Eq in KC. destruct KC as (Hal & (-> & Hr)).
    split; [exact M|].
        unfold curP, curC in *; cbn [scur tset tid_eqb slog] in *. split; [exact KP|].
        assert (Hkn : forall ys n0, ys = firstn (length ys) (skipn n0 (knof T es acc wl js)) -> exists rest, skipn n0 acc = ys ++ rest).
        { intros ys n0 E. exists (skipn (length ys) (skipn n0 (knof T es acc wl js)) ++ skipn (n0 - length (knof T es acc wl js)) (skipn (Bs es (fst (wl js)) + snd (wl js)) acc)).
          rewrite app_assoc. rewrite E at 1. rewrite firstn_skipn. unfold knof. rewrite <- skipn_app. now rewrite firstn_skipn. }
        split; [|split; [|split; [exact G1|apply Forall_app; split; [exact G2|]]]].
        * split; [reflexivity|]. rewrite taken_app, app_length. destruct o, r; cbn in *; try contradiction; try lia. rewrite app_nil_r. lia.
        * apply consumes_app; [exact Hc|]. destruct o, r; cbn in *; try contradiction; auto.
          -- destruct Hr as (_ & _ & _ & E & L & _). destruct (Hkn _ _ E) as (rest & Q). exists rest. rewrite Q. auto.
          -- destruct Hr as (_ & E & L & _). destruct (Hkn _ _ E) as (rest & Q). split; [exists rest; rewrite Q; auto|]. auto.
        * constructor; [|constructor]. destruct o, r; cbn in *; try contradiction; auto; tauto.
  Qed.

  Lemma step_SI s a : R <= MAX -> Inv s ->
    match stp s a with
    | Next s' => ascending (wraps (write_positions s')) -> Inv s'
    | Disabled => True | Undef => False
    end.
  Proof.
    intros HM (es & acc & w & wl & nW & rl & nR & rs & js & lv & nL & pn & xs & fl & dn & d & HS). pose proof HS as (M & KP & KC & Hc & G1 & G2).
    destruct a as [t o|t c]; cbn [step].
    - destruct (scur s t) as [q|] eqn:Eq; [exact I|]. destruct (role T t o && modest T MAX promoted R o) eqn:Eal; [|exact I]. intros _.
      exists es, acc, w, wl, nW, rl, nR, rs, js, lv, nL, pn, xs, fl, dn, d. pose proof (SI_uk _ _ _ _ _ _ _ _ _ _ _ _ _ _ _ _ _ HS) as Huk.
      split; [exact M|]. apply andb_true_iff in Eal. destruct Eal as (Er & Em). destruct t; unfold curP, curC in *; cbn [scur tset tid_eqb slog] in *; rewrite Eq in *.
      + destruct KP as (-> & Ha). destruct M. destruct (i_xs eq_refl) as (-> & ->). repeat split; auto; rewrite ?Er, ?Em; auto. rewrite <- Ha. apply okP_code; auto.
      + destruct KC as (-> & Hn). assert (dn = false) by (destruct M; auto). subst dn. repeat split; auto; rewrite ?Er, ?Em; auto. rewrite <- Hn.
        apply okC_code; auto; [eapply C_kok; eauto|eapply C_len; eauto].
    - destruct (scur s t) as [[o p]|] eqn:Eq; [|exact I]. destruct t.
      + pose proof (P_gen _ _ _ _ _ _ _ _ _ _ _ _ _ _ _ _ _ _ _ c HS Eq) as H.
        destruct p as [r| | | | |]; try (match type of H with context [exec ?a ?b ?c ?d ?e] => destruct (exec a b c d e) as [[[p' v'] m']| |]; exact H end).
        intros _. unfold curP in KP. rewrite Eq in KP. destruct KP as (Hal & (-> & Hr) & _).
        exists es, acc, w, wl, nW, rl, nR, rs, js, lv, nL, pn, [], fl, dn, d. split; [exact M|].
        unfold curP, curC in *; cbn [scur tset tid_eqb slog] in *. split; [|split; [exact KC|split; [exact Hc|split; [apply Forall_app; split; [exact G1|]|exact G2]]]].
        * split; [reflexivity|]. rewrite written_app. destruct o, r; cbn in *; try contradiction; rewrite ?app_nil_r; auto; tauto.
        * constructor; [|constructor]. destruct o, r; cbn in *; try contradiction; auto; tauto.
      + pose proof (C_gen _ _ _ _ _ _ _ _ _ _ _ _ _ _ _ _ _ _ _ c HS Eq) as H.
        destruct p as [r| | | | |]; try (match type of H with context [exec ?a ?b ?c ?d ?e] => destruct (exec a b c d e) as [[[p' v'] m']| |]; [|exact H|exact H] end;
          intros _; destruct H as (_ & rl' & nR' & js' & dn' & d' & H & _); exists es, acc, w, wl, nW, rl', nR', rs, js', lv, nL, pn, xs, fl, dn', d'; exact H).
        intros _. exists es, acc, w, wl, nW, rl, nR, rs, js, lv, nL, pn, xs, fl, dn, 0. apply C_ret with d; auto.
  Qed.

  (** the write positions only grow *)
  Lemma step_wp s a s' : stp s a = Next s' -> exists e, write_positions s' = write_positions s ++ e.
  Proof.
    unfold write_positions. destruct a as [t o|t c]; cbn [step].
    - destruct (scur s t); [discriminate|]. destruct (_ && _); [|discriminate]. intros [= <-]. exists []. cbn. now rewrite app_nil_r.
    - destruct (scur s t) as [[o p]|]; [|discriminate]. destruct p as [r|l or k|l v or k|i x k|i k|i k].
      + intros [= <-]. exists []. cbn. now rewrite app_nil_r.
      + cbn [exec]. destruct (va (sview s t) l <=? c); [|discriminate]. destruct (nth_error (hist (smem s) l) c); [|discriminate]. intros [= <-]. exists []. cbn. now rewrite app_nil_r.
      + cbn [exec]. intros [= <-]. cbn. unfold nset. destruct (Nat.eqb_spec l Wr) as [->|]; [rewrite map_app; cbn; eauto|]. exists []. now rewrite app_nil_r.
      + cbn [exec]. destruct (access (smem s) t (sview s t) i) as [[]|]; [|discriminate]. destruct (cval (cells (smem s) i)); [discriminate|]. intros [= <-]. exists []. cbn. now rewrite app_nil_r.
      + cbn [exec]. destruct (access (smem s) t (sview s t) i) as [[]|]; [|discriminate]. destruct (cval (cells (smem s) i)); [|discriminate]. intros [= <-]. exists []. cbn. now rewrite app_nil_r.
      + cbn [exec]. destruct (access (smem s) t (sview s t) i) as [[]|]; [|discriminate]. destruct (cval (cells (smem s) i)); [|discriminate]. intros [= <-]. exists []. cbn. now rewrite app_nil_r.
  Qed.
  Lemma asc_back s a s' : stp s a = Next s' -> ascending (wraps (write_positions s')) -> ascending (wraps (write_positions s)).
  Proof. intros H. destruct (step_wp _ _ _ H) as (e & ->). destruct (wraps_prefix (write_positions s) e) as (k & ->). apply ascending_app. Qed.

  Lemma run_back acts : forall s s', run (code T MAX promoted R) al s acts = Next s' -> ascending (wraps (write_positions s')) -> ascending (wraps (write_positions s)).
  Proof.
    induction acts as [|a acts IH]; intros s s' H Ha; cbn in H; [congruence|]. destruct (stp s a) as [s1| |] eqn:E; try discriminate.
    eapply asc_back; [exact E|]. eapply IH; eauto.
  Qed.
  Lemma run_Inv acts : R <= MAX -> forall s s', Inv s -> run (code T MAX promoted R) al s acts = Next s' -> ascending (wraps (write_positions s')) -> Inv s'.
  Proof.
    intros HM. induction acts as [|a acts IH]; intros s s' Hi H Ha; cbn in H; [congruence|].
    pose proof (step_SI s a HM Hi) as Hs. destruct (stp s a) as [s1| |] eqn:E; try discriminate.
    eapply IH; [|exact H|exact Ha]. apply Hs. eapply run_back; eauto.
  Qed.
  Lemma exec_Inv acts s : R <= MAX -> exec_all T MAX promoted R acts = Next s -> ascending (wraps (write_positions s)) -> Inv s.
  Proof. intros HM H. eapply run_Inv; [exact HM|exact Inv_init|exact H]. Qed.

  (** ** the reader alone *)
  Definition stepC (a : act (op T)) : Prop := exists c, a = Step Cons c.
  Lemma solo : forall p s es acc w wl nW rl nR rs lv nL pn xs fl dn d o,
    SI s es acc w wl nW rl nR rs nW lv nL pn xs fl dn d -> scur s Cons = Some (o, p) ->
    exists acts s' rl' nR' dn' d' r, run (code T MAX promoted R) al s acts = Next s' /\ Forall stepC acts /\
      SI s' es acc w wl nW rl' nR' rs nW lv nL pn xs fl dn' d' /\ scur s' Cons = Some (o, Ret r) /\ slog s' = slog s /\ scur s' Prod = scur s Prod.
  Proof.
    assert (Hstep : forall p, (match p with Ret _ => False | _ => True end) -> forall s es acc w wl nW rl nR rs lv nL pn xs fl dn d o,
       SI s es acc w wl nW rl nR rs nW lv nL pn xs fl dn d -> scur s Cons = Some (o, p) ->
       exists c p' s' rl' nR' dn' d', stp s (Step Cons c) = Next s' /\ SI s' es acc w wl nW rl' nR' rs nW lv nL pn xs fl dn' d' /\ scur s' Cons = Some (o, p') /\ slog s' = slog s /\ scur s' Prod = scur s Prod /\
         match p with Ret _ => False | Load _ _ k => exists v, p' = k v | Store _ _ _ k => p' = k | Construct _ _ k => p' = k | Destroy _ k => p' = k | Get _ k => exists x, p' = k x end).
    { intros p Hp s es acc w wl nW rl nR rs lv nL pn xs fl dn d o HS Eq.
      pose proof (fun c => C_gen _ _ _ _ _ _ _ _ _ _ _ _ _ _ _ _ _ _ _ c HS Eq) as HG. pose proof HS as (M & _ & KC & _). unfold curC in KC. rewrite Eq in KC. destruct KC as (_ & KC).
      destruct p as [r|l or k|l v or k|i x k|i k|i k]; [contradiction| | |contradiction KC| |].
      - assert (Hl : l = Wr \/ l = Rd \/ l = La).
        { cbn [okC] in KC. destruct (Nat.eqb_spec l Rd); [auto|]. destruct (Nat.eqb_spec l Wr); [auto|]. destruct KC; auto. }
        set (c := pred (length (hist (smem s) l))).
        assert (Hc : va (sview s Cons) l <= c /\ c < length (hist (smem s) l) /\ (l = Wr -> c = nW)).
        { unfold c. destruct M. destruct Hl as [->|[->| ->]]; repeat split; try lia; discriminate. }
        destruct Hc as (C1 & C2 & C3). specialize (HG c). cbn [exec] in HG. rewrite (proj2 (Nat.leb_le _ _) C1) in HG.
        destruct (nth_error (hist (smem s) l) c) as [ms|] eqn:En; [|apply nth_error_None in En; lia].
        destruct HG as (_ & rl' & nR' & js' & dn' & d' & HS' & Ej).
        assert (js' = nW). { rewrite Ej. destruct l as [|l]; [apply C3; reflexivity|reflexivity]. } clear Ej. subst js'.
        eexists c, _, _, rl', nR', dn', d'. split; [|split; [exact HS'|]].
        + cbn [step]. rewrite Eq. cbn [exec]. rewrite (proj2 (Nat.leb_le _ _) C1), En. reflexivity.
        + cbn. repeat split. eauto.
      - specialize (HG 0). cbn [exec] in HG. destruct HG as (_ & rl' & nR' & js' & dn' & d' & HS' & ->).
        eexists 0, _, _, rl', nR', dn', d'. split; [cbn [step]; rewrite Eq; cbn [exec]; reflexivity|]. split; [exact HS'|]. cbn. auto.
      - specialize (HG 0). destruct (exec Cons 0 (Destroy i k) (sview s Cons) (smem s)) as [[[p' v'] m']| |] eqn:Ee; [| |contradiction].
        + destruct HG as (_ & rl' & nR' & js' & dn' & d' & HS' & ->). eexists 0, p', _, rl', nR', dn', d'. split; [cbn [step]; rewrite Eq, Ee; reflexivity|]. split; [exact HS'|]. cbn. repeat split.
          cbn [exec] in Ee. destruct (access (smem s) Cons (sview s Cons) i) as [[]|]; [|discriminate]. destruct (cval (cells (smem s) i)); [|discriminate]. congruence.
        + cbn [exec] in Ee. destruct (access (smem s) Cons (sview s Cons) i) as [[]|]; [|discriminate]. destruct (cval (cells (smem s) i)); discriminate.
      - specialize (HG 0). destruct (exec Cons 0 (Get i k) (sview s Cons) (smem s)) as [[[p' v'] m']| |] eqn:Ee; [| |contradiction].
        + destruct HG as (_ & rl' & nR' & js' & dn' & d' & HS' & ->). eexists 0, p', _, rl', nR', dn', d'. split; [cbn [step]; rewrite Eq, Ee; reflexivity|]. split; [exact HS'|]. cbn. repeat split.
          cbn [exec] in Ee. destruct (access (smem s) Cons (sview s Cons) i) as [[]|]; [|discriminate]. destruct (cval (cells (smem s) i)) as [y|]; [|discriminate]. exists y. congruence.
        + cbn [exec] in Ee. destruct (access (smem s) Cons (sview s Cons) i) as [[]|]; [|discriminate]. destruct (cval (cells (smem s) i)); discriminate. }
    assert (Hfin : forall s1 s o c es acc w wl nW rs lv nL pn xs fl,
       stp s1 (Step Cons c) = Next s -> slog s = slog s1 -> scur s Prod = scur s1 Prod ->
       (exists acts s' rl' nR' dn' d' r, run (code T MAX promoted R) al s acts = Next s' /\ Forall stepC acts /\ SI s' es acc w wl nW rl' nR' rs nW lv nL pn xs fl dn' d' /\ scur s' Cons = Some (o, Ret r) /\ slog s' = slog s /\ scur s' Prod = scur s Prod) ->
       exists acts s' rl' nR' dn' d' r, run (code T MAX promoted R) al s1 acts = Next s' /\ Forall stepC acts /\ SI s' es acc w wl nW rl' nR' rs nW lv nL pn xs fl dn' d' /\ scur s' Cons = Some (o, Ret r) /\ slog s' = slog s1 /\ scur s' Prod = scur s1 Prod).
    { intros s1 s o c es acc w wl nW rs lv nL pn xs fl H1 H2 H3 (acts & s' & rl' & nR' & dn' & d' & r & A1 & A2 & A3 & A4 & A5 & A6).
      exists (Step Cons c :: acts), s', rl', nR', dn', d', r. cbn [run]. rewrite H1. split; [exact A1|]. split; [constructor; [exists c; auto|auto]|]. split; [exact A3|]. split; [exact A4|]. split; congruence. }
    intros p. induction p as [r|l or k IH|l v or k IH|i x k IH|i k IH|i k IH]; intros s es acc w wl nW rl nR rs lv nL pn xs fl dn d o HS Eq.
    - exists [], s, rl, nR, dn, d, r. split; [reflexivity|]. split; [constructor|]. split; [exact HS|]. auto.
    - destruct (Hstep (Load l or k) I _ _ _ _ _ _ _ _ _ _ _ _ _ _ _ _ _ HS Eq) as (c & p' & s' & rl' & nR' & dn' & d' & B1 & B2 & B3 & B4 & B5 & v & ->).
      eapply Hfin; try eassumption. eapply IH; eauto.
    - destruct (Hstep (Store l v or k) I _ _ _ _ _ _ _ _ _ _ _ _ _ _ _ _ _ HS Eq) as (c & p' & s' & rl' & nR' & dn' & d' & B1 & B2 & B3 & B4 & B5 & ->).
      eapply Hfin; try eassumption. eapply IH; eauto.
    - destruct (Hstep (Construct i x k) I _ _ _ _ _ _ _ _ _ _ _ _ _ _ _ _ _ HS Eq) as (c & p' & s' & rl' & nR' & dn' & d' & B1 & B2 & B3 & B4 & B5 & ->).
      eapply Hfin; try eassumption. eapply IH; eauto.
    - destruct (Hstep (Destroy i k) I _ _ _ _ _ _ _ _ _ _ _ _ _ _ _ _ _ HS Eq) as (c & p' & s' & rl' & nR' & dn' & d' & B1 & B2 & B3 & B4 & B5 & ->).
      eapply Hfin; try eassumption. eapply IH; eauto.
    - destruct (Hstep (Get i k) I _ _ _ _ _ _ _ _ _ _ _ _ _ _ _ _ _ HS Eq) as (c & p' & s' & rl' & nR' & dn' & d' & B1 & B2 & B3 & B4 & B5 & v & ->).
      eapply Hfin; try eassumption. eapply IH; eauto.
  Qed.

  Lemma acc_flight s es acc w wl nW rl nR rs js lv nL pn xs fl dn d : SI s es acc w wl nW rl nR rs js lv nL pn xs fl dn d ->
    acc = written (slog s Prod) ++ in_flight s.
  Proof.
    intros (M & KP & _). unfold curP, in_flight in *. destruct (scur s Prod) as [[o p]|]; [|destruct KP as (_ & ->); now rewrite app_nil_r].
    destruct KP as (Hal & KP & Ha). destruct p as [r| | | | |]; try (destruct Ha as [->|(r' & E)]; [now rewrite app_nil_r|discriminate]).
    destruct KP as (_ & KP). destruct o, r; cbn in KP; try contradiction; rewrite ?app_nil_r; tauto.
  Qed.

  (** one read call of an idle reader, alone, takes something unless nothing is left *)
  Definition all_of : nat -> nat -> nat := fun _ n => n.
  Definition reads (a : act (op T)) : Prop := a = Invoke Cons (BRead MAX all_of) \/ stepC a.
  Lemma one_read s es acc w wl nW rl nR rs js lv nL pn xs fl dn d : R <= MAX -> 0 < MAX ->
    SI s es acc w wl nW rl nR rs js lv nL pn xs fl dn d -> scur s Cons = None ->
    exists acts s' rl' nR' js' dn' d', run (code T MAX promoted R) al s acts = Next s' /\ Forall reads acts /\
      SI s' es acc w wl nW rl' nR' rs js' lv nL pn xs fl dn' d' /\ scur s' Cons = None /\ scur s' Prod = scur s Prod /\ slog s' Prod = slog s Prod /\
      (taken (slog s' Cons) = acc \/ length (taken (slog s Cons)) < length (taken (slog s' Cons))).
  Proof.
    intros HM H0 HS Hi.
    set (o := BRead MAX all_of : op T).
    set (s1 := mksys (smem s) (sview s) (tset (scur s) Cons (Some (o, code T MAX promoted R o))) (slog s)).
    assert (E1 : stp s (Invoke Cons o) = Next s1). { cbn [step]. rewrite Hi. reflexivity. }
    assert (HS1 : SI s1 es acc w wl nW rl nR rs js lv nL pn xs fl dn d).
    { destruct HS as (M & KP & KC & Hc & G1 & G2). split; [exact M|]. split; [exact KP|]. split; [|auto]. unfold curC in *. cbn [scur tset tid_eqb slog s1]. rewrite Hi in KC. destruct KC as (-> & Hn).
      split; [reflexivity|]. assert (dn = false) by (destruct M; auto). subst dn. rewrite <- Hn. apply okC_code; auto; [eapply C_kok; eauto|eapply C_len; eauto]. }
    (* the two loads *)
    cbn [code o] in s1. unfold get_read_reserve in s1.
    pose proof (C_gen _ _ _ _ _ _ _ _ _ _ _ _ _ _ _ _ _ _ _ nR HS1 eq_refl) as G2.
    assert (Hrd : va (sview s1 Cons) Rd <= nR /\ nR < length (hist (smem s1) Rd)) by (destruct HS1 as (M & _); destruct M; lia). destruct Hrd as (R1 & R2).
    cbn [exec] in G2. rewrite (proj2 (Nat.leb_le _ _) R1) in G2. destruct (nth_error (hist (smem s1) Rd) nR) as [ms|] eqn:En; [|apply nth_error_None in En; lia].
    destruct G2 as (Hh & rl2 & nR2 & js2 & dn2 & d2 & HS2 & _).
    match type of HS2 with SI ?x _ _ _ _ _ _ _ _ _ _ _ _ _ _ _ _ => set (s2 := x) in * end.
    assert (E2 : stp s1 (Step Cons nR) = Next s2). { cbn [step scur s1 tset tid_eqb exec]. change (smem s1) with (smem s) in *. change (sview s1) with (sview s) in *. rewrite (proj2 (Nat.leb_le _ _) R1), En. reflexivity. }
    pose proof (C_gen _ _ _ _ _ _ _ _ _ _ _ _ _ _ _ _ _ _ _ nW HS2 eq_refl) as G3.
    assert (Hwr : va (sview s2 Cons) Wr <= nW /\ nW < length (hist (smem s2) Wr)) by (destruct HS2 as (M & _); destruct M; lia). destruct Hwr as (W1 & W2).
    cbn [exec] in G3. rewrite (proj2 (Nat.leb_le _ _) W1) in G3. destruct (nth_error (hist (smem s2) Wr) nW) as [ms2|] eqn:En2; [|apply nth_error_None in En2; lia].
    destruct G3 as (_ & rl3 & nR3 & js3 & dn3 & d3 & HS3 & Ej). cbn in Ej. subst js3.
    match type of HS3 with SI ?x _ _ _ _ _ _ _ _ _ _ _ _ _ _ _ _ => set (s3 := x) in * end.
    assert (E3 : stp s2 (Step Cons nW) = Next s3). { cbn [step]. change (scur s2 Cons) with (scur s2 Cons). unfold s2 at 1. cbn [scur tset tid_eqb exec]. rewrite (proj2 (Nat.leb_le _ _) W1), En2. reflexivity. }
    destruct (solo _ _ _ _ _ _ _ _ _ _ _ _ _ _ _ _ _ _ HS3 eq_refl) as (acts & s4 & rl4 & nR4 & dn4 & d4 & r & A1 & A2 & A3 & A4 & A5 & A6).
    pose proof (C_ret _ _ _ _ _ _ _ _ _ _ _ _ _ _ _ _ _ _ _ A3 A4) as HS5.
    match type of HS5 with SI ?x _ _ _ _ _ _ _ _ _ _ _ _ _ _ _ _ => set (s5 := x) in * end.
    assert (E5 : stp s4 (Step Cons 0) = Next s5) by (cbn [step]; rewrite A4; reflexivity).
    exists (Invoke Cons o :: Step Cons nR :: Step Cons nW :: acts ++ [Step Cons 0]), s5, rl4, nR4, nW, dn4, 0.
    split; [cbn [run]; rewrite E1, E2, E3; rewrite run_app, A1; cbn [run]; rewrite E5; reflexivity|].
    split.
    { constructor; [left; reflexivity|]. constructor; [right; eexists; reflexivity|]. constructor; [right; eexists; reflexivity|]. apply Forall_app. split; [|constructor; [right; eexists; reflexivity|constructor]].
      eapply Forall_impl; [|exact A2]. intros a Ha. right. exact Ha. }
    split; [exact HS5|]. split; [reflexivity|]. split; [cbn; exact A6|]. split; [cbn; rewrite A5; reflexivity|].
    cbn [slog s5 tset tid_eqb]. rewrite A5. cbn [slog s3 s2 s1]. rewrite taken_app.
    pose proof A3 as (M & _ & KC & _). unfold curC in KC. rewrite A4 in KC. destruct KC as (_ & Hd & Hr). rewrite A5 in Hr. cbn [slog s3 s2 s1] in Hr.
    destruct r as [|i n ys| | | |]; cbn in Hr; try contradiction. destruct Hr as (L1 & L2 & L3 & L4 & L5 & _). cbn [taken]. rewrite app_nil_r.
    destruct n as [|n].
    - left. assert (ys = []) by (destruct ys; [auto|cbn in L5; lia]). subst ys. rewrite app_nil_r.
      destruct (L2 eq_refl) as [Z|Z]; [lia|].
      pose proof HS as (_ & _ & _ & Hc & _). destruct (consumes_taken _ _ _ Hc) as (rest & Ha).
      assert (Hk : knof T es acc wl nW = acc). { destruct M. unfold knof. rewrite i_wn. cbn [fst snd]. rewrite <- i_len. apply firstn_all. }
      rewrite Hk in Z. rewrite Ha in Z at 1. rewrite app_length in Z. destruct rest; [|cbn in Z; lia]. rewrite app_nil_r in Ha. congruence.
    - right. rewrite app_length. unfold all_of in L1. lia.
  Qed.

  Lemma drain n : forall s es acc w wl nW rl nR rs js lv nL pn xs fl dn d, R <= MAX -> 0 < MAX ->
    SI s es acc w wl nW rl nR rs js lv nL pn xs fl dn d -> scur s Cons = None -> length acc < n + length (taken (slog s Cons)) ->
    exists acts s', run (code T MAX promoted R) al s acts = Next s' /\ Forall reads acts /\ scur s' Prod = scur s Prod /\ slog s' Prod = slog s Prod /\ taken (slog s' Cons) = acc.
  Proof.
    induction n as [|n IH]; intros s es acc w wl nW rl nR rs js lv nL pn xs fl dn d HM H0 HS Hi Hl.
    - pose proof HS as (_ & _ & _ & Hc & _). destruct (consumes_taken _ _ _ Hc) as (rest & Ha). rewrite Ha, app_length in Hl. lia.
    - destruct (one_read _ _ _ _ _ _ _ _ _ _ _ _ _ _ _ _ _ HM H0 HS Hi) as (acts & s' & rl' & nR' & js' & dn' & d' & B1 & B2 & B3 & B4 & B5 & B6 & [B7|B7]).
      + exists acts, s'. auto.
      + destruct (IH s' _ _ _ _ _ _ _ _ _ _ _ _ _ _ _ _ HM H0 B3 B4 ltac:(lia)) as (acts2 & s2 & C1 & C2 & C3 & C4 & C5).
        exists (acts ++ acts2), s2. rewrite run_app, B1. repeat split; auto; try congruence. apply Forall_app. auto.
  Qed.
End Sys.
