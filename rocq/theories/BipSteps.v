(** Preservation of the bip buffer invariant: the writer (support for C04, C05). *)
From Coq Require Import List Arith Lia Bool.
From Verif Require Import Util RA BipModel BipSpec BipProofs.
Import ListNotations.

Lemma list_eq_dec_nil {A} (l : list A) : {l = []} + {l <> []}.
Proof. destruct l; [left; auto|right; discriminate]. Qed.

Section PSteps.
  Variable T : Type.
  Variable R : nat.
  Notation MI := (MI T R).
  Definition ukof (es : list nat) (rl : nat -> nat * nat) (rs : nat) : bool * nat := (fst (rl rs) <? length es, snd (rl rs)).

  Ltac fields := constructor; cbn [hist cells nslots va vc mval mview]; auto.

  Lemma rl_le es acc w wl nW rl nR rs js lv nL pn xs fl dn d m vP vC :
    MI es acc w wl nW rl nR rs js lv nL pn xs fl dn d m vP vC -> forall i j, i <= j -> j <= nR -> le2 (rl i) (rl j).
  Proof. intros M i j H1 H2. destruct (Nat.eq_dec i j) as [->|]; [lex|]. pose proof (i_rm _ _ _ _ _ _ _ _ _ _ _ _ _ _ _ _ _ _ _ _ _ M i j ltac:(lia) H2). lex. Qed.
  Lemma wl_le es acc w wl nW rl nR rs js lv nL pn xs fl dn d m vP vC :
    MI es acc w wl nW rl nR rs js lv nL pn xs fl dn d m vP vC -> forall i j, i <= j -> j <= nW -> le2 (wl i) (wl j).
  Proof. intros M i j H1 H2. destruct (Nat.eq_dec i j) as [->|]; [lex|]. pose proof (i_wm _ _ _ _ _ _ _ _ _ _ _ _ _ _ _ _ _ _ _ _ _ M i j ltac:(lia) H2). lex. Qed.
  (** reader position known to the writer: in this lap or the one before *)
  Lemma lap es acc w wl nW rl nR rs js lv nL pn xs fl dn d m vP vC :
    MI es acc w wl nW rl nR rs js lv nL pn xs fl dn d m vP vC ->
    (fst (rl rs) = length es /\ snd (rl rs) <= w) \/ (S (fst (rl rs)) = length es /\ pn = false /\ w + length xs < snd (rl rs) /\ snd (rl rs) <= nth (fst (rl rs)) es 0).
  Proof.
    intros M. destruct M. pose proof (i_rp rs i_rs) as Hp. unfold pos in Hp. destruct pn; cbn [fr fst snd] in *.
    - specialize (i_pn eq_refl). left. lia.
    - destruct i_cap as [H|H]; [left; lia|right]. lia.
  Qed.
  Lemma gr_ge u dn d : le2 u (gr u dn d).
  Proof. destruct dn; cbn; lex. Qed.

  Lemma P_loadW o acc0 es acc w wl nW rl nR rs js lv nL pn xs fl dn d m vP vC or k c :
    MI es acc w wl nW rl nR rs js lv nL pn xs fl dn d m vP vC ->
    okP T R o acc0 acc w (ukof es rl rs) pn xs fl (Load Wr or k) ->
    match exec Prod c (Load Wr or k) vP m with
    | Next (p', v', m') => m' = m /\ MI es acc w wl nW rl nR rs js lv nL pn xs fl dn d m v' vC /\ okP T R o acc0 acc w (ukof es rl rs) pn xs fl p'
    | Disabled => True | Undef => False
    end.
  Proof.
    intros M K. cbn [exec]. destruct (Nat.leb_spec (va vP Wr) c) as [Hle|]; [|exact I].
    destruct (nth_error (hist m Wr) c) as [ms|] eqn:En; [|exact I]. split; [reflexivity|].
    cbn [okP] in K. change (Wr =? Wr) with true in K. cbn iota in K. destruct M.
    pose proof (nth_error_lt _ _ _ En). assert (c = nW) by lia. subst c.
    destruct (i_w _ _ En) as (V & W1 & W2 & W3 & _). rewrite i_wn in V. cbn [snd] in V. rewrite V. split; [|exact K].
    assert (Hg : forall v', va v' Wr = nW -> va v' Rd = rs -> va v' La = nL -> (forall t, vc vP t <= vc v' t) ->
      MI es acc w wl nW rl nR rs js lv nL pn xs fl dn d m v' vC).
    { intros v' A1 A2 A3 A4. fields.
      - intros i. specialize (i_ep i). specialize (A4 Prod). lia.
      - intros ms' Hm. specialize (i_kp ms' Hm). specialize (A4 Cons). lia. }
    apply Hg; destruct or; cbn; unfold nset; cbn; intros; try lia.
  Qed.

  Lemma P_loadL o acc0 es acc w wl nW rl nR rs js lv nL pn xs fl dn d m vP vC or k c :
    MI es acc w wl nW rl nR rs js lv nL pn xs fl dn d m vP vC ->
    okP T R o acc0 acc w (ukof es rl rs) pn xs fl (Load La or k) ->
    match exec Prod c (Load La or k) vP m with
    | Next (p', v', m') => m' = m /\ MI es acc w wl nW rl nR rs js lv nL pn xs fl dn d m v' vC /\ okP T R o acc0 acc w (ukof es rl rs) pn xs fl p'
    | Disabled => True | Undef => False
    end.
  Proof.
    intros M K. cbn [exec]. destruct (Nat.leb_spec (va vP La) c) as [Hle|]; [|exact I].
    destruct (nth_error (hist m La) c) as [ms|] eqn:En; [|exact I]. split; [reflexivity|].
    cbn [okP] in K. change (La =? Wr) with false in K. change (La =? Rd) with false in K. cbn iota in K. destruct K as (_ & K). destruct M.
    pose proof (nth_error_lt _ _ _ En). assert (c = nL) by lia. subst c.
    destruct (i_lx _ En) as (V & W1 & W2 & W3 & _). split; [|apply K].
    assert (Hg : forall v', va v' Wr = nW -> va v' Rd = rs -> va v' La = nL -> (forall t, vc vP t <= vc v' t) ->
      MI es acc w wl nW rl nR rs js lv nL pn xs fl dn d m v' vC).
    { intros v' A1 A2 A3 A4. fields.
      - intros i. specialize (i_ep i). specialize (A4 Prod). lia.
      - intros ms' Hm. specialize (i_kp ms' Hm). specialize (A4 Cons). lia. }
    apply Hg; destruct or; cbn; unfold nset; cbn; intros; try lia.
  Qed.

  Lemma P_loadR o acc0 es acc w wl nW rl nR rs js lv nL pn xs fl dn d m vP vC or k c :
    MI es acc w wl nW rl nR rs js lv nL pn xs fl dn d m vP vC ->
    okP T R o acc0 acc w (ukof es rl rs) pn xs fl (Load Rd or k) ->
    match exec Prod c (Load Rd or k) vP m with
    | Next (p', v', m') => m' = m /\ MI es acc w wl nW rl nR c js lv nL pn xs fl dn d m v' vC /\ okP T R o acc0 acc w (ukof es rl c) pn xs fl p'
    | Disabled => True | Undef => False
    end.
  Proof.
    intros M K. cbn [exec]. destruct (Nat.leb_spec (va vP Rd) c) as [Hle|]; [|exact I].
    destruct (nth_error (hist m Rd) c) as [ms|] eqn:En; [|exact I]. split; [reflexivity|].
    cbn [okP] in K. change (Rd =? Wr) with false in K. change (Rd =? Rd) with true in K. cbn iota in K. destruct K as (-> & K).
    pose proof (rl_le _ _ _ _ _ _ _ _ _ _ _ _ _ _ _ _ _ _ _ M) as Hrl. pose proof (lap _ _ _ _ _ _ _ _ _ _ _ _ _ _ _ _ _ _ _ M) as Hlap. destruct M.
    pose proof (nth_error_lt _ _ _ En) as Hc. assert (Hc' : c <= nR) by lia. assert (Hrs : rs <= c) by lia.
    specialize (Hrl rs c Hrs Hc'). pose proof (i_rp c Hc') as Hpc. unfold pos in Hpc.
    destruct (i_r _ _ En) as (V & W1 & W2 & W3 & _). rewrite V.
    assert (HR : snd (rl c) <= R) by (destruct Hpc as [(H1 & H2)|(H1 & H2)]; [specialize (i_es (fst (rl c)))|]; lia).
    split.
    2:{ apply (K (ukof es rl c)). unfold ukof, uk_step. cbn [fst snd]. destruct (Nat.ltb_spec (fst (rl rs)) (length es)), (Nat.ltb_spec (fst (rl c)) (length es)); lex. }
    fields; unfold nset; cbn; try lia.
    - destruct pn; cbn [fr fst snd] in *; lex.
    - intros E. specialize (i_pn E). lex.
    - intros ms' Hm. destruct (i_lx ms' Hm) as (X1 & X2 & X3 & X4 & X5). repeat split; auto; try lia. intros Q. apply X5. lex.
    - intros E. destruct (i_fl E) as (X1 & X2 & X3). repeat split; auto. lex.
    - intros E Q. destruct (Nat.eq_dec (fst (rl rs)) (length es)) as [Q2|Q2]; [auto|]. right.
      destruct (i_lv2 ltac:(lex)) as (es' & X). split; [|eauto]. destruct Hlap as [Y|(Y1 & Y2 & Y3 & Y4)]; [lia|].
      rewrite X in Y4, Y1. rewrite app_length in Y1. cbn in Y1. rewrite app_nth2 in Y4 by lia. replace (fst (rl rs) - length es') with 0 in Y4 by lia. cbn in Y4. lia.
    - intros Q. apply i_lv2. lex.
    - intros Q. apply i_la. lex.
    - intros j ms' Hm. destruct (i_w j ms' Hm) as (X1 & X2 & X3 & X4 & X5). repeat split; auto; lia.
    - intros i. specialize (i_ep i). lia.
    - intros ms' Hm. rewrite En in Hm. injection Hm as <-. lia.
  Qed.

  Lemma nset_cell_other {A} (f : nat -> A) i j x : i <> j -> nset f i x j = f j.
  Proof. apply nset_other. Qed.

  Lemma P_construct o acc0 es acc w wl nW rl nR rs js lv nL pn xs fl dn d m vP vC i x k c :
    MI es acc w wl nW rl nR rs js lv nL pn xs fl dn d m vP vC ->
    okP T R o acc0 acc w (ukof es rl rs) pn xs fl (Construct i x k) ->
    match exec Prod c (Construct i x k) vP m with
    | Next (p', v', m') => hist m' = hist m /\ exists pn', MI es acc w wl nW rl nR rs js lv nL pn' (xs ++ [x]) fl dn d m' v' vC /\ okP T R o acc0 acc w (ukof es rl rs) pn' (xs ++ [x]) fl p'
    | Disabled => True | Undef => False
    end.
  Proof.
    intros M K. cbn [okP] in K. destruct K as (-> & Hi & pn' & Hpn & Hpos & K). cbn [ukof fst snd] in Hpos.
    pose proof (rl_le _ _ _ _ _ _ _ _ _ _ _ _ _ _ _ _ _ _ _ M rs nR) as Hrl. pose proof (lap _ _ _ _ _ _ _ _ _ _ _ _ _ _ _ _ _ _ _ M) as Hlap.
    assert (Hi' : i = pbase w pn' + length xs) by (destruct pn'; cbn; lia).
    assert (Hcap' : fst (fr T (length es) w pn' (xs ++ [x])) = fst (rl rs) \/ (fst (fr T (length es) w pn' (xs ++ [x])) = S (fst (rl rs)) /\ snd (fr T (length es) w pn' (xs ++ [x])) < snd (rl rs))).
    { rewrite ?fr. destruct pn'; unfold fr; cbn [fst snd]; rewrite app_length; cbn [length]; destruct (Nat.ltb_spec (fst (rl rs)) (length es)) as [L|L].
      - destruct Hpos; discriminate.
      - right. destruct Hpos as (_ & P1 & P2). destruct Hlap; lia.
      - destruct Hpos as (P1 & P2). specialize (P2 eq_refl). destruct Hlap; lia.
      - left. destruct Hlap; lia. }
    assert (Hpn' : pn' = true -> fst (rl rs) = length es).
    { intros ->. destruct Hpos as (E & _). apply Nat.ltb_ge in E. destruct Hlap; lia. }
    assert (Hgr : le2 (rl rs) (gr (rl nR) dn d)).
    { pose proof (gr_ge (rl nR) dn d). destruct M. specialize (Hrl ltac:(lia) ltac:(lia)). lex. }
    assert (Hel : forall l, elt es w l i -> lt2 (l, i) (gr (rl nR) dn d)).
    { intros l He. assert (lt2 (l, i) (rl rs)); [|lex]. unfold elt in He. unfold fr in Hcap'. destruct pn'; cbn [fst snd pbase] in *; rewrite app_length in Hcap'; cbn [length] in Hcap'; lex. }
    assert (Hfr : le2 (fr T (length es) w pn xs) (fst (fr T (length es) w pn' (xs ++ [x])), i)).
    { destruct (list_eq_dec_nil xs) as [->|Hx].
      - destruct M. destruct (i_xs eq_refl) as (-> & _). destruct pn'; cbn; cbn in Hi'; lex.
      - destruct Hpn as [->| ->]; [easy|]. destruct pn; cbn; cbn in Hi'; lex. }
    assert (Hcell : cval (cells m i) = None).
    { destruct M. apply i_c3; auto. destruct (list_eq_dec_nil xs) as [->|Hx]; [cbn; lia|]. destruct Hpn as [->| ->]; [easy|]. lia. }
    assert (Hrace : cacc (cells m i) Cons <= vc vP Cons).
    { destruct M. destruct (Nat.eq_dec (fst (fr T (length es) w pn' (xs ++ [x]))) 0) as [Z|Z].
      - destruct pn'; cbn [fr fst] in Z; [discriminate|]. cbn in Hi'. rewrite i_fr by lia. lia.
      - destruct (nth_error (hist m Rd) rs) as [ms|] eqn:En; [|apply nth_error_None in En; lia].
        specialize (i_kp ms eq_refl). destruct (i_r _ _ En) as (_ & _ & _ & _ & X).
        specialize (X (pred (fst (fr T (length es) w pn' (xs ++ [x])))) i Hi). cbn [fst] in *.
        replace (S (pred (fst (fr T (length es) w pn' (xs ++ [x]))))) with (fst (fr T (length es) w pn' (xs ++ [x]))) in X by lia.
        enough (cacc (cells m i) Cons <= vc (mview ms) Cons) by lia. apply X.
        + unfold fr in *. destruct pn'; cbn [fst snd pbase] in *; rewrite app_length in *; cbn [length] in *; lex.
        + destruct pn'; cbn [fr fst snd pbase] in *; lex. }
    cbn [exec]. unfold access. rewrite (BipProofs.i_n _ _ _ _ _ _ _ _ _ _ _ _ _ _ _ _ _ _ _ _ _ M).
    destruct (Nat.ltb_spec i R); [|lia]. cbn [other]. destruct (Nat.leb_spec (cacc (cells m i) Cons) (vc vP Cons)); [|lia]. rewrite Hcell.
    split; [reflexivity|]. exists pn'. split; [|exact K].
    assert (Hfs : snd (fr T (length es) w pn' (xs ++ [x])) = S i).
    { unfold fr. destruct pn'; cbn [snd pbase] in *; rewrite app_length; cbn [length]; lia. }
    assert (Hff : length es <= fst (fr T (length es) w pn' (xs ++ [x])) <= S (length es)).
    { unfold fr. destruct pn'; cbn [fst]; lia. }
    assert (Hff2 : fst (fr T (length es) w pn' (xs ++ [x])) = length es -> w <= i).
    { unfold fr. destruct pn'; cbn [fst pbase] in *; lia. }
    set (F' := fr T (length es) w pn' (xs ++ [x])) in *.
    destruct M. fields; cbn [tset tid_eqb].
    - intros E. destruct xs; discriminate.
    - fold F'. lia.
    - discriminate.
    - intros j ms Hm. destruct (i_w j ms Hm) as (X1 & X2 & X3 & X4 & X5). repeat split; auto. fold F'.
      intros l i2 Hi2 A B. pose proof (nth_error_lt _ _ _ Hm) as Hj. pose proof (i_wp j ltac:(lia)) as Hp. unfold pos in Hp.
      destruct (Nat.eq_dec i i2) as [<-|Ne].
      + exfalso. clearbody F'. clear - A B Hp Hfs Hff Hff2. lex.
      + rewrite nset_other by auto. apply (X5 l); auto. clearbody F'. clear - Hfr B Hfs Hff Ne. destruct (fr T (length es) w pn xs). lex.
    - intros j ms Hm. destruct (i_r j ms Hm) as (X1 & X2 & X3 & X4 & X5). repeat split; auto.
      intros l i2 Hi2 A B. unfold nset. destruct (Nat.eqb_spec i i2) as [<-|]; cbn; apply (X5 l); auto.
    - intros i2 A B. unfold nset. destruct (Nat.eqb_spec i i2) as [<-|]; cbn; auto.
    - intros l i2 A B. rewrite nset_other; [auto|]. intros <-. specialize (Hel l A). lex.
    - intros i2 A. rewrite app_length in A. cbn in A. unfold nset. destruct (Nat.eqb_spec i (pbase w pn' + i2)) as [E|E]; cbn.
      + assert (i2 = length xs) by lia. subst i2. rewrite nth_error_app2, Nat.sub_diag by lia. reflexivity.
      + rewrite nth_error_app1 by lia. assert (Hx : xs <> []) by (intros ->; cbn in *; lia). destruct Hpn as [->| ->]; [easy|]. apply i_c2. lia.
    - intros i2 A B C. rewrite app_length in C. cbn in C. rewrite nset_other by lia. apply i_c3; auto.
      destruct (list_eq_dec_nil xs) as [->|Hx]; [cbn; lia|]. destruct Hpn as [->| ->]; [easy|]. lia.
    - intros i2. unfold nset. destruct (Nat.eqb_spec i i2); cbn; [lia|]. specialize (i_ep i2). lia.
    - intros i2. unfold nset. destruct (Nat.eqb_spec i i2) as [<-|]; cbn; auto.
  Qed.
End PSteps.
