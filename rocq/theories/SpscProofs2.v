From Coq Require Import List Arith Lia Bool Permutation.
From Verif Require Import RA SpscModel SpscSpec SpscProofs.
Import ListNotations.

Lemma accepted_app T (l1 l2 : list (op T * res T)) : accepted (l1 ++ l2) = accepted l1 ++ accepted l2.
Proof.
  induction l1 as [|[o r] l IH]; cbn; [reflexivity|].
  destruct o; auto. destruct r as [[]| |]; auto. cbn. now rewrite IH.
Qed.
Lemma removed_app T (l1 l2 : list (op T * res T)) : removed (l1 ++ l2) = removed l1 + removed l2.
Proof.
  induction l1 as [|[o r] l IH]; cbn; [reflexivity|].
  destruct o; auto; destruct r as [[]|[]|]; cbn; auto; now rewrite IH.
Qed.
Lemma consumes_app T (st : list T) l1 l2 :
  consumes st l1 -> consumes (skipn (removed l1) st) l2 -> consumes st (l1 ++ l2).
Proof.
  revert st; induction l1 as [|[o r] l IH]; intros st; cbn - [skipn]; [auto|].
  destruct o; destruct r as [[]|[]|]; cbn - [skipn]; auto;
    try (intros (s' & -> & H) H2; exists s'; split; auto; fail);
    try (intros (v & s' & -> & H) H2; exists v, s'; split; auto; fail).
Qed.
Lemma consumes_mono T (st e : list T) l : consumes st l -> consumes (st ++ e) l.
Proof.
  revert st; induction l as [|[o r] l IH]; intros st; cbn; [auto|].
  destruct o; destruct r as [[]|[]|]; auto.
  - intros (s' & -> & H). exists (s' ++ e). split; auto.
  - intros (v & s' & -> & H). exists v, (s' ++ e). split; auto.
  - intros (s' & -> & H). exists (s' ++ e). split; [reflexivity|]. apply (IH (t :: s')), H.
  - intros (s' & -> & H). exists (s' ++ e). split; [reflexivity|]. apply (IH (t :: s')), H.
Qed.

Section Sys.
  Variable T : Type.
  Variable R : nat.
  Hypothesis HR : 2 <= R.
  Notation state := (sys T (op T) (res T)).
  Notation stp := (step (code T R) (allowed T)).

  Definition curP (s : state) acc rs pend : Prop :=
    match scur s Prod with
    | None => pend = None /\ acc = accepted (slog s Prod)
    | Some (o, p) => allowed T Prod o = true /\ okP T R o (accepted (slog s Prod)) acc rs pend p /\
                     (acc = accepted (slog s Prod) \/ exists x, o = Push x /\ acc = accepted (slog s Prod) ++ [x])
    end.
  Definition curC (s : state) nc kn d : Prop :=
    match scur s Cons with
    | None => d = false /\ nc = removed (slog s Cons)
    | Some (o, p) => allowed T Cons o = true /\ okC T R o (removed (slog s Cons)) nc kn d p /\
                     removed (slog s Cons) <= nc
    end.

  Definition SI (s : state) acc nc rs js pend d : Prop :=
    MI T R acc nc rs js pend d (smem s) (sview s Prod) (sview s Cons) /\
    curP s acc rs pend /\ curC s nc (firstn js acc) d /\
    consumes acc (slog s Cons) /\
    (forall n, In (Size, RNat n) (slog s Prod ++ slog s Cons) -> n <= R - 1) /\
    (forall n, In (Available, RNat n) (slog s Prod ++ slog s Cons) -> n <= R - 1).

  Definition Inv (s : state) : Prop := exists acc nc rs js pend d, SI s acc nc rs js pend d.

  Lemma Inv_init : Inv (init_sys R).
  Proof.
    exists [], 0, 0, 0, None, false. split.
    - constructor; cbn - [Nat.modulo]; auto; try lia.
      + intros [|j] ms; cbn; [|destruct j; discriminate]. intros [= <-]. cbn - [Nat.modulo].
        rewrite Nat.mod_0_l by lia. repeat split; auto; intros; lia.
      + intros [|j] ms; cbn; [|destruct j; discriminate]. intros [= <-]. cbn - [Nat.modulo].
        rewrite Nat.mod_0_l by lia. repeat split; auto; intros; lia.
      + intros ms [= <-]; cbn; lia.
      + intros ms [= <-]; cbn; lia.
    - repeat split; cbn; auto; contradiction.
  Qed.

  Lemma MI_len acc nc rs js pend d m vP vC : MI T R acc nc rs js pend d m vP vC -> rs <= length acc < rs + R /\ nc <= js < nc + R /\ js <= length acc.
  Proof. intros M. destruct M. lia. Qed.

  (** one step, with the ghost data related *)
  Lemma step_SI s a acc nc rs js pend d :
    SI s acc nc rs js pend d ->
    match stp s a with
    | Next s' => exists acc' nc' rs' js' pend' d', SI s' acc' nc' rs' js' pend' d'
    | Disabled => True
    | Undef => False
    end.
  Proof.
    intros (M & KP & KC & Hc & Hs & Ha).
    pose proof (MI_len _ _ _ _ _ _ _ _ _ M) as (HL1 & HL2 & HL3).
    destruct a as [t o|t c]; cbn [step].
    - (* invoke *)
      destruct (scur s t) as [q|] eqn:Eq; [exact I|].
      destruct (allowed T t o) eqn:Eal; [|exact I].
      exists acc, nc, rs, js, pend, d. split; [exact M|].
      destruct t; unfold curP, curC in *; cbn [scur tset tid_eqb slog] in *.
      + rewrite Eq in KP. destruct KP as (-> & ->). repeat split; auto.
        apply okP_code; auto.
      + rewrite Eq in KC. destruct KC as (-> & Hn). repeat split; auto.
        * rewrite <- Hn. apply okC_code; auto. rewrite firstn_length. lia.
        * lia.
    - destruct (scur s t) as [[o p]|] eqn:Eq; [|exact I].
      destruct t.
      + (* producer *)
        unfold curP in KP. rewrite Eq in KP. destruct KP as (Hal & KP & Hacc).
        assert (Hgen : match exec Prod c p (sview s Prod) (smem s) with
           | Next (p', v', m') => exists acc' nc' rs' js' pend' d',
               SI (mksys m' (tset (sview s) Prod v') (tset (scur s) Prod (Some (o, p'))) (slog s)) acc' nc' rs' js' pend' d'
           | Disabled => True | Undef => False end).
        { pose proof (P_step T R HR o _ acc nc rs js pend d (smem s) _ _ p c M KP) as HP.
          destruct (exec Prod c p (sview s Prod) (smem s)) as [[[p' v'] m']| |] eqn:Ee; auto.
          destruct HP as (acc' & rs' & pend' & M' & K' & e & ->).
          exists (acc ++ e), nc, rs', js, pend', d.
          split; [exact M'|]. unfold curP, curC; cbn [scur tset tid_eqb slog].
          assert (Hf : firstn js (acc ++ e) = firstn js acc).
          { rewrite firstn_app. replace (js - length acc) with 0 by lia. cbn. apply app_nil_r. }
          rewrite Hf. split; [|split; [exact KC|split; [apply consumes_mono; exact Hc|split; [exact Hs|exact Ha]]]].
          split; [exact Hal|]. split; [exact K'|].
          (* shape of the accepted list *)
          destruct p; cbn in Ee; try discriminate.
          - destruct (va (sview s Prod) l <=? c); [|discriminate]. destruct (nth_error (hist (smem s) l) c); [|discriminate].
            injection Ee as <- <- <-. pose proof (i_lw _ _ _ _ _ _ _ _ _ _ _ M) as H1. pose proof (i_lw _ _ _ _ _ _ _ _ _ _ _ M') as H2.
            rewrite H1, app_length in H2. destruct e; [|cbn in H2; lia]. now rewrite app_nil_r.
          - cbn in KP. destruct KP as (-> & -> & _ & x & -> & -> & -> & _). right. exists x. split; [reflexivity|].
            injection Ee as <- <- <-. pose proof (i_c1 _ _ _ _ _ _ _ _ _ _ _ M' (length (accepted (slog s Prod)))) as H1.
            pose proof (i_c2 _ _ _ _ _ _ _ _ _ _ _ M x eq_refl) as H2.
            pose proof (i_lw _ _ _ _ _ _ _ _ _ _ _ M') as H3. cbn in H3. rewrite !app_length in H3.
            rewrite (i_lw _ _ _ _ _ _ _ _ _ _ _ M) in H3. cbn in H3.
            cbn [cells] in H1. rewrite H2 in H1. rewrite app_length in H1.
            destruct e as [|y [|]]; cbn in H3; try lia. f_equal.
            assert (Hb : b2n d <= 1) by (destruct d; cbn; lia).
            pose proof (i_jn _ _ _ _ _ _ _ _ _ _ _ M). 
            rewrite nth_error_app2 in H1 by lia. rewrite Nat.sub_diag in H1. cbn in H1.
            specialize (H1 ltac:(lia)). congruence.
          - cbn in KP. destruct (access (smem s) Prod (sview s Prod) i) as [[]|]; [|discriminate].
            destruct (cval (cells (smem s) i)); [discriminate|]. injection Ee as <- <- <-.
            pose proof (i_lw _ _ _ _ _ _ _ _ _ _ _ M) as H1. pose proof (i_lw _ _ _ _ _ _ _ _ _ _ _ M') as H2. cbn in H2.
            rewrite H1, app_length in H2. destruct e; [|cbn in H2; lia]. now rewrite app_nil_r.
          - contradiction KP.
          - contradiction KP. }
        destruct p as [r| | | | |];
          try (match type of Hgen with context [exec ?a ?b ?c ?d ?e] => destruct (exec a b c d e) as [[[p' v'] m']| |]; exact Hgen end).
        (* return *)
        clear Hgen. cbn in KP. destruct KP as (-> & KP).
        exists acc, nc, rs, js, None, d. split; [exact M|]. unfold curP, curC; cbn [scur tset tid_eqb slog].
        split; [|split; [exact KC|split; [exact Hc|]]].
        * split; [reflexivity|]. rewrite accepted_app.
          destruct o; try discriminate; destruct r as [[]| |]; cbn; rewrite ?app_nil_r; try contradiction; destruct KP; auto.
        * split; intros n; rewrite <- app_assoc, !in_app_iff; intros [H|[[H|[]]|H]]; 
            try (solve [apply Hs; rewrite in_app_iff; auto | apply Ha; rewrite in_app_iff; auto]);
            (inversion H; subst; cbn in KP; destruct KP; lia).
      + (* consumer *)
        unfold curC in KC. rewrite Eq in KC. destruct KC as (Hal & KC & Hrm).
        assert (Hgen : match exec Cons c p (sview s Cons) (smem s) with
           | Next (p', v', m') => exists acc' nc' rs' js' pend' d',
               SI (mksys m' (tset (sview s) Cons v') (tset (scur s) Cons (Some (o, p'))) (slog s)) acc' nc' rs' js' pend' d'
           | Disabled => True | Undef => False end).
        { pose proof (C_step T R HR o _ acc nc rs js pend d (smem s) _ _ p c M KC) as HP.
          destruct (exec Cons c p (sview s Cons) (smem s)) as [[[p' v'] m']| |] eqn:Ee; auto.
          destruct HP as (nc' & js' & d' & M' & K').
          exists acc, nc', rs, js', pend, d'.
          split; [exact M'|]. unfold curP, curC; cbn [scur tset tid_eqb slog].
          split; [exact KP|]. split; [|auto].
          split; [exact Hal|]. split; [exact K'|].
          pose proof (i_lr _ _ _ _ _ _ _ _ _ _ _ M) as H1. pose proof (i_lr _ _ _ _ _ _ _ _ _ _ _ M') as H2.
          assert (length (hist (smem s) Rd) <= length (hist m' Rd)); [|lia].
          destruct p; cbn in Ee; try discriminate.
          - destruct (va (sview s Cons) l <=? c); [|discriminate]. destruct (nth_error (hist (smem s) l) c); [|discriminate].
            injection Ee as <- <- <-. lia.
          - injection Ee as <- <- <-. cbn. unfold nset. destruct (Nat.eqb_spec l Rd) as [->|]; [rewrite app_length|]; lia.
          - destruct (access (smem s) Cons (sview s Cons) i) as [[]|]; [|discriminate].
            destruct (cval (cells (smem s) i)); [discriminate|]. injection Ee as <- <- <-. cbn. lia.
          - destruct (access (smem s) Cons (sview s Cons) i) as [[]|]; [|discriminate].
            destruct (cval (cells (smem s) i)); [|discriminate]. injection Ee as <- <- <-. cbn. lia.
          - destruct (access (smem s) Cons (sview s Cons) i) as [[]|]; [|discriminate].
            destruct (cval (cells (smem s) i)); [|discriminate]. injection Ee as <- <- <-. cbn. lia. }
        destruct p as [r| | | | |];
          try (match type of Hgen with context [exec ?a ?b ?c ?d ?e] => destruct (exec a b c d e) as [[[p' v'] m']| |]; exact Hgen end).
        clear Hgen. cbn in KC. destruct KC as (-> & KC).
        exists acc, nc, rs, js, pend, false. split; [exact M|]. unfold curP, curC; cbn [scur tset tid_eqb slog].
        split; [exact KP|]. split; [|split].
        * split; [reflexivity|]. rewrite removed_app.
          destruct o; try discriminate; destruct r as [[]|[]|]; cbn; try contradiction; destruct KC; lia.
        * apply consumes_app; [exact Hc|].
          assert (Hnth : forall v, nth_error (firstn js acc) (removed (slog s Cons)) = Some v ->
                     exists s', skipn (removed (slog s Cons)) acc = v :: s').
          { intros v Hv. apply nth_error_split in Hv. destruct Hv as (l1 & l2 & Hv & Hl).
            exists (l2 ++ skipn js acc). rewrite <- (firstn_skipn js acc) at 1. rewrite Hv.
            rewrite <- app_assoc. rewrite skipn_app, <- Hl, skipn_all, Nat.sub_diag. reflexivity. }
          destruct o; try discriminate; destruct r as [[]|[]|]; cbn - [skipn]; try contradiction; auto; destruct KC as (Hk1 & Hk2).
          -- destruct (Hnth _ Hk2) as (s' & Hs'). exists s'. auto.
          -- destruct (nth_error (firstn js acc) (removed (slog s Cons))) as [v|] eqn:En.
             ++ destruct (Hnth _ eq_refl) as (s' & Hs'). exists v, s'. auto.
             ++ apply nth_error_None in En. lia.
          -- destruct (Hnth _ Hk2) as (s' & Hs'). exists s'. auto.
          -- destruct (Hnth _ Hk2) as (s' & Hs'). exists s'. auto.
        * split; intros n; rewrite !in_app_iff; intros [H|[H|[H|[]]]];
            try (solve [apply Hs; rewrite in_app_iff; auto | apply Ha; rewrite in_app_iff; auto]);
            (inversion H; subst; cbn in KC; destruct KC as (_ & ->); rewrite firstn_length; lia).
  Qed.

  Lemma run_SI acts s : Inv s ->
    match run (code T R) (allowed T) s acts with
    | Next s' => Inv s' | Disabled => True | Undef => False end.
  Proof.
    apply run_inv. intros s0 a (acc & nc & rs & js & pend & d & H).
    pose proof (step_SI s0 a _ _ _ _ _ _ H) as H1.
    destruct (stp s0 a); auto.
  Qed.

  (** ** Main consequences *)
  Lemma exec_all_inv acts :
    match exec_all T R acts with Next s => Inv s | Disabled => True | Undef => False end.
  Proof. apply run_SI, Inv_init. Qed.

  Lemma fifo acts s : exec_all T R acts = Next s ->
    consumes (accepted (slog s Prod) ++ in_flight s) (slog s Cons).
  Proof.
    intros H. pose proof (exec_all_inv acts) as HI. rewrite H in HI.
    destruct HI as (acc & nc & rs & js & pend & d & M & KP & KC & Hc & _).
    unfold curP in KP. unfold in_flight. destruct (scur s Prod) as [[o p]|].
    - destruct KP as (_ & _ & [->|(x & -> & ->)]).
      + apply consumes_mono. exact Hc.
      + exact Hc.
    - destruct KP as (_ & ->). rewrite app_nil_r. exact Hc.
  Qed.

  (** ** Counting live objects *)
  Lemma perm_mod n : Permutation (map (fun k => k mod R) (seq n R)) (seq 0 R).
  Proof.
    apply NoDup_Permutation_bis.
    - assert (H : forall l, NoDup l -> (forall x, In x l -> n <= x < n + R) -> NoDup (map (fun k => k mod R) l)).
      { induction l as [|x l IH]; cbn; intros Hd Hin; [constructor|]. inversion Hd; subst.
        constructor; [|apply IH; auto]. rewrite in_map_iff. intros (y & Hy & Hiny).
        assert (x = y); [|subst; contradiction].
        pose proof (Hin x (or_introl eq_refl)). pose proof (Hin y (or_intror Hiny)).
        destruct (le_lt_dec x y); [apply (mod_inj_near R)|symmetry; apply (mod_inj_near R)]; lia. }
      apply H; [apply seq_NoDup|]. intros x Hx. apply in_seq in Hx. lia.
    - rewrite map_length, !seq_length. lia.
    - intros x Hx. apply in_map_iff in Hx. destruct Hx as (k & <- & _). apply in_seq.
      pose proof (Nat.mod_upper_bound k R). lia.
  Qed.

  Lemma filter_perm_length {A} (f : A -> bool) l1 l2 : Permutation l1 l2 -> length (filter f l1) = length (filter f l2).
  Proof.
    induction 1; cbn; auto; try (destruct (f x); cbn; auto; fail).
    - destruct (f x), (f y); reflexivity.
    - congruence.
  Qed.
  Lemma filter_map_length {A B} (f : B -> bool) (g : A -> B) l :
    length (filter f (map g l)) = length (filter (fun x => f (g x)) l).
  Proof. induction l as [|x l IH]; cbn; auto. destruct (f (g x)); cbn; auto. Qed.
  Lemma filter_all {A} (f : A -> bool) l : (forall x, In x l -> f x = true) -> length (filter f l) = length l.
  Proof. induction l as [|x l IH]; cbn; auto. intros H. rewrite H by auto. cbn. auto. Qed.
  Lemma filter_none {A} (f : A -> bool) l : (forall x, In x l -> f x = false) -> length (filter f l) = 0.
  Proof. induction l as [|x l IH]; cbn; auto. intros H. rewrite H by auto. auto. Qed.

  Lemma live_count s acc nc rs js pend d : SI s acc nc rs js pend d ->
    live s = (length acc + o2n pend) - (nc + b2n d).
  Proof.
    intros (M & _). unfold live. rewrite (i_n _ _ _ _ _ _ _ _ _ _ _ M).
    rewrite <- (filter_perm_length _ _ _ (perm_mod (nc + b2n d))).
    rewrite filter_map_length.
    set (lo := nc + b2n d). set (n := length acc + o2n pend - lo).
    assert (Hsz : R = n + (R - n)) by (destruct M; unfold n, lo in *; lia).
    rewrite Hsz at 1. rewrite seq_app, filter_app, app_length.
    rewrite filter_all, filter_none, seq_length; [lia| |].
    - intros k Hk. apply in_seq in Hk. rewrite (i_c3 _ _ _ _ _ _ _ _ _ _ _ M); [reflexivity|].
      destruct M; unfold n, lo in *; lia.
    - intros k Hk. apply in_seq in Hk. 
      destruct (le_lt_dec (length acc) k) as [Hl|Hl].
      + destruct pend as [x|]; cbn [o2n] in *; [|unfold n, lo in *; lia].
        assert (k = length acc) by (unfold n, lo in *; lia). subst k.
        rewrite (i_c2 _ _ _ _ _ _ _ _ _ _ _ M x eq_refl). reflexivity.
      + rewrite (i_c1 _ _ _ _ _ _ _ _ _ _ _ M) by (unfold lo in *; lia).
        destruct (nth_error acc k) eqn:E; [reflexivity|]. apply nth_error_None in E. lia.
  Qed.

  Lemma live_bound acts s : exec_all T R acts = Next s -> live s <= R - 1.
  Proof.
    intros H. pose proof (exec_all_inv acts) as HI. rewrite H in HI.
    destruct HI as (acc & nc & rs & js & pend & d & HS).
    rewrite (live_count _ _ _ _ _ _ _ HS). destruct HS as (M & _). destruct M. lia.
  Qed.

  Lemma live_idle acts s : exec_all T R acts = Next s -> scur s Prod = None -> scur s Cons = None ->
    live s + removed (slog s Cons) = length (accepted (slog s Prod)).
  Proof.
    intros H HP HC. pose proof (exec_all_inv acts) as HI. rewrite H in HI.
    destruct HI as (acc & nc & rs & js & pend & d & HS).
    rewrite (live_count _ _ _ _ _ _ _ HS). destruct HS as (M & KP & KC & _).
    unfold curP, curC in *. rewrite HP in KP. rewrite HC in KC.
    destruct KP as (-> & ->), KC as (-> & ->). cbn. destruct M. cbn in *. lia.
  Qed.

  Lemma size_bound acts s n : exec_all T R acts = Next s ->
    In (Size, RNat n) (slog s Prod ++ slog s Cons) \/ In (Available, RNat n) (slog s Prod ++ slog s Cons) -> n <= R - 1.
  Proof.
    intros H. pose proof (exec_all_inv acts) as HI. rewrite H in HI.
    destruct HI as (acc & nc & rs & js & pend & d & _ & _ & _ & _ & H1 & H2).
    intros [Hn|Hn]; auto.
  Qed.
End Sys.
