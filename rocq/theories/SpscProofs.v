(** Proofs about the SPSC queue model. *)
From Coq Require Import List Arith Lia Bool.
From Verif Require Import RA SpscModel.
Import ListNotations.

Lemma mod_inj_near R a b : 0 < R -> a mod R = b mod R -> a <= b -> b < a + R -> a = b.
Proof.
  intros HR E L1 L2.
  pose proof (Nat.div_mod a R ltac:(lia)) as Ha. pose proof (Nat.div_mod b R ltac:(lia)) as Hb.
  rewrite E in Ha.
  assert (a / R <= b / R) by (apply Nat.div_le_mono; lia).
  assert (b / R = a / R \/ b / R >= S (a / R)) as [H1|H1] by lia.
  - rewrite H1 in Hb. lia.
  - assert (R * (b / R) >= R * S (a / R)) by (apply Nat.mul_le_mono_l; lia). lia.
Qed.

Lemma next_mod R n : 0 < R -> get_next_index (n mod R) R = (S n) mod R.
Proof.
  intros HR. unfold get_next_index.
  pose proof (Nat.mod_upper_bound n R ltac:(lia)) as Hb.
  pose proof (Nat.div_mod n R ltac:(lia)) as Hd.
  destruct (Nat.eqb_spec (S (n mod R)) R) as [E|E].
  - symmetry. replace (S n) with (0 + (S (n / R)) * R) by lia.
    rewrite Nat.mod_add by lia. apply Nat.mod_0_l. lia.
  - replace (S n) with (S (n mod R) + (n / R) * R) by lia.
    rewrite Nat.mod_add by lia. symmetry. apply Nat.mod_small. lia.
Qed.

Section Inv.
  Variable T : Type.
  Variable R : nat.
  Hypothesis HR : 2 <= R.

  Definition b2n (b : bool) : nat := if b then 1 else 0.
  Definition o2n {A} (o : option A) : nat := match o with Some _ => 1 | None => 0 end.

  (** memory invariant *)
  Record MI (acc : list T) (nc rs js : nat) (pend : option T) (d : bool)
            (m : mem T) (vP vC : view) : Prop := {
    i_n   : nslots m = R;
    i_lw  : length (hist m Wr) = S (length acc);
    i_lr  : length (hist m Rd) = S nc;
    i_w   : forall j ms, nth_error (hist m Wr) j = Some ms ->
              mval ms = j mod R /\ va (mview ms) Wr <= j /\ va (mview ms) Rd <= rs /\
              (forall k, k < j -> length acc + o2n pend <= k + R ->
                 cacc (cells m (k mod R)) Prod <= vc (mview ms) Prod);
    i_r   : forall j ms, nth_error (hist m Rd) j = Some ms ->
              mval ms = j mod R /\ va (mview ms) Rd <= j /\ va (mview ms) Wr <= js /\
              (forall k, k < j -> length acc <= k + R ->
                 cacc (cells m (k mod R)) Cons <= vc (mview ms) Cons);
    i_fr  : forall i, length acc <= i < R -> cacc (cells m i) Cons = 0;
    i_c1  : forall k, nc + b2n d <= k < length acc -> cval (cells m (k mod R)) = nth_error acc k;
    i_c2  : forall x, pend = Some x -> cval (cells m (length acc mod R)) = Some x;
    i_c3  : forall k, length acc + o2n pend <= k < nc + b2n d + R -> cval (cells m (k mod R)) = None;
    i_vpw : va vP Wr = length acc;
    i_vpr : va vP Rd = rs;
    i_rs  : rs <= nc;
    i_cap : length acc + o2n pend < rs + R;
    i_vcr : va vC Rd = nc;
    i_vcw : va vC Wr = js;
    i_js  : js <= length acc;
    i_jn  : nc + b2n d <= js;
    i_ep  : forall i, cacc (cells m i) Prod <= vc vP Prod;
    i_ec  : forall i, cacc (cells m i) Cons <= vc vC Cons;
    i_kp  : forall ms, nth_error (hist m Rd) rs = Some ms -> vc (mview ms) Cons <= vc vP Cons;
    i_kc  : forall ms, nth_error (hist m Wr) js = Some ms -> vc (mview ms) Prod <= vc vC Prod
  }.

  (** thread-local verification conditions; [okP] only mentions facts that the
      consumer cannot invalidate, [okC] only facts the producer cannot. *)
  Fixpoint okP (o : op T) (acc0 acc : list T) (rs : nat) (pend : option T) (p : prog T (res T)) : Prop :=
    match p with
    | Ret r =>
        pend = None /\
        match o, r with
        | Push x, RBool true => acc = acc0 ++ [x]
        | Push x, RBool false => acc = acc0 /\ length acc = rs + (R - 1)
        | Push x, _ => False
        | Size, RNat n => acc = acc0 /\ n = length acc - rs
        | Available, RNat n => acc = acc0 /\ n = (R - 1) - (length acc - rs)
        | Full, RBool b => acc = acc0 /\ (b = true <-> length acc = rs + (R - 1))
        | Empty, RBool b => acc = acc0 /\ (b = true <-> length acc = rs)
        | _, _ => False
        end
    | Load l or k =>
        if Nat.eqb l Wr then okP o acc0 acc rs pend (k (length acc mod R))
        else l = Rd /\ or = Acq /\
             forall rs', rs <= rs' <= length acc -> okP o acc0 acc rs' pend (k (rs' mod R))
    | Store l v or k =>
        l = Wr /\ or = Rel /\ v = S (length acc) mod R /\
        exists x, o = Push x /\ pend = Some x /\ acc = acc0 /\ okP o acc0 (acc ++ [x]) rs None k
    | Construct i x k =>
        pend = None /\ i = length acc mod R /\ S (length acc) < rs + R /\
        okP o acc0 acc rs (Some x) k
    | _ => False
    end.

  Fixpoint okC (o : op T) (nc0 nc : nat) (kn : list T) (d : bool) (p : prog T (res T)) : Prop :=
    match p with
    | Ret r =>
        d = false /\
        match o, r with
        | Pop, RVal (Some v) => nc = S nc0 /\ nth_error kn nc0 = Some v
        | Pop, RVal None => nc = nc0 /\ length kn = nc
        | PopDiscard, RBool true => nc = S nc0 /\ nc0 < length kn
        | PopDiscard, RBool false => nc = nc0 /\ length kn = nc
        | (Front | FrontRef), RVal (Some v) => nc = nc0 /\ nth_error kn nc0 = Some v
        | (Front | FrontRef), RVal None => nc = nc0 /\ length kn = nc
        | Size, RNat n => nc = nc0 /\ n = length kn - nc
        | Available, RNat n => nc = nc0 /\ n = (R - 1) - (length kn - nc)
        | Full, RBool b => nc = nc0 /\ (b = true <-> length kn = nc + (R - 1))
        | Empty, RBool b => nc = nc0 /\ (b = true <-> length kn = nc)
        | _, _ => False
        end
    | Load l or k =>
        if Nat.eqb l Rd then okC o nc0 nc kn d (k (nc mod R))
        else l = Wr /\ or = Acq /\
             forall ext, length (kn ++ ext) < nc + R ->
                okC o nc0 nc (kn ++ ext) d (k (length (kn ++ ext) mod R))
    | Store l v or k =>
        l = Rd /\ or = Rel /\ v = S nc mod R /\ d = true /\ okC o nc0 (S nc) kn false k
    | Get i k =>
        d = false /\ i = nc mod R /\ nc < length kn /\
        forall x, nth_error kn nc = Some x -> okC o nc0 nc kn d (k x)
    | Destroy i k =>
        d = false /\ i = nc mod R /\ nc < length kn /\ okC o nc0 nc kn true k
    | Construct _ _ _ => False
    end.

  (** ** the code meets its verification conditions *)
  Lemma full_test np rs : rs <= np < rs + R ->
    Nat.eqb (get_next_index (np mod R) R) (rs mod R) = Nat.eqb (S np) (rs + R).
  Proof.
    intros H. rewrite next_mod by lia.
    destruct (Nat.eqb_spec (S np) (rs + R)) as [E|E].
    - rewrite E. replace (rs + R) with (rs + 1 * R) by lia. rewrite Nat.mod_add by lia. apply Nat.eqb_refl.
    - apply Nat.eqb_neq. intros E2. symmetry in E2. apply mod_inj_near in E2; lia.
  Qed.
  Lemma empty_test a b : a <= b < a + R -> Nat.eqb (a mod R) (b mod R) = Nat.eqb a b.
  Proof.
    intros H. destruct (Nat.eqb_spec a b) as [E|E]; [subst; apply Nat.eqb_refl|].
    apply Nat.eqb_neq. intros E2. apply mod_inj_near in E2; lia.
  Qed.
  Lemma size_val a b : a <= b < a + R ->
    (if Nat.leb (a mod R) (b mod R) then b mod R - a mod R else R - a mod R + b mod R) = b - a.
  Proof.
    intros H.
    pose proof (Nat.mod_upper_bound a R ltac:(lia)). pose proof (Nat.mod_upper_bound b R ltac:(lia)).
    pose proof (Nat.div_mod a R ltac:(lia)) as Ha. pose proof (Nat.div_mod b R ltac:(lia)) as Hb.
    assert (a / R <= b / R) by (apply Nat.div_le_mono; lia).
    assert (b / R = a / R \/ b / R = S (a / R) \/ b / R >= S (S (a / R))) as [E|[E|E]] by lia.
    - rewrite E in Hb. destruct (Nat.leb_spec (a mod R) (b mod R)); nia.
    - rewrite E in Hb. destruct (Nat.leb_spec (a mod R) (b mod R)); nia.
    - assert (R * (b / R) >= R * S (S (a / R))) by (apply Nat.mul_le_mono_l; lia). lia.
  Qed.

  Lemma okP_code o acc rs :
    allowed T Prod o = true -> rs <= length acc < rs + R ->
    okP o acc acc rs None (code T R o).
  Proof.
    intros Ha Hc. destruct o; try discriminate; cbn - [Nat.modulo get_next_index].
    - split; [reflexivity|]. split; [reflexivity|]. intros rs' Hr.
      rewrite full_test by lia.
      destruct (Nat.eqb_spec (S (length acc)) (rs' + R)) as [E|E]; cbn - [Nat.modulo get_next_index].
      + split; [reflexivity|]. split; [reflexivity|lia].
      + repeat split; try lia. apply next_mod; lia.
        exists x. repeat split; reflexivity.
    - repeat split; intros.
      + rewrite empty_test in H0 by lia. apply Nat.eqb_eq in H0. lia.
      + rewrite empty_test by lia. apply Nat.eqb_eq. lia.
    - repeat split; intros.
      + rewrite full_test in H0 by lia. apply Nat.eqb_eq in H0. lia.
      + rewrite full_test by lia. apply Nat.eqb_eq. lia.
    - repeat split; intros. apply size_val; lia.
    - repeat split; intros. rewrite size_val by lia. lia.
  Qed.

  Lemma okC_code o nc kn :
    allowed T Cons o = true -> nc <= length kn < nc + R ->
    okC o nc nc kn false (code T R o).
  Proof.
    intros Ha Hc. destruct o; try discriminate; cbn - [Nat.modulo get_next_index].
    - repeat split; intros. rewrite empty_test by (rewrite app_length in *; lia).
      destruct (Nat.eqb_spec nc (length (kn ++ ext))) as [E|E]; cbn - [Nat.modulo get_next_index].
      + repeat split; lia.
      + rewrite app_length in *. repeat split; intros; try rewrite app_length; try lia; auto. apply next_mod; lia.
    - repeat split; intros. rewrite empty_test by (rewrite app_length in *; lia).
      destruct (Nat.eqb_spec nc (length (kn ++ ext))) as [E|E]; cbn - [Nat.modulo get_next_index].
      + repeat split; lia.
      + rewrite app_length in *. repeat split; intros; try rewrite app_length; try lia; auto. apply next_mod; lia.
    - repeat split; intros. rewrite empty_test by (rewrite app_length in *; lia).
      destruct (Nat.eqb_spec nc (length (kn ++ ext))) as [E|E]; cbn - [Nat.modulo get_next_index].
      + repeat split; lia.
      + rewrite app_length in *. repeat split; intros; try rewrite app_length; try lia; auto.
    - repeat split; intros. rewrite empty_test by (rewrite app_length in *; lia).
      destruct (Nat.eqb_spec nc (length (kn ++ ext))) as [E|E]; cbn - [Nat.modulo get_next_index].
      + repeat split; lia.
      + rewrite app_length in *. repeat split; intros; try rewrite app_length; try lia; auto.
    - repeat split; intros.
      + rewrite empty_test in H0 by (rewrite app_length in *; lia). apply Nat.eqb_eq in H0. lia.
      + rewrite empty_test by (rewrite app_length in *; lia). apply Nat.eqb_eq. lia.
    - repeat split; intros.
      + rewrite full_test in H0 by (rewrite app_length in *; lia). apply Nat.eqb_eq in H0. lia.
      + rewrite full_test by (rewrite app_length in *; lia). apply Nat.eqb_eq. lia.
    - repeat split; intros. apply size_val; rewrite app_length in *; lia.
    - repeat split; intros. rewrite size_val by (rewrite app_length in *; lia). lia.
  Qed.

  (** ** preservation *)
  Lemma nth_error_snoc {A} (l : list A) x j :
    nth_error (l ++ [x]) j = if Nat.ltb j (length l) then nth_error l j
                             else if Nat.eqb j (length l) then Some x else None.
  Proof.
    destruct (Nat.ltb_spec j (length l)) as [H|H].
    - apply nth_error_app1; assumption.
    - rewrite nth_error_app2 by assumption.
      destruct (Nat.eqb_spec j (length l)) as [E|E].
      + subst. rewrite Nat.sub_diag. reflexivity.
      + destruct (j - length l) as [|n] eqn:E2; [lia|]. cbn. destruct n; reflexivity.
  Qed.

  Lemma nth_error_lt {A} (l : list A) j x : nth_error l j = Some x -> j < length l.
  Proof. intros H. apply nth_error_Some. congruence. Qed.

  Lemma mod_ne a b : a < b -> b < a + R -> a mod R <> b mod R.
  Proof. intros H1 H2 E. apply mod_inj_near in E; lia. Qed.

  Lemma mod_plus_R n : (n + R) mod R = n mod R.
  Proof. replace (n + R) with (n + 1 * R) by lia. apply Nat.mod_add. lia. Qed.

  Lemma nset_same {A} (f : nat -> A) i x : nset f i x i = x.
  Proof. unfold nset. now rewrite Nat.eqb_refl. Qed.
  Lemma nset_other {A} (f : nat -> A) i j x : i <> j -> nset f i x j = f j.
  Proof. unfold nset. intros H. apply Nat.eqb_neq in H. now rewrite H. Qed.

  Lemma P_step o acc0 acc nc rs js pend d m vP vC p c :
    MI acc nc rs js pend d m vP vC ->
    okP o acc0 acc rs pend p ->
    match exec Prod c p vP m with
    | Next (p', v', m') =>
        exists acc' rs' pend', MI acc' nc rs' js pend' d m' v' vC /\
          okP o acc0 acc' rs' pend' p' /\ (exists e, acc' = acc ++ e)
    | Disabled => True
    | Undef => False
    end.
  Proof.
    intros M K. destruct p as [r|l or k|l v or k|i x k|i k|i k]; cbn - [Nat.modulo Nat.leb] in *; try contradiction.
    - exact I.
    - (* Load *)
      destruct (Nat.leb_spec (va vP l) c) as [Hle|Hgt]; [|exact I].
      destruct (nth_error (hist m l) c) as [ms|] eqn:En; [|exact I].
      destruct (Nat.eqb_spec l Wr) as [->|Hl].
      + (* own location *)
        rewrite (i_vpw _ _ _ _ _ _ _ _ _ M) in Hle.
        pose proof (nth_error_lt _ _ _ En) as Hc. rewrite (i_lw _ _ _ _ _ _ _ _ _ M) in Hc.
        assert (c = length acc) by lia. subst c.
        destruct (i_w _ _ _ _ _ _ _ _ _ M _ _ En) as (Hv & Hw & Hr & _).
        rewrite Hv. exists acc, rs, pend. split; [|split; [exact K|exists []; now rewrite app_nil_r]].
        destruct M. destruct or; constructor; cbn - [Nat.modulo]; auto; unfold nset; cbn; try lia; auto.
        * intros i. specialize (i_ep0 i). lia.
        * intros ms' Hm. specialize (i_kp0 ms' Hm). lia.
      + destruct K as (-> & -> & K).
        rewrite (i_vpr _ _ _ _ _ _ _ _ _ M) in Hle.
        pose proof (nth_error_lt _ _ _ En) as Hc. rewrite (i_lr _ _ _ _ _ _ _ _ _ M) in Hc.
        destruct (i_r _ _ _ _ _ _ _ _ _ M _ _ En) as (Hv & Hr & Hw & _).
        rewrite Hv. exists acc, c, pend.
        split; [|split; [apply K; destruct M; lia|exists []; now rewrite app_nil_r]].
        destruct M. constructor; cbn - [Nat.modulo]; auto; unfold nset; cbn; try lia; auto.
        * intros j ms' Hm. destruct (i_w0 j ms' Hm) as (H1 & H2 & H3 & H4). repeat split; auto; lia.
        * intros i. specialize (i_ep0 i). lia.
        * intros ms' Hm. rewrite En in Hm. injection Hm as <-. lia.
    - (* Store *)
      destruct K as (-> & -> & Hv & x & Ho & Hp & Ha & K).
      exists (acc ++ [x]), rs, None. split; [|split; [exact K|now exists [x]]].
      destruct M. subst pend. cbn [o2n] in *.
      constructor; cbn - [Nat.modulo nth_error]; auto; rewrite ?app_length; cbn [length]; rewrite ?nset_same; auto; try lia.
      + intros j ms. rewrite nth_error_snoc.
        destruct (Nat.ltb_spec j (length (hist m Wr))) as [Hj|Hj].
        * intros Hm. destruct (i_w0 j ms Hm) as (H1 & H2 & H3 & H4). repeat split; auto.
          intros k0 Hk0 Hk1. apply H4; lia.
        * destruct (Nat.eqb_spec j (length (hist m Wr))) as [->|]; [|discriminate].
          intros [= <-]. cbn [mval mview va vc]. rewrite i_lw0. unfold nset; cbn - [Nat.modulo].
          repeat split; auto; try lia.
      + intros j ms Hm. destruct (i_r0 j ms Hm) as (H1 & H2 & H3 & H4). repeat split; auto.
        intros k0 Hk0 Hk1. apply H4; lia.
      + intros i Hi. apply i_fr0. lia.
      + intros k0 Hk0. rewrite nth_error_snoc.
        destruct (Nat.ltb_spec k0 (length acc)) as [H|H].
        * apply i_c4. lia.
        * assert (k0 = length acc) by lia. subst k0. rewrite Nat.eqb_refl. apply i_c5. reflexivity.
      + discriminate.
      + intros k0 Hk0. apply i_c6. lia.
      + intros ms. rewrite nth_error_snoc.
        destruct (Nat.ltb_spec js (length (hist m Wr))) as [H|H]; [|lia]. apply i_kc0.
    - (* Construct *)
      destruct K as (-> & -> & Hcap & K). cbn [o2n] in *.
      pose proof (Nat.mod_upper_bound (length acc) R ltac:(lia)) as Hb.
      assert (Hcell : cval (cells m (length acc mod R)) = None).
      { destruct M. apply i_c6. cbn. lia. }
      assert (Hrace : cacc (cells m (length acc mod R)) Cons <= vc vP Cons).
      { destruct (le_lt_dec R (length acc)) as [Hge|Hlt].
        - destruct (nth_error (hist m Rd) rs) as [ms|] eqn:En.
          + pose proof (i_kp _ _ _ _ _ _ _ _ _ M _ En) as H1.
            destruct (i_r _ _ _ _ _ _ _ _ _ M _ _ En) as (_ & _ & _ & H2).
            specialize (H2 (length acc - R) ltac:(lia) ltac:(lia)).
            replace (length acc) with ((length acc - R) + R) at 1 by lia. rewrite mod_plus_R. lia.
          + apply nth_error_None in En. destruct M. lia.
        - rewrite Nat.mod_small by lia. rewrite (i_fr _ _ _ _ _ _ _ _ _ M) by lia. lia. }
      unfold access. rewrite (i_n _ _ _ _ _ _ _ _ _ M).
      destruct (Nat.ltb_spec (length acc mod R) R); [|lia]. cbn [other].
      destruct (Nat.leb_spec (cacc (cells m (length acc mod R)) Cons) (vc vP Cons)); [|lia].
      rewrite Hcell. exists acc, rs, (Some x). split; [|split; [exact K|exists []; now rewrite app_nil_r]].
      destruct M. cbn [o2n] in *.
      constructor; cbn - [Nat.modulo nth_error]; auto; try lia.
      + intros j ms Hm. destruct (i_w0 j ms Hm) as (H1 & H2 & H3 & H4). repeat split; auto.
        intros k0 Hk0 Hk1. pose proof (nth_error_lt _ _ _ Hm) as Hj. rewrite i_lw0 in Hj.
        rewrite nset_other by (intros E; apply (mod_ne k0 (length acc)); lia). apply H4; lia.
      + intros j ms Hm. destruct (i_r0 j ms Hm) as (H1 & H2 & H3 & H4). repeat split; auto.
        intros k0 Hk0 Hk1. unfold nset. destruct (Nat.eqb_spec (length acc mod R) (k0 mod R)) as [E|E].
        * cbn. rewrite E. apply H4; lia.
        * apply H4; lia.
      + intros i Hi. unfold nset. destruct (Nat.eqb_spec (length acc mod R) i) as [E|E]; [|auto].
        cbn. rewrite E. apply i_fr0. lia.
      + intros k0 Hk0. rewrite nset_other; [apply i_c4; lia|]. intros E. apply (mod_ne k0 (length acc)); lia.
      + intros y [= <-]. rewrite nset_same. reflexivity.
      + intros k0 Hk0. rewrite nset_other; [apply i_c6; lia|]. intros E. apply (mod_ne (length acc) k0); lia.
      + intros i. unfold nset. destruct (Nat.eqb_spec (length acc mod R) i); cbn; [lia|]. specialize (i_ep0 i). lia.
      + intros i. unfold nset. destruct (Nat.eqb_spec (length acc mod R) i) as [E|E]; cbn; [rewrite E|]; apply i_ec0.
  Qed.

  Lemma C_step o nc0 acc nc rs js pend d m vP vC p c :
    MI acc nc rs js pend d m vP vC ->
    okC o nc0 nc (firstn js acc) d p ->
    match exec Cons c p vC m with
    | Next (p', v', m') =>
        exists nc' js' d', MI acc nc' rs js' pend d' m' vP v' /\
          okC o nc0 nc' (firstn js' acc) d' p'
    | Disabled => True
    | Undef => False
    end.
  Proof.
    intros M K. destruct p as [r|l or k|l v or k|i x k|i k|i k]; cbn - [Nat.modulo Nat.leb] in *; try contradiction.
    - exact I.
    - (* Load *)
      destruct (Nat.leb_spec (va vC l) c) as [Hle|Hgt]; [|exact I].
      destruct (nth_error (hist m l) c) as [ms|] eqn:En; [|exact I].
      destruct (Nat.eqb_spec l Rd) as [->|Hl].
      + rewrite (i_vcr _ _ _ _ _ _ _ _ _ M) in Hle.
        pose proof (nth_error_lt _ _ _ En) as Hc. rewrite (i_lr _ _ _ _ _ _ _ _ _ M) in Hc.
        assert (c = nc) by lia. subst c.
        destruct (i_r _ _ _ _ _ _ _ _ _ M _ _ En) as (Hv & Hr & Hw & _).
        rewrite Hv. exists nc, js, d. split; [|exact K].
        destruct M. destruct or; constructor; cbn - [Nat.modulo]; auto; unfold nset; cbn; try lia; auto.
        * intros i. specialize (i_ec0 i). lia.
        * intros ms' Hm. specialize (i_kc0 ms' Hm). lia.
      + destruct K as (-> & -> & K).
        rewrite (i_vcw _ _ _ _ _ _ _ _ _ M) in Hle.
        pose proof (nth_error_lt _ _ _ En) as Hc. rewrite (i_lw _ _ _ _ _ _ _ _ _ M) in Hc.
        destruct (i_w _ _ _ _ _ _ _ _ _ M _ _ En) as (Hv & Hw & Hr & _).
        assert (Hf : firstn c acc = firstn js acc ++ skipn js (firstn c acc)).
        { rewrite <- (firstn_skipn js (firstn c acc)) at 1. rewrite firstn_firstn. now rewrite Nat.min_l by lia. }
        assert (Hlen : length (firstn c acc) = c) by (rewrite firstn_length; lia).
        rewrite Hv. exists nc, c, d. split.
        2:{ specialize (K (skipn js (firstn c acc))). rewrite <- Hf, Hlen in K. apply K. destruct M. lia. }
        destruct M. constructor; cbn - [Nat.modulo]; auto; unfold nset; cbn; try lia; auto.
        * intros j ms' Hm. destruct (i_r0 j ms' Hm) as (H1 & H2 & H3 & H4). repeat split; auto; lia.
        * intros i. specialize (i_ec0 i). lia.
        * intros ms' Hm. rewrite En in Hm. injection Hm as <-. lia.
    - (* Store *)
      destruct K as (-> & -> & Hv & -> & K).
      exists (S nc), js, false. split; [|exact K].
      destruct M. cbn [b2n] in *.
      constructor; cbn - [Nat.modulo nth_error]; auto; rewrite ?nset_same; auto; try lia.
      + rewrite app_length. cbn. lia.
      + intros j ms. rewrite nth_error_snoc.
        destruct (Nat.ltb_spec j (length (hist m Rd))) as [Hj|Hj].
        * intros Hm. destruct (i_r0 j ms Hm) as (H1 & H2 & H3 & H4). repeat split; auto.
        * destruct (Nat.eqb_spec j (length (hist m Rd))) as [->|]; [|discriminate].
          intros [= <-]. cbn [mval mview va vc]. rewrite i_lr0. unfold nset; cbn - [Nat.modulo].
          repeat split; auto; try lia.
      + intros k0 Hk0. apply i_c4. lia.
      + intros k0 Hk0. apply i_c6. lia.
      + intros ms. rewrite nth_error_snoc.
        destruct (Nat.ltb_spec rs (length (hist m Rd))) as [H|H]; [|lia]. apply i_kp0.
    - (* Destroy *)
      destruct K as (-> & -> & Hlt & K). cbn [b2n] in *.
      pose proof (Nat.mod_upper_bound nc R ltac:(lia)) as Hb.
      rewrite firstn_length in Hlt.
      assert (Hn : nc < length acc) by lia.
      destruct (nth_error acc nc) as [y|] eqn:Ey; [|apply nth_error_None in Ey; lia].
      assert (Hcell : cval (cells m (nc mod R)) = Some y).
      { destruct M. rewrite <- Ey. apply i_c4. cbn. lia. }
      assert (Hrace : cacc (cells m (nc mod R)) Prod <= vc vC Prod).
      { destruct (nth_error (hist m Wr) js) as [ms|] eqn:En.
        - pose proof (i_kc _ _ _ _ _ _ _ _ _ M _ En) as H1.
          destruct (i_w _ _ _ _ _ _ _ _ _ M _ _ En) as (_ & _ & _ & H2).
          destruct M. specialize (H2 nc ltac:(lia) ltac:(lia)). lia.
        - apply nth_error_None in En. destruct M. lia. }
      unfold access. rewrite (i_n _ _ _ _ _ _ _ _ _ M).
      destruct (Nat.ltb_spec (nc mod R) R); [|lia]. cbn [other].
      destruct (Nat.leb_spec (cacc (cells m (nc mod R)) Prod) (vc vC Prod)); [|lia].
      rewrite Hcell. exists nc, js, true. split; [|exact K].
      destruct M. cbn [b2n] in *.
      constructor; cbn - [Nat.modulo nth_error]; auto; try lia.
      + intros j ms Hm. destruct (i_w0 j ms Hm) as (H1 & H2 & H3 & H4). repeat split; auto.
        intros k0 Hk0 Hk1. unfold nset. destruct (Nat.eqb_spec (nc mod R) (k0 mod R)) as [E|E].
        * cbn. rewrite E. apply H4; lia.
        * apply H4; lia.
      + intros j ms Hm. destruct (i_r0 j ms Hm) as (H1 & H2 & H3 & H4). repeat split; auto.
        intros k0 Hk0 Hk1. pose proof (nth_error_lt _ _ _ Hm) as Hj. rewrite i_lr0 in Hj.
        rewrite nset_other by (intros E; apply (mod_ne k0 nc); lia). apply H4; lia.
      + intros i Hi. rewrite nset_other; [apply i_fr0; lia|]. rewrite Nat.mod_small by lia. lia.
      + intros k0 Hk0. rewrite nset_other; [apply i_c4; lia|]. intros E. apply (mod_ne nc k0); lia.
      + intros y' Hy. rewrite nset_other; [apply i_c5; exact Hy|]. intros E. apply (mod_ne nc (length acc)); destruct pend; cbn in *; try discriminate; lia.
      + intros k0 Hk0. unfold nset. destruct (Nat.eqb_spec (nc mod R) (k0 mod R)) as [E|E]; [reflexivity|].
        apply i_c6. assert (k0 <> nc + R); [|lia]. intros ->. apply E. now rewrite mod_plus_R.
      + intros i. unfold nset. destruct (Nat.eqb_spec (nc mod R) i) as [E|E]; cbn; [rewrite E|]; apply i_ep0.
      + intros i. unfold nset. destruct (Nat.eqb_spec (nc mod R) i); cbn; [lia|]. specialize (i_ec0 i). lia.
    - (* Get *)
      destruct K as (-> & -> & Hlt & K). cbn [b2n] in *.
      pose proof (Nat.mod_upper_bound nc R ltac:(lia)) as Hb.
      rewrite firstn_length in Hlt.
      assert (Hn : nc < length acc) by lia.
      destruct (nth_error acc nc) as [y|] eqn:Ey; [|apply nth_error_None in Ey; lia].
      assert (Hcell : cval (cells m (nc mod R)) = Some y).
      { destruct M. rewrite <- Ey. apply i_c4. cbn. lia. }
      assert (Hrace : cacc (cells m (nc mod R)) Prod <= vc vC Prod).
      { destruct (nth_error (hist m Wr) js) as [ms|] eqn:En.
        - pose proof (i_kc _ _ _ _ _ _ _ _ _ M _ En) as H1.
          destruct (i_w _ _ _ _ _ _ _ _ _ M _ _ En) as (_ & _ & _ & H2).
          destruct M. specialize (H2 nc ltac:(lia) ltac:(lia)). lia.
        - apply nth_error_None in En. destruct M. lia. }
      unfold access. rewrite (i_n _ _ _ _ _ _ _ _ _ M).
      destruct (Nat.ltb_spec (nc mod R) R); [|lia]. cbn [other].
      destruct (Nat.leb_spec (cacc (cells m (nc mod R)) Prod) (vc vC Prod)); [|lia].
      rewrite Hcell. exists nc, js, false. split.
      2:{ apply K. rewrite <- Ey. rewrite <- (firstn_skipn js acc) at 2. symmetry. apply nth_error_app1. rewrite firstn_length. lia. }
      destruct M. cbn [b2n] in *.
      constructor; cbn - [Nat.modulo nth_error]; auto; try lia.
      + intros j ms Hm. destruct (i_w0 j ms Hm) as (H1 & H2 & H3 & H4). repeat split; auto.
        intros k0 Hk0 Hk1. unfold nset. destruct (Nat.eqb_spec (nc mod R) (k0 mod R)) as [E|E].
        * cbn. rewrite E. apply H4; lia.
        * apply H4; lia.
      + intros j ms Hm. destruct (i_r0 j ms Hm) as (H1 & H2 & H3 & H4). repeat split; auto.
        intros k0 Hk0 Hk1. pose proof (nth_error_lt _ _ _ Hm) as Hj. rewrite i_lr0 in Hj.
        rewrite nset_other by (intros E; apply (mod_ne k0 nc); lia). apply H4; lia.
      + intros i Hi. rewrite nset_other; [apply i_fr0; lia|]. rewrite Nat.mod_small by lia. lia.
      + intros k0 Hk0. unfold nset. destruct (Nat.eqb_spec (nc mod R) (k0 mod R)) as [E|E]; [|apply i_c4; lia].
        cbn. rewrite <- Hcell, E. apply i_c4. lia.
      + intros y' Hy. rewrite nset_other; [apply i_c5; exact Hy|]. intros E. apply (mod_ne nc (length acc)); destruct pend; cbn in *; try discriminate; lia.
      + intros k0 Hk0. rewrite nset_other; [apply i_c6; lia|]. intros E. apply (mod_ne nc k0); lia.
      + intros i. unfold nset. destruct (Nat.eqb_spec (nc mod R) i) as [E|E]; cbn; [rewrite E|]; apply i_ep0.
      + intros i. unfold nset. destruct (Nat.eqb_spec (nc mod R) i); cbn; [lia|]. specialize (i_ec0 i). lia.
  Qed.
End Inv.
