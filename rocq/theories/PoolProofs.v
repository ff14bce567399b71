From Coq Require Import ZArith List Lia Bool.
From Verif Require Import Util PoolModel PoolSpec.
Import ListNotations.
Local Open Scope Z_scope.

Lemma wr_other n : forall m a v x, x < a \/ a + Z.of_nat n <= x -> wr n m a v x = m x.
Proof.
  induction n as [|n IH]; intros m a v x H; [reflexivity|]. cbn [wr].
  rewrite IH by lia. destruct (Z.eqb_spec x a); [lia|reflexivity].
Qed.

Lemma rd_ext n : forall m m' a, (forall x, a <= x < a + Z.of_nat n -> m x = m' x) -> rd n m a = rd n m' a.
Proof.
  induction n as [|n IH]; intros m m' a H; [reflexivity|]. cbn [rd].
  rewrite (H a) by lia. f_equal. f_equal. apply IH. intros x Hx. apply H. lia.
Qed.

Lemma rd_wr n : forall m a v, 0 <= v < 256 ^ Z.of_nat n -> rd n (wr n m a v) a = v.
Proof.
  induction n as [|n IH]; intros m a v H.
  - cbn in *. lia.
  - cbn [rd wr]. rewrite wr_other by lia. rewrite Z.eqb_refl.
    rewrite IH.
    + rewrite Z.mod_mod by lia. pose proof (Z.div_mod v 256 ltac:(lia)). lia.
    + rewrite Nat2Z.inj_succ, Z.pow_succ_r in H by lia.
      split; [apply Z.div_pos; lia|]. apply Z.div_lt_upper_bound; lia.
Qed.

Lemma u32_id x : 0 <= x < 4294967296 -> u32 x = x.
Proof. intros. apply Z.mod_small. lia. Qed.

Section P.
  Variable PS : nat.
  Variable debug : bool.
  Variables base isz max : Z.
  Hypothesis HC : config_ok PS base isz max.

  Definition addr (i : Z) : Z := base + i * isz.

  (** free initialised blocks, in free list order *)
  Fixpoint chain (m : mem) (init p : Z) (fl : list Z) : Prop :=
    match fl with
    | [] => init < max -> p = addr init
    | i :: r => p = addr i /\ chain m init (rd PS m p) r
    end.

  Record Inv (p : pool) (m : mem) (held : list Z) (fl out : list Z) : Prop := {
    v_buf : p_buffer p = base;
    v_isz : Item_Size p = isz;
    v_max : Max_Size p = max;
    v_held : held = map addr out;
    v_alloc : items_allocated p = Z.of_nat (length out);
    v_init : 0 <= items_initialised p <= max;
    v_cnt : items_initialised p = Z.of_nat (length fl + length out);
    v_nd : NoDup (fl ++ out);
    v_rng : forall i, In i (fl ++ out) -> 0 <= i < items_initialised p;
    v_chain : chain m (items_initialised p) (p_next p) fl }.

  Lemma addr_inj i j : addr i = addr j -> i = j.
  Proof. unfold addr. destruct HC as (_ & H & _). intros E. nia. Qed.
  Lemma addr_sep i j x y : i <> j -> addr i <= x < addr i + isz -> addr j <= y < addr j + isz -> x <> y.
  Proof. unfold addr. intros Hn H1 H2 ->. destruct HC as (_ & H & _).
    destruct (Z.lt_total i j) as [L|[L|L]]; [|contradiction|]; nia. Qed.
  Lemma addr_storage i x : 0 <= i < max -> addr i <= x < addr i + isz -> storage base isz max x.
  Proof. unfold addr, storage. destruct HC as (_ & H & _). intros. nia. Qed.
  Lemma addr_pos i : 0 <= i <= max -> 0 < addr i < 256 ^ Z.of_nat PS.
  Proof. unfold addr. destruct HC as (_ & H & _ & _ & Hb & Hp). intros. nia. Qed.

  Lemma chain_ext m m' init : forall fl p,
    (forall i x, In i fl -> addr i <= x < addr i + Z.of_nat PS -> m x = m' x) ->
    chain m init p fl -> chain m' init p fl.
  Proof.
    induction fl as [|i r IH]; intros p He; cbn; [auto|]. intros [-> H]. split; [reflexivity|].
    rewrite <- (rd_ext PS m m') by (intros x Hx; apply (He i x); cbn; auto).
    apply IH; auto. intros j x Hj. apply (He j x). cbn; auto.
  Qed.

  (** appending the next uninitialised block *)
  Lemma chain_extend m init : forall fl p,
    0 <= init < max ->
    (forall i, In i fl -> 0 <= i < init) -> NoDup fl ->
    chain m init p fl ->
    chain (wr PS m (addr init) (addr (init + 1))) (init + 1) p (fl ++ [init]).
  Proof.
    intros fl p Hi Hr Hnd Hc.
    assert (He : forall i x, In i fl -> addr i <= x < addr i + Z.of_nat PS ->
              m x = wr PS m (addr init) (addr (init + 1)) x).
    { intros i x Hin Hx. symmetry. apply wr_other. specialize (Hr i Hin).
      destruct HC as (H1 & _). unfold addr in *. nia. }
    set (m' := wr PS m (addr init) (addr (init + 1))) in *.
    assert (Hm' : rd PS m' (addr init) = addr (init + 1)) by (apply rd_wr; pose proof (addr_pos (init + 1)); lia).
    clearbody m'. revert p Hc. induction fl as [|i r IH]; intros p Hc.
    - cbn in *. split; [apply Hc; lia|]. intros _. rewrite (Hc ltac:(lia)). exact Hm'.
    - cbn in *. destruct Hc as [-> Hc]. split; [reflexivity|].
      inversion Hnd; subst. apply IH; auto; [intros j x Hj; apply (He j x); auto|].
      rewrite <- (rd_ext PS m m') by (intros x Hx; apply (He i x); cbn; auto). exact Hc.
  Qed.

  Lemma inv_init m : Inv (make base isz max) m [] [] [].
  Proof.
    destruct HC as (_ & ? & ? & _). constructor; cbn; auto; try lia.
    - constructor.
    - unfold addr. lia.
  Qed.

  Definition alloc_post (p : pool) (m : mem) held : Prop :=
    exists i fl out p' m',
      step PS debug Allocate p m = (RAddr (addr i), p', m') /\ ~ In i out /\ 0 <= i < max /\
      held = map addr out /\ Inv p' m' (addr i :: held) fl (i :: out) /\
      (forall x, (forall j, 0 <= j < max -> addr j <= x < addr j + isz -> In j out) -> m' x = m x) /\
      p_next p = addr i.

  Lemma alloc_ok p m held fl out :
    Inv p m held fl out -> Z.of_nat (length held) < max -> alloc_post p m held.
  Proof.
    intros V Hl. destruct V as [Vb Vi Vm Vh Va Vn Vc Vd Vr Vch].
    assert (Hlen : length held = length out) by (rewrite Vh; apply map_length).
    pose proof HC as (C1 & C2 & C3 & C4 & C5 & C6).
    unfold alloc_post, step, allocate_item. rewrite Vb, Vi, Vm, Va.
    destruct (Z.ltb_spec (Z.of_nat (length out)) max); [|lia].
    rewrite (u32_id (Z.of_nat (length out) + 1)) by nia.
    set (n := items_initialised p) in *.
    (* state after the optional initialisation *)
    assert (Hst : exists m1 fl1 n1,
      (if n <? max then (u32 (n + 1), wr PS m (base + u32 (n * isz)) (base + u32 (n * isz) + isz)) else (n, m)) = (n1, m1) /\
      0 <= n1 <= max /\ n1 = Z.of_nat (length fl1 + length out) /\ NoDup (fl1 ++ out) /\
      (forall i, In i (fl1 ++ out) -> 0 <= i < n1) /\ chain m1 n1 (p_next p) fl1 /\ fl1 <> [] /\
      (forall x, (forall j, 0 <= j < max -> addr j <= x < addr j + isz -> In j out) -> m1 x = m x)).
    { destruct (Z.ltb_spec n max).
      - rewrite (u32_id (n * isz)) by nia. rewrite (u32_id (n + 1)) by nia.
        exists (wr PS m (addr n) (addr (n + 1))), (fl ++ [n]), (n + 1).
        split; [replace (base + n * isz + isz) with (addr (n + 1)) by (unfold addr; lia); reflexivity|].
        split; [lia|]. split; [rewrite app_length; cbn; lia|].
        assert (Hnn : ~ In n (fl ++ out)) by (intros Hin; apply Vr in Hin; lia).
        split.
        { rewrite <- app_assoc. cbn. apply (NoDup_Add (a := n) (l := fl ++ out)); [apply Add_app|]. split; auto. }
        split.
        { intros i Hin. rewrite !in_app_iff in Hin. cbn in Hin.
          destruct Hin as [[Hin|[<-|[]]]|Hin]; try lia.
          - specialize (Vr i ltac:(rewrite in_app_iff; auto)). lia.
          - specialize (Vr i ltac:(rewrite in_app_iff; auto)). lia. }
        split.
        { apply chain_extend; try lia; auto.
          - intros i Hin. apply Vr. rewrite in_app_iff; auto.
          - apply NoDup_app_iff in Vd. tauto. }
        split; [intros E; apply app_eq_nil in E; destruct E; discriminate|].
        intros x Hx. apply wr_other.
        destruct (Z.lt_ge_cases x (addr n)); auto.
        destruct (Z.lt_ge_cases x (addr n + Z.of_nat PS)); auto. exfalso.
        apply Hnn. rewrite in_app_iff. right. apply Hx; lia.
      - exists m, fl, n. repeat split; try lia; auto; try apply Vr; auto.
        intros ->. cbn in Vc. lia. }
    destruct Hst as (m1 & fl1 & n1 & -> & Hn1 & Hc1 & Hd1 & Hr1 & Hch1 & Hne & Hm1).
    destruct fl1 as [|i r]; [congruence|]. cbn in Hch1. destruct Hch1 as (Hp & Hch1).
    exists i, r, out. eexists. exists m1. rewrite Hp. split; [reflexivity|].
    cbn in Hd1. inversion Hd1 as [|? ? Hni Hd2]; subst.
    split; [intros Hin; apply Hni; rewrite in_app_iff; auto|].
    assert (Hi : 0 <= i < Z.of_nat (length (i :: r) + length out)) by (apply Hr1; cbn; auto).
    split; [lia|]. split; [reflexivity|]. split; [|split; [exact Hm1|reflexivity]].
    constructor; cbn -[Z.of_nat]; auto; try lia.
    - apply (NoDup_Add (a := i) (l := r ++ out)); [apply Add_app|]. split; auto.
    - intros j Hj. apply Hr1. cbn. rewrite in_app_iff in *. cbn in Hj. intuition.
    - cbn [length] in *. destruct (Z.ltb_spec (Z.of_nat (length out) + 1) max).
      + rewrite <- Hp. exact Hch1.
      + destruct r; [|cbn [length] in *; lia]. cbn. intros. cbn [length] in *. lia.
  Qed.

  Lemma alloc_fail p m held fl out :
    Inv p m held fl out -> Z.of_nat (length held) = max ->
    step PS debug Allocate p m = (RError pool_no_allocation, p, m).
  Proof.
    intros V Hl. destruct V. unfold step, allocate_item. rewrite v_alloc0, v_max0.
    rewrite v_held0, map_length in Hl. destruct (Z.ltb_spec (Z.of_nat (length out)) max); [lia|reflexivity].
  Qed.

  Lemma in_pool_held i : 0 <= i < max -> forall p, p_buffer p = base -> Item_Size p = isz -> Max_Size p = max ->
    is_item_in_pool debug p (addr i) = true.
  Proof.
    intros Hi p H1 H2 H3. unfold is_item_in_pool. rewrite H1, H2, H3.
    pose proof HC as (C1 & C2 & C3 & C4 & C5 & C6).
    replace (addr i - base) with (i * isz) by (unfold addr; lia).
    rewrite (u32_id (isz * max)) by nia. rewrite (u32_id (isz * max - isz)) by nia.
    destruct (Z.leb_spec 0 (i * isz)); [|nia].
    destruct (Z.leb_spec (i * isz) (isz * max - isz)); [|nia]. cbn.
    destruct debug; auto. rewrite Z.rem_mul by lia. reflexivity.
  Qed.

  Lemma not_in_pool a : ~ storage base isz max a -> forall p, p_buffer p = base -> Item_Size p = isz -> Max_Size p = max ->
    is_item_in_pool debug p a = false.
  Proof.
    intros Hi p H1 H2 H3. unfold is_item_in_pool. rewrite H1, H2, H3.
    pose proof HC as (C1 & C2 & C3 & C4 & C5 & C6).
    rewrite (u32_id (isz * max)) by nia. rewrite (u32_id (isz * max - isz)) by nia.
    unfold storage in Hi.
    destruct (Z.leb_spec 0 (a - base)); [|reflexivity].
    destruct (Z.leb_spec (a - base) (isz * max - isz)); [lia|reflexivity].
  Qed.

  Lemma remove_map i : forall out, remove Z.eq_dec (addr i) (map addr out) = map addr (remove Z.eq_dec i out).
  Proof.
    induction out as [|j r IH]; [reflexivity|]. cbn.
    destruct (Z.eq_dec (addr i) (addr j)) as [E|E], (Z.eq_dec i j) as [F|F]; subst; try congruence.
    - apply addr_inj in E. congruence.
    - cbn. congruence.
  Qed.

  Lemma remove_len i : forall out, NoDup out -> In i out -> length out = S (length (remove Z.eq_dec i out)).
  Proof.
    induction out as [|j r IH]; [intros _ []|]. intros Hd Hin. inversion Hd; subst. cbn.
    destruct (Z.eq_dec i j); subst.
    - rewrite notin_remove by auto. reflexivity.
    - destruct Hin; [congruence|]. cbn. rewrite (IH H2 H). reflexivity.
  Qed.

  Lemma remove_nodup i : forall out, NoDup out -> NoDup (remove Z.eq_dec i out).
  Proof.
    induction out as [|j r IH]; intros Hd; [constructor|]. inversion Hd; subst. cbn.
    destruct (Z.eq_dec i j); auto. constructor; auto. intros Hin. apply in_remove in Hin. tauto.
  Qed.

  Lemma release_ok p m held fl out a :
    Inv p m held fl out -> In a held ->
    exists i p' m', a = addr i /\ In i out /\ step PS debug (Release a) p m = (RDone, p', m') /\
      Inv p' m' (remove Z.eq_dec a held) (i :: fl) (remove Z.eq_dec i out) /\ p_next p' = a /\
      (forall x, ~ (a <= x < a + isz) -> m' x = m x).
  Proof.
    intros V Hin. destruct V as [Vb Vi Vm Vh Va Vn Vc Vd Vr Vch]. subst held.
    apply in_map_iff in Hin. destruct Hin as (i & <- & Hin).
    pose proof HC as (C1 & C2 & C3 & C4 & C5 & C6).
    assert (Hi : 0 <= i < items_initialised p) by (apply Vr; rewrite in_app_iff; auto).
    unfold step, release_item. rewrite in_pool_held by (auto; lia).
    pose proof Vd as Vd'. apply NoDup_app_iff in Vd. destruct Vd as (D1 & D2 & D3).
    pose proof (remove_len i out D2 Hin) as Hlen.
    destruct (Z.ltb_spec 0 (items_allocated p)); [|lia].
    exists i. eexists. eexists. split; [reflexivity|]. split; [exact Hin|]. split; [reflexivity|].
    split; [|split; [reflexivity|]].
    - constructor; cbn -[Z.of_nat]; auto.
      + apply remove_map.
      + rewrite u32_id by nia. lia.
      + lia.
      + constructor.
        * rewrite in_app_iff. intros [H1|H1]; [apply (D3 i); auto|apply in_remove in H1; tauto].
        * apply NoDup_app_iff. repeat split; auto using remove_nodup.
          intros x Hx Hx2. apply in_remove in Hx2. apply (D3 x); tauto.
      + intros j [<-|Hj]; [lia|]. apply Vr. rewrite in_app_iff in *. destruct Hj as [Hj|Hj]; auto.
        apply in_remove in Hj. tauto.
      + split; [reflexivity|].
        assert (Hch' : chain (wr PS m (addr i) (p_next p)) (items_initialised p) (p_next p) fl).
        { eapply chain_ext; [|exact Vch]. intros j x Hj Hx. symmetry. apply wr_other.
          assert (Hne : j <> i) by (intros ->; apply (D3 i); auto).
          unfold addr in *. destruct (Z.lt_total i j) as [L|[L|L]]; [|congruence|]; nia. }
        destruct fl as [|j fl].
        * cbn in Hch' |- *. intros Hlt. rewrite (Vch Hlt) in *. apply rd_wr.
          pose proof (addr_pos (items_initialised p)). lia.
        * rewrite rd_wr; [exact Hch'|]. cbn in Vch. destruct Vch as [-> _].
          specialize (Vr j ltac:(cbn; auto)). pose proof (addr_pos j). lia.
    - intros x Hx. apply wr_other. lia.
  Qed.

  Lemma release_foreign p m held fl out a :
    Inv p m held fl out -> ~ storage base isz max a ->
    step PS debug (Release a) p m = (RError pool_object_not_in_pool, p, m).
  Proof.
    intros V Hs. destruct V. unfold step, release_item. rewrite not_in_pool; auto.
  Qed.

  Lemma held_storage p m held fl out b x :
    Inv p m held fl out -> In b held -> block isz b x ->
    storage base isz max x /\ exists i, In i out /\ b = addr i /\ addr i <= x < addr i + isz.
  Proof.
    intros V Hb Hx. destruct V. subst. apply in_map_iff in Hb. destruct Hb as (i & <- & Hi).
    assert (0 <= i < items_initialised p) by (apply v_rng0; rewrite in_app_iff; auto).
    unfold block in Hx. split; [apply (addr_storage i); lia|eauto].
  Qed.

  Definition Inv' p m held := exists fl out, Inv p m held fl out.

  Lemma step_inv p m held o r p' m' :
    Inv' p m held -> client_ok base isz max held o ->
    step PS debug o p m = (r, p', m') -> Inv' p' m' (holds held o r).
  Proof.
    intros (fl & out & V) Hc Hs. destruct o as [|a| |a b].
    - pose proof V as [Vb Vi Vm Vh Va Vn Vc Vd Vr Vch].
      assert (Hlen : length held = length out) by (rewrite Vh; apply map_length).
      destruct (Z.lt_ge_cases (Z.of_nat (length held)) max) as [L|L].
      + destruct (alloc_ok p m held fl out V L) as (i & fl' & out' & p2 & m2 & E & _ & _ & -> & V2 & _).
        rewrite E in Hs. injection Hs as <- <- <-. cbn. exists fl', (i :: out'). exact V2.
      + rewrite (alloc_fail p m held fl out V) in Hs by lia.
        injection Hs as <- <- <-. exists fl, out. exact V.
    - destruct Hc as [Hin|Hout].
      + destruct (release_ok p m held fl out a V Hin) as (i & p2 & m2 & _ & _ & E & V2 & _).
        rewrite E in Hs. injection Hs as <- <- <-. cbn. eexists; eexists; exact V2.
      + rewrite (release_foreign p m held fl out a V Hout) in Hs. injection Hs as <- <- <-.
        exists fl, out. exact V.
    - cbn in Hs. injection Hs as <- <- <-. cbn. exists [], []. destruct V.
      unfold release_all. rewrite v_buf0, v_isz0, v_max0. apply inv_init.
    - cbn in Hs. injection Hs as <- <- <-. cbn. exists fl, out. destruct V as [Vb Vi Vm Vh Va Vn Vc Vd Vr Vch].
      constructor; auto. eapply chain_ext; [|exact Vch].
      intros i x Hi Hx. cbn. destruct (Z.eqb_spec x a); [|reflexivity]. subst x. exfalso.
      pose proof HC as (C1 & C2 & _).
      assert (Hri : 0 <= i < items_initialised p) by (apply Vr; rewrite in_app_iff; auto).
      cbn in Hc. destruct Hc as [(bk & Hb & Hbl)|Hout].
      + subst held. apply in_map_iff in Hb. destruct Hb as (j & <- & Hj).
        apply NoDup_app_iff in Vd. destruct Vd as (_ & _ & D3).
        assert (i <> j) by (intros ->; apply (D3 j); auto).
        unfold block in Hbl. apply (addr_sep i j a a); auto; lia.
      + apply Hout. apply (addr_storage i); lia.
  Qed.

  Lemma reach_inv p m held : reach PS debug base isz max p m held -> Inv' p m held.
  Proof.
    induction 1 as [m|p m held o r p' m' _ IH Hc Hs].
    - exists [], []. apply inv_init.
    - eapply step_inv; eauto.
  Qed.
End P.
