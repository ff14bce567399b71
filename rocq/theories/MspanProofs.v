From Coq Require Import List Arith Bool Lia.
From Verif Require Import Util Slots ViewModel ViewProofs MspanModel.
Import ListNotations.

Section P.
  Context {A : Type}.
  Variable spans : list (list A).
  Notation n := (List.length spans).
  (** the canonical iterator for position k of the concatenation *)
  Inductive stands : nat -> iter -> Prop :=
  | St_in pre s post o : spans = pre ++ s :: post -> o < List.length s -> stands (List.length (concat pre) + o) (Iter (List.length pre) (Some (List.length pre, o)))
  | St_end : stands (List.length (concat spans)) (Iter n None).
  Lemma span_at_mid pre s post : spans = pre ++ s :: post -> span_at spans (List.length pre) = V s.
  Proof using. intros ->. unfold span_at, load. rewrite nth_error_app2, Nat.sub_diag by lia. reflexivity. Qed.
  Lemma concat_len (pre post : list (list A)) : List.length (concat (pre ++ post)) = List.length (concat pre) + List.length (concat post).
  Proof using. clear spans. now rewrite concat_app, app_length. Qed.
  Lemma skip_empty_ok : forall post pre fuel, spans = pre ++ post -> List.length post < fuel ->
    exists c, skip_empty spans fuel (List.length pre) = V c /\
      ((c = n /\ concat post = []) \/ (exists e s r, post = e ++ s :: r /\ concat e = [] /\ s <> [] /\ c = List.length pre + List.length e)).
  Proof using.
    induction post as [|s post IH]; intros pre [|fuel] E Hf; try (cbn in Hf; lia); cbn [skip_empty]; unfold n_spans.
    - rewrite app_nil_r in E. rewrite <- E, Nat.eqb_refl. exists n. split; [now rewrite E|]. left. now split.
    - assert (List.length pre < n) as L by (rewrite E, app_length; cbn; lia). rewrite (proj2 (Nat.eqb_neq _ _)) by lia. rewrite (span_at_mid pre s post E). cbn [bind]. destruct s as [|x s].
      + specialize (IH (pre ++ [[]]) fuel). rewrite app_length in IH. cbn [List.length] in IH. rewrite Nat.add_1_r in IH. destruct IH as (c & Hc & D); [rewrite E, <- app_assoc; reflexivity|cbn in Hf; lia|].
        exists c. split; [exact Hc|]. destruct D as [(-> & D)|(e & s & r & -> & D1 & D2 & ->)]; [left; now split|]. right. exists ([] :: e), s, r. conj; try reflexivity; try assumption. cbn [List.length]. lia.
      + exists (List.length pre). split; [reflexivity|]. right. exists [], (x :: s), post. cbn [concat List.length]. conj; try reflexivity; [discriminate|lia].
  Qed.
  Lemma from_ok pre post fuel : spans = pre ++ post -> List.length post < fuel ->
    exists i, (let* c := skip_empty spans fuel (List.length pre) in if negb (Nat.eqb c (n_spans spans)) then V (Iter c (Some (c, 0))) else V (Iter c None)) = V i /\ stands (List.length (concat pre)) i.
  Proof using.
    intros E Hf. destruct (skip_empty_ok post pre fuel E Hf) as (c & -> & [(-> & D)|(e & s & r & Ep & De & Ds & ->)]); cbn [bind]; unfold n_spans.
    - rewrite Nat.eqb_refl. cbn [negb]. eexists. split; [reflexivity|]. replace (List.length (concat pre)) with (List.length (concat spans)); [constructor|]. rewrite E, concat_len, D. cbn. lia.
    - assert (spans = (pre ++ e) ++ s :: r) as E2 by (rewrite E, Ep, <- app_assoc; reflexivity).
      rewrite (proj2 (Nat.eqb_neq _ _)) by (rewrite E2, !app_length; cbn; lia). cbn [negb]. eexists. split; [reflexivity|].
      pose proof (St_in (pre ++ e) s r 0 E2 ltac:(destruct s; [congruence|cbn; lia])) as K. rewrite concat_len, De, app_length in K. cbn [List.length] in K. now rewrite !Nat.add_0_r in K.
  Qed.
  Lemma begin_ok : exists i, begin_ spans = V i /\ stands 0 i.
  Proof using.
    unfold begin_, make. unfold n_spans at 1. destruct (Nat.eqb_spec 0 n) as [E|E]; cbn [negb].
    - destruct spans as [|s r] eqn:Es; [|discriminate]. eexists. split; [reflexivity|]. pose proof St_end as K. rewrite Es in K at 1 2. exact K.
    - apply (from_ok [] spans (S (n_spans spans)) eq_refl). unfold n_spans. lia.
  Qed.
  Lemma end_ok : end_ spans = V (Iter n None).
  Proof using. unfold end_, make. now rewrite Nat.eqb_refl. Qed.
  Lemma stands_bound k i : stands k i -> k <= List.length (concat spans) /\ (k = List.length (concat spans) <-> i = Iter n None).
  Proof using.
    intros [pre s post o E Ho|]; [|split; [lia|]; split; reflexivity]. rewrite E, concat_len. cbn [concat]. rewrite app_length. split; [lia|]. split; [lia|]. intros K. discriminate.
  Qed.
  Lemma stands_fun k i j : stands k i -> stands k j -> i = j.
  Proof using.
    intros Hi Hj. destruct (Nat.eq_dec k (List.length (concat spans))) as [E|E].
    - pose proof (stands_bound k i Hi) as (_ & B1). pose proof (stands_bound k j Hj) as (_ & B2). rewrite (proj1 B1 E). symmetry. now apply B2.
    - inversion Hi as [p1 s1 q1 o1 E1 L1 K1|K1]; [|lia]. inversion Hj as [p2 s2 q2 o2 E2 L2 K2|K2]; [|lia].
      assert (p1 = p2 /\ o1 = o2) as (-> & ->); [|reflexivity]. rewrite E2 in E1. clear - E1 L1 L2 K1 K2. rewrite <- K1 in K2. clear K1. revert p2 o2 E1 K2 L2.
      induction p1 as [|x p1 IH]; intros [|y p2] o2 E1 K2 L2; cbn [app] in E1; injection E1 as Ex Ey; subst.
      + cbn in K2. split; [reflexivity|lia].
      + cbn [concat List.length] in K2. rewrite app_length in K2. lia.
      + cbn [concat List.length] in K2. rewrite app_length in K2. lia.
      + cbn [concat] in K2. rewrite !app_length in K2. destruct (IH p2 o2 Ey ltac:(lia) L2) as (-> & ->). now split.
  Qed.
  Lemma deref_ok k i x : stands k i -> nth_error (concat spans) k = Some x -> deref spans i = V x.
  Proof using.
    intros [pre s post o E Ho|] Hx.
    - unfold deref. cbn [val]. rewrite (span_at_mid pre s post E). cbn [bind]. unfold load. rewrite E, concat_app, nth_error_app2 in Hx by lia. replace (List.length (concat pre) + o - List.length (concat pre)) with o in Hx by lia.
      cbn [concat] in Hx. rewrite nth_error_app1 in Hx by exact Ho. now rewrite Hx.
    - assert (List.length (concat spans) < List.length (concat spans)) by (apply nth_error_Some; congruence). lia.
  Qed.
  Lemma incr_ok k i : stands k i -> k < List.length (concat spans) -> exists j, incr spans i = V j /\ stands (S k) j.
  Proof using.
    intros [pre s post o E Ho|] Hk; [|lia]. unfold incr. cbn [cur val]. unfold n_spans at 1. rewrite (proj2 (Nat.eqb_neq _ _)) by (rewrite E, app_length; cbn; lia). cbn [negb].
    rewrite (span_at_mid pre s post E). cbn [bind]. rewrite padd_ok by lia. cbn [bind]. rewrite Nat.eqb_refl, Nat.add_1_r. cbn [andb]. destruct (Nat.eqb_spec (S o) (List.length s)) as [Eo|Eo].
    - assert (spans = (pre ++ [s]) ++ post) as E2 by (rewrite E, <- app_assoc; reflexivity).
      pose proof (from_ok (pre ++ [s]) post (S (n_spans spans)) E2) as F. rewrite app_length in F. cbn [List.length] in F. rewrite Nat.add_1_r in F.
      destruct F as (j & Hj & Sj); [unfold n_spans; rewrite E2, !app_length; lia|]. exists j. split; [exact Hj|]. rewrite concat_len in Sj. cbn in Sj. rewrite app_nil_r in Sj. now replace (S (List.length (concat pre) + o)) with (List.length (concat pre) + List.length s) by lia.
    - eexists. split; [reflexivity|]. rewrite <- Nat.add_succ_r. apply (St_in pre s post (S o) E). lia.
  Qed.
  Lemma advance_ok m : forall k i, stands k i -> k + m <= List.length (concat spans) -> exists j, advance spans m i = V j /\ stands (k + m) j.
  Proof using.
    induction m as [|m IH]; intros k i Hi Hk; cbn [advance].
    - exists i. rewrite Nat.add_0_r. now split.
    - destruct (incr_ok k i Hi) as (j & -> & Hj); [lia|]. cbn [bind]. destruct (IH (S k) j Hj) as (r & Hr & Sr); [lia|]. exists r. split; [exact Hr|]. now rewrite Nat.add_succ_r.
  Qed.
  Lemma before_end_ok pre s post : spans = pre ++ s :: post -> s <> [] -> exists j, before_end spans (List.length pre) = V j /\ stands (List.length (concat pre) + List.length s - 1) j.
  Proof using.
    intros E Hs. assert (0 < List.length s) as L by (destruct s; [congruence|cbn; lia]). unfold before_end. rewrite (span_at_mid pre s post E). cbn [bind]. rewrite psub_ok by lia. cbn [bind]. eexists. split; [reflexivity|].
    replace (List.length (concat pre) + List.length s - 1) with (List.length (concat pre) + (List.length s - 1)) by lia. apply (St_in pre s post _ E). lia.
  Qed.
  Lemma back_empty_ok pre : forall post, spans = pre ++ post -> concat pre <> [] -> exists p s e, back_empty spans (List.length pre) = V (List.length p) /\ pre = p ++ s :: e /\ s <> [] /\ concat e = [].
  Proof using.
    induction pre as [|s pre IH] using rev_ind; intros post E Hc; [cbn in Hc; congruence|]. rewrite app_length. cbn [List.length]. rewrite Nat.add_1_r. cbn [back_empty].
    assert (spans = pre ++ s :: post) as E2 by (rewrite E, <- app_assoc; reflexivity). rewrite (span_at_mid pre s post E2). cbn [bind].
    rewrite concat_app in Hc. cbn in Hc. rewrite app_nil_r in Hc.
    destruct (Nat.eqb_spec (List.length pre) 0) as [E0|N0]; cbn [negb].
    - destruct pre; [|discriminate]. exists [], s, []. conj; try reflexivity. now intros ->.
    - destruct s as [|x s].
      + rewrite app_nil_r in Hc. destruct (IH ([] :: post) E2 Hc) as (p & s & e & Hb & -> & Hs & He). exists p, s, (e ++ [[]]). conj; [exact Hb|now rewrite <- app_assoc|exact Hs|rewrite concat_app, He; reflexivity].
      + exists pre, (x :: s), []. conj; try reflexivity. discriminate.
  Qed.
  Lemma decr_ok k i : stands (S k) i -> S k < List.length (concat spans) \/ last spans [] <> [] -> exists j, decr spans i = V j /\ stands k j.
  Proof using.
    intros Hi Hl. remember (S k) as k1 eqn:Ek. destruct Hi as [pre s post o E Ho|].
    - unfold decr. cbn [cur val]. unfold n_spans at 1. rewrite (proj2 (Nat.eqb_neq _ _)) by (rewrite E, app_length; cbn; lia). rewrite (span_at_mid pre s post E). cbn [bind ptr_eqb]. rewrite Nat.eqb_refl. cbn [andb].
      destruct (Nat.eqb_spec o 0) as [->|No]; cbn [negb orb].
      + assert (concat pre <> []) as Hc by (intros K; rewrite K in Ek; cbn in Ek; lia). destruct (Nat.eqb_spec (List.length pre) 0) as [E0|N0]; [destruct pre; [cbn in Hc; congruence|discriminate]|]. cbn [negb orb].
        destruct (back_empty_ok pre (s :: post) E Hc) as (p & t & e & -> & Ep & Ht & He). cbn [bind].
        destruct (before_end_ok p t (e ++ s :: post)) as (j & -> & Sj); [rewrite E, Ep, <- app_assoc; reflexivity|exact Ht|]. exists j. split; [reflexivity|].
        rewrite Ep, concat_len in Ek. cbn [concat] in Ek. rewrite He, app_nil_r in Ek. replace k with (List.length (concat p) + List.length t - 1) by lia. exact Sj.
      + rewrite orb_true_r. rewrite psub_ok by lia. cbn [bind]. eexists. split; [reflexivity|]. replace k with (List.length (concat pre) + (o - 1)) by lia. apply (St_in pre s post _ E). lia.
    - assert (last spans [] <> []) as Hls by (destruct Hl; [lia|assumption]). clear Hl. unfold decr. cbn [cur]. unfold n_spans. rewrite Nat.eqb_refl.
      destruct (exists_last (l := spans)) as (pre & s & E); [intros K; rewrite K in Ek; discriminate|]. assert (n = S (List.length pre)) as Ln by (rewrite E, app_length; cbn; lia). rewrite Ln, psub_ok by lia. cbn [bind].
      replace (S (List.length pre) - 1) with (List.length pre) by lia. assert (s <> []) as Hs by (rewrite E, last_last in Hls; exact Hls).
      destruct (before_end_ok pre s [] E Hs) as (j & -> & Sj). exists j. split; [reflexivity|]. rewrite E, concat_len in Ek. cbn [concat] in Ek. rewrite app_nil_r in Ek. replace k with (List.length (concat pre) + List.length s - 1) by lia. exact Sj.
  Qed.
  Lemma decr_end_bad : last spans [] = [] -> decr spans (Iter n None) = UB.
  Proof using.
    intros Hl. unfold decr. cbn [cur]. unfold n_spans. rewrite Nat.eqb_refl. destruct spans as [|s0 r0] eqn:Es; [reflexivity|]. rewrite <- Es in *.
    destruct (exists_last (l := spans)) as (pre & s & E); [rewrite Es; discriminate|]. assert (n = S (List.length pre)) as Ln by (rewrite E, app_length; cbn; lia). rewrite Ln, psub_ok by lia. cbn [bind].
    replace (S (List.length pre) - 1) with (List.length pre) by lia. rewrite E, last_last in Hl. subst s. unfold before_end. rewrite (span_at_mid pre [] [] E). reflexivity.
  Qed.
  Lemma index_ok_ i : forall post pre fuel, spans = pre ++ post -> i < List.length (concat post) -> List.length post < fuel ->
    exists x, nth_error (concat post) i = Some x /\ (let* (i, c) := index_loop spans fuel i (List.length pre) in let* s := span_at spans c in load s i) = V x.
  Proof using.
    intros post. revert i. induction post as [|s post IH]; intros i pre [|fuel] E Hi Hf; try (cbn in Hf, Hi; lia); cbn [index_loop].
    rewrite (span_at_mid pre s post E). cbn [bind]. unfold n_spans. rewrite (proj2 (Nat.ltb_lt (List.length pre) n)) by (rewrite E, app_length; cbn; lia). rewrite andb_true_r.
    cbn [concat] in *. rewrite app_length in Hi. destruct (Nat.leb_spec (List.length s) i) as [L|L].
    - specialize (IH (i - List.length s) (pre ++ [s]) fuel). rewrite app_length in IH. cbn [List.length] in IH. rewrite Nat.add_1_r in IH. destruct IH as (x & Hx & R); [rewrite E, <- app_assoc; reflexivity|lia|cbn in Hf; lia|].
      exists x. split; [rewrite nth_error_app2 by exact L; exact Hx|exact R].
    - destruct (nth_error s i) as [x|] eqn:Ex; [|apply nth_error_None in Ex; lia]. exists x. split; [rewrite nth_error_app1 by lia; exact Ex|]. cbn [bind]. rewrite (span_at_mid pre s post E). cbn [bind]. unfold load. now rewrite Ex.
  Qed.
  Lemma index_bad : forall post pre fuel i, spans = pre ++ post -> List.length (concat post) <= i -> index_loop spans fuel i (List.length pre) = UB.
  Proof using.
    induction post as [|s post IH]; intros pre [|fuel] i E Hi; try reflexivity; cbn [index_loop].
    - rewrite app_nil_r in E. unfold span_at, load. rewrite E, (proj2 (nth_error_None pre (List.length pre))) by lia. reflexivity.
    - rewrite (span_at_mid pre s post E). cbn [bind]. cbn [concat] in Hi. rewrite app_length in Hi. unfold n_spans.
      rewrite (proj2 (Nat.ltb_lt (List.length pre) n)) by (rewrite E, app_length; cbn; lia). rewrite (proj2 (Nat.leb_le (List.length s) i)) by lia. cbn [andb].
      specialize (IH (pre ++ [s]) fuel (i - List.length s)). rewrite app_length in IH. cbn [List.length] in IH. rewrite Nat.add_1_r in IH. apply IH; [rewrite E, <- app_assoc; reflexivity|lia].
  Qed.
  Lemma msize_ok : msize spans = List.length (concat spans).
  Proof using.
    unfold msize. assert (forall (l : list (list A)) t, size_loop l t = t + List.length (concat l)) as K; [|apply K]. induction l as [|s l IH]; intros t; cbn [size_loop concat]; [cbn; lia|]. rewrite IH, app_length. lia.
  Qed.
  Lemma it_eqb_ok i j : it_eqb i j = true <-> i = j.
  Proof using.
    destruct i as [c v], j as [c' v']. unfold it_eqb. cbn [cur val]. rewrite andb_true_iff, Nat.eqb_eq. split.
    - intros (-> & K). destruct v as [[a b]|], v' as [[a' b']|]; cbn in K; try discriminate; [|reflexivity]. apply andb_true_iff in K as (K1 & K2). apply Nat.eqb_eq in K1, K2. now subst.
    - intros K. injection K as -> ->. split; [reflexivity|]. destruct v' as [[a b]|]; cbn; [now rewrite !Nat.eqb_refl|reflexivity].
  Qed.
End P.
