(** Preservation of the bip buffer invariant: the stores of the writer (support for C04, C05). *)
From Coq Require Import List Arith Lia Bool.
From Verif Require Import Util RA BipModel BipSpec BipProofs BipSteps.
Import ListNotations.

Section PStores.
  Variable T : Type.
  Variable R : nat.
  Notation MI := (MI T R).
  Ltac fields := constructor; cbn [hist cells nslots va vc mval mview]; auto.

  Lemma P_storeL es acc w wl nW rl nR rs js lv nL xs dn d (m : mem T) vP vC :
    MI es acc w wl nW rl nR rs js lv nL false xs false dn d m vP vC -> fst (rl rs) = length es -> xs <> [] ->
    let v1 := mkview (nset (va vP) La (length (hist m La))) (vc vP) in
    MI es acc w wl nW rl nR rs js (w + length xs) (S nL) false xs true dn d
       (mkmem (nset (hist m) La (hist m La ++ [mkmsg (w + length xs) v1])) (cells m) (nslots m)) v1 vC.
  Proof.
    intros M Hu Hx v1. destruct M. fields; rewrite ?nset_same, ?app_length; cbn [length]; try lia; auto.
    - intros E. destruct (Hx E).
    - intros ms Hm. rewrite nth_error_snoc in Hm. destruct (Nat.ltb_spec (S nL) (length (hist m La))); [lia|]. destruct (Nat.eqb_spec (S nL) (length (hist m La))) as [E|]; [|discriminate].
      injection Hm as <-. cbn. unfold nset. cbn. repeat split; try lia.
    - intros j ms Hm. destruct (i_w j ms Hm) as (X1 & X2 & X3 & X4 & X5). repeat split; auto.
    - intros j ms Hm. destruct (i_r j ms Hm) as (X1 & X2 & X3 & X4 & X5). repeat split; auto.
  Qed.

  Lemma last_pos {A B} (f : A -> B) (l : list A) n x : length l = S n -> nth_error l n = Some x -> exists l', map f l = l' ++ [f x].
  Proof.
    intros Hl Hn. exists (map f (firstn n l)). rewrite <- (firstn_skipn n l) at 1. rewrite (skipn_nth _ _ _ Hn). rewrite map_app. rewrite skipn_all2 by lia. reflexivity.
  Qed.
  Lemma wr_last es acc w wl nW rl nR rs js lv nL pn xs fl dn d (m : mem T) vP vC :
    MI es acc w wl nW rl nR rs js lv nL pn xs fl dn d m vP vC -> exists l', map mval (hist m Wr) = l' ++ [w].
  Proof.
    intros M. destruct M. destruct (nth_error (hist m Wr) nW) as [ms|] eqn:En; [|apply nth_error_None in En; lia].
    destruct (last_pos mval _ _ _ i_lw En) as (l' & E). exists l'. destruct (i_w _ _ En) as (V & _). rewrite i_wn in V. cbn in V. congruence.
  Qed.

  (** a commit behind the elements before *)
  Lemma P_store_lin es acc w wl nW rl nR rs js lv nL xs fl dn d (m : mem T) vP vC :
    MI es acc w wl nW rl nR rs js lv nL false xs fl dn d m vP vC -> xs <> [] -> fl = negb (fst (rl rs) <? length es) ->
    let v1 := mkview (nset (va vP) Wr (length (hist m Wr))) (vc vP) in
    MI es (acc ++ xs) (w + length xs) (nset wl (S nW) (length es, w + length xs)) (S nW) rl nR rs js lv nL false [] false dn d
       (mkmem (nset (hist m) Wr (hist m Wr ++ [mkmsg (w + length xs) v1])) (cells m) (nslots m)) v1 vC.
  Proof.
    intros M Hx Hf v1. pose proof (wr_last _ _ _ _ _ _ _ _ _ _ _ _ _ _ _ _ _ _ _ M) as (l' & El). pose proof (lap _ _ _ _ _ _ _ _ _ _ _ _ _ _ _ _ _ _ _ _ _ M) as Hlap.
    assert (Hlen : 0 < length xs) by (destruct xs; [easy|cbn; lia]).
    assert (Hpos : forall p, pos es w p -> pos es (w + length xs) p) by (unfold pos; intros p; lia).
    destruct M. fields; rewrite ?nset_same, ?app_length; cbn [length]; try lia; auto.
    - rewrite map_app, El. cbn [map mval]. rewrite <- app_assoc. cbn [app]. rewrite wraps_snoc. destruct (Nat.ltb_spec (w + length xs) w); [lia|]. rewrite app_nil_r, <- El. exact i_wr.
    - intros i j A B. destruct (Nat.eq_dec j (S nW)) as [->|].
      + rewrite nset_same, nset_other by lia. destruct (Nat.eq_dec i nW) as [->|]; [rewrite i_wn; lex|]. pose proof (i_wm i nW ltac:(lia) ltac:(lia)) as Q. rewrite i_wn in Q. clear - Q Hlen. lex.
      + rewrite !nset_other by lia. apply i_wm; lia.
    - intros j A. destruct (Nat.eq_dec j (S nW)) as [->|].
      + rewrite nset_same. right. cbn. lia.
      + rewrite nset_other by lia. apply Hpos, i_wp. lia.
    - intros j A. destruct (Nat.eq_dec j (S nW)) as [->|]; [rewrite nset_same; cbn; lia|rewrite nset_other by lia; apply i_w0; lia].
    - cbn [fr fst snd length] in *. lia.
    - cbn [fr fst snd length] in *. lia.
    - rewrite nset_other by lia. exact i_gj.
    - intros ms Hm. destruct (i_lx ms Hm) as (X1 & X2 & X3 & X4 & X5). repeat split; auto; try lia. intros Q j A B.
      destruct (Nat.eq_dec j (S nW)) as [->|]; [lia|]. rewrite nset_other in B by lia. apply X5; auto. lia.
    - intros _ Q. left. destruct (Nat.ltb_spec (fst (rl rs)) (length es)); [lia|]. destruct (i_fl Hf) as (_ & _ & X). exact X.
    - intros Q j ms Hm B. rewrite nth_error_snoc in Hm. destruct (Nat.ltb_spec j (length (hist m Wr))).
      + rewrite nset_other in B by lia. eapply i_la; eauto.
      + destruct (Nat.eqb_spec j (length (hist m Wr))); [|discriminate]. injection Hm as <-. cbn. unfold nset. cbn. lia.
    - intros j ms Hm. rewrite nth_error_snoc in Hm. cbn [fr fst snd length] in *. rewrite Nat.add_0_r in *. destruct (Nat.ltb_spec j (length (hist m Wr))).
      + rewrite nset_other by lia. apply i_w, Hm.
      + destruct (Nat.eqb_spec j (length (hist m Wr))) as [->|]; [|discriminate]. injection Hm as <-. cbn [mval mview va vc].
        rewrite i_lw. unfold nset. rewrite Nat.eqb_refl. cbn. repeat split; try lia. intros l i _ _ _. apply i_ep.
    - intros j ms Hm. destruct (i_r j ms Hm) as (X1 & X2 & X3 & X4 & X5). repeat split; auto. intros l i A B C. apply (X5 l); auto. clear - C. lex.
    - intros i A B. apply i_fr; lia.
    - intros l i A B. unfold elt in A. destruct (Nat.lt_ge_cases (Bs es l + i) (length acc)) as [L|L].
      + rewrite nth_error_app1 by lia. apply i_c1; auto. unfold elt. destruct A as [A|(-> & A)]; [auto|]. right. lia.
      + rewrite nth_error_app2 by lia. destruct A as [(A1 & A2)|(-> & A)].
        * exfalso. pose proof (Bs_mono es (S l) (length es) ltac:(lia)). rewrite Bs_S in H by lia. lia.
        * replace i with (w + (i - w)) at 1 by lia. change w with (pbase w false) at 1. rewrite i_c2 by lia. f_equal. lia.
    - intros i A B C. cbn [pbase] in *. apply i_c3; auto.
      + intros l D. apply B. unfold elt in *. lia.
      + destruct (Nat.lt_ge_cases i w); [left; auto|]. destruct (Nat.lt_ge_cases i (w + length xs)) as [L|L]; [|right; lia]. exfalso.
        assert (He : elt es (w + length xs) (length es) i) by (right; lia). specialize (B _ He). unfold pos in i_gp. clear - B i_gp H. lex.
    - intros ms Hm. rewrite nth_error_snoc in Hm. destruct (Nat.ltb_spec js (length (hist m Wr))); [|lia]. auto.
    - intros ms Hm. rewrite nth_error_snoc in Hm. destruct (Nat.ltb_spec js (length (hist m Wr))); [|lia]. auto.
  Qed.

  Lemma nth_app1 es (e l : nat) : l < length es -> nth l (es ++ [e]) 0 = nth l es 0.
  Proof. intros. apply app_nth1. auto. Qed.

  (** a commit at the start of the buffer *)
  Lemma P_store_wrap es acc w wl nW rl nR rs js lv nL xs dn d (m : mem T) vP vC :
    MI es acc w wl nW rl nR rs js lv nL true xs false dn d m vP vC -> xs <> [] ->
    let v1 := mkview (nset (va vP) Wr (length (hist m Wr))) (vc vP) in
    ascending (wraps (map mval (hist m Wr ++ [mkmsg (length xs) v1]))) ->
    MI (es ++ [w]) (acc ++ xs) (length xs) (nset wl (S nW) (S (length es), length xs)) (S nW) rl nR rs js lv nL false [] false dn d
       (mkmem (nset (hist m) Wr (hist m Wr ++ [mkmsg (length xs) v1])) (cells m) (nslots m)) v1 vC.
  Proof.
    intros M Hx v1 Has. pose proof (wr_last _ _ _ _ _ _ _ _ _ _ _ _ _ _ _ _ _ _ _ M) as (l' & El). pose proof (lap _ _ _ _ _ _ _ _ _ _ _ _ _ _ _ _ _ _ _ _ _ M) as Hlap.
    assert (Hlen : 0 < length xs) by (destruct xs; [easy|cbn; lia]).
    assert (Hw : length xs < w /\ length xs < snd (rl rs) /\ fst (rl rs) = length es).
    { destruct M. specialize (i_pn eq_refl). cbn [fr fst snd] in i_cap. lia. }
    assert (Hwr : wraps (map mval (hist m Wr ++ [mkmsg (length xs) v1])) = es ++ [w]).
    { destruct M. rewrite map_app, El. cbn [map mval]. rewrite <- app_assoc. cbn [app]. rewrite wraps_snoc. destruct (Nat.ltb_spec (length xs) w); [|lia]. rewrite <- El, <- i_wr. reflexivity. }
    assert (Hlv : lv = w).
    { destruct M. destruct (i_lv eq_refl) as [E|(E & es' & ->)]; [tauto|exact E|]. rewrite Hwr in Has. rewrite <- app_assoc in Has. apply ascending_last in Has. lia. }
    assert (Hpos : forall p, pos es w p -> pos (es ++ [w]) (length xs) p).
    { unfold pos. intros p [(A & B)|(A & B)]; left; rewrite app_length; cbn [length].
      - rewrite nth_app1 by lia. lia.
      - rewrite A. rewrite nth_snoc_eq. lia. }
    assert (Helt : forall l i, elt es w l i -> elt (es ++ [w]) (length xs) l i).
    { unfold elt. intros l i [(A & B)|(-> & B)]; left; rewrite app_length; cbn [length].
      - rewrite nth_app1 by lia. lia.
      - rewrite nth_snoc_eq. lia. }
    assert (Helt2 : forall l i, elt (es ++ [w]) (length xs) l i -> elt es w l i \/ (l = S (length es) /\ i < length xs)).
    { unfold elt. intros l i. rewrite app_length. cbn [length]. intros [(A & B)|(A & B)]; [|right; lia]. left.
      destruct (Nat.eq_dec l (length es)) as [->|]; [rewrite nth_snoc_eq in B; right; lia|]. rewrite nth_app1 in B by lia. left. lia. }
    assert (Hle1 : length (es ++ [w]) = S (length es)) by (rewrite app_length; cbn; lia).
    destruct M. fields; rewrite ?nset_same, ?app_length; cbn [length]; try lia; auto.
    - intros l. destruct (Nat.lt_trichotomy l (length es)) as [L|[->|L]]; [rewrite nth_app1 by auto; auto|rewrite nth_snoc_eq; auto|]. rewrite nth_overflow; [lia|]. rewrite app_length. cbn. lia.
    - rewrite Nat.add_1_r. reflexivity.
    - intros i j A B. destruct (Nat.eq_dec j (S nW)) as [->|].
      + rewrite nset_same, nset_other by lia. pose proof (i_wp i ltac:(lia)) as Q. unfold pos in Q. clear - Q. lex.
      + rewrite !nset_other by lia. apply i_wm; lia.
    - intros j A. destruct (Nat.eq_dec j (S nW)) as [->|].
      + rewrite nset_same. right. cbn. lia.
      + rewrite nset_other by lia. apply Hpos, i_wp. lia.
    - intros j A. destruct (Nat.eq_dec j (S nW)) as [->|]; [rewrite nset_same; cbn; lia|rewrite nset_other by lia; apply i_w0; lia].
    - rewrite Nat.add_1_r. rewrite Bs_S by (rewrite app_length; cbn; lia). rewrite Bs_snoc, nth_snoc_eq by lia. lia.
    - cbn [fr fst snd length]. lia.
    - cbn [fr fst snd length]. lia.
    - intros E. destruct (i_dn E) as (A & B). split; [lia|]. rewrite nth_app1 by lia. exact B.
    - rewrite nset_other by lia. exact i_gj.
    - intros ms Hm. destruct (i_lx ms Hm) as (X1 & X2 & X3 & X4 & X5). repeat split; auto; try lia. intros Q j A B.
      destruct (Nat.eq_dec j (S nW)) as [->|]; [lia|]. rewrite nset_other in B by lia. pose proof (i_wp j ltac:(lia)) as P. unfold pos in P. lia.
    - intros _. exists es. congruence.
    - intros Q j ms Hm B. rewrite nth_error_snoc in Hm. destruct (Nat.ltb_spec j (length (hist m Wr))).
      + rewrite nset_other in B by lia. pose proof (i_wp j ltac:(lia)) as P. unfold pos in P. lia.
      + destruct (Nat.eqb_spec j (length (hist m Wr))); [|discriminate]. injection Hm as <-. cbn. unfold nset. cbn. lia.
    - intros j ms Hm. rewrite nth_error_snoc in Hm. cbn [fr fst snd length] in *. rewrite Nat.add_0_r in *. rewrite Nat.add_1_r. destruct (Nat.ltb_spec j (length (hist m Wr))).
      + rewrite nset_other by lia. apply i_w, Hm.
      + destruct (Nat.eqb_spec j (length (hist m Wr))) as [->|]; [|discriminate]. injection Hm as <-. cbn [mval mview va vc].
        rewrite i_lw. unfold nset. rewrite Nat.eqb_refl. cbn. repeat split; try lia. intros l i _ _ _. apply i_ep.
    - intros j ms Hm. destruct (i_r j ms Hm) as (X1 & X2 & X3 & X4 & X5). repeat split; auto. intros l i A B C. apply (X5 l); auto. clear - C. lex.
    - intros l i A B. destruct (Helt2 l i A) as [A'|(-> & A')].
      + rewrite Bs_snoc by (unfold elt in A'; lia). rewrite nth_error_app1; [apply i_c1; auto|]. unfold elt in A'. destruct A' as [(A1 & A2)|(-> & A2)]; [|lia].
        pose proof (Bs_mono es (S l) (length es) ltac:(lia)). rewrite Bs_S in H by lia. lia.
      + rewrite Bs_S by lia. rewrite Bs_snoc, nth_snoc_eq by lia. rewrite <- i_len, nth_error_app2 by lia. replace (length acc + i - length acc) with i by lia. apply i_c2. auto.
    - intros i A B C. cbn [pbase] in *. apply i_c3; auto.
      destruct (Nat.lt_ge_cases i (length xs)) as [L|L]; [|right; lia]. exfalso.
      assert (He : elt (es ++ [w]) (length xs) (S (length es)) i) by (right; lia). specialize (B _ He). unfold pos in i_gp. clear - B i_gp. lex.
    - intros ms Hm. rewrite nth_error_snoc in Hm. destruct (Nat.ltb_spec js (length (hist m Wr))); [|lia]. auto.
    - intros ms Hm. rewrite nth_error_snoc in Hm. destruct (Nat.ltb_spec js (length (hist m Wr))); [|lia]. auto.
  Qed.
End PStores.
