(** Proofs about the bip buffer model (support for C04, C05). *)
From Coq Require Import List Arith Lia Bool.
From Verif Require Import Util RA BipModel BipSpec.
Import ListNotations.

Definition lt2 (a b : nat * nat) : Prop := fst a < fst b \/ (fst a = fst b /\ snd a < snd b).
Definition le2 (a b : nat * nat) : Prop := fst a < fst b \/ (fst a = fst b /\ snd a <= snd b).
Ltac lex := unfold lt2, le2 in *; cbn [fst snd] in *; try lia.
Definition Bs (es : list nat) (l : nat) : nat := list_sum (firstn l es).

Lemma list_sum_app' a b : list_sum (a ++ b) = list_sum a + list_sum b.
Proof. apply list_sum_app. Qed.
Lemma Bs_S es l : l < length es -> Bs es (S l) = Bs es l + nth l es 0.
Proof.
  unfold Bs. revert l. induction es as [|e es IH]; intros l H; [cbn in H; lia|]. destruct l as [|l]; [cbn; lia|]. cbn [length] in H. specialize (IH l ltac:(lia)). cbn [firstn nth] in *. unfold list_sum in *. cbn [fold_right] in *. lia.
Qed.
Lemma Bs_snoc es e l : l <= length es -> Bs (es ++ [e]) l = Bs es l.
Proof. intros H. unfold Bs. rewrite firstn_app. replace (l - length es) with 0 by lia. cbn. now rewrite app_nil_r. Qed.
Lemma Bs_all es : Bs es (length es) = list_sum es.
Proof. unfold Bs. now rewrite firstn_all. Qed.
Lemma Bs_mono es l l' : l <= l' -> Bs es l <= Bs es l'.
Proof.
  intros H. induction H; [lia|]. destruct (Nat.lt_ge_cases m (length es)).
  - rewrite Bs_S by auto. lia.
  - unfold Bs in *. rewrite (@firstn_all2 _ (S m)) by lia. rewrite (@firstn_all2 _ m) in IHle by lia. lia.
Qed.
Lemma nth_snoc_lt {A} (l : list A) x d i : i < length l -> nth i (l ++ [x]) d = nth i l d.
Proof. intros H. apply app_nth1. auto. Qed.
Lemma nth_snoc_eq {A} (l : list A) x d : nth (length l) (l ++ [x]) d = x.
Proof. rewrite app_nth2, Nat.sub_diag; auto. Qed.

Lemma nth_error_snoc {A} (l : list A) x j :
  nth_error (l ++ [x]) j = if Nat.ltb j (length l) then nth_error l j else if Nat.eqb j (length l) then Some x else None.
Proof.
  destruct (Nat.ltb_spec j (length l)) as [H|H].
  - apply nth_error_app1; assumption.
  - rewrite nth_error_app2 by assumption. destruct (Nat.eqb_spec j (length l)) as [E|E].
    + subst. rewrite Nat.sub_diag. reflexivity.
    + destruct (j - length l) as [|n] eqn:E2; [lia|]. cbn. destruct n; reflexivity.
Qed.
Lemma nth_error_lt {A} (l : list A) j x : nth_error l j = Some x -> j < length l.
Proof. intros H. apply nth_error_Some. congruence. Qed.
Lemma nth_skip {A} (l : list A) n i : nth_error (skipn n l) i = nth_error l (n + i).
Proof. revert n. induction l as [|x l IH]; intros [|n]; cbn; auto. now destruct i. Qed.
Lemma firstn_next {A} (l : list A) g x : nth_error l g = Some x -> firstn g l ++ [x] = firstn (S g) l.
Proof. revert g. induction l as [|y l IH]; intros [|g] H; cbn in *; try discriminate; [congruence|]. f_equal. auto. Qed.
Lemma nset_same {A} (f : nat -> A) i x : nset f i x i = x.
Proof. unfold nset. now rewrite Nat.eqb_refl. Qed.
Lemma nset_other {A} (f : nat -> A) i j x : i <> j -> nset f i x j = f j.
Proof. unfold nset. intros H. apply Nat.eqb_neq in H. now rewrite H. Qed.

(** wraps of an extended list of positions *)
Lemma wraps_snoc l a b : wraps (l ++ [a; b]) = wraps (l ++ [a]) ++ (if b <? a then [a] else []).
Proof.
  induction l as [|x l IH]; [cbn [app wraps]; destruct (b <? a); reflexivity|]. destruct l as [|y l].
  - cbn [app wraps]. destruct (a <? x), (b <? a); reflexivity.
  - cbn [app] in IH |- *. change (wraps (x :: y :: l ++ [a; b])) with (if y <? x then x :: wraps (y :: l ++ [a; b]) else wraps (y :: l ++ [a; b])).
    change (wraps (x :: y :: l ++ [a])) with (if y <? x then x :: wraps (y :: l ++ [a]) else wraps (y :: l ++ [a])). rewrite IH. destruct (y <? x); reflexivity.
Qed.
Lemma ascending_last l a b : ascending (l ++ [a] ++ [b]) -> a <= b.
Proof. induction l as [|x l IH]; [cbn; tauto|]. destruct l as [|y l]; cbn in *; [tauto|]. intros [_ H]. apply IH. exact H. Qed.
Lemma ascending_app l m : ascending (l ++ m) -> ascending l.
Proof. induction l as [|x l IH]; [cbn; auto|]. destruct l as [|y l]; cbn in *; [tauto|]. intros [H1 H2]. split; [exact H1|]. apply IH, H2. Qed.

Section Inv.
  Variable T : Type.
  Variable MAX : nat.
  Variable promoted : bool.
  Variable R : nat.
  Hypothesis HM : R <= MAX.
  Notation add := (add MAX promoted).
  Notation sub := (sub MAX).

  Lemma add_ok a b : a + b <= MAX -> add a b = a + b.
  Proof. intros H. unfold BipModel.add. destruct promoted; auto. apply Nat.mod_small. lia. Qed.
  Lemma sub_ok a b : b <= a -> sub a b = a - b.
  Proof. intros H. unfold BipModel.sub. destruct (Nat.leb_spec b a); [auto|lia]. Qed.

  (** the frontier of the writer: behind the elements it has constructed and not committed yet *)
  Definition fr (lap w : nat) (pn : bool) (xs : list T) : nat * nat := if pn then (S lap, length xs) else (lap, w + length xs).
  Definition pbase (w : nat) (pn : bool) := if pn then 0 else w.
  (** the frontier of the reader: behind the elements it has destroyed and not committed yet *)
  Definition gr (u : nat * nat) (dn : bool) (d : nat) : nat * nat := if dn then (S (fst u), d) else (fst u, snd u + d).
  Definition elt (es : list nat) (w l i : nat) : Prop := (l < length es /\ i < nth l es 0) \/ (l = length es /\ i < w).
  Definition pos (es : list nat) (w : nat) (p : nat * nat) : Prop :=
    (fst p < length es /\ snd p <= nth (fst p) es 0) \/ (fst p = length es /\ snd p <= w).

  Record MI (es : list nat) (acc : list T) (w : nat) (wl : nat -> nat * nat) (nW : nat) (rl : nat -> nat * nat) (nR rs js lv nL : nat)
            (pn : bool) (xs : list T) (fl : bool) (dn : bool) (d : nat) (m : mem T) (vP vC : view) : Prop := {
    i_n : nslots m = R;
    i_lw : length (hist m Wr) = S nW; i_lr : length (hist m Rd) = S nR; i_ll : length (hist m La) = S nL;
    i_es : forall l, nth l es 0 <= R; i_wR : w <= R;
    i_wr : es = wraps (map mval (hist m Wr));
    i_wn : wl nW = (length es, w);
    i_wm : forall i j, i < j -> j <= nW -> lt2 (wl i) (wl j);
    i_rm : forall i j, i < j -> j <= nR -> lt2 (rl i) (rl j);
    i_wp : forall j, j <= nW -> pos es w (wl j);
    i_w0 : forall j, j <= nW -> 0 < fst (wl j) -> 0 < snd (wl j);
    i_rp : forall j, j <= nR -> pos es w (rl j);
    i_len : length acc = Bs es (length es) + w;
    i_rs : rs <= nR; i_js : js <= nW;
    i_xs : xs = [] -> pn = false /\ fl = false;
    i_fR : snd (fr (length es) w pn xs) <= R;
    i_cap : fst (fr (length es) w pn xs) = fst (rl rs) \/ (fst (fr (length es) w pn xs) = S (fst (rl rs)) /\ snd (fr (length es) w pn xs) < snd (rl rs));
    i_pn : pn = true -> fst (rl rs) = length es;
    i_d : d = 0 -> dn = false;
    i_dn : dn = true -> fst (rl nR) < length es /\ snd (rl nR) = nth (fst (rl nR)) es 0;
    i_gp : pos es w (gr (rl nR) dn d);
    i_gj : le2 (gr (rl nR) dn d) (wl js);
    (** the marker of the end of a lap *)
    i_lx : forall ms, nth_error (hist m La) nL = Some ms -> mval ms = lv /\ va (mview ms) Rd <= rs /\ va (mview ms) La <= nL /\ va (mview ms) Wr <= nW /\
             (S (fst (rl rs)) = length es -> forall j, j <= nW -> fst (wl j) = length es -> va (mview ms) Wr <= j);
    i_fl : fl = true -> pn = false /\ fst (rl rs) = length es /\ lv = w + length xs;
    i_lv : fl = false -> fst (rl rs) = length es -> lv = w \/ (w < lv /\ exists es', es = es' ++ [lv]);
    i_lv2 : S (fst (rl rs)) = length es -> exists es', es = es' ++ [lv];
    i_la : S (fst (rl rs)) = length es -> forall j ms, nth_error (hist m Wr) j = Some ms -> fst (wl j) = length es -> nL <= va (mview ms) La;
    (** messages *)
    i_w : forall j ms, nth_error (hist m Wr) j = Some ms ->
            mval ms = snd (wl j) /\ va (mview ms) Wr <= j /\ va (mview ms) Rd <= rs /\ va (mview ms) La <= nL /\
            (forall l i, i < R -> lt2 (l, i) (wl j) -> le2 (fr (length es) w pn xs) (S l, i) -> cacc (cells m i) Prod <= vc (mview ms) Prod);
    i_r : forall j ms, nth_error (hist m Rd) j = Some ms ->
            mval ms = snd (rl j) /\ va (mview ms) Rd <= j /\ va (mview ms) Wr <= js /\ va (mview ms) La <= nL /\
            (forall l i, i < R -> lt2 (l, i) (rl j) -> le2 (length es, w) (S l, i) -> cacc (cells m i) Cons <= vc (mview ms) Cons);
    i_fr : forall i, length es = 0 -> w <= i -> cacc (cells m i) Cons = 0;
    (** cells *)
    i_c1 : forall l i, elt es w l i -> le2 (gr (rl nR) dn d) (l, i) -> cval (cells m i) = nth_error acc (Bs es l + i);
    i_c2 : forall i, i < length xs -> cval (cells m (pbase w pn + i)) = nth_error xs i;
    i_c3 : forall i, i < R -> (forall l, elt es w l i -> lt2 (l, i) (gr (rl nR) dn d)) -> (i < pbase w pn \/ pbase w pn + length xs <= i) -> cval (cells m i) = None;
    (** views *)
    i_vpw : va vP Wr = nW; i_vpr : va vP Rd = rs; i_vpl : va vP La = nL;
    i_vcr : va vC Rd = nR; i_vcw : va vC Wr = js; i_vcl : va vC La <= nL;
    i_ep : forall i, cacc (cells m i) Prod <= vc vP Prod;
    i_ec : forall i, cacc (cells m i) Cons <= vc vC Cons;
    i_kp : forall ms, nth_error (hist m Rd) rs = Some ms -> vc (mview ms) Cons <= vc vP Cons;
    i_kc : forall ms, nth_error (hist m Wr) js = Some ms -> vc (mview ms) Prod <= vc vC Prod;
    i_kl : forall ms, nth_error (hist m Wr) js = Some ms -> va (mview ms) La <= va vC La
  }.

  (** ** verification conditions of the writer.  [uk]: is the known read position in the lap before, and its value *)
  Definition uk_step (w : nat) (a b : bool * nat) : Prop :=
    if fst a then (fst b = true /\ snd a <= snd b /\ snd b <= R) \/ (fst b = false /\ snd b <= w)
    else fst b = false /\ snd a <= snd b /\ snd b <= w.
  Definition retP (o : op T) (acc0 acc : list T) (r : res T) : Prop :=
    match o, r with
    | BWrite _ _, RWrite i n ys => acc = acc0 ++ ys /\ length ys <= n /\ i + n <= R
    | (BSize | BAvailable), RNat _ => acc = acc0
    | (BEmpty | BFull), RBool _ => acc = acc0
    | _, _ => False
    end.
  Fixpoint okP (o : op T) (acc0 acc : list T) (w : nat) (uk : bool * nat) (pn : bool) (xs : list T) (fl : bool) (p : prog T (res T)) : Prop :=
    match p with
    | Ret r => xs = [] /\ retP o acc0 acc r
    | Load l or k =>
        if Nat.eqb l Wr then okP o acc0 acc w uk pn xs fl (k w)
        else if Nat.eqb l Rd then or = Acq /\ forall uk', uk_step w uk uk' -> okP o acc0 acc w uk' pn xs fl (k (snd uk'))
        else l = La /\ forall v, okP o acc0 acc w uk pn xs fl (k v)
    | Construct i x k =>
        fl = false /\ i < R /\ exists pn', (xs = [] \/ pn' = pn) /\
          (if pn' then fst uk = false /\ i = length xs /\ S i < snd uk else i = w + length xs /\ (fst uk = true -> S i < snd uk)) /\
          okP o acc0 acc w uk pn' (xs ++ [x]) fl k
    | Store l v or k =>
        or = Rel /\ xs <> [] /\
        ((l = La /\ pn = false /\ fst uk = false /\ fl = false /\ v = w + length xs /\ okP o acc0 acc w uk pn xs true k) \/
         (l = Wr /\ v = pbase w pn + length xs /\ fl = negb (pn || fst uk) /\ acc = acc0 /\ (exists r, k = Ret r) /\ okP o acc0 (acc ++ xs) v (pn || fst uk, snd uk) false [] false k))
    | _ => False
    end.

  (** ** verification conditions of the reader *)
  Inductive kn_t := KSame (w : nat) | KNext (e w : nat).
  Definition kw (k : kn_t) := match k with KSame w => w | KNext _ w => w end.
  Definition avail (r : nat) (k : kn_t) := match k with KSame w => w - r | KNext e w => (e - r) + w end.
  Definition k_ok (r : nat) (k : kn_t) := match k with KSame w => r <= w /\ w <= R | KNext e w => 0 < w /\ w < r /\ r <= e /\ e <= R end.
  Definition k_step (r : nat) (a b : kn_t) : Prop :=
    k_ok r b /\
    match a, b with
    | KSame w, KSame w' => w <= w'
    | KSame w, KNext e w' => w <= e
    | KNext e w, KNext e' w' => e' = e /\ w <= w'
    | KNext _ _, KSame _ => False
    end.
  Definition place (r : nat) (k : kn_t) (dn : bool) (g i : nat) : Prop :=
    if dn then match k with KNext e w => r = e /\ i = g /\ g < w | _ => False end
    else i = r + g /\ match k with KSame w => i < w | KNext e _ => i < e end.
  Definition moved (dn : bool) (k : kn_t) : kn_t := if dn then KSame (kw k) else k.
  Definition retC (o : op T) (nc0 nc : nat) (kn : list T) (r : res T) : Prop :=
    match o, r with
    | BRead m c, RRead i n ys => length ys = Nat.min (c i n) n /\ (n = 0 -> m = 0 \/ length kn = nc0) /\ nc = nc0 + length ys /\ ys = firstn (length ys) (skipn nc0 kn) /\ length ys <= n /\ i + n <= R
    | BPeek _, RPeek i n ys => nc = nc0 /\ ys = firstn (length ys) (skipn nc0 kn) /\ length ys = n /\ i + n <= R
    | (BSize | BAvailable), RNat _ => nc = nc0
    | (BEmpty | BFull), RBool _ => nc = nc0
    | _, _ => False
    end.
  Fixpoint okC (o : op T) (nc0 nc r : nat) (k : kn_t) (kn : list T) (dn : bool) (d : nat) (p : prog T (res T)) : Prop :=
    match p with
    | Ret x => d = 0 /\ retC o nc0 nc kn x
    | Load l or c =>
        if Nat.eqb l Rd then okC o nc0 nc r k kn dn d (c r)
        else if Nat.eqb l Wr then or = Acq /\ forall k' ext, k_step r k k' -> length (kn ++ ext) = nc + avail r k' -> okC o nc0 nc r k' (kn ++ ext) dn d (c (kw k'))
        else l = La /\ exists e w, k = KNext e w /\ okC o nc0 nc r k kn dn d (c e)
    | Get i c =>
        exists dn' g, (d = 0 \/ dn' = dn) /\ d <= g /\ place r k dn' g i /\ forall x, nth_error kn (nc + g) = Some x -> okC o nc0 nc r k kn dn d (c x)
    | Destroy i c => exists dn', (d = 0 \/ dn' = dn) /\ place r k dn' d i /\ okC o nc0 nc r k kn dn' (S d) c
    | Store l v or c =>
        l = Rd /\ or = Rel /\ 0 < d /\ v = (if dn then d else r + d) /\ okC o nc0 (nc + d) v (moved dn k) kn false 0 c
    | Construct _ _ _ => False
    end.

  (** ** the code meets its verification conditions *)
  Definition uk_ok (w : nat) (uk : bool * nat) : Prop := w <= R /\ snd uk <= R /\ if fst uk then w < snd uk else snd uk <= w.
  Lemma uk_step_ok w a b : uk_ok w a -> uk_step w a b -> uk_ok w b.
  Proof. unfold uk_ok, uk_step. destruct a as [[] a], b as [[] b]; cbn; intuition (try discriminate; lia). Qed.

  (** what write_span gives *)
  Lemma write_span_ok w uk psize fb i n : uk_ok w uk -> (promoted = true \/ psize + R <= MAX) ->
    write_span MAX promoted R w (snd uk) psize fb = (i, n) ->
    (i = w /\ w + n <= R /\ (fst uk = true -> w + n < snd uk)) \/ (i = 0 /\ fst uk = false /\ n < snd uk).
  Proof.
    intros (Hw & Hr & Hu) Hm. destruct uk as [u r]. cbn [fst snd] in *. unfold write_span.
    destruct (Nat.leb_spec r w) as [L|L].
    - destruct u; [lia|]. rewrite sub_ok by lia. destruct (Nat.leb_spec psize (R - w)).
      + intros [= <- <-]. left. repeat split; try lia; try discriminate.
      + destruct (Nat.leb_spec r (add (R - w) 1)) as [La|La]; cbn [orb].
        * intros [= <- <-]. left. repeat split; try lia; try discriminate.
        * destruct (fb <=? R - w). { intros [= <- <-]. left. repeat split; try lia; try discriminate. }
          assert (0 < r). { destruct r; [lia|lia]. }
          intros [= <- <-]. right. repeat split. destruct (Nat.leb_spec r psize); [|lia]. destruct (Nat.ltb_spec 0 r); [|lia].
          rewrite sub_ok by lia. lia.
    - destruct u; [|lia]. assert (Ha : add w psize = w + psize).
      { unfold BipModel.add. destruct promoted; auto. apply Nat.mod_small. destruct Hm; [discriminate|lia]. }
      rewrite Ha. destruct (Nat.leb_spec r (w + psize)).
      + rewrite (sub_ok r w) by lia. rewrite sub_ok by lia. intros [= <- <-]. left. repeat split; lia.
      + intros [= <- <-]. left. repeat split; lia.
  Qed.

  Lemma okP_fill o acc0 acc w uk (pn : bool) (k : prog T (res T)) n : uk_ok w uk ->
    (if pn then fst uk = false /\ n < snd uk else w + n <= R /\ (fst uk = true -> w + n < snd uk)) ->
    forall rest done pn0, length done + length rest = n -> (done = [] \/ pn0 = pn) ->
    (rest = [] -> okP o acc0 acc w uk pn0 done false k) ->
    (rest <> [] -> okP o acc0 acc w uk pn (done ++ rest) false k) ->
    okP o acc0 acc w uk pn0 done false (fill T (pbase w pn + length done) rest k).
  Proof.
    intros (Hw & Hr & Hu) Hn rest. induction rest as [|x rest IH]; intros done pn0 Hl Hp H0 H1; cbn [fill].
    - apply H0. reflexivity.
    - cbn [okP]. cbn [length] in Hl. split; [reflexivity|]. split; [destruct pn; cbn [pbase]; lia|]. exists pn. split; [destruct Hp; auto|]. split.
      + destruct pn; cbn [pbase]; [|split; [lia|]]. { repeat split; try tauto; lia. } intros E. destruct Hn as (_ & Hn). specialize (Hn E). lia.
      + replace (S (pbase w pn + length done)) with (pbase w pn + length (done ++ [x])) by (rewrite app_length; cbn; lia).
        apply IH.
        * rewrite app_length. cbn. lia.
        * right. reflexivity.
        * intros ->. apply H1. discriminate.
        * intros Hr0. rewrite <- app_assoc. apply H1. discriminate.
  Qed.

  Lemma okP_apply acc0 w uk pn xs i n q dd : uk_ok w uk -> xs <> [] -> i = pbase w pn -> length xs <= n ->
    (if pn then fst uk = false /\ n < snd uk else w + n <= R /\ (fst uk = true -> w + n < snd uk)) ->
    okP (BWrite q dd) acc0 acc0 w uk pn xs false (apply_write_reserve T MAX promoted R i (length xs) (Ret (RWrite i n xs))).
  Proof.
    intros Hu Hx -> Hl Hn. unfold apply_write_reserve. assert (0 < length xs) by (destruct xs; [easy|cbn; lia]).
    destruct (Nat.ltb_spec 0 (length xs)); [|lia].
    cbn [okP]. change (Wr =? Wr) with true. change (Rd =? Wr) with false. change (Rd =? Rd) with true. cbn iota. split; [reflexivity|].
    intros uk' Hs. pose proof (uk_step_ok _ _ _ Hu Hs) as Hu'. destruct uk as [u r], uk' as [u' r']. unfold uk_ok, uk_step in *. cbn [fst snd] in *.
    assert (Hlen : pbase w pn + length xs <= R) by (destruct pn, u; cbn; lia).
    destruct (Nat.ltb_spec w r') as [Lt|Ge].
    - destruct u'; [|lia]. destruct u; [|intuition discriminate]. destruct pn; [intuition discriminate|]. cbn [pbase] in *. rewrite Nat.eqb_refl. cbn [andb].
      destruct Hn as (Hn1 & Hn2). specialize (Hn2 eq_refl). assert (r <= r') by intuition (try discriminate; lia).
      rewrite (add_ok (length xs) 1) by lia. destruct (Nat.leb_spec (length xs + 1) r'); [|lia]. rewrite add_ok by lia.
      cbn [okP]. split; [reflexivity|]. split; [exact Hx|]. right. cbn. repeat split; eauto; lia.
    - destruct u'; [lia|]. destruct pn; cbn [pbase] in *.
      + destruct Hn as (-> & Hn). assert (r <= r') by intuition lia. destruct (Nat.eqb_spec 0 w); [lia|]. cbn [Nat.eqb andb].
        rewrite (add_ok (length xs) 1) by lia. destruct (Nat.leb_spec (length xs + 1) r'); [|lia]. rewrite add_ok by lia.
        cbn [okP]. split; [reflexivity|]. split; [exact Hx|]. right. cbn. repeat split; eauto; lia.
      + rewrite Nat.eqb_refl. rewrite sub_ok by lia. destruct (Nat.leb_spec (length xs) (R - w)); [|lia]. rewrite add_ok by lia.
        cbn [okP]. split; [reflexivity|]. split; [exact Hx|]. left. repeat split; auto. right. cbn. repeat split; eauto; lia.
  Qed.

  Lemma okP_code o acc w uk : role T Prod o = true -> modest T MAX promoted R o = true -> uk_ok w uk ->
    okP o acc acc w uk false [] false (code T MAX promoted R o).
  Proof.
    intros Ha Hm Hu. destruct o as [q dd| | | | | |]; try discriminate; cbn [code].
    - unfold get_write_reserve. cbn [okP]. change (Wr =? Wr) with true. change (Rd =? Wr) with false. change (Rd =? Rd) with true. cbn iota. split; [reflexivity|].
      intros uk' Hs. pose proof (uk_step_ok _ _ _ Hu Hs) as Hu'.
      set (sp := match q with Reserve m => write_span MAX promoted R w (snd uk') m MAX | Optimal m => write_span MAX promoted R w (snd uk') MAX m end).
      destruct sp as [i n] eqn:Es.
      assert (Hsp : (i = w /\ w + n <= R /\ (fst uk' = true -> w + n < snd uk')) \/ (i = 0 /\ fst uk' = false /\ n < snd uk')).
      { subst sp. cbn [modest] in Hm. apply orb_true_iff in Hm. destruct q.
        - eapply write_span_ok; [exact Hu'| |exact Es]. destruct Hm as [Hm|Hm]; [left; exact Hm|right; apply Nat.leb_le in Hm; exact Hm].
        - eapply write_span_ok; [exact Hu'| |exact Es]. destruct Hm as [Hm|Hm]; [left; exact Hm|discriminate]. }
      set (xs := firstn n (dd i n)). assert (Hl : length xs <= n) by (unfold xs; rewrite firstn_length; lia).
      assert (Hin : i + n <= R). { destruct Hu' as (U1 & U2 & U3). destruct Hsp as [(-> & H & _)|(-> & _ & H)]; lia. }
      clearbody xs. clear Es. clearbody sp.
      assert (exists pn, i = pbase w pn /\ if pn then fst uk' = false /\ n < snd uk' else w + n <= R /\ (fst uk' = true -> w + n < snd uk')) as (pn & Hi & Hn).
      { destruct Hsp as [(-> & H)|(-> & H)]; [exists false; auto|exists true; auto]. }
      replace i with (pbase w pn + length (@nil T)) at 1 by (cbn; lia).
      apply (okP_fill _ _ _ _ _ _ _ (length xs)); auto.
      + destruct pn; [intuition lia|]. destruct Hn as (Hn1 & Hn2). split; [lia|]. intros E. specialize (Hn2 E). lia.
      + intros ->. cbn. rewrite app_nil_r. repeat split; auto.
      + intros Hx. cbn [app]. apply okP_apply; auto.
    - cbn. split; [reflexivity|]. intros uk' Hs. destruct (snd uk' <=? w); cbn; [auto|]. split; auto.
    - cbn. split; [reflexivity|]. intros uk' Hs. destruct (snd uk' <=? w); cbn; [|auto]. match goal with |- context[if ?b then _ else _] => destruct b end; cbn; auto.
    - cbn. split; [reflexivity|]. intros uk' Hs. destruct (snd uk' <=? w); cbn; [auto|]. split; auto.
    - cbn. split; [reflexivity|]. intros uk' Hs. destruct (snd uk' <=? w); cbn; [|auto]. match goal with |- context[if ?b then _ else _] => destruct b end; cbn; auto.
  Qed.

  (** the reader *)
  Lemma k_step_ok r a b : k_step r a b -> k_ok r b.
  Proof. intros [H _]. exact H. Qed.

  (** the span given by get_read_reserve *)
  Definition rspan (r : nat) (k : kn_t) (psize : nat) : bool * nat :=
    match k with
    | KSame w => (false, Nat.min (w - r) psize)
    | KNext e w => if Nat.eqb r e then (true, Nat.min w psize) else (false, Nat.min (e - r) psize)
    end.
  Definition ri (r : nat) (dn : bool) := if dn then 0 else r.
  Lemma okC_reserve o nc0 nc r k kn dn d psize (c : nat -> nat -> prog T (res T)) : k_ok r k ->
    (forall k' ext, k_step r k k' -> length (kn ++ ext) = nc + avail r k' ->
       okC o nc0 nc r k' (kn ++ ext) dn d (c (ri r (fst (rspan r k' psize))) (snd (rspan r k' psize)))) ->
    okC o nc0 nc r k kn dn d (get_read_reserve T MAX psize c).
  Proof.
    intros Hk H. unfold get_read_reserve. cbn [okC]. change (Rd =? Rd) with true. change (Wr =? Rd) with false. change (Wr =? Wr) with true. cbn iota.
    split; [reflexivity|]. intros k' ext Hs Hl. specialize (H k' ext Hs Hl). apply k_step_ok in Hs.
    destruct k' as [w|e w]; cbn [kw k_ok rspan] in *.
    - destruct (Nat.ltb_spec w r); [lia|]. rewrite sub_ok by lia. cbn [fst snd ri] in H.
      replace (if w - r <? psize then w - r else psize) with (Nat.min (w - r) psize); [exact H|]. destruct (Nat.ltb_spec (w - r) psize); lia.
    - destruct (Nat.ltb_spec w r); [|lia]. cbn [okC]. change (La =? Rd) with false. change (La =? Wr) with false. cbn iota. split; [reflexivity|].
      exists e, w. split; [reflexivity|]. destruct (Nat.eqb_spec r e); cbn [fst snd ri] in H.
      + rewrite sub_ok by lia. rewrite Nat.sub_0_r. replace (if w <? psize then w else psize) with (Nat.min w psize); [exact H|]. destruct (Nat.ltb_spec w psize); lia.
      + rewrite sub_ok by lia. replace (if e - r <? psize then e - r else psize) with (Nat.min (e - r) psize); [exact H|]. destruct (Nat.ltb_spec (e - r) psize); lia.
  Qed.
  Lemma rspan_place r k psize g : k_ok r k -> g < snd (rspan r k psize) -> place r k (fst (rspan r k psize)) g (ri r (fst (rspan r k psize)) + g).
  Proof.
    destruct k as [w|e w]; cbn [rspan k_ok]; [|destruct (Nat.eqb_spec r e)]; cbn [fst snd place ri]; intros; repeat split; lia.
  Qed.
  Lemma rspan_R r k psize : k_ok r k -> ri r (fst (rspan r k psize)) + snd (rspan r k psize) <= R.
  Proof.
    destruct k as [w|e w]; cbn [rspan k_ok]; [|destruct (Nat.eqb_spec r e)]; cbn [fst snd ri]; intros; lia.
  Qed.
  Lemma rspan_step r k k' psize n : k_ok r k -> k_step r k k' -> 0 < n -> n <= snd (rspan r k psize) -> rspan r k' n = (fst (rspan r k psize), n).
  Proof.
    intros Hk (Hk' & Hs) Hn. destruct k as [w|e w], k' as [w'|e' w']; cbn [rspan k_ok] in *; try contradiction.
    - cbn [fst snd]. intros. f_equal. lia.
    - cbn [fst snd]. intros. destruct (Nat.eqb_spec r e'); [lia|]. f_equal. lia.
    - destruct Hs as (-> & Hs). destruct (Nat.eqb_spec r e); cbn [fst snd]; intros; f_equal; lia.
  Qed.
  Lemma rspan_zero r k psize : k_ok r k -> snd (rspan r k psize) = 0 -> psize = 0 \/ avail r k = 0.
  Proof. destruct k as [w|e w]; cbn [rspan k_ok avail]; [|destruct (Nat.eqb_spec r e)]; cbn [fst snd]; intros; lia. Qed.
  Lemma rspan_avail r k psize : k_ok r k -> snd (rspan r k psize) <= avail r k.
  Proof. destruct k as [w|e w]; cbn [rspan k_ok avail]; [|destruct (Nat.eqb_spec r e)]; cbn [fst snd]; intros; lia. Qed.

  Lemma okC_take o nc0 nc r k kn dn i0 n (c : list T -> prog T (res T)) :
    (forall g, g < n -> place r k dn g (i0 + g)) -> nc + n <= length kn ->
    forall rest g dn0, g + rest = n -> (g = 0 \/ dn0 = dn) ->
    (rest = 0 -> okC o nc0 nc r k kn dn0 g (c (firstn g (skipn nc kn)))) ->
    (rest <> 0 -> okC o nc0 nc r k kn dn n (c (firstn n (skipn nc kn)))) ->
    okC o nc0 nc r k kn dn0 g (take T (i0 + g) rest (firstn g (skipn nc kn)) c).
  Proof.
    intros Hp Hn rest. induction rest as [|rest IH]; intros g dn0 Hg Hd H0 H1; cbn [take].
    - apply H0. reflexivity.
    - cbn [okC]. exists dn, g. split; [destruct Hd; auto|]. split; [lia|]. split; [apply Hp; lia|]. intros x Hx. exists dn. split; [destruct Hd; auto|]. split; [apply Hp; lia|].
      replace (S (i0 + g)) with (i0 + S g) by lia.
      assert (E : firstn g (skipn nc kn) ++ [x] = firstn (S g) (skipn nc kn)).
      { apply firstn_next. rewrite nth_skip. exact Hx. }
      rewrite E. apply IH; [lia|auto| |].
      + intros ->. replace (S g) with n by lia. apply H1. lia.
      + intros _. apply H1. lia.
  Qed.
  Lemma okC_look o nc0 nc r k kn dn i0 n (c : list T -> prog T (res T)) :
    (forall g, g < n -> place r k dn g (i0 + g)) -> nc + n <= length kn ->
    okC o nc0 nc r k kn false 0 (c (firstn n (skipn nc kn))) ->
    forall rest g, g + rest = n ->
    okC o nc0 nc r k kn false 0 (look T (i0 + g) rest (firstn g (skipn nc kn)) c).
  Proof.
    intros Hp Hn H1 rest. induction rest as [|rest IH]; intros g Hg; cbn [look].
    - replace g with n by lia. exact H1.
    - cbn [okC]. exists dn, g. split; [tauto|]. split; [lia|]. split; [apply Hp; lia|]. intros x Hx.
      replace (S (i0 + g)) with (i0 + S g) by lia.
      assert (E : firstn g (skipn nc kn) ++ [x] = firstn (S g) (skipn nc kn)).
      { apply firstn_next. rewrite nth_skip. exact Hx. }
      rewrite E. apply IH. lia.
  Qed.

  Lemma okC_code o nc r k kn : role T Cons o = true -> k_ok r k -> length kn = nc + avail r k ->
    okC o nc nc r k kn false 0 (code T MAX promoted R o).
  Proof.
    intros Ha Hk Hl. destruct o as [|m cf|m| | | |]; try discriminate; cbn [code].
    - apply okC_reserve; [exact Hk|]. intros k' ext Hs Hl'. pose proof (k_step_ok _ _ _ Hs) as Hk'.
      pose proof (rspan_R _ _ m Hk') as HR. pose proof (rspan_avail _ _ m Hk') as Hav.
      set (i := ri r (fst (rspan r k' m))) in *. set (n := snd (rspan r k' m)) in *.
      assert (Hz : n = 0 -> m = 0 \/ length (kn ++ ext) = nc) by (intros E; destruct (rspan_zero _ _ m Hk' E); [left|right]; lia).
      remember (Nat.min (cf i n) n) as n' eqn:En'. assert (Hn' : n' <= n) by lia.
      replace i with (i + 0) at 1 by lia. change (@nil T) with (firstn 0 (skipn nc (kn ++ ext))).
      apply (okC_take _ _ _ _ _ _ (fst (rspan r k' m)) _ n').
      + intros g Hg. apply rspan_place; [exact Hk'|]. unfold n in Hn'. lia.
      + lia.
      + lia.
      + auto.
      + intros ->. cbn. repeat split; auto; try lia.
      + intros Hne.
        assert (Hlen : length (firstn n' (skipn nc (kn ++ ext))) = n') by (rewrite firstn_length, skipn_length; lia).
        rewrite Hlen. unfold apply_read_reserve. destruct (Nat.ltb_spec 0 n'); [|lia].
        apply okC_reserve; [exact Hk'|]. intros k2 ext2 Hs2 Hl2.
        rewrite (rspan_step r k' k2 m n' Hk' Hs2) by (auto; lia). cbn [fst snd]. fold i. rewrite !Nat.eqb_refl. cbn [andb].
        rewrite add_ok by lia. cbn [okC]. split; [reflexivity|]. split; [reflexivity|]. split; [lia|]. split; [unfold i, ri; destruct (fst (rspan r k' m)); lia|].
        split; [reflexivity|]. cbn [retC]. rewrite Hlen. repeat split; try lia.
        rewrite (skipn_app nc (kn ++ ext) ext2), firstn_app. replace (n' - length (skipn nc (kn ++ ext))) with 0 by (rewrite skipn_length; lia). cbn [firstn]. now rewrite app_nil_r.
    - apply okC_reserve; [exact Hk|]. intros k' ext Hs Hl'. pose proof (k_step_ok _ _ _ Hs) as Hk'.
      pose proof (rspan_R _ _ m Hk') as HR. pose proof (rspan_avail _ _ m Hk') as Hav.
      set (i := ri r (fst (rspan r k' m))) in *. set (n := snd (rspan r k' m)) in *.
      replace i with (i + 0) at 1 by lia. change (@nil T) with (firstn 0 (skipn nc (kn ++ ext))).
      apply (okC_look _ _ _ _ _ _ (fst (rspan r k' m)) _ n).
      + intros g Hg. apply rspan_place; [exact Hk'|]. exact Hg.
      + lia.
      + assert (Hlen : length (firstn n (skipn nc (kn ++ ext))) = n) by (rewrite firstn_length, skipn_length; lia).
        cbn. rewrite Hlen. auto.
      + lia.
    - cbn. split; [reflexivity|]. intros k' ext Hs Hl'. apply k_step_ok in Hs. destruct k' as [w|e w]; cbn in *.
      + destruct (Nat.leb_spec r w); [|lia]. cbn. auto.
      + destruct (Nat.leb_spec r w); [lia|]. cbn. split; [reflexivity|]. exists e, w. auto.
    - cbn. split; [reflexivity|]. intros k' ext Hs Hl'. destruct (r <=? kw k'); cbn; [|auto].
      match goal with |- context[if ?b then _ else _] => destruct b end; cbn; auto.
    - cbn. split; [reflexivity|]. intros k' ext Hs Hl'. apply k_step_ok in Hs. destruct k' as [w|e w]; cbn in *.
      + destruct (Nat.leb_spec r w); [|lia]. cbn. auto.
      + destruct (Nat.leb_spec r w); [lia|]. cbn. split; [reflexivity|]. exists e, w. auto.
    - cbn. split; [reflexivity|]. intros k' ext Hs Hl'. destruct (r <=? kw k'); cbn; [|auto].
      match goal with |- context[if ?b then _ else _] => destruct b end; cbn; auto.
  Qed.
End Inv.
