(** random_xorshift: the step is linear over the field of two elements; its powers are polynomials modulo the characteristic polynomial *)
From Coq Require Import NArith ZArith Lia List Znumtheory Bool.
From Verif Require Import RndModel RndProofs RndFermat RndPrime.
Import ListNotations.
Local Open Scope N_scope.

Definition step (x : xorshift) : xorshift := fst (xorshift_next x).
Definition vxor (x y : xorshift) : xorshift := mkX (N.lxor (s0 x) (s0 y)) (N.lxor (s1 x) (s1 y)) (N.lxor (s2 x) (s2 y)) (N.lxor (s3 x) (s3 y)).
Definition vzero : xorshift := mkX 0 0 0 0.
Definition word (n : N) : Prop := n < 2 ^ 32.
Definition ok (x : xorshift) : Prop := word (s0 x) /\ word (s1 x) /\ word (s2 x) /\ word (s3 x).

Ltac bits := apply N.bits_inj; intros ?n; rewrite ?N.lxor_spec, ?N.bits_0; repeat match goal with |- context [N.testbit ?a ?b] => destruct (N.testbit a b) end; reflexivity.
Lemma xor_ac a b c d : N.lxor (N.lxor a b) (N.lxor c d) = N.lxor (N.lxor a c) (N.lxor b d). Proof. bits. Qed.
Lemma u32_lxor a b : u32 (N.lxor a b) = N.lxor (u32 a) (u32 b).
Proof.
  unfold u32. change 4294967296 with (2 ^ 32). apply N.bits_inj. intros n. rewrite N.lxor_spec. destruct (N.lt_ge_cases n 32).
  - rewrite !N.mod_pow2_bits_low, N.lxor_spec by auto. reflexivity.
  - rewrite !N.mod_pow2_bits_high by auto. reflexivity.
Qed.
Lemma lxor_word a b : word a -> word b -> word (N.lxor a b).
Proof.
  unfold word. intros Ha Hb. assert (E : N.lxor a b = u32 (N.lxor a b)) by (rewrite u32_lxor, !u32_id by assumption; reflexivity). rewrite E. apply u32_lt.
Qed.
Lemma shiftr_word a n : word a -> word (N.shiftr a n).
Proof. unfold word. intros H. rewrite N.shiftr_div_pow2. apply N.le_lt_trans with a; [|exact H]. apply N.div_le_upper_bound; [apply N.pow_nonzero; discriminate|]. assert (1 <= 2 ^ n) by (apply N.lt_pred_le, N.neq_0_lt_0, N.pow_nonzero; discriminate). nia. Qed.
Lemma vxor_ok x y : ok x -> ok y -> ok (vxor x y).
Proof. intros (A & B & C & D) (A' & B' & C' & D'). repeat split; apply lxor_word; assumption. Qed.
Lemma vzero_ok : ok vzero. Proof. repeat split. Qed.
Lemma step_ok x : ok x -> ok (step x).
Proof.
  intros (A & B & C & D). unfold step, xorshift_next. cbn [fst]. repeat split; cbn [s0 s1 s2 s3]; auto.
  repeat apply lxor_word; try apply shiftr_word; try apply lxor_word; auto; apply u32_lt.
Qed.
Lemma step_lin x y : step (vxor x y) = vxor (step x) (step y).
Proof.
  unfold step, xorshift_next, vxor. cbn [fst s0 s1 s2 s3]. f_equal. rewrite ?N.shiftl_lxor, ?u32_lxor, ?N.shiftr_lxor.
  set (a := u32 (N.shiftl (s3 x) 11)). set (b := u32 (N.shiftl (s3 y) 11)). rewrite (xor_ac (s3 x) (s3 y) a b). rewrite ?N.shiftr_lxor. bits.
Qed.
Lemma vxor_ac a b c d : vxor (vxor a b) (vxor c d) = vxor (vxor a c) (vxor b d). Proof. unfold vxor. cbn. f_equal; apply xor_ac. Qed.
Lemma vxor_0_l x : vxor vzero x = x. Proof. destruct x as [a b c d]. unfold vxor, vzero. cbn [s0 s1 s2 s3]. now rewrite !N.lxor_0_l. Qed.
Lemma vxor_0_r x : vxor x vzero = x. Proof. destruct x as [a b c d]. unfold vxor, vzero. cbn [s0 s1 s2 s3]. now rewrite !N.lxor_0_r. Qed.
Lemma vxor_nn x : vxor x x = vzero. Proof. destruct x as [a b c d]. unfold vxor, vzero. cbn [s0 s1 s2 s3]. now rewrite !N.lxor_nilpotent. Qed.
Lemma vxor_assoc x y z : vxor (vxor x y) z = vxor x (vxor y z). Proof. unfold vxor. cbn [s0 s1 s2 s3]. now rewrite !N.lxor_assoc. Qed.
Lemma vxor_eq x y : vxor x y = vzero -> x = y. Proof. intros H. rewrite <- (vxor_0_r x), <- (vxor_nn y), <- vxor_assoc, H, vxor_0_l. reflexivity. Qed.
Lemma step_zero : step vzero = vzero. Proof. reflexivity. Qed.

Lemma iter_step_r n v : Nat.iter n step (step v) = Nat.iter (Datatypes.S n) step v.
Proof. induction n as [|n IH]; [reflexivity|]. change (Nat.iter (Datatypes.S n) step (step v)) with (step (Nat.iter n step (step v))). rewrite IH. reflexivity. Qed.
(** ** polynomials *)
Fixpoint ev (g : list bool) (v : xorshift) : xorshift := match g with [] => vzero | b :: g => vxor (if b then v else vzero) (ev g (step v)) end.
Lemma ev_ok g : forall v, ok v -> ok (ev g v).
Proof. induction g as [|b g IH]; intros v H; cbn [ev]; [apply vzero_ok|]. apply vxor_ok; [destruct b; [exact H|apply vzero_ok]|apply IH, step_ok, H]. Qed.
Lemma ev_lin g : forall x y, ev g (vxor x y) = vxor (ev g x) (ev g y).
Proof. induction g as [|b g IH]; intros x y; cbn [ev]; [reflexivity|]. rewrite step_lin, IH, vxor_ac. f_equal. destruct b; reflexivity. Qed.
Lemma ev_step g : forall v, ev g (step v) = step (ev g v).
Proof. induction g as [|b g IH]; intros v; cbn [ev]; [reflexivity|]. rewrite step_lin, <- IH. f_equal. destruct b; reflexivity. Qed.
Fixpoint padd (g h : list bool) : list bool := match g, h with a :: g, b :: h => xorb a b :: padd g h | _, _ => [] end.
Lemma padd_length g : forall h, List.length g = List.length h -> List.length (padd g h) = List.length g.
Proof. induction g as [|a g IH]; intros [|b h] L; cbn in *; try discriminate; auto. Qed.
Lemma ev_padd g : forall h v, List.length g = List.length h -> ev (padd g h) v = vxor (ev g v) (ev h v).
Proof.
  induction g as [|a g IH]; intros [|b h] v L; try discriminate; cbn [padd ev]; [reflexivity|]. rewrite IH by (injection L; auto). rewrite vxor_ac. f_equal.
  destruct a, b; cbn [xorb]; rewrite ?vxor_nn, ?vxor_0_l, ?vxor_0_r; reflexivity.
Qed.
Fixpoint shl (c : bool) (g : list bool) : list bool * bool := match g with [] => ([], c) | b :: g => let (r, o) := shl b g in (c :: r, o) end.
Lemma shl_spec g : forall c v r o, shl c g = (r, o) -> List.length r = List.length g /\
  vxor (ev r v) (if o then Nat.iter (List.length g) step v else vzero) = ev (c :: g) v.
Proof.
  induction g as [|b g IH]; intros c v r o E; cbn [shl] in E.
  - injection E as <- <-. split; [reflexivity|]. cbn [ev List.length Nat.iter]. rewrite vxor_0_l, vxor_0_r. reflexivity.
  - destruct (shl b g) as [r1 o1] eqn:E1. injection E as <- <-. destruct (IH b (step v) r1 o1 E1) as (L & H). split; [cbn; now rewrite L|].
    cbn [ev] in *. rewrite <- H, !vxor_assoc. do 2 f_equal. destruct o1; [|reflexivity]. cbn [List.length]. symmetry. apply iter_step_r.
Qed.
(** the characteristic polynomial without its leading term *)
Definition F : list bool :=
  [true; false; false; false; false; false; false; false; false; false; false; false; false; false; false; true; false; false; true; true; true; true;
   false; false; true; false; true; true; true; true; true; true; true; true; true; true; true; false; true; false; false; true; true; false; true;
   false; true; true; true; false; true; false; false; false; false; true; true; false; false; true; true; true; true; true; true; true; false; false;
   true; true; false; true; false; false; false; true; true; false; true; true; false; true; true; false; false; false; true; false; false; false; false;
   false; false; false; false; false; true; false; false; false; false; false; false; false; false; false; false; false; false; false; false; false;
   false; false; false; false; false; false; false; false; false; false; false; false; false; false; false; false].
Definition zero128 : list bool := repeat false 128.
Definition one128 : list bool := true :: repeat false 127.
Definition x128 : list bool := false :: true :: repeat false 126.
Definition xt (g : list bool) : list bool := let (r, o) := shl false g in if o then padd r F else r.
Fixpoint pmul (g h : list bool) : list bool := match g with [] => zero128 | b :: g => let m := xt (pmul g h) in if b then padd h m else m end.
Fixpoint ppow (g : list bool) (p : positive) : list bool :=
  match p with xH => g | xO p => let s := ppow g p in pmul s s | xI p => let s := ppow g p in pmul g (pmul s s) end.

Lemma ev_zeros n : forall v, ev (repeat false n) v = vzero.
Proof. induction n as [|n IH]; intros v; [reflexivity|]. cbn [repeat ev]. rewrite IH. reflexivity. Qed.
Lemma ev_one v : ev one128 v = v.
Proof. change (ev one128 v) with (vxor v (ev (repeat false 127) (step v))). rewrite ev_zeros. apply vxor_0_r. Qed.
Lemma ev_x v : ev x128 v = step v.
Proof. change (ev x128 v) with (vxor vzero (vxor (step v) (ev (repeat false 126) (step (step v))))). rewrite ev_zeros, vxor_0_r. apply vxor_0_l. Qed.

(** ** the characteristic polynomial annihilates the step: it does so on a basis *)
Lemma word_ind (P : N -> Prop) : P 0 -> (forall x y, P x -> P y -> P (N.lxor x y)) -> (forall i, (i < 32)%nat -> P (2 ^ N.of_nat i)) -> forall w, word w -> P w.
Proof.
  intros H0 HX HB.
  assert (K : forall k, (k <= 32)%nat -> forall w, w < 2 ^ N.of_nat k -> P w).
  { induction k as [|k IH]; intros Hk w Hw; [cbn in Hw; replace w with 0 by lia; exact H0|]. rewrite Nat2N.inj_succ, N.pow_succ_r' in Hw.
    destruct (N.lt_ge_cases w (2 ^ N.of_nat k)) as [L|L]; [apply IH; auto; lia|]. set (u := w - 2 ^ N.of_nat k).
    assert (Lu : u < 2 ^ N.of_nat k) by (unfold u; lia). replace w with (u + 2 ^ N.of_nat k) by (unfold u; lia).
    rewrite N.add_nocarry_lxor; [apply HX; [apply IH; auto; lia|apply HB; lia]|].
    apply N.bits_inj. intros n. rewrite N.land_spec, N.bits_0, N.pow2_bits_eqb. destruct (N.eqb_spec (N.of_nat k) n) as [<-|]; [|apply andb_false_r].
    rewrite <- (N.mod_small u (2 ^ N.of_nat k)) by exact Lu. rewrite N.mod_pow2_bits_high by reflexivity. reflexivity. }
  intros w Hw. apply (K 32%nat); auto.
Qed.
Definition residue (v : xorshift) : xorshift := vxor (Nat.iter 128 step v) (ev F v).
Lemma residue_def v : residue v = vxor (Nat.iter 128 step v) (ev F v). Proof. reflexivity. Qed.
Lemma iter_lin n x y : Nat.iter n step (vxor x y) = vxor (Nat.iter n step x) (Nat.iter n step y).
Proof. induction n as [|n IH]; [reflexivity|]. change (step (Nat.iter n step (vxor x y)) = vxor (step (Nat.iter n step x)) (step (Nat.iter n step y))). rewrite IH, step_lin. reflexivity. Qed.
Lemma residue_lin x y : residue (vxor x y) = vxor (residue x) (residue y).
Proof. unfold residue. rewrite iter_lin, ev_lin. apply vxor_ac. Qed.
Definition is_zero (x : xorshift) : bool := N.eqb (s0 x) 0 && N.eqb (s1 x) 0 && N.eqb (s2 x) 0 && N.eqb (s3 x) 0.
Lemma is_zero_eq x : is_zero x = true -> x = vzero.
Proof. destruct x as [a b c d]. unfold is_zero, vzero. cbn. rewrite !andb_true_iff, !N.eqb_eq. intros (((-> & ->) & ->) & ->). reflexivity. Qed.
Definition basis_at (R : xorshift -> xorshift) (i : nat) : bool := is_zero (R (mkX (2 ^ N.of_nat i) 0 0 0)) && is_zero (R (mkX 0 (2 ^ N.of_nat i) 0 0)) && is_zero (R (mkX 0 0 (2 ^ N.of_nat i) 0)) && is_zero (R (mkX 0 0 0 (2 ^ N.of_nat i))).
Lemma basis_checked : forallb (basis_at residue) (seq 0 32) = true. Proof. vm_compute. reflexivity. Qed.
Lemma on_basis (R : xorshift -> xorshift) (Z0 : R vzero = vzero) (lin : forall x y, R (vxor x y) = vxor (R x) (R y))
  (Hb : forall i, (i < 32)%nat -> R (mkX (2 ^ N.of_nat i) 0 0 0) = vzero /\ R (mkX 0 (2 ^ N.of_nat i) 0 0) = vzero /\ R (mkX 0 0 (2 ^ N.of_nat i) 0) = vzero /\ R (mkX 0 0 0 (2 ^ N.of_nat i)) = vzero) :
  forall v, ok v -> R v = vzero.
Proof.
  intros [a b c d] (A & B & C & D). cbn [s0 s1 s2 s3] in *.
  assert (Add : forall a b, R a = vzero -> R b = vzero -> R (vxor a b) = vzero) by (intros x y Ea Eb; rewrite lin, Ea, Eb; reflexivity).
  assert (E0 : R (mkX a 0 0 0) = vzero).
  { apply (word_ind (fun w => R (mkX w 0 0 0) = vzero)); [exact Z0|intros x y Hx Hy; exact (Add _ _ Hx Hy)|intros i Hi; apply (Hb i Hi)|assumption]. }
  assert (E1 : R (mkX 0 b 0 0) = vzero).
  { apply (word_ind (fun w => R (mkX 0 w 0 0) = vzero)); [exact Z0|intros x y Hx Hy; exact (Add _ _ Hx Hy)|intros i Hi; apply (Hb i Hi)|assumption]. }
  assert (E2 : R (mkX 0 0 c 0) = vzero).
  { apply (word_ind (fun w => R (mkX 0 0 w 0) = vzero)); [exact Z0|intros x y Hx Hy; exact (Add _ _ Hx Hy)|intros i Hi; apply (Hb i Hi)|assumption]. }
  assert (E3 : R (mkX 0 0 0 d) = vzero).
  { apply (word_ind (fun w => R (mkX 0 0 0 w) = vzero)); [exact Z0|intros x y Hx Hy; exact (Add _ _ Hx Hy)|intros i Hi; apply (Hb i Hi)|assumption]. }
  pose proof (Add _ _ (Add _ _ E0 E1) (Add _ _ E2 E3)) as X. unfold vxor in X. cbn [s0 s1 s2 s3] in X. rewrite !N.lxor_0_l, !N.lxor_0_r in X. exact X.
Qed.
Lemma residue_zero : residue vzero = vzero. Proof. vm_compute. reflexivity. Qed.
Lemma basis_all (R : xorshift -> xorshift) : forallb (basis_at R) (seq 0 32) = true ->
  forall i, (i < 32)%nat -> R (mkX (2 ^ N.of_nat i) 0 0 0) = vzero /\ R (mkX 0 (2 ^ N.of_nat i) 0 0) = vzero /\ R (mkX 0 0 (2 ^ N.of_nat i) 0) = vzero /\ R (mkX 0 0 0 (2 ^ N.of_nat i)) = vzero.
Proof.
  intros B i Hi. rewrite forallb_forall in B. specialize (B i ltac:(apply in_seq; lia)). unfold basis_at in B. rewrite !andb_true_iff in B. destruct B as (((H1 & H2) & H3) & H4).
  repeat split; apply is_zero_eq; assumption.
Qed.
Lemma residue_all : forall v, ok v -> residue v = vzero.
Proof. exact (on_basis residue residue_zero residue_lin (basis_all residue basis_checked)). Qed.
Lemma annihilated v : ok v -> Nat.iter 128 step v = ev F v.
Proof. intros Hv. exact (vxor_eq (Nat.iter 128 step v) (ev F v) (residue_all v Hv)). Qed.

(** ** multiplication modulo the characteristic polynomial is composition *)
Definition len128 (g : list bool) : Prop := List.length g = 128%nat.
Lemma F_len : len128 F. Proof. reflexivity. Qed.
Lemma xt_len g : len128 g -> len128 (xt g).
Proof. intros L. unfold xt. destruct (shl false g) as [r o] eqn:E. destruct (shl_spec g false vzero r o E) as (Lr & _). unfold len128 in *. destruct o; [rewrite padd_length; rewrite Lr, L; reflexivity|congruence]. Qed.
Lemma xt_ev g v : len128 g -> ok v -> ev (xt g) v = step (ev g v).
Proof.
  intros L Hv. unfold xt. destruct (shl false g) as [r o] eqn:E. destruct (shl_spec g false v r o E) as (Lr & H). rewrite L in H. cbn [ev] in H. rewrite vxor_0_l, ev_step in H. rewrite <- H. destruct o.
  - rewrite ev_padd by (rewrite Lr, L; reflexivity). rewrite (annihilated v Hv). reflexivity.
  - now rewrite vxor_0_r.
Qed.
Lemma pmul_len g h : len128 h -> len128 (pmul g h).
Proof. intros L. induction g as [|b g IH]; [reflexivity|]. cbn [pmul]. pose proof (xt_len _ IH). destruct b; [unfold len128 in *; rewrite padd_length; rewrite ?L; congruence|assumption]. Qed.
Lemma pmul_ev g h v : len128 h -> ok v -> ev (pmul g h) v = ev g (ev h v).
Proof.
  intros L Hv. induction g as [|b g IH]; [cbn [pmul ev]; apply ev_zeros|]. cbn [pmul ev]. pose proof (pmul_len g h L) as Lm.
  assert (X : ev (xt (pmul g h)) v = ev g (step (ev h v))) by (rewrite xt_ev, IH by assumption; symmetry; apply ev_step).
  destruct b; [|rewrite vxor_0_l; exact X]. rewrite ev_padd, X; [reflexivity|]. pose proof (xt_len _ Lm). unfold len128 in *. congruence.
Qed.
Lemma ppow_len g p : len128 g -> len128 (ppow g p).
Proof. intros L. induction p as [p IH|p IH|]; cbn [ppow]; auto; repeat apply pmul_len; auto. Qed.
Lemma ppow_ev g p : len128 g -> forall v, ok v -> ev (ppow g p) v = N.iter (Npos p) (ev g) v.
Proof.
  intros L. induction p as [p IH|p IH|]; intros v Hv; cbn [ppow].
  - pose proof (ppow_len g p L) as Lp. rewrite !pmul_ev by (repeat apply pmul_len; auto). 
    assert (O : ok (ev (ppow g p) v)) by (apply ev_ok; exact Hv). rewrite IH by exact O. rewrite IH by exact Hv. replace (N.pos p~1) with (N.succ (N.pos p + N.pos p)) by lia. rewrite N.iter_succ, iter_add. reflexivity.
  - pose proof (ppow_len g p L) as Lp. rewrite pmul_ev by auto. assert (O : ok (ev (ppow g p) v)) by (apply ev_ok; exact Hv). rewrite IH by exact O. rewrite IH by exact Hv. replace (N.pos p~0) with (N.pos p + N.pos p) by lia. rewrite iter_add. reflexivity.
  - reflexivity.
Qed.
Lemma iter_ext n v : N.iter n (ev x128) v = N.iter n step v.
Proof. induction n as [|n IH] using N.peano_ind; [reflexivity|]. rewrite !N.iter_succ, IH. apply ev_x. Qed.
Lemma x_pow p v : ok v -> ev (ppow x128 p) v = N.iter (Npos p) step v.
Proof. intros Hv. rewrite ppow_ev by (auto; reflexivity). apply iter_ext. Qed.

(** ** the period *)
Definition full : N := 2 ^ 128 - 1.
Definition full_pos : positive := 340282366920938463463374607431768211455.
Definition factors : list N := [3; 5; 17; 257; 641; 65537; 274177; 6700417; 67280421310721].
Lemma factors_product : product factors = full. Proof. vm_compute. reflexivity. Qed.
Lemma factors_prime : Forall (fun p => prime (Z.of_N p)) factors.
Proof.
  unfold factors. repeat apply Forall_cons; try apply Forall_nil.
  1-8: match goal with |- prime (Z.of_N ?p) => apply (prime_small (N.to_nat (N.sqrt p))); [reflexivity|vm_compute; reflexivity|vm_compute; reflexivity] end.
  apply (prime_by_trial (N.to_nat 64100) 128 129); [reflexivity|reflexivity| |vm_compute; reflexivity|vm_compute; reflexivity].
  intros q Hq Dq Nq. destruct (factor_of_f6 q Hq) as (k & ->); [apply Z.divide_trans with (Z.of_N 67280421310721); [exact Dq|exists 274177%Z; reflexivity]|].
  exists (k - 1). pose proof (prime_ge_2 _ Hq). lia.
Qed.
Definition same (g h : list bool) : bool := if list_eq_dec bool_dec g h then true else false.
Lemma same_eq g h : same g h = true -> g = h.
Proof. unfold same. destruct (list_eq_dec _ _ _); [auto|discriminate]. Qed.
(** the powers x, x^2, x^4, ... are computed once *)
Fixpoint squares (g : list bool) (n : nat) : list (list bool) := match n with O => [] | Datatypes.S n => g :: squares (pmul g g) n end.
Fixpoint from_squares (t : list (list bool)) (p : positive) : list bool :=
  match t, p with [], _ => zero128 | g :: _, xH => g | _ :: t, xO p => from_squares t p | g :: t, xI p => pmul g (from_squares t p) end.
Lemma iter_twice (f : xorshift -> xorshift) n v : N.iter n (fun w => f (f w)) v = N.iter (n + n) f v.
Proof. induction n as [|n IH] using N.peano_ind; [reflexivity|]. rewrite N.iter_succ, IH. replace (N.succ n + N.succ n) with (N.succ (N.succ (n + n))) by lia. rewrite !N.iter_succ. reflexivity. Qed.
Lemma iter_ok g n v : ok v -> ok (N.iter n (ev g) v).
Proof. intros H. apply N.iter_invariant; [intros w; apply ev_ok|exact H]. Qed.
Lemma iter_square g v : len128 g -> ok v -> forall n, N.iter n (ev (pmul g g)) v = N.iter (n + n) (ev g) v.
Proof.
  intros L Hv n. rewrite <- iter_twice. induction n as [|n IH] using N.peano_ind; [reflexivity|]. rewrite !N.iter_succ, <- IH. apply pmul_ev; [exact L|]. apply iter_ok, Hv.
Qed.
Lemma from_squares_len g n : len128 g -> forall p, len128 (from_squares (squares g n) p).
Proof.
  revert g. induction n as [|n IH]; intros g L p; [destruct p; reflexivity|]. cbn [squares from_squares]. destruct p; [apply pmul_len, IH, pmul_len, L|apply IH, pmul_len, L|exact L].
Qed.
Lemma from_squares_ev n : forall g p v, len128 g -> ok v -> (N.size_nat (Npos p) <= n)%nat -> ev (from_squares (squares g n) p) v = N.iter (Npos p) (ev g) v.
Proof.
  induction n as [|n IH]; intros g p v L Hv Hn; [destruct p; cbn in Hn; lia|]. cbn [squares from_squares]. destruct p as [p|p|]; cbn [N.size_nat Pos.size_nat] in Hn; [| |reflexivity].
  - rewrite pmul_ev by (auto; apply from_squares_len, pmul_len, L). rewrite IH by (first [assumption|apply pmul_len, L|cbn [N.size_nat]; lia]). rewrite iter_square by auto.
    replace (N.pos p~1) with (N.succ (N.pos p + N.pos p)) by lia. rewrite N.iter_succ. reflexivity.
  - rewrite IH by (first [assumption|apply pmul_len, L|cbn [N.size_nat]; lia]). rewrite iter_square by auto. replace (N.pos p~0) with (N.pos p + N.pos p) by lia. reflexivity.
Qed.
Fixpoint poly_of (n : nat) (c : N) : list bool := match n with O => [] | Datatypes.S n => N.odd c :: poly_of n (N.div2 c) end.
(** the inverses of x^(full/p) + 1 *)
Definition inverses : list N :=
  [133953335144028078570501892093482299452;
   151794906280615946920587260728475445023;
   288676104794235856817578729415729568722;
   140239344036719843198371133677329421916;
   272365965476946169307397722556321934694;
   19606021719553718632817052679888491436;
   123238532970663673086441209674178830033;
   97083650747657427314725846816444512388;
   71481420630604488033091811775364421675].
Definition not_before (P : positive -> list bool) (p c : N) : bool :=
  match full / p with Npos k => Nat.leb (N.size_nat (Npos k)) 128 && same (pmul (poly_of 128 c) (padd (P k) one128)) one128 | N0 => false end.
Definition table (t : list (list bool)) : bool := same (from_squares t full_pos) one128 && forallb (fun pc => not_before (from_squares t) (fst pc) (snd pc)) (combine factors inverses).
Lemma tabulated_ok : table (squares x128 128) = true. Proof. vm_compute. reflexivity. Qed.
Lemma table_use t : table t = true -> from_squares t full_pos = one128 /\ forall p c, In (p, c) (combine factors inverses) ->
  exists m, full / p = Npos m /\ (N.size_nat (Npos m) <= 128)%nat /\ exists c, pmul c (padd (from_squares t m) one128) = one128.
Proof.
  unfold table. rewrite andb_true_iff, forallb_forall. intros (A & B). split; [apply same_eq, A|]. intros p c I. specialize (B _ I). cbn [fst snd] in B. unfold not_before in B.
  destruct (full / p) as [|m]; [discriminate|]. apply andb_true_iff in B. destruct B as (B1 & B2). exists m. split; [reflexivity|]. split; [apply Nat.leb_le, B1|]. exists (poly_of 128 c). apply same_eq, B2.
Qed.
Lemma with_inverse p : In p factors -> exists c, In (p, c) (combine factors inverses).
Proof. unfold factors, inverses. cbn [combine In]. intros H. repeat (destruct H as [H|H]; [subst p; eexists; eauto 12|]). destruct H. Qed.
Lemma ev_zero g : ev g vzero = vzero.
Proof. assert (E : vxor (ev g vzero) (ev g vzero) = ev g vzero) by (rewrite <- ev_lin; reflexivity). rewrite vxor_nn in E. congruence. Qed.
Lemma pow_x t v p : t = squares x128 128 -> ok v -> (N.size_nat (Npos p) <= 128)%nat -> ev (from_squares t p) v = N.iter (Npos p) step v.
Proof. intros -> Hv Hp. rewrite from_squares_ev by (auto; reflexivity). apply iter_ext. Qed.
Lemma pow_x_len t p : t = squares x128 128 -> len128 (from_squares t p).
Proof. intros ->. apply from_squares_len. reflexivity. Qed.
Lemma xorshift_period_of t v : t = squares x128 128 -> table t = true -> ok v -> v <> vzero -> forall i j, N.iter i step v = N.iter j step v <-> i mod full = j mod full.
Proof.
  intros Et T Hv Hz. destruct (table_use t T) as (One & Inv). apply period_exact; [discriminate| |].
  - change full with (Npos full_pos). rewrite <- (pow_x t) by (auto; vm_compute; repeat constructor). rewrite One. apply ev_one.
  - intros d D E. destruct (N.eq_dec d full) as [|Hne]; [auto|exfalso]. rewrite <- factors_product in D, Hne.
    destruct (proper_divisor factors d factors_prime D Hne) as (p & I & (k & K)). rewrite factors_product in K.
    destruct (with_inverse p I) as (c0 & Ic). destruct (Inv p c0 Ic) as (m & Em & Lm & c & Q). pose proof (iter_mult step d v E k) as X. rewrite <- K, Em in X. clear K D Hne I Em Ic Inv.
    pose proof (pow_x_len t m Et) as Lt.
    assert (G : ev (padd (from_squares t m) one128) v = vzero).
    { rewrite ev_padd by (rewrite Lt; reflexivity). rewrite (pow_x t), X, ev_one by auto. apply vxor_nn. }
    assert (Lg : len128 (padd (from_squares t m) one128)) by (unfold len128; rewrite padd_length; [exact Lt|rewrite Lt; reflexivity]).
    pose proof (pmul_ev c _ v Lg Hv) as Y. rewrite Q, G, ev_one, ev_zero in Y. contradiction.
Qed.
Lemma xorshift_period v : ok v -> v <> vzero -> forall i j, N.iter i step v = N.iter j step v <-> i mod full = j mod full.
Proof. exact (xorshift_period_of (squares x128 128) v eq_refl tabulated_ok). Qed.
