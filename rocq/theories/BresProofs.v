From Coq Require Import ZArith List Lia.
From Verif Require Import BresModel BresSpec.
Import ListNotations.
Local Open Scope Z_scope.

Lemma i16_id n : -32768 <= n < 32768 -> i16 n = n.
Proof. intros H. unfold i16. rewrite Z.mod_small; lia. Qed.
Lemma i16_add a c : i16 (i16 a + c) = i16 (a + c).
Proof. unfold i16. replace ((a + 32768) mod 65536 - 32768 + c + 32768) with ((a + 32768) mod 65536 + c) by lia. rewrite Zplus_mod_idemp_l. f_equal. f_equal. lia. Qed.
Lemma i16_eq a b : i16 a = i16 b -> exists z, a = b + z * 65536.
Proof.
  unfold i16. intros H. assert (E : (a + 32768) mod 65536 = (b + 32768) mod 65536) by lia.
  exists ((a + 32768) / 65536 - (b + 32768) / 65536). pose proof (Z.div_mod (a + 32768) 65536 ltac:(lia)). pose proof (Z.div_mod (b + 32768) 65536 ltac:(lia)). lia.
Qed.

(** ** the trajectory in unbounded integers *)
Definition ast (D m : Z) (s : Z * Z * bool) : Z * Z * bool :=
  let '(q, b, f) := s in let (q, b) := if f : bool then (q + 1, b - 2 * D) else (q, b) in (q, b + 2 * m, 0 <=? b + 2 * m).
Definition at_ (D m : Z) (f : bool) (k : nat) : Z * Z * bool := Nat.iter k (ast D m) (0, 2 * m - D, f).
Definition q_of (s : Z * Z * bool) := fst (fst s).
Definition b_of (s : Z * Z * bool) := snd (fst s).
Definition f_of (s : Z * Z * bool) := snd s.
Lemma at_S D m f k : at_ D m f (S k) = ast D m (at_ D m f k). Proof. reflexivity. Qed.

Definition good (D m : Z) (f : bool) : Prop := 0 <= m <= D /\ 0 < D /\ (f = false /\ m < D \/ f = (0 <=? 2 * m - D)).
Definition upper (D m : Z) (f : bool) : Z := if Bool.eqb f (0 <=? 2 * m - D) then 2 * m - 1 else 4 * m - D.
Lemma bounds D m f k : good D m f -> let s := at_ D m f k in
  b_of s = 2 * m * (Z.of_nat k + 1) - D - 2 * D * q_of s /\ 2 * m - 2 * D <= b_of s <= upper D m f /\ ((0 < k)%nat -> f_of s = (0 <=? b_of s)) /\ (k = 0%nat -> f_of s = f /\ q_of s = 0).
Proof.
  intros (Hm & HD & Hf). cbv zeta. induction k as [|k (E & B & F & Z0)].
  - change (at_ D m f 0) with (0, 2 * m - D, f). unfold b_of, q_of, f_of. cbn [fst snd]. unfold upper. split; [lia|]. split; [|split; [lia|auto]].
    destruct (Bool.eqb f (0 <=? 2 * m - D)) eqn:X; [lia|]. destruct Hf as [(-> & ?)|Hf]; [|rewrite Hf, Bool.eqb_reflx in X; discriminate]. destruct (Z.leb_spec 0 (2 * m - D)); [lia|discriminate].
  - rewrite at_S. destruct (at_ D m f k) as [[q b] g]. unfold b_of, q_of, f_of, ast in *. cbn [fst snd] in *. destruct g; cbn [fst snd].
    + split; [nia|]. split; [|split; [auto|lia]]. assert (0 <= b).
      { destruct k; [|specialize (F ltac:(lia)); symmetry in F; apply Z.leb_le in F; exact F]. destruct (Z0 eq_refl) as (Ef & ->). subst f. destruct Hf as [(? & _)|Hf]; [discriminate|]. symmetry in Hf. apply Z.leb_le in Hf. lia. }
      unfold upper in *. destruct (Bool.eqb f (0 <=? 2 * m - D)); lia.
    + split; [nia|]. split; [|split; [auto|lia]].
      destruct k.
      * destruct (Z0 eq_refl) as (Ef & Eq). subst f q. unfold upper in *. destruct (Z.leb_spec 0 (2 * m - D)); cbn [Bool.eqb] in *; lia.
      * specialize (F ltac:(lia)). symmetry in F. apply Z.leb_gt in F. unfold upper in *. destruct (Bool.eqb f (0 <=? 2 * m - D)) eqn:X; [lia|].
        destruct Hf as [(-> & ?)|Hf]; [|rewrite Hf, Bool.eqb_reflx in X; discriminate]. destruct (Z.leb_spec 0 (2 * m - D)); [lia|discriminate].
Qed.
Definition slack (D m : Z) (f : bool) : Z := if Bool.eqb f (0 <=? 2 * m - D) then D else 2 * m.
Lemma deviation D m f k : good D m f -> - slack D m f <= 2 * (D * q_of (at_ D m f k) - m * Z.of_nat k) <= D.
Proof.
  intros G. destruct (bounds D m f k G) as (E & B & _). destruct G as (Hm & HD & _). unfold upper, slack in *. destruct (Bool.eqb f (0 <=? 2 * m - D)); nia.
Qed.
Lemma q_end D m f : good D m f -> q_of (at_ D m f (Z.to_nat D)) = m /\ b_of (at_ D m f (Z.to_nat D)) = 2 * m - D.
Proof.
  intros G. destruct (bounds D m f (Z.to_nat D) G) as (E & B & _). destruct G as (Hm & HD & Hf). rewrite Z2Nat.id in E by lia.
  set (q := q_of _) in *. set (b := b_of _) in *. clearbody q b.
  assert (U : b < 2 * m + D).
  { unfold upper in B. destruct (Bool.eqb f (0 <=? 2 * m - D)) eqn:X; [lia|]. destruct Hf as [(-> & ?)|Hf]; [lia|rewrite Hf, Bool.eqb_reflx in X; discriminate]. }
  assert (q = m) by nia. subst q. split; [reflexivity|nia].
Qed.
Lemma q_step D m f k : q_of (at_ D m f (S k)) = q_of (at_ D m f k) \/ q_of (at_ D m f (S k)) = q_of (at_ D m f k) + 1.
Proof. rewrite at_S. destruct (at_ D m f k) as [[q b] g]. unfold q_of, ast. destruct g; cbn; auto. Qed.
Lemma q_nonneg D m f k : 0 <= q_of (at_ D m f k).
Proof. induction k as [|k IH]; [reflexivity|]. destruct (q_step D m f k) as [-> | ->]; lia. Qed.
Lemma q_le D m f k : good D m f -> Z.of_nat k <= D -> q_of (at_ D m f k) <= m.
Proof. intros G Hk. pose proof (deviation D m f k G) as V. destruct G as (Hm & HD & _). nia. Qed.

Definition in16 (n : Z) := -32768 <= n < 32768.
Lemma dist_def a b : (if b <? a then a - b else b - a) = dist a b.
Proof. unfold dist. destruct (Z.ltb_spec b a); lia. Qed.
Lemma towards_dist a b : a + towards a b * dist a b = b.
Proof. unfold towards, dist. destruct (Z.ltb_spec b a); lia. Qed.
Lemma dist_nonneg a b : 0 <= dist a b. Proof. unfold dist. lia. Qed.
Lemma between a b k : in16 a -> in16 b -> 0 <= k <= dist a b -> in16 (a + towards a b * k).
Proof. unfold in16, towards, dist. intros Ha Hb Hk. destruct (Z.ltb_spec b a); lia. Qed.
Lemma towards_cases a b : towards a b = 1 \/ towards a b = -1.
Proof. unfold towards. destruct (b <? a); auto. Qed.
(** ** the program follows the trajectory *)
Section Line.
Variables fx fy lx ly : Z.
Definition small : Prop := in16 fx /\ in16 fy /\ in16 lx /\ in16 ly /\ dist fx lx <= 10922 /\ dist fy ly <= 10922.
Hypothesis Hs : small.
Let D := major fx fy lx ly.
Let m := minor fx fy lx ly.
Definition state (c : Z * Z) (b : Z) (f : bool) : line :=
  mkLine (fx, fy) (lx, ly) c (towards fx lx) (towards fy ly) (2 * dist fx lx) (2 * dist fy ly) b f.
Definition line_at (f : bool) (k : nat) : line := let s := at_ D m f k in state (point fx fy lx ly (Z.of_nat k) (q_of s)) (b_of s) (f_of s).
Lemma major_cases : (dist fx lx < dist fy ly /\ D = dist fy ly /\ m = dist fx lx) \/ (dist fy ly <= dist fx lx /\ D = dist fx lx /\ m = dist fy ly).
Proof using Type. unfold D, m, major, minor. destruct (Z.lt_ge_cases (dist fx lx) (dist fy ly)); [left|right]; lia. Qed.
Lemma fresh : initialise fx fy lx ly = state (fx, fy) (2 * m - D) false.
Proof.
  destruct Hs as (A1 & A2 & A3 & A4 & A5 & A6). pose proof (dist_nonneg fx lx). pose proof (dist_nonneg fy ly).
  unfold initialise. rewrite !dist_def. fold (towards fx lx) (towards fy ly). rewrite !(i16_id (dist _ _)) by lia.
  unfold state. destruct (Z.ltb_spec (dist fx lx) (dist fy ly)); destruct major_cases as [(? & -> & ->)|(? & -> & ->)]; try lia.
  - rewrite !(i16_id (_ * 2)) by lia. rewrite i16_id by lia. f_equal; lia.
  - rewrite !(i16_id (_ * 2)) by lia. rewrite i16_id by lia. f_equal; lia.
Qed.
Lemma begin_state c b f : begin (state c b f) = state (fx, fy) b f.
Proof using Type. reflexivity. Qed.
Lemma point_0 : point fx fy lx ly 0 0 = (fx, fy).
Proof using Type. unfold point. destruct (_ <? _); f_equal; lia. Qed.
Lemma start f : state (fx, fy) (2 * m - D) f = line_at f 0.
Proof using Type. unfold line_at, q_of, b_of, f_of. cbn [at_ Nat.iter nat_rect fst snd]. change (Z.of_nat 0) with 0. rewrite point_0. reflexivity. Qed.
Lemma next_at f k : good D m f -> Z.of_nat k < D -> next (line_at f k) = line_at f (S k).
Proof.
  intros G Hk. pose proof (q_le D m f (S k) G ltac:(lia)) as Q1. pose proof (q_nonneg D m f (S k)) as Q0.
  destruct (bounds D m f k G) as (_ & B & _). destruct (bounds D m f (S k) G) as (_ & B' & _).
  assert (HU : upper D m f <= 3 * D). { destruct G as (Hm & HD & _). unfold upper. destruct (Bool.eqb _ _); lia. }
  destruct Hs as (A1 & A2 & A3 & A4 & A5 & A6). pose proof (dist_nonneg fx lx). pose proof (dist_nonneg fy ly).
  unfold line_at. rewrite at_S in *. destruct (at_ D m f k) as [[q b] g]. unfold q_of, b_of, f_of, ast in *.
  unfold next, state, y_is_major_axis. cbn [coordinate dx dy do_minor_increment x_increment y_increment balance first last]. 
  destruct major_cases as [(L & ED & Em)|(L & ED & Em)]; rewrite ?ED, ?Em in *.
  - replace (2 * dist fx lx <? 2 * dist fy ly) with true by (symmetry; apply Z.ltb_lt; lia). unfold point. replace (dist fx lx <? dist fy ly) with true by (symmetry; apply Z.ltb_lt; lia).
    pose proof (between fy ly (Z.of_nat (S k)) A2 A4 ltac:(lia)) as I1. cbn [fst snd] in *.
    destruct g; cbn [fst snd] in *.
    + pose proof (between fx lx (q + 1) A1 A3 ltac:(lia)) as I2. unfold in16 in *.
      rewrite (i16_id (fx + towards fx lx * q + towards fx lx)) by lia. rewrite (i16_id (fy + _ + _)) by lia. rewrite (i16_id (b - _)) by lia. rewrite (i16_id (b - _ + _)) by lia.
      f_equal; try lia. f_equal; lia.
    + unfold in16 in *. rewrite (i16_id (fy + _ + _)) by lia. rewrite (i16_id (b + _)) by lia. f_equal; try lia. f_equal; lia.
  - replace (2 * dist fx lx <? 2 * dist fy ly) with false by (symmetry; apply Z.ltb_ge; lia). unfold point. replace (dist fx lx <? dist fy ly) with false by (symmetry; apply Z.ltb_ge; lia).
    pose proof (between fx lx (Z.of_nat (S k)) A1 A3 ltac:(lia)) as I1. cbn [fst snd] in *.
    destruct g; cbn [fst snd] in *.
    + pose proof (between fy ly (q + 1) A2 A4 ltac:(lia)) as I2. unfold in16 in *.
      rewrite (i16_id (fy + towards fy ly * q + towards fy ly)) by lia. rewrite (i16_id (fx + _ + _)) by lia. rewrite (i16_id (b - _)) by lia. rewrite (i16_id (b - _ + _)) by lia.
      f_equal; try lia. f_equal; lia.
    + unfold in16 in *. rewrite (i16_id (fx + _ + _)) by lia. rewrite (i16_id (b + _)) by lia. f_equal; try lia. f_equal; lia.
Qed.
Lemma point_last : point fx fy lx ly D m = (lx, ly).
Proof using Type. unfold point. destruct major_cases as [(L & -> & ->)|(L & -> & ->)]; destruct (Z.ltb_spec (dist fx lx) (dist fy ly)); try lia; rewrite !towards_dist; reflexivity. Qed.
Lemma point_major k q k' q' : point fx fy lx ly k q = point fx fy lx ly k' q' -> k = k' /\ q = q'.
Proof using Type. unfold point. destruct (_ <? _); intros E; injection E; intros; destruct (towards_cases fx lx) as [T|T]; destruct (towards_cases fy ly) as [T'|T']; rewrite T, T' in *; lia. Qed.
Definition points (f : bool) (k n : nat) : list (Z * Z) := map (fun k => point fx fy lx ly (Z.of_nat k) (q_of (at_ D m f k))) (seq k n).
Lemma loop_at f : good D m f -> forall n k, (Z.of_nat k + Z.of_nat n = D) -> loop (line_at f k) (points f k (S n)) (line_at f (Z.to_nat D)).
Proof.
  intros G n. induction n as [|n IH]; intros k E.
  - replace (Z.to_nat D) with k by lia. unfold points. cbn [seq map]. change (point fx fy lx ly (Z.of_nat k) (q_of (at_ D m f k))) with (coordinate (line_at f k)). apply loop_last.
    unfold line_at, state. cbn [coordinate last]. destruct (q_end D m f G) as (Q & _). replace (Z.to_nat D) with k in Q by lia. rewrite Q. replace (Z.of_nat k) with D by lia. apply point_last.
  - unfold points. cbn [seq map]. change (point fx fy lx ly (Z.of_nat k) (q_of (at_ D m f k))) with (coordinate (line_at f k)). apply loop_next.
    + unfold line_at, state. cbn [coordinate last]. rewrite <- point_last. intros P. apply point_major in P. lia.
    + rewrite next_at by (auto; lia). exact (IH (S k) ltac:(lia)).
Qed.
(** the state after a complete pass *)
Lemma end_state f : good D m f -> line_at f (Z.to_nat D) = state (lx, ly) (2 * m - D) (0 <=? 2 * m - D).
Proof.
  intros G. destruct (q_end D m f G) as (Q & B). destruct (bounds D m f (Z.to_nat D) G) as (_ & _ & F & _). destruct G as (Hm & HD & _).
  unfold line_at. rewrite F by lia. rewrite Q, B, Z2Nat.id by lia. rewrite point_last. reflexivity.
Qed.
Lemma pass f : good D m f -> loop (state (fx, fy) (2 * m - D) f) (points f 0 (S (Z.to_nat D))) (state (lx, ly) (2 * m - D) (0 <=? 2 * m - D)).
Proof. intros G. rewrite start, <- (end_state f G). apply loop_at; auto. destruct G as (? & ? & _). lia. Qed.
Lemma chain_points f : good D m f -> chain fx fy lx ly (slack D m f) (points f 0 (S (Z.to_nat D))).
Proof.
  intros G. unfold chain. cbv zeta. fold D m. exists (fun k => q_of (at_ D m f (Z.to_nat k))). split; [reflexivity|]. split; [apply q_end, G|]. split; [|split].
  - intros k Hk. replace (Z.to_nat (k + 1)) with (S (Z.to_nat k)) by lia. apply q_step.
  - intros k Hk. pose proof (deviation D m f (Z.to_nat k) G) as V. rewrite Z2Nat.id in V by lia. exact V.
  - unfold points. rewrite Nat.add_1_r. apply map_ext. intros k. rewrite Nat2Z.id. reflexivity.
Qed.
End Line.
Lemma loop_head l ps l' : loop l ps l' -> exists t, ps = coordinate l :: t.
Proof. destruct 1; eauto. Qed.
Lemma loop_det l ps l' : loop l ps l' -> forall qs l'', loop l qs l'' -> ps = qs /\ l' = l''.
Proof. induction 1 as [l E|l ps l' N _ IH]; intros qs l'' H; inversion H; subst; try contradiction; [auto|]. destruct (IH _ _ H1) as (-> & ->). auto. Qed.
