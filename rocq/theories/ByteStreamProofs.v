(** * Proofs for byte_stream.h *)
From Coq Require Import List Arith Bool ZArith Lia ZifyNat.
From Verif Require Import Util BinaryModel BinaryProofs4 BitStreamModel ByteStreamSpec ByteStreamModel.
Import ListNotations.
Local Open Scope Z_scope.

Definition isbig (e : endian) : bool := match e with little => false | big => true end.

Lemma le_bytes_map n : forall v, le_bytes n v = map (fun i => (v / 256 ^ Z.of_nat i) mod 256) (seq 0 n).
Proof.
  induction n as [|n IH]; intros v; [reflexivity|].
  cbn [le_bytes seq map]. f_equal; [now rewrite Z.pow_0_r, Z.div_1_r|].
  rewrite IH, <- seq_shift, map_map. apply map_ext; intros i.
  replace (Z.of_nat (S i)) with (1 + Z.of_nat i) by lia. rewrite Z.pow_add_r by lia. change (256 ^ 1) with 256.
  now rewrite Z.div_div by lia.
Qed.
Lemma le_bytes_len n : forall v, List.length (le_bytes n v) = n.
Proof. induction n; intros; cbn [le_bytes List.length]; [reflexivity|now rewrite IHn]. Qed.
Lemma stream_bytes_len e n v : List.length (stream_bytes e n v) = n.
Proof. unfold stream_bytes. destruct e; rewrite ?rev_length, map_length, seq_length; reflexivity. Qed.
Lemma stream_bytes_le e n v : stream_bytes e n v = if e then rev (le_bytes n v) else le_bytes n v.
Proof. unfold stream_bytes. rewrite <- le_bytes_map. reflexivity. Qed.

(** the bytes produced do not depend on the machine *)
Lemma write_bytes p e n v : copy_value p e (object_bytes p n v) = stream_bytes (isbig e) n v.
Proof. rewrite stream_bytes_le. destruct p, e; cbn; rewrite ?rev_involutive; reflexivity. Qed.
Lemma to_bytes_eq p n v x : to_bytes p n v x = match b_store (stream_bytes (isbig (wendian x)) n v) x with None => None | Some x => b_step n x end.
Proof.
  unfold to_bytes. destruct (Nat.eqb_spec n 1) as [->|N]; [|now rewrite write_bytes].
  rewrite stream_bytes_le. cbn [le_bytes]. destruct (isbig _); reflexivity.
Qed.

Definition winv (x : bwriter) : Prop := (current x <= List.length (data x))%nat /\ Z.of_nat (List.length (data x)) < 2 ^ 64.
Lemma avail_eq n x : winv x -> b_available n x = Z.of_nat ((List.length (data x) - current x) / n).
Proof.
  intros [A B]. unfold b_available, b_capacity, b_size_bytes, size_t. rewrite Z.mod_small by lia.
  rewrite <- Nat2Z.inj_sub by lia. now rewrite Nat2Z.inj_div.
Qed.
Lemma div_le a n k : (0 < n)%nat -> (k <= a / n <-> k * n <= a)%nat.
Proof.
  intros H. split; intros L.
  - pose proof (Nat.mul_div_le a n ltac:(lia)). nia.
  - apply Nat.div_le_lower_bound; lia.
Qed.
Lemma avail_ge n k x : winv x -> (0 < n)%nat -> (Z.of_nat k <=? b_available n x) = Nat.leb (current x + k * n) (List.length (data x)).
Proof.
  intros W N. rewrite avail_eq by assumption. destruct W as [A B].
  pose proof (div_le (List.length (data x) - current x) n k N) as D.
  destruct (Z.leb_spec (Z.of_nat k) (Z.of_nat ((List.length (data x) - current x) / n))) as [L|L]; symmetry; [apply Nat.leb_le|apply Nat.leb_gt]; lia.
Qed.
Lemma avail_pos n x : winv x -> (0 < n)%nat -> (0 <? b_available n x) = Nat.leb (current x + n) (List.length (data x)).
Proof.
  intros W N. pose proof (avail_ge n 1 x W N) as E. rewrite Nat.mul_1_l in E. rewrite <- E.
  destruct (Z.ltb_spec 0 (b_available n x)), (Z.leb_spec (Z.of_nat 1) (b_available n x)); lia.
Qed.

(** writer state after storing bytes at the position *)
Definition put_bytes (x : bwriter) (bs : list Z) (cs : list (list Z)) : bwriter :=
  {| data := overwrite (data x) (current x) bs; current := current x + List.length bs; wendian := wendian x; has_callback := has_callback x;
     bcalls := bcalls x ++ (if has_callback x then cs else []) |}.
Lemma overwrite_len B p bs : (p + List.length bs <= List.length B)%nat -> List.length (overwrite B p bs) = List.length B.
Proof. intros. unfold overwrite. rewrite !app_length, firstn_length, skipn_length. lia. Qed.
Lemma overwrite_read B p bs : (p + List.length bs <= List.length B)%nat -> firstn (List.length bs) (skipn p (overwrite B p bs)) = bs.
Proof.
  intros. unfold overwrite. rewrite skipn_app, firstn_length, Nat.min_l by lia. rewrite Nat.sub_diag.
  rewrite skipn_all2 by (rewrite firstn_length; lia). cbn. rewrite firstn_app, Nat.sub_diag, firstn_all. cbn. now rewrite app_nil_r.
Qed.
Lemma overwrite_app B p a b : (p + List.length a + List.length b <= List.length B)%nat ->
  overwrite (overwrite B p a) (p + List.length a) b = overwrite B p (a ++ b).
Proof.
  intros H. unfold overwrite. rewrite app_length.
  rewrite !firstn_app, firstn_length, Nat.min_l by lia.
  replace (p + List.length a - p)%nat with (List.length a) by lia.
  rewrite firstn_firstn, Nat.min_r by lia. rewrite firstn_all, Nat.sub_diag. cbn [firstn]. rewrite app_nil_r.
  rewrite <- !app_assoc. f_equal. f_equal. f_equal.
  rewrite skipn_app, firstn_length, Nat.min_l by lia.
  rewrite (skipn_all2 (firstn p B)) by (rewrite firstn_length; lia). cbn [app].
  rewrite skipn_app. rewrite (skipn_all2 a) by lia. cbn [app]. rewrite skipn_skipn'. f_equal. lia.
Qed.
Lemma put_step x n bs : (current x + n <= List.length (data x))%nat -> List.length bs = n ->
  match b_store bs x with None => None | Some x => b_step n x end = Some (put_bytes x bs [bs]).
Proof.
  intros H L. unfold b_store, store. rewrite L. replace (Nat.leb (current x + n) (List.length (data x))) with true by (symmetry; apply Nat.leb_le; lia).
  unfold b_step; cbn [has_callback data current wendian bcalls].
  destruct (has_callback x) eqn:HC.
  - assert (Y : firstn (current x) (data x) ++ bs ++ skipn (current x + n) (data x) = overwrite (data x) (current x) bs) by (unfold overwrite; now rewrite L).
    unfold load. rewrite Y, overwrite_len by lia. replace (Nat.leb (current x + n) (List.length (data x))) with true by (symmetry; apply Nat.leb_le; lia).
    f_equal. unfold put_bytes. rewrite HC, L, <- L, overwrite_read by lia. now rewrite L.
  - unfold put_bytes. rewrite HC, L, app_nil_r. unfold overwrite. now rewrite L.
Qed.

Lemma winv_put x bs cs : winv x -> (current x + List.length bs <= List.length (data x))%nat -> winv (put_bytes x bs cs).
Proof. intros [A B] H. unfold winv, put_bytes; cbn [data current]. rewrite overwrite_len by lia. lia. Qed.

Lemma put_put x a b ca cb : (current x + List.length a + List.length b <= List.length (data x))%nat ->
  put_bytes (put_bytes x a ca) b cb = put_bytes x (a ++ b) (ca ++ cb).
Proof.
  intros H. unfold put_bytes; cbn [data current wendian has_callback bcalls]. rewrite overwrite_app by lia. rewrite app_length, Nat.add_assoc.
  f_equal. rewrite <- app_assoc. f_equal. now destruct (has_callback x).
Qed.
Lemma put_nil x : (current x <= List.length (data x))%nat -> put_bytes x [] [] = x.
Proof.
  intros H. unfold put_bytes, overwrite; cbn [List.length app]. rewrite !Nat.add_0_r, firstn_skipn.
  replace (if has_callback x then [] else []) with (@nil (list Z)) by now destruct (has_callback x). rewrite app_nil_r. now destruct x.
Qed.
Lemma flat_len e n vs : List.length (flat_map (stream_bytes e n) vs) = (List.length vs * n)%nat.
Proof. induction vs as [|v vs IH]; [reflexivity|]. cbn [flat_map List.length]. rewrite app_length, IH, stream_bytes_len. lia. Qed.

Lemma to_bytes_all_ok p n vs : forall x, (current x + List.length vs * n <= List.length (data x))%nat ->
  to_bytes_all p n vs x = Some (put_bytes x (flat_map (stream_bytes (isbig (wendian x)) n) vs) (map (stream_bytes (isbig (wendian x)) n) vs)).
Proof.
  induction vs as [|v vs IH]; intros x H.
  - cbn [to_bytes_all flat_map map]. cbn in H. rewrite put_nil by lia. reflexivity.
  - cbn [to_bytes_all List.length] in *. rewrite to_bytes_eq, put_step by (rewrite ?stream_bytes_len; lia).
    pose proof (stream_bytes_len (isbig (wendian x)) n v) as SL.
    rewrite IH by (unfold put_bytes; cbn [data current]; rewrite overwrite_len by lia; lia).
    f_equal. change (wendian (put_bytes x (stream_bytes (isbig (wendian x)) n v) [stream_bytes (isbig (wendian x)) n v])) with (wendian x). rewrite put_put; [reflexivity|]. rewrite flat_len. lia.
Qed.

Definition wstate (x : bwriter) : list Z * nat := (data x, current x).
Lemma w_op_ok p o x : winv x -> wop_ok (List.length (data x)) o ->
  exists x', w_op_b p o x = Some (fst (spec_wop (isbig (wendian x)) o (wstate x)), x') /\
    wstate x' = snd (spec_wop (isbig (wendian x)) o (wstate x)) /\ winv x' /\ wendian x' = wendian x /\ has_callback x' = has_callback x /\
    List.length (data x') = List.length (data x) /\
    bcalls x' = bcalls x ++ (if has_callback x && fst (spec_wop (isbig (wendian x)) o (wstate x)) then op_calls (isbig (wendian x)) o (wstate x) else []).
Proof.
  intros W OK. destruct o as [[b|n s v|n s vs]|n k|k]; cbn [w_op_b spec_wop wop_ok item_ok] in *; unfold wstate in *.
  - unfold write_bool_b, spec_write; cbn [item_bytes List.length]. rewrite avail_pos by (try assumption; lia).
    destruct (Nat.leb_spec (current x + 1) (List.length (data x))) as [L|L].
    + unfold b_store, store; cbn [List.length]. replace (Nat.leb (current x + 1) (List.length (data x))) with true by (symmetry; apply Nat.leb_le; lia).
      eexists; split; [reflexivity|]. cbn [data current wendian has_callback bcalls fst snd op_calls].
      change (firstn (current x) (data x) ++ [if b then 1 else 0] ++ skipn (current x + 1) (data x)) with (overwrite (data x) (current x) [if b then 1 else 0]).
      destruct W as [A B]. rewrite overwrite_len by (cbn; lia).
      conj; try reflexivity; [now rewrite Nat.add_1_r| unfold winv; cbn [data current]; rewrite overwrite_len by (cbn; lia); lia |].
      destruct (_ && _); now rewrite app_nil_r.
    + exists x. conj; try reflexivity; try assumption. cbn [fst]. rewrite andb_false_r. now rewrite app_nil_r.
  - destruct OK as [N _]. assert (0 < n)%nat by (destruct N as [->|[->|[->| ->]]]; lia).
    unfold write_b, spec_write; cbn [item_bytes]. rewrite avail_pos, stream_bytes_len by assumption.
    destruct (Nat.leb_spec (current x + n) (List.length (data x))) as [L|L].
    + rewrite to_bytes_eq, put_step by (rewrite ?stream_bytes_len; lia). eexists; split; [reflexivity|].
      unfold put_bytes; cbn [data current wendian has_callback bcalls fst snd op_calls]. rewrite stream_bytes_len, overwrite_len, andb_true_r by (rewrite stream_bytes_len; lia).
      conj; try reflexivity. destruct W; unfold winv; cbn [data current]; rewrite overwrite_len by (rewrite stream_bytes_len; lia); lia.
    + exists x. conj; try reflexivity; try assumption. cbn [fst]. rewrite andb_false_r. now rewrite app_nil_r.
  - destruct OK as [N _]. assert (0 < n)%nat by (destruct N as [->|[->|[->| ->]]]; lia).
    unfold write_span, spec_write; cbn [item_bytes]. rewrite avail_ge, flat_len by assumption.
    destruct (Nat.leb_spec (current x + List.length vs * n) (List.length (data x))) as [L|L].
    + rewrite to_bytes_all_ok by assumption. eexists; split; [reflexivity|].
      unfold put_bytes; cbn [data current wendian has_callback bcalls fst snd op_calls]. rewrite flat_len, overwrite_len, andb_true_r by (rewrite flat_len; lia).
      conj; try reflexivity. pose proof (winv_put x (flat_map (stream_bytes (isbig (wendian x)) n) vs) [] W) as Q. unfold winv, put_bytes in *; cbn [data current] in *.
      rewrite flat_len in Q. apply Q. lia.
    + exists x. conj; try reflexivity; try assumption. cbn [fst]. rewrite andb_false_r. now rewrite app_nil_r.
  - assert (0 < n)%nat by (destruct OK as [->|[->|[->| ->]]]; lia).
    unfold skip_b. rewrite avail_ge by assumption. cbn [fst snd].
    destruct (Nat.leb_spec (current x + k * n) (List.length (data x))) as [L|L].
    + destruct W as [A B]. unfold b_step, load. destruct (has_callback x) eqn:HC.
      * replace (Nat.leb (current x + k * n) (List.length (data x))) with true by (symmetry; apply Nat.leb_le; lia).
        eexists; split; [reflexivity|]. cbn [data current wendian has_callback bcalls fst snd op_calls andb]. conj; try reflexivity; try assumption. unfold winv; cbn [data current]; lia.
      * eexists; split; [reflexivity|]. cbn [data current wendian has_callback bcalls fst snd op_calls andb]. rewrite app_nil_r. conj; try reflexivity; try assumption. unfold winv; cbn [data current]; lia. 
    + exists x. conj; try reflexivity; try assumption. cbn [fst]. rewrite andb_false_r. now rewrite app_nil_r.
  - eexists; split; [reflexivity|]. unfold restart_b; cbn [data current wendian has_callback bcalls fst snd op_calls]. destruct W as [A B].
    conj; try reflexivity; try assumption. { unfold winv; cbn [data current]; lia. } destruct (has_callback x); cbn [andb]; now rewrite app_nil_r.
Qed.

Lemma w_ops_ok p os : forall x, winv x -> Forall (wop_ok (List.length (data x))) os ->
  exists x', w_ops_b p os x = Some (fst (spec_wops (isbig (wendian x)) os (wstate x)), x') /\
    wstate x' = snd (spec_wops (isbig (wendian x)) os (wstate x)) /\ winv x' /\ wendian x' = wendian x /\ has_callback x' = has_callback x /\
    List.length (data x') = List.length (data x) /\
    bcalls x' = bcalls x ++ (if has_callback x then spec_calls (isbig (wendian x)) os (wstate x) else []).
Proof.
  induction os as [|o os IH]; intros x W OK.
  - exists x. conj; try reflexivity; try assumption. cbn. destruct (has_callback x); now rewrite app_nil_r.
  - inversion OK as [|? ? O1 O2]; subst.
    destruct (w_op_ok p o x W O1) as (y & E & S & Wy & Ey & Hy & Ly & Cy).
    destruct (IH y Wy) as (z & E2 & S2 & Wz & Ez & Hz & Lz & Cz); [now rewrite Ly|].
    exists z. cbn [w_ops_b spec_wops spec_calls]. rewrite E, E2. rewrite Ey in *. rewrite S in *.
    destruct (spec_wop (isbig (wendian x)) o (wstate x)) as [a st] eqn:SW. cbn [fst snd] in *.
    destruct (spec_wops (isbig (wendian x)) os st) as [l st2] eqn:SW2. cbn [fst snd] in *.
    conj; try reflexivity; try assumption; try congruence.
    rewrite Cz, Cy, Hy. rewrite <- app_assoc. f_equal. destruct (has_callback x); cbn [andb]; [reflexivity|reflexivity].
Qed.

(** ** the reader *)
Lemma of_le_number l : of_le l = fold_right (fun b x => b + 256 * x) 0 l.
Proof. induction l; cbn [of_le fold_right]; congruence. Qed.
Definition isbyte (b : Z) : Prop := 0 <= b < 256.
Lemma of_le_range l : Forall isbyte l -> 0 <= of_le l < 2 ^ (8 * Z.of_nat (List.length l)).
Proof.
  induction l as [|b l IH]; intros H; cbn [of_le List.length]; [lia|]. inversion H as [|? ? B F]; subst. specialize (IH F). unfold isbyte in B.
  replace (8 * Z.of_nat (S (List.length l))) with (8 + 8 * Z.of_nat (List.length l)) by lia. rewrite Z.pow_add_r by lia. change (2 ^ 8) with 256. nia.
Qed.
Lemma number_signed w u : 0 <= u < 2 ^ w -> sg w u = if 2 ^ (w - 1) <=? u then u - 2 ^ w else u.
Proof.
  intros H. unfold sg. rewrite Z.mod_small by lia. destruct (Z.ltb_spec u (2 ^ (w - 1))), (Z.leb_spec (2 ^ (w - 1)) u); try lia.
Qed.
Lemma object_number p e s l : Forall isbyte l ->
  object_value p s (copy_value p e l) = number (isbig e) s l.
Proof.
  intros F. unfold object_value, number.
  assert (L : List.length (copy_value p e l) = List.length l) by (unfold copy_value; destruct (endian_eqb _ _); [reflexivity|apply rev_length]).
  rewrite L.
  assert (E : (match p with little => copy_value p e l | big => rev (copy_value p e l) end) = if isbig e then rev l else l).
  { destruct p, e; cbn; rewrite ?rev_involutive; reflexivity. }
  rewrite E. rewrite <- !(of_le_number (if isbig e then rev l else l)).
  assert (R : 0 <= of_le (if isbig e then rev l else l) < 2 ^ (8 * Z.of_nat (List.length l))).
  { destruct (isbig e); [rewrite <- (rev_length l)|]; apply of_le_range; [now apply Forall_rev|assumption]. }
  destruct s; cbn [andb]; [|reflexivity]. now apply number_signed.
Qed.
Lemma from_bytes_ok p n s x : Forall isbyte (rdata x) -> (rcurrent x + n <= List.length (rdata x))%nat ->
  from_bytes p n s x = Some (number (isbig (rendian x)) s (firstn n (skipn (rcurrent x) (rdata x))), set_rcurrent (rcurrent x + n) x).
Proof.
  intros F H. unfold from_bytes, load. replace (Nat.leb _ _) with true by (symmetry; now apply Nat.leb_le).
  set (l := firstn n (skipn (rcurrent x) (rdata x))).
  assert (Fl : Forall isbyte l).
  { subst l. apply Forall_forall; intros b I. rewrite Forall_forall in F. apply F.
    rewrite <- (firstn_skipn (rcurrent x) (rdata x)). apply in_app_iff; right. rewrite <- (firstn_skipn n (skipn _ _)). apply in_app_iff; now left. }
  assert (Ll : List.length l = n) by (subst l; rewrite firstn_length, skipn_length; lia).
  rewrite object_number by assumption. destruct (Nat.eqb_spec n 1) as [N|N]; [|reflexivity].
  do 2 f_equal. destruct l as [|b [|? ?]]; cbn in Ll; try lia. unfold number.
  inversion Fl as [|? ? B _]; subst. unfold isbyte in B.
  replace (if isbig (rendian x) then rev [b] else [b]) with [b] by now destruct (isbig _). rewrite <- !(of_le_number [b]).
  cbn [of_le List.length]. change (8 * Z.of_nat 1) with 8. destruct s; [|reflexivity]. cbn [andb]. apply number_signed. lia.
Qed.
Lemma skipn_firstn_min {A} (l : list A) a b : firstn a (firstn b l) = firstn (Nat.min a b) l. Proof. apply firstn_firstn. Qed.
Lemma groups_firstn n : forall k l m, (k * n <= m)%nat -> groups n k (firstn m l) = groups n k l.
Proof.
  induction k as [|k IH]; intros l m H; [reflexivity|]. cbn [groups]. cbn in H. f_equal.
  - rewrite firstn_firstn. f_equal. lia.
  - rewrite skipn_firstn_comm. apply IH. lia.
Qed.
Lemma from_bytes_all_ok p n s : forall k x, Forall isbyte (rdata x) -> (rcurrent x + k * n <= List.length (rdata x))%nat ->
  from_bytes_all p n s k x = Some (map (number (isbig (rendian x)) s) (groups n k (skipn (rcurrent x) (rdata x))), set_rcurrent (rcurrent x + k * n) x).
Proof.
  induction k as [|k IH]; intros x F H.
  - cbn. rewrite Nat.add_0_r. now destruct x.
  - cbn in H. cbn [from_bytes_all]. rewrite from_bytes_ok by (try assumption; lia).
    rewrite IH by (try assumption; cbn [rdata rcurrent set_rcurrent]; lia).
    cbn [rdata rcurrent rendian set_rcurrent groups map]. rewrite skipn_skipn'. do 2 f_equal.
    + do 2 f_equal. rewrite (Nat.add_comm n). reflexivity.
    + unfold set_rcurrent. cbn [rdata rcurrent rendian]. f_equal. lia.
Qed.
Definition rinv (x : breader) : Prop := (rcurrent x <= List.length (rdata x))%nat /\ Z.of_nat (List.length (rdata x)) < 2 ^ 64 /\ Forall isbyte (rdata x).
Lemma ravail_ge n k x : rinv x -> (0 < n)%nat -> (Z.of_nat k <=? r_available n x) = Nat.leb (rcurrent x + k * n) (List.length (rdata x)).
Proof.
  intros (A & B & _) N.
  pose proof (avail_ge n k {| data := rdata x; current := rcurrent x; wendian := rendian x; has_callback := false; bcalls := [] |} (conj A B) N) as E.
  exact E.
Qed.
Lemma ravail_pos n x : rinv x -> (0 < n)%nat -> (0 <? r_available n x) = Nat.leb (rcurrent x + n) (List.length (rdata x)).
Proof.
  intros (A & B & _) N.
  exact (avail_pos n {| data := rdata x; current := rcurrent x; wendian := rendian x; has_callback := false; bcalls := [] |} (conj A B) N).
Qed.
Lemma size_pos n : size_ok n -> (0 < n)%nat.
Proof. intros [->|[->|[->| ->]]]; lia. Qed.
Lemma r_op_b_ok p o x : rinv x -> rop_ok (List.length (rdata x)) o ->
  r_op_b p o x = Some (fst (spec_rop (isbig (rendian x)) (rdata x) o (rcurrent x)), set_rcurrent (snd (spec_rop (isbig (rendian x)) (rdata x) o (rcurrent x))) x)
  /\ (snd (spec_rop (isbig (rendian x)) (rdata x) o (rcurrent x)) <= List.length (rdata x))%nat.
Proof.
  intros W OK. pose proof W as (A & B & F).
  assert (Id : set_rcurrent (rcurrent x) x = x) by now destruct x.
  destruct o as [|n s|n s k|k|n k|k]; cbn [r_op_b spec_rop rop_size rop_ok] in *.
  - unfold read_bool_b. rewrite ravail_pos by (try assumption; lia). destruct (Nat.leb_spec (rcurrent x + 1) (List.length (rdata x))); [|cbn [fst snd]; now rewrite Id].
    rewrite from_bytes_ok by assumption. split; [reflexivity|assumption].
  - apply size_pos in OK. unfold read_b. rewrite ravail_pos by assumption. destruct (Nat.leb_spec (rcurrent x + n) (List.length (rdata x))); [|cbn [fst snd]; now rewrite Id].
    rewrite from_bytes_ok by assumption. split; [reflexivity|assumption].
  - apply size_pos in OK. unfold read_span. rewrite ravail_ge by assumption. destruct (Nat.leb_spec (rcurrent x + k * n) (List.length (rdata x))); [|cbn [fst snd]; now rewrite Id].
    rewrite from_bytes_all_ok by assumption. rewrite groups_firstn by lia. split; [reflexivity|assumption].
  - unfold read_bytes. rewrite ravail_ge, Nat.mul_1_r by (try assumption; lia). destruct (Nat.leb_spec (rcurrent x + k) (List.length (rdata x))) as [L|L]; [|cbn [fst snd]; now rewrite Id].
    unfold load. replace (Nat.leb _ _) with true by (symmetry; now apply Nat.leb_le). split; [reflexivity|assumption].
  - apply size_pos in OK. unfold r_skip_b. rewrite ravail_ge by assumption. destruct (Nat.leb_spec (rcurrent x + k * n) (List.length (rdata x))); [|cbn [fst snd]; now rewrite Id].
    split; [reflexivity|assumption].
  - split; [reflexivity|assumption].
Qed.
Lemma r_ops_b_ok p os : forall x, rinv x -> Forall (rop_ok (List.length (rdata x))) os ->
  r_ops_b p os x = Some (fst (spec_rops (isbig (rendian x)) (rdata x) os (rcurrent x)), set_rcurrent (snd (spec_rops (isbig (rendian x)) (rdata x) os (rcurrent x))) x).
Proof.
  induction os as [|o os IH]; intros x W OK; [cbn; now destruct x|].
  inversion OK as [|? ? O1 O2]; subst. destruct (r_op_b_ok p o x W O1) as [E L]. cbn [r_ops_b spec_rops]. rewrite E.
  destruct (spec_rop (isbig (rendian x)) (rdata x) o (rcurrent x)) as [a q]. cbn [fst snd] in *.
  rewrite IH; [|destruct W as (? & ? & ?); unfold rinv; cbn [rdata rcurrent set_rcurrent]; conj; assumption|assumption].
  cbn [rdata rcurrent rendian set_rcurrent]. destruct (spec_rops (isbig (rendian x)) (rdata x) os q). reflexivity.
Qed.

(** ** numbers and their bytes *)
Lemma le_bytes_bytes n : forall v, Forall isbyte (le_bytes n v).
Proof. induction n; intros v; cbn [le_bytes]; constructor; [unfold isbyte; apply Z.mod_pos_bound; lia|apply IHn]. Qed.
Lemma stream_bytes_bytes e n v : Forall isbyte (stream_bytes e n v).
Proof. rewrite stream_bytes_le. destruct e; [apply Forall_rev|]; apply le_bytes_bytes. Qed.
Lemma of_le_le_bytes n : forall v, of_le (le_bytes n v) = v mod 2 ^ (8 * Z.of_nat n).
Proof.
  induction n as [|n IH]; intros v; cbn [le_bytes of_le]; [now rewrite Z.mod_1_r|]. rewrite IH.
  replace (8 * Z.of_nat (S n)) with (8 + 8 * Z.of_nat n) by lia. rewrite Z.pow_add_r by lia. change (2 ^ 8) with 256.
  rewrite Z.rem_mul_r by lia. lia.
Qed.
Lemma number_stream_bytes e n s v : size_ok n -> in_type n s v -> number e s (stream_bytes e n v) = v.
Proof.
  intros N I. apply size_pos in N. unfold number. rewrite stream_bytes_len, stream_bytes_le.
  replace (if e then rev (if e then rev (le_bytes n v) else le_bytes n v) else (if e then rev (le_bytes n v) else le_bytes n v)) with (le_bytes n v)
    by (destruct e; now rewrite ?rev_involutive).
  rewrite <- !(of_le_number (le_bytes n v)), of_le_le_bytes. unfold in_type in I.
  destruct s; cbn [andb]; [|now rewrite Z.mod_small by lia].
  set (w := 8 * Z.of_nat n) in *. assert (P : 2 ^ w = 2 * 2 ^ (w - 1)). { rewrite <- Z.pow_succ_r by lia. f_equal. lia. }
  assert (0 < 2 ^ (w - 1)) by (apply Z.pow_pos_nonneg; lia).
  destruct (Z.ltb_spec v 0) as [L|L].
  - assert (E : v mod 2 ^ w = v + 2 ^ w). { symmetry; apply Z.mod_unique with (q := -1); lia. }
    rewrite E. destruct (Z.leb_spec (2 ^ (w - 1)) (v + 2 ^ w)); lia.
  - rewrite Z.mod_small by lia. destruct (Z.leb_spec (2 ^ (w - 1)) v); lia.
Qed.
Lemma groups_flat e n vs : forall k r, k = List.length vs -> groups n k (flat_map (stream_bytes e n) vs ++ r) = map (stream_bytes e n) vs.
Proof.
  induction vs as [|v vs IH]; intros k r E; subst k; [reflexivity|]. cbn [List.length groups flat_map map]. rewrite <- app_assoc.
  rewrite firstn_app, stream_bytes_len, Nat.sub_diag, app_nil_r, firstn_all2 by (rewrite stream_bytes_len; lia).
  rewrite skipn_app, stream_bytes_len, Nat.sub_diag, skipn_all2 by (rewrite stream_bytes_len; lia). cbn [app skipn]. f_equal. now apply IH.
Qed.
Lemma item_len e i : List.length (item_bytes e i) = rop_size (item_read i).
Proof. destruct i; cbn [item_bytes item_read rop_size]; [reflexivity|apply stream_bytes_len|apply flat_len]. Qed.

(** reading an item where its bytes are *)
Lemma read_item e i B p r : item_ok i -> (p <= List.length B)%nat -> skipn p B = item_bytes e i ++ r -> spec_rop e B (item_read i) p = (item_value i, (p + List.length (item_bytes e i))%nat).
Proof.
  intros OK PB E.
  assert (L : (p + List.length (item_bytes e i) <= List.length B) %nat).
  { assert (Q : List.length (skipn p B) = List.length (item_bytes e i ++ r)) by now rewrite E. rewrite skipn_length, app_length in Q. lia. }
  assert (Fx : firstn (rop_size (item_read i)) (skipn p B) = item_bytes e i).
  { rewrite E, <- (item_len e), firstn_app, Nat.sub_diag, firstn_all. cbn [firstn]. apply app_nil_r. }
  rewrite item_len in *.
  destruct i as [b|n s v|n s vs]; cbn [item_read spec_rop item_value] in *; apply Nat.leb_le in L; rewrite L, Fx; f_equal.
  - cbn [item_bytes]. destruct b, e; reflexivity.
  - cbn [item_bytes item_ok] in *. f_equal. now apply number_stream_bytes.
  - cbn [item_bytes item_ok] in *. f_equal. destruct OK as [N F].
    rewrite <- (app_nil_r (flat_map _ _)), groups_flat by reflexivity. rewrite map_map.
    clear - N F. induction F as [|v vs I F IH]; [reflexivity|]. cbn [map]. rewrite IH, number_stream_bytes by assumption. reflexivity.
Qed.
Lemma read_items e is : forall B p r, Forall item_ok is -> (p <= List.length B)%nat -> skipn p B = flat_map (item_bytes e) is ++ r ->
  spec_rops e B (map item_read is) p = (map item_value is, (p + List.length (flat_map (item_bytes e) is))%nat).
Proof.
  induction is as [|i is IH]; intros B p r OK PB E; [cbn; now rewrite Nat.add_0_r|].
  inversion OK as [|? ? O1 O2]; subst. cbn [flat_map map spec_rops] in *. rewrite <- app_assoc in E. rewrite (read_item e i B p _ O1 PB E).
  rewrite (IH B (p + List.length (item_bytes e i))%nat r).
  - rewrite app_length, Nat.add_assoc. reflexivity.
  - assumption.
  - assert (Q : List.length (skipn p B) = List.length (item_bytes e i ++ flat_map (item_bytes e) is ++ r)) by now rewrite E. rewrite skipn_length, app_length in Q. lia.
  - rewrite Nat.add_comm, <- skipn_skipn', E, skipn_app, Nat.sub_diag, skipn_all. reflexivity.
Qed.
(** the accepted items of a run lie one after the other in the buffer *)
Definition accepted (is : list item) (rs : list bool) : list item := map fst (filter snd (combine is rs)).
Lemma write_items e is : forall B p, (p <= List.length B)%nat ->
  let '(rs, (B', p')) := spec_wops e (map Witem is) (B, p) in
  let bs := flat_map (item_bytes e) (accepted is rs) in
  p' = (p + List.length bs)%nat /\ (p' <= List.length B)%nat /\ B' = overwrite B p bs.
Proof.
  induction is as [|i is IH]; intros B p PB.
  - cbn. unfold overwrite; cbn. rewrite !Nat.add_0_r, firstn_skipn. auto.
  - cbn [map spec_wops spec_wop]. unfold spec_write.
    destruct (Nat.leb_spec (p + List.length (item_bytes e i)) (List.length B)) as [L|L].
    + specialize (IH (overwrite B p (item_bytes e i)) (p + List.length (item_bytes e i))%nat). rewrite overwrite_len in IH by lia. specialize (IH L).
      destruct (spec_wops e (map Witem is) (overwrite B p (item_bytes e i), (p + List.length (item_bytes e i))%nat)) as [rs [B' p']].
      destruct IH as (E1 & E2 & E3). unfold accepted in *; cbn [combine filter map flat_map snd fst]. rewrite app_length.
      conj; [lia|assumption|]. rewrite E3, overwrite_app; [reflexivity|]. lia.
    + specialize (IH B p PB). destruct (spec_wops e (map Witem is) (B, p)) as [rs [B' p']]. exact IH.
Qed.
