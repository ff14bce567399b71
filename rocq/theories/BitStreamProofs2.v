From Coq Require Import List Arith Lia Bool ZArith.
From Coq Require Import ZifyNat.
From Verif Require Import Util BinaryModel BinarySpec BitLib BinaryProofs BinaryProofs2 BinaryProofs3 BinaryProofs4 BitStreamModel BitStreamSpec BitStreamProofs.
Import ListNotations.
Local Open Scope Z_scope.
Ltac Zify.zify_post_hook ::= Z.div_mod_to_equations.

Definition is_big (e : endian) : bool := match e with big => true | little => false end.
Lemma width_bound w : width w -> 8 <= w <= 64. Proof. unfold width. lia. Qed.
Lemma rev_lsb n v : rev (lsb_first n v) = msb_first n v. Proof. reflexivity. Qed.
Lemma rev_msb n v : rev (msb_first n v) = lsb_first n v. Proof. unfold msb_first. apply rev_involutive. Qed.
Lemma nth_lsb n v i : (i < Z.to_nat n)%nat -> nth_error (lsb_first n v) i = Some (Z.testbit v (Z.of_nat i)).
Proof. intros H. unfold lsb_first. rewrite nth_error_map_seq. destruct (Nat.ltb_spec i (Z.to_nat n)); [|lia]. reflexivity. Qed.
Lemma msb_is_lsb n u v : 0 <= n -> (forall i, 0 <= i < n -> Z.testbit u i = Z.testbit v (n - 1 - i)) -> msb_first n u = lsb_first n v.
Proof.
  intros Hn H. unfold msb_first, lsb_first. rewrite <- map_rev. apply nth_error_ext. intros i. rewrite !nth_error_map.
  assert (R : nth_error (rev (seq 0 (Z.to_nat n))) i = if (i <? Z.to_nat n)%nat then Some (Z.to_nat n - 1 - i)%nat else None).
  { destruct (Nat.ltb_spec i (Z.to_nat n)).
    - rewrite (nth_error_nth' _ 0%nat) by (rewrite rev_length, seq_length; lia). rewrite rev_nth by (rewrite seq_length; lia). rewrite seq_length, seq_nth by lia. f_equal. lia.
    - apply nth_error_None. rewrite rev_length, seq_length. lia. }
  rewrite R. destruct (Nat.ltb_spec i (Z.to_nat n)).
  - rewrite (nth_error_nth' (seq _ _) 0%nat) by (rewrite seq_length; lia). rewrite seq_nth by lia. cbn. unfold bit. rewrite H by lia. do 2 f_equal. lia.
  - cbn. replace (nth_error (seq 0 (Z.to_nat n)) i) with (@None nat); [reflexivity|]. symmetry. apply nth_error_None. rewrite seq_length. lia.
Qed.
Lemma le_write w v n : width w -> word w v -> 1 <= n <= w -> msb_first n (reverse_bits w v >> (w - n)) = lsb_first n v.
Proof.
  intros Hw Hv Hn. apply msb_is_lsb; [lia|]. intros i Hi. rewrite Z.shiftr_spec by lia. pose proof (reverse_bits_bit w v Hw Hv (i + (w - n)) ltac:(lia)) as E. unfold bit in E. rewrite E. f_equal. lia.
Qed.
Lemma lsb_tr w n v : 0 <= n <= w -> lsb_first n (tr w v) = lsb_first n v.
Proof. intros H. apply lsb_ext. intros i Hi. rewrite testbit_tr by lia. destruct (Z.ltb_spec i w); [reflexivity|lia]. Qed.
Lemma msb_tr w n v : 0 <= n <= w -> msb_first n (tr w v) = msb_first n v.
Proof. intros H. unfold msb_first. f_equal. apply lsb_tr. exact H. Qed.
Lemma field_length b n v : List.length (field b n v) = Z.to_nat n.
Proof. unfold field. destruct b; [apply msb_length|apply lsb_length']. Qed.

(** writing a field without callback; then flush_full_bytes if there is a callback *)
Lemma data_ok w v n e s : width w -> 1 <= n <= 255 -> wf s -> clean s -> n <= bits_available s ->
  exists s', wf s' /\ clean s' /\ pos s' = (pos s + Z.to_nat (Z.min n w))%nat /\ total s' = total s /\
    bits_of (pdata s') = put_bits (bits_of (pdata s)) (pos s) (field (is_big e) (Z.min n w) v) /\
  forall cb cl, write_data w (tr w v) n {| ws := s; stream_endianness := e; callback := cb; calls := cl |} =
    let x := {| ws := s'; stream_endianness := e; callback := cb; calls := cl |} in if cb then flush_full_bytes x else Some x.
Proof.
  intros Hw Hn W C Ha. pose proof (width_bound w Hw). set (m := Z.min n w). assert (Em : (if w <? n then w else n) = m) by (unfold m; destruct (Z.ltb_spec w n); lia).
  assert (Wv : word w (tr w v)) by (apply word_tr; lia). set (u := match e with big => tr w v | little => reverse_bits w (tr w v) >> (w - m) end).
  destruct (put_loop_ok w u ltac:(lia) 256 m s W C) as (s' & E & W' & C' & P' & T' & B'); [unfold m; lia|unfold m; lia|unfold m; lia|]. exists s'.
  assert (Eu : msb_first m u = field (is_big e) m v). { unfold u, field. destruct e; cbn [is_big]; [rewrite le_write by (try assumption; unfold m; lia); apply lsb_tr; unfold m; lia|apply msb_tr; unfold m; lia]. }
  rewrite Eu in B'. conj; try assumption. intros cb cl. unfold write_data. rewrite Em. cbn [stream_endianness ws].
  destruct e; [destruct (Z.leb_spec (Z.max w 32) (w - m)); [unfold m in *; lia|]|]; fold u; rewrite E; reflexivity.
Qed.
Definition w_op (o : wop) (x : writer) : option (bool * writer) :=
  match o with Wbool b => write_bool b x | Wint w n v => write w v n x | Wrestart => Some (true, w_restart x) end.
Definition winv (x : writer) (L : list bool) (p : nat) : Prop := wf (ws x) /\ clean (ws x) /\ bits_of (pdata (ws x)) = L /\ pos (ws x) = p.
Lemma avail_pos n x : 1 <= n -> 0 <= bits_available (ws x) -> available n x = Some (bits_available (ws x) / n) /\ (0 <? bits_available (ws x) / n) = (n <=? bits_available (ws x)).
Proof.
  intros Hn Hb. unfold available. destruct (Z.eqb_spec n 0); [lia|]. split; [reflexivity|].
  destruct (Z.leb_spec n (bits_available (ws x))) as [H|H].
  - apply Z.ltb_lt. apply Z.div_str_pos. lia.
  - rewrite Z.div_small by lia. reflexivity.
Qed.
Lemma w_op_ok o x L p e : wop_ok o -> winv x L p -> stream_endianness x = e -> callback x = false ->
  exists x', w_op o x = Some (fst (spec_write (is_big e) o (L, p)), x') /\ winv x' (fst (snd (spec_write (is_big e) o (L, p)))) (snd (snd (spec_write (is_big e) o (L, p)))) /\
    stream_endianness x' = e /\ callback x' = false /\ calls x' = calls x.
Proof.
  intros Ho (W & C & B & P) He Hc. destruct x as [s e' cb cl]. cbn [ws stream_endianness callback] in W, C, B, P, He, Hc. subst e' cb.
  pose proof W as (H1 & H2 & H3 & H4 & H5). assert (Lt : List.length L = total s) by (rewrite <- B, bits_of_length; reflexivity).
  assert (G : forall w n v, width w -> 1 <= n <= 255 -> exists x', write w v n {| ws := s; stream_endianness := e; callback := false; calls := cl |} =
     Some (Nat.leb (p + Z.to_nat n) (List.length L), x') /\ stream_endianness x' = e /\ callback x' = false /\ calls x' = cl /\
     if Nat.leb (p + Z.to_nat n) (List.length L) then winv x' (put_bits L p (field (is_big e) (Z.min n w) v)) (p + Z.to_nat (Z.min n w)) else winv x' L p).
  { intros w n v Hw Hn. pose proof (avail_pos n {| ws := s; stream_endianness := e; callback := false; calls := cl |} ltac:(lia)) as A. cbn [ws] in A. destruct (A ltac:(lia)) as [A1 A2].
    unfold write. rewrite A1, A2. destruct (Z.leb_spec n (bits_available s)), (Nat.leb_spec (p + Z.to_nat n) (List.length L)); try lia.
    - destruct (data_ok w v n e s Hw Hn W C ltac:(lia)) as (s' & W' & C' & P' & T' & B' & E). rewrite E. cbv zeta. eexists. split; [reflexivity|]. unfold winv. cbn [ws stream_endianness callback calls]. conj; try reflexivity; try assumption; [rewrite B', B, P; reflexivity|lia].
    - eexists. split; [reflexivity|]. unfold winv. cbn [ws stream_endianness callback calls]. conj; try reflexivity; assumption. }
  destruct o as [b|w n v|].
  - destruct (G 8 1 (if b then 1 else 0) ltac:(unfold width; tauto) ltac:(lia)) as (x' & E & F1 & F2 & F3 & I). exists x'. cbn [w_op].
    assert (Ew : write_bool b {| ws := s; stream_endianness := e; callback := false; calls := cl |} = write 8 (if b then 1 else 0) 1 {| ws := s; stream_endianness := e; callback := false; calls := cl |}).
    { unfold write_bool, write. destruct (available _ _); [|reflexivity]. destruct (0 <? z); [|reflexivity]. do 2 f_equal. destruct b; reflexivity. }
    rewrite Ew, E. unfold spec_write. cbn [asked put_field]. change (Z.to_nat 1) with 1%nat in *. assert (Ef : field (is_big e) (Z.min 1 8) (if b then 1 else 0) = [b]) by (destruct (is_big e), b; reflexivity).
    rewrite Ef in I. change (Z.to_nat (Z.min 1 8)) with 1%nat in I. destruct (Nat.leb_spec (p + 1) (List.length L)); cbn [fst snd]; conj; auto.
  - destruct (G w n v) as (x' & E & F1 & F2 & F3 & I); [apply Ho|apply Ho|]. exists x'. cbn [w_op]. rewrite E. unfold spec_write. cbn [asked put_field]. rewrite field_length.
    destruct (Nat.leb_spec (p + Z.to_nat n) (List.length L)); cbn [fst snd]; conj; auto.
  - destruct (wf_restart s W) as [W' C']. eexists. cbn [w_op spec_write fst snd]. split; [reflexivity|]. unfold winv. cbn [ws w_restart set_ws stream_endianness callback calls]. conj; try reflexivity; try assumption.
Qed.
Fixpoint w_ops (os : list wop) (x : writer) : option (list bool * writer) :=
  match os with
  | [] => Some ([], x)
  | o :: r => match w_op o x with None => None | Some (ok, x) => match w_ops r x with None => None | Some (oks, x) => Some (ok :: oks, x) end end
  end.
Lemma w_ops_ok os : forall x L p e, Forall wop_ok os -> winv x L p -> stream_endianness x = e -> callback x = false ->
  exists x', w_ops os x = Some (fst (spec_writes (is_big e) os (L, p)), x') /\ winv x' (fst (snd (spec_writes (is_big e) os (L, p)))) (snd (snd (spec_writes (is_big e) os (L, p)))) /\
    stream_endianness x' = e /\ callback x' = false /\ calls x' = calls x.
Proof.
  induction os as [|o os IH]; intros x L p e Ho I He Hc; [exists x; cbn; auto|]. inversion_clear Ho as [|? ? O1 O2]. destruct (w_op_ok o x L p e O1 I He Hc) as (x1 & E1 & I1 & F1 & F2 & F3).
  cbn [w_ops spec_writes]. rewrite E1. destruct (spec_write (is_big e) o (L, p)) as [ok [L1 p1]]. cbn [fst snd] in *. destruct (IH x1 L1 p1 e O2 I1 F1 F2) as (x2 & E2 & I2 & G1 & G2 & G3). rewrite E2.
  destruct (spec_writes (is_big e) os (L1, p1)) as [oks [L2 p2]]. cbn [fst snd] in *. exists x2. conj; auto. congruence.
Qed.
Lemma winv_observe x L p : winv x L p -> w_size_bits x = Z.of_nat p /\ available_bits x = Z.of_nat (List.length L) - Z.of_nat p /\ w_size_bytes x = (Z.of_nat p + 7) / 8 /\
  w_full x = Nat.eqb p (List.length L) /\ capacity_bits x = Z.of_nat (List.length L) /\ capacity_bytes x * 8 = Z.of_nat (List.length L) /\ (p <= List.length L)%nat.
Proof.
  intros (W & C & B & P). pose proof W as (H1 & H2 & H3 & H4 & H5). assert (Lt : List.length L = total (ws x)) by (rewrite <- B, bits_of_length; reflexivity).
  unfold w_size_bits, available_bits, w_size_bytes, w_full, capacity_bits, capacity_bytes, size, length_chars. unfold total in *. rewrite !size_t_id by (try rewrite size_t_id by lia; lia).
  conj; try lia.
  - unfold pos in P. destruct (Z.eqb_spec (bits_available_in_char (ws x)) 8); lia.
  - destruct (Z.eqb_spec (bits_available (ws x)) 0), (Nat.eqb_spec p (List.length L)); try reflexivity; lia.
Qed.

(** ** reading *)
Definition r_op (e : endian) (o : rop) (s : stream) : option (result * stream) :=
  match o with
  | Rbool => match read_bool s with Some (Some b, s) => Some (Bool b, s) | Some (None, s) => Some (Nothing, s) | None => None end
  | Rint w n sgn => match read e w sgn n s with Some (Some v, s) => Some (Int v, s) | Some (None, s) => Some (Nothing, s) | None => None end
  | Rskip n => match r_skip n s with Some (b, s) => Some (Done b, s) | None => None end
  | Rrestart => Some (Done true, restart s)
  end.
Lemma as_signed_sg n x : 0 < n -> word n x -> as_signed n x = sg n x.
Proof. intros Hn Hx. unfold as_signed, sg. rewrite Z.mod_small by exact Hx. reflexivity. Qed.
Lemma conv_bounds w x : width w -> conv w false x = tr w x. Proof. reflexivity. Qed.
Lemma sg_tr w x : 0 < w -> sg w (tr w x) = sg w x.
Proof. intros H. unfold sg, tr. rewrite Z.mod_mod by (apply Z.pow_nonzero; lia). reflexivity. Qed.
Lemma le_read w n r : width w -> 1 <= n <= w -> word n r -> word n (reverse_bits w (tr w (r << (w - n)))) /\ msb_first n (reverse_bits w (tr w (r << (w - n)))) = lsb_first n r.
Proof.
  intros Hw Hn Hr. pose proof (width_bound w Hw). set (t := tr w (r << (w - n))). assert (Wt : word w t) by (apply word_tr; lia).
  assert (B : forall i, 0 <= i < w -> Z.testbit (reverse_bits w t) i = Z.testbit r (n - 1 - i)).
  { intros i Hi. pose proof (reverse_bits_bit w t Hw Wt i Hi) as E. unfold bit in E. rewrite E. unfold t. rewrite testbit_tr by lia. destruct (Z.ltb_spec (w - 1 - i) w); [|lia]. rewrite Z.shiftl_spec by lia. f_equal. lia. }
  split.
  - apply word_bits; [lia| |].
    + apply (reverse_bits_word w t Hw).
    + intros i Hi. destruct (Z.lt_ge_cases i w); [rewrite B by lia; apply Z.testbit_neg_r; lia|]. apply (word_high w); [apply reverse_bits_word; exact Hw|lia].
  - apply msb_is_lsb; [lia|]. intros i Hi. apply B. lia.
Qed.
Lemma skip_loop_ok : forall fuel n s, wf s -> 0 <= n <= bits_available s -> (List.length (pdata s) - char_index s < fuel)%nat ->
  exists k s', r_skip_loop fuel n s = Some (k, s') /\ wf s' /\ 0 <= k <= bits_available_in_char s' /\ k <= bits_available s' /\ (pos s' + Z.to_nat k = pos s + Z.to_nat n)%nat /\ pdata s' = pdata s.
Proof.
  induction fuel as [|fuel IH]; intros n s W Hn Hf; [lia|]. pose proof W as (H1 & H2 & H3 & H4 & H5). cbn [r_skip_loop]. destruct (Z.ltb_spec (bits_available_in_char s) n) as [L|L].
  - destruct (wf_step (bits_available_in_char s) s W) as (W' & P' & D'); [lia|lia|]. pose proof W' as (_ & _ & L' & A' & _). unfold total in *. rewrite D' in *.
    rewrite size_t_id by lia. destruct (IH (n - bits_available_in_char s) (step (bits_available_in_char s) s) W') as (k & s' & E & W2 & K1 & K2 & P2 & D2); [lia| |].
    { rewrite D'. unfold step. cbn [char_index]. rewrite Z.sub_diag. change (0 =? 0) with true. cbv iota. assert (8 * char_index s <= pos s)%nat by (unfold pos; lia). lia. }
    exists k, s'. conj; try assumption; try lia.
  - exists n, s. conj; try assumption; try lia; reflexivity.
Qed.
Lemma r_op_ok e o s L p : rop_ok o -> wf s -> bits_of (pdata s) = L -> pos s = p ->
  exists s', r_op e o s = Some (fst (spec_read (is_big e) o L p), s') /\ wf s' /\ pdata s' = pdata s /\ pos s' = snd (spec_read (is_big e) o L p).
Proof.
  intros Ho W B P. pose proof W as (H1 & H2 & H3 & H4 & H5). assert (Lt : List.length L = total s) by (rewrite <- B, bits_of_length; reflexivity).
  destruct o as [|w n sgn|n|]; cbn [r_op spec_read].
  - unfold read_bool. destruct (Z.ltb_spec 0 (bits_available s)) as [A|A].
    + destruct (get_bit_ok s W A) as (b & E & M). rewrite E. rewrite B, P in M. destruct (wf_step 1 s W) as (W' & P' & D'); [lia|lia|]. exists (step 1 s).
      destruct (skipn p L) as [|c r] eqn:S; [discriminate|]. cbn in M. injection M as <-. cbn [fst snd]. conj; try assumption; [reflexivity|]. lia.
    + assert (S : skipn p L = []) by (apply skipn_all2; lia). rewrite S. exists s. cbn. auto.
  - destruct Ho as [Hw Hn]. pose proof (width_bound w Hw). unfold read. destruct (Z.leb_spec n (bits_available s)), (Nat.leb_spec (p + Z.to_nat n) (List.length L)); try lia.
    + unfold read_value. set (m := Z.min n w). replace (if w <? n then w else n) with m by (unfold m; destruct (Z.ltb_spec w n); lia).
      destruct (get_loop_ok w ltac:(lia) 256 m s 0 W) as (r & s' & E & W' & Wr & M & P' & D'); [unfold m; lia|unfold m; lia|unfold m; lia|]. rewrite E, Z.lor_0_l. rewrite B, P in M.
      set (x := match e with little => reverse_bits w (tr w (r << (w - m))) | big => r end).
      assert (Wx : word m x /\ x = field_number (is_big e) (firstn (Z.to_nat m) (skipn p L))).
      { unfold x, field_number. destruct e; cbn [is_big].
        - destruct (le_read w m r Hw ltac:(unfold m; lia) Wr) as [A1 A2]. split; [exact A1|]. rewrite <- M, rev_msb, <- A2. symmetry. apply number_msb; [unfold m; lia|exact A1].
        - split; [exact Wr|]. rewrite <- M. symmetry. apply number_msb; [unfold m; lia|exact Wr]. }
      destruct Wx as [Wx Ex]. exists s'.
      assert (Ev : match match e with little => if Z.max w 32 <=? w - m then None else Some (reverse_bits w (tr w (r << (w - m)))) | big => Some r end with
          | Some value => if sgn && negb (m =? w) then if m =? 0 then None else let mask := tr w (1 << (m - 1)) in let v := value &&& tr w ((1 << m) - 1) in Some (tr w ((v ^^^ mask) - mask), s') else Some (value, s')
          | None => None end = if sgn && negb (m =? w) then if m =? 0 then None else let mask := tr w (1 << (m - 1)) in let v := x &&& tr w ((1 << m) - 1) in Some (tr w ((v ^^^ mask) - mask), s') else Some (x, s')).
      { unfold x. destruct e; [destruct (Z.leb_spec (Z.max w 32) (w - m)); [unfold m in *; lia|]|]; reflexivity. }
      cbv zeta in Ev |- *. rewrite Ev. clear Ev. assert (Wxw : word w x). { unfold word in *. assert (2 ^ m <= 2 ^ w) by (apply Z.pow_le_mono_r; unfold m; lia). lia. }
      destruct sgn; cbn [andb].
      * assert (Eg : as_signed m x = sg m x) by (apply as_signed_sg; [unfold m; lia|exact Wx]).
        destruct (Z.eqb_spec m w) as [Ew|Nw]; cbn [negb].
        -- cbn [fst snd conv]. rewrite <- Ex, Eg, Ew. conj; try assumption; [reflexivity|lia].
        -- destruct (Z.eqb_spec m 0); [unfold m in *; lia|]. cbv zeta. unfold conv. rewrite sg_tr by lia.
           assert (E1 : tr w (1 << (m - 1)) = 1 << (m - 1)). { apply tr_id. rewrite Z.shiftl_1_l. apply word_pow. unfold m in *; lia. }
           assert (E2 : tr w ((1 << m) - 1) = (1 << m) - 1). { apply tr_id. rewrite Z.shiftl_1_l. unfold word. assert (2 ^ m <= 2 ^ w) by (apply Z.pow_le_mono_r; unfold m; lia). pose proof (Z.pow_pos_nonneg 2 m ltac:(lia) ltac:(unfold m; lia)). lia. }
           rewrite E1, E2. change (sg w ((x &&& ((1 << m) - 1) ^^^ (1 << (m - 1))) - (1 << (m - 1)))) with (sign_extend w x m). rewrite sign_extend_eq by (unfold m; lia).
           cbn [fst snd]. rewrite <- Ex, Eg. conj; try assumption; [reflexivity|lia].
      * cbn [fst snd conv]. rewrite <- Ex, tr_id by exact Wxw. conj; try assumption; [reflexivity|lia].
    + exists s. cbn. auto.
  - cbn in Ho. unfold r_skip. destruct (Z.leb_spec n (bits_available s)), (Nat.leb_spec (p + Z.to_nat n) (List.length L)); try lia.
    + destruct (skip_loop_ok (S (List.length (pdata s))) n s W) as (k & s' & E & W' & K1 & K2 & P' & D'); [lia|lia|]. rewrite E. destruct (Z.eqb_spec k 0) as [->|N].
      * exists s'. cbn [fst snd]. conj; try assumption; [reflexivity|]. lia.
      * destruct (wf_step k s' W') as (W2 & P2 & D2); [lia|lia|]. exists (step k s'). cbn [fst snd]. conj; try assumption; try reflexivity; try congruence; lia.
    + exists s. cbn. auto.
  - destruct (wf_restart s W) as [W' _]. exists (restart s). cbn. auto.
Qed.
Fixpoint r_ops (e : endian) (os : list rop) (s : stream) : option (list result * stream) :=
  match os with
  | [] => Some ([], s)
  | o :: r => match r_op e o s with None => None | Some (x, s) => match r_ops e r s with None => None | Some (xs, s) => Some (x :: xs, s) end end
  end.
Lemma r_ops_ok e os : forall s L p, Forall rop_ok os -> wf s -> bits_of (pdata s) = L -> pos s = p ->
  exists s', r_ops e os s = Some (fst (spec_reads (is_big e) os L p), s') /\ wf s' /\ pdata s' = pdata s /\ pos s' = snd (spec_reads (is_big e) os L p).
Proof.
  induction os as [|o os IH]; intros s L p Ho W B P; [exists s; cbn; auto|]. inversion_clear Ho as [|? ? O1 O2]. destruct (r_op_ok e o s L p O1 W B P) as (s1 & E1 & W1 & D1 & P1).
  cbn [r_ops spec_reads]. rewrite E1. destruct (spec_read (is_big e) o L p) as [x p1]. cbn [fst snd] in *. destruct (IH s1 L p1 O2 W1 ltac:(congruence) P1) as (s2 & E2 & W2 & D2 & P2). rewrite E2.
  destruct (spec_reads (is_big e) os L p1) as [xs p2]. cbn [fst snd] in *. exists s2. conj; auto. congruence.
Qed.
