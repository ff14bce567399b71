(** * C21: bit streams. *)
From Coq Require Import List Arith Lia Bool ZArith.
From Coq Require Import ZifyNat.
From Verif Require Import Util BinaryModel BinarySpec BitLib BinaryProofs BinaryProofs2 BinaryProofs3 BinaryProofs4 BitStreamModel BitStreamSpec BitStreamProofs BitStreamProofs2.
Import ListNotations.
Local Open Scope Z_scope.
Ltac Zify.zify_post_hook ::= Z.div_mod_to_equations.

Definition buffer_ok (buffer : list Z) : Prop := Forall byte_ok buffer /\ 8 * Z.of_nat (List.length buffer) < 2 ^ 64.

Lemma spec_writes_length big os : Forall wop_ok os -> forall L p, (exists k, List.length L = 8 * k)%nat -> (p <= List.length L)%nat ->
  let '(_, (L', p')) := spec_writes big os (L, p) in List.length L' = List.length L /\ (p' <= List.length L)%nat.
Proof.
  induction 1 as [|o os H1 H2 IH]; intros L p HL Hp; [cbn; auto|]. cbn [spec_writes].
  assert (S : let '(_, (L', p')) := spec_write big o (L, p) in List.length L' = List.length L /\ (p' <= List.length L)%nat).
  { unfold spec_write. assert (A : (List.length (put_field big o) <= asked o)%nat). { destruct o; cbn; try lia. rewrite field_length. lia. }
    destruct (Nat.leb_spec (p + asked o) (List.length L)); destruct o; try (split; [reflexivity|lia]); (split; [apply put_bits_length; [exact HL|lia]|lia]). }
  destruct (spec_write big o (L, p)) as [ok [L1 p1]]. destruct S as [S1 S2]. specialize (IH L1 p1). destruct (spec_writes big os (L1, p1)) as [oks [L2 p2]]. rewrite S1 in IH. apply IH; auto.
Qed.
(** the writer (without callback): any history of writes, accepted or not, and restarts *)
Theorem C21_writer : forall e buffer os, buffer_ok buffer -> Forall wop_ok os ->
  let '(oks, (L, p)) := spec_writes (is_big e) os (bits_of buffer, 0%nat) in
  exists x, w_ops os (make_writer e false buffer) = Some (oks, x) /\ bits_of (pdata (ws x)) = L /\ List.length L = List.length (bits_of buffer) /\
    w_size_bits x = Z.of_nat p /\ available_bits x = capacity_bits x - Z.of_nat p /\ w_size_bytes x = (Z.of_nat p + 7) / 8 /\ w_full x = Nat.eqb p (List.length L) /\ calls x = [].
Proof.
  intros e buffer os [Hb Hl] Ho. destruct (wf_make buffer Hb Hl) as [W C].
  destruct (w_ops_ok os (make_writer e false buffer) (bits_of buffer) 0%nat e Ho) as (x & E & I & F1 & F2 & F3); [|reflexivity|reflexivity|].
  { unfold winv. cbn [ws make_writer]. conj; try assumption; reflexivity. }
  pose proof (spec_writes_length (is_big e) os Ho (bits_of buffer) 0%nat (ex_intro _ _ (bits_of_length buffer)) ltac:(lia)) as SL.
  destruct (spec_writes (is_big e) os (bits_of buffer, 0%nat)) as [oks [L p]]. cbn [fst snd] in *. exists x. destruct (winv_observe x L p I) as (O1 & O2 & O3 & O4 & O5 & O6 & O7). rewrite O5. destruct I as (W' & _ & B & _).
  conj; auto. apply SL.
Qed.

(** the reader: any history of reads, skips and restarts; the buffer is not changed *)
Theorem C21_reader : forall e buffer os, buffer_ok buffer -> Forall rop_ok os ->
  exists s, r_ops e os (make buffer) = Some (fst (spec_reads (is_big e) os (bits_of buffer) 0), s) /\ pdata s = buffer.
Proof.
  intros e buffer os [Hb Hl] Ho. destruct (wf_make buffer Hb Hl) as [W C]. destruct (r_ops_ok e os (make buffer) (bits_of buffer) 0%nat Ho W eq_refl eq_refl) as (s & E & _ & D & _). exists s. auto.
Qed.

(** ** round trip *)
Inductive item : Type := Fbool (b : bool) | Fint (w n : Z) (is_signed : bool) (v : Z).
Definition write_of (i : item) : wop := match i with Fbool b => Wbool b | Fint w n sgn v => Wint w n v end.
Definition read_of (i : item) : rop := match i with Fbool b => Rbool | Fint w n sgn v => Rint w n sgn end.
(** the value of the field: the low n bits of the value written, as a signed or unsigned number *)
Definition field_value (i : item) : result :=
  match i with Fbool b => Bool b | Fint w n sgn v => Int (if sgn then as_signed n (v mod 2 ^ n) else v mod 2 ^ n) end.
Definition item_ok (i : item) : Prop := match i with Fbool _ => True | Fint w n _ _ => width w /\ 1 <= n <= w end.
(** the items whose write returned true *)
Fixpoint kept (is : list item) (oks : list bool) : list item :=
  match is, oks with i :: is, ok :: oks => if ok then i :: kept is oks else kept is oks | _, _ => [] end.
Definition field_of (big : bool) (i : item) : list bool := put_field big (write_of i).
Lemma item_wop i : item_ok i -> wop_ok (write_of i).
Proof. destruct i; cbn; [tauto|]. intros [H1 H2]. pose proof (width_bound w H1). split; [exact H1|lia]. Qed.
Lemma item_rop i : item_ok i -> rop_ok (read_of i).
Proof. destruct i; cbn; [tauto|]. intros [H1 H2]. pose proof (width_bound w H1). split; [exact H1|lia]. Qed.
Lemma item_asked big i : item_ok i -> List.length (field_of big i) = asked (write_of i).
Proof. destruct i as [b|w n sgn v]; [reflexivity|]. intros [H1 H2]. unfold field_of. cbn. rewrite field_length. f_equal. lia. Qed.
Lemma firstn_put L p bs : (p + List.length bs <= List.length L)%nat -> firstn (p + List.length bs) (put_bits L p bs) = firstn p L ++ bs.
Proof.
  intros H. unfold put_bits. cbv zeta. rewrite app_assoc, firstn_app. rewrite firstn_all2 by (rewrite app_length, firstn_length; lia).
  replace (p + List.length bs - List.length (firstn p L ++ bs))%nat with 0%nat by (rewrite app_length, firstn_length; lia). cbn [firstn]. apply app_nil_r.
Qed.
Lemma writes_kept big is : Forall item_ok is -> forall L p, (exists k, List.length L = 8 * k)%nat -> (p <= List.length L)%nat ->
  let '(oks, (L', p')) := spec_writes big (map write_of is) (L, p) in
  firstn p' L' = firstn p L ++ flat_map (field_of big) (kept is oks) /\ (p' <= List.length L')%nat /\ List.length L' = List.length L.
Proof.
  induction 1 as [|i is H1 H2 IH]; intros L p HL Hp; [cbn; rewrite app_nil_r; auto|]. cbn [map spec_writes].
  assert (S : let '(ok, (L', p')) := spec_write big (write_of i) (L, p) in List.length L' = List.length L /\ (p' <= List.length L)%nat /\ firstn p' L' = firstn p L ++ if ok then field_of big i else []).
  { assert (E : spec_write big (write_of i) (L, p) = if Nat.leb (p + asked (write_of i)) (List.length L) then (true, (put_bits L p (field_of big i), (p + List.length (field_of big i))%nat)) else (false, (L, p))) by (destruct i; reflexivity).
    rewrite E. rewrite <- (item_asked big i H1). destruct (Nat.leb_spec (p + List.length (field_of big i)) (List.length L)); [|rewrite app_nil_r; auto].
    conj; [apply put_bits_length; assumption|assumption|apply firstn_put; assumption]. }
  destruct (spec_write big (write_of i) (L, p)) as [ok [L1 p1]]. destruct S as (S1 & S2 & S3). specialize (IH L1 p1). rewrite S1 in IH. specialize (IH HL S2). destruct (spec_writes big (map write_of is) (L1, p1)) as [oks [L2 p2]].
  destruct IH as (I1 & I2 & I3). cbn [kept]. conj; [|assumption|assumption]. rewrite I1, S3, <- app_assoc. f_equal. destruct ok; reflexivity.
Qed.
Lemma field_number_field big n v : 0 <= n -> field_number big (field big n v) = v mod 2 ^ n.
Proof.
  intros Hn. assert (E : field_number big (field big n v) = number (msb_first n v)) by (destruct big; reflexivity).
  rewrite E, <- msb_mod by lia. apply number_msb; [lia|]. apply Z.mod_pos_bound. apply Z.pow_pos_nonneg; lia.
Qed.
Lemma reads_kept big is : Forall item_ok is -> forall pre rest,
  fst (spec_reads big (map read_of is) (pre ++ flat_map (field_of big) is ++ rest) (List.length pre)) = map field_value is.
Proof.
  induction 1 as [|i is H1 H2 IH]; intros pre rest; [reflexivity|]. cbn [map spec_reads flat_map].
  assert (S : spec_read big (read_of i) (pre ++ (field_of big i ++ flat_map (field_of big) is) ++ rest) (List.length pre) = (field_value i, List.length (pre ++ field_of big i))).
  { rewrite <- app_assoc. set (tl := flat_map (field_of big) is ++ rest). clearbody tl. rewrite app_length. destruct i as [b|w n sgn v]; cbn [spec_read read_of].
    - rewrite skipn_app, Nat.sub_diag, skipn_all2 by lia. cbn. rewrite Nat.add_1_r. reflexivity.
    - destruct H1 as [Hw Hn]. replace (Z.min n w) with n by lia. unfold field_of. cbn [write_of put_field]. replace (Z.min n w) with n by lia. rewrite field_length.
      rewrite !app_length, field_length. destruct (Nat.leb_spec (List.length pre + Z.to_nat n) (List.length pre + (Z.to_nat n + List.length tl))); [|lia]. cbv zeta.
      rewrite skipn_app, Nat.sub_diag, skipn_all2, app_nil_l by lia. cbn [skipn]. rewrite firstn_app, field_length, Nat.sub_diag. cbn [firstn]. rewrite app_nil_r, firstn_all2 by (rewrite field_length; lia).
      rewrite field_number_field by lia. cbn [field_value]. reflexivity. }
  rewrite S. specialize (IH (pre ++ field_of big i) rest). rewrite <- !app_assoc in IH. rewrite <- app_assoc. destruct (spec_reads big (map read_of is) _ _) as [xs q]. cbn [fst] in *. rewrite IH. reflexivity.
Qed.
Lemma bits_of_firstn n l : bits_of (firstn n l) = firstn (8 * n) (bits_of l).
Proof.
  revert n. induction l as [|b l IH]; intros [|n]; [reflexivity| |reflexivity|].
  - cbn [firstn]. change (bits_of []) with (@nil bool). rewrite firstn_nil. reflexivity.
  - cbn [firstn]. change (bits_of (b :: firstn n l)) with (msb_first 8 b ++ bits_of (firstn n l)). change (bits_of (b :: l)) with (msb_first 8 b ++ bits_of l). rewrite IH, firstn_app, msb_length, (firstn_all2 (msb_first 8 b)) by (rewrite msb_length; lia).
    f_equal. f_equal. lia.
Qed.
(** reading the data of the writer (all of it or only the part used) with the same
    types and widths gives the values of the fields whose write succeeded *)
Theorem C21_round_trip : forall e buffer is, buffer_ok buffer -> Forall item_ok is ->
  exists oks x, w_ops (map write_of is) (make_writer e false buffer) = Some (oks, x) /\
    forall data, data = used_data x \/ data = pdata (ws x) ->
      exists s, r_ops e (map read_of (kept is oks)) (make data) = Some (map field_value (kept is oks), s).
Proof.
  intros e buffer is Hb Hi. assert (Hw : Forall wop_ok (map write_of is)) by (rewrite Forall_map; eapply Forall_impl; [apply item_wop|exact Hi]).
  pose proof Hb as [Hb1 Hb2]. destruct (wf_make buffer Hb1 Hb2) as [W C].
  destruct (w_ops_ok (map write_of is) (make_writer e false buffer) (bits_of buffer) 0%nat e Hw) as (x & E & I & F1 & F2 & F3); [|reflexivity|reflexivity|].
  { unfold winv. cbn [ws make_writer]. conj; try assumption; reflexivity. }
  pose proof (writes_kept (is_big e) is Hi (bits_of buffer) 0%nat (ex_intro _ _ (bits_of_length buffer)) ltac:(lia)) as K.
  destruct (spec_writes (is_big e) (map write_of is) (bits_of buffer, 0%nat)) as [oks [L p]]. cbn [fst snd] in *. exists oks, x. split; [exact E|]. destruct K as (K1 & K2 & K3). cbn [firstn app] in K1.
  destruct (winv_observe x L p I) as (_ & _ & O3 & _). destruct I as (W' & C' & B & P).
  assert (Hk : Forall item_ok (kept is oks)). { clear - Hi. revert oks. induction Hi as [|i is H1 H2 IH]; intros [|ok oks]; try constructor. cbn. destruct ok; [constructor|]; auto. }
  assert (Hr : Forall rop_ok (map read_of (kept is oks))) by (rewrite Forall_map; eapply Forall_impl; [apply item_rop|exact Hk]).
  assert (G : forall data, buffer_ok data -> firstn p (bits_of data) = flat_map (field_of (is_big e)) (kept is oks) -> exists s, r_ops e (map read_of (kept is oks)) (make data) = Some (map field_value (kept is oks), s)).
  { intros data Hd Ed. destruct (C21_reader e data _ Hd Hr) as (s & Es & _). exists s. rewrite Es. do 2 f_equal. rewrite <- (firstn_skipn p (bits_of data)), Ed. apply (reads_kept (is_big e) (kept is oks) Hk []). }
  destruct W' as (_ & D2 & _ & _ & D5). unfold total in D5. intros data [-> | ->]; apply G.
  - unfold used_data. split; [apply Forall_forall; intros z Hz; rewrite Forall_forall in D2; apply D2; rewrite <- (firstn_skipn (Z.to_nat (w_size_bytes x)) (pdata (ws x))); apply in_or_app; auto|rewrite firstn_length; lia].
  - unfold used_data. rewrite bits_of_firstn, B, firstn_firstn, O3. replace (Nat.min p (8 * Z.to_nat ((Z.of_nat p + 7) / 8))) with p by lia. exact K1.
  - split; [exact D2|lia].
  - rewrite B. exact K1.
Qed.
(** a value that fits its field is read back as written *)
Theorem C21_fitting_values : forall w n sgn v, 1 <= n <= w -> (if sgn : bool then signed n v else unsigned n v) -> field_value (Fint w n sgn v) = Int v.
Proof.
  intros w n sgn v Hn H. cbn [field_value]. f_equal. destruct sgn; [|apply Z.mod_small; exact H]. rewrite as_signed_sg by (try lia; apply Z.mod_pos_bound; apply Z.pow_pos_nonneg; lia).
  change (v mod 2 ^ n) with (tr n v). rewrite sg_tr by lia. apply sg_small; [lia|exact H].
Qed.

(** ** Findings *)
(** bit_stream_writer::skip is wrong unless the position is on a byte boundary:
    skipping 10 bits after 5 written moves to bit 10, not 15 *)
Theorem C21_writer_skip_refuted : exists x x', w_ops [Wint 8 5 3] (make_writer big false [0; 0; 0; 0]) = Some ([true], x) /\
  w_skip 10 10 x = Some (true, x') /\ w_size_bits x = 5 /\ w_size_bits x' = 10.
Proof. eexists. eexists. split; [vm_compute; reflexivity|]. split; [vm_compute; reflexivity|]. split; [vm_compute; reflexivity|]. vm_compute; reflexivity. Qed.
(** and skipping over the end of a partly used byte by less than 8 bits makes the
    count wrap below zero: the loop runs past the end of the buffer *)
Theorem C21_writer_skip_underflow_refuted : exists x, w_ops [Wint 8 5 3] (make_writer big false [0; 0; 0; 0]) = Some ([true], x) /\
  available_bits x = 27 /\ forall fuel, 8 * Z.of_nat fuel + 24 < 2 ^ 64 -> w_skip fuel 5 x = None.
Proof.
  eexists. split; [vm_compute; reflexivity|]. split; [reflexivity|].
  assert (G : forall fuel n s, 8 <= bits_available_in_char s <= 8 -> 8 * Z.of_nat fuel + 8 < n < 2 ^ 64 -> w_skip_loop fuel n s = None).
  { induction fuel as [|fuel IH]; intros n s Hs Hn; cbn [w_skip_loop]; destruct (Z.ltb_spec (bits_available_in_char s) n); try lia; [reflexivity|]. cbv zeta.
    assert (E8 : bits_available_in_char (step (bits_available_in_char s) s) = 8) by (unfold step; cbn [bits_available_in_char]; rewrite Z.sub_diag; reflexivity).
    rewrite E8. rewrite size_t_id by lia. apply IH; lia. }
  intros fuel Hf. unfold w_skip. match goal with |- context [w_skip_loop fuel 5 ?s] => set (s0 := s) end. replace (w_skip_loop fuel 5 s0) with (@None (Z * stream)); [reflexivity|].
  destruct fuel as [|fuel]; [reflexivity|]. cbn [w_skip_loop]. change (bits_available_in_char s0 <? 5) with true. cbv iota zeta. change (bits_available_in_char (step (bits_available_in_char s0) s0)) with 8.
  symmetry. apply G; [change (bits_available_in_char (step (bits_available_in_char s0) s0)) with 8; lia|]. change (size_t (5 - 8)) with (2 ^ 64 - 3). lia.
Qed.
(** a skip into the middle of a byte that was not zero lets the old bits show through later writes *)
Theorem C21_write_after_skip_refuted : exists x x' x'', w_skip 10 4 (make_writer big false [255]) = Some (true, x) /\ write 8 0 4 x = Some (true, x') /\ pdata (ws x') = [255] /\
  write 8 0 4 (make_writer big false [255]) = Some (true, x'') /\ pdata (ws x'') = [0].
Proof. do 3 eexists. split; [vm_compute; reflexivity|]. split; [vm_compute; reflexivity|]. split; [vm_compute; reflexivity|]. split; [vm_compute; reflexivity|]. vm_compute; reflexivity. Qed.
(** empty() of a fresh writer is false (it compares bits with bytes), and true of a writer with 28 of 32 bits used *)
Theorem C21_writer_empty_refuted : w_empty (make_writer big false [0; 0; 0; 0]) = false /\
  exists oks x, w_ops [Wint 32 28 5] (make_writer big false [0; 0; 0; 0]) = Some (oks, x) /\ w_empty x = true /\ w_size_bits x = 28.
Proof. split; [reflexivity|]. do 2 eexists. split; [vm_compute; reflexivity|]. split; [vm_compute; reflexivity|]. vm_compute; reflexivity. Qed.
(** write(value, 0) divides by zero *)
Theorem C21_write_zero_bits_refuted : forall w v x, write w v 0 x = None.
Proof. reflexivity. Qed.

(** where skip is right: on a byte boundary, by whole bytes *)
Theorem C21_writer_skip_aligned : forall x L p n, winv x L p -> (p mod 8 = 0)%nat -> 0 <= n -> n mod 8 = 0 ->
  exists x', w_skip (S (Z.to_nat n)) n x = Some (Nat.leb (p + Z.to_nat n) (List.length L), x') /\
    winv x' L (if Nat.leb (p + Z.to_nat n) (List.length L) then p + Z.to_nat n else p).
Proof.
  intros x L p n (W & C & B & P) Hp Hn Hm. pose proof W as (H1 & H2 & H3 & H4 & H5). assert (Lt : List.length L = total (ws x)) by (rewrite <- B, bits_of_length; reflexivity).
  unfold w_skip, available_bits. destruct (Z.leb_spec n (bits_available (ws x))), (Nat.leb_spec (p + Z.to_nat n) (List.length L)); try lia; [|exists x; split; [reflexivity|exact (conj W (conj C (conj B P)))]].
  assert (G : forall fuel n s, wf s -> (pos s mod 8 = 0)%nat -> 0 <= n <= bits_available s -> n mod 8 = 0 -> n < Z.of_nat fuel ->
    exists k s', w_skip_loop fuel n s = Some (k, s') /\ wf s' /\ (k = 0 \/ k = 8) /\ k <= bits_available s' /\ bits_available_in_char s' = 8 /\ (pos s' + Z.to_nat k = pos s + Z.to_nat n)%nat /\ pdata s' = pdata s).
  { clear. induction fuel as [|fuel IH]; intros n s W Hp Hn Hm Hf; [lia|]. pose proof W as (H1 & H2 & H3 & H4 & H5). assert (K : bits_available_in_char s = 8) by (unfold pos in Hp; lia).
    cbn [w_skip_loop]. destruct (Z.ltb_spec (bits_available_in_char s) n) as [Lt|Lt].
    - destruct (wf_step (bits_available_in_char s) s W) as (W' & P' & D'); [lia|lia|]. pose proof W' as (_ & _ & L' & A' & _). unfold total in *. rewrite D' in *.
      assert (K' : bits_available_in_char (step (bits_available_in_char s) s) = 8) by (unfold step; cbn [bits_available_in_char]; rewrite Z.sub_diag; reflexivity). cbv zeta. rewrite K'. rewrite size_t_id by lia.
      destruct (IH (n - 8) (step (bits_available_in_char s) s) W') as (k & s' & E & W2 & K1 & K2 & K3 & P2 & D2); [lia|lia|lia|lia|]. exists k, s'. conj; try assumption; try lia.
    - exists n, s. conj; try assumption; try lia; reflexivity. }
  destruct (G (S (Z.to_nat n)) n (ws x) W) as (k & s' & E & W' & K1 & K2 & K3 & P' & D'); [lia|lia|exact Hm|lia|]. rewrite E. eexists. split; [reflexivity|].
  destruct (Z.eqb_spec k 0) as [->|N].
  - unfold winv. cbn [ws set_ws]. conj; [exact W'| |congruence|lia]. unfold clean. intros. lia.
  - destruct (wf_step k s' W') as (W2 & P2 & D2); [lia|lia|]. unfold winv. cbn [ws set_ws]. conj; [exact W2| |congruence|lia].
    unfold clean, step. cbn [bits_available_in_char]. replace (bits_available_in_char s' - k) with 0 by lia. change (0 =? 0) with true. cbv iota. intros. lia.
Qed.

(** ** Writing through a callback: what the callback gets *)
(** every field leaves room for at least one byte *)
Definition field_fits (buffer : list Z) (o : wop) : Prop := Z.of_nat (asked o) + 8 <= 8 * Z.of_nat (List.length buffer).
Definition no_restart (o : wop) : Prop := match o with Wrestart => False | _ => True end.
Definition cinv (x : writer) (n : nat) (out : list bool) : Prop :=
  wf (ws x) /\ clean (ws x) /\ char_index (ws x) = 0%nat /\ List.length (pdata (ws x)) = n /\
  bits_of (concat (calls x)) ++ firstn (pos (ws x)) (bits_of (pdata (ws x))) = out.
Lemma flush_full_ok s e cl : wf s -> clean s -> (char_index s < List.length (pdata s))%nat ->
  exists x, flush_full_bytes {| ws := s; stream_endianness := e; callback := true; calls := cl |} = Some x /\ stream_endianness x = e /\ callback x = true /\
    wf (ws x) /\ clean (ws x) /\ char_index (ws x) = 0%nat /\ List.length (pdata (ws x)) = List.length (pdata s) /\
    bits_of (concat (calls x)) ++ firstn (pos (ws x)) (bits_of (pdata (ws x))) = bits_of (concat cl) ++ firstn (pos s) (bits_of (pdata s)).
Proof.
  intros W C Hi. pose proof W as (H1 & H2 & H3 & H4 & H5). unfold flush_full_bytes. cbn [ws]. destruct (char_index s) as [|i] eqn:Ei.
  { eexists. split; [reflexivity|]. cbn [ws stream_endianness callback calls]. conj; try reflexivity; assumption. }
  rewrite <- Ei in *. destruct (Nat.ltb_spec (List.length (pdata s)) (char_index s)); [lia|]. set (k := bits_available_in_char s) in *. destruct (Z.eqb_spec k 0); [lia|]. cbn [negb].
  destruct (nth_error (pdata s) (char_index s)) as [b|] eqn:Hb; [|apply nth_error_None in Hb; lia].
  destruct (pdata s) as [|b0 tl] eqn:Ed; [cbn in Hi; lia|]. cbn [upd]. eexists. split; [reflexivity|]. cbn [ws stream_endianness callback calls pdata bits_available_in_char char_index].
  assert (Bb : byte_ok b) by (rewrite Forall_forall in H2; apply H2; eapply nth_error_In; exact Hb). cbn [List.length] in *.
  conj; try reflexivity.
  - unfold wf, pos, total, length_chars in *. cbn [pdata bits_available_in_char char_index bits_available List.length]. rewrite Ed in *. cbn [List.length] in *. fold k. fold k in H3, H4. conj; try lia.
    + inversion_clear H2. constructor; assumption.
    + rewrite !size_t_id by (try rewrite size_t_id by lia; lia). lia.
  - unfold clean. cbn [pdata bits_available_in_char char_index nth_error]. intros b1 Hb1 Hk. injection Hb1 as <-. apply (C b); [rewrite Ed; exact Hb|exact Hk].
  - unfold pos. cbn [pdata bits_available_in_char char_index]. fold k. rewrite concat_app, bits_of_app. cbn [concat]. rewrite app_nil_r, <- app_assoc. f_equal.
    rewrite bits_of_firstn. rewrite <- Ed in *. rewrite (split_at _ _ _ Hb) at 2. rewrite bits_of_app, bits_of_firstn. rewrite firstn_app.
    assert (L8 : List.length (firstn (8 * char_index s) (bits_of (pdata s))) = (8 * char_index s)%nat) by (rewrite firstn_length, bits_of_length; rewrite Ed; cbn [List.length]; lia).
    rewrite L8. rewrite (firstn_all2 (firstn _ _)) by lia. f_equal. replace (8 * char_index s + Z.to_nat (8 - k) - 8 * char_index s)%nat with (8 * 0 + Z.to_nat (8 - k))%nat by lia. rewrite Nat.mul_0_r, Nat.add_0_l.
    change (bits_of (b :: tl)) with (msb_first 8 b ++ bits_of tl). change (bits_of (b :: skipn (S (char_index s)) (pdata s))) with (msb_first 8 b ++ bits_of (skipn (S (char_index s)) (pdata s))).
    rewrite !firstn_app, msb_length. replace (Z.to_nat (8 - k) - Z.to_nat 8)%nat with 0%nat by lia. reflexivity.
Qed.

Lemma c_op_ok o x n out e : wop_ok o -> no_restart o -> Z.of_nat (asked o) + 8 <= 8 * Z.of_nat n -> cinv x n out -> stream_endianness x = e -> callback x = true ->
  exists x', w_op o x = Some (true, x') /\ cinv x' n (out ++ put_field (is_big e) o) /\ stream_endianness x' = e /\ callback x' = true.
Proof.
  intros Ho Hr Hf (W & C & I0 & Ln & Out) He Hc. destruct x as [s e' cb cl]. cbn [ws stream_endianness callback calls] in *. subst e' cb. pose proof W as (H1 & H2 & H3 & H4 & H5). unfold total in *.
  assert (P8 : (pos s < 8)%nat) by (unfold pos; rewrite I0; lia).
  assert (G : forall w m v, width w -> 1 <= m <= 255 -> m + 8 <= 8 * Z.of_nat n ->
    exists x', write w v m {| ws := s; stream_endianness := e; callback := true; calls := cl |} = Some (true, x') /\ cinv x' n (out ++ field (is_big e) (Z.min m w) v) /\ stream_endianness x' = e /\ callback x' = true).
  { intros w m v Hw Hm Hmf. pose proof (avail_pos m {| ws := s; stream_endianness := e; callback := true; calls := cl |} ltac:(lia)) as A. cbn [ws] in A. destruct (A ltac:(lia)) as [A1 A2].
    unfold write. rewrite A1, A2. destruct (Z.leb_spec m (bits_available s)); [|lia]. destruct (data_ok w v m e s Hw Hm W C ltac:(lia)) as (s' & W' & C' & P' & T' & B' & E). rewrite E. cbv zeta. cbv iota.
    unfold total in T'. assert (Ln' : List.length (pdata s') = n) by lia. assert (Ci : (char_index s' < List.length (pdata s'))%nat) by (unfold pos in P'; rewrite Ln'; unfold pos in P8; lia).
    destruct (flush_full_ok s' e cl W' C' Ci) as (x' & Ef & F1 & F2 & W2 & C2 & I2 & L2 & O2). rewrite Ef. exists x'. split; [reflexivity|]. conj; [|exact F1|exact F2].
    unfold cinv. conj; try assumption; [lia|]. rewrite O2, B', P'. rewrite <- Out, <- app_assoc. f_equal. pose proof (firstn_put (bits_of (pdata s)) (pos s) (field (is_big e) (Z.min m w) v)) as FP. rewrite field_length in FP. apply FP. rewrite bits_of_length. lia. }
  destruct o as [b|w m v|]; [| |contradiction].
  - destruct (G 8 1 (if b then 1 else 0)) as (x' & E & I); [unfold width; tauto|lia|exact Hf|]. exists x'. cbn [w_op put_field].
    assert (Ew : write_bool b {| ws := s; stream_endianness := e; callback := true; calls := cl |} = write 8 (if b then 1 else 0) 1 {| ws := s; stream_endianness := e; callback := true; calls := cl |}).
    { unfold write_bool, write. destruct (available _ _); [|reflexivity]. destruct (0 <? z); [|reflexivity]. replace (tr 8 (if b then 1 else 0)) with (if b then 1 else 0) by (destruct b; reflexivity). reflexivity. }
    rewrite Ew, E. assert (Ef : field (is_big e) (Z.min 1 8) (if b then 1 else 0) = [b]) by (destruct (is_big e), b; reflexivity). rewrite Ef in I. split; [reflexivity|exact I].
  - destruct Ho as [Hw Hm]. cbn [asked] in Hf. destruct (G w m v Hw Hm ltac:(lia)) as (x' & E & I). exists x'. cbn [w_op put_field]. split; [exact E|exact I].
Qed.
Lemma c_ops_ok os : forall x n out e, Forall wop_ok os -> Forall no_restart os -> Forall (fun o => Z.of_nat (asked o) + 8 <= 8 * Z.of_nat n) os -> cinv x n out -> stream_endianness x = e -> callback x = true ->
  exists x', w_ops os x = Some (map (fun _ => true) os, x') /\ cinv x' n (out ++ flat_map (put_field (is_big e)) os) /\ stream_endianness x' = e /\ callback x' = true.
Proof.
  induction os as [|o os IH]; intros x n out e H1 H2 H3 I He Hc; [exists x; cbn; rewrite app_nil_r; auto|]. inversion_clear H1. inversion_clear H2. inversion_clear H3.
  destruct (c_op_ok o x n out e) as (x1 & E1 & I1 & F1 & F2); try assumption. destruct (IH x1 n (out ++ put_field (is_big e) o) e) as (x2 & E2 & I2 & F3 & F4); try assumption.
  exists x2. cbn [w_ops map flat_map]. rewrite E1, E2. rewrite <- app_assoc in I2. auto.
Qed.
(** with a callback every write of a field that leaves room for one byte succeeds, and
    what the callback got followed by the bits still in the buffer is what was written *)
Theorem C21_callback : forall e buffer os, buffer_ok buffer -> Forall wop_ok os -> Forall no_restart os -> Forall (field_fits buffer) os ->
  exists x, w_ops os (make_writer e true buffer) = Some (map (fun _ => true) os, x) /\ w_size_bits x < 8 /\
    bits_of (concat (calls x)) ++ firstn (Z.to_nat (w_size_bits x)) (bits_of (pdata (ws x))) = flat_map (put_field (is_big e)) os.
Proof.
  intros e buffer os [Hb Hl] H1 H2 H3. destruct (wf_make buffer Hb Hl) as [W C]. destruct (c_ops_ok os (make_writer e true buffer) (List.length buffer) [] e H1 H2 H3) as (x & E & (W' & C' & I0 & Ln & Out) & _ & _); [|reflexivity|reflexivity|].
  { unfold cinv. cbn [ws make_writer]. conj; try assumption; try reflexivity. }
  exists x. split; [exact E|]. destruct (winv_observe x _ _ (conj W' (conj C' (conj eq_refl eq_refl)))) as (O1 & _). rewrite O1, Nat2Z.id. split; [|exact Out]. destruct W' as (H & _). unfold pos. rewrite I0. lia.
Qed.
(** flush() gives the callback the last, partly used, byte *)
Theorem C21_flush : forall e buffer os, buffer_ok buffer -> Forall wop_ok os -> Forall no_restart os -> Forall (field_fits buffer) os ->
  let all := flat_map (put_field (is_big e)) os in (List.length all mod 8 <> 0)%nat ->
  exists x x', w_ops os (make_writer e true buffer) = Some (map (fun _ => true) os, x) /\ flush x = Some x' /\ w_size_bits x' = 0 /\ bits_of (concat (calls x')) = all ++ repeat false (pad (List.length all)).
Proof.
  intros e buffer os [Hb Hl] H1 H2 H3 all Hm. destruct (wf_make buffer Hb Hl) as [W C]. destruct (c_ops_ok os (make_writer e true buffer) (List.length buffer) [] e H1 H2 H3) as (x & E & (W' & C' & I0 & Ln & Out) & Fe & Fc); [|reflexivity|reflexivity|].
  { unfold cinv. cbn [ws make_writer]. conj; try assumption; try reflexivity. }
  change ([] ++ flat_map (put_field (is_big e)) os) with all in Out. exists x.
  assert (L2 : (2 <= List.length buffer)%nat). { destruct os as [|o os']; [cbn in Hm; congruence|]. inversion_clear H3 as [|? ? F _]. inversion_clear H1 as [|? ? O _]. inversion_clear H2 as [|? ? N _]. unfold field_fits in F. destruct o; cbn [asked] in F; [lia| |contradiction]. destruct O; lia. }
  pose proof W' as (K1 & K2 & K3 & K4 & K5). set (s := ws x) in *. destruct (pdata s) as [|b0 [|b1 tl]] eqn:Ed; try (cbn in Ln; lia).
  assert (Kp : pos s = Z.to_nat (8 - bits_available_in_char s)) by (unfold pos; rewrite I0; lia).
  assert (Lall : (List.length all = 8 * List.length (concat (calls x)) + pos s)%nat).
  { rewrite <- Out, app_length, bits_of_length, firstn_length, bits_of_length. cbn [List.length]. lia. }
  assert (Kb : bits_available_in_char s < 8) by lia.
  eexists. split; [exact E|]. unfold flush. rewrite Fc. unfold flush_full_bytes. cbn [ws set_ws char_index pdata bits_available_in_char]. fold s. rewrite Ed. cbn [List.length]. change (Nat.ltb (S (S (List.length tl))) 1) with false. cbv iota.
  destruct (Z.eqb_spec (bits_available_in_char s) 0); [lia|]. cbn [negb nth_error upd]. split; [reflexivity|]. split.
  - unfold w_size_bits, capacity_bits, available_bits, w_restart, set_ws, restart, length_chars. cbn [ws pdata bits_available List.length]. rewrite Z.mul_comm, Z.sub_diag. reflexivity.
  - cbn [w_restart set_ws calls callback stream_endianness]. assert (Epad : pad (List.length all) = Z.to_nat (bits_available_in_char s)) by (unfold pad; rewrite Lall, Kp; lia).
    assert (Z0 : msb_first (bits_available_in_char s) b0 = repeat false (Z.to_nat (bits_available_in_char s))). { apply low_zero; [lia|]. apply (C' b0); [rewrite I0, Ed; reflexivity|exact Kb]. }
    rewrite Epad, concat_app, bits_of_app. cbn [concat firstn app]. change (bits_of [b0]) with (msb_first 8 b0 ++ []). rewrite app_nil_r, <- Out, <- app_assoc. f_equal.
    change (bits_of (b0 :: b1 :: tl)) with (msb_first 8 b0 ++ bits_of (b1 :: tl)). rewrite firstn_app, msb_length. replace (pos s - Z.to_nat 8)%nat with 0%nat by lia. cbn [firstn]. rewrite app_nil_r.
    rewrite (byte_split b0 (bits_available_in_char s)) by lia. rewrite Z0, firstn_app, msb_length, Kp, Nat.sub_diag. cbn [firstn]. rewrite app_nil_r, firstn_all2 by (rewrite msb_length; lia). reflexivity.
Qed.
(** a write that fills the buffer to its very end makes the class read one byte behind the buffer *)
Theorem C21_callback_exact_fill_refuted : forall v, 0 <= v < 256 -> write 8 v 8 (make_writer big true [0]) = None.
Proof.
  intros v Hv. unfold write. cbn [available]. change (bits_available (ws (make_writer big true [0])) / 8) with 1. cbv iota beta.
  destruct (data_ok 8 v 8 big (make [0])) as (s' & W' & C' & P' & T' & B' & E); [unfold width; tauto|lia|apply wf_make; [repeat constructor; unfold byte_ok; lia|cbn; lia]..|cbn; lia|].
  change (available 8 (make_writer big true [0])) with (Some 1). cbv iota beta. change (0 <? 1) with true. cbv iota. unfold make_writer. rewrite E. cbv zeta iota. unfold flush_full_bytes. cbn [ws].
  change (pos (make [0])) with 0%nat in P'. change (Z.to_nat (Z.min 8 8)) with 8%nat in P'. destruct W' as (K1 & _). unfold pos in P'. assert (Ci : char_index s' = 1%nat) by lia. rewrite Ci.
  change (total (make [0])) with 8%nat in T'. unfold total in T'. destruct (pdata s') as [|b [|b' tl]]; cbn [List.length] in T'; try lia. cbn. destruct (negb (bits_available_in_char s' =? 0)) eqn:N; [reflexivity|]. destruct (Z.eqb_spec (bits_available_in_char s') 0); [lia|discriminate].
Qed.
(** flush() with nothing pending gives the callback a byte that was never written *)
Theorem C21_flush_nothing_refuted : exists x', flush (make_writer big true [7; 8; 9]) = Some x' /\ calls x' = [[7]].
Proof. eexists. split; [vm_compute; reflexivity|]. reflexivity. Qed.

(** ** bit_stream *)
Definition b_op (o : wop) (s : stream) : option (bool * stream) :=
  match o with Wbool b => put_bool b s | Wint w n v => put w v n s | Wrestart => Some (true, restart s) end.
Fixpoint b_ops (os : list wop) (s : stream) : option (list bool * stream) :=
  match os with
  | [] => Some ([], s)
  | o :: r => match b_op o s with None => None | Some (ok, s) => match b_ops r s with None => None | Some (oks, s) => Some (ok :: oks, s) end end
  end.
Definition field_in_type (o : wop) : Prop := match o with Wint w n _ => width w /\ 1 <= n <= w | _ => True end.
Definition get_in_type (o : rop) : Prop := match o with Rint w n _ => width w /\ 1 <= n <= w | Rskip _ => False | _ => True end.
(** [old]: what the caller's variable holds before each get *)
Definition g_op (old : Z) (o : rop) (s : stream) : option (result * stream) :=
  match o with
  | Rbool => match get_bool (Z.odd old) s with Some (ok, b, s) => Some (if ok then Bool b else Nothing, s) | None => None end
  | Rint w n sgn => match get w sgn old n s with Some (ok, v, s) => Some (if ok then Int v else Nothing, s) | None => None end
  | Rskip _ => None
  | Rrestart => Some (Done true, restart s)
  end.
Fixpoint g_ops (old : Z) (os : list rop) (s : stream) : option (list result * stream) :=
  match os with
  | [] => Some ([], s)
  | o :: r => match g_op old o s with None => None | Some (x, s) => match g_ops old r s with None => None | Some (xs, s) => Some (x :: xs, s) end end
  end.
Definition binv (s : stream) (L : list bool) (p : nat) : Prop := wf s /\ clean s /\ bits_of (pdata s) = L /\ pos s = p.
Lemma b_op_ok o s L p : field_in_type o -> binv s L p ->
  exists s', b_op o s = Some (fst (spec_write true o (L, p)), s') /\ binv s' (fst (snd (spec_write true o (L, p)))) (snd (snd (spec_write true o (L, p)))).
Proof.
  intros Ho (W & C & B & P). pose proof W as (H1 & H2 & H3 & H4 & H5). assert (Lt : List.length L = total s) by (rewrite <- B, bits_of_length; reflexivity).
  assert (G : forall w n v, 8 <= w -> 1 <= n <= 64 -> n <= w -> exists s', put_integral w v n s = Some (Nat.leb (p + Z.to_nat n) (List.length L), s') /\
     if Nat.leb (p + Z.to_nat n) (List.length L) then binv s' (put_bits L p (msb_first n v)) (p + Z.to_nat n) else binv s' L p).
  { intros w n v Hw Hn Hnw. unfold put_integral. destruct (Z.leb_spec n (bits_available s)), (Nat.leb_spec (p + Z.to_nat n) (List.length L)); try lia.
    - destruct (put_loop_ok w v Hw 256 n s W C) as (s' & E & W' & C' & P' & T' & B'); [lia|lia|lia|]. rewrite E. exists s'. split; [reflexivity|]. unfold binv. conj; try assumption; [rewrite B', B, P; reflexivity|lia].
    - exists s. split; [reflexivity|]. exact (conj W (conj C (conj B P))). }
  destruct o as [b|w n v|].
  - cbn [b_op]. unfold put_bool. destruct (G 32 1 (if b then 1 else 0)) as (s' & E & I); [lia|lia|lia|]. change (Z.to_nat 1) with 1%nat in *. unfold spec_write. cbn [asked put_field].
    destruct (Z.ltb_spec 0 (bits_available s)), (Nat.leb_spec (p + 1) (List.length L)); try lia.
    + rewrite E. exists s'. split; [reflexivity|]. replace (msb_first 1 (if b then 1 else 0)) with [b] in I by (destruct b; reflexivity). exact I.
    + exists s. split; [reflexivity|]. exact (conj W (conj C (conj B P))).
  - destruct Ho as [Hw Hn]. pose proof (width_bound w Hw). cbn [b_op]. unfold spec_write. cbn [asked put_field]. replace (Z.min n w) with n by lia. cbn [field]. rewrite msb_length.
    set (W0 := if w =? 64 then 64 else 32). assert (EW : put w v n s = put_integral W0 (tr W0 v) n s) by (unfold put, W0; destruct (w =? 64); reflexivity).
    assert (HW : n <= W0 /\ 32 <= W0) by (unfold W0; unfold width in Hw; destruct (Z.eqb_spec w 64); lia). destruct (G W0 n (tr W0 v)) as (s' & E & I); [lia|lia|lia|]. rewrite EW, E. exists s'. rewrite msb_tr in I by lia.
    destruct (Nat.leb_spec (p + Z.to_nat n) (List.length L)); (split; [reflexivity|exact I]).
  - destruct (wf_restart s W) as [W' C']. exists (restart s). split; [reflexivity|]. unfold binv. cbn [fst snd spec_write]. conj; try assumption; reflexivity.
Qed.
Lemma b_ops_ok os : forall s L p, Forall field_in_type os -> binv s L p ->
  exists s', b_ops os s = Some (fst (spec_writes true os (L, p)), s') /\ binv s' (fst (snd (spec_writes true os (L, p)))) (snd (snd (spec_writes true os (L, p)))).
Proof.
  induction os as [|o os IH]; intros s L p Ho I; [exists s; cbn; auto|]. inversion_clear Ho as [|? ? O1 O2]. destruct (b_op_ok o s L p O1 I) as (s1 & E1 & I1). cbn [b_ops spec_writes]. rewrite E1.
  destruct (spec_write true o (L, p)) as [ok [L1 p1]]. cbn [fst snd] in *. destruct (IH s1 L1 p1 O2 I1) as (s2 & E2 & I2). rewrite E2. destruct (spec_writes true os (L1, p1)) as [oks [L2 p2]]. exists s2. auto.
Qed.
Lemma g_op_ok old o s L p : get_in_type o -> wf s -> bits_of (pdata s) = L -> pos s = p ->
  exists s', g_op old o s = Some (fst (spec_read true o L p), s') /\ wf s' /\ pdata s' = pdata s /\ pos s' = snd (spec_read true o L p).
Proof.
  intros Ho W B P. pose proof W as (H1 & H2 & H3 & H4 & H5). assert (Lt : List.length L = total s) by (rewrite <- B, bits_of_length; reflexivity).
  destruct o as [|w n sgn|n|]; cbn [g_op spec_read]; [| |contradiction|].
  - unfold get_bool. destruct (Z.ltb_spec 0 (bits_available s)) as [A|A].
    + destruct (get_bit_ok s W A) as (b & E & M). rewrite E. rewrite B, P in M. destruct (wf_step 1 s W) as (W' & P' & D'); [lia|lia|]. exists (step 1 s).
      destruct (skipn p L) as [|c r] eqn:S; [discriminate|]. cbn in M. injection M as <-. cbn [fst snd]. conj; try assumption; [reflexivity|]. lia.
    + assert (S : skipn p L = []) by (apply skipn_all2; lia). rewrite S. exists s. cbn. auto.
  - destruct Ho as [Hw Hn]. pose proof (width_bound w Hw). unfold get. replace (Z.min n w) with n by lia. destruct (Z.leb_spec n (bits_available s)), (Nat.leb_spec (p + Z.to_nat n) (List.length L)); try lia.
    + destruct (get_loop_ok w ltac:(lia) 256 n s 0 W) as (r & s' & E & W' & Wr & M & P' & D'); [lia|lia|lia|]. rewrite E, Z.lor_0_l. rewrite B, P in M. exists s'.
      assert (Ex : r = field_number true (firstn (Z.to_nat n) (skipn p L))). { unfold field_number. rewrite <- M. symmetry. apply number_msb; [lia|exact Wr]. }
      assert (Ww : word w r). { unfold word in *. assert (2 ^ n <= 2 ^ w) by (apply Z.pow_le_mono_r; lia). lia. }
      cbn [fst snd]. rewrite <- Ex. destruct sgn; cbn [andb].
      * rewrite as_signed_sg by (try lia; exact Wr). destruct (Z.eqb_spec n w) as [Ew|Nw]; cbn [negb].
        -- unfold conv. rewrite Ew. conj; try assumption; [reflexivity|lia].
        -- destruct (Z.eqb_spec n 0); [lia|]. destruct (Z.ltb_spec w n); [lia|]. unfold conv. assert (Et : tr w (sg w r) = r) by (unfold tr; rewrite sg_mod by lia; apply Z.mod_small; exact Ww).
           rewrite Et, sign_extend_eq by lia. conj; try assumption; [reflexivity|lia].
      * unfold conv. rewrite tr_id by exact Ww. conj; try assumption; [reflexivity|lia].
    + exists s. cbn [fst snd]. destruct sgn; cbn [andb]; [|conj; auto]. destruct (Z.eqb_spec n w); cbn [negb]; [conj; auto|]. destruct (Z.eqb_spec n 0); [lia|]. destruct (Z.ltb_spec w n); [lia|]. conj; auto.
  - destruct (wf_restart s W) as [W' _]. exists (restart s). cbn. auto.
Qed.
Lemma g_ops_ok old os : forall s L p, Forall get_in_type os -> wf s -> bits_of (pdata s) = L -> pos s = p ->
  exists s', g_ops old os s = Some (fst (spec_reads true os L p), s') /\ wf s' /\ pdata s' = pdata s.
Proof.
  induction os as [|o os IH]; intros s L p Ho W B P; [exists s; cbn; auto|]. inversion_clear Ho as [|? ? O1 O2]. destruct (g_op_ok old o s L p O1 W B P) as (s1 & E1 & W1 & D1 & P1).
  cbn [g_ops spec_reads]. rewrite E1. destruct (spec_read true o L p) as [x p1]. cbn [fst snd] in *. destruct (IH s1 L p1 O2 W1 ltac:(congruence) P1) as (s2 & E2 & W2 & D2). rewrite E2.
  destruct (spec_reads true os L p1) as [xs p2]. cbn [fst snd] in *. exists s2. conj; auto. congruence.
Qed.
Theorem C21_bit_stream_put : forall buffer os, buffer_ok buffer -> Forall field_in_type os ->
  let '(oks, (L, p)) := spec_writes true os (bits_of buffer, 0%nat) in
  exists s, b_ops os (make buffer) = Some (oks, s) /\ bits_of (pdata s) = L /\ bits s = Z.of_nat p /\ size s = (Z.of_nat p + 7) / 8 /\ at_end s = Nat.eqb p (List.length L).
Proof.
  intros buffer os [Hb Hl] Ho. destruct (wf_make buffer Hb Hl) as [W C]. destruct (b_ops_ok os (make buffer) (bits_of buffer) 0%nat Ho) as (s & E & I); [exact (conj W (conj C (conj eq_refl eq_refl)))|].
  destruct (spec_writes true os (bits_of buffer, 0%nat)) as [oks [L p]]. cbn [fst snd] in *. exists s. split; [exact E|].
  destruct (winv_observe {| ws := s; stream_endianness := big; callback := false; calls := [] |} L p I) as (O1 & O2 & O3 & O4 & O5 & _). destruct I as (W' & C' & B' & P').
  unfold w_size_bits, w_size_bytes, w_full, available_bits in *. cbn [ws] in *. conj; auto. unfold bits. unfold capacity_bits, length_chars in *. cbn [ws] in *. rewrite <- O1. destruct W' as (_ & _ & _ & _ & H5). unfold total in H5. rewrite (size_t_id (Z.of_nat (List.length (pdata s)) * 8)) by lia. reflexivity.
Qed.
Theorem C21_bit_stream_get : forall old buffer os, buffer_ok buffer -> Forall get_in_type os ->
  exists s, g_ops old os (make buffer) = Some (fst (spec_reads true os (bits_of buffer) 0), s) /\ pdata s = buffer.
Proof.
  intros old buffer os [Hb Hl] Ho. destruct (wf_make buffer Hb Hl) as [W C]. destruct (g_ops_ok old os (make buffer) (bits_of buffer) 0%nat Ho W eq_refl eq_refl) as (s & E & _ & D). exists s. auto.
Qed.
(** the same stream, restarted, gives back the values put successfully *)
Theorem C21_bit_stream_round_trip : forall old buffer is, buffer_ok buffer -> Forall item_ok is ->
  exists oks s, b_ops (map write_of is) (make buffer) = Some (oks, s) /\
    exists s', g_ops old (map read_of (kept is oks)) (restart s) = Some (map field_value (kept is oks), s').
Proof.
  intros old buffer is [Hb Hl] Hi. destruct (wf_make buffer Hb Hl) as [W C].
  destruct (b_ops_ok (map write_of is) (make buffer) (bits_of buffer) 0%nat) as (s & E & I); [rewrite Forall_map; eapply Forall_impl; [|exact Hi]; intros [b|w n sg v]; cbn; auto|exact (conj W (conj C (conj eq_refl eq_refl)))|].
  pose proof (writes_kept true is Hi (bits_of buffer) 0%nat (ex_intro _ _ (bits_of_length buffer)) ltac:(lia)) as K.
  destruct (spec_writes true (map write_of is) (bits_of buffer, 0%nat)) as [oks [L p]]. cbn [fst snd] in *. exists oks, s. split; [exact E|]. destruct K as (K1 & K2 & K3). cbn [firstn app] in K1. destruct I as (W' & C' & B & P).
  assert (Hk : Forall item_ok (kept is oks)). { clear - Hi. revert oks. induction Hi as [|i is H1 H2 IH]; intros [|ok oks]; try constructor. cbn. destruct ok; [constructor|]; auto. }
  destruct (wf_restart s W') as [W2 _]. destruct (g_ops_ok old (map read_of (kept is oks)) (restart s) L 0%nat) as (s' & E' & _); [rewrite Forall_map; eapply Forall_impl; [|exact Hk]; intros [b|w n sg v]; cbn; auto|exact W2|exact B|reflexivity|].
  exists s'. rewrite E'. do 2 f_equal. rewrite <- (firstn_skipn p L), K1. apply (reads_kept true (kept is oks) Hk []).
Qed.
(** floating point values, as their bytes *)
Lemma put_float_ok bytes : Forall byte_ok bytes -> forall s L p, binv s L p -> (exists k, List.length L = 8 * k)%nat -> (p + 8 * List.length bytes <= List.length L)%nat ->
  exists s' L', put_float bytes s = Some (true, s') /\ binv s' L' (p + 8 * List.length bytes) /\ List.length L' = List.length L /\ firstn (p + 8 * List.length bytes) L' = firstn p L ++ bits_of bytes.
Proof.
  induction 1 as [|b bytes Hb Hr IH]; intros s L p I HL Hp; [exists s, L; cbn; rewrite Nat.add_0_r, app_nil_r; auto|].
  cbn [List.length] in Hp. destruct (b_op_ok (Wint 8 8 b) s L p) as (s1 & E1 & I1); [cbn; unfold width; lia|exact I|].
  assert (ES : spec_write true (Wint 8 8 b) (L, p) = (true, (put_bits L p (msb_first 8 b), (p + 8)%nat))).
  { unfold spec_write. cbn [asked put_field]. change (Z.to_nat 8) with 8%nat. destruct (Nat.leb_spec (p + 8) (List.length L)); [|lia]. change (Z.min 8 8) with 8. cbn [field]. rewrite msb_length. reflexivity. }
  rewrite ES in *. cbn [fst snd] in *. assert (EP : put_integral 32 b 8 s = Some (true, s1)). { cbn [b_op] in E1. unfold put in E1. change (8 =? 64) with false in E1. cbv iota in E1. rewrite tr_id in E1; [exact E1|]. unfold byte_ok in Hb. unfold word. change (2 ^ 32) with 4294967296. lia. }
  assert (PL : List.length (put_bits L p (msb_first 8 b)) = List.length L) by (apply put_bits_length; [exact HL|rewrite msb_length; change (Z.to_nat 8) with 8%nat; lia]).
  destruct (IH s1 (put_bits L p (msb_first 8 b)) (p + 8)%nat I1) as (s2 & L2 & E2 & I2 & N2 & F2); [rewrite PL; exact HL|rewrite PL; lia|].
  exists s2, L2. cbn [put_float List.length]. rewrite EP, E2. conj; [reflexivity|replace (p + 8 * S (List.length bytes))%nat with (p + 8 + 8 * List.length bytes)%nat by lia; exact I2|lia|].
  replace (p + 8 * S (List.length bytes))%nat with (p + 8 + 8 * List.length bytes)%nat by lia. rewrite F2. pose proof (firstn_put L p (msb_first 8 b)) as FP. rewrite msb_length in FP. change (Z.to_nat 8) with 8%nat in FP. rewrite FP by lia.
  rewrite <- app_assoc. reflexivity.
Qed.
Lemma get_bytes_ok bytes : Forall byte_ok bytes -> forall s p, wf s -> pos s = p -> (p + 8 * List.length bytes <= total s)%nat -> firstn (8 * List.length bytes) (skipn p (bits_of (pdata s))) = bits_of bytes ->
  exists s', get_bytes (List.length bytes) s = Some (bytes, s').
Proof.
  induction 1 as [|b bytes Hb Hr IH]; intros s p W P Hp F; [exists s; reflexivity|]. cbn [List.length] in *.
  destruct (g_op_ok 0 (Rint 8 8 false) s (bits_of (pdata s)) p) as (s1 & E1 & W1 & D1 & P1); [cbn; unfold width; lia|exact W|reflexivity|exact P|].
  assert (F8 : firstn 8 (skipn p (bits_of (pdata s))) = msb_first 8 b).
  { replace (firstn 8 (skipn p (bits_of (pdata s)))) with (firstn 8 (firstn (8 * S (List.length bytes)) (skipn p (bits_of (pdata s))))) by (rewrite firstn_firstn; f_equal; lia).
    rewrite F. change (bits_of (b :: bytes)) with (msb_first 8 b ++ bits_of bytes). rewrite firstn_app, msb_length. change (8 - Z.to_nat 8)%nat with 0%nat. change (firstn 0 (bits_of bytes)) with (@nil bool). rewrite app_nil_r. apply firstn_all2. rewrite msb_length. change (Z.to_nat 8) with 8%nat. lia. }
  assert (ES : spec_read true (Rint 8 8 false) (bits_of (pdata s)) p = (Int b, (p + 8)%nat)).
  { unfold spec_read. change (Z.to_nat 8) with 8%nat. destruct (Nat.leb_spec (p + 8) (List.length (bits_of (pdata s)))) as [|Q]; [|rewrite bits_of_length in Q; unfold total in Hp; lia]. cbv zeta. change (Z.to_nat (Z.min 8 8)) with 8%nat.
    rewrite F8. unfold field_number. rewrite number_msb by (try lia; apply byte_word; exact Hb). reflexivity. }
  rewrite ES in *. cbn [fst snd g_op] in *. cbn [get_bytes]. destruct (get 8 false 0 8 s) as [[[ok v] s1']|] eqn:EG; [|discriminate]. destruct ok; [|discriminate]. injection E1 as -> ->.
  destruct (IH s1 (p + 8)%nat W1 P1) as (s2 & E2); [unfold total in *; rewrite D1; lia| |].
  { rewrite D1. rewrite Nat.add_comm, <- skipn_skipn'. set (T := skipn p (bits_of (pdata s))) in *. replace (firstn (8 * List.length bytes) (skipn 8 T)) with (skipn 8 (firstn (8 * S (List.length bytes)) T)).
    - rewrite F. change (bits_of (b :: bytes)) with (msb_first 8 b ++ bits_of bytes). rewrite skipn_app, msb_length. change (8 - Z.to_nat 8)%nat with 0%nat. rewrite skipn_all2 by (rewrite msb_length; change (Z.to_nat 8) with 8%nat; lia). reflexivity.
    - rewrite skipn_firstn_comm. f_equal. lia. }
  exists s2. rewrite E2. reflexivity.
Qed.
Theorem C21_float_round_trip : forall buffer bytes old, buffer_ok buffer -> Forall byte_ok bytes -> (List.length bytes <= List.length buffer)%nat ->
  exists s s', put_float bytes (make buffer) = Some (true, s) /\ get_float (List.length bytes) old (restart s) = Some (true, bytes, s').
Proof.
  intros buffer bytes old [Hb Hl] Hy Hn. destruct (wf_make buffer Hb Hl) as [W C].
  destruct (put_float_ok bytes Hy (make buffer) (bits_of buffer) 0%nat) as (s & L & E & (W1 & C1 & B1 & P1) & N & F); [exact (conj W (conj C (conj eq_refl eq_refl)))|exists (List.length buffer); apply bits_of_length|rewrite bits_of_length; lia|].
  exists s. cbn [firstn app] in F. rewrite Nat.add_0_l in F. destruct (wf_restart s W1) as [W2 _]. assert (Lp : (8 * List.length bytes <= total s)%nat) by (unfold total; pose proof (bits_of_length (pdata s)) as Q; rewrite B1, N, bits_of_length in Q; lia).
  destruct (get_bytes_ok bytes Hy (restart s) 0%nat W2 eq_refl) as (s' & E'); [exact Lp|cbn [skipn]; change (pdata (restart s)) with (pdata s); rewrite B1; exact F|]. exists s'. split; [exact E|].
  unfold get_float. rewrite E'. replace (8 * Z.of_nat (List.length bytes) <=? bits_available (restart s)) with true; [reflexivity|]. symmetry. apply Z.leb_le. destruct W2 as (_ & _ & _ & A & _). rewrite A. change (pos (restart s)) with 0%nat. change (total (restart s)) with (total s). lia.
Qed.
(** a get of a signed type that fails truncates the caller's variable *)
Theorem C21_failed_get_changes_value_refuted : get 32 true 1000 8 (make []) = Some (false, -24, make []).
Proof. reflexivity. Qed.

(** ** the hypotheses are met *)
Example C21_case : buffer_ok [1; 2; 3] /\ Forall item_ok [Fint 16 11 true (-600); Fbool true; Fint 32 3 false 5; Fint 64 20 false 9] /\
  exists oks x, w_ops (map write_of [Fint 16 11 true (-600); Fbool true; Fint 32 3 false 5; Fint 64 20 false 9]) (make_writer little false [1; 2; 3]) = Some (oks, x) /\ oks = [true; true; true; false] /\ pdata (ws x) = [21; 186; 3] /\
  exists s, r_ops little [Rint 16 11 true; Rbool; Rint 32 3 false] (make (used_data x)) = Some ([Int (-600); Bool true; Int 5], s).
Proof.
  split; [split; [repeat constructor; unfold byte_ok; lia|cbn; lia]|]. split; [repeat constructor; cbn; unfold width; try tauto; lia|].
  eexists. eexists. split; [vm_compute; reflexivity|]. split; [reflexivity|]. split; [vm_compute; reflexivity|]. eexists. vm_compute. reflexivity.
Qed.
Example C21_callback_case : Forall (field_fits [0; 0; 0]) [Wint 16 11 5; Wbool true; Wint 16 13 77] /\ (List.length (flat_map (put_field true) [Wint 16 11 5; Wbool true; Wint 16 13 77]) mod 8 = 1)%nat.
Proof. split; [repeat constructor; unfold field_fits; cbn; lia|reflexivity]. Qed.

Print Assumptions C21_writer.
Print Assumptions C21_reader.
Print Assumptions C21_round_trip.
Print Assumptions C21_fitting_values.
Print Assumptions C21_writer_skip_refuted.
Print Assumptions C21_writer_skip_underflow_refuted.
Print Assumptions C21_writer_skip_aligned.
Print Assumptions C21_callback.
Print Assumptions C21_flush.
Print Assumptions C21_bit_stream_put.
Print Assumptions C21_bit_stream_get.
Print Assumptions C21_bit_stream_round_trip.
Print Assumptions C21_float_round_trip.
