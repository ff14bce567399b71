(** * Proofs for base64 *)
From Coq Require Import List Arith Lia Bool String ZArith.
From Verif Require Import Util Slots Cmd Base64Model Base64Spec.
Import ListNotations.
Local Open Scope Z_scope.

(** ** bit level facts *)
Lemma six_bits a : 0 <= a < 64 -> a = number (map (Z.testbit a) [5; 4; 3; 2; 1; 0]).
Proof.
  intros H. assert (forallb (fun a => Z.eqb a (number (map (Z.testbit a) [5; 4; 3; 2; 1; 0]))) (map Z.of_nat (seq 0 64)) = true) by (vm_compute; reflexivity).
  rewrite forallb_forall in H0. apply Z.eqb_eq, H0. apply in_map_iff. exists (Z.to_nat a). split; [lia|]. apply in_seq. lia.
Qed.
Lemma eight_bits a : byte a -> a = number (bits a).
Proof.
  intros H. assert (forallb (fun a => Z.eqb a (number (bits a))) (map Z.of_nat (seq 0 256)) = true) by (vm_compute; reflexivity).
  rewrite forallb_forall in H0. apply Z.eqb_eq, H0. apply in_map_iff. exists (Z.to_nat a). unfold byte in H. split; [lia|]. apply in_seq. lia.
Qed.
Lemma number6_range a b c d e f : 0 <= number [a; b; c; d; e; f] < 64.
Proof. destruct a, b, c, d, e, f; cbn; lia. Qed.
Lemma number6_bits a b c d e f : map (Z.testbit (number [a; b; c; d; e; f])) [5; 4; 3; 2; 1; 0] = [a; b; c; d; e; f].
Proof. destruct a, b, c, d, e, f; reflexivity. Qed.
Lemma land63 x : 0 <= Z.land x 63 < 64.
Proof. change 63 with (Z.ones 6). rewrite Z.land_ones by lia. apply Z.mod_pos_bound. lia. Qed.
Lemma land255 x : byte (Z.land x 255).
Proof. change 255 with (Z.ones 8). rewrite Z.land_ones by lia. apply Z.mod_pos_bound. lia. Qed.
Lemma high_bit n x i : 0 <= x < 2 ^ n -> n <= i -> 0 <= n -> Z.testbit x i = false.
Proof.
  intros H Hi Hn. destruct (Z.eq_dec x 0) as [->|]; [apply Z.bits_0|].
  apply Z.bits_above_log2; [lia|]. apply Z.log2_lt_pow2; [lia|]. apply Z.lt_le_trans with (2 ^ n); [lia|]. apply Z.pow_le_mono_r; lia.
Qed.
Lemma byte_high x i : byte x -> 8 <= i -> Z.testbit x i = false.
Proof. intros H Hi. apply (high_bit 8); [exact H|exact Hi|lia]. Qed.
Lemma six_high x i : 0 <= x < 64 -> 6 <= i -> Z.testbit x i = false.
Proof. intros H Hi. apply (high_bit 6); [exact H|exact Hi|lia]. Qed.
Lemma sextet_eq x l : 0 <= x < 64 -> map (Z.testbit x) [5; 4; 3; 2; 1; 0] = l -> x = number l.
Proof. intros H <-. apply six_bits. exact H. Qed.
Lemma byte_eq x y : byte x -> byte y -> bits x = bits y -> x = y.
Proof. intros Hx Hy E. rewrite (eight_bits x Hx), (eight_bits y Hy), E. reflexivity. Qed.

Ltac norm_idx := repeat match goal with
  | |- context [Z.testbit ?x (?i + ?j)] => let v := eval vm_compute in (i + j) in change (i + j) with v
  | |- context [Z.testbit ?x (?i - ?j)] => let v := eval vm_compute in (i - j) in change (i - j) with v
  end.
Ltac hi := repeat match goal with
  | |- context [Z.testbit ?x (Z.neg ?p)] => rewrite (Z.testbit_neg_r x (Z.neg p)) by lia
  | |- context [Z.testbit (Zpos ?k) ?i] => let v := eval vm_compute in (Z.testbit (Zpos k) i) in change (Z.testbit (Zpos k) i) with v
  | H : byte ?x |- context [Z.testbit ?x ?i] => rewrite (byte_high x i H) by lia
  | H : 0 <= ?x < 64 |- context [Z.testbit ?x ?i] => rewrite (six_high x i H) by lia
  end.
Ltac tb := repeat (first [rewrite Z.land_spec | rewrite Z.lor_spec | rewrite Z.shiftr_spec by lia | rewrite Z.shiftl_spec by lia]; norm_idx);
  hi; cbn [orb andb]; rewrite ?orb_false_r, ?orb_true_r, ?andb_true_r, ?andb_false_r; try reflexivity.
Ltac bitstep := cbn [map bits]; repeat (f_equal; [tb|]); try (f_equal; tb); try reflexivity.

Section Groups.
  Variable a b c : Z.
  Hypothesis Ha : byte a. Hypothesis Hb : byte b. Hypothesis Hc : byte c.
  Definition B (x i : Z) := Z.testbit x i.
  Let o3 := Z.lor (Z.lor (Z.shiftl a 16) (Z.shiftl b 8)) c.
  Definition n0 := number [B a 7; B a 6; B a 5; B a 4; B a 3; B a 2].
  Definition n1 := number [B a 1; B a 0; B b 7; B b 6; B b 5; B b 4].
  Definition n2 := number [B b 3; B b 2; B b 1; B b 0; B c 7; B c 6].
  Definition n3 := number [B c 5; B c 4; B c 3; B c 2; B c 1; B c 0].
  Definition n1' := number [B a 1; B a 0; false; false; false; false].
  Definition n2' := number [B b 3; B b 2; B b 1; B b 0; false; false].
  Ltac go := apply sextet_eq; [apply land63|]; unfold B, o3; bitstep.
  Lemma g3_0 : Z.land (Z.shiftr o3 18) 63 = n0. Proof. go. Qed.
  Lemma g3_1 : Z.land (Z.shiftr o3 12) 63 = n1. Proof. go. Qed.
  Lemma g3_2 : Z.land (Z.shiftr o3 6) 63 = n2. Proof. go. Qed.
  Lemma g3_3 : Z.land (Z.shiftr o3 0) 63 = n3. Proof. go. Qed.
  Let o2 := Z.shiftl (Z.lor (Z.shiftl a 8) b) 2.
  Lemma g2_0 : Z.land (Z.shiftr o2 12) 63 = n0. Proof. unfold o2. go. Qed.
  Lemma g2_1 : Z.land (Z.shiftr o2 6) 63 = n1. Proof. unfold o2. go. Qed.
  Lemma g2_2 : Z.land (Z.shiftr o2 0) 63 = n2'. Proof. unfold o2. go. Qed.
  Let o1 := Z.shiftl a 4.
  Lemma g1_0 : Z.land (Z.shiftr o1 6) 63 = n0. Proof. unfold o1. go. Qed.
  Lemma g1_1 : Z.land (Z.shiftr o1 0) 63 = n1'. Proof. unfold o1. go. Qed.

  (** decoding the groups *)
  Lemma nb l x0 x1 x2 x3 x4 x5 : l = [x0; x1; x2; x3; x4; x5] ->
    let n := number l in 0 <= n < 64 /\ Z.testbit n 5 = x0 /\ Z.testbit n 4 = x1 /\ Z.testbit n 3 = x2 /\ Z.testbit n 2 = x3 /\ Z.testbit n 1 = x4 /\ Z.testbit n 0 = x5.
  Proof. intros ->. cbv zeta. split; [apply number6_range|]. pose proof (number6_bits x0 x1 x2 x3 x4 x5) as E. injection E. auto 10. Qed.
  Ltac open n := let H := fresh in let x := fresh "x" in let Ex := fresh "Ex" in
    pose proof (nb _ _ _ _ _ _ _ eq_refl : let m := n in _) as H; cbv zeta in H; remember n as x eqn:Ex; clear Ex;
    destruct H as (? & ? & ? & ? & ? & ? & ?).
  Ltac go2 := apply byte_eq; [apply land255|assumption|]; unfold byte_at, bits, B in *; cbn [map];
     repeat (f_equal; [tb; auto|]); try (f_equal; tb; auto); try reflexivity.
  Lemma d4_0 : byte_at (Z.lor (Z.lor (Z.lor (Z.shiftl n0 18) (Z.shiftl n1 12)) (Z.shiftl n2 6)) n3) 16 = a.
  Proof. open n0. open n1. open n2. open n3. go2. Qed.
  Lemma d4_1 : byte_at (Z.lor (Z.lor (Z.lor (Z.shiftl n0 18) (Z.shiftl n1 12)) (Z.shiftl n2 6)) n3) 8 = b.
  Proof. open n0. open n1. open n2. open n3. go2. Qed.
  Lemma d4_2 : byte_at (Z.lor (Z.lor (Z.lor (Z.shiftl n0 18) (Z.shiftl n1 12)) (Z.shiftl n2 6)) n3) 0 = c.
  Proof. open n0. open n1. open n2. open n3. go2. Qed.
  Lemma d3_0 : byte_at (Z.lor (Z.lor (Z.shiftl n0 12) (Z.shiftl n1 6)) n2') 10 = a.
  Proof. open n0. open n1. open n2'. go2. Qed.
  Lemma d3_1 : byte_at (Z.lor (Z.lor (Z.shiftl n0 12) (Z.shiftl n1 6)) n2') 2 = b.
  Proof. open n0. open n1. open n2'. go2. Qed.
  Lemma d2_0 : byte_at (Z.lor (Z.shiftl n0 6) n1') 4 = a.
  Proof. open n0. open n1'. go2. Qed.
End Groups.

(** ** the text of a message, group by group *)
Definition ch (t : list Z) (i : Z) : Z := nth (Z.to_nat i) t 0.
Lemma rfc_3 t p a b c r : rfc4648 t p (a :: b :: c :: r) =
  [ch t (n0 a); ch t (n1 a b); ch t (n2 b c); ch t (n3 c)] ++ rfc4648 t p r.
Proof.
  unfold rfc4648. replace (padding (List.length (a :: b :: c :: r))) with (padding (List.length r)).
  - reflexivity.
  - unfold padding. do 2 f_equal. change (List.length (a :: b :: c :: r)) with (3 + List.length r)%nat.
    replace ((3 + List.length r) mod 3)%nat with (List.length r mod 3)%nat; [reflexivity|].
    rewrite Nat.add_comm. change 3%nat with (1 * 3)%nat at 2. rewrite Nat.mod_add by lia. reflexivity.
Qed.
Lemma rfc_2 t p a b : rfc4648 t p [a; b] = [ch t (n0 a); ch t (n1 a b); ch t (n2' b)] ++ (if p then [PAD] else []).
Proof. destruct p; reflexivity. Qed.
Lemma rfc_1 t p a : rfc4648 t p [a] = [ch t (n0 a); ch t (n1' a)] ++ (if p then [PAD; PAD] else []).
Proof. destruct p; reflexivity. Qed.
Lemma rfc_0 t p : rfc4648 t p [] = [].
Proof. destruct p; reflexivity. Qed.

(** induction over a message in groups of three *)
Lemma groups_ind (P : list Z -> Prop) :
  P [] -> (forall a, P [a]) -> (forall a b, P [a; b]) -> (forall a b c r, P r -> P (a :: b :: c :: r)) -> forall l, P l.
Proof.
  intros H0 H1 H2 H3 l. assert (forall n l, (List.length l <= n)%nat -> P l) as W; [|eapply W; apply Nat.le_refl].
  induction n as [|n IH]; intros k Hk.
  - destruct k; [exact H0|cbn in Hk; lia].
  - destruct k as [|a [|b [|c r]]]; auto. apply H3, IH. cbn in Hk. lia.
Qed.

Lemma n_range_0 a : 0 <= n0 a < 64. Proof. apply number6_range. Qed.
Lemma n_range_1 a b : 0 <= n1 a b < 64. Proof. apply number6_range. Qed.
Lemma n_range_2 a b : 0 <= n2 a b < 64. Proof. apply number6_range. Qed.
Lemma n_range_3 a : 0 <= n3 a < 64. Proof. apply number6_range. Qed.
Lemma n_range_1' a : 0 <= n1' a < 64. Proof. apply number6_range. Qed.
Lemma n_range_2' a : 0 <= n2' a < 64. Proof. apply number6_range. Qed.
#[global] Hint Resolve n_range_0 n_range_1 n_range_2 n_range_3 n_range_1' n_range_2' : b64.

Section Enc.
  Variable t : list Z.
  Hypothesis Ht : List.length t = 64%nat.
  Variable pad exc cb : bool.
  Variable max : nat.

  Lemma look_ok i s : 0 <= i < 64 -> look t i s = Ok s (ch t i).
  Proof.
    intros H. unfold look, ch. destruct (nth_error t (Z.to_nat i)) eqn:E.
    - rewrite (nth_error_nth _ _ _ E). reflexivity.
    - apply nth_error_None in E. lia.
  Qed.
  Lemma push_room c s : (List.length (obuf s) < max)%nat ->
    push_to_output_buffer max c s = Ok (mkE (ibuf s) (obuf s ++ [c]) (overflowed s) (sent s)) tt.
  Proof. intros H. unfold push_to_output_buffer, modify. apply Nat.ltb_lt in H. rewrite H. reflexivity. Qed.

  (** pushing a whole list of characters *)
  Fixpoint push_all (l : list Z) (s : enc) : enc :=
    match l with
    | [] => s
    | c :: r => push_all r (if (List.length (obuf s) <? max)%nat then mkE (ibuf s) (obuf s ++ [c]) (overflowed s) (sent s)
                            else mkE (ibuf s) (obuf s) true (sent s))
    end.
  Lemma push_all_app l1 : forall l2 s, push_all (l1 ++ l2) s = push_all l2 (push_all l1 s).
  Proof. induction l1; intros; cbn; auto. Qed.
  Lemma push_all_room l : forall s, (List.length (obuf s) + List.length l <= max)%nat ->
    push_all l s = mkE (ibuf s) (obuf s ++ l) (overflowed s) (sent s).
  Proof.
    induction l as [|c l IH]; intros s H; cbn [push_all List.length] in *.
    - destruct s as [i o v n]; cbn [ibuf obuf overflowed sent]. rewrite app_nil_r. reflexivity.
    - destruct (Nat.ltb_spec (List.length (obuf s)) max); [|lia]. rewrite IH; cbn [ibuf obuf overflowed sent]; [rewrite <- app_assoc; reflexivity|].
      rewrite app_length. cbn. lia.
  Qed.
  Lemma push_all_over l : forall s, (List.length (obuf s) + List.length l > max)%nat -> (List.length (obuf s) <= max)%nat ->
    overflowed (push_all l s) = true.
  Proof.
    assert (K : forall l s, overflowed s = true -> overflowed (push_all l s) = true).
    { induction l0 as [|c l0 IH]; intros s H; cbn [push_all]; auto. destruct (Nat.ltb _ _); apply IH; auto. }
    induction l as [|c l IH]; intros s H H2; cbn [push_all List.length] in *; [lia|].
    destruct (Nat.ltb_spec (List.length (obuf s)) max); [|apply K; reflexivity].
    apply IH; cbn [obuf]; rewrite app_length; cbn [List.length]; lia.
  Qed.
  Lemma push_all_keeps l : forall s, ibuf (push_all l s) = ibuf s /\ sent (push_all l s) = sent s.
  Proof. induction l as [|c l IH]; intros s; cbn [push_all]; auto. destruct (Nat.ltb _ _); destruct (IH (mkE (ibuf s) (obuf s ++ [c]) (overflowed s) (sent s))), (IH (mkE (ibuf s) (obuf s) true (sent s))); auto. Qed.

  (** characters produced for the bytes in the input buffer *)
  Definition block (l : list Z) : list Z := match l with [_] | [_; _] | [_; _; _] => rfc4648 t pad l | _ => [] end.

  Lemma encode_block_eq s : Forall byte (ibuf s) ->
    encode_block t pad exc max s =
      let s' := push_all (block (ibuf s)) s in
      if exc && overflowed s' then Ex s' "base64_overflow"%string else Ok s' (negb (overflowed s')).
  Proof.
    intros Hf. unfold encode_block, cbind, state.
    assert (PS : forall o sh s i, 0 <= i < 64 -> Z.land (Z.shiftr o sh) 63 = i -> push_sextet t max o sh s = Ok (push_all [ch t i] s) tt).
    { intros o sh s0 i Hi E. unfold push_sextet, cbind. rewrite E, (look_ok i s0 Hi). cbn.
      unfold push_to_output_buffer, modify. reflexivity. }
    assert (PP : forall c s, push_to_output_buffer max c s = Ok (push_all [c] s) tt) by (intros; reflexivity).
    assert (F : forall s', (let s'0 := s' in if exc then assert_ (negb (overflowed s'0)) "base64_overflow" s'0 else ret tt s'0) =
       if exc && overflowed s' then Ex s' "base64_overflow"%string else Ok s' tt).
    { intros s'. cbv zeta. destruct exc; [|reflexivity]. unfold assert_. cbn. destruct (overflowed s'); reflexivity. }
    destruct (ibuf s) as [|a [|b [|c [|d r]]]] eqn:Ei; unfold block.
    - cbn. destruct exc, (overflowed s) eqn:Eo; cbn; unfold assert_; rewrite ?Eo; reflexivity.
    - inversion_clear Hf as [|? ? Ha _].
      rewrite (PS _ _ _ _ (n_range_0 a) (g1_0 a a a)). rewrite (PS _ _ _ _ (n_range_1' a) (g1_1 a a a)).
      rewrite rfc_1. destruct pad; rewrite ?PP; unfold ret at 1; rewrite <- !push_all_app; cbn [app]; cbv zeta;
      (match goal with |- context [push_all ?l s] => generalize (push_all l s) end; intros s'; destruct exc; unfold assert_; destruct (overflowed s'); reflexivity).
    - inversion_clear Hf as [|? ? Ha Hf2]. inversion_clear Hf2 as [|? ? Hb _].
      rewrite (PS _ _ _ _ (n_range_0 a) (g2_0 a b a Hb)), (PS _ _ _ _ (n_range_1 a b) (g2_1 a b a Hb)), (PS _ _ _ _ (n_range_2' b) (g2_2 a b a)).
      rewrite rfc_2. destruct pad; rewrite ?PP; unfold ret at 1; rewrite <- !push_all_app; cbn [app]; cbv zeta;
      (match goal with |- context [push_all ?l s] => generalize (push_all l s) end; intros s'; destruct exc; unfold assert_; destruct (overflowed s'); reflexivity).
    - inversion_clear Hf as [|? ? Ha Hf2]. inversion_clear Hf2 as [|? ? Hb Hf3]. inversion_clear Hf3 as [|? ? Hc _].
      rewrite (PS _ _ _ (n0 a)) by (first [solve [auto with b64]|apply g3_0; assumption]).
      rewrite (PS _ _ _ (n1 a b)) by (first [solve [auto with b64]|apply g3_1; assumption]).
      rewrite (PS _ _ _ (n2 b c)) by (first [solve [auto with b64]|apply g3_2; assumption]).
      rewrite (PS _ _ _ (n3 c)) by (first [solve [auto with b64]|apply g3_3; assumption]).
      rewrite rfc_3, rfc_0, app_nil_r. unfold ret at 1; rewrite <- !push_all_app; cbn [app]; cbv zeta;
      (match goal with |- context [push_all ?l s] => generalize (push_all l s) end; intros s'; destruct exc; unfold assert_; destruct (overflowed s'); reflexivity).
    - cbn. destruct exc, (overflowed s) eqn:Eo; cbn; unfold assert_; rewrite ?Eo; reflexivity.
  Qed.
End Enc.
