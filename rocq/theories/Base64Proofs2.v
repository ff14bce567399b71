(** * Base64: whole messages *)
From Coq Require Import List Arith Lia Bool String ZArith.
From Verif Require Import Util Slots Cmd Base64Model Base64Spec Base64Proofs.
Import ListNotations.
Local Open Scope Z_scope.

Section Enc.
  Variable t : list Z.
  Hypothesis Ht : List.length t = 64%nat.
  Variable pad exc cb : bool.
  Variable max : nat.
  Notation encode := (encode t pad exc cb max).
  Notation encode1 := (encode1 t pad exc cb max).
  Notation flush := (flush t pad exc cb max).
  Notation encode_final := (encode_final t pad exc cb max).

  Lemma encode_app l1 : forall l2 s, encode (l1 ++ l2) s = (let! b := encode l1 in if b then encode l2 else ret false) s.
  Proof.
    induction l1 as [|v l1 IH]; intros l2 s; cbn; [reflexivity|]. unfold cbind in *. destruct (encode1 v s) as [s1 b|s1 e|]; auto.
    destruct b; [apply IH|reflexivity].
  Qed.

  Lemma enc_short v l ob sn : (List.length l < 2)%nat ->
    encode1 v (mkE l ob false sn) = Ok (mkE (l ++ [v]) ob false sn) true.
  Proof.
    intros H. unfold encode1, cbind, push_to_input_buffer, state. cbn [ibuf obuf overflowed sent].
    destruct l as [|a [|b l]]; [| |cbn in H; lia]; reflexivity.
  Qed.

  Definition fails (r : Out enc bool) : Prop := if exc then exists s, r = Ex s "base64_overflow"%string else exists s, r = Ok s false.

  Lemma enc3_room a b c r ob sn : byte a -> byte b -> byte c -> (List.length ob + 4 <= max)%nat ->
    encode (a :: b :: c :: r) (mkE [] ob false sn) =
    encode r (let ob' := ob ++ rfc4648 t pad [a; b; c] in
              if cb && Nat.eqb (List.length ob') max then mkE [] [] false (sn ++ [ob']) else mkE [] ob' false sn).
  Proof.
    intros Ha Hb Hc Hr.
    assert (L4 : List.length (rfc4648 t pad [a; b; c]) = 4%nat) by (destruct pad; reflexivity).
    cbn [Base64Model.encode]. unfold cbind at 1. rewrite enc_short by (cbn; lia). cbn [app].
    unfold cbind at 1. rewrite enc_short by (cbn; lia). cbn [app].
    unfold cbind at 1.
    assert (E : encode1 c (mkE [a; b] ob false sn) = Ok (let ob' := ob ++ rfc4648 t pad [a; b; c] in
              if cb && Nat.eqb (List.length ob') max then mkE [] [] false (sn ++ [ob']) else mkE [] ob' false sn) true).
    { unfold encode1, cbind at 1, push_to_input_buffer, state. cbn [ibuf obuf overflowed sent List.length Nat.ltb Nat.leb app].
      unfold cbind at 1. cbn [Nat.eqb ibuf List.length]. unfold cbind at 1. unfold cbind at 1.
      rewrite (encode_block_eq t Ht pad exc max) by (cbn; auto). cbn [ibuf]. unfold block.
      rewrite (push_all_room t) by (cbn [obuf]; lia). cbn [ibuf obuf overflowed sent]. rewrite andb_false_r. cbn [negb].
      unfold cbind, reset_input_buffer, modify, state, ret. cbn [ibuf obuf overflowed sent]. cbv zeta.
      destruct cb; [|reflexivity]. cbn [andb]. destruct (Nat.eqb _ max); reflexivity. }
    rewrite E. reflexivity.
  Qed.
  Lemma enc3_over a b c r ob sn : byte a -> byte b -> byte c -> (List.length ob <= max)%nat -> (max < List.length ob + 4)%nat ->
    fails (encode (a :: b :: c :: r) (mkE [] ob false sn)).
  Proof.
    intros Ha Hb Hc Hr Ho.
    assert (L4 : List.length (rfc4648 t pad [a; b; c]) = 4%nat) by (destruct pad; reflexivity).
    cbn [Base64Model.encode]. unfold cbind at 1. rewrite enc_short by (cbn; lia). cbn [app].
    unfold cbind at 1. rewrite enc_short by (cbn; lia). cbn [app].
    unfold cbind at 1.
    unfold encode1, cbind at 1, push_to_input_buffer, state. cbn [ibuf obuf overflowed sent List.length Nat.ltb Nat.leb app].
    unfold cbind at 1. cbn [Nat.eqb ibuf List.length]. unfold cbind at 1. unfold cbind at 1.
    rewrite (encode_block_eq t Ht pad exc max) by (cbn; auto). cbn [ibuf]. unfold block.
    set (s' := push_all max (rfc4648 t pad [a; b; c]) (mkE [a; b; c] ob false sn)).
    assert (O : overflowed s' = true) by (apply (push_all_over t); cbn [obuf]; lia).
    cbv zeta. rewrite O. unfold fails. destruct exc; cbn [andb].
    - eexists; reflexivity.
    - unfold cbind, reset_input_buffer, modify, state, ret. cbn [ibuf obuf overflowed sent negb].
      clearbody s'. destruct cb; cbn [obuf]; [destruct (Nat.eqb _ max)|]; cbn; rewrite ?O; cbn; eexists; reflexivity.
  Qed.

  Lemma flush_eq l ob sn : Forall byte l -> (List.length l < 3)%nat -> (List.length ob + List.length (rfc4648 t pad l) <= max)%nat ->
    flush (mkE l ob false sn) =
      let ob' := ob ++ rfc4648 t pad l in
      Ok (if cb then mkE [] [] false (sn ++ (if Nat.eqb (List.length ob') 0 then [] else [ob']) ++ [[]]) else mkE [] ob' false sn) true.
  Proof.
    intros Hl Hs Hr. unfold flush, cbind at 1. rewrite (encode_block_eq t Ht pad exc max) by exact Hl. cbn [ibuf].
    assert (Eb : block t pad l = rfc4648 t pad l).
    { destruct l as [|a [|b [|c l]]]; try reflexivity; [symmetry; apply rfc_0|cbn in Hs; lia]. }
    rewrite Eb, (push_all_room t) by (cbn [obuf]; lia). cbn [ibuf obuf overflowed sent]. rewrite andb_false_r. cbn [negb]. cbv zeta.
    unfold cbind, reset_input_buffer, modify, state, ret, call_back, reset_output_buffer. cbn [ibuf obuf overflowed sent].
    destruct cb; [|reflexivity]. destruct (Nat.eqb _ 0); unfold modify; cbn [ibuf obuf overflowed sent]; rewrite <- ?app_assoc; reflexivity.
  Qed.
  Lemma flush_over l ob sn : Forall byte l -> (List.length l < 3)%nat -> (List.length ob <= max)%nat ->
    (max < List.length ob + List.length (rfc4648 t pad l))%nat ->
    fails (flush (mkE l ob false sn)).
  Proof.
    intros Hl Hs Ho Hr. unfold flush, cbind at 1. rewrite (encode_block_eq t Ht pad exc max) by exact Hl. cbn [ibuf].
    assert (Eb : block t pad l = rfc4648 t pad l).
    { destruct l as [|a [|b [|c l]]]; try reflexivity; [symmetry; apply rfc_0|cbn in Hs; lia]. }
    rewrite Eb. cbv zeta.
    set (s' := push_all max _ _).
    assert (O : overflowed s' = true) by (apply (push_all_over t); cbn [obuf]; lia).
    rewrite O. unfold fails. destruct exc; cbn [andb].
    - eexists; reflexivity.
    - clearbody s'. unfold cbind, reset_input_buffer, modify, ret. cbn. eexists; reflexivity.
  Qed.

  Lemma encode_short l ob sn : (List.length l < 3)%nat -> encode l (mkE [] ob false sn) = Ok (mkE l ob false sn) true.
  Proof.
    intros H. destruct l as [|a [|b [|c l]]]; [reflexivity| | |cbn in H; lia]; cbn [Base64Model.encode]; unfold cbind;
      rewrite !enc_short by (cbn; lia); reflexivity.
  Qed.

  Lemma final3 a b c r ob sn : byte a -> byte b -> byte c -> (List.length ob + 4 <= max)%nat ->
    encode_final (a :: b :: c :: r) (mkE [] ob false sn) =
    encode_final r (let ob' := ob ++ rfc4648 t pad [a; b; c] in
              if cb && Nat.eqb (List.length ob') max then mkE [] [] false (sn ++ [ob']) else mkE [] ob' false sn).
  Proof. intros. unfold encode_final, cbind. rewrite enc3_room by assumption. reflexivity. Qed.

  (** enough room, no callback *)
  Lemma encode_room : cb = false -> forall d ob sn, Forall byte d -> (List.length ob + List.length (rfc4648 t pad d) <= max)%nat ->
    encode_final d (mkE [] ob false sn) = Ok (mkE [] (ob ++ rfc4648 t pad d) false sn) true.
  Proof.
    intros Hcb. apply (groups_ind (fun d => forall ob sn, Forall byte d -> _ -> encode_final d (mkE [] ob false sn) = _)).
    4:{ intros a b c r IH ob sn F R. inversion_clear F as [|? ? Ha F2]. inversion_clear F2 as [|? ? Hb F3]. inversion_clear F3 as [|? ? Hc F4].
        rewrite rfc_3, app_length in R. cbn [List.length] in R.
        rewrite final3 by (auto; lia). cbv zeta. replace (cb && _) with false by (rewrite Hcb; reflexivity).
        rewrite IH; auto; rewrite (rfc_3 t pad a b c []), rfc_0, app_nil_r.
        - rewrite (rfc_3 t pad a b c r), <- app_assoc. reflexivity.
        - rewrite app_length. cbn [List.length]. lia. }
    all: intros; unfold encode_final, cbind; rewrite encode_short by (cbn; lia); rewrite flush_eq by (auto; cbn; lia); rewrite Hcb; reflexivity.
  Qed.

  (** not enough room, no callback *)
  Lemma encode_over : cb = false -> forall d ob sn, Forall byte d -> (List.length ob <= max)%nat ->
    (max < List.length ob + List.length (rfc4648 t pad d))%nat ->
    fails (encode_final d (mkE [] ob false sn)).
  Proof.
    intros Hcb. apply (groups_ind (fun d => forall ob sn, Forall byte d -> _ -> _ -> fails (encode_final d (mkE [] ob false sn)))).
    4:{ intros a b c r IH ob sn F R O. inversion_clear F as [|? ? Ha F2]. inversion_clear F2 as [|? ? Hb F3]. inversion_clear F3 as [|? ? Hc F4].
        rewrite rfc_3, app_length in O. cbn [List.length] in O.
        destruct (Nat.le_gt_cases (List.length ob + 4) max) as [L|G].
        - rewrite final3 by (auto; lia). cbv zeta. replace (cb && _) with false by (rewrite Hcb; reflexivity).
          apply IH; auto; rewrite (rfc_3 t pad a b c []), rfc_0, app_nil_r, app_length; cbn [List.length]; lia.
        - pose proof (enc3_over a b c r ob sn Ha Hb Hc R G) as Q. unfold encode_final, cbind, fails in *.
          destruct exc; destruct Q as (s & ->); eexists; reflexivity. }
    all: intros; unfold encode_final, cbind; rewrite encode_short by (cbn; lia); apply flush_over; auto; cbn; lia.
  Qed.

  (** with a callback: Buffer_Size is a multiple of 4 *)
  Lemma encode_cb : cb = true -> (max mod 4 = 0)%nat -> forall d ob sn, Forall byte d -> (List.length ob mod 4 = 0)%nat -> (List.length ob < max)%nat ->
    exists spans, encode_final d (mkE [] ob false sn) = Ok (mkE [] [] false (sn ++ spans ++ [[]])) true /\
      List.concat spans = ob ++ rfc4648 t pad d /\ Forall (fun x => (0 < List.length x <= max)%nat) spans.
  Proof.
    intros Hcb Hm. apply (groups_ind (fun d => forall ob sn, Forall byte d -> _ -> _ ->
      exists spans, encode_final d (mkE [] ob false sn) = Ok (mkE [] [] false (sn ++ spans ++ [[]])) true /\
      List.concat spans = ob ++ rfc4648 t pad d /\ Forall (fun x => (0 < List.length x <= max)%nat) spans)).
    4:{ intros a b c r IH ob sn F M R. inversion_clear F as [|? ? Ha F2]. inversion_clear F2 as [|? ? Hb F3]. inversion_clear F3 as [|? ? Hc F4].
        assert (L4 : (List.length ob + 4 <= max)%nat).
        { apply Nat.mod_divides in Hm; [|lia]. apply Nat.mod_divides in M; [|lia]. destruct Hm as [x Hx], M as [y Hy]. lia. }
        assert (E3 : rfc4648 t pad [a; b; c] = [ch t (n0 a); ch t (n1 a b); ch t (n2 b c); ch t (n3 c)]) by (destruct pad; reflexivity).
        rewrite final3 by (auto; lia). cbv zeta. replace (cb && Nat.eqb (List.length (ob ++ rfc4648 t pad [a; b; c])) max) with (Nat.eqb (List.length (ob ++ rfc4648 t pad [a; b; c])) max) by (rewrite Hcb; reflexivity).
        destruct (Nat.eqb_spec (List.length (ob ++ rfc4648 t pad [a; b; c])) max) as [Ef|Nf].
        - destruct (IH [] (sn ++ [ob ++ rfc4648 t pad [a; b; c]])) as (spans & E & C & Fo); [auto|reflexivity|cbn; lia|].
          exists ((ob ++ rfc4648 t pad [a; b; c]) :: spans). conj.
          + rewrite E. rewrite <- app_assoc. reflexivity.
          + cbn [List.concat]. rewrite C, (rfc_3 t pad a b c r), E3, <- app_assoc. reflexivity.
          + constructor; [|exact Fo]. rewrite Ef. lia.
        - rewrite app_length, E3 in Nf. cbn [List.length] in Nf.
          destruct (IH (ob ++ rfc4648 t pad [a; b; c]) sn) as (spans & E & C & Fo); [auto| | |].
          + rewrite app_length, E3. cbn [List.length]. rewrite Nat.add_mod, M by lia. reflexivity.
          + rewrite app_length, E3. cbn [List.length]. lia.
          + exists spans. conj; auto.
            rewrite C, (rfc_3 t pad a b c r), E3, <- app_assoc. reflexivity. }
    all: intros ; unfold encode_final, cbind; rewrite encode_short by (cbn; lia).
    all: match goal with |- context [flush (mkE ?l ?ob false ?sn)] =>
           assert (Q : (List.length ob + List.length (rfc4648 t pad l) <= max)%nat);
           [ assert ((List.length (rfc4648 t pad l) <= 4)%nat) by (destruct pad; cbn; lia);
             apply Nat.mod_divides in Hm; [|lia]; match goal with H : (List.length ob mod 4 = 0)%nat |- _ => apply Nat.mod_divides in H; [|lia]; destruct Hm as [x Hx], H as [y Hy]; lia end
           | rewrite flush_eq by (auto; cbn; lia); rewrite Hcb; cbv zeta;
             exists (if Nat.eqb (List.length (ob ++ rfc4648 t pad l)) 0 then [] else [ob ++ rfc4648 t pad l]); conj; auto;
             [ clear; generalize (ob ++ rfc4648 t pad l); intros [|? ?]; [reflexivity|cbn; rewrite app_nil_r; reflexivity]
             | destruct (Nat.eqb_spec (List.length (ob ++ rfc4648 t pad l)) 0); constructor; auto; rewrite app_length in *; lia ] ] end.
  Qed.
End Enc.

(** ** Decoder *)
Lemma find_index_nth l : forall k i c, NoDup l -> nth_error l i = Some c -> find_index l c k = Some (k + Z.of_nat i).
Proof.
  induction l as [|x l IH]; intros k i c Nd H; [destruct i; discriminate|]. inversion_clear Nd as [|? ? Hn Nd2].
  destruct i as [|i]; cbn in *.
  - injection H as ->. rewrite Z.eqb_refl. f_equal. lia.
  - destruct (Z.eqb_spec x c) as [->|]; [exfalso; apply Hn; eapply nth_error_In; eauto|].
    rewrite (IH (k + 1) i c Nd2 H). f_equal. lia.
Qed.
Lemma find_index_none l : forall k c, ~ In c l -> find_index l c k = None.
Proof.
  induction l as [|x l IH]; intros k c H; [reflexivity|]. cbn. destruct (Z.eqb_spec x c) as [->|]; [exfalso; apply H; left; reflexivity|].
  apply IH. intros Hi. apply H. right. exact Hi.
Qed.

Section Dec.
  Variable t : list Z.
  Hypothesis Hal : alphabet_ok t.
  Variable exc cb : bool.
  Variable max : nat.
  Notation decode := (decode t exc cb max).
  Notation decode1 := (decode1 t exc cb max).
  Notation d_flush := (d_flush t exc cb max).
  Notation decode_final := (decode_final t exc cb max).
  Notation get := (get_index_from_sextet t).

  Lemma ch_in i : 0 <= i < 64 -> nth_error t (Z.to_nat i) = Some (ch t i).
  Proof.
    intros H. destruct Hal as (L & _). unfold ch. destruct (nth_error t (Z.to_nat i)) eqn:E.
    - rewrite (nth_error_nth _ _ _ E). reflexivity.
    - apply nth_error_None in E. lia.
  Qed.
  Lemma get_ok i s : 0 <= i < 64 -> get (ch t i) s = Ok s i.
  Proof.
    intros H. unfold get_index_from_sextet. destruct Hal as (_ & Nd & _). rewrite (find_index_nth t 0 (Z.to_nat i) _ Nd (ch_in i H)).
    unfold ret. f_equal. lia.
  Qed.
  Lemma ch_not_pad i : 0 <= i < 64 -> Z.eqb (ch t i) PAD = false.
  Proof.
    intros H. apply Z.eqb_neq. intros E. destruct Hal as (_ & _ & Np). apply Np. pose proof (nth_error_In _ _ (ch_in i H)). unfold PAD in E. rewrite E in H0. exact H0.
  Qed.

  Lemma decode_app l1 : forall l2 s, decode (l1 ++ l2) s = (let! b := decode l1 in if b then decode l2 else ret false) s.
  Proof.
    induction l1 as [|v l1 IH]; intros l2 s; cbn; [reflexivity|]. unfold cbind in *. destruct (decode1 v s) as [s1 b|s1 e|]; auto.
    destruct b; [apply IH|reflexivity].
  Qed.

  Lemma dec_short i l ob sn : 0 <= i < 64 -> (List.length l < 3)%nat ->
    decode1 (ch t i) (mkD l ob false false false sn) = Ok (mkD (l ++ [ch t i]) ob false false false sn) true.
  Proof.
    intros Hi H. unfold decode1, cbind, d_push_in. rewrite (ch_not_pad i Hi). unfold cbind, state, set.
    cbn [d_ibuf d_obuf d_overflow d_invalid d_padding d_sent].
    destruct l as [|a [|b [|c l]]]; [| | |cbn in H; lia]; reflexivity.
  Qed.
  Lemma dec_pad l ob p sn : (List.length l < 4)%nat ->
    decode1 PAD (mkD l ob false false p sn) = Ok (mkD l ob false false true sn) true.
  Proof.
    intros H. unfold decode1, cbind, d_push_in, state, modify. cbn [Z.eqb PAD Pos.eqb d_ibuf d_obuf d_overflow d_invalid d_padding d_sent].
    destruct (Nat.eqb_spec (List.length l) 4); [lia|]. reflexivity.
  Qed.
  Lemma out_room c s : (List.length (d_obuf s) < max)%nat ->
    d_push_out max c s = Ok (mkD (d_ibuf s) (d_obuf s ++ [c]) (d_overflow s) (d_invalid s) (d_padding s) (d_sent s)) tt.
  Proof. intros H. unfold d_push_out, modify. apply Nat.ltb_lt in H. rewrite H. reflexivity. Qed.

  Ltac dsimp := cbn [d_ibuf d_obuf d_overflow d_invalid d_padding d_sent negb andb orb app].
  Ltac room := rewrite out_room by (dsimp; rewrite ?app_length; cbn [List.length]; lia); dsimp.

  (** one group of four characters *)
  Lemma dec4_room a b c r ob sn : byte a -> byte b -> byte c -> (List.length ob + 3 <= max)%nat ->
    decode ([ch t (n0 a); ch t (n1 a b); ch t (n2 b c); ch t (n3 c)] ++ r) (mkD [] ob false false false sn) =
    decode r (let ob' := ob ++ [a; b; c] in
              if cb && Nat.eqb (List.length ob') max then mkD [] [] false false false (sn ++ [ob']) else mkD [] ob' false false false sn).
  Proof.
    intros Ha Hb Hc Hr. cbn [app Base64Model.decode].
    do 3 (unfold cbind at 1; rewrite dec_short by (auto with b64; cbn; lia); cbn [app]).
    unfold cbind at 1.
    enough (E : decode1 (ch t (n3 c)) (mkD [ch t (n0 a); ch t (n1 a b); ch t (n2 b c)] ob false false false sn) =
       Ok (let ob' := ob ++ [a; b; c] in
              if cb && Nat.eqb (List.length ob') max then mkD [] [] false false false (sn ++ [ob']) else mkD [] ob' false false false sn) true) by (rewrite E; reflexivity).
    unfold decode1, cbind at 1, d_push_in. rewrite (ch_not_pad _ (n_range_3 c)). unfold cbind at 1, state, set. dsimp. cbn [List.length Nat.ltb Nat.leb].
    unfold cbind at 1. dsimp. cbn [List.length Nat.eqb]. unfold cbind at 1. unfold cbind at 1. unfold decode_block, cbind at 1, state. dsimp.
    unfold cbind at 1. unfold cbind at 1. rewrite get_ok by auto with b64. unfold cbind at 1. rewrite get_ok by auto with b64.
    unfold cbind at 1. rewrite get_ok by auto with b64. unfold cbind at 1. rewrite get_ok by auto with b64.
    rewrite d4_0, d4_1, d4_2 by assumption.
    unfold cbind at 1. room. unfold cbind at 1. room. room.
    unfold cbind, assert_, ret, d_reset_in, modify, d_call_back, d_reset_out, state. rewrite <- !app_assoc. dsimp. cbv zeta.
    destruct exc, cb; dsimp; try reflexivity; destruct (Nat.eqb _ max); reflexivity.
  Qed.

  (** the end of a message: 0, 2 or 3 characters and padding *)
  Definition tail_text (l : list Z) (pad : bool) := rfc4648 t pad l.
  Lemma decode_tail l pad ob sn : (List.length l < 3)%nat -> Forall byte l -> (List.length ob + List.length l <= max)%nat ->
    decode_final (rfc4648 t pad l) (mkD [] ob false false false sn) =
      let ob' := ob ++ l in
      Ok (if cb then mkD [] [] false false false (sn ++ (if Nat.eqb (List.length ob') 0 then [] else [ob']) ++ [[]])
          else mkD [] ob' false false false sn) true.
  Proof.
    intros Hl Fl Hr. destruct l as [|a [|b [|c l]]]; [| | |cbn in Hl; lia].
    - rewrite rfc_0, app_nil_r. unfold decode_final. cbn [Base64Model.decode]. unfold cbind at 1, ret at 1.
      unfold d_flush, decode_block, cbind, assert_, ret, d_reset_in, modify, d_call_back, d_reset_out, state. dsimp. cbv zeta.
      destruct exc, cb; dsimp; try reflexivity; destruct (Nat.eqb _ 0); unfold modify; dsimp; rewrite <- ?app_assoc; reflexivity.
    - inversion_clear Fl as [|? ? Ha _]. cbn [List.length] in Hr. rewrite rfc_1.
      assert (E : decode ([ch t (n0 a); ch t (n1' a)] ++ (if pad then [PAD; PAD] else [])) (mkD [] ob false false false sn) =
                  Ok (mkD [ch t (n0 a); ch t (n1' a)] ob false false pad sn) true).
      { cbn [app Base64Model.decode]. do 2 (unfold cbind at 1; rewrite dec_short by (auto with b64; cbn; lia); cbn [app]).
        destruct pad; [|reflexivity]. cbn [Base64Model.decode]. do 2 (unfold cbind at 1; rewrite dec_pad by (cbn; lia)). reflexivity. }
      unfold decode_final, cbind at 1. rewrite E. unfold d_flush, cbind at 1. unfold decode_block, cbind at 1, state. dsimp.
      unfold cbind at 1. unfold cbind at 1. rewrite get_ok by auto with b64. unfold cbind at 1. rewrite get_ok by auto with b64.
      rewrite d2_0 by (assumption || exact 0). room.
      unfold cbind, assert_, ret, d_reset_in, modify, d_call_back, d_reset_out, state. dsimp. cbv zeta.
      destruct exc, cb; dsimp; try reflexivity; destruct (Nat.eqb _ 0); unfold modify; dsimp; rewrite <- ?app_assoc; reflexivity.
    - inversion_clear Fl as [|? ? Ha Fl2]. inversion_clear Fl2 as [|? ? Hb _]. cbn [List.length] in Hr. rewrite rfc_2.
      assert (E : decode ([ch t (n0 a); ch t (n1 a b); ch t (n2' b)] ++ (if pad then [PAD] else [])) (mkD [] ob false false false sn) =
                  Ok (mkD [ch t (n0 a); ch t (n1 a b); ch t (n2' b)] ob false false pad sn) true).
      { cbn [app Base64Model.decode]. do 3 (unfold cbind at 1; rewrite dec_short by (auto with b64; cbn; lia); cbn [app]).
        destruct pad; [|reflexivity]. cbn [Base64Model.decode]. unfold cbind at 1; rewrite dec_pad by (cbn; lia). reflexivity. }
      unfold decode_final, cbind at 1. rewrite E. unfold d_flush, cbind at 1. unfold decode_block, cbind at 1, state. dsimp.
      unfold cbind at 1. unfold cbind at 1. rewrite get_ok by auto with b64. unfold cbind at 1. rewrite get_ok by auto with b64. unfold cbind at 1. rewrite get_ok by auto with b64.
      rewrite d3_0, d3_1 by (assumption || exact 0). unfold cbind at 1. room. room.
      unfold cbind, assert_, ret, d_reset_in, modify, d_call_back, d_reset_out, state. rewrite <- !app_assoc. dsimp. cbv zeta.
      destruct exc, cb; dsimp; try reflexivity; destruct (Nat.eqb _ 0); unfold modify; dsimp; rewrite <- ?app_assoc; reflexivity.
  Qed.

  Lemma dfinal4 a b c r ob sn : byte a -> byte b -> byte c -> (List.length ob + 3 <= max)%nat ->
    decode_final ([ch t (n0 a); ch t (n1 a b); ch t (n2 b c); ch t (n3 c)] ++ r) (mkD [] ob false false false sn) =
    decode_final r (let ob' := ob ++ [a; b; c] in
              if cb && Nat.eqb (List.length ob') max then mkD [] [] false false false (sn ++ [ob']) else mkD [] ob' false false false sn).
  Proof. intros. unfold decode_final, cbind. rewrite dec4_room by assumption. reflexivity. Qed.

  Lemma decode_room pad : cb = false -> forall d ob sn, Forall byte d -> (List.length ob + List.length d <= max)%nat ->
    decode_final (rfc4648 t pad d) (mkD [] ob false false false sn) = Ok (mkD [] (ob ++ d) false false false sn) true.
  Proof.
    intros Hcb. apply (groups_ind (fun d => forall ob sn, Forall byte d -> _ -> decode_final (rfc4648 t pad d) (mkD [] ob false false false sn) = _)).
    4:{ intros a b c r IH ob sn F R. inversion_clear F as [|? ? Ha F2]. inversion_clear F2 as [|? ? Hb F3]. inversion_clear F3 as [|? ? Hc F4].
        cbn [List.length] in R. rewrite rfc_3, dfinal4 by (auto; lia). cbv zeta. replace (cb && _) with false by (rewrite Hcb; reflexivity).
        rewrite IH; auto; [rewrite <- app_assoc; reflexivity|rewrite app_length; cbn; lia]. }
    all: intros; rewrite decode_tail by (auto; cbn; lia); rewrite Hcb; reflexivity.
  Qed.

  Lemma decode_cb pad : cb = true -> (max mod 3 = 0)%nat -> forall d ob sn, Forall byte d -> (List.length ob mod 3 = 0)%nat -> (List.length ob < max)%nat ->
    exists spans, decode_final (rfc4648 t pad d) (mkD [] ob false false false sn) = Ok (mkD [] [] false false false (sn ++ spans ++ [[]])) true /\
      List.concat spans = ob ++ d /\ Forall (fun x => (0 < List.length x <= max)%nat) spans.
  Proof.
    intros Hcb Hm. apply (groups_ind (fun d => forall ob sn, Forall byte d -> _ -> _ ->
      exists spans, decode_final (rfc4648 t pad d) (mkD [] ob false false false sn) = Ok (mkD [] [] false false false (sn ++ spans ++ [[]])) true /\
      List.concat spans = ob ++ d /\ Forall (fun x => (0 < List.length x <= max)%nat) spans)).
    4:{ intros a b c r IH ob sn F M R. inversion_clear F as [|? ? Ha F2]. inversion_clear F2 as [|? ? Hb F3]. inversion_clear F3 as [|? ? Hc F4].
        assert (L4 : (List.length ob + 3 <= max)%nat).
        { apply Nat.mod_divides in Hm; [|lia]. apply Nat.mod_divides in M; [|lia]. destruct Hm as [x Hx], M as [y Hy]. lia. }
        rewrite rfc_3, dfinal4 by (auto; lia). cbv zeta.
        replace (cb && Nat.eqb (List.length (ob ++ [a; b; c])) max) with (Nat.eqb (List.length (ob ++ [a; b; c])) max) by (rewrite Hcb; reflexivity).
        destruct (Nat.eqb_spec (List.length (ob ++ [a; b; c])) max) as [Ef|Nf].
        - destruct (IH [] (sn ++ [ob ++ [a; b; c]])) as (spans & E & C & Fo); [auto|reflexivity|cbn; lia|].
          exists ((ob ++ [a; b; c]) :: spans). conj.
          + rewrite E. rewrite <- app_assoc. reflexivity.
          + cbn [List.concat]. rewrite C, <- app_assoc. reflexivity.
          + constructor; [|exact Fo]. rewrite Ef. lia.
        - rewrite app_length in Nf. cbn [List.length] in Nf.
          destruct (IH (ob ++ [a; b; c]) sn) as (spans & E & C & Fo); [auto| | |].
          + rewrite app_length. cbn [List.length]. rewrite Nat.add_mod, M by lia. reflexivity.
          + rewrite app_length. cbn [List.length]. lia.
          + exists spans. conj; auto. rewrite C, <- app_assoc. reflexivity. }
    all: intros.
    all: match goal with |- context [decode_final (rfc4648 t ?pp ?l) (mkD [] ?ob false false false ?sn)] =>
           assert (Q : (List.length ob + List.length l <= max)%nat);
           [ apply Nat.mod_divides in Hm; [|lia]; match goal with H : (List.length ob mod 3 = 0)%nat |- _ => apply Nat.mod_divides in H; [|lia]; destruct Hm as [x Hx], H as [y Hy]; cbn [List.length]; lia end
           | rewrite decode_tail by (auto; cbn; lia); rewrite Hcb; cbv zeta;
             exists (if Nat.eqb (List.length (ob ++ l)) 0 then [] else [ob ++ l]); conj; auto;
             [ clear; generalize (ob ++ l); intros [|? ?]; [reflexivity|cbn; rewrite app_nil_r; reflexivity]
             | destruct (Nat.eqb_spec (List.length (ob ++ l)) 0); constructor; auto; rewrite app_length in *; cbn [List.length] in *; lia ] ] end.
  Qed.
End Dec.
