(** * Property C19: base64 decode inverts encode.
    Quantified over: the data (any list of bytes), the alphabet, padding or
    not, callback or not, Buffer_Size, exceptions or not, and every division of
    the data / text into encode() / decode() calls. *)
From Coq Require Import List Arith Lia ZifyNat Bool String ZArith.
From Verif Require Import Util Slots Cmd Base64Model Base64Spec Base64Proofs Base64Proofs2.
Import ListNotations.
Local Open Scope Z_scope.

(** the user's program: one encode() per chunk, stopping at the first [false],
    then flush() *)
Fixpoint send (t : list Z) (pad exc cb : bool) (max : nat) (chunks : list (list Z)) : Cmd enc bool :=
  match chunks with
  | [] => flush t pad exc cb max
  | c :: r => let! b := encode t pad exc cb max c in if b then send t pad exc cb max r else ret false
  end.
Fixpoint receive (t : list Z) (exc cb : bool) (max : nat) (chunks : list (list Z)) : Cmd dec bool :=
  match chunks with
  | [] => d_flush t exc cb max
  | c :: r => let! b := decode t exc cb max c in if b then receive t exc cb max r else ret false
  end.
Lemma send_eq t pad exc cb max chunks : forall s, send t pad exc cb max chunks s = encode_final t pad exc cb max (List.concat chunks) s.
Proof.
  induction chunks as [|c r IH]; intros s; [reflexivity|]. cbn [send List.concat]. unfold encode_final, cbind. rewrite (encode_app t pad exc cb max c (List.concat r) s). unfold cbind.
  destruct (encode t pad exc cb max c s) as [s1 b|s1 e|]; auto. destruct b; [|reflexivity]. rewrite IH. reflexivity.
Qed.
Lemma receive_eq t exc cb max chunks : forall s, receive t exc cb max chunks s = decode_final t exc cb max (List.concat chunks) s.
Proof.
  induction chunks as [|c r IH]; intros s; [reflexivity|]. cbn [receive List.concat]. unfold decode_final, cbind. rewrite (decode_app t exc cb max c (List.concat r) s). unfold cbind.
  destruct (decode t exc cb max c s) as [s1 b|s1 e|]; auto. destruct b; [|reflexivity]. rewrite IH. reflexivity.
Qed.

(** the alphabets of base64.h *)
Lemma nodupb_ok l : forallb (fun p => negb (Z.eqb (nth (fst p) l 0) (nth (snd p) l 0)) || Nat.eqb (fst p) (snd p))
   (list_prod (seq 0 (List.length l)) (seq 0 (List.length l))) = true -> NoDup l.
Proof.
  intros H. apply NoDup_nth with (d := 0). intros i j Hi Hj E. rewrite forallb_forall in H.
  specialize (H (i, j) (proj2 (in_prod_iff _ _ _ _) (conj (proj2 (in_seq _ _ _) (conj (Nat.le_0_l i) Hi)) (proj2 (in_seq _ _ _) (conj (Nat.le_0_l j) Hj))))).
  cbn in H. rewrite E, Z.eqb_refl in H. apply Nat.eqb_eq. exact H.
Qed.
Theorem C19_alphabets_ok : alphabet_ok character_set_1 /\ alphabet_ok character_set_2 /\ alphabet_ok character_set_3.
Proof.
  assert (Q : forall l, List.length l = 64%nat -> existsb (Z.eqb 61) l = false ->
     forallb (fun p => negb (Z.eqb (nth (fst p) l 0) (nth (snd p) l 0)) || Nat.eqb (fst p) (snd p))
       (list_prod (seq 0 (List.length l)) (seq 0 (List.length l))) = true -> alphabet_ok l).
  { intros l L X N. split; [exact L|split; [apply nodupb_ok; exact N|]]. intros I.
    assert (existsb (Z.eqb 61) l = true) by (apply existsb_exists; exists 61; split; [exact I|reflexivity]). congruence. }
  split; [|split]; apply Q; vm_compute; reflexivity.
Qed.
Print Assumptions C19_alphabets_ok.

(** ** Encoding *)
(** no callback, enough room: the text is exactly the RFC 4648 one, appended
    to what the buffer held (several messages), whatever the chunking *)
Theorem C19_encode_is_rfc4648 :
  forall (t : list Z) (pad exc : bool) (max : nat), alphabet_ok t ->
  forall (chunks : list (list Z)) (earlier : list Z), let data := List.concat chunks in
    Forall byte data -> (List.length earlier + List.length (rfc4648 t pad data) <= max)%nat ->
    send t pad exc false max chunks (mkE [] earlier false []) = Ok (mkE [] (earlier ++ rfc4648 t pad data) false []) true.
Proof.
  intros t pad exc max Ha chunks earlier data Hb Hr. rewrite send_eq. destruct Ha as (L & _).
  apply (encode_room t L pad exc false max eq_refl); assumption.
Qed.
Print Assumptions C19_encode_is_rfc4648.

(** no callback, not enough room: never silently truncated *)
Theorem C19_encode_overflow_reported :
  forall (t : list Z) (pad exc : bool) (max : nat), alphabet_ok t ->
  forall (chunks : list (list Z)) (earlier : list Z), let data := List.concat chunks in
    Forall byte data -> (List.length earlier <= max < List.length earlier + List.length (rfc4648 t pad data))%nat ->
    exists s, send t pad exc false max chunks (mkE [] earlier false []) =
      if exc then Ex s "base64_overflow"%string else Ok s false.
Proof.
  intros t pad exc max Ha chunks earlier data Hb Hr. rewrite send_eq. destruct Ha as (L & _).
  pose proof (encode_over t L pad exc false max eq_refl data earlier [] Hb ltac:(lia) ltac:(lia)) as Q. unfold fails in Q.
  destruct exc; exact Q.
Qed.
Print Assumptions C19_encode_overflow_reported.

(** with a callback and a buffer of a multiple of 4 characters (the library's
    static_assert asks for that): the spans of each message concatenate to the
    text, none is empty or larger than the buffer, and each message is followed by
    one empty span; nothing is left behind *)
Theorem C19_encode_callback :
  forall (t : list Z) (pad exc : bool) (max : nat), alphabet_ok t -> (max mod 4 = 0)%nat -> (0 < max)%nat ->
  forall (chunks : list (list Z)) (earlier : list (list Z)), let data := List.concat chunks in
    Forall byte data ->
    exists spans,
      send t pad exc true max chunks (mkE [] [] false earlier) = Ok (mkE [] [] false (earlier ++ spans ++ [[]])) true /\
      List.concat spans = rfc4648 t pad data /\ Forall (fun x => (0 < List.length x <= max)%nat) spans.
Proof.
  intros t pad exc max Ha Hm Hp chunks earlier data Hb. destruct Ha as (L & _).
  destruct (encode_cb t L pad exc true max eq_refl Hm data [] earlier Hb eq_refl Hp) as (spans & E & C & F).
  exists spans. rewrite send_eq. conj; auto.
Qed.
Print Assumptions C19_encode_callback.

(** ** Round trip *)
Theorem C19_round_trip :
  forall (t : list Z) (pad exc exc2 : bool) (max max2 : nat), alphabet_ok t ->
  forall (chunks : list (list Z)), let data := List.concat chunks in
    Forall byte data -> (List.length (rfc4648 t pad data) <= max)%nat -> (List.length data <= max2)%nat ->
    exists s, send t pad exc false max chunks make_enc = Ok s true /\
      forall text_chunks, List.concat text_chunks = obuf s ->
        receive t exc2 false max2 text_chunks make_dec = Ok (mkD [] data false false false []) true.
Proof.
  intros t pad exc exc2 max max2 Ha chunks data Hb Hr Hr2.
  exists (mkE [] (rfc4648 t pad data) false []). split; [apply (C19_encode_is_rfc4648 t pad exc max Ha chunks [] Hb Hr)|].
  intros tc Ec. cbn [obuf] in Ec.
  rewrite receive_eq, Ec. apply (decode_room t Ha exc2 false max2 pad eq_refl data [] []); assumption.
Qed.
Print Assumptions C19_round_trip.

(** decoding a valid text, no callback: several messages one after the other *)
Theorem C19_decode_valid :
  forall (t : list Z) (pad exc : bool) (max : nat), alphabet_ok t ->
  forall (data earlier : list Z) (chunks : list (list Z)), List.concat chunks = rfc4648 t pad data ->
    Forall byte data -> (List.length earlier + List.length data <= max)%nat ->
    receive t exc false max chunks (mkD [] earlier false false false []) = Ok (mkD [] (earlier ++ data) false false false []) true.
Proof.
  intros t pad exc max Ha data earlier chunks Ec Hb Hr. rewrite receive_eq, Ec. apply (decode_room t Ha exc false max pad eq_refl); assumption.
Qed.
Print Assumptions C19_decode_valid.

(** decoding with a callback, the buffer being a multiple of 3 bytes *)
Theorem C19_decode_callback :
  forall (t : list Z) (pad exc : bool) (max : nat), alphabet_ok t -> (max mod 3 = 0)%nat -> (0 < max)%nat ->
  forall (data : list Z) (chunks earlier : list (list Z)), List.concat chunks = rfc4648 t pad data -> Forall byte data ->
    exists spans,
      receive t exc true max chunks (mkD [] [] false false false earlier) = Ok (mkD [] [] false false false (earlier ++ spans ++ [[]])) true /\
      List.concat spans = data /\ Forall (fun x => (0 < List.length x <= max)%nat) spans.
Proof.
  intros t pad exc max Ha Hm Hp data chunks earlier Ec Hb.
  destruct (decode_cb t Ha exc true max pad eq_refl Hm data [] earlier Hb eq_refl Hp) as (spans & E & C & F).
  exists spans. rewrite receive_eq, Ec. conj; auto.
Qed.
Print Assumptions C19_decode_callback.

(** ** Lengths and characters *)
Lemma rfc_len t pad d : List.length (rfc4648 t pad d) =
  if pad then (4 * ((List.length d + 2) / 3))%nat else ((4 * List.length d + 2) / 3)%nat.
Proof.
  revert d. apply groups_ind; try (destruct pad; reflexivity). intros a b c r IH. rewrite rfc_3, app_length, IH. cbn [List.length].
  destruct pad.
  - replace (S (S (S (List.length r))) + 2)%nat with (List.length r + 2 + 1 * 3)%nat by lia. rewrite Nat.div_add by lia. lia.
  - replace (4 * S (S (S (List.length r))) + 2)%nat with (4 * List.length r + 2 + 4 * 3)%nat by lia. rewrite Nat.div_add by lia. lia.
Qed.
(** padded: 4 * ceil(n/3); unpadded: ceil(4n/3) *)
Theorem C19_text_length :
  forall (t : list Z) (d : list Z), let n := List.length d in
    List.length (rfc4648 t true d) = (4 * ((n + 2) / 3))%nat /\ List.length (rfc4648 t false d) = ((4 * n + 2) / 3)%nat.
Proof. intros t d n. split; apply rfc_len. Qed.
Print Assumptions C19_text_length.

Lemma sextets_in (P : Z -> Prop) : forall d, (forall x, 0 <= x < 64 -> P x) -> Forall P (sextets (List.concat (map bits d))).
Proof.
  intros d HP. revert d. apply groups_ind.
  - constructor.
  - intros a. change (Forall P [n0 a; n1' a]). repeat constructor; apply HP, number6_range.
  - intros a b. change (Forall P [n0 a; n1 a b; n2' b]). repeat constructor; apply HP, number6_range.
  - intros a b c r IH. change (Forall P (n0 a :: n1 a b :: n2 b c :: n3 c :: sextets (List.concat (map bits r)))).
    repeat (constructor; [apply HP, number6_range|]). exact IH.
Qed.
Theorem C19_text_characters :
  forall (t : list Z) (pad : bool) (d : list Z), alphabet_ok t ->
    Forall (fun c => In c t \/ (pad = true /\ c = 61)) (rfc4648 t pad d).
Proof.
  intros t pad d (L & _). unfold rfc4648. apply Forall_app. split.
  - apply Forall_map. apply sextets_in. intros x Hx. left. apply nth_In. lia.
  - destruct pad; [|constructor]. apply Forall_forall. intros c Hc. right. split; [reflexivity|]. eapply repeat_spec. exact Hc.
Qed.
Print Assumptions C19_text_characters.

Ltac Zify.zify_post_hook ::= Z.div_mod_to_equations.
(** the sizes the library recommends are sufficient *)
Theorem C19_safe_output_size :
  forall (t : list Z) (pad : bool) (d : list Z),
    let n := List.length d in
    (List.length (rfc4648 t pad d) <= encoded_size n pad)%nat /\
    encoded_size n pad = (4 * ((n + 2) / 3))%nat /\
    (n <= decoded_size (List.length (rfc4648 t pad d)))%nat.
Proof.
  intros t pad d n. subst n. rewrite !rfc_len. generalize (List.length d) as n. intros n.
  unfold encoded_size, decoded_size, round4. destruct pad; conj; try discriminate;
    repeat match goal with |- context [Nat.eqb ?a ?b] => destruct (Nat.eqb_spec a b) end; intros; lia.
Qed.
Print Assumptions C19_safe_output_size.

(** ** Invalid texts are rejected *)
Definition rejected (r : Out dec bool) : Prop := match r with Ok _ false | Ex _ _ => True | _ => False end.
Section Reject.
  Variable t : list Z.
  Variable exc : bool.
  Variable max : nat.
  Notation decode := (decode t exc false max).
  Notation decode1 := (decode1 t exc false max).
  Lemma get_valid c s : In c t -> exists i, get_index_from_sextet t c s = Ok s i.
  Proof.
    unfold get_index_from_sextet. intros H. generalize 0 at 1. induction t as [|x r IH]; intros k; [destruct H|]. cbn.
    destruct (Z.eqb_spec x c); [eexists; reflexivity|]. destruct H as [H|H]; [congruence|]. apply IH. exact H.
  Qed.
  Definition flags (s : dec) := (d_ibuf s, d_invalid s, d_padding s).
  Lemma get_any c s : exists s' i, get_index_from_sextet t c s = Ok s' i /\ d_ibuf s' = d_ibuf s /\ d_padding s' = d_padding s /\
     (d_invalid s = true \/ ~ In c t -> d_invalid s' = true).
  Proof.
    unfold get_index_from_sextet. destruct (find_index t c 0) as [i|] eqn:E.
    - exists s, i. conj; auto. intros [H|H]; [exact H|]. rewrite find_index_none in E by exact H. discriminate.
    - eexists _, _. split; [reflexivity|]. cbn. auto.
  Qed.
  Lemma push_any c s : exists s', d_push_out max c s = Ok s' tt /\ d_ibuf s' = d_ibuf s /\ d_padding s' = d_padding s /\ d_invalid s' = d_invalid s.
  Proof. unfold d_push_out, modify. eexists. split; [reflexivity|]. destruct (Nat.ltb _ _); cbn; auto. Qed.

  Definition bad_out (r : Out dec bool) : Prop :=
    (exc = true /\ exists s', r = Ex s' "base64_invalid_data"%string) \/
    (exc = false /\ exists s', r = Ok s' false /\ d_invalid s' = true).
  (** a block of 2 to 4 characters *)
  Lemma block_bad s : (2 <= List.length (d_ibuf s) <= 4)%nat ->
    d_invalid s = true \/ ~ Forall (fun c => In c t) (d_ibuf s) ->
    bad_out (decode_block t exc max s).
  Proof.
    intros L H. unfold decode_block, cbind at 1, state at 1.
    assert (Fin : forall (m : Cmd dec unit) (s' : dec), m s = Ok s' tt -> d_invalid s' = true ->
      bad_out ((m ;; let! s0 := state in (if exc then assert_ (negb (d_invalid s0)) "base64_invalid_data" ;; assert_ (negb (d_overflow s0)) "base64_overflow" else ret tt) ;; ret (negb (d_invalid s0) && negb (d_overflow s0))) s)).
    { intros m s' E I. unfold bad_out, cbind. rewrite E. unfold state. rewrite I. destruct exc; [left|right]; split; auto; cbn.
      - eexists; reflexivity.
      - exists s'. split; [reflexivity|exact I]. }
    destruct (d_ibuf s) as [|a [|b [|c [|d [|e l]]]]] eqn:Eb; try (cbn [List.length] in L; lia).
    all: cbv beta iota; match goal with F : forall m s', _ -> _ -> _ |- context [cbind ?m (fun _ => cbind state _) ?s0] =>
           assert (Q : exists s', m s0 = Ok s' tt /\ d_invalid s' = true); [clear F|destruct Q as (s' & Es & Is); exact (F m s' Es Is)] end.
    all: repeat match goal with
         | |- exists s', cbind (get_index_from_sextet t ?x) _ ?s0 = _ /\ _ =>
             let s1 := fresh "s1" in let i := fresh "i" in let E := fresh "E" in let I := fresh "I" in
             destruct (get_any x s0) as (s1 & i & E & ? & ? & I); unfold cbind at 1; rewrite E; cbv zeta; clear E
         | |- exists s', cbind (d_push_out max ?x) _ ?s0 = _ /\ _ =>
             let s1 := fresh "s1" in let E := fresh "E" in let I := fresh "I" in
             destruct (push_any x s0) as (s1 & E & ? & ? & I); unfold cbind at 1; rewrite E; clear E
         | |- exists s', d_push_out max ?x ?s0 = _ /\ _ =>
             let s1 := fresh "s1" in let E := fresh "E" in let I := fresh "I" in
             destruct (push_any x s0) as (s1 & E & ? & ? & I); rewrite E; clear E; exists s1; split; [reflexivity|]
         end.
    all: repeat match goal with H : d_invalid ?a = d_invalid ?b |- _ => rewrite H; clear H end.
    all: destruct H as [H|H]; [solve [auto 10]|].
    all: repeat match goal with |- d_invalid ?s1 = true => match goal with H : _ \/ ~ In ?c t -> d_invalid s1 = true |- _ =>
           destruct (in_dec Z.eq_dec c t); [apply H; left; clear H|apply H; right; assumption] end end.
    all: exfalso; apply H; repeat constructor; assumption.
  Qed.
  Lemma block_keeps s s1 b : decode_block t exc max s = Ok s1 b -> d_padding s1 = d_padding s /\ b = negb (d_invalid s1) && negb (d_overflow s1).
  Proof.
    unfold decode_block, cbind at 1, state at 1.
    assert (Fin : forall (m : Cmd dec unit) (s' : dec), m s = Ok s' tt -> d_padding s' = d_padding s ->
      (m ;; let! s0 := state in (if exc then assert_ (negb (d_invalid s0)) "base64_invalid_data" ;; assert_ (negb (d_overflow s0)) "base64_overflow" else ret tt) ;; ret (negb (d_invalid s0) && negb (d_overflow s0))) s = Ok s1 b ->
      d_padding s1 = d_padding s /\ b = negb (d_invalid s1) && negb (d_overflow s1)).
    { intros m s' E I. unfold cbind. rewrite E. unfold state, assert_, ret. destruct exc, (d_invalid s') eqn:Ei, (d_overflow s') eqn:Eo; cbn; intros Q; inversion Q; subst; split; auto; rewrite Ei, Eo; reflexivity. }
    intros Q.
    assert (Qm : exists s' m, m s = Ok s' tt /\ d_padding s' = d_padding s /\
      (m ;; let! s0 := state in (if exc then assert_ (negb (d_invalid s0)) "base64_invalid_data" ;; assert_ (negb (d_overflow s0)) "base64_overflow" else ret tt) ;; ret (negb (d_invalid s0) && negb (d_overflow s0))) s = Ok s1 b).
    2:{ destruct Qm as (s' & m & Em & Ep & Es). exact (Fin m s' Em Ep Es). }
    match type of Q with cbind ?m _ _ = _ => set (mm := m) in Q; enough (E : exists s', mm s = Ok s' tt /\ d_padding s' = d_padding s) by (destruct E as (s' & ? & ?); exists s', mm; auto); subst mm end.
    clear Q Fin. destruct (d_ibuf s) as [|a [|b0 [|c [|d [|e l]]]]].
    all: repeat match goal with
         | |- exists s', cbind (get_index_from_sextet t ?x) _ ?s0 = _ /\ _ =>
             let s1 := fresh "s1" in let i := fresh "i" in let E := fresh "E" in let I := fresh "I" in
             destruct (get_any x s0) as (s1 & i & E & ? & ? & I); unfold cbind at 1; rewrite E; cbv zeta; clear E
         | |- exists s', cbind (d_push_out max ?x) _ ?s0 = _ /\ _ =>
             let s1 := fresh "s1" in let E := fresh "E" in let I := fresh "I" in
             destruct (push_any x s0) as (s1 & E & ? & ? & I); unfold cbind at 1; rewrite E; clear E
         | |- exists s', d_push_out max ?x ?s0 = _ /\ _ =>
             let s1 := fresh "s1" in let E := fresh "E" in let I := fresh "I" in
             destruct (push_any x s0) as (s1 & E & ? & ? & I); rewrite E; clear E; exists s1; split; [reflexivity|]
         end.
    all: try congruence.
    all: eexists; split; reflexivity.
  Qed.

  Definition inv (p : list Z) (s : dec) : Prop :=
    exists q k, p = (q ++ d_ibuf s) ++ repeat 61 k /\ d_padding s = negb (Nat.eqb k 0) /\ d_invalid s = false /\
      (List.length q mod 4 = 0)%nat /\ Forall (fun c => In c t) q /\ (List.length (d_ibuf s) < 4)%nat /\ Forall (fun c => c <> 61) (q ++ d_ibuf s).
  Lemma inv_step p c s s' : inv p s -> decode1 c s = Ok s' true -> inv (p ++ [c]) s'.
  Proof.
    intros (q & k & -> & Hp & Hi & Hq & Fq & Hl & Np). unfold decode1, d_push_in. destruct (Z.eqb_spec c PAD) as [->|Hc].
    - unfold cbind, modify, state, ret. cbn [d_ibuf]. destruct (Nat.eqb_spec (List.length (d_ibuf s)) 4); [lia|]. intros Q. inversion Q; subst; clear Q.
      exists q, (S k). cbn [d_ibuf d_padding d_invalid]. conj; auto. rewrite <- !app_assoc. do 2 f_equal.
      change [PAD] with (repeat 61 1). rewrite <- repeat_app. f_equal. lia.
    - unfold cbind at 1. unfold cbind at 1, state at 1. rewrite Hp. destruct k as [|k]; cbn [negb Nat.eqb].
      2:{ destruct exc; unfold throw, modify, cbind, state, ret; [discriminate|]. cbn [d_ibuf]. destruct (Nat.eqb_spec (List.length (d_ibuf s)) 4); [lia|].
          cbn. rewrite orb_true_r. discriminate. }
      cbn [repeat]. rewrite app_nil_r. destruct (Nat.ltb_spec (List.length (d_ibuf s)) 4); [|lia].
      unfold set, cbind at 1, state at 1. cbn [d_ibuf].
      destruct (Nat.eqb_spec (List.length (d_ibuf s ++ [c])) 4) as [E4|N4].
      + set (s0 := mkD _ _ _ _ _ _). unfold cbind at 1. unfold cbind at 1.
        destruct (decode_block t exc max s0) as [s1 b|s1 e|] eqn:Eb; [|discriminate|discriminate].
        destruct (block_keeps s0 s1 b Eb) as (Kp & Ki).
        assert (b = true -> Forall (fun c => In c t) (d_ibuf s ++ [c])).
        { intros ->. destruct (Forall_dec (fun c => In c t) (fun c => in_dec Z.eq_dec c t) (d_ibuf s ++ [c])); auto. exfalso.
          destruct (block_bad s0) as [(_ & s2 & X)|(_ & s2 & X & _)]; [cbn [d_ibuf s0]; lia|right; cbn [d_ibuf s0]; assumption| |]; congruence. }
        destruct b.
        * unfold cbind, d_reset_in, modify, state, ret. intros Q. inversion Q; subst; clear Q.
          exists (q ++ d_ibuf s ++ [c]), 0%nat. cbn [d_ibuf d_padding d_invalid repeat List.length]. rewrite !app_nil_r, <- app_assoc. conj; auto.
          -- destruct (d_invalid s1); [discriminate|reflexivity].
          -- rewrite app_length, E4, Nat.add_mod, Hq by lia. reflexivity.
          -- apply Forall_app. auto.
          -- rewrite app_assoc. apply Forall_app. split; auto.
        * unfold cbind, d_reset_in, modify, state, ret. cbn [d_overflow d_invalid]. intros Q. exfalso.
          destruct (d_invalid s1), (d_overflow s1); discriminate.
      + unfold ret, cbind, state. intros Q. inversion Q; subst; clear Q. exists q, 0%nat. cbn [d_ibuf d_padding d_invalid repeat]. rewrite app_nil_r, app_length in *. cbn in *.
        conj; auto; try lia. * rewrite app_assoc. reflexivity. * rewrite app_assoc. apply Forall_app. auto.
  Qed.
  Lemma inv_decode l : forall p s s', inv p s -> decode l s = Ok s' true -> inv (p ++ l) s'.
  Proof.
    induction l as [|c l IH]; intros p s s' I E; cbn in E.
    - injection E as <-. rewrite app_nil_r. exact I.
    - unfold cbind in E. destruct (decode1 c s) as [s1 b|s1 e|] eqn:E1; [|discriminate|discriminate]. destruct b; [|discriminate].
      specialize (IH (p ++ [c]) s1 s' (inv_step p c s s1 I E1) E). rewrite <- app_assoc in IH. exact IH.
  Qed.
End Reject.

(** no callback: an accepted text consists of alphabet characters followed by
    '=' characters only.  The one character that is not looked at is a single
    one left over after complete groups of 4 (see the finding below). *)
Theorem C19_decode_accepts_only_valid :
  forall (t : list Z) (exc : bool) (max : nat) (chunks : list (list Z)) (s : dec),
    receive t exc false max chunks make_dec = Ok s true ->
    exists body k, List.concat chunks = body ++ repeat 61 k /\ ~ In 61 body /\
      (Forall (fun c => In c t) body \/
       exists front c, body = front ++ [c] /\ Forall (fun c => In c t) front /\ (List.length front mod 4 = 0)%nat).
Proof.
  intros t exc max chunks s H. rewrite receive_eq in H. unfold decode_final, cbind in H.
  destruct (decode t exc false max (List.concat chunks) make_dec) as [s1 b|s1 e|] eqn:E; [|discriminate|discriminate]. destruct b; [|discriminate].
  assert (I0 : inv t [] make_dec) by (exists [], 0%nat; cbn; repeat split; auto; lia).
  destruct (inv_decode t exc max _ [] make_dec s1 I0 E) as (q & k & Ep & Hp & Hi & Hq & Fq & Hl & Np). cbn [app] in Ep.
  exists (q ++ d_ibuf s1), k. split; [exact Ep|]. split.
  { intros Hin. rewrite Forall_forall in Np. exact (Np 61 Hin eq_refl). }
  unfold d_flush, cbind in H. destruct (decode_block t exc max s1) as [s2 b|s2 e|] eqn:Eb; [|discriminate|discriminate].
  destruct b. 2:{ unfold d_reset_in, modify, ret in H. discriminate. }
  destruct (Nat.le_gt_cases 2 (List.length (d_ibuf s1))) as [L2|L2].
  - left. apply Forall_app. split; [exact Fq|].
    destruct (Forall_dec (fun c => In c t) (fun c => in_dec Z.eq_dec c t) (d_ibuf s1)); auto. exfalso.
    destruct (block_bad t exc max s1) as [(_ & s3 & X)|(_ & s3 & X & _)]; [lia|right; assumption| |]; congruence.
  - destruct (d_ibuf s1) as [|c [|c2 l]]; [| |cbn in L2; lia].
    + left. rewrite app_nil_r. exact Fq.
    + right. exists q, c. auto.
Qed.
Print Assumptions C19_decode_accepts_only_valid.

(** ** Findings *)
(** A decoder with a callback whose Buffer_Size is not a multiple of 3 (the
    static_assert only asks for at least 3, base64_decoder.h: 542) fails on every
    valid text that is longer than one buffer. *)
Theorem C19_decoder_callback_buffer_4_refuted :
  exists data, Forall byte data /\
    exists s, decode_final character_set_1 false true 4 (rfc4648 character_set_1 true data) make_dec = Ok s false /\ d_sent s = [].
Proof. exists [1; 2; 3; 4; 5; 6]. split; [repeat constructor; unfold byte; lia|]. eexists. split; vm_compute; reflexivity. Qed.
Print Assumptions C19_decoder_callback_buffer_4_refuted.

(** restart() of the encoder does not clear the overflow flag: the encoder is
    unusable afterwards, even for a message that fits. *)
Theorem C19_encoder_restart_refuted :
  exists s, encode_final character_set_1 true false false 4 [1; 2; 3; 4] make_enc = Ok s false /\
  exists s2, (let! _ := restart in encode_final character_set_1 true false false 4 [1]) s = Ok s2 false.
Proof. eexists. split; [vm_compute; reflexivity|]. eexists. vm_compute. reflexivity. Qed.
Print Assumptions C19_encoder_restart_refuted.
(** the decoder's restart() does *)
Theorem C19_decoder_restart :
  forall (s : dec), d_restart s = Ok (mkD [] [] false false false (d_sent s)) tt.
Proof. intros []. reflexivity. Qed.
Print Assumptions C19_decoder_restart.

(** With exceptions on, the throw leaves three bytes in the input buffer, and
    the next encode() writes outside it. *)
Theorem C19_encode_after_exception_refuted :
  exists s, encode character_set_1 true true false 4 [1; 2; 3; 4; 5; 6] make_enc = Ex s "base64_overflow"%string /\
    encode character_set_1 true true false 4 [7] s = Bad.
Proof. eexists. split; vm_compute; reflexivity. Qed.
Print Assumptions C19_encode_after_exception_refuted.

(** A text ending with one character more than complete groups is accepted,
    whatever that character is, and the character is dropped. *)
Theorem C19_trailing_character_refuted :
  forall c, c <> 61 -> forall exc, decode_final character_set_1 exc false 3 (rfc4648 character_set_1 true [1; 2; 3] ++ [c]) make_dec =
    Ok (mkD [] [1; 2; 3] false false false []) true.
Proof.
  intros c Hc exc. unfold decode_final, cbind. rewrite (decode_app character_set_1 exc false 3). unfold cbind.
  replace (decode character_set_1 exc false 3 (rfc4648 character_set_1 true [1; 2; 3]) make_dec) with (Ok (mkD [] [1; 2; 3] false false false []) true).
  - cbn [decode]. unfold cbind, decode1, d_push_in. destruct (Z.eqb_spec c PAD); [unfold PAD in *; congruence|]. destruct exc; reflexivity.
  - destruct exc; vm_compute; reflexivity.
Qed.
Print Assumptions C19_trailing_character_refuted.

(** ** Hypotheses are met *)
Example text_foobar : rfc4648 character_set_1 true (chars "fooba") = chars "Zm9vYmE=". Proof. vm_compute. reflexivity. Qed.
Example text_url : rfc4648 character_set_2 false [251; 255; 254] = chars "-__-". Proof. vm_compute. reflexivity. Qed.
Example chunked_run :
  send character_set_1 true true true 4 [[102]; [111; 111; 98]; []; [97]] make_enc = Ok (mkE [] [] false [chars "Zm9v"; chars "YmE="; []]) true.
Proof. vm_compute. reflexivity. Qed.
Example chunked_back :
  receive character_set_1 true true 3 [chars "Zm9vY"; chars "mE="] make_dec = Ok (mkD [] [] false false false [[102; 111; 111]; [98; 97]; []]) true.
Proof. vm_compute. reflexivity. Qed.
Example reject_run : exists s, receive character_set_1 false false 30 [chars "Zm9v"; chars "Y*E="] make_dec = Ok s false.
Proof. eexists. vm_compute. reflexivity. Qed.
Example sizes : encoded_size 5 true = 8%nat /\ encoded_size 1 false = 4%nat /\ decoded_size 7 = 6%nat. Proof. repeat split. Qed.
