(** C64: unaligned_type holds its value in the byte order it says (unaligned_type.h), and hton / ntoh (endianness.h) *)
From Coq Require Import List Bool ZArith Lia.
From Verif Require Import BinaryModel BinarySpec BitLib BinaryProofs BinaryProofs4 UnalModel UnalSpec UnalProofs.
Import ListNotations.
Local Open Scope Z_scope.

Lemma store_eq native E w v : copy_value_to_store native E w v = match E with little => bytes_le (size w) v | big => rev (bytes_le (size w) v) end.
Proof. unfold copy_value_to_store, memcpy_from. destruct native, E; cbn; rewrite ?rev_involutive; reflexivity. Qed.
Lemma read_eq native E sgn w m : width w -> length m = size w -> bytes m -> copy_store_to_value native E sgn w m = let u := of_le (match E with little => m | big => rev m end) in if sgn then sg w u else u.
Proof.
  intros W L F. unfold copy_store_to_value. destruct (same E native) eqn:S; cbn [negb].
  - unfold memcpy_to. destruct native, E; try discriminate; reflexivity.
  - rewrite memcpy_to_reverse by assumption. unfold memcpy_to. destruct native, E; try discriminate; cbn [same]; rewrite ?rev_involutive; reflexivity.
Qed.
Lemma represents_iff E w m v : width w -> (represents E w m v <-> m = match E with little => bytes_le (size w) v | big => rev (bytes_le (size w) v) end).
Proof.
  intros W. destruct (size_w w W) as (S1 & S2). split.
  - intros (L & H). assert (L' : length m = size w) by lia. apply ext_nth.
    + rewrite L'. destruct E; rewrite ?rev_length, len_bytes; reflexivity.
    + intros i I. rewrite H by exact I. rewrite L' in *. destruct E; [|rewrite nth_rev by (rewrite len_bytes; exact I); rewrite len_bytes]; rewrite nth_bytes by lia; reflexivity.
  - intros ->. split; [destruct E; rewrite ?rev_length, len_bytes; exact S1|]. intros i I. destruct E; [|rewrite rev_length in *; rewrite nth_rev by exact I]; rewrite len_bytes in *; rewrite nth_bytes by lia; reflexivity.
Qed.
Lemma value_sg (sgn : bool) w v : width w -> value_of sgn w v -> (if sgn then sg w (v mod 2 ^ w) else v mod 2 ^ w) = v.
Proof.
  intros W V. destruct (size_w w W) as (S1 & S2). destruct sgn; [|apply Z.mod_small, V]. transitivity (sg w v); [|apply sg_small; assumption]. unfold sg. rewrite Z.mod_mod by (apply Z.pow_nonzero; lia). reflexivity.
Qed.

(** storing a value: on every machine the bytes are those of the byte order E *)
Theorem C64_store : forall native E sgn w v, width w -> value_of sgn w v -> represents E w (copy_value_to_store native E w v) v.
Proof. intros native E sgn w v W _. apply represents_iff; [exact W|]. apply store_eq. Qed.
(** reading: any SIZE bytes, such as received ones, are read as the number that they are in the byte order E, on every machine; it is a value of T *)
Theorem C64_read : forall native E sgn w m, width w -> 8 * Z.of_nat (length m) = w -> bytes m ->
  let v := copy_store_to_value native E sgn w m in value_of sgn w v /\ represents E w m v.
Proof.
  intros native E sgn w m W L F. destruct (size_w w W) as (S1 & S2). assert (L' : length m = size w) by lia. cbv zeta. rewrite read_eq by assumption. cbv zeta.
  set (l := match E with little => m | big => rev m end). assert (Ll : length l = size w) by (unfold l; destruct E; rewrite ?rev_length; exact L'). assert (Fl : bytes l) by (unfold l, bytes; destruct E; [exact F|apply Forall_rev, F]).
  pose proof (of_le_word l Fl) as B. rewrite Ll, S1 in B. split.
  - destruct sgn; [apply sg_signed; lia|exact B].
  - apply represents_iff; [exact W|]. assert (X : bytes_le (size w) (if sgn then sg w (of_le l) else of_le l) = l).
    { rewrite <- bytes_mod, S1. destruct sgn; [rewrite sg_mod by lia|]; rewrite Z.mod_small by exact B; rewrite <- Ll; apply bytes_of, Fl. }
    rewrite X. unfold l. destruct E; rewrite ?rev_involutive; reflexivity.
Qed.
(** a number has one representation, and bytes represent one value *)
Theorem C64_represents_unique : forall E sgn w m v m' v', width w -> value_of sgn w v -> value_of sgn w v' -> represents E w m v -> represents E w m' v' -> (m = m' <-> v = v').
Proof.
  intros E sgn w m v m' v' W V V' R R'. destruct (size_w w W) as (S1 & _). apply represents_iff in R, R'; try exact W. subst m m'. split; [|intros ->; reflexivity]. intros H.
  assert (X : bytes_le (size w) v = bytes_le (size w) v') by (destruct E; [exact H|apply (f_equal (@rev Z)) in H; rewrite !rev_involutive in H; exact H]).
  apply (f_equal of_le) in X. rewrite !of_bytes, S1 in X. rewrite <- (value_sg sgn w v W V), <- (value_sg sgn w v' W V'), X. reflexivity.
Qed.
(** so what was stored is read back, also on a machine of the other byte order *)
Theorem C64_round_trip : forall n1 n2 E sgn w v, width w -> value_of sgn w v -> copy_store_to_value n2 E sgn w (copy_value_to_store n1 E w v) = v.
Proof.
  intros n1 n2 E sgn w v W V. destruct (size_w w W) as (S1 & S2). rewrite store_eq. rewrite read_eq; [|exact W|destruct E; rewrite ?rev_length, len_bytes; reflexivity|unfold bytes; destruct E; [|apply Forall_rev]; apply bytes_range].
  cbv zeta. assert (X : of_le match E with little => match E with little => bytes_le (size w) v | big => rev (bytes_le (size w) v) end | big => rev match E with little => bytes_le (size w) v | big => rev (bytes_le (size w) v) end end = v mod 2 ^ w).
  { destruct E; rewrite ?rev_involutive, of_bytes, S1; reflexivity. }
  rewrite X. apply value_sg; assumption.
Qed.
(** copying, assigning and moving between unaligned types of any two byte orders keeps the value *)
Theorem C64_convert : forall E E' w m v, width w -> represents E' w m v -> represents E w (copy_store_to_store E E' m) v /\ represents E w (move_ext E E' m) v.
Proof.
  intros E E' w m v W R. apply represents_iff in R; [|exact W]. subst m. split; (apply represents_iff; [exact W|]); unfold copy_store_to_store, move_ext; destruct E, E'; cbn; rewrite ?rev_involutive; reflexivity.
Qed.
(** floating point: the bytes of the object in the native order, or reversed; read back they are the object *)
Theorem C64_float : forall native E value, copy_float_to_store native E value = (if same E native then value else rev value) /\ copy_store_to_float native E (copy_float_to_store native E value) = value.
Proof. intros native E value. unfold copy_float_to_store, copy_store_to_float. destruct (same E native); cbn; rewrite ?rev_involutive; auto. Qed.
(** construction over a buffer: refused exactly when it is too short, otherwise its first SIZE bytes *)
Theorem C64_buffer : forall native E sgn w memory buffer_size v, width w -> Z.of_nat buffer_size <= Z.of_nat (length memory) -> bytes memory ->
  (from_buffer w memory buffer_size = None <-> 8 * Z.of_nat buffer_size < w) /\
  forall m, from_buffer w memory buffer_size = Some m -> (represents E w (firstn (size w) memory) v -> value_of sgn w v -> copy_store_to_value native E sgn w m = v).
Proof.
  intros native E sgn w memory bs v W L F. destruct (size_w w W) as (S1 & S2). unfold from_buffer. destruct (Nat.leb_spec (size w) bs) as [H|H]; (split; [split; intros X; try discriminate X; try lia; try reflexivity|]); intros m X; [|discriminate].
  injection X as <-. intros R V. assert (B : bytes (firstn (size w) memory)) by (unfold bytes in *; rewrite Forall_forall in *; intros x Hx; apply F; rewrite <- (firstn_skipn (size w) memory); apply in_or_app; left; exact Hx).
  destruct (C64_read native E sgn w (firstn (size w) memory) W (proj1 R) B) as (V' & R'). apply (C64_represents_unique E sgn w _ _ _ _ W V' V R' R). reflexivity.
Qed.
(** hton: in memory, the result is the argument in network (big endian) order; ntoh undoes it *)
Theorem C64_hton : forall native sgn w v, width w -> value_of sgn w v -> represents big w (memcpy_from native w (hton native sgn w v)) v /\ ntoh native sgn w (hton native sgn w v) = v /\ value_of sgn w (hton native sgn w v).
Proof.
  intros native sgn w v W V. destruct (size_w w W) as (S1 & S2).
  assert (K : v = memcpy_to little sgn w (bytes_le (size w) v)) by (unfold memcpy_to; cbn [same]; rewrite of_bytes, S1; symmetry; apply value_sg; assumption).
  assert (LB : length (bytes_le (size w) v) = size w) by apply len_bytes. assert (FB : Forall (fun b => 0 <= b < 256) (bytes_le (size w) v)) by apply bytes_range.
  assert (RV : reverse_bytes_T sgn w v = memcpy_to little sgn w (rev (bytes_le (size w) v))) by (rewrite K at 1; apply memcpy_to_reverse; assumption).
  assert (LR : length (rev (bytes_le (size w) v)) = size w) by (rewrite rev_length; exact LB). assert (FR : Forall (fun b => 0 <= b < 256) (rev (bytes_le (size w) v))) by (apply Forall_rev; exact FB).
  pose proof (of_le_word _ FR) as B. rewrite LR, S1 in B.
  assert (N : bytes_le (size w) (reverse_bytes_T sgn w v) = rev (bytes_le (size w) v)).
  { rewrite RV. unfold memcpy_to. cbn [same]. rewrite <- bytes_mod, S1. destruct sgn; [rewrite sg_mod by lia|]; rewrite Z.mod_small by exact B; pose proof (bytes_of _ FR) as Q; rewrite LR in Q; exact Q. }
  unfold hton, ntoh, memcpy_from. destruct native; cbn [same].
  - split; [apply represents_iff; [exact W|exact N]|]. split.
    + rewrite RV. rewrite memcpy_to_reverse by assumption. rewrite rev_involutive. symmetry. exact K.
    + rewrite RV. unfold memcpy_to. cbn [same]. destruct sgn; [apply sg_signed; lia|exact B].
  - split; [apply represents_iff; [exact W|reflexivity]|]. auto.
Qed.

(** -2 as int32_t *)
Example C64_run : value_of true 32 (-2) /\ copy_value_to_store little big 32 (-2) = [255; 255; 255; 254] /\ copy_value_to_store big little 32 (-2) = [254; 255; 255; 255] /\ copy_store_to_value little big true 32 [255; 255; 255; 254] = -2
  /\ copy_store_to_value little big false 16 [18; 52] = 4660 /\ hton little false 16 4660 = 13330 /\ copy_store_to_store little big [18; 52] = [52; 18].
Proof. repeat split; vm_compute; congruence. Qed.
Print Assumptions C64_store.
Print Assumptions C64_read.
Print Assumptions C64_round_trip.
Print Assumptions C64_convert.
Print Assumptions C64_buffer.
Print Assumptions C64_hton.
