From Coq Require Import List Arith Lia Bool String ZArith.
From Verif Require Import Util Slots Cmd CircModel CircSpec.
From Verif Require QueueProofs.
Import ListNotations.

Section P.
  Variable T : Type.
  Variable triv : bool.
  Variable cap : nat.
  Hypothesis Hcap : 1 <= cap.
  Notation R := (cap + 1).

  Record rep (c : circ T) (l : list T) : Prop := {
    c_ring : ring triv R (pbuffer c) (cout c) l;
    c_size : buffer_size c = R;
    c_len : List.length l <= cap;
    c_in : cin c = (cout c + List.length l) mod R }.

  Lemma rep_make : rep (make cap) [].
  Proof.
    constructor; cbn -[Nat.modulo]; auto; try lia.
    - apply ring_raw. lia.
    - symmetry. apply Nat.mod_small. lia.
  Qed.

  Lemma winc i : i < R -> wrap_inc R i = (i + 1) mod R.
  Proof. apply QueueProofs.wrap_next. Qed.
  Lemma winc_in o k : o < R -> wrap_inc R ((o + k) mod R) = (o + S k) mod R.
  Proof. intros H. rewrite winc by (apply mod_lt; auto). rewrite Nat.add_mod_idemp_l by lia. f_equal. lia. Qed.
  Lemma pos0 o : o < R -> (o + 0) mod R = o.
  Proof. intros. rewrite Nat.add_0_r. apply Nat.mod_small; auto. Qed.

  Lemma pos_eq o j k : o < R -> j <= cap -> k <= cap -> Nat.eqb ((o + j) mod R) ((o + k) mod R) = Nat.eqb j k.
  Proof.
    intros. destruct (Nat.eqb_spec j k) as [->|Hne]; [apply Nat.eqb_refl|].
    apply Nat.eqb_neq. intros E. apply mod_inj in E; lia.
  Qed.

  Lemma empty_ok c l : rep c l -> empty T c = Nat.eqb (List.length l) 0.
  Proof.
    intros [R1 R2 R3 R4]. pose proof (r_o _ _ _ _ _ R1) as Ho. unfold empty. rewrite R4.
    rewrite <- (pos0 (cout c) Ho) at 2. apply pos_eq; lia.
  Qed.
  Lemma size_ok c l : rep c l -> size T c = List.length l.
  Proof.
    intros [R1 R2 R3 R4]. pose proof (r_o _ _ _ _ _ R1) as Ho. unfold size. rewrite R4, R2.
    rewrite mod_in by lia. destruct (Nat.ltb_spec (cout c + List.length l) R).
    - destruct (Nat.leb_spec (cout c) (cout c + List.length l)); lia.
    - destruct (Nat.leb_spec (cout c) (cout c + List.length l - R)); lia.
  Qed.
  Lemma full_ok c l : rep c l -> full T c = Nat.eqb (List.length l) cap.
  Proof.
    intros [R1 R2 R3 R4]. pose proof (r_o _ _ _ _ _ R1) as Ho. unfold full. rewrite R4, R2, winc_in by auto.
    destruct (Nat.eqb_spec (List.length l) cap) as [E|E].
    - rewrite E. apply Nat.eqb_eq. replace (cout c + S cap) with (cout c + 1 * R) by lia.
      rewrite Nat.mod_add by lia. apply Nat.mod_small; auto.
    - rewrite <- (pos0 (cout c) Ho) at 2. rewrite pos_eq by lia. reflexivity.
  Qed.

  (** state during push, when the spare slot may be in use *)
  Lemma push_ok c l x : rep c l ->
    exists c', push T triv x c = Ok c' tt /\ rep c' (most_recent cap (l ++ [x])).
  Proof.
    intros [R1 R2 R3 R4]. pose proof (r_o _ _ _ _ _ R1) as Ho.
    unfold push, cbind, state, lift. rewrite R4.
    destruct (ring_push triv R _ _ l x R1 ltac:(lia)) as (b' & Eb & Rb). rewrite Eb.
    cbn [increment_in set_buffer cin cout pbuffer buffer_size]. rewrite R2, R4, winc_in by auto.
    unfold most_recent. rewrite app_length. cbn [List.length].
    destruct (Nat.eq_dec (List.length l) cap) as [E|E].
    - assert (E1 : (cout c + S (List.length l)) mod R = cout c).
      { rewrite E. replace (cout c + S cap) with (cout c + 1 * R) by lia.
        rewrite Nat.mod_add by lia. apply Nat.mod_small; auto. }
      rewrite E1, Nat.eqb_refl.
      destruct (l ++ [x]) as [|y r] eqn:Er; [destruct l; discriminate|].
      assert (Hr : List.length r = cap).
      { apply (f_equal (@List.length T)) in Er. rewrite app_length in Er. cbn in Er. lia. }
      destruct (ring_pop triv R _ _ _ _ Rb) as (_ & b2 & Eb2 & Rb2). rewrite Eb2. unfold set.
      eexists. split; [reflexivity|]. cbn [increment_out set_buffer cin cout pbuffer buffer_size].
      replace (List.length l + 1 - cap) with 1 by lia. cbn [skipn].
      constructor; cbn [increment_in increment_out set_buffer cin cout pbuffer buffer_size]; rewrite ?R2, ?R4, ?winc_in, ?E1 by auto; auto; try lia.
      + rewrite winc by auto. exact Rb2.
      + rewrite winc by auto. rewrite Nat.add_mod_idemp_l by lia. rewrite Hr.
        replace (cout c + 1 + cap) with (cout c + 1 * R) by lia. rewrite Nat.mod_add by lia. symmetry. apply Nat.mod_small; auto.
    - assert (E2 : Nat.eqb ((cout c + S (List.length l)) mod R) (cout c) = false).
      { rewrite <- (pos0 (cout c) Ho) at 2. rewrite pos_eq by lia. reflexivity. }
      rewrite E2. unfold set.
      eexists. split; [reflexivity|]. replace (List.length l + 1 - cap) with 0 by lia. cbn [skipn].
      constructor; cbn [increment_in increment_out set_buffer cin cout pbuffer buffer_size]; rewrite ?R2, ?R4, ?winc_in by auto; auto; rewrite app_length; cbn [List.length]; try lia.
      f_equal. lia.
  Qed.

  Lemma most_recent_app (l xs : list T) x :
    most_recent cap (most_recent cap (l ++ [x]) ++ xs) = most_recent cap (l ++ x :: xs).
  Proof.
    unfold most_recent. replace (l ++ x :: xs) with ((l ++ [x]) ++ xs) by (rewrite <- app_assoc; reflexivity).
    generalize (l ++ [x]) as m. intros m. rewrite !app_length, skipn_length.
    destruct (Nat.le_gt_cases (List.length m) cap).
    - replace (List.length m - cap) with 0 by lia. cbn [skipn]. f_equal. lia.
    - assert (E : skipn (List.length m - cap) m ++ xs = skipn (List.length m - cap) (m ++ xs)).
      { rewrite skipn_app. replace (List.length m - cap - List.length m) with 0 by lia. reflexivity. }
      rewrite E, skipn_skipn'. f_equal. lia.
  Qed.

  Lemma push_range_ok : forall xs c l, rep c l ->
    exists c', push_range T triv xs c = Ok c' tt /\ rep c' (most_recent cap (l ++ xs)).
  Proof.
    induction xs as [|x xs IH]; intros c l Rc; cbn [push_range].
    - exists c. split; [reflexivity|]. rewrite app_nil_r. unfold most_recent.
      pose proof (c_len _ _ Rc). replace (List.length l - cap) with 0 by lia. exact Rc.
    - unfold cbind. destruct (push_ok c l x Rc) as (c1 & -> & R1).
      destruct (IH c1 _ R1) as (c2 & E2 & R2). exists c2. split; [exact E2|].
      rewrite most_recent_app in R2. exact R2.
  Qed.

  Lemma pop_ok c x l : rep c (x :: l) -> exists c', pop T triv c = Ok c' tt /\ rep c' l.
  Proof.
    intros Rc. unfold pop, cbind, state, assert_. rewrite (empty_ok _ _ Rc). cbn [List.length Nat.eqb negb].
    destruct Rc as [R1 R2 R3 R4]. pose proof (r_o _ _ _ _ _ R1) as Ho.
    destruct (ring_pop triv R _ _ _ _ R1) as (_ & b' & Eb & Rb). unfold lift, set. rewrite Eb.
    eexists. split; [reflexivity|]. cbn in R3.
    constructor; cbn [increment_out set_buffer cin cout pbuffer buffer_size]; auto; try lia.
    - rewrite R2, winc by auto. exact Rb.
    - rewrite R2, R4, winc by auto. rewrite Nat.add_mod_idemp_l by lia. f_equal. cbn. lia.
  Qed.
  Lemma pop_empty c : rep c [] -> pop T triv c = Ex c "circular_buffer_empty".
  Proof. intros Rc. unfold pop, cbind, state, assert_. rewrite (empty_ok _ _ Rc). reflexivity. Qed.

  Lemma pop_n_ok : forall n c l, rep c l ->
    if n <=? List.length l then exists c', pop_n T triv n c = Ok c' tt /\ rep c' (skipn n l)
    else exists c', pop_n T triv n c = Ex c' "circular_buffer_empty" /\ rep c' [].
  Proof.
    induction n as [|n IH]; intros c l Rc; cbn [pop_n].
    - cbn. exists c. split; [reflexivity|exact Rc].
    - unfold cbind. destruct l as [|x l].
      + cbn [List.length Nat.leb]. rewrite (pop_empty c Rc). eauto.
      + destruct (pop_ok c x l Rc) as (c' & -> & R'). exact (IH c' l R').
  Qed.

  Lemma front_ok c x l : rep c (x :: l) -> front T c = Ok c x.
  Proof.
    intros Rc. unfold front, cbind, state, assert_. rewrite (empty_ok _ _ Rc). cbn [List.length Nat.eqb negb].
    destruct (ring_pop triv R _ _ _ _ (c_ring _ _ Rc)) as (Eg & _). unfold lift. now rewrite Eg.
  Qed.
  Lemma back_ok c x l : rep c (l ++ [x]) -> back T c = Ok c x.
  Proof.
    intros Rc. unfold back, cbind, state, assert_. rewrite (empty_ok _ _ Rc), app_length, Nat.add_1_r.
    cbn [Nat.eqb negb]. destruct Rc as [R1 R2 R3 R4]. rewrite app_length in *. cbn in R3, R4.
    pose proof (r_o _ _ _ _ _ R1) as Ho.
    rewrite R2, R4, QueueProofs.wrap_prev by lia.
    destruct (ring_pop_back triv R _ _ _ _ R1) as (Eg & _).
    replace (List.length l + 1 - 1) with (List.length l) by lia. unfold lift. now rewrite Eg.
  Qed.
  Lemma at_ok c l i x : rep c l -> nth_error l i = Some x -> at_ T i c = Ok c x.
  Proof.
    intros [R1 R2 R3 R4] Hi. unfold at_, cbind, state, lift. rewrite R2.
    now rewrite (ring_get triv R _ _ _ _ _ R1 Hi).
  Qed.

  Lemma ring_base b o o' : ring triv R b o [] -> o' < R -> ring triv R b o' (@nil T).
  Proof.
    intros [A1 A2 A3 A4 A5] H. constructor; cbn -[Nat.modulo]; auto; try lia.
    - intros [] y; discriminate.
    - intros Ht k Hk. destruct (mod_surj R o ((o' + k) mod R) A2) as (j & Hj & Ej); [apply mod_lt; lia|].
      rewrite <- Ej. apply A5; auto. cbn. lia.
  Qed.

  Lemma clear_loop_ok : forall l f c, rep c l -> List.length l <= f ->
    exists c', clear_loop T triv f c = Ok c' tt /\ rep c' [].
  Proof.
    induction l as [|x l IH]; intros f c Rc Hf.
    - exists c. split; [|exact Rc]. destruct f; cbn; unfold cbind, state; rewrite (empty_ok _ _ Rc); reflexivity.
    - cbn in Hf. destruct f as [|f]; [lia|]. cbn [clear_loop]. unfold cbind, state. rewrite (empty_ok _ _ Rc). cbn [List.length Nat.eqb].
      destruct (pop_ok c x l Rc) as (c' & -> & R'). apply (IH f c' R'). lia.
  Qed.
  Lemma clear_ok c l : rep c l -> exists c', clear T triv c = Ok c' tt /\ rep c' [].
  Proof.
    intros Rc. unfold clear. destruct triv eqn:Et.
    - unfold modify. eexists. split; [reflexivity|]. destruct Rc as [R1 R2 R3 R4].
      constructor; cbn -[Nat.modulo]; auto; try lia.
      + constructor; cbn -[Nat.modulo]; try lia; try congruence. apply (r_len _ _ _ _ _ R1). intros [] y; discriminate.
      + symmetry. apply Nat.mod_small. lia.
    - rewrite <- Et in *. unfold cbind, state. apply (clear_loop_ok l); auto.
      rewrite (c_size _ _ Rc). pose proof (c_len _ _ Rc). lia.
  Qed.

  Lemma iterate_ok c l : rep c l -> forall k f, k <= List.length l -> List.length l - k <= f ->
    iterate T f c ((cout c + k) mod R) = V (skipn k l).
  Proof.
    intros Rc. pose proof Rc as [R1 R2 R3 R4]. pose proof (r_o _ _ _ _ _ R1) as Ho.
    intros k f. revert k. induction f as [|f IH]; intros k Hk Hf; cbn [iterate]; rewrite R4, pos_eq by lia.
    - replace k with (List.length l) by lia. rewrite Nat.eqb_refl, skipn_all. reflexivity.
    - destruct (Nat.eqb_spec k (List.length l)) as [->|Hne]; [now rewrite skipn_all|].
      destruct (nth_error l k) as [x|] eqn:Ek; [|apply nth_error_None in Ek; lia].
      rewrite (ring_get triv R _ _ _ _ _ R1 Ek). cbn [bind]. rewrite R2, winc_in by auto.
      rewrite IH by lia. cbn [bind]. rewrite (skipn_nth _ _ _ Ek). reflexivity.
  Qed.
  Lemma contents_ok c l : rep c l -> contents T c = Ok c l.
  Proof.
    intros Rc. unfold contents, cbind, state, lift. pose proof (r_o _ _ _ _ _ (c_ring _ _ Rc)) as Ho.
    pose proof (iterate_ok c l Rc 0 (buffer_size c)) as H. rewrite pos0 in H by auto.
    rewrite H; [reflexivity|lia|]. rewrite (c_size _ _ Rc). pose proof (c_len _ _ Rc). lia.
  Qed.

  Lemma wdec o k : o < R -> k < R -> wrap_dec R ((o + S k) mod R) = (o + k) mod R.
  Proof.
    intros Ho Hk. unfold wrap_dec. rewrite (QueueProofs.wrap_prev R o (S k)) by lia. f_equal. lia.
  Qed.
  Lemma riterate_ok c l : rep c l -> forall k f, k <= List.length l -> k <= f ->
    riterate T f c ((cout c + k) mod R) = V (rev (firstn k l)).
  Proof.
    intros Rc. pose proof Rc as [R1 R2 R3 R4]. pose proof (r_o _ _ _ _ _ R1) as Ho.
    intros k f. revert k. induction f as [|f IH]; intros k Hk Hf; cbn [riterate];
      rewrite <- (pos0 (cout c) Ho) at 2; rewrite pos_eq by lia.
    - replace k with 0 by lia. reflexivity.
    - destruct (Nat.eqb_spec k 0) as [->|Hne]; [reflexivity|]. destruct k as [|k]; [lia|].
      rewrite R2, wdec by lia.
      destruct (nth_error l k) as [x|] eqn:Ek; [|apply nth_error_None in Ek; lia].
      rewrite (ring_get triv R _ _ _ _ _ R1 Ek). cbn [bind]. rewrite IH by lia. cbn [bind].
      rewrite (firstn_S_nth _ _ _ Ek), rev_app_distr. reflexivity.
  Qed.
  Lemma rcontents_ok c l : rep c l -> rcontents T c = Ok c (rev l).
  Proof.
    intros Rc. unfold rcontents, cbind, state, lift. rewrite (c_in _ _ Rc).
    rewrite (riterate_ok c l Rc); [|lia|rewrite (c_size _ _ Rc); pose proof (c_len _ _ Rc); lia].
    rewrite firstn_all. reflexivity.
  Qed.

  Lemma fill_ok x : forall f k c l, rep c l -> k <= List.length l -> List.length l - k <= f ->
    exists c', fill_loop T f ((cout c + k) mod R) x c = Ok c' tt /\ rep c' (firstn k l ++ map (fun _ => x) (skipn k l)).
  Proof.
    induction f as [|f IH]; intros k c l Rc Hk Hf; cbn [fill_loop]; unfold cbind, state;
      pose proof Rc as [R1 R2 R3 R4]; pose proof (r_o _ _ _ _ _ R1) as Ho; rewrite R4, pos_eq by lia.
    - replace k with (List.length l) by lia. rewrite Nat.eqb_refl. exists c. split; [reflexivity|].
      rewrite firstn_all, skipn_all. cbn. rewrite app_nil_r. exact Rc.
    - destruct (Nat.eqb_spec k (List.length l)) as [->|Hne].
      + exists c. split; [reflexivity|]. rewrite firstn_all, skipn_all. cbn. rewrite app_nil_r. exact Rc.
      + destruct (ring_put triv R _ _ l k x R1 ltac:(lia)) as (b' & Eb & Rb). unfold lift. rewrite Eb. unfold set.
        rewrite R2, winc_in by auto.
        assert (Rc' : rep (set_buffer T c b') (upd l k x)).
        { constructor; cbn [set_buffer cin cout pbuffer buffer_size]; rewrite ?upd_length; auto. }
        destruct (IH (S k) _ _ Rc') as (c' & E' & R'); rewrite ?upd_length; try lia.
        exists c'. split; [exact E'|]. 
        destruct (nth_error l k) as [y|] eqn:Ek; [|apply nth_error_None in Ek; lia].
        replace (firstn k l ++ map (fun _ => x) (skipn k l)) with (firstn (S k) (upd l k x) ++ map (fun _ => x) (skipn (S k) (upd l k x))); [exact R'|].
        rewrite (skipn_nth _ _ _ Ek). cbn [map].
        rewrite (firstn_S_nth (upd l k x) k x) by (apply upd_same; lia).
        rewrite firstn_upd, skipn_upd by lia. rewrite <- app_assoc. reflexivity.
  Qed.

  Lemma step_refines o c l x l' : rep c l -> circ_spec cap o l = Some (x, l') ->
    match exec T triv o c with
    | Ok c' r => x = Returned r /\ rep c' l'
    | Ex c' e => x = Threw e /\ rep c' l'
    | Bad => False
    end.
  Proof.
    intros Rc Hs. destruct o; cbn [circ_spec exec] in *; unfold cbind.
    - injection Hs as <- <-. destruct (push_ok c l x0 Rc) as (c' & -> & R'). cbn. auto.
    - injection Hs as <- <-. destruct (push_range_ok l0 c l Rc) as (c' & -> & R'). cbn. auto.
    - destruct l as [|y l]; injection Hs as <- <-.
      + rewrite (pop_empty c Rc). auto.
      + destruct (pop_ok c y l Rc) as (c' & -> & R'). cbn. auto.
    - pose proof (pop_n_ok n c l Rc) as H. destruct (n <=? List.length l); injection Hs as <- <-;
        destruct H as (c' & -> & R'); cbn; auto.
    - destruct l as [|y l]; injection Hs as <- <-.
      + unfold front, cbind, state, assert_. rewrite (empty_ok _ _ Rc). cbn. auto.
      + rewrite (front_ok c y l Rc). cbn. auto.
    - destruct (rev l) as [|y r] eqn:Er; injection Hs as <- <-.
      + apply (f_equal (@rev T)) in Er. rewrite rev_involutive in Er. cbn in Er. subst l.
        unfold back, cbind, state, assert_. rewrite (empty_ok _ _ Rc). cbn. auto.
      + pose proof Rc as R0. rewrite (QueueProofs.rev_cons_last _ _ _ Er) in R0. rewrite (back_ok _ _ _ R0). cbn. auto.
    - destruct (nth_error l i) as [y|] eqn:Ei; [|discriminate]. injection Hs as <- <-.
      rewrite (at_ok c l i y Rc Ei). cbn. auto.
    - injection Hs as <- <-. destruct (clear_ok c l Rc) as (c' & -> & R'). cbn. auto.
    - injection Hs as <- <-. unfold fill, cbind, state.
      pose proof (r_o _ _ _ _ _ (c_ring _ _ Rc)) as Ho. rewrite <- (pos0 (cout c) Ho).
      destruct (fill_ok x0 (buffer_size c) 0 c l Rc) as (c' & -> & R'); try lia.
      { rewrite (c_size _ _ Rc). pose proof (c_len _ _ Rc). lia. } cbn. auto.
    - injection Hs as <- <-. rewrite (contents_ok c l Rc). cbn. auto.
    - injection Hs as <- <-. rewrite (rcontents_ok c l Rc). cbn. auto.
    - injection Hs as <- <-. cbn. rewrite (size_ok _ _ Rc). auto.
    - injection Hs as <- <-. cbn. rewrite (empty_ok _ _ Rc). auto.
    - injection Hs as <- <-. cbn. rewrite (full_ok _ _ Rc). auto.
    - injection Hs as <- <-. cbn. unfold available, max_size. rewrite (size_ok _ _ Rc), (c_size _ _ Rc).
      split; auto. do 2 f_equal. lia.
  Qed.

  (** iterators: the iterator [begin() + k] *)
  Definition iter (c : circ T) (k : nat) : nat := (cout c + k) mod R.

  Lemma it_index_ok c l k : rep c l -> k <= List.length l -> it_index T c (iter c k) = Z.of_nat k.
  Proof.
    intros [R1 R2 R3 R4] Hk. pose proof (r_o _ _ _ _ _ R1) as Ho. unfold it_index, iter. rewrite R2.
    rewrite mod_in by lia. destruct (Nat.ltb_spec (cout c + k) R).
    - destruct (Nat.ltb_spec (cout c + k) (cout c)); lia.
    - destruct (Nat.ltb_spec (cout c + k - R) (cout c)); lia.
  Qed.
  Lemma it_advance_ok c l k n : rep c l -> k <= List.length l -> (0 <= Z.of_nat k + n <= Z.of_nat (List.length l))%Z ->
    it_advance T c (iter c k) n = iter c (Z.to_nat (Z.of_nat k + n)).
  Proof.
    intros [R1 R2 R3 R4] Hk Hn. pose proof (r_o _ _ _ _ _ R1) as Ho. unfold it_advance, iter. rewrite R2.
    rewrite Nat2Z.inj_mod. rewrite Zplus_mod_idemp_l.
    replace (Z.of_nat (cout c + k) + (Z.of_nat R + n))%Z with (Z.of_nat (cout c + Z.to_nat (Z.of_nat k + n)) + 1 * Z.of_nat R)%Z by lia.
    rewrite Z.mod_add by lia. rewrite <- Nat2Z.inj_mod. apply Nat2Z.id.
  Qed.
End P.
