(** * Proofs about the vector model: representation and one-step correctness *)
From Coq Require Import List Arith Lia Bool String.
From Verif Require Import Util Slots VecSpec VecModel.
Import ListNotations.

Section Buf.
  Context {T : Type}.
  Variables (triv : bool) (mv smv : T -> T).
  Implicit Types (P Q B g : buf T) (l ys xs : list T).

  (** a slot in which an object may be created *)
  Definition okslot (o : option T) : Prop := triv = true \/ o = None.

  Lemma nth_at {A} (P Q : list A) x i : i = List.length P -> nth_error (P ++ x :: Q) i = Some x.
  Proof. intros ->. rewrite nth_error_app2, Nat.sub_diag by lia. reflexivity. Qed.
  Lemma upd_at {A} (P Q : list A) x y i : i = List.length P -> upd (P ++ x :: Q) i y = P ++ y :: Q.
  Proof. intros ->. induction P; cbn; congruence. Qed.
  Lemma get_at P Q x i : i = List.length P -> get (P ++ Some x :: Q) i = V x.
  Proof. intros H. unfold get. now rewrite (nth_at _ _ _ _ H). Qed.
  Lemma put_at P Q x y i : i = List.length P -> put (P ++ Some x :: Q) i y = V (P ++ Some y :: Q).
  Proof. intros H. unfold put. now rewrite (nth_at _ _ _ _ H), (upd_at _ _ _ _ _ H). Qed.
  Lemma construct_at P Q o y i : i = List.length P -> okslot o -> construct triv (P ++ o :: Q) i y = V (P ++ Some y :: Q).
  Proof.
    intros H Ho. unfold construct. rewrite (nth_at _ _ _ _ H), (upd_at _ _ _ _ _ H).
    destruct o; [|reflexivity]. destruct Ho as [->|]; [reflexivity|discriminate].
  Qed.
  Lemma destroy_at P Q x i : i = List.length P ->
    exists o, destroy triv (P ++ Some x :: Q) i = V (P ++ o :: Q) /\ okslot o.
  Proof.
    intros H. unfold destroy, okslot. rewrite (nth_at _ _ _ _ H), (upd_at _ _ _ _ _ H).
    destruct triv; eauto.
  Qed.
  Lemma get_out (b : buf T) i : List.length b <= i -> get b i = UB.
  Proof. intros H. unfold get. apply nth_error_None in H. now rewrite H. Qed.
  Lemma construct_out (b : buf T) i x : List.length b <= i -> construct triv b i x = UB.
  Proof. intros H. unfold construct. apply nth_error_None in H. now rewrite H. Qed.

  Lemma uninit_copy_ok xs : forall g P Q i, List.length g = List.length xs -> Forall okslot g -> i = List.length P ->
    uninit_copy triv xs (P ++ g ++ Q) i = V (P ++ map Some xs ++ Q).
  Proof.
    induction xs as [|x xs IH]; intros [|o g] P Q i HL HF Hi; cbn in HL; try discriminate; [reflexivity|].
    inversion HF; subst. cbn [uninit_copy app map]. rewrite construct_at by auto. cbn [bind].
    replace (P ++ Some x :: g ++ Q) with ((P ++ [Some x]) ++ g ++ Q) by now rewrite <- app_assoc.
    rewrite IH; auto; [now rewrite <- app_assoc| rewrite app_length; cbn; lia].
  Qed.
  Lemma uninit_fill_copy n (x : T) : forall b i, uninit_fill_n triv n b i (Val x) = uninit_copy triv (repeat x n) b i.
  Proof. induction n; intros; cbn; [reflexivity|]. destruct (construct _ _ _ _); cbn; auto. Qed.
  Lemma acopy_ok xs : forall ys P Q i, List.length ys = List.length xs -> i = List.length P ->
    acopy xs (P ++ map Some ys ++ Q) i = V (P ++ map Some xs ++ Q).
  Proof.
    induction xs as [|x xs IH]; intros [|y ys] P Q i HL Hi; cbn in HL; try discriminate; [reflexivity|].
    cbn [acopy map app]. rewrite put_at by auto. cbn [bind].
    replace (P ++ Some x :: map Some ys ++ Q) with ((P ++ [Some x]) ++ map Some ys ++ Q) by now rewrite <- app_assoc.
    rewrite IH; [now rewrite <- app_assoc| lia | rewrite app_length; cbn; lia].
  Qed.
  Lemma fill_copy n (x : T) : forall b i, fill_n n b i (Val x) = acopy (repeat x n) b i.
  Proof. induction n; intros; cbn; [reflexivity|]. destruct (put _ _ _); cbn; auto. Qed.
  Lemma destroy_n_ok ys : forall P Q i, i = List.length P ->
    exists g, destroy_n triv (List.length ys) (P ++ map Some ys ++ Q) i = V (P ++ g ++ Q)
      /\ List.length g = List.length ys /\ Forall okslot g.
  Proof.
    induction ys as [|y ys IH]; intros P Q i Hi; cbn.
    - exists []. auto.
    - destruct (destroy_at P (map Some ys ++ Q) y i Hi) as (o & -> & Ho). cbn.
      replace (P ++ o :: map Some ys ++ Q) with ((P ++ [o]) ++ map Some ys ++ Q) by now rewrite <- app_assoc.
      destruct (IH (P ++ [o]) Q (i + 1)) as (g & -> & HL & HF); [rewrite app_length; cbn; lia|].
      exists (o :: g). rewrite <- app_assoc. cbn. repeat split; auto; lia.
  Qed.
  Lemma uninit_move_ok l : forall P B g Q s d, List.length g = List.length l -> Forall okslot g ->
    s = List.length P -> d = List.length P + List.length l + List.length B ->
    uninit_move triv mv (List.length l) (P ++ map Some l ++ B ++ g ++ Q) s d
    = V (P ++ map Some (map mv l) ++ B ++ map Some l ++ Q).
  Proof.
    induction l as [|x l IH]; intros P B [|o g] Q s d HL HF Hs Hd; cbn in HL; try discriminate; [reflexivity|].
    inversion HF; subst o; subst. cbn [uninit_move map app List.length].
    rewrite get_at by auto. cbn [bind].
    replace (P ++ Some x :: map Some l ++ B ++ x0 :: g ++ Q)
      with ((P ++ Some x :: map Some l ++ B) ++ x0 :: g ++ Q) by (rewrite <- !app_assoc; cbn; now rewrite <- !app_assoc).
    rewrite construct_at by (auto; rewrite !app_length; cbn [List.length]; rewrite !app_length, map_length; cbn [List.length]; lia). cbn [bind].
    replace ((P ++ Some x :: map Some l ++ B) ++ Some x :: g ++ Q)
      with (P ++ Some x :: map Some l ++ B ++ Some x :: g ++ Q) by (rewrite <- !app_assoc; cbn; now rewrite <- !app_assoc).
    rewrite put_at by auto. cbn [bind].
    replace (P ++ Some (mv x) :: map Some l ++ B ++ Some x :: g ++ Q)
      with ((P ++ [Some (mv x)]) ++ map Some l ++ (B ++ [Some x]) ++ g ++ Q) by (rewrite <- !app_assoc; reflexivity).
    rewrite IH; auto; [now rewrite <- !app_assoc| rewrite app_length; cbn; lia | rewrite !app_length; cbn; lia].
  Qed.
  Lemma masg_ok P m Q x y d s : d = List.length P -> s = d + 1 + List.length m ->
    masg mv smv (P ++ Some y :: map Some m ++ Some x :: Q) d s
    = V (P ++ Some x :: map Some m ++ Some (mv x) :: Q).
  Proof.
    intros Hd Hs. unfold masg.
    replace (P ++ Some y :: map Some m ++ Some x :: Q) with ((P ++ Some y :: map Some m) ++ Some x :: Q)
      by now rewrite <- app_assoc.
    rewrite get_at by (rewrite app_length; cbn; rewrite map_length; lia). cbn [bind].
    destruct (Nat.eqb_spec d s); [lia|]. rewrite <- app_assoc. cbn [app].
    rewrite put_at by auto. cbn [bind].
    replace (P ++ Some x :: map Some m ++ Some x :: Q) with ((P ++ Some x :: map Some m) ++ Some x :: Q)
      by now rewrite <- app_assoc.
    rewrite put_at by (rewrite app_length; cbn; rewrite map_length; lia). now rewrite <- app_assoc.
  Qed.
  Lemma masg_back_ok P m Q x y d s : s = List.length P -> d = s + 1 + List.length m ->
    masg mv smv (P ++ Some x :: map Some m ++ Some y :: Q) d s
    = V (P ++ Some (mv x) :: map Some m ++ Some x :: Q).
  Proof.
    intros Hs Hd. unfold masg. rewrite get_at by auto. cbn [bind].
    destruct (Nat.eqb_spec d s); [lia|].
    replace (P ++ Some x :: map Some m ++ Some y :: Q) with ((P ++ Some x :: map Some m) ++ Some y :: Q)
      by now rewrite <- app_assoc.
    rewrite put_at by (rewrite app_length; cbn; rewrite map_length; lia). cbn [bind].
    rewrite <- app_assoc. cbn [app]. now rewrite put_at by auto.
  Qed.
  (** move towards lower addresses over a gap of [m] elements *)
  Lemma amove_ok l : forall m P Q s d, m <> [] -> d = List.length P -> s = d + List.length m ->
    exists m', amove mv smv (List.length l) (P ++ map Some m ++ map Some l ++ Q) s d
               = V (P ++ map Some l ++ map Some m' ++ Q) /\ List.length m' = List.length m.
  Proof.
    induction l as [|x l IH]; intros m P Q s d Hm Hd Hs; cbn [amove List.length].
    - exists m. split; auto.
    - destruct m as [|y m]; [congruence|]. cbn [map app].
      cbn [List.length] in Hs. rewrite masg_ok by (auto; lia). cbn [bind].
      replace (P ++ Some x :: map Some m ++ Some (mv x) :: map Some l ++ Q)
        with ((P ++ [Some x]) ++ map Some (m ++ [mv x]) ++ map Some l ++ Q)
        by (rewrite map_app, <- !app_assoc; reflexivity).
      destruct (IH (m ++ [mv x]) (P ++ [Some x]) Q (s + 1) (d + 1)) as (m' & -> & HL).
      + destruct m; discriminate.
      + rewrite app_length; cbn; lia.
      + rewrite app_length; cbn; lia.
      + exists m'. split; [now rewrite <- app_assoc|]. rewrite HL, app_length. cbn. lia.
  Qed.
  (** a move onto itself *)
  Lemma amove_self l : forall P Q s, s = List.length P ->
    amove mv smv (List.length l) (P ++ map Some l ++ Q) s s = V (P ++ map Some (map smv l) ++ Q).
  Proof.
    induction l as [|x l IH]; intros P Q s Hs; cbn [amove List.length map app]; [reflexivity|].
    unfold masg. rewrite get_at by auto. cbn [bind]. rewrite Nat.eqb_refl, put_at by auto. cbn [bind].
    replace (P ++ Some (smv x) :: map Some l ++ Q) with ((P ++ [Some (smv x)]) ++ map Some l ++ Q) by now rewrite <- app_assoc.
    rewrite IH by (rewrite app_length; cbn; lia). now rewrite <- app_assoc.
  Qed.
  (** move towards higher addresses over a gap of [m] elements *)
  Lemma move_backward_ok l : forall m P Q se de, m <> [] -> se = List.length P + List.length l ->
    de = se + List.length m ->
    exists m', move_backward mv smv (List.length l) (P ++ map Some l ++ map Some m ++ Q) se de
               = V (P ++ map Some m' ++ map Some l ++ Q) /\ List.length m' = List.length m
               /\ (forall z m0, l = z :: m0 -> exists m1, m' = mv z :: m1)
               /\ (l = [] -> m' = m).
  Proof.
    induction l as [|x l IH] using rev_ind; intros m P Q se de Hm Hse Hde.
    - exists m. repeat split; auto. intros; discriminate.
    - rewrite app_length in *. cbn [List.length] in *. rewrite Nat.add_1_r. cbn [move_backward].
      destruct m as [|y0 m0] using rev_ind; [congruence|]. clear IHm0.
      rewrite app_length in Hde. cbn in Hde.
      replace (P ++ map Some (l ++ [x]) ++ map Some (m0 ++ [y0]) ++ Q)
        with ((P ++ map Some l) ++ Some x :: map Some m0 ++ Some y0 :: Q)
        by (rewrite !map_app, <- !app_assoc; reflexivity).
      rewrite masg_back_ok by (rewrite ?app_length, ?map_length; lia). cbn [bind].
      replace ((P ++ map Some l) ++ Some (mv x) :: map Some m0 ++ Some x :: Q)
        with (P ++ map Some l ++ map Some (mv x :: m0) ++ Some x :: Q) by (rewrite <- !app_assoc; reflexivity).
      destruct (IH (mv x :: m0) P (Some x :: Q) (se - 1) (de - 1)) as (m' & -> & HL & HZ & HE); try (cbn; lia); [discriminate|].
      exists m'. repeat split.
      + f_equal. f_equal. f_equal. rewrite map_app, <- app_assoc. reflexivity.
      + rewrite HL, app_length. cbn. lia.
      + intros z m1 E. destruct l as [|z' l'].
        * cbn in E. injection E as <- <-. exists m0. apply HE. reflexivity.
        * cbn in E. injection E as <- _. eapply HZ. reflexivity.
      + intros E. destruct l; discriminate.
  Qed.
End Buf.

Section VecP.
  Context {T : Type}.
  Variables (triv chk dbg : bool) (mv smv : T -> T) (SZ cap : nat).
  Hypothesis Hcap : 2 * cap < SZ.
  Notation okslot := (@okslot T triv).

  (** the vector [v] holds exactly the sequence [l] *)
  Record vrep (v : vec T) (l : list T) : Prop := {
    rep_n : vn v = List.length l;
    rep_len : List.length (vb v) = cap;
    rep_b : exists g, vb v = map Some l ++ g /\ Forall okslot g }.

  Lemma vrep_le v l : vrep v l -> List.length l <= cap.
  Proof. clear Hcap. intros [_ H (g & E & _)]. rewrite E, app_length, map_length in H. lia. Qed.
  Lemma vrep_mk l g n : n = List.length l -> List.length l + List.length g = cap -> Forall okslot g ->
    vrep (mkvec (map Some l ++ g) n) l.
  Proof. clear Hcap. intros -> H1 H2. constructor; cbn; [reflexivity|now rewrite app_length, map_length|eauto]. Qed.
  Lemma vrep_inv v l : vrep v l -> exists g, v = mkvec (map Some l ++ g) (List.length l) /\
    List.length l + List.length g = cap /\ Forall okslot g.
  Proof. clear Hcap.
    destruct v as [b n]. intros [H1 H2 (g & E & HF)]. cbn in H1, H2, E. subst b n. exists g.
    rewrite app_length, map_length in H2. auto.
  Qed.
  Lemma create_rep : vrep (create cap) [].
  Proof. clear Hcap.
    apply (vrep_mk [] (raw cap) 0); auto; [unfold raw; now rewrite repeat_length|].
    unfold raw. clear. induction cap; cbn; constructor; auto. now right.
  Qed.
  Lemma split_at (l : list T) p : p <= List.length l -> exists l1 l2, l = l1 ++ l2 /\ List.length l1 = p.
  Proof. clear Hcap. intros H. exists (firstn p l), (skipn p l). rewrite firstn_skipn, firstn_length. split; [auto|lia]. Qed.
  Lemma split_g (g : buf T) n : n <= List.length g -> Forall okslot g ->
    exists g1 g2, g = g1 ++ g2 /\ List.length g1 = n /\ Forall okslot g1 /\ Forall okslot g2.
  Proof. clear Hcap.
    intros H HF. exists (firstn n g), (skipn n g). rewrite firstn_skipn, firstn_length.
    rewrite <- (firstn_skipn n g) in HF. apply Forall_app in HF. repeat split; try tauto; lia.
  Qed.
  Lemma ins_mid (l1 l2 xs : list T) : ins (l1 ++ l2) (List.length l1) xs = l1 ++ xs ++ l2.
  Proof. clear Hcap. unfold ins. rewrite firstn_app, skipn_app, Nat.sub_diag, firstn_all, skipn_all. cbn. now rewrite app_nil_r. Qed.
  Lemma del_mid (l1 m l2 : list T) : del (l1 ++ m ++ l2) (List.length l1) (List.length l1 + List.length m) = l1 ++ l2.
  Proof. clear Hcap.
    unfold del. rewrite firstn_app, Nat.sub_diag, firstn_all. cbn. rewrite app_nil_r. f_equal.
    rewrite app_assoc, <- (app_length l1 m), skipn_app, skipn_all, Nat.sub_diag. reflexivity.
  Qed.

  Lemma move_backward_self (l : list T) : forall (P Q : buf T) s, s = List.length P + List.length l ->
    move_backward mv smv (List.length l) (P ++ map Some l ++ Q) s s = V (P ++ map Some (map smv l) ++ Q).
  Proof. clear Hcap.
    induction l as [|x l IH] using rev_ind; intros P Q s Hs; [reflexivity|].
    rewrite app_length in *. cbn [List.length] in *. rewrite Nat.add_1_r. cbn [move_backward].
    replace (P ++ map Some (l ++ [x]) ++ Q) with ((P ++ map Some l) ++ Some x :: Q)
      by (rewrite map_app, <- !app_assoc; reflexivity).
    unfold masg. rewrite get_at by (rewrite app_length, map_length; lia). cbn [bind].
    rewrite Nat.eqb_refl, put_at by (rewrite app_length, map_length; lia). cbn [bind].
    rewrite <- app_assoc, IH by lia. rewrite !map_app. cbn. now rewrite <- !app_assoc.
  Qed.

  Lemma initialise_ok v l : vrep v l -> exists v', initialise triv v = Ok v' tt /\ vrep v' [].
  Proof. clear Hcap.
    intros H. destruct (vrep_inv _ _ H) as (g & -> & HL & HF). unfold initialise. cbn [vb vn].
    destruct (destroy_n_ok triv l [] g 0 eq_refl) as (g' & E & HL' & HF'). cbn in E. rewrite E. cbn.
    eexists. split; [reflexivity|]. apply (vrep_mk [] (g' ++ g)); auto; [cbn; rewrite app_length; lia|].
    now apply Forall_app.
  Qed.
  Lemma fill_from (l xs : list T) g : List.length l + List.length g = cap -> Forall okslot g ->
    List.length l + List.length xs <= cap ->
    exists b, uninit_copy triv xs (map Some l ++ g) (List.length l) = V b /\
      vrep (mkvec b (List.length l + List.length xs)) (l ++ xs).
  Proof. clear Hcap.
    intros HL HF Hx. destruct (split_g g (List.length xs)) as (g1 & g2 & -> & H1 & HF1 & HF2); auto; [lia|].
    rewrite app_length in HL. rewrite uninit_copy_ok; auto; [|now rewrite map_length].
    eexists. split; [reflexivity|]. rewrite app_assoc, <- map_app. apply vrep_mk; rewrite ?app_length; auto; lia.
  Qed.
  Lemma create_back_ok v l x a : vrep v l -> List.length l < cap -> rd (vb v) a = V x ->
    exists v', create_back triv v a = Ok v' tt /\ vrep v' (l ++ [x]).
  Proof. clear Hcap.
    intros H Hl Ha. destruct (vrep_inv _ _ H) as (g & -> & HL & HF). unfold create_back. rewrite Ha. cbn [vb vn].
    destruct (fill_from l [x] g) as (b & E & R); auto; [cbn; lia|].
    cbn in E. destruct (construct triv _ _ x) as [b1| |] eqn:Ec; cbn in E; try discriminate.
    injection E as <-. cbn. eexists. split; [reflexivity|exact R].
  Qed.
  Lemma create_back_full v l x : vrep v l -> List.length l = cap -> create_back triv v (Val x) = Und.
  Proof. clear Hcap.
    intros [H1 H2 _] Hl. unfold create_back. cbn [rd]. rewrite construct_out by lia. reflexivity.
  Qed.
  Lemma destroy_back_ok v l x : vrep v (l ++ [x]) -> exists v', destroy_back triv v = Ok v' tt /\ vrep v' l.
  Proof. clear Hcap.
    intros H. destruct (vrep_inv _ _ H) as (g & -> & HL & HF). unfold destroy_back. cbn [vb vn].
    rewrite app_length in *. cbn in *. rewrite Nat.add_1_r.
    rewrite map_app, <- app_assoc. cbn.
    destruct (destroy_at triv (map Some l) g x (List.length l)) as (o & E & Ho); [now rewrite map_length|].
    rewrite E. cbn. eexists. split; [reflexivity|]. apply vrep_mk; auto. cbn; lia.
  Qed.
  Lemma get_rep v l i x : vrep v l -> nth_error l i = Some x -> get (vb v) i = V x.
  Proof. clear Hcap.
    intros H Hi. destruct (vrep_inv _ _ H) as (g & -> & HL & HF). cbn. unfold get.
    rewrite nth_error_app1 by (rewrite map_length; eapply nth_error_lt; eauto).
    rewrite nth_error_map, Hi. reflexivity.
  Qed.

  (** making room *)
  Lemma make_room_ok v l1 l2 n : vrep v (l1 ++ l2) -> List.length l1 + List.length l2 + n <= cap ->
    exists m g1 l2' g2, make_room triv mv smv SZ v (List.length l1) n
        = V (map Some l1 ++ map Some m ++ g1 ++ map Some l2' ++ g2, List.length g1, List.length m)
      /\ List.length m + List.length g1 = n /\ (g1 = [] \/ List.length m = List.length l2)
      /\ List.length g1 + List.length g2 + n = cap - List.length l1 - List.length l2 + List.length g1
      /\ Forall okslot g1 /\ Forall okslot g2
      /\ l2' = (if Nat.eqb n 0 then map smv l2 else l2).
  Proof.
    intros H Hn. destruct (vrep_inv _ _ H) as (g & -> & HL & HF). rewrite app_length in HL.
    unfold make_room, size. cbn [vb vn]. rewrite app_length.
    rewrite Nat.mod_small by lia.
    destruct (Nat.ltb_spec (List.length l1 + List.length l2) (List.length l1 + n)) as [Hb|Hb].
    - (* the new elements reach beyond the old end *)
      destruct (split_g g (n - List.length l2)) as (g1 & g2 & -> & Hg1 & HF1 & HF2); auto; [lia|].
      rewrite app_length in HL.
      destruct (split_g g2 (List.length l2)) as (g3 & g4 & -> & Hg3 & HF3 & HF4); auto; [lia|].
      rewrite app_length in HL.
      replace (List.length l1 + List.length l2 - List.length l1) with (List.length l2) by lia.
      replace (List.length l1 + List.length l2 - List.length l2) with (List.length l1) by lia.
      rewrite map_app, <- !app_assoc.
      rewrite uninit_move_ok; auto; try (rewrite ?map_length; lia). cbn [bind move_backward].
      exists (map mv l2), g1, l2, g4. rewrite map_length, Hg1. repeat split; auto; try lia.
      destruct (Nat.eqb_spec n 0); [|reflexivity]. destruct l2; [reflexivity|cbn in *; lia].
    - destruct (split_at l2 (List.length l2 - n)) as (a & c & -> & Ha); [lia|].
      rewrite app_length in *.
      destruct (split_g g (List.length c)) as (g3 & g4 & -> & Hg3 & HF3 & HF4); auto; [lia|].
      rewrite app_length in HL.
      assert (Hc : List.length c = n) by lia.
      replace (List.length l1 + (List.length a + List.length c) - List.length l1 - n) with (List.length a) by lia.
      rewrite !map_app, <- !app_assoc.
      replace (map Some l1 ++ map Some a ++ map Some c ++ g3 ++ g4)
        with ((map Some l1 ++ map Some a) ++ map Some c ++ [] ++ g3 ++ g4) by now rewrite <- !app_assoc.
      subst n.
      rewrite uninit_move_ok; auto; try (rewrite ?app_length, ?map_length; cbn; lia). cbn [bind].
      rewrite <- app_assoc. cbn [app].
      destruct (Nat.eqb_spec (List.length c) 0) as [Hn0|Hn0].
      + destruct c; [|discriminate]. destruct g3; [|discriminate]. cbn [map app].
        rewrite Nat.add_0_r. rewrite move_backward_self by (rewrite map_length; lia). cbn [bind].
        exists [], [], (map smv a), g4. cbn in *. rewrite !app_nil_r. repeat split; auto; lia.
      + destruct (move_backward_ok mv smv a (map mv c) (map Some l1) (map Some c ++ g4)
            (List.length l1 + List.length a) (List.length l1 + List.length c + List.length a)) as (m' & E & Hm & _).
        { destruct c; [cbn in Hn0; lia|discriminate]. }
        { now rewrite map_length. }
        { rewrite map_length. lia. }
        rewrite E. cbn [bind]. rewrite map_length in Hm.
        exists m', [], (a ++ c), g4. cbn. rewrite Hm, map_app, <- app_assoc. repeat split; auto; try lia.
        now rewrite Nat.sub_diag.
  Qed.

  Lemma insert_range_ok v l1 l2 xs : vrep v (l1 ++ l2) ->
    List.length l1 + List.length l2 + List.length xs <= cap ->
    exists v', insert_range triv mv smv SZ cap v (List.length l1) xs = Ok v' tt /\
      vrep v' (l1 ++ xs ++ (if Nat.eqb (List.length xs) 0 then map smv l2 else l2)).
  Proof.
    intros H Hn. unfold insert_range, size.
    assert (Hs : vn v = List.length l1 + List.length l2) by (rewrite (rep_n _ _ H), app_length; reflexivity).
    rewrite Hs, Nat.mod_small by lia.
    destruct (Nat.leb_spec (List.length l1 + List.length l2 + List.length xs) cap); [|lia].
    destruct (make_room_ok v l1 l2 (List.length xs) H Hn) as (m & g1 & l2' & g2 & E & H1 & H2 & H3 & HF1 & HF2 & El).
    rewrite E. clear E.
    destruct (split_at xs (List.length m)) as (x1 & x2 & -> & Hx); [lia|].
    rewrite app_length in *. rewrite <- Hx, skipn_app, skipn_all, Nat.sub_diag. cbn [app skipn].
    rewrite firstn_app, Nat.sub_diag, firstn_all. cbn [firstn]. rewrite app_nil_r.
    rewrite (firstn_all2 (n := List.length g1) x2) by lia.
    assert (E1 : uninit_copy triv x2 (map Some l1 ++ map Some m ++ g1 ++ map Some l2' ++ g2) (List.length l1 + List.length l2)
             = V (map Some l1 ++ map Some m ++ map Some x2 ++ map Some l2' ++ g2)).
    { destruct H2 as [->|H2].
      - destruct x2; [reflexivity|]. cbn in *. lia.
      - rewrite app_assoc. rewrite uninit_copy_ok; auto; [now rewrite <- app_assoc|lia|].
        rewrite app_length, !map_length. lia. }
    rewrite E1. cbn [onbuf].
    rewrite acopy_ok; try (rewrite ?map_length; lia). cbn [onbuf].
    eexists. split; [reflexivity|].
    assert (HL2 : List.length l2' = List.length l2) by (rewrite El; destruct (Nat.eqb _ 0); now rewrite ?map_length).
    replace (map Some l1 ++ map Some x1 ++ map Some x2 ++ map Some l2' ++ g2)
      with (map Some (l1 ++ (x1 ++ x2) ++ l2') ++ g2) by (rewrite !map_app, <- !app_assoc; reflexivity).
    rewrite <- El. apply vrep_mk; auto; rewrite !app_length; lia.
  Qed.
  Lemma insert_n_range v p n x : p <= vn v -> vn v + n <= cap ->
    insert_n triv mv smv SZ cap v p n (Val x) = insert_range triv mv smv SZ cap v p (repeat x n).
  Proof.
    intros Hp Hn. unfold insert_n, insert_range, size. rewrite repeat_length. destruct (_ <=? _); [|reflexivity].
    unfold make_room, size. rewrite (Nat.mod_small (p + n)) by lia.
    set (kn := if vn v <? p + n then vn v - p else n).
    assert (Hk : kn <= n) by (unfold kn; destruct (Nat.ltb_spec (vn v) (p + n)); lia). clearbody kn.
    destruct (uninit_move _ _ _ _ _ _) as [b1| |]; cbn [bind]; try reflexivity.
    destruct (move_backward _ _ _ _ _ _) as [b2| |]; cbn [bind]; try reflexivity.
    rewrite uninit_fill_copy.
    assert (E1 : firstn (n - kn) (skipn kn (repeat x n)) = repeat x (n - kn)).
    { replace (repeat x n) with (repeat x kn ++ repeat x (n - kn)) by (rewrite <- repeat_app; f_equal; lia).
      rewrite skipn_app, repeat_length, Nat.sub_diag, skipn_all2 by (rewrite repeat_length; lia).
      cbn [app skipn]. apply firstn_all2. rewrite repeat_length. lia. }
    assert (E2 : firstn kn (repeat x n) = repeat x kn).
    { replace (repeat x n) with (repeat x kn ++ repeat x (n - kn)) by (rewrite <- repeat_app; f_equal; lia).
      rewrite firstn_app, repeat_length, Nat.sub_diag, firstn_all2 by (rewrite repeat_length; lia).
      cbn [firstn]. apply app_nil_r. }
    rewrite E1, E2.
    destruct (uninit_copy _ _ _ _); cbn [onbuf]; try reflexivity. now rewrite fill_copy.
  Qed.

  Lemma full_iff v l : vrep v l -> full cap v = (cap <=? List.length l).
  Proof. clear Hcap.
    intros H. unfold full. rewrite (rep_n _ _ H). pose proof (vrep_le _ _ H).
    destruct (Nat.eqb_spec (List.length l) cap), (Nat.leb_spec cap (List.length l)); auto; lia.
  Qed.
  (** reading a reference parameter once room has been made at [p] *)
  Lemma insert_gen v l1 z l2 : vrep v (l1 ++ z :: l2) -> List.length l1 + S (List.length l2) < cap ->
    exists v1, create_back triv v (Ref (vn v - 1)) = Ok v1 tt /\
      vn v1 = List.length l1 + S (List.length l2) + 1 /\
      exists y g, move_backward mv smv (vn v1 - 2 - List.length l1) (vb v1) (vn v1 - 2) (vn v1 - 1)
        = V (map Some l1 ++ Some y :: map Some (z :: l2) ++ g)
       /\ List.length l1 + S (List.length l2) + 1 + List.length g = cap /\ Forall okslot g
       /\ y = (if Nat.eqb (List.length l2) 0 then z else mv z).
  Proof. clear Hcap.
    intros H Hl.
    assert (Hn : vn v = List.length l1 + S (List.length l2)) by (rewrite (rep_n _ _ H), app_length; reflexivity).
    destruct (z :: l2) as [|w0 m0] eqn:E using rev_ind; [discriminate|]. clear IHm0.
    rename w0 into w. rename m0 into m.
    assert (Hm : List.length m = List.length l2).
    { apply (f_equal (@List.length T)) in E. rewrite app_length in E. cbn in E. lia. }
    destruct (create_back_ok v (l1 ++ m ++ [w]) w (Ref (vn v - 1)) H) as (v1 & -> & R).
    { rewrite !app_length. cbn. lia. }
    { cbn. eapply get_rep; [exact H|]. rewrite app_assoc. apply nth_at. rewrite app_length. lia. }
    exists v1. split; [reflexivity|].
    assert (Hn1 : vn v1 = List.length l1 + S (List.length l2) + 1).
    { rewrite (rep_n _ _ R), !app_length. cbn. lia. }
    split; [exact Hn1|].
    destruct (vrep_inv _ _ R) as (g & E1 & HL & HF).
    replace (vb v1) with (map Some l1 ++ map Some m ++ map Some [w] ++ (Some w :: g)).
    2:{ rewrite E1. cbn. rewrite !map_app, <- !app_assoc. reflexivity. }
    rewrite Hn1.
    replace (List.length l1 + S (List.length l2) + 1 - 2 - List.length l1) with (List.length m) by lia.
    destruct (move_backward_ok mv smv m [w] (map Some l1) (Some w :: g)
       (List.length l1 + S (List.length l2) + 1 - 2) (List.length l1 + S (List.length l2) + 1 - 1)) as (m' & Em & Hm' & HZ & HE).
    { discriminate. } { rewrite map_length. lia. } { cbn. lia. }
    rewrite Em. destruct m' as [|y [|? ?]]; cbn in Hm'; try discriminate.
    exists y, g. rewrite !app_length in HL. cbn in HL. repeat split; auto; try lia.
    + cbn. rewrite map_app, <- app_assoc. reflexivity.
    + destruct m as [|z' m1]; cbn in Hm, E.
      * rewrite <- Hm. cbn. specialize (HE eq_refl). injection HE as ->. now injection E.
      * destruct (Nat.eqb_spec (List.length l2) 0); [lia|]. injection E as <- _.
        destruct (HZ _ _ eq_refl) as (m2 & E2). now injection E2.
  Qed.
  Lemma insert_ok v l1 l2 a x : vrep v (l1 ++ l2) -> List.length l1 + List.length l2 < cap ->
    (a = Val x \/ exists i, a = Ref i /\ nth_error l1 i = Some x) ->
    exists v', insert triv mv smv cap v (List.length l1) a = Ok v' (List.length l1) /\ vrep v' (l1 ++ x :: l2).
  Proof. clear Hcap.
    intros H Hl Ha. unfold insert.
    rewrite (full_iff _ _ H), app_length. destruct (Nat.leb_spec cap (List.length l1 + List.length l2)); [lia|].
    assert (Hn : vn v = List.length l1 + List.length l2) by (rewrite (rep_n _ _ H), app_length; reflexivity).
    destruct (Nat.eqb_spec (List.length l1) (vn v)) as [E|E].
    - assert (l2 = []) by (destruct l2; cbn in *; auto; lia). subst l2. rewrite app_nil_r in H.
      destruct (create_back_ok v l1 x a H) as (v' & -> & R); [cbn in *; lia| |eauto].
      destruct Ha as [->|(i & -> & Hi)]; [reflexivity|]. cbn. eapply get_rep; eauto.
    - destruct l2 as [|z l2]; [cbn in *; lia|]. cbn [List.length] in *.
      destruct (insert_gen v l1 z l2 H) as (v1 & -> & Hn1 & y & g & -> & HL & HF & _); [lia|].
      cbn [onbuf].
      assert (Er : rd (map Some l1 ++ Some y :: map Some (z :: l2) ++ g) a = V x).
      { destruct Ha as [->|(i & -> & Hi)]; [reflexivity|]. cbn [rd]. unfold get.
        rewrite nth_error_app1 by (rewrite map_length; eapply nth_error_lt; eauto).
        rewrite nth_error_map, Hi. reflexivity. }
      rewrite Er, put_at by now rewrite map_length. cbn [onbuf].
      eexists. split; [reflexivity|].
      replace (map Some l1 ++ Some x :: map Some (z :: l2) ++ g) with (map Some (l1 ++ x :: z :: l2) ++ g)
        by (rewrite map_app, <- app_assoc; reflexivity).
      apply vrep_mk; auto; rewrite app_length; cbn; lia.
  Qed.
  (** aliasing: what a reference to an element at or after the position reads *)
  Lemma insert_alias v l1 z l2 i : vrep v (l1 ++ z :: l2) -> List.length l1 + S (List.length l2) < cap ->
    i <= List.length l2 ->
    exists v' x, insert triv mv smv cap v (List.length l1) (Ref (List.length l1 + i)) = Ok v' (List.length l1)
      /\ vrep v' (l1 ++ x :: z :: l2)
      /\ x = match i with
             | 0 => if Nat.eqb (List.length l2) 0 then z else mv z
             | S j => nth j (z :: l2) z
             end.
  Proof. clear Hcap.
    intros H Hl Hi. unfold insert.
    rewrite (full_iff _ _ H), app_length. cbn [List.length].
    destruct (Nat.leb_spec cap (List.length l1 + S (List.length l2))); [lia|].
    assert (Hn : vn v = List.length l1 + S (List.length l2)) by (rewrite (rep_n _ _ H), app_length; reflexivity).
    destruct (Nat.eqb_spec (List.length l1) (vn v)) as [E|E]; [lia|].
    destruct (insert_gen v l1 z l2 H) as (v1 & -> & Hn1 & y & g & -> & HL & HF & Hy); [lia|].
    cbn [onbuf].
    assert (Er : exists x, rd (map Some l1 ++ Some y :: map Some (z :: l2) ++ g) (Ref (List.length l1 + i)) = V x
      /\ x = match i with 0 => y | S j => nth j (z :: l2) z end).
    { cbn [rd]. unfold get. rewrite nth_error_app2 by (rewrite map_length; lia).
      rewrite map_length. replace (List.length l1 + i - List.length l1) with i by lia.
      destruct i as [|j]; [exists y; auto|]. cbn [nth_error].
      rewrite nth_error_app1 by (rewrite map_length; cbn; lia). rewrite nth_error_map.
      rewrite (nth_error_nth' (z :: l2) z) by (cbn; lia). cbn [option_map]. eauto. }
    destruct Er as (x & Er & Ex). rewrite Er, put_at by now rewrite map_length. cbn [onbuf].
    eexists. exists x. split; [reflexivity|]. split.
    - replace (map Some l1 ++ Some x :: map Some (z :: l2) ++ g) with (map Some (l1 ++ x :: z :: l2) ++ g)
        by (rewrite map_app, <- app_assoc; reflexivity).
      apply vrep_mk; auto; rewrite app_length; cbn; lia.
    - rewrite Ex. destruct i; auto.
  Qed.
  Lemma emplace_ok v l1 l2 x : vrep v (l1 ++ l2) -> List.length l1 + List.length l2 < cap ->
    exists v', emplace triv mv smv cap v (List.length l1) (Val x) = Ok v' (List.length l1) /\ vrep v' (l1 ++ x :: l2).
  Proof. clear Hcap.
    intros H Hl. unfold emplace.
    rewrite (full_iff _ _ H), app_length. destruct (Nat.leb_spec cap (List.length l1 + List.length l2)); [lia|].
    assert (Hn : vn v = List.length l1 + List.length l2) by (rewrite (rep_n _ _ H), app_length; reflexivity).
    destruct (Nat.eqb_spec (List.length l1) (vn v)) as [E|E].
    - assert (l2 = []) by (destruct l2; cbn in *; auto; lia). subst l2. rewrite app_nil_r in H.
      cbn [rd]. destruct (create_back_ok v l1 x (Val x) H) as (v' & E' & R); [cbn in *; lia|reflexivity|].
      unfold create_back in E'. cbn [rd] in E'. rewrite E.
      destruct (construct triv (vb v) (vn v) x) as [b| |]; cbn in E'; try discriminate.
      injection E' as <-. cbn [onbuf]. eexists. split; [reflexivity|]. exact R.
    - destruct l2 as [|z l2]; [cbn in *; lia|]. cbn [List.length] in *.
      destruct (insert_gen v l1 z l2 H) as (v1 & -> & Hn1 & y & g & -> & HL & HF & _); [lia|].
      cbn [onbuf].
      destruct (destroy_at triv (map Some l1) (map Some (z :: l2) ++ g) y (List.length l1)) as (o & Ed & Ho); [now rewrite map_length|].
      rewrite Ed. cbn [onbuf rd]. rewrite construct_at; [|now rewrite map_length|exact Ho]. cbn [onbuf].
      eexists. split; [reflexivity|].
      replace (map Some l1 ++ Some x :: map Some (z :: l2) ++ g) with (map Some (l1 ++ x :: z :: l2) ++ g)
        by (rewrite map_app, <- app_assoc; reflexivity).
      apply vrep_mk; auto; rewrite app_length; cbn; lia.
  Qed.
  Lemma insert_move_ok v l1 l2 x : vrep v (l1 ++ l2) -> List.length l1 + List.length l2 < cap ->
    exists v', insert_move triv mv smv cap v (List.length l1) x = Ok v' (List.length l1) /\ vrep v' (l1 ++ x :: l2).
  Proof. clear Hcap.
    intros H Hl. unfold insert_move.
    rewrite (full_iff _ _ H), app_length. destruct (Nat.leb_spec cap (List.length l1 + List.length l2)); [lia|].
    assert (Hn : vn v = List.length l1 + List.length l2) by (rewrite (rep_n _ _ H), app_length; reflexivity).
    destruct (Nat.eqb_spec (List.length l1) (vn v)) as [E|E].
    - assert (l2 = []) by (destruct l2; cbn in *; auto; lia). subst l2. rewrite app_nil_r in H.
      destruct (create_back_ok v l1 x (Val x) H) as (v' & -> & R); [cbn in *; lia|reflexivity|eauto].
    - destruct (vrep_inv _ _ H) as (g & Ev & HL & HF). rewrite app_length in HL.
      destruct l2 as [|w m] using rev_ind; [cbn in *; lia|]. clear IHm.
      rewrite app_length in *. cbn in Hn, HL, Hl.
      destruct g as [|o g]; [cbn in *; lia|]. inversion HF; subst. cbn [vb vn] in *. cbn [List.length] in HL.
      rewrite !app_length in *. cbn [List.length] in *.
      replace (map Some (l1 ++ m ++ [w]) ++ o :: g) with ((map Some l1 ++ map Some m) ++ map Some [w] ++ [] ++ [o] ++ g)
        by (rewrite !map_app, <- !app_assoc; reflexivity).
      change 1 with (List.length [w]) at 1.
      rewrite uninit_move_ok; auto; try (rewrite ?app_length, ?map_length; cbn; lia).
      cbn [onbuf].
      rewrite <- app_assoc.
      change (map Some (map mv [w]) ++ [] ++ map Some [w] ++ g) with (map Some [mv w] ++ map Some [w] ++ g).
      destruct (move_backward_ok mv smv m [mv w] (map Some l1) (map Some [w] ++ g)
       (List.length l1 + (List.length m + 1) - 1) (List.length l1 + (List.length m + 1))) as (m' & Em & Hm' & _).
      { discriminate. } { rewrite map_length. lia. } { cbn. lia. }
      replace (List.length l1 + (List.length m + 1) - 1 - List.length l1) with (List.length m) by lia.
      rewrite Em. cbn [onbuf]. destruct m' as [|y [|? ?]]; cbn in Hm'; try discriminate.
      cbn [map app]. rewrite put_at by now rewrite map_length. cbn [onbuf].
      eexists. split; [reflexivity|].
      replace (map Some l1 ++ Some x :: map Some m ++ Some w :: g) with (map Some (l1 ++ x :: m ++ [w]) ++ g)
        by (cbn; rewrite !map_app; cbn; rewrite !map_app, <- !app_assoc; cbn; rewrite <- app_assoc; reflexivity).
      apply vrep_mk; auto; rewrite !app_length; cbn; rewrite ?app_length; cbn; lia.
  Qed.
  Lemma erase_range_ok v l1 m l2 : vrep v (l1 ++ m ++ l2) ->
    exists v', erase_range triv mv smv v (List.length l1) (List.length l1 + List.length m) = Ok v' (List.length l1)
      /\ vrep v' (l1 ++ (if Nat.eqb (List.length m) 0 && negb (Nat.eqb (List.length l1 + List.length l2) 0) then map smv l2 else l2)).
  Proof. clear Hcap.
    intros H. unfold erase_range, clear.
    assert (Hn : vn v = List.length l1 + List.length m + List.length l2).
    { rewrite (rep_n _ _ H), !app_length. lia. }
    destruct (Nat.eqb_spec (List.length l1) 0) as [E1|E1]; cbn [andb].
    - destruct l1; [|discriminate]. cbn [List.length app Nat.add] in *.
      destruct (Nat.eqb_spec (List.length m) (vn v)) as [E2|E2].
      + destruct l2; [|cbn in *; lia]. destruct (initialise_ok _ _ H) as (v' & -> & R).
        exists v'. split; [reflexivity|]. cbn. now destruct (Nat.eqb _ 0 && _).
      + revert E2. intros E2.
        assert (Hl2 : List.length l2 <> 0) by lia.
        destruct (vrep_inv _ _ H) as (g & -> & HL & HF). cbn [vb vn] in *. rewrite app_length in *.
        replace (List.length m + List.length l2 - List.length m) with (List.length l2) by lia.
        destruct (Nat.eqb_spec (List.length m) 0) as [E3|E3].
        * destruct m; [|discriminate]. cbn [List.length app Nat.add Nat.sub].
          pose proof (amove_self mv smv l2 [] g 0 eq_refl) as Ea. cbn [app] in Ea. rewrite Ea. cbn [onbuf destroy_n].
          rewrite Nat.sub_0_r. eexists. split; [reflexivity|].
          destruct (Nat.eqb_spec (List.length l2) 0); [lia|]. cbn [andb negb].
          apply vrep_mk; rewrite ?map_length; auto.
        * cbn [andb].
          destruct (amove_ok mv smv l2 m [] g (List.length m) 0) as (m' & Ea & Hm'); auto.
          { destruct m; [cbn in *; lia|discriminate]. }
          cbn [app] in Ea. rewrite map_app, <- app_assoc, Ea. cbn [onbuf]. rewrite Nat.sub_0_r.
          replace (List.length m + List.length l2 - List.length m) with (List.length l2) by lia.
          destruct (destroy_n_ok triv m' (map Some l2) g (List.length l2)) as (g' & Ed & Hg & HFg); [now rewrite map_length|].
          rewrite <- Hm', Ed. cbn [onbuf]. eexists. split; [reflexivity|].
          apply vrep_mk; auto; [rewrite app_length; lia|now apply Forall_app].
    - destruct (vrep_inv _ _ H) as (g & -> & HL & HF). cbn [vb vn] in *. rewrite !app_length in *.
      replace (List.length l1 + (List.length m + List.length l2) - (List.length l1 + List.length m)) with (List.length l2) by lia.
      replace (List.length l1 + List.length m - List.length l1) with (List.length m) by lia.
      replace (List.length l1 + (List.length m + List.length l2) - List.length m) with (List.length l1 + List.length l2) by lia.
      rewrite !map_app, <- !app_assoc.
      destruct (Nat.eqb_spec (List.length m) 0) as [E3|E3].
      + destruct m; [|discriminate]. cbn [List.length app Nat.add map].
        rewrite Nat.add_0_r, amove_self by now rewrite map_length. cbn [onbuf destroy_n].
        eexists. split; [reflexivity|].
        destruct (Nat.eqb_spec (List.length l1 + List.length l2) 0); [lia|]. cbn [andb negb].
        rewrite app_assoc, <- map_app. cbn [List.length] in *. apply vrep_mk; rewrite ?app_length, ?map_length; auto.
      + cbn [andb].
        destruct (amove_ok mv smv l2 m (map Some l1) g (List.length l1 + List.length m) (List.length l1)) as (m' & Ea & Hm'); auto.
        { destruct m; [cbn in *; lia|discriminate]. } { now rewrite map_length. }
        rewrite Ea. cbn [onbuf].
        destruct (destroy_n_ok triv m' (map Some l1 ++ map Some l2) g (List.length l1 + List.length l2)) as (g' & Ed & Hg & HFg);
          [now rewrite app_length, !map_length|].
        rewrite app_assoc, <- Hm'. rewrite Ed. cbn [onbuf]. eexists. split; [reflexivity|].
        rewrite <- map_app. apply vrep_mk; rewrite ?app_length; auto; [lia|now apply Forall_app].
  Qed.
  Lemma erase_ok v l1 y l2 : vrep v (l1 ++ y :: l2) ->
    exists v', erase triv mv smv v (List.length l1) = Ok v' (List.length l1) /\ vrep v' (l1 ++ l2).
  Proof. clear Hcap.
    intros H. unfold erase. destruct (vrep_inv _ _ H) as (g & -> & HL & HF). cbn [vb vn] in *. rewrite !app_length in *.
    cbn [List.length] in *.
    replace (List.length l1 + S (List.length l2) - (List.length l1 + 1)) with (List.length l2) by lia.
    replace (map Some (l1 ++ y :: l2) ++ g) with (map Some l1 ++ map Some [y] ++ map Some l2 ++ g)
      by (rewrite map_app, <- app_assoc; reflexivity).
    destruct (amove_ok mv smv l2 [y] (map Some l1) g (List.length l1 + 1) (List.length l1)) as (m' & Ea & Hm'); auto.
    { discriminate. } { now rewrite map_length. }
    rewrite Ea. cbn [onbuf]. destruct m' as [|y' [|? ?]]; cbn in Hm'; try discriminate.
    destruct (destroy_back_ok (mkvec (map Some l1 ++ map Some l2 ++ map Some [y'] ++ g)
       (List.length l1 + S (List.length l2))) (l1 ++ l2) y') as (v' & E & R); [|rewrite E; eauto].
    replace (map Some l1 ++ map Some l2 ++ map Some [y'] ++ g) with (map Some ((l1 ++ l2) ++ [y']) ++ g)
      by (rewrite !map_app, <- !app_assoc; reflexivity).
    apply vrep_mk; auto; rewrite !app_length; cbn; lia.
  Qed.

  Lemma removelast_snoc (l : list T) x : removelast (l ++ [x]) = l.
  Proof. clear Hcap. now rewrite removelast_app, app_nil_r by discriminate. Qed.

  (** the circumstances in which the specification is claimed: with the push/pop
      check, or within the limits; in a debug build, or a range that fits; counts
      that do not wrap size_t; and, for an empty insertion or erasure, an element
      type for which self move assignment is harmless *)
  Definition supported (l : list T) (o : vop T) : Prop :=
    match o with
    | OpPushBack _ | OpEmplaceBack _ => chk = true \/ List.length l < cap
    | OpPopBack => chk = true \/ l <> []
    | OpAssignRange xs => dbg = true \/ List.length xs <= cap
    | OpInsertN _ n _ => List.length l + n < SZ /\ (n <> 0 \/ forall x, smv x = x)
    | OpInsertRange _ xs => List.length l + List.length xs < SZ /\ (xs <> [] \/ forall x, smv x = x)
    | OpEraseRange p q => p <> q \/ forall x, smv x = x
    | _ => True
    end.

  Lemma map_id' (f : T -> T) (l : list T) : (forall x, f x = x) -> map f l = l.
  Proof. clear Hcap. intros H. rewrite (map_ext f (fun x => x) H). apply map_id. Qed.

  Lemma pos_split (l : list T) p : p <= List.length l -> exists l1 l2, l = l1 ++ l2 /\ p = List.length l1.
  Proof. clear Hcap. intros H. destruct (split_at l p H) as (l1 & l2 & -> & <-). eauto. Qed.

  Lemma step_ok v l o : vrep v l -> valid l o -> supported l o ->
    match spec cap l o with
    | Content l' => exists v', step triv chk dbg mv smv SZ cap v o = Ok v' (spec_ret o) /\ vrep v' l'
    | Error e => step triv chk dbg mv smv SZ cap v o = Exc e v
    end.
  Proof.
    intros H HV HS. pose proof (vrep_le _ _ H) as Hle. pose proof (rep_n _ _ H) as Hn.
    assert (Hpush : forall x (f : vec T -> arg T -> res T unit),
       f = push_back triv chk cap \/ f = emplace_back triv chk cap -> chk = true \/ List.length l < cap ->
       match bounded cap (l ++ [x]) with
       | Content l' => exists v', noret (f v (Val x)) = Ok v' None /\ vrep v' l'
       | Error e => noret (f v (Val x)) = Exc e v
       end).
    { intros x f Hf Hc.
      assert (Ef : f v (Val x) = if chk && full cap v then Exc "vector_full" v else create_back triv v (Val x)).
      { destruct Hf as [->| ->]; reflexivity. }
      rewrite Ef. unfold bounded. rewrite (full_iff _ _ H), app_length. cbn [List.length].
      destruct (Nat.leb_spec (List.length l + 1) cap) as [H1|H1].
      - destruct (Nat.leb_spec cap (List.length l)); [lia|]. rewrite andb_false_r.
        destruct (create_back_ok v l x (Val x) H) as (v' & -> & R); [lia|reflexivity|]. cbn. eauto.
      - destruct (Nat.leb_spec cap (List.length l)); [|lia]. destruct Hc as [->|Hc]; [reflexivity|lia]. }
    destruct o as [x|x| |p x|p x|p x|p n x|p xs|p|p q|n x|n x|xs|x| ]; cbn [spec spec_ret step]; cbn [valid supported] in HV, HS.
    - apply Hpush; auto.
    - apply Hpush; auto.
    - (* pop_back *)
      unfold pop_back, empty. rewrite Hn. destruct l as [|y l] using rev_ind.
      + cbn. destruct HS as [->|?]; [reflexivity|congruence].
      + clear IHl. rewrite app_length, Nat.add_1_r. cbn [Nat.eqb]. rewrite andb_false_r.
        assert (E : match l ++ [y] with [] => Error "vector_empty" | _ :: _ => Content (removelast (l ++ [y])) end = Content l).
        { rewrite removelast_snoc. destruct l; reflexivity. }
        rewrite E. destruct (destroy_back_ok _ _ _ H) as (v' & -> & R). cbn. eauto.
    - destruct (pos_split l p HV) as (l1 & l2 & -> & ->). rewrite ins_mid. unfold bounded.
      rewrite !app_length in *. cbn [List.length].
      destruct (Nat.leb_spec (List.length l1 + (1 + List.length l2)) cap) as [H1|H1].
      + destruct (insert_ok v l1 l2 (Val x) x H) as (v' & -> & R); auto; [lia|]. cbn. eauto.
      + unfold insert. rewrite (full_iff _ _ H), app_length.
        destruct (Nat.leb_spec cap (List.length l1 + List.length l2)); [reflexivity|lia].
    - destruct (pos_split l p HV) as (l1 & l2 & -> & ->). rewrite ins_mid. unfold bounded.
      rewrite !app_length in *. cbn [List.length].
      destruct (Nat.leb_spec (List.length l1 + (1 + List.length l2)) cap) as [H1|H1].
      + destruct (insert_move_ok v l1 l2 x H) as (v' & -> & R); auto; [lia|]. cbn. eauto.
      + unfold insert_move. rewrite (full_iff _ _ H), app_length.
        destruct (Nat.leb_spec cap (List.length l1 + List.length l2)); [reflexivity|lia].
    - destruct (pos_split l p HV) as (l1 & l2 & -> & ->). rewrite ins_mid. unfold bounded.
      rewrite !app_length in *. cbn [List.length].
      destruct (Nat.leb_spec (List.length l1 + (1 + List.length l2)) cap) as [H1|H1].
      + destruct (emplace_ok v l1 l2 x H) as (v' & -> & R); auto; [lia|]. cbn. eauto.
      + unfold emplace. rewrite (full_iff _ _ H), app_length.
        destruct (Nat.leb_spec cap (List.length l1 + List.length l2)); [reflexivity|lia].
    - (* insert n *)
      destruct HS as [HS1 HS2].
      destruct (pos_split l p HV) as (l1 & l2 & -> & ->). rewrite ins_mid. unfold bounded.
      rewrite !app_length, repeat_length in *.
      destruct (Nat.leb_spec (List.length l1 + (n + List.length l2)) cap) as [H1|H1].
      + rewrite insert_n_range by lia.
        destruct (insert_range_ok v l1 l2 (repeat x n) H) as (v' & -> & R); [rewrite repeat_length; lia|].
        cbn. exists v'. split; [reflexivity|]. rewrite repeat_length in R.
        destruct (Nat.eqb_spec n 0); [|exact R]. destruct HS2 as [?|HS2]; [lia|]. now rewrite map_id' in R.
      + unfold insert_n, size. rewrite Hn, Nat.mod_small by lia.
        destruct (Nat.leb_spec (List.length l1 + List.length l2 + n) cap); [lia|reflexivity].
    - destruct HS as [HS1 HS2].
      destruct (pos_split l p HV) as (l1 & l2 & -> & ->). rewrite ins_mid. unfold bounded.
      rewrite !app_length in *.
      destruct (Nat.leb_spec (List.length l1 + (List.length xs + List.length l2)) cap) as [H1|H1].
      + destruct (insert_range_ok v l1 l2 xs H) as (v' & -> & R); [lia|].
        cbn. exists v'. split; [reflexivity|].
        destruct (Nat.eqb_spec (List.length xs) 0); [|exact R].
        destruct HS2 as [?|HS2]; [destruct xs; cbn in *; [congruence|lia]|]. now rewrite map_id' in R.
      + unfold insert_range, size. rewrite Hn, Nat.mod_small by lia.
        destruct (Nat.leb_spec (List.length l1 + List.length l2 + List.length xs) cap); [lia|reflexivity].
    - (* erase *)
      destruct (pos_split l p) as (l1 & [|y l2] & -> & ->); [lia|rewrite app_length in HV; cbn in HV; lia|].
      pose proof (del_mid l1 [y] l2) as E. cbn [app List.length] in E. rewrite E.
      destruct (erase_ok _ _ _ _ H) as (v' & -> & R). cbn. eauto.
    - destruct (pos_split l q) as (l0 & l2 & -> & ->); [lia|].
      destruct (pos_split l0 p) as (l1 & m & -> & ->); [lia|].
      rewrite app_length in *. rewrite <- app_assoc in *. rewrite del_mid.
      destruct (erase_range_ok _ _ _ _ H) as (v' & -> & R). cbn [ret]. exists v'. split; [reflexivity|].
      destruct (Nat.eqb_spec (List.length m) 0); cbn [andb] in R; [|exact R].
      destruct HS as [?|HS]; [lia|]. destruct (negb _) in R; [|exact R]. now rewrite map_id' in R.
    - (* resize *)
      unfold bounded, resize, size. rewrite app_length, firstn_length, repeat_length, Hn.
      destruct (Nat.leb_spec n cap) as [H1|H1].
      + destruct (Nat.leb_spec (Nat.min n (List.length l) + (n - List.length l)) cap); [|lia].
        destruct (vrep_inv _ _ H) as (g & -> & HL & HF). cbn [vb vn].
        destruct (Nat.ltb_spec (List.length l) n) as [H2|H2].
        * rewrite uninit_fill_copy, firstn_all2 by lia.
          destruct (fill_from l (repeat x (n - List.length l)) g) as (b & -> & R); auto; [rewrite repeat_length; lia|].
          cbn. eexists. split; [reflexivity|]. rewrite repeat_length in R.
          replace (List.length l + (n - List.length l)) with n in R by lia. exact R.
        * destruct (split_at l n H2) as (l1 & l2 & -> & <-). rewrite app_length in *.
          replace (List.length l1 + List.length l2 - List.length l1) with (List.length l2) by lia.
          replace (List.length l1 + List.length l2 - List.length l2) with (List.length l1) by lia.
          rewrite map_app, <- app_assoc.
          destruct (destroy_n_ok triv l2 (map Some l1) g (List.length l1)) as (g' & -> & Hg & HFg); [now rewrite map_length|].
          cbn. eexists. split; [reflexivity|].
          rewrite firstn_app, Nat.sub_diag, firstn_all. cbn. rewrite app_nil_r.
          replace (List.length l1 - (List.length l1 + List.length l2)) with 0 by lia. cbn. rewrite app_nil_r.
          apply vrep_mk; auto; [rewrite app_length; lia|now apply Forall_app].
      + destruct (Nat.leb_spec (Nat.min n (List.length l) + (n - List.length l)) cap); [lia|reflexivity].
    - (* assign n *)
      unfold bounded, assign_n. rewrite repeat_length.
      destruct (Nat.leb_spec n cap) as [H1|H1]; [|reflexivity].
      destruct (initialise_ok _ _ H) as (v1 & -> & R1).
      destruct (vrep_inv _ _ R1) as (g & -> & HL & HF). cbn [vb vn map app].
      rewrite uninit_fill_copy.
      destruct (fill_from [] (repeat x n) g) as (b & E & R); auto; [cbn; rewrite repeat_length; lia|].
      cbn in E. rewrite E. cbn. eexists. split; [reflexivity|]. cbn in R. now rewrite repeat_length in R.
    - unfold bounded, assign_range.
      destruct (Nat.leb_spec (List.length xs) cap) as [H1|H1].
      + rewrite orb_true_r. destruct (initialise_ok _ _ H) as (v1 & -> & R1).
        destruct (vrep_inv _ _ R1) as (g & -> & HL & HF). cbn [vb vn map app].
        destruct (fill_from [] xs g) as (b & E & R); auto. cbn in E. rewrite E. cbn. eauto.
      + destruct HS as [->|?]; [reflexivity|lia].
    - (* fill *)
      unfold fill. rewrite Hn, fill_copy. destruct (vrep_inv _ _ H) as (g & -> & HL & HF). cbn [vb vn].
      pose proof (acopy_ok (repeat x (List.length l)) l [] g 0) as E. cbn [app] in E.
      rewrite E by (rewrite ?repeat_length; auto). cbn. eexists. split; [reflexivity|].
      replace (map (fun _ => x) l) with (repeat x (List.length l)) by (clear; induction l; cbn; congruence).
      apply vrep_mk; rewrite ?repeat_length; auto.
    - destruct (initialise_ok _ _ H) as (v' & E & R). unfold clear. rewrite E. cbn. eauto.
  Qed.

  Lemma run_ok os : forall v l, vrep v l ->
    (forall os1 o os2, os = os1 ++ o :: os2 -> valid (spec_run cap l os1) o /\ supported (spec_run cap l os1) o) ->
    exists v', run triv chk dbg mv smv SZ cap v os = Some v' /\ vrep v' (spec_run cap l os).
  Proof.
    induction os as [|o os IH]; intros v l H HO; cbn [run spec_run]; [eauto|].
    destruct (HO [] o os eq_refl) as [H1 H2]. cbn in H1, H2.
    pose proof (step_ok v l o H H1 H2) as Hs.
    assert (HO' : forall os1 o' os2, os = os1 ++ o' :: os2 ->
      valid (spec_run cap (match spec cap l o with Content l' => l' | Error _ => l end) os1) o' /\
      supported (spec_run cap (match spec cap l o with Content l' => l' | Error _ => l end) os1) o').
    { intros os1 o' os2 ->. exact (HO (o :: os1) o' os2 eq_refl). }
    destruct (spec cap l o) as [l'|e].
    - destruct Hs as (v' & -> & R). apply IH; auto.
    - rewrite Hs. apply IH; auto.
  Qed.

  (** observations *)
  Lemma live_rep v l : vrep v l -> triv = false -> live (vb v) = List.length l.
  Proof. clear Hcap.
    intros H Ht. destruct (vrep_inv _ _ H) as (g & -> & HL & HF). cbn [vb]. unfold live. rewrite filter_app, app_length.
    assert (E : filter (fun o : option T => match o with Some _ => true | None => false end) g = []).
    { clear HL H. induction HF as [|o g Ho HF IH]; [reflexivity|]. cbn. destruct Ho as [Ho|Ho]; [congruence|]. rewrite Ho. exact IH. }
    rewrite E. cbn. rewrite Nat.add_0_r. clear. induction l; cbn; congruence.
  Qed.
  Lemma read_all_ok l : forall (P Q : buf T) i, i = List.length P ->
    read_all (List.length l) (P ++ map Some l ++ Q) i = V l.
  Proof. clear Hcap.
    induction l as [|x l IH]; intros P Q i Hi; [reflexivity|]. cbn [List.length read_all map app].
    rewrite get_at by auto. cbn [bind].
    replace (P ++ Some x :: map Some l ++ Q) with ((P ++ [Some x]) ++ map Some l ++ Q) by now rewrite <- app_assoc.
    rewrite IH by (rewrite app_length; cbn; lia). reflexivity.
  Qed.
  Lemma read_rep v l : vrep v l -> read_all (vn v) (vb v) 0 = V l.
  Proof. clear Hcap.
    intros H. destruct (vrep_inv _ _ H) as (g & -> & HL & HF). cbn [vb vn]. now apply (read_all_ok l [] g).
  Qed.
End VecP.

(** move assignment: the two vectors may have different capacities *)
Section MoveAssign.
  Context {T : Type}.
  Variables (triv chk : bool) (mv : T -> T) (cap rcap : nat).

  Lemma push_all_ok r2 : forall v l rhs r1, vrep triv cap v l -> vrep triv rcap rhs (map mv r1 ++ r2) ->
    List.length l + List.length r2 <= cap ->
    exists v' rhs', push_all triv chk mv cap (List.length r2) v rhs (List.length r1) = Ok v' rhs'
      /\ vrep triv cap v' (l ++ r2) /\ vrep triv rcap rhs' (map mv (r1 ++ r2)).
  Proof.
    induction r2 as [|x r2 IH]; intros v l rhs r1 H HR Hl; cbn [push_all List.length].
    - exists v, rhs. rewrite app_nil_r in HR. rewrite !app_nil_r. auto.
    - cbn in Hl. destruct (vrep_inv _ _ _ _ HR) as (g & E & HL & HF).
      rewrite E. cbn [vb vn]. rewrite app_length, map_length in HL. cbn in HL.
      rewrite map_app, <- app_assoc. cbn [map app].
      rewrite get_at by now rewrite !map_length.
      unfold push_back. rewrite (full_iff _ _ _ _ H).
      destruct (Nat.leb_spec cap (List.length l)); [lia|]. rewrite andb_false_r.
      destruct (create_back_ok triv cap v l x (Val x) H) as (v1 & -> & R); [lia|reflexivity|].
      rewrite put_at by now rewrite !map_length.
      replace (List.length r1 + 1) with (List.length (r1 ++ [x])) by (rewrite app_length; reflexivity).
      destruct (IH v1 (l ++ [x]) (mkvec (map Some (map mv r1) ++ Some (mv x) :: map Some r2 ++ g) (List.length (map mv r1 ++ x :: r2))) (r1 ++ [x])) as (v' & rhs' & E1 & R1 & R2).
      + exact R.
      + replace (map Some (map mv r1) ++ Some (mv x) :: map Some r2 ++ g) with (map Some (map mv (r1 ++ [x]) ++ r2) ++ g)
          by (rewrite !map_app, <- !app_assoc; reflexivity).
        apply vrep_mk; auto; rewrite ?map_app, !app_length, ?map_length; cbn; lia.
      + rewrite app_length; cbn; lia.
      + exists v', rhs'. rewrite E1. rewrite <- !app_assoc in *. auto.
  Qed.
  (** too many elements: the exception leaves the first [cap] of them in the target *)
  Lemma push_all_full r2 : forall v l rhs r1, chk = true -> vrep triv cap v l -> vrep triv rcap rhs (map mv r1 ++ r2) ->
    cap < List.length l + List.length r2 ->
    exists v', push_all triv chk mv cap (List.length r2) v rhs (List.length r1) = Exc "vector_full" v'
      /\ vrep triv cap v' (firstn cap (l ++ r2)).
  Proof.
    induction r2 as [|x r2 IH]; intros v l rhs r1 Hc H HR Hl; cbn [push_all List.length].
    - pose proof (vrep_le _ _ _ _ H). cbn in Hl. lia.
    - cbn in Hl. destruct (vrep_inv _ _ _ _ HR) as (g & E & HL & HF). pose proof (vrep_le _ _ _ _ H).
      rewrite E. cbn [vb vn]. rewrite app_length, map_length in HL. cbn in HL.
      rewrite map_app, <- app_assoc. cbn [map app].
      rewrite get_at by now rewrite !map_length.
      unfold push_back. rewrite (full_iff _ _ _ _ H).
      destruct (Nat.leb_spec cap (List.length l)).
      + rewrite Hc. cbn [andb]. exists v. split; [reflexivity|].
        rewrite firstn_app. replace (cap - List.length l) with 0 by lia. rewrite firstn_all2 by lia. cbn. now rewrite app_nil_r.
      + rewrite andb_false_r.
        destruct (create_back_ok triv cap v l x (Val x) H) as (v1 & -> & R); [lia|reflexivity|].
        rewrite put_at by now rewrite !map_length.
        replace (List.length r1 + 1) with (List.length (r1 ++ [x])) by (rewrite app_length; reflexivity).
        destruct (IH v1 (l ++ [x]) (mkvec (map Some (map mv r1) ++ Some (mv x) :: map Some r2 ++ g) (List.length (map mv r1 ++ x :: r2))) (r1 ++ [x])) as (v' & E1 & R1); auto.
        * replace (map Some (map mv r1) ++ Some (mv x) :: map Some r2 ++ g) with (map Some (map mv (r1 ++ [x]) ++ r2) ++ g)
            by (rewrite !map_app, <- !app_assoc; reflexivity).
          apply vrep_mk; auto; rewrite ?map_app, !app_length, ?map_length; cbn; lia.
        * rewrite app_length; cbn; lia.
        * exists v'. rewrite E1. rewrite <- !app_assoc in *. auto.
  Qed.
End MoveAssign.
