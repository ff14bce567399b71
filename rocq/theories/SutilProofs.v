From Coq Require Import ZArith List Bool Arith Lia.
From Verif Require Import Util SutilModel SutilSpec.
Import ListNotations.
Lemma among_in cs c : among cs c = true <-> In c cs.
Proof. unfold among. rewrite existsb_exists. split; [intros (x & H & E); apply Z.eqb_eq in E; now subst|intros H; exists c; split; [exact H|apply Z.eqb_refl]]. Qed.
Lemma among_not cs c : among cs c = false <-> ~ In c cs.
Proof. rewrite <- among_in. destruct (among cs c); split; try congruence; intros H; exfalso; auto. Qed.
Lemma first_by_spec p l : forall i, match first_by p l i with
  | Some k => exists a c b, l = a ++ c :: b /\ k = i + List.length a /\ Forall (fun x => p x = false) a /\ p c = true
  | None => Forall (fun x => p x = false) l end.
Proof.
  induction l as [|c l IH]; intros i; cbn [first_by]; [constructor|]. destruct (p c) eqn:E.
  - exists [], c, l. conj; auto.
  - specialize (IH (S i)). destruct (first_by p l (S i)) as [k|].
    + destruct IH as (a & d & b & -> & -> & F & P). exists (c :: a), d, b. conj; auto. cbn. lia.
    + auto.
Qed.
Lemma last_by_spec p l : match last_by p l with
  | Some k => exists a c b, l = a ++ c :: b /\ k = List.length a /\ Forall (fun x => p x = false) b /\ p c = true
  | None => Forall (fun x => p x = false) l end.
Proof.
  unfold last_by. pose proof (first_by_spec p (rev l) 0) as H. destruct (first_by p (rev l) 0) as [k|]; cbn [option_map].
  - destruct H as (a & c & b & E & -> & F & P). exists (rev b), c, (rev a). assert (l = rev b ++ c :: rev a) as El.
    { rewrite <- (rev_involutive l), E, rev_app_distr. cbn [rev]. rewrite <- app_assoc. reflexivity. } conj; auto.
    + rewrite El at 1. rewrite app_length. cbn [List.length]. rewrite !rev_length. lia.
    + now apply Forall_rev.
  - rewrite <- (rev_involutive l). now apply Forall_rev.
Qed.
Lemma F_in cs l : Forall (fun x => among cs x = false) l <-> Forall (fun c => ~ In c cs) l.
Proof. split; apply Forall_impl; intros c; apply among_not. Qed.
Lemma F_notin cs l : Forall (fun x => negb (among cs x) = false) l <-> Forall (fun c => In c cs) l.
Proof. split; apply Forall_impl; intros c; rewrite negb_false_iff; apply among_in. Qed.
Lemma negb_in cs c : negb (among cs c) = true <-> ~ In c cs.
Proof. rewrite negb_true_iff. apply among_not. Qed.
Lemma skipn_app_l {A} (a b : list A) : skipn (List.length a) (a ++ b) = b.
Proof. rewrite skipn_app, skipn_all, Nat.sub_diag. reflexivity. Qed.
Lemma firstn_app_l {A} (a b : list A) : firstn (List.length a) (a ++ b) = a.
Proof. rewrite firstn_app, firstn_all, Nat.sub_diag. cbn. apply app_nil_r. Qed.
Lemma skipn_none {A} n (l : list A) : List.length l <= n -> skipn n l = [].
Proof. intros H. apply length_zero_iff_nil. rewrite skipn_length. lia. Qed.

Lemma erase_front a t : erase (a ++ t) 0 (Some (List.length a)) = Some t.
Proof. unfold erase. cbn [Nat.leb firstn app]. rewrite Nat.sub_0_r, Nat.min_l by (rewrite app_length; lia). rewrite Nat.add_0_l. now rewrite skipn_app_l. Qed.
Lemma erase_all t : erase t 0 None = Some [].
Proof. unfold erase. cbn [Nat.leb firstn app]. rewrite Nat.sub_0_r, Nat.add_0_l, skipn_all. reflexivity. Qed.
Lemma erase_back t b : erase (t ++ b) (List.length t) None = Some t.
Proof.
  unfold erase. rewrite (proj2 (Nat.leb_le _ _)) by (rewrite app_length; lia). rewrite firstn_app_l, app_length.
  rewrite skipn_none by (rewrite app_length; lia). now rewrite app_nil_r.
Qed.
Lemma snoc_inj {A} (a b : list A) x y : a ++ [x] = b ++ [y] -> x = y.
Proof. intros H. apply app_inj_tail in H. tauto. Qed.

Lemma trim_from_left_ok s cs : exists t, trim_from_left s cs = Some t /\ StripLeft cs s t.
Proof.
  unfold trim_from_left, find_first_not_of. pose proof (first_by_spec (fun c => negb (among cs c)) s 0) as H. destruct (first_by _ s 0) as [k|].
  - destruct H as (a & c & b & -> & -> & F & P). rewrite Nat.add_0_l, erase_front. eexists. split; [reflexivity|]. exists a. conj; auto; [now apply F_notin|].
    intros d t' [= <- _]. now apply negb_in.
  - rewrite erase_all. eexists. split; [reflexivity|]. exists s. conj; [now rewrite app_nil_r|now apply F_notin|discriminate].
Qed.
Lemma trim_from_right_ok s cs : exists t, trim_from_right s cs = Some t /\ StripRight cs s t.
Proof.
  unfold trim_from_right, find_last_not_of. pose proof (last_by_spec (fun c => negb (among cs c)) s) as H. destruct (last_by _ s) as [k|]; cbn [plus1].
  - destruct H as (a & c & b & -> & -> & F & P). replace (a ++ c :: b) with ((a ++ [c]) ++ b) by (rewrite <- app_assoc; reflexivity).
    replace (S (List.length a)) with (List.length (a ++ [c])) by (rewrite app_length; cbn; lia). rewrite erase_back. eexists. split; [reflexivity|]. exists b. conj; auto; [now apply F_notin|].
    intros d t' E. apply snoc_inj in E. subst. now apply negb_in.
  - rewrite erase_all. eexists. split; [reflexivity|]. exists s. conj; [reflexivity|now apply F_notin|]. intros c t' E. destruct t'; discriminate.
Qed.
Lemma trim_left_ok s cs : exists t, trim_left s cs = Some t /\ FromDelimiter cs s t.
Proof.
  unfold trim_left, find_first_of. pose proof (first_by_spec (among cs) s 0) as H. destruct (first_by _ s 0) as [k|].
  - destruct H as (a & c & b & -> & -> & F & P). rewrite Nat.add_0_l, erase_front. eexists. split; [reflexivity|]. exists a. left. conj; auto; [now apply F_in|].
    intros d t' [= <- _]. now apply among_in.
  - eexists. split; [reflexivity|]. exists []. right. split; [reflexivity|]. now apply F_in.
Qed.
Lemma trim_right_ok s cs : exists t, trim_right s cs = Some t /\ ToDelimiter cs s t.
Proof.
  unfold trim_right, find_last_of. pose proof (last_by_spec (among cs) s) as H. destruct (last_by _ s) as [k|].
  - destruct H as (a & c & b & -> & -> & F & P). replace (a ++ c :: b) with ((a ++ [c]) ++ b) by (rewrite <- app_assoc; reflexivity).
    replace (S (List.length a)) with (List.length (a ++ [c])) by (rewrite app_length; cbn; lia).
    assert (G : ToDelimiter cs ((a ++ [c]) ++ b) (a ++ [c])).
    { exists b. left. conj; auto; [now apply F_in|]. intros d t' E. apply snoc_inj in E. subst. now apply among_in. }
    destruct (Nat.eqb_spec (List.length (a ++ [c])) (List.length ((a ++ [c]) ++ b))) as [E|E]; cbn [negb].
    + rewrite !app_length in E. destruct b; [|cbn in E; lia]. rewrite app_nil_r in *. eauto.
    + rewrite erase_back. eauto.
  - eexists. split; [reflexivity|]. exists []. right. split; [reflexivity|]. now apply F_in.
Qed.

Lemma between_ok a m z : between (a ++ m ++ z) (List.length a) (List.length a + List.length m) = Some (List.length a, List.length m) /\ shown (a ++ m ++ z) (List.length a, List.length m) = m.
Proof.
  split.
  - unfold between. rewrite !app_length. rewrite (proj2 (Nat.leb_le _ _)), (proj2 (Nat.leb_le _ _)) by lia. cbn [andb]. do 2 f_equal. lia.
  - unfold shown. cbn [fst snd]. now rewrite skipn_app_l, firstn_app_l.
Qed.
Lemma shown_tail a m : shown (a ++ m) (List.length a, List.length m) = m.
Proof. pose proof (between_ok a m []) as (_ & H). now rewrite app_nil_r in H. Qed.
Lemma between_tail a m : between (a ++ m) (List.length a) (List.length (a ++ m)) = Some (List.length a, List.length m).
Proof. pose proof (between_ok a m []) as (H & _). rewrite app_nil_r in H. now rewrite app_length. Qed.
Lemma shown_head m z : shown (m ++ z) (0, List.length m) = m.
Proof. exact (proj2 (between_ok [] m z)). Qed.
Lemma between_head m z : between (m ++ z) 0 (List.length m) = Some (0, List.length m).
Proof. exact (proj1 (between_ok [] m z)). Qed.

Lemma trim_from_view_left_ok l cs : exists v, trim_from_view_left l cs = Some v /\ StripLeft cs l (shown l v).
Proof.
  unfold trim_from_view_left, find_first_not_of. pose proof (first_by_spec (fun c => negb (among cs c)) l 0) as H. destruct (first_by _ l 0) as [k|].
  - destruct H as (a & c & b & -> & -> & F & P). rewrite Nat.add_0_l, between_tail. eexists. split; [reflexivity|]. rewrite shown_tail. exists a. conj; auto; [now apply F_notin|].
    intros d t' [= <- _]. now apply negb_in.
  - pose proof (between_tail l []) as E. rewrite app_nil_r in E. rewrite E. eexists. split; [reflexivity|]. exists l. conj; [unfold shown; cbn; now rewrite app_nil_r|now apply F_notin|discriminate].
Qed.
Lemma trim_from_view_right_ok l cs : exists v, trim_from_view_right l cs = Some v /\ StripRight cs l (shown l v).
Proof.
  unfold trim_from_view_right, find_last_not_of. pose proof (last_by_spec (fun c => negb (among cs c)) l) as H. destruct (last_by _ l) as [k|]; cbn [plus1].
  - destruct H as (a & c & b & -> & -> & F & P). replace (a ++ c :: b) with ((a ++ [c]) ++ b) by (rewrite <- app_assoc; reflexivity).
    replace (S (List.length a)) with (List.length (a ++ [c])) by (rewrite app_length; cbn; lia). rewrite between_head. eexists. split; [reflexivity|]. rewrite shown_head.
    exists b. conj; auto; [now apply F_notin|]. intros d t' E. apply snoc_inj in E. subst. now apply negb_in.
  - pose proof (between_head [] l) as E. cbn [app List.length] in E. rewrite E. eexists. split; [reflexivity|]. exists l. conj; [reflexivity|now apply F_notin|]. intros c t' Q. destruct t'; discriminate.
Qed.
Lemma trim_view_left_ok l cs : exists v, trim_view_left l cs = Some v /\ FromDelimiter cs l (shown l v).
Proof.
  unfold trim_view_left, find_first_of. pose proof (first_by_spec (among cs) l 0) as H. destruct (first_by _ l 0) as [k|].
  - destruct H as (a & c & b & -> & -> & F & P). rewrite Nat.add_0_l, between_tail. eexists. split; [reflexivity|]. rewrite shown_tail. exists a. left. conj; auto; [now apply F_in|].
    intros d t' [= <- _]. now apply among_in.
  - pose proof (between_head [] l) as E. cbn [app List.length] in E. rewrite E. eexists. split; [reflexivity|]. exists []. right. split; [reflexivity|]. now apply F_in.
Qed.
Lemma trim_view_right_ok l cs : exists v, trim_view_right l cs = Some v /\ ToDelimiter cs l (shown l v).
Proof.
  unfold trim_view_right, find_last_of. pose proof (last_by_spec (among cs) l) as H. destruct (last_by _ l) as [k|]; cbn [plus1].
  - destruct H as (a & c & b & -> & -> & F & P). replace (a ++ c :: b) with ((a ++ [c]) ++ b) by (rewrite <- app_assoc; reflexivity).
    replace (S (List.length a)) with (List.length (a ++ [c])) by (rewrite app_length; cbn; lia). rewrite between_head. eexists. split; [reflexivity|]. rewrite shown_head.
    exists b. left. conj; auto; [now apply F_in|]. intros d t' E. apply snoc_inj in E. subst. now apply among_in.
  - pose proof (between_head [] l) as E. cbn [app List.length] in E. rewrite E. eexists. split; [reflexivity|]. exists []. right. split; [reflexivity|]. now apply F_in.
Qed.

(** first and last position that satisfy p *)
Lemma first_last p l : match first_by p l 0, last_by p l with
  | Some f, Some k => exists a m z, l = a ++ m ++ z /\ f = List.length a /\ S k = List.length a + List.length m /\ Forall (fun x => p x = false) a /\ Forall (fun x => p x = false) z /\
       (forall c t, m = c :: t -> p c = true) /\ (forall c t, m = t ++ [c] -> p c = true) /\ (forall c t, m ++ z = c :: t -> p c = true) /\ (forall c t, a ++ m = t ++ [c] -> p c = true)
  | None, None => Forall (fun x => p x = false) l
  | _, _ => False end.
Proof.
  pose proof (first_by_spec p l 0) as HF. pose proof (last_by_spec p l) as HL. destruct (first_by p l 0) as [f|], (last_by p l) as [k|]; auto.
  - destruct HF as (a & c & b & E & -> & F & P). destruct HL as (a' & c' & b' & E' & -> & F' & P'). rewrite E in E'.
    apply app_eq_app in E' as (q & [(E1 & E2)|(E1 & E2)]).
    + destruct q as [|d q].
      * rewrite app_nil_r in E1. cbn in E2. injection E2 as Ec Eb. subst a' c' b'. exists a, [c], b. conj; auto.
        -- cbn. lia.
        -- intros x t [= <- _]. exact P.
        -- intros x t Q. change ([c] = t ++ [x]) with ([] ++ [c] = t ++ [x]) in Q. apply snoc_inj in Q. now subst.
        -- intros x t [= <- _]. exact P.
        -- intros x t Q. apply snoc_inj in Q. now subst.
      * exfalso. cbn in E2. injection E2 as Ec Eb. rewrite Eb in F'. apply Forall_app in F' as (_ & F'). inversion F'. congruence.
    + destruct q as [|d q].
      * rewrite app_nil_r in E1. cbn in E2. injection E2 as Ec Eb. subst a' c' b'. exists a, [c], b. conj; auto.
        -- cbn. lia.
        -- intros x t [= <- _]. exact P.
        -- intros x t Q. change ([c] = t ++ [x]) with ([] ++ [c] = t ++ [x]) in Q. apply snoc_inj in Q. now subst.
        -- intros x t [= <- _]. exact P.
        -- intros x t Q. apply snoc_inj in Q. now subst.
      * cbn in E2. injection E2 as Ec Eb. subst a' d b. exists a, ((c :: q) ++ [c']), b'. conj; auto.
        -- rewrite E. cbn. now rewrite <- app_assoc.
        -- cbn. rewrite !app_length. cbn. lia.
        -- intros x t [= <- _]. exact P.
        -- intros x t Q. apply snoc_inj in Q. now subst.
        -- intros x t [= <- _]. exact P.
        -- intros x t Q. rewrite app_assoc in Q. apply snoc_inj in Q. now subst.
  - destruct HF as (a & c & b & -> & _ & _ & P). apply Forall_app in HL as (_ & HL). inversion HL. congruence.
  - destruct HL as (a & c & b & -> & _ & _ & P). apply Forall_app in HF as (_ & HF). inversion HF. congruence.
Qed.

Lemma trim_from_view_ok l cs : exists v t, trim_from_view l cs = Some v /\ StripLeft cs l t /\ StripRight cs t (shown l v).
Proof.
  unfold trim_from_view, find_first_not_of, find_last_not_of. pose proof (first_last (fun c => negb (among cs c)) l) as H.
  destruct (first_by _ l 0) as [f|], (last_by _ l) as [k|]; try tauto; cbn [plus1].
  - destruct H as (a & m & z & -> & -> & E & F1 & F2 & P1 & P2 & P3 & P4). rewrite E. destruct (between_ok a m z) as (B1 & B2). rewrite B1. exists (List.length a, List.length m), (m ++ z). conj.
    + reflexivity.
    + exists a. conj; auto; [now apply F_notin|]. intros c t Q. apply negb_in. eapply P3; eauto.
    + rewrite B2. exists z. conj; auto; [now apply F_notin|]. intros c t Q. apply negb_in. eapply P2; eauto.
  - pose proof (between_head [] l) as E. cbn [app List.length] in E. rewrite E. exists (0, 0), []. conj; auto.
    + exists l. conj; [now rewrite app_nil_r|now apply F_notin|discriminate].
    + exists []. conj; auto. intros c t' Q. destruct t'; discriminate.
Qed.
Lemma trim_view_ok l cs : exists v t, trim_view l cs = Some v /\ FromDelimiter cs l t /\ ToDelimiter cs t (shown l v).
Proof.
  unfold trim_view, find_first_of, find_last_of. pose proof (first_last (among cs) l) as H.
  destruct (first_by _ l 0) as [f|], (last_by _ l) as [k|]; try tauto; cbn [plus1].
  - destruct H as (a & m & z & -> & -> & E & F1 & F2 & P1 & P2 & P3 & P4). rewrite E. destruct (between_ok a m z) as (B1 & B2). rewrite B1. exists (List.length a, List.length m), (m ++ z). conj.
    + reflexivity.
    + exists a. left. conj; auto; [now apply F_in|]. intros c t Q. apply among_in. eapply P3; eauto.
    + rewrite B2. exists z. left. conj; auto; [now apply F_in|]. intros c t Q. apply among_in. eapply P2; eauto.
  - pose proof (between_head [] l) as E. cbn [app List.length] in E. rewrite E. exists (0, 0), []. conj; auto.
    + exists []. right. split; [reflexivity|now apply F_in].
    + exists []. right. split; [reflexivity|constructor].
Qed.

(** iterator forms *)
Lemma it_first_spec p l : exists a, it_first p l = List.length a /\ Forall (fun x => p x = false) a /\ (l = a \/ exists c b, l = a ++ c :: b /\ p c = true).
Proof.
  induction l as [|c l IH]; cbn [it_first].
  - exists []. auto.
  - destruct (p c) eqn:E.
    + exists []. conj; auto. right. exists c, l. auto.
    + destruct IH as (a & -> & F & D). exists (c :: a). conj; auto. destruct D as [->|(d & b & -> & P)]; [now left|]. right. exists d, b. auto.
Qed.
Lemma it_last_spec p l : forall b i, l = b -> 0 < i <= List.length l -> Forall (fun x => p x = false) (skipn i l) ->
  (exists a c z, l = a ++ c :: z /\ p c = true /\ Forall (fun x => p x = false) z /\ it_last p l i = Some (List.length a)) \/ (Forall (fun x => p x = false) l /\ it_last p l i = Some (List.length l)).
Proof.
  intros _ i _. induction i as [|i IH]; intros Hi HF; [lia|]. cbn [it_last].
  destruct (nth_error l i) as [c|] eqn:E; [|apply nth_error_None in E; lia].
  pose proof (nth_error_split _ _ E) as (a & z & El & La).
  assert (Hz : skipn (S i) l = z). { rewrite El, <- La. replace (a ++ c :: z) with ((a ++ [c]) ++ z) by (rewrite <- app_assoc; reflexivity). replace (S (List.length a)) with (List.length (a ++ [c])) by (rewrite app_length; cbn; lia). apply skipn_app_l. }
  rewrite Hz in HF. destruct (p c) eqn:P.
  - left. exists a, c, z. rewrite La. auto.
  - assert (HF' : Forall (fun x => p x = false) (skipn i l)). { rewrite El, <- La, skipn_app_l. auto. }
    destruct i as [|i].
    + right. split; [|reflexivity]. rewrite skipn_O in HF'. exact HF'.
    + apply IH; [lia|exact HF'].
Qed.
Lemma it_find_last_by_spec p l : (exists a c z, l = a ++ c :: z /\ p c = true /\ Forall (fun x => p x = false) z /\ it_find_last_by p l = Some (List.length a)) \/ (Forall (fun x => p x = false) l /\ it_find_last_by p l = Some (List.length l)).
Proof.
  destruct l as [|x l]; [right; auto|]. apply (it_last_spec p (x :: l) (x :: l) (List.length (x :: l)) eq_refl); [cbn; lia|]. rewrite skipn_all. constructor.
Qed.

(** replace *)
Lemma prefix_spec n l : prefix n l = true <-> exists b, l = n ++ b.
Proof.
  revert l. induction n as [|c n IH]; intros l; cbn [prefix]; [split; [intros _; exists l; reflexivity|reflexivity]|]. destruct l as [|d l].
  - split; [discriminate|]. intros (b & E). discriminate.
  - rewrite andb_true_iff, Z.eqb_eq, IH. split.
    + intros (-> & b & ->). exists b. reflexivity.
    + intros (b & E). injection E as -> ->. eauto.
Qed.
Lemma search_spec n l : forall i, match search n l i with
  | Some k => exists a b, l = a ++ n ++ b /\ k = i + List.length a /\ (forall j, j < List.length a -> ~ occurs_at n l j)
  | None => forall j, ~ occurs_at n l j end.
Proof.
  induction l as [|c l IH]; intros i; cbn [search].
  - destruct (prefix n []) eqn:E.
    + apply prefix_spec in E as (b & E). exists [], b. conj; auto. cbn. intros; lia.
    + intros j (a & b & Q & _). symmetry in Q. apply app_eq_nil in Q as (-> & Q). assert (prefix n [] = true) by (apply prefix_spec; exists b; now rewrite Q). congruence.
  - destruct (prefix n (c :: l)) eqn:E.
    + apply prefix_spec in E as (b & E). exists [], b. conj; auto. cbn. intros; lia.
    + assert (N0 : ~ occurs_at n (c :: l) 0). { intros (a & b & Q & L). destruct a; [|discriminate]. assert (prefix n (c :: l) = true) by (apply prefix_spec; eauto). congruence. }
      assert (NS : forall j, occurs_at n (c :: l) (S j) -> occurs_at n l j). { intros j (a & b & Q & L). destruct a as [|d a]; [discriminate|]. injection Q as -> ->. exists a, b. split; [reflexivity|]. cbn in L. lia. }
      specialize (IH (S i)). destruct (search n l (S i)) as [k|].
      * destruct IH as (a & b & -> & -> & H). exists (c :: a), b. conj; auto; [cbn; lia|]. intros [|j] Hj; [exact N0|]. intros Q. apply (H j); [cbn in Hj; lia|]. now apply NS.
      * intros [|j]; [exact N0|]. intros Q. exact (IH j (NS j Q)).
Qed.
Lemma find_spec pre l n : n <> [] -> match find (pre ++ l) n (List.length pre) with
  | Some k => exists a b, l = a ++ n ++ b /\ k = List.length pre + List.length a /\ (forall j, j < List.length a -> ~ occurs_at n l j)
  | None => forall j, ~ occurs_at n l j end.
Proof.
  intros Hn. unfold find. rewrite app_length. destruct (Nat.ltb_spec (List.length pre + List.length l) (List.length pre + List.length n)).
  - intros j (a & b & -> & _). rewrite !app_length in H. lia.
  - rewrite skipn_app_l. pose proof (search_spec n l (List.length pre)) as HS. destruct (search n l (List.length pre)) as [k|]; [|exact HS].
    destruct HS as (a & b & E & -> & HN). destruct (Nat.eqb_spec (List.length pre + List.length a) (List.length pre + List.length l)) as [Q|Q]; [|eauto].
    exfalso. rewrite E, !app_length in Q. destruct n; [congruence|]. cbn in Q. lia.
Qed.
Lemma replaced_len old new l l' : Replaced old new l l' -> List.length old <= List.length new -> List.length l <= List.length l'.
Proof. intros H Hl. induction H; [lia|]. rewrite !app_length. lia. Qed.
Section Cap.
Variable cap : nat.
Lemma replace_at pre a old b new : List.length (pre ++ a ++ new ++ b) <= cap ->
  replace cap (pre ++ a ++ old ++ b) (List.length pre + List.length a) (List.length old) new = pre ++ a ++ new ++ b.
Proof using.
  intros H. unfold replace. replace (pre ++ a ++ old ++ b) with ((pre ++ a) ++ old ++ b) by (rewrite <- !app_assoc; reflexivity). rewrite <- app_length, firstn_app_l.
  rewrite <- app_length. rewrite (app_assoc (pre ++ a) old b). rewrite skipn_app_l. rewrite firstn_all2; [now rewrite <- !app_assoc|]. rewrite <- app_assoc. exact H.
Qed.
Lemma replace_loop_ok old new l l' : old <> [] -> Replaced old new l l' -> forall pre f, List.length (pre ++ l) <= cap -> List.length (pre ++ l') <= cap -> List.length l < f ->
  replace_loop cap f (pre ++ l) old new (List.length pre) = Some (pre ++ l').
Proof using.
  intros Ho H. induction H as [l HN|a b b' HN H IH]; intros pre f H1 H2 Hf; (destruct f as [|f]; [lia|]); cbn [replace_loop].
  - pose proof (find_spec pre l old Ho) as HS. destruct (find (pre ++ l) old (List.length pre)) as [k|]; [|reflexivity].
    destruct HS as (x & y & -> & _ & _). exfalso. apply (HN (List.length x)). exists x, y. auto.
  - pose proof (find_spec pre (a ++ old ++ b) old Ho) as HS. destruct (find (pre ++ a ++ old ++ b) old (List.length pre)) as [k|].
    + destruct HS as (x & y & E & -> & HX).
      assert (List.length x = List.length a) as La.
      { destruct (lt_eq_lt_dec (List.length x) (List.length a)) as [[Q|Q]|Q]; [|exact Q|].
        - exfalso. apply (HN _ Q). exists x, y. auto.
        - exfalso. apply (HX _ Q). exists a, b. auto. }
      rewrite La. assert (HLen : List.length (pre ++ a ++ new ++ b) <= cap).
      { destruct (le_lt_dec (List.length old) (List.length new)) as [Q|Q].
        - pose proof (replaced_len _ _ _ _ H Q). rewrite !app_length in *. lia.
        - rewrite !app_length in *. lia. }
      rewrite replace_at by exact HLen.
      replace (pre ++ a ++ new ++ b) with ((pre ++ a ++ new) ++ b) by (rewrite <- !app_assoc; reflexivity).
      replace (List.length pre + List.length a + List.length new) with (List.length (pre ++ a ++ new)) by (rewrite !app_length; lia).
      rewrite IH.
      * now rewrite <- !app_assoc.
      * rewrite <- !app_assoc. exact HLen.
      * rewrite <- !app_assoc. exact H2.
      * rewrite !app_length in Hf. destruct old; [congruence|]. cbn in Hf. lia.
    + exfalso. apply (HS (List.length a)). exists a, b. auto.
Qed.
Lemma find_range l n pos p : n <> [] -> find l n pos = Some p -> pos <= p /\ p + List.length n <= List.length l.
Proof using.
  intros Hn. unfold find. destruct (Nat.ltb_spec (List.length l) (pos + List.length n)); [discriminate|].
  assert (Hp : pos = List.length (firstn pos l)) by (rewrite firstn_length; lia).
  pose proof (search_spec n (skipn pos l) pos) as HS. destruct (search n (skipn pos l) pos) as [k|]; [|discriminate]. destruct (Nat.eqb k (List.length l)); [discriminate|]. intros [= <-].
  destruct HS as (a & b & E & -> & _). apply (f_equal (@List.length _)) in E. rewrite skipn_length, !app_length in E. lia.
Qed.
Lemma replace_loop_ends old new : old <> [] -> forall f s pos, List.length s <= cap -> List.length s - pos < f -> exists r, replace_loop cap f s old new pos = Some r /\ List.length r <= cap.
Proof using.
  intros Ho. induction f as [|f IH]; intros s pos Hs Hf; [lia|]. cbn [replace_loop]. destruct (find s old pos) as [p|] eqn:E; [|eauto].
  destruct (find_range _ _ _ _ Ho E) as (P1 & P2). apply IH; unfold replace.
  - rewrite firstn_length. lia.
  - rewrite firstn_length, !app_length, firstn_length, skipn_length. destruct old; [congruence|]. cbn [List.length] in *. lia.
Qed.
End Cap.

(** tokens *)
Section Tokens.
Variables (cs : text) (ig : bool).
Definition wanted (ts : list text) : list text := if ig then filter (fun t => negb (Nat.eqb (List.length t) 0)) ts else ts.
Definition cont (n f : nat) (input : text) (r : option (option (nat * nat))) : option (list (nat * nat)) :=
  match r with None => None | Some None => Some [] | Some (Some t) => option_map (cons t) (all_tokens n f (Some input) cs (Some t) ig) end.
Lemma it_first_stop t r : Forall (fun c => ~ In c cs) t -> (r = [] \/ exists c r', r = c :: r' /\ In c cs) -> it_find_first_of (t ++ r) cs = List.length t.
Proof using.
  intros F D. unfold it_find_first_of. induction F as [|x t Hx F IH]; cbn [app it_first List.length].
  - destruct D as [->|(c & r' & -> & Hc)]; [reflexivity|]. cbn [it_first]. now rewrite (proj2 (among_in cs c) Hc).
  - now rewrite (proj2 (among_not cs x) Hx), IH.
Qed.
Definition at_ (last : option (nat * nat)) (position p : nat) : Prop := match last with Some (b, n) => b + n + 1 = p | None => position = p end.
Lemma tokens_ok l ts : Pieces cs l ts -> forall pre last position n f g, at_ last position (List.length pre) -> List.length ts < n -> List.length ts < f -> List.length ts < g ->
  exists vs, cont n f (pre ++ l) (token_loop g (pre ++ l) cs last position ig) = Some vs /\ map (shown (pre ++ l)) vs = wanted ts.
Proof using.
  intros H. induction H as [t F|t c l ts F Hc H IH]; intros pre last position n f g Hat Hn Hf Hg; (destruct g as [|g]; [lia|]); cbn [token_loop].
  - (* the last piece *)
    assert (match last with Some (b, n0) => b + n0 + 1 | None => position end = List.length pre) as -> by (destruct last as [(b, m)|]; exact Hat).
    assert (match last with Some _ => Nat.ltb (List.length (pre ++ t)) (List.length pre) | None => false end = false) as ->.
    { destruct last; [|reflexivity]. destruct (Nat.ltb_spec (List.length (pre ++ t)) (List.length pre)); [rewrite app_length in *; lia|reflexivity]. }
    rewrite skipn_app_l. pose proof (it_first_stop t [] F (or_introl eq_refl)) as IT. rewrite app_nil_r in IT. rewrite IT. rewrite <- app_length, between_tail.
    assert (NX : forall k f', 0 < k -> 0 < f' -> all_tokens k f' (Some (pre ++ t)) cs (Some (List.length pre, List.length t)) ig = Some []).
    { intros [|k] [|f'] K1 K2; try lia. cbn [all_tokens get_token token_loop]. rewrite app_length. destruct (Nat.ltb_spec (List.length pre + List.length t) (List.length pre + List.length t + 1)); [reflexivity|lia]. }
    cbn [List.length] in *. unfold wanted. cbn [filter]. destruct (Nat.eqb_spec (List.length t) 0) as [E|E]; cbn [negb orb].
    + destruct ig eqn:Eig; cbn [negb].
      * destruct g as [|g]; [lia|]. cbn [token_loop]. rewrite app_length. destruct (Nat.ltb_spec (List.length pre + List.length t) (List.length pre + List.length t + 1)); [|lia]. cbn [cont]. exists []. auto.
      * cbn [cont]. rewrite Eig, NX by lia. cbn [option_map]. eexists. split; [reflexivity|]. cbn [map]. now rewrite shown_tail.
    + cbn [cont]. rewrite NX by lia. cbn [option_map]. eexists. split; [reflexivity|]. cbn [map]. rewrite shown_tail. now destruct ig.
  - assert (match last with Some (b, n0) => b + n0 + 1 | None => position end = List.length pre) as -> by (destruct last as [(b, m)|]; exact Hat).
    assert (match last with Some _ => Nat.ltb (List.length (pre ++ t ++ c :: l)) (List.length pre) | None => false end = false) as ->.
    { destruct last; [|reflexivity]. destruct (Nat.ltb_spec (List.length (pre ++ t ++ c :: l)) (List.length pre)); [rewrite app_length in *; lia|reflexivity]. }
    rewrite skipn_app_l. rewrite (it_first_stop t (c :: l) F) by eauto. destruct (between_ok pre t (c :: l)) as (B1 & B2). rewrite B1.
    assert (EI : pre ++ t ++ c :: l = (pre ++ t ++ [c]) ++ l) by (rewrite <- !app_assoc; reflexivity).
    assert (AT : forall q, at_ (Some (List.length pre, List.length t)) q (List.length (pre ++ t ++ [c]))) by (intros q; cbn; rewrite !app_length; cbn; lia).
    cbn [List.length] in *. unfold wanted. cbn [filter].
    assert (REC : exists vs, all_tokens n f (Some (pre ++ t ++ c :: l)) cs (Some (List.length pre, List.length t)) ig = Some vs /\ map (shown (pre ++ t ++ c :: l)) vs = wanted ts).
    { destruct n as [|n]; [lia|]. cbn [all_tokens get_token]. rewrite EI. exact (IH (pre ++ t ++ [c]) _ 0 n f f (AT 0) ltac:(lia) ltac:(lia) ltac:(lia)). }
    destruct (Nat.eqb_spec (List.length t) 0) as [E|E]; cbn [negb orb].
    + destruct ig eqn:Eig; cbn [negb].
      * rewrite EI. pose proof (IH (pre ++ t ++ [c]) _ _ n f g (AT (List.length pre)) ltac:(lia) ltac:(lia) ltac:(lia)) as R. unfold wanted in R. rewrite Eig in R. exact R.
      * destruct REC as (vs & R1 & R2). cbn [cont]. rewrite <- Eig in R1 at 1. exists ((List.length pre, List.length t) :: vs). split; [exact (f_equal (option_map (cons _)) R1)|]. cbn [map]. rewrite B2, R2. unfold wanted. now rewrite Eig.
    + destruct REC as (vs & R1 & R2). cbn [cont]. exists ((List.length pre, List.length t) :: vs). split; [exact (f_equal (option_map (cons _)) R1)|]. cbn [map]. rewrite B2, R2. unfold wanted. destruct ig; reflexivity.
Qed.
End Tokens.
