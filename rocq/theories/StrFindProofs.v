From Coq Require Import List Arith Bool ZArith String Lia.
From Verif Require Import Util Slots SortModel SortSpec HeapProofs SortProofs AlgoSpec AlgoModel AlgoProofs ViewSpec ViewModel ViewProofs StrFindModel.
Import ListNotations.

(** the string s holds the characters l, terminated *)
Definition holds (s : str) (l : list Z) : Prop := exists rest, sbuf s = l ++ 0%Z :: rest /\ sn s = List.length l.
Lemma holds_shows s l : holds s l -> shows (sbuf s) 0 (sn s) l.
Proof. intros (rest & E & N). exists [], (0%Z :: rest). now conj. Qed.
Lemma holds_len s l : holds s l -> List.length l < List.length (sbuf s) /\ sn s = List.length l.
Proof. intros (rest & E & N). rewrite E, app_length. cbn. lia. Qed.
Lemma holds_tail s l p : holds s l -> p <= List.length l -> shows (sbuf s) p (sn s) (skipn p l).
Proof.
  intros H Hp. pose proof (holds_len s l H) as (L & N). pose proof (shows_sub _ _ _ _ p (List.length l - p) (holds_shows s l H) ltac:(lia)) as K. cbn [Nat.add] in K.
  rewrite firstn_all2 in K by (rewrite skipn_length; lia). now replace (sn s) with (p + (List.length l - p)) by lia.
Qed.
Lemma holds_head s l p : holds s l -> p <= List.length l -> shows (sbuf s) 0 p (firstn p l).
Proof. intros H Hp. exact (shows_sub _ _ _ _ 0 p (holds_shows s l H) ltac:(lia)). Qed.

Section Find.
  Variable W : nat.
  Variables (s : str) (l : list Z) (t : list Z) (b e : nat) (n : list Z).
  Hypothesis H : holds s l.
  Hypothesis Ht : shows t b e n.
  Lemma find_impl_ok pos : pos + List.length n < W -> (n <> [] \/ pos < List.length l) ->
    exists r, find_impl W s t b e (List.length n) pos = V r /\ first_in (found_at l n) pos (List.length l) r.
  Proof using H Ht.
    intros HW Hn. pose proof (holds_len s l H) as (L & N). unfold find_impl. rewrite Nat.mod_small by exact HW. rewrite N. destruct (Nat.ltb_spec (List.length l) (pos + List.length n)) as [K|K].
    { exists None. split; [reflexivity|]. intros k Hk F. apply found_bound in F. lia. }
    rewrite padd_ok by lia. cbn [bind Nat.add]. pose proof (holds_tail s l pos H ltac:(lia)) as Sh. rewrite N in Sh. rewrite (range_ok _ _ _ _ Sh). cbn [bind]. rewrite (range_ok _ _ _ _ Ht). cbn [bind].
    unfold search. destruct (search_loop_ok Z.eqb (skipn pos l) n (S (List.length (skipn pos l))) 0) as (r & Hr & Hle & _ & Hno & Hor); [lia|lia|]. rewrite Hr. cbn [of_opt bind]. rewrite skipn_length in *.
    assert (forall k, pos <= k < pos + r -> ~ found_at l n k) as No.
    { intros k Hk F. apply (Hno (k - pos)); [lia|]. apply found_occurs, found_skip; [lia|]. now replace (pos + (k - pos)) with k by lia. }
    destruct (Nat.eqb_spec (pos + r) (List.length l)) as [E|E].
    - exists None. split; [reflexivity|]. intros k Hk. apply No. lia.
    - exists (Some (pos + r)). split; [reflexivity|]. cbn. conj; [lia|lia| |exact No]. destruct Hor as [Ho|(Ho & _)]; [|lia]. apply found_occurs, found_skip in Ho; [exact Ho|lia].
  Qed.
  Lemma found_rev k : found_at (rev l) (rev n) k <-> found_at l n (List.length l - List.length n - k) /\ k + List.length n <= List.length l.
  Proof using.
    clear H Ht. split.
    - intros (a & c & E & <-). assert (l = rev c ++ n ++ rev a) as El by (rewrite <- (rev_involutive l), E, !rev_app_distr, rev_involutive, app_assoc; reflexivity).
      assert (List.length l = List.length c + (List.length n + List.length a)) as Ll by (rewrite El, !app_length, !rev_length; reflexivity). split; [|lia].
      exists (rev c), (rev a). split; [exact El|]. rewrite rev_length. lia.
    - intros ((a & c & E & La) & K). exists (rev c), (rev a). split; [rewrite E, !rev_app_distr, app_assoc; reflexivity|]. rewrite rev_length. rewrite E, !app_length in *. lia.
  Qed.
End Find.
Section RFind.
  Variables (s : str) (l : list Z) (t : list Z) (b e : nat) (n : list Z).
  Hypothesis H : holds s l.
  Hypothesis Ht : shows t b e n.
  Lemma rfind_impl_ok pos : n <> [] -> let p := Nat.min pos (List.length l) in
    exists r, rfind_impl s t b e (List.length n) pos = V r /\
      match r with
      | Some i => found_at l n i /\ i + List.length n <= p /\ forall k, i < k -> k + List.length n <= p -> ~ found_at l n k
      | None => forall k, k + List.length n <= p -> ~ found_at l n k
      end.
  Proof using H Ht.
    intros Hn p. assert (0 < List.length n) as Lp by (destruct n; [congruence|cbn; lia]). pose proof (holds_len s l H) as (L & N). unfold rfind_impl. rewrite N. destruct (Nat.ltb_spec (List.length l) (List.length n)) as [K|K].
    { exists None. split; [reflexivity|]. intros k Hk F. apply found_bound in F. lia. }
    cbv zeta. replace (if List.length l <=? pos then List.length l else pos) with p by (unfold p; destruct (Nat.leb_spec (List.length l) pos); lia).
    replace (List.length l - (List.length l - p)) with p by lia. rewrite (range_ok _ _ _ _ (holds_head s l p H ltac:(lia))). cbn [bind]. rewrite (range_ok _ _ _ _ Ht). cbn [bind].
    unfold search. destruct (search_loop_ok Z.eqb (rev (firstn p l)) (rev n) (S (List.length (rev (firstn p l)))) 0) as (r & Hr & Hle & _ & Hno & Hor); [lia|lia|]. rewrite Hr. cbn [of_opt bind].
    rewrite rev_length in *. assert (List.length (firstn p l) = p) as Lf by (rewrite firstn_length; lia). rewrite Lf in *.
    assert (forall k, k + List.length n <= p -> p - List.length n - k < r -> ~ found_at l n k) as No.
    { intros k Hk Hr2 F. apply (Hno (p - List.length n - k)); [lia|]. apply found_occurs, found_rev. rewrite Lf. split; [|lia]. apply found_first; [lia|]. replace (p - List.length n - (p - List.length n - k)) with k by lia. now split. }
    destruct (Nat.eqb_spec r p) as [E|E].
    - exists None. split; [reflexivity|]. intros k Hk. apply No; lia.
    - destruct Hor as [Ho|(Ho & _)]; [|lia]. apply found_occurs, found_rev in Ho. rewrite Lf in Ho. destruct Ho as (Ho & Hb). apply found_first in Ho; [|lia]. destruct Ho as (Ho & _).
      exists (Some (p - List.length n - r)). split; [f_equal; f_equal; lia|]. conj; [exact Ho|lia|]. intros k Hk Hk2. apply No; lia.
  Qed.
  Lemma rfind_impl_empty pos : n = [] -> rfind_impl s t b e 0 pos = V (if Nat.eqb (Nat.min pos (List.length l)) 0 then None else Some (Nat.min pos (List.length l))).
  Proof using H Ht.
    intros En. pose proof (holds_len s l H) as (L & N). unfold rfind_impl. rewrite N. cbn [Nat.ltb Nat.leb]. cbv zeta. set (p := Nat.min pos (List.length l)).
    replace (if List.length l <=? pos then List.length l else pos) with p by (unfold p; destruct (Nat.leb_spec (List.length l) pos); lia).
    replace (List.length l - (List.length l - p)) with p by lia. rewrite (range_ok _ _ _ _ (holds_head s l p H ltac:(lia))). cbn [bind]. rewrite (range_ok _ _ _ _ Ht), En. cbn [bind rev].
    assert (List.length (firstn p l) = p) as Lf by (rewrite firstn_length; lia). unfold search. cbn [search_loop search_at List.length Nat.eqb obind of_opt bind]. rewrite Lf. destruct p as [|p'] eqn:Ep; [reflexivity|]. cbn [Nat.eqb]. f_equal. f_equal. lia.
  Qed.
  Lemma find_if_pos (q : Z -> bool) (u : list Z) : exists i, find_if u q = Some i /\ i <= List.length u /\ (forall j x, j < i -> nth_error u j = Some x -> q x = false) /\ (forall x, nth_error u i = Some x -> q x = true).
  Proof using. clear H Ht. destruct (find_if_ok q u) as (i & E & F). exists i. split; [exact E|exact F]. Qed.
  Lemma found_single c (u : list Z) k : found_at u [c] k <-> nth_error u k = Some c.
  Proof using.
    clear H Ht. split.
    - intros (a & r & -> & <-). rewrite nth_error_app2, Nat.sub_diag by lia. reflexivity.
    - intros E. apply nth_error_split in E as (a & r & -> & La). now exists a, r.
  Qed.
  Lemma find_char_ok c pos : pos <= List.length l -> exists r, find_char s c pos = V r /\ first_in (fun k => nth_error l k = Some c) pos (List.length l) r.
  Proof using H.
    intros Hp. pose proof (holds_len s l H) as (L & N). unfold find_char. rewrite padd_ok by lia. cbn [bind Nat.add]. rewrite (range_ok _ _ _ _ (holds_tail s l pos H Hp)). cbn [bind].
    destruct (find_if_pos (fun x => Z.eqb x c) (skipn pos l)) as (i & -> & Hi & F1 & F2). cbn [of_opt bind]. rewrite N. rewrite skipn_length in Hi.
    assert (forall k, pos <= k < pos + i -> nth_error l k <> Some c) as No.
    { intros k Hk E. specialize (F1 (k - pos) c ltac:(lia)). rewrite nth_error_skipn in F1. replace (pos + (k - pos)) with k in F1 by lia. specialize (F1 E). rewrite Z.eqb_refl in F1. discriminate. }
    destruct (Nat.eqb_spec (pos + i) (List.length l)) as [E|E]; cbn [negb].
    - exists None. split; [reflexivity|]. intros k Hk. apply No. lia.
    - exists (Some (pos + i)). split; [reflexivity|]. cbn. conj; [lia|lia| |exact No]. destruct (nth_error l (pos + i)) as [x|] eqn:Ex; [|apply nth_error_None in Ex; lia].
      specialize (F2 x). rewrite nth_error_skipn in F2. specialize (F2 Ex). apply Z.eqb_eq in F2. congruence.
  Qed.
  Lemma rfind_char_ok c pos : exists r, rfind_char s c pos = V r /\ last_in (fun k => nth_error l k = Some c) 0 (Nat.min pos (List.length l)) r.
  Proof using H.
    pose proof (holds_len s l H) as (L & N). unfold rfind_char. rewrite N. cbv zeta. set (p := Nat.min pos (List.length l)).
    replace (if List.length l <=? pos then List.length l else pos) with p by (unfold p; destruct (Nat.leb_spec (List.length l) pos); lia).
    replace (List.length l - (List.length l - p)) with p by lia. rewrite (range_ok _ _ _ _ (holds_head s l p H ltac:(lia))). cbn [bind].
    destruct (find_if_pos (fun x => Z.eqb x c) (rev (firstn p l))) as (i & -> & Hi & F1 & F2). cbn [of_opt bind]. rewrite rev_length in Hi. assert (List.length (firstn p l) = p) as Lf by (rewrite firstn_length; lia). rewrite Lf in *.
    assert (forall j, j < p -> nth_error (rev (firstn p l)) j = nth_error l (p - 1 - j)) as R.
    { intros j Hj. rewrite <- (firstn_skipn p l) at 2. rewrite nth_error_app1 by lia. destruct (nth_error (firstn p l) (p - 1 - j)) as [x|] eqn:E; [|apply nth_error_None in E; lia].
      apply nth_error_split in E as (a & r & E & La). rewrite E, rev_app_distr. cbn [rev]. rewrite <- app_assoc. assert (List.length (rev r) = j) as Lr by (rewrite rev_length; apply (f_equal (@List.length Z)) in E; rewrite app_length in E; cbn in E; lia).
      rewrite nth_error_app2 by lia. now rewrite Lr, Nat.sub_diag. }
    assert (forall k, p - i <= k < p -> nth_error l k <> Some c) as No.
    { intros k Hk E. specialize (F1 (p - 1 - k) c ltac:(lia)). rewrite R in F1 by lia. replace (p - 1 - (p - 1 - k)) with k in F1 by lia. specialize (F1 E). rewrite Z.eqb_refl in F1. discriminate. }
    destruct (Nat.eqb_spec i p) as [E|E]; cbn [negb].
    - exists None. split; [reflexivity|]. intros k Hk. apply No. lia.
    - exists (Some (p - 1 - i)). split; [f_equal; f_equal; lia|]. cbn. conj; [lia|lia| |intros k Hk; apply No; lia].
      destruct (nth_error l (p - 1 - i)) as [x|] eqn:Ex; [|apply nth_error_None in Ex; lia]. specialize (F2 x). rewrite R in F2 by lia. specialize (F2 Ex). apply Z.eqb_eq in F2. congruence.
  Qed.
End RFind.
Lemma shows_cons {A} (m : list A) b e x l : shows m b e (x :: l) -> load m b = V x /\ shows m (S b) e l /\ b <> e.
Proof.
  intros Sh. pose proof (shows_len _ _ _ _ Sh) as L. cbn [List.length] in L. destruct (shows_load m b e (x :: l) 0 Sh ltac:(cbn; lia)) as (y & Ey & El). cbn in Ey. injection Ey as <-. rewrite Nat.add_0_r in El. conj; [exact El| |lia].
  destruct Sh as (a & c & Em & Eb & Ee). exists (a ++ [x]), c. rewrite app_length. cbn [List.length] in *. conj; [rewrite Em, <- app_assoc; reflexivity|lia|lia].
Qed.
Lemma cmp_loop_ok m e t e2 : forall l n fuel b b2, shows m b e l -> shows t b2 e2 n -> List.length l < fuel ->
  exists z, cmp_loop fuel m b e t b2 e2 = V z /\ three_way l n z.
Proof.
  induction l as [|x l IH]; intros n [|fuel] b b2 Sl Sn Hf; try (cbn in Hf; lia); cbn [cmp_loop].
  - pose proof (shows_len _ _ _ _ Sl) as L. cbn in L. rewrite (proj2 (Nat.eqb_eq b e)) by lia. cbn [negb andb]. destruct n as [|y n].
    + pose proof (shows_len _ _ _ _ Sn) as L2. cbn in L2. rewrite (proj2 (Nat.eqb_eq b2 e2)) by lia. exists 0%Z. split; [reflexivity|]. left. now split.
    + destruct (shows_cons _ _ _ _ _ Sn) as (_ & _ & K). rewrite (proj2 (Nat.eqb_neq b2 e2)) by exact K. exists (-1)%Z. split; [reflexivity|]. right. left. split; [reflexivity|]. now apply lex_nil_l.
  - destruct (shows_cons _ _ _ _ _ Sl) as (Lx & Sl' & K). rewrite (proj2 (Nat.eqb_neq b e)) by exact K. cbn [negb andb]. destruct n as [|y n].
    + pose proof (shows_len _ _ _ _ Sn) as L2. cbn in L2. rewrite (proj2 (Nat.eqb_eq b2 e2)) by lia. cbn [negb]. exists 1%Z. split; [reflexivity|]. right. right. split; [reflexivity|]. now apply lex_nil_l.
    + destruct (shows_cons _ _ _ _ _ Sn) as (Ly & Sn' & K2). rewrite (proj2 (Nat.eqb_neq b2 e2)) by exact K2. cbn [negb]. rewrite Lx. cbn [bind]. rewrite Ly. cbn [bind].
      destruct (Z.ltb_spec x y) as [Lt|Ge]; [exists (-1)%Z; split; [reflexivity|]; right; left; split; [reflexivity|]; apply lex_cons; now left|].
      destruct (Z.ltb_spec y x) as [Lt|Ge2]; [exists 1%Z; split; [reflexivity|]; right; right; split; [reflexivity|]; apply lex_cons; now left|].
      assert (x = y) as -> by lia. destruct (IH n fuel (S b) (S b2) Sl' Sn') as (z & Hz & T); [cbn in Hf; lia|]. exists z. split; [exact Hz|].
      destruct T as [(-> & ->)|[(-> & T)|(-> & T)]]; [left; now split|right; left|right; right]; (split; [reflexivity|]); apply lex_cons; right; now split.
Qed.
Lemma cmp_ok m b e l t b2 e2 n : shows m b e l -> shows t b2 e2 n -> exists z, cmp m b e t b2 e2 = V z /\ three_way l n z.
Proof. intros Sl Sn. pose proof (shows_len _ _ _ _ Sl) as L. apply cmp_loop_ok; [exact Sl|exact Sn|lia]. Qed.
Lemma terminated_shows t st : terminated t st -> shows t 0 (List.length st) st.
Proof. intros (rest & -> & _). exists [], (0%Z :: rest). now conj. Qed.
Lemma three_way_fun l n z z' : three_way l n z -> three_way l n z' -> z = z'.
Proof.
  intros [(-> & ->)|[(-> & T)|(-> & T)]] [(-> & E)|[(-> & T')|(-> & T')]]; try reflexivity; try (subst; exfalso; eapply lex_irrefl; eassumption); exfalso; eapply lex_asym; eassumption.
Qed.
