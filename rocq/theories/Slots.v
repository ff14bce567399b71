(** * Raw element storage with object lifetimes, and the outcome monad.

    ETL containers keep their elements in uninitialised aligned storage and
    create / destroy objects in it explicitly (placement new / ~T()).  A slot
    is [Some x] while an object with value [x] lives in it.

    [V a] : normal result.  [X e] : a failed ETL_ASSERT threw exception [e]
    (error_handler.h: 303-365, exceptions configuration).  [UB]: undefined
    behaviour (out of range access, use of a dead object, creating an object
    over a live one that owns resources, destroying a dead object).

    [triv] is etl::is_trivially_destructible<T>::value: for such types the
    containers may skip destructors, and creating an object over an old one
    is harmless. *)
From Coq Require Import List Arith Lia Bool String Permutation.
From Verif Require Import Util.
Import ListNotations.

Inductive M (A : Type) := V (a : A) | X (e : string) | UB.
Arguments V {A}. Arguments X {A}. Arguments UB {A}.

Definition bind {A B} (m : M A) (f : A -> M B) : M B :=
  match m with V a => f a | X e => X e | UB => UB end.
Notation "'let*' p := m 'in' k" := (bind m (fun p => k))
  (at level 200, p pattern, m at level 100, k at level 200).

(** ETL_ASSERT(b, ETL_ERROR(e)) *)
Definition etl_assert (b : bool) (e : string) : M unit := if b then V tt else X e.

Fixpoint upd {A} (l : list A) (i : nat) (x : A) : list A :=
  match l, i with
  | [], _ => []
  | _ :: r, 0 => x :: r
  | y :: r, S i => y :: upd r i x
  end.

Section Slots.
  Context {T : Type}.
  Definition buf := list (option T).

  (** ::new (&buffer[i]) T(x) *)
  Definition construct (triv : bool) (b : buf) (i : nat) (x : T) : M buf :=
    match nth_error b i with
    | Some None => V (upd b i (Some x))
    | Some (Some _) => if triv then V (upd b i (Some x)) else UB
    | None => UB
    end.
  (** buffer[i].~T() *)
  Definition destroy (triv : bool) (b : buf) (i : nat) : M buf :=
    match nth_error b i with
    | Some (Some _) => V (if triv then b else upd b i None)
    | _ => UB
    end.
  (** use of the object buffer[i] *)
  Definition get (b : buf) (i : nat) : M T :=
    match nth_error b i with Some (Some x) => V x | _ => UB end.
  (** buffer[i] = x : assignment to a live object *)
  Definition put (b : buf) (i : nat) (x : T) : M buf :=
    match nth_error b i with Some (Some _) => V (upd b i (Some x)) | _ => UB end.
  Definition live (b : buf) : nat :=
    List.length (filter (fun o => match o with Some _ => true | None => false end) b).
  Definition raw (n : nat) : buf := repeat None n.
End Slots.
Arguments buf : clear implicits.

(** ** lemmas *)
Lemma upd_length {A} (l : list A) i x : List.length (upd l i x) = List.length l.
Proof. revert i; induction l; destruct i; cbn; auto. Qed.
Lemma upd_same {A} (l : list A) i x : i < List.length l -> nth_error (upd l i x) i = Some x.
Proof. revert i; induction l; destruct i; cbn; intros; try lia; auto. apply IHl. lia. Qed.
Lemma upd_other {A} (l : list A) i j x : i <> j -> nth_error (upd l i x) j = nth_error l j.
Proof. revert i j; induction l; destruct i, j; cbn; intros; auto; try congruence. Qed.
Lemma upd_nth {A} (l : list A) i j x :
  nth_error (upd l i x) j = if Nat.eqb i j then (if j <? List.length l then Some x else None) else nth_error l j.
Proof.
  destruct (Nat.eqb_spec i j) as [->|H].
  - destruct (Nat.ltb_spec j (List.length l)); [now apply upd_same|].
    apply nth_error_None. now rewrite upd_length.
  - now apply upd_other.
Qed.
Lemma nth_error_lt {A} (l : list A) i x : nth_error l i = Some x -> i < List.length l.
Proof. intros H. apply nth_error_Some. congruence. Qed.
Lemma nth_error_raw {T} n i : i < n -> nth_error (@raw T n) i = Some None.
Proof. intros H. unfold raw. apply nth_error_repeat. exact H. Qed.

(** ** Ring view: [ring triv R b o l]: the live objects of the buffer [b] of
    [R] slots are, from slot [o] on and wrapping round, the list [l]. *)
Section Ring.
  Context {T : Type}.
  Variable triv : bool.
  Variable R : nat.

  Record ring (b : buf T) (o : nat) (l : list T) : Prop := {
    r_len : List.length b = R;
    r_o : o < R;
    r_cap : List.length l <= R;
    r_live : forall k x, nth_error l k = Some x -> nth_error b ((o + k) mod R) = Some (Some x);
    r_dead : triv = false -> forall k, List.length l <= k < R -> nth_error b ((o + k) mod R) = Some None }.

  Lemma mod_in o k : o < R -> k < R -> (o + k) mod R = if o + k <? R then o + k else o + k - R.
  Proof.
    intros. destruct (Nat.ltb_spec (o + k) R).
    - apply Nat.mod_small. lia.
    - replace (o + k) with (o + k - R + 1 * R) at 1 by lia. rewrite Nat.mod_add by lia. apply Nat.mod_small. lia.
  Qed.
  Lemma mod_inj o j k : o < R -> j < R -> k < R -> (o + j) mod R = (o + k) mod R -> j = k.
  Proof.
    intros Ho Hj Hk. rewrite !mod_in by auto.
    destruct (Nat.ltb_spec (o + j) R), (Nat.ltb_spec (o + k) R); lia.
  Qed.
  (** every slot has exactly one ring position *)
  Lemma mod_surj o i : o < R -> i < R -> exists k, k < R /\ (o + k) mod R = i.
  Proof.
    intros Ho Hi. exists (if o <=? i then i - o else R - o + i).
    destruct (Nat.leb_spec o i); split; try lia; rewrite mod_in by lia.
    - destruct (Nat.ltb_spec (o + (i - o)) R); lia.
    - destruct (Nat.ltb_spec (o + (R - o + i)) R); lia.
  Qed.
  Lemma mod_lt o k : o < R -> (o + k) mod R < R.
  Proof. intros. apply Nat.mod_upper_bound. lia. Qed.

  Lemma ring_raw o : o < R -> ring (raw R) o [].
  Proof.
    intros H. constructor; cbn; try lia.
    - unfold raw. apply repeat_length.
    - intros [] x; discriminate.
    - intros _ k Hk. apply nth_error_raw. apply mod_lt. auto.
  Qed.

  Lemma ring_get b o l k x : ring b o l -> nth_error l k = Some x -> get b ((o + k) mod R) = V x.
  Proof. intros H Hk. unfold get. now rewrite (r_live _ _ _ H _ _ Hk). Qed.

  (** append at the back *)
  Lemma ring_push b o l x : ring b o l -> List.length l < R ->
    exists b', construct triv b ((o + List.length l) mod R) x = V b' /\ ring b' o (l ++ [x]).
  Proof.
    intros H Hl. destruct H as [H1 H2 H3 H4 H5].
    pose proof (mod_lt o (List.length l) H2) as Hm.
    assert (E : construct triv b ((o + List.length l) mod R) x = V (upd b ((o + List.length l) mod R) (Some x))).
    { unfold construct. destruct triv eqn:Et.
      - destruct (nth_error b _) as [[|]|] eqn:En; auto. apply nth_error_None in En. lia.
      - rewrite H5 by lia. reflexivity. }
    rewrite E. eexists. split; [reflexivity|]. constructor; rewrite ?upd_length, ?app_length; cbn; auto; try lia.
    - intros k y Hk. rewrite upd_nth. rewrite H1.
      pose proof (nth_error_lt _ _ _ Hk) as Hk2. rewrite app_length in Hk2. cbn in Hk2.
      destruct (Nat.eqb_spec ((o + List.length l) mod R) ((o + k) mod R)) as [E1|E1].
      + apply mod_inj in E1; try lia. subst k. rewrite nth_error_app2, Nat.sub_diag in Hk by lia. cbn in Hk.
        destruct (Nat.ltb_spec ((o + List.length l) mod R) R); [congruence|lia].
      + apply H4. destruct (Nat.eq_dec k (List.length l)); [subst; congruence|].
        rewrite nth_error_app1 in Hk by lia. auto.
    - intros Ht k Hk. rewrite upd_other; [apply H5; auto; lia|].
      intros E1. apply mod_inj in E1; lia.
  Qed.

  (** remove at the front *)
  Lemma ring_pop b o x l : ring b o (x :: l) ->
    get b o = V x /\ exists b', destroy triv b o = V b' /\ ring b' ((o + 1) mod R) l.
  Proof.
    intros [H1 H2 H3 H4 H5]. cbn in H3.
    assert (E0 : nth_error b o = Some (Some x)).
    { specialize (H4 0 x eq_refl). rewrite Nat.add_0_r, Nat.mod_small in H4 by lia. exact H4. }
    unfold get, destroy. rewrite E0. split; [reflexivity|]. eexists. split; [reflexivity|].
    assert (Hs : forall k, ((o + 1) mod R + k) mod R = (o + S k) mod R).
    { intros k. rewrite Nat.add_mod_idemp_l by lia. f_equal. lia. }
    constructor.
    - destruct triv; rewrite ?upd_length; auto.
    - apply mod_lt; auto.
    - lia.
    - intros k y Hk. rewrite Hs. specialize (H4 (S k) y Hk).
      destruct triv; auto. rewrite upd_other; auto.
      pose proof (nth_error_lt _ _ _ Hk). intros E1.
      replace o with ((o + 0) mod R) in E1 at 1 by (rewrite Nat.add_0_r; apply Nat.mod_small; auto).
      apply mod_inj in E1; lia.
    - intros Ht k Hk. rewrite Ht. rewrite Hs.
      destruct (Nat.eq_dec (S k) R) as [E1|E1].
      + rewrite E1. replace ((o + R) mod R) with o.
        2:{ replace (o + R) with (o + 1 * R) by lia. rewrite Nat.mod_add by lia. symmetry. apply Nat.mod_small; auto. }
        apply upd_same. lia.
      + rewrite upd_other; [apply H5; auto; cbn; lia|].
        intros E2. replace o with ((o + 0) mod R) in E2 at 1 by (rewrite Nat.add_0_r; apply Nat.mod_small; auto).
        apply mod_inj in E2; lia.
  Qed.

  (** prepend at the front (slot before [o]) *)
  Lemma ring_push_front b o l x : ring b o l -> List.length l < R ->
    let o' := if Nat.eqb o 0 then R - 1 else o - 1 in
    exists b', construct triv b o' x = V b' /\ ring b' o' (x :: l).
  Proof.
    intros [H1 H2 H3 H4 H5] Hl o'.
    assert (Ho' : o' < R) by (unfold o'; destruct (Nat.eqb_spec o 0); lia).
    assert (Hs : forall k, (o' + S k) mod R = (o + k) mod R).
    { intros k. unfold o'. destruct (Nat.eqb_spec o 0).
      - subst o. replace (R - 1 + S k) with (0 + k + 1 * R) by lia. rewrite Nat.mod_add by lia. reflexivity.
      - f_equal. lia. }
    assert (Hd : (o + (R - 1)) mod R = o').
    { unfold o'. destruct (Nat.eqb_spec o 0).
      - subst o. rewrite Nat.add_0_l. apply Nat.mod_small; lia.
      - replace (o + (R - 1)) with (o - 1 + 1 * R) by lia. rewrite Nat.mod_add by lia. apply Nat.mod_small; lia. }
    assert (E : construct triv b o' x = V (upd b o' (Some x))).
    { unfold construct. destruct triv eqn:Et.
      - destruct (nth_error b o') as [[|]|] eqn:En; auto. apply nth_error_None in En. lia.
      - rewrite <- Hd at 1. rewrite H5 by lia. reflexivity. }
    rewrite E. eexists. split; [reflexivity|].
    assert (H0 : (o' + 0) mod R = o') by (rewrite Nat.add_0_r; apply Nat.mod_small; auto).
    constructor; rewrite ?upd_length; cbn; auto; try lia.
    - intros [|k] y Hk.
      + rewrite H0. cbn in Hk. injection Hk as <-. apply upd_same. lia.
      + rewrite upd_other.
        * rewrite Hs. apply H4. exact Hk.
        * intros E1. rewrite <- H0 in E1 at 1. apply mod_inj in E1; try lia.
          cbn in Hk. apply nth_error_lt in Hk. lia.
    - intros Ht k Hk. rewrite upd_other.
      + destruct k; [lia|]. rewrite Hs. apply H5; auto; lia.
      + intros E1. rewrite <- H0 in E1 at 1. apply mod_inj in E1; lia.
  Qed.

  (** remove at the back *)
  Lemma ring_pop_back b o l x : ring b o (l ++ [x]) ->
    get b ((o + List.length l) mod R) = V x /\
    exists b', destroy triv b ((o + List.length l) mod R) = V b' /\ ring b' o l.
  Proof.
    intros [H1 H2 H3 H4 H5]. rewrite app_length in H3, H5. cbn in H3, H5.
    assert (E0 : nth_error b ((o + List.length l) mod R) = Some (Some x)).
    { apply H4. rewrite nth_error_app2, Nat.sub_diag by lia. reflexivity. }
    unfold get, destroy. rewrite E0. split; [reflexivity|]. eexists. split; [reflexivity|].
    constructor; auto; try lia.
    - destruct triv; rewrite ?upd_length; auto.
    - intros k y Hk. pose proof (nth_error_lt _ _ _ Hk).
      assert (H6 : nth_error b ((o + k) mod R) = Some (Some y)) by (apply H4; rewrite nth_error_app1; auto).
      destruct triv; auto. rewrite upd_other; auto. intros E1. apply mod_inj in E1; lia.
    - intros Ht k Hk. rewrite Ht. destruct (Nat.eq_dec k (List.length l)) as [->|Hne].
      + apply upd_same. rewrite H1. apply mod_lt; auto.
      + rewrite upd_other; [apply H5; auto; lia|]. intros E1. apply mod_inj in E1; lia.
  Qed.

  (** assignment to a live element *)
  Lemma ring_put b o l k x : ring b o l -> k < List.length l ->
    exists b', put b ((o + k) mod R) x = V b' /\ ring b' o (upd l k x).
  Proof.
    intros [H1 H2 H3 H4 H5] Hk.
    destruct (nth_error l k) as [y|] eqn:Ek; [|apply nth_error_None in Ek; lia].
    unfold put. rewrite (H4 _ _ Ek). eexists. split; [reflexivity|].
    constructor; rewrite ?upd_length; auto.
    - intros j z Hj. rewrite upd_nth in Hj.
      destruct (Nat.eqb_spec k j) as [->|Hne].
      + destruct (Nat.ltb_spec j (List.length l)); [|discriminate]. injection Hj as <-.
        apply upd_same. rewrite H1. apply mod_lt; auto.
      + pose proof (nth_error_lt _ _ _ Hj). rewrite upd_other; [apply H4; auto|]. intros E1. apply mod_inj in E1; lia.
    - intros Ht j Hj. rewrite upd_other; [apply H5; auto|]. intros E1. apply mod_inj in E1; lia.
  Qed.

  (** the number of live objects is the length of the content *)
  Lemma ring_live b o l : ring b o l -> triv = false -> live b = List.length l.
  Proof.
    intros [H1 H2 H3 H4 H5] Ht. specialize (H5 Ht).
    unfold live.
    (* b is a permutation of map Some l ++ repeat None *)
    assert (HP : Permutation b (map Some l ++ repeat None (R - List.length l))).
    { assert (HB : Permutation b (map (fun k => nth ((o + k) mod R) b None) (seq 0 R))).
      { assert (E : b = map (fun i => nth i b None) (seq 0 R)).
        { apply nth_error_ext. intros i. rewrite nth_error_map_seq. destruct (Nat.ltb_spec i R).
          - apply nth_error_nth'. lia.
          - apply nth_error_None. lia. }
        rewrite E at 1. rewrite <- (map_map (fun k => (o + k) mod R) (fun i => nth i b None)).
        apply Permutation_map.
        apply NoDup_Permutation_bis; [apply seq_NoDup|rewrite map_length; lia|].
        intros i Hi. apply in_seq in Hi. destruct (mod_surj o i) as (k & Hk & <-); try lia.
        apply in_map_iff. exists k. split; auto. apply in_seq. lia. }
      etransitivity; [exact HB|].
      replace (map Some l ++ repeat None (R - List.length l)) with (map (fun k => nth ((o + k) mod R) b None) (seq 0 R)); [reflexivity|].
      replace (seq 0 R) with (seq 0 (List.length l + (R - List.length l))) by (f_equal; lia).
      rewrite seq_app, map_app. f_equal.
      - apply nth_error_ext. intros i. rewrite nth_error_map_seq, nth_error_map.
        destruct (Nat.ltb_spec i (List.length l)).
        + destruct (nth_error l i) as [x|] eqn:En; [|apply nth_error_None in En; lia].
          rewrite (nth_error_nth _ _ _ (H4 _ _ En)). reflexivity.
        + destruct (nth_error l i) as [x|] eqn:En; [apply nth_error_lt in En; lia|reflexivity].
      - apply nth_error_ext. intros i. rewrite nth_error_map_seq, nth_error_repeat_if.
        destruct (Nat.ltb_spec i (R - List.length l)); [|reflexivity].
        f_equal. apply nth_error_nth. apply H5. lia. }
    assert (HF : forall (f : option T -> bool) l1 l2, Permutation l1 l2 ->
               List.length (filter f l1) = List.length (filter f l2)).
    { intros f l1 l2 HP2. induction HP2; cbn; auto; repeat destruct (f _); cbn; congruence. }
    rewrite (HF _ _ _ HP). rewrite filter_app, app_length.
    assert (E1 : forall l' : list T, List.length (filter (fun o => match o with Some _ => true | None => false end) (map Some l')) = List.length l').
    { induction l'; cbn; auto. }
    assert (E2 : forall n, filter (fun o : option T => match o with Some _ => true | None => false end) (repeat None n) = []).
    { induction n; cbn; auto. }
    rewrite E1, E2. cbn. lia.
  Qed.
End Ring.
Lemma firstn_upd {A} (l : list A) k i x : i <= k -> firstn i (upd l k x) = firstn i l.
Proof. revert k i; induction l; destruct k, i; cbn; intros; auto; try lia. f_equal. apply IHl. lia. Qed.
Lemma skipn_upd {A} (l : list A) k i x : k < i -> skipn i (upd l k x) = skipn i l.
Proof. revert k i; induction l; destruct k, i; cbn; intros; auto; try lia. apply IHl. lia. Qed.
