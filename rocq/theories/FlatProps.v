(** * C17: flat_set, flat_map, flat_multiset and flat_multimap *)
From Coq Require Import List Arith Bool Lia.
From Verif Require Import Util Slots SortModel SortSpec HeapProofs SortProofs SortProofs2 AlgoSpec AlgoProofs FlatSpec FlatModel FlatProofs PrioModel.
Import ListNotations.

(** what the pool must do: hand out a free block while there is one (C06 proves that of etl::pool) *)
Definition allocates {E} (pick : list (option E) -> option nat) : Prop :=
  forall s, In None s -> exists p, pick s = Some p /\ nth_error s p = Some None.

(** Every history of calls that the client may make gives, call by call, the results of the sorted list of FlatSpec.v;
    the iterated contents are that list, in ascending (unique: strictly ascending) order, never more than the capacity,
    and exactly one live pool block belongs to each element: no leak, no use of a dead block. *)
Theorem C17_history : forall {E K : Type} (key : E -> K) (lt : K -> K -> bool) (N : nat) (unique : bool) (fl : flavour) (mk : K -> E) (triv : bool) (pick : list (option E) -> option nat),
  strict_weak_order lt -> (forall k, key (mk k) = k) -> allocates pick ->
  forall os rs l, s_ops key lt N unique fl mk os [] = Some (rs, l) ->
  exists f, f_ops key lt N unique fl mk triv pick os (f_new N) = V (rs, f) /\ elements f = V l /\ ordered key lt unique l /\ List.length l <= N /\ live (store f) = List.length l.
Proof.
  intros E K key lt N unique fl mk triv pick O Hmk Hp os rs l H.
  destruct (ops_ok key lt O N unique fl mk Hmk triv pick Hp os (f_new N) [] rs l (new_inv key lt N unique) H) as (f & Ef & Hi).
  exists f. conj; [exact Ef|exact (inv_elements _ _ _ _ _ _ Hi)|apply Hi|exact (inv_le _ _ _ _ _ _ Hi)|exact (inv_live _ _ _ _ _ _ Hi)].
Qed.

(** What the searches of the specification mean, for any ordered contents. *)
Theorem C17_search_means : forall {E K : Type} (key : E -> K) (lt : K -> K -> bool) (unique : bool), strict_weak_order lt ->
  forall l k, ordered key lt unique l ->
  (* lower bound: the elements before it, and only those, are less than k *)
  (forall i x, nth_error l i = Some x -> (lt (key x) k = true <-> i < before key lt k l)) /\
  (* upper bound: the elements from it on, and only those, are greater than k *)
  (forall i x, nth_error l i = Some x -> (lt k (key x) = true <-> upto key lt k l <= i)) /\
  (* find: an element with the key, the first of them, or the end when there is none *)
  (forall i, s_find key lt k l = i -> (i < List.length l /\ exists x, nth_error l i = Some x /\ same_key key lt k x = true) \/ (i = List.length l /\ forall x, In x l -> same_key key lt k x = false)) /\
  (* unique containers hold at most one element with a key *)
  (unique = true -> List.length (filter (same_key key lt k) l) <= 1).
Proof.
  intros E K key lt unique O l k Ho.
  destruct (view_exists key lt O unique k l Ho) as (p & m & s & W & Hm). pose proof W as (El & Fp & Fm & Fs). rewrite Forall_forall in Fp, Fm, Fs.
  assert (B : before key lt k l = List.length p) by exact (v_before _ _ O _ _ _ _ _ W). assert (U : upto key lt k l = List.length p + List.length m) by exact (v_upto _ _ O _ _ _ _ _ W).
  assert (Pos : forall i x, nth_error l i = Some x -> (i < List.length p /\ In x p) \/ (List.length p <= i < List.length p + List.length m /\ In x m) \/ (List.length p + List.length m <= i /\ In x s)).
  { intros i x. rewrite El. intros Hx. destruct (Nat.ltb_spec i (List.length p)) as [L|L].
    - left. rewrite nth_error_app1 in Hx by exact L. split; [exact L|eapply nth_error_In; exact Hx].
    - rewrite nth_error_app2 in Hx by exact L. destruct (Nat.ltb_spec (i - List.length p) (List.length m)) as [L2|L2].
      + rewrite nth_error_app1 in Hx by exact L2. right. left. split; [lia|eapply nth_error_In; exact Hx].
      + rewrite nth_error_app2 in Hx by exact L2. right. right. split; [lia|eapply nth_error_In; exact Hx]. }
  conj.
  - intros i x Hx. rewrite B. destruct (Pos i x Hx) as [(L & I)|[(L & I)|(L & I)]].
    + specialize (Fp x I). cbn in Fp. split; [lia|intros _; exact Fp].
    + destruct (Fm x I) as (F1 & F2). rewrite F1. split; [discriminate|lia].
    + rewrite (lt_asym lt O _ _ (Fs x I)). split; [discriminate|lia].
  - intros i x Hx. rewrite U. destruct (Pos i x Hx) as [(L & I)|[(L & I)|(L & I)]].
    + rewrite (lt_asym lt O _ _ (Fp x I)). split; [discriminate|lia].
    + destruct (Fm x I) as (F1 & F2). rewrite F2. split; [discriminate|lia].
    + specialize (Fs x I). cbn in Fs. split; [lia|intros _; exact Fs].
  - intros i <-. unfold s_find. rewrite (v_present _ _ _ _ _ _ _ W), B. destruct m as [|x m'].
    + right. split; [reflexivity|]. intros x Hx. rewrite El in Hx. apply in_app_iff in Hx as [Hx|Hx]; unfold same_key, equivalent.
      * now rewrite (Fp x Hx).
      * rewrite (Fs x Hx). apply andb_false_r.
    + left. rewrite El. split; [rewrite !app_length; cbn; lia|]. exists x. split; [apply rd_mid|]. destruct (Fm x (or_introl eq_refl)) as (F1 & F2). unfold same_key, equivalent. now rewrite F1, F2.
  - intros Hu. rewrite (v_same _ _ _ _ _ _ _ W). now apply Hm.
Qed.

(** What insertion does to any ordered contents: the new element is at the reported position, everything else keeps its order,
    and among equal keys the new element is the last: the multi containers keep equal keys in insertion order. *)
Theorem C17_insert_means : forall {E K : Type} (key : E -> K) (lt : K -> K -> bool) (unique : bool), strict_weak_order lt ->
  forall l e, ordered key lt unique l ->
  nth_error (inserted key lt e l) (upto key lt (key e) l) = Some e /\
  (exists l1 l2, l = l1 ++ l2 /\ inserted key lt e l = l1 ++ e :: l2) /\
  filter (same_key key lt (key e)) (inserted key lt e l) = filter (same_key key lt (key e)) l ++ [e].
Proof.
  intros E K key lt unique O l e Ho. destruct (view_exists key lt O unique (key e) l Ho) as (p & m & s & W & Hm). pose proof W as (El & _).
  rewrite (view_inserted _ _ O _ _ _ _ _ e W eq_refl), (v_upto _ _ O _ _ _ _ _ W). conj.
  - rewrite <- app_length. apply rd_mid.
  - exists (p ++ m), s. split; [now rewrite <- app_assoc|reflexivity].
  - rewrite (v_same _ _ _ _ _ _ _ W). rewrite <- app_assoc, !filter_app. cbn [filter].
    rewrite (filter_nothing _ p), (filter_all _ m), (filter_nothing _ s).
    + unfold same_key at 1, equivalent. rewrite (swo_irrefl lt O). reflexivity.
    + exact (v_same_s _ _ _ _ _ _ _ W).
    + exact (v_same_m _ _ _ _ _ _ _ W).
    + exact (v_same_p _ _ _ _ _ _ _ W).
Qed.

(** FINDING: flat_set::emplace of a value that is present answers (end(), false), where insert and flat_map::emplace give its position;
    and emplace on a full container fails the assertion although the key is present, where insert succeeds. *)
Theorem C17_emplace_like_insert_refuted :
  ~ (forall (N : nat) (l : list nat) (e : nat), ordered (fun x => x) Nat.ltb true l -> List.length l <= N ->
       fst (s_emplace (fun x => x) Nat.ltb N true Set_ e l) = fst (s_insert (fun x => x) Nat.ltb N true e l)) /\
  ~ (forall (N : nat) (l : list nat) (e : nat), ordered (fun x => x) Nat.ltb true l -> List.length l <= N ->
       fst (s_emplace (fun x => x) Nat.ltb N true Map_ e l) = fst (s_insert (fun x => x) Nat.ltb N true e l)).
Proof.
  split; intros H.
  - specialize (H 2 [5] 5). cbv in H. assert (Ritb 1 false = Ritb 0 false :> fres nat) as C by (apply H; [|lia]; intros [|[|i]] [|[|j]] a b Hij Ha Hb; cbn in *; try discriminate; lia). discriminate.
  - specialize (H 1 [5] 5). cbv in H. assert (Rfull = Ritb 0 false :> fres nat) as C by (apply H; [|lia]; intros [|[|i]] [|[|j]] a b Hij Ha Hb; cbn in *; try discriminate; lia). discriminate.
Qed.

(** ** a concrete case: a pool that hands out the first free block, pairs ordered by their first component *)
Fixpoint first_free {E} (s : list (option E)) : option nat :=
  match s with [] => None | None :: _ => Some 0 | Some _ :: r => match first_free r with Some p => Some (S p) | None => None end end.
Example first_free_allocates : forall E, allocates (@first_free E).
Proof.
  intros E s. induction s as [|[x|] s IH]; intros H; [destruct H| |exists 0; split; reflexivity].
  destruct H as [H|H]; [discriminate|]. destruct (IH H) as (p & Hp & Hn). exists (S p). cbn. rewrite Hp. split; [reflexivity|exact Hn].
Qed.
Example C17_case_ltb : strict_weak_order Nat.ltb.
Proof. constructor; intros; rewrite ?Nat.ltb_ge, ?Nat.ltb_lt in *; lia. Qed.
Example C17_case_map : s_ops fst Nat.ltb 3 true Map_ (fun k => (k, 0)) [Finsert (7, 1); Finsert (3, 2); Finsert (7, 9); Findex 5; Finsert (1, 1); Ffind 7; FeraseKey 3; FlowerBound 4; Fcontents] [] =
  Some ([Ritb 0 true; Ritb 0 true; Ritb 1 false; Re (5, 0); Rfull; Rit 2; Rn 1; Rit 0; Rl [(5, 0); (7, 1)]], [(5, 0); (7, 1)]).
Proof. reflexivity. Qed.
Example C17_case_multi : s_ops fst Nat.ltb 5 false Map_ (fun k => (k, 0)) [Finsert (7, 1); Finsert (3, 2); Femplace (7, 9); Finsert (3, 4); FequalRange 7; FeraseKey 3; Fcount 7; Fcontents] [] =
  Some ([Ritb 0 true; Ritb 0 true; Ritb 2 true; Ritb 1 true; Rrange 2 4; Rn 2; Rn 2; Rl [(7, 1); (7, 9)]], [(7, 1); (7, 9)]).
Proof. reflexivity. Qed.

Print Assumptions C17_history.
Print Assumptions C17_search_means.
Print Assumptions C17_insert_means.
Print Assumptions C17_emplace_like_insert_refuted.
