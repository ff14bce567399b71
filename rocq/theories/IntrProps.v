(** C13: intrusive links and containers. [h] holds the links of every node of the program, so each theorem also says
    which nodes an operation leaves alone ([only], [f_only]). *)
From Coq Require Import List Arith Bool Lia Permutation.
From Verif Require Import Util SortSpec ListSpec Dll ListModel IntrModel IntrSpec IntrProofs IntrProofs2 IntrProofs3 IntrProofs4 IntrProofs5.
Import ListNotations.

(** ** bidirectional links; [t] is 0 for a null terminated chain, otherwise the terminal node of a ring *)
Theorem C13_link_splice : forall h t p x q, through h t (p ++ q) -> x <> 0 -> ~ In x (t :: p ++ q) -> last p t <> 0 ->
  let h' := link_splice h (last p t) x in
  through h' t (p ++ x :: q) /\ only [last p t; x; hd t q] h h' /\ link_splice_p h (last p t) x = h' /\ link_splice_pr h (last p t) x = h'.
Proof. intros h t p x q T D N L. destruct (link_splice_ok h t p x q T D N L) as (A & B). cbv zeta. conj; [exact A|exact B|now apply link_splice_p_eq|now apply link_splice_pr_eq]. Qed.
Theorem C13_link_splice_range : forall h t p m q, through h t (p ++ q) -> segment h m -> NoDup (t :: p ++ m ++ q) -> last p t <> 0 ->
  let h' := link_splice_range h (last p t) (hd 0 m) (last m 0) in
  through h' t (p ++ m ++ q) /\ only [last p t; hd 0 m; last m 0; hd t q] h h' /\ link_splice_range_p h (last p t) (hd 0 m) (last m 0) = h'.
Proof. intros h t p m q T M N L. destruct (link_splice_range_ok h t p m q T M N L) as (A & B). cbv zeta. conj; [exact A|exact B|now apply link_splice_range_p_eq]. Qed.
(** a null right hand side cuts the chain *)
Theorem C13_link_splice_null : forall h p q, through h 0 (p ++ q) -> p <> [] ->
  let h' := link_splice_p h (last p 0) 0 in through h' 0 p /\ through h' 0 q /\ only [last p 0; hd 0 q] h h'.
Proof. exact link_splice_p_cut. Qed.
Theorem C13_unlink : forall h t p x q, through h t (p ++ x :: q) ->
  let h' := unlink h x in through h' t (p ++ q) /\ loose h' x /\ only [last p t; x; hd t q] h h'.
Proof. exact unlink_ok. Qed.
(** two chains, each cut where the nodes to link are *)
Theorem C13_link : forall h p p' q' q, through h 0 (p ++ p') -> through h 0 (q' ++ q) -> NoDup (p ++ q) -> p <> [] -> q <> [] ->
  let h' := link h (last p 0) (hd 0 q) in through h' 0 (p ++ q) /\ only [last p 0; hd 0 q] h h' /\ link_p h (last p 0) (hd 0 q) = h'.
Proof.
  intros h p p' q' q Tp Tq N Np Nq. destruct (link_chains_ok h p p' q' q Tp Tq N Np Nq) as (A & B). cbv zeta. conj; [exact A|exact B|]. apply link_p_link.
  - apply (through_neq0 _ _ _ _ Tp), in_app_iff. left. now apply last_In.
  - apply (through_neq0 _ _ _ _ Tq), in_app_iff. right. now apply hd_In.
Qed.
(** is_linked: every node of a ring; every node of a chain unless it is the only one *)
Theorem C13_is_linked : forall h t l x, through h t l -> In x l -> is_linked h x = negb ((t =? 0) && (length l =? 1)).
Proof. exact is_linked_exact. Qed.
Theorem C13_link_clear_range : forall h p m f, through h 0 (p ++ m) -> length m <= f ->
  exists h', link_clear_range f h (hd 0 m) = Some h' /\ (forall x, In x m -> loose h' x) /\ only m h h'.
Proof.
  intros h p m f T Hf. apply link_clear_range_ok; [|exact Hf]. pose proof (through_forward_part h 0 p m []) as K. rewrite app_nil_r in K. now apply K.
Qed.
(** unlink of a range of at least two nodes, exactly: the rest is right; the range is a chain of its own only if it
    was the front of a null terminated chain, otherwise its last node has lost its link to the one before it *)
Theorem C13_unlink_range_exact : forall h t p m q, through h t (p ++ m ++ q) -> 2 <= length m ->
  let h' := unlink_range h (hd 0 m) (last m 0) in
  through h' t (p ++ q) /\ only [last p t; hd 0 m; last m 0; hd t q] h h' /\
  forward (nxt h') 0 m /\ prv h' (hd 0 m) = 0 /\ (last p t = 0 -> through h' 0 m) /\ (last p t <> 0 -> prv h' (last m 0) = 0).
Proof.
  intros h t p m q T L. destruct (unlink_range_ok h t p m q T L) as (A & B & C & D & E & F). cbv zeta. conj; [exact A|exact B|exact C|exact D|exact F|]. intros Dl. rewrite E. apply Nat.eqb_neq in Dl. now rewrite Dl.
Qed.
Print Assumptions C13_link_splice. Print Assumptions C13_link_splice_range. Print Assumptions C13_link_splice_null. Print Assumptions C13_unlink.
Print Assumptions C13_link. Print Assumptions C13_is_linked. Print Assumptions C13_link_clear_range. Print Assumptions C13_unlink_range_exact.

(** ** forward links *)
Theorem C13_forward_link_splice : forall n t p x q y, forward n t (p ++ x :: q) -> y <> 0 -> ~ In y (t :: p ++ x :: q) ->
  let n' := f_link_splice n x y in forward n' t (p ++ x :: y :: q) /\ f_only [x; y] n n'.
Proof. exact f_link_splice_ok. Qed.
Theorem C13_forward_link_splice_range : forall n t p x q m, forward n t (p ++ x :: q) -> m <> [] -> ~ In 0 m -> (forall a u v b, m = a ++ u :: v :: b -> n u = v) -> NoDup (t :: p ++ x :: m ++ q) ->
  let n' := f_link_splice_range n x (hd 0 m) (last m 0) in forward n' t (p ++ x :: m ++ q) /\ f_only [x; last m 0] n n'.
Proof. exact f_link_splice_range_ok. Qed.
Theorem C13_forward_unlink_after : forall n t p x y q, forward n t (p ++ x :: y :: q) ->
  let '(r, n') := unlink_after n x in r = y /\ forward n' t (p ++ x :: q) /\ n' y = 0 /\ f_only [x; y] n n'.
Proof. exact unlink_after_ok. Qed.
Theorem C13_forward_unlink_after_range : forall n t p x m q, forward n t (p ++ x :: m ++ q) -> m <> [] ->
  let '(r, n') := unlink_after_range n x (last m 0) in r = hd 0 m /\ forward n' t (p ++ x :: q) /\ forward n' 0 m /\ f_only [x; last m 0] n n'.
Proof. exact unlink_after_range_ok. Qed.
Print Assumptions C13_forward_link_splice. Print Assumptions C13_forward_link_splice_range. Print Assumptions C13_forward_unlink_after. Print Assumptions C13_forward_unlink_after_range.

(** ** intrusive_stack, intrusive_queue *)
Theorem C13_stack_push : forall term s xs x, s_holds term s xs -> x <> 0 -> x <> term ->
  (snext s x <> 0 -> s_push s x = (Already_linked, s)) /\
  (snext s x = 0 -> exists s', s_push s x = (Ok, s') /\ s_holds term s' (x :: xs) /\ f_only [x] (snext s) (snext s')).
Proof. exact s_push_ok. Qed.
(** in particular an element cannot be pushed twice *)
Theorem C13_stack_push_twice : forall term s xs x, s_holds term s xs -> In x xs -> s_push s x = (Already_linked, s).
Proof.
  intros term s xs x H I. pose proof H as (D & _ & F & _). apply (s_push_ok term s xs x H); [| |now apply (forward_linked _ _ _ _ D F)]; intros ->; destruct F as (N & Z0 & _); [contradiction|inversion N; contradiction].
Qed.
Theorem C13_stack_pop : forall term check s x xs, s_holds term s (x :: xs) -> exists s', s_pop check s = (Ok, s') /\ s_holds term s' xs /\ snext s' x = 0 /\ f_only [x] (snext s) (snext s').
Proof. exact s_pop_ok. Qed.
Theorem C13_stack_reverse_clear : forall term s xs, s_holds term s xs ->
  (exists s', s_reverse term s = Some s' /\ s_holds term s' (rev xs) /\ f_only xs (snext s) (snext s')) /\
  (exists s', s_clear s = Some s' /\ s_holds term s' [] /\ (forall x, In x xs -> snext s' x = 0) /\ f_only xs (snext s) (snext s')).
Proof. intros term s xs H. split; [now apply s_reverse_ok|now apply s_clear_ok]. Qed.
Theorem C13_queue_push : forall term s xs x, q_holds term s xs -> x <> 0 -> x <> term ->
  (qnext s x <> 0 -> q_push term s x = (Already_linked, s)) /\
  (qnext s x = 0 -> exists s', q_push term s x = (Ok, s') /\ q_holds term s' (xs ++ [x]) /\ f_only (x :: term :: xs) (qnext s) (qnext s')).
Proof. exact q_push_ok. Qed.
Theorem C13_queue_push_twice : forall term s xs x, q_holds term s xs -> In x xs -> q_push term s x = (Already_linked, s).
Proof.
  intros term s xs x H I. pose proof H as (D & _ & F & _). apply (q_push_ok term s xs x H); [| |now apply (forward_linked _ _ _ _ D F)]; intros ->; destruct F as (N & Z0 & _); [contradiction|inversion N; contradiction].
Qed.
Theorem C13_queue_pop : forall term check s x xs, q_holds term s (x :: xs) -> exists s', q_pop term check s = (Ok, s') /\ q_holds term s' xs /\ qnext s' x = 0 /\ f_only [x; term] (qnext s) (qnext s').
Proof. exact q_pop_ok. Qed.
Theorem C13_queue_clear : forall term s xs, q_holds term s xs -> exists s', q_clear term s = Some s' /\ q_holds term s' [] /\ (forall x, In x xs -> qnext s' x = 0) /\ f_only (term :: xs) (qnext s) (qnext s').
Proof. intros term s xs. apply q_clear_ok. Qed.
Theorem C13_stack_queue_pop_empty : forall term s q, s_holds term s [] -> q_holds term q [] -> s_pop true s = (Empty_error, s) /\ q_pop term true q = (Empty_error, q).
Proof. intros term s q H1 H2. split; [now apply (s_pop_empty term)|now apply q_pop_empty]. Qed.
Print Assumptions C13_stack_push. Print Assumptions C13_stack_push_twice. Print Assumptions C13_stack_pop. Print Assumptions C13_stack_reverse_clear.
Print Assumptions C13_queue_push. Print Assumptions C13_queue_push_twice. Print Assumptions C13_queue_pop. Print Assumptions C13_queue_clear. Print Assumptions C13_stack_queue_pop_empty.

(** ** intrusive_list *)
Theorem C13_list_push : forall h l xs x, holds h l xs -> x <> 0 ->
  (is_linked h x = true -> i_push_front h l x = (Already_linked, (h, l)) /\ i_push_back h l x = (Already_linked, (h, l))) /\
  (is_linked h x = false ->
    (exists h' l', i_push_front h l x = (Ok, (h', l')) /\ holds h' l' (x :: xs) /\ trm l' = trm l /\ only (x :: trm l :: xs) h h') /\
    (exists h' l', i_push_back h l x = (Ok, (h', l')) /\ holds h' l' (xs ++ [x]) /\ trm l' = trm l /\ only (x :: trm l :: xs) h h')).
Proof. intros h l xs x H D. destruct (push_front_ok h l xs x H D) as (A1 & A2), (push_back_ok h l xs x H D) as (B1 & B2). split; intros E; split; auto. Qed.
Theorem C13_list_push_twice : forall h l xs x, holds h l xs -> In x xs -> i_push_front h l x = (Already_linked, (h, l)) /\ i_push_back h l x = (Already_linked, (h, l)).
Proof. intros h l xs x H I. apply (C13_list_push h l xs x H); [intros ->; destruct H as (_ & (_ & Z0 & _) & _); contradiction|]. apply (holds_linked h l xs x H). now right. Qed.
Theorem C13_list_pop : forall check h l x xs,
  (holds h l (x :: xs) -> exists h' l', i_pop_front check h l = (Ok, (h', l')) /\ holds h' l' xs /\ trm l' = trm l /\ loose h' x /\ only (trm l :: x :: xs) h h') /\
  (holds h l (xs ++ [x]) -> exists h' l', i_pop_back check h l = (Ok, (h', l')) /\ holds h' l' xs /\ trm l' = trm l /\ loose h' x /\ only (trm l :: xs ++ [x]) h h') /\
  (holds h l [] -> i_pop_front true h l = (Empty_error, (h, l)) /\ i_pop_back true h l = (Empty_error, (h, l))).
Proof. intros check h l x xs. conj; intros H; [now apply pop_front_ok|now apply pop_back_ok|now apply pop_empty]. Qed.
Theorem C13_list_clear_reverse : forall fuel h l xs, holds h l xs -> length xs <= fuel ->
  (exists h' l', i_clear fuel h l = Some (h', l') /\ holds h' l' [] /\ trm l' = trm l /\ (forall x, In x xs -> loose h' x) /\ only (trm l :: xs) h h') /\
  (exists h', i_reverse fuel h l = Some (h', l) /\ holds h' l (rev xs) /\ only (trm l :: xs) h h').
Proof. intros fuel h l xs H Hf. split; [now apply clear_ok|now apply reverse_ok]. Qed.
Theorem C13_list_assign : forall h l xs, trm l <> 0 -> NoDup (trm l :: xs) -> ~ In 0 xs -> let '(h', l') := i_assign h l xs in holds h' l' xs /\ trm l' = trm l /\ only (trm l :: xs) h h'.
Proof. exact assign_ok. Qed.
Theorem C13_list_insert : forall h l a b x, holds h l (a ++ b) -> x <> 0 -> ~ In x (trm l :: a ++ b) ->
  let '(h', l') := i_insert h l (hd (trm l) b) x in holds h' l' (a ++ x :: b) /\ trm l' = trm l /\ only (x :: trm l :: a ++ b) h h'.
Proof. exact insert_ok. Qed.
Theorem C13_list_insert_range : forall xs h l a b, holds h l (a ++ b) -> ~ In 0 xs -> NoDup (trm l :: a ++ xs ++ b) ->
  let '(h', l') := i_insert_range h l (hd (trm l) b) xs in holds h' l' (a ++ xs ++ b) /\ trm l' = trm l /\ only (trm l :: a ++ xs ++ b) h h'.
Proof. exact insert_range_ok. Qed.
Theorem C13_list_erase : forall h l p x q, holds h l (p ++ x :: q) ->
  let '(r, (h', l')) := i_erase h l x in r = hd (trm l) q /\ holds h' l' (p ++ q) /\ trm l' = trm l /\ loose h' x /\ only (trm l :: p ++ x :: q) h h'.
Proof. exact erase_ok. Qed.
Theorem C13_list_erase_range : forall fuel h l p m q, holds h l (p ++ m ++ q) -> length m <= fuel -> exists h' l',
  i_erase_range fuel h l (hd (trm l) (m ++ q)) (hd (trm l) q) = Some (hd (trm l) q, (h', l')) /\
  holds h' l' (p ++ q) /\ trm l' = trm l /\ (forall x, In x m -> loose h' x) /\ only (trm l :: p ++ m ++ q) h h'.
Proof. exact erase_range_ok. Qed.
Theorem C13_list_erase_node : forall fuel h l xs x, holds h l xs -> length xs <= fuel ->
  (~ In x xs -> i_erase_node fuel h l x = Some (0, (h, l))) /\
  (forall p q, xs = p ++ x :: q -> exists h' l', i_erase_node fuel h l x = Some (hd 0 q, (h', l')) /\ holds h' l' (p ++ q) /\ trm l' = trm l /\ loose h' x /\ only (trm l :: xs) h h').
Proof. intros fuel h l xs x H Hf. split; [now apply erase_node_absent|]. intros p q ->. now apply erase_node_ok. Qed.
Theorem C13_list_remove_if : forall (V : Type) (value : nat -> V) fuel h l xs p, holds h l xs -> length xs <= fuel -> exists h' l',
  i_remove_if value fuel h l p = Some (h', l') /\ holds h' l' (filter (fun x => negb (p (value x))) xs) /\ trm l' = trm l /\
  (forall x, In x xs -> p (value x) = true -> loose h' x) /\ only (trm l :: xs) h h'.
Proof. intros V value. exact (remove_if_ok value). Qed.
Theorem C13_list_unique : forall (V : Type) (value : nat -> V) fuel h l xs eq, holds h l xs -> length xs <= fuel ->
  let left := match xs with [] => [] | x :: r => x :: uniques (fun a b => eq (value a) (value b)) x r end in exists h' l',
  i_unique value fuel h l eq = Some (h', l') /\ holds h' l' left /\ trm l' = trm l /\ (forall x, In x xs -> ~ In x left -> loose h' x) /\ only (trm l :: xs) h h'.
Proof. intros V value. exact (unique_ok value). Qed.
Theorem C13_list_sort : forall (V : Type) (value : nat -> V) fuel h l xs lt, strict_weak_order lt -> holds h l xs -> length xs <= fuel ->
  let xs' := stable_sort (fun a b => lt (value a) (value b)) xs in
  exists h', i_sort value fuel h l lt = Some (h', l) /\ holds h' l xs' /\ map value xs' = stable_sort lt (map value xs) /\ Permutation xs' xs /\ only (trm l :: xs) h h'.
Proof. intros V value. exact (sort_ok value). Qed.
Theorem C13_list_splice : forall h l other a b ys, holds h l (a ++ b) -> holds h other ys -> apart (trm other :: ys) (trm l :: a ++ b) ->
  let '(h', l', other') := i_splice h l (hd (trm l) b) other in
  holds h' l' (a ++ ys ++ b) /\ holds h' other' [] /\ trm l' = trm l /\ trm other' = trm other /\ only (trm l :: trm other :: a ++ ys ++ b) h h'.
Proof. exact splice_ok. Qed.
Theorem C13_list_splice_one_other : forall h l other a b p x q, holds h l (a ++ b) -> holds h other (p ++ x :: q) -> apart (trm other :: p ++ x :: q) (trm l :: a ++ b) ->
  let '(h', l', other') := i_splice_one h l (hd (trm l) b) other false x in
  holds h' l' (a ++ x :: b) /\ holds h' other' (p ++ q) /\ trm l' = trm l /\ trm other' = trm other /\ only (trm l :: trm other :: a ++ b ++ p ++ x :: q) h h'.
Proof. exact splice_one_other. Qed.
(** within one list: not in front of the next element *)
Theorem C13_list_splice_one_same : forall h l a b p x q, holds h l (p ++ x :: q) ->
  (a ++ b = p ++ q -> hd (trm l) b <> hd (trm l) q -> exists h', i_splice_one h l (hd (trm l) b) l true x = (h', l, l) /\ holds h' l (a ++ x :: b) /\ only (trm l :: p ++ x :: q) h h') /\
  (exists h', i_splice_one h l x l true x = (h', l, l) /\ holds h' l (p ++ x :: q) /\ only (trm l :: p ++ x :: q) h h').
Proof. intros h l a b p x q H. split; [intros E D; now apply splice_one_same|now apply splice_one_self]. Qed.
(** a range that is not empty, exactly: with two or more elements the last one's link to the one before is null *)
Theorem C13_list_splice_range_exact : forall fuel h l other (same : bool) p m q a b, trm l <> 0 -> holds h other (p ++ m ++ q) -> length (p ++ m ++ q) <= fuel -> m <> [] ->
  (if same then other = l /\ a ++ b = p ++ q else holds h l (a ++ b) /\ apart (trm other :: p ++ m ++ q) (trm l :: a ++ b)) ->
  exists h' l' other', i_splice_range fuel h l (hd (trm l) b) other same (hd (trm other) (m ++ q)) (hd (trm other) q) = Some (h', l', other') /\
  trm l' = trm l /\ trm other' = trm other /\
  isize l' = length (a ++ m ++ b) /\ (same = false -> holds h' other' (p ++ q)) /\
  (length m = 1 -> holds h' l' (a ++ m ++ b)) /\
  (2 <= length m -> prv h' (last m 0) = 0 /\ holds (set_prv h' (last m 0) (last (removelast m) 0)) l' (a ++ m ++ b)) /\
  only (trm l :: trm other :: a ++ b ++ p ++ m ++ q) h h'.
Proof. exact splice_range_ok. Qed.
Theorem C13_list_merge : forall (V : Type) (value : nat -> V) lt fuel h l other xs ys, holds h l xs -> holds h other ys -> apart (trm other :: ys) (trm l :: xs) -> length xs + length ys <= fuel ->
  exists h' l' other', i_merge value fuel h l other lt = Some (h', l', other') /\ holds h' l' (merged (fun a b => lt (value a) (value b)) xs ys) /\ holds h' other' [] /\
  trm l' = trm l /\ trm other' = trm other /\ only (trm l :: trm other :: xs ++ ys) h h'.
Proof. intros V value lt. exact (merge_ok value lt). Qed.
Print Assumptions C13_list_push. Print Assumptions C13_list_push_twice. Print Assumptions C13_list_pop. Print Assumptions C13_list_clear_reverse.
Print Assumptions C13_list_assign. Print Assumptions C13_list_insert. Print Assumptions C13_list_insert_range. Print Assumptions C13_list_erase. Print Assumptions C13_list_erase_range.
Print Assumptions C13_list_erase_node. Print Assumptions C13_list_remove_if. Print Assumptions C13_list_unique. Print Assumptions C13_list_sort. Print Assumptions C13_list_splice.
Print Assumptions C13_list_splice_one_other. Print Assumptions C13_list_splice_one_same. Print Assumptions C13_list_splice_range_exact. Print Assumptions C13_list_merge.

(** ** concrete lists: list 100 holds 1 2 3 4, list 200 holds 11 12 13 *)
Definition h0 : links := {| nxt := fun _ => 0; prv := fun _ => 0 |}.
Definition two : links * ilist * ilist :=
  let (h, l) := i_assign h0 (mkilist 100 0) [1; 2; 3; 4] in let (h, m) := i_assign h (mkilist 200 0) [11; 12; 13] in (h, l, m).
Definition hh := fst (fst two). Definition la := snd (fst two). Definition lb := snd two.
Example two_lists : holds hh la [1; 2; 3; 4] /\ holds hh lb [11; 12; 13] /\ apart (trm lb :: [11; 12; 13]) (trm la :: [1; 2; 3; 4]).
Proof.
  pose proof (C13_list_assign h0 (mkilist 100 0) [1; 2; 3; 4]) as A. pose proof (fun h => C13_list_assign h (mkilist 200 0) [11; 12; 13]) as B. unfold hh, la, lb, two.
  destruct (i_assign h0 (mkilist 100 0) [1; 2; 3; 4]) as (h & l). specialize (B h). destruct (i_assign h (mkilist 200 0) [11; 12; 13]) as (h' & m). cbn [fst snd].
  destruct A as (A1 & A2 & A3); [discriminate|repeat constructor; cbn; intuition discriminate|cbn; intuition discriminate|]. destruct B as (B1 & B2 & B3); [discriminate|repeat constructor; cbn; intuition discriminate|cbn; intuition discriminate|]. cbn in A2, B2. conj.
  - destruct A1 as (X & Y & W). split; [exact X|split; [|exact W]]. eapply only_through; [exact B3| |exact Y]. rewrite A2. intros x [<-|[<-|[<-|[<-|[]]]]]; cbn; intuition discriminate.
  - exact B1.
  - rewrite A2, B2. intros x [<-|[<-|[<-|[<-|[]]]]]; cbn; intuition discriminate.
Qed.
(** what a program sees when it walks forwards and backwards *)
Fixpoint walk (f : nat) (g : nat -> nat) (t x : nat) : list nat := match f with 0 => [] | S f => if x =? t then [] else x :: walk f g t (g x) end.
Definition view (h : links) (l : ilist) : list nat * list nat := (walk 9 (nxt h) (trm l) (nxt h (trm l)), walk 9 (prv h) (trm l) (prv h (trm l))).
Example merge_view : match i_merge (fun x => x mod 10) 9 hh la lb Nat.ltb with Some (h, l, m) => view h l = ([1; 11; 2; 12; 3; 13; 4], [4; 13; 3; 12; 2; 11; 1]) /\ view h m = ([], []) /\ isize l = 7 | None => False end.
Proof. vm_compute. conj; reflexivity. Qed.
Example chain_view : through (link_splice (link_splice h0 1 2) 2 3) 0 [1; 2; 3] /\ 2 <= length [2; 3].
Proof.
  split; [|cbn; lia]. apply (link_splice_ok (link_splice h0 1 2) 0 [1; 2] 3 []); try (cbn; intuition discriminate). apply (link_splice_ok h0 0 [1] 2 []); try (cbn; intuition discriminate).
  split; [repeat constructor; cbn; intuition discriminate|split; [cbn; intuition discriminate|split; [congruence|]]]. intros p x q E. destruct p as [|y p]; cbn in E; injection E as <- E; [subst; split; reflexivity|destruct p; discriminate E].
Qed.
Example stack_queue_start : s_holds 9 (mkstack (fun _ => 0) 9 0) [] /\ q_holds 9 (mkqueue (fun x => if x =? 9 then 9 else 0) 9 0) [].
Proof.
  split; (split; [discriminate|split; [reflexivity|split; [|]]]).
  - split; [repeat constructor; intros []|split; [intros []|]]. intros [|? p] x q E; discriminate E.
  - split; reflexivity.
  - split; [repeat constructor; intros []|split; [intros []|]]. intros [|? p] x q E; discriminate E.
  - split; [congruence|reflexivity].
Qed.

(** ** what does not hold *)
(** after a splice of a range of two elements the list cannot be walked backwards, and pop_back destroys it: the range
    12 13 goes to the end of list 100; walking backwards ends at 13, and pop_back leaves a list that still starts with
    1 2 3 4 12 and then returns to null instead of to its end *)
Theorem C13_splice_range_refuted : exists h l m, holds h l [1; 2; 3; 4] /\ holds h m [11; 12; 13] /\ apart (trm m :: [11; 12; 13]) (trm l :: [1; 2; 3; 4]) /\
  match i_splice_range 9 h l (trm l) m false 12 (trm m) with
  | Some (h', l', m') => walk 9 (nxt h') (trm l') (nxt h' (trm l')) = [1; 2; 3; 4; 12; 13] /\ prv h' 13 = 0 /\ (forall xs, ~ holds h' l' xs) /\
      (let '(_, (h2, l2)) := i_pop_back true h' l' in nxt h2 12 = 13 /\ loose h2 13 /\ forall xs, ~ holds h2 l2 xs)
  | None => False
  end.
Proof.
  exists hh, la, lb. destruct two_lists as (A & B & C). conj; [exact A|exact B|exact C|]. unfold hh, la, lb.
  assert (forall h l xs, holds h l xs -> forall x, In x (trm l :: xs) -> nxt h x <> 0 -> In (nxt h x) (trm l :: xs)) as Nx.
  { intros h l xs (D & T & _) x I _. destruct I as [<-|I]; [destruct T as (_ & _ & Ht & _); destruct (Ht D) as (-> & _); apply (in_t_hd (trm l) [] xs)|]. apply in_split in I as (p & q & ->). destruct (through_mid _ _ _ _ _ T) as (-> & _). pose proof (in_t_hd (trm l) (p ++ [x]) q) as K. now rewrite <- app_assoc in K. }
  assert (forall h l xs, holds h l xs -> forall x, In x (trm l :: xs) -> prv h x <> 0 /\ nxt h x <> 0) as Pz.
  { intros h l xs (D & T & _) x I. destruct I as [<-|I].
    - pose proof T as (_ & _ & Ht & _). destruct (Ht D) as (-> & ->). split; [apply (last_nz _ xs [] h D); now rewrite app_nil_r|apply (hd_nz _ [] xs h D); exact T].
    - apply in_split in I as (p & q & ->). destruct (through_mid _ _ _ _ _ T) as (-> & ->). split; [apply (last_nz _ p (x :: q) h D); exact T|apply (hd_nz _ (p ++ [x]) q h D); now rewrite <- app_assoc]. }
  set (r := i_splice_range _ _ _ _ _ _ _ _). assert (match r with Some (h', l', m') => trm l' = 100 /\ walk 9 (nxt h') (trm l') (nxt h' (trm l')) = [1; 2; 3; 4; 12; 13] /\ prv h' 13 = 0 /\ nxt h' 100 = 1 /\ nxt h' 1 = 2 /\ nxt h' 2 = 3 /\ nxt h' 3 = 4 /\ nxt h' 4 = 12 /\ nxt h' 12 = 13 /\
    (let '(_, (h2, l2)) := i_pop_back true h' l' in trm l2 = 100 /\ nxt h2 12 = 13 /\ nxt h2 13 = 0 /\ prv h2 13 = 0 /\ nxt h2 100 = 1 /\ nxt h2 1 = 2 /\ nxt h2 2 = 3 /\ nxt h2 3 = 4 /\ nxt h2 4 = 12) | None => False end) as K by (vm_compute; conj; reflexivity).
  destruct r as [((h' & l') & m')|]; [|exact K]. destruct K as (K0 & K1 & K2 & K3 & K4 & K5 & K6 & K7 & K8 & K9). conj; [exact K1|exact K2| |].
  - intros xs H. assert (In 13 (trm l' :: xs)) as I.
    { rewrite <- K8. apply (Nx _ _ _ H); [|rewrite K8; discriminate]. rewrite <- K7. apply (Nx _ _ _ H); [|rewrite K7; discriminate]. rewrite <- K6. apply (Nx _ _ _ H); [|rewrite K6; discriminate]. rewrite <- K5. apply (Nx _ _ _ H); [|rewrite K5; discriminate]. rewrite <- K4. apply (Nx _ _ _ H); [|rewrite K4; discriminate]. rewrite <- K3. apply (Nx _ _ _ H); [rewrite K0; now left|rewrite K3; discriminate]. }
    destruct (Pz _ _ _ H 13 I). contradiction.
  - destruct (i_pop_back true h' l') as (o & h2 & l2). destruct K9 as (J0 & J1 & J2 & J3 & J4 & J5 & J6 & J7 & J8). conj; [exact J1|split; [exact J2|exact J3]|]. intros xs H. assert (In 13 (trm l2 :: xs)) as I.
    { rewrite <- J1. apply (Nx _ _ _ H); [|rewrite J1; discriminate]. rewrite <- J8. apply (Nx _ _ _ H); [|rewrite J8; discriminate]. rewrite <- J7. apply (Nx _ _ _ H); [|rewrite J7; discriminate]. rewrite <- J6. apply (Nx _ _ _ H); [|rewrite J6; discriminate]. rewrite <- J5. apply (Nx _ _ _ H); [|rewrite J5; discriminate]. rewrite <- J4. apply (Nx _ _ _ H); [rewrite J0; now left|rewrite J4; discriminate]. }
    destruct (Pz _ _ _ H 13 I). contradiction.
Qed.
(** a splice of an empty range is not without effect: 12 and 13 leave their list, which is damaged *)
Theorem C13_splice_empty_range_refuted : exists h l m, holds h l [1; 2; 3; 4] /\ holds h m [11; 12; 13] /\ apart (trm m :: [11; 12; 13]) (trm l :: [1; 2; 3; 4]) /\
  match i_splice_range 9 h l (trm l) m false 12 12 with
  | Some (h', l', m') => view h' l' <> view h l /\ view h' m' <> view h m /\ isize l' = 4 /\ isize m' = 3
  | None => False
  end.
Proof. exists hh, la, lb. destruct two_lists as (A & B & C). conj; [exact A|exact B|exact C|]. vm_compute. conj; (discriminate || reflexivity). Qed.
(** to splice an element in front of the one that follows it (std: no effect) takes it out of its list and links it to itself *)
Theorem C13_splice_before_next_refuted : exists h l, holds h l [1; 2; 3; 4] /\
  let '(h', l', _) := i_splice_one h l 3 l true 2 in view h' l' = ([1; 3; 4], [4; 3; 1]) /\ isize l' = 4 /\ nxt h' 2 = 2 /\ prv h' 2 = 2.
Proof. exists hh, la. destruct two_lists as (A & _). split; [exact A|]. vm_compute. conj; reflexivity. Qed.
(** the elements a list held before assign() are in no list but are still taken for linked: no list accepts them *)
Theorem C13_assign_leaves_linked_refuted : exists h l, holds h l [1; 2; 3; 4] /\
  let '(h', l') := i_assign h l [5; 6] in holds h' l' [5; 6] /\ is_linked h' 2 = true /\ i_push_back h' l' 2 = (Already_linked, (h', l')).
Proof.
  exists hh, la. destruct two_lists as (A & _). split; [exact A|]. pose proof (C13_list_assign hh la [5; 6]) as K. assert (let '(h', _) := i_assign hh la [5; 6] in is_linked h' 2 = true) as E by (vm_compute; reflexivity). destruct (i_assign hh la [5; 6]) as (h' & l').
  destruct K as (K1 & _); [exact (proj1 A)|vm_compute; repeat constructor; cbn; intuition discriminate|vm_compute; intuition discriminate|]. conj; [exact K1|exact E|]. unfold i_push_back. now rewrite E.
Qed.
Print Assumptions C13_splice_range_refuted. Print Assumptions C13_splice_empty_range_refuted. Print Assumptions C13_splice_before_next_refuted. Print Assumptions C13_assign_leaves_linked_refuted.
