(** * C42: string_view and span. *)
From Coq Require Import List Arith Bool ZArith String Lia.
From Verif Require Import Util Slots SortModel AlgoSpec AlgoModel AlgoProofs ViewSpec ViewModel ViewProofs.
Import ListNotations.

Definition views (m : list Z) (v : view) (l : list Z) : Prop := shows m (vb v) (ve v) l.

(** reading: at() checks, front / back are the ends, operator[] below the size *)
Theorem C42_string_view_elements : forall W m v l, views m v l ->
  size W v = List.length l /\ (empty v = true <-> l = []) /\
  (forall i, isnull v = false -> at_ W m v i = match nth_error l i with Some c => V c | None => X "string_view_bounds" end) /\
  (forall i c, nth_error l i = Some c -> index m v i = V c) /\
  (forall c r, l = c :: r -> front m v = V c) /\ (forall c r, l = r ++ [c] -> back m v = V c).
Proof.
  intros W m v l H. conj.
  - exact (size_ok W m v l H).
  - rewrite (empty_ok m v l H). destruct l; split; congruence.
  - intros i. exact (at_ok W m v l H i).
  - intros i c E. destruct (index_ok m v l H i) as (x & Ex & ->); [apply nth_error_Some; congruence|]. congruence.
  - exact (front_ok m v l H).
  - exact (back_ok m v l H).
Qed.
Print Assumptions C42_string_view_elements.
(** substr(position, count) for every position and count: the characters from position, at most count; it lies inside the view *)
Theorem C42_substr : forall W m v l position count, views m v l ->
  exists u, substr W m v position count = V u /\ views m u (firstn count (skipn position l)) /\
    (position < List.length l -> isnull u = false /\ vb v <= vb u /\ ve u <= ve v) /\ (List.length l <= position -> u = null_view).
Proof. intros W m v l position count H. exact (substr_ok W m v l H position count). Qed.
(** copy writes exactly those characters and returns their number *)
Theorem C42_copy : forall W m v l d o count position, views m v l -> o + Nat.min count (List.length l - position) <= List.length d ->
  copy W m v d o count position = V (placed d o (firstn count (skipn position l)), List.length (firstn count (skipn position l))).
Proof. intros W m v l d o count position H Hd. exact (copy_ok W m v l H d o count position Hd). Qed.
Print Assumptions C42_copy.
Theorem C42_remove_prefix_suffix : forall m v l n, views m v l -> n <= List.length l ->
  (exists u, remove_prefix m v n = V u /\ views m u (skipn n l) /\ ve u = ve v) /\
  (exists u, remove_suffix m v n = V u /\ views m u (firstn (List.length l - n) l) /\ vb u = vb v).
Proof. intros m v l n H Hn. split; [exact (remove_prefix_ok m v l H n Hn)|exact (remove_suffix_ok m v l H n Hn)]. Qed.
Print Assumptions C42_remove_prefix_suffix.
(** FINDING: n is not compared with size(): removing more characters than there are leaves a view that ends before it begins;
    its size() is W - (n - size) and at() then reads outside the viewed range *)
Theorem C42_remove_prefix_refuted : forall W, 2 < W -> exists m v l n u,
  views m v l /\ List.length l < n /\ remove_prefix m v n = V u /\ size W u = W - (n - List.length l) /\ (exists c, at_ W m u 0 = V c /\ ~ In c l).
Proof.
  intros W HW. exists [97; 98; 99]%Z, (View false 0 1), [97%Z], 2, (View false 2 1). conj; try reflexivity; [exists [], [98; 99]%Z; now conj|cbn; lia|].
  exists 99%Z. split; [|intros [E|[]]; discriminate]. unfold at_, size. cbn [isnull negb etl_assert bind vb ve Nat.leb Nat.sub].
  destruct (Nat.ltb_spec 0 (W - 1)); [reflexivity|lia].
Qed.
Print Assumptions C42_remove_prefix_refuted.

(** ** comparison *)
Theorem C42_relational : forall W m v l m2 v2 s, views m v l -> views m2 v2 s ->
  (exists b, op_eq W m v m2 v2 = V b /\ (b = true <-> l = s)) /\ (exists b, op_ne W m v m2 v2 = V b /\ (b = true <-> l <> s)) /\
  (exists b, op_lt m v m2 v2 = V b /\ (b = true <-> lexicographically_less Z.ltb l s)) /\
  (exists b, op_gt m v m2 v2 = V b /\ (b = true <-> lexicographically_less Z.ltb s l)) /\
  (exists b, op_le m v m2 v2 = V b /\ (b = true <-> lexicographically_less Z.ltb l s \/ l = s)) /\
  (exists b, op_ge m v m2 v2 = V b /\ (b = true <-> lexicographically_less Z.ltb s l \/ l = s)).
Proof.
  intros W m v l m2 v2 s H H2. pose proof (eq_ok W m v l m2 v2 s H H2) as (b & E & B). pose proof (lt_ok m v l m2 v2 s H H2) as (a & L & A). pose proof (lt_ok m2 v2 s m v l H2 H) as (g & Gt & G).
  conj.
  - now exists b.
  - exists (negb b). unfold op_ne. rewrite E. split; [reflexivity|]. destruct b; cbn; split; intros K; try discriminate; try reflexivity.
    + exfalso. apply K. now apply B.
    + intros K2. apply B in K2. discriminate.
  - now exists a.
  - now exists g.
  - exists (negb g). unfold op_le, op_gt. rewrite Gt. split; [reflexivity|]. destruct (lex_total l s) as [->|[K|K]].
    + split; [now right|]. intros _. destruct g; [exfalso; eapply lex_irrefl; now apply G|reflexivity].
    + split; [now left|]. intros _. destruct g; [exfalso; eapply lex_asym; [exact K|now apply G]|reflexivity].
    + apply G in K as Kg. subst g. cbn. split; [discriminate|]. intros [K2|K2]; exfalso; [eapply lex_asym; eassumption|subst; eapply lex_irrefl; eassumption].
  - exists (negb a). unfold op_ge. rewrite L. split; [reflexivity|]. destruct (lex_total l s) as [->|[K|K]].
    + split; [now right|]. intros _. destruct a; [exfalso; eapply lex_irrefl; now apply A|reflexivity].
    + apply A in K as Ka. subst a. cbn. split; [discriminate|]. intros [K2|K2]; exfalso; [eapply lex_asym; eassumption|subst; eapply lex_irrefl; eassumption].
    + split; [now left|]. intros _. destruct a; [exfalso; eapply lex_asym; [exact K|now apply A]|reflexivity].
Qed.
Print Assumptions C42_relational.
(** compare, in every form, is the sign of the dictionary comparison of the selected characters *)
Theorem C42_compare : forall W m v l m2 v2 s t st p n p2 n2, views m v l -> views m2 v2 s -> terminated t st ->
  (exists z, compare W m v m2 v2 = V z /\ three_way l s z) /\
  (exists z, compare_at W m v p n m2 v2 = V z /\ three_way (firstn n (skipn p l)) s z) /\
  (exists z, compare_at2 W m v p n m2 v2 p2 n2 = V z /\ three_way (firstn n (skipn p l)) (firstn n2 (skipn p2 s)) z) /\
  (exists z, compare_text m v t = V z /\ three_way l st z) /\
  (exists z, compare_text_at W m v p n t = V z /\ three_way (firstn n (skipn p l)) st z) /\
  (n2 <= List.length t -> exists z, compare_text_n W m v p n t n2 = V z /\ three_way (firstn n (skipn p l)) (firstn n2 t) z).
Proof.
  intros W m v l m2 v2 s t st p n p2 n2 H H2 T. destruct (substr_ok W m v l H p n) as (u & Eu & Su & _). destruct (substr_ok W m2 v2 s H2 p2 n2) as (u2 & Eu2 & Su2 & _).
  conj; unfold compare_at, compare_at2, compare_text_at, compare_text_n; try rewrite Eu; try rewrite Eu2; cbn [bind].
  - exact (compare_ok W m v l m2 v2 s H H2).
  - exact (compare_ok W m u _ m2 v2 s Su H2).
  - exact (compare_ok W m u _ m2 u2 _ Su Su2).
  - exact (compare_text_ok m v l t st H T).
  - exact (compare_text_ok m u _ t st Su T).
  - intros Hn. apply compare_ok; [exact Su|]. cbn [vb ve]. exists [], (skipn n2 t). cbn [app List.length]. rewrite firstn_skipn, firstn_length. conj; try reflexivity. lia.
Qed.
Print Assumptions C42_compare.
Theorem C42_starts_ends_with : forall W m v l m2 v2 s t st c, views m v l -> views m2 v2 s -> terminated t st ->
  (exists b, starts_with W m v m2 v2 = V b /\ (b = true <-> exists r, l = s ++ r)) /\
  (exists b, starts_with_text W m v t = V b /\ (b = true <-> exists r, l = st ++ r)) /\
  (exists b, starts_with_char m v c = V b /\ (b = true <-> exists r, l = c :: r)) /\
  (exists b, ends_with W m v m2 v2 = V b /\ (b = true <-> exists r, l = r ++ s)) /\
  (exists b, ends_with_text W m v t = V b /\ (b = true <-> exists r, l = r ++ st)) /\
  (exists b, ends_with_char m v c = V b /\ (b = true <-> exists r, l = r ++ [c])).
Proof.
  intros W m v l m2 v2 s t st c H H2 T.
  assert (forall s0, List.length s0 <= List.length l -> (firstn (List.length s0) (skipn 0 l) = s0 <-> exists r, l = s0 ++ r)) as Pre.
  { intros s0 L0. cbn [skipn]. split; [intros E; exists (skipn (List.length s0) l); rewrite <- E at 1; now rewrite firstn_skipn|]. intros (r & ->). rewrite firstn_app, Nat.sub_diag, firstn_all. cbn. apply app_nil_r. }
  assert (forall s0 n, List.length s0 <= List.length l -> List.length s0 <= n -> (firstn n (skipn (List.length l - List.length s0) l) = s0 <-> exists r, l = r ++ s0)) as Suf.
  { intros s0 n L0 Hn. rewrite firstn_all2 by (rewrite skipn_length; lia). split; [intros E; exists (firstn (List.length l - List.length s0) l); rewrite <- E at 2; now rewrite firstn_skipn|].
    intros (r & ->). rewrite app_length. replace (List.length r + List.length s0 - List.length s0) with (List.length r) by lia. rewrite skipn_app, skipn_all, Nat.sub_diag. reflexivity. }
  assert (forall s0, List.length l < List.length s0 -> (exists r, l = s0 ++ r) -> False) as N1 by (intros s0 L0 (r & E); apply (f_equal (@List.length Z)) in E; rewrite app_length in E; lia).
  assert (forall s0, List.length l < List.length s0 -> (exists r, l = r ++ s0) -> False) as N2 by (intros s0 L0 (r & E); apply (f_equal (@List.length Z)) in E; rewrite app_length in E; lia).
  pose proof (size_ok W m v l H) as Sz. pose proof (size_ok W m2 v2 s H2) as Sz2. pose proof (strlen_ok t st T) as Sl. conj.
  - unfold starts_with. rewrite Sz, Sz2. destruct (Nat.leb_spec (List.length s) (List.length l)) as [L|L]; [|exists false; split; [reflexivity|]; split; [discriminate|intros K; exfalso; eapply N1; eassumption]].
    destruct (C42_compare W m v l m2 v2 s t st 0 (List.length s) 0 0 H H2 T) as (_ & (z & -> & Tz) & _). cbn [bind]. eexists. split; [reflexivity|]. rewrite (three_way_zero _ _ _ Tz). now apply Pre.
  - unfold starts_with_text. rewrite Sl. cbn [bind]. rewrite Sz. destruct (Nat.leb_spec (List.length st) (List.length l)) as [L|L]; [|exists false; split; [reflexivity|]; split; [discriminate|intros K; exfalso; eapply N1; eassumption]].
    destruct (C42_compare W m v l m2 v2 s t st 0 (List.length st) 0 0 H H2 T) as (_ & _ & _ & _ & (z & -> & Tz) & _). cbn [bind]. eexists. split; [reflexivity|]. rewrite (three_way_zero _ _ _ Tz). now apply Pre.
  - unfold starts_with_char. rewrite (empty_ok m v l H). destruct l as [|x r] eqn:El; [exists false; split; [reflexivity|]; split; [discriminate|intros (r & E); discriminate]|].
    rewrite (front_ok m v (x :: r) H x r eq_refl). cbn [bind]. eexists. split; [reflexivity|]. rewrite Z.eqb_eq. split; [intros ->; now exists r|]. intros (r' & E). congruence.
  - unfold ends_with. rewrite Sz, Sz2. destruct (Nat.leb_spec (List.length s) (List.length l)) as [L|L]; [|exists false; split; [reflexivity|]; split; [discriminate|intros K; exfalso; eapply N2; eassumption]].
    destruct (C42_compare W m v l m2 v2 s t st (List.length l - List.length s) (List.length l) 0 0 H H2 T) as (_ & (z & -> & Tz) & _). cbn [bind]. eexists. split; [reflexivity|]. rewrite (three_way_zero _ _ _ Tz). now apply Suf.
  - unfold ends_with_text. rewrite Sl. cbn [bind]. rewrite Sz. destruct (Nat.leb_spec (List.length st) (List.length l)) as [L|L]; [|exists false; split; [reflexivity|]; split; [discriminate|intros K; exfalso; eapply N2; eassumption]].
    destruct (C42_compare W m v l m2 v2 s t st (List.length l - List.length st) (List.length st) 0 0 H H2 T) as (_ & _ & _ & _ & (z & -> & Tz) & _). cbn [bind]. eexists. split; [reflexivity|]. rewrite (three_way_zero _ _ _ Tz). now apply Suf.
  - unfold ends_with_char. rewrite (empty_ok m v l H). destruct l as [|x r] eqn:El; [exists false; split; [reflexivity|]; split; [discriminate|intros (r & E); destruct r; discriminate]|].
    rewrite <- El in *. destruct (exists_last (l := l)) as (r0 & y & E0); [congruence|]. rewrite (back_ok m v l H y r0 E0). cbn [bind]. eexists. split; [reflexivity|]. rewrite Z.eqb_eq. split; [intros ->; now exists r0|].
    intros (r' & E). rewrite E0 in E. now apply app_inj_tail in E as (_ & E).
Qed.
Print Assumptions C42_starts_ends_with.

(** ** searches *)
(** find(text, position), position <= size(): the first occurrence at or behind position, npos if there is none *)
Theorem C42_find : forall W m v l m2 v2 s position, views m v l -> views m2 v2 s -> position <= List.length l -> (s <> [] \/ position < List.length l) ->
  exists r, find W m v m2 v2 position = V r /\ first_in (found_at l s) position (List.length l) r.
Proof. intros W m v l m2 v2 s position H H2. exact (find_ok W m v l m2 v2 s H H2 position). Qed.
Print Assumptions C42_find.
Theorem C42_contains : forall W m v l m2 v2 s t st c, views m v l -> views m2 v2 s -> terminated t st -> s <> [] \/ l <> [] -> st <> [] \/ l <> [] ->
  (exists b, contains W m v m2 v2 = V b /\ (b = true <-> exists i, found_at l s i)) /\
  (exists b, contains_text W m v t = V b /\ (b = true <-> exists i, found_at l st i)) /\
  (exists b, contains_char W m v c = V b /\ (b = true <-> In c l)).
Proof.
  intros W m v l m2 v2 s t st c H H2 T Hs Hst.
  assert (forall m2 v2 s, views m2 v2 s -> s <> [] \/ l <> [] -> exists b, contains W m v m2 v2 = V b /\ (b = true <-> exists i, found_at l s i)) as K.
  { clear m2 v2 s H2 Hs. intros m2 v2 s H2 Hs. unfold contains. destruct (find_ok W m v l m2 v2 s H H2 0) as (r & -> & F); [lia|destruct Hs; [tauto|right; destruct l; [congruence|cbn; lia]]|].
    cbn [bind]. eexists. split; [reflexivity|]. destruct r as [i|].
    - split; [|reflexivity]. intros _. exists i. apply F.
    - split; [discriminate|]. intros (i & Fi). exfalso. destruct (Nat.lt_ge_cases i (List.length l)) as [L|L]; [apply (F i); [lia|exact Fi]|].
      pose proof (found_bound l s i Fi) as Bd. apply (F 0); destruct s; [destruct Hs as [Hs|Hs]; [congruence|]; destruct l; [congruence|cbn; lia]|cbn in Bd; lia|now exists [], l|cbn in Bd; lia]. }
  conj.
  - now apply K.
  - unfold contains_text. destruct (of_text_ok t st T) as (u & -> & Su & _). cbn [bind]. now apply K.
  - destruct (K [c] (View false 0 1) [c]) as (b & E & B); [exists [], []; now conj|left; discriminate|]. exists b. split; [exact E|]. rewrite B. split.
    + intros (i & a & r & -> & _). apply in_or_app. right. now left.
    + intros I. apply in_split in I as (a & r & ->). now exists (List.length a), a, r.
Qed.
Print Assumptions C42_contains.
(** FINDING: with position > size() find leaves the viewed range (unless the text is longer than the view) *)
Theorem C42_find_position_refuted : forall W m v l m2 v2 s position, views m v l -> views m2 v2 s ->
  List.length s <= List.length l -> List.length l < position -> find W m v m2 v2 position = UB.
Proof. intros W m v l m2 v2 s position H H2. exact (find_outside W m v l m2 v2 s H H2 position). Qed.
(** FINDING: the empty text is found at every position below size(), but not at size() *)
Theorem C42_find_empty_at_end_refuted : forall W m v l m2 v2, views m v l -> views m2 v2 [] ->
  find W m v m2 v2 (List.length l) = V None /\ found_at l [] (List.length l) /\ (l = [] -> contains W m v m2 v2 = V false).
Proof.
  intros W m v l m2 v2 H H2. pose proof (find_empty_end W m v l m2 v2 [] H H2 eq_refl) as E. conj; [exact E| |].
  - exists l, []. rewrite app_nil_r. now split.
  - intros ->. unfold contains. cbn in E. now rewrite E.
Qed.
Print Assumptions C42_find_empty_at_end_refuted.
(** rfind(text, position): the last occurrence that ENDS at or before position (std: begins); FINDING: if there is none
    and position < size() the result is position, which is not npos *)
Theorem C42_rfind_exact : forall W m v l m2 v2 s position, views m v l -> views m2 v2 s -> s <> [] ->
  let p := Nat.min position (List.length l) in
  exists r, rfind W m v m2 v2 position = V r /\
    ((exists i, r = Some i /\ found_at l s i /\ i + List.length s <= p /\ forall k, i < k -> k + List.length s <= p -> ~ found_at l s k) \/
     ((forall k, k + List.length s <= p -> ~ found_at l s k) /\
      r = if Nat.ltb (List.length l) (List.length s) then None else if Nat.ltb position (List.length l) then Some position else None)).
Proof. intros W m v l m2 v2 s position H H2 Hs. exact (rfind_ok W m v l m2 v2 s H H2 position Hs). Qed.
Print Assumptions C42_rfind_exact.
(** with the default position rfind is right *)
Theorem C42_rfind_whole : forall W m v l m2 v2 s position, views m v l -> views m2 v2 s -> s <> [] -> List.length l <= position ->
  exists r, rfind W m v m2 v2 position = V r /\ last_in (found_at l s) 0 (List.length l) r.
Proof.
  intros W m v l m2 v2 s position H H2 Hs Hp. assert (0 < List.length s) as Lp by (destruct s; [congruence|cbn; lia]).
  destruct (rfind_ok W m v l m2 v2 s H H2 position Hs) as (r & E & D). exists r. split; [exact E|]. rewrite Nat.min_r in D by lia. destruct D as [(i & -> & F & L & N)|(N & ->)].
  - cbn. conj; [lia|lia|exact F|]. intros k Hk Fk. apply (N k); [lia| |exact Fk]. exact (found_bound l s k Fk).
  - rewrite (proj2 (Nat.ltb_ge position _)) by lia. destruct (List.length l <? List.length s); cbn; intros k Hk Fk; (apply (N k); [exact (found_bound l s k Fk)|exact Fk]).
Qed.
Print Assumptions C42_rfind_whole.
(** "abc".rfind("z", 1) is 1; "aab".rfind("a", 1) is 0 although an 'a' stands at 1 *)
Theorem C42_rfind_refuted : forall W,
  rfind_char W [97; 98; 99]%Z (View false 0 3) 122%Z 1 = V (Some 1) /\ ~ found_at [97; 98; 99]%Z [122]%Z 1 /\
  rfind_char W [97; 97; 98]%Z (View false 0 3) 97%Z 1 = V (Some 0) /\ found_at [97; 97; 98]%Z [97]%Z 1.
Proof.
  intros W. conj; try reflexivity.
  - intros (a & c & E & L). destruct a as [|x [|y a]]; try discriminate.
  - exists [97%Z], [98%Z]. now split.
Qed.
Print Assumptions C42_rfind_refuted.
(** sets of characters: every position *)
Theorem C42_find_of : forall W m v l m2 v2 s position, views m v l -> views m2 v2 s ->
  (exists r, find_first_of W m v m2 v2 position = V r /\ first_in (char_in l s) position (List.length l) r) /\
  (exists r, find_first_not_of W m v m2 v2 position = V r /\ first_in (char_not_in l s) position (List.length l) r) /\
  (exists r, find_last_of W m v m2 v2 position = V r /\ last_in (char_in l s) 0 (Nat.min (S position) (List.length l)) r) /\
  (exists r, find_last_not_of W m v m2 v2 position = V r /\ last_in (char_not_in l s) 0 (Nat.min (S position) (List.length l)) r).
Proof.
  intros W m v l m2 v2 s position H H2. conj.
  - exact (find_first_ok W m v l m2 v2 s H H2 true position).
  - exact (find_first_ok W m v l m2 v2 s H H2 false position).
  - exact (find_last_ok W m v l m2 v2 s H H2 true position).
  - exact (find_last_ok W m v l m2 v2 s H H2 false position).
Qed.
Print Assumptions C42_find_of.

(** ** span *)
Section SpanP.
  Context {A : Type}.
  Definition spans (m : list A) (s : dspan) (l : list A) : Prop := shows m (db s) (de s) l.
  Definition fspans (m : list A) (s : fspan) (l : list A) : Prop := shows m (fb s) (fb s + extent s) l.
End SpanP.
Theorem C42_span_elements : forall (A : Type) (m : list A) s l, spans m s l ->
  d_size s = List.length l /\ (d_empty s = true <-> l = []) /\
  (forall i, d_at m s i = match nth_error l i with Some c => V c | None => X "array_out_of_range" end) /\
  (forall i c, nth_error l i = Some c -> d_index m s i = V c) /\ (forall c r, l = c :: r -> d_front m s = V c) /\ (forall c r, l = r ++ [c] -> d_back m s = V c).
Proof.
  intros A m s l H. pose proof (shows_len _ _ _ _ H) as L. assert (forall i c, nth_error l i = Some c -> load m (db s + i) = V c) as Ld.
  { intros i c E. destruct (shows_load m _ _ l i H) as (x & Ex & ->); [apply nth_error_Some; congruence|]. congruence. }
  conj.
  - unfold d_size. lia.
  - unfold d_empty. rewrite Nat.eqb_eq. destruct l; cbn in *; split; try congruence; lia.
  - intros i. unfold d_at, d_size. destruct (nth_error l i) as [c|] eqn:E.
    + assert (i < List.length l) by (apply nth_error_Some; congruence). rewrite (proj2 (Nat.ltb_lt _ _)) by lia. cbn. now apply Ld.
    + apply nth_error_None in E. now rewrite (proj2 (Nat.ltb_ge _ _)) by lia.
  - exact Ld.
  - intros c r ->. unfold d_front. rewrite <- (Nat.add_0_r (db s)). now apply Ld.
  - intros c r ->. rewrite app_length in L. cbn in L. unfold d_back. rewrite psub_ok by lia. cbn [bind]. replace (de s - 1) with (db s + List.length r) by lia. apply Ld. rewrite nth_error_app2, Nat.sub_diag by lia. reflexivity.
Qed.
Print Assumptions C42_span_elements.
(** first, last and subspan, called within their preconditions, for both kinds of span *)
Theorem C42_span_sub : forall (A : Type) (m : list A) s l count offset, spans m s l ->
  (count <= List.length l -> exists u, d_first m s count = V u /\ spans m u (firstn count l) /\ db s <= db u /\ de u <= de s) /\
  (count <= List.length l -> exists u, d_last m s count = V u /\ spans m u (skipn (List.length l - count) l) /\ db s <= db u /\ de u <= de s) /\
  (offset <= List.length l -> exists u, d_subspan m s offset None = V u /\ spans m u (skipn offset l) /\ db s <= db u /\ de u <= de s) /\
  (offset + count <= List.length l -> exists u, d_subspan m s offset (Some count) = V u /\ spans m u (firstn count (skipn offset l)) /\ db s <= db u /\ de u <= de s).
Proof.
  intros A m s l count offset H. pose proof (shows_len _ _ _ _ H) as L. conj; intros Hc.
  - unfold d_first. rewrite padd_ok by lia. cbn [bind]. eexists. split; [reflexivity|]. pose proof (shows_sub m _ _ l 0 count H ltac:(lia)) as K. rewrite Nat.add_0_r in K. cbn [db de]. split; [exact K|lia].
  - unfold d_last. rewrite psub_ok by lia. cbn [bind]. eexists. split; [reflexivity|]. cbn [db de]. split; [|lia].
    pose proof (shows_sub m _ _ l (List.length l - count) count H ltac:(lia)) as K. rewrite firstn_all2 in K by (rewrite skipn_length; lia).
    unfold spans. cbn [db de]. replace (de s - count) with (db s + (List.length l - count)) by lia. now replace (de s) with (db s + (List.length l - count) + count) by lia.
  - unfold d_subspan. rewrite padd_ok by lia. cbn [bind]. eexists. split; [reflexivity|]. cbn [db de]. split; [|lia].
    pose proof (shows_sub m _ _ l offset (List.length l - offset) H ltac:(lia)) as K. rewrite firstn_all2 in K by (rewrite skipn_length; lia).
    unfold spans. cbn [db de]. now replace (de s) with (db s + offset + (List.length l - offset)) by lia.
  - unfold d_subspan. rewrite padd_ok by lia. cbn [bind]. rewrite padd_ok by lia. cbn [bind]. eexists. split; [reflexivity|]. cbn [db de]. split; [|lia]. exact (shows_sub m _ _ l offset count H ltac:(lia)).
Qed.
Print Assumptions C42_span_sub.
(** FINDING: outside their preconditions (which nothing checks) the same calls deliver a span that reaches beyond the viewed range *)
Theorem C42_span_sub_refuted : exists (m : list nat) s l,
  spans m s l /\ List.length l = 1 /\
  (exists u, d_first m s 2 = V u /\ spans m u [11; 12]) /\ (exists u, d_last m s 2 = V u /\ spans m u [10; 11]) /\
  (exists u, d_subspan m s 0 (Some 2) = V u /\ spans m u [11; 12]) /\ (exists u, d_subspan m s 2 None = V u /\ de u < db u) /\ ~ In 10 l /\ ~ In 12 l.
Proof.
  exists [10; 11; 12; 13], (DSpan 1 2), [11]. conj; try reflexivity.
  - exists [10], [12; 13]. now conj.
  - exists (DSpan 1 3). split; [reflexivity|]. exists [10], [13]. now conj.
  - exists (DSpan 0 2). split; [reflexivity|]. exists [], [12; 13]. now conj.
  - exists (DSpan 1 3). split; [reflexivity|]. exists [10], [13]. now conj.
  - exists (DSpan 3 2). split; [reflexivity|cbn; lia].
  - cbn. lia.
  - cbn. lia.
Qed.
Print Assumptions C42_span_sub_refuted.
(** fixed extent: the compile time versions are rejected exactly when they would leave the span, and are right otherwise;
    the run time versions deliver the same elements as for dynamic extent *)
Theorem C42_span_fixed : forall (A : Type) (m : list A) s l, fspans m s l ->
  (exists d, to_dynamic m s = V d /\ spans m d l) /\
  (forall i, f_at m s i = match nth_error l i with Some c => V c | None => X "array_out_of_range" end) /\
  (forall c r, l = r ++ [c] -> f_back m s = V c) /\
  (forall count, match f_first_t m s count with Some r => exists u, r = V u /\ fspans m u (firstn count l) | None => List.length l < count end) /\
  (forall count, match f_last_t m s count with Some r => exists u, r = V u /\ fspans m u (skipn (List.length l - count) l) | None => List.length l < count end) /\
  (forall offset, match f_subspan_t m s offset None with Some r => exists u, r = V u /\ fspans m u (skipn offset l) | None => List.length l < offset end) /\
  (forall offset count, match f_subspan_t m s offset (Some count) with Some r => exists u, r = V u /\ fspans m u (firstn count (skipn offset l)) | None => List.length l < offset + count end) /\
  (forall count, count <= List.length l -> exists u, f_first m s count = V u /\ spans m u (firstn count l)) /\
  (forall count, count <= List.length l -> exists u, f_last m s count = V u /\ spans m u (skipn (List.length l - count) l)) /\
  (forall offset, offset <= List.length l -> exists u, f_subspan m s offset None = V u /\ spans m u (skipn offset l)) /\
  (forall offset count, offset + count <= List.length l -> exists u, f_subspan m s offset (Some count) = V u /\ spans m u (firstn count (skipn offset l))).
Proof.
  intros A m s l H. pose proof (shows_len _ _ _ _ H) as L. assert (extent s = List.length l) as Ex by lia.
  assert (forall p n, p + n <= List.length l -> shows m (fb s + p) (fb s + p + n) (firstn n (skipn p l))) as Sub by (intros p n Hp; exact (shows_sub m _ _ l p n H Hp)).
  assert (forall p, p <= List.length l -> shows m (fb s + p) (fb s + extent s) (skipn p l)) as Sub2.
  { intros p Hp. specialize (Sub p (List.length l - p) ltac:(lia)). rewrite firstn_all2 in Sub by (rewrite skipn_length; lia). now replace (fb s + extent s) with (fb s + p + (List.length l - p)) by lia. }
  assert (forall i c, nth_error l i = Some c -> load m (fb s + i) = V c) as Ld.
  { intros i c E. destruct (shows_load m _ _ l i H) as (x & Exx & ->); [apply nth_error_Some; congruence|]. congruence. }
  conj.
  - unfold to_dynamic. rewrite padd_ok by lia. cbn. eexists. split; [reflexivity|]. exact H.
  - intros i. unfold f_at. rewrite Ex. destruct (nth_error l i) as [c|] eqn:E.
    + assert (i < List.length l) by (apply nth_error_Some; congruence). rewrite (proj2 (Nat.ltb_lt _ _)) by lia. cbn. now apply Ld.
    + apply nth_error_None in E. now rewrite (proj2 (Nat.ltb_ge _ _)) by lia.
  - intros c r E. assert (List.length l = S (List.length r)) as Ll by (rewrite E, app_length; cbn; lia). unfold f_back. rewrite padd_ok by lia. cbn [bind]. rewrite psub_ok by lia. cbn [bind].
    replace (fb s + extent s - 1) with (fb s + List.length r) by lia. apply Ld. rewrite E, nth_error_app2, Nat.sub_diag by lia. reflexivity.
  - intros count. unfold f_first_t. rewrite Ex. destruct (Nat.leb_spec count (List.length l)) as [K|K]; [|exact K]. rewrite padd_ok by lia. cbn. eexists. split; [reflexivity|].
    specialize (Sub 0 count ltac:(lia)). rewrite Nat.add_0_r in Sub. exact Sub.
  - intros count. unfold f_last_t. rewrite Ex. destruct (Nat.leb_spec count (List.length l)) as [K|K]; [|exact K]. rewrite padd_ok by lia. cbn [bind]. rewrite psub_ok by lia. cbn [bind]. eexists. split; [reflexivity|].
    unfold fspans, f_make. cbn [fb extent]. specialize (Sub2 (List.length l - count) ltac:(lia)). replace (fb s + List.length l - count) with (fb s + (List.length l - count)) by lia. now replace (fb s + (List.length l - count) + count) with (fb s + extent s) by lia.
  - intros offset. unfold f_subspan_t. rewrite Ex, andb_true_r. destruct (Nat.leb_spec offset (List.length l)) as [K|K]; [|exact K]. rewrite padd_ok by lia. cbn [bind]. eexists. split; [reflexivity|].
    unfold fspans, f_make. cbn [fb extent]. replace (fb s + offset + (List.length l - offset)) with (fb s + extent s) by lia. now apply Sub2.
  - intros offset count. unfold f_subspan_t. rewrite Ex. destruct (Nat.leb_spec offset (List.length l)) as [K|K]; cbn [andb]; [|lia]. destruct (Nat.leb_spec count (List.length l - offset)) as [K2|K2]; [|lia].
    rewrite padd_ok by lia. cbn [bind]. eexists. split; [reflexivity|]. apply Sub. lia.
  - intros count K. unfold f_first. rewrite padd_ok by lia. cbn. eexists. split; [reflexivity|]. specialize (Sub 0 count ltac:(lia)). rewrite Nat.add_0_r in Sub. exact Sub.
  - intros count K. unfold f_last. rewrite padd_ok by lia. cbn [bind]. rewrite psub_ok by lia. cbn [bind]. eexists. split; [reflexivity|]. unfold spans. cbn [db de].
    specialize (Sub2 (List.length l - count) ltac:(lia)). now replace (fb s + extent s - count) with (fb s + (List.length l - count)) by lia.
  - intros offset K. unfold f_subspan. rewrite padd_ok by lia. cbn [bind]. rewrite padd_ok by lia. cbn [bind]. eexists. split; [reflexivity|]. now apply Sub2.
  - intros offset count K. unfold f_subspan. rewrite padd_ok by lia. cbn [bind]. rewrite padd_ok by lia. cbn [bind]. eexists. split; [reflexivity|]. apply Sub. lia.
Qed.
Print Assumptions C42_span_fixed.
(** FINDING: a span of fixed extent made from a shorter range claims Extent elements *)
Theorem C42_span_fixed_from_shorter_refuted : exists (m : list nat) (ext b e : nat),
  shows m b e [10] /\ f_at m (f_make ext b e) 1 = V 11 /\ extent (f_make ext b e) = 2.
Proof. exists [10; 11], 2, 0, 1. conj; try reflexivity. exists [], [11]. now conj. Qed.
(** etl::equal of two spans; operator == is identity of the ranges *)
Theorem C42_span_equal : forall (A : Type) (eqv : A -> A -> bool) (m : list A) s1 l1 s2 l2, decides_equality eqv -> spans m s1 l1 -> spans m s2 l2 ->
  (exists b, d_equal eqv m s1 s2 = V b /\ (b = true <-> l1 = l2)) /\ (d_same s1 s2 = true <-> db s1 = db s2 /\ de s1 = de s2).
Proof.
  intros A eqv m s1 l1 s2 l2 D H1 H2. pose proof (shows_len _ _ _ _ H1) as L1. pose proof (shows_len _ _ _ _ H2) as L2.
  assert (d_same s1 s2 = true <-> db s1 = db s2 /\ de s1 = de s2) as Sm. { unfold d_same, d_size. rewrite andb_true_iff, !Nat.eqb_eq. lia. }
  split; [|exact Sm]. unfold d_equal. destruct (d_empty s1 && d_empty s2) eqn:Ee; cbn [orb].
  - apply andb_true_iff in Ee as (E1 & E2). unfold d_empty in *. apply Nat.eqb_eq in E1, E2. exists true. split; [reflexivity|]. split; [|reflexivity]. intros _. destruct l1, l2; cbn in *; try reflexivity; lia.
  - destruct (d_same s1 s2) eqn:Es.
    + exists true. split; [reflexivity|]. split; [|reflexivity]. intros _. destruct Sm as (Sm & _). destruct (Sm eq_refl) as (E1 & E2).
      pose proof (range_ok _ _ _ _ H1) as R1. pose proof (range_ok _ _ _ _ H2) as R2. rewrite E1, E2 in R1. congruence.
    + rewrite (range_ok _ _ _ _ H1). cbn [bind]. rewrite (range_ok _ _ _ _ H2). cbn [bind].
      destruct (equal4_loop_ok eqv l1 (S (List.length l1)) [] l2 [] ltac:(lia) eq_refl) as (b & Hb & B). unfold equal4. cbn [app List.length] in Hb. rewrite Hb. exists b. split; [reflexivity|]. rewrite B. split.
      * intros F. induction F as [|x y a c E F IH]; [reflexivity|]. apply D in E. subst. f_equal. clear - F D. induction F as [|x y a c E F IH]; [reflexivity|]. apply D in E. congruence.
      * intros ->. clear - D. induction l2 as [|x l IH]; constructor; [now apply D|exact IH].
Qed.
Print Assumptions C42_span_equal.

(** ** the hypotheses are met: "bcbc" inside "abcbcd" *)
Definition ex_m : list Z := [97; 98; 99; 98; 99; 100]%Z.
Definition ex_v : view := View false 1 5.
Example ex_views : views ex_m ex_v [98; 99; 98; 99]%Z.
Proof. exists [97%Z], [100%Z]. now conj. Qed.
Example ex_find : find 100 ex_m ex_v [98; 99]%Z (View false 0 2) 1 = V (Some 2).
Proof. reflexivity. Qed.
Example ex_text : terminated [98; 99; 0; 5]%Z [98; 99]%Z.
Proof. exists [5%Z]. split; [reflexivity|]. intros [E|[E|[]]]; discriminate. Qed.
Example ex_outside : find 100 ex_m ex_v [98]%Z (View false 0 1) 5 = UB.
Proof. reflexivity. Qed.
Example ex_fspan : fspans [1; 2; 3; 4] (FSpan 1 2) [2; 3] /\ f_first_t [1; 2; 3; 4] (FSpan 1 2) 3 = None.
Proof. split; [exists [1], [4]; now conj|reflexivity]. Qed.
