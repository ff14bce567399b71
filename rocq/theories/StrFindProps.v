(** * C47: searching and comparing in strings. *)
From Coq Require Import List Arith Bool ZArith String Lia.
From Verif Require Import Util Slots SortModel AlgoSpec AlgoModel AlgoProofs ViewSpec ViewModel ViewProofs StrFindModel StrFindProofs.
Import ListNotations.

(** [holds s l]: the string s holds the characters l (and the terminator behind them in its buffer) *)
(** ** find: the first position >= pos at which the text stands, for every overload, as long as pos + |text| does not leave size_t *)
Theorem C47_find : forall W s l t n pos, holds s l -> pos + List.length n < W -> n <> [] ->
  (forall u, holds u n -> exists r, find_str W s u pos = V r /\ first_in (found_at l n) pos (List.length l) r) /\
  (forall v, shows t (vb v) (ve v) n -> exists r, find_view W s t v pos = V r /\ first_in (found_at l n) pos (List.length l) r) /\
  (terminated t n -> exists r, find_text W s t pos = V r /\ first_in (found_at l n) pos (List.length l) r) /\
  (terminated t n -> exists r, find_text_n W s t pos (List.length n) = V r /\ first_in (found_at l n) pos (List.length l) r).
Proof.
  intros W s l t n pos H HW Hn. conj.
  - intros u Hu. pose proof (holds_len u n Hu) as (_ & N). unfold find_str. pose proof (holds_shows u n Hu) as Sh. rewrite N in *. exact (find_impl_ok W s l (sbuf u) 0 (List.length n) n H Sh pos HW (or_introl Hn)).
  - intros v Hv. unfold find_view. rewrite (size_ok W t v n Hv). exact (find_impl_ok W s l t _ _ n H Hv pos HW (or_introl Hn)).
  - intros T. unfold find_text. rewrite (strlen_ok t n T). cbn [bind]. exact (find_impl_ok W s l t _ _ n H (terminated_shows t n T) pos HW (or_introl Hn)).
  - intros T. unfold find_text_n. rewrite (strlen_ok t n T). cbn [bind]. exact (find_impl_ok W s l t _ _ n H (terminated_shows t n T) pos HW (or_introl Hn)).
Qed.
Print Assumptions C47_find.
(** FINDING: pos + |text| is computed in size_t: with a position near npos the sum wraps, the length test passes and the search
    starts outside the buffer (std::string::find returns npos).  This holds for every string and every text that fits in it. *)
Theorem C47_find_wraps_refuted : forall W s l t n pos, holds s l -> terminated t n ->
  List.length (sbuf s) < pos < W -> W <= pos + List.length n -> List.length n <= List.length l -> find_text W s t pos = UB.
Proof.
  intros W s l t n pos H T Hp HW Hn. pose proof (holds_len s l H) as (L & N). unfold find_text. rewrite (strlen_ok t n T). cbn [bind]. unfold find_impl.
  replace (pos + List.length n) with (pos + List.length n - W + 1 * W) by lia. rewrite Nat.mod_add, Nat.mod_small by lia. rewrite N.
  rewrite (proj2 (Nat.ltb_ge _ _)) by lia. unfold padd. rewrite (proj2 (Nat.leb_gt _ _)) by lia. reflexivity.
Qed.
Print Assumptions C47_find_wraps_refuted.
Example find_wraps_case : find_text 256 (Str [97; 98; 0]%Z 2) [97; 0]%Z 255 = UB.
Proof. exact (C47_find_wraps_refuted 256 (Str [97; 98; 0]%Z 2) [97; 98]%Z [97; 0]%Z [97%Z] 255 ltac:(now exists []) ltac:(exists []; split; [reflexivity|intros [E|[]]; discriminate]) ltac:(cbn [sbuf List.length]; lia) ltac:(cbn [List.length]; lia) ltac:(cbn; lia)). Qed.
Example find_case : find_text 256 (Str [97; 98; 97; 98; 0; 7]%Z 4) [97; 98; 0]%Z 1 = V (Some 2). Proof. vm_compute. reflexivity. Qed.
(** FINDING: find(s, pos, n) tests the length of the whole text s although only n characters of it are looked for *)
Theorem C47_find_text_n_refuted : exists W s l t n, holds s l /\ terminated t n /\ found_at l (firstn 2 n) 1 /\ find_text_n W s t 0 2 = V None.
Proof.
  exists 256, (Str [97; 98; 99; 0]%Z 3), [97; 98; 99]%Z, [98; 99; 100; 101; 0]%Z, [98; 99; 100; 101]%Z. conj.
  - now exists [].
  - exists []. split; [reflexivity|]. cbn. intuition discriminate.
  - exists [97%Z], []. now split.
  - vm_compute. reflexivity.
Qed.
Print Assumptions C47_find_text_n_refuted.
(** what find(s, pos, n) answers in every case: nothing when the WHOLE text does not fit behind pos, the first place of its n first characters otherwise *)
Theorem C47_find_text_n_exact : forall W s l t n pos k, holds s l -> terminated t n -> 0 < k <= List.length n -> pos + List.length n < W ->
  (List.length l < pos + List.length n -> find_text_n W s t pos k = V None) /\
  (pos + List.length n <= List.length l -> exists r, find_text_n W s t pos k = V r /\ first_in (found_at l (firstn k n)) pos (List.length l) r).
Proof.
  intros W s l t n pos k H T Hk HW. pose proof (holds_len s l H) as (L & N). unfold find_text_n. rewrite (strlen_ok t n T). cbn [bind]. split; intros K.
  - unfold find_impl. rewrite Nat.mod_small, N, (proj2 (Nat.ltb_lt _ _)) by lia. reflexivity.
  - assert (List.length (firstn k n) = k) as Lk by (rewrite firstn_length; lia).
    assert (shows t 0 k (firstn k n)) as Sh.
    { destruct (terminated_shows t n T) as (a & r & E & E0 & E1). exists a, (skipn k n ++ r). conj; [|exact E0|lia].
      rewrite (app_assoc (firstn k n)), firstn_skipn. exact E. }
    assert (find_impl W s t 0 k (List.length n) pos = find_impl W s t 0 k (List.length (firstn k n)) pos) as ->.
    { rewrite Lk. unfold find_impl. rewrite !Nat.mod_small by lia. rewrite N, !(proj2 (Nat.ltb_ge _ _)) by lia. reflexivity. }
    apply (find_impl_ok W s l t 0 k (firstn k n) H Sh pos); [lia|]. left. intros E. rewrite E in Lk. cbn in Lk. lia.
Qed.
Print Assumptions C47_find_text_n_exact.
Example find_text_n_case : find_text_n 256 (Str [97; 98; 97; 98; 0; 7]%Z 4) [98; 97; 0]%Z 0 1 = V (Some 1) /\ find_text_n 256 (Str [97; 98; 97; 99; 0]%Z 4) [98; 99; 0]%Z 0 1 = V (Some 1).
Proof. vm_compute. now split. Qed.
(** the empty text: found at pos below the size, not at the size (std: pos) *)
Theorem C47_find_empty : forall W s l t pos, holds s l -> terminated t [] -> pos <= List.length l < W ->
  find_text W s t pos = V (if Nat.eqb pos (List.length l) then None else Some pos).
Proof.
  intros W s l t pos H T Hp. pose proof (holds_len s l H) as (L & N). unfold find_text. rewrite (strlen_ok t [] T). cbn [bind List.length]. unfold find_impl. rewrite Nat.mod_small by lia. rewrite N.
  rewrite (proj2 (Nat.ltb_ge _ _)) by lia. rewrite padd_ok by lia. cbn [bind Nat.add]. pose proof (holds_tail s l pos H ltac:(lia)) as Sh. rewrite N in Sh. rewrite (range_ok _ _ _ _ Sh). cbn [bind].
  pose proof (terminated_shows t [] T) as S0. cbn [List.length] in S0. rewrite (range_ok _ _ _ _ S0). cbn [bind]. unfold search. cbn [search_loop search_at List.length Nat.eqb obind of_opt bind]. rewrite Nat.add_0_r. now destruct (Nat.eqb pos _).
Qed.
Print Assumptions C47_find_empty.
(** find(c, pos): exact up to the size; behind it the search range ends before it begins *)
Theorem C47_find_char : forall s l c pos, holds s l ->
  (pos <= List.length l -> exists r, find_char s c pos = V r /\ first_in (fun k => nth_error l k = Some c) pos (List.length l) r) /\
  (List.length l < pos -> find_char s c pos = UB).
Proof.
  intros s l c pos H. split; [exact (find_char_ok s l H c pos)|]. intros Hp. pose proof (holds_len s l H) as (L & N). unfold find_char.
  unfold padd. destruct (Nat.leb_spec (0 + pos) (List.length (sbuf s))) as [K|K]; [|reflexivity]. cbn [bind]. unfold range. rewrite N, (proj2 (Nat.leb_gt _ _)) by lia. reflexivity.
Qed.
Print Assumptions C47_find_char.
Example find_char_case : find_char (Str [97; 98; 97; 0]%Z 3) 97 1 = V (Some 2). Proof. reflexivity. Qed.

(** ** rfind: the last place at which the text ENDS at or before pos *)
Theorem C47_rfind : forall W s l t n pos, holds s l -> n <> [] ->
  let last_ending r := match r with
    | Some i => found_at l n i /\ i + List.length n <= Nat.min pos (List.length l) /\ forall k, i < k -> k + List.length n <= Nat.min pos (List.length l) -> ~ found_at l n k
    | None => forall k, k + List.length n <= Nat.min pos (List.length l) -> ~ found_at l n k
    end in
  (forall u, holds u n -> exists r, rfind_str s u pos = V r /\ last_ending r) /\
  (forall v, shows t (vb v) (ve v) n -> exists r, rfind_view W s t v pos = V r /\ last_ending r) /\
  (terminated t n -> exists r, rfind_text s t pos = V r /\ last_ending r) /\
  (forall e, shows t 0 e n -> exists r, rfind_text_n s t pos e = V r /\ last_ending r).
Proof.
  intros W s l t n pos H Hn last_ending. conj.
  - intros u Hu. pose proof (holds_len u n Hu) as (_ & N). unfold rfind_str. pose proof (holds_shows u n Hu) as Sh. rewrite N in *. exact (rfind_impl_ok s l (sbuf u) 0 (List.length n) n H Sh pos Hn).
  - intros v Hv. unfold rfind_view. rewrite (size_ok W t v n Hv). exact (rfind_impl_ok s l t _ _ n H Hv pos Hn).
  - intros T. unfold rfind_text. rewrite (strlen_ok t n T). cbn [bind]. exact (rfind_impl_ok s l t _ _ n H (terminated_shows t n T) pos Hn).
  - intros e Sh. pose proof (shows_len _ _ _ _ Sh) as Le. assert (e = List.length n) as -> by (destruct Sh as (a & r & _ & E0 & E1); lia). unfold rfind_text_n. exact (rfind_impl_ok s l t _ _ n H Sh pos Hn).
Qed.
Print Assumptions C47_rfind.
Theorem C47_rfind_char : forall s l c pos, holds s l ->
  exists r, rfind_char s c pos = V r /\ last_in (fun k => nth_error l k = Some c) 0 (Nat.min pos (List.length l)) r.
Proof. intros s l c pos H. exact (rfind_char_ok s l H c pos). Qed.
Print Assumptions C47_rfind_char.
(** FINDING: std::string::rfind counts the position at which the text begins; here a text at pos or before it that ends behind pos is not
    found, nor is a character at pos; and the overload for a view starts at 0 by default and so never finds anything *)
Theorem C47_rfind_refuted : forall W s l t n i c, holds s l -> terminated t n -> n <> [] -> found_at l n i -> nth_error l i = Some c ->
  (forall k, k < i -> ~ found_at l n k) -> (forall k, k < i -> nth_error l k <> Some c) ->
  rfind_text s t i = V None /\ rfind_char s c i = V None /\ forall v, shows t (vb v) (ve v) n -> rfind_view_default W s t v = V None.
Proof.
  intros W s l t n i c H T Hn F C NF NC. assert (0 < List.length n) as Pn by (destruct n; [congruence|cbn; lia]). conj.
  - destruct (C47_rfind W s l t n i H Hn) as (_ & _ & K & _). destruct (K T) as ([j|] & -> & R); [|reflexivity]. exfalso. destruct R as (Fj & Hj & _). apply (NF j); [lia|exact Fj].
  - destruct (C47_rfind_char s l c i H) as ([j|] & -> & R); [|reflexivity]. exfalso. destruct R as (Hj & E & _). apply (NC j); [lia|exact E].
  - intros v Hv. destruct (C47_rfind W s l t n 0 H Hn) as (_ & K & _ & _). destruct (K v Hv) as ([j|] & E & R); [|exact E]. exfalso. destruct R as (_ & Hj & _). lia.
Qed.
Print Assumptions C47_rfind_refuted.
Example rfind_case : let s := Str [97; 98; 97; 98; 0; 9]%Z 4 in let t := [97; 98; 0]%Z in
  rfind_text s t 100 = V (Some 2) /\ rfind_text s t 3 = V (Some 0) /\ rfind_text s t 0 = V None /\ rfind_char s 98 3 = V (Some 1) /\ rfind_view_default 256 s t (View false 0 2) = V None.
Proof. vm_compute. now conj. Qed.

(** ** compare *)
Theorem C47_compare : forall s l t n, holds s l ->
  (forall u, holds u n -> exists z, compare_str s u = V z /\ three_way l n z) /\
  (forall v, shows t (vb v) (ve v) n -> exists z, compare_view s t v = V z /\ three_way l n z) /\
  (terminated t n -> exists z, compare_text s t = V z /\ three_way l n z).
Proof.
  intros s l t n H. pose proof (holds_shows s l H) as Sh. conj.
  - intros u Hu. exact (cmp_ok _ _ _ l _ _ _ n Sh (holds_shows u n Hu)).
  - intros v Hv. exact (cmp_ok _ _ _ l _ _ _ n Sh Hv).
  - intros T. unfold compare_text. rewrite (strlen_ok t n T). cbn [bind]. exact (cmp_ok _ _ _ l _ _ _ n Sh (terminated_shows t n T)).
Qed.
Print Assumptions C47_compare.
Lemma holds_mid s l p k : holds s l -> p <= List.length l -> p + k <= List.length l -> shows (sbuf s) p (p + k) (firstn k (skipn p l)).
Proof.
  intros (r & E & N) Hp Hk. exists (firstn p l), (skipn k (skipn p l) ++ 0%Z :: r). conj.
  - rewrite E. rewrite <- (firstn_skipn p l) at 1. rewrite <- (firstn_skipn k (skipn p l)) at 1. now rewrite <- !app_assoc.
  - rewrite firstn_length. lia.
  - rewrite !firstn_length, skipn_length. lia.
Qed.
(** compare(position, length, string [, subposition, sublength]): the exception exactly when a position is behind its end, otherwise the
    two substrings, each cut off at its end, are compared *)
Theorem C47_compare_substring : forall s l u n position length, holds s l -> holds u n ->
  match compare_pos_str s position length u with
  | V z => position <= List.length l /\ three_way (firstn length (skipn position l)) n z
  | X e => List.length l < position /\ e = "string_out_of_bounds"%string
  | UB => False
  end /\
  (forall sp sl, match compare_pos_str2 s position length u sp sl with
  | V z => position <= List.length l /\ sp <= List.length n /\ three_way (firstn length (skipn position l)) (firstn sl (skipn sp n)) z
  | X e => (List.length l < position \/ List.length n < sp) /\ e = "string_out_of_bounds"%string
  | UB => False
  end).
Proof.
  intros s l u n position length H Hu. pose proof (holds_len s l H) as (L & N). pose proof (holds_len u n Hu) as (L2 & N2).
  assert (forall (q : list Z) k p, firstn (Nat.min k (List.length q - p)) (skipn p q) = firstn k (skipn p q)) as Cut.
  { intros q k p. rewrite <- (skipn_length p q). destruct (Nat.le_ge_cases k (List.length (skipn p q))) as [K|K]; [now rewrite Nat.min_l|]. rewrite Nat.min_r by exact K. now rewrite firstn_all, firstn_all2. }
  split.
  - unfold compare_pos_str. rewrite N. destruct (Nat.leb_spec position (List.length l)) as [P|P]; cbn [etl_assert bind]; [|now split].
    rewrite padd_ok by lia. cbn [bind Nat.add]. rewrite padd_ok by lia. cbn [bind].
    destruct (cmp_ok _ _ _ _ _ _ _ n (holds_mid s l position (Nat.min length (List.length l - position)) H P ltac:(lia)) (holds_shows u n Hu)) as (z & -> & Tz). rewrite Cut in Tz. now split.
  - intros sp sl. unfold compare_pos_str2. rewrite N, N2. destruct (Nat.leb_spec position (List.length l)) as [P|P]; cbn [etl_assert bind]; [|split; [now left|reflexivity]].
    destruct (Nat.leb_spec sp (List.length n)) as [P2|P2]; cbn [etl_assert bind]; [|split; [now right|reflexivity]].
    rewrite padd_ok by lia. cbn [bind Nat.add]. rewrite padd_ok by lia. cbn [bind]. rewrite padd_ok by lia. cbn [bind Nat.add]. rewrite padd_ok by lia. cbn [bind].
    destruct (cmp_ok _ _ _ _ _ _ _ _ (holds_mid s l position (Nat.min length (List.length l - position)) H P ltac:(lia)) (holds_mid u n sp (Nat.min sl (List.length n - sp)) Hu P2 ltac:(lia))) as (z & -> & Tz). rewrite !Cut in Tz. now conj.
Qed.
Print Assumptions C47_compare_substring.
Example compare_case : let s := Str [97; 98; 99; 0]%Z 3 in let u := Str [98; 99; 0; 0]%Z 2 in
  compare_pos_str s 1 100 u = V 0%Z /\ compare_pos_str s 4 0 u = X "string_out_of_bounds" /\ compare_str s u = V (-1)%Z /\ compare_pos_str2 s 1 1 u 1 1 = V (-1)%Z.
Proof. vm_compute. now conj. Qed.
(** the overloads for a view and for a text do the same for a substring inside the string *)
Theorem C47_compare_inside : forall s l t n position length, holds s l -> position + length <= List.length l ->
  (forall v, shows t (vb v) (ve v) n -> exists z, compare_pos_view s position length t v = V z /\ three_way (firstn length (skipn position l)) n z) /\
  (terminated t n -> exists z, compare_pos_text s position length t = V z /\ three_way (firstn length (skipn position l)) n z) /\
  (forall e, shows t 0 e n -> exists z, compare_pos_text_n s position length t e = V z /\ three_way (firstn length (skipn position l)) n z).
Proof.
  intros s l t n position length H P. pose proof (holds_len s l H) as (L & N). pose proof (holds_mid s l position length H ltac:(lia) P) as Mid.
  assert (forall b e, shows t b e n -> exists z, compare_pos_raw s position length t b e = V z /\ three_way (firstn length (skipn position l)) n z) as K.
  { intros b e Sh. unfold compare_pos_raw. rewrite padd_ok by lia. cbn [bind Nat.add]. rewrite padd_ok by lia. cbn [bind]. exact (cmp_ok _ _ _ _ _ _ _ n Mid Sh). }
  conj.
  - intros v Hv. exact (K _ _ Hv).
  - intros T. unfold compare_pos_text. rewrite (strlen_ok t n T). cbn [bind]. exact (K _ _ (terminated_shows t n T)).
  - intros e Sh. exact (K _ _ Sh).
Qed.
Print Assumptions C47_compare_inside.
(** FINDING: but they neither check the position nor cut the length: characters behind the end (left over from earlier contents) are
    compared, and a length of npos, which std::string accepts, forms a pointer outside the buffer *)
Theorem C47_compare_view_refuted :
  (exists s l t v n, holds s l /\ shows t (vb v) (ve v) n /\ l <> n /\ compare_pos_view s 0 (List.length n) t v = V 0%Z) /\
  (forall s l t n position length, holds s l -> terminated t n -> List.length (sbuf s) < position + length -> compare_pos_text s position length t = UB).
Proof.
  split.
  - exists (Str [97; 0; 98; 0]%Z 1), [97%Z], [97; 0; 98]%Z, (View false 0 3), [97; 0; 98]%Z. conj; [now exists [98; 0]%Z|exists [], []; now conj|discriminate|vm_compute; reflexivity].
  - intros s l t n position length H T P. unfold compare_pos_text. rewrite (strlen_ok t n T). cbn [bind]. unfold compare_pos_raw, padd. destruct (Nat.leb_spec (0 + position) (List.length (sbuf s))); [|reflexivity]. cbn [bind].
    rewrite (proj2 (Nat.leb_gt _ _)) by lia. reflexivity.
Qed.
Print Assumptions C47_compare_view_refuted.

(** ** starts_with, ends_with *)
Theorem C47_ends_with : forall W s l t n, holds s l ->
  (forall u, holds u n -> exists r, ends_with_str s u = V r /\ (r = true <-> exists a, l = a ++ n)) /\
  (forall v, shows t (vb v) (ve v) n -> exists r, ends_with_view W s t v = V r /\ (r = true <-> exists a, l = a ++ n)) /\
  (terminated t n -> exists r, ends_with_text s t = V r /\ (r = true <-> exists a, l = a ++ n)).
Proof.
  intros W s l t n H. pose proof (holds_len s l H) as (L & N).
  assert (List.length l < List.length n -> (false = true <-> exists a, l = a ++ n)) as Short.
  { intros K. split; [discriminate|]. intros (a & E). apply (f_equal (@List.length Z)) in E. rewrite app_length in E. lia. }
  assert (forall z, List.length n <= List.length l -> three_way (firstn (List.length n) (skipn (List.length l - List.length n) l)) n z -> (Z.eqb z 0 = true <-> exists a, l = a ++ n)) as Tail.
  { intros z K Tz. assert (firstn (List.length n) (skipn (List.length l - List.length n) l) = skipn (List.length l - List.length n) l) as E by (apply firstn_all2; rewrite skipn_length; lia). rewrite E in Tz.
    assert (skipn (List.length l - List.length n) l = n <-> exists a, l = a ++ n) as Q.
    { split; [intros Q; exists (firstn (List.length l - List.length n) l); rewrite <- Q at 2; now rewrite firstn_skipn|]. intros (a & Ea). rewrite Ea, app_length. replace (List.length a + List.length n - List.length n) with (List.length a) by lia. now rewrite skipn_app, skipn_all, Nat.sub_diag. }
    rewrite <- Q, Z.eqb_eq. split; [|intros Q2; apply (three_way_fun _ _ _ _ Tz); now left].
    intros ->. destruct Tz as [(_ & Q2)|[(Q2 & _)|(Q2 & _)]]; [exact Q2|discriminate|discriminate]. }
  conj.
  - intros u Hu. pose proof (holds_len u n Hu) as (L2 & N2). unfold ends_with_str. rewrite N, N2. destruct (Nat.ltb_spec (List.length l) (List.length n)) as [K|K]; [exists false; split; [reflexivity|now apply Short]|].
    destruct (C47_compare_substring s l u n (List.length l - List.length n) (List.length n) H Hu) as (Q & _). destruct (compare_pos_str _ _ _ _) as [z|e|]; [|destruct Q; lia|destruct Q].
    exists (Z.eqb z 0). split; [reflexivity|]. apply Tail; [exact K|apply Q].
  - intros v Hv. unfold ends_with_view. rewrite N, (size_ok W t v n Hv). destruct (Nat.ltb_spec (List.length l) (List.length n)) as [K|K]; [exists false; split; [reflexivity|now apply Short]|].
    destruct (C47_compare_inside s l t n (List.length l - List.length n) (List.length n) H ltac:(lia)) as (Q & _ & _). destruct (Q v Hv) as (z & -> & Tz). exists (Z.eqb z 0). split; [reflexivity|]. now apply Tail.
  - intros T. unfold ends_with_text. rewrite (strlen_ok t n T). cbn [bind]. rewrite N. destruct (Nat.ltb_spec (List.length l) (List.length n)) as [K|K]; [exists false; split; [reflexivity|now apply Short]|].
    destruct (C47_compare_inside s l t n (List.length l - List.length n) (List.length n) H ltac:(lia)) as (_ & _ & Q). destruct (Q _ (terminated_shows t n T)) as (z & -> & Tz). exists (Z.eqb z 0). split; [reflexivity|]. now apply Tail.
Qed.
Print Assumptions C47_ends_with.
Lemma prefix_dec (l n : list Z) z : three_way (firstn (List.length n) l) n z -> (Z.eqb z 0 = true <-> exists a, l = n ++ a).
Proof.
  intros Tz. assert (firstn (List.length n) l = n <-> exists a, l = n ++ a) as Q.
  { split; [intros Q; exists (skipn (List.length n) l); rewrite <- Q at 1; now rewrite firstn_skipn|]. intros (a & ->). now rewrite firstn_app, Nat.sub_diag, firstn_all, app_nil_r. }
  rewrite <- Q, Z.eqb_eq. split; [|intros Q2; apply (three_way_fun _ _ _ _ Tz); now left].
  intros ->. destruct Tz as [(_ & Q2)|[(Q2 & _)|(Q2 & _)]]; [exact Q2|discriminate|discriminate].
Qed.
(** starts_with(string) for every string; starts_with(text) and (view) when the text fits in the buffer and has no terminator inside *)
Theorem C47_starts_with : forall W s l t n, holds s l ->
  (forall u, holds u n -> exists r, starts_with_str s u = V r /\ (r = true <-> exists a, l = n ++ a)) /\
  (List.length n <= List.length (sbuf s) -> ~ In 0%Z n ->
   (forall v, shows t (vb v) (ve v) n -> exists r, starts_with_view W s t v = V r /\ (r = true <-> exists a, l = n ++ a)) /\
   (terminated t n -> exists r, starts_with_text s t = V r /\ (r = true <-> exists a, l = n ++ a))).
Proof.
  intros W s l t n H. pose proof (holds_len s l H) as (L & N). split.
  - intros u Hu. pose proof (holds_len u n Hu) as (L2 & N2). unfold starts_with_str. rewrite N2.
    destruct (C47_compare_substring s l u n 0 (List.length n) H Hu) as (Q & _). destruct (compare_pos_str _ _ _ _) as [z|e|]; [|destruct Q; lia|destruct Q].
    exists (Z.eqb z 0). split; [reflexivity|]. apply prefix_dec. apply Q.
  - intros Hn H0. assert (forall b e, shows t b e n -> exists z, compare_pos_raw s 0 (List.length n) t b e = V z /\ (Z.eqb z 0 = true <-> exists a, l = n ++ a)) as K.
    { intros b e Sh. unfold compare_pos_raw. rewrite padd_ok by lia. cbn [bind Nat.add]. rewrite padd_ok by lia. cbn [bind Nat.add].
      assert (shows (sbuf s) 0 (List.length n) (firstn (List.length n) (sbuf s))) as Sb by (exists [], (skipn (List.length n) (sbuf s)); conj; [now rewrite firstn_skipn|reflexivity|cbn; rewrite firstn_length; lia]).
      destruct (cmp_ok _ _ _ _ _ _ _ n Sb Sh) as (z & -> & Tz). exists z. split; [reflexivity|]. apply prefix_dec in Tz. rewrite Tz. destruct H as (rest & E & _). split; intros (a & Ea).
      - rewrite E in Ea. destruct (Nat.le_gt_cases (List.length n) (List.length l)) as [Q|Q].
        + exists (skipn (List.length n) l). apply (f_equal (firstn (List.length n))) in Ea. rewrite !firstn_app, Nat.sub_diag, firstn_all, app_nil_r in Ea. replace (List.length n - List.length l) with 0 in Ea by lia. cbn [firstn] in Ea. rewrite app_nil_r in Ea. rewrite <- Ea at 1. now rewrite firstn_skipn.
        + exfalso. apply H0. apply (f_equal (fun q => nth_error q (List.length l))) in Ea. rewrite nth_error_app2, Nat.sub_diag in Ea by lia. rewrite nth_error_app1 in Ea by lia. cbn in Ea. symmetry in Ea. exact (nth_error_In _ _ Ea).
      - exists (a ++ 0%Z :: rest). now rewrite E, Ea, <- app_assoc. }
    split.
    + intros v Hv. unfold starts_with_view. rewrite (size_ok W t v n Hv). destruct (K _ _ Hv) as (z & Ez & Q). unfold compare_pos_view. rewrite Ez. cbn [bind]. now exists (Z.eqb z 0).
    + intros T. unfold starts_with_text. rewrite (strlen_ok t n T). cbn [bind]. destruct (K _ _ (terminated_shows t n T)) as (z & Ez & Q). unfold compare_pos_text_n. rewrite Ez. cbn [bind]. now exists (Z.eqb z 0).
Qed.
Print Assumptions C47_starts_with.
Example starts_case : let s := Str [97; 98; 99; 0]%Z 3 in let u := Str [97; 98; 0; 0]%Z 2 in
  starts_with_str s u = V true /\ starts_with_str u s = V false /\ starts_with_text u [97; 98; 99; 0]%Z = V false /\ ends_with_text s [98; 99; 0]%Z = V true /\ ends_with_view 256 s [98; 99; 0]%Z (View false 0 1) = V false.
Proof. vm_compute. now conj. Qed.
(** FINDING: a text longer than the buffer makes starts_with leave the buffer; a view with a terminator inside matches old characters *)
Theorem C47_starts_with_refuted :
  (forall s l t n, holds s l -> terminated t n -> List.length (sbuf s) < List.length n -> starts_with_text s t = UB) /\
  (exists W s l t v n, holds s l /\ shows t (vb v) (ve v) n /\ List.length l < List.length n /\ starts_with_view W s t v = V true).
Proof.
  split.
  - intros s l t n H T K. unfold starts_with_text. rewrite (strlen_ok t n T). cbn [bind]. unfold compare_pos_text_n, compare_pos_raw. rewrite padd_ok by lia. cbn [bind]. unfold padd. rewrite (proj2 (Nat.leb_gt _ _)) by lia. reflexivity.
  - exists 256, (Str [97; 0; 98; 0]%Z 1), [97%Z], [97; 0; 98]%Z, (View false 0 3), [97; 0; 98]%Z. conj; [now exists [98; 0]%Z|exists [], []; now conj|cbn; lia|vm_compute; reflexivity].
Qed.
Print Assumptions C47_starts_with_refuted.

(** ** find_first_of, find_last_of and their negations; contains *)
Theorem C47_find_first_last_of : forall W s l t n position, holds s l -> shows t 0 (List.length n) n ->
  (exists r, find_first_s W true s t position (List.length n) = V r /\ first_in (char_in l n) position (List.length l) r) /\
  (exists r, find_first_s W false s t position (List.length n) = V r /\ first_in (char_not_in l n) position (List.length l) r) /\
  (exists r, find_last_s W true s t position (List.length n) = V r /\ last_in (char_in l n) 0 (Nat.min (S position) (List.length l)) r) /\
  (exists r, find_last_s W false s t position (List.length n) = V r /\ last_in (char_not_in l n) 0 (Nat.min (S position) (List.length l)) r).
Proof.
  intros W s l t n position H Ht. pose proof (holds_shows s l H) as Sh.
  assert (forall want, exists r, find_first_s W want s t position (List.length n) = V r /\ first_in (wanted l n want) position (List.length l) r) as F by (intros want; exact (find_first_ok W (sbuf s) (as_view s) l t (View false 0 (List.length n)) n Sh Ht want position)).
  assert (forall want, exists r, find_last_s W want s t position (List.length n) = V r /\ last_in (wanted l n want) 0 (Nat.min (S position) (List.length l)) r) as G by (intros want; exact (find_last_ok W (sbuf s) (as_view s) l t (View false 0 (List.length n)) n Sh Ht want position)).
  conj; [exact (F true)|exact (F false)|exact (G true)|exact (G false)].
Qed.
Print Assumptions C47_find_first_last_of.
Example first_last_case : let s := Str [97; 98; 99; 98; 0]%Z 4 in let t := [98; 99]%Z in
  find_first_s 256 true s t 0 2 = V (Some 1) /\ find_first_s 256 false s t 1 2 = V None /\ find_last_s 256 true s t 255 1 = V (Some 3) /\ find_last_s 256 false s t 3 2 = V (Some 0).
Proof. vm_compute. now conj. Qed.
Theorem C47_contains : forall W s l t n c, holds s l -> terminated t n -> n <> [] -> List.length n < W ->
  (exists r, contains_text W s t = V r /\ (r = true <-> exists i, found_at l n i)) /\
  (exists r, contains_char s c = V r /\ (r = true <-> In c l)).
Proof.
  intros W s l t n c H T Hn HW. split.
  - destruct (C47_find W s l t n 0 H ltac:(cbn; lia) Hn) as (_ & _ & K & _). destruct (K T) as (r & E & R). unfold contains_text. rewrite E. cbn [bind]. destruct r as [i|]; eexists; (split; [reflexivity|]).
    + split; [|reflexivity]. intros _. exists i. apply R.
    + split; [discriminate|]. intros (i & F). exfalso. pose proof (found_bound _ _ _ F) as B. assert (0 < List.length n) by (destruct n; [congruence|cbn; lia]). apply (R i); [lia|exact F].
  - destruct (C47_find_char s l c 0 H) as (K & _). destruct (K ltac:(lia)) as (r & E & R). unfold contains_char. rewrite E. cbn [bind]. destruct r as [i|]; eexists; (split; [reflexivity|]).
    + split; [|reflexivity]. intros _. destruct R as (_ & E1 & _). exact (nth_error_In _ _ E1).
    + split; [discriminate|]. intros I. exfalso. apply In_nth_error in I as (i & Ei). apply (R i); [|exact Ei]. split; [lia|]. apply nth_error_Some. congruence.
Qed.
Print Assumptions C47_contains.
Example contains_case : contains_text 256 (Str [97; 98; 99; 98; 0]%Z 4) [99; 98; 0]%Z = V true /\ contains_char (Str [97; 0; 120; 0]%Z 1) 120 = V false. Proof. vm_compute. now conj. Qed.
