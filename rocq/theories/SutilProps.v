(** C55: the string utilities (trim, left_n, right_n, replace, pad, get_token) compute what their names say, on strings and on views. *)
From Coq Require Import ZArith List Bool Arith Lia.
From Verif Require Import Util SutilModel SutilSpec SutilProofs.
Import ListNotations.

(** trim_from_*: exactly the leading / trailing characters of the set go *)
Theorem C55_trim_from : forall s cs,
  (exists t, trim_from_left s cs = Some t /\ StripLeft cs s t) /\
  (exists t, trim_from_right s cs = Some t /\ StripRight cs s t) /\
  (exists t u, trim_from s cs = Some u /\ StripLeft cs s t /\ StripRight cs t u) /\
  (exists v, trim_from_view_left s cs = Some v /\ StripLeft cs s (shown s v)) /\
  (exists v, trim_from_view_right s cs = Some v /\ StripRight cs s (shown s v)) /\
  (exists v t, trim_from_view s cs = Some v /\ StripLeft cs s t /\ StripRight cs t (shown s v)).
Proof.
  intros s cs. conj; auto using trim_from_left_ok, trim_from_right_ok, trim_from_view_left_ok, trim_from_view_right_ok, trim_from_view_ok.
  destruct (trim_from_left_ok s cs) as (t & E & H). destruct (trim_from_right_ok t cs) as (u & E2 & H2). exists t, u. unfold trim_from. rewrite E. auto.
Qed.
(** the whitespace forms do that for blank, tab, new line, carriage return, form feed and vertical tab *)
Theorem C55_trim_whitespace : forall s, exists t u, trim_whitespace s = Some u /\ StripLeft [32; 9; 10; 13; 12; 11]%Z s t /\ StripRight [32; 9; 10; 13; 12; 11]%Z t u.
Proof. intros s. exact (proj1 (proj2 (proj2 (C55_trim_from s whitespace)))). Qed.
(** trim_*: what is before the first / behind the last character of the set goes; everything if there is none *)
Theorem C55_trim_to_delimiter : forall s cs,
  (exists t, trim_left s cs = Some t /\ FromDelimiter cs s t) /\
  (exists t, trim_right s cs = Some t /\ ToDelimiter cs s t) /\
  (exists t u, trim s cs = Some u /\ FromDelimiter cs s t /\ ToDelimiter cs t u) /\
  (exists v, trim_view_left s cs = Some v /\ FromDelimiter cs s (shown s v)) /\
  (exists v, trim_view_right s cs = Some v /\ ToDelimiter cs s (shown s v)) /\
  (exists v t, trim_view s cs = Some v /\ FromDelimiter cs s t /\ ToDelimiter cs t (shown s v)).
Proof.
  intros s cs. conj; auto using trim_left_ok, trim_right_ok, trim_view_left_ok, trim_view_right_ok, trim_view_ok.
  destruct (trim_left_ok s cs) as (t & E & H). destruct (trim_right_ok t cs) as (u & E2 & H2). exists t, u. unfold trim. rewrite E. auto.
Qed.
(** the first and the last n characters, all if there are fewer *)
Theorem C55_left_right : forall s n,
  left_n s n = Some (firstn n s) /\ right_n s n = Some (skipn (List.length s - n) s) /\
  (s <> [] -> exists v, left_n_view s n = Some v /\ shown s v = firstn n s) /\
  (exists v, right_n_view s n = Some v /\ shown s v = skipn (List.length s - n) s).
Proof.
  intros s n.
  assert (L : (if Nat.ltb (List.length s) n then List.length s else n) <= List.length s /\ firstn (if Nat.ltb (List.length s) n then List.length s else n) s = firstn n s /\
              List.length s - (if Nat.ltb (List.length s) n then List.length s else n) = List.length s - n).
  { destruct (Nat.ltb_spec (List.length s) n); conj; try lia; try reflexivity. rewrite firstn_all, firstn_all2 by lia. reflexivity. }
  unfold left_n, right_n, left_n_view, right_n_view. revert L. set (k := if Nat.ltb (List.length s) n then List.length s else n). intros (L1 & L2 & L3).
  assert (SP : s = firstn k s ++ skipn k s) by (symmetry; apply firstn_skipn).
  assert (LK : List.length (firstn k s) = k) by (rewrite firstn_length; lia).
  conj.
  - unfold erase_range. rewrite (proj2 (Nat.leb_le _ _) L1), Nat.leb_refl. cbn [andb]. now rewrite skipn_all, app_nil_r, L2.
  - unfold erase_range. cbn [Nat.leb]. rewrite (proj2 (Nat.leb_le _ _)) by lia. cbn [andb firstn app]. now rewrite L3.
  - intros Hs. destruct s as [|c s]; [congruence|]. revert L1 L2 L3 SP LK. set (l := c :: s). intros. exists (0, k). split.
    + unfold between. cbn [Nat.leb andb]. rewrite (proj2 (Nat.leb_le _ _) L1). now rewrite Nat.sub_0_r.
    + unfold shown. cbn [fst snd skipn]. exact L2.
  - eexists. split.
    + unfold between. rewrite (proj2 (Nat.leb_le _ _)), Nat.leb_refl by lia. reflexivity.
    + unfold shown. cbn [fst snd]. rewrite L3. apply firstn_all2. rewrite skipn_length. lia.
Qed.
(** FINDING: left_n_view of an empty view dereferences its end (line 422). *)
Theorem C55_left_n_view_refuted : ~ (forall s n, exists v, left_n_view s n = Some v /\ shown s v = firstn n s).
Proof. intros H. destruct (H [] 0) as (v & E & _). discriminate E. Qed.

Theorem C55_reverse_characters : forall s pairs,
  (forall i, i < List.length s -> nth_error (reverse s) i = nth_error s (List.length s - 1 - i)) /\ List.length (reverse s) = List.length s /\
  replace_characters s pairs = map (fun c => fold_left (fun c p => if Z.eqb c (fst p) then snd p else c) pairs c) s.
Proof.
  intros s pairs. unfold reverse. conj.
  - intros i Hi. destruct (nth_error s (List.length s - 1 - i)) as [c|] eqn:E; [|apply nth_error_None in E; lia].
    apply nth_error_split in E as (a & b & E & La). subst s. rewrite app_length in *. cbn [List.length] in *. rewrite rev_app_distr. cbn [rev]. rewrite <- app_assoc.
    rewrite nth_error_app2 by (rewrite rev_length; lia). rewrite rev_length. replace (i - List.length b) with 0 by lia. reflexivity.
  - apply rev_length.
  - revert s. induction pairs as [|(a, b) pairs IH]; intros s; cbn [replace_characters fold_left].
    + symmetry. apply map_id.
    + rewrite IH. unfold replace_char. rewrite map_map. reflexivity.
Qed.

(** replace_strings: pair after pair every leftmost occurrence is replaced, if no old text is empty and nothing has to be truncated *)
Inductive Fits (cap : nat) : list (text * text) -> text -> Prop :=
| fits_nil l : List.length l <= cap -> Fits cap [] l
| fits_cons old new ps l l' : old <> [] -> List.length l <= cap -> Replaced old new l l' -> Fits cap ps l' -> Fits cap ((old, new) :: ps) l.
Theorem C55_replace_strings : forall cap pairs s, Fits cap pairs s -> exists s', ReplacedAll pairs s s' /\ forall f, cap < f -> replace_strings cap f s pairs = Some s'.
Proof.
  intros cap pairs s H. induction H as [l Hl|old new ps l l' Ho Hl HR HF (s' & A & B)].
  - exists l. split; [constructor|]. reflexivity.
  - exists s'. split; [econstructor; eauto|]. intros f Hf. cbn [replace_strings].
    assert (Hl' : List.length l' <= cap) by (inversion HF; assumption).
    pose proof (replace_loop_ok cap old new l l' Ho HR [] f Hl Hl' ltac:(lia)) as E. cbn [app List.length] in E. rewrite E. auto.
Qed.
(** it ends and respects the capacity whenever no old text is empty, truncated or not *)
Theorem C55_replace_strings_ends : forall cap pairs s f, Forall (fun p => fst p <> []) pairs -> List.length s <= cap -> cap < f ->
  exists s', replace_strings cap f s pairs = Some s' /\ List.length s' <= cap.
Proof.
  intros cap pairs s f H. revert s. induction H as [|(old, new) ps Ho H IH]; intros s Hs Hf; cbn [replace_strings]; [eauto|].
  destruct (replace_loop_ends cap old new Ho f s 0 Hs ltac:(lia)) as (r & -> & Hr). apply IH; auto.
Qed.
(** FINDING: an empty old text with an empty new text never ends; with a non-empty new text it overwrites the string with copies of it *)
Theorem C55_replace_empty_refuted :
  (forall cap f c s, List.length s < cap -> replace_strings cap f (c :: s) [([], [])] = None) /\
  ~ (forall cap f s new s', List.length s <= cap -> replace_strings cap f s [([], new)] = Some s' -> exists a b, s' = a ++ s ++ b).
Proof.
  split.
  - intros cap f c s Hc. cbn [replace_strings].
    assert (G : forall f, replace_loop cap f (c :: s) [] [] 0 = None); [|now rewrite G].
    clear f. induction f as [|f IH]; [reflexivity|]. cbn [replace_loop]. unfold find. cbn [List.length Nat.add Nat.ltb Nat.leb skipn search prefix Nat.eqb].
    unfold replace. cbn [firstn app List.length Nat.add skipn]. rewrite firstn_all2 by (cbn; lia). exact IH.
  - intros H. specialize (H 4 9 [5; 6]%Z [7; 8]%Z [7; 8; 7; 8]%Z ltac:(cbn; lia) eq_refl). destruct H as (a & b & E).
    destruct a as [|? [|? [|? a]]]; cbn in E; try discriminate. injection E. intros. destruct a as [|? [|? a]]; discriminate.
Qed.

(** pad fills up to the required size, at most to the capacity; a longer string is left alone *)
Theorem C55_pad : forall cap s n d c, List.length s <= cap ->
  pad cap s n d c = match d with LEFT => repeat c (Nat.min n cap - List.length s) ++ s | RIGHT => s ++ repeat c (Nat.min n cap - List.length s) end.
Proof.
  intros cap s n d c Hs. unfold pad, pad_left, pad_right, insert_fill. destruct d; destruct (Nat.ltb_spec (List.length s) (Nat.min n cap)) as [H|H].
  - cbn [firstn skipn app]. apply firstn_all2. rewrite app_length, repeat_length. lia.
  - replace (Nat.min n cap - List.length s) with 0 by lia. reflexivity.
  - rewrite firstn_all, skipn_all, app_nil_r. apply firstn_all2. rewrite app_length, repeat_length. lia.
  - replace (Nat.min n cap - List.length s) with 0 by lia. cbn [repeat]. now rewrite app_nil_r.
Qed.

(** the searches over iterators: the position of the first / last character that is in the set / is not; the end if there is none *)
Theorem C55_iterator_find : forall l cs,
  let hit k := (exists a c b, l = a ++ c :: b /\ k = List.length a /\ Forall (fun x => ~ In x cs) a /\ In c cs) \/ (k = List.length l /\ Forall (fun x => ~ In x cs) l) in
  let miss k := (exists a c b, l = a ++ c :: b /\ k = List.length a /\ Forall (fun x => In x cs) a /\ ~ In c cs) \/ (k = List.length l /\ Forall (fun x => In x cs) l) in
  let hit_last k := (exists a c b, l = a ++ c :: b /\ k = List.length a /\ In c cs /\ Forall (fun x => ~ In x cs) b) \/ (k = List.length l /\ Forall (fun x => ~ In x cs) l) in
  let miss_last k := (exists a c b, l = a ++ c :: b /\ k = List.length a /\ ~ In c cs /\ Forall (fun x => In x cs) b) \/ (k = List.length l /\ Forall (fun x => In x cs) l) in
  hit (it_find_first_of l cs) /\ miss (it_find_first_not_of l cs) /\
  (exists k, it_find_last_of l cs = Some k /\ hit_last k) /\ (exists k, it_find_last_not_of l cs = Some k /\ miss_last k).
Proof.
  intros l cs. cbv zeta. conj.
  - unfold it_find_first_of. destruct (it_first_spec (among cs) l) as (a & -> & F & [->|(c & b & E & P)]).
    + right. split; [reflexivity|now apply F_in].
    + left. exists a, c, b. conj; auto; [now apply F_in|now apply among_in].
  - unfold it_find_first_not_of. destruct (it_first_spec (fun c => negb (among cs c)) l) as (a & -> & F & [->|(c & b & E & P)]).
    + right. split; [reflexivity|now apply F_notin].
    + left. exists a, c, b. conj; auto; [now apply F_notin|now apply negb_in].
  - unfold it_find_last_of. destruct (it_find_last_by_spec (among cs) l) as [(a & c & b & E & P & F & ->)|(F & ->)]; (eexists; split; [reflexivity|]).
    + left. exists a, c, b. conj; auto; [now apply among_in|now apply F_in].
    + right. split; [reflexivity|now apply F_in].
  - unfold it_find_last_not_of. destruct (it_find_last_by_spec (fun c => negb (among cs c)) l) as [(a & c & b & E & P & F & ->)|(F & ->)]; (eexists; split; [reflexivity|]).
    + left. exists a, c, b. conj; auto; [now apply negb_in|now apply F_notin].
    + right. split; [reflexivity|now apply F_notin].
Qed.

(** get_token, called with its last result until there is no token: the views show exactly the pieces of the text between the delimiters, in order;
    with ignore_empty_tokens exactly those that are not empty. Every call ends. *)
Theorem C55_tokens : forall l cs ignore, exists ts, Pieces cs l ts /\
  forall n f, List.length l + 2 < n -> List.length l + 2 < f ->
  exists vs, all_tokens n f (Some l) cs None ignore = Some vs /\ map (shown l) vs = (if ignore then filter (fun t => negb (Nat.eqb (List.length t) 0)) ts else ts).
Proof.
  intros l cs ignore.
  assert (T : forall k l, List.length l <= k -> exists ts, Pieces cs l ts /\ List.length ts <= List.length l + 1).
  { clear l. induction k as [|k IH]; intros l Hl.
    - destruct l; [|cbn in Hl; lia]. exists [[]]. split; [repeat constructor|cbn; lia].
    - pose proof (first_by_spec (among cs) l 0) as H. destruct (first_by (among cs) l 0) as [p|].
      + destruct H as (a & c & b & -> & _ & F & P). rewrite app_length in Hl. cbn [List.length] in Hl. destruct (IH b ltac:(lia)) as (ts & Q & L).
        exists (a :: ts). split; [constructor; auto; [now apply F_in|now apply among_in]|]. rewrite app_length. cbn [List.length]. lia.
      + exists [l]. split; [constructor; now apply F_in|cbn; lia]. }
  destruct (T (List.length l) l (le_n _)) as (ts & P & L). exists ts. split; [exact P|]. intros n f Hn Hf. destruct n as [|n]; [lia|].
  destruct (tokens_ok cs ignore l ts P [] None 0 n f f eq_refl ltac:(lia) ltac:(lia) ltac:(lia)) as (vs & E & M). exists vs. split; [|exact M]. exact E.
Qed.
(** the pieces of a text are determined by the text *)
Theorem C55_pieces_unique : forall cs l ts ts', Pieces cs l ts -> Pieces cs l ts' -> ts = ts'.
Proof.
  assert (U : forall cs (t t' : text) c c' l l', Forall (fun x => ~ In x cs) t -> Forall (fun x => ~ In x cs) t' -> In c cs -> In c' cs -> t ++ c :: l = t' ++ c' :: l' -> t = t' /\ c = c' /\ l = l').
  { intros cs t. induction t as [|x t IH]; intros [|x' t'] c c' l l' F F' H H' E; cbn in E; injection E; intros; subst; auto.
    - inversion F'; tauto.
    - inversion F; tauto.
    - inversion F; inversion F'; subst. destruct (IH t' c c' l l') as (-> & -> & ->); auto. }
  intros cs l ts ts' H. revert ts'. induction H as [t F|t c l ts F Hc H IH]; intros ts' H'.
  - inversion H' as [t' F'|t' c' l' ts2 F' Hc' H2 E]; subst; [reflexivity|]. apply Forall_app in F as (_ & F). inversion F; tauto.
  - inversion H' as [t' F' E|t' c' l' ts2 F' Hc' H2 E]; subst.
    + apply Forall_app in F' as (_ & F'). inversion F'; tauto.
    + symmetry in E. destruct (U cs t t' c c' l l' F F' Hc Hc' E) as (-> & -> & ->). f_equal. auto.
Qed.
(** an input without characters and without an address has no token, not even an empty one *)
Example ex_null : all_tokens 1 1 None [44]%Z None false = Some []. Proof. reflexivity. Qed.

(** concrete cases: "  ab c " and "a,,b" *)
Example ex_trim : trim_whitespace [32; 32; 97; 98; 32; 99; 32]%Z = Some [97; 98; 32; 99]%Z. Proof. reflexivity. Qed.
Example ex_view : trim_from_view [32; 97; 32]%Z [32]%Z = Some (1, 1). Proof. reflexivity. Qed.
Example ex_tokens : option_map (map (shown [97; 44; 44; 98]%Z)) (all_tokens 9 9 (Some [97; 44; 44; 98]%Z) [44]%Z None false) = Some [[97]; []; [98]]%Z. Proof. reflexivity. Qed.
Example ex_tokens2 : option_map (map (shown [97; 44; 44; 98]%Z)) (all_tokens 9 9 (Some [97; 44; 44; 98]%Z) [44]%Z None true) = Some [[97]; [98]]%Z. Proof. reflexivity. Qed.
Example ex_replace : replace_strings 10 20 [97; 97; 97; 98]%Z [([97; 97], [99]); ([98], [98; 98])]%Z = Some [99; 97; 98; 98]%Z. Proof. reflexivity. Qed.
Example ex_fits : Fits 10 [([97]%Z, [98]%Z)] [97; 99]%Z.
Proof.
  apply fits_cons with [98; 99]%Z; [discriminate|cbn; lia| |constructor; cbn; lia].
  apply (replaced_more [97]%Z [98]%Z [] [99]%Z [99]%Z); [cbn; lia|]. apply replaced_none. intros i (a & b & E & _). destruct a as [|? [|? a]]; discriminate.
Qed.
Example ex_pad : pad 6 [97; 98]%Z 9 LEFT 48%Z = [48; 48; 48; 48; 97; 98]%Z. Proof. reflexivity. Qed.
Print Assumptions C55_trim_from.
Print Assumptions C55_trim_whitespace.
Print Assumptions C55_trim_to_delimiter.
Print Assumptions C55_left_right.
Print Assumptions C55_left_n_view_refuted.
Print Assumptions C55_reverse_characters.
Print Assumptions C55_replace_strings.
Print Assumptions C55_replace_strings_ends.
Print Assumptions C55_replace_empty_refuted.
Print Assumptions C55_pad.
Print Assumptions C55_iterator_find.
Print Assumptions C55_tokens.
Print Assumptions C55_pieces_unique.
