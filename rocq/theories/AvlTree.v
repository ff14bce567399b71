(** * Trees, contexts and their representation in the node heap (proof support for C14/C15) *)
From Coq Require Import List Arith Lia Bool.
From Verif Require Import Util AvlModel.
Import ListNotations.

Lemma opp_opp d : opp (opp d) = d. Proof. now destruct d. Qed.
Lemma side_eqb_refl d : side_eqb d d = true. Proof. now destruct d. Qed.
Lemma side_eqb_opp d : side_eqb d (opp d) = false. Proof. now destruct d. Qed.
Lemma side_eqb_opp' d : side_eqb (opp d) d = false. Proof. now destruct d. Qed.
Lemma side_cases (d e : side) : e = d \/ e = opp d. Proof. destruct d, e; auto. Qed.
Lemma oside_eqb_eq a b : oside_eqb a b = true <-> a = b.
Proof. destruct a as [[]|], b as [[]|]; cbn; split; congruence. Qed.

Inductive tr := E | N (l : tr) (p : nat) (r : tr).
(** node [p] with subtree [a] on side [d] and [b] on the other side *)
Definition nd (d : side) (p : nat) (a b : tr) : tr := match d with L => N a p b | R => N b p a end.
Lemma nd_cases d t : t = E \/ exists p a b, t = nd d p a b.
Proof. destruct t as [|l p r]; auto. right. destruct d; [exists p, l, r|exists p, r, l]; auto. Qed.
Lemma nd_opp d p a b : nd (opp d) p a b = nd d p b a. Proof. now destruct d. Qed.
Lemma nd_neq d p a b : nd d p a b <> E. Proof. now destruct d. Qed.

Fixpoint ino (t : tr) : list nat := match t with E => [] | N l p r => ino l ++ p :: ino r end.
Fixpoint hgt (t : tr) : nat := match t with E => 0 | N l _ r => S (Nat.max (hgt l) (hgt r)) end.
Lemma hgt_nd d p a b : hgt (nd d p a b) = S (Nat.max (hgt a) (hgt b)).
Proof. destruct d; cbn; lia. Qed.
Lemma In_nd q d p a b : In q (ino (nd d p a b)) <-> q = p \/ In q (ino a) \/ In q (ino b).
Proof. destruct d; cbn; rewrite in_app_iff; cbn; intuition congruence. Qed.
Lemma hgt_ino t : hgt t <= length (ino t).
Proof. induction t; cbn; [lia|]. rewrite app_length. cbn. lia. Qed.

(** contexts, innermost frame first: (side of the path, node, other subtree) *)
Definition frame := (side * nat * tr)%type.
Definition fsd (f : frame) : side := fst (fst f).
Definition fad (f : frame) : nat := snd (fst f).
Definition fot (f : frame) : tr := snd f.
Definition ctx := list frame.
Fixpoint plug (C : ctx) (t : tr) : tr :=
  match C with [] => t | (d, p, b) :: C' => plug C' (nd d p t b) end.
Lemma plug_app C1 C2 t : plug (C1 ++ C2) t = plug C2 (plug C1 t).
Proof. revert t. induction C1 as [|[[d p] b] C1 IH]; intros t; cbn; auto. Qed.
Definition pref (f : frame) : list nat := match f with (L, p, b) => [] | (R, p, b) => ino b ++ [p] end.
Definition postf (f : frame) : list nat := match f with (L, p, b) => p :: ino b | (R, p, b) => [] end.
Fixpoint pre (C : ctx) : list nat := match C with [] => [] | f :: C' => pre C' ++ pref f end.
Fixpoint post (C : ctx) : list nat := match C with [] => [] | f :: C' => postf f ++ post C' end.
Lemma ino_plug C t : ino (plug C t) = pre C ++ ino t ++ post C.
Proof.
  revert t. induction C as [|[[d p] b] C IH]; intros t; cbn; [now rewrite app_nil_r|].
  rewrite IH. destruct d; cbn; rewrite ?app_nil_r, <- ?app_assoc; reflexivity.
Qed.
Lemma pre_app A B : pre (A ++ B) = pre B ++ pre A.
Proof. induction A; cbn; [now rewrite app_nil_r|]. now rewrite IHA, app_assoc. Qed.
Lemma post_app A B : post (A ++ B) = post A ++ post B.
Proof. induction A; cbn; [reflexivity|]. now rewrite IHA, app_assoc. Qed.
Definition cadr (C : ctx) : list nat := pre C ++ post C.
Lemma In_cadr_cons q d p b C : In q (cadr ((d, p, b) :: C)) <-> q = p \/ In q (ino b) \/ In q (cadr C).
Proof. unfold cadr. destruct d; cbn; rewrite ?in_app_iff; cbn; rewrite ?in_app_iff; cbn; intuition congruence. Qed.
Lemma In_cadr_app q A B : In q (cadr (A ++ B)) <-> In q (cadr A) \/ In q (cadr B).
Proof. unfold cadr. rewrite pre_app, post_app, !in_app_iff. tauto. Qed.
Lemma In_plug q C t : In q (ino (plug C t)) <-> In q (ino t) \/ In q (cadr C).
Proof. unfold cadr. rewrite ino_plug, !in_app_iff. tauto. Qed.
Lemma In_fad f C : In f C -> In (fad f) (cadr C).
Proof.
  induction C as [|[[d p] b] C IH]; [intros []|]. intros [<-|H]; rewrite In_cadr_cons; cbn; auto.
Qed.

(** ** distinct addresses *)
Definition disj (A B : list nat) : Prop := forall q, In q A -> In q B -> False.
Lemma NoDup_app3 (A B : list nat) : NoDup (A ++ B) <-> NoDup A /\ NoDup B /\ disj A B.
Proof.
  induction A as [|a A IH]; cbn.
  - split; [intros; repeat split; auto; [constructor|intros q []]|tauto].
  - split.
    + inversion 1; subst. apply IH in H3. destruct H3 as (H3 & H4 & H5). rewrite in_app_iff in H2.
      repeat split; auto; [constructor; tauto|]. intros q [<-|Hq] Hb; [tauto|eapply H5; eauto].
    + intros (H1 & H2 & H3). inversion H1; subst. constructor.
      * rewrite in_app_iff. intros [?|?]; [auto|]. apply (H3 a); cbn; auto.
      * apply IH. repeat split; auto. intros q Hq Hb. apply (H3 q); cbn; auto.
Qed.
Lemma NoDup_nd d p a b : NoDup (ino (nd d p a b)) <->
  ~ In p (ino a) /\ ~ In p (ino b) /\ NoDup (ino a) /\ NoDup (ino b) /\ disj (ino a) (ino b).
Proof.
  assert (G : forall A B, NoDup (A ++ p :: B) <-> ~ In p A /\ ~ In p B /\ NoDup A /\ NoDup B /\ disj A B).
  { intros A B. rewrite NoDup_app3, NoDup_cons_iff. unfold disj. cbn. split.
    - intros (H1 & (H2 & H3) & H4). repeat split; auto; intros; [intros Hp; apply (H4 p); auto|apply (H4 q); auto].
    - intros (H1 & H2 & H3 & H4 & H5). repeat split; auto. intros q Hq [<-|Hb]; [tauto|eapply H5; eauto]. }
  destruct d; cbn; rewrite G; unfold disj; intuition eauto.
Qed.
(** distinctness of a context alone *)
Fixpoint nodupc (C : ctx) : Prop :=
  match C with
  | [] => True
  | (d, p, b) :: C' => ~ In p (ino b) /\ NoDup (ino b) /\ ~ In p (cadr C') /\ disj (ino b) (cadr C') /\ nodupc C'
  end.
Lemma NoDup_plug C : forall t, NoDup (ino (plug C t)) <-> NoDup (ino t) /\ nodupc C /\ disj (ino t) (cadr C).
Proof.
  induction C as [|[[d p] b] C IH]; intros t; cbn [plug nodupc].
  - unfold cadr. cbn. unfold disj. intuition.
  - rewrite IH, NoDup_nd. unfold disj. split.
    + intros ((H1 & H2 & H3 & H4 & H5) & H6 & H7).
      assert (A1 : ~ In p (cadr C)) by (intros H; apply (H7 p); [apply In_nd; auto|auto]).
      assert (A2 : forall q, In q (ino b) -> In q (cadr C) -> False) by (intros q A B; apply (H7 q); [apply In_nd; auto|auto]).
      repeat split; auto. intros q Hq Hc. apply In_cadr_cons in Hc. destruct Hc as [->|[Hc|Hc]]; eauto.
      apply (H7 q); auto. apply In_nd; auto.
    + intros (H1 & (H2 & H3 & H4 & H5 & H6) & H7).
      assert (A : forall q, In q (ino t) -> q <> p /\ ~ In q (ino b) /\ ~ In q (cadr C)).
      { intros q Hq. repeat split; intros X; apply (H7 q Hq); apply In_cadr_cons; auto. }
      repeat split; auto.
      * intros X. now destruct (A p X).
      * intros q Hq Hb. now destruct (A q Hq) as (_ & ? & _).
      * intros q Hq Hc. apply In_nd in Hq. destruct Hq as [->|[Hq|Hq]]; auto; [now destruct (A q Hq) as (_ & _ & ?)|eauto].
Qed.
Lemma nodupc_app A B : nodupc (A ++ B) <-> nodupc A /\ nodupc B /\ disj (cadr A) (cadr B).
Proof.
  induction A as [|[[d p] b] A IH]; cbn [app nodupc].
  - unfold cadr at 2, disj. cbn. intuition.
  - rewrite IH. unfold disj. split.
    + intros (H1 & H2 & H3 & H4 & H5 & H6 & H7). rewrite In_cadr_app in H3.
      repeat split; auto.
      * intros q Hq Hc. apply (H4 q Hq). apply In_cadr_app. auto.
      * intros q Hq Hb. apply In_cadr_cons in Hq. destruct Hq as [->|[Hq|Hq]]; eauto.
        apply (H4 q Hq). apply In_cadr_app. auto.
    + intros ((H1 & H2 & H3 & H4 & H5) & H6 & H7). rewrite In_cadr_app. repeat split; auto.
      * intros [X|X]; auto. apply (H7 p); auto. apply In_cadr_cons; auto.
      * intros q Hq Hc. apply In_cadr_app in Hc. destruct Hc as [Hc|Hc]; eauto. apply (H7 q); auto. apply In_cadr_cons; auto.
      * intros q Hq Hb. apply (H7 q); auto. apply In_cadr_cons; auto.
Qed.

(** ** balance *)
(** the weight [w] is exact for heights [x] on side [d] and [y] on the other *)
Definition wg (d : side) (w : option side) (x y : nat) : Prop :=
  match w with None => x = y | Some e => if side_eqb e d then x = y + 1 else y = x + 1 end.
Fixpoint bal (w : nat -> option side) (t : tr) : Prop :=
  match t with E => True | N l p r => bal w l /\ bal w r /\ wg L (w p) (hgt l) (hgt r) end.
Lemma bal_nd w d p a b : bal w (nd d p a b) <-> bal w a /\ bal w b /\ wg d (w p) (hgt a) (hgt b).
Proof. destruct d; cbn; unfold wg; destruct (w p) as [[]|]; cbn; intuition. Qed.
Lemma bal_ext w w' t : (forall q, In q (ino t) -> w' q = w q) -> bal w t -> bal w' t.
Proof.
  induction t as [|l IHl p r IHr]; cbn; auto. intros H (H1 & H2 & H3).
  assert (w' p = w p) by (apply H; rewrite in_app_iff; cbn; auto). rewrite H0.
  repeat split; auto; [apply IHl|apply IHr]; auto; intros; apply H; rewrite in_app_iff; cbn; auto.
Qed.
(** height of a context around a hole of height [h]; exactness of its weights *)
Fixpoint hgtc (C : ctx) (h : nat) : nat := match C with [] => h | (_, _, b) :: C' => hgtc C' (S (Nat.max h (hgt b))) end.
Fixpoint balc (w : nat -> option side) (C : ctx) (h : nat) : Prop :=
  match C with
  | [] => True
  | (d, p, b) :: C' => bal w b /\ wg d (w p) h (hgt b) /\ balc w C' (S (Nat.max h (hgt b)))
  end.
Lemma hgt_plug C t : hgt (plug C t) = hgtc C (hgt t).
Proof. revert t. induction C as [|[[d p] b] C IH]; intros t; cbn; auto. now rewrite IH, hgt_nd. Qed.
Lemma bal_plug w C t : bal w (plug C t) <-> bal w t /\ balc w C (hgt t).
Proof.
  revert t. induction C as [|[[d p] b] C IH]; intros t; cbn; [tauto|]. rewrite IH, bal_nd, hgt_nd. tauto.
Qed.
Lemma balc_app w A B h : balc w (A ++ B) h <-> balc w A h /\ balc w B (hgtc A h).
Proof. revert h. induction A as [|[[d p] b] A IH]; intros h; cbn; [tauto|]. rewrite IH. tauto. Qed.
Lemma hgtc_app A B h : hgtc (A ++ B) h = hgtc B (hgtc A h).
Proof. revert h. induction A as [|[[d p] b] A IH]; intros h; cbn; auto. Qed.
Lemma balc_ext w w' C h : (forall q, In q (cadr C) -> w' q = w q) -> balc w C h -> balc w' C h.
Proof.
  revert h. induction C as [|[[d p] b] C IH]; intros h H; cbn; auto. intros (H1 & H2 & H3). repeat split.
  - eapply bal_ext; [|eauto]. intros q Hq. apply H. apply In_cadr_cons; auto.
  - rewrite H by (apply In_cadr_cons; auto). auto.
  - apply IH; auto. intros q Hq. apply H. apply In_cadr_cons; auto.
Qed.

(** ** representation in the heap *)
Section Rep.
  Context {X : Type}.
  Notation st := (st X).
  Fixpoint rep (s : st) (x : nat) (t : tr) : Prop :=
    match t with
    | E => x = 0
    | N l p r => x = p /\ al s p = true /\ rep s (ch s p L) l /\ rep s (ch s p R) r
    end.
  Lemma rep_nd s x d p a b : rep s x (nd d p a b) <->
    x = p /\ al s p = true /\ rep s (ch s p d) a /\ rep s (ch s p (opp d)) b.
  Proof. destruct d; cbn; tauto. Qed.
  Fixpoint repc (s : st) (C : ctx) (x : nat) : Prop :=
    match C with
    | [] => rt s = x
    | (d, p, b) :: C' => ch s p d = x /\ al s p = true /\ rep s (ch s p (opp d)) b /\ repc s C' p
    end.
  Lemma rep_plug s C t : rep s (rt s) (plug C t) <-> exists x, repc s C x /\ rep s x t.
  Proof.
    revert t. induction C as [|[[d p] b] C IH]; intros t; cbn [plug repc].
    - split; [eauto|]. now intros (x & <- & H).
    - rewrite IH. split.
      + intros (x & H1 & H2). apply rep_nd in H2. destruct H2 as (-> & H2 & H3 & H4). eauto 8.
      + intros (x & (<- & H2 & H3 & H4) & H5). exists p. split; auto. apply rep_nd. auto.
  Qed.
  Lemma repc_app s A B x : repc s (A ++ B) x <->
    exists y, repc s B y /\ match A with [] => x = y | _ =>
       (fix go (A : ctx) x := match A with [] => x = y | (d, p, b) :: A' =>
            ch s p d = x /\ al s p = true /\ rep s (ch s p (opp d)) b /\ go A' p end) A x end.
  Proof.
    revert x. induction A as [|[[d p] b] A IH]; intros x; cbn.
    - split; [eauto|]. now intros (y & H & ->).
    - rewrite IH. split.
      + intros (H1 & H2 & H3 & y & H4 & H5). exists y. repeat split; auto. destruct A; auto.
      + intros (y & H4 & H1 & H2 & H3 & H5). repeat split; auto. exists y. split; auto. destruct A; auto.
  Qed.
  Lemma rep_frame s s' x t :
    (forall q, In q (ino t) -> al s' q = al s q /\ forall d, ch s' q d = ch s q d) -> rep s x t -> rep s' x t.
  Proof.
    revert x. induction t as [|l IHl p r IHr]; intros x H; cbn; auto. intros (H1 & H2 & H3 & H4).
    destruct (H p) as [Ha Hc]; [cbn; rewrite in_app_iff; cbn; auto|]. rewrite Ha, !Hc.
    repeat split; auto; [apply IHl|apply IHr]; auto; intros; apply H; cbn; rewrite in_app_iff; cbn; auto.
  Qed.
  Lemma repc_frame s s' C x :
    (forall q, In q (cadr C) -> al s' q = al s q /\ forall d, ch s' q d = ch s q d) -> rt s' = rt s ->
    repc s C x -> repc s' C x.
  Proof.
    revert x. induction C as [|[[d p] b] C IH]; intros x H Hr; cbn; [congruence|]. intros (H1 & H2 & H3 & H4).
    destruct (H p) as [Ha Hc]; [apply In_cadr_cons; auto|]. rewrite Ha, !Hc.
    repeat split; auto.
    - eapply rep_frame; [|exact H3]. intros q Hq. apply H. apply In_cadr_cons; auto.
    - apply IH; auto. intros q Hq. apply H. apply In_cadr_cons; auto.
  Qed.
  Lemma rep_al s x t q : rep s x t -> In q (ino t) -> al s q = true.
  Proof.
    revert x. induction t as [|l IHl p r IHr]; intros x; cbn; [intros _ []|]. intros (H1 & H2 & H3 & H4) Hq.
    rewrite in_app_iff in Hq. cbn in Hq. destruct Hq as [Hq|[<-|Hq]]; eauto.
  Qed.
  Lemma repc_al s C x q : repc s C x -> In q (cadr C) -> al s q = true.
  Proof.
    revert x. induction C as [|[[d p] b] C IH]; intros x; cbn [repc]; [intros _ []|]. intros (H1 & H2 & H3 & H4) Hq.
    apply In_cadr_cons in Hq. destruct Hq as [->|[Hq|Hq]]; eauto. eapply rep_al; eauto.
  Qed.
  (** the location of the hole of a context *)
  Definition locof (C : ctx) : loc := match C with [] => Lroot | (d, p, _) :: _ => Lch p d end.
  Definition hda (C : ctx) : nat := match C with [] => 0 | f :: _ => fad f end.
  Lemma rl_locof s C x : repc s C x -> rl s (locof C) = Some x.
  Proof.
    destruct C as [|[[d p] b] C]; cbn; [congruence|]. intros (<- & H & _). unfold rc. now rewrite H.
  Qed.
  (** [s'] agrees with [s] except for the location [l] and the children of the nodes in [P] *)
  Definition chs (l : loc) (P : nat -> Prop) (s s' : st) : Prop :=
    (forall q d, ~ P q -> Lch q d <> l -> ch s' q d = ch s q d) /\ (l <> Lroot -> rt s' = rt s) /\ al s' = al s.
  (** a context whose own nodes are outside [P] now holds [y] *)
  Lemma repc_move s s' C x y (P : nat -> Prop) : repc s C x -> nodupc C -> chs (locof C) P s s' ->
    (forall q, P q -> ~ In q (cadr C)) -> rl s' (locof C) = Some y -> repc s' C y.
  Proof.
    intros H Hn (H1 & H2 & H3) HP Hl.
    destruct C as [|[[d p] b] C]; cbn in *; [congruence|].
    destruct H as (E1 & E2 & E3 & E4). destruct Hn as (N1 & N2 & N3 & N4 & N5).
    assert (Pp : ~ P p) by (intros X0; apply (HP p X0); apply In_cadr_cons; auto).
    unfold rc in Hl. rewrite H3, E2 in Hl. injection Hl as Hl. rewrite H3. repeat split; auto.
    - rewrite H1; auto; [|destruct d; discriminate].
      eapply rep_frame; [|exact E3]. intros q Hq. split; [congruence|]. intros e. apply H1; [|intros [= -> ->]; auto].
      intros X0. apply (HP q X0). apply In_cadr_cons; auto.
    - apply repc_frame with s; auto; [|apply H2; discriminate]. intros q Hq. split; [congruence|]. intros e. apply H1; [|intros [= -> ->]; auto].
      intros X0. apply (HP q X0). apply In_cadr_cons; auto.
  Qed.
  (** a tree away from the changes is untouched *)
  Lemma rep_move s s' C x t (P : nat -> Prop) : rep s x t -> chs (locof C) P s s' ->
    (forall q, In q (ino t) -> ~ P q) -> disj (ino t) (cadr C) -> rep s' x t.
  Proof.
    intros H (H1 & _ & H3) HP HD. eapply rep_frame; [|exact H]. intros q Hq. split; [congruence|]. intros e.
    apply H1; auto. destruct C as [|[[d p] b] C]; cbn; [discriminate|]. intros [= -> ->].
    apply (HD p Hq). apply In_cadr_cons; auto.
  Qed.
End Rep.
