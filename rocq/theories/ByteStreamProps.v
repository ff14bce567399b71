(** * C22: byte_stream *)
From Coq Require Import List Arith Bool ZArith Lia.
From Verif Require Import Util BinaryModel BitStreamModel ByteStreamSpec ByteStreamModel ByteStreamProofs.
Import ListNotations.
Local Open Scope Z_scope.

(** Every history of writes of any types, skips and restarts inside the buffer behaves as
    [spec_wops]: a write succeeds iff it fits in the rest of the buffer, then stores exactly the
    bytes of the value in the byte order of the stream, and otherwise changes nothing.  Nothing depends on
    the byte order of the machine.  No byte outside the buffer is accessed. *)
Theorem C22_writer : forall platform e cb buffer ops,
  Z.of_nat (List.length buffer) < 2 ^ 64 -> Forall (wop_ok (List.length buffer)) ops ->
  let '(results, (B, p)) := spec_wops (isbig e) ops (buffer, 0%nat) in
  exists x, w_ops_b platform ops (make_bwriter e cb buffer) = Some (results, x) /\
    data x = B /\ current x = p /\ (p <= List.length buffer)%nat /\ List.length B = List.length buffer /\
    used_data_b x = firstn p B /\ free_data_b x = skipn p B /\
    b_size_bytes x = Z.of_nat p /\ b_capacity x = Z.of_nat (List.length buffer) /\
    (forall n, size_ok n -> b_available n x = Z.of_nat ((List.length buffer - p) / n)) /\
    b_full x = Nat.eqb p (List.length buffer) /\ b_empty x = Nat.eqb p 0 /\
    bcalls x = (if cb then spec_calls (isbig e) ops (buffer, 0%nat) else []).
Proof.
  intros platform e cb buffer ops H OK.
  assert (W : winv (make_bwriter e cb buffer)) by (split; cbn [make_bwriter data current]; lia).
  destruct (w_ops_ok platform ops (make_bwriter e cb buffer) W OK) as (x & E & S & Wx & Ex & Hx & Lx & Cx).
  cbn [wendian has_callback bcalls data make_bwriter app] in *. unfold wstate in *; cbn [data current make_bwriter] in *.
  destruct (spec_wops (isbig e) ops (buffer, 0%nat)) as [results [B p]]. cbn [fst snd] in *. injection S as <- <-.
  exists x. pose proof Wx as [A1 A2]. conj; try assumption; try reflexivity; try lia.
  - unfold b_capacity. now rewrite Lx.
  - intros n N. rewrite avail_eq by assumption. now rewrite Lx.
  - unfold b_full, b_size_bytes, b_capacity. rewrite Lx in *. destruct (Nat.eqb_spec (current x) (List.length buffer)), (Z.eqb_spec (Z.of_nat (current x)) (Z.of_nat (List.length buffer))); lia.
  - unfold b_empty, b_size_bytes. destruct (Nat.eqb_spec (current x) 0), (Z.eqb_spec (Z.of_nat (current x)) 0); lia.
Qed.
Print Assumptions C22_writer.

(** Every history of reads behaves as [spec_rops]: a read returns the numbers whose bytes stand at the
    position, or nothing with the position unchanged when they are not all there. *)
Theorem C22_reader : forall platform e buffer ops,
  Z.of_nat (List.length buffer) < 2 ^ 64 -> Forall (fun b => 0 <= b < 256) buffer -> Forall (rop_ok (List.length buffer)) ops ->
  let '(results, p) := spec_rops (isbig e) buffer ops 0 in
  r_ops_b platform ops (make_breader e buffer) = Some (results, {| rdata := buffer; rcurrent := p; rendian := e |}).
Proof.
  intros platform e buffer ops H F OK.
  pose proof (r_ops_b_ok platform ops (make_breader e buffer)) as R. cbn [rdata rcurrent rendian make_breader] in R.
  rewrite R; [|unfold rinv; cbn [rdata rcurrent make_breader]; conj; try assumption; lia|assumption].
  destruct (spec_rops (isbig e) buffer ops 0). reflexivity.
Qed.
Print Assumptions C22_reader.

Theorem C22_failed_read_leaves_position : forall e B o p, fst (spec_rop e B o p) = Nothing -> snd (spec_rop e B o p) = p.
Proof. intros e B o p. destruct o; cbn [spec_rop]; try destruct (Nat.leb _ _); cbn; congruence. Qed.
Theorem C22_failed_write_changes_nothing : forall e o st, fst (spec_wop e o st) = false -> snd (spec_wop e o st) = st.
Proof. intros e o [B p]. destruct o; cbn [spec_wop]; unfold spec_write; try destruct (Nat.leb _ _); cbn; congruence. Qed.

(** Items written, then the buffer read from the beginning, by any two machines: the values that were
    accepted come back, whatever the machine byte orders. *)
Theorem C22_round_trip : forall platform platform' e cb buffer items,
  Z.of_nat (List.length buffer) < 2 ^ 64 -> Forall item_ok items ->
  exists results x y,
    w_ops_b platform (map Witem items) (make_bwriter e cb buffer) = Some (results, x) /\ List.length results = List.length items /\
    r_ops_b platform' (map item_read (accepted items results)) (make_breader e (used_data_b x)) = Some (map item_value (accepted items results), y) /\
    rcurrent y = List.length (used_data_b x) /\
    (Z.of_nat (List.length (flat_map (item_bytes (isbig e)) items)) <= Z.of_nat (List.length buffer) -> accepted items results = items).
Proof.
  intros platform platform' e cb buffer items H OK.
  pose proof (C22_writer platform e cb buffer (map Witem items) H) as Wr.
  assert (OK2 : Forall (wop_ok (List.length buffer)) (map Witem items)).
  { rewrite Forall_map. eapply Forall_impl; [|exact OK]. intros i I; exact I. }
  specialize (Wr OK2). pose proof (write_items (isbig e) items buffer 0 ltac:(lia)) as It.
  assert (Ln : forall st, List.length (fst (spec_wops (isbig e) (map Witem items) st)) = List.length items).
  { clear. induction items as [|i is IH]; intros st; [reflexivity|]. cbn [map spec_wops]. destruct (spec_wop (isbig e) (Witem i) st) as [a st']. specialize (IH st').
    destruct (spec_wops (isbig e) (map Witem is) st') as [l s2]. cbn [fst List.length] in *. now rewrite IH. }
  specialize (Ln (buffer, 0%nat)).
  assert (All : (List.length (flat_map (item_bytes (isbig e)) items) <= List.length buffer)%nat -> accepted items (fst (spec_wops (isbig e) (map Witem items) (buffer, 0%nat))) = items).
  { clear. assert (G : forall B p, (p + List.length (flat_map (item_bytes (isbig e)) items) <= List.length B)%nat -> accepted items (fst (spec_wops (isbig e) (map Witem items) (B, p))) = items).
    { induction items as [|i is IH]; intros B p L; [reflexivity|]. cbn [flat_map map spec_wops spec_wop] in *. rewrite app_length in L. unfold spec_write.
      replace (Nat.leb _ _) with true by (symmetry; apply Nat.leb_le; lia).
      specialize (IH (overwrite B p (item_bytes (isbig e) i)) (p + List.length (item_bytes (isbig e) i))%nat). rewrite overwrite_len in IH by lia. specialize (IH ltac:(lia)).
      destruct (spec_wops _ _ _) as [l s2]. cbn [fst] in *. unfold accepted in *. cbn [combine filter map snd fst]. now rewrite IH. }
    intros L. apply G. exact L. }
  destruct (spec_wops (isbig e) (map Witem items) (buffer, 0%nat)) as [rs [B p]] eqn:SW. cbn [fst] in *.
  destruct Wr as (x & E & D & C & PL & BL & U & _). destruct It as (P & _ & EB). cbn [Nat.add] in P.
  set (bs := flat_map (item_bytes (isbig e)) (accepted items rs)) in *.
  assert (Us : used_data_b x = bs).
  { rewrite U, EB, P. unfold overwrite; cbn [firstn app]. rewrite firstn_app, Nat.sub_diag, firstn_all. cbn [firstn]. apply app_nil_r. }
  assert (Acc : Forall item_ok (accepted items rs)).
  { unfold accepted. rewrite Forall_map, Forall_forall. intros [i b] I. apply filter_In in I as [I _]. apply in_combine_l in I. rewrite Forall_forall in OK. now apply OK. }
  assert (Rd : spec_rops (isbig e) bs (map item_read (accepted items rs)) 0 = (map item_value (accepted items rs), List.length bs)).
  { rewrite (read_items (isbig e) (accepted items rs) bs 0 []); [reflexivity|assumption|lia|]. cbn. now rewrite app_nil_r. }
  assert (Bb : Forall (fun b => 0 <= b < 256) bs).
  { subst bs. clear. induction (accepted items rs) as [|i l IH]; [constructor|]. cbn [flat_map]. apply Forall_app; split; [|exact IH].
    destruct i as [b|n s v|n s vs]; cbn [item_bytes].
    - constructor; [destruct b; lia|constructor].
    - apply stream_bytes_bytes.
    - clear. induction vs; [constructor|]. cbn [flat_map]. apply Forall_app; split; [apply stream_bytes_bytes|assumption]. }
  pose proof (C22_reader platform' e bs (map item_read (accepted items rs))) as R. rewrite Rd in R.
  exists rs, x. eexists. conj; [exact E|exact Ln| | |].
  - rewrite Us. apply R; [lia|exact Bb|]. rewrite Forall_map. eapply Forall_impl; [|exact Acc]. intros [b|n s v|n s vs] I; cbn in *; tauto.
  - cbn [rcurrent]. now rewrite Us.
  - intros L. apply All. lia.
Qed.
Print Assumptions C22_round_trip.

(** Without bools, skips and restarts the callback receives exactly the bytes written, in order. *)
Theorem C22_callback_bytes : forall platform e buffer items,
  Z.of_nat (List.length buffer) < 2 ^ 64 -> Forall item_ok items -> Forall (fun i => match i with Ibool _ => False | _ => True end) items ->
  exists results x, w_ops_b platform (map Witem items) (make_bwriter e true buffer) = Some (results, x) /\ concat (bcalls x) = used_data_b x.
Proof.
  intros platform e buffer items H OK NB.
  pose proof (C22_writer platform e true buffer (map Witem items) H) as Wr.
  assert (OK2 : Forall (wop_ok (List.length buffer)) (map Witem items)).
  { rewrite Forall_map. eapply Forall_impl; [|exact OK]. intros i I; exact I. }
  specialize (Wr OK2). pose proof (write_items (isbig e) items buffer 0 ltac:(lia)) as It.
  assert (Cs : forall st, concat (spec_calls (isbig e) (map Witem items) st) = flat_map (item_bytes (isbig e)) (accepted items (fst (spec_wops (isbig e) (map Witem items) st)))).
  { clear - NB. induction items as [|i is IH]; intros st; [reflexivity|]. inversion NB as [|? ? N1 N2]; subst. cbn [map spec_wops spec_calls].
    destruct (spec_wop (isbig e) (Witem i) st) as [a st']. specialize (IH N2 st'). rewrite concat_app, IH.
    destruct (spec_wops (isbig e) (map Witem is) st') as [l s2]. cbn [fst]. unfold accepted. cbn [combine filter snd].
    destruct a; cbn [map flat_map fst concat app]; [|reflexivity]. f_equal.
    destruct i as [b|n s v|n s vs]; [contradiction| |]; cbn [op_calls item_bytes]; [apply app_nil_r|now rewrite flat_map_concat_map]. }
  specialize (Cs (buffer, 0%nat)).
  destruct (spec_wops (isbig e) (map Witem items) (buffer, 0%nat)) as [rs [B p]] eqn:SW. cbn [fst] in *.
  destruct Wr as (x & E & D & C & PL & BL & U & _ & _ & _ & _ & _ & _ & K). destruct It as (P & _ & EB). cbn [Nat.add] in P.
  exists rs, x. split; [exact E|]. rewrite K, Cs, U, EB, P. unfold overwrite; cbn [firstn app]. rewrite firstn_app, Nat.sub_diag, firstn_all. cbn [firstn]. now rewrite app_nil_r.
Qed.
Print Assumptions C22_callback_bytes.

(** FINDING: write(bool) does not call the callback, so a receiver that collects the callback's bytes misses it. *)
Theorem C22_callback_bool_refuted : forall platform e, exists x,
  w_ops_b platform [Witem (Ival 1 false 7); Witem (Ibool true); Witem (Ival 1 false 9)] (make_bwriter e true [0; 0; 0]) = Some ([true; true; true], x) /\
  used_data_b x = [7; 1; 9] /\ concat (bcalls x) = [7; 9].
Proof. intros [] []; eexists; (split; [vm_compute; reflexivity|split; reflexivity]). Qed.
Print Assumptions C22_callback_bool_refuted.

(** non-vacuity *)
Definition ex_items : list item := [Ibool true; Ival 2 true (-2); Ival 4 false 305419896; Ispan 2 false [258; 772]; Ival 8 true (-1); Ival 1 true (-128)].
Example ex_items_ok : Forall item_ok ex_items.
Proof. unfold ex_items, item_ok, size_ok, in_type. repeat (apply Forall_cons || apply Forall_nil); try exact I; (split; [tauto|]); try (repeat constructor); cbn; try lia. all: intros; discriminate. Qed.
Example ex_round_trip : exists x, w_ops_b little (map Witem ex_items) (make_bwriter big true (repeat 0 13)) = Some ([true; true; true; true; false; true], x)
  /\ used_data_b x = [1; 255; 254; 18; 52; 86; 120; 1; 2; 3; 4; 128]
  /\ exists y, r_ops_b big [Rbool; Rval 2 true; Rval 4 false; Rspan 2 false 2; Rval 8 true; Rval 1 true; Rbool] (make_breader big (used_data_b x))
     = Some ([Abool true; Aval (-2); Aval 305419896; Aspan [258; 772]; Nothing; Aval (-128); Nothing], y).
Proof. eexists; split; [vm_compute; reflexivity|]. split; [vm_compute; reflexivity|]. eexists; vm_compute; reflexivity. Qed.
