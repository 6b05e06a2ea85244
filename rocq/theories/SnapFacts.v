(** Replies that are fetched segment by segment. *)
From Coq Require Import List NArith ZArith Bool Arith Lia.
From Verif Require Import Base BaseFacts Mon MonFacts Iblt SpecIblt Tlv TlvFacts State NMap NMapFacts Codec CodecFacts Bloom Store StoreFacts SpecStore
  Producer SpecProducer ProducerFacts Partial SpecPartial PartialFacts PartialSteps Full FullTrace SpecFull FullFacts FullSafe FullSteps FullRuns
  FullRenew SpecFresh FreshFacts FullFresh FullLog SpecDeliver SpecForget GroupFacts AvailFacts ForgetFacts SpecWire Properties_Wire SpecSnap.
Import ListNotations.
Local Open Scope nat_scope.

Definition vname_of (E : env) (x : issue) : name := append_version (is_base x) (en_version E (is_no x)).
Lemma leaf_answers E x i : is_answer (vname_of E x) i (nseg (is_buf x) - 1) (leaf E x i) = true.
Proof.
  unfold is_answer, leaf, seg_data. cbn [d_name d_final]. unfold nth_segment, append_segment, vname_of.
  rewrite !name_eqb_refl. reflexivity.
Qed.
Lemma leaf_contents E x : concat (map (fun j => d_content (leaf E x j)) (seq 0 (nseg (is_buf x)))) = is_buf x.
Proof.
  rewrite <- (segment_content E (is_sg x) (vname_of E x) (is_buf x) (is_fresh x)) at 2. unfold segment. rewrite map_map. reflexivity.
Qed.

(** ** Partial producers *)
Section Partial.
Variable K : pcfg.
Notation E := (pc_env K).
Variables (x : issue) (s2 : pp) (T : N) (B : nat).
Definition pp_early (s : pp) : Prop := versions_differ E (pb_published (pp_pub s)) /\ (N.of_nat (pb_signed (pp_pub s)) <= two64)%N /\
  (pp_now s < T)%N /\ pb_signed (pp_pub s) <= B.
Hypothesis fresh_start : waiting_keys K s2 /\ exists L, moves E (pfam K) IMS_LIMIT L (pp_now s2) (pp_pub s2).
Hypothesis answered : forall evs s o, pp_run K s2 evs = Some (s, o) -> pp_early s ->
  forall i l, i < nseg (is_buf x) -> pp_step K (PInterest (d_name (leaf E x i)) l) s = (s, [leaf E x i], Ok tt).
Lemma pp_early_back evs0 s o0 evs s' o : pp_run K s2 evs0 = Some (s, o0) -> pp_run K s evs = Some (s', o) -> pp_early s' -> pp_early s.
Proof.
  destruct fresh_start as (A & L & M). intros R0 R (V & B1 & B2 & B3).
  destruct (pp_run_more K evs0 s2 L s o0 A M R0) as (A1 & _ & _ & L1 & M1).
  destruct (pp_run_more K evs s _ s' o A1 M1 R) as (A2 & T2 & S2 & L2 & M2).
  split; [|split; [lia|split; lia]].
  apply (versions_less E (pb_published (pp_pub s'))); [|exact V].
  rewrite <- (moves_len K _ _ _ _ _ M1 (pfam_apart K)), <- (moves_len K _ _ _ _ _ M2 (pfam_apart K)), (app_length (L ++ L1)). lia.
Qed.
Lemma pp_fetch_ok l : forall gaps i evs0 s o0 sf of, pp_run K s2 evs0 = Some (s, o0) ->
  pp_run K s (pp_fetch_events (vname_of E x) l i gaps) = Some (sf, of) -> i + length gaps = nseg (is_buf x) -> pp_early sf ->
  pp_fetch K (vname_of E x) l (nseg (is_buf x) - 1) i gaps s =
    Some (sf, concat (map (fun j => d_content (leaf E x j)) (seq i (length gaps)))).
Proof.
  induction gaps as [|g gaps IH]; intros i evs0 s o0 sf of R0 R Hl He.
  - injection R as <- <-. reflexivity.
  - cbn [pp_fetch_events] in R. cbn [pp_fetch length seq map concat]. unfold pp_run in R. rewrite run_app in R.
    fold (pp_run K s g) in R. destruct (pp_run K s g) as [[s1 o1]|] eqn:Rg; [|discriminate]. cbn [length] in Hl.
    destruct (run (pp_step K) s1 _) as [[s3 o3]|] eqn:R1; [|discriminate]. injection R as <- _.
    assert (pp_run K s2 (evs0 ++ g) = Some (s1, o0 ++ o1)) as R01.
    { unfold pp_run in *. rewrite run_app, R0, Rg. reflexivity. }
    pose proof (pp_early_back _ _ _ _ _ _ R01 R1 He) as He1.
    assert (i < nseg (is_buf x)) as Hi by lia.
    pose proof (answered _ _ _ R01 He1 i l Hi) as St.
    change (d_name (leaf E x i)) with (nth_segment (vname_of E x) i) in St.
    rewrite St, leaf_answers. cbn [run] in R1. rewrite St in R1.
    destruct (run (pp_step K) s1 _) as [[s4 o4]|] eqn:R2; [|discriminate]. injection R1 as <- _.
    rewrite (IH (S i) (evs0 ++ g) s1 _ s4 o4 R01 R2); [reflexivity|lia|exact He].
Qed.
End Partial.

(** ** Full-sync nodes *)
Section FullFetch.
Variable K : fcfg.
Notation E := (fc_env K).
Variables (x : issue) (s2 : fp) (T : N) (B : nat).
Definition fp_early (s : fp) : Prop := versions_differ E (pb_published (f_pub s)) /\ (N.of_nat (pb_signed (f_pub s)) <= two64)%N /\
  (f_now s < T)%N /\ pb_signed (f_pub s) <= B.
Hypothesis fresh_start : kept_keys K s2 /\ exists L, moves E (ffam K) IMS_LIMIT L (f_now s2) (f_pub s2).
Hypothesis answered : forall evs s o, fp_run K s2 evs = Some (s, o) -> fp_early s ->
  forall i l, i < nseg (is_buf x) -> fp_step K (FeInterest (d_name (leaf E x i)) l) s = (s, [FoData (leaf E x i)], Ok tt).
Lemma f_moves_len L now p : moves E (ffam K) IMS_LIMIT L now p -> length L = pb_published p.
Proof. intros M. apply (ro_len _ _ _ _ (av_rolls _ _ _ _ _ _ (moves_avail _ _ (ffam_apart K) _ _ _ _ M))). Qed.
Lemma fp_early_back evs0 s o0 evs s' o : fp_run K s2 evs0 = Some (s, o0) -> fp_run K s evs = Some (s', o) -> fp_early s' -> fp_early s.
Proof.
  destruct fresh_start as (A & L & M). intros R0 R (V & B1 & B2 & B3).
  destruct (fp_run_more K evs0 s2 L s o0 A M R0) as (A1 & _ & _ & L1 & M1).
  destruct (fp_run_more K evs s _ s' o A1 M1 R) as (A2 & T2 & S2 & L2 & M2).
  split; [|split; [lia|split; lia]].
  apply (versions_less E (pb_published (f_pub s'))); [|exact V].
  rewrite <- (f_moves_len _ _ _ M1), <- (f_moves_len _ _ _ M2), (app_length (L ++ L1)). lia.
Qed.
Lemma fp_fetch_ok l : forall gaps i evs0 s o0 sf of, fp_run K s2 evs0 = Some (s, o0) ->
  fp_run K s (fp_fetch_events (vname_of E x) l i gaps) = Some (sf, of) -> i + length gaps = nseg (is_buf x) -> fp_early sf ->
  fp_fetch K (vname_of E x) l (nseg (is_buf x) - 1) i gaps s =
    Some (sf, concat (map (fun j => d_content (leaf E x j)) (seq i (length gaps)))).
Proof.
  induction gaps as [|g gaps IH]; intros i evs0 s o0 sf of R0 R Hl He.
  - injection R as <- <-. reflexivity.
  - cbn [fp_fetch_events] in R. cbn [fp_fetch length seq map concat]. unfold fp_run in R. rewrite run_app in R.
    fold (fp_run K s g) in R. destruct (fp_run K s g) as [[s1 o1]|] eqn:Rg; [|discriminate]. cbn [length] in Hl.
    destruct (run (fp_step K) s1 _) as [[s3 o3]|] eqn:R1; [|discriminate]. injection R as <- _.
    assert (fp_run K s2 (evs0 ++ g) = Some (s1, o0 ++ o1)) as R01.
    { unfold fp_run in *. rewrite run_app, R0, Rg. reflexivity. }
    pose proof (fp_early_back _ _ _ _ _ _ R01 R1 He) as He1.
    assert (i < nseg (is_buf x)) as Hi by lia.
    pose proof (answered _ _ _ R01 He1 i l Hi) as St.
    change (d_name (leaf E x i)) with (nth_segment (vname_of E x) i) in St.
    rewrite St, leaf_answers. cbn [run] in R1. rewrite St in R1.
    destruct (run (fp_step K) s1 _) as [[s4 o4]|] eqn:R2; [|discriminate]. injection R1 as <- _.
    rewrite (IH (S i) (evs0 ++ g) s1 _ s4 o4 R01 R2); [reflexivity|lia|exact He].
Qed.
End FullFetch.

(** ** What full-sync nodes publish *)
Section Made.
Variable K : fcfg.
Variable ok : cop -> Prop.
Hypothesis Uk : uri_ok K.
Notation E := (fc_env K).
Definition prec_of (x : issue) : prec := mkPrec (is_at x) (is_sg x) (is_base x) (is_buf x) (is_fresh x).
Definition snap_works (s : fp) (o : list fout) (s' : fp) : Prop :=
  works E (ffam K) IMS_LIMIT (fun x => made K ok s o (prec_of x)) (f_now s) (f_pub s) (data_of o) (f_pub s').
Record snap (s : fp) (o : list fout) (s' : fp) : Prop := mkSnap {
  sn_log : log_rel K ok s o s';
  sn_works : fp_ok K s -> kept_keys K s -> kept_keys K s' /\ snap_works s o s' }.
Lemma works_mono fam (P Q : issue -> Prop) now p o p' : (forall x, P x -> Q x) -> works E fam IMS_LIMIT P now p o p' -> works E fam IMS_LIMIT Q now p o p'.
Proof.
  intros H W L M. destruct (W L M) as (L' & A & B & C). exists L'. split; [exact A|]. split; [|exact C].
  intros x Hx. destruct (B x Hx) as (B1 & B2 & B3). auto.
Qed.
Lemma snap_now s o s' : snap s o s' -> f_now s' = f_now s.
Proof. intros [[_ _ (H & _) _] _]. exact H. Qed.
Lemma snap_trans s o s1 o1 s2 : snap s o s1 -> snap s1 o1 s2 -> snap s (o ++ o1) s2.
Proof.
  intros A B. pose proof (snap_now _ _ _ A) as Ht. destruct A as [A1 A2], B as [B1 B2]. split; [eapply log_trans; eauto|].
  intros Ok_ Hk. destruct (A2 Ok_ Hk) as [A3 A4]. destruct (B2 (lr_ok _ _ _ _ _ A1 Ok_) A3) as [B3 B4]. split; [exact B3|].
  unfold snap_works in *. rewrite data_app. eapply works_trans.
  - eapply works_mono; [|exact A4]. intros x. apply made_app.
  - rewrite Ht in B4. eapply works_mono; [|exact B4]. intros x. apply made_after; [apply A1|exact Ht].
Qed.
Lemma snap_same s o s' : log_rel K ok s o s' -> f_pub s' = f_pub s -> (kept_keys K s -> kept_keys K s') -> data_of o = [] -> snap s o s'.
Proof. intros A B C D. split; [exact A|]. intros _ Hk. split; [auto|]. unfold snap_works. rewrite B, D. apply works_same. intros d []. Qed.
Lemma made_publish s n b f o sg : content_why K ok s n b f -> fp_ok K s -> made K ok s o (mkPrec (f_now s) sg n b f).
Proof.
  intros (s0 & l & W & Ec & Ep & Co) Ok_. split; [reflexivity|]. exists [], o, (f_core s), l.
  split; [reflexivity|]. split; [reflexivity|]. split; [exact Co|]. intros Ck. cbn [pr_name pr_fresh].
  rewrite Ec in *. clear Co. destruct W as [s1 s0 oo n t rcvd d l Hn Hd Hc Ho|s0 n t rcvd d Hn Hd Hc|s0 n e d u Hp Hd Hu].
  - destruct (offered_adds K _ _ Uk _ _ _ _ Ho) as [(Ai & _ & _) Al]. rewrite (Al _ Ck). econstructor; eauto. rewrite Ai. exact Hd.
  - econstructor 2; eauto.
  - rewrite <- Ep in Hp. destruct (fo_pending _ _ Ok_ n e Hp) as [rcvd X]. econstructor 3; eauto.
Qed.
Lemma snap_publish s n b f : content_why K ok s n b f -> snap s
    (map FoData match snd (publish E (f_now s) n n b f (f_pub s)) with Ok l => l | _ => [] end)
    (fset_pub (fst (publish E (f_now s) n n b f (f_pub s))) s).
Proof.
  intros W. split; [apply log_publish; auto|]. intros Ok_ Hk. split; [exact Hk|]. unfold snap_works. rewrite data_map.
  cbn [f_pub fset_pub]. apply works_publish.
  - destruct W as (s0 & l & W & _ & Ep & _). eapply (why_fam K ok s0); [|eauto]. unfold kept_keys in *. rewrite <- Ep. exact Hk.
  - apply (made_publish s n b f _ _ W Ok_).
Qed.
Lemma snap_send s : snap s (outs (send_sync_interest K s)) (st (send_sync_interest K s)).
Proof.
  split; [apply log_send; auto|]. intros _ Hk. destruct (facts_send K s Hk) as (A & _ & W). split; [exact A|].
  assert (data_of (outs (send_sync_interest K s)) = [] /\ f_pub (st (send_sync_interest K s)) = f_pub s) as [D P].
  { rewrite send_eq. destruct (f_wait s); [auto|].
    destruct (sync_name _ _); [|split; [reflexivity|apply stopped_now]..]. destruct (_ && _); (split; [reflexivity|apply stopped_now]). }
  unfold snap_works. rewrite D, P. apply works_same. intros d [].
Qed.
Lemma snap_data s n l f : data_why K ok s n l f -> snap s (outs (send_sync_data K n l f s)) (st (send_sync_data K n l f s)).
Proof.
  intros Hw. unfold send_sync_data. rewrite mbind_get. cbv zeta.
  set (m := mlet buf <- mlift (compress (fc_codec K) (fc_cscheme K) (encode_names l));
    fp_publish K n n buf f ;; (if name_eqb (f_outstanding s) n then send_sync_interest K else mret tt)).
  assert (forall s', f_core s' = f_core s -> f_pending s' = f_pending s -> snap s' (outs (m s')) (st (m s'))) as H.
  { intros s' Ec Ep. unfold m. rewrite mbind_lift. destruct (compress _ _ _) as [buf|e|u|] eqn:Co;
      try (apply snap_same; auto; apply log_same; try reflexivity; intros X; exact X).
    unfold mbind. rewrite fp_publish_eq. pose proof (snap_publish s' n buf f) as P.
    assert (content_why K ok s' n buf f) as W by (exists s, l; auto). specialize (P W).
    destruct (publish _ _ _ _ _ _ _) as [q [y|e|u|]]; cbn [fst snd] in P |- *; try exact P.
    pose proof (snap_send (fset_pub q s')) as S. destruct (name_eqb _ n).
    - unfold outs, st in *. destruct (send_sync_interest K (fset_pub q s')) as [[a b] c]. simpl in *. eapply snap_trans; eauto.
    - unfold outs, st, mret. simpl. rewrite app_nil_r. exact P. }
  destruct (_ && _) eqn:Eo; [|rewrite mbind_ret; apply H; reflexivity].
  apply andb_prop in Eo as [_ Eo]. destruct (f_fetcher s) as [i|] eqn:F; [|discriminate].
  unfold stop_fetcher. rewrite mbind_assoc, !mbind_mod, F. set (s1 := fset_outstanding [] _).
  change (outs (m s1)) with ([] ++ outs (m s1)).
  eapply snap_trans; [|apply H; reflexivity]. apply snap_same; auto. apply log_same; try reflexivity.
  intros Hs. pose proof (stopped_live K _ Hs) as Lv. unfold stopped in Lv. rewrite F in Lv.
  destruct Hs as [B1 B2 B3 B4 B5 B6 B7]. constructor; auto.
Qed.
Lemma snap_closed : closed K ok snap.
Proof.
  pose proof (log_closed K ok Uk) as CL.
  split; intros; try apply snap_send.
  - apply snap_same; auto. apply CL.
  - eapply snap_trans; eauto.
  - apply snap_same; auto. apply CL.
  - apply snap_same; auto. apply CL; auto.
  - split; [eapply (c_reply _ _ _ CL); eauto|]. intros _ Hk. split; [exact Hk|]. eapply works_reply; eauto.
  - apply snap_publish; auto.
  - split; [apply (c_nack _ _ _ CL); auto|]. intros _ Hk. split; [exact Hk|]. apply works_nack.
  - apply snap_data; auto.
  - apply snap_same; auto; [apply (c_erase _ _ _ CL)|]. apply nm_erase_Forall.
  - apply snap_same; auto; [eapply (c_pend _ _ _ CL); eauto|]. intros X. unfold kept_keys. cbn [f_pending fset_pending]. unfold add_fpending.
    assert (ffam K n) by (destruct H as (H & _); rewrite skipn_length in H; unfold ffam; lia).
    destruct (nm_find n _); apply nm_set_keys_Forall; auto.
  - apply snap_same; [eapply (c_wadd _ _ _ CL); eauto|..]; unfold start_waiting; rewrite mbind_mod, schedule_eq; cbn;
      destruct (nm_set n 0%N (f_waiting s)); try reflexivity; try (intros X; exact X); destruct (f_delay s); try reflexivity; intros X; exact X.
  - apply snap_same; auto. eapply (c_wmark _ _ _ CL); eauto.
  - apply snap_same; auto. apply (c_wtry _ _ _ CL); auto.
  - apply snap_same; auto. apply (c_werase _ _ _ CL); auto.
  - apply snap_same; [apply (c_arm _ _ _ CL)|..]; rewrite schedule_eq; cbn;
      destruct (f_waiting s); try reflexivity; try (intros X; exact X); destruct (f_delay s); try reflexivity; intros X; exact X.
  - apply snap_same; auto. apply CL.
  - apply snap_same; auto. apply CL; auto.
  - split; [apply (c_store _ _ _ CL)|]. intros _ Hk. split; [exact Hk|]. apply works_fire.
Qed.
Lemma snap_events : closed_events snap.
Proof.
  pose proof (log_events K ok) as CL. split; intros; apply snap_same; auto.
  - apply (e_update _ CL).
  - apply (e_incoming _ CL).
  - apply (e_sched _ CL).
  - apply (e_wait _ CL).
  - apply (e_finished _ CL) with n; auto.
Qed.
Hypothesis ok_add : forall p, ok (CAdd p).
Hypothesis ok_update : forall p v, (v < two64)%N -> ok (CUpdate p v).
Lemma snap_step e s : (forall dt, e <> FeTick dt) -> Forall ok (ev_ops e) -> snap s (outs (fp_step K e s)) (st (fp_step K e s)).
Proof.
  intros He Ho.
  destruct e as [a|n l|i buf script|i face|i timeout|dt|t| | |key|i];
    try (apply (tr_step_but K ok snap snap_closed); auto using snap_events; exact I).
  - destruct (He dt eq_refl).
  - apply snap_same; auto. apply log_same; try reflexivity. intros []; constructor; auto.
  - pose proof snap_closed as C.
    change (tr snap s (fp_step K FeDelay)). cbn [fp_step].
    apply (tr_get snap). destruct (f_delay s) as [dl|]; [|apply (tr_ret K _ snap C)].
    destruct (dl <=? _)%N; [|apply (tr_ret K _ snap C)].
    apply (tr_mod K _ snap C); [apply snap_same; auto; apply log_same; try reflexivity; intros []; constructor; auto|].
    apply (tr_seq K _ snap C); [apply (tr_process K _ snap C); auto|intros; apply (tr_schedule K _ snap C)].
Qed.
End Made.
(** the publication behind a packet that a full-sync node does not send from memory *)
Lemma node_issue K sys evs s1 o1 e s2 o2 d0 : uri_ok K ->
  reaches K sys evs s1 o1 -> reaches K sys (evs ++ [e]) s2 (o1 ++ o2) ->
  In (FoData d0) o2 -> d_type d0 = Blob -> ~ In d0 (pb_store (f_pub s1)) ->
  o2 = outs (fp_step K e s1) /\ s2 = st (fp_step K e s1) /\
  exists x i0, i0 < nseg (is_buf x) /\ d0 = leaf (fc_env K) x i0 /\
    made_since K (event_op e) (f_core s1) o2 (prec_of x) /\
    kept_keys K s2 /\ (exists L, moves (fc_env K) (ffam K) IMS_LIMIT L (f_now s2) (f_pub s2)) /\
    forall evs' s o, fp_run K s2 evs' = Some (s, o) -> fp_early K (f_now s1 + is_fresh x) (pb_signed (f_pub s1) + 100) s ->
      forall i l, i < nseg (is_buf x) -> fp_step K (FeInterest (d_name (leaf (fc_env K) x i)) l) s = (s, [FoData (leaf (fc_env K) x i)], Ok tt).
Proof.
  intros Uk R1 R12 Hd Hb Hnew.
  pose proof (C105_node_data K sys _ _ _ d0 R12 (in_or_app _ _ _ (or_intror Hd))) as Nd.
  pose proof (reaches_ok _ _ _ _ _ R1) as Ok1.
  assert (o2 = outs (fp_step K e s1) /\ s2 = st (fp_step K e s1)) as [-> ->].
  { pose proof R12 as X. apply reaches_inv in X as (sb & ob & Rb & _ & -> & Eo & _).
    assert (sb = s1 /\ ob = o1) as [-> ->] by (destruct R1 as [_ R], Rb as [_ Rb]; rewrite R in Rb; injection Rb; auto).
    apply app_inv_head in Eo. auto. }
  split; [reflexivity|]. split; [reflexivity|].
  destruct R1 as [_ R1]. apply fp_start_moves in R1 as (A1 & L & M1).
  assert (forall dt, e <> FeTick dt) as Ht.
  { intros dt ->. destruct Hd. }
  pose proof (snap_step K (event_op e) Uk (fun p => or_intror (or_introl (ex_intro _ p eq_refl)))
      (fun p v _ => or_intror (or_intror (ex_intro _ p (ex_intro _ v eq_refl)))) e s1 Ht (event_op_ops e)) as Sn.
  pose proof (snap_now _ _ _ _ _ Sn) as Et. destruct (sn_works _ _ _ _ _ Sn Ok1 A1) as (A2 & W).
  destruct (W L M1) as (L' & M2 & X1 & X2 & X3 & X4).
  destruct (X4 d0 (proj2 (data_of_In d0 _) Hd)) as [X|[X|X]]; [congruence|contradiction|]. destruct X as (x & i0 & Hx & Hi0 & Ed0).
  destruct (X1 x Hx) as (Ea & Es & Mx). exists x, i0. split; [exact Hi0|]. split; [exact Ed0|].
  split; [apply made_made; exact Mx|]. split; [exact A2|]. rewrite <- Et in M2. split; [eauto|].
  intros evs' s o R3 (V & B & T & Sg) i l Hi.
  destruct (fp_run_more K evs' _ _ s o A2 M2 R3) as (_ & _ & _ & L3 & M3).
  assert (reply_from_store (d_name (leaf (fc_env K) x i)) (f_pub s) = Some (leaf (fc_env K) x i)) as Rp.
  { apply (moves_found _ _ (ffam_apart K) _ _ _ _ x i M3); auto.
    - apply in_or_app. left. apply in_or_app. auto.
    - rewrite Ea. exact T.
    - unfold IMS_LIMIT. lia. }
  assert (ffam K (is_base x)) as Hf.
  { apply (ro_fam _ _ _ _ (av_rolls _ _ _ _ _ _ (moves_avail _ _ (ffam_apart K) _ _ _ _ M3))).
    apply in_or_app. left. apply in_or_app. auto. }
  assert (is_prefix (fc_sync K) (d_name (leaf (fc_env K) x i)) = true) as P.
  { destruct Nd as [(c1 & c2 & _ & v & j & z & Nm & _)|(c & _ & Ty & _)]; [|congruence].
    rewrite Ed0 in Nm. unfold leaf in Nm |- *. cbn [d_name seg_data] in Nm |- *. unfold append_segment, append_version in *.
    rewrite <- !app_assoc in *. cbn [app] in Nm.
    apply (f_equal (firstn (length (fc_sync K)))) in Nm. rewrite !firstn_app in Nm.
    rewrite Nat.sub_diag, firstn_all in Nm. cbn [firstn] in Nm. rewrite app_nil_r in Nm.
    unfold ffam in Hf. replace (length (fc_sync K) - length (is_base x))%nat with 0%nat in Nm by lia. cbn [firstn] in Nm.
    rewrite app_nil_r in Nm. apply is_prefix_iff.
    exists (skipn (length (fc_sync K)) (is_base x) ++ [number_comp TYPE_VERSION (en_version (fc_env K) (is_no x)); number_comp TYPE_SEGMENT (N.of_nat i)]).
    rewrite <- (firstn_skipn (length (fc_sync K)) (is_base x)) at 1. rewrite Nm, <- !app_assoc. reflexivity. }
  cbn [fp_step]. rewrite P. unfold on_finterest. rewrite mbind_get, Rp. reflexivity.
Qed.
