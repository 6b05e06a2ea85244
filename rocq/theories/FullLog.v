(** Full-sync nodes: from which data, and when, everything in the store was computed. *)
From Coq Require Import List NArith ZArith Bool Arith Lia.
From Verif Require Import Base BaseFacts Mon MonFacts Iblt SpecIblt Tlv TlvFacts State NMap NMapFacts Codec Store StoreFacts SpecStore
  Producer SpecProducer ProducerFacts Partial SpecPartial PartialFacts Full FullTrace SpecFull FullFacts FullSafe FullSteps FullRuns
  FullRenew SpecFresh FreshFacts FullFresh.
Import ListNotations.
Local Open Scope N_scope.

(** ** The names that are offered *)
Definition alike (k k' : core) : Prop :=
  k_iblt k' = k_iblt k /\ k_bimap k' = k_bimap k /\ forall p, seq0 (get_seq p k') = seq0 (get_seq p k).
Lemma alike_refl k : alike k k. Proof. split; [|split]; auto. Qed.
Lemma alike_trans a b c : alike a b -> alike b c -> alike a c.
Proof. intros (A & B & C) (A' & B' & C'). split; [congruence|]. split; [congruence|]. intros p. rewrite C'. apply C. Qed.
Lemma prefix_seq_alike p s s' o v : prefix_seq p s = (s', o, Ok v) ->
  alike (f_core s) (f_core s') /\ v = seq0 (get_seq p (f_core s)).
Proof.
  unfold prefix_seq. rewrite mbind_get. destruct (get_seq p (f_core s)) as [x|] eqn:G.
  - intros [= <- <- <-]. split; [apply alike_refl|reflexivity].
  - unfold fp_op. rewrite !mbind_assoc, mbind_get, mbind_assoc, mbind_lift. cbn [cstep]. rewrite mbind_assoc, mbind_mod.
    unfold memit, mbind, mret. cbn. intros [= <- <- <-]. split; [|reflexivity]. unfold core_add, get_seq in *. rewrite G. cbn.
    split; [reflexivity|]. split; [reflexivity|]. intros q. unfold get_seq. cbn. rewrite nm_find_set.
    destruct (name_eqb q p) eqn:X; auto. apply name_eqb_eq in X. subst. rewrite G. reflexivity.
Qed.
Lemma offered_adds K neg hs : uri_ok K -> forall s s' o l, offered K neg hs s = (s', o, Ok l) ->
  alike (f_core s) (f_core s') /\
  forall n, core_ok n (f_core s') -> l = offer (f_core s') neg hs.
Proof.
  intros Uk. induction hs as [|h hs IH]; intros s s' o l H; cbn [offered offer] in *.
  { injection H as <- _ <-. split; [apply alike_refl|reflexivity]. }
  rewrite mbind_get in H. destruct (bm_left h (k_bimap (f_core s))) as [nm|] eqn:E.
  2:{ destruct (IH _ _ _ _ H) as [A B]. split; auto. intros n Ck. destruct A as (_ & A & _). rewrite A, E. eauto. }
  cbv zeta in H. set (p := name_prefix_back nm 1) in *.
  unfold mbind at 1 in H. destruct (prefix_seq p s) as [[s1 o1] [v|x|x|]] eqn:E1; try discriminate.
  apply prefix_seq_alike in E1 as [A1 V].
  unfold mbind at 1 in H.
  destruct ((if v =? 0 then mret true else is_future K p neg) s1) as [[s2 o2] [b|x|x|]] eqn:E2; try discriminate.
  assert (alike (f_core s1) (f_core s2) /\ (v <> 0 -> b = nset_mem (name_hash (append_number p (w64 (v + 1)))) neg)) as [A2 B2].
  { destruct (N.eqb_spec v 0) as [Z|Z].
    - injection E2 as <- _ _. split; [apply alike_refl|contradiction].
    - unfold is_future in E2. rewrite Uk, mbind_lift in E2. unfold mbind in E2.
      destruct (prefix_seq p s1) as [[s3 o3] [w|x|x|]] eqn:E3; try discriminate. injection E2 as <- _ <-.
      apply prefix_seq_alike in E3 as [A3 W]. split; auto. intros _. destruct A1 as (_ & _ & A1). rewrite W, A1, <- V. reflexivity. }
  unfold mbind in H. destruct (offered K neg hs s2) as [[s3 o3] [l3|x|x|]] eqn:E3; try discriminate.
  assert (s' = s3 /\ l = if b then l3 else nm :: l3) as [-> ->] by (injection H as <- _ <-; auto). clear H.
  destruct (IH _ _ _ _ E3) as [A3 B3]. pose proof (alike_trans _ _ _ A1 (alike_trans _ _ _ A2 A3)) as A.
  split; auto. intros n Ck. pose proof A as (_ & Ab & As). rewrite Ab, E.
  specialize (B3 n Ck). assert (seq0 (get_seq p (f_core s3)) = v) as Gv by (rewrite As; auto).
  rewrite <- Ab in E. apply (rep_lookup _ _ _ _ _ _ (ok_rep _ _ Ck)) in E as [(q & w & F & Nz & ->) _].
  assert (p = q) as -> by (apply name_prefix_number). unfold get_seq in *. rewrite F in *. cbn in Gv. subst w.
  rewrite (B2 Nz). cbv zeta. rewrite name_prefix_number, F. destruct (nset_mem _ neg); congruence.
Qed.

(** ** Publications *)
Record prec := mkPrec { pr_time : N; pr_sg : nat; pr_name : name; pr_buf : bytes; pr_fresh : N }.
Section Log.
Variable K : fcfg.
Variable ok : cop -> Prop.
Hypothesis Uk : uri_ok K.
Notation E := (fc_env K).

(** segment [i] of publication [k] *)
Definition piece (k : nat) (r : prec) (i : nat) : data :=
  seg_data E (pr_sg r) (append_version (pr_name r) (en_version E k)) (pr_buf r) (pr_fresh r) i.
Definition inlog (L : list prec) (dl : N) (d : data) : Prop :=
  exists k r i, nth_error L k = Some r /\ (i < nseg (pr_buf r))%nat /\ d = piece k r i /\ dl = pr_time r + pr_fresh r.
Lemma inlog_app L L2 dl d : inlog L dl d -> inlog (L ++ L2) dl d.
Proof.
  intros (k & r & i & H & X). exists k, r, i. split; auto. rewrite nth_error_app1; auto. apply nth_error_Some. congruence.
Qed.
Definition store_log (L : list prec) (b : pub) : Prop := length L = pb_published b /\ kept (inlog L) b.

(** how the content of a publication is computed from the data [k] *)
Inductive computed (k : core) (n : name) : list name -> N -> Prop :=
| comp_offer t rcvd d : names_ibf K n t rcvd -> iblt_sub (fc_fuel K) (k_iblt k) t = Ok d -> can_decode d = true ->
    computed k n (offer k (negative d) (positive d)) (fc_fresh K)
| comp_all t rcvd d : names_ibf K n t rcvd -> iblt_sub (fc_fuel K) (k_iblt k) t = Ok d -> can_decode d = false ->
    computed k n (live k) FULL_STATE_FRESH
| comp_pending t rcvd d u : names_ibf K n t rcvd -> iblt_sub (fc_fuel K) (k_iblt k) t = Ok d -> announced ok u ->
    computed k n (satisfy_content (k_bimap k) u (positive d)) (fc_fresh K).

(** a publication made on the way from [s], which has the observations [o] *)
Definition made (s : fp) (o : list fout) (r : prec) : Prop :=
  pr_time r = f_now s /\ exists o1 o2 k names, o = o1 ++ o2 /\ crun (f_core s) (ops_of o1) = Ok k /\
    compress (fc_codec K) (fc_cscheme K) (encode_names names) = Ok (pr_buf r) /\
    (core_ok (fc_n K) k -> computed k (pr_name r) names (pr_fresh r)).
Record log_rel (s : fp) (o : list fout) (s' : fp) : Prop := mkLogRel {
  lr_core : core_rel s o s';
  lr_ok : ok_rel K s o s';
  lr_age : age_rel K s o s';
  lr_log : fp_ok K s -> forall L, store_log L (f_pub s) -> exists L2, store_log (L ++ L2) (f_pub s') /\ Forall (made s o) L2 /\
    (due_later (f_now s) (f_pub s) -> forall d, In d (data_of o) -> d_type d = AppNack \/
       exists dl, inlog (L ++ L2) dl d /\ f_now s <= dl) }.

Lemma made_app s o r o2 : made s o r -> made s (o ++ o2) r.
Proof.
  intros (T & o1 & o3 & k & names & -> & X). split; auto. exists o1, (o3 ++ o2), k, names. rewrite app_assoc. auto.
Qed.
Lemma made_after s o s1 o1 r : core_rel s o s1 -> f_now s1 = f_now s -> made s1 o1 r -> made s (o ++ o1) r.
Proof.
  intros C T (A & a & b & k & names & -> & X & Y). split; [congruence|]. exists (o ++ a), b, k, names.
  rewrite app_assoc. split; auto. split; auto. rewrite ops_of_app, crun_app, C. exact X.
Qed.
Lemma log_trans s o s1 o1 s2 : log_rel s o s1 -> log_rel s1 o1 s2 -> log_rel s (o ++ o1) s2.
Proof.
  intros [A B C D] [A' B' C' D']. split.
  - eapply core_rel_trans; eauto.
  - eapply ok_rel_trans; eauto.
  - eapply age_trans; eauto.
  - intros Ok_ L HL. destruct (D Ok_ L HL) as (L2 & S2 & M2 & X2).
    destruct (D' (B Ok_) _ S2) as (L3 & S3 & M3 & X3). pose proof C as (Cn & _ & Cd & _).
    exists (L2 ++ L3). rewrite app_assoc. split; auto. split.
    + apply Forall_app. split.
      * eapply Forall_impl; [|exact M2]. intros r. apply made_app.
      * eapply Forall_impl; [|exact M3]. intros r. apply made_after; auto.
    + intros T d Hd. rewrite data_of_app in Hd. apply in_app_or in Hd as [Hd|Hd].
      * destruct (X2 T d Hd) as [|(dl & I & Le)]; auto. right. exists dl. split; auto. apply inlog_app. exact I.
      * rewrite Cn in X3. destruct (X3 (Cd T) d Hd) as [|(dl & I & Le)]; eauto.
Qed.
Lemma log_same s o s' : core_rel s o s' -> ok_rel K s o s' -> f_now s' = f_now s -> f_pub s' = f_pub s -> data_of o = [] ->
  log_rel s o s'.
Proof.
  intros A B C D F. split; auto; [apply age_same; auto|].
  intros _ L HL. exists []. rewrite app_nil_r, D, F. split; auto. split; [constructor|]. intros _ d [].
Qed.
Lemma log_publish s n b f : content_why K ok s n b f -> log_rel s
    (map FoData match snd (publish E (f_now s) n n b f (f_pub s)) with Ok l => l | _ => [] end)
    (fset_pub (fst (publish E (f_now s) n n b f (f_pub s))) s).
Proof.
  intros Hw. split; [unfold core_rel; rewrite ops_of_data; reflexivity| |apply age_publish|].
  { intros [B1 B2 B3 B4 B5 B6 B7]; constructor; auto. apply publish_blobs1; auto. }
  intros Ok_ L [HL HK]. destruct (publish E (f_now s) n n b f (f_pub s)) as [q r] eqn:Pb. cbn [fst snd].
  assert (pb_published q = S (pb_published (f_pub s))) as Eq.
  { unfold publish in Pb. injection Pb as <- _. rewrite insert_segments_eq. reflexivity. }
  set (x := mkPrec (f_now s) (pb_signed (f_pub s)) n b f). exists [x].
  assert (forall dl d, inlog L dl d -> inlog (L ++ [x]) dl d) as Mo by (intros; apply inlog_app; auto).
  destruct (publish_kept (inlog (L ++ [x])) _ _ _ _ _ _ _ _ _ Pb (kept_mono _ _ _ Mo HK)) as [A B].
  { intros d Hd. apply segment_In in Hd as (i & Hi & ->). exists (length L), x, i.
    rewrite nth_error_app2, Nat.sub_diag by lia. split; [reflexivity|]. split; [exact Hi|]. split; [|reflexivity].
    unfold piece. cbn [pr_sg pr_name pr_buf pr_fresh x]. rewrite HL. reflexivity. }
  split; [|split].
  - split; [rewrite app_length, HL; cbn; rewrite Eq; lia|exact A].
  - constructor; [|constructor]. split; [reflexivity|].
    destruct Hw as (s0 & l & W & Ec & Ep & Co). exists [], (map FoData match r with Ok y => y | _ => [] end), (f_core s), l.
    split; [reflexivity|]. split; [reflexivity|]. split; [exact Co|]. intros Ck. cbn [pr_name pr_fresh x].
    rewrite Ec in *. clear Co. destruct W as [s1 s0 o n t rcvd d l Hn Hd Hc Ho|s0 n t rcvd d Hn Hd Hc|s0 n e d u Hp Hd Hu].
    + destruct (offered_adds K _ _ Uk _ _ _ _ Ho) as [(Ai & _ & _) Al]. rewrite (Al _ Ck). econstructor; eauto. rewrite Ai. exact Hd.
    + econstructor 2; eauto.
    + rewrite <- Ep in Hp. destruct (fo_pending _ _ Ok_ n e Hp) as [rcvd X]. econstructor 3; eauto.
  - intros _ d Hd. rewrite data_of_map in Hd. right. exists (f_now s + f). split; [|lia].
    destruct r as [y| | |]; try contradiction. eapply B; eauto.
Qed.
Lemma log_send s : log_rel s (outs (send_sync_interest K s)) (st (send_sync_interest K s)).
Proof.
  pose proof (age_send K s) as A. apply log_same; [apply core_rel_send|apply ok_rel_send|apply A| |].
  - rewrite send_eq. destruct (f_wait s); [reflexivity|].
    destruct (sync_name _ _); [|apply stopped_pub..]. destruct (_ && _); apply stopped_pub.
  - rewrite send_eq. destruct (f_wait s); [reflexivity|].
    destruct (sync_name _ _); try reflexivity. destruct (_ && _); reflexivity.
Qed.
Lemma log_data s n l f : data_why K ok s n l f -> log_rel s (outs (send_sync_data K n l f s)) (st (send_sync_data K n l f s)).
Proof.
  intros Hw. unfold send_sync_data. rewrite mbind_get. cbv zeta.
  set (m := mlet buf <- mlift (compress (fc_codec K) (fc_cscheme K) (encode_names l));
    fp_publish K n n buf f ;; (if name_eqb (f_outstanding s) n then send_sync_interest K else mret tt)).
  assert (forall s', f_core s' = f_core s -> f_pending s' = f_pending s -> log_rel s' (outs (m s')) (st (m s'))) as H.
  { intros s' Ec Ep. unfold m. rewrite mbind_lift. destruct (compress _ _ _) as [buf|e|u|] eqn:Co;
      try (apply log_same; try reflexivity; intros X; exact X).
    unfold mbind. rewrite fp_publish_eq. pose proof (log_publish s' n buf f) as P.
    assert (content_why K ok s' n buf f) as W by (exists s, l; auto). specialize (P W).
    destruct (publish _ _ _ _ _ _ _) as [q [x|e|u|]]; cbn [fst snd] in P |- *; try exact P.
    pose proof (log_send (fset_pub q s')) as S. destruct (name_eqb _ n).
    - unfold outs, st in *. destruct (send_sync_interest K (fset_pub q s')) as [[a b] c]. simpl in *. eapply log_trans; eauto.
    - unfold outs, st, mret. simpl. rewrite app_nil_r. exact P. }
  destruct (_ && _) eqn:Eo; [|rewrite mbind_ret; apply H; reflexivity].
  apply andb_prop in Eo as [_ Eo]. destruct (f_fetcher s) as [i|] eqn:F; [|discriminate].
  unfold stop_fetcher. rewrite mbind_assoc, !mbind_mod, F. set (s1 := fset_outstanding [] _).
  change (outs (m s1)) with ([] ++ outs (m s1)).
  eapply log_trans; [|apply H; reflexivity]. apply log_same; try reflexivity.
  intros Hs. pose proof (stopped_live K _ Hs) as Lv. unfold stopped in Lv. rewrite F in Lv.
  destruct Hs as [B1 B2 B3 B4 B5 B6 B7]. constructor; auto.
Qed.
Lemma log_closed : closed K ok log_rel.
Proof.
  pose proof (ok_rel_closed K ok) as CC. pose proof (age_closed K ok) as CA.
  split; intros; try apply log_send; try (apply log_same; try reflexivity; intros X; destruct X; constructor; auto; fail).
  - eapply log_trans; eauto.
  - apply log_same; try reflexivity; [|apply CC; auto]. unfold core_rel. simpl. rewrite H0. reflexivity.
  - split; [reflexivity|apply (c_reply _ _ _ CC) with n; auto|apply (c_reply _ _ _ CA) with n; auto|]. intros _ L [HL HK]. exists []. rewrite app_nil_r. split; [split; auto|].
    split; [constructor|]. intros T x [<-|[]]. right. unfold reply_from_store in H. apply store_find_Some in H as (H & _).
    destruct (HK d H) as (dl & A & B). exists dl. split; auto. eapply T; eauto.
  - apply log_publish; auto.
  - split; [reflexivity|apply (c_nack _ _ _ CC); auto|apply (c_nack _ _ _ CA); auto|]. intros _ L [HL HK]. exists []. rewrite app_nil_r. split; [split; auto|].
    split; [constructor|]. intros T x [<-|[]]. left. reflexivity.
  - apply log_data; auto.
  - apply log_same; try reflexivity. apply (c_erase _ _ _ CC).
  - apply log_same; try reflexivity. apply (c_pend _ _ _ CC) with rcvd; auto.
  - apply log_same; try (apply (c_wadd _ _ _ CC) with t rcvd; auto); unfold start_waiting; rewrite mbind_mod, schedule_eq; cbn;
      destruct (nm_set n 0 (f_waiting s)); try reflexivity; destruct (f_delay s); reflexivity.
  - apply log_same; try reflexivity. apply (c_wmark _ _ _ CC) with v; auto.
  - apply log_same; try reflexivity. apply (c_wtry _ _ _ CC); auto.
  - apply log_same; try reflexivity. apply (c_werase _ _ _ CC); auto.
  - apply log_same; try apply (c_arm _ _ _ CC); rewrite schedule_eq; cbn;
      destruct (f_waiting s); try reflexivity; destruct (f_delay s); reflexivity.
  - split; [reflexivity|apply (c_store _ _ _ CC)|apply (c_store _ _ _ CA)|]. intros _ L [HL HK]. exists []. rewrite app_nil_r. split.
    + split; [|apply fire_kept; auto]. unfold pub_fire. cbn. rewrite HL. destruct (nth_error _ i) as [[dl y]|]; auto. destruct (dl <=? _); auto.
    + split; [constructor|]. intros _ d [].
Qed.
Lemma log_events : closed_events log_rel.
Proof.
  pose proof (ok_rel_events K) as CC.
  split; intros; apply log_same; try reflexivity.
  - apply (e_update _ CC).
  - apply (e_incoming _ CC).
  - apply (e_sched _ CC).
  - apply (e_wait _ CC).
  - apply (e_finished _ CC) with n; auto.
Qed.
Hypothesis ok_add : forall p, ok (CAdd p).
Hypothesis ok_update : forall p v, v < two64 -> ok (CUpdate p v).
Lemma log_step e s : (forall dt, e <> FeTick dt) -> Forall ok (ev_ops e) -> log_rel s (outs (fp_step K e s)) (st (fp_step K e s)).
Proof.
  intros He Ho.
  destruct e as [a|n l|i buf script|i face|i timeout|dt|t| | |key|i];
    try (apply (tr_step_but K ok log_rel log_closed); auto using log_events; exact I).
  - destruct (He dt eq_refl).
  - apply log_same; try reflexivity. intros []; constructor; auto.
  - pose proof log_closed as C.
    change (tr log_rel s (fp_step K FeDelay)). cbn [fp_step].
    apply (tr_get log_rel). destruct (f_delay s) as [dl|]; [|apply (tr_ret K _ log_rel C)].
    destruct (dl <=? _); [|apply (tr_ret K _ log_rel C)].
    apply (tr_mod K _ log_rel C); [apply log_same; try reflexivity; intros []; constructor; auto|].
    apply (tr_seq K _ log_rel C); [apply (tr_process K _ log_rel C); auto|intros; apply (tr_schedule K _ log_rel C)].
Qed.
(** a publication made on the way from a node with data [k0] *)
Definition made_since (k0 : core) (o : list fout) (r : prec) : Prop :=
  exists o1 o2 k names, o = o1 ++ o2 /\ crun k0 (ops_of o1) = Ok k /\
    compress (fc_codec K) (fc_cscheme K) (encode_names names) = Ok (pr_buf r) /\
    (core_ok (fc_n K) k -> computed k (pr_name r) names (pr_fresh r)).
Lemma made_made s o r : made s o r -> made_since (f_core s) o r.
Proof. intros (_ & H). exact H. Qed.
Lemma since_app k0 o o2 r : made_since k0 o r -> made_since k0 (o ++ o2) r.
Proof. intros (o1 & o3 & k & names & -> & X). exists o1, (o3 ++ o2), k, names. rewrite app_assoc. auto. Qed.
Lemma since_after k0 o k1 o1 r : crun k0 (ops_of o) = Ok k1 -> made_since k1 o1 r -> made_since k0 (o ++ o1) r.
Proof.
  intros C (a & b & k & names & -> & X & Y). exists (o ++ a), b, k, names.
  rewrite app_assoc. split; auto. split; auto. rewrite ops_of_app, crun_app, C. exact X.
Qed.
Lemma event_log e s L : Forall ok (ev_ops e) -> fp_ok K s -> store_log L (f_pub s) ->
  fp_ok K (st (fp_step K e s)) /\ f_now s <= f_now (st (fp_step K e s)) /\
  exists L2, store_log (L ++ L2) (f_pub (st (fp_step K e s))) /\
    Forall (fun r => f_now s <= pr_time r <= f_now (st (fp_step K e s)) /\ made_since (f_core s) (outs (fp_step K e s)) r) L2 /\
    (due_later (f_now s) (f_pub s) -> forall d, In d (data_of (outs (fp_step K e s))) -> d_type d = AppNack \/
       exists dl, inlog (L ++ L2) dl d /\ f_now s <= dl).
Proof.
  intros Ho Hs HL.
  assert ((forall dt, e <> FeTick dt) \/ exists dt, e = FeTick dt) as [He|[dt ->]]
    by (destruct e; try (left; discriminate); eauto).
  - destruct (log_step e s He Ho) as [A B (Cn & _) D]. split; [apply B; auto|]. split; [lia|].
    destruct (D Hs L HL) as (L2 & S2 & M2 & X2). exists L2. split; auto. split; auto.
    eapply Forall_impl; [|exact M2]. intros r Hr. split; [destruct Hr as [-> _]; lia|apply made_made; auto].
  - cbn. split; [destruct Hs; constructor; auto|]. split; [lia|]. exists []. rewrite app_nil_r. split; auto. split; [constructor|].
    intros _ d [].
Qed.
Lemma run_log evs : forall s s' o L, Forall ok (flat_map ev_ops evs) -> fp_ok K s -> fp_run K s evs = Some (s', o) ->
  store_log L (f_pub s) ->
  fp_ok K s' /\ f_now s <= f_now s' /\ exists L2, store_log (L ++ L2) (f_pub s') /\
    Forall (fun r => f_now s <= pr_time r <= f_now s' /\ made_since (f_core s) o r) L2.
Proof.
  induction evs as [|e evs IH]; intros s s' o L Ho Hs; unfold fp_run; cbn [run].
  - intros [= <- <-] HL. split; auto. split; [lia|]. exists []. rewrite app_nil_r. auto.
  - cbn [flat_map] in Ho. apply Forall_app in Ho as [H1 H2]. intros R HL.
    destruct (event_log e s L H1 Hs HL) as (A & B & L2 & S2 & M2 & _).
    pose proof (step_core K s e) as Cr. unfold core_rel in Cr.
    unfold st, outs in *. destruct (fp_step K e s) as [[s1 o1] [u|x|u|]]; try discriminate; cbn [fst snd] in *;
      (destruct (run (fp_step K) s1 evs) as [[s2 o2]|] eqn:Q; [|discriminate]); injection R as <- <-;
      (destruct (IH s1 s2 o2 (L ++ L2) H2 A Q S2) as (A3 & B3 & L3 & S3 & M3)); (split; [auto|]); (split; [lia|]);
      exists (L2 ++ L3); rewrite app_assoc; (split; [auto|]); apply Forall_app; (split;
        [eapply Forall_impl; [|exact M2]; intros r [T M]; split; [lia|apply since_app; auto]
        |eapply Forall_impl; [|exact M3]; intros r [T M]; split; [lia|eapply since_after; eauto]]).
Qed.
Lemma init_log sys s o : fp_init K sys = (s, o, Ok tt) ->
  fp_ok K s /\ store_log [] (f_pub s) /\ f_core s = core_new (fc_n K) /\ ops_of o = [] /\ f_now s = 0.
Proof.
  intros H. split; [apply (start_ok K sys [] s o); unfold fp_start; rewrite H; cbn; rewrite app_nil_r; reflexivity|].
  rewrite init_eq in H. destruct (sync_name K (core_new (fc_n K))) as [n|e|u|]; try discriminate. injection H as <- <-.
  split; [|auto]. split; [reflexivity|]. intros d [].
Qed.
Theorem reaches_log sys evs s o : Forall ok (flat_map ev_ops evs) -> reaches K sys evs s o ->
  exists L, store_log L (f_pub s) /\ Forall (fun r => pr_time r <= f_now s /\ made_since (core_new (fc_n K)) o r) L.
Proof.
  intros Ho [W H]. apply start_inv in H as (s0 & o0 & o1 & E0 & R & ->).
  destruct (init_log _ _ _ E0) as (A & B & C & D & _).
  destruct (run_log evs s0 s o1 [] Ho A R B) as (_ & _ & L2 & S2 & M2).
  exists L2. split; auto. eapply Forall_impl; [|exact M2]. intros r [T M]. split; [lia|].
  apply (since_after _ o0 (core_new (fc_n K))); [rewrite D; reflexivity|]. rewrite <- C. exact M.
Qed.
End Log.
