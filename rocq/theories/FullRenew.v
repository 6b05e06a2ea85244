(** When a full-sync node sends its next sync interest: at once after answering its own one, after a
    pause when the answer brought no news, soon when it did. *)
From Coq Require Import List NArith ZArith Bool Arith Lia.
From Verif Require Import Base BaseFacts Mon MonFacts Iblt SpecIblt IbltFacts Tlv TlvFacts State NMap NMapFacts
  Codec CodecFacts Store StoreFacts Producer SpecProducer ProducerFacts Partial SpecPartial PartialFacts
  PartialSteps Full FullTrace SpecFull FullFacts FullSafe FullSteps FullData FullRuns FullTimers FullSends
  FullReplies FullAnswers FullPending.
Import ListNotations.
Local Open Scope N_scope.

(** ** Renewal *)
Definition fetched_rel (s : fp) (o : list fout) (s' : fp) : Prop := f_fetcher s <> None -> f_fetcher s' <> None.
Lemma fetched_trans s o s1 o1 s2 : fetched_rel s o s1 -> fetched_rel s1 o1 s2 -> fetched_rel s (o ++ o1) s2.
Proof. unfold fetched_rel. auto. Qed.
Lemma fetched_same s o s' : f_fetcher s' = f_fetcher s -> fetched_rel s o s'.
Proof. unfold fetched_rel. intros ->. auto. Qed.
Lemma stopped_fetcher s : f_fetcher (stopped s) = f_fetcher s.
Proof. unfold stopped. destruct (f_fetcher s) eqn:E; auto. Qed.
Lemma fetched_send K s : fetched_rel s (outs (send_sync_interest K s)) (st (send_sync_interest K s)).
Proof.
  rewrite send_eq. unfold fetched_rel. destruct (f_wait s); [auto|].
  destruct (sync_name _ _); try (cbn [st fst snd]; rewrite stopped_fetcher; auto; fail).
  destruct (_ && _); cbn [st fst snd]; [rewrite stopped_fetcher; auto|]. intros _. discriminate.
Qed.
Lemma fetched_closed K ok : closed K ok fetched_rel.
Proof.
  split; intros; try (apply fetched_same; reflexivity); try apply fetched_send; eauto using fetched_trans.
  - apply (data_closed K fetched_rel); intros; try (apply fetched_same; reflexivity); try apply fetched_send; eauto using fetched_trans.
  - apply (start_closed K fetched_rel); intros; try (apply fetched_same; reflexivity); eauto using fetched_trans.
  - apply (arm_closed K fetched_rel); intros; try (apply fetched_same; reflexivity); eauto using fetched_trans.
Qed.
Lemma reaches_fetcher K sys evs s o : reaches K sys evs s o -> f_fetcher s <> None.
Proof.
  intros [W H]. apply start_inv in H as (s0 & o0 & o1 & E & R & ->).
  assert (fetched_rel s0 o1 s) as N.
  { eapply (tr_run K (fun _ => True) fetched_rel (fetched_closed K _)); eauto; intros; auto;
      try (apply fetched_same; reflexivity); [split; intros; apply fetched_same; reflexivity|apply ok_true; auto]. }
  apply N. rewrite init_eq in E. destruct (sync_name _ _); try discriminate. injection E as <- _. discriminate.
Qed.

Lemma data_own K n l f s : schemes_ok K -> n <> [] -> f_outstanding s = n -> f_fetcher s <> None -> f_wait s = false ->
  asked K (f_core s) (outs (send_sync_data K n l f s)).
Proof.
  intros Sk Hn Ho Hf Hw. unfold send_sync_data. rewrite mbind_get. cbv zeta. rewrite Ho, name_eqb_refl.
  destruct (f_fetcher s) as [i|] eqn:Fi; [|congruence]. cbn [andb].
  unfold stop_fetcher. rewrite mbind_assoc, !mbind_mod, Fi.
  destruct (scheme_ok_compress (fc_codec K) (fc_cscheme K) (encode_names l) (proj2 Sk)) as [b Eb].
  rewrite mbind_lift, Eb. unfold mbind. rewrite fp_publish_eq.
  set (s1 := fset_outstanding [] (fset_live (without i (f_live s)) s)).
  destruct (publish (fc_env K) (f_now s1) n n b f (f_pub s1)) as [q r] eqn:Eq.
  assert (exists ds, r = Ok ds) as [ds ->].
  { unfold publish in Eq. injection Eq as _ <-. apply put_segment_total; auto. }
  cbn [fst snd]. rewrite send_eq. change (f_wait (fset_pub q s1)) with (f_wait s). rewrite Hw.
  change (f_core (fset_pub q s1)) with (f_core s). destruct (sync_name_total K (f_core s) Sk) as (m & Em & Am). rewrite Em.
  change (f_outstanding (fset_pub q s1)) with (@nil comp).
  assert (name_eqb [] m = false) as -> by (destruct Am as (c & _ & ->); destruct (fc_sync K); reflexivity).
  rewrite andb_false_r. cbn [outs fst snd]. eexists m, _. split; [apply in_or_app; right; left; reflexivity|exact Am].
Qed.
Lemma data_other K n l f s : f_outstanding s <> n -> f_outstanding (st (send_sync_data K n l f s)) = f_outstanding s /\
  f_fetcher (st (send_sync_data K n l f s)) = f_fetcher s /\ f_wait (st (send_sync_data K n l f s)) = f_wait s.
Proof.
  intros Ho. unfold send_sync_data. rewrite mbind_get. cbv zeta.
  assert (name_eqb (f_outstanding s) n = false) as ->.
  { destruct (name_eqb (f_outstanding s) n) eqn:E; auto. apply name_eqb_eq in E. contradiction. }
  cbn [andb]. rewrite mbind_ret, mbind_lift. destruct (compress _ _ _); try (repeat split; reflexivity).
  unfold mbind. rewrite fp_publish_eq. destruct (publish _ _ _ _ _ _ _) as [q [x|x|x|]]; repeat split; reflexivity.
Qed.
Lemma fsatisfy_renews K u n keys : schemes_ok K -> forall s s' o, (forall k, In k keys -> k <> []) -> NoDup keys -> In n keys ->
  nm_find n (f_pending s) <> None ->
  f_outstanding s = n -> f_fetcher s <> None -> f_wait s = false ->
  fsatisfy K u keys s = (s', o, Ok tt) -> asked K (f_core s) o.
Proof.
  intros Sk. induction keys as [|k keys IH]; intros s s' o Kn Nd Hin Hp Ho Hf Hw E; [destruct Hin|].
  pose proof (Kn n Hin) as Hn. destruct Hin as [->|Hin]; cbn [fsatisfy] in E.
  - (* the own interest *)
    unfold fsatisfy_one in E. rewrite mbind_assoc, mbind_get in E. destruct (nm_find n (f_pending s)) as [e|] eqn:Ef; [|congruence].
    rewrite mbind_assoc, mbind_lift in E. destruct (iblt_sub _ _ _) as [d|x|x|]; try discriminate. rewrite mbind_assoc in E.
    destruct (data_own K n (satisfy_content (k_bimap (f_core s)) u (positive d)) (fc_fresh K) s Sk Hn Ho Hf Hw) as (m & t & Hm & Am).
    exists m, t. split; [|exact Am].
    assert (forall (f : unit -> FM unit), In (FoInterest m t) (outs (mbind (send_sync_data K n (satisfy_content (k_bimap (f_core s)) u (positive d)) (fc_fresh K)) f s))) as G
      by (intros f; apply outs_bind_left; exact Hm).
    match type of E with (mbind _ ?f) _ = _ => specialize (G f); rewrite E in G end. exact G.
  - inversion Nd as [|x y Hx Nd']; subst x y. assert (k <> n) as Qn by (intros ->; contradiction).
    unfold mbind in E. destruct (fsatisfy_one K u k s) as [[s1 o1] r1] eqn:E1. destruct r1 as [[]|x|x|]; try discriminate.
    destruct (fsatisfy K u keys s1) as [[s2 o2] r2] eqn:E2. injection E as <- <- ->.
    assert (f_core s1 = f_core s /\ f_outstanding s1 = f_outstanding s /\ f_fetcher s1 = f_fetcher s /\ f_wait s1 = f_wait s /\
            nm_find n (f_pending s1) = nm_find n (f_pending s)) as (C1 & O1 & F1 & W1 & P1).
    { unfold fsatisfy_one in E1. rewrite mbind_get in E1. destruct (nm_find k (f_pending s)) as [e|]; [|injection E1 as <- _; auto].
      rewrite mbind_lift in E1. destruct (iblt_sub _ _ _) as [d|x|x|]; try discriminate. unfold mbind in E1.
      set (l := satisfy_content _ _ _) in E1.
      destruct (data_other K k l (fc_fresh K) s) as (A & B & C); [congruence|].
      pose proof (data_pending K k l (fc_fresh K) s) as D.
      destruct (data_spec K k l (fc_fresh K) s Sk) as (ds & s3 & o3 & E3 & _ & Fr & _).
      { apply Kn. left. reflexivity. }
      rewrite E3 in *. cbn [st fst snd] in *. unfold delete_pending, mmod in E1. injection E1 as <- _.
      cbn. split; [apply Fr|]. split; [exact A|]. split; [exact B|]. split; [exact C|].
      rewrite nm_find_erase_other by auto. rewrite D. reflexivity. }
    destruct (IH s1 s2 o2 (fun k H => Kn k (or_intror H)) Nd' Hin) as (m & t & Hm & Am); try congruence.
    exists m, t. split; [apply in_or_app; auto|]. rewrite <- C1. exact Am.
Qed.
Lemma send_core K s : f_core (st (send_sync_interest K s)) = f_core s.
Proof.
  rewrite send_eq. destruct (f_wait s); [reflexivity|]. destruct (sync_name _ _); try apply stopped_core.
  destruct (_ && _); apply stopped_core.
Qed.
Lemma data_core K n l f s : f_core (st (send_sync_data K n l f s)) = f_core s.
Proof.
  apply (data_closed K (fun s _ s' => f_core s' = f_core s)); intros; try reflexivity; try congruence. apply send_core.
Qed.
Lemma fsatisfy_core K u keys : rl (fun s _ s' => f_core s' = f_core s) (fsatisfy K u keys).
Proof.
  assert (forall (s : fp) (o : list fout) s1 (o1 : list fout) s2, f_core s1 = f_core s -> f_core s2 = f_core s1 -> f_core s2 = f_core s) as T by congruence.
  induction keys as [|k keys IH]; cbn [fsatisfy]; [apply rl_ret; reflexivity|].
  apply (rl_bind _ T); [|intros _; exact IH]. unfold fsatisfy_one. apply rl_get. intros s0.
  destruct (nm_find k (f_pending s0)); [|apply rl_ret; reflexivity].
  apply (rl_bind _ T); [apply rl_lift; reflexivity|intros d]. apply (rl_bind _ T); [intros s1; apply data_core|intros _].
  apply rl_mod. reflexivity.
Qed.
Lemma publish_renews K s p q s' o n : schemes_ok K -> fp_ok K s -> f_fetcher s <> None ->
  get_seq p (f_core s) <> None -> f_outstanding s = n -> nm_find n (f_pending s) <> None ->
  fp_step K (FeApi (APublish p q)) s = (s', o, Ok tt) -> asked K (f_core s') o.
Proof.
  intros Sk Ok_ Hf Hp Ho Hn E. cbn [fp_step api_call] in E. unfold fp_publish_name in E. rewrite mbind_get in E.
  destruct (get_seq p (f_core s)) as [cur|]; [|congruence]. unfold mbind at 1 in E. unfold fp_op in E.
  rewrite mbind_get, mbind_lift in E. destruct (cstep _ _) as [k'|x|x|]; try discriminate. rewrite mbind_mod in E.
  unfold memit at 1 in E. rewrite mbind_mod in E. destruct (fsatisfy _ _ _ _) as [[s2 o2] r2] eqn:E2. injection E as <- <- ->.
  assert (forall k, In k (nm_keys (f_pending s)) -> k <> []) as Kn.
  { intros k Hk. apply nm_In_keys in Hk as [e He]. destruct (fo_pending _ _ Ok_ k e He) as [rcvd X]. eapply names_ibf_nonempty; eauto. }
  assert (In n (nm_keys (f_pending s))) as Hin.
  { destruct (nm_find n (f_pending s)) as [e|] eqn:X; [|congruence]. apply nm_In_keys. eauto. }
  destruct (fsatisfy_renews K _ n (nm_keys (f_pending s)) Sk (fset_wait false (fset_core k' s)) _ _ Kn (nm_sorted_NoDup _ (fo_psorted _ _ Ok_)) Hin Hn Ho Hf eq_refl E2)
    as (m & t & Hm & Am).
  exists m, t. split; [right; exact Hm|]. cbn [f_core fset_wait fset_core] in Am.
  pose proof (fsatisfy_core K (append_number p (publish_seq cur q)) (nm_keys (f_pending s)) (fset_wait false (fset_core k' s))) as X.
  rewrite E2 in X. cbn in X. rewrite X. exact Am.
Qed.

(** ** The pause after an answer without news *)
Definition quiet (s : fp) (o : list fout) (s' : fp) : Prop :=
  f_wait s = true -> f_live s = [] ->
  f_wait s' = true /\ f_live s' = [] /\ f_sched s' = f_sched s /\ f_now s' = f_now s /\ no_interest o.
Lemma quiet_refl s : quiet s [] s.
Proof. intros A B. repeat split; auto. Qed.
Lemma quiet_trans s o s1 o1 s2 : quiet s o s1 -> quiet s1 o1 s2 -> quiet s (o ++ o1) s2.
Proof.
  intros A B H1 H2. destruct (A H1 H2) as (A1 & A2 & A3 & A4 & A5). destruct (B A1 A2) as (B1 & B2 & B3 & B4 & B5).
  repeat split; auto; try congruence. apply no_interest_app. auto.
Qed.
Lemma quiet_same s o s' : f_wait s' = f_wait s -> f_live s' = f_live s -> f_sched s' = f_sched s -> f_now s' = f_now s ->
  no_interest o -> quiet s o s'.
Proof. unfold quiet. intros -> -> -> ->. auto. Qed.
Section Quiet.
Variable K : fcfg.
Definition ql {A} (m : FM A) : Prop := rl quiet m.
Ltac q_same := apply quiet_same; try reflexivity; let X := fresh in intros ? ? X; cbn in X; tauto.
Ltac q_mod := apply rl_mod; intros; q_same.
Ltac q_bind := apply (rl_bind quiet quiet_trans).
Ltac q_ret := first [apply (rl_ret quiet quiet_refl)|apply (rl_lift quiet quiet_refl)].
Ltac q_get := apply rl_get; intros.
Lemma ql_op o : ql (fp_op o).
Proof.
  unfold fp_op. q_get. q_bind; [q_ret|intros k]. q_bind; [q_mod|intros _]. apply rl_emit. intros. apply quiet_same; try reflexivity.
  intros n t [H|[]]. discriminate.
Qed.
Lemma ql_prefix p : ql (prefix_seq p).
Proof. unfold prefix_seq. q_get. destruct (get_seq _ _); [q_ret|]. q_bind; [apply ql_op|intros _; q_ret]. Qed.
Lemma ql_draw : ql (draw K).
Proof. unfold draw. q_get. q_bind; [q_mod|intros _; q_ret]. Qed.
Lemma ql_send : ql (send_sync_interest K).
Proof. intros s A B. rewrite send_eq, A. cbn. repeat split; auto. Qed.
Lemma no_interest_data l : no_interest (map FoData l).
Proof. intros n t H. apply in_map_iff in H as (d & H & _). discriminate. Qed.
Lemma ql_data n l f : ql (send_sync_data K n l f).
Proof.
  intros s. apply (data_closed K quiet quiet_refl quiet_trans); intros.
  - apply quiet_same; try reflexivity. apply no_interest_data.
  - apply ql_send.
  - intros A B. cbn. rewrite B. repeat split; auto.
Qed.
Lemma ql_mark m : ql (mark_waiting m).
Proof. apply rl_mod. intros s. destruct (nm_find m (f_waiting s)); q_same. Qed.
Lemma ql_schedule : ql (schedule_waiting K).
Proof. unfold schedule_waiting. q_get. destruct (f_waiting s); [q_ret|]. destruct (f_delay s); [q_ret|]. q_bind; [apply ql_draw|intros j; q_mod]. Qed.
Lemma ql_start m : ql (start_waiting K m).
Proof. unfold start_waiting. q_bind; [q_mod|intros _; apply ql_schedule]. Qed.
Lemma ql_offered neg hs : ql (offered K neg hs).
Proof.
  induction hs as [|h hs IH]; cbn [offered]; [q_ret|]. q_get. destruct (bm_left _ _); [|exact IH]. cbv zeta.
  q_bind; [apply ql_prefix|intros v]. q_bind.
  - destruct (v =? 0); [q_ret|]. unfold is_future. q_bind; [q_ret|intros u]. q_bind; [apply ql_prefix|intros x; q_ret].
  - intros b. q_bind; [exact IH|intros l; q_ret].
Qed.
Lemma ql_emit_data d : ql (memit [FoData d]).
Proof. apply rl_emit. intros. apply quiet_same; try reflexivity. apply (no_interest_data [d]). Qed.
Lemma ql_interest m l timed : ql (on_finterest K m l timed).
Proof.
  unfold on_finterest. q_get. destruct (reply_from_store m (f_pub s)) as [d|]; [apply ql_emit_data|].
  cbv zeta. destruct (Nat.eqb _ 4).
  { unfold fp_send_nack. q_get. q_bind; [q_ret|intros dn]. q_bind; [q_mod|intros _; apply ql_emit_data]. }
  destruct (negb _); [q_ret|]. q_bind; [q_ret|intros c]. q_bind; [q_ret|intros c1]. q_bind; [q_ret|intros rcvd].
  destruct (initialize _ _ _ _) as [t [u|e|u|]]; try q_ret. q_bind; [q_ret|intros d]. destruct (can_decode d).
  - unfold on_decoded. q_get. cbv zeta.
    assert (ql (mlet l0 <- offered K (negative d) (positive d); match l0 with [] => mret tt | _ :: _ => send_sync_data K m l0 (fc_fresh K) ;; mark_waiting m end)) as H.
    { q_bind; [apply ql_offered|intros [|x y]; [q_ret|]]. q_bind; [apply ql_data|intros _; apply ql_mark]. }
    destruct (positive d) as [|h hs]; [|exact H]. destruct (negative d) as [|g gs].
    + q_bind; [q_mod|intros _; destruct timed; [apply ql_mark|q_ret]].
    + destruct timed, (nm_find m (f_waiting s0)); try q_ret; [|apply ql_start]. destruct (1 <? _); [apply ql_mark|q_ret].
  - unfold on_undecodable. q_get. cbv zeta. destruct (_ <? rcvd).
    + destruct timed, (nm_find m (f_waiting s0)); try q_ret; [|apply ql_start]. destruct (1 <? _); [|q_ret].
      q_bind; [apply ql_mark|intros _; apply ql_send].
    + destruct (_ && _); [q_ret|]. q_bind; [|intros _; apply ql_mark]. destruct (entire_state _); [q_ret|].
      q_bind; [apply ql_data|intros _; q_mod].
Qed.
Lemma ql_process : ql (process_waiting K).
Proof.
  unfold process_waiting. q_get. induction (nm_keys (f_waiting s)) as [|k l IH]; cbn [process_all]; [q_ret|]. q_bind; [|intros _; exact IH].
  unfold process_one. q_get. destruct (nm_find k (f_waiting s0)) as [v|]; [|q_ret]. cbv zeta. destruct (v =? MAX_TRIES); [q_mod|].
  q_bind; [q_mod|intros _]. q_bind; [apply ql_interest; auto|intros _]. q_get. destruct (nm_find k (f_waiting s1)) as [w|]; [|q_ret].
  destruct (w =? MAX_TRIES); [q_mod|q_ret].
Qed.
Definition paused (s : fp) (dl : N) : Prop := f_wait s = true /\ f_live s = [] /\ f_sched s = Some (dl, KAfterWait).
Lemma paused_step s dl e : paused s dl -> ~ publishes e -> f_now s + dt_of e < dl ->
  paused (st (fp_step K e s)) dl /\ f_now (st (fp_step K e s)) = f_now s + dt_of e /\ no_interest (outs (fp_step K e s)).
Proof.
  intros (A & B & C) Np L.
  assert (forall (m : FM unit), ql m -> dt_of e = 0 -> paused (st (m s)) dl /\ f_now (st (m s)) = f_now s + dt_of e /\ no_interest (outs (m s))) as G.
  { intros m H ->. destruct (H s A B) as (H1 & H2 & H3 & H4 & H5). unfold paused. rewrite H3, H4, N.add_0_r. auto. }
  destruct e as [a|m l|i buf script|i face|i timeout|dt|t| | |key|i]; cbn [fp_step dt_of] in *.
  - destruct a as [p|p|p q]; cbn [api_call]; try (apply G; [apply ql_op|reflexivity]). exfalso. apply Np. eexists _, _. reflexivity.
  - apply G; [|reflexivity]. destruct (is_prefix _ _); [apply ql_interest|q_ret].
  - rewrite mbind_get, B. apply (G (mret tt)); [q_ret|reflexivity].
  - rewrite mbind_get, B. apply (G (mret tt)); [q_ret|reflexivity].
  - rewrite mbind_get, B. apply (G (mret tt)); [q_ret|reflexivity].
  - split; [split; auto|]. split; [reflexivity|intros ? ? []].
  - apply G; [|reflexivity]. q_mod.
  - rewrite mbind_get, C. assert (dl <=? f_now s = false) as -> by (apply N.leb_gt; lia). apply (G (mret tt)); [q_ret|reflexivity].
  - apply G; [|reflexivity]. q_get. destruct (f_delay s0) as [x|]; [|q_ret]. destruct (x <=? f_now s0); [|q_ret]. q_bind; [q_mod|intros _].
    q_bind; [apply ql_process|intros _; apply ql_schedule].
  - apply G; [|reflexivity]. apply rl_mod. intros s0. destruct (nm_find key (f_pending s0)) as [x|]; [|q_same]. destruct (_ <=? _); q_same.
  - apply G; [|reflexivity]. q_mod.
Qed.
Lemma paused_run dl evs : forall s s' o, paused s dl -> Forall (fun e => ~ publishes e) evs -> f_now s + time_of evs < dl ->
  fp_run K s evs = Some (s', o) -> paused s' dl /\ no_interest o.
Proof.
  induction evs as [|e evs IH]; intros s s' o P Np L E; unfold fp_run in E; cbn [run] in E.
  - injection E as <- <-. split; [exact P|intros ? ? []].
  - inversion Np as [|x y N1 N2]; subst x y. cbn [time_of fold_right] in L. fold (time_of evs) in L.
    destruct (paused_step s dl e P N1) as (P1 & T1 & O1); [lia|].
    destruct (fp_step K e s) as [[s1 o1] r]. cbn [st outs fst snd] in *.
    destruct r as [u|x|u|]; try discriminate; fold (fp_run K s1 evs) in E;
    destruct (fp_run K s1 evs) as [[s2 o2]|] eqn:E2; try discriminate; injection E as <- <-;
    (destruct (IH s1 s2 o2 P1 N2) as [P2 O2]; [lia|exact E2|]; split; [exact P2|apply no_interest_app; auto]).
Qed.
End Quiet.

(** ** The next sync interest after news *)
Definition soon (s : fp) (o : list fout) (s' : fp) : Prop :=
  f_wait s = false -> (exists n t, In (FoInterest n t) o) \/ (f_sched s' = f_sched s /\ f_wait s' = false).
Lemma soon_refl s : soon s [] s.
Proof. intros A. auto. Qed.
Lemma soon_trans s o s1 o1 s2 : soon s o s1 -> soon s1 o1 s2 -> soon s (o ++ o1) s2.
Proof.
  intros A B H. destruct (A H) as [(n & t & X)|(X & Y)]; [left; exists n, t; apply in_or_app; auto|].
  destruct (B Y) as [(n & t & Z)|(Z & W)]; [left; exists n, t; apply in_or_app; auto|]. right. split; congruence.
Qed.
Lemma soon_same s o s' : f_wait s' = f_wait s -> f_sched s' = f_sched s -> soon s o s'.
Proof. unfold soon. intros -> ->. auto. Qed.
Section Soon.
Variable K : fcfg.
Definition nl {A} (m : FM A) : Prop := rl soon m.
Ltac n_same := apply soon_same; reflexivity.
Ltac n_mod := apply rl_mod; intros; n_same.
Ltac n_bind := apply (rl_bind soon soon_trans).
Ltac n_ret := first [apply (rl_ret soon soon_refl)|apply (rl_lift soon soon_refl)].
Ltac n_get := apply rl_get; intros.
Lemma nl_op o : nl (fp_op o).
Proof. unfold fp_op. n_get. n_bind; [n_ret|intros k]. n_bind; [n_mod|intros _]. apply rl_emit. intros. n_same. Qed.
Lemma nl_prefix p : nl (prefix_seq p).
Proof. unfold prefix_seq. n_get. destruct (get_seq _ _); [n_ret|]. n_bind; [apply nl_op|intros _; n_ret]. Qed.
Lemma nl_draw : nl (draw K).
Proof. unfold draw. n_get. n_bind; [n_mod|intros _; n_ret]. Qed.
Lemma nl_send : nl (send_sync_interest K).
Proof.
  intros s A. rewrite send_eq, A. assert (f_sched (stopped s) = f_sched s /\ f_wait (stopped s) = f_wait s) as (X & Y)
    by (unfold stopped; destruct (f_fetcher s); auto).
  destruct (sync_name _ _) as [m|x|x|]; try (right; cbn [st fst snd]; rewrite X, Y; auto; fail).
  destruct (_ && _); cbn [st outs fst snd]; [right; rewrite X, Y; auto|left]. eexists _, _. left. reflexivity.
Qed.
Lemma nl_data n l f : nl (send_sync_data K n l f).
Proof.
  intros s. apply (data_closed K soon soon_refl soon_trans); intros; try n_same. apply nl_send.
Qed.
Lemma nl_mark m : nl (mark_waiting m).
Proof. apply rl_mod. intros s. destruct (nm_find m (f_waiting s)); n_same. Qed.
Lemma nl_schedule : nl (schedule_waiting K).
Proof. unfold schedule_waiting. n_get. destruct (f_waiting s); [n_ret|]. destruct (f_delay s); [n_ret|]. n_bind; [apply nl_draw|intros j; n_mod]. Qed.
Lemma nl_start m : nl (start_waiting K m).
Proof. unfold start_waiting. n_bind; [n_mod|intros _; apply nl_schedule]. Qed.
Lemma nl_offered neg hs : nl (offered K neg hs).
Proof.
  induction hs as [|h hs IH]; cbn [offered]; [n_ret|]. n_get. destruct (bm_left _ _); [|exact IH]. cbv zeta.
  n_bind; [apply nl_prefix|intros v]. n_bind.
  - destruct (v =? 0); [n_ret|]. unfold is_future. n_bind; [n_ret|intros u]. n_bind; [apply nl_prefix|intros x; n_ret].
  - intros b. n_bind; [exact IH|intros l; n_ret].
Qed.
Lemma nl_emit_data d : nl (memit [FoData d]).
Proof. apply rl_emit. intros. n_same. Qed.
Lemma nl_interest m l timed : nl (on_finterest K m l timed).
Proof.
  unfold on_finterest. n_get. destruct (reply_from_store m (f_pub s)) as [d|]; [apply nl_emit_data|].
  cbv zeta. destruct (Nat.eqb _ 4).
  { unfold fp_send_nack. n_get. n_bind; [n_ret|intros dn]. n_bind; [n_mod|intros _; apply nl_emit_data]. }
  destruct (negb _); [n_ret|]. n_bind; [n_ret|intros c]. n_bind; [n_ret|intros c1]. n_bind; [n_ret|intros rcvd].
  destruct (initialize _ _ _ _) as [t [u|e|u|]]; try n_ret. n_bind; [n_ret|intros d]. destruct (can_decode d).
  - unfold on_decoded. n_get. cbv zeta.
    assert (nl (mlet l0 <- offered K (negative d) (positive d); match l0 with [] => mret tt | _ :: _ => send_sync_data K m l0 (fc_fresh K) ;; mark_waiting m end)) as H.
    { n_bind; [apply nl_offered|intros [|x y]; [n_ret|]]. n_bind; [apply nl_data|intros _; apply nl_mark]. }
    destruct (positive d) as [|h hs]; [|exact H]. destruct (negative d) as [|g gs].
    + n_bind; [n_mod|intros _; destruct timed; [apply nl_mark|n_ret]].
    + destruct timed, (nm_find m (f_waiting s0)); try n_ret; [|apply nl_start]. destruct (1 <? _); [apply nl_mark|n_ret].
  - unfold on_undecodable. n_get. cbv zeta. destruct (_ <? rcvd).
    + destruct timed, (nm_find m (f_waiting s0)); try n_ret; [|apply nl_start]. destruct (1 <? _); [|n_ret].
      n_bind; [apply nl_mark|intros _; apply nl_send].
    + destruct (_ && _); [n_ret|]. n_bind; [|intros _; apply nl_mark]. destruct (entire_state _); [n_ret|].
      n_bind; [apply nl_data|intros _; n_mod].
Qed.
Lemma nl_process : nl (process_waiting K).
Proof.
  unfold process_waiting. n_get. induction (nm_keys (f_waiting s)) as [|k l IH]; cbn [process_all]; [n_ret|]. n_bind; [|intros _; exact IH].
  unfold process_one. n_get. destruct (nm_find k (f_waiting s0)) as [v|]; [|n_ret]. cbv zeta. destruct (v =? MAX_TRIES); [n_mod|].
  n_bind; [n_mod|intros _]. n_bind; [apply nl_interest; auto|intros _]. n_get. destruct (nm_find k (f_waiting s1)) as [w|]; [|n_ret].
  destruct (w =? MAX_TRIES); [n_mod|n_ret].
Qed.
End Soon.

(** ** Content *)
Lemma prefix_back_snoc (p : name) x : name_prefix_back (p ++ [x]) 1 = p.
Proof. unfold name_prefix_back. rewrite app_length, Nat.add_sub, firstn_app, firstn_all, Nat.sub_diag. cbn. apply app_nil_r. Qed.
Lemma take_no_news names s : no_news (f_core s) names -> take_updates names s = (s, [], Ok []).
Proof.
  induction names as [|c names IH]; intros H; cbn [take_updates]; [reflexivity|].
  destruct (H c (or_introl eq_refl)) as (p & x & v & cur & -> & Hv & Hc & L).
  rewrite mbind_lift, name_get_minus_last, mbind_lift, Hv. cbv zeta. rewrite mbind_get, prefix_back_snoc, Hc.
  destruct (N.ltb_spec cur v) as [Q|_]; [lia|]. apply IH. intros c0 Hc0. apply H. right. exact Hc0.
Qed.
Lemma no_news_step K s i n buf script names : fp_ok K s -> fetch_of i (f_live s) = Some n ->
  content_names K buf names -> no_news (f_core s) names ->
  exists s' dl, fp_step K (FeContent i buf script) s = (s', [], Ok tt) /\ paused s' dl /\ f_now s' = f_now s /\
    f_core s' = f_core s /\ f_now s + fc_fresh K + MIN_JITTER <= dl <= f_now s + fc_fresh K + MAX_JITTER.
Proof.
  intros Ok_ Hf Hc Hn. cbn [fp_step]. rewrite mbind_get, Hf, mbind_mod. unfold on_sync_data, delete_pending. rewrite mbind_mod.
  unfold content_names in Hc. rewrite Hc. unfold mbind at 1.
  set (s1 := fset_pending _ _). rewrite (take_no_news names s1) by exact Hn. rewrite mbind_mod.
  unfold draw. rewrite mbind_assoc, mbind_get, mbind_assoc, mbind_mod, mbind_ret. unfold mmod. cbn [app].
  eexists _, _. split; [reflexivity|]. split; [split; [reflexivity|split; [|reflexivity]]|].
  - cbn. destruct (fo_live _ _ Ok_) as [X|(j & Hj & X)]; [rewrite X; reflexivity|]. rewrite X in *. cbn in Hf.
    destruct (Nat.eqb i j) eqn:Q; [|discriminate]. apply Nat.eqb_eq in Q. subst j. rewrite without_cons. reflexivity.
  - split; [reflexivity|]. split; [reflexivity|]. cbn -[jitter_of MIN_JITTER MAX_JITTER N.add].
    pose proof (jitter_bounds (fc_env K) (f_draws s)). lia.
Qed.
Definition now_rel (s : fp) (_ : list fout) (s' : fp) : Prop := f_now s' = f_now s.
Lemma now_send K s : now_rel s (outs (send_sync_interest K s)) (st (send_sync_interest K s)).
Proof.
  rewrite send_eq. unfold now_rel. assert (f_now (stopped s) = f_now s) as X by (unfold stopped; destruct (f_fetcher s); reflexivity).
  destruct (f_wait s); [reflexivity|]. destruct (sync_name _ _); try exact X. destruct (_ && _); exact X.
Qed.
Lemma now_closed K : closed K (fun _ => True) now_rel.
Proof.
  assert (forall s o s1 o1 s2, now_rel s o s1 -> now_rel s1 o1 s2 -> now_rel s (o ++ o1) s2) as T by (unfold now_rel; congruence).
  split; intros; try reflexivity; try apply now_send; [eapply T; eauto| | |].
  - apply (data_closed K now_rel); intros; try reflexivity; [eapply T; eauto|apply now_send].
  - apply (start_closed K now_rel); intros; try reflexivity. eapply T; eauto.
  - apply (arm_closed K now_rel); intros; try reflexivity. eapply T; eauto.
Qed.
Lemma news_step K s i buf script s' o l : pfx_ok (k_prefixes (f_core s)) -> fp_step K (FeContent i buf script) s = (s', o, Ok tt) -> In (FoUpdate l) o ->
  (exists n t, In (FoInterest n t) o) \/
  exists dl, f_sched s' = Some (dl, KSend) /\ f_wait s' = false /\ f_now s + MIN_JITTER <= dl <= f_now s + MAX_JITTER.
Proof.
  intros Hp E Hl. cbn [fp_step] in E. rewrite mbind_get in E. destruct (fetch_of i (f_live s)) as [n|]; [|injection E as <- <-; destruct Hl].
  rewrite mbind_mod in E. unfold on_sync_data, delete_pending in E. rewrite mbind_mod in E.
  destruct (obind _ _) as [names|x|x|]; try discriminate; [|injection E as <- <-; destruct Hl].
  set (s1 := fset_pending _ _) in E. unfold mbind at 1 in E.
  destruct (take_updates names s1) as [[s2 o2] r2] eqn:Et. destruct r2 as [ups|x|x|]; try discriminate.
  assert (f_now s2 = f_now s) as T2.
  { pose proof (tr_take K (fun _ => True) now_rel (now_closed K) (fun _ => I) (fun _ _ _ => I) names s1) as X.
    unfold tr in X. rewrite Et in X. exact X. }
  destruct ups as [|u ups].
  - exfalso. rewrite mbind_mod in E. unfold draw in E. rewrite mbind_assoc, mbind_get, mbind_assoc, mbind_mod, mbind_ret in E.
    unfold mmod in E. injection E as _ <-. rewrite app_nil_r in Hl.
    assert (only_ops o2) as O2 by exact (proj1 (proj2 (take_inv names s1 s2 o2 _ Hp Et))).
    unfold only_ops in O2. rewrite Forall_forall in O2. destruct (O2 _ Hl) as [c X]. discriminate.
  - rewrite mbind_emit in E.
    destruct ((api_calls K script ;; mlet j <- draw K; mmod (fun s => fset_wait false (fset_sched (Some (f_now s + j, KSend)) s)) ;; process_waiting K) s2)
      as [[s3 o3] r3] eqn:E3. unfold st, outs in E. cbn [fst snd] in E. injection E as <- <- ->.
    unfold mbind at 1 in E3. destruct (api_calls K script s2) as [[s4 o4] r4] eqn:E4.
    assert (f_now s4 = f_now s2) as T4.
    { pose proof (tr_apis K (fun _ => True) now_rel (now_closed K) script s2) as X.
      unfold tr in X. rewrite E4 in X. apply X. apply Forall_forall. auto. }
    destruct r4 as [[]|x|x|]; try discriminate. unfold draw in E3.
    rewrite mbind_assoc, mbind_get, mbind_assoc, mbind_mod, mbind_ret, mbind_mod in E3.
    set (s5 := fset_wait false _) in E3. pose proof (nl_process K s5) as X.
    destruct (process_waiting K s5) as [[s6 o6] r6]. injection E3 as <- <- ->. cbn [st outs fst snd] in X.
    destruct (X eq_refl) as [(n0 & t & Hin)|(Q1 & Q2)].
    + left. exists n0, t. apply in_or_app. right. right. apply in_or_app. auto.
    + right. rewrite Q1. eexists. split; [reflexivity|]. split; [exact Q2|].
      cbn -[jitter_of MIN_JITTER MAX_JITTER N.add]. pose proof (jitter_bounds (fc_env K) (f_draws s4)). lia.
Qed.

(** ** A publication leaves no pending interest *)
Lemma fsatisfy_clears K u keys n : forall s s' o, nm_sorted (f_pending s) -> In n keys \/ nm_find n (f_pending s) = None ->
  fsatisfy K u keys s = (s', o, Ok tt) -> nm_find n (f_pending s') = None.
Proof.
  induction keys as [|k keys IH]; intros s s' o So H E; cbn [fsatisfy] in E.
  - injection E as <- _. destruct H as [[]|H]; exact H.
  - unfold mbind in E. destruct (fsatisfy_one K u k s) as [[s1 o1] r1] eqn:E1. destruct r1 as [[]|x|x|]; try discriminate.
    destruct (fsatisfy K u keys s1) as [[s2 o2] r2] eqn:E2. injection E as <- <- ->.
    unfold fsatisfy_one in E1. rewrite mbind_get in E1. destruct (nm_find k (f_pending s)) as [e|] eqn:Ek.
    + rewrite mbind_lift in E1. destruct (iblt_sub _ _ _) as [d|x|x|]; try discriminate. unfold mbind in E1.
      set (l := satisfy_content _ _ _) in E1. pose proof (data_pending K k l (fc_fresh K) s) as D.
      destruct (send_sync_data K k l (fc_fresh K) s) as [[s3 o3] r3]. destruct r3; try discriminate.
      cbn [st fst snd] in D. unfold delete_pending, mmod in E1. injection E1 as <- _.
      apply IH in E2; [exact E2|cbn [f_pending fset_pending]; rewrite D; apply nm_erase_sorted; exact So|].
      cbn [f_pending fset_pending]. rewrite D. destruct (name_eqb n k) eqn:Q.
      * apply name_eqb_eq in Q. subst k. right. apply nm_find_erase_same. exact So.
      * destruct H as [[->|H]|H]; [rewrite name_eqb_refl in Q; discriminate|left; exact H|right].
        rewrite nm_find_erase_other; [exact H|]. intros ->. rewrite name_eqb_refl in Q. discriminate.
    + injection E1 as <- _. apply (IH _ _ _ So) in E2; [exact E2|]. destruct H as [[->|H]|H]; auto.
Qed.
Lemma publish_clears K s p q s' o : fp_ok K s -> get_seq p (f_core s) <> None ->
  fp_step K (FeApi (APublish p q)) s = (s', o, Ok tt) -> f_pending s' = [].
Proof.
  intros Ok_ Hp E. cbn [fp_step api_call] in E. unfold fp_publish_name in E. rewrite mbind_get in E.
  destruct (get_seq p (f_core s)) as [cur|]; [|congruence]. unfold mbind at 1 in E. unfold fp_op in E.
  rewrite mbind_get, mbind_lift in E. destruct (cstep _ _) as [k'|x|x|]; try discriminate. rewrite mbind_mod in E.
  unfold memit at 1 in E. rewrite mbind_mod in E. destruct (fsatisfy _ _ _ _) as [[s2 o2] r2] eqn:E2. injection E as <- <- ->.
  apply nm_all_none. intros k. eapply fsatisfy_clears; [|  |exact E2]; [apply Ok_|].
  cbn [f_pending fset_wait fset_core]. destruct (nm_find k (f_pending s)) eqn:X; auto. left. apply nm_In_keys. eauto.
Qed.

(** ** Content with nobody waiting *)
Definition silent (s : fp) (o : list fout) (s' : fp) : Prop := data_of o = [] /\ f_waiting s' = f_waiting s.
Lemma silent_trans s o s1 o1 s2 : silent s o s1 -> silent s1 o1 s2 -> silent s (o ++ o1) s2.
Proof. intros [A B] [C D]. split; [rewrite data_of_app, A, C; reflexivity|congruence]. Qed.
Lemma silent_take names : rl silent (take_updates names).
Proof.
  assert (forall s, silent s [] s) as Rr by (split; reflexivity).
  assert (forall o, rl silent (fp_op o)) as Op.
  { intros o. unfold fp_op. apply rl_get. intros s. apply (rl_bind silent silent_trans); [apply (rl_lift silent Rr)|intros k].
    apply (rl_bind silent silent_trans); [apply rl_mod; split; reflexivity|intros _; apply rl_emit; split; reflexivity]. }
  induction names as [|c names IH]; cbn [take_updates]; [apply (rl_ret silent Rr)|].
  apply (rl_bind silent silent_trans); [apply (rl_lift silent Rr)|intros x].
  apply (rl_bind silent silent_trans); [apply (rl_lift silent Rr)|intros v]. cbv zeta. apply rl_get. intros s.
  destruct (match get_seq _ _ with None => true | Some cur => cur <? v end); [|exact IH].
  apply (rl_bind silent silent_trans); [|intros y].
  { unfold prefix_seq. apply rl_get. intros s1. destruct (get_seq _ _); [apply (rl_ret silent Rr)|].
    apply (rl_bind silent silent_trans); [apply Op|intros _; apply (rl_ret silent Rr)]. }
  apply (rl_bind silent silent_trans); [apply Op|intros _].
  apply (rl_bind silent silent_trans); [exact IH|intros l; apply (rl_ret silent Rr)].
Qed.
Lemma content_no_data K i buf s : f_waiting s = [] -> data_of (outs (fp_step K (FeContent i buf []) s)) = [].
Proof.
  intros W. cbn [fp_step]. rewrite mbind_get. destruct (fetch_of i (f_live s)) as [n|]; [|reflexivity].
  rewrite mbind_mod. unfold on_sync_data, delete_pending. rewrite mbind_mod.
  destruct (obind _ _) as [names|x|x|]; try reflexivity. set (s1 := fset_pending _ _).
  unfold mbind at 1. pose proof (silent_take names s1) as [A B]. destruct (take_updates names s1) as [[s2 o2] r2].
  cbn [st outs fst snd] in A, B. destruct r2 as [[|u ups]|x|x|]; try exact A.
  - rewrite mbind_mod. unfold draw. rewrite mbind_assoc, mbind_get, mbind_assoc, mbind_mod, mbind_ret.
    unfold mmod. cbn [outs fst snd]. rewrite app_nil_r. exact A.
  - rewrite mbind_emit. cbn [api_calls]. rewrite mbind_ret. unfold draw. rewrite mbind_assoc, mbind_get, mbind_assoc, mbind_mod, mbind_ret, mbind_mod.
    unfold process_waiting. rewrite mbind_get. cbn [f_waiting fset_wait fset_sched fset_draws]. change (f_waiting s2 = f_waiting s) in B. rewrite B, W. cbn [nm_keys map process_all]. unfold st, outs, mret. cbn [fst snd].
    rewrite data_of_app, A. reflexivity.
Qed.
