(** The timers of full-sync nodes. *)
From Coq Require Import List NArith ZArith Bool Arith Lia.
From Verif Require Import Base BaseFacts Mon MonFacts Iblt SpecIblt IbltFacts Tlv TlvFacts State NMap NMapFacts
  Codec CodecFacts Store StoreFacts Producer SpecProducer ProducerFacts Partial SpecPartial PartialFacts
  PartialSteps Full FullTrace SpecFull FullFacts FullSafe FullSteps FullData FullRuns.
Import ListNotations.
Local Open Scope N_scope.

(** ** The timer of the next sync interest *)
Record ticking (K : fcfg) (s : fp) : Prop := mkTicking {
  tk_sched : exists dl k ts, f_sched s = Some (dl, k) /\ ts <= f_now s /\
    (Z.of_N (f_now s - ts) <= f_sys s - f_last s)%Z /\ ts + MIN_JITTER <= dl /\
    dl <= f_now s + silence K /\ (f_wait s = true -> k = KAfterWait);
  tk_live : f_wait s = true -> f_live s = [] }.
Definition tick_rel (K : fcfg) (s : fp) (_ : list fout) (s' : fp) : Prop := ticking K s -> ticking K s'.
Lemma ticking_same K s s' : f_now s' = f_now s -> f_sys s' = f_sys s -> f_sched s' = f_sched s ->
  f_last s' = f_last s -> f_wait s' = f_wait s -> (f_live s = [] -> f_live s' = []) ->
  ticking K s -> ticking K s'.
Proof.
  intros A B C D E F [(dl & k & ts & H) L]. split.
  - exists dl, k, ts. rewrite A, B, C, D, E. exact H.
  - rewrite E. auto.
Qed.
Lemma ticking_sched K s dl k : f_now s + MIN_JITTER <= dl <= f_now s + silence K ->
  (f_last s <= f_sys s)%Z -> (f_wait s = true -> k = KAfterWait /\ f_live s = []) -> ticking K (fset_sched (Some (dl, k)) s).
Proof.
  intros H L W. split; [|intros E; apply W; exact E].
  exists dl, k, (f_now s). cbn [f_sched f_now f_sys f_last f_wait fset_sched].
  split; [reflexivity|]. split; [lia|]. split; [lia|]. split; [lia|]. split; [lia|]. intros E. apply W. exact E.
Qed.
Lemma ticking_last K s : ticking K s -> (f_last s <= f_sys s)%Z.
Proof. intros [(dl & k & ts & _ & _ & H & _) _]. lia. Qed.
Lemma sent_ticking K n s : f_wait s = false -> ticking K (sent K n s).
Proof.
  intros W. unfold sent. pose proof (jitter_bounds (fc_env K) (f_draws s)) as J.
  split; [|intros E; simpl in E; congruence].
  eexists _, _, (f_now s). cbn [f_sched f_now f_sys f_last f_wait fset_started fset_sched fset_draws].
  split; [reflexivity|]. split; [lia|]. split; [lia|]. unfold silence. split; [lia|]. split; [lia|]. congruence.
Qed.
Lemma tick_send K s : tick_rel K s (outs (send_sync_interest K s)) (st (send_sync_interest K s)).
Proof.
  intros H. rewrite send_eq. destruct (f_wait s) eqn:W; [exact H|].
  assert (ticking K (stopped s)) as S.
  { unfold stopped. destruct (f_fetcher s); auto. revert H. apply ticking_same; auto. simpl. intros ->. reflexivity. }
  destruct (sync_name _ _) as [n|e|u|]; try exact S. destruct (_ && _); [exact S|].
  apply sent_ticking. rewrite (fr_wait _ _ (frame_stopped s)). exact W.
Qed.
Lemma tick_closed K ok : closed K ok (tick_rel K).
Proof.
  assert (forall s, tick_rel K s [] s) as Rr by (intros s H; exact H).
  assert (forall s o s1 o1 s2, tick_rel K s o s1 -> tick_rel K s1 o1 s2 -> tick_rel K s (o ++ o1) s2) as Rt
    by (unfold tick_rel; auto).
  split; intros; try (intros H'; apply ticking_same with (7 := H'); auto; fail); try apply tick_send.
  - eapply Rt; eauto.
  - apply (data_closed K (tick_rel K)); intros; auto; try (intros H'; apply ticking_same with (7 := H'); auto; fail); try apply tick_send.
    + eapply Rt; eauto.
    + intros H'. apply ticking_same with (7 := H'); auto. simpl. intros ->. reflexivity.
  - apply (start_closed K (tick_rel K)); intros; auto; try (intros H'; apply ticking_same with (7 := H'); auto; fail). eapply Rt; eauto.
  - apply (arm_closed K (tick_rel K)); intros; auto; try (intros H'; apply ticking_same with (7 := H'); auto; fail). eapply Rt; eauto.
  - intros [(dl & k & ts & A & B & C & D & E & F) L]. split; [|discriminate].
    exists dl, k, ts. repeat split; auto. discriminate.
  - intros T. pose proof (ticking_last K s T) as L.
    change (ticking K (fset_sched (Some (f_now s + j, KSend)) (fset_wait false s))).
    apply ticking_sched; [|exact L|discriminate]. cbn. unfold silence. lia.
Qed.
Lemma ok_true {A} (P : A -> Prop) l : (forall x, P x) -> Forall P l.
Proof. intros. apply Forall_forall. auto. Qed.

(** the timer event sends *)
Lemma fire_sends K s dl k : schemes_ok K -> ticking K s -> f_sched s = Some (dl, k) -> dl <= f_now s ->
  exists n s1, fp_step K FeSend s = (sent K n s1, [FoInterest n (f_sys s)], Ok tt) /\
    f_wait s1 = false /\ asks K (f_core s) n.
Proof.
  intros Sk [(dl' & k' & ts & A & B & C & D & E & F) L] Hs Hd. rewrite Hs in A. injection A as <- <-.
  cbn [fp_step]. rewrite mbind_get, Hs. apply N.leb_le in Hd as Hd'. rewrite Hd', mbind_mod.
  assert (forall s0, f_wait s0 = false -> f_core s0 = f_core s -> f_sys s0 = f_sys s -> f_last s0 = f_last s ->
    exists n s1, send_sync_interest K s0 = (sent K n s1, [FoInterest n (f_sys s)], Ok tt) /\
    f_wait s1 = false /\ asks K (f_core s) n) as H.
  { intros s0 W Ec Es El. rewrite send_eq, W, Ec.
    destruct (sync_name_total K (f_core s) Sk) as (n & -> & Ha).
    destruct (Z.ltb_spec (f_sys s0 - f_last s0) (Z.of_N MIN_JITTER)) as [X|X].
    - exfalso. unfold MIN_JITTER in *. rewrite Es, El in X. lia.
    - cbn [andb]. exists n, (stopped s0). rewrite Es. split; [reflexivity|]. split; auto.
      rewrite (fr_wait _ _ (frame_stopped s0)). exact W. }
  destruct k.
  - apply H; auto. destruct (f_wait s) eqn:W; auto. discriminate (F eq_refl).
  - rewrite mbind_mod. apply H; auto.
Qed.

Definition steady_ev (s : fp) (e : fev) : Prop :=
  match e with FeClock t => (f_sys s <= t)%Z | _ => True end.
Lemma step_ticking K s e : schemes_ok K -> pfx_ok (k_prefixes (f_core s)) -> fp_ok K s -> steady_ev s e ->
  ticking K s -> ticking K (st (fp_step K e s)).
Proof.
  intros Sk Pk Ok_ St T. pose proof (tick_closed K (fun _ => True)) as C.
  destruct e as [a|n l|i buf script|i face|i timeout|dt|t| | |key|i];
    try (apply (tr_step_plain K _ _ C); auto; try exact I; try (apply ok_true); auto; intros x T'; revert T'; apply ticking_same; auto; fail).
  - cbn [fp_step]. rewrite mbind_get. destruct (fetch_of i (f_live s)) as [n|] eqn:E; [|exact T].
    rewrite mbind_mod. assert (without i (f_live s) = [] /\ f_wait s = false) as [Lv W].
    { destruct (fo_live _ _ Ok_) as [L|(j & F & L)]; rewrite L in E; [discriminate|].
      simpl in E. destruct (Nat.eqb_spec i j) as [->|]; [|discriminate]. rewrite L, without_cons. split; auto.
      destruct (f_wait s) eqn:W; auto. rewrite (tk_live _ _ T W) in L. discriminate. }
    rewrite Lv. set (s0 := fset_live [] s).
    assert (ticking K s0) as T0 by (revert T; apply ticking_same; auto).
    unfold on_sync_data, delete_pending. rewrite mbind_mod.
    set (s1 := fset_pending (nm_erase n (f_pending s0)) s0).
    assert (ticking K s1) as T1 by (revert T0; apply ticking_same; auto).
    destruct (obind _ _) as [names|e|u|]; try exact T1.
    pose proof (tr_take K (fun _ => True) (tick_rel K) C (fun _ => I) (fun _ _ _ => I) names s1 T1) as T2.
    unfold mbind at 1, st. unfold st in T2. destruct (take_updates names s1) as [[s2 o2] r2] eqn:E2.
    destruct (take_inv names s1 s2 o2 r2 Pk E2) as ([F2 _ (_ & _ & _ & _ & F2' & _)] & _ & _ & Z).
    destruct r2 as [[|m l]|e|u|]; try exact T2.
    + simpl in T2. unfold draw. rewrite mbind_mod, mbind_assoc, mbind_get, mbind_assoc, mbind_mod, mbind_ret.
      unfold mmod. cbn [fst]. pose proof (jitter_bounds (fc_env K) (f_draws s2)) as J.
      apply ticking_sched.
      * cbn [f_now f_draws fset_wait fset_draws]. unfold silence. lia.
      * exact (ticking_last _ _ T2).
      * intros _. split; auto.
    + unfold mbind at 1. unfold memit at 1.
      pose proof (tr_after K (fun _ => True) (tick_rel K) C (fun _ => I) s2 script (ok_true _ _ (fun _ => I)) T2) as T3.
      unfold st in T3. destruct ((api_calls K script ;; _) s2) as [[s3 o3] r3]. exact T3.
  - cbn [fp_step]. rewrite mbind_get. destruct (fetch_of i (f_live s)) as [n|] eqn:E; [|exact T].
    rewrite mbind_mod.
    assert (ticking K (fset_live (without i (f_live s)) s)) as T1.
    { revert T. apply ticking_same; auto. simpl. intros ->. reflexivity. }
    destruct timeout; [exact T1|]. unfold draw. rewrite mbind_assoc, mbind_get, mbind_assoc, mbind_mod, mbind_ret.
    unfold mmod, st. cbn [fst]. pose proof (jitter_bounds (fc_env K) (f_draws s)) as J.
    apply ticking_sched.
    + cbn [f_now f_draws fset_live fset_draws]. unfold silence. lia.
    + exact (ticking_last _ _ T1).
    + cbn. intros W. exfalso. rewrite (tk_live _ _ T W) in E. discriminate.
  - destruct T as [(dl & k & ts & A & B & D & F & G & H) L]. split; [|exact L].
    exists dl, k, ts. cbn. repeat split; auto; lia.
  - destruct T as [(dl & k & ts & A & B & D & F & G & H) L]. split; [|exact L].
    exists dl, k, ts. cbn in St |- *. repeat split; auto; lia.
  - destruct (tk_sched _ _ T) as (dl & k & ts & A & _). destruct (N.leb_spec dl (f_now s)) as [H|H].
    + destruct (fire_sends K s dl k Sk T A H) as (n & s1 & -> & W & _). apply sent_ticking; auto.
    + cbn [fp_step]. rewrite mbind_get, A. apply N.leb_gt in H. rewrite H. exact T.
  - cbn [fp_step]. rewrite mbind_get. destruct (f_delay s) as [dl|]; [|exact T]. destruct (dl <=? _); [|exact T].
    rewrite mbind_mod. refine (tr_seq K _ _ C _ _ _ _ _ _).
    + apply (tr_process K _ _ C). auto.
    + intros. apply (tr_schedule K _ _ C).
    + revert T. apply ticking_same; auto.
Qed.
Lemma steady_app sys evs e : steady sys (evs ++ [e]) -> steady sys evs.
Proof.
  revert sys. induction evs as [|x evs IH]; intros sys; simpl; auto.
  destruct x; auto. intros [A B]. split; auto.
Qed.

(** the system clock is only changed by time *)
Fixpoint clock_after (sys : Z) (evs : list fev) : Z :=
  match evs with
  | [] => sys
  | FeTick dt :: r => clock_after (sys + Z.of_N dt) r
  | FeClock t :: r => clock_after t r
  | _ :: r => clock_after sys r
  end.
Lemma clock_after_app a b : forall sys, clock_after sys (a ++ b) = clock_after (clock_after sys a) b.
Proof. induction a as [|x a IH]; intros sys; simpl; auto. destruct x; apply IH. Qed.
Lemma steady_last evs : forall sys t, steady sys (evs ++ [FeClock t]) -> (clock_after sys evs <= t)%Z.
Proof.
  induction evs as [|x evs IH]; intros sys t; simpl; [tauto|]. destruct x; auto.
  intros [_ H]. auto.
Qed.
Definition sys_rel (s : fp) (_ : list fout) (s' : fp) : Prop := f_sys s' = f_sys s.
Lemma sys_send K s : sys_rel s (outs (send_sync_interest K s)) (st (send_sync_interest K s)).
Proof.
  rewrite send_eq. unfold sys_rel, st. destruct (f_wait s); [reflexivity|].
  pose proof (fr_sys _ _ (frame_stopped s)) as F.
  destruct (sync_name _ _); try exact F. destruct (_ && _); exact F.
Qed.
Lemma sys_closed K ok : closed K ok sys_rel.
Proof.
  assert (forall s o s1 o1 s2, sys_rel s o s1 -> sys_rel s1 o1 s2 -> sys_rel s (o ++ o1) s2) as Rt
    by (unfold sys_rel; intros; congruence).
  split; intros; try reflexivity; try apply sys_send; eauto.
  - apply (data_closed K sys_rel); intros; try reflexivity; try apply sys_send; eauto.
  - apply (start_closed K sys_rel); intros; try reflexivity; eauto.
  - apply (arm_closed K sys_rel); intros; try reflexivity; eauto.
Qed.
Lemma sys_events : closed_events sys_rel.
Proof. split; reflexivity. Qed.
Lemma step_sys K s e : f_sys (st (fp_step K e s)) = clock_after (f_sys s) [e].
Proof.
  destruct e as [a|n l|i buf script|i face|i timeout|dt|t| | |key|i]; try reflexivity;
    try (apply (tr_step_but K (fun _ => True) sys_rel (sys_closed K _)); auto using sys_events;
         try exact I; apply ok_true; auto; fail).
  cbn [fp_step clock_after]. rewrite mbind_get. destruct (f_delay s) as [dl|]; [|reflexivity].
  destruct (dl <=? _); [|reflexivity]. rewrite mbind_mod.
  apply (tr_seq K (fun _ => True) sys_rel (sys_closed K _) (fset_delay None s)).
  - apply (tr_process K (fun _ => True) sys_rel (sys_closed K _)); auto.
  - intros. apply (tr_schedule K (fun _ => True) sys_rel (sys_closed K _)).
Qed.
Lemma reaches_sys K sys evs : forall s o, reaches K sys evs s o -> f_sys s = clock_after sys evs.
Proof.
  induction evs as [|e evs IH] using rev_ind; intros s o R.
  - apply reaches_nil in R as (n & _ & -> & _). reflexivity.
  - apply reaches_inv in R as (s1 & o1 & R1 & _ & -> & _). rewrite step_sys, clock_after_app.
    rewrite (IH _ _ R1). reflexivity.
Qed.
Theorem reaches_ticking K sys evs : forall s o, schemes_ok K -> (0 <= sys)%Z -> steady sys evs ->
  reaches K sys evs s o -> ticking K s.
Proof.
  induction evs as [|e evs IH] using rev_ind; intros s o Sk S0 St R.
  - apply reaches_nil in R as (n & _ & -> & _). apply sent_ticking. reflexivity.
  - pose proof R as R'. apply reaches_inv in R' as (s1 & o1 & R1 & _ & -> & _).
    apply step_ticking; auto.
    + eapply reaches_pfx; eauto.
    + eapply reaches_ok; eauto.
    + destruct e; try exact I. simpl. rewrite (reaches_sys _ _ _ _ _ R1). eapply steady_last; eauto.
    + eapply IH; eauto. eapply steady_app; eauto.
Qed.

(** ** The timer of the waiting list *)
Definition armed (s : fp) : Prop := f_waiting s <> [] -> f_delay s <> None.
Definition armed_rel (s : fp) (_ : list fout) (s' : fp) : Prop := armed s -> armed s'.
Lemma armed_same s s' : (f_waiting s' <> [] -> f_waiting s <> []) -> f_delay s' = f_delay s -> armed s -> armed s'.
Proof. unfold armed. intros A -> H B. auto. Qed.
Lemma armed_send K s : armed_rel s (outs (send_sync_interest K s)) (st (send_sync_interest K s)).
Proof.
  rewrite send_eq. unfold armed_rel, st. destruct (f_wait s); [auto|].
  pose proof (frame_stopped s) as F. 
  assert (armed s -> armed (stopped s)) as H.
  { apply armed_same; [rewrite (fr_waiting _ _ F)|rewrite (fr_delay _ _ F)]; auto. }
  destruct (sync_name _ _); try exact H. destruct (_ && _); exact H.
Qed.
Lemma schedule_armed K s : armed (st (schedule_waiting K s)).
Proof.
  rewrite schedule_eq. unfold st, armed. cbn [fst]. destruct (f_waiting s) eqn:W; [congruence|].
  destruct (f_delay s) eqn:D; [congruence|discriminate].
Qed.
Lemma armed_closed K ok : closed K ok armed_rel.
Proof.
  assert (forall s o s1 o1 s2, armed_rel s o s1 -> armed_rel s1 o1 s2 -> armed_rel s (o ++ o1) s2) as Rt
    by (unfold armed_rel; auto).
  assert (forall s s', f_waiting s' = f_waiting s -> f_delay s' = f_delay s -> armed s -> armed s') as Sm
    by (intros s s' A; apply armed_same; rewrite A; auto).
  split; intros; try (intros H'; apply Sm with (3 := H'); reflexivity); try apply armed_send; eauto.
  - apply (data_closed K armed_rel); intros; try (intros H'; apply Sm with (3 := H'); reflexivity); try apply armed_send; eauto.
  - intros _. unfold start_waiting. rewrite mbind_mod. apply schedule_armed.
  - intros H'. apply armed_same with (3 := H'); auto. intros _ E. rewrite E in H. discriminate.
  - intros H'. apply armed_same with (3 := H'); auto. intros _ E. rewrite E in H. discriminate.
  - intros H'. apply armed_same with (3 := H'); auto. intros _ E. rewrite E in H. discriminate.
  - intros _. apply schedule_armed.
Qed.
Lemma armed_events : closed_events armed_rel.
Proof. split; intros; intros Ha; exact Ha. Qed.
Lemma step_armed K s e : schemes_ok K -> uri_ok K -> fp_ok K s -> 
  (res (fp_step K e s) = Ok tt \/ exists x, res (fp_step K e s) = Throw x) ->
  armed s -> armed (st (fp_step K e s)).
Proof.
  intros Sk Uk Ok_ Hr A. destruct e as [a|n l|i buf script|i face|i timeout|dt|t| | |key|i];
    try exact A;
    try (revert A; apply (tr_step_but K (fun _ => True) armed_rel (armed_closed K _)); auto using armed_events;
         try exact I; apply ok_true; auto; fail).
  cbn [fp_step] in *. rewrite mbind_get in *. destruct (f_delay s) as [dl|] eqn:D; [|exact A].
  destruct (dl <=? _); [|exact A]. rewrite mbind_mod in *.
  assert (fp_ok K (fset_delay None s)) as Ok' by (destruct Ok_; constructor; auto).
  pose proof (tm_process K Sk Uk (fset_delay None s) Ok') as T. unfold tm in T.
  unfold mbind, st, res in *. destruct (process_waiting K (fset_delay None s)) as [[s1 o1] [[]|x|u|]]; simpl in *.
  - pose proof (schedule_armed K s1) as X. unfold st in X.
    destruct (schedule_waiting K s1) as [[s2 o2] r2]. exact X.
  - contradiction.
  - destruct Hr as [Hr|[x Hr]]; discriminate.
  - destruct Hr as [Hr|[x Hr]]; discriminate.
Qed.
Theorem reaches_armed K sys evs : forall s o, schemes_ok K -> uri_ok K -> reaches K sys evs s o -> armed s.
Proof.
  induction evs as [|e evs IH] using rev_ind; intros s o Sk Uk R.
  - apply reaches_nil in R as (n & _ & -> & _). intros X. elim X. reflexivity.
  - pose proof R as R'. apply reaches_inv in R' as (s1 & o1 & R1 & _ & -> & _ & Hr).
    apply step_armed; auto; [eapply reaches_ok; eauto|eapply IH; eauto].
Qed.
