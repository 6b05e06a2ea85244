(** C58: exactly when a node falls silent. *)
From Coq Require Import List NArith ZArith Bool Arith Lia.
From Verif Require Import Base BaseFacts Mon MonFacts Iblt SpecIblt IbltFacts Tlv TlvFacts State NMap NMapFacts
  Codec CodecFacts Store StoreFacts Producer SpecProducer ProducerFacts Partial SpecPartial PartialFacts
  PartialSteps Full FullTrace SpecFull FullFacts FullSafe FullSteps FullData FullRuns FullSends FullTimers Properties_Full Properties_FullTime.
Import ListNotations.
Local Open Scope N_scope.

(** while the node waits for a reply to become stale, the timer that ends the wait runs and nothing is fetched; with
    [b], some timer runs anyway *)
Record awake (b : bool) (s : fp) : Prop := mkAwake {
  aw_wait : f_wait s = true -> f_live s = [] /\ exists dl, f_sched s = Some (dl, KAfterWait);
  aw_sched : b = true -> f_sched s <> None }.
Definition awake_rel (b : bool) (s : fp) (_ : list fout) (s' : fp) : Prop := awake b s -> awake b s'.
Lemma awake_same b s s' : f_sched s' = f_sched s -> f_wait s' = f_wait s -> (f_live s = [] -> f_live s' = []) ->
  awake b s -> awake b s'.
Proof.
  intros C E F [A B]. split; rewrite ?C, ?E; auto. intros W. destruct (A W) as [L H]. auto.
Qed.
Lemma awake_sched b s dl k : (f_wait s = true -> k = KAfterWait /\ f_live s = []) -> awake b (fset_sched (Some (dl, k)) s).
Proof.
  intros W. split; cbn; [|discriminate]. intros E. destruct (W E) as [-> L]. eauto.
Qed.
Lemma awake_sent K b n s : f_wait s = false -> awake b (sent K n s).
Proof. intros W. unfold sent. split; cbn; [congruence|discriminate]. Qed.
Lemma awake_stopped b s : awake b s -> awake b (stopped s).
Proof. unfold stopped. destruct (f_fetcher s); auto. apply awake_same; auto. simpl. intros ->. reflexivity. Qed.
Lemma awake_send K b s : awake_rel b s (outs (send_sync_interest K s)) (st (send_sync_interest K s)).
Proof.
  intros H. rewrite send_eq. destruct (f_wait s) eqn:W; [exact H|].
  pose proof (awake_stopped b s H) as S.
  destruct (sync_name _ _) as [n|e|u|]; try exact S. destruct (_ && _); [exact S|].
  apply awake_sent. rewrite (fr_wait _ _ (frame_stopped s)). exact W.
Qed.
Lemma awake_closed K b ok : closed K ok (awake_rel b).
Proof.
  assert (forall s, awake_rel b s [] s) as Rr by (intros s H; exact H).
  assert (forall s o s1 o1 s2, awake_rel b s o s1 -> awake_rel b s1 o1 s2 -> awake_rel b s (o ++ o1) s2) as Rt
    by (unfold awake_rel; auto).
  split; intros; try (intros H'; apply awake_same with (4 := H'); auto; fail); try apply awake_send.
  - eapply Rt; eauto.
  - apply (data_closed K (awake_rel b)); intros; auto; try (intros H'; apply awake_same with (4 := H'); auto; fail); try apply awake_send.
    + eapply Rt; eauto.
    + intros H'. apply awake_same with (4 := H'); auto. simpl. intros ->. reflexivity.
  - apply (start_closed K (awake_rel b)); intros; auto; try (intros H'; apply awake_same with (4 := H'); auto; fail). eapply Rt; eauto.
  - apply (arm_closed K (awake_rel b)); intros; auto; try (intros H'; apply awake_same with (4 := H'); auto; fail). eapply Rt; eauto.
  - intros [A B]. split; [discriminate|exact B].
  - intros [A B]. split; [discriminate|discriminate].
Qed.
Lemma step_awake K b s e : pfx_ok (k_prefixes (f_core s)) -> fp_ok K s -> (b = true -> e <> FeSend) ->
  awake b s -> awake b (st (fp_step K e s)).
Proof.
  intros Pk Ok_ Hb T. pose proof (awake_closed K b (fun _ => True)) as C.
  destruct e as [a|n l|i buf script|i face|i timeout|dt|t| | |key|i];
    try (apply (tr_step_plain K _ _ C); auto; try exact I; try (apply ok_true); auto; intros x T'; revert T'; apply awake_same; auto; fail).
  - cbn [fp_step]. rewrite mbind_get. destruct (fetch_of i (f_live s)) as [n|] eqn:E; [|exact T].
    rewrite mbind_mod. assert (without i (f_live s) = [] /\ f_wait s = false) as [Lv W].
    { destruct (fo_live _ _ Ok_) as [L|(j & F & L)]; rewrite L in E; [discriminate|].
      simpl in E. destruct (Nat.eqb_spec i j) as [->|]; [|discriminate]. rewrite L, without_cons. split; auto.
      destruct (f_wait s) eqn:W; auto. destruct (aw_wait _ _ T W) as [X _]. rewrite X in L. discriminate. }
    rewrite Lv. set (s0 := fset_live [] s).
    assert (awake b s0) as T0 by (revert T; apply awake_same; auto).
    unfold on_sync_data, delete_pending. rewrite mbind_mod.
    set (s1 := fset_pending (nm_erase n (f_pending s0)) s0).
    assert (awake b s1) as T1 by (revert T0; apply awake_same; auto).
    destruct (obind _ _) as [names|e|u|]; try exact T1.
    pose proof (tr_take K (fun _ => True) (awake_rel b) C (fun _ => I) (fun _ _ _ => I) names s1 T1) as T2.
    unfold mbind at 1, st. unfold st in T2. destruct (take_updates names s1) as [[s2 o2] r2] eqn:E2.
    destruct (take_inv names s1 s2 o2 r2 Pk E2) as ([F2 _ (_ & _ & _ & _ & F2' & _)] & _ & _ & Z).
    destruct r2 as [[|m l]|e|u|]; try exact T2.
    + simpl in T2. unfold draw. rewrite mbind_mod, mbind_assoc, mbind_get, mbind_assoc, mbind_mod, mbind_ret.
      unfold mmod. cbn [fst]. apply awake_sched. intros _. split; auto.
    + unfold mbind at 1. unfold memit at 1.
      pose proof (tr_after K (fun _ => True) (awake_rel b) C (fun _ => I) s2 script (ok_true _ _ (fun _ => I)) T2) as T3.
      unfold st in T3. destruct ((api_calls K script ;; _) s2) as [[s3 o3] r3]. exact T3.
  - cbn [fp_step]. rewrite mbind_get. destruct (fetch_of i (f_live s)) as [n|] eqn:E; [|exact T].
    rewrite mbind_mod.
    assert (awake b (fset_live (without i (f_live s)) s)) as T1.
    { revert T. apply awake_same; auto. simpl. intros ->. reflexivity. }
    destruct timeout; [exact T1|]. unfold draw. rewrite mbind_assoc, mbind_get, mbind_assoc, mbind_mod, mbind_ret.
    unfold mmod, st. cbn [fst]. apply awake_sched.
    cbn. intros W. exfalso. destruct (aw_wait _ _ T W) as [X _]. rewrite X in E. discriminate.
  - revert T. apply awake_same; auto.
  - revert T. apply awake_same; auto.
  - destruct b; [destruct (Hb eq_refl eq_refl)|]. cbn [fp_step]. rewrite mbind_get.
    destruct (f_sched s) as [[dl k]|] eqn:Es; [|exact T]. destruct (dl <=? f_now s); [|exact T]. rewrite mbind_mod.
    destruct k.
    + apply awake_send. split; [|discriminate]. cbn. intros W. destruct (aw_wait _ _ T W) as [_ [d X]].
      rewrite Es in X. discriminate.
    + rewrite mbind_mod. apply awake_send. split; discriminate.
  - cbn [fp_step]. rewrite mbind_get. destruct (f_delay s) as [dl|]; [|exact T]. destruct (dl <=? _); [|exact T].
    rewrite mbind_mod. refine (tr_seq K _ _ C _ _ _ _ _ _).
    + apply (tr_process K _ _ C). auto.
    + intros. apply (tr_schedule K _ _ C).
    + revert T. apply awake_same; auto.
Qed.
Lemma reaches_awake K sys evs : forall s o, reaches K sys evs s o -> awake false s.
Proof.
  induction evs as [|e evs IH] using rev_ind; intros s o R.
  - apply reaches_nil in R as (n & _ & -> & _). apply awake_sent. reflexivity.
  - pose proof R as R'. apply reaches_inv in R' as (s1 & o1 & R1 & _ & -> & _).
    apply step_awake; [eapply reaches_pfx; eauto|eapply reaches_ok; eauto|discriminate|eapply IH; eauto].
Qed.

(** * C58 *)
(** a node loses the timer of its next sync interest exactly at a firing of that timer that finds the clock less than
    the minimum jitter after the time of the last sync interest, or before it, while nothing has changed since: the name
    of that interest, unless the node answered it itself, is the one it would send now *)
Theorem C58_silent_exactly_when : forall K sys evs s o e,
  schemes_ok K -> reaches K sys evs s o -> f_sched s <> None ->
  (f_sched (st (fp_step K e s)) = None <->
   e = FeSend /\ (exists dl k, f_sched s = Some (dl, k) /\ dl <= f_now s) /\
   exists o1 n t o2, o = o1 ++ FoInterest n t :: o2 /\ no_interest o2 /\ f_outstanding s = n /\ asks K (f_core s) n /\
     (f_sys s - t < 100)%Z).
Proof.
  intros K sys evs s o e Sk R Hs. pose proof (reaches_awake K sys evs s o R) as A.
  assert (e = FeSend \/ e <> FeSend) as [->|He] by (destruct e; ((left; reflexivity) || (right; discriminate))).
  2:{ split; [|intros [X _]; contradiction]. intros X. exfalso. revert X. apply (aw_sched true); auto.
      apply step_awake; auto; [eapply reaches_pfx; eauto|eapply reaches_ok; eauto|].
      split; [apply (aw_wait _ _ A)|auto]. }
  destruct (reaches_paced K Sk sys evs s o R) as [L _].
  destruct (f_sched s) as [[dl k]|] eqn:Es; [|destruct (Hs eq_refl)]. cbn [fp_step]. rewrite mbind_get, Es.
  destruct (N.leb_spec dl (f_now s)) as [Hd|Hd].
  2:{ unfold st, mret; cbn [fst]. rewrite Es. split; [discriminate|]. intros (_ & (dl' & k' & [= <- <-] & X) & _). lia. }
  rewrite mbind_mod.
  assert (forall s0, f_wait s0 = false -> f_core s0 = f_core s -> f_sys s0 = f_sys s -> f_last s0 = f_last s ->
    f_outstanding s0 = f_outstanding s -> f_sched s0 = None ->
    (f_sched (st (send_sync_interest K s0)) = None <->
     asks K (f_core s) (f_outstanding s) /\ (f_sys s - f_last s < 100)%Z)) as H.
  { intros s0 W Ec Ey El Eo E0. rewrite send_eq, W, Ec.
    destruct (sync_name_total K (f_core s) Sk) as (n & En & Ha). rewrite En.
    change (Z.of_N MIN_JITTER) with 100%Z. rewrite Ey, El, Eo. 
    destruct (Z.ltb_spec (f_sys s - f_last s) 100) as [X|X]; cbn [andb].
    - destruct (name_eqb (f_outstanding s) n) eqn:Z.
      + apply name_eqb_eq in Z. unfold st; cbn [fst]. rewrite Z. split; auto. intros _.
        unfold stopped. destruct (f_fetcher s0); exact E0.
      + unfold st; cbn [fst]. split; [discriminate|]. intros [Y _]. exfalso.
        assert (f_outstanding s = n) as <-; [|rewrite name_eqb_refl in Z; discriminate].
        apply asks_sync_name in Y. congruence.
    - unfold st; cbn [fst]. split; [discriminate|]. lia. }
  assert ((asks K (f_core s) (f_outstanding s) /\ (f_sys s - f_last s < 100)%Z) <->
    exists o1 n t o2, o = o1 ++ FoInterest n t :: o2 /\ no_interest o2 /\ f_outstanding s = n /\ asks K (f_core s) n /\
     (f_sys s - t < 100)%Z) as Q.
  { split.
    - intros [Ha Hl]. destruct L as [[_ X]|(o1 & n & t & o2 & c & x & E & N & _ & Et & [X|(X & _)])].
      + exfalso. rewrite X in Ha. destruct Ha as (c & _ & Y). destruct (fc_sync K); discriminate.
      + exists o1, n, t, o2. rewrite X in Ha. rewrite Et in Hl. auto 6.
      + exfalso. rewrite X in Ha. destruct Ha as (c' & _ & Y). destruct (fc_sync K); discriminate.
    - intros (o1 & n & t & o2 & E & N & <- & Ha & Hl). split; auto.
      destruct L as [[X _]|(p1 & m & u & p2 & c & x & E' & N' & _ & -> & _)].
      + exfalso. apply (X (f_outstanding s) t). rewrite E. apply in_elt.
      + rewrite E in E'. destruct (last_unique _ _ _ _ _ _ _ _ E' N N') as (_ & <- & _). exact Hl. }
  rewrite <- Q. clear Q.
  destruct k.
  - rewrite H; auto.
    + split; [intros Y; repeat split; eauto; tauto|tauto].
    + cbn. destruct (f_wait s) eqn:W; auto. destruct (aw_wait _ _ A W) as [_ [d X]]. rewrite Es in X. discriminate.
  - rewrite mbind_mod, H; auto. split; [intros Y; repeat split; eauto; tauto|tauto].
Qed.
Print Assumptions C58_silent_exactly_when.

(** the history of the refutation, one event before its end *)
Definition evs_58s : list fev := [FeTick 900; FeClock (-100)%Z].
Definition s_58s : fp := Eval vm_compute in fst (full_after Kf evs_58s).
Definition o_58s : list fout := Eval vm_compute in snd (full_after Kf evs_58s).
Example C58_silent_example : schemes_ok Kf /\ reaches Kf 0 evs_58s s_58s o_58s /\ f_sched s_58s <> None /\
  (exists dl k, f_sched s_58s = Some (dl, k) /\ dl <= f_now s_58s) /\ f_sched (st (fp_step Kf FeSend s_58s)) = None /\
  f_sched (st (fp_step Kf FeSend (fset_time (f_now s_58s) 100%Z s_58s))) <> None.
Proof.
  split; [apply Kf_ok|]. split; [split; [repeat constructor|vm_compute; reflexivity]|].
  split; [discriminate|]. split; [do 2 eexists; split; [reflexivity|vm_compute; discriminate]|].
  split; [vm_compute; reflexivity|vm_compute; discriminate].
Qed.
