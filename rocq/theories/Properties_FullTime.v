(** Property theorems about full-sync nodes: waiting interests and timers (C55-C59). *)
From Coq Require Import List NArith ZArith Bool Arith Lia Sorted.
From Coq.Strings Require Import Byte.
From Verif Require Import Base Mon MonFacts Iblt BaseFacts IbltFacts SpecIblt HonestFacts IbltProps
  Tlv State NMap TlvFacts NMapFacts Codec CodecFacts Properties_Iblt StateFacts Bloom SpecBloom BloomFacts Properties_Bloom
  Store StoreFacts Producer SpecProducer ProducerFacts Properties_Producer Partial SpecPartial PartialFacts PartialSteps
  Properties_Partial Full FullTrace SpecFull FullFacts FullSafe FullSteps FullData FullRuns FullTimers FullWaiting
  FullSends FullReplies Properties_Full.
Import ListNotations.
Local Open Scope N_scope.

(** * C55 *)
(** [v] attempts were made for the waiting interest [n] when the timer fires.  After this one it is
    off the list, unless it was the first, or the interest was answered from the store in this very
    attempt, or this node can neither serve nor dismiss it.  Missing: exactly these cases, in which the
    interest is tried again. *)
Theorem C55_dropped_after_two_partial : forall K sys evs s o dl n v s' o',
  schemes_ok K -> uri_ok K -> reaches K sys evs s o -> no_collision K o ->
  f_delay s = Some dl -> dl <= f_now s -> nm_find n (f_waiting s) = Some v -> 1 <= v ->
  fp_step K FeDelay s = (s', o', Ok tt) ->
  (forall d, In (FoData d) o' -> is_prefix n (full_name d) = false) ->
  (forall t rcvd, names_ibf K n t rcvd -> ~ stuck K (f_core s) t rcvd) ->
  nm_find n (f_waiting s') = None.
Proof.
  intros K sys evs s o dl n v s' o' Sk Uk R Hc D Hd Hv H1 E Nd Ns.
  destruct (delay_inv K s dl s' o' D Hd E) as (s1 & P & W).
  destruct (nm_find n (f_waiting s')) as [w|] eqn:F; auto. exfalso.
  pose proof (reaches_ok _ _ _ _ _ R) as Ok_.
  assert (fp_ok K (fset_delay None s)) as Ok0 by (destruct Ok_; constructor; auto).
  destruct (process_kept K (fc_n K) (fset_delay None s) s1 o' n v Sk Uk (reaches_core_ok _ _ _ _ _ R Hc) Ok0 P Hv)
    as (p & Kp); [rewrite <- W; congruence|].
  destruct Kp as [(d & A & B)|(t & rcvd & A & [B|B])].
  - specialize (Nd d B). unfold reply_from_store, store_find in A.
    destruct (lower_bound n (pb_store p)) as [d'|]; [|discriminate].
    destruct (is_prefix n (full_name d')) eqn:Q; [|discriminate]. congruence.
  - lia.
  - exact (Ns t rcvd A B).
Qed.
Print Assumptions C55_dropped_after_two_partial.

(** this node has "/a/1", the peer "/a/2": the name to send is withheld because the peer shows the
    next sequence number, so the interest is never dismissed *)
Definition a2_table : table := Eval vm_compute in
  ok_or (iblt_new 10) (iblt_insert (iblt_new 10) (name_hash (append_number pa 2))).
Definition a2_ask : name := Eval vm_compute in ask_with Kf a2_table 2.
Definition evs_55 : list fev :=
  [FeApi (AAdd pa); FeInterest a2_ask 1000; FeApi (APublish pa None);
   FeTick 600; FeDelay; FeTick 600; FeDelay; FeTick 600; FeDelay; FeTick 600; FeDelay].
Lemma wf_55 : Forall fev_wf evs_55.
Proof. repeat constructor. Qed.
Theorem C55_dropped_after_two_refuted : exists K sys evs s o n,
  schemes_ok K /\ uri_ok K /\ reaches K sys evs s o /\ no_collision K o /\
  nm_find n (f_waiting s) = Some 4.
Proof.
  eexists Kf, 0%Z, evs_55, _, _, a2_ask. split; [apply Kf_ok|]. split; [apply Kf_ok|].
  split; [apply (reaches_example Kf evs_55 wf_55); vm_compute; reflexivity|].
  split; [|vm_compute; reflexivity].
  intros pre post k E H. eapply check_free_ok; [|exact E|exact H]. vm_compute. reflexivity.
Qed.
Print Assumptions C55_dropped_after_two_refuted.

(** this node has not published: "/a/2" is all that differs *)
Definition evs_55' : list fev := [FeApi (AAdd pa); FeInterest a2_ask 1000; FeTick 600; FeDelay; FeTick 600].
Lemma wf_55' : Forall fev_wf evs_55'.
Proof. repeat constructor. Qed.
Definition s_55 : fp := Eval vm_compute in fst (full_after Kf evs_55').
Definition o_55 : list fout := Eval vm_compute in snd (full_after Kf evs_55').
Lemma reach_55 : reaches Kf 0 evs_55' s_55 o_55.
Proof. split; [apply wf_55'|vm_compute; reflexivity]. Qed.
Lemma a2_names : names_ibf Kf a2_ask a2_table 2.
Proof. split; [vm_compute; reflexivity|]. eexists _, _. repeat (split; [vm_compute; reflexivity|]). vm_compute. reflexivity. Qed.
Example C55_example : exists dl s' o',
  schemes_ok Kf /\ uri_ok Kf /\ reaches Kf 0 evs_55' s_55 o_55 /\ no_collision Kf o_55 /\
  f_delay s_55 = Some dl /\ dl <= f_now s_55 /\ nm_find a2_ask (f_waiting s_55) = Some 1 /\
  fp_step Kf FeDelay s_55 = (s', o', Ok tt) /\
  (forall d, In (FoData d) o' -> is_prefix a2_ask (full_name d) = false) /\
  (forall t rcvd, names_ibf Kf a2_ask t rcvd -> ~ stuck Kf (f_core s_55) t rcvd).
Proof.
  eexists _, _, _. split; [apply Kf_ok|]. split; [apply Kf_ok|]. split; [apply reach_55|].
  split; [intros pre post k E H; eapply check_free_ok; [|exact E|exact H]; vm_compute; reflexivity|].
  split; [vm_compute; reflexivity|]. split; [vm_compute; discriminate|]. split; [vm_compute; reflexivity|].
  split; [vm_compute; reflexivity|]. split; [intros d []|].
  intros t rcvd H. destruct (names_ibf_fun _ _ _ _ _ _ H a2_names) as [-> ->].
  assert (exists h, iblt_sub (fc_fuel Kf) (k_iblt (f_core s_55)) a2_table = Ok (mkDiff true [] [h])) as [h D]
    by (eexists; vm_compute; reflexivity).
  intros (d & E & X). rewrite D in E. injection E as <-. destruct X as [(_ & X & _)|(X & _)]; [apply X; reflexivity|discriminate].
Qed.

(** * C56 *)
Theorem C56_timer_is_armed : forall K sys evs s o,
  schemes_ok K -> uri_ok K -> reaches K sys evs s o -> f_waiting s <> [] -> f_delay s <> None.
Proof. intros K sys evs s o Sk Uk R. exact (reaches_armed K sys evs s o Sk Uk R). Qed.
Print Assumptions C56_timer_is_armed.
(** when the timer fires, every waiting interest is tried once more or dropped, and none comes in *)
Theorem C56_timer_serves_all : forall K sys evs s o dl s' o',
  reaches K sys evs s o -> f_delay s = Some dl -> dl <= f_now s ->
  fp_step K FeDelay s = (s', o', Ok tt) -> served (f_waiting s) (f_waiting s').
Proof.
  intros K sys evs s o dl s' o' R D Hd E. destruct (delay_inv K s dl s' o' D Hd E) as (s1 & P & ->).
  apply (process_find K (fset_delay None s) s1 o'); auto.
  pose proof (reaches_ok _ _ _ _ _ R) as []. constructor; auto.
Qed.
Print Assumptions C56_timer_serves_all.
(** an arriving interest concerns its own entry only *)
Theorem C56_interests_touch_one_entry : forall K s n l m,
  m <> n -> nm_find m (f_waiting (st (fp_step K (FeInterest n l) s))) = nm_find m (f_waiting s).
Proof.
  intros K s n l m H. cbn [fp_step]. destruct (is_prefix (fc_sync K) n); [|reflexivity].
  destruct (tw_finterest K n l false s) as [->|[(_ & ->)|(_ & _ & ->)]]; auto; apply nm_find_set_other; auto.
Qed.
Print Assumptions C56_interests_touch_one_entry.
(** everything else leaves the list alone, except that received content may serve it, too *)
Theorem C56_other_events : forall K sys evs s o e s' o',
  reaches K sys evs s o -> fp_step K e s = (s', o', Ok tt) ->
  (forall n l, e <> FeInterest n l) -> e <> FeDelay ->
  f_waiting s' = f_waiting s \/ (exists i b sc, e = FeContent i b sc) /\ served (f_waiting s) (f_waiting s').
Proof.
  intros K sys evs s o e s' o' R E H1 H2.
  assert (f_waiting s' = f_waiting (st (fp_step K e s))) as W by (rewrite E; reflexivity).
  destruct e as [a|n l|i buf script|i face|i timeout|dt|t| | |key|i];
    try (left; rewrite W; apply step_waiting_quiet; congruence; fail).
  destruct (step_waiting_content K s i buf script s' o' (reaches_ok _ _ _ _ _ R) E) as [H|H]; auto.
  right. split; eauto.
Qed.
Print Assumptions C56_other_events.

Lemma wait_step K n s e s' o v w : fp_ok K s -> fp_step K e s = (s', o, Ok tt) ->
  nm_find n (f_waiting s) = Some v -> nm_find n (f_waiting s') = Some w ->
  v + (if serving e s then 1 else 0) <= w.
Proof.
  intros Ok_ E Hv Hw.
  assert (forall x, served (f_waiting s) x -> nm_find n x = Some w -> v + 1 <= w) as Sv.
  { intros x S Hx. destruct (S n) as [X|(v' & A & B & _)]; [congruence|]. rewrite Hv in A. injection A as ->.
    rewrite Hx in B. injection B as ->. lia. }
  assert (st (fp_step K e s) = s') as St by (rewrite E; reflexivity).
  assert (serving e s = false -> f_waiting s' = f_waiting s -> v + (if serving e s then 1 else 0) <= w) as Q.
  { intros -> W. rewrite W in Hw. rewrite Hv in Hw. injection Hw as ->. lia. }
  destruct e as [a|m l|i buf script|i face|i timeout|dt|t| | |key|i];
    try (apply Q; [reflexivity|rewrite <- St; apply step_waiting_quiet; congruence]).
  - cbn [serving]. rewrite N.add_0_r. cbn [fp_step] in St. destruct (is_prefix (fc_sync K) m).
    + destruct (tw_finterest K m l false s) as [H|[(_ & H)|(_ & X & H)]]; rewrite St in H; rewrite H in Hw.
      * rewrite Hv in Hw. injection Hw as ->. lia.
      * destruct (name_eqb n m) eqn:Z.
        -- apply name_eqb_eq in Z. subst m. rewrite nm_find_set_same in Hw. injection Hw as <-.
           apply (fo_waiting _ _ Ok_ n v Hv).
        -- rewrite nm_find_set_other in Hw by (intros ->; rewrite name_eqb_refl in Z; discriminate).
           rewrite Hv in Hw. injection Hw as ->. lia.
      * rewrite nm_find_set_other in Hw by congruence. rewrite Hv in Hw. injection Hw as ->. lia.
    + cbn [st mret fst] in St. subst s'. rewrite Hv in Hw. injection Hw as ->. lia.
  - cbn [serving]. rewrite N.add_0_r.
    destruct (step_waiting_content K s i buf script s' o Ok_ E) as [H|H].
    + rewrite H, Hv in Hw. injection Hw as ->. lia.
    + specialize (Sv _ H Hw). lia.
  - cbn [serving]. destruct (f_delay s) as [dl|] eqn:D.
    + destruct (N.leb_spec dl (f_now s)) as [Hd|Hd].
      * destruct (delay_inv K s dl s' o D Hd E) as (s1 & P & W). apply (Sv (f_waiting s')); auto. rewrite W.
        apply (process_find K (fset_delay None s) s1 o); auto. destruct Ok_. constructor; auto.
      * cbn [fp_step] in St. rewrite mbind_get, D in St. apply N.leb_gt in Hd. rewrite Hd in St.
        cbn [st mret fst] in St. subst s'. rewrite Hv in Hw. injection Hw as ->. lia.
    + cbn [fp_step] in St. rewrite mbind_get, D in St. cbn [st mret fst] in St. subst s'. rewrite Hv in Hw. injection Hw as ->. lia.
Qed.
(** an interest that stays on the list is gone after at most 65535 attempts *)
Theorem C56_attempts_are_bounded : forall K sys evs s o n c s',
  reaches K sys evs s o -> stays K n s c s' -> c <= 65535.
Proof.
  intros K sys evs s o n c s' R. pose proof (reaches_ok _ _ _ _ _ R) as Ok_. clear R o.
  intros H.
  assert (forall v, nm_find n (f_waiting s) = Some v -> v + c <= MAX_TRIES) as G.
  { induction H as [s Hn|s e s1 o c s' Hn E S IH]; intros v Hv.
    - destruct (fo_waiting _ _ Ok_ n v Hv). lia.
    - assert (fp_ok K s1) as Ok1 by (pose proof (step_ok K e s Ok_) as X; rewrite E in X; exact X).
      assert (nm_find n (f_waiting s1) <> None) as H1 by (inversion S; auto).
      destruct (nm_find n (f_waiting s1)) as [w|] eqn:Hw; [|contradiction].
      pose proof (wait_step K n s e s1 o v w Ok_ E Hv Hw). specialize (IH Ok1 w eq_refl). lia. }
  assert (nm_find n (f_waiting s) <> None) as H1 by (inversion H; auto).
  destruct (nm_find n (f_waiting s)) as [v|]; [|contradiction]. specialize (G v eq_refl).
  change MAX_TRIES with 65535 in G. lia.
Qed.
Print Assumptions C56_attempts_are_bounded.

Lemma stays_55 : exists s', stays Kf a2_ask (fst (full_after Kf (firstn 4 evs_55))) 1 s'.
Proof.
  eexists. change 1 with (0 + if serving FeDelay (fst (full_after Kf (firstn 4 evs_55))) then 1 else 0) at 1.
  eapply stays_step; [vm_compute; discriminate|vm_compute; reflexivity|].
  apply stays_end. vm_compute. discriminate.
Qed.
Example C56_example : exists s', schemes_ok Kf /\ uri_ok Kf /\ reaches Kf 0 evs_55' s_55 o_55 /\ f_waiting s_55 <> [] /\
  stays Kf a2_ask (fst (full_after Kf (firstn 4 evs_55))) 1 s'.
Proof.
  destruct stays_55 as [s' S]. exists s'.
  split; [apply Kf_ok|]. split; [apply Kf_ok|]. split; [apply reach_55|]. split; [vm_compute; discriminate|exact S].
Qed.

(** * C57 *)
(** the timer is armed, its deadline is near, and when it fires a sync interest with the node's
    current data is sent *)
Theorem C57_never_silent : forall K sys evs s o,
  schemes_ok K -> (0 <= sys)%Z -> steady sys evs -> reaches K sys evs s o ->
  exists dl k, f_sched s = Some (dl, k) /\ dl <= f_now s + silence K /\
    forall dt, dl <= f_now s + dt -> exists n s',
      fp_run K s [FeTick dt; FeSend] = Some (s', [FoInterest n (f_sys s + Z.of_N dt)]) /\
      asks K (f_core s) n.
Proof.
  intros K sys evs s o Sk S0 St R.
  pose proof (reaches_ticking K sys evs s o Sk S0 St R) as T. destruct (tk_sched _ _ T) as (dl & k & ts & Hs & _ & _ & _ & Hl & _).
  exists dl, k. split; auto. split; auto. intros dt Hdt.
  set (s1 := fset_time (f_now s + dt) (f_sys s + Z.of_N dt) s).
  assert (ticking K s1) as T1.
  { apply (reaches_ticking K sys (evs ++ [FeTick dt]) s1 o); auto.
    - clear - St. revert sys St. induction evs as [|e evs IH]; intros sys; [intros _; exact I|].
      destruct e; cbn [app steady]; auto. intros [A B]. auto.
    - pose proof (reaches_snoc K sys evs (FeTick dt) s o R) as X. cbn [fp_step mmod res outs st fst snd] in X.
      rewrite app_nil_r in X. apply X; [apply wf_nil; reflexivity|discriminate|discriminate]. }
  destruct (fire_sends K s1 dl k Sk T1 Hs Hdt) as (n & s2 & E & _ & A).
  exists n, (sent K n s2). split; auto. unfold fp_run. cbn [run].
  change (fp_step K (FeTick dt) s) with (s1, @nil fout, Ok tt). cbv beta iota. rewrite E. reflexivity.
Qed.
Print Assumptions C57_never_silent.

(** a history with silence, a timeout and a forward step of the clock *)
Definition evs_57 : list fev := [FeTick 900; FeError 0 true; FeClock 5000; FeApi (AAdd pa); FeTick 10].
Example C57_example : exists s o, schemes_ok Kf /\ steady 0 evs_57 /\ reaches Kf 0 evs_57 s o.
Proof.
  eexists _, _. split; [apply Kf_ok|]. split; [repeat split; discriminate|].
  assert (Forall fev_wf evs_57) as W by (repeat constructor).
  apply (reaches_example Kf evs_57 W). vm_compute. reflexivity.
Qed.

(** * C58: refuted *)
(** Missing: system clocks that are set back (C57 is the proved part) *)
Theorem C58_never_silent_partial : forall K sys evs s o,
  schemes_ok K -> (0 <= sys)%Z -> steady sys evs -> reaches K sys evs s o -> f_sched s <> None.
Proof.
  intros K sys evs s o Sk S0 St R. destruct (C57_never_silent K sys evs s o Sk S0 St R) as (dl & k & -> & _). discriminate.
Qed.
Print Assumptions C58_never_silent_partial.

Example C58_example : exists s o, schemes_ok Kf /\ (0 <= 0)%Z /\ steady 0 evs_57 /\ reaches Kf 0 evs_57 s o /\ f_sched s <> None.
Proof.
  destruct C57_example as (s & o & A & B & R). exists s, o. split; [exact A|]. split; [lia|]. split; [exact B|]. split; [exact R|].
  apply (C58_never_silent_partial Kf 0 evs_57 s o A); [lia|exact B|exact R].
Qed.
(** the clock goes back by a second while the timer runs: the interest is suppressed, and neither a
    timer nor a fetch is left *)
Definition evs_58 : list fev := [FeTick 900; FeClock (-100)%Z; FeSend].
Theorem C58_never_silent_refuted : exists K sys evs s o,
  schemes_ok K /\ (0 <= sys)%Z /\ reaches K sys evs s o /\
  f_sched s = None /\ f_live s = [] /\ f_delay s = None /\
  forall dt, fp_run K s [FeTick dt; FeSend] = Some (fset_time (f_now s + dt) (f_sys s + Z.of_N dt) s, []).
Proof.
  assert (Forall fev_wf evs_58) as W by (repeat constructor).
  eexists Kf, 0%Z, evs_58, _, _. split; [apply Kf_ok|]. split; [discriminate|].
  split; [apply (reaches_example Kf evs_58 W); vm_compute; reflexivity|].
  assert (f_sched (fst (full_after Kf evs_58)) = None) as Es by (vm_compute; reflexivity).
  split; [exact Es|]. split; [vm_compute; reflexivity|]. split; [vm_compute; reflexivity|].
  intros dt. set (s := fst (full_after Kf evs_58)) in *. clearbody s. unfold fp_run. cbn [run].
  change (fp_step Kf (FeTick dt) s) with (fset_time (f_now s + dt) (f_sys s + Z.of_N dt) s, @nil fout, Ok tt).
  cbv beta iota. cbn [fp_step]. rewrite mbind_get. cbn [f_sched fset_time]. rewrite Es. reflexivity.
Qed.
Print Assumptions C58_never_silent_refuted.

(** * C59 *)
Theorem C59_interests_carry_current_ibf : forall K sys evs s o,
  reaches K sys evs s o -> asks_current K o.
Proof. exact reaches_asks. Qed.
Print Assumptions C59_interests_carry_current_ibf.
(** at most one fetch is going on, and it is for the last sync interest *)
Theorem C59_one_outstanding : forall K sys evs s o,
  schemes_ok K -> reaches K sys evs s o ->
  f_live s = [] \/
  exists i n o1 t o2, f_live s = [(i, n)] /\ o = o1 ++ FoInterest n t :: o2 /\ no_interest o2.
Proof.
  intros K sys evs s o Sk R. destruct (fo_live _ _ (reaches_ok _ _ _ _ _ R)) as [H|(i & Hi & H)]; auto.
  destruct (reaches_paced K Sk sys evs s o R) as [[(N & _)|(o1 & n & t & o2 & c & x & E & N & _ & _ & [Q|(_ & Q & _)])] _].
  - exfalso. pose proof R as [_ X]. apply start_inv in X as (s0 & o0 & o3 & X & _ & ->).
    rewrite init_eq in X. destruct (sync_name K (core_new (fc_n K))) as [n|e|u|]; try discriminate.
    injection X as _ <-. apply (N n sys). left. reflexivity.
  - right. exists i, n, o1, t, o2. rewrite H, Q. auto.
  - congruence.
Qed.
Print Assumptions C59_one_outstanding.
(** [paced]: two consecutive sync interests with the same name are at least the minimum jitter
    apart, unless the node itself answered that name in between *)
Theorem C59_interests_are_paced : forall K sys evs s o,
  schemes_ok K -> reaches K sys evs s o -> paced o.
Proof. intros K sys evs s o Sk R. apply (reaches_paced K Sk sys evs s o R). Qed.
Print Assumptions C59_interests_are_paced.

Definition evs_59 : list fev := [FeApi (AAdd pa); FeTick 2000; FeSend; FeApi (APublish pa None); FeTick 2000; FeSend].
Example C59_example : exists s o n1 n2, schemes_ok Kf /\ reaches Kf 0 evs_59 s o /\ length (f_live s) = 1%nat /\
  o = [FoInterest n1 0; FoOp (CAdd pa); FoInterest n1 2000; FoOp (CPublish pa None); FoInterest n2 4000] /\ n1 <> n2.
Proof.
  assert (Forall fev_wf evs_59) as W by (repeat constructor).
  eexists _, _, _, _. split; [apply Kf_ok|].
  split; [apply (reaches_example Kf evs_59 W); vm_compute; reflexivity|]. split; [vm_compute; reflexivity|].
  split; [vm_compute; reflexivity|]. vm_compute. discriminate.
Qed.
