(** C110: application callbacks that throw. *)
From Coq Require Import List NArith ZArith Bool Arith Lia Sorted.
From Coq.Strings Require Import Byte.
From Verif Require Import Base BaseFacts Mon MonFacts Iblt SpecIblt Tlv TlvFacts State StateFacts NMap NMapFacts Codec
  Bloom SpecBloom BloomFacts Properties_Bloom Store Producer SpecProducer ProducerFacts Properties_Producer Partial SpecPartial PartialFacts PartialSteps
  Properties_Partial Full FullTrace SpecFull FullFacts FullSafe FullData FullRuns FullTimers Properties_Full
  Consumer SpecConsumer ConsumerFacts Properties_Consumer Throwing SpecThrow ThrowFacts.
Import ListNotations.
Local Open Scope N_scope.

(** ** Full sync *)
(** the application is told of everything the node takes from the content, also if its callback then
    throws: either there was nothing to report, and the callback is not called, or the report covers
    all numbers by which the node is ahead, and the only other changes are those of the calls made in
    the callback *)
Theorem C110_node_reports : forall K sys evs s o i buf script x s' o' r,
  treaches K sys evs s o -> t_step K (TThrows i buf script x) s = (s', o', r) ->
  (fp_step K (FeContent i buf script) s = (s', o', r) /\ forall l, ~ In (FoUpdate l) o') \/
  exists pre l post k,
    o' = pre ++ FoUpdate l :: post /\ only_ops pre /\ no_report post /\ l <> [] /\
    crun (f_core s) (ops_of pre) = Ok k /\
    (forall p v, seq0 (get_seq p (f_core s)) < v <= seq0 (get_seq p k) ->
       exists m, In m l /\ mi_prefix m = p /\ mi_low m <= v <= mi_high m) /\
    (forall op, In op (ops_of post) -> In op (map api_op script) \/ exists p, op = CAdd p) /\
    crun k (ops_of post) = Ok (f_core s') /\
    r <> Ok tt.
Proof.
  intros K sys evs s o i buf script x s' o' r R E. cbn [t_step] in E.
  pose proof (treaches_pfx _ _ _ _ _ R) as Pk.
  destruct (content_split K i buf s Pk) as [[A B]|(n & names & s1 & o1 & l & F & T & Nl & A)].
  - left. rewrite (A _ (api_calls K script)) in E. rewrite <- content_same. split; [exact E|].
    intros l. specialize (B (api_calls K script) l). rewrite E in B. exact B.
  - right. rewrite A in E.
    assert (pfx_ok (k_prefixes (f_core (fset_pending (nm_erase n (f_pending s)) (fset_live (without i (f_live s)) s))))) as Pk0 by exact Pk.
    destruct (take_inv _ _ _ _ _ Pk0 T) as (_ & O1 & _ & Z). destruct (Z l eq_refl) as (Ch & _ & _).
    assert (core_rel (fset_pending (nm_erase n (f_pending s)) (fset_live (without i (f_live s)) s)) o1 s1) as C1.
    { pose proof (tr_take K (fun _ => True) core_rel (core_rel_closed K) (fun _ => I) (fun _ _ _ => I) names
        (fset_pending (nm_erase n (f_pending s)) (fset_live (without i (f_live s)) s))) as X.
      unfold tr, outs, st in X. rewrite T in X. exact X. }
    assert (((api_calls K script ;; (mlift (Throw x) : FM unit)) ;; after_cb K) s1 =
      (st (api_calls K script s1), outs (api_calls K script s1),
       match res (api_calls K script s1) with Ok _ => Throw x | e => e end)) as E1.
    { unfold mbind, mlift, st, outs, res. destruct (api_calls K script s1) as [[s2 o2] [[]|e|u|]]; cbn; rewrite ?app_nil_r; reflexivity. }
    rewrite E1 in E. injection E as <- <- <-.
    exists o1, l, (outs (api_calls K script s1)), (f_core s1). split; [reflexivity|]. split; [exact O1|]. split; [|split; [exact Nl|split; [exact C1|split; [|split; [|split]]]]].
    + apply (tr_apis K (fun _ => True) nr_rel (nr_closed K _)). apply Forall_forall; intros; exact I.
    + intros p v H. destruct (report_chain_cover _ _ _ _ _ Ch H) as ([lo hi] & A' & B).
      apply in_map_iff in A' as (m & [= <- <-] & Hm). apply filter_In in Hm as [Hm Hp].
      exists m. apply name_eqb_eq in Hp. auto.
    + apply Forall_forall. apply (tr_apis K (script_op script) (sop_rel (script_op script)) (sop_closed K _)).
      apply Forall_forall. intros a Ha. left. apply in_map; auto.
    + apply (tr_apis K (fun _ => True) core_rel (core_rel_closed K)). apply Forall_forall; intros; exact I.
    + destruct (res (api_calls K script s1)); discriminate.
Qed.
Print Assumptions C110_node_reports.

(** however many callbacks threw, the timer is armed, its deadline is near, and when it fires a sync
    interest with the node's current data is sent *)
Theorem C110_node_goes_on : forall K sys evs s o,
  schemes_ok K -> (0 <= sys)%Z -> tsteady sys evs -> treaches K sys evs s o ->
  exists dl k, f_sched s = Some (dl, k) /\ dl <= f_now s + silence K /\
    forall dt, dl <= f_now s + dt -> exists n s',
      fp_run K s [FeTick dt; FeSend] = Some (s', [FoInterest n (f_sys s + Z.of_N dt)]) /\
      asks K (f_core s) n.
Proof.
  intros K sys evs s o Sk S0 St R.
  pose proof (treaches_ticking K sys evs s o Sk S0 St R) as T. destruct (tk_sched _ _ T) as (dl & k & ts & Hs & _ & _ & _ & Hl & _).
  exists dl, k. split; auto. split; auto. intros dt Hdt.
  set (s1 := fset_time (f_now s + dt) (f_sys s + Z.of_N dt) s).
  assert (ticking K s1) as T1.
  { apply (step_ticking K s (FeTick dt) Sk (treaches_pfx _ _ _ _ _ R) (treaches_ok _ _ _ _ _ R) I T). }
  destruct (fire_sends K s1 dl k Sk T1 Hs Hdt) as (n & s2 & E & _ & A).
  exists n, (sent K n s2). split; auto. unfold fp_run. cbn [run].
  change (fp_step K (FeTick dt) s) with (s1, @nil fout, Ok tt). cbv beta iota. rewrite E. reflexivity.
Qed.
Print Assumptions C110_node_goes_on.

(** the requests the node could not serve at once are still tried again *)
Theorem C110_node_still_retries : forall K sys evs s o,
  schemes_ok K -> uri_ok K -> treaches K sys evs s o -> f_waiting s <> [] -> exists dl, f_delay s = Some dl.
Proof.
  intros K sys evs s o Sk Uk R W. pose proof (treaches_armed K sys evs s o Sk Uk R W) as A.
  destruct (f_delay s); [eauto|congruence].
Qed.
Print Assumptions C110_node_still_retries.

(** a callback that publishes "/a/1" and throws, when "/a/4" and "/b/5" arrive *)
Definition ev_110 : tev := TThrows 0 two_content [APublish pa None] ExState.
Definition s_110 : fp := Eval vm_compute in st (t_step Kf ev_110 s_f0).
Lemma wf_110 : tev_wf ev_110.
Proof. repeat constructor. Qed.
Example C110_node_example : exists o o',
  treaches Kf 0 [] s_f0 o /\ t_step Kf ev_110 s_f0 = (s_110, o', Throw ExState) /\
  In (FoUpdate [mkMissing pa 1 4 0; mkMissing pb 1 5 0]) o' /\
  treaches Kf 0 [ev_110] s_110 (o ++ o') /\ schemes_ok Kf /\ tsteady 0 [ev_110] /\
  get_seq pa (f_core s_110) = Some 5 /\ get_seq pb (f_core s_110) = Some 5.
Proof.
  assert (treaches Kf 0 [] s_f0 (snd (full_after Kf []))) as R0.
  { apply (plain_treaches Kf 0 [] _ _ reach_f0). }
  assert (exists o', t_step Kf ev_110 s_f0 = (s_110, o', Throw ExState) /\
    In (FoUpdate [mkMissing pa 1 4 0; mkMissing pb 1 5 0]) o') as (o' & E & U).
  { eexists. split; [vm_compute; reflexivity|]. simpl. tauto. }
  exists (snd (full_after Kf [])), o'. split; [exact R0|]. split; [exact E|]. split; [exact U|]. split.
  - apply (treaches_step Kf 0 [] ev_110 s_f0 _ _ _ _ R0 wf_110 E). right. eauto.
  - split; [apply Kf_ok|]. split; [exact I|]. split; vm_compute; reflexivity.
Qed.

(** ** Consumers *)
(** the update callback throws when sync data arrives: nothing is asked for and nothing is scheduled
    any more, and nothing will be until the application calls again *)
Theorem C110_consumer_goes_on_refuted : exists K evs s o i buf x s' o',
  filter_ok K /\ rate_ok K /\ creaches K evs s o /\ cgood_content buf /\ busy s /\
  c_content K i buf (c_callback K [] None) (c_callback K [] (Some x)) s = (s', o', Throw x) /\
  forall evs' s'' o'', Forall external evs' -> c_run K s' evs' = Some (s'', o'') -> o'' = [] /\ quiet s''.
Proof.
  eexists Kc, evs_c2, s_c2, o_c2, 1%nat, (encode_names [append_number pa 7]), ExState, _, _.
  split; [exact filter_c|]. split; [exact rate_c|]. split; [exact reach_c2|]. split.
  { exists [append_number pa 7]. split; [vm_compute; reflexivity|]. repeat constructor. apply number_good. reflexivity. }
  split; [left; discriminate|]. split; [vm_compute; reflexivity|].
  intros evs' s'' o''. apply quiet_run. split; reflexivity.
Qed.
Print Assumptions C110_consumer_goes_on_refuted.

(** the hello callback throws: numbers of a subscribed prefix are passed over without a report *)
Definition evs_110 : list cev := evs_c2 ++ [CeCall CSendHello; CeSegment 2 (seg hello_name Blob)].
Definition s_110c : cs := Eval vm_compute in fst (after evs_110).
Definition o_110c : list cout := Eval vm_compute in snd (after evs_110).
Lemma reach_110 : creaches Kc evs_110 s_110c o_110c.
Proof. apply reach_c. vm_compute. reflexivity. Qed.
Theorem C110_consumer_reports_refuted : exists K evs s o i buf x s' o' p,
  filter_ok K /\ rate_ok K /\ creaches K evs s o /\ cgood_content buf /\ is_subscribed p s = true /\
  c_content K i buf (c_callback K [] (Some x)) (c_callback K [] None) s = (s', o', Throw x) /\
  (forall l, ~ In (CoUpdate l) o') /\ seq_of p s = Some 4 /\ seq_of p s' = Some 7.
Proof.
  eexists Kc, evs_110, s_110c, o_110c, 2%nat, (encode_names [append_number pa 7]), ExState, _, _, pa.
  split; [exact filter_c|]. split; [exact rate_c|]. split; [exact reach_110|]. split.
  { exists [append_number pa 7]. split; [vm_compute; reflexivity|]. repeat constructor. apply number_good. reflexivity. }
  split; [reflexivity|]. split; [vm_compute; reflexivity|]. split; [|split; reflexivity].
  intros l [H|[]]. discriminate.
Qed.
Print Assumptions C110_consumer_reports_refuted.

(** Sync data: if the callback throws, a call of sendSyncInterest makes up for it; then the consumer is
    exactly where it would be if the callback had returned, and has shown the same.  Missing: without
    that call it stops. *)
Theorem C110_consumer_resumes_partial : forall K s i n buf sc1 sc2 x s1 o1,
  cfetch i (c_live s) = Some (KSync, n) -> c_step K (CeContent i buf sc1 sc2) s = (s1, o1, Ok tt) ->
  (c_content K i buf (c_callback K sc1 None) (c_callback K sc2 (Some x)) s = (s1, o1, Ok tt) /\
     forall l, ~ In (CoUpdate l) o1) \/
  exists s' o' o2, c_content K i buf (c_callback K sc1 None) (c_callback K sc2 (Some x)) s = (s', o', Throw x) /\
    c_step K (CeCall CSendSync) s' = (s1, o2, Ok tt) /\ o1 = o' ++ o2.
Proof.
  intros K s i n buf sc1 sc2 x s1 o1 F. cbn [c_step]. unfold c_content. rewrite !mbind_get, F.
  unfold finish. rewrite !mbind_mod. set (s0 := cset_live _ s).
  destruct (is_nack (c_type s)).
  { intros [= <- <-]. left. split; [reflexivity|simpl; tauto]. }
  unfold on_csync_data, on_csync_data_cb. rewrite !mbind_mod, !mbind_lift.
  set (s2 := cset_iblt _ s0). destruct (state_of_buffer buf) as [names|e|u|]; try discriminate.
  pose proof (take_sync_inv names s2) as [T _]. unfold c_callback, mbind, memit, mret, mlift.
  destruct (take_sync names s2) as [[s3 o3] [[|m l]|e|u|]]; try discriminate; cbn in T; subst o3.
  - destruct (send_sync K s3) as [[s4 o4] r4] eqn:E4. intros [= <- <- ->]. left. split; [reflexivity|].
    intros l H. unfold send_sync in E4. rewrite mbind_get in E4. destruct (c_iblt s3); [discriminate|]. rewrite mbind_lift in E4.
    destruct (append_bloom _ _); try discriminate. rewrite mbind_mod in E4. injection E4 as _ <-. destruct H as [H|[]]. discriminate.
  - destruct (calls K sc2 s3) as [[s4 o4] [[]|e|u|]]; try discriminate.
    destruct (send_sync K s4) as [[s5 o5] r5] eqn:E5. intros [= <- <- ->]. right.
    exists s4, (CoUpdate (m :: l) :: o4), o5. cbn [c_step call app fst snd]. rewrite ?app_nil_r. split; [reflexivity|]. split; [exact E5|]. reflexivity.
Qed.
Print Assumptions C110_consumer_resumes_partial.

(** Hello data: an update callback that throws leaves the consumer where one that returns leaves it *)
Theorem C110_consumer_hello_partial : forall K s i n buf sc1 sc2 x s1 o1,
  cfetch i (c_live s) = Some (KHello, n) -> c_step K (CeContent i buf sc1 sc2) s = (s1, o1, Ok tt) ->
  exists r, c_content K i buf (c_callback K sc1 None) (c_callback K sc2 (Some x)) s = (s1, o1, r) /\
    (r = Ok tt \/ r = Throw x).
Proof.
  intros K s i n buf sc1 sc2 x s1 o1 F. cbn [c_step]. unfold c_content. rewrite !mbind_get, F.
  unfold finish. rewrite !mbind_mod. set (s0 := cset_live _ s).
  unfold on_hello_data, on_hello_data_cb. rewrite !mbind_mod, !mbind_lift.
  set (s2 := cset_iblt _ s0). destruct (state_of_buffer buf) as [names|e|u|]; try discriminate.
  unfold c_callback, mbind, memit, mret, mlift.
  destruct (take_hello names [] s2) as [[s3 o3] [[[|m l] av]|e|u|]]; try discriminate; cbn [fst snd];
    destruct (calls K sc1 s3) as [[s4 o4] [[]|e|u|]]; try discriminate.
  - intros [= <- <-]. eauto.
  - destruct (calls K sc2 s4) as [[s5 o5] [[]|e|u|]]; try discriminate. intros [= <- <-]. exists (Throw x).
    cbn. rewrite ?app_nil_r. auto.
Qed.
Print Assumptions C110_consumer_hello_partial.

(** both cases: sync data and hello data for a subscribed prefix, with callbacks that call back *)
Example C110_consumer_example : exists n m s1 o1 s2 o2 l,
  creaches Kc evs_110 s_110c o_110c /\
  cfetch 1 (c_live s_110c) = Some (KSync, n) /\ cfetch 2 (c_live s_110c) = Some (KHello, m) /\
  c_step Kc (CeContent 1 (encode_names [append_number pa 7]) [] [CUnsub pb]) s_110c = (s1, o1, Ok tt) /\
  c_step Kc (CeContent 2 (encode_names [append_number pa 7]) [CSendSync] [CUnsub pb]) s_110c = (s2, o2, Ok tt) /\
  In (CoUpdate l) o1 /\ In (CoUpdate l) o2.
Proof.
  eexists _, _, _, _, _, _, [mkMissing pa 5 7 0]. split; [exact reach_110|]. split; [reflexivity|]. split; [reflexivity|].
  split; [vm_compute; reflexivity|]. split; [vm_compute; reflexivity|]. split; simpl; tauto.
Qed.
