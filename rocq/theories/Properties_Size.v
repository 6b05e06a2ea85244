(** Property theorems about the sizes of interests and packets (C107). *)
From Coq Require Import List NArith ZArith Bool Arith Lia.
From Verif Require Import Base BaseFacts Mon MonFacts Iblt SpecIblt IbltFacts Tlv TlvFacts State NMap NMapFacts
  Codec CodecFacts Bloom SpecBloom BloomFacts Properties_Bloom Store StoreFacts SpecStore Producer SpecProducer ProducerFacts Properties_Producer
  Partial SpecPartial PartialFacts PartialSteps Properties_Partial Consumer SpecConsumer ConsumerFacts Properties_Consumer
  Full FullTrace SpecFull FullFacts FullSafe FullSteps FullRuns Properties_Full SpecWire WireFacts Properties_Wire SpecSize SizeFacts.
Import ListNotations.
Local Open Scope list_scope.
Local Open Scope N_scope.

(** * C107 *)
(** a sync interest of a full-sync node: the prefix, the IBF, a number of at most ten bytes *)
Theorem C107_node_interests : forall K sys evs s o n t B,
  reaches K sys evs s o -> In (FoInterest n t) o ->
  compresses_to (fc_codec K) (fc_scheme K) (12 * cells (fc_n K)) B ->
  size n <= size (fc_sync K) + field B + 10.
Proof.
  intros K sys evs s o n t B R H HB. destruct (node_packets K sys evs s o R) as (_ & _ & F).
  destruct (node_interest_sizes K n (F n t H)) as (c & m & -> & (u & Hc & L) & Hm).
  pose proof (ibf_size _ _ _ _ _ Hc L B HB). rewrite size_app, size_cons. lia.
Qed.
Print Assumptions C107_node_interests.

(** without compression the size is known up to the width of the count *)
Theorem C107_node_interests_plain : forall K sys evs s o n t,
  reaches K sys evs s o -> In (FoInterest n t) o -> fc_scheme K = SNone ->
  size (fc_sync K) + field (12 * cells (fc_n K)) + 3 <= size n <= size (fc_sync K) + field (12 * cells (fc_n K)) + 10.
Proof.
  intros K sys evs s o n t R H Hs. destruct (node_packets K sys evs s o R) as (_ & _ & F).
  destruct (node_interest_sizes K n (F n t H)) as (c & m & -> & (u & Hc & L) & Hm). rewrite Hs in Hc.
  pose proof (ibf_size_plain _ _ _ _ Hc L). rewrite size_app, size_cons. lia.
Qed.
Print Assumptions C107_node_interests_plain.

(** a node configured for 489 entries or more, without compression, asks with names that fit in no packet *)
Theorem C107_large_tables : forall K sys evs s o n t,
  reaches K sys evs s o -> In (FoInterest n t) o -> fc_scheme K = SNone -> 489 <= N.of_nat (fc_n K) ->
  MAX_PACKET < size n.
Proof.
  intros K sys evs s o n t R H Hs Hn. pose proof (C107_node_interests_plain K sys evs s o n t R H Hs) as [X _].
  assert (735 <= cells (fc_n K)) as C.
  { unfold cells. pose proof (N.div_le_mono 489 (N.of_nat (fc_n K)) 2 ltac:(discriminate) Hn) as D. change (489 / 2) with 244 in D.
    assert (735 <= N.of_nat (fc_n K) + N.of_nat (fc_n K) / 2 + 2) as E by lia.
    apply (N.div_le_mono _ _ 3) in E; [|discriminate]. change (735 / 3) with 245 in E. lia. }
  pose proof (field_above (12 * cells (fc_n K))). unfold MAX_PACKET. lia.
Qed.
Print Assumptions C107_large_tables.

(** the data of a full-sync node: a segment has at most 4400 bytes of content and adds at most 20 bytes to the name
    asked for; a Nack has no content and the size of an interest *)
Theorem C107_node_data : forall K sys evs s o d B,
  reaches K sys evs s o -> In (FoData d) o ->
  compresses_to (fc_codec K) (fc_scheme K) (12 * cells (fc_n K)) B ->
  (List.length (d_content d) <= 4400)%nat /\
  ((exists c1 c2, is_prefix (fc_sync K ++ [c1; c2]) (d_name d) = true /\ size (d_name d) <= size (fc_sync K ++ [c1; c2]) + 20) \/
   d_type d = AppNack /\ d_content d = [] /\ size (d_name d) <= size (fc_sync K) + field B + 10).
Proof.
  intros K sys evs s o d B R H HB. destruct (C105_node_data K sys evs s o d R H) as [(c1 & c2 & S)|_].
  - split; [apply (segment_size _ _ S)|left; exists c1, c2]. split; [|apply (segment_size _ _ S)].
    destruct S as (_ & v & i & z & E & _). eapply under_prefix_of. exact E.
  - destruct (node_packets K sys evs s o R) as (_ & F & _). destruct (F d H) as [(n & L & S)|(c & (u & Hc & L) & S)].
    + split; [apply (segment_size _ _ S)|left]. destruct (C105_node_data K sys evs s o d R H) as [(c1 & c2 & S')|(c & _ & T & _)].
      * exists c1, c2. split; [|apply (segment_size _ _ S')]. destruct S' as (_ & v & i & z & E & _). eapply under_prefix_of. exact E.
      * destruct S as [T' _]. congruence.
    + pose proof (nack_size _ _ S) as [N E]. rewrite E. split; [apply Nat.le_0_l|]. right. split; [apply S|]. split; [reflexivity|].
      pose proof (ibf_size _ _ _ _ _ Hc L B HB). rewrite size_app in N. lia.
Qed.
Print Assumptions C107_node_data.

(** the data of a partial-sync producer: at most 4400 bytes of content; the IBF and at most 20 bytes more than the
    name asked for *)
Theorem C107_producer_data : forall K evs s o d B,
  pp_run K (pp_new K) evs = Some (s, o) -> In d o ->
  compresses_to (pc_codec K) (pc_scheme K) (12 * cells (pc_n K)) B ->
  (List.length (d_content d) <= 4400)%nat /\
  exists req, (hello_request (pc_sync K) req \/ sync_request_name (pc_sync K) req) /\
    is_prefix req (d_name d) = true /\ size (d_name d) <= size req + field B + 20.
Proof.
  intros K evs s o d B R H HB. destruct (producer_packets K evs s o R) as [_ F]. rewrite Forall_forall in F.
  destruct (F d H) as (req & c & (t & Hc & L) & [[Hr S]|[Hr S]]); pose proof (ibf_size _ _ _ _ _ Hc L B HB) as X.
  - pose proof (segment_size _ _ S) as [Y Z]. split; [exact Z|]. exists req. split; [exact Hr|]. rewrite size_app in Y.
    split; [|lia]. destruct S as (_ & v & i & z & E & _). rewrite <- app_assoc in E. eapply under_prefix_of. exact E.
  - pose proof (nack_size _ _ S) as [Y Z]. rewrite Z. split; [apply Nat.le_0_l|]. exists req. split; [right; exact Hr|]. rewrite size_app in Y.
    split; [|lia]. destruct S as (_ & _ & z & E & _). rewrite <- app_assoc in E. eapply under_prefix_of. exact E.
Qed.
Print Assumptions C107_producer_data.

(** an interest of a consumer: the table of the filter it was configured with, two numbers, and the IBF of the last
    reply, which is a single component *)
Theorem C107_consumer_interests : forall K evs s o k n,
  creaches K evs s o -> In (CoInterest k n) o ->
  exists b0, bloom_new (cc_libm K) (cc_count K) (cc_rate K) = Ok b0 /\
    match k with
    | KHello => size n = size (cc_sync K) + 7
    | KSync => exists n1 ibf, n = n1 ++ [ibf] /\
        size (cc_sync K) + field (N.of_nat (List.length (b_tab b0))) + 12 <= size n1 <=
        size (cc_sync K) + field (N.of_nat (List.length (b_tab b0))) + 26
    end.
Proof.
  intros K evs s o k n R H. destruct (consumer_interests K evs s o R) as (b0 & N & _ & F). exists b0. split; [exact N|].
  rewrite Forall_forall in F. specialize (F _ H k n eq_refl). destruct k; cbn [asked_by] in F.
  - rewrite F, size_app. reflexivity.
  - destruct F as (c1 & c2 & c3 & c4 & v1 & v2 & -> & (T1 & _ & L1) & (T2 & _ & L2) & T3 & L3).
    exists (cc_sync K ++ [SYNC; c1; c2; c3]), c4. split; [rewrite <- app_assoc; reflexivity|].
    rewrite size_app, (size_cons SYNC), (size_cons c1), (size_cons c2), (size_one c1), (size_one c2), (size_one c3) by (rewrite ?T1, ?T2, ?T3; reflexivity).
    change (size [SYNC]) with 6. rewrite L3. pose proof (field_number _ L1). pose proof (field_number _ L2). lia.
Qed.
Print Assumptions C107_consumer_interests.

(** without compression the bound on the compressor holds *)
Example C107_no_compression : forall C l, compresses_to C SNone l l.
Proof. intros C l x y L [= <-]. rewrite L. apply N.le_refl. Qed.
Example C107_sizes : field (12 * cells 80) = 1444.
Proof. vm_compute. reflexivity. Qed.
Example C107_node_example : exists s o n,
  reaches Kf 0 evs_105n s o /\ In (FoInterest n 0) o /\ fc_scheme Kf = SNone /\ size n = size (fc_sync Kf) + field (12 * cells (fc_n Kf)) + 3.
Proof.
  assert (Forall fev_wf evs_105n) as W by (repeat constructor).
  eexists _, _, _. split; [apply (reaches_example Kf evs_105n W); vm_compute; reflexivity|].
  split; [vm_compute; left; reflexivity|]. split; [reflexivity|]. vm_compute. reflexivity.
Qed.
Definition K489 : fcfg := mkFcfg syncp 489 SNone SNone 1000 1000 codec_none env_example 100.
Example C107_large_example : exists s o n, reaches K489 0 [] s o /\ In (FoInterest n 0) o /\ size n = size syncp + field 8820 + 3.
Proof.
  eexists _, _, _. split; [apply (reaches_example K489 [] ltac:(constructor)); vm_compute; reflexivity|].
  split; [left; reflexivity|]. vm_compute. reflexivity.
Qed.
