(** Property theorems about the names on the wire (C105). *)
From Coq Require Import List NArith ZArith Bool Arith Lia.
From Coq.Strings Require Import Byte String.
From Verif Require Import Base BaseFacts Mon MonFacts Iblt SpecIblt IbltFacts Tlv TlvFacts State NMap NMapFacts
  Codec CodecFacts Bloom SpecBloom BloomFacts Properties_Bloom Store StoreFacts SpecStore Producer SpecProducer ProducerFacts Properties_Producer
  Partial SpecPartial PartialFacts PartialSteps Properties_Partial Consumer SpecConsumer ConsumerFacts Properties_Consumer
  Full FullTrace SpecFull FullFacts FullSafe FullSteps FullRuns Properties_Full SpecWire WireFacts.
Import ListNotations.
Local Open Scope list_scope.
Local Open Scope N_scope.

(** * C105 *)
Theorem C105_consumer_interests : forall K evs s o k n,
  creaches K evs s o -> In (CoInterest k n) o ->
  consumer_interest (cc_sync K) n match k with KSync => true | KHello => false end.
Proof.
  intros K evs s o k n R H. destruct (consumer_interests K evs s o R) as (b0 & _ & _ & F). rewrite Forall_forall in F.
  specialize (F _ H k n eq_refl). destruct k; [exact F|]. destruct F as (c1 & c2 & c3 & c4 & v1 & v2 & -> & H1 & H2 & H3 & _).
  exists c1, c2, c3, c4, v1, v2. auto.
Qed.
Print Assumptions C105_consumer_interests.

Theorem C105_producer_data : forall K evs s o d,
  pp_run K (pp_new K) evs = Some (s, o) -> In d o -> producer_packet (pc_sync K) d.
Proof.
  intros K evs s o d R H. destruct (producer_packets K evs s o R) as [_ F]. rewrite Forall_forall in F.
  destruct (F d H) as (req & c & (t & [T _] & _) & X). exists req, c. split; [exact T|exact X].
Qed.
Print Assumptions C105_producer_data.

Theorem C105_node_data : forall K sys evs s o d,
  reaches K sys evs s o -> In (FoData d) o -> node_packet (fc_sync K) d.
Proof. intros K sys evs s o d. apply node_wire. Qed.
Print Assumptions C105_node_data.

Theorem C105_node_interests : forall K sys evs s o n t,
  reaches K sys evs s o -> In (FoInterest n t) o -> exists count, node_interest (fc_sync K) n count.
Proof.
  intros K sys evs s o n t R H. destruct (node_packets K sys evs s o R) as (_ & _ & F). destruct (F n t H) as (k & (c & [C _] & ->) & _).
  eexists _, c, (number_comp TYPE_GENERIC (k_count k)). split; [reflexivity|]. split; [exact C|]. split; [reflexivity|].
  split; [reflexivity|apply nni_length].
Qed.
Print Assumptions C105_node_interests.

Example C105_consumer_example : exists n1 n2,
  creaches Kc evs_c1 s_c1 o_c1 /\ In (CoInterest KHello n1) o_c1 /\ In (CoInterest KSync n2) o_c1.
Proof. eexists _, _. split; [exact reach_c1|]. unfold o_c1. split; [left; reflexivity|repeat (try (left; reflexivity); right)]. Qed.
Definition evs_105 : list pev := evs_ex ++ [PInterest (syncp ++ [HELLO]) 1000; PInterest (request Kx all_ones (iblt_new 10)) 1000].
Example C105_producer_example : exists s d1 d2,
  pp_run Kx (pp_new Kx) evs_105 = Some (s, [d1; d2]) /\ d_name d1 <> d_name d2.
Proof. eexists _, _, _. split; [vm_compute; reflexivity|]. vm_compute. discriminate. Qed.
Definition evs_105n : list fev :=
  [FeApi (AAdd pa); FeInterest blank_ask 1000; FeApi (APublish pa None); FeInterest (syncp ++ [gen []; gen []; gen []; gen []]) 1000].
Example C105_node_example : exists s o d1 d2 n,
  reaches Kf 0 evs_105n s o /\ In (FoData d1) o /\ In (FoData d2) o /\ In (FoInterest n 0) o /\ d_type d1 = Blob /\ d_type d2 = AppNack.
Proof.
  assert (Forall fev_wf evs_105n) as W by (repeat constructor).
  eexists _, _, _, _, _. split; [apply (reaches_example Kf evs_105n W); vm_compute; reflexivity|].
  split; [vm_compute; do 3 right; left; reflexivity|]. split; [vm_compute; do 5 right; left; reflexivity|].
  split; [vm_compute; left; reflexivity|]. split; reflexivity.
Qed.
