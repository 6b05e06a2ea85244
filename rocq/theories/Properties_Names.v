(** Property theorems about the names of packets (C121). *)
From Coq Require Import List NArith ZArith Bool Arith Lia.
From Coq.Strings Require Import Byte.
From Verif Require Import Base BaseFacts Mon MonFacts Iblt SpecIblt IbltFacts Tlv TlvFacts State NMap NMapFacts
  Codec CodecFacts Bloom SpecBloom Properties_Bloom Store StoreFacts Producer SpecProducer ProducerFacts Properties_Producer
  Partial SpecPartial PartialFacts PartialSteps Properties_Partial
  Full FullTrace SpecFull FullFacts FullSafe FullRuns Properties_Full SpecDeliver SpecNames NamesFacts.
Import ListNotations.
Local Open Scope N_scope.

(** * C121 *)
(** among everything a producer has ever sent and still has in memory, packets with the same name are the
    same, as long as the clock gave each publication its own version *)
Theorem C121_producer_names_bound : forall K evs s o,
  pp_run K (pp_new K) evs = Some (s, o) ->
  versions_differ (pc_env K) (pb_published (pp_pub s)) -> N.of_nat (pb_signed (pp_pub s)) <= two64 ->
  names_bound (o ++ pb_store (pp_pub s)).
Proof.
  intros K evs s o R V B d1 d2 H1 H2. apply pp_run_ledger in R as (L & A & H).
  apply (listed_bound (pc_env K) (pc_sync_fresh K) L (pp_pub s)); auto.
  - apply in_app_or in H1 as [H1|H1]; [auto|left; apply (lg_store _ _ _ A), H1].
  - apply in_app_or in H2 as [H2|H2]; [auto|left; apply (lg_store _ _ _ A), H2].
Qed.
Print Assumptions C121_producer_names_bound.
(** the same for full-sync nodes *)
Theorem C121_node_names_bound : forall K sys evs s o,
  reaches K sys evs s o ->
  versions_differ (fc_env K) (pb_published (f_pub s)) -> N.of_nat (pb_signed (f_pub s)) <= two64 ->
  names_bound (data_of o ++ pb_store (f_pub s)).
Proof.
  intros K sys evs s o [_ R] V B d1 d2 H1 H2. apply fp_run_ledger in R as (L & A & H).
  apply (listed_bound (fc_env K) (fc_fresh K) L (f_pub s)); auto.
  - apply in_app_or in H1 as [H1|H1]; [auto|left; apply (lg_store _ _ _ A), H1].
  - apply in_app_or in H2 as [H2|H2]; [auto|left; apply (lg_store _ _ _ A), H2].
Qed.
Print Assumptions C121_node_names_bound.

(** ** Cases *)
(** a producer answers a hello interest twice, the second time from memory, and a request it cannot answer *)
Lemma env_example_versions m : N.of_nat m < two64 - 1000 -> versions_differ env_example m.
Proof. intros H i j Hi Hj. cbn [env_example en_version]. split; lia. Qed.
Definition odd_121 : table := Eval vm_compute in mkCell 5 3 3 :: skipn 1 (iblt_new 10).
Definition evs_121 : list pev := [PAdd pa; PPublishName pa (Some 4); PInterest (syncp ++ [HELLO]) 1000; PInterest (syncp ++ [HELLO]) 1000;
  PInterest (request Kx all_ones odd_121) 1000; PInterest (request Kx all_ones odd_121) 1000].
Definition ran_121 : option (pp * list data) := Eval vm_compute in pp_run Kx (pp_new Kx) evs_121.
Example C121_example : exists s d e1 e2,
  pp_run Kx (pp_new Kx) evs_121 = Some (s, [d; d; e1; e2]) /\
  versions_differ (pc_env Kx) (pb_published (pp_pub s)) /\ N.of_nat (pb_signed (pp_pub s)) <= two64 /\
  d_type d = Blob /\ d_content d <> [] /\ d_type e1 = AppNack /\ d_name e1 = d_name e2 /\ d_name d <> d_name e1 /\
  pb_store (pp_pub s) = [d].
Proof.
  assert (pp_run Kx (pp_new Kx) evs_121 = ran_121) as -> by (vm_compute; reflexivity).
  unfold ran_121. eexists _, _, _, _. split; [reflexivity|].
  split; [apply env_example_versions; reflexivity|]. split; [vm_compute; discriminate|].
  split; [reflexivity|]. split; [discriminate|]. split; [reflexivity|]. split; [reflexivity|]. split; [|reflexivity].
  intros X. apply (f_equal (@length _)) in X. revert X. vm_compute. discriminate.
Qed.
(** a node answers the same interest with one content, and after it has expired with another, under
    different names *)
Definition evs_121f : list fev := [FeApi (AAdd pa); FeApi (APublish pa (Some 4)); FeInterest blank_ask 1000; FeTick 1000; FeStore 0;
  FeApi (APublish pa (Some 5)); FeInterest blank_ask 1000].
Definition ran_121f : option (fp * list fout) := Eval vm_compute in fp_start Kf 0 evs_121f.
Example C121_node_example : exists s o d1 d2,
  reaches Kf 0 evs_121f s o /\ data_of o = [d1; d2] /\
  versions_differ (fc_env Kf) (pb_published (f_pub s)) /\ N.of_nat (pb_signed (f_pub s)) <= two64 /\
  d_content d1 <> d_content d2 /\ d_name d1 <> d_name d2.
Proof.
  assert (fp_start Kf 0 evs_121f = ran_121f) as R by (vm_compute; reflexivity). unfold ran_121f in R.
  eexists _, _, _, _. split; [split; [repeat constructor|exact R]|]. split; [reflexivity|].
  split; [apply env_example_versions; reflexivity|]. split; [vm_compute; discriminate|].
  split; intros X; revert X; vm_compute; discriminate.
Qed.
(** the condition matters: if the clock is set back, so that a version is used again, the same name gets
    another content *)
Definition env_121 : env := mkEnv (fun _ => 1000) (fun i => [n2b (N.of_nat i)]) (fun _ => 0) (fun n => Ok n).
Definition K_121 : fcfg := mkFcfg syncp 10 SNone SNone 1000 1000 codec_none env_121 100.
Definition ran_121s : option (fp * list fout) := Eval vm_compute in fp_start K_121 0 evs_121f.
Example C121_versions_matter : exists s o d1 d2,
  reaches K_121 0 evs_121f s o /\ data_of o = [d1; d2] /\ N.of_nat (pb_signed (f_pub s)) <= two64 /\
  d_name d1 = d_name d2 /\ d_type d1 = Blob /\ d_type d2 = Blob /\ d_content d1 <> d_content d2.
Proof.
  assert (fp_start K_121 0 evs_121f = ran_121s) as R by (vm_compute; reflexivity). unfold ran_121s in R.
  eexists _, _, _, _. split; [split; [repeat constructor|exact R]|]. split; [reflexivity|].
  split; [vm_compute; discriminate|]. split; [reflexivity|]. split; [reflexivity|]. split; [reflexivity|].
  intros X; revert X; vm_compute; discriminate.
Qed.
(** nor does the property extend to several nodes: two that answer the same interest with the same version
    use the same name *)
Definition evs_121g : list fev := [FeApi (AAdd pb); FeApi (APublish pb (Some 9)); FeInterest blank_ask 1000].
Definition evs_121h : list fev := [FeApi (AAdd pa); FeApi (APublish pa (Some 4)); FeInterest blank_ask 1000].
Definition ran_121g : option (fp * list fout) := Eval vm_compute in fp_start Kf 0 evs_121g.
Definition ran_121h : option (fp * list fout) := Eval vm_compute in fp_start Kf 0 evs_121h.
Example C121_two_nodes : exists s1 o1 s2 o2 d1 d2,
  reaches Kf 0 evs_121g s1 o1 /\ reaches Kf 0 evs_121h s2 o2 /\ data_of o1 = [d1] /\ data_of o2 = [d2] /\
  d_name d1 = d_name d2 /\ d_type d1 = Blob /\ d_type d2 = Blob /\ d_content d1 <> d_content d2.
Proof.
  assert (fp_start Kf 0 evs_121g = ran_121g) as R1 by (vm_compute; reflexivity). unfold ran_121g in R1.
  assert (fp_start Kf 0 evs_121h = ran_121h) as R2 by (vm_compute; reflexivity). unfold ran_121h in R2.
  eexists _, _, _, _, _, _. split; [split; [repeat constructor|exact R1]|]. split; [split; [repeat constructor|exact R2]|].
  split; [reflexivity|]. split; [reflexivity|]. split; [reflexivity|]. split; [reflexivity|]. split; [reflexivity|].
  intros X; revert X; vm_compute; discriminate.
Qed.
