(** Property theorems about the number of sync interests (C108). *)
From Coq Require Import List NArith ZArith Bool Arith Lia.
From Verif Require Import Base BaseFacts Mon MonFacts Iblt SpecIblt IbltFacts Tlv TlvFacts State NMap NMapFacts
  Codec CodecFacts Store StoreFacts SpecStore Producer SpecProducer ProducerFacts Properties_Producer
  Partial SpecPartial PartialFacts PartialSteps Properties_Partial
  Full FullTrace SpecFull FullFacts FullSafe FullSteps FullRuns Properties_Full SpecFlood FloodFacts.
Import ListNotations.
Local Open Scope list_scope.
Local Open Scope N_scope.

Lemma div_bound g x y t : g <> 0 -> g * x <= g * y + t -> x <= y + t / g.
Proof.
  intros G H. assert (x - y <= t / g); [|lia]. apply N.div_le_lower_bound; [exact G|]. rewrite N.mul_sub_distr_l. lia.
Qed.

(** * C108 *)
(** over a whole run *)
Theorem C108_interests_have_causes : forall K sys evs s o, reaches K sys evs s o ->
  interests_sent o <= 1 + data_sent o + interests_received evs + fetches_ended evs + time_of evs / (fc_life K / 2 + 100).
Proof.
  intros K sys evs s o R. destruct (reaches_og K sys evs s o R) as [_ L]. apply div_bound; [lia|]. fold (gap K). lia.
Qed.
Print Assumptions C108_interests_have_causes.

(** over a part of a run: the interests that wait at its start count as well *)
Theorem C108_interests_of_a_stretch : forall K sys evs s o evs' s' o',
  reaches K sys evs s o -> fp_run K s evs' = Some (s', o') ->
  interests_sent o' <= 1 + N.of_nat (length (f_waiting s)) + data_sent o' + interests_received evs' + fetches_ended evs' +
    time_of evs' / (fc_life K / 2 + 100).
Proof.
  intros K sys evs s o evs' s' o' R H. destruct (reaches_og K sys evs s o R) as [G _].
  destruct (run_pays K evs' s s' o' G H) as [_ L]. rewrite prices_eq in L. apply div_bound; [lia|]. fold (gap K).
  assert (credit K s <= gap K) by (unfold credit; destruct (f_sched s) as [[dl k]|]; lia). unfold waiters in L. lia.
Qed.
Print Assumptions C108_interests_of_a_stretch.

(** the bound is met by a node that is left alone *)
Definition E0 : env := mkEnv (fun _ => 0) (fun _ => []) (fun _ => 0) (fun n => Ok n).
Definition K0 : fcfg := mkFcfg syncp 10 SNone SNone 1000 1000 codec_none E0 100.
Definition alone : list fev := [FeTick 600; FeSend; FeTick 600; FeSend].
Example C108_bound_is_met : exists s o, reaches K0 1000 alone s o /\ interests_sent o = 1 + time_of alone / (fc_life K0 / 2 + 100).
Proof.
  eexists _, _. split; [split; [repeat constructor|vm_compute; reflexivity]|]. vm_compute. reflexivity.
Qed.
(** causes of every kind: an interest of its own answered by itself, and a fetch that fails *)
Definition busy_run : list fev :=
  [FeApi (AAdd pa); FeInterest blank_ask 1000; FeApi (APublish pa None); FeError 1 false; FeTick 100; FeSend].
Example C108_example : exists s o, reaches K0 1000 busy_run s o /\ interests_sent o = 3 /\ data_sent o = 1 /\
  interests_received busy_run = 1 /\ fetches_ended busy_run = 1.
Proof.
  eexists _, _. split; [split; [repeat constructor|vm_compute; reflexivity]|]. vm_compute. auto.
Qed.
