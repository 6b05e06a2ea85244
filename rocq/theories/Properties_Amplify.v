(** C108 and C99 together: everything a full-sync node sends has causes outside of it. *)
From Coq Require Import List NArith ZArith Bool Arith Lia.
From Verif Require Import Base BaseFacts Mon MonFacts Iblt Tlv State NMap Codec Store Producer SpecProducer Partial SpecPartial Properties_Partial
  Full FullTrace SpecFull FullRuns Properties_Full Properties_Flow SpecFlood FloodFacts Properties_Flood Properties_Owed.
Import ListNotations.
Local Open Scope list_scope.
Local Open Scope N_scope.

Lemma data_sent_length o : SpecFlood.data_sent o = N.of_nat (length (data_of o)).
Proof.
  induction o as [|[d|n t|m|x] o IH]; [reflexivity|..]; unfold SpecFlood.data_sent in *; rewrite FloodFacts.count_cons, IH; cbn [data_of length]; lia.
Qed.
Lemma received_length evs : interests_received evs = N.of_nat (finterests_in evs).
Proof.
  induction evs as [|e evs IH]; [reflexivity|]. unfold interests_received in *. rewrite FloodFacts.count_cons, IH. destruct e; cbn [finterests_in]; lia.
Qed.
(** the interests a node sends over a whole run, in terms of what it receives and of the time that passes: the data
    packets it sends itself are no cause of their own *)
Theorem C108_interests_bounded : forall K sys evs s o, schemes_ok K -> reaches K sys evs s o ->
  interests_sent o <= 1 + 65536 * interests_received evs + fetches_ended evs + time_of evs / (fc_life K / 2 + 100).
Proof.
  intros K sys evs s o Sk R. pose proof (C108_interests_have_causes _ _ _ _ _ R) as A. pose proof (C99_full_node_bounded _ _ _ _ _ Sk R) as B.
  rewrite data_sent_length, received_length in A. rewrite received_length. lia.
Qed.
Print Assumptions C108_interests_bounded.
(** if no interest is both pending and waiting, two for each that is received suffice *)
Theorem C108_interests_bounded_apart : forall K sys evs s o, schemes_ok K -> uri_ok K -> reaches K sys evs s o -> never_both K sys evs ->
  interests_sent o <= 1 + 2 * interests_received evs + fetches_ended evs + time_of evs / (fc_life K / 2 + 100).
Proof.
  intros K sys evs s o Sk Uk R Nb. pose proof (C108_interests_have_causes _ _ _ _ _ R) as A.
  pose proof (C99_full_node_sends_one_per_interest_partial _ _ _ _ _ Sk Uk R Nb) as B.
  rewrite data_sent_length, received_length in A. rewrite received_length. lia.
Qed.
Print Assumptions C108_interests_bounded_apart.

(** hypotheses: the node is asked, answers more often than it is asked *)
Example C108_bounded_example : exists s o, schemes_ok Kf /\ reaches Kf 0 evs_99 s o /\ interests_received evs_99 = 2 /\
  SpecFlood.data_sent o = 3 /\ interests_sent o = 1.
Proof.
  eexists _, _. split; [apply Kf_ok|]. split; [apply (reaches_example Kf evs_99); [repeat constructor|vm_compute; reflexivity]|].
  repeat split; vm_compute; reflexivity.
Qed.
(** and never_both: see C99_example *)
