(** Property theorems about replies that are fetched segment by segment (C132). *)
From Coq Require Import List NArith ZArith Bool Arith Lia.
From Coq.Strings Require Import Byte.
From Verif Require Import Base BaseFacts Mon MonFacts Iblt SpecIblt IbltFacts Tlv TlvFacts State NMap NMapFacts
  Codec CodecFacts Bloom SpecBloom Properties_Bloom Store StoreFacts SpecStore Properties_Store
  Producer SpecProducer ProducerFacts Properties_Producer
  Partial SpecPartial PartialFacts PartialSteps Properties_Partial PairProducer
  Full FullTrace SpecFull FullFacts FullSafe FullRuns FullLog Properties_Full SpecWire Properties_Wire SpecDeliver SpecNames Properties_Names
  SpecForget ForgetFacts AvailFacts SpecAvail Properties_Avail SpecSnap SnapFacts.
Import ListNotations.
Local Open Scope N_scope.

(** * C132 *)
(** a partial producer: whoever fetches the segments of a reply it has made, one after the other and with any
    other events in between, gets the list of one moment, the one of the IBF in the name of the reply *)
Theorem C132_producer_snapshot : forall K evs e s1 o1 s2 o2 d0,
  Forall pev_wf (evs ++ [e]) -> collision_free (pc_n K) (history (evs ++ [e])) ->
  pp_run K (pp_new K) evs = Some (s1, o1) -> pp_run K s1 [e] = Some (s2, o2) ->
  In d0 o2 -> d_type d0 = Blob -> ~ In d0 (pb_store (pp_pub s1)) ->
  exists rname c v last i0 names,
    let vname := rname ++ [c; number_comp TYPE_VERSION v] in
    d_name d0 = nth_segment vname i0 /\ (i0 <= last)%nat /\
    d_final d0 = Some (number_comp TYPE_SEGMENT (N.of_nat last)) /\
    carries_ibf (pc_codec K) (pc_scheme K) c (k_iblt (pp_core s2)) /\
    (forall nm, In nm names -> exists p w, nm = append_number p w /\ get_seq p (pp_core s2) = Some w) /\
    (rname = pc_sync K ++ [HELLO] /\ (forall p w, get_seq p (pp_core s2) = Some w -> In (append_number p w) names) \/
     is_prefix (pc_sync K ++ [SYNC]) rname = true) /\
    forall l gaps s o, length gaps = S last -> pp_run K s2 (pp_fetch_events vname l 0 gaps) = Some (s, o) ->
      versions_differ (pc_env K) (pb_published (pp_pub s)) -> N.of_nat (pb_signed (pp_pub s)) <= two64 ->
      pp_now s < pp_now s1 + d_fresh d0 -> (pb_signed (pp_pub s) <= pb_signed (pp_pub s1) + 100)%nat ->
      pp_fetch K vname l last 0 gaps s2 = Some (s, encode_names names).
Proof.
  intros K evs e s1 o1 s2 o2 d0 W Hc R1 R2 Hd Hb Hnew.
  destruct (producer_issue K evs s1 o1 e s2 o2 d0 R1 R2 Hd Hb Hnew) as (x & i0 & Hi0 & Ed0 & (rn & c & names & Hcc & Eb & Ebuf & Kind) & Stay).
  assert (pp_run K (pp_new K) (evs ++ [e]) = Some (s2, o1 ++ o2)) as R12.
  { unfold pp_run in *. rewrite run_app, R1, R2. reflexivity. }
  assert (vname_of (pc_env K) x = rn ++ [c; number_comp TYPE_VERSION (en_version (pc_env K) (is_no x))]) as Ev.
  { unfold vname_of, append_version. rewrite Eb, <- app_assoc. reflexivity. }
  pose proof (nseg_bounds (is_buf x)) as (Np & _).
  exists rn, c, (en_version (pc_env K) (is_no x)), (nseg (is_buf x) - 1)%nat, i0, names. cbv zeta. rewrite <- Ev.
  split; [rewrite Ed0; reflexivity|]. split; [lia|]. split; [rewrite Ed0; reflexivity|]. split; [exact Hcc|].
  split; [|split].
  - destruct (reach_core _ _ _ _ W R12) as [W' C]. intros nm Hn.
    destruct Kind as [(_ & _ & ->)|(_ & _ & Kind)].
    + pose proof (crun_pfx _ _ _ (core_new_pfx _) W' C) as [So Bo]. unfold hello_content in Hn.
      apply in_map_iff in Hn as ((p & w) & <- & Hi). exists p, w. split; auto. unfold get_seq. apply nm_In_find; auto.
    + destruct (Kind nm Hn) as [(h & Hh)|X]; [|exact X].
      apply (bimap_live K (evs ++ [e]) s2 (o1 ++ o2)) in Hh as [Hx _]; auto.
      apply (C30_live_names _ _ _ nm W' C) in Hx as (p1 & v1 & Hv1 & _ & ->).
      exists p1, v1. split; auto. rewrite <- Hv1. apply (C29_sequence_numbers _ _ _ p1 W' C).
  - destruct Kind as [(-> & _ & ->)|((r & -> & _) & _)]; [left|right].
    + split; [reflexivity|]. intros p w G. unfold hello_content. apply in_map_iff. exists (p, w). split; auto. apply nm_find_In; auto.
    + apply is_prefix_iff. exists r. rewrite <- app_assoc. reflexivity.
  - intros l gaps s o Hl R3 V B T Sg. rewrite <- Ebuf. 
    assert (concat (map (fun j => d_content (leaf (pc_env K) x j)) (seq 0 (length gaps))) = is_buf x) as Ec.
    { replace (length gaps) with (nseg (is_buf x)) by lia. apply leaf_contents. }
    rewrite <- Ec at 2.
    assert (is_fresh x = d_fresh d0) as Ef by (rewrite Ed0; reflexivity). rewrite <- Ef in T.
    apply (pp_fetch_ok K x s2 (pp_now s1 + is_fresh x) (pb_signed (pp_pub s1) + 100)) with (evs0 := []) (o0 := []) (of := o); auto.
    + apply (pp_run_moves K _ _ _ R12).
    + intros evs' s' o' R' (V' & B' & T' & Sg'). exact (Stay evs' s' o' R' V' B' T' Sg').
    + lia.
    + exact (conj V (conj B (conj T Sg))).
Qed.
Print Assumptions C132_producer_snapshot.

(** a full-sync node: the same, with the data of one moment during the event that made it answer *)
Theorem C132_node_snapshot : forall K sys evs e s1 o1 s2 o2 d0,
  uri_ok K -> reaches K sys evs s1 o1 -> reaches K sys (evs ++ [e]) s2 (o1 ++ o2) -> no_collision K (o1 ++ o2) ->
  In (FoData d0) o2 -> d_type d0 = Blob -> ~ In d0 (pb_store (f_pub s1)) ->
  exists vname last i0 k names buf,
    d_name d0 = nth_segment vname i0 /\ (i0 <= last)%nat /\
    d_final d0 = Some (number_comp TYPE_SEGMENT (N.of_nat last)) /\
    held_during (f_core s1) o2 k /\ compress (fc_codec K) (fc_cscheme K) (encode_names names) = Ok buf /\
    (forall nm, In nm names -> named_then e k nm) /\
    forall l gaps s o, length gaps = S last -> fp_run K s2 (fp_fetch_events vname l 0 gaps) = Some (s, o) ->
      versions_differ (fc_env K) (pb_published (f_pub s)) -> N.of_nat (pb_signed (f_pub s)) <= two64 ->
      f_now s < f_now s1 + d_fresh d0 -> (pb_signed (f_pub s) <= pb_signed (f_pub s1) + 100)%nat ->
      fp_fetch K vname l last 0 gaps s2 = Some (s, buf).
Proof.
  intros K sys evs e s1 o1 s2 o2 d0 Uk R1 R12 Nc Hd Hb Hnew.
  assert (fev_wf e) as We. { destruct R12 as [W _]. apply Forall_app in W as [_ W]. inversion W; auto. }
  destruct (node_issue K sys evs s1 o1 e s2 o2 d0 Uk R1 R12 Hd Hb Hnew) as (Eo & Es & x & i0 & Hi0 & Ed0 & Mx & A2 & M2 & Stay).
  destruct Mx as (oa & oc & k & names & Eo2 & Ck & Co & Cm).
  pose proof (nseg_bounds (is_buf x)) as (Np & _).
  exists (vname_of (fc_env K) x), (nseg (is_buf x) - 1)%nat, i0, k, names, (is_buf x).
  split; [rewrite Ed0; reflexivity|]. split; [lia|]. split; [rewrite Ed0; reflexivity|].
  split; [exists oa, oc; auto|]. split; [exact Co|]. split.
  - assert (core_ok (fc_n K) k) as Ok_ by (rewrite Eo in *; eapply (made_ok K sys evs e s1 o1 oa oc k); eauto).
    specialize (Cm Ok_). intros nm Hnm.
    destruct (computed_names _ _ _ _ _ _ Ok_ Cm nm Hnm) as [(p & v & A & B & ->)|(p & q & c & -> & [A|[(y & A)|(y & z & A)]])];
      [left; eauto|right; eauto 10|discriminate..].
  - intros l gaps s o Hl R3 V B T Sg. 
    assert (concat (map (fun j => d_content (leaf (fc_env K) x j)) (seq 0 (length gaps))) = is_buf x) as Ec.
    { replace (length gaps) with (nseg (is_buf x)) by lia. apply leaf_contents. }
    rewrite <- Ec at 2.
    assert (is_fresh x = d_fresh d0) as Ef by (rewrite Ed0; reflexivity). rewrite <- Ef in T.
    apply (fp_fetch_ok K x s2 (f_now s1 + is_fresh x) (pb_signed (f_pub s1) + 100)) with (evs0 := []) (o0 := []) (of := o); auto.
    + lia.
    + exact (conj V (conj B (conj T Sg))).
Qed.
Print Assumptions C132_node_snapshot.

(** ** Cases *)
(** a hello reply of two segments: between the interests for them the producer publishes a new number *)
Definition long_132 : name := [mkComp TYPE_GENERIC (repeat x00 4500)].
Definition evs_132 : list pev := [PAdd long_132; PAdd pa; PPublishName pa (Some 4)].
Definition s1_132 : pp := Eval vm_compute in state_after Kx evs_132.
Definition s2_132 : pp := Eval vm_compute in state_after Kx (evs_132 ++ [PInterest (syncp ++ [HELLO]) 1000]).
Definition d0_132 : data := Eval vm_compute in match pp_run Kx s1_132 [PInterest (syncp ++ [HELLO]) 1000] with
  | Some (_, d :: _) => d | _ => nack_data (pc_env Kx) 0 0 [] end.
Definition vname_132 : name := Eval vm_compute in removelast (d_name d0_132).
Definition gaps_132 : list (list pev) := [[PTick 10]; [PPublishName pa (Some 5); PTick 500; PInterest (request Kx all_ones (iblt_new 10)) 1000; PStoreFire 0]].
Definition s3_132 : pp := Eval vm_compute in match pp_run Kx s2_132 (pp_fetch_events vname_132 1000 0 gaps_132) with Some (s, _) => s | None => s2_132 end.
Example C132_producer_example :
  (exists o, pp_run Kx (pp_new Kx) evs_132 = Some (s1_132, o)) /\
  pp_run Kx s1_132 [PInterest (syncp ++ [HELLO]) 1000] = Some (s2_132, [d0_132]) /\
  d_type d0_132 = Blob /\ pb_store (pp_pub s1_132) = [] /\
  d_final d0_132 = Some (number_comp TYPE_SEGMENT 1) /\
  (exists o, pp_run Kx s2_132 (pp_fetch_events vname_132 1000 0 gaps_132) = Some (s3_132, o)) /\
  pp_now s3_132 < pp_now s1_132 + d_fresh d0_132 /\ (pb_signed (pp_pub s3_132) <= pb_signed (pp_pub s1_132) + 100)%nat /\
  get_seq pa (pp_core s3_132) = Some 5 /\
  pp_fetch Kx vname_132 1000 1 0 gaps_132 s2_132 = Some (s3_132, encode_names [append_number pa 4; append_number long_132 0]).
Proof.
  split; [eexists; vm_compute; reflexivity|]. repeat (split; [vm_compute; reflexivity|]).
  split; [eexists; vm_compute; reflexivity|]. split; [vm_compute; reflexivity|]. split; [vm_compute; repeat constructor|].
  split; vm_compute; reflexivity.
Qed.
(** a full-sync node: a reply of one segment, fetched after the node has published again *)
Definition d0_132f : data := Eval vm_compute in
  match fp_run Kf s1_131f [FeInterest blank_ask 1000] with Some (_, FoData d :: _) => d | _ => nack_data (fc_env Kf) 0 0 [] end.
Definition vname_132f : name := Eval vm_compute in removelast (d_name d0_132f).
Definition o2_132f : list fout := Eval vm_compute in match fp_run Kf s1_131f [FeInterest blank_ask 1000] with Some (_, o) => o | None => [] end.
Example C132_node_example : exists o1 o2 s o,
  reaches Kf 0 evs_131f s1_131f o1 /\ reaches Kf 0 (evs_131f ++ [FeInterest blank_ask 1000]) s2_131f (o1 ++ o2) /\
  In (FoData d0_132f) o2 /\ d_type d0_132f = Blob /\ pb_store (f_pub s1_131f) = [] /\
  d_final d0_132f = Some (number_comp TYPE_SEGMENT 0) /\
  fp_run Kf s2_131f (fp_fetch_events vname_132f 1000 0 [evs_131g]) = Some (s, o) /\
  f_now s < f_now s1_131f + d_fresh d0_132f /\ (pb_signed (f_pub s) <= pb_signed (f_pub s1_131f) + 100)%nat /\
  get_seq pa (f_core s) = Some 5 /\
  fp_fetch Kf vname_132f 1000 0 0 [evs_131g] s2_131f = Some (s, encode_names [append_number pa 4]).
Proof.
  exists (snd (full_after Kf evs_131f)), o2_132f, s3_131f. eexists.
  split; [split; [repeat constructor|vm_compute; reflexivity]|].
  assert (Forall fev_wf (evs_131f ++ [FeInterest blank_ask 1000])) as W.
  { apply Forall_app. split.
    - repeat constructor.
    - apply Forall_cons; [apply wf_nil; reflexivity|apply Forall_nil]. }
  split; [split; [exact W|vm_compute; reflexivity]|].
  split; [left; reflexivity|]. split; [reflexivity|]. split; [reflexivity|]. split; [reflexivity|].
  split; [vm_compute; reflexivity|]. split; [vm_compute; reflexivity|]. split; [vm_compute; repeat constructor|].
  split; vm_compute; reflexivity.
Qed.
