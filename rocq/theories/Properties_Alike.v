(** Property theorems about producers that know the same (C120). *)
From Coq Require Import List NArith ZArith Bool Arith Lia.
From Coq.Strings Require Import Byte.
From Verif Require Import Base BaseFacts Mon MonFacts Iblt SpecIblt IbltFacts Tlv TlvFacts State NMap NMapFacts
  Codec CodecFacts Bloom SpecBloom Properties_Bloom Store StoreFacts Producer SpecProducer ProducerFacts Properties_Producer
  Partial SpecPartial PartialFacts PartialSteps Properties_Partial
  Full FullTrace SpecFull FullFacts FullSafe FullRuns Properties_Full SpecAlike AlikeFacts.
Import ListNotations.
Local Open Scope N_scope.

(** * C120 *)
(** two producers with equal options, whose sequence numbers are the same whatever happened before, and
    that do not have the answer in memory, answer an interest alike; a request that waited in both or in
    neither, with the same filter and IBF, still does *)
Theorem C120_producers_answer_alike : forall K1 K2 evs1 evs2 s1 s2 o1 o2 n l,
  same_options K1 K2 -> Forall pev_wf evs1 -> Forall pev_wf evs2 ->
  collision_free (pc_n K1) (history evs1) -> collision_free (pc_n K2) (history evs2) ->
  pp_run K1 (pp_new K1) evs1 = Some (s1, o1) -> pp_run K2 (pp_new K2) evs2 = Some (s2, o2) ->
  (forall p, get_seq p (pp_core s1) = get_seq p (pp_core s2)) ->
  reply_from_store n (pp_pub s1) = None -> reply_from_store n (pp_pub s2) = None ->
  let r1 := pp_step K1 (PInterest n l) s1 in
  let r2 := pp_step K2 (PInterest n l) s2 in
  res r1 = res r2 /\ all_alike (outs r1) (outs r2) /\
  (forall r, same_request r s1 s2 -> same_request r (st r1) (st r2)) /\
  (forall p, get_seq p (pp_core (st r1)) = get_seq p (pp_core (st r2))).
Proof.
  intros K1 K2 evs1 evs2 s1 s2 o1 o2 n l So W1 W2 C1 C2 R1 R2 G N1 N2. cbv zeta.
  assert (cores_like (pp_core s1) (pp_core s2)) as L.
  { apply pp_run_core in R1, R2. apply history_wf in W1, W2. cbn [pp_new pp_core] in *. rewrite <- (so_n _ _ So) in *.
    exact (cores_of_numbers _ _ _ _ _ W1 W2 R1 R2 C1 C2 G). }
  assert (forall D : name -> Prop, (forall r, D r -> same_request r s1 s2) -> related D s1 s2) as Rel
    by (intros D HD; constructor; [exact L|apply (pp_run_ok _ _ _ _ R1)|apply (pp_run_ok _ _ _ _ R2)|exact HD]).
  destruct (interest_sim K1 K2 So (fun _ => False) n l s1 s2 (Rel (fun _ => False) (fun _ F => False_ind _ F)) N1 N2) as (A & B & C).
  split; [exact C|]. split; [exact B|]. split.
  - intros r Hr. assert (forall r', r' = r -> same_request r' s1 s2) as Hd by (intros r' ->; exact Hr).
    destruct (interest_sim K1 K2 So (fun r' => r' = r) n l s1 s2 (Rel _ Hd) N1 N2) as (A' & _). exact (re_same _ _ _ A' r eq_refl).
  - intros p. unfold get_seq. rewrite (cl_prefixes _ _ (re_core _ _ _ A)). reflexivity.
Qed.
Print Assumptions C120_producers_answer_alike.
(** and if the same requests wait in both, they answer a publication alike *)
Theorem C120_producers_publish_alike : forall K1 K2 evs1 evs2 s1 s2 o1 o2 p q,
  same_options K1 K2 -> Forall pev_wf (evs1 ++ [PPublishName p q]) -> Forall pev_wf (evs2 ++ [PPublishName p q]) ->
  collision_free (pc_n K1) (history (evs1 ++ [PPublishName p q])) ->
  collision_free (pc_n K2) (history (evs2 ++ [PPublishName p q])) ->
  pp_run K1 (pp_new K1) evs1 = Some (s1, o1) -> pp_run K2 (pp_new K2) evs2 = Some (s2, o2) ->
  (forall p, get_seq p (pp_core s1) = get_seq p (pp_core s2)) ->
  (forall r, same_request r s1 s2) ->
  let r1 := pp_step K1 (PPublishName p q) s1 in
  let r2 := pp_step K2 (PPublishName p q) s2 in
  res r1 = res r2 /\ all_alike (outs r1) (outs r2) /\
  (forall r, same_request r (st r1) (st r2)) /\
  (forall p, get_seq p (pp_core (st r1)) = get_seq p (pp_core (st r2))).
Proof.
  intros K1 K2 evs1 evs2 s1 s2 o1 o2 p q So W1 W2 C1 C2 R1 R2 G Sr. cbv zeta.
  unfold history in C1, C2. rewrite flat_map_app in C1, C2. fold (history evs1) in C1. fold (history evs2) in C2.
  cbn [flat_map core_op app] in C1, C2.
  apply Forall_app in W1 as [W1 Wq], W2 as [W2 _].
  assert (cop_wf (CPublish p q)) as Wc by (inversion Wq; assumption).
  apply history_wf in W1, W2. pose proof (pp_run_core _ _ _ _ _ R1) as X1. pose proof (pp_run_core _ _ _ _ _ R2) as X2.
  cbn [pp_new pp_core] in X1, X2. rewrite <- (so_n _ _ So) in *.
  assert (cores_like (pp_core s1) (pp_core s2)) as L
    by exact (cores_of_numbers _ _ _ _ _ W1 W2 X1 X2 (collision_free_app _ _ _ C1) (collision_free_app _ _ _ C2) G).
  assert (related (fun _ => True) s1 s2) as Rel
    by (constructor; [exact L|apply (pp_run_ok _ _ _ _ R1)|apply (pp_run_ok _ _ _ _ R2)|intros r _; apply Sr]).
  destruct (publication_sim K1 K2 So (fun _ => True) _ _ _ s1 s2 p q (fun _ => Logic.I) W1 W2 Wc X1 X2 C1 C2 Rel) as (A & B & C).
  split; [exact C|]. split; [exact B|]. split.
  - intros r. exact (re_same _ _ _ A r Logic.I).
  - intros p'. unfold get_seq. rewrite (cl_prefixes _ _ (re_core _ _ _ A)). reflexivity.
Qed.
Print Assumptions C120_producers_publish_alike.

(** full-sync nodes: the same, if they also have counted the same number of updates.  Only the data they
    send is compared: when they ask themselves depends on their timers *)
Theorem C120_nodes_answer_alike : forall K1 K2 sys1 sys2 evs1 evs2 s1 s2 o1 o2 n l,
  same_node_options K1 K2 -> schemes_ok K1 -> schemes_ok K2 -> uri_ok K1 -> uri_ok K2 ->
  reaches K1 sys1 evs1 s1 o1 -> reaches K2 sys2 evs2 s2 o2 -> no_collision K1 o1 -> no_collision K2 o2 ->
  (forall p, get_seq p (f_core s1) = get_seq p (f_core s2)) -> k_count (f_core s1) = k_count (f_core s2) ->
  reply_from_store n (f_pub s1) = None -> reply_from_store n (f_pub s2) = None ->
  let r1 := fp_step K1 (FeInterest n l) s1 in
  let r2 := fp_step K2 (FeInterest n l) s2 in
  res r1 = res r2 /\ all_alike (data_of (outs r1)) (data_of (outs r2)) /\
  (forall r, same_node_request r s1 s2 -> same_node_request r (st r1) (st r2)) /\
  (forall p, get_seq p (f_core (st r1)) = get_seq p (f_core (st r2))).
Proof.
  intros K1 K2 sys1 sys2 evs1 evs2 s1 s2 o1 o2 n l Sn Sk1 Sk2 U1 U2 R1 R2 C1 C2 G Ct N1 N2. cbv zeta.
  assert (cores_like (f_core s1) (f_core s2)) as L.
  { destruct (reaches_core _ _ _ _ _ R1) as [W1 X1], (reaches_core _ _ _ _ _ R2) as [W2 X2]. unfold no_collision in *.
    rewrite <- (sn_n _ _ Sn) in *. exact (cores_of_numbers _ _ _ _ _ W1 W2 X1 X2 C1 C2 G). }
  assert (forall D : name -> Prop, (forall r, D r -> same_node_request r s1 s2) -> frelated D s1 s2) as Rel
    by (intros D HD; constructor; [exact L|exact Ct|apply (reaches_ok _ _ _ _ _ R1)|apply (reaches_ok _ _ _ _ _ R2)|exact HD]).
  destruct (finterest_sim K1 K2 Sn Sk1 Sk2 U1 U2 (fun _ => False) n l s1 s2 (Rel (fun _ => False) (fun _ F => False_ind _ F)) N1 N2) as (A & B & C).
  split; [exact C|]. split; [exact B|]. split.
  - intros r Hr. assert (forall r', r' = r -> same_node_request r' s1 s2) as Hd by (intros r' ->; exact Hr).
    destruct (finterest_sim K1 K2 Sn Sk1 Sk2 U1 U2 (fun r' => r' = r) n l s1 s2 (Rel _ Hd) N1 N2) as (A' & _). exact (fr_same _ _ _ A' r eq_refl).
  - intros p. unfold get_seq. rewrite (cl_prefixes _ _ (fr_core _ _ _ A)). reflexivity.
Qed.
Print Assumptions C120_nodes_answer_alike.
(** nodes that never removed a prefix have counted the same *)
Theorem C120_nodes_that_keep_answer_alike : forall K1 K2 sys1 sys2 evs1 evs2 s1 s2 o1 o2 n l,
  same_node_options K1 K2 -> schemes_ok K1 -> schemes_ok K2 -> uri_ok K1 -> uri_ok K2 ->
  reaches K1 sys1 evs1 s1 o1 -> reaches K2 sys2 evs2 s2 o2 -> no_collision K1 o1 -> no_collision K2 o2 ->
  no_removal (ops_of o1) -> no_removal (ops_of o2) ->
  (forall p, get_seq p (f_core s1) = get_seq p (f_core s2)) ->
  reply_from_store n (f_pub s1) = None -> reply_from_store n (f_pub s2) = None ->
  let r1 := fp_step K1 (FeInterest n l) s1 in
  let r2 := fp_step K2 (FeInterest n l) s2 in
  res r1 = res r2 /\ all_alike (data_of (outs r1)) (data_of (outs r2)) /\
  (forall r, same_node_request r s1 s2 -> same_node_request r (st r1) (st r2)) /\
  (forall p, get_seq p (f_core (st r1)) = get_seq p (f_core (st r2))).
Proof.
  intros K1 K2 sys1 sys2 evs1 evs2 s1 s2 o1 o2 n l Sn Sk1 Sk2 U1 U2 R1 R2 C1 C2 Nr1 Nr2 G N1 N2.
  apply (C120_nodes_answer_alike K1 K2 sys1 sys2 evs1 evs2 s1 s2 o1 o2 n l); auto.
  destruct (reaches_core _ _ _ _ _ R1) as [W1 X1], (reaches_core _ _ _ _ _ R2) as [W2 X2]. unfold no_collision in *.
  rewrite (C33_count_without_removals _ _ _ W1 Nr1 X1), (C33_count_without_removals _ _ _ W2 Nr2 X2).
  rewrite <- (sn_n _ _ Sn) in *. rewrite (cl_prefixes _ _ (cores_of_numbers _ _ _ _ _ W1 W2 X1 X2 C1 C2 G)). reflexivity.
Qed.
Print Assumptions C120_nodes_that_keep_answer_alike.
Theorem C120_nodes_publish_alike : forall K1 K2 sys1 sys2 evs1 evs2 s1 s2 o1 o2 p q,
  same_node_options K1 K2 -> schemes_ok K1 -> schemes_ok K2 -> uri_ok K1 -> uri_ok K2 -> cop_wf (CPublish p q) ->
  reaches K1 sys1 evs1 s1 o1 -> reaches K2 sys2 evs2 s2 o2 ->
  collision_free (fc_n K1) (ops_of o1 ++ [CPublish p q]) -> collision_free (fc_n K2) (ops_of o2 ++ [CPublish p q]) ->
  (forall p, get_seq p (f_core s1) = get_seq p (f_core s2)) -> k_count (f_core s1) = k_count (f_core s2) ->
  (forall r, same_node_request r s1 s2) ->
  let r1 := fp_step K1 (FeApi (APublish p q)) s1 in
  let r2 := fp_step K2 (FeApi (APublish p q)) s2 in
  res r1 = res r2 /\ all_alike (data_of (outs r1)) (data_of (outs r2)) /\
  (forall r, same_node_request r (st r1) (st r2)) /\
  (forall p, get_seq p (f_core (st r1)) = get_seq p (f_core (st r2))) /\
  k_count (f_core (st r1)) = k_count (f_core (st r2)).
Proof.
  intros K1 K2 sys1 sys2 evs1 evs2 s1 s2 o1 o2 p q Sn Sk1 Sk2 U1 U2 Wc R1 R2 C1 C2 G Ct Sr. cbv zeta.
  destruct (reaches_core _ _ _ _ _ R1) as [W1 X1], (reaches_core _ _ _ _ _ R2) as [W2 X2].
  rewrite <- (sn_n _ _ Sn) in *.
  assert (cores_like (f_core s1) (f_core s2)) as L
    by exact (cores_of_numbers _ _ _ _ _ W1 W2 X1 X2 (collision_free_app _ _ _ C1) (collision_free_app _ _ _ C2) G).
  assert (frelated (fun _ => True) s1 s2) as Rel
    by (constructor; [exact L|exact Ct|apply (reaches_ok _ _ _ _ _ R1)|apply (reaches_ok _ _ _ _ _ R2)|intros r _; apply Sr]).
  destruct (fpublication_sim K1 K2 Sn Sk1 Sk2 (fun _ => True) _ _ _ s1 s2 p q (fun _ => Logic.I) W1 W2 Wc X1 X2 C1 C2 Rel) as (A & B & C).
  split; [exact C|]. split; [exact B|]. split; [|split].
  - intros r. exact (fr_same _ _ _ A r Logic.I).
  - intros p'. unfold get_seq. rewrite (cl_prefixes _ _ (fr_core _ _ _ A)). reflexivity.
  - exact (fr_count _ _ _ A).
Qed.
Print Assumptions C120_nodes_publish_alike.

(** two producers with different histories, versions and signatures, and two waiting requests *)
Definition other_env : env :=
  mkEnv (fun i => 5000 + N.of_nat i) (fun i => [n2b (N.of_nat i); x07]) (fun _ => 40) (fun n => Ok n).
Definition Ky : pcfg := mkPcfg syncp 10 SNone 1000 1000 codec_none libm_example other_env 100.
Definition ask_120 : name := Eval vm_compute in request Kx all_ones (iblt_new 10).
Definition evs_120a : list pev := [PAdd pa; PPublishName pa (Some 4); PAdd pb].
Definition evs_120b : list pev := [PAdd pb; PAdd pa; PPublishName pa (Some 2); PTick 5; PAdd [gen [x64]]; PPublishName pa (Some 4); PRemove [gen [x64]]].
Definition s_120a : pp := Eval vm_compute in state_after Kx evs_120a.
Definition s_120b : pp := Eval vm_compute in state_after Ky evs_120b.
Example C120_example : same_options Kx Ky /\
  collision_free 10 (history evs_120a) /\ collision_free 10 (history evs_120b) /\
  pp_run Kx (pp_new Kx) evs_120a = Some (s_120a, []) /\ pp_run Ky (pp_new Ky) evs_120b = Some (s_120b, []) /\
  (forall p, get_seq p (pp_core s_120a) = get_seq p (pp_core s_120b)) /\
  reply_from_store ask_120 (pp_pub s_120a) = None /\ reply_from_store ask_120 (pp_pub s_120b) = None /\
  (* an answer, in two versions *)
  length (outs (pp_step Kx (PInterest ask_120 1000) s_120a)) = 1%nat /\
  outs (pp_step Kx (PInterest ask_120 1000) s_120a) <> outs (pp_step Ky (PInterest ask_120 1000) s_120b).
Proof.
  split; [constructor; reflexivity|].
  split; [intros pre post k E H; eapply check_free_ok; [|exact E|exact H]; vm_compute; reflexivity|].
  split; [intros pre post k E H; eapply check_free_ok; [|exact E|exact H]; vm_compute; reflexivity|].
  split; [vm_compute; reflexivity|]. split; [vm_compute; reflexivity|]. split; [intros p; reflexivity|].
  split; [reflexivity|]. split; [reflexivity|]. split; [vm_compute; reflexivity|].
  intros E. apply (f_equal (map d_digest)) in E. revert E. vm_compute. discriminate.
Qed.
(** the same two after a request for what is current came in, and a publication *)
Definition ask_120' : name := Eval vm_compute in request Kx all_ones (k_iblt (pp_core s_120a)).
Definition evs_120c : list pev := evs_120a ++ [PInterest ask_120' 1000].
Definition evs_120d : list pev := evs_120b ++ [PTick 7; PInterest ask_120' 300].
Definition s_120c : pp := Eval vm_compute in state_after Kx evs_120c.
Definition s_120d : pp := Eval vm_compute in state_after Ky evs_120d.
Example C120_publish_example : same_options Kx Ky /\
  collision_free 10 (history (evs_120c ++ [PPublishName pb (Some 9)])) /\
  collision_free 10 (history (evs_120d ++ [PPublishName pb (Some 9)])) /\
  pp_run Kx (pp_new Kx) evs_120c = Some (s_120c, []) /\ pp_run Ky (pp_new Ky) evs_120d = Some (s_120d, []) /\
  (forall p, get_seq p (pp_core s_120c) = get_seq p (pp_core s_120d)) /\
  (forall r, same_request r s_120c s_120d) /\ nm_keys (pp_pending s_120c) = [ask_120'] /\
  length (outs (pp_step Kx (PPublishName pb (Some 9)) s_120c)) = 1%nat.
Proof.
  split; [constructor; reflexivity|].
  split; [intros pre post k E H; eapply check_free_ok; [|exact E|exact H]; vm_compute; reflexivity|].
  split; [intros pre post k E H; eapply check_free_ok; [|exact E|exact H]; vm_compute; reflexivity|].
  split; [vm_compute; reflexivity|]. split; [vm_compute; reflexivity|]. split; [intros p; reflexivity|].
  split; [|split; [reflexivity|vm_compute; reflexivity]].
  intros r. unfold same_request, s_120c, s_120d. cbn [pp_pending nm_find]. destruct (name_eqb r _); reflexivity.
Qed.

(** nodes *)
Definition Kg : fcfg := mkFcfg syncp 10 SNone SNone 700 1000 codec_none other_env 100.
Definition evs_120e : list fev := [FeApi (AAdd pa); FeApi (APublish pa (Some 4)); FeApi (AAdd pb)].
Definition evs_120f : list fev := [FeApi (AAdd pb); FeTick 9; FeApi (AAdd pa); FeApi (APublish pa (Some 2)); FeApi (APublish pa (Some 4))].
Definition s_120e : fp := Eval vm_compute in fst (full_after Kf evs_120e).
Definition o_120e : list fout := Eval vm_compute in snd (full_after Kf evs_120e).
Definition s_120f : fp := Eval vm_compute in fst (full_after Kg evs_120f).
Definition o_120f : list fout := Eval vm_compute in snd (full_after Kg evs_120f).
Definition now_120 : name := Eval vm_compute in ask_with Kf (k_iblt (f_core s_120e)) 4.
Example C120_nodes_example : same_node_options Kf Kg /\
  reaches Kf 0 evs_120e s_120e o_120e /\ reaches Kg 0 evs_120f s_120f o_120f /\
  no_collision Kf o_120e /\ no_collision Kg o_120f /\ no_removal (ops_of o_120e) /\ no_removal (ops_of o_120f) /\
  (forall p, get_seq p (f_core s_120e) = get_seq p (f_core s_120f)) /\
  reply_from_store blank_ask (f_pub s_120e) = None /\ reply_from_store blank_ask (f_pub s_120f) = None /\
  length (data_of (outs (fp_step Kf (FeInterest blank_ask 1000) s_120e))) = 1%nat /\
  data_of (outs (fp_step Kf (FeInterest blank_ask 1000) s_120e)) <> data_of (outs (fp_step Kg (FeInterest blank_ask 1000) s_120f)).
Proof.
  split; [constructor; reflexivity|].
  split; [split; [repeat constructor|vm_compute; reflexivity]|].
  split; [split; [repeat constructor|vm_compute; reflexivity]|].
  split; [intros pre post k E H; eapply check_free_ok; [|exact E|exact H]; vm_compute; reflexivity|].
  split; [intros pre post k E H; eapply check_free_ok; [|exact E|exact H]; vm_compute; reflexivity|].
  split; [apply keeps_all_ok; reflexivity|]. split; [apply keeps_all_ok; reflexivity|].
  split; [intros p; reflexivity|]. split; [reflexivity|]. split; [reflexivity|]. split; [vm_compute; reflexivity|].
  intros E. apply (f_equal (map d_digest)) in E. revert E. vm_compute. discriminate.
Qed.
(** both answer a waiting interest with a publication *)
Definition s_120g : fp := Eval vm_compute in fst (full_after Kf (evs_120e ++ [FeInterest now_120 1000])).
Definition o_120g : list fout := Eval vm_compute in snd (full_after Kf (evs_120e ++ [FeInterest now_120 1000])).
Definition s_120h : fp := Eval vm_compute in fst (full_after Kg (evs_120f ++ [FeInterest now_120 400])).
Definition o_120h : list fout := Eval vm_compute in snd (full_after Kg (evs_120f ++ [FeInterest now_120 400])).
Example C120_nodes_publish_example : same_node_options Kf Kg /\
  reaches Kf 0 (evs_120e ++ [FeInterest now_120 1000]) s_120g o_120g /\
  reaches Kg 0 (evs_120f ++ [FeInterest now_120 400]) s_120h o_120h /\
  collision_free 10 (ops_of o_120g ++ [CPublish pb (Some 9)]) /\ collision_free 10 (ops_of o_120h ++ [CPublish pb (Some 9)]) /\
  (forall p, get_seq p (f_core s_120g) = get_seq p (f_core s_120h)) /\ k_count (f_core s_120g) = k_count (f_core s_120h) /\
  (forall r, same_node_request r s_120g s_120h) /\ nm_keys (f_pending s_120g) = [now_120] /\
  length (data_of (outs (fp_step Kf (FeApi (APublish pb (Some 9))) s_120g))) = 1%nat.
Proof.
  split; [constructor; reflexivity|].
  split; [split; [repeat constructor|vm_compute; reflexivity]|].
  split; [split; [repeat constructor|vm_compute; reflexivity]|].
  split; [intros pre post k E H; eapply check_free_ok; [|exact E|exact H]; vm_compute; reflexivity|].
  split; [intros pre post k E H; eapply check_free_ok; [|exact E|exact H]; vm_compute; reflexivity|].
  split; [intros p; reflexivity|]. split; [reflexivity|].
  split; [|split; [reflexivity|vm_compute; reflexivity]].
  intros r. unfold same_node_request, s_120g, s_120h. cbn [f_pending nm_find]. destruct (name_eqb r _); reflexivity.
Qed.

(** the counts matter: of two nodes with the same numbers, one of which has removed a prefix, one tells a
    peer with an IBF it cannot decode everything it has and the other waits *)
Definition evs_120i : list fev :=
  [FeApi (AAdd pb); FeApi (APublish pb (Some 9)); FeApi (ARemove pb); FeApi (AAdd pa); FeApi (APublish pa (Some 4)); FeApi (AAdd pb)].
Definition s_120i : fp := Eval vm_compute in fst (full_after Kf evs_120i).
Definition o_120i : list fout := Eval vm_compute in snd (full_after Kf evs_120i).
Definition odd_cell : cell := mkCell 5 3 3.
Definition odd_ask : name := Eval vm_compute in ask_with Kf (odd_cell :: skipn 1 (iblt_new 10)) 6.
Example C120_count_matters :
  reaches Kf 0 evs_120e s_120e o_120e /\ reaches Kf 0 evs_120i s_120i o_120i /\
  no_collision Kf o_120e /\ no_collision Kf o_120i /\
  (forall p, get_seq p (f_core s_120e) = get_seq p (f_core s_120i)) /\
  k_count (f_core s_120e) = 4 /\ k_count (f_core s_120i) = 13 /\
  data_of (outs (fp_step Kf (FeInterest odd_ask 1000) s_120e)) = [] /\
  length (data_of (outs (fp_step Kf (FeInterest odd_ask 1000) s_120i))) = 1%nat.
Proof.
  split; [split; [repeat constructor|vm_compute; reflexivity]|].
  split; [split; [repeat constructor|vm_compute; reflexivity]|].
  split; [intros pre post k E H; eapply check_free_ok; [|exact E|exact H]; vm_compute; reflexivity|].
  split; [intros pre post k E H; eapply check_free_ok; [|exact E|exact H]; vm_compute; reflexivity|].
  split; [intros p; reflexivity|]. split; [reflexivity|]. split; [reflexivity|]. split; vm_compute; reflexivity.
Qed.
