(** Property theorems about the number of data packets sent (C99). *)
From Coq Require Import List NArith ZArith Bool Arith Lia.
From Coq.Strings Require Import Byte.
From Verif Require Import Base Mon MonFacts Iblt BaseFacts IbltFacts SpecIblt
  Tlv State NMap TlvFacts NMapFacts Codec CodecFacts Bloom
  Store StoreFacts Producer SpecProducer ProducerFacts Properties_Producer Partial SpecPartial PartialFacts PartialSteps PartialAnswers
  Properties_Partial Full FullTrace SpecFull FullFacts FullSafe FullSteps FullData FullRuns FullTimers FullWaiting
  FullSends FullReplies FullAnswers FullPending FullRenew Properties_Full Properties_FullTime Properties_FullAnswers FlowFacts FullFlow.
Import ListNotations.
Local Open Scope nat_scope.

(** * C99 *)
(** how many interests are among the events *)
Fixpoint interests_in (evs : list pev) : nat :=
  match evs with [] => 0 | PInterest _ _ :: r => S (interests_in r) | _ :: r => interests_in r end.
Fixpoint finterests_in (evs : list fev) : nat :=
  match evs with [] => 0 | FeInterest _ _ :: r => S (finterests_in r) | _ :: r => finterests_in r end.
Lemma interests_in_eq evs : interests_in evs = length (filter is_interest evs).
Proof. induction evs as [|[] evs IH]; cbn; auto. Qed.
Lemma finterests_in_app a b : finterests_in (a ++ b) = finterests_in a + finterests_in b.
Proof. induction a as [|[] a IH]; cbn; auto. Qed.

(** a partial producer never sends more data than it received interests; those still pending are not
    answered yet *)
Theorem C99_producer_sends_one_per_interest : forall K evs s o,
  pp_run K (pp_new K) evs = Some (s, o) -> length o + length (pp_pending s) <= interests_in evs.
Proof.
  intros K evs s o R. rewrite interests_in_eq.
  pose proof (pp_run_balance K evs (pp_new K) s o nm_sorted_nil R) as H. exact H.
Qed.
Print Assumptions C99_producer_sends_one_per_interest.
(** and no more for one event than there are interests to answer: an interest causes at most one
    packet, a call at most one for each pending interest, a timer none *)
Theorem C99_producer_one_event : forall K evs s o e s' o' r,
  pp_run K (pp_new K) evs = Some (s, o) -> pp_step K e s = (s', o', r) ->
  match e with
  | PInterest _ _ => length o' <= 1
  | PPublishName _ _ => length o' <= length (pp_pending s)
  | _ => o' = []
  end.
Proof.
  intros K evs s o e s' o' r R E. 
  assert (nm_sorted (pp_pending s)) as Sp.
  { pose proof (run_inv (pp_step K) (fun s => nm_sorted (pp_pending s))) as H. apply (H (fun e s Hs => proj1 (pbal_step K e s Hs)) evs (pp_new K) s o nm_sorted_nil R). }
  destruct (pbal_step K e s Sp) as [_ B]. rewrite E in B. cbn [st outs fst snd] in B.
  destruct e as [p|p|p q|n l|dt|k|i]; cbn [is_interest] in B.
  - cbn in E. injection E as _ <- _. reflexivity.
  - cbn [pp_step] in E. rewrite mbind_get, mbind_lift in E. destruct (core_remove _ _); inversion E; reflexivity.
  - lia.
  - cbn [pp_step] in E. unfold dispatch in E.
    destruct (is_prefix (pc_sync K ++ [HELLO]) n); [|destruct (is_prefix (pc_sync K ++ [SYNC]) n)].
    + pose proof (hello_outs K (pc_sync K ++ [HELLO]) n s) as H. rewrite E in H. exact H.
    + pose proof (sync_outs K (pc_sync K ++ [SYNC]) n l s) as H. rewrite E in H. exact H.
    + inversion E. cbn. lia.
  - inversion E. reflexivity.
  - inversion E. reflexivity.
  - inversion E. reflexivity.
Qed.
Print Assumptions C99_producer_one_event.

(** a full-sync node can: an interest that waits and comes again while the IBFs are equal is pending,
    too; the publication that answers it leaves a reply in the store, and each time the timer of the
    waiting list fires that reply is sent once more *)
Definition evs_99 : list fev :=
  [FeApi (AAdd pa); FeInterest a1_ask 1000; FeApi (APublish pa None); FeInterest a1_ask 1000; FeApi (APublish pa None);
   FeTick 300; FeDelay; FeTick 300; FeDelay].
Theorem C99_full_node_sends_one_per_interest_refuted : exists K sys evs s o,
  schemes_ok K /\ uri_ok K /\ reaches K sys evs s o /\ no_collision K o /\ finterests_in evs < length (data_of o).
Proof.
  eexists Kf, 0%Z, evs_99, _, _. split; [apply Kf_ok|]. split; [apply Kf_ok|].
  split; [apply (reaches_example Kf evs_99); [repeat constructor|vm_compute; reflexivity]|].
  split; [intros pre post k E H; eapply check_free_ok; [|exact E|exact H]; vm_compute; reflexivity|].
  apply Nat.ltb_lt. vm_compute. reflexivity.
Qed.
Print Assumptions C99_full_node_sends_one_per_interest_refuted.

(** it does not if no interest is ever pending and waiting at the same time *)
Definition never_both (K : fcfg) (sys : Z) (evs : list fev) : Prop :=
  forall pre post s o n, evs = pre ++ post -> reaches K sys pre s o ->
    nm_find n (f_pending s) = None \/ nm_find n (f_waiting s) = None.
Lemma flow_run K sys evs : forall s o, schemes_ok K -> uri_ok K -> reaches K sys evs s o -> never_both K sys evs ->
  fJ K s /\ length (data_of o) + size s <= finterests_in evs.
Proof.
  induction evs as [|e evs IH] using rev_ind; intros s o Sk Uk R Nb.
  - apply reaches_nil in R as (n & _ & -> & ->). split; [|cbn; lia].
    constructor; try apply nm_sorted_nil; intros; discriminate.
  - apply reaches_inv in R as (s1 & o1 & R1 & _ & -> & -> & Hr).
    destruct (IH s1 o1 Sk Uk R1) as [J Z]. { intros pre post s' o' n E. apply (Nb pre (post ++ [e])). rewrite E, app_assoc. reflexivity. }
    assert (disjoint s1) as Dj.
    { intros n x v Hn Hv. destruct (Nb evs [e] s1 o1 n eq_refl R1) as [X|X]; congruence. }
    destruct (spent_step K Sk e s1 Uk (reaches_ok _ _ _ _ _ R1) J Dj) as [J2 Z2].
    + intros u X. destruct Hr as [H|[x H]]; congruence.
    + intros X. destruct Hr as [H|[x H]]; congruence.
    + split; [exact J2|]. rewrite finterests_in_app, data_of_app, app_length. unfold cnt in Z2.
      destruct e; cbn [is_finterest finterests_in] in *; lia.
Qed.
Theorem C99_full_node_sends_one_per_interest_partial : forall K sys evs s o,
  schemes_ok K -> uri_ok K -> reaches K sys evs s o -> never_both K sys evs ->
  length (data_of o) + length (f_pending s) + length (f_waiting s) <= finterests_in evs.
Proof. intros K sys evs s o Sk Uk R Nb. destruct (flow_run K sys evs s o Sk Uk R Nb) as [_ H]. unfold size in H. lia. Qed.
Print Assumptions C99_full_node_sends_one_per_interest_partial.
(** and for one event never more than there are interests to answer, whatever was received before *)
Theorem C99_full_node_one_event : forall K sys evs s o e s' o' r,
  schemes_ok K -> reaches K sys evs s o -> fp_step K e s = (s', o', r) ->
  match e with
  | FeInterest _ _ => length (data_of o') <= 1
  | FeApi (APublish _ _) => length (data_of o') <= length (f_pending s)
  | FeDelay => length (data_of o') <= length (f_waiting s)
  | FeContent _ _ [] => length (data_of o') <= length (f_waiting s)
  | FeContent _ _ _ => True
  | _ => data_of o' = []
  end.
Proof.
  intros K sys evs s o e s' o' r Sk R E.
  assert (o' = outs (fp_step K e s)) as -> by (rewrite E; reflexivity). clear E s' r.
  destruct e as [[p|p|p q]|m l|i buf script|i face|i timeout|dt|t| | |key|i]; cbn [fp_step api_call].
  - apply sl_op.
  - apply sl_op.
  - apply cl_publish. exact Sk.
  - destruct (is_prefix _ _); [|cbn; lia]. apply (cl_interest K Sk m l false s).
  - destruct script; [|exact I]. rewrite mbind_get. destruct (fetch_of i (f_live s)) as [m|]; [|cbn; lia]. rewrite mbind_mod.
    apply (content_count K m buf (fset_live (without i (f_live s)) s) Sk).
  - rewrite mbind_get. destruct (fetch_of _ _); reflexivity.
  - rewrite mbind_get. destruct (fetch_of _ _); [|reflexivity]. rewrite mbind_mod. destruct timeout; reflexivity.
  - reflexivity.
  - reflexivity.
  - rewrite mbind_get. destruct (f_sched s) as [[dl k]|]; [|reflexivity]. destruct (N.leb dl _); [|reflexivity].
    rewrite mbind_mod. destruct k; [|rewrite mbind_mod]; apply sl_send; exact Sk.
  - rewrite mbind_get. destruct (f_delay s) as [dl|]; [|cbn; lia]. destruct (N.leb dl _); [|cbn; lia]. rewrite mbind_mod.
    pose proof (cl_waiting K Sk (fset_delay None s)) as W. change (f_waiting (fset_delay None s)) with (f_waiting s) in W.
    unfold mbind, outs, cnt in *. destruct (process_waiting K (fset_delay None s)) as [[s2 o2] [[]|x|x|]]; cbn [fst snd] in *; try lia.
    pose proof (sl_schedule K s2) as (_ & _ & _ & D). unfold outs in D. destruct (schedule_waiting K s2) as [[s3 o3] r3]. cbn [fst snd] in *.
    rewrite data_of_app, D, app_nil_r. exact W.
  - reflexivity.
  - reflexivity.
Qed.
Print Assumptions C99_full_node_one_event.

(** hypotheses: an interest that becomes pending and one that waits, a publication, the timer *)
Definition evs_99' : list fev :=
  [FeApi (AAdd pa); FeInterest blank_ask 1000; FeInterest a2_ask 1000; FeApi (APublish pa None); FeTick 300; FeDelay].
Fixpoint both_free (K : fcfg) (s : fp) (evs : list fev) : bool :=
  forallb (fun k => negb (nm_mem k (f_waiting s))) (nm_keys (f_pending s)) &&
  match evs with [] => true | e :: r => both_free K (st (fp_step K e s)) r end.
Lemma both_free_ok K evs : forall s, both_free K s evs = true -> forall pre post s1 o1 n, evs = pre ++ post ->
  fp_run K s pre = Some (s1, o1) -> nm_find n (f_pending s1) = None \/ nm_find n (f_waiting s1) = None.
Proof.
  induction evs as [|e evs IH]; intros s H pre post s1 o1 n Ee Er; cbn [both_free] in H; apply andb_prop in H as [H1 H2];
    (destruct pre as [|e' pre]; [injection Er as <- _|]).
  1,3: destruct (nm_find n (f_pending s)) as [x|] eqn:F; [right|left; reflexivity]; rewrite forallb_forall in H1;
      specialize (H1 n (proj2 (nm_In_keys n _) (ex_intro _ x F))); unfold nm_mem in H1; destruct (nm_find n (f_waiting s)); [discriminate|reflexivity].
  - discriminate.
  - injection Ee as <- ->. unfold fp_run in Er. cbn [run] in Er. unfold st in H2. destruct (fp_step K e s) as [[s2 o2] [u|x|u|]]; try discriminate; cbn [fst] in H2;
      (destruct (run (fp_step K) s2 pre) as [[s3 o3]|] eqn:E3; [|discriminate]; injection Er as <- _; eapply IH; eauto).
Qed.
Example C99_example : exists s o, reaches Kf 0 evs_99' s o /\ never_both Kf 0 evs_99' /\ length (data_of o) = 1 /\ finterests_in evs_99' = 2.
Proof.
  eexists _, _. split; [apply (reaches_example Kf evs_99'); [repeat constructor|vm_compute; reflexivity]|].
  split; [|split; vm_compute; reflexivity].
  intros pre post s o n E [_ R]. unfold fp_start in R.
  destruct (fp_init Kf 0) as [[s0 o0] r0] eqn:E0. assert (s0 = fst (fst (fp_init Kf 0))) as S0 by (rewrite E0; reflexivity).
  destruct r0; try discriminate. destruct (fp_run Kf s0 pre) as [[s1 o1]|] eqn:E1; [|discriminate]. injection R as <- _.
  eapply (both_free_ok Kf evs_99' s0); eauto. subst s0. vm_compute. reflexivity.
Qed.
Example C99_producer_example : exists s o,
  pp_run Kx (pp_new Kx) (evs_ex ++ [PInterest (request Kx all_ones (iblt_new 10)) 1000]) = Some (s, o) /\ length o = 1.
Proof. eexists _, _. split; vm_compute; reflexivity. Qed.
