(** C71, C72: a consumer keeps asking, and can send sync interests once it was greeted. *)
From Coq Require Import List NArith ZArith Bool Arith Lia.
From Coq.Strings Require Import Byte.
From Verif Require Import Base BaseFacts Mon MonFacts Iblt Tlv TlvFacts State StateFacts NMap NMapFacts Codec
  Bloom SpecBloom BloomFacts Properties_Bloom Store Producer SpecProducer ProducerFacts Properties_Producer Partial PartialFacts PartialSteps
  Properties_Partial Full SpecFull FullData FullRuns Properties_Full Consumer SpecConsumer ConsumerFacts ConsumerLive Properties_Consumer.
Import ListNotations.
Local Open Scope N_scope.

(** * C71 *)
(** Missing: contents that make the handler throw (see below), and fetchers that complete without
    having reported a segment with a FinalBlock, which the SegmentFetcher never does. *)
Theorem C71_keeps_asking_partial : forall K evs1 a evs2 s o, sends a = true ->
  creaches K (evs1 ++ CeCall a :: evs2) s o -> Forall goes_on evs2 ->
  (forall e buf, In e evs2 -> In buf (content_of e) -> cgood_content buf) ->
  fetchers_in_order K (evs1 ++ CeCall a :: evs2) ->
  busy s.
Proof.
  intros K evs1 a evs2 s o Ha R G C O. eapply going_busy. apply (keeps_going K evs1 a Ha evs2 s o R G C O).
Qed.
Print Assumptions C71_keeps_asking_partial.

(** for the examples: histories in which a fetch completes right after its only segment *)
Lemma order_nil K : fetchers_in_order K [].
Proof. intros [|x l]; discriminate. Qed.
Lemma order_snoc K evs e : fetchers_in_order K evs ->
  (forall i buf sc1 sc2 s o k n, e = CeContent i buf sc1 sc2 -> creaches K evs s o -> cfetch i (c_live s) = Some (k, n) -> told_last K evs i k n) ->
  fetchers_in_order K (evs ++ [e]).
Proof.
  intros O H ev1 i buf sc1 sc2 ev2 s o k n E R Hi.
  destruct (exists_last (l := CeContent i buf sc1 sc2 :: ev2)) as (l & x & X); [discriminate|].
  rewrite X, app_assoc in E. apply app_inj_tail in E as [E1 E2]. destruct l as [|y l].
  - rewrite app_nil_r in E1. cbn [app] in X. injection X as X _. subst. eapply H; eauto.
  - injection X as <- X. eapply (O ev1 i buf sc1 sc2 l); eauto.
Qed.
Lemma order_other K evs e : fetchers_in_order K evs -> content_of e = [] -> fetchers_in_order K (evs ++ [e]).
Proof. intros O H. apply order_snoc; [exact O|]. intros i buf sc1 sc2 s o k n -> . discriminate. Qed.
Lemma order_pair K evs i d buf sc1 sc2 s o x s1 o1 r : fetchers_in_order K evs -> creaches K evs s o -> cfetch i (c_live s) = Some x ->
  d_final d <> None -> c_step K (CeSegment i d) s = (s1, o1, r) -> cfetch i (c_live s1) = Some x ->
  fetchers_in_order K ((evs ++ [CeSegment i d]) ++ [CeContent i buf sc1 sc2]).
Proof.
  intros O R Hi Hd E H1. apply order_snoc; [apply order_other; auto|].
  intros j buf' sc1' sc2' s2 o2 k n [= <- <- <- <-] R2 H2. exists evs, d, [], s, o. split; [reflexivity|]. split; [exact R|]. split; [|exact Hd].
  destruct (creaches_snoc _ _ _ _ _ R2) as (s3 & o3 & o4 & r3 & R3 & E3 & _). destruct (creaches_fun _ _ _ _ _ _ R R3) as [-> _].
  rewrite E in E3. injection E3 as -> _ _. congruence.
Qed.

(** hello, sync from the callback, a Nack and the hello that follows *)
Definition live1 : list cev := [CeSegment 0 (seg hello_name Blob); CeContent 0 two_content [CSub pa 4 true; CSendSync] []].
Definition live2 : list cev := live1 ++ [CeSegment 1 (seg sync_name AppNack); CeContent 1 two_content [CSendSync] []].
Definition live3 : list cev := live2 ++ [CeError 2 true; CeTick 1000; CeTimer 0].
Definition s_l3 : cs := Eval vm_compute in fst (after (CeCall CSendHello :: live3)).
Definition o_l3 : list cout := Eval vm_compute in snd (after (CeCall CSendHello :: live3)).
Lemma reach_l3 : creaches Kc (CeCall CSendHello :: live3) s_l3 o_l3.
Proof. apply reach_c. vm_compute. reflexivity. Qed.
Definition l_0 := Eval vm_compute in after [CeCall CSendHello].
Definition l_2 := Eval vm_compute in after (CeCall CSendHello :: live1).
Lemma order_l3 : fetchers_in_order Kc (CeCall CSendHello :: live3).
Proof.
  change (CeCall CSendHello :: live3) with ((((([CeCall CSendHello] ++ [CeSegment 0 (seg hello_name Blob)]) ++ [CeContent 0 two_content [CSub pa 4 true; CSendSync] []])
    ++ [CeSegment 1 (seg sync_name AppNack)]) ++ [CeContent 1 two_content [CSendSync] []]) ++ [CeError 2 true; CeTick 1000; CeTimer 0]).
  assert (fetchers_in_order Kc ([CeCall CSendHello] ++ [CeSegment 0 (seg hello_name Blob)] ++ [CeContent 0 two_content [CSub pa 4 true; CSendSync] []])) as O1.
  { rewrite app_assoc. eapply order_pair with (s := fst l_0) (o := snd l_0).
    - apply (order_other Kc []); [apply order_nil|reflexivity].
    - apply reach_c. vm_compute. reflexivity.
    - reflexivity.
    - discriminate.
    - reflexivity.
    - reflexivity. }
  change [CeError 2 true; CeTick 1000; CeTimer 0] with (([CeError 2 true] ++ [CeTick 1000]) ++ [CeTimer 0]). rewrite !app_assoc.
  apply order_other; [|reflexivity]. apply order_other; [|reflexivity]. apply order_other; [|reflexivity].
  eapply order_pair with (s := fst l_2) (o := snd l_2).
  - exact O1.
  - apply reach_c. vm_compute. reflexivity.
  - reflexivity.
  - discriminate.
  - reflexivity.
  - reflexivity.
Qed.
Example C71_example : sends CSendHello = true /\ creaches Kc ([] ++ CeCall CSendHello :: live3) s_l3 o_l3 /\ Forall goes_on live3 /\
  (forall e buf, In e live3 -> In buf (content_of e) -> cgood_content buf) /\ fetchers_in_order Kc ([] ++ CeCall CSendHello :: live3) /\
  c_live s_l3 <> [].
Proof.
  split; [reflexivity|]. split; [exact reach_l3|]. split; [|split; [|split; [exact order_l3|discriminate]]].
  - repeat constructor; simpl; try tauto.
    + intros [H|[H|H]]; [discriminate..|exact H].
    + exists CSendSync. auto.
    + intros [H|H]; [discriminate|exact H].
    + exists CSendSync. auto.
  - intros e buf H. simpl in H. repeat (destruct H as [<-|H]; [simpl; try tauto; intros [<-|[]]; exact two_cgood|]). destruct H.
Qed.

(** a reply that is no list of names ends it: nothing is being fetched or scheduled any more *)
Definition dead_events : list cev :=
  [CeSegment 0 (seg hello_name Blob); CeContent 0 two_content [CSendSync] []; CeSegment 1 (seg sync_name Blob); CeContent 1 [] [CSendSync] []].
Definition d_1 := Eval vm_compute in after (CeCall CSendHello :: firstn 2 dead_events).
Definition s_dead : cs := Eval vm_compute in fst (after (CeCall CSendHello :: dead_events)).
Definition o_dead : list cout := Eval vm_compute in snd (after (CeCall CSendHello :: dead_events)).
Theorem C71_keeps_asking_refuted : exists K evs s o, filter_ok K /\ rate_ok K /\
  creaches K (CeCall CSendHello :: evs) s o /\ Forall goes_on evs /\ fetchers_in_order K (CeCall CSendHello :: evs) /\ quiet s.
Proof.
  exists Kc, dead_events, s_dead, o_dead. split; [exact filter_c|]. split; [exact rate_c|].
  split; [apply reach_c; vm_compute; reflexivity|]. split; [|split; [|split; reflexivity]].
  - repeat constructor; simpl; try tauto; try (intros [H|H]; [discriminate|exact H]); exists CSendSync; auto.
  - change (CeCall CSendHello :: dead_events) with (((([CeCall CSendHello] ++ [CeSegment 0 (seg hello_name Blob)]) ++ [CeContent 0 two_content [CSendSync] []])
      ++ [CeSegment 1 (seg sync_name Blob)]) ++ [CeContent 1 [] [CSendSync] []]).
    eapply order_pair with (s := fst d_1) (o := snd d_1).
    + eapply order_pair with (s := fst l_0) (o := snd l_0).
      * apply (order_other Kc []); [apply order_nil|reflexivity].
      * apply reach_c. vm_compute. reflexivity.
      * reflexivity.
      * discriminate.
      * reflexivity.
      * reflexivity.
    + apply reach_c. vm_compute. reflexivity.
    + reflexivity.
    + discriminate.
    + reflexivity.
    + reflexivity.
Qed.
Print Assumptions C71_keeps_asking_refuted.

(** * C72 *)
(** once a hello reply arrived, whatever it contained, a sync interest can always be sent *)
Theorem C72_sync_after_hello : forall K evs s o, filter_ok K -> rate_ok K -> creaches K evs s o ->
  Forall named_data evs -> fetchers_in_order K evs -> completed K evs KHello ->
  exists s' n, c_step K (CeCall CSendSync) s = (s', [CoInterest KSync n], Ok tt) /\
    cfetch (c_started s) (c_live s') = Some (KSync, n) /\
    exists f1 f2 f3 ibf, n = cc_sync K ++ [SYNC; f1; f2; f3] ++ ibf /\ ibf <> [] /\ ibf = c_iblt s.
Proof.
  intros K evs s o (b & Eb & Hb) (_ & t & Hr & Ht) R Hn O C. destruct (creaches_inv _ _ _ _ R) as (b0 & E0 & D & _). rewrite Eb in E0. injection E0 as <-.
  pose proof (has_iblt_after K evs Hn O s o R C) as I. unfold has_iblt in I. destruct (append_safe K b t Eb Hr Ht s (sync_prefix K) D) as [n1 A].
  cbn [c_step call]. rewrite send_sync_eq, A. destruct (c_iblt s) as [|c r] eqn:Ei; [congruence|].
  eexists _, _. split; [reflexivity|]. split.
  - simpl. rewrite cstop_started, Nat.eqb_refl. reflexivity.
  - unfold append_bloom in A. destruct (d_cast _ _); try discriminate. cbn [obind] in A. injection A as <-.
    eexists _, _, _, (c :: r). split; [unfold append_bytes, append_number, sync_prefix; rewrite <- !app_assoc; reflexivity|]. split; [discriminate|reflexivity].
Qed.
Print Assumptions C72_sync_after_hello.
(** before that it aborts the program *)
Theorem C72_sync_before_hello : forall K evs s o, creaches K evs s o -> ~ completed K evs KHello ->
  c_step K (CeCall CSendSync) s = (s, [], UB UbAssert).
Proof.
  intros K evs s o R C. destruct (no_iblt_before K evs s o R C) as [I _]. cbn [c_step call]. rewrite send_sync_eq, I. reflexivity.
Qed.
Print Assumptions C72_sync_before_hello.
Lemma order_c1 : fetchers_in_order Kc evs_c1.
Proof.
  change evs_c1 with ((((([CeCall CSendHello] ++ [CeSegment 0 (seg hello_name Blob)]) ++ [CeContent 0 two_content [] []]) ++ [CeCall (CSub pa 4 true)])
    ++ [CeCall (CSub pb 5 false)]) ++ [CeCall CSendSync]).
  apply order_other; [|reflexivity]. apply order_other; [|reflexivity]. apply order_other; [|reflexivity].
  eapply order_pair with (s := fst l_0) (o := snd l_0).
  - apply (order_other Kc []); [apply order_nil|reflexivity].
  - apply reach_c. vm_compute. reflexivity.
  - reflexivity.
  - discriminate.
  - reflexivity.
  - reflexivity.
Qed.
Example C72_example : filter_ok Kc /\ rate_ok Kc /\ creaches Kc evs_c1 s_c1 o_c1 /\ Forall named_data evs_c1 /\ fetchers_in_order Kc evs_c1 /\
  completed Kc evs_c1 KHello /\ creaches Kc [CeCall CSendHello] (fst l_0) (snd l_0) /\ ~ completed Kc [CeCall CSendHello] KHello.
Proof.
  split; [exact filter_c|]. split; [exact rate_c|]. split; [exact reach_c1|]. split; [repeat constructor|]. split; [exact order_c1|].
  split; [|split; [apply reach_c; vm_compute; reflexivity|]].
  - pose (x := after [CeCall CSendHello; CeSegment 0 (seg hello_name Blob)]).
    exists [CeCall CSendHello; CeSegment 0 (seg hello_name Blob)], 0%nat, two_content, [], [], [CeCall (CSub pa 4 true); CeCall (CSub pb 5 false); CeCall CSendSync],
      (fst x), (snd x), (hello_prefix Kc). split; [reflexivity|]. split; [apply reach_c; vm_compute; reflexivity|reflexivity].
  - intros ([|x [|y l]] & i & buf & sc1 & sc2 & evs2 & s & o & n & E & _); discriminate.
Qed.
