(** Property theorems about the order in which updates arrive (C117). *)
From Coq Require Import List NArith ZArith Bool Arith Lia.
From Coq.Strings Require Import Byte.
From Verif Require Import Base Mon MonFacts Iblt BaseFacts Tlv State NMap TlvFacts NMapFacts Codec CodecFacts Store StoreFacts
  Producer SpecProducer ProducerFacts Properties_Producer Partial SpecPartial Properties_Partial
  Full FullTrace SpecFull FullFacts FullRuns Properties_Full SpecExchange ExchangeFacts SpecGroup GroupFacts Consumer SpecConsumer
  ConsumerFacts Properties_Consumer SpecOrder OrderFacts OrderConsumer.
Import ListNotations.
Local Open Scope N_scope.

(** * C117 *)
(** as long as the application does not remove a prefix, the node's number for it is the largest of all
    it could learn, from received content and from its own application, and 0 if there was nothing *)
Theorem C117_number_is_the_largest : forall K sys evs s o p,
  reaches K sys evs s o -> ~ In (CRemove p) (ops_of o) ->
  (forall v, source K sys evs o p v -> v <= knows s p) /\
  (knows s p = 0 \/ source K sys evs o p (knows s p)).
Proof.
  intros K sys evs s o p R N. destruct (reaches_core _ _ _ _ _ R) as [W C]. split.
  - intros v [T|A].
    + exact (told_held K sys p v evs s o R N T).
    + exact (announced_held _ _ p v _ W C N A).
  - unfold knows. destruct (get_seq p (f_core s)) as [v|] eqn:G; cbn [seq0]; [|left; reflexivity].
    destruct (seq_origin _ _ p v W _ C G) as [Z|[A|A]]; [left; exact Z|right; right; exact A|].
    right. left. exact (update_told K sys p v evs s o R A).
Qed.
Print Assumptions C117_number_is_the_largest.

(** so neither order nor repetition nor timing matters: two nodes that could learn the same numbers of a
    prefix hold the same number of it *)
Theorem C117_order_is_irrelevant : forall K1 K2 sys1 sys2 evs1 evs2 s1 s2 o1 o2 p,
  reaches K1 sys1 evs1 s1 o1 -> reaches K2 sys2 evs2 s2 o2 ->
  ~ In (CRemove p) (ops_of o1) -> ~ In (CRemove p) (ops_of o2) ->
  (forall v, v <> 0 -> source K1 sys1 evs1 o1 p v <-> source K2 sys2 evs2 o2 p v) ->
  knows s1 p = knows s2 p.
Proof.
  intros K1 K2 sys1 sys2 evs1 evs2 s1 s2 o1 o2 p R1 R2 N1 N2 H.
  destruct (C117_number_is_the_largest _ _ _ _ _ p R1 N1) as [L1 M1].
  destruct (C117_number_is_the_largest _ _ _ _ _ p R2 N2) as [L2 M2].
  destruct (N.eq_dec (knows s1 p) 0) as [Z1|Z1], (N.eq_dec (knows s2 p) 0) as [Z2|Z2]; try congruence.
  - destruct M2 as [M2|M2]; [contradiction|]. apply H in M2; auto. apply L1 in M2. lia.
  - destruct M1 as [M1|M1]; [contradiction|]. apply H in M1; auto. apply L2 in M1. lia.
  - destruct M1 as [M1|M1], M2 as [M2|M2]; try contradiction. apply H in M1; auto. apply H in M2; auto.
    apply L1 in M2. apply L2 in M1. lia.
Qed.
Print Assumptions C117_order_is_irrelevant.

(** and if that goes for every prefix, the nodes describe what they have by the same IBF, so that
    neither of them will find anything missing at the other *)
Theorem C117_same_filter : forall K1 K2 sys1 sys2 evs1 evs2 s1 s2 o1 o2,
  fc_n K1 = fc_n K2 ->
  reaches K1 sys1 evs1 s1 o1 -> reaches K2 sys2 evs2 s2 o2 -> no_collision K1 o1 -> no_collision K2 o2 ->
  no_removal (ops_of o1) -> no_removal (ops_of o2) ->
  (forall p v, v <> 0 -> source K1 sys1 evs1 o1 p v <-> source K2 sys2 evs2 o2 p v) ->
  live (f_core s1) = live (f_core s2) /\ k_iblt (f_core s1) = k_iblt (f_core s2).
Proof.
  intros K1 K2 sys1 sys2 evs1 evs2 s1 s2 o1 o2 En R1 R2 C1 C2 N1 N2 H.
  assert (live (f_core s1) = live (f_core s2)) as L.
  { apply live_ext; [exact (reaches_pfx _ _ _ _ _ R1)|exact (reaches_pfx _ _ _ _ _ R2)|]. intros p.
    exact (C117_order_is_irrelevant _ _ _ _ _ _ _ _ _ _ p R1 R2 (N1 p) (N2 p) (H p)). }
  split; [exact L|]. apply (iblt_ext (fc_n K1)); [exact (reaches_core_ok _ _ _ _ _ R1 C1)| |exact L].
  rewrite En. exact (reaches_core_ok _ _ _ _ _ R2 C2).
Qed.
Print Assumptions C117_same_filter.

(** the same numbers in two orders *)
Definition evs_117a : list fev := [FeContent 0 two_content []; FeTick 200; FeSend; FeContent 1 (a_content 7) []].
Definition evs_117b : list fev := [FeContent 0 (a_content 7) []; FeTick 200; FeSend; FeContent 1 two_content []].
Definition said_117 (p : name) (v : N) : Prop := (p = pa /\ v = 4) \/ (p = pb /\ v = 5) \/ (p = pa /\ v = 7).
Lemma wf_117 evs : In evs [evs_117a; evs_117b] -> Forall fev_wf evs.
Proof. intros [<-|[<-|[]]]; repeat constructor; apply wf_nil; reflexivity. Qed.
Lemma says_two p v : says [append_number pa 4; append_number pb 5] p v -> (p = pa /\ v = 4) \/ (p = pb /\ v = 5).
Proof.
  intros H. apply says_inv in H as [(x & E & T)|[_ H]].
  - unfold append_number in E. apply app_inj_tail in E as [<- <-]. rewrite to_number_number in T by reflexivity. injection T as <-. auto.
  - apply says_inv in H as [(x & E & T)|[_ H]].
    + unfold append_number in E. apply app_inj_tail in E as [<- <-]. rewrite to_number_number in T by reflexivity. injection T as <-. auto.
    + destruct H as ([|] & x & a & E & _); discriminate.
Qed.
Lemma says_one w p v : w < two64 -> says [append_number pa w] p v -> p = pa /\ v = w.
Proof.
  intros L H. apply says_inv in H as [(x & E & T)|[_ H]].
  - unfold append_number in E. apply app_inj_tail in E as [<- <-]. rewrite to_number_number in T by exact L. injection T as <-. auto.
  - destruct H as ([|] & x & a & E & _); discriminate.
Qed.
Definition evs_of (b0 b1 : bytes) : list fev := [FeContent 0 b0 []; FeTick 200; FeSend; FeContent 1 b1 []].
Lemma told_example b0 b1 n0 n1 p v : Properties_Full.started Kf (firstn 3 (evs_of b0 b1)) = true ->
  (exists n, fetch_of 1 (f_live (fst (full_after Kf (firstn 3 (evs_of b0 b1))))) = Some n) ->
  content_names Kf b0 n0 -> content_names Kf b1 n1 ->
  told Kf 0 (evs_of b0 b1) p v <-> says n0 p v \/ says n1 p v.
Proof.
  intros S3 (n & F) C0 C1. pose proof C0 as C0'. pose proof C1 as C1'. unfold content_names in C0', C1'.
  assert (Forall fev_wf (firstn 3 (evs_of b0 b1))) as W by (repeat constructor; apply wf_nil; reflexivity).
  pose proof (reaches_example Kf _ W S3) as R3. split.
  - intros T. change (evs_of b0 b1) with (firstn 3 (evs_of b0 b1) ++ [FeContent 1 b1 []]) in T.
    apply (told_snoc _ _ _ _ _ _ _ _ R3) in T as [T|(i & buf & script & n' & names & E & _ & C & Sy)].
    2:{ injection E as <- <- <-. unfold content_names in C. rewrite C1' in C. injection C as <-. auto. }
    change (firstn 3 (evs_of b0 b1)) with ((([] ++ [FeContent 0 b0 []]) ++ [FeTick 200]) ++ [FeSend]) in T, R3.
    apply reaches_inv in R3 as (s2 & o2 & R2 & _). pose proof R2 as R2'. apply reaches_inv in R2' as (s1 & o1 & R1 & _).
    pose proof R1 as R1'. apply reaches_inv in R1' as (s0 & o0 & R0 & _).
    destruct (told_snoc _ _ _ _ _ _ _ _ R2 T) as [TR2|(i & buf & script & n' & names & E & _)]; [|discriminate].
    destruct (told_snoc _ _ _ _ _ _ _ _ R1 TR2) as [TR1|(i & buf & script & n' & names & E & _)]; [|discriminate].
    destruct (told_snoc _ _ _ _ _ _ _ _ R0 TR1) as [TR0|(i & buf & script & n' & names & E & _ & C & Sy)].
    + destruct TR0 as ([|] & i & buf & script & post & x & y & n' & names & E & _); discriminate.
    + injection E as <- <- <-. unfold content_names in C. rewrite C0' in C. injection C as <-. auto.
  - intros [Sy|Sy].
    + exists [], 0%nat, b0, [], [FeTick 200; FeSend; FeContent 1 b1 []]. eexists _, _, blank_ask, n0.
      split; [reflexivity|]. split; [apply reaches_example; [constructor|vm_compute; reflexivity]|].
      split; [vm_compute; reflexivity|]. auto.
    + exists (firstn 3 (evs_of b0 b1)), 1%nat, b1, [], []. eexists _, _, n, n1.
      split; [reflexivity|]. split; [exact R3|]. auto.
Qed.
Lemma seven_decodes : content_names Kf (a_content 7) [append_number pa 7].
Proof. vm_compute. reflexivity. Qed.
Example C117_example : exists s1 o1 s2 o2,
  reaches Kf 0 evs_117a s1 o1 /\ reaches Kf 0 evs_117b s2 o2 /\ no_removal (ops_of o1) /\ no_removal (ops_of o2) /\
  (forall p v, source Kf 0 evs_117a o1 p v <-> source Kf 0 evs_117b o2 p v) /\
  source Kf 0 evs_117a o1 pa 4 /\ source Kf 0 evs_117b o2 pa 7 /\ knows s1 pa = 7 /\ knows s2 pb = 5 /\
  NoDup (map name_hash (live (f_core s1))) /\ length (live (f_core s1)) = 2%nat.
Proof.
  assert (forall p v, told Kf 0 evs_117a p v <-> said_117 p v) as Ta.
  { intros p v. change evs_117a with (evs_of two_content (a_content 7)).
    rewrite (told_example _ _ two_names [append_number pa 7]); [| | |apply two_decodes|apply seven_decodes].
    2:{ vm_compute. reflexivity. } 2:{ eexists. vm_compute. reflexivity. }
    unfold said_117, two_names. split.
    - intros [H|H]; [apply says_two in H; tauto|apply says_one in H; [tauto|reflexivity]].
    - intros [[-> ->]|[[-> ->]|[-> ->]]].
      + left. exists [], (number_comp TYPE_GENERIC 4), [append_number pb 5]. split; [reflexivity|]. split; [apply to_number_number; reflexivity|constructor].
      + left. exists [append_number pa 4], (number_comp TYPE_GENERIC 5), []. split; [reflexivity|]. split; [apply to_number_number; reflexivity|].
        constructor; [apply number_good; reflexivity|constructor].
      + right. exists [], (number_comp TYPE_GENERIC 7), []. split; [reflexivity|]. split; [apply to_number_number; reflexivity|constructor]. }
  assert (forall p v, told Kf 0 evs_117b p v <-> said_117 p v) as Tb.
  { intros p v. change evs_117b with (evs_of (a_content 7) two_content).
    rewrite (told_example _ _ [append_number pa 7] two_names); [| | |apply seven_decodes|apply two_decodes].
    2:{ vm_compute. reflexivity. } 2:{ eexists. vm_compute. reflexivity. }
    unfold said_117, two_names. split.
    - intros [H|H]; [apply says_one in H; [tauto|reflexivity]|apply says_two in H; tauto].
    - intros [[-> ->]|[[-> ->]|[-> ->]]].
      + right. exists [], (number_comp TYPE_GENERIC 4), [append_number pb 5]. split; [reflexivity|]. split; [apply to_number_number; reflexivity|constructor].
      + right. exists [append_number pa 4], (number_comp TYPE_GENERIC 5), []. split; [reflexivity|]. split; [apply to_number_number; reflexivity|].
        constructor; [apply number_good; reflexivity|constructor].
      + left. exists [], (number_comp TYPE_GENERIC 7), []. split; [reflexivity|]. split; [apply to_number_number; reflexivity|constructor]. }
  eexists _, _, _, _.
  split; [apply (reaches_example Kf evs_117a); [apply wf_117; left; reflexivity|vm_compute; reflexivity]|].
  split; [apply (reaches_example Kf evs_117b); [apply wf_117; right; left; reflexivity|vm_compute; reflexivity]|].
  split; [apply keeps_all_ok; vm_compute; reflexivity|]. split; [apply keeps_all_ok; vm_compute; reflexivity|].
  assert (forall evs p v, In evs [evs_117a; evs_117b] -> ~ announced (fc_n Kf) (ops_of (snd (full_after Kf evs))) p v) as Na.
  { intros evs p v He (pre & post & q & k & cur & E & _).
    assert (existsb (fun c => match c with CPublish _ _ => true | _ => false end) (ops_of (snd (full_after Kf evs))) = false) as X.
    { destruct He as [<-|[<-|[]]]; vm_compute; reflexivity. }
    rewrite E, existsb_app in X. cbn [existsb] in X. rewrite orb_true_r in X. discriminate. }
  split.
  { intros p v. unfold source. rewrite Ta, Tb. split; intros [H|H]; auto; exfalso; (eapply Na; [|exact H]; simpl; auto). }
  split; [left; apply Ta; left; auto|]. split; [left; apply Tb; right; right; auto|].
  split; [vm_compute; reflexivity|]. split; [vm_compute; reflexivity|].
  split; [vm_compute; repeat constructor; simpl; intuition discriminate|vm_compute; reflexivity].
Qed.

(** ** Consumers *)
(** while a consumer stays subscribed to a prefix, the number it holds for it is the largest of the
    number it had and of all that the replies named since *)
Theorem C117_consumer_number_is_the_largest : forall K evs1 evs2 s1 o1 s2 o2 p,
  creaches K evs1 s1 o1 -> is_subscribed p s1 = true -> creaches K (evs1 ++ evs2) s2 o2 ->
  (forall e, In e evs2 -> ~ In (CUnsub p) (calls_of e)) ->
  exists v1 v2, seq_of p s1 = Some v1 /\ seq_of p s2 = Some v2 /\ v1 <= v2 /\
    (forall v, ctold K evs1 evs2 p v -> v <= v2) /\ (v2 = v1 \/ ctold K evs1 evs2 p v2).
Proof.
  intros K evs1 evs2 s1 o1 s2 o2 p R1 Sp R2 N. destruct (crun_order K evs1 s1 o1 p R1 Sp evs2 s2 o2 R2 N) as [Sp2 (A & B & C)].
  destruct (creaches_inv _ _ _ _ R1) as (b1 & _ & D1 & _). destruct (creaches_inv _ _ _ _ R2) as (b2 & _ & D2 & _).
  pose proof (di_known _ _ D1 p Sp) as K1. pose proof (di_known _ _ D2 p Sp2) as K2. unfold ConsumerFacts.known in *.
  unfold seq_of. destruct (nm_find p (c_prefixes s1)) as [v1|]; [|congruence].
  destruct (nm_find p (c_prefixes s2)) as [v2|]; [|congruence]. exists v1, v2. cbn [seq0] in *. split; auto. split; auto.
  split; [exact A|]. split; [exact B|]. destruct C as [C|(v & C & H)]; [left; congruence|right]. injection C as ->. exact H.
Qed.
Print Assumptions C117_consumer_number_is_the_largest.
Theorem C117_consumer_order_is_irrelevant : forall K L evs1 evs2 fvs1 fvs2 s1 o1 s2 o2 t1 u1 t2 u2 p,
  creaches K evs1 s1 o1 -> is_subscribed p s1 = true -> creaches K (evs1 ++ evs2) s2 o2 ->
  (forall e, In e evs2 -> ~ In (CUnsub p) (calls_of e)) ->
  creaches L fvs1 t1 u1 -> is_subscribed p t1 = true -> creaches L (fvs1 ++ fvs2) t2 u2 ->
  (forall e, In e fvs2 -> ~ In (CUnsub p) (calls_of e)) ->
  seq_of p s1 = seq_of p t1 -> (forall v, ctold K evs1 evs2 p v <-> ctold L fvs1 fvs2 p v) ->
  seq_of p s2 = seq_of p t2.
Proof.
  intros K L evs1 evs2 fvs1 fvs2 s1 o1 s2 o2 t1 u1 t2 u2 p R1 Sp R2 N Q1 Tp Q2 M E H.
  destruct (C117_consumer_number_is_the_largest _ _ _ _ _ _ _ p R1 Sp R2 N) as (v1 & v2 & E1 & E2 & A1 & B1 & C1).
  destruct (C117_consumer_number_is_the_largest _ _ _ _ _ _ _ p Q1 Tp Q2 M) as (w1 & w2 & F1 & F2 & A2 & B2 & C2).
  rewrite E1, F1 in E. injection E as <-. rewrite E2, F2. f_equal.
  destruct C1 as [->|C1], C2 as [->|C2]; auto.
  - apply H, B1 in C2. lia.
  - apply H, B2 in C1. lia.
  - apply H, B1 in C2. apply H, B2 in C1. lia.
Qed.
Print Assumptions C117_consumer_order_is_irrelevant.
Example C117_consumer_example : creaches Kc evs_c2 s_c2 o_c2 /\ is_subscribed pa s_c2 = true /\ seq_of pa s_c2 = Some 4 /\
  exists s o, creaches Kc (evs_c2 ++ [CeContent 1 (a_content 7) [] []]) s o /\
    ctold Kc evs_c2 [CeContent 1 (a_content 7) [] []] pa 7 /\ seq_of pa s = Some 7.
Proof.
  split; [exact reach_c2|]. split; [reflexivity|]. split; [reflexivity|].
  eexists _, _. split; [apply reach_c; vm_compute; reflexivity|]. split; [|vm_compute; reflexivity].
  eexists [], _, [], s_c2, o_c2. split; [reflexivity|]. split; [exact reach_c2|].
  eexists 1%nat, (a_content 7), [], [], KSync, _, [append_number pa 7]. split; [reflexivity|]. split; [vm_compute; reflexivity|].
  split; [reflexivity|]. split; [vm_compute; reflexivity|].
  exists [], (number_comp TYPE_GENERIC 7), []. split; [reflexivity|]. split; [apply to_number_number; reflexivity|constructor].
Qed.
