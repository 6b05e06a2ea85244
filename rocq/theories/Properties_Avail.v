(** Property theorems about how long replies stay available (C131). *)
From Coq Require Import List NArith ZArith Bool Arith Lia.
From Coq.Strings Require Import Byte.
From Verif Require Import Base BaseFacts Mon MonFacts Iblt SpecIblt IbltFacts Tlv TlvFacts State NMap NMapFacts
  Codec CodecFacts Bloom SpecBloom Properties_Bloom Store StoreFacts SpecStore Properties_Store
  Producer SpecProducer ProducerFacts Properties_Producer
  Partial SpecPartial PartialFacts PartialSteps Properties_Partial
  Full FullTrace SpecFull FullFacts FullSafe FullRuns Properties_Full SpecWire Properties_Wire SpecDeliver SpecNames Properties_Names
  AvailFacts SpecAvail.
Import ListNotations.
Local Open Scope N_scope.

(** * C131 *)
(** the publisher itself: a segment is found until its freshness period is over or [limit] more packets were
    signed, whatever is published, looked up and erased in between *)
Theorem C131_segments_stay : forall E limit ops iname dname buf fresh,
  let w := prun E (pworld0 limit) ops in
  exists segs, SegmentsOf (next_version E (pw_pub w) dname) buf segs /\
    forall ops', let w' := prun E w (PPublish iname dname buf fresh :: ops') in
      not_nested (dname :: data_names ops ++ data_names ops') ->
      versions_differ E (pb_published (pw_pub w')) -> N.of_nat (pb_signed (pw_pub w')) <= two64 ->
      pw_now w' < pw_now w + fresh ->
      forall i d, nth_error segs i = Some d -> (pb_signed (pw_pub w') <= pb_signed (pw_pub w) + i + limit)%nat ->
        reply_from_store (d_name d) (pw_pub w') = Some d.
Proof.
  intros E limit ops iname dname buf fresh w.
  exists (segment E (pb_signed (pw_pub w)) (next_version E (pw_pub w) dname) buf fresh).
  split; [apply segment_SegmentsOf|]. intros ops' w' Hn V B T i d Hd Hs.
  set (fam := fun n => In n (dname :: data_names ops ++ data_names ops')).
  assert (forall a b, fam a -> fam b -> length a = length b \/ forall x y, is_prefix (a ++ x) (b ++ y) = false) as Ap.
  { intros a b Ha Hb. destruct (Nat.eq_dec (length a) (length b)) as [Hl|Hl]; [left; exact Hl|right]. intros x y.
    destruct (Hn a b Ha Hb) as [?|P]; [contradiction|]. destruct (Hn b a Hb Ha) as [?|Q]; [congruence|].
    destruct (is_prefix (a ++ x) (b ++ y)) eqn:R; [|reflexivity]. apply is_prefix_iff in R as (z & R). rewrite <- app_assoc in R.
    destruct (Nat.le_ge_cases (length a) (length b)) as [Le|Le].
    - rewrite <- P. symmetry. apply is_prefix_iff. exists (skipn (length a) b).
      apply (f_equal (firstn (length b))) in R. rewrite firstn_app, Nat.sub_diag, firstn_all in R. cbn [firstn] in R.
      rewrite app_nil_r in R. rewrite firstn_app, (firstn_all2 a) in R by lia. rewrite R at 2.
      rewrite skipn_app, skipn_all, Nat.sub_diag. cbn [app skipn]. exact R.
    - rewrite <- Q. symmetry. apply is_prefix_iff. exists (skipn (length b) a).
      apply (f_equal (firstn (length a))) in R. rewrite (firstn_app _ a), Nat.sub_diag, firstn_all in R. cbn [firstn] in R.
      rewrite app_nil_r in R. rewrite firstn_app, (firstn_all2 b) in R by lia. rewrite <- R at 2.
      rewrite skipn_app, skipn_all, Nat.sub_diag. cbn [app skipn]. symmetry. exact R. }
  assert (forall l w0 L, incl (data_names l) (dname :: data_names ops ++ data_names ops') ->
    moves E fam limit L (pw_now w0) (pw_pub w0) ->
    exists L', moves E fam limit (L ++ L') (pw_now (prun E w0 l)) (pw_pub (prun E w0 l))) as Run.
  { induction l as [|o l IH]; intros w0 L Hi M; [exists []; rewrite app_nil_r; exact M|]. cbn [prun fold_left].
    change (fold_left _ l ?x) with (prun E x l).
    destruct o as [a b c f|a|dt|k].
    - cbn [pstep]. destruct (publish E (pw_now w0) a b c f (pw_pub w0)) as [p r] eqn:P. cbn [fst].
      assert (p = fst (publish E (pw_now w0) a b c f (pw_pub w0))) as -> by (rewrite P; reflexivity).
      destruct (IH (mkPworld (pw_now w0) (fst (publish E (pw_now w0) a b c f (pw_pub w0))))
        (L ++ [mkIssue (pw_now w0) (pb_published (pw_pub w0)) (pb_signed (pw_pub w0)) b c f])) as (L' & M').
      + intros x Hx. apply Hi. right. exact Hx.
      + apply mv_publish; [exact M|]. apply Hi. left. reflexivity.
      + rewrite <- app_assoc in M'. eauto.
    - apply IH; auto.
    - apply IH; [exact Hi|]. apply mv_time, M.
    - apply IH; [exact Hi|]. apply mv_fire, M. }
  destruct (Run ops (pworld0 limit) []) as (L1 & M1).
  { intros x Hx. right. apply in_or_app. auto. }
  { apply mv_new. }
  cbn [app] in M1. fold w in M1.
  assert (w' = prun E (mkPworld (pw_now w) (fst (publish E (pw_now w) iname dname buf fresh (pw_pub w)))) ops') as Ew.
  { unfold w'. cbn [prun fold_left pstep]. destruct (publish _ _ _ _ _ _ _) as [p r]. reflexivity. }
  assert (fam dname) as Fd by (left; reflexivity).
  pose proof (mv_publish _ _ _ _ _ _ iname dname buf fresh M1 Fd) as M2.
  destruct (Run ops' (mkPworld (pw_now w) (fst (publish E (pw_now w) iname dname buf fresh (pw_pub w)))) _
    (fun x Hx => or_intror (in_or_app _ _ x (or_intror Hx))) M2) as (L' & M3).
  rewrite <- Ew in M3.
  set (x0 := mkIssue (pw_now w) (pb_published (pw_pub w)) (pb_signed (pw_pub w)) dname buf fresh) in *.
  assert (i < nseg buf)%nat as Hi.
  { rewrite <- (segment_length E (pb_signed (pw_pub w)) (next_version E (pw_pub w) dname) buf fresh). apply nth_error_Some. congruence. }
  rewrite segment_nth in Hd by exact Hi. injection Hd as <-.
  apply (moves_found E fam Ap limit _ (pw_now w') (pw_pub w') x0 i M3); auto.
  apply in_or_app. left. apply in_or_app. right. left. reflexivity.
Qed.
Print Assumptions C131_segments_stay.

(** a partial producer: every segment of a reply it has just made is sent to whoever asks for it, until the
    freshness period is over or the producer has signed more than 100 packets *)
Theorem C131_producer_replies_stay : forall K evs s1 o1 e s2 o2 d0,
  pp_run K (pp_new K) evs = Some (s1, o1) -> pp_run K s1 [e] = Some (s2, o2) ->
  In d0 o2 -> d_type d0 = Blob -> ~ In d0 (pb_store (pp_pub s1)) ->
  exists vname buf segs, SegmentsOf vname buf segs /\ In d0 segs /\
    forall evs' s o, pp_run K s2 evs' = Some (s, o) ->
      versions_differ (pc_env K) (pb_published (pp_pub s)) -> N.of_nat (pb_signed (pp_pub s)) <= two64 ->
      pp_now s < pp_now s1 + d_fresh d0 -> (pb_signed (pp_pub s) <= pb_signed (pp_pub s1) + 100)%nat ->
      forall d l, In d segs -> pp_step K (PInterest (d_name d) l) s = (s, [d], Ok tt).
Proof.
  intros K evs s1 o1 e s2 o2 d0 R1 R2 Hd Hb Hnew.
  destruct (producer_issue K evs s1 o1 e s2 o2 d0 R1 R2 Hd Hb Hnew) as (x & i0 & Hi0 & Ed0 & _ & H).
  exists (append_version (is_base x) (en_version (pc_env K) (is_no x))), (is_buf x), (leaves (pc_env K) x).
  split; [apply segment_SegmentsOf|]. split; [apply segment_In; eauto|].
  intros evs' s o R3 V B T Sg d l Hin. apply segment_In in Hin as (i & Hi & ->). rewrite Ed0 in T.
  apply (H evs' s o R3 V B T Sg i l Hi).
Qed.
Print Assumptions C131_producer_replies_stay.

(** the same for full-sync nodes *)
Theorem C131_node_replies_stay : forall K sys evs s1 o1 e s2 o2 d0,
  reaches K sys evs s1 o1 -> fev_wf e -> fp_run K s1 [e] = Some (s2, o2) ->
  In (FoData d0) o2 -> d_type d0 = Blob -> ~ In d0 (pb_store (f_pub s1)) ->
  exists vname buf segs, SegmentsOf vname buf segs /\ In d0 segs /\
    forall evs' s o, fp_run K s2 evs' = Some (s, o) ->
      versions_differ (fc_env K) (pb_published (f_pub s)) -> N.of_nat (pb_signed (f_pub s)) <= two64 ->
      f_now s < f_now s1 + d_fresh d0 -> (pb_signed (f_pub s) <= pb_signed (f_pub s1) + 100)%nat ->
      forall d l, In d segs -> fp_step K (FeInterest (d_name d) l) s = (s, [FoData d], Ok tt).
Proof.
  intros K sys evs s1 o1 e s2 o2 d0 [Wf R1] We R2 Hd Hb Hnew.
  assert (reaches K sys (evs ++ [e]) s2 (o1 ++ o2)) as R12.
  { split; [apply Forall_app; split; [exact Wf|repeat constructor; exact We]|]. unfold fp_start in *.
    destruct (fp_init K sys) as [[s0 o0] [u|x|u|]]; try discriminate. unfold fp_run in *. rewrite run_app.
    destruct (run (fp_step K) s0 evs) as [[s1' o1']|]; [|discriminate]. injection R1 as <- <-. cbv beta iota. rewrite R2.
    rewrite app_assoc. reflexivity. }
  pose proof (C105_node_data K sys _ _ _ d0 R12 (in_or_app _ _ _ (or_intror Hd))) as Nd.
  apply fp_start_moves in R1 as (A1 & L & M1).
  assert (forall dt, e <> FeTick dt) as Ht.
  { intros dt ->. injection R2 as <- <-. destruct Hd. }
  destruct (facts_step K e s1 Ht A1) as (A2 & Et & W). destruct (W L M1) as (L' & M2 & X1 & X2 & X3 & X4).
  assert (s2 = st (fp_step K e s1) /\ In (FoData d0) (outs (fp_step K e s1))) as [-> Hd'].
  { unfold fp_run in R2. cbn [run] in R2. unfold st, outs. destruct (fp_step K e s1) as [[a b] [u|x|u|]]; try discriminate;
      injection R2 as <- <-; rewrite app_nil_r in Hd; auto. }
  assert (In d0 (data_of (outs (fp_step K e s1)))) as Hd2.
  { revert Hd'. clear. induction (outs _) as [|a l IH]; [intros []|]. intros [->|H]; [left; reflexivity|].
    destruct a; cbn [data_of]; auto. right. auto. }
  destruct (X4 d0 Hd2) as [X|[X|X]]; [congruence|contradiction|]. destruct X as (x & i0 & Hx & Hi0 & Ed0).
  destruct (X1 x Hx) as (Ea & Es & _).
  exists (append_version (is_base x) (en_version (fc_env K) (is_no x))), (is_buf x), (leaves (fc_env K) x).
  split; [apply segment_SegmentsOf|]. split; [apply segment_In; eauto|].
  intros evs' s o R3 V B T Sg d l Hin. rewrite <- Et in M2.
  destruct (fp_run_more K evs' _ _ s o A2 M2 R3) as (_ & _ & _ & L3 & M3).
  apply segment_In in Hin as (i & Hi & ->). fold (leaf (fc_env K) x i).
  assert (reply_from_store (d_name (leaf (fc_env K) x i)) (f_pub s) = Some (leaf (fc_env K) x i)) as Rp.
  { apply (moves_found _ _ (ffam_apart K) _ _ _ _ x i M3); auto.
    - apply in_or_app. left. apply in_or_app. auto.
    - rewrite Ea. rewrite Ed0 in T. exact T.
    - unfold IMS_LIMIT. lia. }
  assert (ffam K (is_base x)) as Hf.
  { apply (ro_fam _ _ _ _ (av_rolls _ _ _ _ _ _ (moves_avail _ _ (ffam_apart K) _ _ _ _ M3))).
    apply in_or_app. left. apply in_or_app. auto. }
  assert (is_prefix (fc_sync K) (d_name (leaf (fc_env K) x i)) = true) as P.
  { destruct Nd as [(c1 & c2 & _ & v & j & z & Nm & _)|(c & _ & Ty & _)]; [|congruence].
    rewrite Ed0 in Nm. unfold leaf in Nm |- *. cbn [d_name seg_data] in Nm |- *. unfold append_segment, append_version in *.
    rewrite <- !app_assoc in *. cbn [app] in Nm.
    apply (f_equal (firstn (length (fc_sync K)))) in Nm. rewrite !firstn_app in Nm.
    rewrite Nat.sub_diag, firstn_all in Nm. cbn [firstn] in Nm. rewrite app_nil_r in Nm.
    unfold ffam in Hf. replace (length (fc_sync K) - length (is_base x))%nat with 0%nat in Nm by lia. cbn [firstn] in Nm.
    rewrite app_nil_r in Nm. apply is_prefix_iff.
    exists (skipn (length (fc_sync K)) (is_base x) ++ [number_comp TYPE_VERSION (en_version (fc_env K) (is_no x)); number_comp TYPE_SEGMENT (N.of_nat i)]).
    rewrite <- (firstn_skipn (length (fc_sync K)) (is_base x)) at 1. rewrite Nm, <- !app_assoc. reflexivity. }
  cbn [fp_step]. rewrite P. unfold on_finterest. rewrite mbind_get, Rp. reflexivity.
Qed.
Print Assumptions C131_node_replies_stay.

(** ** Cases *)
(** a content of two segments, more publications of the same name, lookups and erase events: both segments are found *)
Definition long_131 : bytes := repeat x00 (SEG_SIZE + 1).
Definition more_131 : list pop := [PPublish [Properties_Store.gen x61] [Properties_Store.gen x61] [x01] 200; PAdvance 300; PFire 0; PFire 2; PLookup [Properties_Store.gen x61];
  PPublish [Properties_Store.gen x61] [Properties_Store.gen x62] [] 200; PAdvance 699].
Example C131_store_example :
  let E := Properties_Store.env_example in
  let w := prun E (pworld0 4) [PPublish [Properties_Store.gen x61] [Properties_Store.gen x61] [x02] 5000] in
  let w' := prun E w (PPublish [Properties_Store.gen x61] [Properties_Store.gen x61] long_131 1000 :: more_131) in
  not_nested ([Properties_Store.gen x61] :: data_names [PPublish [Properties_Store.gen x61] [Properties_Store.gen x61] [x02] 5000] ++ data_names more_131) /\
  versions_differ E (pb_published (pw_pub w')) /\ N.of_nat (pb_signed (pw_pub w')) <= two64 /\
  pw_now w' < pw_now w + 1000 /\ (pb_signed (pw_pub w') <= pb_signed (pw_pub w) + 0 + 4)%nat /\
  length (pb_store (pw_pub w')) = 4%nat /\ pb_signed (pw_pub w') = 5%nat.
Proof.
  split; [|split; [|vm_compute; repeat split; try discriminate; repeat constructor]].
  - intros a b Ha Hb. left. transitivity 1%nat; [|symmetry]; [revert Ha|revert Hb]; cbn; intuition (subst; reflexivity).
  - match goal with |- versions_differ _ ?m => replace m with 4%nat by (vm_compute; reflexivity) end.
    intros i j Hi Hj. cbn [Properties_Store.env_example en_version]. unfold two64. split; lia.
Qed.

(** a producer answers a hello interest; while it learns of more, answers other interests and runs erase
    events the reply stays *)
Definition evs_131 : list pev := [PAdd pa; PPublishName pa (Some 4)].
Definition s1_131 : pp := Eval vm_compute in state_after Kx evs_131.
Definition evs_131b : list pev := [PTick 400; PPublishName pa (Some 5); PInterest (request Kx all_ones (iblt_new 10)) 1000; PStoreFire 0; PTick 599].
Definition s2_131 : pp := Eval vm_compute in state_after Kx (evs_131 ++ [PInterest (syncp ++ [HELLO]) 1000]).
Definition s3_131 : pp := Eval vm_compute in state_after Kx (evs_131 ++ [PInterest (syncp ++ [HELLO]) 1000] ++ evs_131b).
Example C131_producer_example : exists o1 d0 o,
  pp_run Kx (pp_new Kx) evs_131 = Some (s1_131, o1) /\
  pp_run Kx s1_131 [PInterest (syncp ++ [HELLO]) 1000] = Some (s2_131, [d0]) /\
  d_type d0 = Blob /\ ~ In d0 (pb_store (pp_pub s1_131)) /\
  pp_run Kx s2_131 evs_131b = Some (s3_131, o) /\
  versions_differ (pc_env Kx) (pb_published (pp_pub s3_131)) /\ N.of_nat (pb_signed (pp_pub s3_131)) <= two64 /\
  pp_now s3_131 < pp_now s1_131 + d_fresh d0 /\ (pb_signed (pp_pub s3_131) <= pb_signed (pp_pub s1_131) + 100)%nat /\
  length (pb_store (pp_pub s3_131)) = 2%nat.
Proof.
  eexists _, _, _. split; [vm_compute; reflexivity|]. split; [vm_compute; reflexivity|]. split; [reflexivity|]. split; [intros []|].
  split; [vm_compute; reflexivity|]. split; [apply env_example_versions; reflexivity|]. split; [vm_compute; discriminate|].
  split; [vm_compute; reflexivity|]. split; [vm_compute; repeat constructor|reflexivity].
Qed.
(** at the end of the period the reply is gone, and a new one is made *)
Example C131_producer_until : exists s d0 d1,
  pp_run Kx s2_131 [PTick 1000; PPublishName pa (Some 5); PStoreFire 0; PInterest (syncp ++ [HELLO]) 1000] = Some (s, [d1]) /\
  pp_run Kx s1_131 [PInterest (syncp ++ [HELLO]) 1000] = Some (s2_131, [d0]) /\
  reply_from_store (d_name d0) (pp_pub s) = None /\ d_content d0 <> d_content d1.
Proof.
  eexists _, _, _. split; [vm_compute; reflexivity|]. split; [vm_compute; reflexivity|]. split; [vm_compute; reflexivity|].
  intros X. revert X. vm_compute. discriminate.
Qed.
(** a full-sync node *)
Definition evs_131f : list fev := [FeApi (AAdd pa); FeApi (APublish pa (Some 4))].
Definition s1_131f : fp := Eval vm_compute in fst (full_after Kf evs_131f).
Definition s2_131f : fp := Eval vm_compute in fst (full_after Kf (evs_131f ++ [FeInterest blank_ask 1000])).
Definition evs_131g : list fev := [FeTick 400; FeApi (APublish pa (Some 5)); FeStore 0; FeTick 599].
Definition s3_131f : fp := Eval vm_compute in fst (full_after Kf (evs_131f ++ [FeInterest blank_ask 1000] ++ evs_131g)).
Example C131_node_example : exists o1 d0 o2 o,
  reaches Kf 0 evs_131f s1_131f o1 /\ fp_run Kf s1_131f [FeInterest blank_ask 1000] = Some (s2_131f, o2) /\
  In (FoData d0) o2 /\ d_type d0 = Blob /\ ~ In d0 (pb_store (f_pub s1_131f)) /\
  fp_run Kf s2_131f evs_131g = Some (s3_131f, o) /\
  versions_differ (fc_env Kf) (pb_published (f_pub s3_131f)) /\ N.of_nat (pb_signed (f_pub s3_131f)) <= two64 /\
  f_now s3_131f < f_now s1_131f + d_fresh d0 /\ (pb_signed (f_pub s3_131f) <= pb_signed (f_pub s1_131f) + 100)%nat.
Proof.
  eexists _, _, _, _. split; [split; [repeat constructor|vm_compute; reflexivity]|]. split; [vm_compute; reflexivity|].
  split; [left; reflexivity|]. split; [reflexivity|]. split; [intros []|].
  split; [vm_compute; reflexivity|]. split; [apply env_example_versions; reflexivity|]. split; [vm_compute; discriminate|].
  split; [vm_compute; reflexivity|vm_compute; repeat constructor].
Qed.
