(** Property theorems about the order of names (C133). *)
From Coq Require Import List NArith ZArith Bool Arith Lia Sorted.
From Coq.Strings Require Import Byte.
From Verif Require Import Base BaseFacts Mon MonFacts Iblt SpecIblt IbltFacts Tlv TlvFacts State NMap NMapFacts
  Codec CodecFacts Bloom SpecBloom Properties_Bloom Store StoreFacts SpecStore
  Producer SpecProducer ProducerFacts Properties_Producer
  Partial SpecPartial PartialFacts PartialSteps PartialAnswers Properties_Partial
  Full FullTrace SpecFull FullFacts FullSafe FullRuns Properties_Full Properties_FullAnswers SpecCanon CanonFacts.
Import ListNotations.
Local Open Scope N_scope.

(** * C133 *)
(** an interest that some packet in memory matches is answered at once, by one packet: the first of the
    matching ones in the canonical order of names; nothing else happens *)
Theorem C133_producer_answers_first : forall K s n l,
  (is_prefix (pc_sync K ++ [HELLO]) n = true \/ is_prefix (pc_sync K ++ [SYNC]) n = true) ->
  (exists e, In e (pb_store (pp_pub s)) /\ matches n e) ->
  exists d, first_match n (pb_store (pp_pub s)) d /\ pp_step K (PInterest n l) s = (s, [d], Ok tt).
Proof.
  intros K s n l Hn (e & He & Hm). destruct (reply_from_store n (pp_pub s)) as [d|] eqn:R.
  2:{ exfalso. exact (proj1 (reply_none _ _) R e He Hm). }
  exists d. split; [apply reply_first; exact R|].
  cbn [pp_step]. unfold dispatch. destruct (is_prefix (pc_sync K ++ [HELLO]) n) eqn:H.
  - unfold on_hello_interest. rewrite mbind_get, R. reflexivity.
  - destruct Hn as [X|X]; [discriminate X|]. rewrite X. unfold on_sync_interest. rewrite mbind_get, R. reflexivity.
Qed.
Print Assumptions C133_producer_answers_first.
Theorem C133_node_answers_first : forall K s n l,
  is_prefix (fc_sync K) n = true -> (exists e, In e (pb_store (f_pub s)) /\ matches n e) ->
  exists d, first_match n (pb_store (f_pub s)) d /\ fp_step K (FeInterest n l) s = (s, [FoData d], Ok tt).
Proof.
  intros K s n l Hn (e & He & Hm). destruct (reply_from_store n (f_pub s)) as [d|] eqn:R.
  2:{ exfalso. exact (proj1 (reply_none _ _) R e He Hm). }
  exists d. split; [apply reply_first; exact R|]. cbn [fp_step]. rewrite Hn. unfold on_finterest. rewrite mbind_get, R. reflexivity.
Qed.
Print Assumptions C133_node_answers_first.

(** the names of hello data come in the canonical order of the streams *)
Theorem C133_hello_in_order : forall K evs s o iname l c,
  scheme_ok (pc_codec K) (pc_scheme K) ->
  Forall pev_wf evs -> pp_run K (pp_new K) evs = Some (s, o) ->
  (iname = pc_sync K ++ [HELLO] \/ exists x y z, iname = pc_sync K ++ [HELLO; x; y; z]) ->
  (forall e, In e (pb_store (pp_pub s)) -> ~ matches iname e) ->
  carries_ibf (pc_codec K) (pc_scheme K) c (k_iblt (pp_core s)) ->
  exists nodes s' o',
    (forall p v, In (p, v) nodes <-> seq_after p (history evs) = Some v) /\
    StronglySorted name_before (map fst nodes) /\
    pp_step K (PInterest iname l) s = (s', o', Ok tt) /\
    published K s s' iname (pc_sync K ++ [HELLO; c])
      (map (fun x => append_number (fst x) (snd x)) nodes) (pc_hello_fresh K) o'.
Proof.
  intros K evs s o iname l c Sk W R Hn Hm Hc. apply reply_none in Hm.
  destruct (C40_hello_lists_everything K evs s o iname l c Sk W R Hn Hm Hc) as (nodes & s' & o' & A & B & C & D & _).
  exists nodes, s', o'. split; [exact A|]. split; [apply sorted_before; exact B|]. auto.
Qed.
Print Assumptions C133_hello_in_order.

(** the replies to the interests that wait when a publication is made go out in the canonical order of the
    names of these interests, at most one for each *)
Theorem C133_producer_replies_in_order : forall K evs s o p q s' o' r,
  pp_run K (pp_new K) evs = Some (s, o) -> pp_step K (PPublishName p q) s = (s', o', r) ->
  exists ks, StronglySorted name_before ks /\ answers_in_turn ks o' /\
    forall k, In k ks -> nm_find k (pp_pending s) <> None.
Proof.
  intros K evs s o p q s' o' r R E. apply pp_run_ok in R. pose proof (nm_sorted_before _ (po_sorted _ _ R)) as So.
  assert (o' = outs (pp_step K (PPublishName p q) s)) as -> by (rewrite E; reflexivity). clear E.
  assert (exists ks, sublist ks (nm_keys (pp_pending s)) /\ answers_in_turn ks (outs (pp_step K (PPublishName p q) s))) as (ks & Hs & Ha).
  { assert (exists ks, sublist ks (nm_keys (pp_pending s)) /\ answers_in_turn ks []) as N
      by (exists []; split; [apply sublist_nil|constructor]).
    cbn [pp_step]. unfold pp_publish_name. rewrite mbind_get, mbind_lift.
    destruct (core_publish p q (pp_core s)) as [[k [u|]]|x|u|]; cbn [fst snd]; try exact N; rewrite mbind_mod.
    apply satisfy_in_turn. }
  exists ks. split; [eapply sublist_sorted; eauto|]. split; [exact Ha|]. intros k Hk.
  apply (sublist_In _ _ _ Hs), nm_In_keys in Hk as (e & He). congruence.
Qed.
Print Assumptions C133_producer_replies_in_order.
Theorem C133_node_replies_in_order : forall K sys evs s o p q s' o' r,
  reaches K sys evs s o -> fp_step K (FeApi (APublish p q)) s = (s', o', r) ->
  exists ks, StronglySorted name_before ks /\ answers_in_turn ks (data_of o') /\
    forall k, In k ks -> nm_find k (f_pending s) <> None.
Proof.
  intros K sys evs s o p q s' o' r R E. apply reaches_ok in R. pose proof (nm_sorted_before _ (fo_psorted _ _ R)) as So.
  assert (o' = outs (fp_step K (FeApi (APublish p q)) s)) as -> by (rewrite E; reflexivity). clear E.
  assert (exists ks, sublist ks (nm_keys (f_pending s)) /\ answers_in_turn ks (data_of (outs (fp_step K (FeApi (APublish p q)) s)))) as (ks & Hs & Ha).
  { assert (exists ks, sublist ks (nm_keys (f_pending s)) /\ answers_in_turn ks []) as N
      by (exists []; split; [apply sublist_nil|constructor]).
    cbn [fp_step api_call]. unfold fp_publish_name. rewrite mbind_get. destruct (get_seq p (f_core s)) as [cur|]; [|exact N].
    revert N. generalize (nm_keys (f_pending s)) as keys. intros keys N.
    apply (dl_before (fp_op (CPublish p q)) _ s (fun l => exists ks, sublist ks keys /\ answers_in_turn ks l)); [|exact N|intros _ s1].
    { unfold fp_op. apply dl_bind; [apply dl_get|intros s2]. apply dl_bind; [apply dl_lift|intros k].
      apply dl_bind; [apply dl_mod|intros _]. intros s3. reflexivity. }
    rewrite mbind_mod. apply fsatisfy_in_turn. }
  exists ks. split; [eapply sublist_sorted; eauto|]. split; [exact Ha|]. intros k Hk.
  apply (sublist_In _ _ _ Hs), nm_In_keys in Hk as (e & He). congruence.
Qed.
Print Assumptions C133_node_replies_in_order.

(** ** Cases *)
(** the order of types, lengths, bytes and of a prefix *)
Example C133_order_example :
  name_before [gen [x62]] [gen [x61; x61]] /\ name_before [gen [x61]] [gen [x61]; gen []] /\
  name_before [gen [x61; x62]; gen [x63]] [gen [x61; x63]] /\ name_before [mkComp 7 [x61; x61]] [mkComp 8 []] /\
  ~ name_before [gen [x61; x61]] [gen [x62]].
Proof.
  rewrite <- !name_cmp_before. repeat (split; [vm_compute; reflexivity|]). vm_compute. discriminate.
Qed.
(** two hello replies are in memory, the older one without a name that has been published since; the interest that
    both match gets the one that comes first *)
Definition evs_133 : list pev := [PAdd pa; PInterest (syncp ++ [HELLO]) 1000; PPublishName pa (Some 4);
  PInterest (syncp ++ [HELLO; gen []; gen []; gen []]) 1000].
Definition s_133 : pp := Eval vm_compute in match pp_run Kx (pp_new Kx) evs_133 with Some (s, _) => s | None => pp_new Kx end.
Definition ds_133 : list data := Eval vm_compute in pb_store (pp_pub s_133).
Example C133_memory_example :
  (exists o, pp_run Kx (pp_new Kx) evs_133 = Some (s_133, o)) /\
  (forall e, In e ds_133 -> matches (syncp ++ [HELLO]) e) /\
  map d_content ds_133 = [encode_names [append_number pa 0]; encode_names [append_number pa 4]] /\
  (exists d, outs (pp_step Kx (PInterest (syncp ++ [HELLO]) 1000) s_133) = [d] /\ d_content d = encode_names [append_number pa 0]).
Proof.
  split; [eexists; vm_compute; reflexivity|]. split.
  { intros e He. apply matches_prefix. revert e He. apply Forall_forall. vm_compute. repeat constructor. }
  split; [vm_compute; reflexivity|]. eexists. split; vm_compute; reflexivity.
Qed.
(** two interests wait at a full-sync node and are answered in turn *)
Definition q0_133 : name := Eval vm_compute in ask_with Kf (iblt_new 10) 300.
Definition q1_133 : name := Eval vm_compute in ask_with Kf (iblt_new 10) 7.
Definition evs_133f : list fev := [FeApi (AAdd pa); FeInterest q0_133 1000; FeInterest q1_133 1000].
Definition s_133f : fp := Eval vm_compute in fst (full_after Kf evs_133f).
Example C133_replies_example : exists o d1 d2,
  reaches Kf 0 evs_133f s_133f o /\
  data_of (outs (fp_step Kf (FeApi (APublish pa None)) s_133f)) = [d1; d2] /\
  answers_in_turn [q1_133; q0_133] [d1; d2] /\ name_before q1_133 q0_133.
Proof.
  exists (snd (full_after Kf evs_133f)). eexists. eexists.
  assert (Forall fev_wf evs_133f) as W.
  { constructor; [repeat constructor|]. constructor; [apply wf_nil; reflexivity|]. constructor; [apply wf_nil; reflexivity|constructor]. }
  split; [split; [exact W|vm_compute; reflexivity]|]. split; [vm_compute; reflexivity|].
  split; [|apply name_cmp_before; vm_compute; reflexivity].
  constructor; [eexists; reflexivity|]. constructor; [eexists; reflexivity|constructor].
Qed.
