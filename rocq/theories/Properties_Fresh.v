(** Property theorems about the age of answers and the reported incoming face (C94, C95). *)
From Coq Require Import List NArith ZArith Bool Arith Lia.
From Coq.Strings Require Import Byte.
From Verif Require Import Base BaseFacts Mon MonFacts Iblt SpecIblt Tlv TlvFacts State NMap NMapFacts Codec CodecFacts Bloom
  Store StoreFacts SpecStore Producer SpecProducer ProducerFacts Partial SpecPartial PartialFacts PartialSteps
  Full FullTrace SpecFull FullFacts FullSafe FullSteps FullData FullRuns FullFace
  Properties_Producer Properties_Partial Properties_Full SpecFresh FreshFacts PartialFresh FullFresh.
Import ListNotations.
Local Open Scope N_scope.

(** * C94 *)
(** every data packet a partial producer sends, from memory or not, was published at a moment that is
    at most its freshness period ago; it is part of a list of names, each with the number the producer
    had for it at that moment; a hello reply listed all of them *)
Theorem C94_producer_answers_are_recent : forall K evs e s o s' out d,
  scheme_ok (pc_codec K) (pc_scheme K) ->
  Forall pev_wf (evs ++ [e]) -> collision_free (pc_n K) (history (evs ++ [e])) ->
  pp_run K (pp_new K) evs = Some (s, o) -> pp_run K (pp_new K) (evs ++ [e]) = Some (s', o ++ out) ->
  erased_in_time (pp_now s) (pp_pub s) ->
  In d out -> d_type d = Blob ->
  exists pre post s1 o1 names,
    evs ++ [e] = pre ++ post /\ pp_run K (pp_new K) pre = Some (s1, o1) /\
    pp_now s' <= pp_now s1 + d_fresh d /\
    segment_of (encode_names names) d /\
    (forall nm, In nm names -> exists p v, nm = append_number p v /\ get_seq p (pp_core s1) = Some v) /\
    ((is_prefix (pc_sync K ++ [HELLO]) (d_name d) = true /\ d_fresh d = pc_hello_fresh K /\
      forall p v, get_seq p (pp_core s1) = Some v -> In (append_number p v) names) \/
     (is_prefix (pc_sync K ++ [SYNC]) (d_name d) = true /\ d_fresh d = pc_sync_fresh K)).
Proof.
  intros K evs e s o s' out d Sk W Hc R R' T Hd Hb.
  assert (kept (born K evs) (pp_pub s)) as Hk.
  { eapply run_fresh; eauto.
    - apply Forall_app in W; tauto.
    - rewrite history_app in Hc; apply collision_free_app in Hc; exact Hc. }
  destruct (step_fresh K Sk evs e s o s' out W Hc R R' Hk) as [_ H].
  destruct (H T d Hd) as [Hn|(dl & (pre & post & s1 & o1 & names & A & B & -> & Sg & Cu & Kd) & Hl)]; [congruence|].
  exists pre, post, s1, o1, names. auto 10.
Qed.
Print Assumptions C94_producer_answers_are_recent.

(** every data packet a full-sync node sends, from memory or not, was published in an event that is
    at most the freshness period of the packet ago *)
Theorem C94_full_answers_are_recent : forall K sys evs e s o s' out d,
  reaches K sys evs s o -> reaches K sys (evs ++ [e]) s' (o ++ out) ->
  erased_in_time (f_now s) (f_pub s) ->
  In (FoData d) out -> d_type d = Blob ->
  exists pre e1 post s0 o0 s1 o1 k,
    evs ++ [e] = pre ++ e1 :: post /\ reaches K sys pre s0 o0 /\ reaches K sys (pre ++ [e1]) s1 o1 /\
    f_now s' <= f_now s1 + d_fresh d /\
    (pb_published (f_pub s0) <= k < pb_published (f_pub s1))%nat /\ of_publication (fc_env K) k d.
Proof.
  intros K sys evs e s o s' out d [W R] [W' R'] T Hd Hb.
  destruct (fstep_fresh K sys evs e s o s' out R R' (frun_fresh K sys evs s o R)) as [_ H].
  assert (In d (data_of out)) as Hd'.
  { clear - Hd. induction out as [|x out IH]; [destruct Hd|]. destruct Hd as [->|Hd]; [left; reflexivity|].
    destruct x; simpl; auto. }
  destruct (H T d Hd') as [Hn|(dl & (pre & e1 & post & s0 & o0 & s1 & o1 & k & A & B & C & -> & Kr & Of) & Hl)]; [congruence|].
  assert (Forall fev_wf pre /\ Forall fev_wf (pre ++ [e1])) as [W1 W2].
  { rewrite A in W'. apply Forall_app in W' as [W1 W2]. inversion W2; subst. split; auto. apply Forall_app. auto. }
  exists pre, e1, post, s0, o0, s1, o1, k. unfold reaches. auto 10.
Qed.
Print Assumptions C94_full_answers_are_recent.

(** a hello reply kept for 999 milliseconds still names the number published over half a second ago *)
Definition evs_94 : list pev := [PAdd pa; PInterest (syncp ++ [HELLO]) 1000; PTick 400; PPublishName pa None; PTick 599].
Definition s_94 : pp := match pp_run Kx (pp_new Kx) evs_94 with Some (s, _) => s | None => pp_new Kx end.
Example C94_example : exists o s' d,
  pp_run Kx (pp_new Kx) evs_94 = Some (s_94, o) /\ Forall pev_wf evs_94 /\ erased_in_time (pp_now s_94) (pp_pub s_94) /\
  pp_run Kx (pp_new Kx) (evs_94 ++ [PInterest (syncp ++ [HELLO]) 1000]) = Some (s', o ++ [d]) /\
  d_type d = Blob /\ d_content d = encode_names [append_number pa 0] /\ get_seq pa (pp_core s') = Some 1.
Proof.
  eexists _, _, _. split; [vm_compute; reflexivity|]. split; [repeat constructor|].
  split. { intros dl n. vm_compute. intros [H|[]]. injection H as <- _. reflexivity. }
  split; [vm_compute; reflexivity|]. split; [reflexivity|]. split; vm_compute; reflexivity.
Qed.
(** a sync reply of a full-sync node, asked for again after 400 milliseconds *)
Definition evs_94f : list fev := [FeApi (AAdd pa); FeApi (APublish pa None); FeInterest blank_ask 1000; FeTick 400].
Example C94_full_example : exists s o s' d,
  reaches Kf 0 evs_94f s o /\ reaches Kf 0 (evs_94f ++ [FeInterest blank_ask 1000]) s' (o ++ [FoData d]) /\
  erased_in_time (f_now s) (f_pub s) /\ d_type d = Blob.
Proof.
  eexists _, _, _, _. split; [split; [repeat constructor|vm_compute; reflexivity]|].
  split; [split; [repeat constructor|vm_compute; reflexivity]|]. split; [|reflexivity].
  intros dl n. vm_compute. intros [H|[]]. injection H as <- _. reflexivity.
Qed.

(** * C95 *)
(** what a fetch brings is reported with the face the last segment of that fetch came from (0 if it
    carried no tag), whatever else happens between that segment and the end of the fetch *)
Theorem C95_incoming_face : forall K sys pre i face mid s0 o0 n s o buf script s' out r l m,
  reaches K sys pre s0 o0 -> fetch_of i (f_live s0) = Some n ->
  reaches K sys (pre ++ FeSegment i face :: mid) s o -> (forall f, ~ In (FeSegment i f) mid) ->
  fp_step K (FeContent i buf script) s = (s', out, r) -> In (FoUpdate l) out -> In m l ->
  mi_face m = match face with Some x => x | None => 0 end.
Proof.
  intros K sys pre i face mid s0 o0 n s o buf script s' out r l m R0 F R Hm E Hl Hi.
  set (x := match face with Some x => x | None => 0 end).
  pose proof (reaches_ok _ _ _ _ _ R0) as Hok. pose proof (reaches_pfx _ _ _ _ _ R) as Hp.
  assert (fetch_of i (f_live s) = None \/ f_incoming s = x) as H.
  { destruct R0 as [_ R0], R as [_ R]. unfold fp_start in *.
    destruct (fp_init K sys) as [[si oi] [u|y|u|]]; try discriminate.
    destruct (fp_run K si pre) as [[sa oa]|] eqn:Ra; [|discriminate]. injection R0 as E0 _. subst sa.
    destruct (fp_run K si (pre ++ FeSegment i face :: mid)) as [[sb ob]|] eqn:Rb; [|discriminate]. injection R as E1 _. subst sb.
    unfold fp_run in Rb, Ra. rewrite run_app, Ra in Rb. cbn [run fp_step] in Rb. rewrite mbind_get, F in Rb. unfold mmod in Rb.
    change (match face with Some x0 => x0 | None => 0 end) with x in Rb.
    destruct (run (fp_step K) (fset_incoming x s0) mid) as [[sc oc]|] eqn:Rc; [|discriminate]. injection Rb as E2 _. subst sc.
    eapply (face_kept K i x mid (fset_incoming x s0) s oc); auto.
    - destruct Hok as [h1 h2 h3 h4 h5 h6 h7]. constructor; auto.
    - destruct Hok as [h1 h2 h3 h4 h5 [h6|(j & Fj & Lj)] h7]; [rewrite h6 in F; discriminate|].
      rewrite Lj in F. simpl in F. destruct (Nat.eqb_spec i j) as [->|]; [|discriminate]. apply h7. exact Fj. }
  destruct H as [H|H].
  { cbn [fp_step] in E. rewrite mbind_get, H in E. injection E as _ <- _. destruct Hl. }
  destruct (step_content_inv K i buf script s s' out r Hp E) as [[-> _]|[[O _]|(a & l' & b & k & -> & O & Nb & _ & _ & _ & Fa & _)]].
  - destruct Hl.
  - apply only_ops_nr in O. unfold no_report in O. rewrite Forall_forall in O. exfalso. apply (O _ Hl l). reflexivity.
  - apply only_ops_nr in O. unfold no_report in O, Nb. rewrite Forall_forall in O, Nb.
    apply in_app_or in Hl as [Hl|[Hl|Hl]].
    + exfalso. apply (O _ Hl l). reflexivity.
    + injection Hl as ->. rewrite Forall_forall in Fa. rewrite (Fa m Hi). exact H.
    + exfalso. apply (Nb _ Hl l). reflexivity.
Qed.
Print Assumptions C95_incoming_face.

(** two segments from faces 7 and 9, and a publication in between: face 9 is reported *)
Definition mid_95 : list fev := [FeApi (AAdd pb); FeApi (APublish pb None); FeTick 10].
Example C95_example : exists s0 o0 n s o s' out,
  reaches Kf 0 [FeSegment 0 (Some 7)] s0 o0 /\ fetch_of 0 (f_live s0) = Some n /\
  reaches Kf 0 ([FeSegment 0 (Some 7)] ++ FeSegment 0 (Some 9) :: mid_95) s o /\
  (forall f, ~ In (FeSegment 0 f) mid_95) /\
  fp_step Kf (FeContent 0 two_content []) s = (s', out, Ok tt) /\ In (FoUpdate [mkMissing pa 1 4 9; mkMissing pb 2 5 9]) out.
Proof.
  eexists _, _, _, _, _, _, _. split; [split; [repeat constructor|vm_compute; reflexivity]|].
  split; [vm_compute; reflexivity|]. split; [split; [repeat constructor; apply wf_nil; reflexivity|vm_compute; reflexivity]|].
  split; [intros f [H|[H|[H|[]]]]; discriminate|]. split; [vm_compute; reflexivity|].
  simpl. auto 10.
Qed.
