(** Property theorems about full-sync nodes: which interests are answered, what becomes of pending
    ones, and when the node asks again (C76-C80). *)
From Coq Require Import List NArith ZArith Bool Arith Lia Sorted.
From Coq.Strings Require Import Byte.
From Verif Require Import Base Mon MonFacts Iblt BaseFacts IbltFacts SpecIblt HonestFacts IbltProps
  Tlv State NMap TlvFacts NMapFacts Codec CodecFacts Properties_Iblt StateFacts Bloom SpecBloom BloomFacts Properties_Bloom
  Store StoreFacts Producer SpecProducer ProducerFacts Properties_Producer Partial SpecPartial PartialFacts PartialSteps
  Properties_Partial Full FullTrace SpecFull FullFacts FullSafe FullSteps FullData FullRuns FullTimers FullWaiting
  FullSends FullReplies FullAnswers FullPending FullRenew Properties_Full Properties_FullTime.
Import ListNotations.
Local Open Scope N_scope.

(** * C76 *)
(** every data packet matches an interest that was received.  Missing: the Nack sent for a segment
    that is no longer in the store, whose name is the sync prefix, an IBF and segment 0. *)
Theorem C76_data_answers_interests_partial : forall K sys evs s o d,
  reaches K sys evs s o -> In (FoData d) o ->
  (exists n l, In (FeInterest n l) evs /\ is_prefix n (full_name d) = true) \/
  (d_type d = AppNack /\ exists c, d_name d = fc_sync K ++ [c; number_comp TYPE_SEGMENT 0]).
Proof.
  intros K sys evs s o d R H. destruct (reaches_answers _ _ _ _ _ R) as [_ P]. rewrite Forall_forall in P.
  destruct (P _ H d eq_refl) as [L|(n & (l & Hn) & Hp)]; [right; exact L|left; eauto].
Qed.
Print Assumptions C76_data_answers_interests_partial.
(** that Nack never matches the interest it is sent for: it has one component too few *)
Theorem C76_data_answers_interests_refuted : forall K s l c1 c2 c3 c4,
  schemes_ok K -> reply_from_store (fc_sync K ++ [c1; c2; c3; c4]) (f_pub s) = None ->
  exists d s', fp_step K (FeInterest (fc_sync K ++ [c1; c2; c3; c4]) l) s = (s', [FoData d], Ok tt) /\
    d_type d = AppNack /\ d_content d = [] /\ is_prefix (fc_sync K ++ [c1; c2; c3; c4]) (full_name d) = false.
Proof.
  intros K s l c1 c2 c3 c4 [Sk _] Hr. cbn [fp_step]. rewrite is_prefix_app. unfold on_finterest. rewrite mbind_get, Hr. cbv zeta.
  rewrite skipn_app_len. cbn [length Nat.eqb]. unfold fp_send_nack. rewrite mbind_get, mbind_lift.
  destruct (scheme_ok_append (fc_codec K) (fc_scheme K) (fc_sync K) (k_iblt (f_core s)) Sk) as (c & _ & E). rewrite E, mbind_mod.
  eexists _, _. split; [reflexivity|]. split; [reflexivity|]. split; [reflexivity|].
  destruct (is_prefix _ _) eqn:P; auto. apply is_prefix_iff in P as [r P]. apply (f_equal (@length _)) in P.
  unfold full_name, nack_data, append_segment in P. cbn [d_name] in P. rewrite !app_length in P. cbn [length] in P. lia.
Qed.
Print Assumptions C76_data_answers_interests_refuted.

(** the update of "/a" answers the interest of a fresh peer; and a segment interest that nothing can
    answer *)
Definition evs_76 : list fev := [FeApi (AAdd pa); FeInterest blank_ask 1000; FeApi (APublish pa None)].
Example C76_example : exists s o d, reaches Kf 0 evs_76 s o /\ In (FoData d) o /\ d_type d = Blob /\
  is_prefix blank_ask (full_name d) = true.
Proof.
  assert (Forall fev_wf evs_76) as W by (repeat constructor).
  eexists _, _, _. split; [apply (reaches_example Kf evs_76 W); vm_compute; reflexivity|].
  split; [vm_compute; do 3 right; left; reflexivity|]. split; vm_compute; reflexivity.
Qed.
Example C76_refuted_example : exists s o, reaches Kf 0 [] s o /\
  reply_from_store (fc_sync Kf ++ [gen [x61]; gen [x62]; gen [x63]; gen [x64]]) (f_pub s) = None.
Proof. eexists s_f0, _. split; [apply reach_f0|]. vm_compute. reflexivity. Qed.

(** * C77 *)
(** [n] is the last sync interest of this node, it has not put data for [n] on the face since, and a
    peer waits with the same interest: a publication answers it, and the node asks again at once, with
    the new data - even if it was pausing *)
Theorem C77_asks_again_after_publishing : forall K sys evs s o o1 n t o2 p q s' o',
  schemes_ok K -> reaches K sys evs s o ->
  o = o1 ++ FoInterest n t :: o2 -> no_interest o2 -> ~ answered_in n o2 ->
  nm_find n (f_pending s) <> None -> get_seq p (f_core s) <> None ->
  fp_step K (FeApi (APublish p q)) s = (s', o', Ok tt) ->
  answered_in n o' /\ asked K (f_core s') o'.
Proof.
  intros K sys evs s o o1 n t o2 p q s' o' Sk R E N Na Hn Hp Es.
  assert (f_outstanding s = n /\ plain_name n) as [Ho Hpl].
  { destruct (reaches_paced K Sk sys evs s o R) as [[(A & _)|(p1 & m & t1 & p2 & c & x & E1 & N1 & Em & _ & D)] _].
    - exfalso. apply (A n t). rewrite E. apply in_or_app. right. left. reflexivity.
    - rewrite E in E1. destruct (last_unique _ _ _ _ _ _ _ _ E1 N N1) as (<- & _ & <-).
      split; [destruct D as [D|(_ & _ & D)]; [exact D|contradiction]|]. exists c, (number_comp TYPE_GENERIC x). split; [exact Em|reflexivity]. }
  split; [|eapply publish_renews; eauto; [eapply reaches_ok; eauto|eapply reaches_fetcher; eauto]].
  destruct (nm_find n (f_pending s)) as [x|] eqn:X; [|congruence].
  pose proof (pr_step K n eq Hpl (fun _ => eq_refl) (fun a b c A B => eq_trans A B) (FeApi (APublish p q)) s) as H.
  rewrite Es in H. cbn [st outs fst snd] in H.
  destruct (H (fun F : False => match F with end) ltac:(discriminate) ltac:(discriminate) x X) as [(x' & Y & _)|Y]; [|exact Y].
  exfalso. assert (f_pending s' = []) as Z; [|rewrite Z in Y; discriminate].
  eapply publish_clears; eauto. eapply reaches_ok; eauto.
Qed.
Print Assumptions C77_asks_again_after_publishing.

Definition evs_77 : list fev := [FeApi (AAdd pa); FeInterest blank_ask 1000].
Example C77_example : exists s o s' o' d m, schemes_ok Kf /\ reaches Kf 0 evs_77 s o /\
  o = [] ++ FoInterest blank_ask 0 :: [FoOp (CAdd pa)] /\ nm_find blank_ask (f_pending s) <> None /\
  get_seq pa (f_core s) = Some 0 /\
  fp_step Kf (FeApi (APublish pa None)) s = (s', o', Ok tt) /\
  o' = [FoOp (CPublish pa None); FoData d; FoInterest m 0] /\ m <> blank_ask.
Proof.
  assert (Forall fev_wf evs_77) as W by (repeat constructor).
  eexists _, _, _, _, _, _. split; [apply Kf_ok|]. split; [apply (reaches_example Kf evs_77 W); vm_compute; reflexivity|].
  split; [vm_compute; reflexivity|]. split; [vm_compute; discriminate|]. split; [vm_compute; reflexivity|].
  split; [vm_compute; reflexivity|]. split; [vm_compute; reflexivity|]. vm_compute. discriminate.
Qed.

(** * C78 *)
(** an answer to the outstanding interest that brings nothing new: until the freshness period and the
    minimum jitter have passed, whatever happens, the node sends no sync interest, unless the
    application publishes *)
Theorem C78_pause_without_news : forall K sys evs s o i n buf script names evs' s' s'' o'',
  reaches K sys evs s o -> fetch_of i (f_live s) = Some n ->
  content_names K buf names -> no_news (f_core s) names ->
  fp_step K (FeContent i buf script) s = (s', [], Ok tt) ->
  Forall (fun e => ~ publishes e) evs' -> time_of evs' < fc_fresh K + MIN_JITTER ->
  fp_run K s' evs' = Some (s'', o'') -> no_interest o''.
Proof.
  intros K sys evs s o i n buf script names evs' s' s'' o'' R Hf Hc Hn E Np L Er.
  destruct (no_news_step K s i n buf script names (reaches_ok _ _ _ _ _ R) Hf Hc Hn) as (s1 & dl & E1 & P & Tn & _ & B1 & _).
  rewrite E in E1. injection E1 as <-. apply (paused_run K dl evs' s' s'' o'' P Np); [rewrite Tn; lia|exact Er].
Qed.
Print Assumptions C78_pause_without_news.
(** such content is taken without any report, and the node knows what it knew *)
Theorem C78_nothing_else_happens : forall K sys evs s o i n buf script names,
  reaches K sys evs s o -> fetch_of i (f_live s) = Some n ->
  content_names K buf names -> no_news (f_core s) names ->
  exists s', fp_step K (FeContent i buf script) s = (s', [], Ok tt) /\ f_core s' = f_core s.
Proof.
  intros K sys evs s o i n buf script names R Hf Hc Hn.
  destruct (no_news_step K s i n buf script names (reaches_ok _ _ _ _ _ R) Hf Hc Hn) as (s1 & dl & E1 & _ & _ & C & _). eauto.
Qed.
Print Assumptions C78_nothing_else_happens.
(** the pause ends: the timer is set within the freshness period and the maximum jitter, and when it
    fires the node asks *)
Theorem C78_pause_ends : forall K sys evs s o i n buf script names s' dt,
  schemes_ok K -> (0 <= sys)%Z -> steady sys evs ->
  reaches K sys evs s o -> fetch_of i (f_live s) = Some n ->
  content_names K buf names -> no_news (f_core s) names -> fev_wf (FeContent i buf script) ->
  fp_step K (FeContent i buf script) s = (s', [], Ok tt) ->
  fc_fresh K + MAX_JITTER <= dt ->
  exists s'' o'', fp_run K s' [FeTick dt; FeSend] = Some (s'', o'') /\ asked K (f_core s) o''.
Proof.
  intros K sys evs s o i n buf script names s' dt Sk S0 St R Hf Hc Hn Wf E L.
  destruct (no_news_step K s i n buf script names (reaches_ok _ _ _ _ _ R) Hf Hc Hn) as (s1 & dl & E1 & (_ & _ & P) & Tn & C & _ & B2).
  rewrite E in E1. injection E1 as <-.
  assert (reaches K sys (evs ++ [FeContent i buf script]) s' (o ++ [])) as R'.
  { pose proof (reaches_snoc K sys evs (FeContent i buf script) s o R Wf) as X. rewrite E in X. apply X; discriminate. }
  assert (steady sys (evs ++ [FeContent i buf script])) as St'.
  { clear - St. revert sys St. induction evs as [|e evs IH]; intros sys; [cbn; auto|]. destruct e; cbn; intuition. }
  destruct (C57_never_silent K sys _ s' _ Sk S0 St' R') as (dl' & k & Hs & _ & G). rewrite P in Hs. injection Hs as <- <-.
  destruct (G dt) as (m & s2 & E2 & A); [rewrite Tn; lia|]. rewrite C in A.
  eexists _, _. split; [exact E2|]. eexists m, _. split; [left; reflexivity|exact A].
Qed.
Print Assumptions C78_pause_ends.
(** an answer with news: the next sync interest has gone out already, or is due within the jitter *)
Theorem C78_asks_again_after_news : forall K sys evs s o i buf script s' o' l,
  reaches K sys evs s o -> fp_step K (FeContent i buf script) s = (s', o', Ok tt) -> In (FoUpdate l) o' ->
  (exists n t, In (FoInterest n t) o') \/
  exists dl, f_sched s' = Some (dl, KSend) /\ f_wait s' = false /\ f_now s + MIN_JITTER <= dl <= f_now s + MAX_JITTER.
Proof. intros K sys evs s o i buf script s' o' l R. apply news_step. apply (reaches_pfx _ _ _ _ _ R). Qed.
Print Assumptions C78_asks_again_after_news.

(** a peer with "/a/1" learns "/a/1" from an answer a second time *)
Definition a1_content : bytes := encode_names [append_number pa 1].
Definition evs_78 : list fev := [FeContent 0 a1_content []; FeTick 500; FeSend].
Definition s_78 : fp := Eval vm_compute in fst (full_after Kf evs_78).
Example C78_example : exists o n l, reaches Kf 0 evs_78 s_78 o /\ steady 0 evs_78 /\ In (FoUpdate l) o /\
  fetch_of 1 (f_live s_78) = Some n /\
  content_names Kf a1_content [append_number pa 1] /\ no_news (f_core s_78) [append_number pa 1] /\
  f_sched (st (fp_step Kf (FeContent 1 a1_content []) s_78)) = Some (1600, KAfterWait) /\
  f_now s_78 = 500.
Proof.
  assert (Forall fev_wf evs_78) as W by (repeat constructor; apply wf_nil; reflexivity).
  eexists (snd (full_after Kf evs_78)), _, _. split; [|split; [cbn; auto|split; [vm_compute; do 3 right; left; reflexivity|]]].
  - assert (s_78 = fst (full_after Kf evs_78)) as -> by (vm_compute; reflexivity). apply (reaches_example Kf evs_78 W). vm_compute. reflexivity.
  - split; [vm_compute; reflexivity|]. split; [vm_compute; reflexivity|]. split; [|split; vm_compute; reflexivity].
    intros c [<-|[]]. exists pa, (number_comp TYPE_GENERIC 1), 1, 1. split; [reflexivity|]. split; [vm_compute; reflexivity|]. split; [vm_compute; reflexivity|lia].
Qed.

(** * C79 *)
(** an interest with the IBF of this node is remembered for its lifetime, and nothing is sent *)
Theorem C79_equal_interest_is_remembered : forall K sys evs s o n rcvd l,
  reaches K sys evs s o -> full_request K n (k_iblt (f_core s)) rcvd -> reply_from_store n (f_pub s) = None ->
  (0 < fc_fuel K)%nat ->
  exists s', fp_step K (FeInterest n l) s = (s', [], Ok tt) /\
    nm_find n (f_pending s') = Some (mkFentry (k_iblt (f_core s)) (f_now s + l)) /\
    forall m, m <> n -> nm_find m (f_pending s') = nm_find m (f_pending s).
Proof.
  intros K sys evs s o n rcvd l R Hq Hr Hf. rewrite (step_request K n _ rcvd) by exact Hq.
  rewrite (finterest_request K n _ rcvd) by exact Hq. rewrite Hr, mbind_lift.
  destruct (fc_fuel K) as [|fuel]; [lia|]. rewrite C05_equal_ibfs. cbn [can_decode].
  unfold on_decoded. rewrite mbind_get. cbn [positive negative]. rewrite mbind_mod.
  eexists. split; [reflexivity|]. cbn [f_pending fset_pending]. split.
  - rewrite add_fpending_find, name_eqb_refl. destruct (nm_find n (f_pending s)) as [e|] eqn:E; [|reflexivity].
    destruct (fo_pending _ _ (reaches_ok _ _ _ _ _ R) n e E) as [r X].
    destruct (request_names _ _ _ _ Hq) as [Y _]. destruct (names_ibf_fun _ _ _ _ _ _ X Y) as [-> _]. reflexivity.
  - intros m Hm. rewrite add_fpending_find. destruct (name_eqb m n) eqn:E; [apply name_eqb_eq in E; contradiction|reflexivity].
Qed.
Print Assumptions C79_equal_interest_is_remembered.
(** whatever happens, it stays until this node puts data for it on the face, its lifetime is over, or
    the content that answers it arrives from a peer.  Missing: interests that end in a segment number
    instead of a count, which no node sends. *)
Theorem C79_pending_until_answered_partial : forall K sys evs s o n x e,
  reaches K sys evs s o -> plain_name n -> nm_find n (f_pending s) = Some x ->
  (exists x', nm_find n (f_pending (st (fp_step K e s))) = Some x' /\ fe_iblt x' = fe_iblt x) \/
  answered_in n (outs (fp_step K e s)) \/
  (e = FeExpire n /\ fe_expiry x <= f_now s) \/
  (exists i buf script, e = FeContent i buf script /\ fetch_of i (f_live s) = Some n).
Proof.
  intros K sys evs s o n x e _ Hp H.
  assert ((e = FeExpire n /\ fe_expiry x <= f_now s) \/ ~ (e = FeExpire n /\ fe_expiry x <= f_now s)) as [X|X].
  { destruct e as [a|m l|i buf script|i face|i timeout|dt|t| | |key|i]; try (right; intros [Q _]; discriminate).
    destruct (name_eqb key n) eqn:Q; [apply name_eqb_eq in Q; subst key|right; intros [Z _]; injection Z as ->; rewrite name_eqb_refl in Q; discriminate].
    destruct (N.le_gt_cases (fe_expiry x) (f_now s)); [left; auto|right; intros [_ Z]; lia]. }
  { auto. }
  assert ((exists i buf script, e = FeContent i buf script /\ fetch_of i (f_live s) = Some n) \/
          forall i buf script, e = FeContent i buf script -> fetch_of i (f_live s) <> Some n) as [Y|Y].
  { destruct e as [a|m l|i buf script|i face|i timeout|dt|t| | |key|i]; try (right; discriminate).
    destruct (fetch_of i (f_live s)) as [m|] eqn:F; [destruct (name_eqb m n) eqn:Q|].
    - apply name_eqb_eq in Q. subst m. left. eauto 6.
    - right. intros ? ? ? Z. injection Z as <- _ _. rewrite F. intros W. injection W as ->. rewrite name_eqb_refl in Q. discriminate.
    - right. intros ? ? ? Z. injection Z as <- _ _. rewrite F. discriminate. }
  { auto. }
  destruct (pr_step K n (fun a b => fe_iblt b = fe_iblt a) Hp (fun _ => eq_refl) ltac:(congruence) e s) with (x := x) as [Z|Z]; auto.
  intros y -> Hy. rewrite Hy in H. injection H as ->. destruct (N.lt_ge_cases (f_now s) (fe_expiry x)); auto.
  exfalso. apply X. auto.
Qed.
Print Assumptions C79_pending_until_answered_partial.
(** ... and with the same deadline, unless the interest itself comes again or a timer or news make
    the node look at waiting interests *)
Theorem C79_deadline_stays : forall K sys evs s o n x e,
  reaches K sys evs s o -> plain_name n -> nm_find n (f_pending s) = Some x ->
  (forall l, e <> FeInterest n l) -> e <> FeDelay -> (forall i buf script, e <> FeContent i buf script) -> e <> FeExpire n ->
  nm_find n (f_pending (st (fp_step K e s))) = Some x \/ answered_in n (outs (fp_step K e s)).
Proof.
  intros K sys evs s o n x e _ Hp H H1 H2 H3 H4.
  destruct (pr_step K n eq Hp (fun _ => eq_refl) (fun a b c A B => eq_trans A B) e s) with (x := x) as [(x' & Z & ->)|Z]; auto.
  - intros M. exfalso. destruct e as [a|m l|i buf script|i face|i timeout|dt|t| | |key|i]; cbn in M; try contradiction.
    + subst m. apply (H1 l). reflexivity.
    + apply (H3 _ _ _ eq_refl).
  - intros i buf script ->. destruct (H3 _ _ _ eq_refl).
  - intros y ->. contradiction.
Qed.
Print Assumptions C79_deadline_stays.
(** when its lifetime is over, it is dropped *)
Theorem C79_expires : forall K sys evs s o n x,
  reaches K sys evs s o -> nm_find n (f_pending s) = Some x -> fe_expiry x <= f_now s ->
  exists s', fp_step K (FeExpire n) s = (s', [], Ok tt) /\ nm_find n (f_pending s') = None.
Proof.
  intros K sys evs s o n x R H L. cbn [fp_step]. unfold mmod. rewrite H. apply N.leb_le in L. rewrite L.
  eexists. split; [reflexivity|]. cbn. apply nm_find_erase_same. apply (reaches_ok _ _ _ _ _ R).
Qed.
Print Assumptions C79_expires.

(** an interest that waited first is remembered for the default lifetime of 4 s instead of its own:
    at 200 ms the one that lived for 100 ms becomes pending until 4200 ms *)
Definition a1_table : table := Eval vm_compute in
  ok_or (iblt_new 10) (iblt_insert (iblt_new 10) (name_hash (append_number pa 1))).
Definition a1_ask : name := Eval vm_compute in ask_with Kf a1_table 1.
Definition evs_79 : list fev := [FeInterest a1_ask 100; FeTick 200; FeExpire a1_ask; FeContent 0 a1_content []].
Lemma wf_79 : Forall fev_wf evs_79.
Proof. repeat constructor; apply wf_nil; reflexivity. Qed.
Theorem C79_remembered_for_its_lifetime_refuted : exists K sys evs s o n l x,
  schemes_ok K /\ uri_ok K /\ reaches K sys evs s o /\
  In (FeInterest n l) evs /\ (forall m l', In (FeInterest m l') evs -> l' = l) /\
  nm_find n (f_pending s) = Some x /\ f_now s + l < fe_expiry x.
Proof.
  eexists Kf, 0%Z, evs_79, _, _, a1_ask, 100, _. split; [apply Kf_ok|]. split; [apply Kf_ok|].
  split; [apply (reaches_example Kf evs_79 wf_79); vm_compute; reflexivity|].
  split; [left; reflexivity|]. split; [|split; [vm_compute; reflexivity|vm_compute; reflexivity]].
  intros m l' [H|[H|[H|[H|[]]]]]; try discriminate. injection H as _ <-. reflexivity.
Qed.
Print Assumptions C79_remembered_for_its_lifetime_refuted.

(** a fresh node and the interest of a fresh peer *)
Example C79_example : exists s o s' o',
  reaches Kf 0 [] s o /\ full_request Kf blank_ask (k_iblt (f_core s)) 0 /\ reply_from_store blank_ask (f_pub s) = None /\
  reaches Kf 0 [FeInterest blank_ask 1000] s' o' /\ plain_name blank_ask /\
  nm_find blank_ask (f_pending s') = Some (mkFentry (iblt_new 10) 1000).
Proof.
  exists s_f0. eexists _, (fst (full_after Kf [FeInterest blank_ask 1000])), _. split; [apply reach_f0|].
  split; [|split; [vm_compute; reflexivity|]].
  { assert (k_iblt (f_core s_f0) = iblt_new 10) as -> by (vm_compute; reflexivity). apply blank_request. }
  split; [apply (reaches_example Kf [FeInterest blank_ask 1000]); [repeat constructor|vm_compute; reflexivity]|].
  split; [|vm_compute; reflexivity]. exists (removelast blank_ask), (number_comp TYPE_GENERIC 0). split; vm_compute; reflexivity.
Qed.
Example C79_expires_example : exists s o x, reaches Kf 0 [FeInterest blank_ask 1000; FeTick 1000] s o /\
  nm_find blank_ask (f_pending s) = Some x /\ fe_expiry x <= f_now s.
Proof.
  eexists _, _, _. split; [apply (reaches_example Kf); [repeat constructor|vm_compute; reflexivity]|].
  split; [vm_compute; reflexivity|]. vm_compute. discriminate.
Qed.

(** * C80 *)
(** what a node learns from a peer answers no pending interest: with nobody waiting, and nothing
    published from the callback, content leads to no data at all *)
Theorem C80_news_answer_pending_refuted : forall K sys evs s o i buf,
  reaches K sys evs s o -> f_waiting s = [] -> data_of (outs (fp_step K (FeContent i buf []) s)) = [].
Proof. intros K sys evs s o i buf _ H. apply content_no_data. exact H. Qed.
Print Assumptions C80_news_answer_pending_refuted.

(** a publication answers all of them.  Missing: news from peers, and interests that end in a segment
    number. *)
Theorem C80_own_news_answer_pending_partial : forall K sys evs s o p q s' o' n,
  reaches K sys evs s o -> get_seq p (f_core s) <> None ->
  fp_step K (FeApi (APublish p q)) s = (s', o', Ok tt) ->
  nm_find n (f_pending s) <> None -> plain_name n -> answered_in n o'.
Proof.
  intros K sys evs s o p q s' o' n R Hp Es Hn Hpl. destruct (nm_find n (f_pending s)) as [x|] eqn:X; [|congruence].
  pose proof (pr_step K n eq Hpl (fun _ => eq_refl) (fun a b c A B => eq_trans A B) (FeApi (APublish p q)) s) as H.
  rewrite Es in H. cbn [st outs fst snd] in H.
  destruct (H (fun F : False => match F with end) ltac:(discriminate) ltac:(discriminate) x X) as [(x' & Y & _)|Y]; [|exact Y].
  exfalso. assert (f_pending s' = []) as Z; [|rewrite Z in Y; discriminate].
  eapply publish_clears; eauto. eapply reaches_ok; eauto.
Qed.
Print Assumptions C80_own_news_answer_pending_partial.
Example C80_example : exists s o, reaches Kf 0 evs_77 s o /\ get_seq pa (f_core s) <> None /\
  nm_find blank_ask (f_pending s) <> None /\ plain_name blank_ask /\
  res (fp_step Kf (FeApi (APublish pa None)) s) = Ok tt.
Proof.
  assert (Forall fev_wf evs_77) as W by (repeat constructor).
  eexists _, _. split; [apply (reaches_example Kf evs_77 W); vm_compute; reflexivity|].
  split; [vm_compute; discriminate|]. split; [vm_compute; discriminate|]. split; [|vm_compute; reflexivity].
  exists (removelast blank_ask), (number_comp TYPE_GENERIC 0). split; vm_compute; reflexivity.
Qed.

(** a peer with "/a/1" asks a node that has it, too; then the node learns "/b/1" *)
Definition b1_content : bytes := encode_names [append_number pb 1].
Definition evs_80 : list fev := [FeApi (AAdd pa); FeApi (APublish pa None); FeInterest a1_ask 1000].
Definition s_80 : fp := Eval vm_compute in fst (full_after Kf evs_80).
Example C80_refuted_example : exists o s' o' l x, reaches Kf 0 evs_80 s_80 o /\ f_waiting s_80 = [] /\
  full_request Kf a1_ask a1_table 1 /\
  nm_find a1_ask (f_pending s_80) = Some (mkFentry a1_table x) /\ f_now s_80 < x /\
  fp_step Kf (FeContent 0 b1_content []) s_80 = (s', o', Ok tt) /\
  In (FoUpdate l) o' /\ get_seq pb (f_core s') = Some 1 /\ data_of o' = [].
Proof.
  assert (Forall fev_wf evs_80) as W by (repeat constructor).
  eexists (snd (full_after Kf evs_80)), _, _, _, _. split.
  { assert (s_80 = fst (full_after Kf evs_80)) as -> by (vm_compute; reflexivity). apply (reaches_example Kf evs_80 W). vm_compute. reflexivity. }
  split; [reflexivity|]. split; [apply (ask_request Kf a1_table 1); try reflexivity; repeat constructor|].
  split; [vm_compute; reflexivity|]. split; [vm_compute; reflexivity|]. split; [vm_compute; reflexivity|].
  split; [do 2 right; left; reflexivity|]. split; vm_compute; reflexivity.
Qed.
