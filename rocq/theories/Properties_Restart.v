(** Property theorems about nodes that crash and are started again with empty state (C89, C90). *)
From Coq Require Import List NArith ZArith Bool Arith Lia.
From Coq.Strings Require Import Byte.
From Verif Require Import Base BaseFacts Mon MonFacts Iblt SpecIblt HonestFacts Tlv TlvFacts State NMap NMapFacts Codec CodecFacts
  Properties_Iblt Bloom SpecBloom BloomFacts Properties_Bloom Store StoreFacts Producer SpecProducer ProducerFacts Properties_Producer
  Partial SpecPartial PartialFacts PartialSteps Properties_Partial Full FullTrace SpecFull FullFacts FullRuns FullRenew Properties_Full
  Consumer SpecConsumer ConsumerFacts Properties_Consumer
  SpecExchange ExchangeFacts Properties_Exchange SpecGroup GroupFacts Properties_Group SpecPair PairProducer PairConsumer PairFacts Properties_Pair AppFacts.
Import ListNotations.
Local Open Scope N_scope.

(** * C89 *)
(** since its start the node's data only changed by the declaration of prefixes: it has published
    nothing and heard nothing *)
Definition just_started (o : list fout) : Prop := forall x, In x (ops_of o) -> exists p, x = CAdd p.

Definition blank (k : core) : Prop := live k = [] /\ k_count k = 0 /\ forall p, seq0 (get_seq p k) = 0.
Lemma blank_add k p : blank k -> pfx_ok (k_prefixes k) -> blank (fst (core_add p k)).
Proof.
  intros (L & C & Z) Pf. unfold core_add. destruct (nm_find p (k_prefixes k)) eqn:E; [repeat split; auto|].
  assert (forall q, seq0 (nm_find q (nm_set p 0 (k_prefixes k))) = 0) as Z1.
  { intros q. rewrite nm_find_set. destruct (name_eqb q p); [reflexivity|]. apply Z. }
  split; [|split; [exact C|exact Z1]]. unfold live, live_names. cbn [fst k_prefixes].
  assert (forall x, In x (nm_set p 0 (k_prefixes k)) -> snd x = 0) as A.
  { intros [q v] H. apply nm_In_find in H; [|apply nm_set_sorted; apply Pf]. specialize (Z1 q). rewrite H in Z1. exact Z1. }
  destruct (filter _ _) as [|x l] eqn:F; [reflexivity|]. assert (In x (x :: l)) as I by (left; reflexivity). rewrite <- F in I.
  apply filter_In in I as [I1 I2]. rewrite (A x I1) in I2. discriminate.
Qed.
Lemma blank_run ops : forall k k', (forall x, In x ops -> exists p, x = CAdd p) -> blank k -> pfx_ok (k_prefixes k) ->
  crun k ops = Ok k' -> blank k'.
Proof.
  induction ops as [|x ops IH]; intros k k' H B Pf; cbn [crun]; [intros [= <-]; exact B|].
  destruct (H x (or_introl eq_refl)) as (p & ->). cbn [cstep obind]. intros E.
  apply (IH (fst (core_add p k)) k'); [intros y Hy; apply H; right; exact Hy|apply blank_add; auto| |exact E].
  eapply (cstep_pfx k (CAdd p)); [exact Pf|exact I|reflexivity].
Qed.
Lemma blank_new n : blank (core_new n). Proof. repeat split. Qed.
Lemma started_blank K sys evs s o : reaches K sys evs s o -> just_started o -> blank (f_core s).
Proof.
  intros R H. destruct (reaches_core _ _ _ _ _ R) as [_ C].
  eapply blank_run; [exact H|apply blank_new|apply core_new_pfx|exact C].
Qed.
Lemma started_free K sys evs s o : reaches K sys evs s o -> just_started o -> no_collision K o.
Proof.
  intros R H pre post k E C. destruct (blank_run pre (core_new (fc_n K)) k) as (L & _).
  - intros x Hx. apply H. rewrite E. apply in_or_app. left. exact Hx.
  - apply blank_new.
  - apply core_new_pfx.
  - exact C.
  - rewrite L. constructor.
Qed.
Lemma publish_knows K s p s' o v : get_seq p (f_core s) = Some v -> pfx_ok (k_prefixes (f_core s)) ->
  fp_step K (FeApi (APublish p None)) s = (s', o, Ok tt) -> v + 1 < two64 -> knows s' p = v + 1.
Proof.
  intros G Pf E L. cbn [fp_step api_call] in E. unfold fp_publish_name in E. rewrite mbind_get, G in E.
  unfold fp_op in E. rewrite !mbind_assoc, mbind_get, mbind_assoc, mbind_lift in E.
  destruct (cstep (f_core s) (CPublish p None)) as [k|x|x|] eqn:C; try discriminate.
  rewrite mbind_assoc, mbind_mod, mbind_emit, mbind_mod in E. cbn [fst snd] in E.
  set (s1 := fset_wait false (fset_core k s)) in *.
  pose proof (fsatisfy_core K (append_number p (publish_seq v None)) (nm_keys (f_pending s)) s1) as F.
  destruct (fsatisfy _ _ _ s1) as [[s2 o2] r2]. injection E as E1 _ _. subst s'. cbn [st fst] in F |- *. unfold knows. rewrite F.
  change (f_core s1) with k. rewrite (get_seq_step p _ _ _ Pf C), G. cbn [seq_step]. rewrite name_eqb_refl. cbn [option_map seq0].
  rewrite N.mod_small by exact L. lia.
Qed.

(** the crashed node is started again; it declares its prefixes and hears from a peer before it
    publishes anything: then it knows what the peer knows, and its next publication of a prefix gets
    the number that follows the highest one the peer has ever seen.  (Everything a crash can do to
    the node's own state is to lose it.)  Missing: nodes that publish before they hear from a peer *)
Theorem C89_restart_resumes_partial : forall Ka Kb sysa evsa a oa sysb evsb b ob a' b',
  reaches Ka sysa evsa a oa -> no_collision Ka oa -> reaches Kb sysb evsb b ob -> just_started ob ->
  peers Ka Kb a b -> exchange Ka Kb a b a' b' ->
  (forall p, knows b' p = knows a p) /\
  forall p b2 o2, get_seq p (f_core b') <> None -> knows a p + 1 < two64 ->
    fp_step Kb (FeApi (APublish p None)) b' = (b2, o2, Ok tt) -> knows b2 p = knows a p + 1.
Proof.
  intros Ka Kb sysa evsa a oa sysb evsb b ob a' b' Ra Ca Rb Js P X.
  pose proof (started_free _ _ _ _ _ Rb Js) as Cb. destruct (started_blank _ _ _ _ _ Rb Js) as (Lb & Kb0 & Zb).
  pose proof (reaches_node False _ _ _ _ _ Ra Ca ltac:(intros [])) as Na.
  pose proof (reaches_node False _ _ _ _ _ Rb Cb ltac:(intros [])) as Nb.
  destruct (ask_outcome False Ka Kb a b a' b' Na Nb P X) as (_ & Q & Nb' & O).
  assert (forall p, knows b' p = knows a p) as Kn.
  { destruct O as [O|[E (d & D & _ & R)]].
    - intros p. specialize (O p). unfold knows. unfold kn in O. rewrite O, Zb. apply N.max_0_r.
    - exfalso. destruct R as [R|(R1 & R2 & R3)]; [lia|]. apply R3.
      destruct P as [G _ _ _ _ _ [Ex _]]. pose proof (core_ok_ibf _ _ (no_core _ _ _ Na)) as Ia.
      pose proof (core_ok_ibf _ _ (no_core _ _ _ Nb)) as Ib. replace (fc_n Kb) with (fc_n Ka) in Ib by apply G.
      assert (NoDup (map name_hash (live (f_core a)))) as Nd by (eapply live_hashes; apply (no_core _ _ _ Na)).
      assert (NoDup (map name_hash (live (f_core b)))) as Nd2 by (eapply live_hashes; apply (no_core _ _ _ Nb)).
      destruct (iblt_sub_honest _ _ _ _ _ (fc_fuel Ka) Nd Nd2 Ia Ib) as (d' & Ed & _ & Hn & _); [apply Ex|apply Ex|].
      rewrite D in Ed. injection Ed as <-. destruct (negative d) as [|h l]; [reflexivity|].
      destruct (Hn h (or_introl eq_refl)) as [H _]. rewrite Lb in H. destruct H. }
  split; [exact Kn|]. intros p b2 o2 Hp Lt E. destruct (get_seq p (f_core b')) as [v|] eqn:G; [|congruence].
  assert (v = knows a p) as -> by (rewrite <- Kn; unfold knows; rewrite G; reflexivity).
  eapply publish_knows; [exact G|exact (node_fine _ _ _ Nb')|exact E|exact Lt].
Qed.
Print Assumptions C89_restart_resumes_partial.

(** a peer that has "/a" at 4 asks; the node that was started again has already published "/a" once:
    the peer gets the announcement of "/a" number 1 and reports nothing to its application *)
Definition evs_89a : list fev := evs_52 ++ [FeTick 2000; FeSend].
Definition a_89 : fp := Eval vm_compute in fst (full_after Kf evs_89a).
Definition oa_89 : list fout := Eval vm_compute in snd (full_after Kf evs_89a).
Definition evs_89b : list fev := [FeApi (AAdd pa); FeApi (APublish pa None)].
Definition b_89 : fp := Eval vm_compute in fst (full_after Kf evs_89b).
Definition ob_89 : list fout := Eval vm_compute in snd (full_after Kf evs_89b).
Definition n_89 : name := Eval vm_compute in fetch_name 1 a_89.
Definition x_89 := Eval vm_compute in fp_step Kf (FeInterest n_89 1000) b_89.
Definition b1_89 : fp := Eval vm_compute in st3 x_89.
Definition d_89 : data := Eval vm_compute in first_data x_89.
Definition y_89 := Eval vm_compute in fp_step Kf (FeContent 1 (d_content d_89) []) a_89.
Definition a1_89 : fp := Eval vm_compute in st3 y_89.
Lemma free_89 ops : check_free (core_new 10) ops = true -> collision_free 10 ops.
Proof. intros H pre post k E C. eapply check_free_ok; [exact H|exact E|exact C]. Qed.
Theorem C89_restart_resumes_refuted :
  exists K sysa evsa a oa sysb evsb b ob i n l b' o d a' o' p,
    reaches K sysa evsa a oa /\ no_collision K oa /\ reaches K sysb evsb b ob /\ no_collision K ob /\ peers K K b a /\
    ops_of ob = [CAdd p; CPublish p None] /\
    fetch_of i (f_live a) = Some n /\ SpecFull.asks K (f_core a) n /\ reply_from_store n (f_pub b) = None /\
    fp_step K (FeInterest n l) b = (b', o, Ok tt) /\ data_of o = [d] /\ fetched (f_pub b') d (d_content d) /\
    content_names K (d_content d) [append_number p 1] /\
    fp_step K (FeContent i (d_content d) []) a = (a', o', Ok tt) /\ reported p o' = [] /\ knows a p = 4 /\ knows a' p = 4.
Proof.
  exists Kf, 0%Z, evs_89a, a_89, oa_89, 0%Z, evs_89b, b_89, ob_89, 1%nat, n_89, 1000, b1_89, (snd (fst x_89)), d_89, a1_89, (snd (fst y_89)), pa.
  split; [split; [repeat constructor|run]|]. split; [apply free_89; run|].
  split; [split; [repeat constructor|run]|]. split; [apply free_89; run|].
  split.
  { split.
    - repeat split.
    - apply Kf_ok.
    - apply lossless_none.
    - split; apply Kf_ok.
    - apply distinct_check. run.
    - apply sendable_small; [apply Nat.leb_le; run|run| |reflexivity|reflexivity]. apply wf_check_ok. run.
    - split; (split; [|apply Nat.ltb_lt; run]);
      (apply no_coincidence_b_ok; [eapply NoDup_map_inv; apply signed_diff_keys; apply check_nodup; run|]; run). }
  split; [run|]. split; [run|]. split; [apply asks_check; run|]. split; [run|]. split; [run|]. split; [run|].
  split; [apply (fetched_one _ _ (firstn 4 (d_name d_89)) (Tlv.mkComp TYPE_SEGMENT [x00])); run|]. split; [run|].
  split; [run|]. split; [run|]. split; run.
Qed.
Print Assumptions C89_restart_resumes_refuted.
(** the restarted node hears from the peer, which has "/a" at 4, and publishes "/a" number 5 *)
Definition evs_89c : list fev := [FeApi (AAdd pa); FeTick 2000; FeSend].
Definition c_89 : fp := Eval vm_compute in fst (full_after Kf evs_89c).
Definition oc_89 : list fout := Eval vm_compute in snd (full_after Kf evs_89c).
Definition nc_89 : name := Eval vm_compute in fetch_name 1 c_89.
Definition xc_89 := Eval vm_compute in fp_step Kf (FeInterest nc_89 1000) s_52.
Definition a2_89 : fp := Eval vm_compute in st3 xc_89.
Definition dc_89 : data := Eval vm_compute in first_data xc_89.
Definition yc_89 := Eval vm_compute in fp_step Kf (FeContent 1 (d_content dc_89) []) c_89.
Definition c1_89 : fp := Eval vm_compute in st3 yc_89.
Definition zc_89 := Eval vm_compute in fp_step Kf (FeApi (APublish pa None)) c1_89.
Example C89_example :
  reaches Kf 0 evs_52 s_52 o_52 /\ no_collision Kf o_52 /\ reaches Kf 0 evs_89c c_89 oc_89 /\ just_started oc_89 /\
  peers Kf Kf s_52 c_89 /\ exchange Kf Kf s_52 c_89 a2_89 c1_89 /\ knows s_52 pa = 4 /\ knows c_89 pa = 0 /\
  get_seq pa (f_core c1_89) <> None /\ (exists o2, fp_step Kf (FeApi (APublish pa None)) c1_89 = (st3 zc_89, o2, Ok tt)) /\
  knows (st3 zc_89) pa = 5.
Proof.
  split; [apply reach_52|]. split; [apply free_52|]. split; [split; [repeat constructor|run]|].
  split. { replace (ops_of oc_89) with [CAdd pa] by run. unfold just_started. replace (ops_of oc_89) with [CAdd pa] by run.
           intros x [<-|[]]. eexists; reflexivity. }
  split.
  { split.
    - repeat split.
    - apply Kf_ok.
    - apply lossless_none.
    - split; apply Kf_ok.
    - apply distinct_check. run.
    - apply sendable_small; [apply Nat.leb_le; run|run| |reflexivity|reflexivity]. apply wf_check_ok. run.
    - split; (split; [|apply Nat.ltb_lt; run]);
      (apply no_coincidence_b_ok; [eapply NoDup_map_inv; apply signed_diff_keys; apply check_nodup; run|]; run). }
  split.
  { apply (ex_data Kf Kf s_52 c_89 1 nc_89 1000 a2_89 (snd (fst xc_89)) dc_89 [] (d_content dc_89) c_89 c1_89 (snd (fst yc_89)));
    [run|apply asks_check; run|run|run|run| |constructor|run|run].
    apply (fetched_one _ _ (firstn 4 (d_name dc_89)) (Tlv.mkComp TYPE_SEGMENT [x00])); run. }
  split; [run|]. split; [run|]. split; [discriminate|]. split; [eexists; run|run].
Qed.

(** * C90 *)
(** the loop of onSyncData over names that tell one number for [p] *)
Lemma ranges_cons p m l : ranges_in p (m :: l) = (if name_eqb p (mi_prefix m) then [(mi_low m, mi_high m)] else []) ++ ranges_in p l.
Proof. unfold ranges_in. cbn [filter]. destruct (name_eqb p (mi_prefix m)); reflexivity. Qed.
Lemma take_sync_old p v names : forall s s1 o1 l, take_sync names s = (s1, o1, Ok l) -> known s p = Some v ->
  (forall y w, In (p ++ [y]) names -> to_number y = Ok w -> w <= v) ->
  ranges_in p l = [] /\ known s1 p = Some v.
Proof.
  induction names as [|c names IH]; intros s s1 o1 l; cbn [take_sync].
  - intros [= <- _ <-] Kn _. split; [reflexivity|exact Kn].
  - rewrite mbind_lift. destruct (name_get_minus c 1) as [last|e|u|] eqn:Eg; try discriminate.
    rewrite mbind_lift. destruct (to_number last) as [w|e|u|] eqn:Ev; try discriminate.
    cbv zeta. rewrite mbind_get. apply name_split in Eg. set (q := name_prefix_back c 1) in *. intros E Kn H.
    assert (forall y w, In (p ++ [y]) names -> to_number y = Ok w -> w <= v) as H1 by (intros y x Y; apply H; right; exact Y).
    destruct (match nm_find q (c_prefixes s) with None => true | Some cur => cur <? w end) eqn:Hc; [|eapply IH; eauto].
    rewrite mbind_mod in E. set (s2 := cset_prefixes _ s) in *. unfold mbind in E. destruct (take_sync names s2) as [[s3 o3] r3] eqn:T.
    destruct r3 as [l3|e|u|]; try discriminate. injection E as <- _ <-.
    assert (q <> p) as Ne.
    { intros ->. unfold known in Kn. rewrite Kn in Hc. apply N.ltb_lt in Hc. specialize (H last w). rewrite <- Eg in H.
      specialize (H (or_introl eq_refl) Ev). lia. }
    assert (name_eqb p q = false) as Nq by (destruct (name_eqb p q) eqn:X; auto; apply name_eqb_eq in X; congruence).
    rewrite ranges_cons. cbn [mi_prefix]. rewrite Nq. cbn [app]. apply (IH s2 s3 o3 l3 T); [|exact H1].
    unfold s2. rewrite known_set, Nq. exact Kn.
Qed.
Lemma take_sync_new p v u names : forall s s1 o1 l, take_sync names s = (s1, o1, Ok l) -> known s p = Some v -> v < u ->
  (forall y w, In (p ++ [y]) names -> to_number y = Ok w -> w = u) -> (exists y, In (p ++ [y]) names) ->
  ranges_in p l = [(v + 1, u)] /\ known s1 p = Some u.
Proof.
  induction names as [|c names IH]; intros s s1 o1 l; cbn [take_sync].
  - intros _ _ _ _ (y & []).
  - rewrite mbind_lift. destruct (name_get_minus c 1) as [last|e|x|] eqn:Eg; try discriminate.
    rewrite mbind_lift. destruct (to_number last) as [w|e|x|] eqn:Ev; try discriminate.
    cbv zeta. rewrite mbind_get. apply name_split in Eg. set (q := name_prefix_back c 1) in *. intros E Kn Lt H (y & Hy).
    assert (forall y w, In (p ++ [y]) names -> to_number y = Ok w -> w = u) as H1 by (intros y' x Y; apply H; right; exact Y).
    assert (q <> p -> In (p ++ [y]) names) as Hn.
    { intros Ne. destruct Hy as [Hy|Hy]; [|exact Hy]. rewrite Eg in Hy. apply app_inj_tail in Hy as [Hy _]. congruence. }
    destruct (name_eqb p q) eqn:Nq.
    + apply name_eqb_eq in Nq. assert (w = u) as -> by (apply (H last w); [left; rewrite Nq; exact Eg|exact Ev]).
      assert (known s q = Some v) as Kq by (rewrite <- Nq; exact Kn). unfold known in Kq. rewrite Kq in E.
      replace (v <? u) with true in E by (symmetry; apply N.ltb_lt; exact Lt).
      rewrite mbind_mod in E. set (s2 := cset_prefixes _ s) in *. unfold mbind in E. destruct (take_sync names s2) as [[s3 o3] r3] eqn:T.
      destruct r3 as [l3|e|x|]; try discriminate. injection E as <- _ <-.
      destruct (take_sync_old p u names s2 s3 o3 l3 T) as [R K1].
      * unfold s2. rewrite known_set. rewrite Nq, name_eqb_refl. reflexivity.
      * intros y' w' Y1 Y2. rewrite (H1 y' w' Y1 Y2). lia.
      * rewrite ranges_cons, R, Nq. cbn [mi_prefix mi_low mi_high]. rewrite name_eqb_refl. split; [|rewrite <- Nq; exact K1].
        cbn [app]. unfold w64. rewrite N.mod_small; [reflexivity|]. apply to_number_lt in Ev. lia.
    + assert (q <> p) as Ne by (intros ->; rewrite name_eqb_refl in Nq; discriminate).
      destruct (match nm_find q (c_prefixes s) with None => true | Some cur => cur <? w end) eqn:Hc; [|eapply IH; eauto].
      rewrite mbind_mod in E. set (s2 := cset_prefixes _ s) in *. unfold mbind in E. destruct (take_sync names s2) as [[s3 o3] r3] eqn:T.
      destruct r3 as [l3|e|x|]; try discriminate. injection E as <- _ <-.
      rewrite ranges_cons. cbn [mi_prefix]. rewrite Nq. cbn [app]. apply (IH s2 s3 o3 l3 T); eauto.
      unfold s2. rewrite known_set, Nq. exact Kn.
Qed.
(** a sync reply whose callbacks make no calls *)
Lemma sync_reply K i n buf names c c' o' : cfetch i (c_live c) = Some (KSync, n) -> is_nack (c_type c) = false ->
  state_of_buffer buf = Ok names -> c_step K (CeContent i buf [] []) c = (c', o', Ok tt) ->
  exists s1 s2 l, known s1 = known c /\ take_sync names s1 = (s2, [], Ok l) /\ known c' = known s2 /\
    forall p, creported p o' = ranges_in p l.
Proof.
  intros Fi Ty B E. cbn [c_step] in E. rewrite mbind_get, Fi in E. unfold finish in E. rewrite mbind_mod in E.
  set (s0 := cset_live _ c) in *. rewrite Ty in E. unfold on_csync_data in E. rewrite mbind_mod, mbind_lift in E.
  set (s1 := cset_iblt _ s0) in *. rewrite B in E. destruct (take_sync_inv names s1) as (T1 & _).
  destruct (take_sync names s1) as [[s2 o2] r2] eqn:T. cbn [outs fst snd] in T1. subst o2. rewrite (mbind_run _ _ _ _ _ _ T) in E.
  destruct r2 as [l|x|x|]; try discriminate. exists s1, s2, l. split; [reflexivity|]. split; [exact T|].
  assert (forall s3 o3, send_sync K s2 = (s3, o3, Ok tt) -> known s3 = known s2 /\ forall p, creported p o3 = []) as Ss.
  { intros s3 o3. rewrite send_sync_eq. destruct (c_iblt s2) as [|x r]; [discriminate|].
    destruct (append_bloom (sync_prefix K) (c_bloom s2)) as [n1|?|?|]; try discriminate.
    destruct (same_start KSync (n1 ++ x :: r) (c_sync s2) s2) as [Y _]. intros X. pose proof (f_equal (fun m => fst (fst m)) X) as X1.
    pose proof (f_equal (fun m => snd (fst m)) X) as X2. cbn [fst snd] in X1, X2. subst s3 o3. split; [|reflexivity]. unfold known.
    rewrite Y. reflexivity. }
  destruct l as [|m l].
  - rewrite mbind_ret in E. destruct (send_sync K s2) as [[s3 o3] r3] eqn:X. cbn [app] in E. injection E as <- <- ->.
    destruct (Ss _ _ eq_refl) as [S1 S2]. split; [exact S1|]. exact S2.
  - rewrite mbind_assoc, mbind_emit in E. cbn [calls] in E. rewrite mbind_ret in E.
    destruct (send_sync K s2) as [[s3 o3] r3] eqn:X. cbn [app fst snd] in E. injection E as <- <- ->.
    destruct (Ss _ _ eq_refl) as [S1 S2]. split; [exact S1|]. intros p. cbn [creported]. rewrite S2, app_nil_r. reflexivity.
Qed.

Lemma live_of_prefix K evs s o p y : Forall pev_wf evs -> pp_run K (pp_new K) evs = Some (s, o) -> In (p ++ [y]) (live (pp_core s)) ->
  exists u, get_seq p (pp_core s) = Some u /\ to_number y = Ok u.
Proof.
  intros W R H. destruct (reach_core K evs s o W R) as [W' C]. pose proof (crun_pfx _ _ _ (core_new_pfx (pc_n K)) W' C) as [S B].
  unfold live in H. apply live_names_In in H as (q & u & F & _ & E); [|exact S]. apply app_inj_tail in E as [<- ->].
  exists u. split; [exact F|]. apply to_number_number. eapply B; eauto.
Qed.
(** the sizes of what the producer sends *)
Definition sendable_names (k : core) : Prop := forall l, NoDup l -> incl l (live k) -> wf_names l.

(** a producer that was started again has numbered [p] from 1 up to [u], more than the number [v] its
    consumer had reported in the producer's previous life: the consumer's next interest is answered,
    and the consumer reports exactly the numbers above [v] *)
Theorem C90_restart_reported_partial : forall K evs s o n bf t l ks p u Kc c i v,
  (** the producer's new life *)
  scheme_ok (pc_codec K) (pc_scheme K) -> Forall pev_wf evs -> collision_free (pc_n K) (history evs) ->
  pp_run K (pp_new K) evs = Some (s, o) -> reply_from_store n (pp_pub s) = None -> sendable_names (pp_core s) ->
  get_seq p (pp_core s) = Some u ->
  (** the consumer's interest carries the IBF of whatever names it had learned about before *)
  cfetch i (c_live c) = Some (KSync, n) -> is_nack (c_type c) = false -> seq_of p c = Some v ->
  sync_request_for K n n bf t -> bloom_sound bf -> bloom_contains bf p = Ok true -> NoDup ks -> IbfOf (pc_n K) ks t ->
  exact_difference K (pp_core s) ks ->
  peelable (n_entries (pc_n K)) (only_in (map name_hash (live (pp_core s))) ks ++ only_in ks (map name_hash (live (pp_core s)))) ->
  ~ In (name_hash (append_number p u)) ks ->
  v < u ->
  exists names ic s' o', pp_step K (PInterest n l) s = (s', o', Ok tt) /\
    published K s s' n (n ++ [ic]) names (pc_sync_fresh K) o' /\
    forall c' oc, c_step Kc (CeContent i (encode_names names) [] []) c = (c', oc, Ok tt) ->
      creported p oc = [(v + 1, u)] /\ seq_of p c' = Some u.
Proof.
  intros K evs s o n bf t l ks p u Kc c i v Sk W Hc R Hr Sn G Fi Ty Sv Hq B Bp Nk Ht X P Hk Lt.
  destruct (reach_core K evs s o W R) as [W' C]. pose proof (crun_pfx _ _ _ (core_new_pfx (pc_n K)) W' C) as [S Bd].
  destruct (append_cases K n (k_iblt (pp_core s)) Sk) as (ic & _ & Hi).
  assert (In (append_number p u) (live (pp_core s))) as L.
  { unfold live. apply live_names_In; [exact S|]. exists p, u. split; [exact G|]. split; [lia|reflexivity]. }
  assert (name_prefix_back (append_number p u) 1 = p) as Eb by apply name_prefix_back_snoc.
  destruct (C34_reply_to_honest_consumer K evs s o n n bf t l ks ic Sk W Hc R Hq B Nk Ht X P Hr Hi) as (names & s' & o' & Nd & Hn & E & Pu).
  { exists (append_number p u). split; [exact L|]. split; [exact Hk|]. rewrite Eb. exact Bp. }
  exists names, ic, s', o'. split; [exact E|]. split; [exact Pu|]. intros c' oc Ec.
  assert (state_of_buffer (encode_names names) = Ok names) as Sb.
  { apply state_roundtrip. apply Sn; [exact Nd|]. intros x Hx. apply Hn in Hx. apply Hx. }
  destruct (sync_reply Kc i n _ names c c' oc Fi Ty Sb Ec) as (s1 & s2 & m & K1 & T & K2 & Rp). rewrite Rp.
  change (seq_of p c') with (known c' p). rewrite K2. apply (take_sync_new p v u names s1 s2 [] m T); [|exact Lt| |].
  - rewrite K1. exact Sv.
  - intros y w Hy Hw. apply Hn in Hy as (Hy & _). destruct (live_of_prefix K evs s o p y W R Hy) as (u' & G' & Hu). congruence.
  - exists (number_comp TYPE_GENERIC u). change (p ++ [number_comp TYPE_GENERIC u]) with (append_number p u). apply Hn.
    split; [exact L|]. split; [exact Hk|]. rewrite Eb. exact Bp.
Qed.
Print Assumptions C90_restart_reported_partial.

(** while the new numbers have not passed the old ones, a reply made of the producer's current names
    leads to no report about [p], and the consumer's number stays *)
Theorem C90_ignored_until_passed : forall K evs s o p u Kc c i n names v c' oc,
  Forall pev_wf evs -> pp_run K (pp_new K) evs = Some (s, o) -> incl names (live (pp_core s)) -> wf_names names ->
  get_seq p (pp_core s) = Some u -> u <= v ->
  cfetch i (c_live c) = Some (KSync, n) -> is_nack (c_type c) = false -> seq_of p c = Some v ->
  c_step Kc (CeContent i (encode_names names) [] []) c = (c', oc, Ok tt) ->
  creported p oc = [] /\ seq_of p c' = Some v.
Proof.
  intros K evs s o p u Kc c i n names v c' oc W R In Wn G Le Fi Ty Sv Ec.
  destruct (sync_reply Kc i n _ names c c' oc Fi Ty (state_roundtrip _ Wn) Ec) as (s1 & s2 & m & K1 & T & K2 & Rp). rewrite Rp.
  change (seq_of p c') with (known c' p). rewrite K2. apply (take_sync_old p v names s1 s2 [] m T); [rewrite K1; exact Sv|].
  intros y w Hy Hw. destruct (live_of_prefix K evs s o p y W R (In _ Hy)) as (u' & G' & Hu). congruence.
Qed.
Print Assumptions C90_ignored_until_passed.

(** the consumer of v9 knows "/b" up to 1 and waits with the IBF {a/1, b/1}; the producer is started
    again and publishes "/b" once: the interest waits, although there is an update of "/b" that the
    consumer's application has not been told about *)
Definition evs_90 : list pev := [PAdd pa; PAdd pb; PPublishName pb None].
Definition s_90 : pp := Eval vm_compute in state_after Kx evs_90.
Definition t_90 : table := Eval vm_compute in k_iblt (pp_core (du_prod v8)).
Definition bf_90 : bloom := Eval vm_compute in bf_with b_ex (filter_n (sync_n v9)).
Definition dec_90 : iblt_diff := Eval vm_compute in (ok_or (mkDiff true [] []) (iblt_sub (pc_fuel Kx) (k_iblt (pp_core s_90)) t_90)).
Lemma request_90 : sync_request_for Kx (sync_n v9) (sync_n v9) bf_90 t_90.
Proof.
  assert (sync_n v9 = request Kx (filter_n (sync_n v9)) t_90) as E by run. rewrite E.
  replace bf_90 with (bf_with b_ex (filter_n (sync_n v9))) by run.
  apply request_ex; [reflexivity|reflexivity|apply bf_of; run|apply Nat.eqb_eq; run|].
  assert (forallb (fun c => in_i32 (c_count c) && (c_sum c <? two32) && (c_check c <? two32)) t_90 = true) as Wf by run.
  apply Forall_forall. intros c Hc. rewrite forallb_forall in Wf. specialize (Wf c Hc).
  apply andb_prop in Wf as [Wf W3]. apply andb_prop in Wf as [W1 W2]. split; [exact W1|]. split; apply N.ltb_lt; assumption.
Qed.
Theorem C90_restart_reported_refuted : exists K Kc w0 w i n p s o s' l,
  duo_ok K Kc /\ fresh_duo K Kc w0 /\ duo_run K Kc subscribes_in_hello w0 w /\ plain K w /\
  cfetch i (c_live (du_cons w)) = Some (KSync, n) /\ is_subscribed p (du_cons w) = true /\ seq_of p (du_cons w) = Some 1 /\
  pp_run K (pp_new K) [PAdd pa; PAdd p; PPublishName p None] = Some (s, o) /\ get_seq p (pp_core s) = Some 1 /\
  pp_step K (PInterest n l) s = (s', [], Ok tt).
Proof.
  eexists Kx, Kc, w0, v9, 2%nat, (sync_n v9), pb, s_90, _, _, 1000.
  split; [exact duo_v|]. split; [exact fresh_v|]. split; [apply run_v9; intros w; apply hello_rules|]. split; [exact plain_v9|].
  split; [run|]. split; [run|]. split; [run|]. split; [run|]. split; [run|].
  rewrite (step_decoded Kx s_90 (sync_n v9) (sync_n v9) 1000 bf_90 t_90 dec_90 [] (gen (table_bytes (k_iblt (pp_core s_90))))
    (or_introl eq_refl) request_90); [|run|run|run|run|split; run].
  vm_compute. reflexivity.
Qed.
Print Assumptions C90_restart_reported_refuted.

(** with its second publication the producer passes the consumer's number *)
Definition evs2_90 : list pev := evs_90 ++ [PPublishName pb None].
Definition s2_90 : pp := Eval vm_compute in state_after Kx evs2_90.
Definition ks_90 : list N := Eval vm_compute in map name_hash (live (pp_core (du_prod v8))).
Fixpoint peel_check (m : nat) (l : list N) : bool :=
  match l with
  | [] => true
  | k :: r => existsb (fun j => forallb (fun k' => negb (existsb (Nat.eqb j) (cells_of m k'))) r) (cells_of m k) && peel_check m r
  end.
Lemma peel_check_ok m l : peel_check m l = true -> peelable m l.
Proof.
  intros H. exists l. split; [apply Permutation.Permutation_refl|]. revert H. induction l as [|k r IH]; cbn [peel_check peel_order]; [trivial|].
  intros H. apply andb_prop in H as [H1 H2]. split; [|auto]. apply existsb_exists in H1 as (j & J & F). exists j. split; [exact J|].
  intros k' K' Hj. rewrite forallb_forall in F. specialize (F k' K'). apply negb_true_iff in F.
  rewrite (proj2 (existsb_exists _ _)) in F; [discriminate|]. exists j. split; [exact Hj|apply Nat.eqb_refl].
Qed.
Example C90_example :
  Forall pev_wf evs2_90 /\ collision_free (pc_n Kx) (history evs2_90) /\ (exists o, pp_run Kx (pp_new Kx) evs2_90 = Some (s2_90, o)) /\
  reply_from_store (sync_n v9) (pp_pub s2_90) = None /\ sendable_names (pp_core s2_90) /\ get_seq pb (pp_core s2_90) = Some 2 /\
  cfetch 2 (c_live (du_cons v9)) = Some (KSync, sync_n v9) /\ is_nack (c_type (du_cons v9)) = false /\ seq_of pb (du_cons v9) = Some 1 /\
  sync_request_for Kx (sync_n v9) (sync_n v9) bf_90 t_90 /\ bloom_sound bf_90 /\ bloom_contains bf_90 pb = Ok true /\
  NoDup ks_90 /\ IbfOf (pc_n Kx) ks_90 t_90 /\ exact_difference Kx (pp_core s2_90) ks_90 /\
  peelable (n_entries (pc_n Kx)) (only_in (map name_hash (live (pp_core s2_90))) ks_90 ++ only_in ks_90 (map name_hash (live (pp_core s2_90)))) /\
  ~ In (name_hash (append_number pb 2)) ks_90 /\
  exists c' oc, c_step Kc (CeContent 2 (encode_names [append_number pb 2]) [] []) (du_cons v9) = (c', oc, Ok tt).
Proof.
  split; [repeat constructor|]. split; [apply free_89; run|]. split; [eexists; run|]. split; [run|].
  split.
  { intros l Nd In. assert (length l <= length (live (pp_core s2_90)))%nat as Ll by (apply NoDup_incl_length; assumption).
    replace (live (pp_core s2_90)) with [append_number pb 2] in * by run.
    destruct l as [|x [|y l]]; [split; [constructor|reflexivity]| |simpl in Ll; lia].
    destruct (In x (or_introl eq_refl)) as [<-|[]]. split; [apply wf_check_ok; run|reflexivity]. }
  split; [run|]. split; [run|]. split; [run|]. split; [run|]. split; [exact request_90|].
  split; [split; [discriminate|reflexivity]|]. split; [run|]. split; [apply check_nodup; run|]. split; [run|].
  split; [split; [apply no_coincidence_b_ok; [eapply NoDup_map_inv; apply signed_diff_keys; apply check_nodup; run|]; run|apply Nat.ltb_lt; run]|].
  split. { apply peel_check_ok. run. }
  split; [|eexists; eexists; run].
  assert (existsb (N.eqb (name_hash (append_number pb 2))) ks_90 = false) as Z by run.
  intros H. rewrite (proj2 (existsb_exists _ _)) in Z; [discriminate|]. eexists. split; [exact H|apply N.eqb_refl].
Qed.
