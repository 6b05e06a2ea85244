(** Property theorems about publications that reach waiting full-sync peers at once (C129). *)
From Coq Require Import List NArith ZArith Bool Arith Lia.
From Verif Require Import Base Mon MonFacts Iblt BaseFacts IbltFacts SpecIblt
  Tlv State NMap TlvFacts NMapFacts Codec CodecFacts Store StoreFacts SpecStore
  Producer SpecProducer ProducerFacts Properties_Producer Partial SpecPartial PartialFacts Properties_Partial
  Full FullTrace SpecFull FullFacts FullSafe FullSteps FullData FullRuns FullReplies Properties_Full Properties_FullAnswers
  SpecExchange ExchangeFacts Properties_Exchange SpecFresh FreshFacts FullFresh FullLog SpecDeliver DeliverFacts Properties_Deliver
  SpecGroup GroupFacts SpecStory Properties_Story SpecTold Properties_Told SpecWake.
Import ListNotations.
Local Open Scope N_scope.

(** ** What was published *)
Lemma answers_log K now content keys : forall p0 p1 l, answers K now content p0 keys p1 l ->
  forall L, store_log K L p0 -> exists L2, store_log K (L ++ L2) p1 /\
    Forall (fun r => exists names, content (pr_name r) names /\
      compress (fc_codec K) (fc_cscheme K) (encode_names names) = Ok (pr_buf r)) L2 /\
    forall d, In d l -> exists k r i, nth_error (L ++ L2) k = Some r /\ In r L2 /\ (i < nseg (pr_buf r))%nat /\ d = piece K k r i.
Proof.
  induction keys as [|key keys IH]; intros p0 p1 l A L HL; cbn [answers] in A.
  - destruct A as [-> ->]. exists []. rewrite app_nil_r. split; auto. split; [constructor|]. intros d [].
  - destruct A as (names & pm & lm & l' & Hc & (buf & Cb & Pb) & A & ->). destruct HL as [HL HK].
    set (x := mkPrec now (pb_signed p0) key buf (fc_fresh K)).
    assert (forall dl d, inlog K L dl d -> inlog K (L ++ [x]) dl d) as Mo by (intros; apply inlog_app; auto).
    assert (pb_published pm = S (pb_published p0)) as Eq.
    { unfold publish in Pb. rewrite insert_segments_eq in Pb. injection Pb as E1 _. rewrite <- E1. reflexivity. }
    set (sg := segment (fc_env K) (pb_signed p0) (append_version key (en_version (fc_env K) (pb_published p0))) buf (fc_fresh K)).
    assert (forall d, In d lm -> In d sg) as Hl.
    { intros d Hd. unfold publish in Pb. injection Pb as _ E2. eapply put_segment_In; eauto. }
    assert (forall d, In d sg -> exists i, (i < nseg buf)%nat /\ d = piece K (length L) x i) as Hx.
    { intros d Hd. apply segment_In in Hd as (i & Hi & ->). exists i. split; auto.
      unfold piece. cbn [pr_sg pr_name pr_buf pr_fresh x]. rewrite HL. reflexivity. }
    destruct (publish_kept (inlog K (L ++ [x])) _ _ _ _ _ _ _ _ _ Pb (kept_mono _ _ _ Mo HK)) as [Kp _].
    { intros d Hd. destruct (Hx d Hd) as (i & Hi & ->). exists (length L), x, i.
      rewrite nth_error_app2, Nat.sub_diag by lia. auto. }
    destruct (IH _ _ _ A (L ++ [x])) as (L2 & S2 & F2 & D2).
    { split; [rewrite app_length, HL, Eq; cbn; lia|exact Kp]. }
    rewrite <- app_assoc in S2. exists (x :: L2). split; [exact S2|]. split.
    + constructor; auto. exists names. auto.
    + intros d Hd. apply in_app_or in Hd as [Hd|Hd].
      * destruct (Hx d (Hl d Hd)) as (i & Hi & ->). exists (length L), x, i.
        rewrite nth_error_app2, Nat.sub_diag by lia. split; [reflexivity|]. split; [left; reflexivity|]. auto.
      * destruct (D2 d Hd) as (k & r & i & H1 & H2 & H3). rewrite <- app_assoc in H1. exists k, r, i. split; [exact H1|].
        split; [right; exact H2|exact H3].
Qed.
(** a satisfied loop computed every difference *)
Lemma fsatisfy_subs K u keys : schemes_ok K -> forall s s' o, NoDup keys -> nm_sorted (f_pending s) ->
  (forall k, In k keys -> k <> []) -> fsatisfy K u keys s = (s', o, Ok tt) ->
  forall k e, In k keys -> nm_find k (f_pending s) = Some e -> exists d, iblt_sub (fc_fuel K) (k_iblt (f_core s)) (fe_iblt e) = Ok d.
Proof.
  intros Sk. induction keys as [|x keys IH]; intros s s' o Nd So H0 E k e Hk Hf; [destruct Hk|].
  inversion Nd as [|? ? Hx Nd']; subst. cbn [fsatisfy] in E. unfold fsatisfy_one in E. rewrite mbind_assoc, mbind_get in E.
  destruct (nm_find x (f_pending s)) as [ex|] eqn:Fx.
  2:{ rewrite mbind_ret in E. destruct Hk as [->|Hk]; [congruence|]. eapply IH; eauto. intros j Hj. apply H0. right. exact Hj. }
  rewrite mbind_assoc, mbind_lift in E.
  destruct (iblt_sub (fc_fuel K) (k_iblt (f_core s)) (fe_iblt ex)) as [d| | |] eqn:Ed; try discriminate.
  destruct Hk as [->|Hk].
  { assert (e = ex) as -> by congruence. eauto. }
  destruct (data_spec K x (satisfy_content (k_bimap (f_core s)) u (positive d)) (fc_fresh K) s Sk (H0 x (or_introl eq_refl)))
    as (ds & s1 & o1 & E1 & A1 & F1 & O1).
  rewrite mbind_assoc in E. unfold mbind at 1 in E. rewrite E1 in E. unfold delete_pending in E. rewrite mbind_mod in E.
  set (s2 := fset_pending (nm_erase x (f_pending s1)) s1) in *.
  destruct (fsatisfy K u keys s2) as [[s3 o3] r3] eqn:E3. injection E as <- _ ->.
  assert (f_pending s2 = nm_erase x (f_pending s)) as P2 by (simpl; rewrite (fr_pending _ _ F1); reflexivity).
  assert (f_core s2 = f_core s) as C2 by apply F1. rewrite <- C2.
  apply (IH s2 s3 o3 Nd') with k; auto.
  - rewrite P2. apply nm_erase_sorted; auto.
  - intros j Hj. apply H0. right. exact Hj.
  - rewrite P2, nm_find_erase_other; auto. intros ->. contradiction.
Qed.
Lemma publish_answers K s p q cur s' o : schemes_ok K -> fp_ok K s -> get_seq p (f_core s) = Some cur ->
  fp_step K (FeApi (APublish p q)) s = (s', o, Ok tt) ->
  cstep (f_core s) (CPublish p q) = Ok (f_core s') /\
  answers K (f_now s) (content_for K (f_core s') (append_number p (publish_seq cur q)) (f_pending s))
    (f_pub s) (nm_keys (f_pending s)) (f_pub s') (data_of o).
Proof.
  intros Sk Ok_ Hp E.
  assert (exists k', cstep (f_core s) (CPublish p q) = Ok k' /\
    forall key e, nm_find key (f_pending s) = Some e -> exists d, iblt_sub (fc_fuel K) (k_iblt k') (fe_iblt e) = Ok d) as (k' & Ek & Hd).
  { pose proof E as E'. cbn [fp_step api_call] in E'. unfold fp_publish_name in E'. rewrite mbind_get, Hp in E'.
    unfold mbind at 1 in E'. unfold fp_op in E'. rewrite mbind_get, mbind_lift in E'.
    destruct (cstep (f_core s) (CPublish p q)) as [k'| | |] eqn:Ek; try discriminate. exists k'. split; auto.
    rewrite mbind_mod in E'. unfold memit at 1 in E'. rewrite mbind_mod in E'.
    set (s1 := fset_wait false (fset_core k' s)) in *.
    destruct (fsatisfy K (append_number p (publish_seq cur q)) (nm_keys (f_pending s)) s1) as [[s3 o3] r3] eqn:E3.
    injection E' as <- _ ->.
    intros key e Hf.
    pose proof (fsatisfy_subs K (append_number p (publish_seq cur q)) (nm_keys (f_pending s)) Sk s1 s3 o3 (nm_sorted_NoDup _ (fo_psorted _ _ Ok_)) (fo_psorted _ _ Ok_)) as X.
    apply X with key; auto.
    - intros k Hk. apply nm_In_keys in Hk as [x Hx]. destruct (fo_pending _ _ Ok_ k x Hx) as [rcvd Hn]. eapply names_ibf_nonempty; eauto.
    - apply nm_In_keys. eauto. }
  destruct (publish_step K s p q cur k' Sk Ok_ Hp Ek Hd) as (x & y & E2 & C & _ & _ & A).
  rewrite E in E2. injection E2 as <- ->. rewrite C. auto.
Qed.

(** ** What the waiting peer gets *)
Section Wake.
Variables (Ka Kb : fcfg) (sys : Z) (evs : list fev) (a a' : fp) (oa : list fout) (p : name) (q : option N) (cur : N)
  (kb : core) (n : name) (buf : bytes).
Hypothesis G : same_group Ka Kb.
Hypothesis Sk : schemes_ok Ka.
Hypothesis Lo : lossless (fc_codec Ka).
Hypothesis Uk : uri_ok Ka.
Hypothesis Vd : versions_differ (fc_env Ka) (pb_published (f_pub a')).
Hypothesis R : reaches Ka sys evs a oa.
Hypothesis Nc : no_collision Ka oa.
Hypothesis Hp : get_seq p (f_core a) = Some cur.
Hypothesis Wf : fev_wf (FeApi (APublish p q)).
Hypothesis Nd : NoDup (map name_hash (live (f_core a'))).
Hypothesis Hb : node_data Kb kb.
Hypothesis As : asks Kb kb n.
Hypothesis Pu : publishes_to Ka p q n buf a a'.
Let u := append_number p (publish_seq cur q).
Hypothesis Se : can_send Ka (f_core a') u.

Lemma wake_core : core_ok (fc_n Ka) (f_core a').
Proof.
  destruct Pu as (o & d & St & _). destruct (publish_answers Ka a p q cur a' o Sk (reaches_ok _ _ _ _ _ R) Hp St) as [Ek _].
  eapply cstep_ok; [eapply reaches_core_ok; eauto|inversion Wf as [|? ? W0 ?]; exact W0|exact Ek|].
  apply hash_inj_live; auto.
  eapply cstep_pfx; [apply (reaches_pfx _ _ _ _ _ R)|inversion Wf as [|? ? W0 ?]; exact W0|exact Ek].
Qed.
Lemma wake_content : exists rcvd d, names_ibf Ka n (k_iblt kb) rcvd /\
  iblt_sub (fc_fuel Ka) (k_iblt (f_core a')) (k_iblt kb) = Ok d /\
  content_names Kb buf (satisfy_content (k_bimap (f_core a')) u (positive d)).
Proof.
  pose proof wake_core as Ck. destruct Pu as (o & d & St & Hd & Px & Fe).
  pose proof (reaches_ok _ _ _ _ _ R) as Ok_.
  destruct (publish_answers Ka a p q cur a' o Sk Ok_ Hp St) as [Ek An].
  pose proof (node_data_ok _ _ Hb) as Ckb.
  pose proof (asks_request Ka Kb kb n G Lo Ckb (node_data_count _ _ Hb) As) as Hq.
  pose proof (request_names _ _ _ _ Hq) as [Hn _].
  set (ok := op_ok evs).
  assert (forall p, ok (CAdd p)) as Oa by (intros x; split; auto; exact I).
  assert (forall p v, v < two64 -> ok (CUpdate p v)) as Ou by (intros x v Hv; split; auto; exact I).
  pose proof (proj1 R) as We.
  destruct (reaches_log Ka ok Uk Oa Ou sys evs a oa) as (L0 & S0 & M0); auto.
  { apply op_ok_evs; auto. intros x Hx. exact Hx. }
  destruct (answers_log Ka _ _ _ _ _ _ An L0 S0) as (L2 & S2 & F2 & D2).
  destruct (D2 d Hd) as (k & r & i & Hk & Ir & Hi & ->).
  rewrite Forall_forall in F2. destruct (F2 r Ir) as (names & (e & dd & He & Hs & ->) & Cb).
  destruct (fo_pending _ _ Ok_ _ _ He) as [rcvd Hr].
  assert (pr_name r = n) as En.
  { apply is_prefix_iff in Px as (rest & Px). unfold piece in Px. cbn [d_name seg_data] in Px.
    unfold append_segment, append_version in Px. rewrite <- !app_assoc in Px.
    apply app_same_len in Px as [Px _]; auto. rewrite (names_ibf_length _ _ _ _ Hr), (names_ibf_length _ _ _ _ Hn). reflexivity. }
  rewrite En in Hr. pose proof (names_ibf_same _ _ _ _ _ _ Hr Hn) as Et. rewrite Et in Hs.
  exists (k_count kb), dd. split; auto. split; auto.
  assert (wf_names (satisfy_content (k_bimap (f_core a')) u (positive dd)) /\ N.of_nat (length (pr_buf r)) < two64) as [Wn Ln].
  { assert (forall h nm, bm_left h (k_bimap (f_core a')) = Some nm -> h = name_hash nm) as Hh.
    { intros h nm X. apply (rep_lookup _ _ _ _ _ _ (ok_rep _ _ Ck)) in X. apply X. }
    destruct (Se (satisfy_content (k_bimap (f_core a')) u (positive dd))) as [A B].
    - apply satisfy_NoDup; auto. apply nsorted_NoDup. apply (iblt_sub_sorted _ _ _ _ Hs).
    - intros nm X. apply satisfy_In in X as [->|X]; [left; reflexivity|right].
      apply lookup_In in X as (h & _ & X). apply (rep_lookup _ _ _ _ _ _ (ok_rep _ _ Ck)) in X as [X _].
      apply live_names_In; auto. apply Ck.
    - split; auto. }
  destruct S2 as [Len Kp]. rewrite <- Len in Vd.
  rewrite (fetched_piece Ka (L0 ++ L2) (f_pub a') k r i buf); auto.
  - destruct G as (_ & _ & _ & G4 & G5).
    unfold content_names. rewrite <- G4, <- G5, (decompress_compress _ _ _ _ Lo Cb). apply state_roundtrip. auto.
  - intros x Hx. destruct (Kp x Hx) as (dl & _ & X). eauto.
  - assert (length n = (length (fc_sync Ka) + 2)%nat) as Lnn by (eapply names_ibf_length; eauto).
    intros r' Hr'. rewrite En, Lnn. apply in_app_or in Hr' as [Hr'|Hr'].
    + rewrite Forall_forall in M0. destruct (M0 r' Hr') as (_ & x1 & x2 & k' & nm' & Ex' & Rk & Cx & Cp).
      assert (core_ok (fc_n Ka) k') as Ck'.
      { pose proof (reaches_core _ _ _ _ _ R) as [W1 _]. rewrite Ex', ops_of_app in W1. apply Forall_app in W1 as [W1 _].
        eapply crun_ok; [exact W1|exact Rk|]. intros pre post kx Ep. apply (Nc pre (post ++ ops_of x2)).
        rewrite Ex', ops_of_app, Ep, app_assoc. reflexivity. }
      destruct (Cp Ck') as [t r0 d' X|t r0 d' X|t r0 d' w X]; eapply names_ibf_length; eauto.
    + destruct (F2 r' Hr') as (nm' & (e' & d' & He' & _) & _). destruct (fo_pending _ _ Ok_ _ _ He') as [rc' Hr''].
      eapply names_ibf_length; eauto.
Qed.
End Wake.

(** * C129 *)
(** an interest that waits at the node is answered when the application publishes *)
Theorem C129_waiting_peer_is_answered : forall Ka Kb sys evs a oa p q a' o kb n,
  same_group Ka Kb -> node_data Kb kb -> asks Kb kb n ->
  reaches Ka sys evs a oa -> get_seq p (f_core a) <> None ->
  fp_step Ka (FeApi (APublish p q)) a = (a', o, Ok tt) -> nm_find n (f_pending a) <> None ->
  exists d, In d (data_of o) /\ is_prefix n (d_name d) = true.
Proof.
  intros Ka Kb sys evs a oa p q a' o kb n G Hb As R Hp St Hn.
  destruct (C80_own_news_answer_pending_partial Ka sys evs a oa p q a' o n R Hp St Hn) as (d & Hd & Px).
  - destruct As as (c & _ & ->). exists (fc_sync Kb ++ [c]), (number_comp TYPE_GENERIC (k_count kb)).
    rewrite <- app_assoc. split; [reflexivity|]. reflexivity.
  - exists d. split; auto. apply data_of_In. exact Hd.
Qed.
Print Assumptions C129_waiting_peer_is_answered.
(** the peer asked with the data [kb]; when it has fetched the content that the node sent because of the
    publication, it knows the published number *)
Theorem C129_publication_arrives : forall Ka Kb sys evs a oa p q cur kb n buf a' sysb evsb b ob i script b' ob',
  same_group Ka Kb -> schemes_ok Ka -> lossless (fc_codec Ka) -> uri_ok Ka ->
  versions_differ (fc_env Ka) (pb_published (f_pub a')) ->
  reaches Ka sys evs a oa -> no_collision Ka oa ->
  get_seq p (f_core a) = Some cur -> fev_wf (FeApi (APublish p q)) ->
  NoDup (map name_hash (live (f_core a'))) ->
  node_data Kb kb -> asks Kb kb n -> publishes_to Ka p q n buf a a' ->
  let v := match q with Some x => x | None => (cur + 1) mod two64 end in
  can_send Ka (f_core a') (append_number p v) ->
  reaches Kb sysb evsb b ob -> fetch_of i (f_live b) = Some n -> fev_wf (FeContent i buf script) ->
  (forall x, ~ In (CRemove x) (map api_op script)) ->
  fp_step Kb (FeContent i buf script) b = (b', ob', Ok tt) ->
  v <= knows b' p.
Proof.
  intros Ka Kb sys evs a oa p q cur kb n buf a' sysb evsb b ob i script b' ob'
    G Sk Lo Uk Vd R Nc Hp Wf Nd Hb As Pu v Se Rb Hf Wc Hs Sb.
  assert (publish_seq cur q = v) as Ev by (destruct q; reflexivity). rewrite <- Ev in Se.
  destruct (wake_content Ka Kb sys evs a a' oa p q cur kb n buf G Sk Lo Uk Vd R Nc Hp Wf Nd Hb As Pu Se) as (rcvd & d & _ & _ & Cn).
  unfold fev_wf in Wc. cbn [ev_ops] in Wc. rewrite Forall_map in Wc.
  destruct (content_covers Kb i buf script _ b b' ob' n (reaches_pfx _ _ _ _ _ Rb) Wc Hs Hf Cn Sb) as [_ Co].
  apply Co.
  - apply satisfy_In. left. rewrite Ev. reflexivity.
  - subst v. destruct q as [x|]; [|apply N.mod_lt; discriminate]. inversion Wf as [|? ? W0 ?]. exact W0.
Qed.
Print Assumptions C129_publication_arrives.
(** when the difference between the two nodes is decoded completely, it knows all that the node knows *)
Theorem C129_everything_arrives : forall Ka Kb sys evs a oa p q kb n buf a' sysb evsb b ob i script b' ob',
  same_group Ka Kb -> schemes_ok Ka -> lossless (fc_codec Ka) -> uri_ok Ka ->
  versions_differ (fc_env Ka) (pb_published (f_pub a')) ->
  reaches Ka sys evs a oa -> no_collision Ka oa -> fev_wf (FeApi (APublish p q)) ->
  NoDup (map name_hash (live (f_core a'))) ->
  node_data Kb kb -> asks Kb kb n -> publishes_to Ka p q n buf a a' ->
  comparable Ka (evs ++ [FeApi (APublish p q)]) (f_core a') kb ->
  reaches Kb sysb evsb b ob -> (forall x, known kb x <= knows b x) ->
  fetch_of i (f_live b) = Some n -> fev_wf (FeContent i buf script) ->
  (forall x, ~ In (CRemove x) (map api_op script)) ->
  fp_step Kb (FeContent i buf script) b = (b', ob', Ok tt) ->
  forall x, knows a' x <= knows b' x.
Proof.
  intros Ka Kb sys evs a oa p q kb n buf a' sysb evsb b ob i script b' ob'
    G Sk Lo Uk Vd R Nc Wf Nd Hb As Pu Cm Rb Mo Hf Wc Hs Sb x.
  destruct (get_seq p (f_core a)) as [cur|] eqn:Hp.
  2:{ destruct Pu as (o & d & St & Hd & _). rewrite (C54_publish_unknown_does_nothing _ _ _ _ Hp) in St. injection St as _ <-. destruct Hd. }
  set (u := append_number p (publish_seq cur q)).
  assert (FullTrace.announced (op_ok (evs ++ [FeApi (APublish p q)])) u) as Au.
  { exists p, q, cur. split; [reflexivity|]. split; [inversion Wf as [|? ? W0 ?]; exact W0|].
    rewrite flat_map_app. apply in_or_app. right. left. reflexivity. }
  assert (can_send Ka (f_core a') u) as Se.
  { intros l Nl Il. apply (cm_sendable _ _ _ _ Cm); auto. right. exists u. split; auto. apply op_ok_announced. exact Au. }
  destruct (wake_content Ka Kb sys evs a a' oa p q cur kb n buf G Sk Lo Uk Vd R Nc Hp Wf Nd Hb As Pu Se) as (rcvd & d & Hn & Ed & Cn).
  pose proof (wake_core Ka sys evs a a' oa p q cur n buf Sk R Nc Hp Wf Nd Pu) as Ck.
  destruct (told Ka Kb (evs ++ [FeApi (APublish p q)]) (f_core a') kb G Ck (node_data_ok _ _ Hb) Cm n (k_iblt kb) rcvd
    (satisfy_content (k_bimap (f_core a')) u (positive d)) (fc_fresh Ka)) as (Tl & _ & _); auto.
  { econstructor 3; eauto. }
  unfold fev_wf in Wc. cbn [ev_ops] in Wc. rewrite Forall_map in Wc.
  destruct (content_covers Kb i buf script _ b b' ob' n (reaches_pfx _ _ _ _ _ Rb) Wc Hs Hf Cn Sb) as [M Co].
  destruct (N.lt_ge_cases (known kb x) (known (f_core a') x)) as [Lt|Ge].
  - apply Co; [apply Tl; exact Lt|]. apply (kn_lt (f_core a') x). eapply core_kfine; eauto.
  - etransitivity; [exact Ge|]. etransitivity; [apply Mo|exact (M x)].
Qed.
Print Assumptions C129_everything_arrives.
(** and its application is told, exactly once, of every number that it did not know, up to the published one *)
Theorem C129_peer_is_told : forall Ka Kb sys evs a oa p q cur kb n buf a' sysb evsb b ob i script b' ob',
  same_group Ka Kb -> schemes_ok Ka -> lossless (fc_codec Ka) -> uri_ok Ka ->
  versions_differ (fc_env Ka) (pb_published (f_pub a')) ->
  reaches Ka sys evs a oa -> no_collision Ka oa ->
  get_seq p (f_core a) = Some cur -> fev_wf (FeApi (APublish p q)) ->
  NoDup (map name_hash (live (f_core a'))) ->
  node_data Kb kb -> asks Kb kb n -> publishes_to Ka p q n buf a a' ->
  let v := match q with Some x => x | None => (cur + 1) mod two64 end in
  can_send Ka (f_core a') (append_number p v) ->
  reaches Kb sysb evsb b ob -> fetch_of i (f_live b) = Some n -> fev_wf (FeContent i buf script) ->
  (forall x, ~ In (CRemove x) (map api_op script)) -> (forall w, ~ In (CPublish p w) (map api_op script)) ->
  fp_step Kb (FeContent i buf script) b = (b', ob', Ok tt) ->
  forall m, knows b p < m <= v -> once m (reported p ob').
Proof.
  intros Ka Kb sys evs a oa p q cur kb n buf a' sysb evsb b ob i script b' ob'
    G Sk Lo Uk Vd R Nc Hp Wf Nd Hb As Pu v Se Rb Hf Wc Hs Hw Sb m Hm.
  pose proof (C129_publication_arrives Ka Kb sys evs a oa p q cur kb n buf a' sysb evsb b ob i script b' ob'
    G Sk Lo Uk Vd R Nc Hp Wf Nd Hb As Pu Se Rb Hf Wc Hs Sb) as Hv. fold v in Hv.
  assert (fp_run Kb b [FeContent i buf script] = Some (b', ob')) as Run.
  { unfold fp_run. cbn [run]. rewrite Sb, app_nil_r. reflexivity. }
  assert (no_removal (ops_of ob')) as Nr.
  { eapply run_no_removal; [|exact Run]. intros x. cbn [flat_map ev_ops]. rewrite app_nil_r. apply Hs. }
  assert (forall w, ~ In (CPublish p w) (ops_of ob')) as Np.
  { eapply run_no_publish; [|exact Run]. intros w. cbn [flat_map ev_ops]. rewrite app_nil_r. apply Hw. }
  pose proof (story_step Kb sysb evsb b ob _ p Rb Wc) as S. rewrite Sb in S. cbn [outs res fst snd] in S.
  specialize (S Nr (or_introl eq_refl)). rewrite (story_reported p ob' (ops_of ob) Np) in S.
  pose proof (reaches_run _ _ _ _ _ _ _ _ Rb (Forall_cons _ Wc (Forall_nil _)) Run) as R'.
  rewrite <- (reaches_seq _ _ _ _ _ p Rb), <- ops_of_app, <- (reaches_seq _ _ _ _ _ p R') in S.
  eapply gapless_once; [exact S|]. unfold knows in *. lia.
Qed.
Print Assumptions C129_peer_is_told.

(** the interest of a peer that has number 1 of "/a", like the node, waits at the node; the node learns
    number 5 of "/b" from elsewhere, which leaves it waiting; when "/a" gets number 3 the peer is told of both *)
Definition evsb_129 : list fev := [FeApi (AAdd pa); FeApi (APublish pa (Some 1)); FeTick 2000; FeSend].
Definition b_129 : fp := Eval vm_compute in fst (full_after Kf evsb_129).
Definition ob_129 : list fout := Eval vm_compute in snd (full_after Kf evsb_129).
Definition n_129 : name := Eval vm_compute in fetch_name 1 b_129.
Definition evs_129 : list fev :=
  [FeApi (AAdd pa); FeApi (APublish pa (Some 1)); FeInterest n_129 1000; FeContent 0 (encode_names [append_number pb 5]) []].
Definition a_129 : fp := Eval vm_compute in fst (full_after Kf evs_129).
Definition oa_129 : list fout := Eval vm_compute in snd (full_after Kf evs_129).
Definition p_129 := Eval vm_compute in fp_step Kf (FeApi (APublish pa (Some 3))) a_129.
Definition a'_129 : fp := Eval vm_compute in st p_129.
Definition d_129 : data := Eval vm_compute in first_data p_129.
Definition c_129 := Eval vm_compute in fp_step Kf (FeContent 1 (d_content d_129) []) b_129.
Example C129_example :
  same_group Kf Kf /\ schemes_ok Kf /\ lossless (fc_codec Kf) /\ uri_ok Kf /\
  versions_differ (fc_env Kf) (pb_published (f_pub a'_129)) /\
  reaches Kf 0 evs_129 a_129 oa_129 /\ no_collision Kf oa_129 /\
  get_seq pa (f_core a_129) = Some 1 /\ fev_wf (FeApi (APublish pa (Some 3))) /\
  NoDup (map name_hash (live (f_core a'_129))) /\
  node_data Kf (f_core b_129) /\ asks Kf (f_core b_129) n_129 /\ nm_find n_129 (f_pending a_129) <> None /\
  publishes_to Kf pa (Some 3) n_129 (d_content d_129) a_129 a'_129 /\
  comparable Kf (evs_129 ++ [FeApi (APublish pa (Some 3))]) (f_core a'_129) (f_core b_129) /\
  can_send Kf (f_core a'_129) (append_number pa 3) /\
  reaches Kf 0 evsb_129 b_129 ob_129 /\
  fetch_of 1 (f_live b_129) = Some n_129 /\ fev_wf (FeContent 1 (d_content d_129) []) /\
  fp_step Kf (FeContent 1 (d_content d_129) []) b_129 = (st c_129, outs c_129, Ok tt) /\
  knows b_129 pa = 1 /\ knows (st c_129) pa = 3 /\ knows (st c_129) pb = 5 /\ reported pa (outs c_129) = [(2, 3)].
Proof.
  assert (comparable Kf (evs_129 ++ [FeApi (APublish pa (Some 3))]) (f_core a'_129) (f_core b_129)) as Cm
    by (apply comparable_check; run).
  split; [repeat split|]. split; [apply Kf_ok|]. split; [apply lossless_none|]. split; [apply Kf_ok|].
  split; [apply versions_example; apply Nat.leb_le; run|].
  split; [split; [repeat constructor; try (apply wf_nil; reflexivity)|run]|].
  split; [intros pre post k E H; eapply check_free_ok; [|exact E|exact H]; run|].
  split; [run|]. split; [repeat constructor|]. split; [apply check_nodup; run|].
  split. { exists [CAdd pa; CPublish pa (Some 1)]. split; [repeat constructor|]. split; [|run].
    intros pre post k E H. eapply check_free_ok; [|exact E|exact H]; run. }
  split; [apply asks_check; run|]. split; [vm_compute; discriminate|].
  split. { exists (outs p_129), d_129. split; [run|]. split; [left; run|]. split; [run|].
    eapply (fetched_one _ _ (n_129 ++ [number_comp TYPE_VERSION 1000]) (mkComp TYPE_SEGMENT [Byte.x00])); run. }
  split; [exact Cm|].
  split. { intros l Nl Il. apply (cm_sendable _ _ _ _ Cm); auto. right. exists (append_number pa 3). split; auto.
    exists pa, (Some 3), 0. split; [reflexivity|]. rewrite flat_map_app. apply in_or_app. right. left. reflexivity. }
  split; [split; [repeat constructor|run]|]. split; [run|]. split; [constructor|].
  split; [run|]. split; [run|]. split; [run|]. split; run.
Qed.
