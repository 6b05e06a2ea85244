(** Old answers die out. *)
From Coq Require Import List NArith ZArith Bool Arith Lia.
From Verif Require Import Base BaseFacts Mon MonFacts Iblt SpecIblt IbltFacts HonestFacts Tlv TlvFacts State NMap NMapFacts Codec CodecFacts
  Store StoreFacts SpecStore Producer SpecProducer ProducerFacts Partial SpecPartial PartialFacts PartialSteps Full FullTrace SpecFull
  FullFacts FullSafe FullSteps FullData FullRuns FullReplies SpecExchange ExchangeFacts SpecFresh FreshFacts FullFresh FullLog FullTimers FullSends FullAsk SpecDeliver.
Import ListNotations.
Local Open Scope N_scope.

Lemma node_data_ok K k : node_data K k -> core_ok (fc_n K) k.
Proof. intros (ops & W & C & R). exact (crun_ok _ _ _ W R C). Qed.
Lemma node_data_count K k : node_data K k -> k_count k < two64.
Proof. intros (ops & W & _ & R). rewrite (Properties_Producer.C33_cumulative_count _ _ _ W R). apply N.mod_lt. discriminate. Qed.
Lemma names_ibf_same K n t r t' r' : names_ibf K n t r -> names_ibf K n t' r' -> t = t'.
Proof. intros (_ & c & c1 & A & B & C & D) (_ & c' & c1' & A' & B' & C' & D'). congruence. Qed.
Lemma names_ibf_length K n t r : names_ibf K n t r -> length n = (length (fc_sync K) + 2)%nat.
Proof. intros (L & _). rewrite skipn_length in L. lia. Qed.
Lemma run_split K sys evs evs' s o s' o' : reaches K sys evs s o -> reaches K sys (evs ++ evs') s' (o ++ o') ->
  fp_run K s evs' = Some (s', o').
Proof.
  intros [_ A] [_ B]. unfold fp_start, fp_run in *. destruct (fp_init K sys) as [[s0 o0] [u|x|u|]]; try discriminate.
  destruct (run (fp_step K) s0 evs) as [[a b]|] eqn:R; [|discriminate]. injection A as <- <-.
  rewrite run_app, R in B. destruct (run (fp_step K) a evs') as [[a' b']|]; [|discriminate].
  injection B as <- B. rewrite <- app_assoc in B. do 2 apply app_inv_head in B. subst. reflexivity.
Qed.

(** ** What is in the store *)
Definition op_ok (evs : list fev) (o : cop) : Prop :=
  cop_wf o /\ match o with CPublish _ _ => In o (flat_map ev_ops evs) | _ => True end.
Lemma op_ok_evs evs evs' : Forall fev_wf evs -> incl evs evs' -> Forall (op_ok evs') (flat_map ev_ops evs).
Proof.
  intros W I. pose proof (flat_wf evs W) as X. apply Forall_forall. intros o Ho. rewrite Forall_forall in X. split; auto.
  destruct o; auto. apply in_flat_map in Ho as (e & He & Ho). apply in_flat_map. eauto.
Qed.
Lemma op_ok_announced evs u : announced (op_ok evs) u -> published_name evs u.
Proof. intros (p & q & cur & -> & _ & H). exists p, q, cur. auto. Qed.

Section Told.
Variables (K Kb : fcfg) (evs : list fev) (k kb : core).
Hypothesis G : same_group K Kb.
Hypothesis Ck : core_ok (fc_n K) k.
Hypothesis Cb : core_ok (fc_n Kb) kb.
Hypothesis Cm : comparable K evs k kb.
Lemma told n t rcvd names f : computed K (op_ok evs) k n names f -> names_ibf K n t rcvd -> t = k_iblt kb ->
  (forall p, kn kb p < kn k p -> In (append_number p (kn k p)) names) /\
  wf_names names /\ (forall b, compress (fc_codec K) (fc_cscheme K) (encode_names names) = Ok b -> N.of_nat (length b) < two64).
Proof.
  intros Co Hn Ht. destruct Cm as [D Ex Dc Se]. pose proof (core_kfine _ _ Ck) as Fa. pose proof (core_kfine _ _ Cb) as Fb.
  assert (fc_n Kb = fc_n K) as Gn by (symmetry; apply G).
  destruct (iblt_sub_honest (fc_n K) (map name_hash (live k)) (map name_hash (live kb))
    (k_iblt k) (k_iblt kb) (fc_fuel K)) as (d & Ed & _ & _ & _ & Hd).
  { eapply live_hashes; eauto. } { eapply live_hashes; eauto. }
  { apply core_ok_ibf; auto. } { rewrite <- Gn. apply core_ok_ibf; auto. } { apply Ex. } { apply Ex. }
  destruct Dc as (d' & Ed' & Cd). rewrite Ed in Ed'. injection Ed' as <-. destruct (Hd Cd) as [Hp Hg].
  pose proof (nsorted_NoDup _ (proj1 (PartialFacts.iblt_sub_sorted _ _ _ _ Ed))) as Np.
  pose proof Ck as Ck'. destruct Ck' as [_ _ Rep].
  destruct Co as [t1 r1 d1 N1 S1 C1|t1 r1 d1 N1 S1 C1|t1 r1 d1 u N1 S1 Hu];
    rewrite (names_ibf_same _ _ _ _ _ _ N1 Hn), Ht in S1; rewrite Ed in S1; injection S1 as <-.
  - destruct (newer_offer K k kb d) as (A & B & C); auto.
  - congruence.
  - assert (forall h nm, bm_left h (k_bimap k) = Some nm -> h = name_hash nm) as Hb.
    { intros h nm X. apply (rep_lookup _ _ _ _ _ _ (ok_rep _ _ Ck)) in X. apply X. }
    split; [|apply Se; [apply satisfy_NoDup; auto|right; exists u; split; [apply op_ok_announced; auto|]]].
    + intros p Lt. apply satisfy_In. right. apply lookup_In.
      exists (name_hash (append_number p (kn k p))).
      assert (In (append_number p (kn k p)) (live k)) as Hl by (apply in_live; auto; lia).
      split.
      * apply Hp. split; [apply in_map; auto|]. intros X.
        apply (hash_only k kb) in X; auto; [|apply live_has; auto].
        apply live_num in X as [X _]; auto using kn_lt. lia.
      * apply (rep_lookup _ _ _ _ _ _ (ok_rep _ _ Ck)). split; [|reflexivity].
        exists p, (kn k p). split; [apply kn_some; lia|]. split; [lia|reflexivity].
    + intros nm X. apply satisfy_In in X as [->|X]; [left; reflexivity|right].
      apply lookup_In in X as (h & _ & X). apply (rep_lookup _ _ _ _ _ _ (ok_rep _ _ Ck)) in X as [(p & v & F & Z & ->) _].
      rewrite <- (kn_of k p v F). apply in_live; auto. rewrite (kn_of k p v F). auto.
Qed.
End Told.

Lemma app_same_len {A} (a b c d : list A) : length a = length b -> a ++ c = b ++ d -> a = b /\ c = d.
Proof.
  revert b. induction a as [|x a IH]; intros [|y b] L H; try discriminate; auto.
  injection H as -> H. injection L as L. destruct (IH b L H) as [-> ->]. auto.
Qed.
Lemma cons_inj {A} (x y : A) l l' : x :: l = y :: l' -> x = y /\ l = l'. Proof. intros [= -> ->]. auto. Qed.
(** ** Fetching what is in the store *)
Lemma nseg_small buf : N.of_nat (length buf) < two64 -> N.of_nat (nseg buf) <= two64.
Proof.
  intros Hb. pose proof (nseg_bounds buf) as (_ & _ & Hz). pose proof SEG_SIZE_pos.
  destruct buf as [|b buf]; [discriminate|].
  assert (nseg (b :: buf) <= length (b :: buf))%nat; [|lia].
  assert (b :: buf <> []) as Hne by discriminate. specialize (Hz Hne). nia.
Qed.
Lemma fetched_piece K L p k r i buf :
  versions_differ (fc_env K) (length L) ->
  (forall d, In d (pb_store p) -> exists dl, inlog K L dl d) ->
  (forall r', In r' L -> length (pr_name r') = length (pr_name r)) -> N.of_nat (length (pr_buf r)) < two64 ->
  nth_error L k = Some r -> (i < nseg (pr_buf r))%nat ->
  fetched p (piece K k r i) buf -> buf = pr_buf r.
Proof.
  intros Vd St HL Hb Hk Hi (base & segs & fc & last & S0 & Fi & Fl & Len & Nm & Rest & ->).
  apply nseg_small in Hb.
  unfold piece in Fi, Nm. cbn [d_final seg_data] in Fi. injection Fi as <-. cbn [d_name seg_data] in Nm.
  apply append_segment_inj in Nm as [<- Z]; [|lia|reflexivity]. assert (i = 0)%nat as -> by lia. clear Z.
  pose proof (nseg_bounds (pr_buf r)) as (B0 & _ & _).
  unfold to_segment in Fl. rewrite number_is_segment in Fl. injection Fl as Fl. cbn [cval number_comp] in Fl.
  rewrite nni_dec in Fl by lia.
  assert (length segs = nseg (pr_buf r)) as Ls by lia.
  set (vn := append_version (pr_name r) (en_version (fc_env K) k)) in *.
  rewrite (nth_error_ext segs (segment (fc_env K) (pr_sg r) vn (pr_buf r) (pr_fresh r)));
    [apply segment_content|rewrite segment_length; auto|].
  intros j x Hj. assert (j < nseg (pr_buf r))%nat as Hlt by (rewrite <- Ls; apply nth_error_Some; congruence).
  rewrite segment_nth by auto. destruct j as [|j].
  { rewrite S0 in Hj. injection Hj as <-. reflexivity. }
  pose proof (Rest (S j) x ltac:(lia) Hj) as X. unfold reply_from_store in X. apply store_find_Some in X as (X & Px & _).
  destruct (St x X) as (dl & k' & r' & i' & Hk' & Hi' & -> & _).
  pose proof (HL r' (nth_error_In _ _ Hk')) as Ln.
  apply is_prefix_iff in Px as (rest & Px). unfold full_name, piece in Px. cbn [d_name seg_data d_digest] in Px.
  unfold append_segment, vn, append_version in Px. rewrite <- !app_assoc in Px.
  apply app_same_len in Px as [En Px]; [|exact Ln]. cbn [app] in Px. apply cons_inj in Px as [Ev Px]. apply cons_inj in Px as [Es _].
  assert (k < length L)%nat as Lk by (apply nth_error_Some; congruence).
  assert (k' < length L)%nat as Lk' by (apply nth_error_Some; congruence).
  apply number_comp_inj in Ev as [_ Ev]; [|apply (Vd k' k); auto|apply (Vd k k); auto]. apply (Vd k' k) in Ev; auto. subst k'. rewrite Hk in Hk'. injection Hk' as <-.
  apply number_comp_inj in Es as [_ Es]; [|lia|lia]. assert (i' = S j) as -> by lia. reflexivity.
Qed.

(** ** The answer to an interest *)
Lemma core_since K sys evs a0 o0 o k : reaches K sys evs a0 o0 -> no_collision K (o0 ++ o) -> Forall cop_wf (ops_of o) ->
  no_removal (ops_of o) -> held_during (f_core a0) o k ->
  core_ok (fc_n K) k /\ forall p, kn (f_core a0) p <= kn k p.
Proof.
  intros R Nc Wo Nr (o1 & o2 & -> & Hk). apply reaches_core in R as [W C].
  rewrite ops_of_app in Wo, Nr. apply Forall_app in Wo as [Wo _]. apply no_removal_app in Nr as [Nr _].
  assert (crun (core_new (fc_n K)) (ops_of o0 ++ ops_of o1) = Ok k) as R1 by (rewrite crun_app, C; exact Hk).
  split.
  - eapply crun_ok; [|exact R1|]; [apply Forall_app; auto|].
    intros pre post k' Ep. apply (Nc pre (post ++ ops_of o2)). rewrite !ops_of_app, app_assoc, Ep, app_assoc. reflexivity.
  - intros p. unfold kn. pose proof (seq_after_mono p (ops_of o0) (ops_of o1) Nr) as M.
    rewrite (Properties_Producer.C29_sequence_numbers _ _ _ p W C),
      (Properties_Producer.C29_sequence_numbers _ _ _ p (proj2 (Forall_app _ _ _) (conj W Wo)) R1). exact M.
Qed.
Section Answer.
Variables (Ka Kb : fcfg) (sys : Z) (evs evs' : list fev) (a0 a : fp) (o0 o : list fout) (kb : core) (n : name).
Hypothesis G : same_group Ka Kb.
Hypothesis Sk : schemes_ok Ka.
Hypothesis Lo : lossless (fc_codec Ka).
Hypothesis Uk : uri_ok Ka.
Hypothesis Vd : versions_differ (fc_env Ka) (pb_published (f_pub a)).
Hypothesis R0 : reaches Ka sys evs a0 o0.
Hypothesis R1 : reaches Ka sys (evs ++ evs') a (o0 ++ o).
Hypothesis Nc : no_collision Ka (o0 ++ o).
Hypothesis Nr : no_removal (ops_of o).
Hypothesis Hb : node_data Kb kb.
Hypothesis As : asks Kb kb n.
Hypothesis Cm : forall k, held_during (f_core a0) o k -> comparable Ka (evs ++ evs') k kb.
Hypothesis Er : erased_in_time (f_now a) (f_pub a).
Hypothesis Old : f_now a0 + longest Ka <= f_now a.

Lemma answer_tells l : exists a' out, fp_step Ka (FeInterest n l) a = (a', out, Ok tt) /\ f_core a' = f_core a /\
  match data_of out with
  | [] => forall p, known (f_core a0) p <= known kb p
  | d :: _ => forall buf, fetched (f_pub a') d buf ->
      exists names, content_names Kb buf names /\ tells (f_core a0) kb names
  end.
Proof.
  pose proof (node_data_ok _ _ Hb) as Ckb. pose proof (core_kfine _ _ Ckb) as Fb.
  pose proof (asks_request Ka Kb kb n G Lo Ckb (node_data_count _ _ Hb) As) as Hq.
  pose proof (request_names _ _ _ _ Hq) as [Hn _].
  pose proof (run_split _ _ _ _ _ _ _ _ R0 R1) as Run.
  pose proof (reaches_core _ _ _ _ _ R1) as [W1 C1]. pose proof (reaches_core _ _ _ _ _ R0) as [W0 C0].
  rewrite ops_of_app in W1, C1. pose proof W1 as W1'. apply Forall_app in W1' as [_ Wo].
  assert (crun (f_core a0) (ops_of o) = Ok (f_core a)) as Co by (rewrite crun_app, C0 in C1; exact C1).
  assert (held_during (f_core a0) o (f_core a)) as Hd.
  { exists o, []. rewrite app_nil_r. auto. }
  destruct (core_since _ _ _ _ _ _ _ R0 Nc Wo Nr Hd) as [Cka Mo].
  pose proof (Cm _ Hd) as Cma. pose proof Cma as [D Ex (d & Ed & Cd) Se].
  pose proof (core_kfine _ _ Cka) as Fa.
  destruct (reply_from_store n (f_pub a)) as [e|] eqn:Hr.
  - (* from the store *)
    rewrite (step_request Ka n (k_iblt kb) (k_count kb)) by auto. rewrite (finterest_request Ka n (k_iblt kb) (k_count kb)) by auto.
    rewrite Hr. exists a, [FoData e]. split; [reflexivity|]. split; [reflexivity|]. cbn [data_of].
    set (ok := op_ok (evs ++ evs')).
    pose proof (proj1 R0) as We0. pose proof (proj1 R1) as We1. apply Forall_app in We1 as [_ We1].
    assert (forall p, ok (CAdd p)) as Oa by (intros p; split; auto; exact I).
    assert (forall p v, v < two64 -> ok (CUpdate p v)) as Ou by (intros p v Hv; split; auto; exact I).
    destruct (reaches_log Ka ok Uk Oa Ou sys evs a0 o0) as (L0 & S0 & M0); auto.
    { apply op_ok_evs; auto. intros x Hx. apply in_or_app. auto. }
    destruct (run_log Ka ok Uk Oa Ou evs' a0 a o L0) as (_ & _ & L2 & S2 & M2); auto.
    { apply op_ok_evs; auto. intros x Hx. apply in_or_app. auto. } { eapply reaches_ok; eauto. }
    destruct S2 as [Len Kp]. rewrite <- Len in Vd.
    destruct (reply_kept _ _ _ _ _ Kp Er Hr) as (dl & (k & r & i & Hk & Hi & -> & ->) & Lt).
    assert (forall r', In r' (L0 ++ L2) -> exists k names, core_ok (fc_n Ka) k /\
      compress (fc_codec Ka) (fc_cscheme Ka) (encode_names names) = Ok (pr_buf r') /\
      computed Ka ok k (pr_name r') names (pr_fresh r')) as All.
    { intros r' Hr'. assert (made_since Ka ok (core_new (fc_n Ka)) (o0 ++ o) r') as (x1 & x2 & k' & names & Ex' & Rk & Cx & Cp).
      { apply in_app_or in Hr' as [Hr'|Hr'].
        - rewrite Forall_forall in M0. apply since_app. apply M0. auto.
        - rewrite Forall_forall in M2. eapply since_after; [exact C0|]. apply M2. auto. }
      exists k', names. assert (core_ok (fc_n Ka) k') as Ck'.
      { assert (Forall cop_wf (ops_of x1)) as Wx.
        { rewrite <- ops_of_app, Ex', ops_of_app in W1. apply Forall_app in W1. apply W1. }
        eapply crun_ok; [exact Wx|exact Rk|]. intros pre post kx Ep. apply (Nc pre (post ++ ops_of x2)).
        rewrite Ex', ops_of_app, Ep, app_assoc. reflexivity. }
      auto. }
    assert (forall k n names f, computed Ka ok k n names f -> length n = (length (fc_sync Ka) + 2)%nat /\ f <= longest Ka) as Cl.
    { intros k' n' names f [t r0 d' X|t r0 d' X|t r0 d' u X]; split; try (eapply names_ibf_length; eauto); unfold longest, FULL_STATE_FRESH in *; lia. }
    pose proof (nth_error_In _ _ Hk) as Ir.
    assert (pr_name r = n) as En.
    { destruct (All r Ir) as (k' & names & _ & _ & Cp). apply Cl in Cp as [Cp _].
      unfold reply_from_store in Hr. apply store_find_Some in Hr as (_ & Px & _).
      apply is_prefix_iff in Px as (rest & Px). unfold full_name, piece in Px. cbn [d_name seg_data d_digest] in Px.
      unfold append_segment, append_version in Px. rewrite <- !app_assoc in Px.
      apply app_same_len in Px as [Px _]; auto. rewrite Cp. symmetry. eapply names_ibf_length; eauto. }
    assert (exists k names, held_during (f_core a0) o k /\
      compress (fc_codec Ka) (fc_cscheme Ka) (encode_names names) = Ok (pr_buf r) /\
      computed Ka ok k n names (pr_fresh r)) as (k' & names & Hd' & Cx & Cp).
    { apply in_app_or in Ir as [Ir|Ir].
      - exfalso. destruct (All r) as (k' & names & _ & _ & Cp); [apply in_or_app; auto|]. apply Cl in Cp as [_ Cp].
        rewrite Forall_forall in M0. destruct (M0 r Ir) as [T _]. lia.
      - rewrite Forall_forall in M2. destruct (M2 r Ir) as [_ (x1 & x2 & k' & names & Ex' & Rk & Cx & Cp)].
        exists k', names. assert (held_during (f_core a0) o k') as Hd' by (exists x1, x2; auto).
        rewrite <- En. split; auto. split; auto. apply Cp. exact (proj1 (core_since _ _ _ _ _ _ _ R0 Nc Wo Nr Hd')). }
    destruct (core_since _ _ _ _ _ _ _ R0 Nc Wo Nr Hd') as [Ck' Mo'].
    destruct (told Ka Kb _ k' kb G Ck' Ckb (Cm _ Hd') n (k_iblt kb) (k_count kb) names _ Cp Hn eq_refl) as (Tl & Wn & Ln).
    intros buf Fe. exists names. split.
    + rewrite (fetched_piece Ka (L0 ++ L2) (f_pub a) k r i buf); auto.
      * destruct G as (_ & _ & _ & G4 & G5).
        unfold content_names. rewrite <- G4, <- G5, (decompress_compress _ _ _ _ Lo Cx). apply state_roundtrip. auto.
      * intros x Hx. destruct (Kp x Hx) as (dl & _ & X). eauto.
      * intros r' Hr'. destruct (All r' Hr') as (k1 & nm1 & _ & _ & Cp1). apply Cl in Cp1 as [Cp1 _].
        rewrite En, Cp1. symmetry. eapply names_ibf_length; eauto.
    + intros p Lp. exists (kn k' p). unfold known in *. specialize (Mo' p). unfold kn in *. split; [apply Tl; lia|].
      split; auto. apply (kn_lt k' p). eapply core_kfine; eauto.
  - (* computed now *)
    destruct (decodable_reply Ka _ n _ _ l d a Sk Uk Cka Hq Hr Ed Cd) as (a' & out & Es & Ec & An).
    exists a', out. split; auto. split; auto.
    destruct (told Ka Kb _ _ kb G Cka Ckb Cma n (k_iblt kb) (k_count kb)
      (offer (f_core a) (negative d) (positive d)) (fc_fresh Ka)) as (Tl & Wn & Ln); auto.
    { econstructor; eauto. }
    assert (forall p, kn kb p < kn (f_core a0) p -> In (append_number p (kn (f_core a) p)) (offer (f_core a) (negative d) (positive d))) as Tl'.
    { intros p Lt. apply Tl. specialize (Mo p). lia. }
    destruct (offer (f_core a) (negative d) (positive d)) as [|y ys].
    + destruct An as [-> _]. cbn [data_of]. intros p. unfold known.
      destruct (N.lt_ge_cases (kn kb p) (kn (f_core a0) p)) as [Lt|Ge]; auto. destruct (Tl' p Lt).
    + destruct An as (ds & An & Ds & _). rewrite Ds.
      pose proof As as (c & _ & E1). pose proof G as (G1 & _).
      change (fc_sync Kb ++ [c; number_comp TYPE_GENERIC (k_count kb)])
        with (fc_sync Kb ++ [c] ++ [number_comp TYPE_GENERIC (k_count kb)]) in E1. rewrite app_assoc in E1.
      assert (ds <> []) as Ne.
      { destruct An as (bf & _ & P). rewrite E1 in P. eapply publish_data; eauto. }
      destruct ds as [|x ds]; [contradiction|]. intros buf Fe. exists (y :: ys). split.
      * rewrite E1 in An, Hr. eapply answered_content; eauto. eapply reaches_room; eauto.
      * intros p Lp. exists (kn (f_core a) p). split; [apply Tl'; exact Lp|]. split; [apply Mo|]. apply kn_lt; auto.
Qed.
End Answer.

(** ** Two nodes on an ideal link *)
Section Joint.
Variables Ka Kb : fcfg.
Lemma joint_run a b ea oa eb ob a' b' : joint Ka Kb a b ea oa eb ob a' b' ->
  fp_run Ka a ea = Some (a', oa) /\ fp_run Kb b eb = Some (b', ob).
Proof.
  intros J. unfold fp_run.
  induction J as [a b|dt a b a1 b1 ea oa eb ob a' b' Ha Hb J [IA IB]|e a b a1 o1 ea oa eb ob a' b' He Ha J [IA IB]
    |e a b b1 o1 ea oa eb ob a' b' He Hb No J [IA IB]|e a b x n t y b1 l a1 o1 ea oa eb ob a' b' He Hb No Er Ha Hm J [IA IB]];
    cbn [run]; rewrite ?Ha, ?Hb, ?IA, ?IB; split; auto.
  rewrite <- app_assoc. reflexivity.
Qed.
(** the run up to the moment at which [D] has passed *)
Lemma joint_split D a b ea oa eb ob a' b' : joint Ka Kb a b ea oa eb ob a' b' -> D <= time_of eb ->
  exists a1 b1 ea1 oa1 eb1 ob1 ea2 oa2 eb2 ob2,
    joint Ka Kb a b ea1 oa1 eb1 ob1 a1 b1 /\ joint Ka Kb a1 b1 ea2 oa2 eb2 ob2 a' b' /\
    ea = ea1 ++ ea2 /\ oa = oa1 ++ oa2 /\ eb = eb1 ++ eb2 /\ ob = ob1 ++ ob2 /\ D <= time_of eb1 /\
    (eb1 = [] \/ exists eb0 dt b0 ob0, eb1 = eb0 ++ [FeTick dt] /\ time_of eb0 < D /\
       fp_run Kb b eb0 = Some (b0, ob0) /\ fp_run Kb b0 (FeTick dt :: eb2) = Some (b', ob2) /\ ob1 = ob0).
Proof.
  intros J HD. destruct (N.eq_dec D 0) as [->|Nz].
  { exists a, b, [], [], [], [], ea, oa, eb, ob. split; [constructor|]. split; [exact J|].
    do 4 (split; [reflexivity|]). split; [lia|auto]. }
  revert D HD Nz. induction J as [a b|dt a b a1 b1 ea oa eb ob a' b' Ha Hb J IH|e a b a1 o1 ea oa eb ob a' b' He Ha J IH
    |e a b b1 o1 ea oa eb ob a' b' He Hb No J IH|e a b x n t y b1 l a1 o1 ea oa eb ob a' b' He Hb No Er Ha Hm J IH];
    intros D HD Nz.
  - cbn in HD. lia.
  - cbn [time_of fold_right dt_of] in HD. fold (time_of eb) in HD. destruct (joint_run _ _ _ _ _ _ _ _ J) as [_ R].
    destruct (N.le_gt_cases D dt) as [Le|Gt].
    + exists a1, b1, [FeTick dt], [], [FeTick dt], [], ea, oa, eb, ob. split; [econstructor; eauto; constructor|].
      split; [exact J|]. repeat (split; [reflexivity|]). split; [cbn; lia|]. right. exists [], dt, b, [].
      split; [reflexivity|]. split; [cbn; lia|]. split; [reflexivity|]. split; [|reflexivity].
      unfold fp_run in *. cbn [run]. rewrite Hb, R. reflexivity.
    + destruct (IH (D - dt)) as (a2 & b2 & ea1 & oa1 & eb1 & ob1 & ea2 & oa2 & eb2 & ob2 & J1 & J2 & -> & -> & -> & -> & T & X); [lia|lia|].
      exists a2, b2, (FeTick dt :: ea1), oa1, (FeTick dt :: eb1), ob1, ea2, oa2, eb2, ob2.
      split; [econstructor; eauto|]. split; [exact J2|]. repeat (split; [reflexivity|]).
      split; [cbn [time_of fold_right dt_of]; fold (time_of eb1); lia|]. right.
      destruct X as [->|(eb0 & dt' & b0 & ob0 & -> & T0 & R0 & R1 & ->)]; [cbn in T; lia|].
      exists (FeTick dt :: eb0), dt', b0, ob0. split; [reflexivity|].
      split; [cbn [time_of fold_right dt_of]; fold (time_of eb0); lia|]. split; [|auto].
      unfold fp_run in *. cbn [run]. rewrite Hb, R0. reflexivity.
  - destruct (IH D HD Nz) as (a2 & b2 & ea1 & oa1 & eb1 & ob1 & ea2 & oa2 & eb2 & ob2 & J1 & J2 & -> & -> & -> & -> & T & X).
    exists a2, b2, (e :: ea1), (o1 ++ oa1), eb1, ob1, ea2, oa2, eb2, ob2.
    split; [econstructor; eauto|]. split; [exact J2|]. split; [reflexivity|]. split; [apply app_assoc|]. auto.
  - assert (D <= time_of eb) as HD' by (destruct e; try exact HD; destruct (He dt eq_refl)).
    destruct (IH D HD' Nz) as (a2 & b2 & ea1 & oa1 & eb1 & ob1 & ea2 & oa2 & eb2 & ob2 & J1 & J2 & -> & -> & -> & -> & T & X).
    exists a2, b2, ea1, oa1, (e :: eb1), (o1 ++ ob1), ea2, oa2, eb2, ob2.
    split; [econstructor; eauto|]. split; [exact J2|]. split; [reflexivity|]. split; [reflexivity|]. split; [reflexivity|].
    split; [apply app_assoc|]. assert (forall r, time_of (e :: r) = time_of r) as Te by (intros r; destruct e; try reflexivity; destruct (He dt eq_refl)).
    rewrite Te. split; [exact T|]. right. destruct X as [->|(eb0 & dt' & b0 & ob0 & -> & T0 & R0 & R1 & ->)]; [cbn in T; lia|].
    exists (e :: eb0), dt', b0, (o1 ++ ob0). split; [reflexivity|]. rewrite Te. split; [exact T0|]. split; [|auto].
    unfold fp_run in *. cbn [run]. rewrite Hb, R0. reflexivity.
  - assert (D <= time_of eb) as HD' by (destruct e; try exact HD; destruct (He dt eq_refl)).
    destruct (IH D HD' Nz) as (a2 & b2 & ea1 & oa1 & eb1 & ob1 & ea2 & oa2 & eb2 & ob2 & J1 & J2 & -> & -> & Eeb & -> & T & X).
    assert (eb1 <> []) as Ne1 by (intros ->; cbn in T; lia).
    exists a2, b2, (FeInterest n l :: ea1), (o1 ++ oa1), (e :: eb1), (x ++ FoInterest n t :: y ++ ob1), ea2, oa2, eb2, ob2.
    split.
    { eapply j_send; eauto. revert Hm. destruct (data_of o1); auto. intros (i & buf & script & eb' & F1 & F2 & F3).
      exists i, buf, script. subst eb. destruct eb1 as [|z eb1]; [contradiction|]. injection F3 as -> _. eauto. }
    subst eb.
    split; [exact J2|]. split; [reflexivity|]. split; [apply app_assoc|]. split; [reflexivity|].
    split; [cbn [app]; rewrite <- !app_assoc; cbn [app]; rewrite <- !app_assoc; reflexivity|].
    assert (forall r, time_of (e :: r) = time_of r) as Te by (intros r; destruct e; try reflexivity; destruct (He dt eq_refl)).
    rewrite Te. split; [exact T|]. right. destruct X as [->|(eb0 & dt' & b0 & ob0 & -> & T0 & R0 & R1 & ->)]; [contradiction|].
    exists (e :: eb0), dt', b0, (x ++ FoInterest n t :: y ++ ob0). split; [reflexivity|]. rewrite Te. split; [exact T0|]. split; [|auto].
    unfold fp_run in *. cbn [run]. rewrite Hb, R0. rewrite <- app_assoc. reflexivity.
Qed.
(** an interest in the run is sent by some handler *)
Lemma joint_sends a b ea oa eb ob a' b' : joint Ka Kb a b ea oa eb ob a' b' -> ~ no_interest ob ->
  exists a1 b1 ea1 oa1 eb1 ob1 e x n t y b2 l a2 o2 ea2 oa2 eb2 ob2,
    joint Ka Kb a b ea1 oa1 eb1 ob1 a1 b1 /\
    fp_step Kb e b1 = (b2, x ++ FoInterest n t :: y, Ok tt) /\ erased_in_time (f_now a1) (f_pub a1) /\
    fp_step Ka (FeInterest n l) a1 = (a2, o2, Ok tt) /\
    match data_of o2 with
    | [] => True
    | d :: _ => exists i buf script eb', fetch_of i (f_live b2) = Some n /\ fetched (f_pub a2) d buf /\
                  eb2 = FeContent i buf script :: eb'
    end /\
    joint Ka Kb a2 b2 ea2 oa2 eb2 ob2 a' b' /\
    ea = ea1 ++ FeInterest n l :: ea2 /\ oa = oa1 ++ o2 ++ oa2 /\
    eb = eb1 ++ e :: eb2 /\ ob = ob1 ++ x ++ FoInterest n t :: y ++ ob2.
Proof.
  intros J.
  induction J as [a b|dt a b a1 b1 ea oa eb ob a' b' Ha Hb J IH|e a b a1 o1 ea oa eb ob a' b' He Ha J IH
    |e a b b1 o1 ea oa eb ob a' b' He Hb No J IH|e a b x n t y b1 l a1 o1 ea oa eb ob a' b' He Hb No Er Ha Hm J IH]; intros Hi.
  - destruct Hi. intros n t [].
  - destruct (IH Hi) as (a2 & b2 & ea1 & oa1 & eb1 & ob1 & e & x & n & t & y & b3 & l & a3 & o2 & ea2 & oa2 & eb2 & ob2 & J1 & R).
    exists a2, b2, (FeTick dt :: ea1), oa1, (FeTick dt :: eb1), ob1, e, x, n, t, y, b3, l, a3, o2, ea2, oa2, eb2, ob2.
    split; [econstructor; eauto|]. destruct R as (R1 & R2 & R3 & R4 & R5 & -> & -> & -> & ->). repeat (split; [assumption|]). auto.
  - destruct (IH Hi) as (a2 & b2 & ea1 & oa1 & eb1 & ob1 & e' & x & n & t & y & b3 & l & a3 & o2 & ea2 & oa2 & eb2 & ob2 & J1 & R).
    exists a2, b2, (e :: ea1), (o1 ++ oa1), eb1, ob1, e', x, n, t, y, b3, l, a3, o2, ea2, oa2, eb2, ob2.
    split; [econstructor; eauto|]. destruct R as (R1 & R2 & R3 & R4 & R5 & -> & -> & -> & ->). repeat (split; [assumption|]).
    rewrite <- !app_assoc. auto.
  - destruct IH as (a2 & b2 & ea1 & oa1 & eb1 & ob1 & e' & x & n & t & y & b3 & l & a3 & o2 & ea2 & oa2 & eb2 & ob2 & J1 & R).
    { intros X. apply Hi. intros n t H. apply in_app_or in H as [H|H]; [exact (No n t H)|exact (X n t H)]. }
    exists a2, b2, ea1, oa1, (e :: eb1), (o1 ++ ob1), e', x, n, t, y, b3, l, a3, o2, ea2, oa2, eb2, ob2.
    split; [econstructor; eauto|]. destruct R as (R1 & R2 & R3 & R4 & R5 & -> & -> & -> & ->). repeat (split; [assumption|]).
    rewrite <- !app_assoc. auto.
  - exists a, b, [], [], [], [], e, x, n, t, y, b1, l, a1, o1, ea, oa, eb, ob. split; [constructor|]. auto 12.
Qed.
End Joint.

(** ** News arrive *)
Lemma reaches_run K sys evs s o evs' s' o' : reaches K sys evs s o -> Forall fev_wf evs' -> fp_run K s evs' = Some (s', o') ->
  reaches K sys (evs ++ evs') s' (o ++ o').
Proof.
  intros [W H] Wf E. split; [apply Forall_app; auto|]. apply start_inv in H as (s0 & o0 & o1 & E0 & R & ->).
  unfold fp_start. rewrite E0. unfold fp_run in *. rewrite run_app, R, E, app_assoc. reflexivity.
Qed.
Lemma prompt_app K e2 : forall e1 s s1 o1, prompt K s (e1 ++ e2) -> fp_run K s e1 = Some (s1, o1) -> prompt K s1 e2.
Proof.
  induction e1 as [|e e1 IH]; intros s s1 o1 P R; unfold fp_run in *; cbn [run app prompt] in *.
  - injection R as <- _. exact P.
  - destruct P as [_ P]. unfold st in P. destruct (fp_step K e s) as [[s2 o2] [u|x|u|]]; try discriminate; cbn [fst] in P;
      (destruct (run (fp_step K) s2 e1) as [[s3 o3]|] eqn:Q; [|discriminate]); injection R as <- _; eapply IH; eauto.
Qed.
Lemma run_published K sys evs s o evs' s' o' : uri_ok K -> reaches K sys evs s o -> Forall fev_wf evs' -> fp_run K s evs' = Some (s', o') ->
  (pb_published (f_pub s) <= pb_published (f_pub s'))%nat.
Proof.
  intros Uk R W H.
  destruct (reaches_log K cop_wf Uk (fun _ => I) (fun _ _ h => h) sys evs s o) as (L & S & _); auto.
  { apply flat_wf. apply R. }
  destruct (run_log K cop_wf Uk (fun _ => I) (fun _ _ h => h) evs' s s' o' L) as (_ & _ & L2 & S2 & _); auto.
  { apply flat_wf; auto. } { eapply reaches_ok; eauto. }
  destruct S as [<- _], S2 as [<- _]. rewrite app_length. lia.
Qed.
Lemma run_time K : forall evs' s s' o', fp_run K s evs' = Some (s', o') -> f_now s' = f_now s + time_of evs'.
Proof.
  induction evs' as [|e evs' IH]; intros s s' o' R; unfold fp_run in *; cbn [run] in R.
  - injection R as <- _. cbn. lia.
  - pose proof (now_step K e s) as T. unfold st in T. cbn [time_of fold_right]. fold (time_of evs').
    destruct (fp_step K e s) as [[s2 o2] [u|x|u|]]; try discriminate; cbn [fst] in T;
      (destruct (run (fp_step K) s2 evs') as [[s3 o3]|] eqn:Q; [|discriminate]); injection R as <- _;
      rewrite (IH _ _ _ Q); lia.
Qed.
Lemma run_knows K sys evs s o evs' s' o' : reaches K sys evs s o -> Forall fev_wf evs' -> fp_run K s evs' = Some (s', o') ->
  no_removal (ops_of o') -> forall p, knows s p <= knows s' p.
Proof.
  intros R W H Nr p. pose proof (reaches_run _ _ _ _ _ _ _ _ R W H) as R'.
  apply reaches_core in R as [Wo C]. apply reaches_core in R' as [Wo' C'].
  rewrite ops_of_app in *. unfold knows.
  rewrite (Properties_Producer.C29_sequence_numbers _ _ _ p Wo C), (Properties_Producer.C29_sequence_numbers _ _ _ p Wo' C').
  apply seq_after_mono. exact Nr.
Qed.
Lemma run_no_removal K evs s s' o : no_removal (flat_map ev_ops evs) -> fp_run K s evs = Some (s', o) -> no_removal (ops_of o).
Proof.
  intros H R. set (ok := fun c => forall p, c <> CRemove p).
  assert (sop_rel ok s o s') as X.
  { apply (tr_run K ok (sop_rel ok) (sop_closed K ok) ltac:(discriminate) ltac:(discriminate)) with evs; auto;
      try (intros; constructor; fail); try (split; intros; constructor).
    apply Forall_forall. intros c Hc p ->. exact (H p Hc). }
  intros p Hp. unfold sop_rel in X. rewrite Forall_forall in X. exact (X _ Hp p eq_refl).
Qed.
Lemma held_app k0 o o' k : held_during k0 o k -> held_during k0 (o ++ o') k.
Proof. intros (o1 & o2 & -> & H). exists o1, (o2 ++ o'). rewrite app_assoc. auto. Qed.

Lemma time_cons e r : time_of (e :: r) = dt_of e + time_of r. Proof. reflexivity. Qed.
Lemma time_app e1 e2 : time_of (e1 ++ e2) = time_of e1 + time_of e2.
Proof. induction e1 as [|e e1 IH]; [reflexivity|]. cbn [app]. rewrite !time_cons, IH. lia. Qed.
Lemma dt_zero e : (forall dt, e <> FeTick dt) -> dt_of e = 0.
Proof. intros H. destruct e; try reflexivity. destruct (H dt eq_refl). Qed.
Lemma joint_time Ka Kb a b ea oa eb ob a' b' : joint Ka Kb a b ea oa eb ob a' b' -> time_of ea = time_of eb.
Proof.
  intros J. induction J as [a b|dt a b a1 b1 ea oa eb ob a' b' Ha Hb J IH|e a b a1 o1 ea oa eb ob a' b' He Ha J IH
    |e a b b1 o1 ea oa eb ob a' b' He Hb No J IH|e a b x n t y b1 l a1 o1 ea oa eb ob a' b' He Hb No Er Ha Hm J IH];
    rewrite ?time_cons, ?(dt_zero e He); cbn [dt_of]; lia.
Qed.
Lemma run_seq K s e1 s1 o1 e2 s2 o2 : fp_run K s e1 = Some (s1, o1) -> fp_run K s1 e2 = Some (s2, o2) ->
  fp_run K s (e1 ++ e2) = Some (s2, o1 ++ o2).
Proof. unfold fp_run. intros A B. rewrite run_app, A, B. reflexivity. Qed.
Lemma comparable_evs K evs evs' k kb : incl evs evs' -> comparable K evs' k kb -> comparable K evs k kb.
Proof.
  intros I [A B C D]. split; auto. intros l Nl [H|(u & (p & q & cur & -> & Hp) & H)]; [apply D; auto|]. apply D; auto.
  right. eexists. split; [|exact H]. exists p, q, cur. split; [reflexivity|].
  apply in_flat_map in Hp as (e & He & Hp). apply in_flat_map. eauto.
Qed.
Lemma joint_content Ka Kb a b ea oa i buf script eb ob a' b' : joint Ka Kb a b ea oa (FeContent i buf script :: eb) ob a' b' ->
  exists b1 o1, fp_step Kb (FeContent i buf script) b = (b1, o1, Ok tt).
Proof.
  intros J. remember (FeContent i buf script :: eb) as E eqn:He.
  induction J as [a b|dt a b a1 b1 ea oa eb1 ob a' b' Ha Hb J IH|e a b a1 o1 ea oa eb1 ob a' b' Ht Ha J IH
    |e a b b1 o1 ea oa eb1 ob a' b' Ht Hb No J IH|e a b x n t y b1 l a1 o1 ea oa eb1 ob a' b' Ht Hb No Er Ha Hm J IH];
    try discriminate; auto; injection He as -> ->; eauto.
Qed.
Section News.
Variables (Ka Kb : fcfg) (sysa sysb : Z) (evsa evsb ea eb : list fev) (a0 b0 a b : fp) (oa0 ob0 oa ob : list fout).
Hypothesis G : same_group Ka Kb.
Hypothesis Sa : schemes_ok Ka.
Hypothesis Sb : schemes_ok Kb.
Hypothesis Lo : lossless (fc_codec Ka).
Hypothesis Uk : uri_ok Ka.
Hypothesis Ra : reaches Ka sysa evsa a0 oa0.
Hypothesis Rb : reaches Kb sysb evsb b0 ob0.
Hypothesis J : joint Ka Kb a0 b0 ea oa eb ob a b.
Hypothesis Wa : Forall fev_wf ea.
Hypothesis Wb : Forall fev_wf eb.
Hypothesis S0 : (0 <= sysb)%Z.
Hypothesis Std : steady sysb (evsb ++ eb).
Hypothesis Pr : prompt Kb b0 eb.
Hypothesis Na : no_collision Ka (oa0 ++ oa).
Hypothesis Nb : no_collision Kb (ob0 ++ ob).
Hypothesis Ma' : no_removal (flat_map ev_ops ea).
Hypothesis Mb' : no_removal (flat_map ev_ops eb).
Hypothesis Vd : versions_differ (fc_env Ka) (pb_published (f_pub a)).
Hypothesis Cm : forall k kb, held_during (f_core a0) oa k -> held_during (f_core b0) ob kb -> comparable Ka (evsa ++ ea) k kb.
Hypothesis Long : longest Ka + (fc_life Kb / 2 + fc_fresh Kb + 2 * MAX_JITTER) < time_of eb.

Lemma asked_late : exists a1 b1 ea1 oa1 eb1 ob1 ea2 oa2 eb2 ob2,
  joint Ka Kb a0 b0 ea1 oa1 eb1 ob1 a1 b1 /\ joint Ka Kb a1 b1 ea2 oa2 eb2 ob2 a b /\
  ea = ea1 ++ ea2 /\ oa = oa1 ++ oa2 /\ eb = eb1 ++ eb2 /\ ob = ob1 ++ ob2 /\ longest Ka <= time_of ea1 /\ ~ no_interest ob2.
Proof.
  destruct (joint_split Ka Kb (longest Ka) _ _ _ _ _ _ _ _ J) as
    (a1 & b1 & ea1 & oa1 & eb1 & ob1 & ea2 & oa2 & eb2 & ob2 & J1 & J2 & E1 & E2 & E3 & E4 & T & X); [lia|].
  exists a1, b1, ea1, oa1, eb1, ob1, ea2, oa2, eb2, ob2. repeat (split; [assumption|]).
  split; [rewrite (joint_time Ka Kb _ _ _ _ _ _ _ _ J1); exact T|]. intros Ni.
  assert (forall eb0 b0' ob0' r, eb = eb0 ++ r -> fp_run Kb b0 eb0 = Some (b0', ob0') -> fp_run Kb b0' r = Some (b, ob2) ->
    time_of r <= fc_life Kb / 2 + fc_fresh Kb + 2 * MAX_JITTER) as Cut.
  { intros eb0 b0' ob0' r Eb R1 R2. rewrite Eb in *. pose proof Wb as W'. apply Forall_app in W' as [W1 W2].
    pose proof (reaches_run _ _ _ _ _ _ _ _ Rb W1 R1) as Rx.
    assert (steady sysb ((evsb ++ eb0) ++ r)) as St' by (rewrite <- app_assoc; exact Std).
    pose proof (asks_within Kb sysb _ _ _ r _ _ Sb S0 St' W2 Rx (prompt_app _ _ _ _ _ _ Pr R1) R2 Ni) as L.
    unfold silence in L. lia. }
  destruct X as [->|(eb0 & dt & b0' & ob0' & -> & T0 & R0 & R1 & ->)].
  - destruct (joint_run _ _ _ _ _ _ _ _ _ _ J1) as [_ R1]. destruct (joint_run _ _ _ _ _ _ _ _ _ _ J2) as [_ R2].
    assert (time_of eb2 <= fc_life Kb / 2 + fc_fresh Kb + 2 * MAX_JITTER) by (eapply (Cut []); eauto).
    rewrite E3 in Long. cbn [app] in Long. lia.
  - assert (time_of (FeTick dt :: eb2) <= fc_life Kb / 2 + fc_fresh Kb + 2 * MAX_JITTER) as Q.
    { eapply (Cut eb0); eauto. rewrite E3, <- app_assoc. reflexivity. }
    rewrite E3, !time_app, !time_cons in Long. rewrite time_cons in Q. cbn [dt_of] in Q, Long. change (time_of []) with 0 in Long. lia.
Qed.
Lemma news : forall p, knows a0 p <= knows b p.
Proof.
  intros p. destruct (joint_run _ _ _ _ _ _ _ _ _ _ J) as [Aa Bb].
  pose proof (run_no_removal _ _ _ _ _ Ma' Aa) as Ma. pose proof (run_no_removal _ _ _ _ _ Mb' Bb) as Mb. clear Aa Bb.
  destruct asked_late as (a1 & b1 & ea1 & oa1 & eb1 & ob1 & ea2 & oa2 & eb2 & ob2 & J1 & J2 & -> & -> & -> & -> & T & Ni).
  destruct (joint_sends _ _ _ _ _ _ _ _ _ _ J2 Ni) as
    (a2 & b2 & ea3 & oa3 & eb3 & ob3 & e & x & n & t & y & b3 & l & a3 & o3 & ea4 & oa4 & eb4 & ob4 & J3 & Se & Er & Si & Hm & J4 & -> & -> & -> & ->).
  destruct (joint_run _ _ _ _ _ _ _ _ _ _ J1) as [A1 B1]. destruct (joint_run _ _ _ _ _ _ _ _ _ _ J3) as [A3 B3].
  destruct (joint_run _ _ _ _ _ _ _ _ _ _ J4) as [A4 B4].
  pose proof (run_seq _ _ _ _ _ _ _ _ A1 A3) as A13. pose proof (run_seq _ _ _ _ _ _ _ _ B1 B3) as B13.
  apply Forall_app in Wa as [Wa1 Wa']. apply Forall_app in Wa' as [Wa3 Wa']. inversion_clear Wa' as [|? ? We Wa4].
  apply Forall_app in Wb as [Wb1 Wb']. apply Forall_app in Wb' as [Wb3 Wb']. inversion_clear Wb' as [|? ? Wf Wb4].
  assert (reaches Ka sysa (evsa ++ (ea1 ++ ea3)) a2 (oa0 ++ (oa1 ++ oa3))) as R2.
  { eapply reaches_run; eauto. apply Forall_app; auto. }
  assert (reaches Kb sysb (evsb ++ (eb1 ++ eb3)) b2 (ob0 ++ (ob1 ++ ob3))) as Q2.
  { eapply reaches_run; eauto. apply Forall_app; auto. }
  pose proof (reaches_snoc Kb sysb _ e _ _ Q2 Wf) as Q3. rewrite Se in Q3. cbn [st outs res fst snd] in Q3.
  specialize (Q3 ltac:(discriminate) ltac:(discriminate)).
  set (xs := ob0 ++ (ob1 ++ ob3) ++ x).
  assert ((ob0 ++ ob1 ++ ob3) ++ x ++ FoInterest n t :: y = xs ++ FoInterest n t :: y) as Exs
    by (unfold xs; rewrite <- !app_assoc; reflexivity).
  rewrite Exs in Q3. destruct (reaches_asks _ _ _ _ _ Q3 xs n t y eq_refl) as (kb & Rk & As).
  pose proof (reaches_core _ _ _ _ _ Rb) as [Wob Cb0].
  pose proof (reaches_core _ _ _ _ _ Q3) as [Woq Cq].
  assert (Forall cop_wf (ops_of xs)) as Wk by (rewrite ops_of_app in Woq; apply Forall_app in Woq; apply Woq).
  assert (held_during (f_core b0) (ob1 ++ ob3 ++ x ++ FoInterest n t :: y ++ ob4) kb) as Hkb.
  { exists (ob1 ++ ob3 ++ x), (FoInterest n t :: y ++ ob4). split; [rewrite <- !app_assoc; reflexivity|].
    unfold xs in Rk. rewrite <- !app_assoc, ops_of_app, crun_app, Cb0 in Rk. exact Rk. }
  assert (node_data Kb kb) as Nd.
  { exists (ops_of xs). split; [exact Wk|]. split; [|exact Rk].
    intros pre post k E1. apply (Nb pre (post ++ ops_of (FoInterest n t :: y ++ ob4))).
    transitivity ((pre ++ post) ++ ops_of (FoInterest n t :: y ++ ob4)); [|rewrite <- app_assoc; reflexivity].
    rewrite <- E1, <- ops_of_app. unfold xs. rewrite <- !app_assoc. reflexivity. }
  assert (forall q, known kb q <= knows b3 q) as Mk.
  { intros q. unfold known, knows.
    rewrite (Properties_Producer.C29_sequence_numbers _ _ _ q Wk Rk), (Properties_Producer.C29_sequence_numbers _ _ _ q Woq Cq).
    rewrite ops_of_app.
    apply seq_after_mono. rewrite !ops_of_app in Mb. intros q' X. apply (Mb q'). apply in_or_app. right. apply in_or_app. right.
    apply in_or_app. right. cbn [ops_of] in X |- *. rewrite ops_of_app. apply in_or_app. left. exact X. }
  assert (no_removal (ops_of ob4)) as Mb4.
  { intros q X. apply (Mb q). rewrite !ops_of_app. cbn [ops_of]. rewrite ops_of_app. rewrite !in_app_iff. tauto. }
  assert (forall q, knows b3 q <= knows b q) as Mf by exact (run_knows _ _ _ _ _ _ _ _ Q3 Wb4 B4 Mb4).
  assert (fp_run Ka a2 (FeInterest n l :: ea4) = Some (a, o3 ++ oa4)) as Ae.
  { unfold fp_run in *. cbn [run]. rewrite Si, A4. reflexivity. }
  destruct (answer_tells Ka Kb sysa evsa (ea1 ++ ea3) a0 a2 oa0 (oa1 ++ oa3) kb n) with (l := l) as (a' & out & Si' & _ & An); auto.
  { intros i j Hi Hj. pose proof (run_published _ _ _ _ _ _ _ _ Uk R2 (Forall_cons _ We Wa4) Ae) as Le. apply Vd; lia. }
  { intros pre post k E1. apply (Na pre (post ++ ops_of (o3 ++ oa4))).
    transitivity ((pre ++ post) ++ ops_of (o3 ++ oa4)); [|rewrite <- app_assoc; reflexivity].
    rewrite <- E1, <- ops_of_app, <- !app_assoc. reflexivity. }
  { intros q X. apply (Ma q). rewrite !ops_of_app in *. rewrite !in_app_iff in *. tauto. }
  { intros k Hk. eapply comparable_evs; [|apply Cm; [|exact Hkb]].
    - intros z. rewrite !in_app_iff. tauto.
    - rewrite app_assoc. apply held_app. exact Hk. }
  { rewrite (run_time _ _ _ _ _ A13), time_app. lia. }
  rewrite Si in Si'. injection Si' as <- <-. destruct (data_of o3) as [|d ds].
  { specialize (An p). etransitivity; [exact An|]. etransitivity; [apply Mk|apply Mf]. }
  destruct Hm as (i & buf & script & eb' & Fl & Fe & ->). destruct (An buf Fe) as (names & Cn & Tl).
  unfold fp_run in B4. cbn [run] in B4. inversion_clear Wb4 as [|? ? Wc Wb5].
  pose proof (joint_content _ _ _ _ _ _ _ _ _ _ _ _ _ J4) as (b4 & o4 & Sc).
  rewrite Sc in B4. destruct (run (fp_step Kb) b4 eb') as [[b5 o5]|] eqn:Run; [|discriminate]. injection B4 as -> <-.
  pose proof Wc as Ws. unfold fev_wf in Ws. cbn [ev_ops] in Ws. rewrite Forall_map in Ws.
  assert (forall q, ~ In (CRemove q) (map api_op script)) as Nrs.
  { intros q X. apply (Mb' q). rewrite !flat_map_app. cbn [flat_map ev_ops]. rewrite !in_app_iff. tauto. }
  destruct (content_covers Kb i buf script names b3 b4 o4 n (reaches_pfx _ _ _ _ _ Q3) Ws Nrs Fl Cn Sc) as [M Co].
  pose proof (reaches_snoc Kb sysb _ _ _ _ Q3 Wc) as Q4. rewrite Sc in Q4. cbn [st outs res fst snd] in Q4.
  specialize (Q4 ltac:(discriminate) ltac:(discriminate)).
  rewrite ops_of_app in Mb4. apply no_removal_app in Mb4 as [_ Mb5].
  pose proof (run_knows _ _ _ _ _ _ _ _ Q4 Wb5 Run Mb5 p) as Lf.
  etransitivity; [|exact Lf].
  destruct (N.lt_ge_cases (known kb p) (known (f_core a0) p)) as [Lt|Ge].
  - destruct (Tl p Lt) as (v & Hv & Lv & Bv). etransitivity; [exact Lv|]. apply Co; auto.
  - etransitivity; [exact Ge|]. etransitivity; [apply Mk|exact (M p)].
Qed.
End News.
