(** Full-sync nodes: properties of whole histories. *)
From Coq Require Import List NArith ZArith Bool Arith Lia Sorted.
From Verif Require Import Base BaseFacts Mon MonFacts Iblt SpecIblt IbltFacts Tlv TlvFacts State NMap NMapFacts
  Codec CodecFacts Store StoreFacts Producer SpecProducer ProducerFacts Partial SpecPartial PartialFacts
  PartialSteps Full FullTrace SpecFull FullFacts FullSafe FullSteps FullData.
Import ListNotations.
Local Open Scope N_scope.

Lemma reaches_inv K sys evs e s o : reaches K sys (evs ++ [e]) s o ->
  exists s1 o1, reaches K sys evs s1 o1 /\ fev_wf e /\
    s = st (fp_step K e s1) /\ o = o1 ++ outs (fp_step K e s1) /\
    (res (fp_step K e s1) = Ok tt \/ exists x, res (fp_step K e s1) = Throw x).
Proof.
  intros [W H]. apply Forall_app in W as [W1 W2]. inversion W2; subst.
  apply start_inv in H as (s0 & o0 & o1 & E & R & ->). unfold fp_run in R.
  apply run_snoc in R as (s1 & o2 & o3 & R1 & Es & Eo & -> & Hr). exists s1, (o0 ++ o2).
  split; [split; auto; unfold fp_start; rewrite E; unfold fp_run; rewrite R1; reflexivity|].
  split; auto. split; auto. split; [rewrite <- app_assoc, Eo; reflexivity|].
  destruct Hr as [[[] Hr]|Hr]; auto.
Qed.
Lemma reaches_nil K sys s o : reaches K sys [] s o ->
  exists n, sync_name K (core_new (fc_n K)) = Ok n /\ s = sent K n (fp_blank K sys) /\ o = [FoInterest n sys].
Proof.
  intros [_ H]. apply start_inv in H as (s0 & o0 & o1 & E & R & ->). injection R as <- <-.
  rewrite init_eq in E. destruct (sync_name K (core_new (fc_n K))) as [n|e|u|]; try discriminate.
  injection E as <- <-. exists n. auto.
Qed.
Lemma reaches_seq K sys evs s o p : reaches K sys evs s o ->
  get_seq p (f_core s) = seq_after p (ops_of o).
Proof.
  intros R. apply reaches_core in R as [W C].
  rewrite (get_seq_run p (ops_of o) _ _ (core_new_pfx (fc_n K)) W C). reflexivity.
Qed.
Lemma reaches_pfx K sys evs s o : reaches K sys evs s o -> pfx_ok (k_prefixes (f_core s)).
Proof. intros R. apply reaches_core in R as [W C]. exact (crun_pfx _ _ _ (core_new_pfx _) W C). Qed.
Lemma reaches_core_ok K sys evs s o : reaches K sys evs s o -> no_collision K o -> core_ok (fc_n K) (f_core s).
Proof. intros R H. apply reaches_core in R as [W C]. exact (crun_ok _ _ _ W C H). Qed.
Lemma no_removal_app a b : no_removal (a ++ b) -> no_removal a /\ no_removal b.
Proof. intros H. split; intros p X; apply (H p); apply in_or_app; auto. Qed.
Lemma seq_step_mono p c o : o <> CRemove p -> seq0 c <= seq0 (seq_step p c o).
Proof.
  destruct o as [q|q|q v|q [v|]]; simpl; intros H.
  - destruct (name_eqb p q); destruct c; simpl; lia.
  - destruct (name_eqb p q) eqn:E; [|lia]. apply name_eqb_eq in E. subst. congruence.
  - destruct (name_eqb p q); destruct c; simpl; lia.
  - destruct (name_eqb p q); destruct c; simpl; lia.
  - destruct (name_eqb p q); destruct c; simpl; lia.
Qed.
Lemma seq_fold_mono p ops : forall c, no_removal ops -> seq0 c <= seq0 (fold_left (seq_step p) ops c).
Proof.
  induction ops as [|o ops IH]; intros c H; simpl; [lia|].
  etransitivity; [apply (seq_step_mono p c o)|apply IH].
  - intros ->. apply (H p). left. reflexivity.
  - intros q X. apply (H q). right. exact X.
Qed.
Lemma seq_after_app p a b : seq_after p (a ++ b) = fold_left (seq_step p) b (seq_after p a).
Proof. apply fold_left_app. Qed.
Lemma seq_after_mono p a b : no_removal b -> seq0 (seq_after p a) <= seq0 (seq_after p (a ++ b)).
Proof. intros H. rewrite seq_after_app. apply seq_fold_mono. exact H. Qed.
(** the operation that takes the sequence number past [n] *)
Lemma seq_crossing p n b : forall a, seq0 (seq_after p a) < n <= seq0 (seq_after p (a ++ b)) ->
  exists b1 o b2, b = b1 ++ o :: b2 /\
    seq0 (seq_after p (a ++ b1)) < n <= seq0 (seq_after p (a ++ b1 ++ [o])).
Proof.
  induction b as [|o b IH]; intros a H.
  - rewrite app_nil_r in H. lia.
  - destruct (N.lt_ge_cases (seq0 (seq_after p (a ++ [o]))) n) as [Lt|Ge].
    + destruct (IH (a ++ [o])) as (b1 & o' & b2 & -> & H').
      { rewrite <- app_assoc. simpl. lia. }
      exists (o :: b1), o', b2. split; [reflexivity|]. rewrite <- !app_assoc in H'. exact H'.
    + exists [], o, b. split; [reflexivity|]. simpl. rewrite app_nil_r. lia.
Qed.

Lemma SSorted_app {A} (R : A -> A -> Prop) a b : StronglySorted R a -> StronglySorted R b ->
  (forall x y, In x a -> In y b -> R x y) -> StronglySorted R (a ++ b).
Proof.
  induction 1 as [|x a Ha IH F]; simpl; auto. intros Hb H. constructor.
  - apply IH; auto.
  - apply Forall_app. split; auto. apply Forall_forall. auto.
Qed.
Theorem reported_sorted K sys evs s o p : reaches K sys evs s o -> no_removal (ops_of o) ->
  StronglySorted (fun a b => snd a < fst b) (reported p o) /\
  forall r, In r (reported p o) -> snd r <= seq0 (seq_after p (ops_of o)).
Proof.
  revert s o. induction evs as [|e evs IH] using rev_ind; intros s o R Nr.
  - apply reaches_nil in R as (n & _ & _ & ->). simpl. split; [constructor|contradiction].
  - pose proof R as R'. apply reaches_inv in R' as (s1 & o1 & R1 & We & -> & -> & Hr).
    rewrite ops_of_app in Nr |- *. apply no_removal_app in Nr as [Nr1 Nr2].
    destruct (IH _ _ R1 Nr1) as [I1 I2]. pose proof (reaches_pfx _ _ _ _ _ R1) as Hp.
    rewrite reported_app.
    assert (no_report (outs (fp_step K e s1)) ->
      StronglySorted (fun a b => snd a < fst b) (reported p o1 ++ reported p (outs (fp_step K e s1))) /\
      forall r, In r (reported p o1 ++ reported p (outs (fp_step K e s1))) ->
        snd r <= seq0 (seq_after p (ops_of o1 ++ ops_of (outs (fp_step K e s1))))) as Quiet.
    { intros Q. rewrite (reported_nr p _ Q), app_nil_r. split; auto. intros r Hin. apply I2 in Hin.
      pose proof (seq_after_mono p (ops_of o1) _ Nr2). lia. }
    destruct e as [a|n l|i buf script|i face|i timeout|dt|t| | |key|i];
      try (apply Quiet; apply step_other_inv; discriminate).
    destruct (fp_step K (FeContent i buf script) s1) as [[s2 o2] r2] eqn:E.
    destruct (step_content_inv _ _ _ _ _ _ _ _ Hp E) as [[-> _]|[[O _]|(pre & l & post & k & -> & Opre & Npost & Ck & Nl & Ch & _ & _)]].
    + apply Quiet. constructor.
    + apply Quiet. apply only_ops_nr. exact O.
    + unfold outs in *. cbn [fst snd] in *. rewrite reported_app, (reported_nr p pre) by (apply only_ops_nr; auto).
      cbn [reported app]. rewrite (reported_nr p post Npost), app_nil_r.
      rewrite ops_of_app in Nr2 |- *. cbn [ops_of] in Nr2 |- *. apply no_removal_app in Nr2 as [Np Nq].
      destruct (report_chain_ranges l _ _ p Ch) as [S1 S2].
      assert (get_seq p k = seq_after p (ops_of o1 ++ ops_of pre)) as Gk.
      { rewrite seq_after_app, <- (reaches_seq _ _ _ _ _ p R1).
        apply get_seq_run; auto. pose proof (reaches_core _ _ _ _ _ R) as [W _].
        rewrite ops_of_app in W. apply Forall_app in W as [_ W]. cbn [ops_of] in W.
        rewrite ops_of_app in W. apply Forall_app in W. apply W. }
      rewrite (reaches_seq _ _ _ _ _ p R1) in S2. rewrite Gk in S2.
      pose proof (seq_after_mono p (ops_of o1 ++ ops_of pre) (ops_of post) Nq) as M2.
      pose proof (seq_after_mono p (ops_of o1) (ops_of pre) Np) as M1.
      rewrite app_assoc. split.
      * apply SSorted_app; auto. intros x y Hx Hy. apply I2 in Hx. apply S2 in Hy. lia.
      * intros r Hin. apply in_app_or in Hin as [Hin|Hin]; [apply I2 in Hin|apply S2 in Hin]; lia.
Qed.

(** nothing is skipped *)
Theorem reported_complete K sys evs s o p n : reaches K sys evs s o -> no_removal (ops_of o) ->
  schemes_ok K -> uri_ok K ->
  (forall i buf script, In (FeContent i buf script) evs -> good_content K buf) ->
  1 <= n <= seq0 (seq_after p (ops_of o)) ->
  (exists r, In r (reported p o) /\ fst r <= n <= snd r) \/
  (exists a q b, ops_of o = a ++ CPublish p q :: b /\
     seq0 (seq_after p a) < n <= seq0 (seq_after p (a ++ [CPublish p q]))).
Proof.
  intros R Nr Sk Uk Hg Hn. revert s o R Nr Hn. induction evs as [|e evs IH] using rev_ind; intros s o R Nr Hn.
  - apply reaches_nil in R as (m & _ & _ & ->). simpl in Hn. lia.
  - pose proof R as R'. apply reaches_inv in R' as (s1 & o1 & R1 & We & -> & -> & Hr).
    rewrite ops_of_app in Nr, Hn |- *. apply no_removal_app in Nr as [Nr1 Nr2].
    rewrite reported_app.
    destruct (N.le_gt_cases n (seq0 (seq_after p (ops_of o1)))) as [Old|New].
    { destruct (IH ltac:(intros; eapply Hg; apply in_or_app; eauto) _ _ R1 Nr1) as [(r & H1 & H2)|(a & q & b & H1 & H2)];
        [lia|left; exists r; split; [apply in_or_app|]; auto|].
      right. exists a, q, (b ++ ops_of (outs (fp_step K e s1))). rewrite H1, <- app_assoc. auto. }
    clear IH. pose proof (reaches_pfx _ _ _ _ _ R1) as Hp.
    assert (forall a0 ops (P : cop -> Prop), Forall P ops -> no_removal ops ->
      (forall x, P x -> (exists q, x = CAdd q) \/ (exists q, x = CRemove q) \/ exists q v, x = CPublish q v) ->
      seq0 (seq_after p a0) < n <= seq0 (seq_after p (a0 ++ ops)) ->
      exists a q b, a0 ++ ops = a ++ CPublish p q :: b /\
        seq0 (seq_after p a) < n <= seq0 (seq_after p (a ++ [CPublish p q]))) as Own.
    { intros a0 ops P F Nrm HP H. apply seq_crossing in H as (b1 & x & b2 & -> & H).
      apply Forall_app in F as [_ F]. inversion F; subst. rewrite app_assoc in H.
      assert (exists q, x = CPublish p q) as (q & ->).
      { rewrite (seq_after_app p (a0 ++ b1)) in H. cbn [fold_left] in H.
        destruct (HP x H2) as [[q ->]|[[q ->]|[q [v ->]]]].
        - rewrite seq_step_add in H. destruct (name_eqb p q); simpl in H; lia.
        - exfalso. apply (Nrm q). apply in_or_app. right. left. reflexivity.
        - destruct (name_eqb p q) eqn:E; [apply name_eqb_eq in E; subst; eauto|].
          destruct v; simpl in H; rewrite E in H; lia. }
      exists (a0 ++ b1), q, b2. rewrite <- app_assoc. auto. }
    assert (forall a : api, (exists q, api_op a = CAdd q) \/ (exists q, api_op a = CRemove q) \/
              exists q v, api_op a = CPublish q v) as Api by (intros [q|q|q v]; simpl; eauto 6).
    assert ((forall i buf script, e <> FeContent i buf script) ->
      exists a q b, ops_of o1 ++ ops_of (outs (fp_step K e s1)) = a ++ CPublish p q :: b /\
        seq0 (seq_after p a) < n <= seq0 (seq_after p (a ++ [CPublish p q]))) as Other.
    { intros He. destruct (step_other_inv K e s1 He) as [_ F]. eapply Own; [exact F|exact Nr2| |lia].
      intros x [H|[q ->]]; [|eauto]. destruct e; simpl in H; try contradiction.
      - destruct H as [<-|[]]. apply Api.
      - exfalso. eapply He. reflexivity. }
    destruct e as [a|m l|i buf script|i face|i timeout|dt|t| | |key|i];
      try (right; apply Other; discriminate). clear Other.
    assert (res (fp_step K (FeContent i buf script) s1) = Ok tt) as Hok.
    { destruct Hr as [Hr|[x Hr]]; auto. exfalso.
      assert (tame (res (fp_step K (FeContent i buf script) s1))) as T.
      { apply (step_tame K Sk Uk); [eapply reaches_ok; eauto|]. simpl. intros l0 Hl0.
        eapply Hg; [apply in_or_app; right; left; reflexivity|exact Hl0]. }
      rewrite Hr in T. exact T. }
    destruct (fp_step K (FeContent i buf script) s1) as [[s2 o2] r2] eqn:E. simpl in Hok. subst r2.
    destruct (step_content_inv _ _ _ _ _ _ _ _ Hp E) as [[-> _]|[[_ O]|(pre & l & post & k & -> & Opre & Npost & Ck & Nl & Ch & _ & Sc)]].
    + simpl in Hn. rewrite app_nil_r in Hn. lia.
    + congruence.
    + unfold outs in *. cbn [fst snd] in *.
      rewrite ops_of_app in Nr2, Hn |- *. cbn [ops_of] in Nr2, Hn |- *. apply no_removal_app in Nr2 as [Np Nq].
      assert (get_seq p k = seq_after p (ops_of o1 ++ ops_of pre)) as Gk.
      { rewrite seq_after_app, <- (reaches_seq _ _ _ _ _ p R1).
        apply get_seq_run; auto. pose proof (reaches_core _ _ _ _ _ R) as [W _].
        unfold st in W. simpl in W.
        rewrite ops_of_app in W. apply Forall_app in W as [_ W]. cbn [ops_of] in W.
        rewrite ops_of_app in W. apply Forall_app in W. apply W. }
      destruct (N.le_gt_cases n (seq0 (seq_after p (ops_of o1 ++ ops_of pre)))) as [Le|Gt].
      * left. destruct (report_chain_cover l _ _ p n Ch) as (r & H1 & H2).
        { cbv beta. rewrite (reaches_seq _ _ _ _ _ p R1), Gk. lia. }
        exists r. split; [|exact H2]. apply in_or_app. right. rewrite reported_app. apply in_or_app. right.
        cbn [reported]. apply in_or_app. left. exact H1.
      * right. rewrite app_assoc. eapply Own; [exact Sc|exact Nq| |rewrite <- app_assoc; lia].
        intros x [H|[q ->]]; [|eauto]. apply in_map_iff in H as (a & <- & _). apply Api.
Qed.
