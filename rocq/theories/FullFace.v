(** Full-sync nodes: the incoming face reported with an update. *)
From Coq Require Import List NArith ZArith Bool Arith Lia.
From Verif Require Import Base BaseFacts Mon MonFacts Iblt Tlv State NMap NMapFacts Codec Store StoreFacts
  Producer SpecProducer ProducerFacts Partial SpecPartial PartialFacts Full FullTrace SpecFull FullFacts FullSafe FullSteps FullData FullRuns.
Import ListNotations.
Local Open Scope N_scope.

(** ** A fetch that has ended does not come back *)
Definition ended_rel (s : fp) (_ : list fout) (s' : fp) : Prop :=
  (f_started s <= f_started s')%nat /\
  forall i, (i < f_started s)%nat -> fetch_of i (f_live s) = None -> fetch_of i (f_live s') = None.
Lemma ended_same s o s' : f_started s' = f_started s -> f_live s' = f_live s -> ended_rel s o s'.
Proof. unfold ended_rel. intros -> ->. auto. Qed.
Lemma ended_trans s o s1 o1 s2 : ended_rel s o s1 -> ended_rel s1 o1 s2 -> ended_rel s (o ++ o1) s2.
Proof. intros [A B] [C D]. split; [lia|]. intros i Hi H. apply D; [lia|auto]. Qed.
Lemma fetch_without i j l : fetch_of i l = None -> fetch_of i (without j l) = None.
Proof.
  unfold without. induction l as [|[k n] l IH]; simpl; auto. destruct (Nat.eqb i k) eqn:E; [discriminate|].
  intros H. destruct (negb _); simpl; [rewrite E|]; auto.
Qed.
Lemma ended_without s j : ended_rel s [] (fset_live (without j (f_live s)) s).
Proof. split; [apply le_n|]. intros i _. cbn [f_live fset_live]. apply fetch_without. Qed.
Lemma ended_stopped s : ended_rel s [] (stopped s).
Proof. unfold stopped. destruct (f_fetcher s); [apply ended_without|apply ended_same; reflexivity]. Qed.
Lemma ended_send K s : ended_rel s (outs (send_sync_interest K s)) (st (send_sync_interest K s)).
Proof.
  rewrite send_eq. destruct (f_wait s); [apply ended_same; reflexivity|].
  destruct (sync_name _ _) as [n|e|u|]; [|apply ended_stopped..].
  destruct (_ && _); [apply ended_stopped|]. cbn [st outs fst snd].
  destruct (ended_stopped s) as [A B]. unfold sent. split; [cbn; lia|].
  intros i Hi H. cbn [f_live fset_started fetch_of].
  assert (f_started (stopped s) = f_started s) as Es by (unfold stopped; destruct (f_fetcher s); reflexivity).
  cbn [fset_sched fset_draws f_started fset_started f_live fetch_of]. rewrite Es.
  destruct (Nat.eqb_spec i (f_started s)); [lia|]. apply B; auto.
Qed.
Lemma ended_closed K ok : closed K ok ended_rel.
Proof.
  split; intros; try (apply ended_same; reflexivity); try apply ended_send.
  - eapply ended_trans; eauto.
  - apply data_closed; intros; try (apply ended_same; reflexivity).
    + eapply ended_trans; eauto.
    + apply ended_send.
    + split; [apply le_n|]. intros j _. cbn [f_live fset_live fset_outstanding]. apply fetch_without.
  - apply start_closed; intros; try (apply ended_same; reflexivity). eapply ended_trans; eauto.
  - apply arm_closed; intros; try (apply ended_same; reflexivity). eapply ended_trans; eauto.
Qed.
Lemma ended_events : closed_events ended_rel.
Proof. split; intros; try (apply ended_same; reflexivity). apply ended_without. Qed.
Lemma ended_step K e s : ended_rel s (outs (fp_step K e s)) (st (fp_step K e s)).
Proof.
  apply (tr_step K (fun _ => True) ended_rel (ended_closed K _)); auto using ended_events;
    try (intros; apply ended_same; reflexivity). apply Forall_forall. auto.
Qed.

(** ** Only a validated segment changes the incoming face *)
Definition face_rel (s : fp) (_ : list fout) (s' : fp) : Prop := f_incoming s' = f_incoming s.
Lemma face_trans s o s1 o1 s2 : face_rel s o s1 -> face_rel s1 o1 s2 -> face_rel s (o ++ o1) s2.
Proof. unfold face_rel. congruence. Qed.
Lemma face_send K s : face_rel s (outs (send_sync_interest K s)) (st (send_sync_interest K s)).
Proof.
  rewrite send_eq. unfold face_rel.
  assert (f_incoming (stopped s) = f_incoming s) as X by (unfold stopped; destruct (f_fetcher s); reflexivity).
  destruct (f_wait s); [reflexivity|]. destruct (sync_name _ _); try exact X. destruct (_ && _); exact X.
Qed.
Lemma face_closed K : closed K (fun _ => True) face_rel.
Proof.
  split; intros; try reflexivity; try apply face_send.
  - eapply face_trans; eauto.
  - apply data_closed; intros; try reflexivity; [eapply face_trans; eauto|apply face_send].
  - apply start_closed; intros; try reflexivity. eapply face_trans; eauto.
  - apply arm_closed; intros; try reflexivity. eapply face_trans; eauto.
Qed.
Lemma face_step K e s : (forall i face, e <> FeSegment i face) -> f_incoming (st (fp_step K e s)) = f_incoming s.
Proof.
  intros He. pose proof (face_closed K) as C.
  change (tr face_rel s (fp_step K e)).
  assert (forall l : list cop, Forall (fun _ => True) l) as TT by (intros; apply Forall_forall; auto).
  assert (forall s1 s2 : fp, f_incoming s2 = f_incoming s1 -> face_rel s1 [] s2) as Q by auto.
  destruct e as [a|n l|i buf script|i face|i timeout|dt|t| | |key|i]; cbn [fp_step].
  - apply (tr_api K _ _ C). exact I.
  - destruct (is_prefix _ _); [apply (tr_finterest K _ _ C); intros; exact I|apply (tr_ret K _ _ C)].
  - apply (tr_get face_rel). destruct (fetch_of i (f_live s)) as [n|]; [|apply (tr_ret K _ _ C)].
    apply (tr_mod K _ _ C); [reflexivity|]. unfold on_sync_data.
    apply (tr_seq K _ _ C); [apply (tr_delete K _ _ C)|]. intros s1.
    destruct (obind _ _) as [names|e|u|]; try reflexivity.
    apply (tr_bind K _ _ C); [apply (tr_take K _ _ C); intros; exact I|]. intros s2 o2 [|m l] _.
    + apply (tr_mod K _ _ C); [reflexivity|]. apply (tr_bind K _ _ C); [apply (tr_draw K _ _ C)|]. intros; reflexivity.
    + apply (tr_seq K _ _ C); [reflexivity|]. intros s3. apply (tr_after K _ _ C); [intros; exact I|].
      apply Forall_forall. intros; exact I.
  - destruct (He i face eq_refl).
  - apply (tr_get face_rel). destruct (fetch_of i (f_live s)) as [n|]; [|apply (tr_ret K _ _ C)].
    apply (tr_mod K _ _ C); [reflexivity|]. destruct timeout; reflexivity.
  - reflexivity.
  - reflexivity.
  - apply (tr_get face_rel). destruct (f_sched s) as [[dl k]|]; [|reflexivity]. destruct (dl <=? _); [|reflexivity].
    apply (tr_mod K _ _ C); [reflexivity|]. destruct k; [apply face_send|].
    apply (tr_mod K _ _ C); [reflexivity|apply face_send].
  - apply (tr_get face_rel). destruct (f_delay s) as [dl|]; [|reflexivity]. destruct (dl <=? _); [|reflexivity].
    apply (tr_mod K _ _ C); [reflexivity|]. apply (tr_seq K _ _ C); [apply (tr_process K _ _ C); intros; exact I|].
    intros. apply (tr_schedule K _ _ C).
  - apply tr_mod1. unfold face_rel. destruct (nm_find _ _) as [e|]; [|reflexivity]. destruct (_ <=? _); reflexivity.
  - reflexivity.
Qed.

Lemma face_kept K i x mid : forall s s' o, fp_ok K s -> (i < f_started s)%nat ->
  fetch_of i (f_live s) = None \/ f_incoming s = x -> (forall face, ~ In (FeSegment i face) mid) ->
  fp_run K s mid = Some (s', o) -> fetch_of i (f_live s') = None \/ f_incoming s' = x.
Proof.
  induction mid as [|e mid IH]; intros s s' o Hok Hi H Hm R; unfold fp_run in R; cbn [run] in R.
  - injection R as <- _. exact H.
  - assert (exists o2, fp_run K (st (fp_step K e s)) mid = Some (s', o2)) as [o2 R2].
    { unfold fp_run, st. destruct (fp_step K e s) as [[s1 o1] [u|y|u|]]; try discriminate; cbn [fst];
        destruct (run (fp_step K) s1 mid) as [[a b]|]; try discriminate; injection R as <- _; eauto. }
    pose proof (ended_step K e s) as [En1 En2].
    apply (IH (st (fp_step K e s)) s' o2); auto.
    + apply step_ok. auto.
    + lia.
    + destruct (fetch_of i (f_live s)) as [n|] eqn:Fi; [|left; apply En2; auto].
      destruct H as [H|H]; [discriminate|]. right.
      assert ((exists j face, e = FeSegment j face) \/ forall j face, e <> FeSegment j face) as [(j & face & ->)|He]
        by (destruct e; try (right; discriminate); left; eauto).
      * cbn [fp_step]. rewrite mbind_get. destruct (fetch_of j (f_live s)) as [m|] eqn:Fj; [|exact H].
        destruct (fo_live _ _ Hok) as [L|(k & _ & L)]; rewrite L in Fi, Fj; [discriminate|]. simpl in Fi, Fj.
        destruct (Nat.eqb_spec i k) as [->|]; [|discriminate]. destruct (Nat.eqb_spec j k) as [->|]; [|discriminate].
        destruct (Hm face). left. reflexivity.
      * rewrite face_step; auto.
    + intros face Hf. apply (Hm face). right. exact Hf.
Qed.
