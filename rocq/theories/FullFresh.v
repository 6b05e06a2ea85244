(** Full-sync nodes: the age of their answers. *)
From Coq Require Import List NArith ZArith Bool Arith Lia.
From Verif Require Import Base BaseFacts Mon MonFacts Iblt Tlv TlvFacts State NMap NMapFacts Codec Store StoreFacts SpecStore
  Producer SpecProducer Partial SpecPartial PartialFacts Full FullTrace SpecFull FullFacts FullSafe FullSteps FullRuns
  SpecFresh FreshFacts.
Import ListNotations.
Local Open Scope N_scope.

Definition due_later (now : N) (b : pub) : Prop := forall dl n, In (dl, n) (pb_timers b) -> now <= dl.

Section Age.
Variable K : fcfg.
Notation E := (fc_env K).
Definition fresh_in (P : N -> data -> Prop) (s s' : fp) : Prop :=
  forall d k, (pb_published (f_pub s) <= k < pb_published (f_pub s'))%nat -> of_publication E k d -> P (f_now s + d_fresh d) d.
Definition age_rel (s : fp) (o : list fout) (s' : fp) : Prop :=
  f_now s' = f_now s /\ (pb_published (f_pub s) <= pb_published (f_pub s'))%nat /\
  (due_later (f_now s) (f_pub s) -> due_later (f_now s) (f_pub s')) /\
  forall P, fresh_in P s s' -> kept P (f_pub s) ->
    kept P (f_pub s') /\
    (due_later (f_now s) (f_pub s) -> forall d, In d (data_of o) -> d_type d = AppNack \/ exists dl, P dl d /\ f_now s <= dl).

Lemma data_of_app a b : data_of (a ++ b) = data_of a ++ data_of b.
Proof. induction a as [|[]]; simpl; auto. rewrite IHa. reflexivity. Qed.
Lemma data_of_map l : data_of (map FoData l) = l.
Proof. induction l; simpl; auto. rewrite IHl. reflexivity. Qed.
Lemma age_same s o s' : f_now s' = f_now s -> f_pub s' = f_pub s -> data_of o = [] -> age_rel s o s'.
Proof.
  intros A B D. unfold age_rel. rewrite A, B, D. split; auto. split; auto. split; auto.
  intros P _ H. split; auto. intros _ d [].
Qed.
Lemma age_trans s o s1 o1 s2 : age_rel s o s1 -> age_rel s1 o1 s2 -> age_rel s (o ++ o1) s2.
Proof.
  intros (A & B & C & D) (A' & B' & C' & D'). rewrite A in *. split; auto. split; [lia|]. split; [auto|].
  intros P HP H. destruct (D P) as [D1 D2]; auto.
  { intros d k Hk. apply HP. lia. }
  destruct (D' P) as [D1' D2']; auto.
  { intros d k Hk Hd. rewrite A. apply HP with k; auto. lia. }
  split; auto. intros T d Hd. rewrite data_of_app in Hd. apply in_app_or in Hd as [Hd|Hd]; auto.
Qed.
Lemma age_publish s n b f : age_rel s
    (map FoData match snd (publish E (f_now s) n n b f (f_pub s)) with Ok l => l | _ => [] end)
    (fset_pub (fst (publish E (f_now s) n n b f (f_pub s))) s).
Proof.
  destruct (publish E (f_now s) n n b f (f_pub s)) as [q r] eqn:Pb. cbn [fst snd].
  assert (pb_published q = S (pb_published (f_pub s)) /\
    pb_timers q = pb_timers (f_pub s) ++ map (fun d => (f_now s + f, d_name d)) (segment E (pb_signed (f_pub s)) (append_version n (en_version E (pb_published (f_pub s)))) b f)) as [En Et].
  { unfold publish in Pb. injection Pb as <- _. rewrite insert_segments_eq. auto. }
  split; [reflexivity|]. split; [cbn; lia|]. split.
  - intros H dl x. cbn [f_pub fset_pub]. rewrite Et. intros Hi. apply in_app_or in Hi as [Hi|Hi]; [eapply H; eauto|].
    apply in_map_iff in Hi as (d & X & _). injection X as <- _. lia.
  - intros P HP H.
    destruct (publish_kept P _ _ _ _ _ _ _ _ _ Pb H) as [A B].
    { intros d Hd. destruct (segment_in _ _ _ _ _ _ Hd) as (_ & Ef & _).
      rewrite <- Ef. apply (HP d (pb_published (f_pub s))); [cbn; lia|].
      apply segment_In in Hd as (i & Hi & ->). exists (pb_signed (f_pub s)), n, b, i. auto. }
    split; [exact A|]. intros _ d Hd. rewrite data_of_map in Hd. destruct r as [l| | |]; try contradiction.
    right. exists (f_now s + f). split; [eapply B; eauto|lia].
Qed.
Lemma age_send s : age_rel s (outs (send_sync_interest K s)) (st (send_sync_interest K s)).
Proof.
  rewrite send_eq.
  assert (f_now (stopped s) = f_now s) as X by (unfold stopped; destruct (f_fetcher s); reflexivity).
  destruct (f_wait s); [apply age_same; reflexivity|].
  destruct (sync_name _ _) as [n|e|u|]; [|apply age_same; cbn [st outs fst snd]; auto using stopped_pub..].
  destruct (_ && _); apply age_same; cbn [st outs fst snd]; unfold sent; cbn; auto using stopped_pub.
Qed.
Lemma age_closed ok : closed K ok age_rel.
Proof.
  split; intros; try (apply age_same; reflexivity); try apply age_send.
  - eapply age_trans; eauto.
  - split; auto. split; auto. split; auto. intros P _ Hk. split; auto. intros T x [<-|[]]. right.
    unfold reply_from_store in H. apply store_find_Some in H as (H & _). destruct (Hk d H) as (dl & A & B).
    exists dl. split; auto. eapply T; eauto.
  - apply age_publish.
  - split; auto. split; auto. split; auto. intros P _ Hk. split; auto. intros T x [<-|[]]. left. reflexivity.
  - apply data_closed; intros; try (apply age_same; reflexivity).
    + eapply age_trans; eauto.
    + apply age_publish.
    + apply age_send.
  - apply start_closed; intros; try (apply age_same; reflexivity). eapply age_trans; eauto.
  - apply arm_closed; intros; try (apply age_same; reflexivity). eapply age_trans; eauto.
  - split; [reflexivity|]. split.
    { unfold pub_fire. cbn. destruct (nth_error _ i) as [[dl y]|]; auto. destruct (dl <=? _); auto. }
    split.
    { intros H dl n. cbn [f_pub fset_pub]. unfold pub_fire. destruct (nth_error _ i) as [[dl' y]|] eqn:En; [|apply H].
      destruct (dl' <=? _); [|apply H]. cbn [pb_timers]. intros Hi. apply (H dl n).
      eapply Properties_Store.firstn_skipn_In; eauto. }
    intros P _ H. split; [apply fire_kept; auto|]. intros _ d [].
Qed.
Lemma age_events : closed_events age_rel.
Proof. split; intros; apply age_same; reflexivity. Qed.
Lemma age_step e s : (forall dt, e <> FeTick dt) -> age_rel s (outs (fp_step K e s)) (st (fp_step K e s)).
Proof.
  intros He.
  assert (Forall (fun _ : cop => True) (ev_ops e)) as Ho by (apply Forall_forall; auto).
  destruct e as [a|n l|i buf script|i face|i timeout|dt|t| | |key|i];
    try (apply (tr_step_but K (fun _ => True) age_rel (age_closed _)); auto using age_events; exact I).
  - destruct (He dt eq_refl).
  - apply age_same; reflexivity.
  - pose proof (age_closed (fun _ => True)) as C.
    change (tr age_rel s (fp_step K FeDelay)). cbn [fp_step].
    apply (tr_get age_rel). destruct (f_delay s) as [dl|]; [|apply (tr_ret K _ age_rel C)].
    destruct (dl <=? _); [|apply (tr_ret K _ age_rel C)].
    apply (tr_mod K _ age_rel C); [apply age_same; reflexivity|].
    apply (tr_seq K _ age_rel C); [apply (tr_process K _ age_rel C); auto|intros; apply (tr_schedule K _ age_rel C)].
Qed.

Definition fborn (sys : Z) (evs : list fev) (dl : N) (d : data) : Prop :=
  exists pre e post s0 o0 s1 o1 k, evs = pre ++ e :: post /\ fp_start K sys pre = Some (s0, o0) /\
    fp_start K sys (pre ++ [e]) = Some (s1, o1) /\ dl = f_now s1 + d_fresh d /\
    (pb_published (f_pub s0) <= k < pb_published (f_pub s1))%nat /\ of_publication E k d.
Lemma fborn_app sys evs evs' dl d : fborn sys evs dl d -> fborn sys (evs ++ evs') dl d.
Proof.
  intros (pre & e & post & s0 & o0 & s1 & o1 & k & -> & H). exists pre, e, (post ++ evs'), s0, o0, s1, o1, k.
  rewrite <- app_assoc. auto.
Qed.
Lemma start_snoc sys evs e s1 o1 s o : fp_start K sys evs = Some (s1, o1) -> fp_start K sys (evs ++ [e]) = Some (s, o1 ++ o) ->
  st (fp_step K e s1) = s /\ outs (fp_step K e s1) = o.
Proof.
  unfold fp_start. destruct (fp_init K sys) as [[s0 o0] [u|x|u|]]; try discriminate.
  unfold fp_run. destruct (run (fp_step K) s0 evs) as [[a b]|] eqn:R; [|discriminate]. intros [= -> <-].
  destruct (run (fp_step K) s0 (evs ++ [e])) as [[a' b']|] eqn:R'; [|discriminate]. intros [= -> H].
  apply run_snoc in R' as (s2 & o2 & o3 & R2 & A & B & -> & _). rewrite R in R2. injection R2 as <- <-.
  rewrite app_assoc in H. apply app_inv_head in H. subst. auto.
Qed.
Lemma fstep_fresh sys evs e s1 o1 s o : fp_start K sys evs = Some (s1, o1) ->
  fp_start K sys (evs ++ [e]) = Some (s, o1 ++ o) -> kept (fborn sys evs) (f_pub s1) ->
  kept (fborn sys (evs ++ [e])) (f_pub s) /\
  (erased_in_time (f_now s1) (f_pub s1) -> forall d, In d (data_of o) -> d_type d = AppNack \/
     exists dl, fborn sys (evs ++ [e]) dl d /\ f_now s <= dl).
Proof.
  intros R1 R I. destruct (start_snoc _ _ _ _ _ _ _ R1 R) as [Es Eo].
  apply (kept_mono _ (fborn sys (evs ++ [e]))) in I; [|intros; apply fborn_app; auto].
  assert ((forall dt, e <> FeTick dt) \/ exists dt, e = FeTick dt) as [He|[dt ->]]
    by (destruct e; try (left; discriminate); eauto).
  - pose proof (age_step e s1 He) as A. rewrite Es, Eo in A. destruct A as (A & B & C & D).
    destruct (D (fborn sys (evs ++ [e]))) as [D1 D2]; auto.
    { intros d k Hk Hd. exists evs, e, [], s1, o1, s, (o1 ++ o), k. rewrite A. auto 10. }
    split; auto. intros T. rewrite A. apply D2. intros dl n Hi. apply T in Hi. lia.
  - cbn in Es, Eo. subst. split; auto. intros _ d [].
Qed.
Theorem frun_fresh sys evs : forall s o, fp_start K sys evs = Some (s, o) -> kept (fborn sys evs) (f_pub s).
Proof.
  induction evs as [|e evs IH] using rev_ind; intros s o R.
  - unfold fp_start, fp_init in R. pose proof (age_send (fp_blank K sys)) as (A & B & C & D).
    destruct (send_sync_interest K (fp_blank K sys)) as [[s0 o0] [u|x|u|]] eqn:Q; try discriminate.
    cbn in R. injection R as <- _. unfold st, outs in *. cbn [fst snd] in *.
    rewrite send_eq in Q. assert (f_pub s0 = pub_new) as ->; [|apply kept_new].
    destruct (f_wait _); [injection Q as <- _ _; reflexivity|].
    destruct (sync_name _ _) as [n|e|u0|]; try (injection Q as <- _ _; reflexivity).
    destruct (_ && _); injection Q as <- _ _; unfold sent; cbn; reflexivity.
  - assert (exists s1 o1 o2, fp_start K sys evs = Some (s1, o1) /\ o = o1 ++ o2) as (s1 & o1 & o2 & R1 & ->).
    { unfold fp_start in *. destruct (fp_init K sys) as [[s0 o0] [u|x|u|]]; try discriminate.
      unfold fp_run in *. destruct (run (fp_step K) s0 (evs ++ [e])) as [[a' b']|] eqn:R'; [|discriminate]. injection R as <- <-.
      apply run_snoc in R' as (s2 & o2 & o3 & R2 & _ & _ & -> & _). rewrite R2. exists s2, (o0 ++ o2), o3.
      rewrite app_assoc. auto. }
    eapply fstep_fresh; eauto.
Qed.
End Age.
