(** Callbacks that throw. *)
From Coq Require Import List NArith ZArith Bool Arith Lia.
From Verif Require Import Base BaseFacts Mon MonFacts Iblt SpecIblt IbltFacts Tlv TlvFacts State NMap NMapFacts
  Codec CodecFacts Bloom Store StoreFacts Producer SpecProducer ProducerFacts Partial SpecPartial PartialFacts
  PartialSteps Full FullTrace SpecFull FullFacts FullSafe FullSteps FullData FullRuns FullTimers
  Consumer Throwing SpecThrow.
Import ListNotations.
Local Open Scope N_scope.

(** the new definitions are the old ones when the callback returns *)
Lemma content_same K i buf script : fp_content K i buf (api_calls K script) = fp_step K (FeContent i buf script).
Proof. reflexivity. Qed.
Lemma c_content_same K i buf sc1 sc2 : c_content K i buf (calls K sc1) (calls K sc2) = c_step K (CeContent i buf sc1 sc2).
Proof. reflexivity. Qed.

(** what a node does up to the callback, and whether it gets there *)
Definition after_cb (K : fcfg) : FM unit :=
  mlet j <- draw K;
  mmod (fun s => fset_wait false (fset_sched (Some (f_now s + j, KSend)) s)) ;; process_waiting K.
Lemma content_eq K i buf cb s : fp_content K i buf cb s =
  match fetch_of i (f_live s) with
  | None => (s, [], Ok tt)
  | Some n =>
    let s0 := fset_pending (nm_erase n (f_pending s)) (fset_live (without i (f_live s)) s) in
    match obind (decompress (fc_codec K) (fc_cscheme K) buf) state_of_buffer with
    | Throw _ => (s0, [], Ok tt)
    | UB u => (s0, [], UB u)
    | Hang => (s0, [], Hang)
    | Ok names =>
      match take_updates names s0 with
      | (s1, o1, Ok (m :: l)) => let '(s2, o2, r) := (cb ;; after_cb K) s1 in (s2, o1 ++ FoUpdate (m :: l) :: o2, r)
      | (s1, o1, Ok []) =>
        (fset_sched (Some (f_now s1 + (fc_fresh K + jitter_of (fc_env K) (f_draws s1)), KAfterWait))
           (fset_draws (S (f_draws s1)) (fset_wait true s1)), o1 ++ [], Ok tt)
      | (s1, o1, Throw e) => (s1, o1, Throw e)
      | (s1, o1, UB u) => (s1, o1, UB u)
      | (s1, o1, Hang) => (s1, o1, Hang)
      end
    end
  end.
Proof.
  unfold fp_content. rewrite mbind_get. destruct (fetch_of i (f_live s)) as [n|]; [|reflexivity].
  rewrite mbind_mod. unfold on_sync_data_cb, delete_pending. rewrite mbind_mod. cbv zeta.
  cbn [fset_live f_pending].
  destruct (obind _ _) as [names|e|u|]; try reflexivity.
  unfold mbind at 1. destruct (take_updates names _) as [[s1 o1] [[|m l]|e|u|]]; try reflexivity.
  rewrite mbind_emit. fold (after_cb K). destruct ((cb ;; after_cb K) s1) as [[s2 o2] r]. reflexivity.
Qed.
Lemma content_split K i buf s : pfx_ok (k_prefixes (f_core s)) ->
  ((forall cb cb', fp_content K i buf cb s = fp_content K i buf cb' s) /\
    forall cb l, ~ In (FoUpdate l) (outs (fp_content K i buf cb s))) \/
  exists n names s1 o1 l, fetch_of i (f_live s) = Some n /\
    take_updates names (fset_pending (nm_erase n (f_pending s)) (fset_live (without i (f_live s)) s)) = (s1, o1, Ok l) /\ l <> [] /\
    forall cb, fp_content K i buf cb s =
      let '(s2, o2, r) := (cb ;; after_cb K) s1 in (s2, o1 ++ FoUpdate l :: o2, r).
Proof.
  intros Hp.
  assert (forall x, (forall cb, fp_content K i buf cb s = x) -> (forall l, ~ In (FoUpdate l) (outs x)) ->
    (forall cb cb', fp_content K i buf cb s = fp_content K i buf cb' s) /\
    forall cb l, ~ In (FoUpdate l) (outs (fp_content K i buf cb s))) as L.
  { intros x A B. split; intros; [rewrite !A; reflexivity|rewrite A; apply B]. }
  destruct (fetch_of i (f_live s)) as [n|] eqn:F.
  2:{ left. eapply L; [intros; rewrite content_eq, F; reflexivity|]. simpl. tauto. }
  set (s0 := fset_pending (nm_erase n (f_pending s)) (fset_live (without i (f_live s)) s)).
  destruct (obind (decompress (fc_codec K) (fc_cscheme K) buf) state_of_buffer) as [names|e|u|] eqn:E.
  2,3,4: left; eapply L; [intros; rewrite content_eq, F, E; reflexivity|]; simpl; tauto.
  destruct (take_updates names s0) as [[s1 o1] r1] eqn:T.
  assert (pfx_ok (k_prefixes (f_core s0))) as Hp0 by exact Hp.
  destruct (take_inv _ _ _ _ _ Hp0 T) as (_ & O1 & _ & _).
  assert (forall l, ~ In (FoUpdate l) o1) as N1.
  { intros l H. unfold only_ops in O1. rewrite Forall_forall in O1. specialize (O1 _ H). destruct O1 as [? O1]. discriminate. }
  destruct r1 as [[|m l]|e|u|].
  2:{ right. exists n, names, s1, o1, (m :: l). split; auto. split; auto. split; [discriminate|]. intros cb.
      rewrite content_eq, F, E. cbv zeta. fold s0. rewrite T. reflexivity. }
  all: left; eapply L; [intros; rewrite content_eq, F, E; cbv zeta; fold s0; rewrite T; reflexivity|].
  all: cbn [outs fst snd]; rewrite ?app_nil_r; exact N1.
Qed.

(** ** Runs *)
Lemma t_start_inv K sys evs s o : t_start K sys evs = Some (s, o) ->
  exists s0 o0 o1, fp_init K sys = (s0, o0, Ok tt) /\ run (t_step K) s0 evs = Some (s, o1) /\ o = o0 ++ o1.
Proof.
  unfold t_start. destruct (fp_init K sys) as [[s0 o0] [[]|e|u|]]; try discriminate.
  destruct (run (t_step K) s0 evs) as [[s1 o1]|] eqn:E; [|discriminate]. intros [= <- <-]. eauto 8.
Qed.
Lemma treaches_inv K sys evs e s o : treaches K sys (evs ++ [e]) s o ->
  exists s1 o1, treaches K sys evs s1 o1 /\ tev_wf e /\
    s = st (t_step K e s1) /\ o = o1 ++ outs (t_step K e s1) /\
    (res (t_step K e s1) = Ok tt \/ exists x, res (t_step K e s1) = Throw x).
Proof.
  intros [W H]. apply Forall_app in W as [W1 W2]. inversion W2; subst.
  apply t_start_inv in H as (s0 & o0 & o1 & E & R & ->).
  apply run_snoc in R as (s1 & o2 & o3 & R1 & Es & Eo & -> & Hr). exists s1, (o0 ++ o2).
  split; [split; auto; unfold t_start; rewrite E, R1; reflexivity|].
  split; auto. split; auto. split; [rewrite <- app_assoc, Eo; reflexivity|].
  destruct Hr as [[[] Hr]|Hr]; auto.
Qed.
Lemma treaches_nil K sys s o : treaches K sys [] s o -> reaches K sys [] s o.
Proof. intros [W H]. split; [constructor|exact H]. Qed.
Lemma treaches_snoc K sys evs e s o : treaches K sys evs s o -> tev_wf e ->
  (forall u, res (t_step K e s) <> UB u) -> res (t_step K e s) <> Hang ->
  treaches K sys (evs ++ [e]) (st (t_step K e s)) (o ++ outs (t_step K e s)).
Proof.
  intros [W H] We Hu Hh. split; [apply Forall_app; auto|].
  apply t_start_inv in H as (s0 & o0 & o1 & E & R & ->). unfold t_start. rewrite E, run_app, R. cbn [run]. unfold res, st, outs in *.
  destruct (t_step K e s) as [[s2 o2] [u|x|u|]]; simpl in *; rewrite ?app_nil_r, ?app_assoc; auto.
  - elim (Hu u). reflexivity.
  - elim Hh. reflexivity.
Qed.
Lemma treaches_step K sys evs e s o s' o' r : treaches K sys evs s o -> tev_wf e ->
  t_step K e s = (s', o', r) -> (r = Ok tt \/ exists x, r = Throw x) -> treaches K sys (evs ++ [e]) s' (o ++ o').
Proof.
  intros R W E Hr. pose proof (treaches_snoc K sys evs e s o R W) as X. rewrite E in X. cbn [st outs res fst snd] in X.
  apply X; destruct Hr as [->|[x ->]]; discriminate.
Qed.
(** runs without throwing callbacks are those of Full.v *)
Lemma run_plain K evs : forall s, run (t_step K) s (map TEvent evs) = fp_run K s evs.
Proof.
  induction evs as [|e evs IH]; intros s; [reflexivity|]. unfold fp_run in *. cbn [map run t_step].
  destruct (fp_step K e s) as [[s1 o1] []]; try reflexivity; rewrite IH; reflexivity.
Qed.
Lemma plain_treaches K sys evs s o : reaches K sys evs s o -> treaches K sys (map TEvent evs) s o.
Proof.
  intros [W H]. split.
  - rewrite Forall_map. eapply Forall_impl; [|exact W]. auto.
  - unfold t_start, fp_start in *. destruct (fp_init K sys) as [[s0 o0] [[]|e|u|]]; try discriminate.
    rewrite run_plain. exact H.
Qed.

(** ** What every relation of FullTrace says of a throwing callback *)
Section Tr.
Variable K : fcfg.
Variable okop : cop -> Prop.
Variable R : fp -> list fout -> fp -> Prop.
Hypothesis C : closed K okop R.
Hypothesis okop_add : forall p, okop (CAdd p).
Hypothesis okop_update : forall p v, v < two64 -> okop (CUpdate p v).
Hypothesis V : closed_events R.
Lemma tr_throws s i buf script x : Forall (fun a => okop (api_op a)) script ->
  tr R s (t_step K (TThrows i buf script x)).
Proof.
  intros Hs. cbn [t_step]. unfold fp_content.
  apply tr_get. destruct (fetch_of i (f_live s)) as [n|] eqn:E; [|apply (tr_ret K okop R C)].
  apply (tr_mod K okop R C); [eapply V; eauto|].
  unfold on_sync_data_cb. apply (tr_seq K okop R C); [apply (tr_delete K okop R C)|]. intros s1.
  destruct (obind _ _) as [names|e|u|]; try apply (tr_ret K okop R C); try apply (tr_lift K okop R C).
  apply (tr_bind K okop R C); [apply (tr_take K okop R C); auto|]. intros s2 o2 [|m l] _.
  - apply (tr_mod K okop R C); [apply V|]. apply (tr_bind K okop R C); [apply (tr_draw K okop R C)|]. intros s3 o3 j _. apply tr_mod1. apply V.
  - apply (tr_seq K okop R C); [apply V|]. intros s3. apply (tr_bind K okop R C).
    + apply (tr_seq K okop R C); [apply (tr_apis K okop R C); auto|]. intros. apply (tr_lift K okop R C).
    + intros s4 o4 [] H4. unfold mbind in H4. destruct (api_calls K script s3) as [[s5 o5] [[]|e|u|]]; discriminate.
Qed.
End Tr.
Lemma throws_ok K s i buf script x : fp_ok K s -> fp_ok K (st (t_step K (TThrows i buf script x) s)).
Proof.
  apply (tr_throws K (fun _ => True) (ok_rel K) (ok_rel_closed K _)); auto; try (apply Forall_forall; auto).
  apply ok_rel_events.
Qed.
Lemma throws_core K s i buf script x : core_rel s (outs (t_step K (TThrows i buf script x) s)) (st (t_step K (TThrows i buf script x) s)).
Proof.
  apply (tr_throws K (fun _ => True) core_rel (core_rel_closed K)); auto; try (apply Forall_forall; auto).
  apply core_rel_events.
Qed.
Lemma throws_ops K s i buf script x : Forall cop_wf (map api_op script) -> Forall cop_wf (ops_of (outs (t_step K (TThrows i buf script x) s))).
Proof.
  intros H. rewrite Forall_map in H. apply (tr_throws K cop_wf ops_rel (ops_rel_closed K)); auto; intros; first [exact I | exact ops_rel_events | constructor].
Qed.
Lemma throws_sys K s i buf script x : f_sys (st (t_step K (TThrows i buf script x) s)) = f_sys s.
Proof.
  apply (tr_throws K (fun _ => True) sys_rel (sys_closed K _)); auto; try (apply Forall_forall; auto).
  apply sys_events.
Qed.
Lemma throws_armed K s i buf script x : armed s -> armed (st (t_step K (TThrows i buf script x) s)).
Proof.
  apply (tr_throws K (fun _ => True) armed_rel (armed_closed K _)); auto; try (apply Forall_forall; auto).
  apply armed_events.
Qed.
Lemma t_step_ok K e s : fp_ok K s -> fp_ok K (st (t_step K e s)).
Proof. destruct e; [apply step_ok|apply throws_ok]. Qed.
Lemma t_step_core K e s : core_rel s (outs (t_step K e s)) (st (t_step K e s)).
Proof. destruct e; [apply step_core|apply throws_core]. Qed.
Lemma t_step_ops K e s : tev_wf e -> Forall cop_wf (ops_of (outs (t_step K e s))).
Proof. destruct e; [apply step_ops|apply throws_ops]. Qed.
Lemma treaches_core K sys evs : forall s o, treaches K sys evs s o ->
  Forall cop_wf (ops_of o) /\ crun (core_new (fc_n K)) (ops_of o) = Ok (f_core s).
Proof.
  induction evs as [|e evs IH] using rev_ind; intros s o R.
  - eapply reaches_core. apply treaches_nil. exact R.
  - apply treaches_inv in R as (s1 & o1 & R1 & We & -> & -> & _). destruct (IH _ _ R1) as [A B].
    rewrite ops_of_app. split; [apply Forall_app; split; auto; apply t_step_ops; auto|].
    rewrite crun_app, B. apply t_step_core.
Qed.
Lemma treaches_pfx K sys evs s o : treaches K sys evs s o -> pfx_ok (k_prefixes (f_core s)).
Proof. intros R. apply treaches_core in R as [W C]. exact (crun_pfx _ _ _ (core_new_pfx _) W C). Qed.
Lemma treaches_ok K sys evs : forall s o, treaches K sys evs s o -> fp_ok K s.
Proof.
  induction evs as [|e evs IH] using rev_ind; intros s o R.
  - eapply reaches_ok. apply treaches_nil. exact R.
  - apply treaches_inv in R as (s1 & o1 & R1 & We & -> & -> & _). apply t_step_ok. eauto.
Qed.

(** ** The timers *)
Lemma throws_ticking K s i buf script x : pfx_ok (k_prefixes (f_core s)) -> fp_ok K s ->
  ticking K s -> ticking K (st (t_step K (TThrows i buf script x) s)).
Proof.
  intros Pk Ok_ T. cbn [t_step]. pose proof (tick_closed K (fun _ => True)) as C.
  rewrite content_eq. destruct (fetch_of i (f_live s)) as [n|] eqn:E; [|exact T].
  assert (without i (f_live s) = [] /\ f_wait s = false) as [Lv W].
  { destruct (fo_live _ _ Ok_) as [L|(j & F & L)]; rewrite L in E; [discriminate|].
    simpl in E. destruct (Nat.eqb_spec i j) as [->|]; [|discriminate]. rewrite L, without_cons. split; auto.
    destruct (f_wait s) eqn:W; auto. rewrite (tk_live _ _ T W) in L. discriminate. }
  cbv zeta. rewrite Lv. set (s1 := fset_pending (nm_erase n (f_pending s)) (fset_live [] s)).
  assert (ticking K s1) as T1 by (revert T; apply ticking_same; auto).
  destruct (obind _ _) as [names|e|u|]; try exact T1.
  pose proof (tr_take K (fun _ => True) (tick_rel K) C (fun _ => I) (fun _ _ _ => I) names s1 T1) as T2.
  unfold st in T2. destruct (take_updates names s1) as [[s2 o2] r2] eqn:E2.
  destruct (take_inv names s1 s2 o2 r2 Pk E2) as ([F2 _ (_ & _ & _ & _ & F2' & _)] & _ & _ & Z).
  destruct r2 as [[|m l]|e|u|]; try exact T2.
  - simpl in T2. pose proof (jitter_bounds (fc_env K) (f_draws s2)) as J.
    unfold st. cbn [fst]. apply ticking_sched.
    + cbn [f_now f_draws fset_wait fset_draws]. unfold silence. lia.
    + exact (ticking_last _ _ T2).
    + intros _. split; auto.
  - pose proof (tr_apis K (fun _ => True) (tick_rel K) C script s2 (ok_true _ _ (fun _ => I)) T2) as T3.
    unfold st, mbind in *. destruct (api_calls K script s2) as [[s3 o3] [[]|e|u|]]; exact T3.
Qed.
Fixpoint tclock (sys : Z) (evs : list tev) : Z :=
  match evs with
  | [] => sys
  | TEvent (FeTick dt) :: r => tclock (sys + Z.of_N dt) r
  | TEvent (FeClock t) :: r => tclock t r
  | _ :: r => tclock sys r
  end.
Lemma tclock_app a b : forall sys, tclock sys (a ++ b) = tclock (tclock sys a) b.
Proof. induction a as [|[x|] a IH]; intros sys; simpl; auto. destruct x; apply IH. Qed.
Lemma tsteady_last evs : forall sys t, tsteady sys (evs ++ [TEvent (FeClock t)]) -> (tclock sys evs <= t)%Z.
Proof.
  induction evs as [|[x|] evs IH]; intros sys t; simpl; [tauto| |apply IH]. destruct x; auto.
  intros [_ H]. auto.
Qed.
Lemma tsteady_app sys evs e : tsteady sys (evs ++ [e]) -> tsteady sys evs.
Proof.
  revert sys. induction evs as [|[x|] evs IH]; intros sys; simpl; auto.
  destruct x; auto. intros [A B]. split; auto.
Qed.
Lemma treaches_sys K sys evs : forall s o, treaches K sys evs s o -> f_sys s = tclock sys evs.
Proof.
  induction evs as [|e evs IH] using rev_ind; intros s o R.
  - apply treaches_nil, reaches_sys in R. exact R.
  - apply treaches_inv in R as (s1 & o1 & R1 & _ & -> & _). rewrite tclock_app, <- (IH _ _ R1).
    destruct e as [e|i buf script x]; [|apply throws_sys]. cbn [t_step]. rewrite step_sys. destruct e; reflexivity.
Qed.
Theorem treaches_ticking K sys evs : forall s o, schemes_ok K -> (0 <= sys)%Z -> tsteady sys evs ->
  treaches K sys evs s o -> ticking K s.
Proof.
  induction evs as [|e evs IH] using rev_ind; intros s o Sk S0 St R.
  - apply treaches_nil in R. eapply reaches_ticking; eauto. exact I.
  - pose proof R as R'. apply treaches_inv in R' as (s1 & o1 & R1 & _ & -> & _).
    assert (ticking K s1) as T by (eapply IH; eauto; eapply tsteady_app; eauto).
    destruct e as [e|i buf script x]; [apply step_ticking|apply throws_ticking]; auto;
      try (eapply treaches_pfx; eauto; fail); try (eapply treaches_ok; eauto; fail).
    destruct e; try exact I. simpl. rewrite (treaches_sys _ _ _ _ _ R1). eapply tsteady_last; eauto.
Qed.
Theorem treaches_armed K sys evs : forall s o, schemes_ok K -> uri_ok K -> treaches K sys evs s o -> armed s.
Proof.
  induction evs as [|e evs IH] using rev_ind; intros s o Sk Uk R.
  - apply treaches_nil in R. eapply reaches_armed; eauto.
  - pose proof R as R'. apply treaches_inv in R' as (s1 & o1 & R1 & _ & -> & _ & Hr).
    destruct e as [e|i buf script x]; [|apply throws_armed; eauto].
    apply step_armed; auto; [eapply treaches_ok; eauto|eauto].
Qed.
