(** Facts about full-sync nodes. *)
From Coq Require Import List NArith ZArith Bool Arith Lia.
From Verif Require Import Base BaseFacts Mon MonFacts Iblt SpecIblt IbltFacts Tlv TlvFacts State NMap NMapFacts
  Codec CodecFacts Store StoreFacts Producer SpecProducer ProducerFacts Partial SpecPartial PartialFacts
  PartialSteps Full FullTrace SpecFull.
Import ListNotations.
Local Open Scope N_scope.

Definition stopped (s : fp) : fp :=
  match f_fetcher s with Some i => fset_live (without i (f_live s)) s | None => s end.
Definition sent (K : fcfg) (n : name) (s : fp) : fp :=
  let s1 := fset_draws (S (f_draws s)) s in
  fset_started n (fset_sched (Some (f_now s + (fc_life K / 2 + jitter_of (fc_env K) (f_draws s)), KSend)) s1).

Lemma send_eq K s : send_sync_interest K s =
  if f_wait s then (s, [], Ok tt)
  else match sync_name K (f_core s) with
       | Ok n => if (f_sys s - f_last s <? Z.of_N MIN_JITTER)%Z && name_eqb (f_outstanding s) n
                 then (stopped s, [], Ok tt)
                 else (sent K n (stopped s), [FoInterest n (f_sys s)], Ok tt)
       | Throw e => (stopped s, [], Throw e)
       | UB u => (stopped s, [], UB u)
       | Hang => (stopped s, [], Hang)
       end.
Proof.
  unfold send_sync_interest. rewrite mbind_get. destruct (f_wait s); [reflexivity|].
  unfold stop_fetcher. rewrite mbind_mod. fold (stopped s). rewrite mbind_lift.
  destruct (sync_name K (f_core s)) as [n|e|u|]; try reflexivity.
  destruct (_ && _); [reflexivity|]. unfold draw. rewrite mbind_assoc, mbind_get, mbind_assoc, mbind_mod, mbind_ret, mbind_mod.
  reflexivity.
Qed.

Lemma sync_name_total K k : schemes_ok K -> exists n, sync_name K k = Ok n /\ asks K k n.
Proof.
  intros [H _]. destruct (scheme_ok_append (fc_codec K) (fc_scheme K) (fc_sync K) (k_iblt k) H) as (c & Hc & E).
  unfold sync_name. rewrite E. cbn [obind]. eexists. split; [reflexivity|]. exists c. split; auto.
  unfold append_number. rewrite <- app_assoc. reflexivity.
Qed.
Lemma sync_name_asks K k n : sync_name K k = Ok n -> asks K k n.
Proof.
  unfold sync_name. intros H. apply obind_ok in H as (x & H & E). injection E as <-.
  apply append_ibf_carries in H as (c & Hc & ->). exists c. split; auto.
  unfold append_number. rewrite <- app_assoc. reflexivity.
Qed.
Lemma asks_sync_name K k n : asks K k n -> sync_name K k = Ok n.
Proof.
  intros (c & [T E] & ->). unfold sync_name, append_ibf. rewrite E. cbn [obind].
  unfold append_number, append_bytes. rewrite <- app_assoc. destruct c as [t v]. simpl in T. subst t. reflexivity.
Qed.

(** *** Relations that hold of every event *)
Section Closure.
Variable K : fcfg.
Variable R : fp -> list fout -> fp -> Prop.
Hypothesis Rr : forall s, R s [] s.
Hypothesis Rt : forall s o s1 o1 s2, R s o s1 -> R s1 o1 s2 -> R s (o ++ o1) s2.
Hypothesis Rp : forall s n b f, R s
    (map FoData match snd (publish (fc_env K) (f_now s) n n b f (f_pub s)) with Ok l => l | _ => [] end)
    (fset_pub (fst (publish (fc_env K) (f_now s) n n b f (f_pub s))) s).
Hypothesis Rs : forall s, R s (outs (send_sync_interest K s)) (st (send_sync_interest K s)).
Hypothesis Rc : forall s i, f_fetcher s = Some i ->
  R s [] (fset_outstanding [] (fset_live (without i (f_live s)) s)).
Lemma fp_publish_eq n b f s : fp_publish K n n b f s =
  (fset_pub (fst (publish (fc_env K) (f_now s) n n b f (f_pub s))) s,
   map FoData match snd (publish (fc_env K) (f_now s) n n b f (f_pub s)) with Ok l => l | _ => [] end,
   match snd (publish (fc_env K) (f_now s) n n b f (f_pub s)) with
   | Ok _ => Ok tt | Throw e => Throw e | UB u => UB u | Hang => Hang end).
Proof. unfold fp_publish. destruct (publish _ _ _ _ _ _ _) as [q [l|e|u|]]; reflexivity. Qed.
Lemma data_closed s n l f : R s (outs (send_sync_data K n l f s)) (st (send_sync_data K n l f s)).
Proof.
  unfold send_sync_data. rewrite mbind_get. cbv zeta.
  assert (forall s', R s' (outs ((mlet buf <- mlift (compress (fc_codec K) (fc_cscheme K) (encode_names l));
    fp_publish K n n buf f ;; (if name_eqb (f_outstanding s) n then send_sync_interest K else mret tt)) s'))
    (st ((mlet buf <- mlift (compress (fc_codec K) (fc_cscheme K) (encode_names l));
    fp_publish K n n buf f ;; (if name_eqb (f_outstanding s) n then send_sync_interest K else mret tt)) s'))) as H.
  { intros s'. rewrite mbind_lift. destruct (compress _ _ _) as [buf|e|u|]; try apply Rr.
    unfold mbind. rewrite fp_publish_eq. pose proof (Rp s' n buf f) as P.
    destruct (publish _ _ _ _ _ _ _) as [q [x|e|u|]]; cbn [fst snd] in P |- *; try exact P.
    pose proof (Rs (fset_pub q s')) as S. destruct (name_eqb _ n).
    - unfold outs, st in *. destruct (send_sync_interest K (fset_pub q s')) as [[a b] c]. simpl in *. eauto.
    - unfold outs, st, mret. simpl. rewrite app_nil_r. exact P. }
  destruct (_ && _) eqn:E; [|rewrite mbind_ret; apply H].
  apply andb_prop in E as [_ E]. destruct (f_fetcher s) as [i|] eqn:F; [|discriminate].
  unfold stop_fetcher. rewrite mbind_assoc, !mbind_mod, F.
  change (outs _) with ([] ++ outs ((mlet buf <- mlift (compress (fc_codec K) (fc_cscheme K) (encode_names l));
    fp_publish K n n buf f ;; (if name_eqb (f_outstanding s) n then send_sync_interest K else mret tt))
    (fset_outstanding [] (fset_live (without i (f_live s)) s)))).
  eapply Rt; [apply Rc; exact F|apply H].
Qed.
End Closure.

Section Delay.
Variable K : fcfg.
Variable R : fp -> list fout -> fp -> Prop.
Hypothesis Rr : forall s, R s [] s.
Hypothesis Rt : forall s o s1 o1 s2, R s o s1 -> R s1 o1 s2 -> R s (o ++ o1) s2.
Hypothesis Rd : forall s x, R s [] (fset_delay x s).
Hypothesis Rj : forall s, R s [] (fset_draws (S (f_draws s)) s).
Lemma schedule_eq s : schedule_waiting K s =
  (match f_waiting s, f_delay s with
   | _ :: _, None => fset_delay (Some (f_now s + jitter_of (fc_env K) (f_draws s))) (fset_draws (S (f_draws s)) s)
   | _, _ => s end, [], Ok tt).
Proof.
  unfold schedule_waiting. rewrite mbind_get. destruct (f_waiting s); [reflexivity|].
  destruct (f_delay s); reflexivity.
Qed.
Lemma arm_closed s : R s (outs (schedule_waiting K s)) (st (schedule_waiting K s)).
Proof.
  rewrite schedule_eq. unfold outs, st. cbn [fst snd].
  destruct (f_waiting s); [apply Rr|]. destruct (f_delay s); [apply Rr|].
  change (@nil fout) with (@nil fout ++ []). eapply Rt; [apply Rj|apply Rd].
Qed.
Lemma start_closed s n : R s [] (fset_waiting (nm_set n 0 (f_waiting s)) s) ->
  R s (outs (start_waiting K n s)) (st (start_waiting K n s)).
Proof.
  intros H. unfold start_waiting. rewrite mbind_mod.
  change (outs _) with ([] ++ outs (schedule_waiting K (fset_waiting (nm_set n 0 (f_waiting s)) s))).
  eapply Rt; [exact H|apply arm_closed].
Qed.
End Delay.

(** **** The node's own data *)
Definition core_rel (s : fp) (o : list fout) (s' : fp) : Prop :=
  crun (f_core s) (ops_of o) = Ok (f_core s').
Lemma core_rel_refl s : core_rel s [] s. Proof. reflexivity. Qed.
Lemma core_rel_trans s o s1 o1 s2 : core_rel s o s1 -> core_rel s1 o1 s2 -> core_rel s (o ++ o1) s2.
Proof. unfold core_rel. rewrite ops_of_app, crun_app. intros -> H. exact H. Qed.
Lemma stopped_core s : f_core (stopped s) = f_core s.
Proof. unfold stopped. destruct (f_fetcher s); reflexivity. Qed.
Lemma core_rel_send K s : core_rel s (outs (send_sync_interest K s)) (st (send_sync_interest K s)).
Proof.
  rewrite send_eq. unfold core_rel, outs, st. destruct (f_wait s); [reflexivity|].
  destruct (sync_name _ _); simpl; rewrite ?stopped_core; auto.
  destruct (_ && _); simpl; rewrite ?stopped_core; auto.
Qed.
Lemma core_rel_closed K : closed K (fun _ => True) core_rel.
Proof.
  split; intros; try reflexivity; try apply core_rel_send;
    try (apply arm_closed || apply start_closed); try reflexivity; try apply core_rel_trans.
  - eapply core_rel_trans; eauto.
  - unfold core_rel. simpl. rewrite H0. reflexivity.
  - unfold core_rel. rewrite ops_of_data. reflexivity.
  - apply data_closed; intros; try reflexivity.
    + eapply core_rel_trans; eauto.
    + unfold core_rel. rewrite ops_of_data. reflexivity.
    + apply core_rel_send.
Qed.
Lemma core_rel_events : closed_events core_rel.
Proof. split; reflexivity. Qed.
Lemma step_core K s e : core_rel s (outs (fp_step K e s)) (st (fp_step K e s)).
Proof.
  apply (tr_step K (fun _ => True) core_rel (core_rel_closed K)); auto; try apply core_rel_events; try reflexivity.
  apply Forall_forall. auto.
Qed.
Lemma run_core K evs s s' o : fp_run K s evs = Some (s', o) -> core_rel s o s'.
Proof. apply (tr_run K (fun _ => True) core_rel (core_rel_closed K)); auto; try apply core_rel_events; try reflexivity. apply Forall_forall. auto. Qed.

(** **** Operations have proper arguments *)
Definition ops_rel (s : fp) (o : list fout) (s' : fp) : Prop := Forall cop_wf (ops_of o).
Lemma ops_rel_trans s o s1 o1 s2 : ops_rel s o s1 -> ops_rel s1 o1 s2 -> ops_rel s (o ++ o1) s2.
Proof. unfold ops_rel. rewrite ops_of_app. intros. apply Forall_app. auto. Qed.
Lemma send_no_ops K s : ops_of (outs (send_sync_interest K s)) = [].
Proof.
  rewrite send_eq. unfold outs. destruct (f_wait s); [reflexivity|].
  destruct (sync_name _ _); try reflexivity. destruct (_ && _); reflexivity.
Qed.
Lemma ops_rel_closed K : closed K cop_wf ops_rel.
Proof.
  split; intros; try (constructor; fail);
    try (apply arm_closed || apply start_closed); try (intros; constructor; fail); try apply ops_rel_trans.
  - eapply ops_rel_trans; eauto.
  - constructor; auto.
  - unfold ops_rel. rewrite ops_of_data. constructor.
  - unfold ops_rel. rewrite send_no_ops. constructor.
  - apply data_closed; intros; try (constructor; fail).
    + eapply ops_rel_trans; eauto.
    + unfold ops_rel. rewrite ops_of_data. constructor.
    + unfold ops_rel. rewrite send_no_ops. constructor.
Qed.
Lemma ops_rel_events : closed_events ops_rel.
Proof. split; intros; constructor. Qed.
Lemma step_ops K s e : fev_wf e -> Forall cop_wf (ops_of (outs (fp_step K e s))).
Proof.
  intros H. apply (tr_step K cop_wf ops_rel (ops_rel_closed K)); auto; intros; first [exact I | exact ops_rel_events | constructor].
Qed.
Lemma flat_wf evs : Forall fev_wf evs -> Forall cop_wf (flat_map ev_ops evs).
Proof. induction 1; simpl; [constructor|]. apply Forall_app. auto. Qed.
Lemma run_ops_wf K evs s s' o : Forall fev_wf evs -> fp_run K s evs = Some (s', o) -> Forall cop_wf (ops_of o).
Proof.
  intros H. apply (tr_run K cop_wf ops_rel (ops_rel_closed K)); auto using flat_wf; intros; first [exact I | exact ops_rel_events | constructor].
Qed.

Lemma start_inv K sys evs s o : fp_start K sys evs = Some (s, o) ->
  exists s0 o0 o1, fp_init K sys = (s0, o0, Ok tt) /\ fp_run K s0 evs = Some (s, o1) /\ o = o0 ++ o1.
Proof.
  unfold fp_start. destruct (fp_init K sys) as [[s0 o0] [[]|e|u|]]; try discriminate.
  destruct (fp_run K s0 evs) as [[s1 o1]|] eqn:E; [|discriminate]. intros [= <- <-]. eauto 8.
Qed.
Lemma init_eq K sys : fp_init K sys =
  match sync_name K (core_new (fc_n K)) with
  | Ok n => (sent K n (fp_blank K sys), [FoInterest n sys], Ok tt)
  | Throw e => (fp_blank K sys, [], Throw e)
  | UB u => (fp_blank K sys, [], UB u)
  | Hang => (fp_blank K sys, [], Hang)
  end.
Proof.
  unfold fp_init. rewrite send_eq. cbn [f_wait fp_blank f_core]. 
  destruct (sync_name K (core_new (fc_n K))) as [n|e|u|] eqn:E; try reflexivity.
  replace (name_eqb (f_outstanding (fp_blank K sys)) n) with false.
  - rewrite andb_false_r. reflexivity.
  - symmetry. apply sync_name_asks in E as (c & _ & ->). destruct (fc_sync K); reflexivity.
Qed.
Lemma reaches_core K sys evs s o : reaches K sys evs s o ->
  Forall cop_wf (ops_of o) /\ crun (core_new (fc_n K)) (ops_of o) = Ok (f_core s).
Proof.
  intros [W H]. apply start_inv in H as (s0 & o0 & o1 & E & R & ->). rewrite init_eq in E.
  destruct (sync_name K _) as [n|e|u|]; try discriminate. injection E as <- <-.
  rewrite ops_of_app. cbn [ops_of app]. split; [eapply run_ops_wf; eauto|].
  apply (run_core K evs _ _ _ R).
Qed.
Lemma reaches_snoc K sys evs e s o : reaches K sys evs s o -> fev_wf e ->
  (forall u, res (fp_step K e s) <> UB u) -> res (fp_step K e s) <> Hang ->
  reaches K sys (evs ++ [e]) (st (fp_step K e s)) (o ++ outs (fp_step K e s)).
Proof.
  intros [W H] We Hu Hh. split; [apply Forall_app; auto|].
  apply start_inv in H as (s0 & o0 & o1 & E & R & ->). unfold fp_start. rewrite E.
  unfold fp_run in *. rewrite run_app, R. cbn [run]. unfold res, st, outs in *.
  destruct (fp_step K e s) as [[s2 o2] [u|x|u|]]; simpl in *; rewrite ?app_nil_r, ?app_assoc; auto.
  - exfalso. eapply Hu. reflexivity.
  - exfalso. apply Hh. reflexivity.
Qed.
