(** Property theorems about full-sync nodes: how often they ask (C102). *)
From Coq Require Import List NArith ZArith Bool Arith Lia.
From Verif Require Import Base Mon MonFacts Iblt BaseFacts IbltFacts SpecIblt Tlv State NMap Codec Bloom Store Producer
  SpecProducer Partial SpecPartial Full FullTrace SpecFull FullFacts FullSafe FullSteps FullData FullRuns FullTimers
  FullSends FullAsk Properties_Producer Properties_Full.
Import ListNotations.
Local Open Scope N_scope.

(** * C102 *)
(** while the clock is steady and timers are prompt, more than half the interest lifetime, the
    freshness period and two jitters never pass without a sync interest, whatever happens meanwhile *)
Theorem C102_asks_regularly : forall K sys evs s o evs' s' o',
  schemes_ok K -> (0 <= sys)%Z -> steady sys (evs ++ evs') -> Forall fev_wf evs' ->
  reaches K sys evs s o -> prompt K s evs' -> fp_run K s evs' = Some (s', o') ->
  fc_life K / 2 + fc_fresh K + 2 * 500 < time_of evs' ->
  exists o1 n t o2 k, o' = o1 ++ FoInterest n t :: o2 /\
    crun (core_new (fc_n K)) (ops_of (o ++ o1)) = Ok k /\ asks K k n.
Proof.
  intros K sys evs s o evs' s' o' Sk S0 St Wf R Pr E T.
  assert (reaches K sys (evs ++ evs') s' (o ++ o')) as R'.
  { destruct R as [W H]. split; [apply Forall_app; auto|]. apply start_inv in H as (s0 & o0 & o1 & E0 & R & ->).
    unfold fp_start. rewrite E0. unfold fp_run in *. rewrite run_app, R, E, app_assoc. reflexivity. }
  assert (sends_one o' \/ no_interest o') as [(n & t & H)|H].
  { clear. induction o' as [|x o' [(n & t & H)|H]]; [right; intros ? ? []|left; exists n, t; right; exact H|].
    destruct x; try (right; intros n' t' [X|X]; [discriminate|exact (H n' t' X)]). left. eexists _, _. left. reflexivity. }
  - apply in_split in H as (o1 & o2 & ->). exists o1, n, t, o2.
    destruct (reaches_asks _ _ _ _ _ R' (o ++ o1) n t o2) as (k & A & B); [rewrite app_assoc; reflexivity|].
    exists k. auto.
  - pose proof (asks_within K sys evs s o evs' s' o' Sk S0 St Wf R Pr E H) as L. unfold silence, MAX_JITTER in L. lia.
Qed.
Print Assumptions C102_asks_regularly.

(** every delay from 100 to 500 ms occurs: there are random numbers for which a new node asks again
    half its interest lifetime and exactly this delay after it asked first *)
Theorem C102_every_delay_occurs : forall j, 100 <= j <= 500 -> exists E, forall K sys dt,
  fc_env K = E -> schemes_ok K -> (100 <= sys)%Z -> exists s n m,
  fp_start K sys [FeTick dt; FeSend] =
    Some (s, FoInterest n sys :: if fc_life K / 2 + j <=? dt then [FoInterest m (sys + Z.of_N dt)] else []).
Proof.
  intros j Hj. exists (mkEnv (fun _ => 0) (fun _ => []) (fun _ => j - 100) (fun n => Ok n)). intros K sys dt EE Sk S0.
  assert (jitter_of (fc_env K) 0 = j) as J.
  { rewrite EE. unfold jitter_of, MIN_JITTER, MAX_JITTER. cbn [en_jitter]. change (500 - 100 + 1) with 401.
    rewrite N.mod_small by lia. lia. }
  destruct (sync_name_total K (core_new (fc_n K)) Sk) as (n & Sn & _).
  unfold fp_start, fp_init. rewrite send_eq. unfold stopped. cbn [f_wait f_core f_fetcher f_sys f_last f_outstanding fp_blank].
  rewrite Sn. replace (sys - 0 <? Z.of_N MIN_JITTER)%Z with false by (symmetry; apply Z.ltb_ge; unfold MIN_JITTER; lia).
  cbn [andb]. unfold fp_run. cbn [run]. 
  set (a := fset_time (0 + dt) (sys + Z.of_N dt) (sent K n (fp_blank K sys))).
  change (fp_step K (FeTick dt) (sent K n (fp_blank K sys))) with (a, @nil fout, Ok tt). cbv iota beta.
  cbn [fp_step]. rewrite mbind_get.
  change (f_sched a) with (Some (0 + (fc_life K / 2 + jitter_of (fc_env K) 0), KSend)). rewrite J, N.add_0_l. cbv iota beta.
  change (f_now a) with (0 + dt). rewrite N.add_0_l. destruct (fc_life K / 2 + j <=? dt) eqn:L.
  - rewrite mbind_mod, send_eq. change (f_wait (fset_sched None a)) with false. cbv iota.
    change (f_core (fset_sched None a)) with (core_new (fc_n K)). rewrite Sn.
    change (f_sys (fset_sched None a)) with (sys + Z.of_N dt)%Z. change (f_last (fset_sched None a)) with sys.
    replace (sys + Z.of_N dt - sys <? Z.of_N MIN_JITTER)%Z with false
      by (symmetry; apply Z.ltb_ge; apply N.leb_le in L; unfold MIN_JITTER; lia).
    cbn [andb]. eexists _, _, _. reflexivity.
  - eexists _, n, n. reflexivity.
Qed.
Print Assumptions C102_every_delay_occurs.

Definition K_slow : fcfg :=
  mkFcfg (fc_sync Kf) (fc_n Kf) (fc_scheme Kf) (fc_cscheme Kf) (fc_life Kf) (fc_fresh Kf) (fc_codec Kf)
    (mkEnv (fun _ => 0) (fun _ => []) (fun _ => 400) (fun n => Ok n)) (fc_fuel Kf).
Example C102_delay_example : exists s s' n m,
  schemes_ok K_slow /\ fp_start K_slow 1000 [FeTick 999; FeSend] = Some (s, [FoInterest n 1000]) /\
  fp_start K_slow 1000 [FeTick 1000; FeSend] = Some (s', [FoInterest n 1000; FoInterest m 2000]).
Proof. eexists _, _, _, _. split; [apply Kf_ok|]. split; vm_compute; reflexivity. Qed.

(** content without news arrives just before the timer fires: no sync interest for 1700 of the 2500 ms;
    then the node asks three times *)
Definition no_names : bytes := encode_names [].
Definition evs_102 : list fev :=
  [FeTick 600; FeContent 0 no_names []; FeTick 1100; FeSend; FeTick 500; FeError 1 false; FeTick 100; FeSend; FeTick 600; FeSend].
Definition s_102 : fp := Eval vm_compute in fst (full_after Kf []).
Definition o_102 : list fout := Eval vm_compute in snd (full_after Kf []).
Example C102_example : exists s' o' n1 n2 n3,
  schemes_ok Kf /\ steady 0 ([] ++ evs_102) /\ Forall fev_wf evs_102 /\ reaches Kf 0 [] s_102 o_102 /\
  prompt Kf s_102 evs_102 /\ fp_run Kf s_102 evs_102 = Some (s', o') /\
  fc_life Kf / 2 + fc_fresh Kf + 2 * 500 < time_of evs_102 /\
  o' = [FoInterest n1 1700; FoInterest n2 2300; FoInterest n3 2900].
Proof.
  eexists _, _, _, _, _. split; [apply Kf_ok|]. split; [cbn; auto|]. split; [repeat constructor; apply wf_nil; reflexivity|].
  split; [split; [constructor|vm_compute; reflexivity]|].
  split.
  { unfold evs_102. cbn [prompt].
    repeat match goal with |- _ /\ _ => split; [intros dt dl k X Y; try discriminate; injection X as <-; vm_compute in Y; injection Y as <- <-; vm_compute; discriminate|] end. exact I. }
  split; [vm_compute; reflexivity|]. split; vm_compute; reflexivity.
Qed.
