(** Property theorems about how long it takes until a consumer knows of an update (C124). *)
From Coq Require Import List NArith ZArith Bool Arith Lia.
From Coq.Strings Require Import Byte.
From Verif Require Import Base BaseFacts Mon MonFacts Iblt SpecIblt HonestFacts Tlv TlvFacts State NMap NMapFacts Codec CodecFacts
  Properties_Iblt Bloom SpecBloom BloomFacts Properties_Bloom Store StoreFacts Producer SpecProducer ProducerFacts Properties_Producer
  Partial SpecPartial PartialFacts PartialSteps Properties_Partial Full SpecFull FullRuns Consumer SpecConsumer ConsumerFacts Properties_Consumer
  SpecExchange ExchangeFacts Properties_Exchange SpecGroup GroupFacts Properties_Group SpecPair PairProducer PairConsumer PairFacts
  PairProgress Properties_Pair Properties_PairProgress SpecSettle Properties_Settle Properties_Push SpecFresh FreshFacts SpecRecent RecentFacts
  SpecQuiet QuietFacts Properties_Quiet SpecTimely TimelyFacts.
Import ListNotations.
Local Open Scope N_scope.

(** * C124 *)
(** one complete exchange tells the consumer all that the producer knew a freshness period earlier *)
Theorem C124_exchange_tells : forall K Kc wf w0 w w',
  duo_ok K Kc -> fresh_duo K Kc wf -> duo_run K Kc subscribes_in_hello wf w0 ->
  duo_run K Kc subscribes_in_hello w0 w -> complete_exchange K Kc w w' ->
  no_removal (history (du_evs w')) -> plain K w' ->
  pp_now (du_prod w0) + longest_freshness K < pp_now (du_prod w') ->
  knows_all_of w0 w'.
Proof. intros K Kc wf w0 w w' Ok2 Fr R0 R Ex Nr Pl Hq. exact (exchange_knows K Kc Ok2 wf Fr w0 w w' R0 R Ex Nr Pl Hq). Qed.
Print Assumptions C124_exchange_tells.

Section Timely.
Variables (K : pcfg) (Kc : ccfg) (T : N) (wf w0 : duo) (t0 : N).
Hypothesis (Ok2 : duo_ok K Kc) (Fr : fresh_duo K Kc wf) (R0 : duo_run K Kc subscribes_in_hello wf w0).
Hypothesis (L0 : t0 <= pp_now (du_prod w0)) (H0 : pp_now (du_prod w0) <= t0 + T).

Lemma undelayed_run w t : undelayed K Kc T w0 t0 w t -> duo_run K Kc subscribes_in_hello w0 w.
Proof.
  induction 1 as [|dt w t s U IH _ Es|e w t s o r U IH _ We Es Er|e w t c o r U IH B Ec Er|l w t c o r U IH N Ec Er|e d w t w' U IH _ We Fo
    |w t w' U IH Ng|w t w' U IH Ex].
  - constructor.
  - eapply duo_next; [exact IH|]. rewrite <- (app_nil_r (du_sent w)). eapply duo_producer; [exact I|exact Es|left; reflexivity].
  - eapply duo_next; [exact IH|]. eapply duo_producer; eauto.
  - eapply duo_next; [exact IH|]. eapply duo_background; eauto.
  - eapply duo_next; [exact IH|]. eapply duo_calls; eauto.
  - eapply run_trans; [exact IH|]. eapply fetched_run; eauto.
  - eapply run_trans; [exact IH|]. apply nack_run; auto.
  - eapply run_trans; [exact IH|]. apply exchange_run; auto.
Qed.
Lemma step_time e s s' o r : no_tick e -> pp_step K e s = (s', o, r) -> pp_now s' = pp_now s.
Proof.
  intros N E. pose proof (pp_step_clock K e s) as C. rewrite E in C. cbn [st fst] in C. rewrite C. destruct e as [| | | |dt| |]; try (apply N.add_0_r). destruct (N dt). reflexivity.
Qed.
Lemma fetched_time e d w w' : no_tick e -> fetched_at_once K Kc e d w w' -> pp_now (du_prod w') = pp_now (du_prod w).
Proof.
  intros N (o & d1 & w1 & w2 & _ & (s & Es & ->) & _ & _ & _ & Nw & (i & k & m & buf & sc1 & sc2 & c1 & o1 & r1 & c2 & o2 & r2 & H) & _).
  destruct H as (_ & _ & _ & _ & _ & _ & _ & ->). cbn [du_prod] in *. rewrite Nw. eapply step_time; eauto.
Qed.
Lemma no_tick_interest n l : no_tick (PInterest n l).
Proof. intros dt. discriminate. Qed.
Lemma nack_time w w' : gets_nack K Kc w w' -> pp_now (du_prod w') = pp_now (du_prod w).
Proof.
  intros (i & n & l & d & w1 & _ & (s & Es & ->) & _ & (buf & sc1 & sc2 & c1 & o1 & c2 & o2 & _ & _ & _ & _ & _ & ->)). cbn [du_prod].
  exact (step_time _ _ _ _ _ (no_tick_interest n l) Es).
Qed.
Lemma undelayed_knows w t : undelayed K Kc T w0 t0 w t -> no_removal (history (du_evs w)) -> plain K w ->
  t <= pp_now (du_prod w) /\ pp_now (du_prod w) <= t + T /\ (pp_now (du_prod w0) + longest_freshness K < t -> knows_all_of w0 w).
Proof.
  induction 1 as [|dt w t s U IH Hdt Es|e w t s o r U IH Nt We Es Er|e w t c o r U IH B Ec Er|l w t c o r U IH N Ec Er|e d w t w' U IH Nt We Fo
    |w t w' U IH Ng|w t w' U IH Ex]; intros Nr Pl.
  - split; [exact L0|]. split; [exact H0|]. lia.
  - assert (duo_step K Kc subscribes_in_hello w (mkDuo (du_evs w ++ [PTick dt]) s (du_sent w) (du_cons w) (du_seen w))) as St.
    { rewrite <- (app_nil_r (du_sent w)). eapply duo_producer; [exact I|exact Es|left; reflexivity]. }
    destruct (earlier K Kc _ _ _ St Pl Nr) as [Pl1 Nr1]. destruct (IH Nr1 Pl1) as (A & B & C). cbn [du_prod].
    pose proof (pp_step_clock K (PTick dt) (du_prod w)) as Ck. rewrite Es in Ck. cbn [st fst pdt_of] in Ck. rewrite Ck.
    split; [lia|]. split; [exact Hdt|]. intros H. exact (C H).
  - assert (duo_step K Kc subscribes_in_hello w (mkDuo (du_evs w ++ [e]) s (du_sent w ++ o) (du_cons w) (du_seen w))) as St
      by (eapply duo_producer; eauto).
    destruct (earlier K Kc _ _ _ St Pl Nr) as [Pl1 Nr1]. destruct (IH Nr1 Pl1) as (A & B & C). cbn [du_prod].
    rewrite (step_time _ _ _ _ _ Nt Es). split; [exact A|]. split; [exact B|]. intros H. exact (C H).
  - assert (duo_step K Kc subscribes_in_hello w (mkDuo (du_evs w) (du_prod w) (du_sent w) c (du_seen w ++ o))) as St by (eapply duo_background; eauto).
    destruct (earlier K Kc _ _ _ St Pl Nr) as [Pl1 Nr1]. destruct (IH Nr1 Pl1) as (A & B' & C). cbn [du_prod]. split; [exact A|]. split; [exact B'|].
    intros H. apply (kept_knows w0 w); [|exact (C H)]. cbn [du_cons].
    destruct (reached K Kc Ok2 wf Fr w) as (b0 & D); auto. { eapply run_trans; [exact R0|]. eapply undelayed_run; eauto. }
    eapply background_kept; eauto. apply (ci_d _ _ _ _ _ _ _ _ _ _ (di_ci _ _ _ _ _ _ D)).
  - assert (duo_step K Kc subscribes_in_hello w (mkDuo (du_evs w) (du_prod w) (du_sent w) c (du_seen w ++ o))) as St by (eapply duo_calls; eauto).
    destruct (earlier K Kc _ _ _ St Pl Nr) as [Pl1 Nr1]. destruct (IH Nr1 Pl1) as (A & B' & C). cbn [du_prod]. split; [exact A|]. split; [exact B'|].
    intros H. apply (kept_knows w0 w); [|exact (C H)]. cbn [du_cons].
    destruct (reached K Kc Ok2 wf Fr w) as (b0 & D); auto. { eapply run_trans; [exact R0|]. eapply undelayed_run; eauto. }
    eapply calls_kept; eauto. apply (ci_d _ _ _ _ _ _ _ _ _ _ (di_ci _ _ _ _ _ _ D)).
  - pose proof (fetched_run K Kc _ _ _ _ We Fo) as Rw. destruct (earlier_run K Kc _ _ _ Rw Pl Nr) as [Pl1 Nr1]. destruct (IH Nr1 Pl1) as (A & B & C).
    pose proof (fetched_time _ _ _ _ Nt Fo) as Tm. rewrite Tm. split; [exact A|]. split; [exact B|]. intros H.
    apply (fetched_knows K Kc Ok2 wf Fr w0 w e d w' R0 (undelayed_run _ _ U) We Fo Nr Pl). lia.
  - pose proof (nack_run K Kc _ _ Ng) as Rw. destruct (earlier_run K Kc _ _ _ Rw Pl Nr) as [Pl1 Nr1]. destruct (IH Nr1 Pl1) as (A & B & C).
    rewrite (nack_time _ _ Ng). split; [exact A|]. split; [exact B|]. intros H.
    apply (nack_knows K Kc Ok2 wf Fr w0 w w'); auto. eapply run_trans; [exact R0|]. eapply undelayed_run; eauto.
  - split; [lia|]. split; [lia|]. intros H. exact (exchange_knows K Kc Ok2 wf Fr w0 w w' R0 (undelayed_run _ _ U) Ex Nr Pl H).
Qed.
End Timely.

(** when packets are not delayed and at least every [T] milliseconds a sync interest leads to a complete
    exchange, the consumer knows each update of its subscriptions after at most the freshness period
    and [T], whatever else happens, and does not forget it *)
Theorem C124_news_arrive_in_time : forall K Kc T wf w0 t0 w t,
  duo_ok K Kc -> fresh_duo K Kc wf -> duo_run K Kc subscribes_in_hello wf w0 ->
  t0 <= pp_now (du_prod w0) -> pp_now (du_prod w0) <= t0 + T -> undelayed K Kc T w0 t0 w t ->
  no_removal (history (du_evs w)) -> plain K w ->
  pp_now (du_prod w0) + longest_freshness K + T < pp_now (du_prod w) ->
  knows_all_of w0 w.
Proof.
  intros K Kc T wf w0 t0 w t Ok2 Fr R0 L0 H0 U Nr Pl Hq.
  destruct (undelayed_knows K Kc T wf w0 t0 Ok2 Fr R0 L0 H0 w t U Nr Pl) as (A & B & C). apply C. lia.
Qed.
Print Assumptions C124_news_arrive_in_time.

(** the freshness period counts: until it is over, a complete exchange may tell nothing *)
Theorem C124_freshness_counts : exists K Kc wf w w',
  duo_ok K Kc /\ fresh_duo K Kc wf /\ duo_run K Kc subscribes_in_hello wf w /\ complete_exchange K Kc w w' /\
  no_removal (history (du_evs w')) /\ plain K w' /\ ~ knows_all_of w w'.
Proof.
  destruct (x_content2 x_sn 0) as (o & Eo).
  set (evs := du_evs x6 ++ [PInterest x_n 1000]).
  set (w1 := mkDuo evs (x_prod 1) (du_sent x6 ++ [x_nack 0]) (x_live x_sn Blob 2 1 [(2%nat, (KHello, hello_n))] 3) (du_seen x6 ++ [CoInterest KHello hello_n] ++ [])).
  set (w2 := mkDuo (evs ++ [PInterest hello_n 1000]) (x_prod 1) (du_sent w1 ++ [u2_d]) (x_cons x_sn 2) (du_seen w1 ++ [] ++ o)).
  assert (history (du_evs w2) = history (du_evs x6)) as Eh.
  { cbn [w2 du_evs]. unfold evs. rewrite !history_app. cbn [history flat_map]. rewrite !app_nil_r. reflexivity. }
  assert (x6 = mkDuo (du_evs x6) (x_prod 0) (du_sent x6) (x_cons (c_sname (du_cons x6)) 0) (du_seen x6)) as E6 by run.
  exists K2, Kc, u0, x6, w2. split; [exact duo_u|]. split; [exact fresh_u|]. split; [exact run_x6|]. split; [|split; [|split]].
  - apply (ex_nack K2 Kc x6 w2 w1 2 hello_n 1000 u2_d).
    + exists 1%nat, x_n, 1000, (x_nack 0). eexists. split; [run|]. split; [|split; [reflexivity|]].
      * exists (x_prod 1). split; [|reflexivity]. destruct x_start as [_ ->]. apply x_answer.
      * exists [], [], []. do 4 eexists. split; [|split; [|split; [apply sync_rule|split; [|split; [apply x_content|reflexivity]]]]].
        -- run.
        -- apply (one_packet _ x_n (x_nack 0)); [cbn [du_sent]; apply in_or_app; right; left; reflexivity|run|run|reflexivity].
        -- cbn [du_cons]. destruct x_start as [-> _]. apply x_segment.
    + run.
    + exists [u2_d], u2_d. eexists _, _. split; [apply timers_check; run|]. split; [eexists; split; [apply x_hello|reflexivity]|].
      split; [left; reflexivity|]. split; [reflexivity|]. split; [constructor|]. split; [reflexivity|]. split; [|reflexivity].
      apply (completed_fetches Kc 2 KHello hello_n).
      exists (d_content u2_d), [CSendSync], []. do 4 eexists. split; [|split; [|split; [apply rule_again|split; [apply x_segment2|split; [exact Eo|reflexivity]]]]].
      * run.
      * apply (one_packet _ hello_n u2_d); [cbn [du_sent]; apply in_or_app; right; left; reflexivity|run|run|reflexivity].
  - rewrite Eh. apply no_removal_check. run.
  - apply plain_x. exact Eh.
  - intros H. specialize (H pb ltac:(run)). revert H. vm_compute. intros H. apply H. reflexivity.
Qed.
Print Assumptions C124_freshness_counts.

(** ** Example *)
(** the update of [y6] (which the consumer is subscribed to, and does not know) is two seconds old when
    the sync interest arrives; two seconds later still, the theorem applies *)
Definition g1 : duo := Eval vm_compute in wp (PTick 2000) y6.
Definition g2 : duo := Eval vm_compute in wp (PStoreFire 0) g1.
Definition g3 : duo := Eval vm_compute in
  on_prod (PInterest (sync_n v5) 1000)
    (pp_publish Kx (sync_n v5) (sync_n v5 ++ [y_ibf]) (encode_names [append_number pb 1]) (pc_sync_fresh Kx) (du_prod g2)) g2.
Definition g_d : data := Eval vm_compute in last_data g3.
Definition g4 : duo := Eval vm_compute in wf 1 g_d [] [] g3.
Definition g5 : duo := Eval vm_compute in wp (PTick 2000) g4.
Lemma does_g3 : producer_does Kx (PInterest (sync_n v5) 1000) [g_d] g2 g3.
Proof.
  exists (du_prod g3). split; [|run].
  rewrite (step_decoded Kx (du_prod g2) (sync_n v5) (sync_n v5) 1000 (bf_with b_ex (filter_n (sync_n v5))) (k_iblt (pp_core (du_prod v5))) y_dec
    [append_number pb 1] y_ibf (or_introl eq_refl) request_y); [run|run|run|run|run|]. split; run.
Qed.
Lemma fetch_g4 : fetches Kc subscribes_in_hello g_d g3 g4.
Proof.
  replace g4 with (wf 1 g_d [] [] g3) by run.
  apply (do_fetches _ 1 KSync (sync_n v5)); [run|right; left; run|run|run|run|apply hello_rules|apply step3; run|apply step3; run].
Qed.
Lemma exchange_g4 : complete_exchange Kx Kc g2 g4.
Proof.
  apply (ex_data Kx Kc g2 g4 1 (sync_n v5) 1000 g_d); [run|]. exists [g_d], g_d, g3, g3.
  split; [apply timers_check; run|]. split; [exact does_g3|]. split; [left; reflexivity|]. split; [run|]. split; [constructor|]. split; [reflexivity|].
  split; [exact fetch_g4|reflexivity].
Qed.
Lemma undelayed_g : undelayed Kx Kc 2000 y6 0 g5 2000.
Proof.
  assert (undelayed Kx Kc 2000 y6 0 g1 0) as U1.
  { replace g1 with (mkDuo (du_evs y6 ++ [PTick 2000]) (du_prod g1) (du_sent y6) (du_cons y6) (du_seen y6)) by run.
    eapply ud_tick; [constructor|apply N.leb_le; run|run]. }
  assert (undelayed Kx Kc 2000 y6 0 g2 0) as U2.
  { replace g2 with (mkDuo (du_evs g1 ++ [PStoreFire 0]) (du_prod g2) (du_sent g1 ++ []) (du_cons g1) (du_seen g1)) by run.
    eapply (ud_producer _ _ _ _ _ (PStoreFire 0) g1 0 _ [] (Ok tt)); [exact U1|intros dt; discriminate|exact I|run|left; reflexivity]. }
  pose proof (ud_exchange Kx Kc 2000 y6 0 g2 0 g4 U2 exchange_g4) as U4. replace (pp_now (du_prod g4)) with 2000 in U4 by run.
  replace g5 with (mkDuo (du_evs g4 ++ [PTick 2000]) (du_prod g5) (du_sent g4) (du_cons g4) (du_seen g4)) by run.
  eapply ud_tick; [exact U4|apply N.leb_le; run|run].
Qed.
Lemma plain_g w : history (du_evs w) = [CAdd pa; CAdd pb; CPublish pb (Some 1)] -> plain Kx w.
Proof.
  intros Eh. apply (plain_check Kx w all_v); rewrite ?Eh.
  - repeat constructor.
  - run.
  - apply wf_check_ok. run.
  - intros p nm H Hn. assert (In p [pa; pb]) as Hp.
    { destruct H as [H|[H|[H|[]]]]; try discriminate; injection H as <-; [left|right; left]; reflexivity. }
    assert (existsb (name_eqb nm) all_v = true) as Q.
    { assert (forallb (fun x => existsb (name_eqb x) all_v) (numbers [CAdd pa; CAdd pb; CPublish pb (Some 1)] p) = true) as Z by (destruct Hp as [<-|[<-|[]]]; run).
      rewrite forallb_forall in Z. apply Z. exact Hn. }
    apply existsb_exists in Q as (x & Q1 & Q2). apply name_eqb_eq in Q2. subst. exact Q1.
Qed.
Example C124_example :
  duo_ok Kx Kc /\ fresh_duo Kx Kc w0 /\ duo_run Kx Kc subscribes_in_hello w0 y6 /\ undelayed Kx Kc 2000 y6 0 g5 2000 /\
  duo_run Kx Kc subscribes_in_hello y6 g2 /\ complete_exchange Kx Kc g2 g4 /\ plain Kx g4 /\
  pp_now (du_prod y6) + longest_freshness Kx < pp_now (du_prod g4) /\
  0 <= pp_now (du_prod y6) /\ pp_now (du_prod y6) <= 0 + 2000 /\ no_removal (history (du_evs g5)) /\ plain Kx g5 /\
  pp_now (du_prod y6) + longest_freshness Kx + 2000 < pp_now (du_prod g5) /\
  ~ knows_all_of y6 y6 /\ is_subscribed pb (du_cons g5) = true /\ seq0 (current y6 pb) = 1 /\ seq_of pb (du_cons g5) = Some 1.
Proof.
  split; [exact duo_v|]. split; [exact fresh_v|]. split; [exact run_y6|]. split; [exact undelayed_g|].
  split; [apply (duo_next _ _ _ _ g1); [apply (duo_next _ _ _ _ y6); [constructor|]|]|].
  - replace g1 with (wp (PTick 2000) y6) by run. apply do_prod; [exact I|apply step3; run].
  - replace g2 with (wp (PStoreFire 0) g1) by run. apply do_prod; [exact I|apply step3; run].
  - split; [exact exchange_g4|]. split; [apply plain_g; run|]. split; [apply N.ltb_lt; run|]. split; [apply N.leb_le; run|]. split; [apply N.leb_le; run|].
    split; [apply no_removal_check; run|]. split; [apply plain_g; run|]. split; [apply N.ltb_lt; run|].
    split; [|split; [run|split; run]]. intros H. specialize (H pb ltac:(run)). revert H. vm_compute. intros H. apply H. reflexivity.
Qed.
