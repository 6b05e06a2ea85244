(** Property theorems about partial producers whose application has been quiet (C123). *)
From Coq Require Import List NArith ZArith Bool Arith Lia.
From Coq.Strings Require Import Byte.
From Verif Require Import Base BaseFacts Mon MonFacts Iblt SpecIblt HonestFacts Tlv TlvFacts State NMap NMapFacts Codec CodecFacts
  Properties_Iblt Bloom SpecBloom BloomFacts Properties_Bloom Store StoreFacts Producer SpecProducer ProducerFacts Properties_Producer
  Partial SpecPartial PartialFacts PartialSteps Properties_Partial Full SpecFull FullRuns Consumer SpecConsumer ConsumerFacts Properties_Consumer
  SpecExchange ExchangeFacts Properties_Exchange SpecGroup GroupFacts Properties_Group SpecPair PairProducer PairConsumer PairFacts
  PairProgress Properties_Pair Properties_PairProgress SpecSettle Properties_Settle Properties_Push SpecFresh FreshFacts SpecRecent RecentFacts SpecQuiet QuietFacts.
Import ListNotations.
Local Open Scope N_scope.

(** * C123 *)
(** every answer of a producer whose application has been quiet for a freshness period carries the IBF
    of its present state, also if it is taken from memory *)
Theorem C123_answers_are_current : forall K evs1 evs2 s1 o1 s o n l s' d,
  scheme_ok (pc_codec K) (pc_scheme K) ->
  pp_run K (pp_new K) evs1 = Some (s1, o1) -> pp_run K (pp_new K) (evs1 ++ evs2) = Some (s, o) -> history evs2 = [] ->
  pp_now s1 + longest_freshness K <= pp_now s -> erased_in_time (pp_now s) (pp_pub s) ->
  pp_step K (PInterest n l) s = (s', [d], Ok tt) -> d_type d = Blob ->
  data_with_ibf K (k_iblt (pp_core s)) d.
Proof.
  intros K evs1 evs2 s1 o1 s o n l s' d Sk R1 R Hh Hq Ti E Ty.
  destruct (reply_from_store n (pp_pub s)) as [x|] eqn:Hr.
  - destruct (stored_origin K evs1 evs2 s1 o1 s o n x Sk R1 R Hh Hq Ti Hr) as (ev & s2 & _ & (Di & _) & <-).
    destruct (interest_cases K s n l) as [(y & Hy & E')|[(Rp & _)|[(Rp & _)|(_ & H & _)]]]; [congruence..|].
    rewrite E in H. discriminate H.
  - split; [exact Ty|]. exact (fresh_name K s n l s' d Sk Hr E Ty).
Qed.
Print Assumptions C123_answers_are_current.

Section Duo.
Variables (K : pcfg) (Kc : ccfg).
Hypothesis Ok2 : duo_ok K Kc.

Lemma run_evs rule w w' : duo_run K Kc rule w w' -> exists evs, du_evs w' = du_evs w ++ evs.
Proof.
  induction 1 as [w|w w1 w2 R (e1 & E1) St]; [exists []; rewrite app_nil_r; reflexivity|].
  destruct (duo_step_evs K Kc rule w1 w2 St) as (e2 & E2 & _). exists (e1 ++ e2). rewrite E2, E1, app_assoc. reflexivity.
Qed.
Lemma quiet_split rule wq w : duo_run K Kc rule wq w -> history (du_evs w) = history (du_evs wq) ->
  exists evs, du_evs w = du_evs wq ++ evs /\ history evs = [].
Proof.
  intros R H. destruct (run_evs _ _ _ R) as (evs & E). exists evs. split; [exact E|]. rewrite E, history_app in H.
  rewrite <- (app_nil_r (history (du_evs wq))) in H at 2. apply app_inv_head in H. exact H.
Qed.
(** a quiet stretch, with the runs of the producer *)
Lemma quiet_runs w0 wq w : fresh_duo K Kc w0 -> duo_run K Kc subscribes_in_hello w0 wq -> duo_run K Kc subscribes_in_hello wq w ->
  no_removal (history (du_evs w)) -> plain K w -> history (du_evs w) = history (du_evs wq) ->
  exists evs oq o, du_evs w = du_evs wq ++ evs /\ history evs = [] /\
    pp_run K (pp_new K) (du_evs wq) = Some (du_prod wq, oq) /\ pp_run K (pp_new K) (du_evs wq ++ evs) = Some (du_prod w, o).
Proof.
  intros Fr Rq R Nr Pl Hh. destruct (quiet_split _ _ _ R Hh) as (evs & E & H). destruct (earlier_run K Kc _ _ _ R Pl Nr) as [Plq Nrq].
  destruct (reached_DI K Kc w0 wq Ok2 Fr Rq Nrq Plq) as (b1 & [_ D1 _ _ _]).
  destruct (reached_DI K Kc w0 w Ok2 Fr (run_trans K Kc _ _ _ _ Rq R) Nr Pl) as (b2 & [_ D2 _ _ _]).
  exists evs, (du_sent wq), (du_sent w). rewrite <- E. auto.
Qed.
Lemma quiet_later w0 wq w w' : fresh_duo K Kc w0 -> duo_run K Kc subscribes_in_hello w0 wq -> duo_run K Kc subscribes_in_hello wq w ->
  duo_run K Kc subscribes_in_hello w w' -> no_removal (history (du_evs w')) -> plain K w' -> history (du_evs w') = history (du_evs w) ->
  quiet_since K wq w -> erased_in_time (pp_now (du_prod w')) (pp_pub (du_prod w')) -> quiet_since K wq w'.
Proof.
  intros Fr Rq R R' Nr Pl Hh (Q1 & Q2 & _) Ti. destruct (quiet_runs w0 w w' Fr (run_trans K Kc _ _ _ _ Rq R) R' Nr Pl Hh) as (evs & oq & o & _ & _ & Ra & Rb).
  split; [congruence|]. split; [|exact Ti]. pose proof (pp_run_clock _ _ _ _ _ Ra) as Ta. pose proof (pp_run_clock _ _ _ _ _ Rb) as Tb.
  rewrite ptime_app in Tb. lia.
Qed.

Lemma reply_holds_ibf w0 w1 w2 w3 w4 n l d0 d :
  fresh_duo K Kc w0 -> duo_run K Kc subscribes_in_hello w0 w1 ->
  producer_does K (PInterest n l) [d0] w1 w2 -> data_with_ibf K (k_iblt (pp_core (du_prod w1))) d0 ->
  duo_run K Kc subscribes_in_hello w2 w3 -> history (du_evs w3) = history (du_evs w2) ->
  fetches Kc subscribes_in_hello d w3 w4 -> same_content d d0 ->
  no_removal (history (du_evs w4)) -> plain K w4 ->
  duo_run K Kc subscribes_in_hello w1 w4 /\ history (du_evs w4) = history (du_evs w1) /\ d_type d = Blob /\ holds_current_ibf K w4.
Proof.
  intros Fr R1 Pd (Ty & pre & c & v & g & En & Tv & Hc) R2 Eh Fe Sc Nr Pl.
  assert (duo_run K Kc subscribes_in_hello w1 w2) as R12
    by (eapply duo_next; [constructor|]; apply (producer_step K Kc _ (PInterest n l) [d0]); [exact I|exact Pd]).
  pose proof (run_trans K Kc _ _ _ _ R12 R2) as R13. pose proof (fetches_step K Kc _ _ _ _ Fe) as St.
  assert (duo_run K Kc subscribes_in_hello w1 w4) as R14 by (eapply duo_next; eauto).
  destruct (earlier K Kc _ _ _ St Pl Nr) as [Pl3 Nr3].
  destruct (reached_DI K Kc w0 w3 Ok2 Fr (run_trans K Kc _ _ _ _ R1 R13) Nr3 Pl3) as (b0 & D3).
  destruct Pd as (s & Es & E2).
  pose proof Fe as (i & k & m & buf & sc1 & sc2 & c1 & o1 & r1 & c2 & o2 & r2 & Fi & Cm & _ & _ & _ & _ & _ & E4).
  pose proof Cm as (base & segs & fc & last & _ & Ind & _ & _ & _ & Sg & _). destruct (In_nth_error _ _ Ind) as (j & Hj). destruct (Sg j d Hj) as [Hs Hn].
  pose proof (content_blob K Kc Ok2 _ _ _ w3 d d0 pre c v g D3 Pl3 Hs Sc En Tv) as Tb.
  destruct (same_content_name d d0 pre c v g Sc (ex_intro _ base (ex_intro _ _ Hn)) En) as (g' & Ed).
  assert (history (du_evs w2) = history (du_evs w1)) as E21 by (rewrite E2; cbn [du_evs]; rewrite history_app; apply app_nil_r).
  assert (history (du_evs w4) = history (du_evs w1)) as E41 by (rewrite E4; cbn [du_evs]; congruence).
  split; [exact R14|]. split; [exact E41|]. split; [exact Tb|]. exists c. split; [eapply (fetch_holds Kc); eauto|]. rewrite E4. cbn [du_prod].
  destruct (now_point K Kc _ _ _ w3 D3) as [Cr3 _].
  destruct (earlier_run K Kc _ _ _ R14 Pl Nr) as [Pl1 Nr1].
  destruct (reached_DI K Kc w0 w1 Ok2 Fr R1 Nr1 Pl1) as (b1 & D1). destruct (now_point K Kc _ _ _ w1 D1) as [Cr1 _].
  rewrite Eh, E21, Cr1 in Cr3. injection Cr3 as <-. exact Hc.
Qed.
(** in a quiet producer's memory there is no reply to an interest with the current IBF *)
Lemma no_stored_reply w0 wq w n : (2 <= pc_n K)%nat -> fresh_duo K Kc w0 -> duo_run K Kc subscribes_in_hello w0 wq ->
  duo_run K Kc subscribes_in_hello wq w -> no_removal (history (du_evs w)) -> plain K w -> quiet_since K wq w ->
  holds_current_ibf K w -> asks_with_last_ibf w n -> reply_from_store n (pp_pub (du_prod w)) = None.
Proof.
  intros H2 Fr Rq R Nr Pl (Q1 & Q2 & Q3) (c & Ec & Ca) (i & pre & Fi & En). rewrite Ec in En.
  destruct (reply_from_store n (pp_pub (du_prod w))) as [d|] eqn:Hr; [exfalso|reflexivity].
  destruct (quiet_runs w0 wq w Fr Rq R Nr Pl Q1) as (evs & oq & o & _ & Hh & Ra & Rb).
  destruct (stored_origin K _ evs _ oq _ o n d (dk_scheme _ _ Ok2) Ra Rb Hh Q2 Q3 Hr) as (ev & s' & Hev & (_ & _ & Or) & Es).
  destruct (reached_DI K Kc w0 w Ok2 Fr (run_trans K Kc _ _ _ _ Rq R) Nr Pl) as (b0 & D).
  destruct (own_request K Kc Ok2 _ _ _ w i n D Pl (cfetch_In _ _ _ Fi)) as (k & b & pre' & cc & Pk & Rq' & Bs & Ik & Nk & Em & Tc).
  destruct (now_point K Kc _ _ _ w D) as [Cr Pt]. pose proof D as [Dn Dr Dw Dc Dt]. pose proof (history_wf _ Dw) as Wh. destruct Pl as [P1 P2 P3 P4].
  destruct Rq' as (c1 & c2 & c3 & c4 & tl & E1 & _ & _ & _ & In4).
  assert (c4 = c) as ->.
  { rewrite E1 in En. replace (pc_sync K ++ [SYNC; c1; c2; c3; c4]) with ((pc_sync K ++ [SYNC; c1; c2; c3]) ++ [c4]) in En by (rewrite <- app_assoc; reflexivity).
    apply app_inj_tail in En. tauto. }
  assert (is_prefix n (full_name d) = true) as Pn by (unfold reply_from_store in Hr; apply store_find_Some in Hr; tauto).
  apply is_prefix_iff in Pn as (tail & Pn). rewrite E1 in Pn. unfold full_name in Pn.
  destruct Or as [(p & q & Ev)|[Ph|(iname & rname & bf & t & x & names & tail' & Ed & (e1 & e2 & e3 & e4 & tl' & E1' & _ & _ & _ & In4') & Ex & Mx & Hx)]].
  - exact (quiet_not_publish evs ev p q Hev Hh Ev).
  - apply is_prefix_iff in Ph as (t' & Ph). rewrite Ph, <- !app_assoc in Pn. apply app_inv_head in Pn. discriminate Pn.
  - rewrite Ed, E1', <- !app_assoc in Pn. apply app_inv_head in Pn. injection Pn as _ _ _ -> _.
    rewrite Es in Ex, Mx.
    assert (t = k_iblt (pp_core (du_prod w))) as -> by (eapply (carries_read K (history (du_evs w))); eauto; apply (dk_lossless _ _ Ok2)).
    assert (0 < pc_fuel K)%nat as Hf by (destruct (pc_fuel K); [unfold iblt_sub in Ex; destruct (table_sub _ _); discriminate|lia]).
    destruct (point_ibf K _ _ Wh P1 Pt) as (Ic & Nc & _). set (a := map name_hash (live (pp_core (du_prod w)))) in *.
    assert (signed_diff a a = []) as Hs.
    { unfold signed_diff. assert (only_in a a = []) as ->; [|reflexivity]. destruct (only_in a a) as [|y r] eqn:E; auto.
      assert (In y (only_in a a)) as Hy by (rewrite E; left; auto). apply only_in_In in Hy. tauto. }
    destruct (iblt_sub_honest (pc_n K) a a _ _ (pc_fuel K) Nc Nc Ic Ic) as (x' & E & Dp & Dn' & _).
    { rewrite Hs. intros l0 _ Hin Hl. destruct l0 as [|y l0]; [simpl in Hl; lia|]. destruct (Hin y (or_introl eq_refl)). }
    { rewrite Hs. exact Hf. }
    rewrite Ex in E. injection E as <-.
    assert (positive x = []) as Pp by (destruct (positive x) as [|y r]; auto; destruct (Dp y (or_introl eq_refl)); tauto).
    assert (negative x = []) as Pn' by (destruct (negative x) as [|y r]; auto; destruct (Dn' y (or_introl eq_refl)); tauto).
    rewrite Pp in Mx. injection Mx as <-. destruct Hx as [Hx|Hx]; [|congruence].
    unfold diff_size in Hx. rewrite Pp, Pn' in Hx. cbn [length Nat.add] in Hx. assert (0 < threshold (pc_n K))%nat by (apply (Nat.div_str_pos (pc_n K) 2); lia). lia.
Qed.
Lemma quiet_exchange w0 wq w w' k d0 : fresh_duo K Kc w0 -> duo_run K Kc subscribes_in_hello w0 wq -> duo_run K Kc subscribes_in_hello wq w ->
  quiet_since K wq w -> exchanged K Kc k d0 w w' -> d_type d0 = Blob -> no_removal (history (du_evs w')) -> plain K w' ->
  duo_run K Kc subscribes_in_hello w w' /\ history (du_evs w') = history (du_evs w) /\ holds_current_ibf K w' /\
  (k = KSync -> exists n, asks_with_last_ibf w' n).
Proof.
  intros Fr Rq R Qs (i & n & l & d & w1 & w2 & Fi & Pd & R2 & Eh & Co & Sc) Ty Nr Pl.
  pose proof (completed_fetches _ _ _ _ _ _ _ Co) as Fe.
  assert (duo_run K Kc subscribes_in_hello w w') as R'.
  { eapply duo_next; [|eapply fetches_step; exact Fe]. eapply run_trans; [|exact R2]. eapply duo_next; [constructor|].
    apply (producer_step K Kc _ (PInterest n l) [d0]); [exact I|exact Pd]. }
  destruct (earlier_run K Kc _ _ _ R' Pl Nr) as [Plw Nrw]. destruct Qs as (Q1 & Q2 & Q3).
  destruct (quiet_runs w0 wq w Fr Rq R Nrw Plw Q1) as (evs & oq & o & _ & Hh & Ra & Rb).
  pose proof Pd as (s & Es & _).
  pose proof (C123_answers_are_current K _ evs _ oq _ o n l s d0 (dk_scheme _ _ Ok2) Ra Rb Hh Q2 Q3 Es Ty) as Di.
  destruct (reply_holds_ibf w0 w w1 w2 w' n l d0 d Fr (run_trans K Kc _ _ _ _ Rq R) Pd Di R2 Eh Fe Sc Nr Pl) as (_ & E' & Tb & Ho).
  split; [exact R'|]. split; [exact E'|]. split; [exact Ho|]. intros ->. exact (sync_completed_asks Kc i n d w2 w' Co Tb).
Qed.
End Duo.

(** one complete exchange with a quiet producer, hello or sync, from memory or not, brings the consumer
    up to date; its next sync interest waits at the producer *)
Theorem C123_one_exchange_settles : forall K Kc w0 wq w w' k d0,
  duo_ok K Kc -> (2 <= pc_n K)%nat -> fresh_duo K Kc w0 ->
  duo_run K Kc subscribes_in_hello w0 wq -> duo_run K Kc subscribes_in_hello wq w -> quiet_since K wq w ->
  exchanged K Kc k d0 w w' -> d_type d0 = Blob -> no_removal (history (du_evs w')) -> plain K w' ->
  up_to_date w' /\ (k = KSync -> exists n, asks_with_last_ibf w' n) /\
  (erased_in_time (pp_now (du_prod w')) (pp_pub (du_prod w')) -> forall n, asks_with_last_ibf w' n -> settles K w' n).
Proof.
  intros K Kc w0 wq w w' k d0 Ok2 H2 Fr Rq R Qs Ex Ty Nr Pl.
  destruct (quiet_exchange K Kc Ok2 w0 wq w w' k d0 Fr Rq R Qs Ex Ty Nr Pl) as (R' & E' & Ho & As).
  pose proof (run_trans K Kc _ _ _ _ R R') as Rqw. pose proof (run_trans K Kc _ _ _ _ Rq Rqw) as R0.
  split; [intros p Hp; exact (C64_current_ibf_means_current_numbers_partial K Kc w0 w' p Ok2 Fr R0 Nr Pl Ho Hp)|].
  split; [exact As|]. intros Ti n An. pose proof (quiet_later K Kc Ok2 w0 wq w w' Fr Rq R R' Nr Pl E' Qs Ti) as Qs'.
  apply (current_settles K Kc w0 w' n Ok2 Fr R0 Nr Pl H2 Ho An).
  exact (no_stored_reply K Kc Ok2 w0 wq w' n H2 Fr Rq Rqw Nr Pl Qs' Ho An).
Qed.
Print Assumptions C123_one_exchange_settles.

(** what becomes of a sync interest that reaches a quiet producer: the consumer is up to date and waits,
    is sent data, or is sent a Nack, whereupon it sends a hello interest, which is answered with data;
    the producer is still quiet then *)
Theorem C123_interest_is_decided : forall K Kc w0 wq w i n l,
  duo_ok K Kc -> fresh_duo K Kc w0 ->
  duo_run K Kc subscribes_in_hello w0 wq -> duo_run K Kc subscribes_in_hello wq w -> quiet_since K wq w ->
  no_removal (history (du_evs w)) -> plain K w -> cfetch i (c_live (du_cons w)) = Some (KSync, n) ->
  exists o w', producer_does K (PInterest n l) o w w' /\
    ((o = [] /\ waits_at_producer w' /\ up_to_date w') \/
     (exists d, o = [d] /\ d_type d = Blob) \/
     (exists d c1 i1 wn, o = [d] /\ d_type d = AppNack /\
        c_step Kc (CeSegment i d) (du_cons w') = (c1, [CoInterest KHello (hello_prefix Kc)], Ok tt) /\
        wn = mkDuo (du_evs w') (du_prod w') (du_sent w') c1 (du_seen w' ++ [CoInterest KHello (hello_prefix Kc)]) /\
        duo_run K Kc subscribes_in_hello wq wn /\ quiet_since K wq wn /\
        cfetch i1 (c_live (du_cons wn)) = Some (KHello, hello_prefix Kc) /\
        forall l1, exists d0 w2, producer_does K (PInterest (hello_prefix Kc) l1) [d0] wn w2 /\ d_type d0 = Blob)).
Proof.
  intros K Kc w0 wq w i n l Ok2 Fr Rq R (Q1 & Q2 & Q3) Nr Pl Fi. pose proof (run_trans K Kc _ _ _ _ Rq R) as R0.
  destruct (quiet_runs K Kc Ok2 w0 wq w Fr Rq R Nr Pl Q1) as (evs & oq & o & _ & Hh & Ra & Rb).
  destruct (reached_DI K Kc w0 w Ok2 Fr R0 Nr Pl) as (b0 & D).
  destruct (own_request K Kc Ok2 _ _ _ w i n D Pl (cfetch_In _ _ _ Fi)) as (k & b & pre & cc & Pk & Rqq & _).
  destruct (reply_from_store n (pp_pub (du_prod w))) as [x|] eqn:Hr.
  - exists [x], (mkDuo (du_evs w ++ [PInterest n l]) (du_prod w) (du_sent w ++ [x]) (du_cons w) (du_seen w)). split.
    + exists (du_prod w). split; [|reflexivity].
      destruct (interest_cases K (du_prod w) n l) as [(y & Hy & E)|[(Rp & _)|[(Rp & _)|(_ & _ & _ & Z)]]]; [congruence..|].
      destruct (Z _ _ _ Rqq).
    + right. left. exists x. split; [reflexivity|]. exact (stored_blob K _ _ _ n x (dk_scheme _ _ Ok2) Rb Hr).
  - destruct (C86_interest_is_decided K Kc w0 w i n l Ok2 Fr R0 Nr Pl Fi Hr) as (out & w' & Pd & [H|[(d & -> & Ty)|(d & -> & Ty)]]).
    + exists out, w'. auto.
    + exists [d], w'. split; [exact Pd|]. right. right.
      destruct (C114_nack_leads_to_hello_data K Kc w0 w w' i n l d Ok2 Fr R0 Fi Hr Pd Ty) as (c1 & i1 & E1 & F1 & Hl).
      exists d, c1, i1. eexists. split; [reflexivity|]. split; [exact Ty|]. split; [exact E1|]. split; [reflexivity|]. split; [|split; [|split; [exact F1|]]].
      * eapply duo_next; [eapply duo_next; [exact R|apply (producer_step K Kc _ (PInterest n l) [d]); [exact I|exact Pd]]|].
        apply (duo_background K Kc _ w' (CeSegment i d) c1 _ (Ok tt) I E1). left. reflexivity.
      * destruct Pd as (s & Es & ->). unfold quiet_since. cbn [du_prod du_evs].
        assert (pp_now s = pp_now (du_prod w) /\ pb_timers (pp_pub s) = pb_timers (pp_pub (du_prod w))) as [En Et].
        { rewrite (step_request _ _ _ _ _ _ _ Rqq Hr), mbind_lift in Es. destruct (iblt_sub _ _ _) as [y|e|u|]; try discriminate.
          unfold on_request in Es. rewrite mbind_get in Es. destruct (negb (can_decode y)).
          - unfold pp_send_nack in Es. rewrite mbind_get, mbind_lift in Es. destruct (append_ibf _ _ _ _); try discriminate.
            rewrite mbind_mod in Es. injection Es as <- _. split; reflexivity.
          - exfalso. rewrite mbind_lift in Es. destruct (matching _ _ _) as [names|e|u|]; try discriminate. destruct (_ || _); [|discriminate].
            rewrite mbind_lift in Es. destruct (append_ibf _ _ _ _) as [dn|e|u|]; try discriminate.
            rewrite pp_publish_eq in Es. destruct (publish _ _ _ _ _ _ _) as [p r] eqn:P. destruct r as [z|e|u|]; try discriminate.
            injection Es as _ ->. unfold publish in P. injection P as _ P. apply put_segment_In in P. specialize (P d (or_introl eq_refl)).
            apply segment_In in P as (j & _ & ->). discriminate Ty. }
        rewrite history_app. cbn [history flat_map app]. rewrite app_nil_r. split; [exact Q1|]. rewrite En. split; [exact Q2|].
        intros dl m Hm. rewrite Et in Hm. exact (Q3 dl m Hm).
      * destruct (reply_from_store (hello_prefix Kc) (pp_pub (du_prod w'))) as [x|] eqn:Hx; [|apply Hl; reflexivity].
        intros l1. exists x. eexists. split.
        -- eexists. split; [|reflexivity]. cbn [du_prod]. apply stored_hello; [|exact Hx].
           unfold hello_prefix. rewrite <- (dk_sync _ _ Ok2). apply is_prefix_refl.
        -- destruct Pd as (s & Es & ->). cbn [du_prod] in Hx.
           apply (stored_blob K ((du_evs wq ++ evs) ++ [PInterest n l]) s (o ++ [d]) (hello_prefix Kc) x (dk_scheme _ _ Ok2)); [|exact Hx].
           unfold pp_run in *. rewrite run_app, Rb. cbn [run]. rewrite Es. reflexivity.
    + exists [d], w'. split; [exact Pd|]. right. left. eauto.
Qed.
Print Assumptions C123_interest_is_decided.

(** ** Before the freshness period is over *)
(** the hello data in memory has an IBF that the producer cannot compare with its present one: the sync
    interest made from it gets a Nack, the Nack leads to a hello interest, and that is answered with the
    same hello data *)
Definition x6 : duo := Eval vm_compute in wp2 (PPublishName pb (Some 2)) u3.
Definition x_n : name := Eval vm_compute in sync_n u3.
Definition x_ibf : comp := Eval vm_compute in gen (table_bytes (k_iblt (pp_core (du_prod x6)))).
Definition x_prod (k : nat) : pp :=
  set_pub (mkPub (pb_store (pp_pub (du_prod x6))) (pb_limit (pp_pub (du_prod x6))) (pb_timers (pp_pub (du_prod x6)))
    (pb_published (pp_pub (du_prod x6))) (k + pb_signed (pp_pub (du_prod x6)))) (du_prod x6).
Definition x_nack (k : nat) : data := nack_data (pc_env K2) (k + pb_signed (pp_pub (du_prod x6))) (pc_sync_fresh K2) (x_n ++ [x_ibf]).
Definition x_live (sn : name) (ty : content_type) (h s : nat) (live : list (nat * (kind * name))) (k : nat) : cs :=
  let c := du_cons x6 in
  mkCS (c_now c) (c_prefixes c) (c_subs c) (c_bloom c) (c_iblt c) (c_hname c) sn ty (Some h) (Some s) live k (c_timers c) (c_draws c).
Definition x_cons (sn : name) (j : nat) : cs := x_live sn Blob j (S j) [(S j, (KSync, x_n))] (S (S j)).
Definition x_sn : name := Eval vm_compute in name_prefix_back (d_name (x_nack 0)) 2.
Lemma x_start : du_cons x6 = x_cons (c_sname (du_cons x6)) 0 /\ du_prod x6 = x_prod 0.
Proof. split; run. Qed.
Lemma x_answer k l : pp_step K2 (PInterest x_n l) (x_prod k) = (x_prod (S k), [x_nack k], Ok tt).
Proof.
  assert (exists d, iblt_sub (pc_fuel K2) (k_iblt (pp_core (du_prod x6))) (k_iblt (pp_core (du_prod u3))) = Ok d /\ can_decode d = false) as (d & D & Cd)
    by (eexists; split; run).
  exact (step_nack K2 (x_prod k) x_n x_n l (bf_with b_ex (filter_n (sync_n u3))) (k_iblt (pp_core (du_prod u3))) d x_ibf
    (or_introl eq_refl) request_u ltac:(run) D Cd ltac:(split; run)).
Qed.
Lemma x_hello k l : pp_step K2 (PInterest hello_n l) (x_prod k) = (x_prod k, [u2_d], Ok tt).
Proof. apply stored_hello; run. Qed.
Lemma eqb_S j : Nat.eqb (S j) j = false. Proof. apply Nat.eqb_neq. lia. Qed.
Lemma eqb_S' j : Nat.eqb j (S j) = false. Proof. apply Nat.eqb_neq. lia. Qed.
Lemma x_segment sn j k : c_step Kc (CeSegment (S j) (x_nack k)) (x_cons sn j) =
  (x_live x_sn AppNack (S (S j)) (S j) [(S (S j), (KHello, hello_n)); (S j, (KSync, x_n))] (S (S (S j))), [CoInterest KHello hello_n], Ok tt).
Proof.
  unfold c_step, x_cons, x_live. rewrite mbind_get. cbn [c_live cfetch find fst snd]. unfold cfetch. cbn [find fst snd]. rewrite Nat.eqb_refl.
  cbn [x_nack nack_data d_final]. rewrite mbind_mod, mbind_get. cbn [c_type cset_type].
  change (d_type (x_nack k)) with AppNack. change (name_prefix_back (d_name (x_nack k)) 2) with x_sn. cbn [is_nack]. unfold send_hello. rewrite mbind_mod.
  unfold cstart, cstop, cwithout. cbn -[x_n hello_n hello_prefix Kc x_sn Nat.eqb]. rewrite ?eqb_S, ?eqb_S'. reflexivity.
Qed.
Lemma x_content sn j : c_step Kc (CeContent (S j) [] [] []) (x_live sn AppNack (S (S j)) (S j) [(S (S j), (KHello, hello_n)); (S j, (KSync, x_n))] (S (S (S j)))) =
  (x_live sn Blob (S (S j)) (S j) [(S (S j), (KHello, hello_n))] (S (S (S j))), [], Ok tt).
Proof.
  unfold c_step, x_live. rewrite mbind_get. cbn [c_live]. unfold cfetch. cbn [find fst snd]. rewrite ?eqb_S, ?eqb_S', ?Nat.eqb_refl. cbn [c_type is_nack].
  unfold finish. rewrite mbind_mod. unfold cwithout. cbn [c_live filter fst]. rewrite ?eqb_S, ?eqb_S', ?Nat.eqb_refl. reflexivity.
Qed.

Lemma x_segment2 sn j : c_step Kc (CeSegment (S (S j)) u2_d) (x_live sn Blob (S (S j)) (S j) [(S (S j), (KHello, hello_n))] (S (S (S j)))) =
  (x_live sn Blob (S (S j)) (S j) [(S (S j), (KHello, hello_n))] (S (S (S j))), [], Ok tt).
Proof.
  unfold c_step, x_live. rewrite mbind_get. cbn [c_live]. unfold cfetch. cbn [find fst snd]. rewrite Nat.eqb_refl. reflexivity.
Qed.
Lemma x_content2 sn j : exists o, c_step Kc (CeContent (S (S j)) (d_content u2_d) [CSendSync] [])
  (x_live sn Blob (S (S j)) (S j) [(S (S j), (KHello, hello_n))] (S (S (S j)))) = (x_cons sn (S (S j)), o, Ok tt).
Proof.
  eexists. unfold c_step, x_live. rewrite mbind_get. cbn [c_live]. unfold cfetch. cbn [find fst snd]. rewrite Nat.eqb_refl.
  unfold finish. rewrite mbind_mod. unfold cwithout. cbn [c_live filter fst]. rewrite Nat.eqb_refl. cbn [negb]. run.
Qed.
Lemma rule_again w buf : subscribes_in_hello w (AppHello buf [CSendSync] []).
Proof.
  split; [|split].
  - intros p v cb [H|[]]; discriminate.
  - intros [|a l1] p v cb l2 E; [discriminate|]. injection E as <- E. destruct l1; discriminate.
  - intros p v cb [].
Qed.
Lemma one_packet w n d : In d (du_sent w) -> is_prefix n (name_prefix_back (d_name d) 1) = true ->
  d_name d = append_segment (name_prefix_back (d_name d) 1) 0 -> d_final d = Some (number_comp TYPE_SEGMENT 0) ->
  completes (fun x => In x (du_sent w)) n d (d_content d).
Proof.
  intros Hd Hp Hn Hf. exists (name_prefix_back (d_name d) 1), [d], (number_comp TYPE_SEGMENT 0), 0.
  split; [exact Hp|]. split; [left; reflexivity|]. split; [exact Hf|]. split; [reflexivity|]. split; [reflexivity|].
  split; [|symmetry; apply app_nil_r]. intros [|[|j]] x H; [|discriminate|discriminate]. injection H as <-. split; [exact Hd|exact Hn].
Qed.
Lemma x_rounds m : exists evs sent seen sn j,
  nack_rounds K2 Kc m x6 (mkDuo evs (x_prod m) sent (x_cons sn j) seen) /\ history evs = history (du_evs x6).
Proof.
  induction m as [|m (evs & sent & seen & sn & j & R & Eh)].
  - exists (du_evs x6), (du_sent x6), (du_seen x6), (c_sname (du_cons x6)), 0%nat. split; [|reflexivity].
    destruct x_start as [<- <-]. replace (mkDuo _ _ _ _ _) with x6 by run. constructor.
  - destruct (x_content2 x_sn j) as (o & Eo).
    exists ((evs ++ [PInterest x_n 1000]) ++ [PInterest hello_n 1000]), ((sent ++ [x_nack m]) ++ [u2_d]), ((seen ++ [CoInterest KHello hello_n] ++ []) ++ [] ++ o), x_sn, (S (S j)). split.
    + eapply (nack_more K2 Kc m x6 _ _ _ _ _ (S j) x_n 1000 (x_nack m) (S (S j)) hello_n 1000 u2_d R).
      * unfold x_cons, x_live, cfetch. cbn [du_cons c_live find fst]. rewrite Nat.eqb_refl. reflexivity.
      * eexists. split; [apply x_answer|reflexivity].
      * reflexivity.
      * exists [], [], []. do 4 eexists. split; [|split; [|split; [apply sync_rule|split; [apply x_segment|split; [apply x_content|reflexivity]]]]].
        -- unfold x_cons, x_live, cfetch. cbn [du_cons c_live find fst]. rewrite Nat.eqb_refl. reflexivity.
        -- apply (one_packet _ x_n (x_nack m)); [cbn [du_sent]; apply in_or_app; right; left; reflexivity|run|run|reflexivity].
      * unfold x_live, cfetch. cbn [du_cons c_live find fst]. rewrite Nat.eqb_refl. reflexivity.
      * eexists. split; [apply x_hello|reflexivity].
      * reflexivity.
      * exists (d_content u2_d), [CSendSync], []. do 4 eexists. split; [|split; [|split; [apply rule_again|split; [apply x_segment2|split; [exact Eo|reflexivity]]]]].
        -- unfold x_live, cfetch. cbn [du_cons c_live find fst]. rewrite Nat.eqb_refl. reflexivity.
        -- apply (one_packet _ hello_n u2_d); [cbn [du_sent]; apply in_or_app; right; left; reflexivity|run|run|reflexivity].
    + rewrite <- Eh, !history_app. cbn [history flat_map]. rewrite !app_nil_r. reflexivity.
Qed.
Lemma run_x6 : duo_run K2 Kc subscribes_in_hello u0 x6.
Proof.
  apply (duo_next _ _ _ _ u3); [exact run_u3|]. replace x6 with (wp2 (PPublishName pb (Some 2)) u3) by run.
  apply do_prod2; [reflexivity|apply step3; run].
Qed.
Lemma plain_x w : history (du_evs w) = history (du_evs x6) -> plain K2 w.
Proof.
  intros Ew. assert (history (du_evs w) = [CAdd pb; CPublish pb (Some 1); CPublish pb (Some 2)]) as Eh by (rewrite Ew; run). clear Ew.
  apply (plain_check K2 w [append_number pb 0; append_number pb 1; append_number pb 2]); rewrite ?Eh.
  - repeat constructor.
  - run.
  - apply wf_check_ok. run.
  - intros p nm H Hn. assert (p = pb) as -> by (destruct H as [H|[H|[H|[]]]]; try discriminate; injection H as <-; reflexivity).
    assert (forallb (fun x => existsb (name_eqb x) [append_number pb 0; append_number pb 1; append_number pb 2])
      (numbers [CAdd pb; CPublish pb (Some 1); CPublish pb (Some 2)] pb) = true) as Z by run.
    rewrite forallb_forall in Z. specialize (Z nm Hn). apply existsb_exists in Z as (x & Q1 & Q2). apply name_eqb_eq in Q2. subst. exact Q1.
Qed.
(** any number of such rounds pass before time does, the consumer never learning the update *)
Theorem C123_waiting_is_needed : exists K Kc w0 w,
  duo_ok K Kc /\ (2 <= pc_n K)%nat /\ fresh_duo K Kc w0 /\ duo_run K Kc subscribes_in_hello w0 w /\ no_removal (history (du_evs w)) /\
  (forall w', history (du_evs w') = history (du_evs w) -> plain K w') /\
  forall m, exists w', nack_rounds K Kc m w w' /\ history (du_evs w') = history (du_evs w) /\
    pp_now (du_prod w') = pp_now (du_prod w) /\ ~ up_to_date w'.
Proof.
  exists K2, Kc, u0, x6. split; [exact duo_u|]. split; [apply Nat.leb_le; reflexivity|]. split; [exact fresh_u|]. split; [exact run_x6|].
  split; [apply no_removal_check; run|]. split; [exact plain_x|]. intros m. destruct (x_rounds m) as (evs & sent & seen & sn & j & R & Eh).
  eexists. split; [exact R|]. split; [exact Eh|]. split; [reflexivity|]. intros H. destruct (H pb ltac:(run)) as [_ E].
  unfold current in E. cbn [du_evs] in E. rewrite Eh in E. revert E. vm_compute. discriminate.
Qed.
Print Assumptions C123_waiting_is_needed.

(** ** Example *)
(** another consumer's hello interest has put the present hello data into memory *)
Definition eq0 : duo := Eval vm_compute in wp (PAdd pb) (wp (PAdd pa) w0).
Definition e1 : duo := Eval vm_compute in wc [CSendHello] (wp (PInterest hello_n 1000) (wp (PTick 1000) eq0)).
Definition e_d : data := Eval vm_compute in last_data e1.
Definition e2 : duo := Eval vm_compute in wp (PInterest hello_n 1000) e1.
Definition e3 : duo := Eval vm_compute in wf 0 e_d subs_b [] e2.

Lemma run_eq0 : duo_run Kx Kc subscribes_in_hello w0 eq0.
Proof.
  replace eq0 with (wp (PAdd pb) (wp (PAdd pa) w0)) by run.
  apply (duo_next _ _ _ _ (wp (PAdd pa) w0)); [apply (duo_next _ _ _ _ w0); [constructor|]|]; apply do_prod; (exact I || apply step3; run).
Qed.
Lemma run_e1 : duo_run Kx Kc subscribes_in_hello eq0 e1.
Proof.
  replace e1 with (wc [CSendHello] (wp (PInterest hello_n 1000) (wp (PTick 1000) eq0))) by run.
  apply (duo_next _ _ _ _ (wp (PInterest hello_n 1000) (wp (PTick 1000) eq0))).
  - apply (duo_next _ _ _ _ (wp (PTick 1000) eq0)); [apply (duo_next _ _ _ _ eq0); [constructor|]|]; apply do_prod; (exact I || apply step3; run).
  - apply do_calls; [intros p v cb [H|[]]; discriminate|apply step3; run].
Qed.
Lemma timers_check now b : forallb (fun x => now <? fst x) (pb_timers b) = true -> erased_in_time now b.
Proof. intros H dl n Hi. rewrite forallb_forall in H. specialize (H _ Hi). apply N.ltb_lt. exact H. Qed.
Lemma does_e2 : producer_does Kx (PInterest hello_n 1000) [e_d] e1 e2.
Proof. exists (du_prod e2). split; run. Qed.
Lemma completed_e3 : completed Kc 0 KHello hello_n e_d e2 e3.
Proof.
  replace e3 with (wf 0 e_d subs_b [] e2) by run.
  apply (do_completed 0 KHello hello_n e_d subs_b [] e2); [run|left; run|run|run|run|apply hello_rules|apply step3; run|apply step3; run].
Qed.
Lemma plain_e3 : plain Kx e3.
Proof.
  assert (history (du_evs e3) = [CAdd pa; CAdd pb]) as Eh by run.
  apply (plain_check Kx e3 all_v); rewrite ?Eh.
  - repeat constructor.
  - run.
  - apply wf_check_ok. run.
  - intros p nm H Hn. assert (In p [pa; pb]) as Hp.
    { destruct H as [H|[H|[]]]; injection H as <-; [left|right; left]; reflexivity. }
    assert (existsb (name_eqb nm) all_v = true) as Q.
    { assert (forallb (fun x => existsb (name_eqb x) all_v) (numbers [CAdd pa; CAdd pb] p) = true) as Z by (destruct Hp as [<-|[<-|[]]]; run).
      rewrite forallb_forall in Z. apply Z. exact Hn. }
    apply existsb_exists in Q as (x & Q1 & Q2). apply name_eqb_eq in Q2. subst. exact Q1.
Qed.
Example C123_example :
  duo_ok Kx Kc /\ (2 <= pc_n Kx)%nat /\ fresh_duo Kx Kc w0 /\
  duo_run Kx Kc subscribes_in_hello w0 eq0 /\ duo_run Kx Kc subscribes_in_hello eq0 e1 /\ quiet_since Kx eq0 e1 /\
  reply_from_store hello_n (pp_pub (du_prod e1)) = Some e_d /\ exchanged Kx Kc KHello e_d e1 e3 /\ d_type e_d = Blob /\
  no_removal (history (du_evs e3)) /\ plain Kx e3 /\ is_subscribed pb (du_cons e3) = true /\
  erased_in_time (pp_now (du_prod e3)) (pp_pub (du_prod e3)) /\ asks_with_last_ibf e3 (sync_n e3) /\
  duo_run Kx Kc subscribes_in_hello eq0 e3 /\ quiet_since Kx eq0 e3 /\ cfetch 1 (c_live (du_cons e3)) = Some (KSync, sync_n e3).
Proof.
  split; [exact duo_v|]. split; [apply Nat.leb_le; run|]. split; [exact fresh_v|]. split; [exact run_eq0|]. split; [exact run_e1|].
  split; [split; [run|split; [apply N.leb_le; run|apply timers_check; run]]|]. split; [run|]. split; [|split; [run|]].
  - exists 0%nat, hello_n, 1000, e_d, e2, e2. split; [run|]. split; [exact does_e2|]. split; [constructor|]. split; [reflexivity|].
    split; [exact completed_e3|reflexivity].
  - split; [apply no_removal_check; run|]. split; [exact plain_e3|]. split; [run|]. split; [apply timers_check; run|].
    split; [exists 1%nat, (removelast (sync_n e3)); split; run|]. split; [|split; [split; [run|split; [apply N.leb_le; run|apply timers_check; run]]|run]].
    apply (duo_next _ _ _ _ e2); [apply (duo_next _ _ _ _ e1); [exact run_e1|]|].
    + apply (producer_step Kx Kc _ (PInterest hello_n 1000) [e_d]); [exact I|exact does_e2].
    + apply (fetches_step Kx Kc subscribes_in_hello e_d). apply (completed_fetches Kc 0 KHello hello_n). exact completed_e3.
Qed.
