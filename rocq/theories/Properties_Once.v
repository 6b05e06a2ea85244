(** Property theorems about updates being reported exactly once (C125). *)
From Coq Require Import List NArith ZArith Bool Arith Lia.
From Coq.Strings Require Import Byte.
From Verif Require Import Base BaseFacts Mon MonFacts Iblt SpecIblt HonestFacts Tlv TlvFacts State NMap NMapFacts Codec CodecFacts
  Properties_Iblt Bloom SpecBloom BloomFacts Properties_Bloom Store StoreFacts Producer SpecProducer ProducerFacts Properties_Producer
  Partial SpecPartial PartialFacts PartialSteps Properties_Partial Full SpecFull FullRuns Consumer SpecConsumer ConsumerFacts Properties_Consumer
  SpecExchange ExchangeFacts Properties_Exchange SpecGroup GroupFacts Properties_Group SpecPair PairProducer PairConsumer PairFacts
  PairProgress Properties_Pair Properties_PairProgress SpecSettle Properties_Settle Properties_Push SpecFresh FreshFacts SpecRecent RecentFacts
  SpecQuiet QuietFacts Properties_Quiet SpecTimely TimelyFacts Properties_Timely SpecOnce.
Import ListNotations.
Local Open Scope N_scope.

(** ** Contiguous ranges *)
Lemma contiguous_app a l b l' c : contiguous a l b -> contiguous b l' c -> contiguous a (l ++ l') c.
Proof.
  revert a. induction l as [|[x y] l IH]; intros a; cbn [contiguous app]; [intros ->; auto|].
  intros (H1 & H2 & H3) H. split; [exact H1|]. split; [exact H2|]. apply IH; auto.
Qed.
Lemma contiguous_le l : forall a b, contiguous a l b -> a <= b.
Proof. induction l as [|[x y] l IH]; intros a b; cbn [contiguous]; [lia|]. intros (H1 & H2 & H3). apply IH in H3. lia. Qed.
Lemma contiguous_In l : forall a b n, contiguous a l b -> a < n <= b -> exists r, In r l /\ fst r <= n <= snd r.
Proof.
  induction l as [|[x y] l IH]; intros a b n; cbn [contiguous]; [lia|]. intros (H1 & H2 & H3) H.
  destruct (N.le_gt_cases n y) as [L|L]; [exists (x, y); split; [left; reflexivity|cbn; lia]|].
  destruct (IH y b n H3) as (r & R1 & R2); [lia|]. exists r. split; [right; exact R1|exact R2].
Qed.
Lemma chain_contiguous p l : forall f g v, report_chain f l g -> f p = Some v -> exists v', g p = Some v' /\ contiguous v (ranges_in p l) v'.
Proof.
  induction l as [|m l IH]; intros f g v; cbn [report_chain].
  - intros H E. exists v. rewrite H. split; [exact E|reflexivity].
  - intros (H1 & H2 & H3) E. unfold ranges_in. cbn [filter]. destruct (name_eqb p (mi_prefix m)) eqn:Q.
    + apply name_eqb_eq in Q. subst p. rewrite E in H1, H2. cbn [seq0] in H1.
      destruct (IH _ _ (mi_high m) H3) as (v' & G1 & G2); [rewrite name_eqb_refl; reflexivity|]. exists v'. split; [exact G1|].
      cbn [map contiguous]. split; [exact H1|]. split; [lia|exact G2].
    + apply (IH _ _ v H3). rewrite Q. exact E.
Qed.

(** ** The consumer *)
Lemma did_contiguous b0 A s o s' p v : did A s o s' -> dinv b0 s -> ~ In (CUnsub p) A -> known s p = Some v ->
  known s' p = Some v /\ creported p o = [].
Proof. intros D I N E. destruct (did_order _ _ _ _ _ p D I N) as [[H1 H2] _]; [congruence|]. split; [congruence|exact H2]. Qed.
Lemma step_contiguous b0 K e s s' o x p v : c_step K e s = (s', o, Ok x) -> dinv b0 s -> ~ In (CUnsub p) (calls_of e) ->
  known s p = Some v -> exists v', known s' p = Some v' /\ contiguous v (creported p o) v'.
Proof.
  intros Es D N Hv. assert (fine (res (c_step K e s))) as F by (rewrite Es; exact I).
  pose proof (c_step_view K e s F) as V. rewrite Es in V. cbn [st outs res fst snd] in V.
  inversion V as [o' s'' r Di _|s'' r buf e' _ _ S Er|s0 s1 r names buf e' B1 B2 S T Er|s0 s1 r names buf e' B1 B2 S T Er
    |s0 s1 s'' names buf l o' r B1 B2 S T Di _|s0 s1 s2 s'' names buf l av o1 o2 r B1 B2 S T D1 D2 _]; subst; try discriminate.
  - destruct (did_contiguous _ _ _ _ _ _ _ Di D N Hv) as [E ->]. exists v. split; [exact E|reflexivity].
  - pose proof (dinv_same _ _ _ S D) as D0. destruct (take_sync_inv names s0) as (_ & (m & M1 & M2) & C & _). rewrite T in *.
    cbn [st res fst snd] in *. specialize (C l eq_refl).
    assert (known s0 p = Some v) as Hv0 by (unfold known in *; destruct S as [-> _]; exact Hv).
    destruct (chain_contiguous p l _ _ v C Hv0) as (v' & G1 & G2).
    assert (dinv b0 s1) as Ds1 by (subst s1; eapply dinv_chain; [exact D0|apply M2, D0|exact C]).
    destruct (did_contiguous _ _ _ _ _ _ _ Di Ds1 N G1) as [E1 E2]. exists v'. split; [exact E1|].
    rewrite creported_app, creported_upd, E2, app_nil_r. exact G2.
  - pose proof (dinv_same _ _ _ S D) as D0. destruct (take_hello_inv names [] s0) as (_ & (m & M1 & M2) & C & _). rewrite T in *.
    cbn [st res fst snd] in *. destruct (C _ eq_refl) as [C1 _]. cbn [fst] in C1.
    assert (known s0 p = Some v) as Hv0 by (unfold known in *; destruct S as [-> _]; exact Hv).
    destruct (chain_contiguous p l _ _ v C1 Hv0) as (v' & G1 & G2).
    assert (dinv b0 s1) as Ds1 by (subst s1; eapply dinv_chain; [exact D0|apply M2, D0|exact C1]).
    destruct (did_contiguous _ _ _ _ _ _ _ D1 Ds1 N G1) as [E1 E2].
    destruct (did_contiguous _ _ _ _ _ _ _ D2 (dinv_did _ _ _ _ _ D1 Ds1) N E1) as [E3 E4]. exists v'. split; [exact E3|].
    cbn [creported]. rewrite !creported_app, creported_upd, E2, E4, app_nil_r. exact G2.
Qed.

(** ** Both *)
Section Duo.
Variables (K : pcfg) (Kc : ccfg).
Hypothesis Ok2 : duo_ok K Kc.
(** what a fetch hands over can be read *)
Lemma fetch_content b0 S W w i k m d buf : DI K Kc b0 S W w -> plain K w -> cfetch i (c_live (du_cons w)) = Some (k, m) ->
  completes (fun x => In x (du_sent w)) m d buf -> cgood_content buf \/ (k = KSync /\ d_type d = AppNack).
Proof.
  intros [Dn Dr Dw Dc Dt] [P1 P2 P3 P4] Fi Cm. pose proof (history_wf _ Dw) as Wh. pose proof (differ_free K _ Wh P1) as Cf.
  destruct (producer_packets K (dk_scheme _ _ Ok2) (du_evs w) (du_prod w) (du_sent w) Dw Cf Dr) as (P & PI).
  pose proof (gather1 K P (du_evs w) _ _ w m d buf PI Dw P3 eq_refl eq_refl P4 Cm) as Ga. destruct k.
  - pose proof (ci_hello _ _ _ _ _ _ _ _ _ _ Dc i m (cfetch_In _ _ _ Fi)) as Em. unfold hello_prefix in Em. rewrite <- (dk_sync _ _ Ok2) in Em.
    subst m. destruct Ga as [(x & ver & Hx & -> & Ty & (fc & Fc) & Nb & Pre)|(_ & _ & rn & bf & t & cc & Rq & Pre)].
    2:{ rewrite (nack_hello K rn bf t cc Rq) in Pre. discriminate. }
    destruct (hello_answer K P (du_evs w) _ _ x ver PI Hx Pre) as (k0 & cc & Pt & Hc & Hp).
    pose proof (pi_good _ _ _ _ _ PI x Hx) as Gx. destruct (good_size K (du_evs w) x Dw P3 Gx) as [Wn _]. destruct Gx as (Eb & _). rewrite Eb in *.
    destruct Hp as [Pn Pc]. left. exists (hello_content k0). split; [rewrite Pc in *; apply state_roundtrip; exact Wn|].
    apply Forall_forall. intros nm Hnm. apply (good_had K (du_evs w) k0); auto. apply (hello_In K (du_evs w) k0 nm Dw Pt). exact Hnm.
  - pose proof (ci_sync _ _ _ _ _ _ _ _ _ _ Dc i m (cfetch_In _ _ _ Fi)) as (d1 & d2 & d3 & cc & k & b & Em & [Bc _] & Ca & Pk & Z).
    destruct Ga as [(x & ver & Hx & -> & Ty & (fc & Fc) & Nb & Pre)|(Ty & _)]; [|right; auto]. left.
    unfold sync_prefix in Em. rewrite <- (dk_sync _ _ Ok2), <- app_assoc in Em. cbn [app] in Em. subst m.
    destruct (sync_answer K P (du_evs w) _ _ x ver d1 d2 d3 cc PI Hx Pre) as (k0 & c & bf & t & Pt & Hc & Pn & Bb & It & Nn & Cp).
    pose proof (pi_good _ _ _ _ _ PI x Hx) as Gx. destruct (good_size K (du_evs w) x Dw P3 Gx) as [Wn _]. destruct Gx as (Eb & _). rewrite Eb in *.
    exists (pn_names x). split; [apply state_roundtrip; exact Wn|].
    apply Forall_forall. intros nm Hnm. apply (good_had K (du_evs w) k0); auto.
Qed.
Lemma silent_nothing p o : (forall l, ~ In (CoUpdate l) o) -> creported p o = [].
Proof. intros H. induction o as [|[k n|av|l|r] o IH]; simpl; auto; try (apply IH; intros x Hx; apply (H x); right; exact Hx). destruct (H l). left. reflexivity. Qed.
Lemma duo_step_contiguous b0 S W p rule w w' v : DI K Kc b0 S W w -> plain K w -> duo_step K Kc (SpecPair.keeps p rule) w w' ->
  known (du_cons w) p = Some v ->
  exists o v', du_seen w' = du_seen w ++ o /\ known (du_cons w') p = Some v' /\ contiguous v (creported p o) v'.
Proof.
  intros D Pl St Hv. pose proof (ci_d _ _ _ _ _ _ _ _ _ _ (di_ci _ _ _ _ _ _ D)) as Dd. pose proof (ci_l _ _ _ _ _ _ _ _ _ _ (di_ci _ _ _ _ _ _ D)) as Ld.
  destruct St as [e s o r We Es Er|e c o r Hb Ec Er|l c o r Hl Ec Er|i k m d buf sc1 sc2 c1 o1 r1 c2 o2 r2 Fi Cm Hru E1 R1 E2 R2]; cbn [du_cons du_seen].
  - exists [], v. rewrite app_nil_r. split; [reflexivity|]. split; [exact Hv|reflexivity].
  - assert (forall buf, In buf (content_of e) -> cgood_content buf) as Gc by (destruct e; try destruct Hb; intros x []).
    assert (r = Ok tt) as -> by (destruct Er as [Er|(x & Er)]; [exact Er|]; pose proof (step_no_throw Kc e (du_cons w) Gc x) as Z; rewrite Ec in Z; cbn [res snd] in Z; congruence).
    destruct (step_contiguous b0 Kc e _ _ _ _ p v Ec Dd) as (v' & G1 & G2); [destruct e; try destruct Hb; intros []|exact Hv|]. exists o, v'. auto.
  - pose proof (calls_did Kc l (du_cons w)) as X. rewrite Ec in X. cbn [st outs res fst snd] in X. destruct X as [_ X]; [apply ends_fine; auto|].
    destruct (did_contiguous _ _ _ _ _ _ _ X Dd (proj2 Hl) Hv) as [G1 G2]. exists o, v. rewrite G2. split; [reflexivity|]. split; [exact G1|reflexivity].
  - destruct (segment_result _ _ _ _ _ _ _ Ld E1) as [-> G].
    destruct (step_contiguous b0 Kc (CeSegment i d) _ _ _ _ p v E1 Dd (fun H => H) Hv) as (v1 & G1 & G2).
    assert (dinv b0 c1) as Dd1 by (eapply dinv_same; [apply G|exact Dd]).
    assert (cfetch i (c_live c1) = Some (KSync, m) -> c_step Kc (CeContent i buf [] sc2) c1 = (c2, o2, r2)) as Eq.
    { intros F1. cbn [c_step] in *. rewrite mbind_get, F1 in *. exact E2. }
    assert (exists v2, known c2 p = Some v2 /\ contiguous v1 (creported p o2) v2) as (v2 & H1 & H2).
    { destruct (fetch_content _ _ _ _ _ _ _ _ _ D Pl Fi Cm) as [Gc|[-> Ty]].
      - assert (forall sc, c_step Kc (CeContent i buf sc sc2) c1 = (c2, o2, r2) -> ~ In (CUnsub p) (sc ++ sc2) ->
          exists v2, known c2 p = Some v2 /\ contiguous v1 (creported p o2) v2) as Go.
        { intros sc E3 N3. assert (r2 = Ok tt) as ->.
          { destruct R2 as [R2|(x & R2)]; [exact R2|]. pose proof (step_no_throw Kc (CeContent i buf sc sc2) c1) as Z. rewrite E3 in Z. cbn [res snd] in Z.
            destruct (Z ltac:(intros b [<-|[]]; exact Gc) x R2). }
          exact (step_contiguous b0 Kc _ _ _ _ _ p v1 E3 Dd1 N3 G1). }
        destruct k; destruct Hru as [_ Hn]; cbn [calls_in] in Hn.
        + exact (Go sc1 E2 Hn).
        + apply (Go []); [|exact Hn]. apply Eq. apply In_cfetch; [apply (sg_linv _ _ _ _ _ _ G)|].
          apply (sg_sync _ _ _ _ _ _ G). apply cfetch_In. exact Fi.
      - destruct Cm as (base & segs & fc & last & _ & _ & Fd & _). destruct (sg_sname _ _ _ _ _ _ G _ _ Fi Fd) as (_ & Ht & Fi').
        cbn [c_step] in E2. rewrite mbind_get, Fi' in E2. unfold finish in E2. rewrite mbind_mod, Ht, Ty in E2. cbn [is_nack] in E2.
        injection E2 as <- <- _. exists v1. split; [exact G1|reflexivity]. }
    exists (o1 ++ o2), v2. split; [reflexivity|]. split; [exact H1|]. rewrite creported_app. eapply contiguous_app; eauto.
Qed.
Lemma duo_run_contiguous (rule : duo -> activity -> Prop) p w0 w1 w2 v : (forall w a, rule w a -> subscribes_any_time w a) ->
  fresh_duo K Kc w0 -> duo_run K Kc subscribes_any_time w0 w1 -> duo_run K Kc (SpecPair.keeps p rule) w1 w2 ->
  no_removal (history (du_evs w2)) -> plain K w2 -> known (du_cons w1) p = Some v ->
  exists o v', du_seen w2 = du_seen w1 ++ o /\ known (du_cons w2) p = Some v' /\ contiguous v (creported p o) v'.
Proof.
  intros Ru Fr R1 R2 Nr Pl Hv. destruct (DI_fresh K Kc w0 Fr) as (b0 & D0).
  assert (forall w, duo_run K Kc subscribes_any_time w0 w -> no_removal (history (du_evs w)) -> plain K w -> DI K Kc b0 (fun _ => False) (fun _ => 0) w) as Re.
  { intros w R N P. destruct (DI_run K Kc Ok2 b0 (fun _ => False) (fun _ => 0) (fun _ => True) subscribes_any_time w0 w) as [D _]; auto.
    intros w' a D _. eapply any_allowed; [exact D|]. intros q []. }
  assert (forall a b, duo_step K Kc (SpecPair.keeps p rule) a b -> duo_step K Kc subscribes_any_time a b) as Weak.
  { intros a b [e s o r We Es Er|e c o r Hb Ec Er|l c o r Hl Ec Er|i k m d buf sc1 sc2 c1 o1 r1 c2 o2 r2 Fi Cm Hru E1 Q1 E2 Q2].
    - eapply duo_producer; eauto.
    - eapply duo_background; eauto.
    - eapply duo_calls; eauto. apply Ru. apply Hl.
    - eapply duo_fetch; eauto. apply Ru. apply Hru. }
  induction R2 as [w1|w1 w2 w3 R2 IH St].
  - exists [], v. rewrite app_nil_r. split; [reflexivity|]. split; [exact Hv|reflexivity].
  - destruct (earlier K Kc _ _ _ St Pl Nr) as [Pl2 Nr2]. destruct (IH R1 Nr2 Pl2 Hv) as (o & v1 & E1 & K1' & C1).
    assert (duo_run K Kc subscribes_any_time w0 w2) as Rw2.
    { clear - R1 R2 Weak. induction R2 as [w|w x y R2 IH St]; [exact R1|]. eapply duo_next; [apply IH; exact R1|apply Weak; exact St]. }
    destruct (duo_step_contiguous _ _ _ p rule w2 w3 v1 (Re w2 Rw2 Nr2 Pl2) Pl2 St K1') as (o' & v2 & E2 & K2' & C2).
    exists (o ++ o'), v2. split; [rewrite E2, E1, app_assoc; reflexivity|]. split; [exact K2'|]. rewrite creported_app. eapply contiguous_app; eauto.
Qed.
End Duo.

(** * C125 *)
(** while a prefix stays subscribed, the ranges reported for it continue each other exactly, from the
    number known at the beginning to the one known at the end, and that is a number of the producer *)
Theorem C125_reported_exactly_once : forall K Kc w0 w1 w2 p v,
  duo_ok K Kc -> fresh_duo K Kc w0 -> duo_run K Kc subscribes_any_time w0 w1 -> seq_of p (du_cons w1) = Some v ->
  duo_run K Kc (SpecPair.keeps p subscribes_any_time) w1 w2 ->
  no_removal (history (du_evs w2)) -> plain K w2 ->
  exists o v' u, du_seen w2 = du_seen w1 ++ o /\ seq_of p (du_cons w2) = Some v' /\ contiguous v (creported p o) v' /\
    current w2 p = Some u /\ v' <= u.
Proof.
  intros K Kc w0 w1 w2 p v Ok2 Fr R1 Hv R2 Nr Pl.
  destruct (duo_run_contiguous K Kc Ok2 subscribes_any_time p w0 w1 w2 v (fun _ _ H => H) Fr R1 R2 Nr Pl Hv) as (o & v' & E & Hv' & C).
  destruct (C65_never_ahead_partial K Kc w0 w2 p v' Ok2 Fr) as (u & Eu & L); auto.
  { clear - R1 R2. induction R2 as [w|w x y R2 IH St]; [exact R1|]. eapply duo_next; [apply IH; exact R1|].
    destruct St as [e s o r We Es Er|e c o r Hb Ec Er|l c o r Hl Ec Er|i k m d buf sc1 sc2 c1 o1 r1 c2 o2 r2 Fi Cm Hru E1 Q1 E2 Q2].
    - eapply duo_producer; eauto.
    - eapply duo_background; eauto.
    - eapply duo_calls; eauto. apply Hl.
    - eapply duo_fetch; eauto. apply Hru. }
  exists o, v', u. auto.
Qed.
Print Assumptions C125_reported_exactly_once.
(** together with C124: each number that the producer had at [w0], and the consumer did not know, has
    been reported, in exactly one range, when the time is over *)
Theorem C125_reported_in_time : forall K Kc T wf w0 t0 w t p v,
  duo_ok K Kc -> fresh_duo K Kc wf -> duo_run K Kc subscribes_in_hello wf w0 ->
  t0 <= pp_now (du_prod w0) -> pp_now (du_prod w0) <= t0 + T -> undelayed K Kc T w0 t0 w t ->
  duo_run K Kc (SpecPair.keeps p subscribes_in_hello) w0 w -> is_subscribed p (du_cons w0) = true -> seq_of p (du_cons w0) = Some v ->
  no_removal (history (du_evs w)) -> plain K w ->
  pp_now (du_prod w0) + longest_freshness K + T < pp_now (du_prod w) ->
  exists o v', du_seen w = du_seen w0 ++ o /\ contiguous v (creported p o) v' /\
    forall n, v < n <= seq0 (current w0 p) -> exists r, In r (creported p o) /\ fst r <= n <= snd r.
Proof.
  intros K Kc T wf w0 t0 w t p v Ok2 Fr R0 L0 H0 U Rk Hp Hv Nr Pl Hq.
  assert (duo_run K Kc subscribes_any_time wf w0) as R0'.
  { clear - R0. induction R0 as [w|w x y R2 IH St]; [constructor|]. eapply duo_next; [exact IH|].
    destruct St as [e s o r We Es Er|e c o r Hb Ec Er|l c o r Hl Ec Er|i k m d buf sc1 sc2 c1 o1 r1 c2 o2 r2 Fi Cm Hru E1 Q1 E2 Q2].
    - eapply duo_producer; eauto.
    - eapply duo_background; eauto.
    - eapply duo_calls; eauto. apply any_hello. exact Hl.
    - eapply duo_fetch; eauto. apply any_hello. exact Hru. }
  destruct (duo_run_contiguous K Kc Ok2 subscribes_in_hello p wf w0 w v any_hello Fr R0' Rk Nr Pl Hv) as (o & v' & E & Hv' & C).
  exists o, v'. split; [exact E|]. split; [exact C|]. intros n Hn. apply (contiguous_In _ v v'); auto.
  assert (is_subscribed p (du_cons w) = true) as Hs.
  { destruct (earlier_run K Kc _ _ _ Rk Pl Nr) as [Pl0 Nr0]. clear - Ok2 Fr R0' Rk Hp Nr Pl.
    destruct (DI_fresh K Kc wf Fr) as (b0 & D0).
    induction Rk as [w0|w0 w1 w2 Rk IH St]; [exact Hp|]. destruct (earlier K Kc _ _ _ St Pl Nr) as [Pl1 Nr1].
    assert (duo_run K Kc subscribes_any_time wf w1) as R1.
    { clear - R0' Rk. induction Rk as [w|w x y Rk IH St]; [exact R0'|]. eapply duo_next; [apply IH; exact R0'|].
      destruct St as [e s o r We Es Er|e c o r Hb Ec Er|l c o r Hl Ec Er|i k m d buf sc1 sc2 c1 o1 r1 c2 o2 r2 Fi Cm Hru E1 Q1 E2 Q2].
      - eapply duo_producer; eauto.
      - eapply duo_background; eauto.
      - eapply duo_calls; eauto. apply any_hello. apply Hl.
      - eapply duo_fetch; eauto. apply any_hello. apply Hru. }
    destruct (DI_run K Kc Ok2 b0 (fun _ => False) (fun _ => 0) (fun _ => True) subscribes_any_time wf w1) as [D _]; auto.
    { intros w' a D _. eapply any_allowed; [exact D|]. intros q []. }
    eapply (duo_step_sub K Kc p); [apply (ci_l _ _ _ _ _ _ _ _ _ _ (di_ci _ _ _ _ _ _ D))|exact St|]. apply IH; auto. }
  pose proof (C124_news_arrive_in_time K Kc T wf w0 t0 w t Ok2 Fr R0 L0 H0 U Nr Pl Hq p Hs) as Kn. unfold seq_of in Kn. unfold known in Hv'. rewrite Hv' in Kn. cbn [seq0] in Kn. lia.
Qed.
Print Assumptions C125_reported_in_time.
(** one range of two numbers, and the update of C124's example *)
Lemma keeps_g : duo_run Kx Kc (SpecPair.keeps pb subscribes_in_hello) y6 g5.
Proof.
  assert (duo_run Kx Kc (SpecPair.keeps pb subscribes_in_hello) y6 g2) as R2.
  { apply (duo_next _ _ _ _ g1); [apply (duo_next _ _ _ _ y6); [constructor|]|].
    - replace g1 with (wp (PTick 2000) y6) by run. apply do_prod; [exact I|apply step3; run].
    - replace g2 with (wp (PStoreFire 0) g1) by run. apply do_prod; [exact I|apply step3; run]. }
  apply (duo_next _ _ _ _ g4); [apply (duo_next _ _ _ _ g3); [eapply duo_next; [exact R2|]|]|].
  - destruct does_g3 as (s & Es & ->). eapply duo_producer; [exact I|exact Es|left; reflexivity].
  - replace g4 with (wf 1 g_d [] [] g3) by run.
    apply (do_fetch _ 1 KSync (sync_n v5)); [run|right; left; run|run|run|run|split; [apply hello_rules|intros []]|apply step3; run|apply step3; run].
  - replace g5 with (wp (PTick 2000) g4) by run. apply do_prod; [exact I|apply step3; run].
Qed.
Example C125_example :
  (duo_ok Kx Kc /\ fresh_duo Kx Kc w0 /\ duo_run Kx Kc subscribes_any_time w0 v10 /\ seq_of pa (du_cons v10) = Some 0 /\
   duo_run Kx Kc (SpecPair.keeps pa subscribes_any_time) v10 v13 /\ no_removal (history (du_evs v13)) /\ plain Kx v13 /\
   creported pa (skipn (length (du_seen v10)) (du_seen v13)) = [(1, 2)] /\ contiguous 0 [(1, 2)] 2) /\
  (duo_run Kx Kc subscribes_in_hello w0 y6 /\ undelayed Kx Kc 2000 y6 0 g5 2000 /\ duo_run Kx Kc (SpecPair.keeps pb subscribes_in_hello) y6 g5 /\
   is_subscribed pb (du_cons y6) = true /\ seq_of pb (du_cons y6) = Some 0 /\ pp_now (du_prod y6) + longest_freshness Kx + 2000 < pp_now (du_prod g5) /\
   0 <= pp_now (du_prod y6) /\ pp_now (du_prod y6) <= 0 + 2000 /\ no_removal (history (du_evs g5)) /\ plain Kx g5 /\
   seq0 (current y6 pb) = 1).
Proof.
  destruct C65_example as (A1 & A2 & A3 & _ & A5 & A6 & A7 & _ & _ & A10 & _).
  destruct C124_example as (_ & _ & B3 & B4 & _ & _ & _ & _ & B9 & B10 & B11 & B12 & B13 & _ & _ & B16 & _). split.
  - split; [exact A1|]. split; [exact A2|]. split; [exact A3|]. split; [exact A10|]. split; [exact A5|]. split; [exact A6|]. split; [exact A7|].
    split; [run|]. cbn [contiguous]. split; [reflexivity|]. split; [lia|reflexivity].
  - split; [exact B3|]. split; [exact B4|]. split; [exact keeps_g|]. split; [run|]. split; [run|]. split; [exact B13|]. split; [exact B9|].
    split; [exact B10|]. split; [exact B11|]. split; [exact B12|exact B16].
Qed.
