(** Property theorems about what applications are told in a network of ideal links (C128). *)
From Coq Require Import List NArith ZArith Bool Arith Lia.
From Verif Require Import Base Mon MonFacts Iblt BaseFacts IbltFacts SpecIblt
  Tlv State NMap TlvFacts NMapFacts Codec CodecFacts Store StoreFacts
  Producer SpecProducer ProducerFacts Properties_Producer Partial SpecPartial Properties_Partial
  Full FullTrace SpecFull FullFacts FullSafe FullSteps FullData FullRuns Properties_Full
  SpecExchange ExchangeFacts Properties_Exchange SpecFresh SpecDeliver DeliverFacts Properties_Deliver SpecNet NetFacts Properties_Net
  SpecGroup GroupFacts SpecStory Properties_Story SpecTold.
Import ListNotations.
Local Open Scope N_scope.

Lemma gapless_high l : forall lo hi a b, gapless lo l hi -> In (a, b) l -> lo < a /\ b <= hi.
Proof.
  induction l as [|[x y] l IH]; intros lo hi a b; cbn [gapless In]; [tauto|].
  assert (forall l lo hi, gapless lo l hi -> lo <= hi) as Le.
  { clear. induction l as [|[x y] l IH]; cbn [gapless]; intros lo hi; [lia|]. intros (_ & H & G). apply IH in G. lia. }
  intros (E1 & E2 & G) [E|H].
  - injection E as <- <-. apply Le in G. lia.
  - destruct (IH _ _ _ _ G H). lia.
Qed.
(** a number within the bounds lies in exactly one of the ranges *)
Lemma gapless_once l : forall lo hi n, gapless lo l hi -> lo < n <= hi -> once n l.
Proof.
  induction l as [|[x y] l IH]; intros lo hi n; cbn [gapless]; [lia|].
  intros (E1 & E2 & G) H. destruct (N.le_gt_cases n y) as [Hn|Hn].
  - exists [], x, y, l. split; [reflexivity|]. split; [lia|]. intros a b Hin. destruct (gapless_high _ _ _ _ _ G Hin). lia.
  - destruct (IH _ _ n G) as (l1 & a & b & l2 & -> & Ha & Ho); [lia|]. exists ((x, y) :: l1), a, b, l2. split; [reflexivity|].
    split; [exact Ha|]. intros a' b' [E|Hin]; [injection E as <- <-; lia|auto].
Qed.
(** the walk over the observations of the asking node of a link *)
Lemma story_joint Ka Kb a b ea oa eb ob a' b' p : joint Ka Kb a b ea oa eb ob a' b' ->
  forall sys evs o, reaches Kb sys evs b o -> Forall fev_wf eb -> no_removal (ops_of ob) ->
  gapless (seq0 (seq_after p (ops_of o))) (story p (ops_of o) ob) (seq0 (seq_after p (ops_of o ++ ops_of ob))).
Proof.
  assert (forall sys evs o e b b1 o1 ob, reaches Kb sys evs b o -> fev_wf e -> fp_step Kb e b = (b1, o1, Ok tt) ->
    no_removal (ops_of (o1 ++ ob)) ->
    (forall sys evs o, reaches Kb sys evs b1 o -> no_removal (ops_of ob) ->
      gapless (seq0 (seq_after p (ops_of o))) (story p (ops_of o) ob) (seq0 (seq_after p (ops_of o ++ ops_of ob)))) ->
    gapless (seq0 (seq_after p (ops_of o))) (story p (ops_of o) (o1 ++ ob)) (seq0 (seq_after p (ops_of o ++ ops_of (o1 ++ ob))))) as Step.
  { intros sys evs o e s s1 o1 ob1 R We E Nr IH. rewrite ops_of_app in Nr. apply no_removal_app in Nr as [N1 N2].
    pose proof (story_step Kb sys evs s o e p R We) as S. rewrite E in S. cbn [outs res fst snd] in S.
    specialize (S N1 (or_introl eq_refl)). rewrite story_app, ops_of_app, app_assoc. eapply gapless_app; [exact S|].
    rewrite <- ops_of_app. apply (IH sys (evs ++ [e])); [|exact N2].
    pose proof (reaches_snoc Kb sys evs e s o R We) as Rs. rewrite E in Rs. cbn [st outs res fst snd] in Rs. apply Rs; discriminate. }
  intros J. induction J as [a b|dt a b a1 b1 ea oa eb ob a' b' Ha Hb J IH|e a b a1 o1 ea oa eb ob a' b' He Ha J IH
    |e a b b1 o1 ea oa eb ob a' b' He Hb No J IH|e a b x n t y b1 l a1 o1 ea oa eb ob a' b' He Hb No Er Ha Hm J IH];
    intros sys evs o R W Nr.
  - rewrite app_nil_r. reflexivity.
  - inversion W as [|? ? We W']; subst. apply (Step sys evs o _ b b1 [] ob R We Hb Nr). intros; eapply IH; eauto.
  - eapply IH; eauto.
  - inversion W as [|? ? We W']; subst. apply (Step sys evs o _ b b1 o1 ob R We Hb Nr). intros; eapply IH; eauto.
  - inversion W as [|? ? We W']; subst.
    replace (x ++ FoInterest n t :: y ++ ob) with ((x ++ FoInterest n t :: y) ++ ob) in * by (rewrite <- app_assoc; reflexivity).
    apply (Step sys evs o _ b b1 _ ob R We Hb Nr). intros; eapply IH; eauto.
Qed.
Lemma story_reported p o : forall ops, (forall v, ~ In (CPublish p v) (ops_of o)) -> story p ops o = reported p o.
Proof.
  induction o as [|x o IH]; intros ops H; [reflexivity|]. destruct x as [d|n t|l|c]; cbn [story reported ops_of] in *; auto.
  - rewrite IH by exact H. reflexivity.
  - rewrite IH by (intros v Hv; apply (H v); right; exact Hv). destruct c as [q|q|q v|q v]; try reflexivity.
    destruct (name_eqb p q) eqn:Q; [|reflexivity]. apply name_eqb_eq in Q. subst q. destruct (H v). left. reflexivity.
Qed.
Lemma run_no_publish K p evs s s' o : (forall v, ~ In (CPublish p v) (flat_map ev_ops evs)) -> fp_run K s evs = Some (s', o) ->
  forall v, ~ In (CPublish p v) (ops_of o).
Proof.
  intros H R. set (ok := fun c => forall v, c <> CPublish p v).
  assert (sop_rel ok s o s') as X.
  { apply (tr_run K ok (sop_rel ok) (sop_closed K ok) ltac:(discriminate) ltac:(discriminate)) with evs; auto;
      try (intros; constructor; fail); try (split; intros; constructor).
    apply Forall_forall. intros c Hc v ->. exact (H v Hc). }
  intros v Hp. unfold sop_rel in X. rewrite Forall_forall in X. exact (X _ Hp v eq_refl).
Qed.
Lemma path_last x ys z : path x (ys ++ [z]) -> exists y, linked y z /\ regular z.
Proof.
  revert x. induction ys as [|y ys IH]; intros x; cbn [app path]; [|intros (_ & _ & H); eauto].
  intros (H & R & _). eauto.
Qed.
Lemma line_story x ys z p : path x (ys ++ [z]) ->
  gapless (knows (ln_from z) p) (story p (ops_of (ln_seen z)) (ln_out z)) (knows (ln_to z) p).
Proof.
  intros P. destruct (path_last _ _ _ P) as (y & L & G).
  pose proof (run_no_removal _ _ _ _ _ (rg_removal _ G) (rg_run _ G)) as Nr.
  pose proof (reaches_run _ _ _ _ _ _ _ _ (rg_reaches _ G) (rg_wf _ G) (rg_run _ G)) as R'.
  unfold knows. rewrite (reaches_seq _ _ _ _ _ p (rg_reaches _ G)), (reaches_seq _ _ _ _ _ p R'), ops_of_app.
  exact (story_joint _ _ _ _ _ _ _ _ _ _ p (lk_joint _ _ L) _ _ _ (rg_reaches _ G) (rg_wf _ G) Nr).
Qed.

(** * C128 *)
(** what the application of any node on a path of ideal links publishes and is told makes up, without gap
    or repetition, the numbers that the node gets; once the sum of the delays of the links has passed,
    everything that the first node knew in the beginning is among it *)
Theorem C128_learned_once_and_in_time : forall x ys z p,
  regular x -> path x (ys ++ [z]) ->
  gapless (knows (ln_from z) p) (story p (ops_of (ln_seen z)) (ln_out z)) (knows (ln_to z) p) /\
  (hops x (ys ++ [z]) <= time_of (ln_events x) ->
   forall n, knows (ln_from z) p < n <= knows (ln_from x) p -> once n (story p (ops_of (ln_seen z)) (ln_out z))).
Proof.
  intros x ys z p G P. pose proof (line_story x ys z p P) as S. split; [exact S|].
  intros H n Hn. pose proof (C106_news_cross_the_network x (ys ++ [z]) G P H p) as Kn. rewrite last_last in Kn.
  eapply gapless_once; [exact S|lia].
Qed.
Print Assumptions C128_learned_once_and_in_time.
(** a prefix that the application does not publish itself: every number of it that the first node knew is
    reported to the application of the last one, exactly once *)
Theorem C128_told_once_and_in_time : forall x ys z p n,
  regular x -> path x (ys ++ [z]) -> hops x (ys ++ [z]) <= time_of (ln_events x) ->
  (forall v, ~ In (CPublish p v) (flat_map ev_ops (ln_events z))) ->
  knows (ln_from z) p < n <= knows (ln_from x) p -> once n (reported p (ln_out z)).
Proof.
  intros x ys z p n G P H Np Hn. destruct (C128_learned_once_and_in_time x ys z p G P) as [_ T].
  destruct (path_last _ _ _ P) as (y & _ & Gz).
  rewrite <- (story_reported p (ln_out z) (ops_of (ln_seen z)) (run_no_publish _ p _ _ _ _ Np (rg_run _ Gz))). auto.
Qed.
Print Assumptions C128_told_once_and_in_time.
(** two links away, the application is told of the numbers 1 to 4 *)
Example C128_example :
  regular a_106 /\ path a_106 ([b_106] ++ [c_106]) /\ hops a_106 ([b_106] ++ [c_106]) <= time_of (ln_events a_106) /\
  (forall v, ~ In (CPublish pa v) (flat_map ev_ops (ln_events c_106))) /\
  knows (ln_from c_106) pa = 0 /\ knows (ln_from a_106) pa = 4 /\
  reported pa (ln_out c_106) = [(1, 4)] /\ once 3 [(1, 4)].
Proof.
  destruct C106_example as (A1 & A2 & A3 & A4 & A5 & A6 & A7). split; [exact A1|]. split; [exact A2|].
  split; [cbn [app]; rewrite A3, A4; lia|]. split; [intros v H; vm_compute in H; tauto|].
  split; [exact A6|]. split; [exact A5|]. split; [run|].
  exists [], 1, 4, []. split; [reflexivity|]. split; [lia|]. intros a b [].
Qed.
