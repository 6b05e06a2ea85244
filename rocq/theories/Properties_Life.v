(** Property theorems about registration and destruction (C100, C101). *)
From Coq Require Import List NArith ZArith Bool Arith Lia.
From Coq.Strings Require Import Byte.
From Verif Require Import Base Mon MonFacts Iblt BaseFacts IbltFacts SpecIblt
  Tlv State NMap TlvFacts NMapFacts Codec CodecFacts Bloom SpecBloom BloomFacts
  Store StoreFacts Producer SpecProducer ProducerFacts Properties_Producer Partial SpecPartial PartialFacts PartialSteps PartialAnswers
  Properties_Partial Full FullTrace SpecFull FullFacts FullSafe FullSteps FullData FullRuns FlowFacts FullFlow Properties_Full
  Consumer SpecConsumer ConsumerFacts Properties_Consumer Life.
Import ListNotations.
Local Open Scope N_scope.

(** ** Runs *)
Section Runs.
Context {T O E : Type}.
Variable step : lev E -> life T -> lres T O.
Lemma lrun_app evs1 evs2 : forall s, lrun step s (evs1 ++ evs2) =
  match lrun step s evs1 with
  | Ended s1 o1 => match lrun step s1 evs2 with Ended s2 o2 => Ended s2 (o1 ++ o2) | x => x end
  | x => x end.
Proof.
  induction evs1 as [|e evs1 IH]; intros s; cbn [app lrun].
  - destruct (lrun step s evs2); reflexivity.
  - destruct (step e s) as [s1 o1 [[]|x|u|]|]; try reflexivity; rewrite IH; destruct (lrun step s1 evs1) as [s2 o2| |]; try reflexivity;
      destruct (lrun step s2 evs2); rewrite ?app_assoc; reflexivity.
Qed.
(** an invariant, and what holds of everything sent, for events of a kind *)
Variable J : life T -> Prop.
Variable Q : lev E -> Prop.
Variable P : list O -> Prop.
Hypothesis P_nil : P [].
Hypothesis P_app : forall a b, P a -> P b -> P (a ++ b).
Hypothesis Hstep : forall e s, Q e -> J s -> match step e s with Runs s' o _ => J s' /\ P o | Dangling => False end.
Lemma lrun_inv evs : forall s, Forall Q evs -> J s ->
  match lrun step s evs with Ended s' o => J s' /\ P o | Broken => True | Called_dead => False end.
Proof.
  induction evs as [|e evs IH]; intros s F H; cbn [lrun]; [auto|]. inversion F as [|? ? Qe F']; subst.
  pose proof (Hstep e s Qe H) as X. destruct (step e s) as [s1 o1 [[]|x|u|]|]; try contradiction; try exact I; destruct X as [X1 X2];
    specialize (IH s1 F' X1); destruct (lrun step s1 evs) as [s2 o2| |]; auto; destruct IH as [Y1 Y2]; auto.
Qed.
End Runs.
Lemma lrun_idle {T O E} (step : lev E -> life T -> lres T O) s evs : (forall e, In e evs -> step e s = idle s) -> lrun step s evs = Ended s [].
Proof.
  induction evs as [|e evs IH]; intros H; [reflexivity|]. cbn [lrun]. rewrite (H e) by (left; reflexivity). unfold idle.
  rewrite IH by (intros; apply H; right; assumption). reflexivity.
Qed.
Definition keeps_living {E} (e : lev E) : Prop := e <> LDestroy.
Lemma none_destroys {E} (evs : list (lev E)) : ~ In LDestroy evs -> Forall keeps_living evs.
Proof. intros H. apply Forall_forall. intros e He ->. contradiction. Qed.
Definition answers {E} (evs : list (lev E)) : Prop := exists b, In (LAnswer b) evs.
Definition is_answered {T} (s : life T) : Prop := lf_answer s <> Unanswered.

(** while the object exists it is not called after its end, and an answer stays known *)
Definition living {T O E} (step : lev E -> life T -> lres T O) : Prop := forall e s, e <> LDestroy -> lf_alive s = true ->
  match step e s with
  | Runs s' _ _ => lf_alive s' = true /\ (is_answered s \/ (exists b, e = LAnswer b) -> is_answered s')
  | Dangling => False
  end.
Lemma living_run {T O E} (step : lev E -> life T -> lres T O) (L : living step) evs : forall s, ~ In LDestroy evs -> lf_alive s = true ->
  match lrun step s evs with
  | Ended s' _ => lf_alive s' = true /\ (is_answered s \/ answers evs -> is_answered s')
  | Broken => True
  | Called_dead => False
  end.
Proof.
  induction evs as [|e evs IH]; intros s N A; cbn [lrun].
  - split; [exact A|]. intros [H|[b []]]. exact H.
  - pose proof (L e s (fun X => N (or_introl X)) A) as X. 
    assert (~ In LDestroy evs) as N' by (intros H; apply N; right; exact H).
    destruct (step e s) as [s1 o1 [[]|x|u|]|]; try contradiction; try exact I; destruct X as [X1 X2];
      specialize (IH s1 N' X1); destruct (lrun step s1 evs) as [s2 o2| |]; auto; destruct IH as [Y1 Y2]; (split; [exact Y1|]);
      intros H; apply Y2; (destruct H as [H|[b [->|H]]]; [left; apply X2; left; exact H|left; apply X2; right; eauto|right; exists b; exact H]).
Qed.
Ltac life_cases A :=
  unfold lives, refused, idle, due, is_answered; rewrite ?A;
  repeat match goal with
  | |- context [if lf_filter ?s then _ else _] => destruct (lf_filter s)
  | |- context [match lf_answer ?s with Unanswered => _ | _ => _ end] => let H := fresh in destruct (lf_answer s) eqn:H
  | |- context [let '(_, _) := ?m in _] => let x := fresh in let y := fresh in let z := fresh in destruct m as [[x y] z]
  end; cbn; rewrite ?A; (split; [reflexivity||assumption|]); intros [X|[b X]]; congruence.
Lemma pl_living K F : living (pl_step K F).
Proof. intros e s N A. destruct e as [[]|[]|]; cbn [pl_step]; try congruence; life_cases A. Qed.
Lemma fl_living K F : living (fl_step K F).
Proof. intros e s N A. destruct e as [[]|[]|]; cbn [fl_step]; try congruence; life_cases A. Qed.
Lemma cl_living K evs : forall s, ~ In LDestroy evs -> lf_alive s = true ->
  match lrun (cl_step K) s evs with Ended s' _ => lf_alive s' = true /\ True | Broken => True | Called_dead => False end.
Proof.
  intros s N A. apply (lrun_inv (cl_step K) (fun s => lf_alive s = true) keeps_living (fun _ => True)); auto; [|apply none_destroys; exact N].
  clear. intros e s N A. destruct e as [[]|[]|]; cbn [cl_step]; try (destruct N; reflexivity); unfold lives, idle; rewrite ?A;
    try (destruct (c_step K _ _) as [[? ?] ?]); cbn; auto.
Qed.

(** * C100 *)
(** ** Full-sync nodes *)
(** A full-sync node that was destroyed after the forwarder had answered is never called again, and
    nothing is sent for it: neither fetches nor filters nor timers remain.  Missing: a node destroyed
    before the answer, if the face still reports the answer then. *)
Theorem C100_full_node_partial : forall K F sys evs1 evs2,
  ~ In LDestroy evs1 -> answers evs1 \/ fa_late F = false ->
  lrun (fl_step K F) (fl_new K sys) (evs1 ++ LDestroy :: evs2) <> Called_dead /\
  forall s1 o1, lrun (fl_step K F) (fl_new K sys) evs1 = Ended s1 o1 ->
    exists s2, lrun (fl_step K F) (fl_new K sys) (evs1 ++ LDestroy :: evs2) = Ended s2 o1.
Proof.
  intros K F sys evs1 evs2 N Hans.
  pose proof (living_run _ (fl_living K F) evs1 (fl_new K sys) N eq_refl) as L.
  assert (match lrun (fl_step K F) (fl_new K sys) evs1 with Ended s1 _ => fp_ok K (lf_obj s1) /\ True | _ => True end) as Ok1.
  { assert (forall s, fp_ok K (lf_obj s) -> Forall (fun _ => True) evs1 -> 
      match lrun (fl_step K F) s evs1 with Ended s1 _ => fp_ok K (lf_obj s1) /\ True | _ => True end) as G.
    { clear L N Hans. induction evs1 as [|e evs IH]; intros s H _; cbn [lrun]; [auto|].
      assert (match fl_step K F e s with Runs s' _ _ => fp_ok K (lf_obj s') | Dangling => True end) as X.
      { assert (forall e, fp_ok K (lf_obj s) -> match lives (fp_step K) e s with Runs s' _ _ => fp_ok K (lf_obj s') | Dangling => True end) as Lv.
        { intros e0 H0. unfold lives. pose proof (step_ok K e0 _ H0) as Y. unfold st in Y. destruct (fp_step K e0 (lf_obj s)) as [[? ?] ?]. exact Y. }
        destruct e as [[]|[]|]; cbn [fl_step]; try (destruct (due F s)); try (destruct (lf_filter s)); try (destruct (lf_alive s));
          try (apply Lv; exact H); try (destruct (is_prefix _ _)); try (destruct (fetch_of _ _)); try exact I; try exact H; try apply (stopped_ok K _ H). }
      destruct (fl_step K F e s) as [s1 o1 [[]|x|u|]|]; auto.
      all: specialize (IH s1 X (proj2 (Forall_forall _ _) (fun _ _ => I))); destruct (lrun (fl_step K F) s1 evs); auto. }
    apply G; [|apply Forall_forall; auto]. apply ok_rel_send, blank_ok. }
  rewrite lrun_app. destruct (lrun (fl_step K F) (fl_new K sys) evs1) as [s1 o1| |] eqn:E1; [|split; [discriminate|intros; discriminate]|contradiction].
  destruct L as [A Hans']. destruct Ok1 as [Ok1 _]. cbn [lrun fl_step]. rewrite A.
  set (s2 := mkLife (fp_destroy (lf_obj s1)) false (lf_answer s1) false).
  assert (f_live (lf_obj s2) = []) as Lv by (apply (stopped_live K _ Ok1)).
  assert (lrun (fl_step K F) s2 evs2 = Ended s2 []) as ->.
  { apply lrun_idle. intros e _. 
    assert (due F s2 = false) as D.
    { unfold due. cbn [lf_answer s2 lf_alive orb]. destruct (lf_answer s1) eqn:Ea; [|reflexivity..]. destruct Hans as [H|H]; [destruct (Hans' (or_intror H)); exact Ea|exact H]. }
    destruct e as [[]|[]|]; cbn [fl_step]; rewrite ?D; cbn [lf_filter lf_alive s2]; rewrite ?Lv; reflexivity. }
  cbn [app]. rewrite app_nil_r. split; [discriminate|]. intros s1' o1' [= <- <-]. exists s2. reflexivity.
Qed.
Print Assumptions C100_full_node_partial.
(** a node destroyed earlier is called by the first interest after the late answer *)
Theorem C100_full_node_late_answer_refuted : forall K F sys n l, fa_late F = true -> is_prefix (fc_sync K) n = true ->
  lrun (fl_step K F) (fl_new K sys) [LDestroy; LAnswer true; LEvent (FeInterest n l)] = Called_dead.
Proof. intros K F sys n l H P. cbn [lrun fl_step fl_new lf_alive due lf_answer lf_obj lf_filter orb]. unfold due. cbn. rewrite H. cbn. rewrite P. reflexivity. Qed.
Print Assumptions C100_full_node_late_answer_refuted.

(** ** Partial-sync producers *)
(** names of hello and sync interests for the producer's sync prefix *)
Definition for_producer (K : pcfg) (n : name) : Prop :=
  exists rest, n = pc_sync K ++ HELLO :: rest \/ n = pc_sync K ++ SYNC :: rest.
Lemma under_filters_iff K n : under_filters K n = true <-> for_producer K n.
Proof.
  unfold under_filters, for_producer. rewrite orb_true_iff, !is_prefix_iff. split.
  - intros [(r & ->)|(r & ->)]; exists r; rewrite <- app_assoc; auto.
  - intros (r & [->| ->]); [left|right]; exists r; rewrite <- app_assoc; reflexivity.
Qed.
(** whatever a registered producer did before: once it is destroyed, the first hello or sync interest calls it *)
Theorem C100_producer_refuted : forall K F evs s o n l,
  lrun (pl_step K F) (pl_new K) (LAnswer true :: map LEvent evs) = Ended s o -> for_producer K n ->
  lrun (pl_step K F) (pl_new K) (LAnswer true :: map LEvent evs ++ [LDestroy; LEvent (PInterest n l)]) = Called_dead.
Proof.
  intros K F evs s o n l R U. apply under_filters_iff in U. rewrite app_comm_cons, lrun_app, R. cbn [lrun pl_step lf_filter lf_alive]. rewrite U.
  assert (lf_filter s = true /\ True) as [-> _]; [|reflexivity].
  cbn [lrun] in R. change (pl_step K F (LAnswer true) (pl_new K)) with (Runs (mkLife (pp_new K) true Accepted true) (@nil data) (Ok tt)) in R. cbv iota in R.
  set (s0 := mkLife (pp_new K) true Accepted true) in R.
  assert (match lrun (pl_step K F) s0 (map LEvent evs) with Ended s' _ => (lf_filter s' = true /\ lf_alive s' = true) /\ True | Broken => True | Called_dead => False end) as X.
  { apply (lrun_inv (pl_step K F) (fun s => lf_filter s = true /\ lf_alive s = true) (fun e => exists x, e = LEvent x) (fun _ => True)); auto.
    - clear. intros e s [x ->] [A B]. destruct x; cbn [pl_step]; rewrite ?A, ?B; unfold lives; destruct (pp_step K _ _) as [[? ?] ?]; cbn; auto.
    - apply Forall_forall. intros e He. apply in_map_iff in He as (x & <- & _). eauto. }
  destruct (lrun (pl_step K F) s0 (map LEvent evs)); try discriminate. injection R as <- _. destruct X as [[X _] _]. auto.
Qed.
Print Assumptions C100_producer_refuted.
(** Proved: it is not called, and sends nothing, as long as no hello or sync interest arrives.  Missing:
    those interests, and a late answer as above. *)
Theorem C100_producer_partial : forall K F evs1 evs2,
  ~ In LDestroy evs1 -> answers evs1 \/ fa_late F = false ->
  (forall n l, In (LEvent (PInterest n l)) evs2 -> ~ for_producer K n) ->
  lrun (pl_step K F) (pl_new K) (evs1 ++ LDestroy :: evs2) <> Called_dead /\
  forall s1 o1, lrun (pl_step K F) (pl_new K) evs1 = Ended s1 o1 ->
    exists s2, lrun (pl_step K F) (pl_new K) (evs1 ++ LDestroy :: evs2) = Ended s2 o1.
Proof.
  intros K F evs1 evs2 N Hans Hi.
  pose proof (living_run _ (pl_living K F) evs1 (pl_new K) N eq_refl) as L.
  rewrite lrun_app. destruct (lrun (pl_step K F) (pl_new K) evs1) as [s1 o1| |] eqn:E1; [|split; [discriminate|intros; discriminate]|contradiction].
  destruct L as [A Hans']. cbn [lrun pl_step]. set (s2 := mkLife (lf_obj s1) false (lf_answer s1) (lf_filter s1)).
  assert (lrun (pl_step K F) s2 evs2 = Ended s2 []) as ->.
  { apply lrun_idle. intros e He.
    assert (due F s2 = false) as D.
    { unfold due. cbn [lf_answer s2 lf_alive orb]. destruct (lf_answer s1) eqn:Ea; [|reflexivity..]. destruct Hans as [H|H]; [destruct (Hans' (or_intror H)); exact Ea|exact H]. }
    destruct e as [[]|[]|]; cbn [pl_step]; rewrite ?D; cbn [lf_filter lf_alive s2]; try reflexivity.
    replace (under_filters K n) with false by (symmetry; apply not_true_iff_false; rewrite under_filters_iff; exact (Hi _ _ He)). destruct (lf_filter s1); reflexivity. }
  cbn [app]. rewrite app_nil_r. split; [discriminate|]. intros s1' o1' [= <- <-]. exists s2. reflexivity.
Qed.
Print Assumptions C100_producer_partial.

(** ** Consumers *)
(** a consumer destroyed while it waits for a reply is called when the fetch ends or a segment arrives *)
Theorem C100_consumer_refuted : forall K evs s o x i, creaches K evs s o -> cfetch i (c_live s) = Some x ->
  (forall d, lrun (cl_step K) (cl_new s) [LDestroy; LEvent (CeSegment i d)] = Called_dead) /\
  (forall buf sc1 sc2, lrun (cl_step K) (cl_new s) [LDestroy; LEvent (CeContent i buf sc1 sc2)] = Called_dead) /\
  (forall t, lrun (cl_step K) (cl_new s) [LDestroy; LEvent (CeError i t)] = Called_dead).
Proof. intros K evs s o x i _ E. repeat split; intros; cbn; rewrite E; reflexivity. Qed.
Print Assumptions C100_consumer_refuted.
(** one on which stop() was called, without a call that sends since, is not called any more, and nothing is sent *)
Theorem C100_consumer_partial : forall K evs s o s1 o1 r evs2 s2 o2 evs3, creaches K evs s o ->
  c_step K (CeCall CStop) s = (s1, o1, r) -> Forall external evs2 -> c_run K s1 evs2 = Some (s2, o2) ->
  exists s3, lrun (cl_step K) (cl_new s2) (LDestroy :: evs3) = Ended s3 [].
Proof.
  intros K evs s o s1 o1 r evs2 s2 o2 evs3 R E X R2. destruct (C51_stop_silences_partial K evs s o s1 o1 r evs2 s2 o2 R E X R2) as (_ & _ & Lv & _).
  cbn [lrun cl_step]. set (s3 := mkLife _ _ _ _). rewrite (lrun_idle (cl_step K) s3 evs3).
  - eexists. reflexivity.
  - intros e _. destruct e as [[]|[]|]; cbn [cl_step lf_alive s3 lf_obj cl_new]; rewrite ?Lv; reflexivity.
Qed.
Print Assumptions C100_consumer_partial.

(** hypotheses: a node that answers an interest, is registered and destroyed; a consumer with a reply under way *)
Example C100_example :
  (~ In LDestroy [LAnswer true; LEvent (FeApi (AAdd pa)); LEvent (FeInterest blank_ask 1000); LEvent (FeApi (APublish pa None))] /\
   answers [LAnswer true; LEvent (FeApi (AAdd pa)); LEvent (FeInterest blank_ask 1000); LEvent (FeApi (APublish pa None))]) /\
  (exists s o, lrun (fl_step Kf (mkFaceEnv true)) (fl_new Kf 0)
     [LAnswer true; LEvent (FeApi (AAdd pa)); LEvent (FeInterest blank_ask 1000); LEvent (FeApi (APublish pa None))] = Ended s o /\
     length (data_of o) = 1%nat /\ f_live (lf_obj s) <> []) /\
  cfetch 1 (c_live s_c2) <> None.
Proof.
  split; [split; [intros [X|[X|[X|[X|[]]]]]; discriminate|exists true; left; reflexivity]|]. split; [|discriminate].
  eexists _, _. split; [vm_compute; reflexivity|]. split; [vm_compute; reflexivity|vm_compute; discriminate].
Qed.

(** * C101 *)
(** ** Partial-sync producers *)
(** until the forwarder has accepted the prefix nothing is sent, and a refusal is an exception *)
Theorem C101_producer_silent_until_accepted : forall K F evs s o,
  lrun (pl_step K F) (pl_new K) evs = Ended s o -> ~ In (LAnswer true) evs -> o = [].
Proof.
  intros K F evs s o R N.
  pose proof (lrun_inv (pl_step K F) (fun s => lf_filter s = false /\ pp_pending (lf_obj s) = []) (fun e => e <> LAnswer true) (fun o => o = []) eq_refl) as H.
  assert (match lrun (pl_step K F) (pl_new K) evs with Ended s' o => (lf_filter s' = false /\ pp_pending (lf_obj s') = []) /\ o = [] | Broken => True | Called_dead => False end) as X.
  { apply H; [intros a b -> ->; reflexivity| |apply Forall_forall; intros e He ->; contradiction|split; reflexivity].
    clear. intros e s Ne [A B].
    assert (forall e, is_interest e = false -> match lives (pp_step K) e s with Runs s' o _ => (lf_filter s' = false /\ pp_pending (lf_obj s') = []) /\ o = [] | Dangling => False end) as Lv.
    { intros x Hx. unfold lives. pose proof (pbal_step K x (lf_obj s)) as P. rewrite Hx in P. unfold pbal in P. rewrite B in P.
      specialize (P nm_sorted_nil) as [_ P]. unfold st, outs in P. destruct (pp_step K x (lf_obj s)) as [[s' o'] r']. cbn in *.
      destruct o'; [|cbn in P; lia]. destruct (pp_pending s'); [auto|cbn in P; lia]. }
    destruct e as [[]|[]|]; cbn [pl_step]; try congruence; rewrite ?A; try (destruct (due F s)); try (destruct (lf_alive s)); try (apply Lv; reflexivity); cbn; auto. }
  rewrite R in X. apply X.
Qed.
Print Assumptions C101_producer_silent_until_accepted.
(** from the acceptance on the producer serves interests as described by [pp_run] *)
Theorem C101_producer_serves_once_accepted : forall K F evs1 evs2,
  lrun (pl_step K F) (pl_new K) (map LEvent evs1 ++ LAnswer true :: map LEvent evs2) =
  match pp_run K (pp_new K) (filter (fun e => negb (is_interest e)) evs1 ++ evs2) with
  | Some (s, o) => Ended (mkLife s true Accepted true) o
  | None => Broken
  end.
Proof.
  intros K F evs1 evs2. 
  assert (forall evs x f a, (f = true \/ forall e, In e evs -> is_interest e = false) ->
    lrun (pl_step K F) (mkLife x true a f) (map LEvent evs) = match pp_run K x evs with Some (s, o) => Ended (mkLife s true a f) o | None => Broken end) as G.
  { induction evs as [|e evs IH]; intros x f a H; [reflexivity|]. cbn [map lrun]. unfold pp_run. cbn [run].
    assert (pl_step K F (LEvent e) (mkLife x true a f) = lives (pp_step K) e (mkLife x true a f)) as ->.
    { destruct e; try reflexivity. cbn. destruct H as [->|H]; [reflexivity|]. specialize (H _ (or_introl eq_refl)). discriminate. }
    unfold lives. cbn [lf_obj lf_alive lf_answer lf_filter]. destruct (pp_step K e x) as [[x1 o1] [[]|ex|u|]]; try reflexivity;
      (rewrite IH by (destruct H as [H|H]; [left; exact H|right; intros; apply H; right; assumption]); unfold pp_run; destruct (run (pp_step K) x1 evs) as [[x2 o2]|]; reflexivity). }
  assert (forall evs x, lrun (pl_step K F) (mkLife x true Unanswered false) (map LEvent evs) =
    lrun (pl_step K F) (mkLife x true Unanswered false) (map LEvent (filter (fun e => negb (is_interest e)) evs))) as D.
  { induction evs as [|e evs IH]; intros x; [reflexivity|]. cbn [map filter]. destruct (is_interest e) eqn:Ei; cbn [negb].
    - destruct e; try discriminate. cbn [lrun pl_step lf_filter]. unfold idle. rewrite IH. destruct (lrun _ _ _); reflexivity.
    - cbn [map lrun]. assert (pl_step K F (LEvent e) (mkLife x true Unanswered false) = lives (pp_step K) e (mkLife x true Unanswered false)) as -> by (destruct e; try discriminate; reflexivity).
      unfold lives. cbn [lf_obj lf_alive lf_answer lf_filter]. destruct (pp_step K e x) as [[x1 o1] [[]|ex|u|]]; try reflexivity; rewrite IH; reflexivity. }
  unfold pl_new. rewrite lrun_app, D, G.
  2: { right. intros e He. apply filter_In in He as [_ He]. destruct (is_interest e); [discriminate|reflexivity]. }
  unfold pp_run. rewrite run_app. destruct (run (pp_step K) (pp_new K) _) as [[x1 o1]|]; [|reflexivity].
  cbn [lrun pl_step due lf_answer lf_alive lf_obj orb]. unfold due. cbn [lf_answer lf_alive orb]. rewrite G by (left; reflexivity). unfold pp_run.
  destruct (run (pp_step K) x1 evs2) as [[x2 o2]|]; reflexivity.
Qed.
Print Assumptions C101_producer_serves_once_accepted.
(** ** Full-sync nodes *)
(** nothing pends and nothing waits; no data *)
Definition empty2 (s : fp) : Prop := f_pending s = [] /\ f_waiting s = [].
Definition el {A} (m : FM A) : Prop := forall s, empty2 s -> empty2 (st (m s)) /\ data_of (outs (m s)) = [].
Lemma el_sl {A} (m : FM A) : sl m -> el m.
Proof. intros H s [A1 A2]. destruct (H s) as (B & C & _ & D). split; [split; congruence|exact D]. Qed.
Lemma el_bind {A B} (m : FM A) (f : A -> FM B) : el m -> (forall x, el (f x)) -> el (mbind m f).
Proof.
  intros Hm Hf s E. destruct (Hm s E) as [E1 D1]. unfold mbind, st, outs in *. destruct (m s) as [[s1 o1] [x|e|u|]]; cbn [fst snd] in *; auto.
  destruct (Hf x s1 E1) as [E2 D2]. unfold st, outs in *. destruct (f x s1) as [[s2 o2] r2]. cbn [fst snd] in *. split; [exact E2|]. rewrite data_of_app, D1, D2. reflexivity.
Qed.
Lemma el_get {B} (f : fp -> FM B) : (forall s, empty2 s -> empty2 (st (f s s)) /\ data_of (outs (f s s)) = []) -> el (mbind mget f).
Proof. intros H s E. rewrite mbind_get. apply H. exact E. Qed.
Lemma el_ret {A} (a : A) : el (mret a). Proof. intros s E. split; [exact E|reflexivity]. Qed.
Lemma el_lift {A} (r : outcome A) : el (mlift r). Proof. intros s E. split; [exact E|reflexivity]. Qed.
Lemma el_mod f : (forall s, empty2 s -> empty2 (f s)) -> el (mmod f). Proof. intros H s E. split; [apply H; exact E|reflexivity]. Qed.
Section FullSilent.
Variable K : fcfg.
Hypothesis Sk : schemes_ok K.
Lemma el_process : el (process_waiting K).
Proof. unfold process_waiting. apply el_get. intros s E. destruct E as [E1 E2]. rewrite E2. split; [split; assumption|reflexivity]. Qed.
Lemma el_api a : el (api_call K a).
Proof.
  destruct a as [p|p|p q]; cbn [api_call]; [apply el_sl, sl_op..|]. unfold fp_publish_name. apply el_get. intros s E.
  destruct (get_seq _ _); [|split; [exact E|reflexivity]]. destruct E as [E1 E2] eqn:Es. rewrite E1.
  apply el_bind; [apply el_sl, sl_op|intros _|exact E]. apply el_bind; [apply el_mod; intros s0 H; exact H|intros _; apply el_ret].
Qed.
Lemma el_apis l : el (api_calls K l).
Proof. induction l as [|a l IH]; cbn [api_calls]; [apply el_ret|]. apply el_bind; [apply el_api|intros _; exact IH]. Qed.
Lemma el_step e : is_finterest e = false -> el (fp_step K e).
Proof.
  intros He. destruct e as [a|m l|i buf script|i face|i timeout|dt|t| | |key|i]; try discriminate; cbn [fp_step].
  - apply el_api.
  - apply el_get. intros s E. destruct (fetch_of i (f_live s)); [|split; [exact E|reflexivity]]. rewrite mbind_mod.
    assert (el (on_sync_data K n buf script)) as H; [|apply H; exact E]. unfold on_sync_data, delete_pending.
    apply el_bind; [apply el_mod; intros s0 [E1 E2]; split; [cbn; rewrite E1; reflexivity|exact E2]|intros _].
    destruct (obind _ _); [|apply el_ret|apply el_lift|apply el_lift]. apply el_bind; [apply el_sl, sl_take|intros [|x us]].
    + apply el_bind; [apply el_mod; intros s0 H; exact H|intros _]. apply el_bind; [apply el_sl, sl_draw|intros j]. apply el_mod. intros s0 H; exact H.
    + apply el_bind; [intros s0 H; split; [exact H|reflexivity]|intros _]. apply el_bind; [apply el_apis|intros _].
      apply el_bind; [apply el_sl, sl_draw|intros j]. apply el_bind; [apply el_mod; intros s0 H; exact H|intros _; apply el_process].
  - apply el_get. intros s E. destruct (fetch_of _ _); split; try exact E; reflexivity.
  - apply el_get. intros s E. destruct (fetch_of _ _); [|split; [exact E|reflexivity]]. rewrite mbind_mod. destruct timeout; (split; [exact E|reflexivity]).
  - apply el_mod. intros s H; exact H.
  - apply el_mod. intros s H; exact H.
  - apply el_get. intros s E. destruct (f_sched s) as [[dl k]|]; [|split; [exact E|reflexivity]]. destruct (dl <=? f_now s); [|split; [exact E|reflexivity]].
    rewrite mbind_mod. destruct k; [apply el_sl; [apply sl_send, Sk|exact E]|]. rewrite mbind_mod. apply el_sl; [apply sl_send, Sk|exact E].
  - apply el_get. intros s E. destruct (f_delay s) as [dl|]; [|split; [exact E|reflexivity]]. destruct (dl <=? f_now s); [|split; [exact E|reflexivity]].
    rewrite mbind_mod. apply el_bind; [apply el_process|intros _; apply el_sl, sl_schedule|exact E].
  - apply el_mod. intros s [E1 E2]. rewrite E1. cbn. split; assumption.
  - apply el_mod. intros s H; exact H.
Qed.
End FullSilent.
Lemma fl_empty K F e s : schemes_ok K -> e <> LAnswer true \/ is_answered s -> lf_filter s = false /\ empty2 (lf_obj s) /\ (lf_alive s = true \/ True) ->
  match fl_step K F e s with
  | Runs s' o _ => (lf_filter s' = false /\ empty2 (lf_obj s')) /\ data_of o = [] /\ (is_answered s -> is_answered s')
  | Dangling => lf_alive s = false
  end.
Proof.
  intros Sk Ne (A & B & _).
  assert (forall e, is_finterest e = false -> match lives (fp_step K) e s with
    Runs s' o _ => (lf_filter s' = false /\ empty2 (lf_obj s')) /\ data_of o = [] /\ (is_answered s -> is_answered s') | Dangling => lf_alive s = false end) as Lv.
  { intros x Hx. unfold lives. destruct (el_step K Sk x Hx (lf_obj s) B) as [P Q]. unfold st, outs in *.
    destruct (fp_step K x (lf_obj s)) as [[s' o'] r']. cbn in *. auto. }
  assert (match idle (O := fout) s with Runs s' o _ => (lf_filter s' = false /\ empty2 (lf_obj s')) /\ data_of o = [] /\ (is_answered s -> is_answered s') | Dangling => lf_alive s = false end) as Id by (cbn; auto).
  destruct e as [[]|e|].
  - cbn [fl_step]. unfold due. destruct (lf_answer s) eqn:Ea; [|exact Id..]. destruct Ne as [Ne|Ne]; [congruence|]. destruct Ne. exact Ea.
  - cbn [fl_step]. destruct (due F s); [|exact Id]. cbn. split; [auto|]. split; [reflexivity|]. unfold is_answered. cbn. discriminate.
  - destruct e; cbn [fl_step]; rewrite ?A; try exact Id; destruct (lf_alive s); try (apply Lv; reflexivity); try exact Id;
      destruct (fetch_of _ _); try exact Id; reflexivity.
  - cbn [fl_step]. destruct (lf_alive s); [|exact Id]. cbn. split; [split; [reflexivity|]|auto]. unfold fp_destroy, stop_fetcher. cbn. destruct (f_fetcher (lf_obj s)); exact B.
Qed.
Theorem C101_full_node_no_data_until_accepted : forall K F sys evs s o, schemes_ok K ->
  lrun (fl_step K F) (fl_new K sys) evs = Ended s o -> ~ In (LAnswer true) evs -> data_of o = [].
Proof.
  intros K F sys evs s o Sk R N.
  assert (forall x, lf_filter x = false /\ empty2 (lf_obj x) -> match lrun (fl_step K F) x evs with Ended _ o => data_of o = [] | _ => True end) as G.
  { clear R. induction evs as [|e evs IH]; intros x [A B]; cbn [lrun]; [reflexivity|].
    pose proof (fl_empty K F e x Sk (or_introl (fun X => N (or_introl X))) (conj A (conj B (or_intror Logic.I)))) as X.
    assert (~ In (LAnswer true) evs) as N' by (intros H; apply N; right; exact H).
    destruct (fl_step K F e x) as [s1 o1 [[]|y|u|]|]; auto; destruct X as (X1 & X2 & _); specialize (IH N' s1 X1);
      destruct (lrun (fl_step K F) s1 evs); auto; rewrite data_of_app, X2; exact IH. }
  specialize (G (fl_new K sys)). rewrite R in G. apply G. split; [reflexivity|].
  destruct (sl_send K Sk (fp_blank K sys)) as (A & B & _). split; [exact A|exact B].
Qed.
Print Assumptions C101_full_node_no_data_until_accepted.
(** from the acceptance on a node serves interests as described by [fp_run] *)
Theorem C101_full_node_serves_once_accepted : forall K F sys evs1 evs2,
  lrun (fl_step K F) (fl_new K sys) (map LEvent evs1 ++ LAnswer true :: map LEvent evs2) =
  match fp_run K (st (fp_init K sys)) (filter (fun e => negb (is_finterest e)) evs1 ++ evs2) with
  | Some (s, o) => Ended (mkLife s true Accepted true) o
  | None => Broken
  end.
Proof.
  intros K F sys evs1 evs2. 
  assert (forall evs x f a, (f = true \/ forall e, In e evs -> is_finterest e = false) ->
    lrun (fl_step K F) (mkLife x true a f) (map LEvent evs) = match fp_run K x evs with Some (s, o) => Ended (mkLife s true a f) o | None => Broken end) as G.
  { induction evs as [|e evs IH]; intros x f a H; [reflexivity|]. cbn [map lrun]. unfold fp_run. cbn [run].
    assert (fl_step K F (LEvent e) (mkLife x true a f) = lives (fp_step K) e (mkLife x true a f)) as ->.
    { destruct e; try reflexivity. cbn. destruct H as [->|H]; [reflexivity|]. specialize (H _ (or_introl eq_refl)). discriminate. }
    unfold lives. cbn [lf_obj lf_alive lf_answer lf_filter]. destruct (fp_step K e x) as [[x1 o1] [[]|ex|u|]]; try reflexivity;
      (rewrite IH by (destruct H as [H|H]; [left; exact H|right; intros; apply H; right; assumption]); unfold fp_run; destruct (run (fp_step K) x1 evs) as [[x2 o2]|]; reflexivity). }
  assert (forall evs x, lrun (fl_step K F) (mkLife x true Unanswered false) (map LEvent evs) =
    lrun (fl_step K F) (mkLife x true Unanswered false) (map LEvent (filter (fun e => negb (is_finterest e)) evs))) as D.
  { induction evs as [|e evs IH]; intros x; [reflexivity|]. cbn [map filter]. destruct (is_finterest e) eqn:Ei; cbn [negb].
    - destruct e; try discriminate. cbn [lrun fl_step lf_filter]. unfold idle. rewrite IH. destruct (lrun _ _ _); reflexivity.
    - cbn [map lrun]. assert (fl_step K F (LEvent e) (mkLife x true Unanswered false) = lives (fp_step K) e (mkLife x true Unanswered false)) as -> by (destruct e; try discriminate; reflexivity).
      unfold lives. cbn [lf_obj lf_alive lf_answer lf_filter]. destruct (fp_step K e x) as [[x1 o1] [[]|ex|u|]]; try reflexivity; rewrite IH; reflexivity. }
  unfold fl_new. rewrite lrun_app, D, G.
  2: { right. intros e He. apply filter_In in He as [_ He]. destruct (is_finterest e); [discriminate|reflexivity]. }
  unfold fp_run. rewrite run_app. destruct (run (fp_step K) (st (fp_init K sys)) _) as [[x1 o1]|]; [|reflexivity].
  cbn [lrun fl_step due lf_answer lf_alive lf_obj orb]. unfold due. cbn [lf_answer lf_alive orb]. rewrite G by (left; reflexivity). unfold fp_run.
  destruct (run (fp_step K) x1 evs2) as [[x2 o2]|]; reflexivity.
Qed.
Print Assumptions C101_full_node_serves_once_accepted.

(** ** A refusal *)
(** is an exception, and nothing is answered ever after *)
Theorem C101_producer_refusal : forall K F evs1 s1 o1,
  lrun (pl_step K F) (pl_new K) evs1 = Ended s1 o1 -> ~ In LDestroy evs1 -> ~ answers evs1 ->
  exists s2, pl_step K F (LAnswer false) s1 = Runs s2 [] (Throw ExProducer) /\
    forall evs2 s3 o3, lrun (pl_step K F) s2 evs2 = Ended s3 o3 -> o3 = [].
Proof.
  intros K F evs1 s1 o1 R Nd Na.
  assert (match lrun (pl_step K F) (pl_new K) evs1 with Ended s' o => (lf_filter s' = false /\ pp_pending (lf_obj s') = [] /\ lf_answer s' = Unanswered /\ lf_alive s' = true) /\ True | Broken => True | Called_dead => False end) as X.
  { apply (lrun_inv (pl_step K F) (fun s => lf_filter s = false /\ pp_pending (lf_obj s) = [] /\ lf_answer s = Unanswered /\ lf_alive s = true)
      (fun e => exists x, e = LEvent x) (fun _ => True)); auto.
    - clear. intros e s [x ->] (A & B & C & D).
      assert (forall e, is_interest e = false -> match lives (pp_step K) e s with Runs s' o _ => (lf_filter s' = false /\ pp_pending (lf_obj s') = [] /\ lf_answer s' = Unanswered /\ lf_alive s' = true) /\ True | Dangling => False end) as Lv.
      { intros y Hx. unfold lives. pose proof (pbal_step K y (lf_obj s)) as P. rewrite Hx in P. unfold pbal in P. rewrite B in P.
        specialize (P nm_sorted_nil) as [_ P]. unfold st, outs in P. destruct (pp_step K y (lf_obj s)) as [[s' o'] r']. cbn in *.
        destruct (pp_pending s'); [auto|cbn in P; lia]. }
      destruct x; cbn [pl_step]; rewrite ?A, ?D; try (apply Lv; reflexivity); cbn; auto 8.
    - apply Forall_forall. intros [b|x|] He; [destruct Na; exists b; exact He|eauto|contradiction]. }
  rewrite R in X. destruct X as [(A & B & C & D) _]. cbn [pl_step]. unfold due. rewrite C, D. cbn [orb].
  eexists. split; [reflexivity|]. intros evs2 s3 o3 R2. set (s2 := mkLife (lf_obj s1) (lf_alive s1) Refused (lf_filter s1)).
  assert (match lrun (pl_step K F) s2 evs2 with Ended s' o => (lf_filter s' = false /\ pp_pending (lf_obj s') = [] /\ lf_answer s' = Refused) /\ o = [] | Broken => True | Called_dead => False end) as X.
  { apply (lrun_inv (pl_step K F) (fun s => lf_filter s = false /\ pp_pending (lf_obj s) = [] /\ lf_answer s = Refused) (fun _ => True) (fun o => o = [])); auto.
    - intros a b -> ->; reflexivity.
    - clear. intros e s _ (A & B & C).
      assert (forall e, is_interest e = false -> match lives (pp_step K) e s with Runs s' o _ => (lf_filter s' = false /\ pp_pending (lf_obj s') = [] /\ lf_answer s' = Refused) /\ o = [] | Dangling => False end) as Lv.
      { intros y Hx. unfold lives. pose proof (pbal_step K y (lf_obj s)) as P. rewrite Hx in P. unfold pbal in P. rewrite B in P.
        specialize (P nm_sorted_nil) as [_ P]. unfold st, outs in P. destruct (pp_step K y (lf_obj s)) as [[s' o'] r']. cbn in *.
        destruct o'; [|cbn in P; lia]. destruct (pp_pending s'); [auto|cbn in P; lia]. }
      destruct e as [[]|[]|]; cbn [pl_step]; unfold due; rewrite ?A, ?C; try (destruct (lf_alive s)); try (apply Lv; reflexivity); cbn; auto 8.
    - apply Forall_forall. auto. }
  change (lrun (pl_step K F) s2 evs2 = Ended s3 o3) in R2. rewrite R2 in X. apply X.
Qed.
Print Assumptions C101_producer_refusal.
Theorem C101_full_node_refusal : forall K F sys evs1 s1 o1, schemes_ok K ->
  lrun (fl_step K F) (fl_new K sys) evs1 = Ended s1 o1 -> ~ In LDestroy evs1 -> ~ answers evs1 ->
  exists s2, fl_step K F (LAnswer false) s1 = Runs s2 [] (Throw ExProducer) /\
    forall evs2 s3 o3, lrun (fl_step K F) s2 evs2 = Ended s3 o3 -> data_of o3 = [].
Proof.
  intros K F sys evs1 s1 o1 Sk R Nd Na.
  assert (match lrun (fl_step K F) (fl_new K sys) evs1 with Ended s' o => (lf_filter s' = false /\ empty2 (lf_obj s') /\ lf_answer s' = Unanswered /\ lf_alive s' = true) /\ True | Broken => True | Called_dead => False end) as X.
  { apply (lrun_inv (fl_step K F) (fun s => lf_filter s = false /\ empty2 (lf_obj s) /\ lf_answer s = Unanswered /\ lf_alive s = true)
      (fun e => exists x, e = LEvent x) (fun _ => True)); auto.
    - clear -Sk. intros e s [x ->] (A & B & C & D).
      assert (forall e, is_finterest e = false -> match lives (fp_step K) e s with Runs s' o _ => (lf_filter s' = false /\ empty2 (lf_obj s') /\ lf_answer s' = Unanswered /\ lf_alive s' = true) /\ True | Dangling => False end) as Lv.
      { intros y Hx. unfold lives. destruct (el_step K Sk y Hx (lf_obj s) B) as [P _]. unfold st in P. destruct (fp_step K y (lf_obj s)) as [[s' o'] r']. cbn in *. auto. }
      destruct x; cbn [fl_step]; rewrite ?A, ?D; try (apply Lv; reflexivity); cbn; auto 8.
    - apply Forall_forall. intros [b|x|] He; [destruct Na; exists b; exact He|eauto|contradiction].
    - destruct (sl_send K Sk (fp_blank K sys)) as (A & B & _). split; [reflexivity|]. split; [split; [exact A|exact B]|]. split; reflexivity. }
  rewrite R in X. destruct X as [(A & B & C & D) _]. cbn [fl_step]. unfold due. rewrite C, D. cbn [orb].
  eexists. split; [reflexivity|]. intros evs2 s3 o3 R2. unfold refused in *. rewrite D in *.
  assert (forall evs x, lf_filter x = false /\ empty2 (lf_obj x) -> is_answered x -> match lrun (fl_step K F) x evs with Ended _ o => data_of o = [] | _ => True end) as G.
  { clear -Sk. induction evs as [|e evs IH]; intros x [A B] Ha; cbn [lrun]; [reflexivity|].
    pose proof (fl_empty K F e x Sk (or_intror Ha) (conj A (conj B (or_intror I)))) as X.
    destruct (fl_step K F e x) as [s1 o1 [[]|y|u|]|]; auto; destruct X as (X1 & X2 & X3); specialize (IH s1 X1 (X3 Ha));
      destruct (lrun (fl_step K F) s1 evs); auto; rewrite data_of_app, X2; exact IH. }
  specialize (G evs2 _ (conj A B : lf_filter (mkLife (lf_obj s1) true Refused (lf_filter s1)) = false /\ empty2 (lf_obj (mkLife (lf_obj s1) true Refused (lf_filter s1)))) ltac:(discriminate)).
  rewrite R2 in G. exact G.
Qed.
Print Assumptions C101_full_node_refusal.

(** hypotheses: before the answer a name is published and an interest arrives *)
Example C101_example : exists s o s' o',
  lrun (fl_step Kf (mkFaceEnv true)) (fl_new Kf 0) [LEvent (FeApi (AAdd pa)); LEvent (FeApi (APublish pa None)); LEvent (FeInterest blank_ask 1000)] = Ended s o /\
  lrun (pl_step Kx (mkFaceEnv true)) (pl_new Kx) (map LEvent evs_ex ++ [LEvent (PInterest (syncp ++ [HELLO]) 1000)]) = Ended s' o' /\
  length (match lrun (pl_step Kx (mkFaceEnv true)) (pl_new Kx) (map LEvent evs_ex ++ [LAnswer true; LEvent (PInterest (syncp ++ [HELLO]) 1000)]) with
    Ended _ o2 => o2 | _ => [] end) = 1%nat.
Proof. eexists _, _, _, _. split; [vm_compute; reflexivity|]. split; vm_compute; reflexivity. Qed.
