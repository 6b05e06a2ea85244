(** News across several ideal links. *)
From Coq Require Import List NArith ZArith Bool Arith Lia.
From Verif Require Import Base BaseFacts Mon MonFacts Iblt SpecIblt IbltFacts Tlv TlvFacts State NMap NMapFacts
  Codec CodecFacts Store StoreFacts Producer SpecProducer ProducerFacts Partial SpecPartial PartialFacts PartialSteps
  Full FullTrace SpecFull FullFacts FullSafe FullSteps FullData FullRuns SpecExchange SpecFresh SpecDeliver DeliverFacts SpecNet.
Import ListNotations.
Local Open Scope N_scope.

(** ** Cutting a history at a moment *)
Fixpoint cut (D : N) (evs : list fev) : list fev * list fev :=
  match evs with
  | [] => ([], [])
  | FeTick dt :: r => if D <=? dt then ([FeTick D], FeTick (dt - D) :: r) else let '(p, q) := cut (D - dt) r in (FeTick dt :: p, q)
  | e :: r => let '(p, q) := cut D r in (e :: p, q)
  end.
Lemma cut_other D e r : (forall dt, e <> FeTick dt) -> cut D (e :: r) = (e :: fst (cut D r), snd (cut D r)).
Proof. intros H. cbn [cut]. destruct e; try (destruct (cut D r); reflexivity). destruct (H dt eq_refl). Qed.
Lemma cut_tick D dt r : cut D (FeTick dt :: r) =
  if D <=? dt then ([FeTick D], FeTick (dt - D) :: r) else (FeTick dt :: fst (cut (D - dt) r), snd (cut (D - dt) r)).
Proof. cbn [cut]. destruct (D <=? dt); [reflexivity|]. destruct (cut (D - dt) r). reflexivity. Qed.
Lemma is_tick e : (exists dt, e = FeTick dt) \/ forall dt, e <> FeTick dt.
Proof. destruct e; try (right; discriminate). left. eauto. Qed.
Lemma cut_ind (P : N -> list fev -> Prop) :
  (forall D, P D []) -> (forall D dt r, D <= dt -> P D (FeTick dt :: r)) ->
  (forall D dt r, dt < D -> P (D - dt) r -> P D (FeTick dt :: r)) ->
  (forall D e r, (forall dt, e <> FeTick dt) -> P D r -> P D (e :: r)) -> forall evs D, P D evs.
Proof.
  intros H0 H1 H2 H3. induction evs as [|e r IH]; intros D; [apply H0|]. destruct (is_tick e) as [(dt & ->)|He]; [|apply H3; auto].
  destruct (N.le_gt_cases D dt); [apply H1|apply H2]; auto.
Qed.
Ltac cutting := rewrite ?cut_tick; repeat match goal with
  | H : ?D <= ?dt |- context[?D <=? ?dt] => replace (D <=? dt) with true by (symmetry; apply N.leb_le; exact H)
  | H : ?dt < ?D |- context[?D <=? ?dt] => replace (D <=? dt) with false by (symmetry; apply N.leb_gt; exact H)
  | H : forall dt, ?e <> FeTick dt |- context[cut _ (?e :: _)] => rewrite (cut_other _ _ _ H) end; cbn [fst snd].
Lemma cut_time evs : forall D, D <= time_of evs -> time_of (fst (cut D evs)) = D /\ time_of (snd (cut D evs)) = time_of evs - D.
Proof.
  intros D. revert evs D. apply (cut_ind (fun D evs => D <= time_of evs -> time_of (fst (cut D evs)) = D /\ time_of (snd (cut D evs)) = time_of evs - D)).
  - cbn. lia.
  - intros D dt r L H. cutting. rewrite !time_cons. cbn [dt_of]. unfold time_of at 1. cbn. lia.
  - intros D dt r L IH H. cutting. rewrite !time_cons in *. cbn [dt_of] in *. destruct IH as [A B]; lia.
  - intros D e r He IH H. cutting. rewrite !time_cons in *. rewrite (dt_zero e He) in *. destruct IH as [A B]; lia.
Qed.
Lemma cut_ops evs : forall D, flat_map ev_ops (fst (cut D evs) ++ snd (cut D evs)) = flat_map ev_ops evs.
Proof.
  intros D. revert evs D. apply (cut_ind (fun D evs => flat_map ev_ops (fst (cut D evs) ++ snd (cut D evs)) = flat_map ev_ops evs)); intros; cutting; cbn [app flat_map ev_ops]; auto; f_equal; auto.
Qed.
Lemma cut_wf evs : forall D, Forall fev_wf evs -> Forall fev_wf (fst (cut D evs)) /\ Forall fev_wf (snd (cut D evs)).
Proof.
  intros D. revert evs D. apply (cut_ind (fun D evs => Forall fev_wf evs -> Forall fev_wf (fst (cut D evs)) /\ Forall fev_wf (snd (cut D evs)))).
  - auto.
  - intros D dt r L H. cutting. inversion H; subst. split; constructor; auto; constructor.
  - intros D dt r L IH H. cutting. inversion H; subst. destruct IH; auto.
  - intros D e r He IH H. cutting. inversion H; subst. destruct IH; auto.
Qed.
Lemma tick_step K dt s : fp_step K (FeTick dt) s = (st (fp_step K (FeTick dt) s), [], Ok tt).
Proof. reflexivity. Qed.
Lemma tick_twice K D dt s : D <= dt -> st (fp_step K (FeTick (dt - D)) (st (fp_step K (FeTick D) s))) = st (fp_step K (FeTick dt) s).
Proof.
  intros H. cbn [fp_step]. unfold mmod, st. cbn [fst snd]. destruct s. unfold fset_time. cbn. f_equal; lia.
Qed.
Lemma tick_run K dt s r : fp_run K s (FeTick dt :: r) = fp_run K (st (fp_step K (FeTick dt) s)) r.
Proof. unfold fp_run. cbn [run]. rewrite tick_step. destruct (run _ _ r) as [[s' o']|]; reflexivity. Qed.
Lemma cut_run K evs : forall D s s' o, fp_run K s evs = Some (s', o) ->
  exists s1 o1 o2, fp_run K s (fst (cut D evs)) = Some (s1, o1) /\ fp_run K s1 (snd (cut D evs)) = Some (s', o2) /\ o = o1 ++ o2.
Proof.
  intros D. revert evs D. apply (cut_ind (fun D evs => forall s s' o, fp_run K s evs = Some (s', o) ->
  exists s1 o1 o2, fp_run K s (fst (cut D evs)) = Some (s1, o1) /\ fp_run K s1 (snd (cut D evs)) = Some (s', o2) /\ o = o1 ++ o2)).
  - intros D s s' o R. exists s, [], o. auto.
  - intros D dt r L s s' o R. cutting. exists (st (fp_step K (FeTick D) s)), [], o. split; [reflexivity|]. split; [|reflexivity].
    rewrite tick_run, tick_twice by exact L. rewrite <- tick_run. exact R.
  - intros D dt r L IH s s' o R. cutting. rewrite tick_run in R. destruct (IH _ _ _ R) as (s1 & o1 & o2 & A & B & C).
    exists s1, o1, o2. rewrite tick_run. auto.
  - intros D e r He IH s s' o R. cutting. unfold fp_run in R |- *. cbn [run] in R |- *. destruct (fp_step K e s) as [[s2 o2] [u|x|u|]]; try discriminate.
    + fold (fp_run K s2 r) in R. destruct (fp_run K s2 r) as [[s3 o3]|] eqn:E; [|discriminate]. injection R as <- <-.
      destruct (IH _ _ _ E) as (s1 & p & q & A & B & ->). unfold fp_run in A. rewrite A. exists s1, (o2 ++ p), q. rewrite <- app_assoc. auto.
    + fold (fp_run K s2 r) in R. destruct (fp_run K s2 r) as [[s3 o3]|] eqn:E; [|discriminate]. injection R as <- <-.
      destruct (IH _ _ _ E) as (s1 & p & q & A & B & ->). unfold fp_run in A. rewrite A. exists s1, (o2 ++ p), q. rewrite <- app_assoc. auto.
Qed.
Lemma cut_prompt K evs : forall D s, prompt K s evs -> prompt K s (fst (cut D evs) ++ snd (cut D evs)).
Proof.
  intros D. revert evs D. apply (cut_ind (fun D evs => forall s, prompt K s evs -> prompt K s (fst (cut D evs) ++ snd (cut D evs)))).
  - auto.
  - intros D dt r L s [A B]. cutting. cbn [app]. split; [intros d dl k [= <-] E; specialize (A dt dl k eq_refl E); lia|].
    split; [|rewrite tick_twice by exact L; exact B]. intros d dl k [= <-] E. specialize (A dt dl k eq_refl E). cbn in *. lia.
  - intros D dt r L IH s [A B]. cutting. cbn [app]. split; auto.
  - intros D e r He IH s [A B]. cutting. cbn [app]. split; auto.
Qed.
Lemma cut_steady evs : forall D sys, steady sys evs -> steady sys (fst (cut D evs) ++ snd (cut D evs)).
Proof.
  intros D. revert evs D. apply (cut_ind (fun D evs => forall sys, steady sys evs -> steady sys (fst (cut D evs) ++ snd (cut D evs)))).
  - auto.
  - intros D dt r L sys A. cutting. cbn [app steady] in *. replace (sys + Z.of_N D + Z.of_N (dt - D))%Z with (sys + Z.of_N dt)%Z by lia. exact A.
  - intros D dt r L IH sys A. cutting. cbn [app steady] in *. auto.
  - intros D e r He IH sys A. cutting. cbn [app]. destruct e; cbn [steady] in *; auto. destruct A; auto.
Qed.
Lemma steady_past evs past : forall D sys, steady sys (past ++ evs) -> steady sys ((past ++ fst (cut D evs)) ++ snd (cut D evs)).
Proof.
  intros D. induction past as [|e past IH]; intros sys H; cbn [app] in *; [apply cut_steady; exact H|].
  destruct e; cbn [steady] in *; auto. destruct H; auto.
Qed.
Section Joint.
Variables Ka Kb : fcfg.
Lemma joint_cut a b ea oa eb ob a' b' : joint Ka Kb a b ea oa eb ob a' b' -> forall D, 0 < D -> D <= time_of ea ->
  exists a1 b1 oa1 oa2 ob1 ob2,
    joint Ka Kb a b (fst (cut D ea)) oa1 (fst (cut D eb)) ob1 a1 b1 /\
    joint Ka Kb a1 b1 (snd (cut D ea)) oa2 (snd (cut D eb)) ob2 a' b'.
Proof.
  intros J. induction J as [a b|dt a b a1 b1 ea oa eb ob a' b' Ha Hb J IH|e a b a1 o1 ea oa eb ob a' b' He Ha J IH
    |e a b b1 o1 ea oa eb ob a' b' He Hb No J IH|e a b x n t y b1 l a1 o1 ea oa eb ob a' b' He Hb No Er Ha Hm J IH];
    intros D Pos HD.
  - cbn in HD. lia.
  - rewrite time_cons in HD. cbn [dt_of] in HD. rewrite !cut_tick. destruct (N.leb_spec D dt) as [Le|Gt]; cbn [fst snd].
    + eexists _, _, [], oa, [], ob. split; [eapply j_tick; [apply tick_step|apply tick_step|constructor]|].
      eapply j_tick; [rewrite tick_step, tick_twice by exact Le; rewrite Ha; reflexivity|rewrite tick_step, tick_twice by exact Le; rewrite Hb; reflexivity|exact J].
    + destruct (IH (D - dt)) as (a2 & b2 & oa1 & oa2 & ob1 & ob2 & J1 & J2); [lia|lia|].
      exists a2, b2, oa1, oa2, ob1, ob2. split; [eapply j_tick; eauto|exact J2].
  - rewrite time_cons, (dt_zero e He) in HD. cutting. destruct (IH D Pos) as (a2 & b2 & oa1 & oa2 & ob1 & ob2 & J1 & J2); [lia|].
    exists a2, b2, (o1 ++ oa1), oa2, ob1, ob2. split; [eapply j_a; eauto|exact J2].
  - cutting. destruct (IH D Pos HD) as (a2 & b2 & oa1 & oa2 & ob1 & ob2 & J1 & J2).
    exists a2, b2, oa1, oa2, (o1 ++ ob1), ob2. split; [eapply j_b; eauto|exact J2].
  - assert (forall dt, FeInterest n l <> FeTick dt) as Hi by discriminate. cutting.
    destruct (IH D Pos HD) as (a2 & b2 & oa1 & oa2 & ob1 & ob2 & J1 & J2).
    exists a2, b2, (o1 ++ oa1), oa2, (x ++ FoInterest n t :: y ++ ob1), ob2. split; [|exact J2]. eapply j_send; eauto.
    revert Hm. destruct (data_of o1); auto. intros (i & buf & script & eb' & F1 & F2 & ->).
    exists i, buf, script. rewrite (cut_other D (FeContent i buf script)) by discriminate. cbn [fst]. eauto.
Qed.
End Joint.

(** ** A node later on *)
Definition later (D : N) (x : line) : line :=
  match fp_run (ln_cfg x) (ln_from x) (fst (cut D (ln_events x))) with
  | Some (s, o) =>
    mkLine (ln_cfg x) (ln_sys x) (ln_past x ++ fst (cut D (ln_events x))) (ln_seen x ++ o) s (snd (cut D (ln_events x)))
      match fp_run (ln_cfg x) s (snd (cut D (ln_events x))) with Some (_, o2) => o2 | None => [] end (ln_to x)
  | None => x
  end.
Lemma later_eq D x : regular x -> exists s o1 o2,
  fp_run (ln_cfg x) (ln_from x) (fst (cut D (ln_events x))) = Some (s, o1) /\
  fp_run (ln_cfg x) s (snd (cut D (ln_events x))) = Some (ln_to x, o2) /\ ln_out x = o1 ++ o2 /\
  later D x = mkLine (ln_cfg x) (ln_sys x) (ln_past x ++ fst (cut D (ln_events x))) (ln_seen x ++ o1) s (snd (cut D (ln_events x))) o2 (ln_to x).
Proof.
  intros R. destruct (cut_run _ _ D _ _ _ (rg_run x R)) as (s & o1 & o2 & A & B & C). exists s, o1, o2.
  split; [exact A|]. split; [exact B|]. split; [exact C|]. unfold later. rewrite A, B. reflexivity.
Qed.
Lemma later_regular D x : regular x -> regular (later D x).
Proof.
  intros R. destruct (later_eq D x R) as (s & o1 & o2 & A & B & C & ->). destruct R as [R1 R2 R3 [R4 R4'] R5 R6 R7 R8 R9 R10 R11].
  destruct (cut_wf (ln_events x) D R6) as [W1 W2].
  split; cbn [ln_cfg ln_sys ln_past ln_seen ln_from ln_events ln_out ln_to]; auto.
  - split; [exact R4|]. apply steady_past. exact R4'.
  - eapply reaches_run; eauto.
  - apply cut_prompt with (D := D) in R8. eapply prompt_app; eauto.
  - rewrite <- app_assoc, <- C. exact R9.
  - intros p Hp. apply (R10 p). rewrite <- (cut_ops _ D), flat_map_app. apply in_or_app. auto.
Qed.
Lemma cut_incl D past evs c : In c (flat_map ev_ops (past ++ fst (cut D evs) ++ snd (cut D evs))) -> In c (flat_map ev_ops (past ++ evs)).
Proof. rewrite !flat_map_app. intros H. rewrite <- (cut_ops evs D), flat_map_app. exact H. Qed.
Lemma comparable_ops K evs evs' k kb : (forall c, In c (flat_map ev_ops evs) -> In c (flat_map ev_ops evs')) ->
  comparable K evs' k kb -> comparable K evs k kb.
Proof.
  intros I [A B C E]. split; auto. intros l Nl [H|(u & (p & q & cur & -> & Hp) & H)]; [apply E; auto|]. apply E; auto.
  right. eexists. split; [|exact H]. exists p, q, cur. auto.
Qed.
Lemma held_later K sys past s0 o0 evs s o1 o2 k : reaches K sys past s0 o0 -> Forall fev_wf evs -> fp_run K s0 evs = Some (s, o1) ->
  held_during (f_core s) o2 k -> held_during (f_core s0) (o1 ++ o2) k.
Proof.
  intros R W E (p & q & -> & H). pose proof (reaches_run _ _ _ _ _ _ _ _ R W E) as R1.
  apply reaches_core in R as [_ C]. apply reaches_core in R1 as [_ C1]. rewrite ops_of_app, crun_app, C in C1.
  exists (o1 ++ p), q. split; [apply app_assoc|]. rewrite ops_of_app, crun_app. cbn [obind] in *. rewrite C1. exact H.
Qed.
Lemma time_linked x y : linked x y -> time_of (ln_events x) = time_of (ln_events y).
Proof. intros L. eapply joint_time. apply (lk_joint x y L). Qed.
Lemma later_linked D x y : 0 < D -> D <= time_of (ln_events x) -> regular x -> regular y -> linked x y -> linked (later D x) (later D y).
Proof.
  intros Pos HD Rx Ry [G J Cm].
  destruct (joint_cut _ _ _ _ _ _ _ _ _ _ J D Pos HD) as (a1 & b1 & oa1 & oa2 & ob1 & ob2 & J1 & J2).
  destruct (joint_run _ _ _ _ _ _ _ _ _ _ J1) as [A1 B1]. destruct (joint_run _ _ _ _ _ _ _ _ _ _ J2) as [A2 B2].
  destruct (later_eq D x Rx) as (s & p1 & p2 & X1 & X2 & X3 & ->). destruct (later_eq D y Ry) as (t & q1 & q2 & Y1 & Y2 & Y3 & ->).
  rewrite A1 in X1. injection X1 as <- <-. rewrite A2 in X2. injection X2 as <-.
  rewrite B1 in Y1. injection Y1 as <- <-. rewrite B2 in Y2. injection Y2 as <-.
  split; cbn [ln_cfg ln_sys ln_past ln_seen ln_from ln_events ln_out ln_to]; [exact G|exact J2|].
  intros k kb Hk Hb. apply comparable_ops with (evs' := ln_past x ++ ln_events x); [intros c; rewrite <- app_assoc; apply cut_incl|].
  apply Cm; rewrite ?X3, ?Y3.
  - eapply held_later; [apply (rg_reaches x Rx)| |exact A1|exact Hk]. apply cut_wf, (rg_wf x Rx).
  - eapply held_later; [apply (rg_reaches y Ry)| |exact B1|exact Hb]. apply cut_wf, (rg_wf y Ry).
Qed.
Lemma later_cfg D x : ln_cfg (later D x) = ln_cfg x.
Proof. unfold later. destruct (fp_run _ _ _) as [[s o]|]; reflexivity. Qed.
Lemma later_to D x : ln_to (later D x) = ln_to x.
Proof. unfold later. destruct (fp_run _ _ _) as [[s o]|]; reflexivity. Qed.
Lemma later_time D x : regular x -> D <= time_of (ln_events x) -> time_of (ln_events (later D x)) = time_of (ln_events x) - D.
Proof. intros R H. destruct (later_eq D x R) as (s & p1 & p2 & _ & _ & _ & ->). apply cut_time. exact H. Qed.
Lemma later_hops D ys : forall x, hops (later D x) (map (later D) ys) = hops x ys.
Proof. induction ys as [|y ys IH]; intros x; [reflexivity|]. cbn [map hops]. rewrite IH. unfold hop. rewrite !later_cfg. reflexivity. Qed.
Lemma later_path D ys : forall x, 0 < D -> D <= time_of (ln_events x) -> regular x -> path x ys -> path (later D x) (map (later D) ys).
Proof.
  induction ys as [|y ys IH]; intros x Pos HD Rx P; [exact P|]. destruct P as (L & Ry & P). cbn [map path].
  split; [apply later_linked; auto|]. split; [apply later_regular; exact Ry|]. apply IH; auto. rewrite <- (time_linked x y L). exact HD.
Qed.
(** ** One hop *)
Lemma first_hop x y : regular x -> regular y -> linked x y -> hop x y <= time_of (ln_events x) ->
  forall p, knows (ln_from x) p <= knows (ln_from (later (hop x y) y)) p.
Proof.
  intros Rx Ry L HT p. set (D := hop x y). assert (0 < D) as Pos by (unfold D, hop; lia).
  destruct L as [G J Cm]. destruct (joint_cut _ _ _ _ _ _ _ _ _ _ J D Pos HT) as (a1 & b1 & oa1 & oa2 & ob1 & ob2 & J1 & J2).
  destruct (joint_run _ _ _ _ _ _ _ _ _ _ J1) as [A1 B1]. destruct (joint_run _ _ _ _ _ _ _ _ _ _ J2) as [A2 B2].
  destruct (later_eq D x Rx) as (s & p1 & p2 & X1 & X2 & X3 & _). destruct (later_eq D y Ry) as (t & q1 & q2 & Y1 & Y2 & Y3 & ->).
  rewrite A1 in X1. injection X1 as <- <-. rewrite A2 in X2. injection X2 as <-.
  rewrite B1 in Y1. injection Y1 as <- <-. rewrite B2 in Y2. injection Y2 as <-. cbn [ln_from].
  pose proof (cut_wf _ D (rg_wf x Rx)) as [Wx1 Wx2]. pose proof (cut_wf _ D (rg_wf y Ry)) as [Wy1 Wy2].
  pose proof (reaches_run _ _ _ _ _ _ _ _ (rg_reaches x Rx) Wx1 A1) as Rx1.
  destruct Rx as [R1 R2 R3 [R4 R4'] R5 R6 R7 R8 R9 R10 R11]. destruct Ry as [S1 S2 S3 [S4 S4'] S5 S6 S7 S8 S9 S10 S11].
  assert (time_of (fst (cut D (ln_events y))) = D) as Ty.
  { apply cut_time. rewrite <- (joint_time _ _ _ _ _ _ _ _ _ _ J). exact HT. }
  eapply (news (ln_cfg x) (ln_cfg y) (ln_sys x) (ln_sys y) (ln_past x) (ln_past y) (fst (cut D (ln_events x))) (fst (cut D (ln_events y)))
    (ln_from x) (ln_from y) a1 b1 (ln_seen x) (ln_seen y) oa1 ob1); auto.
  - apply steady_past with (D := D) in S4'. revert S4'. generalize (snd (cut D (ln_events y))) (ln_past y ++ fst (cut D (ln_events y))) (ln_sys y).
    intros q l. induction l as [|e l IH]; intros z H; [exact I|]. destruct e; cbn [app steady] in *; auto. destruct H; auto.
  - apply cut_prompt with (D := D) in S8. revert S8. generalize (snd (cut D (ln_events y))) (fst (cut D (ln_events y))) (ln_from y).
    intros q l. induction l as [|e l IH]; intros z H; [exact I|]. cbn [app prompt] in *. destruct H; auto.
  - intros pre post k E. apply (R9 pre (post ++ ops_of oa2)). rewrite X3, app_assoc, ops_of_app, E, app_assoc. reflexivity.
  - intros pre post k E. apply (S9 pre (post ++ ops_of ob2)). rewrite Y3, app_assoc, ops_of_app, E, app_assoc. reflexivity.
  - intros q Hq. apply (R10 q). rewrite <- (cut_ops _ D), flat_map_app. apply in_or_app. auto.
  - intros q Hq. apply (S10 q). rewrite <- (cut_ops _ D), flat_map_app. apply in_or_app. auto.
  - pose proof (run_published _ _ _ _ _ _ _ _ R3 Rx1 Wx2 A2) as Lp. intros i j Hi Hj. apply R11; lia.
  - intros k kb Hk Hb. apply comparable_ops with (evs' := ln_past x ++ ln_events x).
    { intros c H. apply (cut_incl D). rewrite app_assoc, flat_map_app. apply in_or_app. auto. }
    apply Cm; rewrite ?X3, ?Y3; apply held_app; assumption.
  - rewrite Ty. unfold D, hop, longest, MAX_JITTER. lia.
Qed.
Lemma last_later D ys : forall y, last (map (later D) ys) (later D y) = later D (last ys y).
Proof.
  induction ys as [|a ys IH]; intros y; [reflexivity|]. cbn [map]. destruct ys as [|b ys]; [reflexivity|]. exact (IH y).
Qed.
Lemma last_cons {A} (ys : list A) : forall x y, last (y :: ys) x = last ys y.
Proof. induction ys as [|a ys IH]; intros x y; [reflexivity|]. destruct ys as [|b ys]; [reflexivity|]. exact (IH x y). Qed.
Lemma path_news n : forall x ys, length ys = n -> regular x -> path x ys -> hops x ys <= time_of (ln_events x) ->
  forall p, knows (ln_from x) p <= knows (ln_to (last ys x)) p.
Proof.
  induction n as [|n IH]; intros x [|y ys] Ln Rx P T p; try discriminate.
  - cbn [last]. eapply run_knows; [apply (rg_reaches x Rx)|apply (rg_wf x Rx)|apply (rg_run x Rx)|].
    eapply run_no_removal; [apply (rg_removal x Rx)|apply (rg_run x Rx)].
  - injection Ln as Ln. destruct P as (L & Ry & P). cbn [hops] in T. set (D := hop x y). assert (0 < D) as Pos by (unfold D, hop; lia). fold D in T.
    etransitivity; [apply (first_hop x y Rx Ry L); fold D; lia|]. fold D.
    rewrite (time_linked x y L) in T. rewrite last_cons, <- (later_to D), <- last_later.
    apply IH; [rewrite map_length; exact Ln|apply later_regular; exact Ry|apply later_path; auto; lia|].
    rewrite later_hops, later_time; auto; lia.
Qed.
