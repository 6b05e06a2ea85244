(** Full-sync nodes: processing sync data and reporting to the application. *)
From Coq Require Import List NArith ZArith Bool Arith Lia Sorted.
From Verif Require Import Base BaseFacts Mon MonFacts Iblt SpecIblt IbltFacts Tlv TlvFacts State NMap NMapFacts
  Codec CodecFacts Store StoreFacts Producer SpecProducer ProducerFacts Partial SpecPartial PartialFacts
  PartialSteps Full FullTrace SpecFull FullFacts FullSafe FullSteps.
Import ListNotations.
Local Open Scope N_scope.

Lemma report_chain_ext l : forall f f' g g', (forall p, f p = f' p) -> (forall p, g p = g' p) ->
  report_chain f l g -> report_chain f' l g'.
Proof.
  induction l as [|m l IH]; simpl; intros f f' g g' Hf Hg.
  - intros H p. rewrite <- Hf, <- Hg. auto.
  - rewrite Hf. intros (A & B & C). split; auto. split; auto. eapply IH; [|exact Hg|exact C].
    intros p. simpl. destruct (name_eqb p _); auto.
Qed.
(** what changed is in the report *)
Lemma report_chain_changed l : forall f g p, report_chain f l g -> g p <> f p ->
  exists m, In m l /\ mi_prefix m = p /\ Some (mi_high m) = g p.
Proof.
  induction l as [|m l IH]; simpl; intros f g p; [intros H X; destruct X; auto|].
  intros (A & B & C) X.
  destruct (name_eqb p (mi_prefix m)) eqn:E.
  - assert ({g p = Some (mi_high m)} + {g p <> Some (mi_high m)}) as [Eq|Ne]
      by (decide equality; apply N.eq_dec).
    + exists m. apply name_eqb_eq in E. auto.
    + destruct (IH _ _ p C) as (m' & M1 & M2 & M3).
      { simpl. rewrite E. exact Ne. }
      exists m'. auto.
  - destruct (IH _ _ p C) as (m' & M1 & M2 & M3).
    { simpl. rewrite E. exact X. }
    exists m'. auto.
Qed.
Lemma report_chain_mono l : forall f g p, report_chain f l g -> seq0 (f p) <= seq0 (g p).
Proof.
  induction l as [|m l IH]; simpl; intros f g p; [intros ->; lia|]. intros (A & B & C).
  specialize (IH _ _ p C). simpl in IH. destruct (name_eqb p (mi_prefix m)) eqn:E; [|exact IH].
  apply name_eqb_eq in E. subst p. destruct (f (mi_prefix m)); simpl in *; lia.
Qed.
Lemma report_chain_cover l : forall f g p n, report_chain f l g -> seq0 (f p) < n <= seq0 (g p) ->
  exists r, In r (ranges_in p l) /\ fst r <= n <= snd r.
Proof.
  induction l as [|m l IH]; simpl; intros f g p n; [intros ->; lia|]. intros (A & B & C) H.
  unfold ranges_in. simpl. destruct (name_eqb p (mi_prefix m)) eqn:E.
  - destruct (N.le_gt_cases n (mi_high m)) as [Hn|Hn].
    + exists (mi_low m, mi_high m). split; [left; reflexivity|]. apply name_eqb_eq in E. subst p. simpl. lia.
    + destruct (IH _ _ p n C) as (r & R1 & R2); [simpl; rewrite E; simpl; lia|]. exists r. split; auto. right. exact R1.
  - destruct (IH _ _ p n C) as (r & R1 & R2); [simpl; rewrite E; lia|]. exists r. auto.
Qed.
(** the ranges of one report lie between the numbers known before and after, in order *)
Lemma report_chain_ranges l : forall f g p, report_chain f l g ->
  StronglySorted (fun a b => snd a < fst b) (ranges_in p l) /\
  forall r, In r (ranges_in p l) -> seq0 (f p) < fst r /\ snd r <= seq0 (g p).
Proof.
  induction l as [|m l IH]; simpl; intros f g p; [intros _; split; [constructor|contradiction]|].
  intros (A & B & C). pose proof (report_chain_mono _ _ _ p C) as Mo. destruct (IH _ _ p C) as [I1 I2].
  unfold ranges_in in *. simpl in *. destruct (name_eqb p (mi_prefix m)) eqn:E; simpl in *.
  - apply name_eqb_eq in E. subst p. split.
    + constructor; auto. apply Forall_forall. intros r Hr. apply I2 in Hr. simpl. lia.
    + intros r [<-|Hr]; simpl; [lia|]. apply I2 in Hr. destruct (f (mi_prefix m)); simpl in *; lia.
  - split; auto.
Qed.

(** ** Taking updates *)
Definition only_ops (o : list fout) : Prop := Forall (fun x => exists c, x = FoOp c) o.
Record frame_ops (s s' : fp) : Prop := mkFrameOps {
  fo_same : frame (fset_core (f_core s') s) s'; fo_pub' : f_pub s' = f_pub s;
  fo_rest : f_sched s' = f_sched s /\ f_outstanding s' = f_outstanding s /\ f_last s' = f_last s /\
    f_fetcher s' = f_fetcher s /\ f_live s' = f_live s /\ f_started s' = f_started s /\ f_draws s' = f_draws s }.
Lemma frame_ops_refl s : frame_ops s s.
Proof. split; [constructor; reflexivity|reflexivity|repeat split]. Qed.
Lemma frame_ops_trans a b c : frame_ops a b -> frame_ops b c -> frame_ops a c.
Proof.
  intros [[A1 A2 A3 A4 A5 A6 A7 A8] P (B1 & B2 & B3 & B4 & B5 & B6 & B7)]
         [[A1' A2' A3' A4' A5' A6' A7' A8'] P' (B1' & B2' & B3' & B4' & B5' & B6' & B7')].
  simpl in *. split; [constructor; simpl|..|repeat split]; congruence.
Qed.
Lemma fp_op_inv o s s' out r : fp_op o s = (s', out, r) ->
  (exists k, r = Ok tt /\ cstep (f_core s) o = Ok k /\ s' = fset_core k s /\ out = [FoOp o]) \/
  (s' = s /\ out = [] /\ r <> Ok tt).
Proof.
  unfold fp_op. rewrite mbind_get, mbind_lift. destruct (cstep (f_core s) o) as [k|e|u|]; intros [= <- <- <-].
  - left. eauto 6.
  - right. repeat split; discriminate.
  - right. repeat split; discriminate.
  - right. repeat split; discriminate.
Qed.
Lemma fset_core_frame k s : frame_ops s (fset_core k s).
Proof. split; [constructor; reflexivity|reflexivity|repeat split]. Qed.
Lemma prefix_seq_inv p s s' out r : prefix_seq p s = (s', out, r) ->
  (exists v, get_seq p (f_core s) = Some v /\ s' = s /\ out = [] /\ r = Ok v) \/
  (get_seq p (f_core s) = None /\ out = [FoOp (CAdd p)] /\ r = Ok 0 /\
   s' = fset_core (fst (core_add p (f_core s))) s).
Proof.
  unfold prefix_seq. rewrite mbind_get. destruct (get_seq p (f_core s)) as [v|].
  - intros [= <- <- <-]. left. eauto.
  - unfold mbind, fp_op. rewrite mbind_get, mbind_lift. cbn [cstep]. rewrite mbind_mod.
    intros [= <- <- <-]. right. auto.
Qed.
Lemma seq_step_add p q cur : seq_step p cur (CAdd q) = if name_eqb p q then Some (seq0 cur) else cur.
Proof. simpl. destruct (name_eqb p q); auto. destruct cur; reflexivity. Qed.

Lemma take_inv names : forall s s' o r, pfx_ok (k_prefixes (f_core s)) -> take_updates names s = (s', o, r) ->
  frame_ops s s' /\ only_ops o /\ pfx_ok (k_prefixes (f_core s')) /\
  forall l, r = Ok l ->
    report_chain (fun p => get_seq p (f_core s)) l (fun p => get_seq p (f_core s')) /\
    (l = [] -> s' = s /\ o = []) /\ Forall (fun m => mi_face m = f_incoming s) l.
Proof.
  induction names as [|c names IH]; intros s s' o r Hp; cbn [take_updates].
  - intros [= <- <- <-]. split; [apply frame_ops_refl|]. split; [constructor|]. split; auto.
    intros l [= <-]. simpl. auto.
  - assert (forall r', (forall l, r' <> Ok l) -> (s, [], r') = (s', o, r) -> frame_ops s s' /\ only_ops o /\
      pfx_ok (k_prefixes (f_core s')) /\ forall l, r = Ok l ->
      report_chain (fun p => get_seq p (f_core s)) l (fun p => get_seq p (f_core s')) /\
      (l = [] -> s' = s /\ o = []) /\ Forall (fun m => mi_face m = f_incoming s) l) as Bad.
    { intros r' Hr [= <- <- <-]. split; [apply frame_ops_refl|]. split; [constructor|]. split; auto.
      intros l E. destruct (Hr l E). }
    rewrite mbind_lift. destruct (name_get_minus c 1) as [last|e|u|]; try (apply Bad; discriminate).
    rewrite mbind_lift. destruct (to_number last) as [v|e|u|] eqn:Ev; try (apply Bad; discriminate).
    cbv zeta. rewrite mbind_get. set (p := name_prefix_back c 1).
    destruct (match get_seq p (f_core s) with None => true | Some cur => cur <? v end) eqn:Hc; [|apply IH; auto].
    assert (v < two64) as Hv by (eapply to_number_lt; eauto).
    unfold mbind at 1. destruct (prefix_seq p s) as [[s1 o1] r1] eqn:E1.
    assert (exists cur, r1 = Ok cur /\ cur = seq0 (get_seq p (f_core s)) /\ frame_ops s s1 /\ only_ops o1 /\
      pfx_ok (k_prefixes (f_core s1)) /\
      forall q, get_seq q (f_core s1) = if name_eqb q p then Some (seq0 (get_seq q (f_core s))) else get_seq q (f_core s))
      as (cur & -> & Ecur & F1 & O1 & P1 & G1).
    { apply prefix_seq_inv in E1 as [(w & G & -> & -> & ->)|(G & -> & -> & ->)].
      - exists w. rewrite G. split; auto. split; auto. split; [apply frame_ops_refl|]. split; [constructor|]. split; auto.
        intros q. destruct (name_eqb q p) eqn:E; auto. apply name_eqb_eq in E. subst q. rewrite G. reflexivity.
      - exists 0. rewrite G. split; auto. split; auto. split; [apply fset_core_frame|].
        split; [constructor; [eauto|constructor]|]. split; [eapply (cstep_pfx _ (CAdd p)); [exact Hp|exact I|reflexivity]|].
        intros q. cbn [f_core fset_core].
        rewrite (get_seq_step q (f_core s) (CAdd p) _ Hp eq_refl), seq_step_add. reflexivity. }
    unfold mbind at 1. destruct (fp_op (CUpdate p v) s1) as [[s2 o2] r2] eqn:E2.
    apply fp_op_inv in E2 as [(k & -> & Ek & -> & ->)|(-> & -> & Nr)].
    + unfold mbind. destruct (take_updates names (fset_core k s1)) as [[s3 o3] r3] eqn:E3.
      assert (pfx_ok (k_prefixes k)) as Pk by (eapply cstep_pfx; [exact P1| |exact Ek]; exact Hv).
      destruct (IH (fset_core k s1) _ _ _ Pk E3) as (F3 & O3 & P3 & S3).
      assert (frame_ops s s3) as F by (eapply frame_ops_trans; [exact F1|]; eapply frame_ops_trans;
        [apply fset_core_frame|exact F3]).
      assert (only_ops (o1 ++ [FoOp (CUpdate p v)] ++ o3)) as O.
      { apply Forall_app. split; auto. apply Forall_app. split; [constructor; [eauto|constructor]|auto]. }
      destruct r3 as [l3|e|u|]; intros [= <- <- <-]; rewrite ?app_nil_r;
        (split; [exact F|split; [exact O|split; [exact P3|]]]); try discriminate.
      intros l [= <-]. destruct (S3 l3 eq_refl) as (C3 & _ & M3). split; [|split; [discriminate|]].
      * cbn [report_chain mi_low mi_prefix mi_high].
        assert (seq0 (get_seq p (f_core s)) <= v) as Hle.
        { destruct (get_seq p (f_core s)) as [w|]; simpl in *; [apply N.ltb_lt in Hc|]; lia. }
        split.
        { rewrite Ecur. unfold w64. destruct (get_seq p (f_core s)) as [w|]; simpl in *.
          - apply N.ltb_lt in Hc. apply N.mod_small. lia.
          - reflexivity. }
        split; [destruct (get_seq p (f_core s)); [apply N.ltb_lt; exact Hc|exact I]|].
        eapply report_chain_ext; [|intros q; reflexivity|exact C3]. intros q. cbn [f_core fset_core].
        rewrite (get_seq_step q _ _ _ P1 Ek). cbn [seq_step]. rewrite G1.
        destruct (name_eqb q p) eqn:E; [|reflexivity]. apply name_eqb_eq in E. subst q. simpl. f_equal. lia.
      * constructor; [reflexivity|].
        rewrite Forall_forall in M3 |- *. intros m Hm. rewrite (M3 m Hm). 
        destruct F1 as [[X1 X2 X3 X4 X5 X6 X7 X8] _ _]. simpl in X7. exact X7.
    + destruct r2 as [[]|e|u|]; [congruence|..]; intros [= <- <- <-]; rewrite app_nil_r;
        (split; [exact F1|split; [exact O1|split; [exact P1|discriminate]]]).
Qed.

(** ** Reports *)
Definition no_report (o : list fout) : Prop := Forall (fun x => forall l, x <> FoUpdate l) o.
Definition nr_rel (s : fp) (o : list fout) (s' : fp) : Prop := no_report o.
Lemma nr_app a b : no_report a -> no_report b -> no_report (a ++ b).
Proof. intros. apply Forall_app. auto. Qed.
Lemma nr_nil : no_report []. Proof. constructor. Qed.
Lemma nr_data l : no_report (map FoData l).
Proof. apply Forall_forall. intros x H. apply in_map_iff in H as (d & <- & _). discriminate. Qed.
Lemma nr_send K s : no_report (outs (send_sync_interest K s)).
Proof.
  rewrite send_eq. unfold outs. destruct (f_wait s); [constructor|].
  destruct (sync_name _ _); try constructor. destruct (_ && _); repeat constructor. discriminate.
Qed.
Lemma nr_closed K ok : closed K ok nr_rel.
Proof.
  split; intros; unfold nr_rel; try apply nr_nil; try apply nr_data; try apply nr_send;
    try (repeat constructor; discriminate).
  - apply nr_app; auto.
  - apply (data_closed K nr_rel); intros; unfold nr_rel in *; auto using nr_nil, nr_data, nr_send, nr_app.
  - apply (start_closed K nr_rel); intros; unfold nr_rel in *; auto using nr_nil, nr_app.
  - apply (arm_closed K nr_rel); intros; unfold nr_rel in *; auto using nr_nil, nr_app.
Qed.
Lemma only_ops_nr o : only_ops o -> no_report o.
Proof. apply Forall_impl. intros x [c ->] l. discriminate. Qed.
Lemma reported_nr p o : no_report o -> reported p o = [].
Proof. induction 1 as [|[] o H _ IH]; simpl; auto. destruct (H l eq_refl). Qed.
Lemma reported_app p a b : reported p (a ++ b) = reported p a ++ reported p b.
Proof. induction a as [|[] a IH]; simpl; auto. rewrite IH, app_assoc. reflexivity. Qed.

(** ops other than reading data *)
Definition script_op (script : list api) (o : cop) : Prop := In o (map api_op script) \/ exists p, o = CAdd p.
Definition sop_rel (ok : cop -> Prop) (s : fp) (o : list fout) (s' : fp) : Prop := Forall ok (ops_of o).
Lemma sop_closed K (ok : cop -> Prop) : closed K ok (sop_rel ok).
Proof.
  assert (forall s o s1 o1 s2, sop_rel ok s o s1 -> sop_rel ok s1 o1 s2 -> sop_rel ok s (o ++ o1) s2) as T.
  { unfold sop_rel. intros. rewrite ops_of_app. apply Forall_app. auto. }
  assert (forall s, sop_rel ok s (outs (send_sync_interest K s)) (st (send_sync_interest K s))) as S.
  { intros s. unfold sop_rel. rewrite send_no_ops. constructor. }
  assert (forall s l s', sop_rel ok s (map FoData l) s') as D.
  { intros. unfold sop_rel. rewrite ops_of_data. constructor. }
  split; intros; try (constructor; fail); try apply D; try apply S.
  - eapply T; eauto.
  - constructor; auto.
  - apply data_closed; intros; try (constructor; fail); [eapply T; eauto|apply D|apply S].
  - apply start_closed; intros; try (constructor; fail). eapply T; eauto.
  - apply arm_closed; intros; try (constructor; fail). eapply T; eauto.
Qed.

(** how the handling of content goes *)
Theorem on_data_inv K n buf script s s' o r : pfx_ok (k_prefixes (f_core s)) ->
  on_sync_data K n buf script s = (s', o, r) ->
  (o = [] /\ f_core s' = f_core s) \/
  (only_ops o /\ r <> Ok tt) \/
  exists pre l post k,
    o = pre ++ FoUpdate l :: post /\ only_ops pre /\ no_report post /\
    crun (f_core s) (ops_of pre) = Ok k /\ l <> [] /\
    report_chain (fun p => get_seq p (f_core s)) l (fun p => get_seq p k) /\
    Forall (fun m => mi_face m = f_incoming s) l /\
    Forall (script_op script) (ops_of post).
Proof.
  intros Hp. unfold on_sync_data, delete_pending. rewrite mbind_mod.
  set (s0 := fset_pending _ s). change (f_core s) with (f_core s0) in *.
  destruct (content_cases (fc_codec K) (fc_cscheme K) buf) as [[names E]|[e E]]; rewrite E.
  2:{ intros [= <- <- <-]. left. auto. }
  unfold mbind at 1. destruct (take_updates names s0) as [[s1 o1] r1] eqn:T.
  destruct (take_inv _ _ _ _ _ Hp T) as (F1 & O1 & P1 & S1).
  assert (core_rel s0 o1 s1) as C1.
  { pose proof (tr_take K (fun _ => True) core_rel (core_rel_closed K)) as X.
    specialize (X (fun _ => I) (fun _ _ _ => I) names s0). unfold tr, outs, st in X. rewrite T in X. exact X. }
  destruct r1 as [l|e|u|]; try (intros [= <- <- <-]; right; left; split; [exact O1|discriminate]).
  destruct (S1 l eq_refl) as (Ch & Nil & Fc).
  destruct l as [|m l].
  - rewrite mbind_mod. unfold draw. rewrite mbind_assoc, mbind_get, mbind_assoc, mbind_mod, mbind_ret.
    unfold mmod. intros [= <- <- <-]. left. destruct (Nil eq_refl) as [-> ->]. auto.
  - rewrite mbind_emit. 
    set (rest := (api_calls K script ;; mlet j <- draw K;
        mmod (fun s => fset_wait false (fset_sched (Some (f_now s + j, KSend)) s)) ;; process_waiting K)).
    intros [= <- <- <-]. right. right. exists o1, (m :: l), (outs (rest s1)), (f_core s1).
    split; [reflexivity|]. split; [exact O1|]. split; [|split; [exact C1|split; [discriminate|]]].
    + apply (tr_after K (fun _ => True) nr_rel (nr_closed K _)); [intros; exact I|apply Forall_forall; intros; exact I].
    + split; [exact Ch|]. split; [exact Fc|].
      apply (tr_after K (script_op script) (sop_rel (script_op script)) (sop_closed K _)).
      * intros p. right. eauto.
      * apply Forall_forall. intros a Ha. left. apply in_map; auto.
Qed.
Lemma step_content_cases K i buf script s :
  fp_step K (FeContent i buf script) s = (s, [], Ok tt) \/
  exists n, fetch_of i (f_live s) = Some n /\
    fp_step K (FeContent i buf script) s = on_sync_data K n buf script (fset_live (without i (f_live s)) s).
Proof.
  cbn [fp_step]. rewrite mbind_get. destruct (fetch_of i (f_live s)) as [n|]; [|left; reflexivity].
  right. exists n. rewrite mbind_mod. auto.
Qed.
Theorem step_content_inv K i buf script s s' o r : pfx_ok (k_prefixes (f_core s)) ->
  fp_step K (FeContent i buf script) s = (s', o, r) ->
  (o = [] /\ f_core s' = f_core s) \/
  (only_ops o /\ r <> Ok tt) \/
  exists pre l post k,
    o = pre ++ FoUpdate l :: post /\ only_ops pre /\ no_report post /\
    crun (f_core s) (ops_of pre) = Ok k /\ l <> [] /\
    report_chain (fun p => get_seq p (f_core s)) l (fun p => get_seq p k) /\
    Forall (fun m => mi_face m = f_incoming s) l /\
    Forall (script_op script) (ops_of post).
Proof.
  intros Hp. destruct (step_content_cases K i buf script s) as [-> |(n & F & ->)].
  - intros [= <- <- <-]. left. auto.
  - intros H. apply on_data_inv in H; auto.
Qed.
(** other events report nothing, and change sequence numbers only as the application asks *)
Lemma step_other_inv K e s : (forall i buf script, e <> FeContent i buf script) ->
  no_report (outs (fp_step K e s)) /\
  Forall (fun o => In o (ev_ops e) \/ exists p, o = CAdd p) (ops_of (outs (fp_step K e s))).
Proof.
  intros He.
  assert (forall okop R, closed K okop R -> (forall s s', R s [] s') ->
    (forall p, okop (CAdd p)) -> Forall okop (ev_ops e) -> R s (outs (fp_step K e s)) (st (fp_step K e s))) as G.
  { intros okop R C Hd Ha Ho.
    destruct e as [a|n l|i buf script|i face|i timeout|dt|t| | |key|i];
      try (apply (tr_step_plain K okop R C Ha); [intros; apply Hd|exact Ho|exact I]); cbn [fp_step].
    - exfalso. eapply He. reflexivity.
    - apply tr_get. destruct (fetch_of i (f_live s)) as [n|]; [|apply Hd].
      apply (tr_mod K _ R C); [apply Hd|]. destruct timeout; apply Hd.
    - apply Hd.
    - apply Hd.
    - apply tr_get. destruct (f_sched s) as [[dl k]|]; [|apply Hd]. destruct (dl <=? _); [|apply Hd].
      apply (tr_mod K _ R C); [apply Hd|]. destruct k; [apply (tr_send K _ R C)|].
      apply (tr_mod K _ R C); [apply Hd|apply (tr_send K _ R C)].
    - apply tr_get. destruct (f_delay s) as [dl|]; [|apply (tr_ret K _ R C)].
      destruct (dl <=? _); [|apply (tr_ret K _ R C)]. apply (tr_mod K _ R C); [apply Hd|].
      apply (tr_seq K _ R C); [apply (tr_process K _ R C Ha)|intros; apply (tr_schedule K _ R C)]. }
  split.
  - apply (G (fun _ => True) nr_rel (nr_closed K _)); intros; try apply nr_nil; try exact I.
    apply Forall_forall; intros; exact I.
  - apply (G (fun o => In o (ev_ops e) \/ exists p, o = CAdd p) _ (sop_closed K _)).
    + intros x y. constructor.
    + eauto.
    + apply Forall_forall. auto.
Qed.
