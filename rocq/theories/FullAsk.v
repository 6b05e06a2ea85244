(** How long a full-sync node can go without asking. *)
From Coq Require Import List NArith ZArith Bool Arith Lia.
From Verif Require Import Base BaseFacts Mon MonFacts Iblt SpecIblt IbltFacts Tlv TlvFacts State NMap NMapFacts
  Codec CodecFacts Store StoreFacts Producer SpecProducer ProducerFacts Partial SpecPartial PartialFacts
  PartialSteps Full FullTrace SpecFull FullFacts FullSafe FullSteps FullData FullRuns FullTimers FullSends FullAnswers FullPending.
Import ListNotations.
Local Open Scope N_scope.

(** ** An interest is sent, or the timer calm and no fetch starts *)
Definition sends_one (o : list fout) : Prop := exists n t, In (FoInterest n t) o.
Definition calm (s : fp) (o : list fout) (s' : fp) : Prop :=
  sends_one o \/ (f_now s' = f_now s /\ f_sched s' = f_sched s /\ incl (f_live s') (f_live s)).
Lemma calm_refl s : calm s [] s. Proof. right. split; [reflexivity|]. split; [reflexivity|apply incl_refl]. Qed.
Lemma calm_trans s o s1 o1 s2 : calm s o s1 -> calm s1 o1 s2 -> calm s (o ++ o1) s2.
Proof.
  intros [(n & t & A)|(A & B & C)] [(m & u & D)|(D & E & F)]; try (left; eexists _, _; apply in_or_app; eauto; fail).
  right. split; [congruence|]. split; [congruence|]. eapply incl_tran; eauto.
Qed.
Lemma calm_same s o s' : f_now s' = f_now s -> f_sched s' = f_sched s -> f_live s' = f_live s -> calm s o s'.
Proof. intros A B C. right. rewrite C. split; [exact A|]. split; [exact B|apply incl_refl]. Qed.
Lemma steady_pre b : forall a sys, steady sys (a ++ b) -> steady sys a.
Proof. induction b as [|e b IH]; intros a sys; [rewrite app_nil_r; auto|]. intros H. apply (steady_app sys a e), IH. rewrite <- app_assoc. exact H. Qed.
Section Asks.
Variable K : fcfg.
Definition ql {A} (m : FM A) : Prop := rl calm m.
Ltac q_mod := apply rl_mod; intros; apply calm_same; reflexivity.
Ltac q_emit := apply rl_emit; intros; apply calm_same; reflexivity.
Ltac q_bind := apply (rl_bind calm calm_trans).
Ltac q_ret := first [apply (rl_ret calm calm_refl)|apply (rl_lift calm calm_refl)].
Ltac q_get := apply rl_get; intros.
Lemma ql_op o : ql (fp_op o).
Proof. unfold fp_op. q_get. q_bind; [q_ret|intros k]. q_bind; [q_mod|intros _; q_emit]. Qed.
Lemma ql_prefix p : ql (prefix_seq p).
Proof. unfold prefix_seq. q_get. destruct (get_seq _ _); [q_ret|]. q_bind; [apply ql_op|intros _; q_ret]. Qed.
Lemma ql_draw : ql (draw K).
Proof. unfold draw. q_get. q_bind; [q_mod|intros _; q_ret]. Qed.
Lemma stopped_calm s o : calm s o (stopped s).
Proof.
  unfold stopped. destruct (f_fetcher s); [|right; split; [reflexivity|]; split; [reflexivity|apply incl_refl]].
  right. split; [reflexivity|]. split; [reflexivity|]. cbn. intros x H. apply filter_In in H. apply H.
Qed.
Lemma ql_send : ql (send_sync_interest K).
Proof.
  intros s. rewrite send_eq. destruct (f_wait s); [apply calm_refl|].
  destruct (sync_name _ _); try apply stopped_calm. destruct (_ && _); [apply stopped_calm|].
  left. eexists _, _. left. reflexivity.
Qed.
Lemma ql_publish n m b f : ql (fp_publish K n m b f).
Proof. intros s. unfold fp_publish. destruct (publish _ _ _ _ _ _ _) as [p [x|x|x|]]; apply calm_same; reflexivity. Qed.
Lemma ql_data m l f : ql (send_sync_data K m l f).
Proof.
  unfold send_sync_data. q_get. cbv zeta. q_bind.
  - destruct (_ && _); [|q_ret]. q_bind; [|intros _; q_mod]. intros s0. apply stopped_calm.
  - intros _. q_bind; [q_ret|intros buf]. q_bind; [apply ql_publish|intros _]. destruct (name_eqb _ _); [apply ql_send|q_ret].
Qed.
Lemma ql_delete m : ql (delete_pending m). Proof. q_mod. Qed.
Lemma ql_mark m : ql (mark_waiting m).
Proof. apply rl_mod. intros s. destruct (nm_find m (f_waiting s)); apply calm_same; reflexivity. Qed.
Lemma ql_satisfy u keys : ql (fsatisfy K u keys).
Proof.
  induction keys as [|k keys IH]; cbn [fsatisfy]; [q_ret|]. q_bind; [|intros _; exact IH].
  unfold fsatisfy_one. q_get. destruct (nm_find k (f_pending s)) as [e|]; [|q_ret]. q_bind; [q_ret|intros d].
  q_bind; [apply ql_data|intros _; apply ql_delete].
Qed.
Lemma ql_api a : ql (api_call K a).
Proof.
  destruct a as [p|p|p q]; cbn [api_call]; [apply ql_op|apply ql_op|]. unfold fp_publish_name. q_get.
  destruct (get_seq _ _); [|q_ret]. q_bind; [apply ql_op|intros _]. q_bind; [q_mod|intros _; apply ql_satisfy].
Qed.
Lemma ql_apis l : ql (api_calls K l).
Proof. induction l as [|a l IH]; cbn [api_calls]; [q_ret|]. q_bind; [apply ql_api|intros _; exact IH]. Qed.
Lemma ql_schedule : ql (schedule_waiting K).
Proof. unfold schedule_waiting. q_get. destruct (f_waiting s); [q_ret|]. destruct (f_delay s); [q_ret|]. q_bind; [apply ql_draw|intros j; q_mod]. Qed.
Lemma ql_start m : ql (start_waiting K m).
Proof. unfold start_waiting. q_bind; [q_mod|intros _; apply ql_schedule]. Qed.
Lemma ql_offered neg hs : ql (offered K neg hs).
Proof.
  induction hs as [|h hs IH]; cbn [offered]; [q_ret|]. q_get. destruct (bm_left _ _); [|exact IH]. cbv zeta.
  q_bind; [apply ql_prefix|intros v]. q_bind.
  - destruct (v =? 0); [q_ret|]. unfold is_future. q_bind; [q_ret|intros u]. q_bind; [apply ql_prefix|intros x; q_ret].
  - intros b. q_bind; [exact IH|intros l; q_ret].
Qed.
Lemma ql_interest m l timed : ql (on_finterest K m l timed).
Proof.
  unfold on_finterest. q_get. destruct (reply_from_store m (f_pub s)) as [d|]; [q_emit|].
  cbv zeta. destruct (Nat.eqb _ 4).
  { unfold fp_send_nack. q_get. q_bind; [q_ret|intros dn]. q_bind; [q_mod|intros _; q_emit]. }
  destruct (negb _); [q_ret|]. q_bind; [q_ret|intros c]. q_bind; [q_ret|intros c1]. q_bind; [q_ret|intros rcvd].
  destruct (initialize _ _ _ _) as [t [u|e|u|]]; try q_ret. q_bind; [q_ret|intros d]. destruct (can_decode d).
  - unfold on_decoded. q_get. cbv zeta.
    assert (ql (mlet l0 <- offered K (negative d) (positive d); match l0 with [] => mret tt | _ :: _ => send_sync_data K m l0 (fc_fresh K) ;; mark_waiting m end)) as H.
    { q_bind; [apply ql_offered|intros [|x y]; [q_ret|]]. q_bind; [apply ql_data|intros _; apply ql_mark]. }
    destruct (positive d) as [|h hs]; [|exact H]. destruct (negative d) as [|g gs].
    + q_bind; [q_mod|intros _; destruct timed; [apply ql_mark|q_ret]].
    + destruct timed, (nm_find m (f_waiting s0)); try q_ret; [|apply ql_start]. destruct (1 <? _); [apply ql_mark|q_ret].
  - unfold on_undecodable. q_get. cbv zeta. destruct (_ <? rcvd).
    + destruct timed, (nm_find m (f_waiting s0)); try q_ret; [|apply ql_start]. destruct (1 <? _); [|q_ret].
      q_bind; [apply ql_mark|intros _; apply ql_send].
    + destruct (_ && _); [q_ret|]. q_bind; [|intros _; apply ql_mark]. destruct (entire_state _); [q_ret|].
      q_bind; [apply ql_data|intros _; apply ql_delete].
Qed.
Lemma ql_process : ql (process_waiting K).
Proof.
  unfold process_waiting. q_get. induction (nm_keys (f_waiting s)) as [|k l IH]; cbn [process_all]; [q_ret|]. q_bind; [|intros _; exact IH].
  unfold process_one. q_get. destruct (nm_find k (f_waiting s0)) as [v|]; [|q_ret]. cbv zeta. destruct (v =? MAX_TRIES); [q_mod|].
  q_bind; [q_mod|intros _]. q_bind; [apply ql_interest|intros _]. q_get. destruct (nm_find k (f_waiting s1)) as [w|]; [|q_ret].
  destruct (w =? MAX_TRIES); [q_mod|q_ret].
Qed.
Lemma ql_take names : ql (take_updates names).
Proof.
  induction names as [|c names IH]; cbn [take_updates]; [q_ret|]. q_bind; [q_ret|intros x].
  q_bind; [q_ret|intros v]. cbv zeta. q_get. destruct (match get_seq _ _ with None => true | Some cur => cur <? v end); [|exact IH].
  q_bind; [apply ql_prefix|intros y]. q_bind; [apply ql_op|intros _]. q_bind; [exact IH|intros l; q_ret].
Qed.

(** ** The budget *)
(** the timer is set for [T] or before, and so would be the one set when the fetch that runs ends *)
Definition budget (T : N) (s : fp) : Prop :=
  exists dl k, f_sched s = Some (dl, k) /\ f_now s <= T /\ dl <= T /\
    (f_live s <> [] -> f_now s + fc_fresh K + MAX_JITTER <= T /\ dl + fc_fresh K + MAX_JITTER <= T).
(** no fetch runs, and a new timer would fire by [T] *)
Definition spare (T : N) (s : fp) : Prop :=
  exists dl k, f_sched s = Some (dl, k) /\ dl <= T /\ f_live s = [] /\ f_now s + fc_fresh K + MAX_JITTER <= T.
Definition pr_budget (T : N) (s : fp) (o : list fout) (s' : fp) : Prop := sends_one o \/ (budget T s -> budget T s').
Definition pr_spare (T : N) (s : fp) (o : list fout) (s' : fp) : Prop := sends_one o \/ (spare T s -> spare T s').
Lemma spare_budget T s : spare T s -> budget T s.
Proof. intros (dl & k & A & B & C & D). exists dl, k. split; [exact A|]. split; [lia|]. split; [exact B|]. rewrite C. intros X. destruct (X eq_refl). Qed.
Lemma spare_refl T s : pr_spare T s [] s. Proof. right. auto. Qed.
Lemma spare_trans T s o s1 o1 s2 : pr_spare T s o s1 -> pr_spare T s1 o1 s2 -> pr_spare T s (o ++ o1) s2.
Proof.
  intros [(n & t & A)|A] [(m & u & D)|D]; try (left; eexists _, _; apply in_or_app; eauto; fail). right. auto.
Qed.
Lemma calm_budget T s o s' : calm s o s' -> pr_budget T s o s'.
Proof.
  intros [A|(A & B & C)]; [left; exact A|right]. intros (dl & k & E & F & F' & G). exists dl, k. rewrite A, B.
  split; [exact E|]. split; [exact F|]. split; [exact F'|]. intros H. apply G. intros X. rewrite X in C. destruct (f_live s') as [|p l]; [contradiction|]. apply (C p). left. reflexivity.
Qed.
Lemma calm_spare T s o s' : calm s o s' -> pr_spare T s o s'.
Proof.
  intros [A|(A & B & C)]; [left; exact A|right]. intros (dl & k & E & F & G & H). exists dl, k. rewrite A, B.
  split; [exact E|]. split; [exact F|]. split; [|exact H]. rewrite G in C. destruct (f_live s') as [|p l]; [reflexivity|]. destruct (C p). left. reflexivity.
Qed.
Lemma ql_spare {A} T (m : FM A) : ql m -> rl (pr_spare T) m.
Proof. intros H s. apply calm_spare. apply H. Qed.
Lemma spare_content T n buf script : rl (pr_spare T) (on_sync_data K n buf script).
Proof.
  unfold on_sync_data. apply (rl_bind _ (spare_trans T)); [apply ql_spare, ql_delete|intros _].
  destruct (obind _ _) as [names|e|u|]; try (first [apply rl_ret|apply rl_lift]; apply spare_refl).
  apply (rl_bind _ (spare_trans T)); [apply ql_spare, ql_take|intros [|x l]].
  - apply (rl_bind _ (spare_trans T)); [apply rl_mod; intros s; apply calm_spare, calm_same; reflexivity|intros _].
    intros s. right. intros (dl & k & A & B & C & D). unfold draw. rewrite mbind_assoc, mbind_get, mbind_assoc, mbind_mod, mbind_ret.
    unfold mmod, st. cbn [fst]. pose proof (jitter_bounds (fc_env K) (f_draws s)) as J. eexists _, _. split; [reflexivity|]. cbn [f_draws f_now f_live f_sched fset_sched fset_draws fset_wait fset_live fset_started].
    split; [lia|]. split; [exact C|lia].
  - apply (rl_bind _ (spare_trans T)); [apply rl_emit; intros s; apply calm_spare, calm_same; reflexivity|intros _].
    apply (rl_bind _ (spare_trans T)); [apply ql_spare, ql_apis|intros _].
    intros s. unfold draw. rewrite mbind_assoc, mbind_get, mbind_assoc, mbind_mod, mbind_ret, mbind_mod.
    set (s1 := fset_wait false _). destruct (ql_spare T _ ql_process s1) as [H|H]; [left; exact H|right]. intros (dl & k & A & B & C & D). apply H.
    unfold s1. pose proof (jitter_bounds (fc_env K) (f_draws s)) as J. eexists _, _. split; [reflexivity|]. cbn [f_draws f_now f_live f_sched fset_sched fset_draws fset_wait fset_live fset_started]. split; [lia|]. split; [exact C|lia].
Qed.
(** an event that takes no time *)
Lemma budget_step T e s : schemes_ok K -> fp_ok K s -> ticking K s -> (forall dt, e <> FeTick dt) ->
  pr_budget T s (outs (fp_step K e s)) (st (fp_step K e s)).
Proof.
  intros Sk Ok_ Tk Nt.
  destruct e as [a|n l|i buf script|i face|i timeout|dt|t| | |key|i]; try (cbn [fp_step]; apply calm_budget; apply calm_same; reflexivity).
  - apply calm_budget. apply ql_api.
  - cbn [fp_step]. destruct (is_prefix _ _); [apply calm_budget; apply ql_interest|apply calm_budget, calm_refl].
  - cbn [fp_step]. rewrite mbind_get. destruct (fetch_of i (f_live s)) as [n|] eqn:E; [|apply calm_budget, calm_refl]. rewrite mbind_mod.
    set (s0 := fset_live _ s). destruct (spare_content T n buf script s0) as [H|H]; [left; exact H|right].
    intros (dl & k & A & B & B' & C). apply spare_budget, H. exists dl, k. split; [exact A|]. split; [exact B'|].
    destruct (fo_live _ _ Ok_) as [L|(j & F & L)]; [rewrite L in E; discriminate|].
    rewrite L in E. cbn [fetch_of] in E. destruct (Nat.eqb_spec i j) as [->|]; [|discriminate].
    specialize (C ltac:(rewrite L; discriminate)). split; [cbn; rewrite L, without_cons; reflexivity|unfold s0; cbn [f_draws f_now f_live f_sched fset_sched fset_draws fset_wait fset_live fset_started]; lia].
  - cbn [fp_step]. rewrite mbind_get. destruct (fetch_of i _); apply calm_budget, calm_same; reflexivity.
  - cbn [fp_step]. rewrite mbind_get. destruct (fetch_of i (f_live s)) as [n|] eqn:E; [|apply calm_budget, calm_refl]. rewrite mbind_mod.
    destruct timeout.
    + apply calm_budget. right. split; [reflexivity|]. split; [reflexivity|]. cbn. intros x H. apply filter_In in H. apply H.
    + right. intros (dl & k & A & B & B' & C). unfold draw. rewrite mbind_assoc, mbind_get, mbind_assoc, mbind_mod, mbind_ret.
      unfold mmod, st. cbn [fst]. pose proof (jitter_bounds (fc_env K) (f_draws s)) as J.
      destruct (fo_live _ _ Ok_) as [L|(j & F & L)]; [rewrite L in E; discriminate|].
      specialize (C ltac:(rewrite L; discriminate)). rewrite L in E. cbn [fetch_of] in E. destruct (Nat.eqb_spec i j) as [->|]; [|discriminate].
      eexists _, _. split; [reflexivity|]. cbn [f_draws f_now f_live f_sched fset_sched fset_draws fset_wait fset_live fset_started]. rewrite L, without_cons. split; [lia|]. split; [lia|]. intros X. destruct (X eq_refl).
  - destruct (Nt dt eq_refl).
  - destruct (tk_sched _ _ Tk) as (dl & k & ts & A & _). destruct (N.leb_spec dl (f_now s)) as [H|H].
    + destruct (fire_sends K s dl k Sk Tk A H) as (n & s1 & -> & _). left. eexists _, _. left. reflexivity.
    + cbn [fp_step]. rewrite mbind_get, A. apply N.leb_gt in H. rewrite H. apply calm_budget, calm_refl.
  - cbn [fp_step]. rewrite mbind_get. destruct (f_delay s) as [dl|]; [|apply calm_budget, calm_refl]. destruct (dl <=? _); [|apply calm_budget, calm_refl].
    rewrite mbind_mod. apply calm_budget. change (calm s (outs ((process_waiting K ;; schedule_waiting K) (fset_delay None s))) (st ((process_waiting K ;; schedule_waiting K) (fset_delay None s)))).
    assert (ql (process_waiting K ;; schedule_waiting K)) as G by (q_bind; [apply ql_process|intros _; apply ql_schedule]).
    apply (G (fset_delay None s)).
  - cbn [fp_step]. apply calm_budget. unfold mmod. cbn [outs st fst snd]. destruct (nm_find key (f_pending s)) as [e|]; [|apply calm_refl].
    destruct (_ <=? _); apply calm_same; reflexivity.
Qed.

(** ** How far the timer of a running fetch can be *)
Definition near (s : fp) : Prop :=
  f_live s <> [] -> exists dl k, f_sched s = Some (dl, k) /\ dl <= f_now s + fc_life K / 2 + MAX_JITTER.
Definition near_rel (s : fp) (_ : list fout) (s' : fp) : Prop := near s -> near s'.
Lemma near_same s s' : f_now s' = f_now s -> f_sched s' = f_sched s -> (f_live s = [] -> f_live s' = []) -> near s -> near s'.
Proof. intros A B C N H. rewrite A, B. apply N. intros X. apply H. auto. Qed.
Lemma near_send s : near_rel s (outs (send_sync_interest K s)) (st (send_sync_interest K s)).
Proof.
  intros N. rewrite send_eq. destruct (f_wait s); [exact N|].
  assert (near (stopped s)) as S.
  { unfold stopped. destruct (f_fetcher s); auto. revert N. apply near_same; auto. cbn. intros ->. reflexivity. }
  destruct (sync_name _ _) as [n|e|u|]; try exact S. destruct (_ && _); [exact S|].
  intros _. pose proof (jitter_bounds (fc_env K) (f_draws (stopped s))) as J. eexists _, _. split; [reflexivity|]. unfold sent, st. cbn [fst f_draws f_now f_live f_sched fset_sched fset_draws fset_wait fset_live fset_started]. lia.
Qed.
Lemma near_closed ok : closed K ok near_rel.
Proof.
  assert (forall s o s1 o1 s2, near_rel s o s1 -> near_rel s1 o1 s2 -> near_rel s (o ++ o1) s2) as Rt by (unfold near_rel; auto).
  split; intros; try (intros H'; revert H'; apply near_same; auto; fail); try apply near_send; eauto.
  - apply (data_closed K near_rel); intros; try (intros H'; revert H'; apply near_same; auto; fail); try apply near_send; eauto.
    intros N. revert N. apply near_same; auto. cbn. intros ->. reflexivity.
  - apply (start_closed K near_rel); intros; try (intros H'; revert H'; apply near_same; auto; fail); eauto.
  - apply (arm_closed K near_rel); intros; try (intros H'; revert H'; apply near_same; auto; fail); eauto.
  - intros N H'. eexists _, _. split; [reflexivity|]. cbn [f_draws f_now f_live f_sched fset_sched fset_draws fset_wait fset_live fset_started]. lia.
Qed.
Lemma near_step e s : schemes_ok K -> pfx_ok (k_prefixes (f_core s)) -> fp_ok K s -> ticking K s -> near s -> near (st (fp_step K e s)).
Proof.
  intros Sk Pk Ok_ Tk N. pose proof (near_closed (fun _ => True)) as C.
  destruct e as [a|n l|i buf script|i face|i timeout|dt|t| | |key|i];
    try (apply (tr_step_plain K _ _ C); auto; try exact I; try (apply ok_true); auto; intros x T'; revert T'; apply near_same; auto; fail).
  - cbn [fp_step]. rewrite mbind_get. destruct (fetch_of i (f_live s)) as [n|] eqn:E; [|exact N].
    rewrite mbind_mod. assert (without i (f_live s) = []) as Lv.
    { destruct (fo_live _ _ Ok_) as [L|(j & F & L)]; rewrite L in E; [discriminate|].
      simpl in E. destruct (Nat.eqb_spec i j) as [->|]; [|discriminate]. rewrite L, without_cons. auto. }
    rewrite Lv. set (s0 := fset_live [] s). unfold on_sync_data, delete_pending. rewrite mbind_mod.
    set (s1 := fset_pending (nm_erase n (f_pending s0)) s0).
    assert (near s1) as T1 by (intros X; destruct (X eq_refl)).
    destruct (obind _ _) as [names|e|u|]; try exact T1.
    pose proof (tr_take K (fun _ => True) near_rel C (fun _ => I) (fun _ _ _ => I) names s1 T1) as T2.
    unfold mbind at 1, st. unfold st in T2. destruct (take_updates names s1) as [[s2 o2] r2] eqn:E2.
    destruct (take_inv names s1 s2 o2 r2 Pk E2) as ([F2 _ (_ & _ & _ & _ & F2' & _)] & _ & _ & Z).
    destruct r2 as [[|m l]|e|u|]; try exact T2.
    + unfold draw. rewrite mbind_mod, mbind_assoc, mbind_get, mbind_assoc, mbind_mod, mbind_ret.
      unfold mmod. cbn [fst]. intros X. destruct X. auto.
    + unfold mbind at 1. unfold memit at 1.
      pose proof (tr_after K (fun _ => True) near_rel C (fun _ => I) s2 script (ok_true _ _ (fun _ => I)) T2) as T3.
      unfold st in T3. destruct ((api_calls K script ;; _) s2) as [[s3 o3] r3]. exact T3.
  - cbn [fp_step]. rewrite mbind_get. destruct (fetch_of i (f_live s)) as [n|] eqn:E; [|exact N].
    rewrite mbind_mod.
    assert (near (fset_live (without i (f_live s)) s)) as T1.
    { revert N. apply near_same; auto. simpl. intros ->. reflexivity. }
    destruct timeout; [exact T1|]. unfold draw. rewrite mbind_assoc, mbind_get, mbind_assoc, mbind_mod, mbind_ret.
    unfold mmod, st. cbn [fst]. pose proof (jitter_bounds (fc_env K) (f_draws s)) as J.
    intros _. eexists _, _. split; [reflexivity|]. cbn [f_draws f_now f_live f_sched fset_sched fset_draws fset_wait fset_live]. lia.
  - intros H. destruct (N H) as (dl & k & A & B). exists dl, k. split; [exact A|]. change (f_now (st (fp_step K (FeTick dt) s))) with (f_now s + dt). lia.
  - exact N.
  - destruct (tk_sched _ _ Tk) as (dl & k & ts & A & _). destruct (N.leb_spec dl (f_now s)) as [H|H].
    + destruct (fire_sends K s dl k Sk Tk A H) as (n & s1 & -> & _). intros _. pose proof (jitter_bounds (fc_env K) (f_draws s1)) as J.
      unfold sent, st. eexists _, _. split; [reflexivity|]. cbn [fst f_draws f_now f_live f_sched fset_sched fset_draws fset_wait fset_live fset_started]. lia.
    + cbn [fp_step]. rewrite mbind_get, A. apply N.leb_gt in H. rewrite H. exact N.
  - cbn [fp_step]. rewrite mbind_get. destruct (f_delay s) as [dl|]; [|exact N]. destruct (dl <=? _); [|exact N].
    rewrite mbind_mod. refine (tr_seq K _ _ C _ _ _ _ _ _).
    + apply (tr_process K _ _ C). auto.
    + intros. apply (tr_schedule K _ _ C).
    + revert N. apply near_same; auto.
Qed.
Lemma reaches_near sys evs : forall s o, schemes_ok K -> (0 <= sys)%Z -> steady sys evs -> reaches K sys evs s o -> near s.
Proof.
  induction evs as [|e evs IH] using rev_ind; intros s o Sk S0 St R.
  - apply reaches_nil in R as (n & _ & -> & _). intros _. pose proof (jitter_bounds (fc_env K) (f_draws (fp_blank K sys))) as J.
    unfold sent. eexists _, _. split; [reflexivity|].
    cbn [f_draws f_now f_live f_sched fset_sched fset_draws fset_wait fset_live fset_started]. lia.
  - apply reaches_inv in R as (s1 & o1 & R1 & _ & -> & _). apply steady_app in St.
    apply near_step; eauto using reaches_pfx, reaches_ok, reaches_ticking.
Qed.

(** ** A stretch of events without a sync interest *)
Definition now_rel (s : fp) (_ : list fout) (s' : fp) : Prop := f_now s' = f_now s.
Lemma now_send s : now_rel s (outs (send_sync_interest K s)) (st (send_sync_interest K s)).
Proof.
  rewrite send_eq. unfold now_rel, st. destruct (f_wait s); [reflexivity|].
  assert (f_now (stopped s) = f_now s) as F by (unfold stopped; destruct (f_fetcher s); reflexivity).
  destruct (sync_name _ _); try exact F. destruct (_ && _); exact F.
Qed.
Lemma now_closed ok : closed K ok now_rel.
Proof.
  assert (forall s o s1 o1 s2, now_rel s o s1 -> now_rel s1 o1 s2 -> now_rel s (o ++ o1) s2) as Rt
    by (unfold now_rel; intros; congruence).
  split; intros; try reflexivity; try apply now_send; eauto.
  - apply (data_closed K now_rel); intros; try reflexivity; try apply now_send; eauto.
  - apply (start_closed K now_rel); intros; try reflexivity; eauto.
  - apply (arm_closed K now_rel); intros; try reflexivity; eauto.
Qed.
Lemma now_events : closed_events now_rel.
Proof. split; reflexivity. Qed.
Lemma now_step e s : f_now (st (fp_step K e s)) = f_now s + dt_of e.
Proof.
  destruct e as [a|n l|i buf script|i face|i timeout|dt|t| | |key|i]; try reflexivity; cbn [dt_of]; rewrite N.add_0_r; try reflexivity;
    try (apply (tr_step_but K (fun _ => True) now_rel (now_closed _)); auto using now_events;
         try exact I; apply ok_true; auto; fail).
  cbn [fp_step]. rewrite mbind_get. destruct (f_delay s) as [dl|]; [|reflexivity].
  destruct (dl <=? _); [|reflexivity]. rewrite mbind_mod.
  apply (tr_seq K (fun _ => True) now_rel (now_closed _) (fset_delay None s)).
  - apply (tr_process K (fun _ => True) now_rel (now_closed _)); auto.
  - intros. apply (tr_schedule K (fun _ => True) now_rel (now_closed _)).
Qed.
Lemma budget_run T sys evs' : forall evs s o s' o', schemes_ok K -> (0 <= sys)%Z -> steady sys (evs ++ evs') -> Forall fev_wf evs' ->
  reaches K sys evs s o -> prompt K s evs' -> budget T s -> fp_run K s evs' = Some (s', o') -> no_interest o' ->
  f_now s + time_of evs' <= T.
Proof.
  induction evs' as [|e evs' IH]; intros evs s o s' o' Sk S0 St Wf R Pr B E Ni.
  - destruct B as (dl & k & _ & B & _). cbn [time_of fold_right]. lia.
  - unfold fp_run in E. cbn [run] in E. inversion Wf as [|? ? W1 W2]; subst. destruct Pr as [P1 P2].
    pose proof (reaches_snoc K sys evs e s o R W1) as R1. pose proof (now_step e s) as T1.
    assert (steady sys evs) as St0 by (eapply steady_pre; exact St).
    assert (budget T (st (fp_step K e s)) \/ sends_one (outs (fp_step K e s))) as [B1|B1].
    { destruct e as [a|n l|i buf script|i face|i timeout|dt|t| | |key|i];
        try (match goal with |- context [outs (fp_step K ?x s)] => destruct (budget_step T x s) as [H|H] end; [exact Sk|eapply reaches_ok; exact R|eapply reaches_ticking; eauto|intros ?; discriminate|right; exact H|left; exact (H B)]; fail).
      left. destruct B as (dl & k & A & B1 & B2 & C). exists dl, k. specialize (P1 dt dl k eq_refl A).
      split; [exact A|]. rewrite T1. cbn [dt_of]. split; [lia|]. split; [lia|]. intros X. specialize (C X). lia. }
    + destruct (fp_step K e s) as [[s1 o1] r]. cbn [st outs res fst snd] in *.
      destruct r as [u|x|u|]; try discriminate; fold (fp_run K s1 evs') in E;
      (destruct (fp_run K s1 evs') as [[s2 o2]|] eqn:E2; [|discriminate]); injection E as <- <-; apply no_interest_app in Ni as [_ Ni];
      (specialize (IH (evs ++ [e]) s1 (o ++ o1) s2 o2 Sk S0); rewrite <- app_assoc in IH; specialize (IH St W2 (R1 ltac:(discriminate) ltac:(discriminate)) P2 B1 E2 Ni);
      cbn [time_of fold_right]; fold (time_of evs'); lia).
    + destruct B1 as (n & t & B1). exfalso. destruct (fp_step K e s) as [[s1 o1] r]. cbn [st outs res fst snd] in *.
      destruct r as [u|x|u|]; try discriminate; fold (fp_run K s1 evs') in E;
      (destruct (fp_run K s1 evs') as [[s2 o2]|] eqn:E2; [|discriminate]); injection E as <- <-; apply (Ni n t); apply in_or_app; auto.
Qed.
Theorem asks_within sys evs s o evs' s' o' : schemes_ok K -> (0 <= sys)%Z -> steady sys (evs ++ evs') -> Forall fev_wf evs' ->
  reaches K sys evs s o -> prompt K s evs' -> fp_run K s evs' = Some (s', o') -> no_interest o' ->
  time_of evs' <= silence K + MAX_JITTER.
Proof.
  intros Sk S0 St Wf R Pr E Ni. assert (steady sys evs) as St0 by (eapply steady_pre; exact St).
  assert (budget (f_now s + silence K + MAX_JITTER) s) as B.
  { pose proof (reaches_near _ _ _ _ Sk S0 St0 R) as N. destruct (tk_sched _ _ (reaches_ticking _ _ _ _ _ Sk S0 St0 R)) as (dl & k & ts & A & _ & _ & _ & D & _).
    exists dl, k. split; [exact A|]. split; [lia|]. split; [lia|]. intros X. destruct (N X) as (dl' & k' & A' & B'). rewrite A in A'. injection A' as <- <-.
    unfold silence. lia. }
  pose proof (budget_run _ _ _ _ _ _ _ _ Sk S0 St Wf R Pr B E Ni) as H. lia.
Qed.
End Asks.
