(** C58: how long the silence lasts, and what ends it. *)
From Coq Require Import List NArith ZArith Bool Arith Lia.
From Verif Require Import Base BaseFacts Mon MonFacts Iblt SpecIblt IbltFacts Tlv TlvFacts State NMap NMapFacts
  Codec CodecFacts Store StoreFacts Producer SpecProducer ProducerFacts Partial SpecPartial PartialFacts
  PartialSteps Full FullTrace SpecFull FullPending FullFacts FullSafe FullSteps FullData FullRuns FullSends FullTimers Properties_Producer Properties_Full FullFlow FullRenew Properties_FullTime Properties_Silent.
Import ListNotations.
Local Open Scope N_scope.

Section Revive.
Variable K : fcfg.
Definition interest_in (o : list fout) : Prop := exists n t, In (FoInterest n t) o.
(** no interest, and the timer stays as it is; or an interest, and the timer is armed *)
Definition rv (s : fp) (o : list fout) (s' : fp) : Prop :=
  (no_interest o /\ f_sched s' = f_sched s /\ (f_live s = [] -> f_live s' = [])) \/ (interest_in o /\ f_sched s' <> None).
Lemma rv_refl s : rv s [] s. Proof. left. split; [intros n t []|auto]. Qed.
Lemma rv_trans s o s1 o1 s2 : rv s o s1 -> rv s1 o1 s2 -> rv s (o ++ o1) s2.
Proof.
  intros [(A & B & C)|((n & t & A) & B)] [(D & E & F)|((m & u & D) & E)].
  - left. split; [|split; [congruence|auto]]. intros n t H. apply in_app_or in H as [H|H]; [eapply A|eapply D]; eauto.
  - right. split; [exists m, u; apply in_or_app; auto|exact E].
  - right. split; [exists n, t; apply in_or_app; auto|congruence].
  - right. split; [exists m, u; apply in_or_app; auto|exact E].
Qed.
Definition rm {A} (m : FM A) : Prop := forall s, rv s (outs (m s)) (st (m s)).
Lemma rm_bind {A B} (m : FM A) (f : A -> FM B) : rm m -> (forall x, rm (f x)) -> rm (mbind m f).
Proof.
  intros Hm Hf s. specialize (Hm s). unfold mbind, st, outs in *. destruct (m s) as [[s1 o1] [x|e|u|]]; cbn [fst snd] in *; try exact Hm.
  specialize (Hf x s1). unfold st, outs in Hf. destruct (f x s1) as [[s2 o2] r2]. cbn [fst snd] in *. eapply rv_trans; eauto.
Qed.
Lemma rm_get {B} (f : fp -> FM B) : (forall s, rm (f s)) -> rm (mbind mget f).
Proof. intros H s. rewrite mbind_get. apply H. Qed.
Lemma rm_ret {A} (x : A) : rm (mret x). Proof. intros s. apply rv_refl. Qed.
Lemma rm_raw {A} (r : outcome A) : rm (mlift r). Proof. intros s. apply rv_refl. Qed.
Lemma rm_lift {A B} (r : outcome A) (f : A -> FM B) : (forall x, rm (f x)) -> rm (mbind (mlift r) f).
Proof. intros H. apply rm_bind; [apply rm_raw|exact H]. Qed.
Lemma rm_mod f : (forall s, f_sched (f s) = f_sched s /\ (f_live s = [] -> f_live (f s) = [])) -> rm (mmod f).
Proof. intros H s. left. split; [intros n t []|]. apply H. Qed.
Lemma rm_emit x : (forall n t, x <> FoInterest n t) -> rm (memit [x]).
Proof. intros H s. left. split; [|auto]. intros n t [E|[]]. exact (H n t E). Qed.
Ltac easy_mod := apply rm_mod; intros ?; split; auto.
Lemma rm_op o : rm (fp_op o).
Proof. unfold fp_op. apply rm_get. intros s. apply rm_lift. intros k. apply rm_bind; [easy_mod|intros _; apply rm_emit; discriminate]. Qed.
Lemma rm_prefix p : rm (prefix_seq p).
Proof. unfold prefix_seq. apply rm_get. intros s. destruct (get_seq _ _); [apply rm_ret|]. apply rm_bind; [apply rm_op|intros _; apply rm_ret]. Qed.
Lemma rm_draw : rm (draw K).
Proof. unfold draw. apply rm_get. intros s. apply rm_bind; [easy_mod|intros _; apply rm_ret]. Qed.
Lemma rm_send : rm (send_sync_interest K).
Proof.
  intros s. rewrite send_eq. destruct (f_wait s); [apply rv_refl|].
  assert (rv s [] (stopped s)) as H.
  { left. split; [intros n t []|]. unfold stopped. destruct (f_fetcher s); [|auto]. split; [reflexivity|]. cbn. intros ->. reflexivity. }
  destruct (sync_name _ _) as [n|e|u|]; try exact H. destruct (_ && _); [exact H|].
  right. split; [exists n, (f_sys s); left; reflexivity|discriminate].
Qed.
Lemma rm_pub n m b f : rm (fp_publish K n m b f).
Proof.
  intros s. unfold fp_publish. destruct (publish _ _ _ _ _ _ _) as [p [l|e|u|]]; left; (split; [|split; [reflexivity|auto]]); intros x t H; cbn in H; try contradiction.
  apply in_map_iff in H as (d & X & _). discriminate.
Qed.
Lemma rm_data n l f : rm (send_sync_data K n l f).
Proof.
  unfold send_sync_data. apply rm_get. intros s. cbv zeta. apply rm_bind.
  - destruct (_ && _); [|apply rm_ret]. apply rm_bind; [|intros _; easy_mod]. unfold stop_fetcher. apply rm_mod. intros s1.
    destruct (f_fetcher s1); [|auto]. split; [reflexivity|]. cbn. intros ->. reflexivity.
  - intros _. apply rm_lift. intros buf. apply rm_bind; [apply rm_pub|intros _]. destruct (name_eqb _ _); [apply rm_send|apply rm_ret].
Qed.
Lemma rm_one u k : rm (fsatisfy_one K u k).
Proof.
  unfold fsatisfy_one. apply rm_get. intros s. destruct (nm_find _ _); [|apply rm_ret]. apply rm_lift. intros d.
  apply rm_bind; [apply rm_data|intros _]. unfold delete_pending. easy_mod.
Qed.
Lemma rm_satisfy u keys : rm (fsatisfy K u keys).
Proof. induction keys as [|k r IH]; cbn [fsatisfy]; [apply rm_ret|]. apply rm_bind; [apply rm_one|intros _; exact IH]. Qed.
Lemma rm_api a : rm (api_call K a).
Proof.
  destruct a as [p|p|p q]; cbn [api_call]; try apply rm_op. unfold fp_publish_name. apply rm_get. intros s. destruct (get_seq _ _); [|apply rm_ret].
  apply rm_bind; [apply rm_op|intros _]. apply rm_bind; [easy_mod|intros _; apply rm_satisfy].
Qed.
Lemma rm_apis l : rm (api_calls K l).
Proof. induction l as [|a l IH]; cbn [api_calls]; [apply rm_ret|]. apply rm_bind; [apply rm_api|intros _; exact IH]. Qed.
Lemma rm_schedule : rm (schedule_waiting K).
Proof. unfold schedule_waiting. apply rm_get. intros s. destruct (f_waiting s), (f_delay s); try apply rm_ret. apply rm_bind; [apply rm_draw|intros j; easy_mod]. Qed.
Lemma rm_mark n : rm (mark_waiting n).
Proof. unfold mark_waiting. apply rm_mod. intros s. destruct (nm_find _ _); auto. Qed.
Lemma rm_start n : rm (start_waiting K n).
Proof. unfold start_waiting. apply rm_bind; [easy_mod|intros _; apply rm_schedule]. Qed.
Lemma rm_future p neg : rm (is_future K p neg).
Proof. unfold is_future. apply rm_lift. intros u. apply rm_bind; [apply rm_prefix|intros v; apply rm_ret]. Qed.
Lemma rm_offered neg hs : rm (offered K neg hs).
Proof.
  induction hs as [|h r IH]; cbn [offered]; [apply rm_ret|]. apply rm_get. intros s. destruct (bm_left _ _); [|exact IH].
  apply rm_bind; [apply rm_prefix|intros v]. apply rm_bind; [destruct (v =? 0); [apply rm_ret|apply rm_future]|intros b].
  apply rm_bind; [exact IH|intros l; apply rm_ret].
Qed.
Lemma rm_interest n l timed : rm (on_finterest K n l timed).
Proof.
  unfold on_finterest. apply rm_get. intros s. destruct (reply_from_store _ _); [apply rm_emit; discriminate|]. cbv zeta. destruct (Nat.eqb _ 4).
  { unfold fp_send_nack. apply rm_get. intros s1. apply rm_lift. intros dn. apply rm_bind; [easy_mod|intros _; apply rm_emit; discriminate]. }
  destruct (negb _); [apply rm_ret|]. do 3 (apply rm_lift; intros ?). destruct (initialize _ _ _ _) as [t [u|e|u|]]; try apply rm_ret; try apply rm_raw.
  apply rm_lift. intros d. destruct (can_decode d).
  - unfold on_decoded. apply rm_get. intros s1. cbv zeta.
    assert (rm (mlet l0 <- offered K (negative d) (positive d); match l0 with [] => mret tt | _ :: _ => send_sync_data K n l0 (fc_fresh K) ;; mark_waiting n end)) as H.
    { apply rm_bind; [apply rm_offered|intros [|hd0 tl0]; [apply rm_ret|]]. apply rm_bind; [apply rm_data|intros _; apply rm_mark]. }
    destruct (positive d); [|exact H]. destruct (negative d).
    + apply rm_bind; [easy_mod|intros _]. destruct timed; [apply rm_mark|apply rm_ret].
    + destruct timed, (nm_find n (f_waiting s1)); try apply rm_ret; [|apply rm_start]. destruct (1 <? _); [apply rm_mark|apply rm_ret].
  - unfold on_undecodable. apply rm_get. intros s1. cbv zeta. destruct (_ <? _).
    + destruct timed, (nm_find n (f_waiting s1)); try apply rm_ret; [|apply rm_start]. destruct (1 <? _); [|apply rm_ret].
      apply rm_bind; [apply rm_mark|intros _; apply rm_send].
    + destruct (_ && _ && _); [apply rm_ret|]. apply rm_bind; [|intros _; apply rm_mark]. destruct (entire_state _); [apply rm_ret|].
      apply rm_bind; [apply rm_data|intros _; unfold delete_pending; easy_mod].
Qed.
Lemma rm_pone n : rm (process_one K n).
Proof.
  unfold process_one. apply rm_get. intros s. destruct (nm_find _ _); [|apply rm_ret]. cbv zeta. destruct (_ =? _); [easy_mod|].
  apply rm_bind; [easy_mod|intros _]. apply rm_bind; [apply rm_interest|intros _]. apply rm_get. intros s1. destruct (nm_find _ _); [|apply rm_ret].
  destruct (_ =? _); [easy_mod|apply rm_ret].
Qed.
Lemma rm_process : rm (process_waiting K).
Proof.
  unfold process_waiting. apply rm_get. intros s. generalize (nm_keys (f_waiting s)). intros keys.
  induction keys as [|k r IH]; cbn [process_all]; [apply rm_ret|]. apply rm_bind; [apply rm_pone|intros _; exact IH].
Qed.
Lemma rm_take names : rm (take_updates names).
Proof.
  induction names as [|c r IH]; cbn [take_updates]; [apply rm_ret|]. do 2 (apply rm_lift; intros ?). cbv zeta. apply rm_get. intros s.
  destruct (match get_seq _ _ with None => true | Some _ => _ end); [|exact IH].
  apply rm_bind; [apply rm_prefix|intros cur]. apply rm_bind; [apply rm_op|intros _]. apply rm_bind; [exact IH|intros l; apply rm_ret].
Qed.
(** a node without timer fetches nothing *)
Definition mute (s : fp) : Prop := f_sched s = None -> f_live s = [].
Lemma mute_rv s o s' : rv s o s' -> mute s -> mute s'.
Proof. intros [(_ & B & C)|(_ & B)] M E; [apply C, M; congruence|contradiction]. Qed.
Lemma mute_rm {A} (m : FM A) s : rm m -> mute s -> mute (st (m s)).
Proof. intros H M. eapply mute_rv; [apply H|exact M]. Qed.
Lemma step_mute e s : fp_ok K s -> awake false s -> mute s -> mute (st (fp_step K e s)).
Proof.
  intros Ok_ Aw M. destruct e as [a|n l|i buf script|i face|i timeout|dt|t| | |key|i]; cbn [fp_step].
  - apply mute_rm; [apply rm_api|exact M].
  - apply mute_rm; [|exact M]. destruct (is_prefix _ _); [apply rm_interest|apply rm_ret].
  - rewrite mbind_get. destruct (fetch_of i (f_live s)) as [n|] eqn:E; [|exact M]. rewrite mbind_mod.
    assert (without i (f_live s) = []) as ->.
    { destruct (fo_live _ _ Ok_) as [L|(j & F & L)]; rewrite L in E; [discriminate|].
      simpl in E. destruct (Nat.eqb_spec i j) as [->|]; [|discriminate]. rewrite L. cbn. rewrite Nat.eqb_refl. reflexivity. }
    assert (mute (fset_live [] s)) as M0 by (intros _; reflexivity). set (s0 := fset_live [] s) in *. clearbody s0.
    unfold on_sync_data, delete_pending. rewrite mbind_mod. set (s1 := fset_pending _ s0). assert (mute s1) as M1 by exact M0. clearbody s1.
    destruct (obind _ _) as [names|x|u|]; try exact M1.
    pose proof (mute_rm _ s1 (rm_take names) M1) as M2. unfold mbind at 1. unfold st in *. destruct (take_updates names s1) as [[s2 o2] [[|m l]|x|u|]]; cbn [fst] in *; try exact M2.
    + unfold draw. rewrite mbind_mod, mbind_assoc, mbind_get, mbind_assoc, mbind_mod, mbind_ret. unfold mmod. cbn [fst]. intros X. discriminate.
    + unfold mbind at 1, memit at 1. cbn [fst]. pose proof (mute_rm _ s2 (rm_apis script) M2) as M3. unfold st in M3. unfold mbind at 1.
      destruct (api_calls K script s2) as [[s3 o3] [[]|x|u|]]; cbn [fst] in *; try exact M3.
      unfold draw. rewrite mbind_assoc, mbind_get, mbind_assoc, mbind_mod, mbind_ret, mbind_mod.
      match goal with |- context [process_waiting K ?y] => assert (mute y) as M4 by (intros XX; discriminate); pose proof (mute_rm _ y rm_process M4) as M5; unfold st in M5; destruct (process_waiting K y) as [[s4 o4] r4] end.
      exact M5.
  - rewrite mbind_get. destruct (fetch_of i (f_live s)); exact M.
  - rewrite mbind_get. destruct (fetch_of i (f_live s)) as [n|] eqn:E; [|exact M]. rewrite mbind_mod. destruct timeout.
    + intros X. cbn in *. rewrite (M X) in E. discriminate.
    + unfold draw. rewrite mbind_assoc, mbind_get, mbind_assoc, mbind_mod, mbind_ret. intros X. discriminate.
  - exact M.
  - exact M.
  - rewrite mbind_get. destruct (f_sched s) as [[dl k]|] eqn:Es; [|exact M]. destruct (dl <=? f_now s); [|intros X; unfold st, mret in X; cbn in X; congruence].
    rewrite mbind_mod.
    assert (forall s0, f_wait s0 = false \/ f_live s0 = [] -> f_live s0 = f_live s -> f_fetcher s0 = f_fetcher s -> mute (st (send_sync_interest K s0))) as H.
    { intros s0 W E1 E2. assert (f_live (stopped s0) = []) as L.
      { unfold stopped. rewrite E2. destruct (fo_live _ _ Ok_) as [L|(j & F & L)].
        - destruct (f_fetcher s); cbn; rewrite E1, L; reflexivity.
        - rewrite F. cbn. rewrite E1, L. cbn. rewrite Nat.eqb_refl. reflexivity. }
      rewrite send_eq. destruct (f_wait s0) eqn:W0.
      - destruct W as [W|W]; [discriminate|]. intros _. exact W.
      - destruct (sync_name _ _) as [n|e|u|]; try (intros _; exact L). destruct (_ && _); [intros _; exact L|intros X; discriminate]. }
    destruct k; [|rewrite mbind_mod; apply H; auto]. apply H; auto. cbn. destruct (f_wait s) eqn:W; [right; exact (proj1 (aw_wait _ _ Aw W))|left; reflexivity].
  - rewrite mbind_get. destruct (f_delay s) as [dl|]; [|exact M]. destruct (dl <=? _); [|exact M]. rewrite mbind_mod.
    apply mute_rm; [|exact M]. apply rm_bind; [apply rm_process|intros _; apply rm_schedule].
  - unfold mmod, st. cbn [fst]. destruct (nm_find key (f_pending s)) as [x|]; [|exact M]. destruct (_ <=? _); exact M.
  - exact M.
Qed.
Lemma reaches_mute sys evs : forall s o, reaches K sys evs s o -> mute s.
Proof.
  induction evs as [|e evs IH] using rev_ind; intros s o R.
  - apply reaches_nil in R as (n & _ & -> & _). intros X. discriminate.
  - apply reaches_inv in R as (s1 & o1 & R1 & _ & -> & _). apply step_mute; [eapply reaches_ok|eapply reaches_awake|eapply IH]; eauto.
Qed.
(** sending data for another interest than the last one of this node sends no interest *)
Lemma data_still n l f s : f_outstanding s <> n -> no_interest (outs (send_sync_data K n l f s)).
Proof.
  intros Ho. unfold send_sync_data. rewrite mbind_get. cbv zeta.
  assert (name_eqb (f_outstanding s) n = false) as ->.
  { destruct (name_eqb (f_outstanding s) n) eqn:E; auto. apply name_eqb_eq in E. contradiction. }
  cbn [andb]. rewrite mbind_ret, mbind_lift. destruct (compress _ _ _) as [b|x|x|]; try (intros m t []).
  unfold mbind, fp_publish. destruct (publish _ _ _ _ _ _ _) as [q [x|x|x|]]; cbn [outs fst snd mret]; try (intros m t []).
  rewrite app_nil_r. intros m t H. apply in_map_iff in H as (d & X & _). discriminate.
Qed.
Lemma one_still u k s : f_outstanding s <> k -> no_interest (outs (fsatisfy_one K u k s)) /\ f_outstanding (st (fsatisfy_one K u k s)) = f_outstanding s.
Proof.
  intros Ho. unfold fsatisfy_one. rewrite mbind_get. destruct (nm_find k (f_pending s)); [|split; [intros m t []|reflexivity]].
  rewrite mbind_lift. destruct (iblt_sub _ _ _) as [d|x|x|]; try (split; [intros m t []|reflexivity]).
  set (l := satisfy_content _ _ _). pose proof (data_still k l (fc_fresh K) s Ho) as A. destruct (data_other K k l (fc_fresh K) s Ho) as [B _].
  unfold mbind, st, outs in *. destruct (send_sync_data K k l (fc_fresh K) s) as [[s1 o1] [[]|x|x|]]; cbn [fst snd] in *; try (split; assumption).
  unfold delete_pending, mmod. cbn [fst snd]. rewrite app_nil_r. split; assumption.
Qed.
Lemma satisfy_still u keys : forall s, ~ In (f_outstanding s) keys -> no_interest (outs (fsatisfy K u keys s)).
Proof.
  induction keys as [|k keys IH]; intros s H; cbn [fsatisfy]; [intros m t []|].
  destruct (one_still u k s) as [A B]; [intros X; apply H; left; congruence|].
  unfold mbind, st, outs in *. destruct (fsatisfy_one K u k s) as [[s1 o1] [[]|x|x|]]; cbn [fst snd] in *; try exact A.
  specialize (IH s1). unfold outs in IH. destruct (fsatisfy K u keys s1) as [[s2 o2] r2]. cbn [fst snd] in *.
  apply no_interest_app. split; [exact A|]. apply IH. rewrite B. intros X. apply H. right. exact X.
Qed.
(** what sends nothing and leaves the last interest, its fetcher and the pause alone *)
Definition calm {A} (m : FM A) : Prop := forall s, no_interest (outs (m s)) /\ data_of (outs (m s)) = [] /\
  f_outstanding (st (m s)) = f_outstanding s /\ f_fetcher (st (m s)) = f_fetcher s /\ f_wait (st (m s)) = f_wait s.
Lemma calm_mod f : (forall s, f_outstanding (f s) = f_outstanding s /\ f_fetcher (f s) = f_fetcher s /\ f_wait (f s) = f_wait s) -> calm (mmod f).
Proof. intros H s. split; [intros n t []|]. split; [reflexivity|apply H]. Qed.
Lemma calm_ret {A} (a : A) : calm (mret a).
Proof. intros s. split; [intros n t []|repeat split]. Qed.
Lemma calm_lift {A} (x : outcome A) : calm (mlift x).
Proof. intros s. split; [intros n t []|repeat split]. Qed.
Lemma calm_bind {A B} (m : FM A) (f : A -> FM B) : calm m -> (forall a, calm (f a)) -> calm (mbind m f).
Proof.
  intros H G s. specialize (H s). unfold mbind, st, outs in *. destruct (m s) as [[s1 o1] [a|x|x|]]; cbn [fst snd] in *; try exact H.
  specialize (G a s1). unfold st, outs in G. destruct (f a s1) as [[s2 o2] r2]. cbn [fst snd] in *. destruct H as (A1 & A2 & A3 & A4 & A5), G as (B1 & B2 & B3 & B4 & B5).
  split; [apply no_interest_app; auto|]. rewrite data_of_app, A2, B2. repeat split; congruence.
Qed.
Lemma calm_get {A} (f : fp -> FM A) : (forall s, calm (f s)) -> calm (mlet s <- mget; f s).
Proof. intros H s. rewrite mbind_get. apply H. Qed.
Lemma calm_op o : calm (fp_op o).
Proof.
  unfold fp_op. apply calm_get. intros s0. apply calm_bind; [apply calm_lift|intros k]. apply calm_bind; [apply calm_mod; auto|intros _].
  intros s. split; [intros n t [X|[]]; discriminate|repeat split].
Qed.
Lemma calm_prefix p : calm (prefix_seq p).
Proof. unfold prefix_seq. apply calm_get. intros s. destruct (get_seq _ _); [apply calm_ret|]. apply calm_bind; [apply calm_op|intros _; apply calm_ret]. Qed.
Lemma calm_future p neg : calm (is_future K p neg).
Proof. unfold is_future. apply calm_bind; [apply calm_lift|intros u]. apply calm_bind; [apply calm_prefix|intros v; apply calm_ret]. Qed.
Lemma calm_offered neg hs : calm (offered K neg hs).
Proof.
  induction hs as [|h r IH]; cbn [offered]; [apply calm_ret|]. apply calm_get. intros s. destruct (bm_left _ _); [|exact IH].
  apply calm_bind; [apply calm_prefix|intros v]. apply calm_bind; [destruct (v =? 0); [apply calm_ret|apply calm_future]|intros b].
  apply calm_bind; [exact IH|intros l; apply calm_ret].
Qed.
Lemma calm_mark n : calm (mark_waiting n).
Proof. unfold mark_waiting. apply calm_mod. intros s. destruct (nm_find _ _); auto. Qed.
Lemma calm_start n : calm (start_waiting K n).
Proof.
  unfold start_waiting. apply calm_bind; [apply calm_mod; auto|intros _]. unfold schedule_waiting. apply calm_get. intros s.
  destruct (f_waiting s), (f_delay s); try apply calm_ret. unfold draw. apply calm_bind; [|intros j; apply calm_mod; auto].
  apply calm_get. intros s1. apply calm_bind; [apply calm_mod; auto|intros _; apply calm_ret].
Qed.
(** an interest is sent exactly if data is, and that for the last interest of this node, [w] *)
Definition twin (w n : name) (m : FM unit) : Prop := forall s, f_outstanding s = w -> f_fetcher s <> None -> f_wait s = false ->
  (interest_in (outs (m s)) <-> w = n /\ data_of (outs (m s)) <> []).
Lemma twin_calm w n m : calm m -> twin w n m.
Proof. intros H s _ _ _. destruct (H s) as (A & B & _). rewrite B. split; [intros (x & t & X); destruct (A x t X)|intros [_ X]; congruence]. Qed.
Lemma twin_left {A} w n (m : FM A) f : calm m -> (forall a, twin w n (f a)) -> twin w n (mbind m f).
Proof.
  intros H G s E1 E2 E3. destruct (H s) as (A1 & A2 & A3 & A4 & A5). unfold mbind, outs, st in *. destruct (m s) as [[s1 o1] [a|x|x|]]; cbn [fst snd] in *;
    try (rewrite A2; split; [intros (y & t & X); destruct (A1 y t X)|intros [_ X]; congruence]).
  assert (f_outstanding s1 = w) as F1 by congruence. assert (f_fetcher s1 <> None) as F2 by congruence. assert (f_wait s1 = false) as F3 by congruence.
  specialize (G a s1 F1 F2 F3). unfold outs in G.
  destruct (f a s1) as [[s2 o2] r2]. cbn [fst snd] in *. rewrite data_of_app, A2. cbn [app]. rewrite <- G. split.
  - intros (y & t & X). apply in_app_or in X as [X|X]; [destruct (A1 y t X)|exists y, t; exact X].
  - intros (y & t & X). exists y, t. apply in_or_app. auto.
Qed.
Lemma twin_right w n m f : twin w n m -> (forall a : unit, calm (f a)) -> twin w n (mbind m f).
Proof.
  intros H G s E1 E2 E3. specialize (H s E1 E2 E3). unfold mbind, outs, st in *. destruct (m s) as [[s1 o1] [a|x|x|]]; cbn [fst snd] in *; try exact H.
  destruct (G a s1) as (A1 & A2 & _). unfold outs in *. destruct (f a s1) as [[s2 o2] r2]. cbn [fst snd] in *. rewrite data_of_app, A2, app_nil_r, <- H. split.
  - intros (y & t & X). apply in_app_or in X as [X|X]; [exists y, t; exact X|destruct (A1 y t X)].
  - intros (y & t & X). exists y, t. apply in_or_app. auto.
Qed.
Lemma twin_data w n l f : schemes_ok K -> (w = n -> plain_name n) -> twin w n (send_sync_data K n l f).
Proof.
  intros Sk Hpl s E1 E2 E3. destruct (name_eqb w n) eqn:Z.
  - apply name_eqb_eq in Z. specialize (Hpl Z). assert (n <> []) as Hn by (destruct Hpl as (p & c & -> & _); destruct p; discriminate).
    destruct (data_own K n l f s Sk Hn) as (m & t & Hm & _); auto; [congruence|]. split; [|intros _; exists m, t; exact Hm].
    intros _. split; [exact Z|]. destruct (data_spec K n l f s Sk Hn) as (ds & s' & o & -> & (b & _ & P) & _ & _).
    cbn [outs fst snd]. rewrite data_of_app. assert (data_of (map FoData ds) = ds) as -> by (clear; induction ds; cbn; congruence). destruct (publish_nonempty _ _ _ _ _ _ _ _ Hpl P) as (d & Hd & _).
    destruct ds; [destruct Hd|discriminate].
  - assert (w <> n) as Hw by (intros ->; rewrite name_eqb_refl in Z; discriminate).
    split; [intros (m & t & X)|intros [X _]; contradiction]. exfalso. revert X. apply data_still. congruence.
Qed.
Lemma twin_interest w n l s : schemes_ok K -> (w = n -> plain_name n /\ length n = (length (fc_sync K) + 2)%nat) -> reply_from_store n (f_pub s) = None ->
  f_outstanding s = w -> f_fetcher s <> None -> f_wait s = false ->
  (interest_in (outs (on_finterest K n l false s)) <-> w = n /\ data_of (outs (on_finterest K n l false s)) <> []).
Proof.
  intros Sk Hw Er E1 E2 E3. unfold on_finterest. rewrite mbind_get, Er. cbv zeta.
  destruct (Nat.eqb_spec (length (skipn (length (fc_sync K)) n)) 4) as [L4|L4].
  { assert (w <> n) as Hq by (intros X; destruct (Hw X) as [_ L]; rewrite skipn_length in L4; lia).
    split; [|intros [X _]; contradiction]. intros (m & t & X). exfalso. unfold fp_send_nack in X. rewrite mbind_get, mbind_lift in X.
    destruct (append_ibf _ _ _ _) as [dn|x|x|]; try (destruct X; fail). rewrite mbind_mod in X. destruct X as [X|[]]; discriminate. }
  assert (w = n -> plain_name n) as Hpl by (intros X; apply Hw, X).
  match goal with |- context [outs (?m s)] => cut (twin w n m); [intros H; apply H; auto|] end.
  destruct (negb _); [apply twin_calm, calm_ret|].
  apply twin_left; [apply calm_lift|intros c]. apply twin_left; [apply calm_lift|intros c1]. apply twin_left; [apply calm_lift|intros rcvd].
  destruct (initialize _ _ _ _) as [t [u|e|u|]]; [|apply twin_calm, calm_ret|apply twin_calm, calm_lift|apply twin_calm, calm_lift].
  apply twin_left; [apply calm_lift|intros d]. destruct (can_decode d).
  - assert (twin w n (mlet l0 <- offered K (negative d) (positive d); match l0 with [] => mret tt | _ :: _ => send_sync_data K n l0 (fc_fresh K) ;; mark_waiting n end)) as H.
    { apply twin_left; [apply calm_offered|intros [|hd0 tl0]; [apply twin_calm, calm_ret|]]. apply twin_right; [apply twin_data; auto|intros _; apply calm_mark]. }
    unfold on_decoded. intros s1. rewrite mbind_get. cbv zeta. revert s1.
    assert (forall s0 : fp, calm (match nm_find n (f_waiting s0) with None => start_waiting K n | Some _ => mret tt end)) as Q.
    { intros s0. destruct (nm_find _ _); [apply calm_ret|apply calm_start]. }
    intros s1. destruct (positive d); [|apply H]. destruct (negative d).
    + apply twin_left; [apply calm_mod; auto|intros _; apply twin_calm, calm_ret].
    + apply (twin_calm w n _ (Q s1)).
  - unfold on_undecodable. intros s1. rewrite mbind_get. cbv zeta. destruct (_ <? _).
    { destruct (nm_find n (f_waiting s1)); apply twin_calm; [apply calm_ret|apply calm_start]. }
    destruct (_ && _ && _); [apply twin_calm, calm_ret|]. apply twin_right; [|intros _; apply calm_mark]. destruct (entire_state _); [apply twin_calm, calm_ret|].
    apply twin_right; [apply twin_data; auto|intros _; unfold delete_pending; apply calm_mod; auto].
Qed.
End Revive.

(** * C58 *)
(** the timer of a silent node is armed again exactly at an event at which the node sends a sync interest; which events
    do is said below *)
Theorem C58_revived_exactly_when : forall K sys evs s o e,
  reaches K sys evs s o -> f_sched s = None ->
  (f_sched (st (fp_step K e s)) <> None <-> exists n t, In (FoInterest n t) (outs (fp_step K e s))).
Proof.
  intros K sys evs s o e R Es. pose proof (reaches_mute K sys evs s o R Es) as L.
  assert (rv s (outs (fp_step K e s)) (st (fp_step K e s))) as H.
  { destruct e as [a|n l|i buf script|i face|i timeout|dt|t| | |key|i]; cbn [fp_step].
    - apply rm_api.
    - destruct (is_prefix _ _); [apply rm_interest|apply rm_ret].
    - rewrite mbind_get, L. apply rm_ret.
    - rewrite mbind_get, L. apply rm_ret.
    - rewrite mbind_get, L. apply rm_ret.
    - apply rm_mod; auto.
    - apply rm_mod; auto.
    - rewrite mbind_get, Es. apply rm_ret.
    - rewrite mbind_get. destruct (f_delay s) as [dl|]; [|apply rm_ret]. destruct (dl <=? _); [|apply rm_ret].
      apply rm_bind; [apply rm_mod; auto|intros _]. apply rm_bind; [apply rm_process|intros _; apply rm_schedule].
    - apply rm_mod. intros s1. destruct (nm_find key (f_pending s1)) as [x|]; [|auto]. destruct (_ <=? _); auto.
    - apply rm_mod; auto. }
  destruct H as [(A & B & _)|(A & B)].
  - split; [intros X; congruence|]. intros (n & t & X). destruct (A n t X).
  - split; auto.
Qed.
Print Assumptions C58_revived_exactly_when.
(** time, the clock, the timers, expirations, what the fetchers report and adding or removing prefixes do not end the silence:
    unless some interest waits, only an interest of a peer or a publication can *)
Theorem C58_silence_lasts : forall K sys evs s o evs' s' o',
  reaches K sys evs s o -> f_sched s = None -> f_waiting s = [] ->
  (forall e, In e evs' -> (forall n l, e <> FeInterest n l) /\ (forall p q, e <> FeApi (APublish p q))) ->
  fp_run K s evs' = Some (s', o') -> no_interest o' /\ f_sched s' = None.
Proof.
  intros K sys evs s o evs' s' o' R Es Ew He E. pose proof (reaches_mute K sys evs s o R Es) as L. clear R.
  revert s o' Es Ew L E. induction evs' as [|e evs' IH]; intros s o' Es Ew L E.
  { injection E as <- <-. split; [intros n t []|exact Es]. }
  assert (f_sched (st (fp_step K e s)) = None /\ f_waiting (st (fp_step K e s)) = [] /\ f_live (st (fp_step K e s)) = [] /\
    no_interest (outs (fp_step K e s))) as (A & B & C & D).
  { assert (forall op, f_sched (st (fp_op op s)) = None /\ f_waiting (st (fp_op op s)) = [] /\ f_live (st (fp_op op s)) = [] /\ no_interest (outs (fp_op op s))) as Hop.
    { intros op. unfold fp_op. rewrite mbind_get, mbind_lift. destruct (cstep _ _) as [k|x|x|]; [|repeat split; auto; intros n t []..].
      rewrite mbind_mod. unfold memit, st, outs. cbn. repeat split; auto. intros n t [X|[]]. discriminate. }
    destruct (He e (or_introl eq_refl)) as [Hi Hp].
    destruct e as [a|n l|i buf script|i face|i timeout|dt|t| | |key|i]; cbn [fp_step].
    - destruct a as [p|p|p q]; [apply Hop|apply Hop|destruct (Hp p q eq_refl)].
    - destruct (Hi n l eq_refl).
    - rewrite mbind_get, L. repeat split; auto; intros n t [].
    - rewrite mbind_get, L. repeat split; auto; intros n t [].
    - rewrite mbind_get, L. repeat split; auto; intros n t [].
    - repeat split; auto; intros n t [].
    - repeat split; auto; intros n u [].
    - rewrite mbind_get, Es. repeat split; auto; intros n t [].
    - rewrite mbind_get. destruct (f_delay s) as [dl|]; [|repeat split; auto; intros n t []]. destruct (dl <=? _); [|repeat split; auto; intros n t []].
      rewrite mbind_mod. unfold process_waiting. rewrite mbind_assoc, mbind_get. cbn [f_waiting fset_delay]. rewrite Ew. cbn [nm_keys map process_all].
      rewrite mbind_ret. unfold schedule_waiting. rewrite mbind_get. cbn [f_waiting fset_delay]. rewrite Ew. repeat split; auto; intros n t [].
    - unfold mmod, st, outs. cbn [fst snd]. destruct (nm_find key (f_pending s)) as [x|]; [destruct (_ <=? _)|]; repeat split; auto; intros n t [].
    - repeat split; auto; intros n t []. }
  unfold fp_run in *. cbn [run] in E. unfold st, outs in *. destruct (fp_step K e s) as [[s1 o1] r1]. cbn [fst snd] in *.
  assert (forall x, In x evs' -> (forall n l, x <> FeInterest n l) /\ (forall p q, x <> FeApi (APublish p q))) as He' by (intros x Hx; apply He; right; exact Hx).
  destruct r1 as [u|x|x|]; try discriminate; (destruct (run (fp_step K) s1 evs') as [[s2 o2]|] eqn:E2; [|discriminate]); injection E as <- <-;
    (destruct (IH He' s1 o2 A B C E2) as [F G]); (split; [apply no_interest_app; auto|exact G]).
Qed.
Print Assumptions C58_silence_lasts.
(** a publication ends it exactly if a peer has asked with the name of this node's last interest, and its interest is pending *)
Theorem C58_publication_revives_exactly_when : forall K sys evs s o p q s' o',
  schemes_ok K -> reaches K sys evs s o -> f_sched s = None -> get_seq p (f_core s) <> None ->
  fp_step K (FeApi (APublish p q)) s = (s', o', Ok tt) ->
  (f_sched s' <> None <-> nm_mem (f_outstanding s) (f_pending s) = true).
Proof.
  intros K sys evs s o p q s' o' Sk R Es Hp E. pose proof (C58_revived_exactly_when K sys evs s o (FeApi (APublish p q)) R Es) as H.
  rewrite E in H. cbn [st outs fst snd] in H. rewrite H. unfold nm_mem. split.
  - intros (n & t & Hn). destruct (nm_find (f_outstanding s) (f_pending s)) as [x|] eqn:F; [reflexivity|]. exfalso.
    cbn [fp_step api_call] in E. unfold fp_publish_name in E. rewrite mbind_get in E. destruct (get_seq p (f_core s)) as [cur|]; [|congruence].
    unfold mbind at 1 in E. unfold fp_op in E. rewrite mbind_get, mbind_lift in E. destruct (cstep _ _) as [k'|x|x|]; try discriminate. rewrite mbind_mod in E.
    unfold memit at 1 in E. rewrite mbind_mod in E.
    match type of E with context [fsatisfy K ?u ?keys ?s2] => pose proof (satisfy_still K u keys s2) as X; destruct (fsatisfy K u keys s2) as [[s3 o3] r3] end.
    injection E as _ <- _. cbn [outs fst snd] in X. destruct Hn as [Hn|Hn]; [discriminate|]. revert Hn. apply X. cbn.
    intros Y. apply nm_In_keys in Y as [e Y]. congruence.
  - intros F. destruct (publish_renews K s p q s' o' (f_outstanding s) Sk (reaches_ok _ _ _ _ _ R) (reaches_fetcher _ _ _ _ _ R) Hp eq_refl) as (m & t & Hm & _); [|exact E|eauto].
    destruct (nm_find _ _); congruence.
Qed.
Print Assumptions C58_publication_revives_exactly_when.

(** an interest of a peer ends it exactly if it has the name of this node's last interest and the node makes data for it
    (data that the node has in memory does not) *)
Theorem C58_interest_revives_exactly_when : forall K sys evs s o n l,
  schemes_ok K -> reaches K sys evs s o -> f_sched s = None ->
  (f_sched (st (fp_step K (FeInterest n l) s)) <> None <->
   n = f_outstanding s /\ reply_from_store n (f_pub s) = None /\ data_of (outs (fp_step K (FeInterest n l) s)) <> []).
Proof.
  intros K sys evs s o n l Sk R Es. rewrite (C58_revived_exactly_when K sys evs s o (FeInterest n l) R Es). cbn [fp_step].
  destruct (is_prefix (fc_sync K) n) eqn:Ip; [|split; [intros (m & t & [])|intros (_ & _ & X); destruct (X eq_refl)]].
  destruct (reply_from_store n (f_pub s)) as [d|] eqn:Er.
  { unfold on_finterest. rewrite mbind_get, Er. split; [intros (m & t & [X|[]]); discriminate|intros (_ & X & _); discriminate]. }
  assert (f_wait s = false) as W.
  { destruct (f_wait s) eqn:W; auto. destruct (aw_wait _ _ (reaches_awake K sys evs s o R) W) as [_ [dl X]]. congruence. }
  assert (forall x, f_outstanding s = x -> x <> [] -> plain_name x /\ length x = (length (fc_sync K) + 2)%nat) as Sh.
  { intros x Hx Hn. destruct (reaches_paced K Sk sys evs s o R) as [[[_ X]|(o1 & m & t & o2 & c & y & E & _ & Em & _ & [X|(X & _)])] _]; try congruence.
    assert (m = x) as Mx by congruence. rewrite Mx in E, Em. destruct (reaches_asks K sys evs s o R o1 x t o2 E) as (k & _ & c' & _ & Ec). split.
    - exists c, (number_comp TYPE_GENERIC y). split; [exact Em|reflexivity].
    - rewrite Ec, app_length. reflexivity. }
  assert (f_outstanding s = n -> n <> [] -> plain_name n /\ length n = (length (fc_sync K) + 2)%nat) as Sn by (intros X; apply Sh; exact X).
  assert (n = [] \/ n <> []) as [->|Hn0] by (destruct n; [left; reflexivity|right; discriminate]).
  { (* the empty name *)
    assert (fc_sync K = []) as Ez by (destruct (fc_sync K); [reflexivity|discriminate]).
    unfold on_finterest. rewrite mbind_get, Er, Ez. cbn. split; [intros (m & t & [])|intros (_ & _ & X); destruct (X eq_refl)]. }
  pose proof (twin_interest K (f_outstanding s) n l s Sk (fun X => Sn X Hn0) Er eq_refl (reaches_fetcher _ _ _ _ _ R) W) as T. unfold interest_in in T. rewrite T.
  split; [intros [A B]; auto|intros (A & _ & B); auto].
Qed.
Print Assumptions C58_interest_revives_exactly_when.

(** hypotheses: the node of the refutation, silent; an application publishes there, without and with a peer's interest *)
Definition evs_58r : list fev := evs_58s ++ [FeSend; FeApi (AAdd pa)].
Definition s_58r : fp := Eval vm_compute in fst (full_after Kf evs_58r).
Definition o_58r : list fout := Eval vm_compute in snd (full_after Kf evs_58r).
Definition evs_58q : list fev := evs_58r ++ [FeInterest blank_ask 1000].
Definition s_58q : fp := Eval vm_compute in fst (full_after Kf evs_58q).
Definition o_58q : list fout := Eval vm_compute in snd (full_after Kf evs_58q).
Example C58_revive_example : schemes_ok Kf /\ reaches Kf 0 evs_58r s_58r o_58r /\ f_sched s_58r = None /\ f_waiting s_58r = [] /\
  reaches Kf 0 evs_58q s_58q o_58q /\ f_sched s_58q = None /\ get_seq pa (f_core s_58q) <> None /\
  f_sched (st (fp_step Kf (FeApi (APublish pa None)) s_58r)) = None /\
  f_sched (st (fp_step Kf (FeApi (APublish pa None)) s_58q)) <> None.
Proof.
  split; [apply Kf_ok|]. split; [split; [repeat constructor|vm_compute; reflexivity]|]. split; [reflexivity|]. split; [reflexivity|].
  split; [split; [repeat constructor|vm_compute; reflexivity]|]. split; [reflexivity|]. split; [vm_compute; discriminate|].
  split; [vm_compute; reflexivity|vm_compute; discriminate].
Qed.
(** the application publishes at the silent node, then a peer asks with the name of the node's last interest *)
Definition evs_58t : list fev := evs_58r ++ [FeApi (APublish pa None)].
Definition s_58t : fp := Eval vm_compute in fst (full_after Kf evs_58t).
Definition o_58t : list fout := Eval vm_compute in snd (full_after Kf evs_58t).
Example C58_interest_revives_example : schemes_ok Kf /\ reaches Kf 0 evs_58t s_58t o_58t /\ f_sched s_58t = None /\
  f_sched (st (fp_step Kf (FeInterest blank_ask 1000) s_58t)) <> None /\
  f_sched s_58r = None /\ f_sched (st (fp_step Kf (FeInterest blank_ask 1000) s_58r)) = None.
Proof.
  split; [apply Kf_ok|]. split; [split; [repeat constructor|vm_compute; reflexivity]|]. split; [reflexivity|].
  split; [vm_compute; discriminate|]. split; vm_compute; reflexivity.
Qed.
