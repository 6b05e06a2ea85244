(** The interests a full-sync node keeps carry filters of its own history. *)
From Coq Require Import List NArith ZArith Bool Arith Lia.
From Verif Require Import Base BaseFacts Mon MonFacts Iblt SpecIblt IbltFacts PeelFacts Tlv TlvFacts State NMap NMapFacts
  Codec CodecFacts Store StoreFacts Producer SpecProducer ProducerFacts Partial SpecPartial PartialFacts
  PartialSteps Full FullTrace SpecFull FullFacts FullSafe FullSteps FullData FullRuns FullTimers FullSends FullAnswers
  FullPending FullWaiting.
Import ListNotations.
Local Open Scope N_scope.

(** a difference in which nothing is found is between equal tables *)
Lemma no_difference fuel l r d : iblt_sub fuel l r = Ok d -> can_decode d = true -> positive d = [] -> negative d = [] -> r = l.
Proof.
  intros H C P N. destruct (iblt_sub_faithful _ _ _ _ H C) as (L & tr & F & Hp & Hn & Hc).
  assert (tr = []) as ->.
  { destruct tr as [|[z k] tr]; auto. inversion F as [|? ? Hz ?]; subst. cbn in Hz. destruct Hz as [->| ->].
    - assert (In k (positive d)) as X by (apply Hp; left; auto). rewrite P in X. destruct X.
    - assert (In k (negative d)) as X by (apply Hn; left; auto). rewrite N in X. destruct X. }
  apply (nth_ext _ _ cell0 cell0); auto. intros j _. specialize (Hc j). cbn in Hc. rewrite cadd_0_r in Hc. symmetry. exact Hc.
Qed.

Section Stored.
Variable K : fcfg.
Record own_rel (s : fp) (o : list fout) (s' : fp) : Prop := mkOwnRel {
  or_core : core_rel s o s';
  or_pend : nm_sorted (f_pending s) -> nm_sorted (f_pending s') /\
    forall m x, nm_find m (f_pending s') = Some x ->
      (exists x0, nm_find m (f_pending s) = Some x0 /\ fe_iblt x0 = fe_iblt x) \/
      exists a b k, ops_of o = a ++ b /\ crun (f_core s) a = Ok k /\ fe_iblt x = k_iblt k }.
Lemma or_same s o s' : core_rel s o s' -> f_pending s' = f_pending s -> own_rel s o s'.
Proof. intros C P. split; auto. intros H. rewrite P. split; eauto. Qed.
Lemma or_refl s : own_rel s [] s. Proof. apply or_same; reflexivity. Qed.
Lemma or_trans s o s1 o1 s2 : own_rel s o s1 -> own_rel s1 o1 s2 -> own_rel s (o ++ o1) s2.
Proof.
  intros [C1 P1] [C2 P2]. split; [eapply core_rel_trans; eauto|]. intros H. destruct (P1 H) as [S1 F1]. destruct (P2 S1) as [S2 F2].
  split; auto. intros m x E. rewrite ops_of_app. destruct (F2 _ _ E) as [(x1 & E1 & <-)|(a & b & k & Ea & Ck & ->)].
  - destruct (F1 _ _ E1) as [|(a & b & k & Ea & Ck & Ex)]; auto. right. exists a, (b ++ ops_of o1), k. rewrite Ea, app_assoc. auto.
  - right. exists (ops_of o ++ a), b, k. rewrite Ea, app_assoc. split; auto. split; auto.
    rewrite crun_app, C1. exact Ck.
Qed.
Definition wp {A} (m : FM A) : Prop := rl own_rel m.
Ltac w_same := apply or_same; reflexivity.
Ltac w_mod := apply rl_mod; intros; w_same.
Ltac w_emit := apply rl_emit; intros; w_same.
Ltac w_bind := apply (rl_bind own_rel or_trans).
Ltac w_ret := first [apply (rl_ret own_rel or_refl)|apply (rl_lift own_rel or_refl)].
Ltac w_get := apply rl_get; intros.
Lemma wp_op o : wp (fp_op o).
Proof.
  intros s. unfold fp_op. rewrite mbind_get, mbind_lift. destruct (cstep (f_core s) o) as [k|e|u|] eqn:E; try apply or_refl.
  rewrite mbind_mod. unfold memit, outs, st. cbn [fst snd]. apply or_same; [|reflexivity].
  unfold core_rel. cbn. rewrite E. reflexivity.
Qed.
Lemma wp_prefix p : wp (prefix_seq p).
Proof. unfold prefix_seq. w_get. destruct (get_seq _ _); [w_ret|]. w_bind; [apply wp_op|intros _; w_ret]. Qed.
Lemma wp_draw : wp (draw K).
Proof. unfold draw. w_get. w_bind; [w_mod|intros _; w_ret]. Qed.
Lemma wp_send : wp (send_sync_interest K).
Proof.
  intros s. apply or_same; [apply core_rel_send|]. rewrite send_eq. destruct (f_wait s); [auto|].
  assert (f_pending (stopped s) = f_pending s) as H by (unfold stopped; destruct (f_fetcher s); auto).
  destruct (sync_name _ _); try exact H. destruct (_ && _); exact H.
Qed.
Lemma data_ops l : ops_of (map FoData l) = [].
Proof. induction l as [|x l IH]; cbn; auto. Qed.
Lemma wp_publish i dn buf f : wp (fp_publish K i dn buf f).
Proof.
  intros s. unfold fp_publish. destruct (publish _ _ _ _ _ _ _) as [p [x|x|x|]]; unfold outs, st; cbn [fst snd]; try w_same.
  apply or_same; [|reflexivity]. unfold core_rel. rewrite data_ops. reflexivity.
Qed.
Lemma wp_data m l f : wp (send_sync_data K m l f).
Proof.
  unfold send_sync_data. w_get. cbv zeta. w_bind; [|intros _; w_bind; [w_ret|intros buf]; w_bind; [apply wp_publish|intros _]].
  - destruct (_ && _); [|w_ret]. unfold stop_fetcher. w_bind; [|intros _; w_mod]. apply rl_mod. intros s1.
    destruct (f_fetcher s1); w_same.
  - destruct (name_eqb _ _); [apply wp_send|w_ret].
Qed.
Lemma or_pending s q : (nm_sorted (f_pending s) -> nm_sorted q /\
  forall m x, nm_find m q = Some x -> (exists x0, nm_find m (f_pending s) = Some x0 /\ fe_iblt x0 = fe_iblt x) \/
    fe_iblt x = k_iblt (f_core s)) -> own_rel s [] (fset_pending q s).
Proof.
  intros H. split; [reflexivity|]. intros T. destruct (H T) as [Sq Hq]. split; auto. intros m x E. destruct (Hq _ _ E) as [X|X]; auto.
  right. exists [], [], (f_core s). auto.
Qed.
Lemma wp_erased m s : own_rel s [] (fset_pending (nm_erase m (f_pending s)) s).
Proof.
  apply or_pending. intros P. split; [apply nm_erase_sorted; auto|]. intros k x E. left.
  rewrite nm_find_erase in E by auto. destruct (name_eqb k m); [discriminate|]. eauto.
Qed.
Lemma wp_delete m : wp (delete_pending m).
Proof. apply rl_mod. intros s. apply wp_erased. Qed.
Lemma wp_mark m : wp (mark_waiting m).
Proof. apply rl_mod. intros s. destruct (nm_find m (f_waiting s)); w_same. Qed.
Lemma wp_schedule : wp (schedule_waiting K).
Proof.
  unfold schedule_waiting. w_get. destruct (f_waiting s); [w_ret|]. destruct (f_delay s); [w_ret|].
  w_bind; [apply wp_draw|intros j; w_mod].
Qed.
Lemma wp_start m : wp (start_waiting K m).
Proof. unfold start_waiting. w_bind; [w_mod|intros _; apply wp_schedule]. Qed.
Lemma wp_satisfy u keys : wp (fsatisfy K u keys).
Proof.
  induction keys as [|k keys IH]; cbn [fsatisfy]; [w_ret|]. w_bind; [|intros _; exact IH].
  unfold fsatisfy_one. w_get. destruct (nm_find k (f_pending s)) as [e|]; [|w_ret]. w_bind; [w_ret|intros d].
  w_bind; [apply wp_data|intros _; apply wp_delete].
Qed.
Lemma wp_api a : wp (api_call K a).
Proof.
  destruct a as [p|p|p q]; cbn [api_call]; [apply wp_op|apply wp_op|]. unfold fp_publish_name. w_get.
  destruct (get_seq _ _); [|w_ret]. w_bind; [apply wp_op|intros _]. w_bind; [w_mod|intros _; apply wp_satisfy].
Qed.
Lemma wp_apis l : wp (api_calls K l).
Proof. induction l as [|a l IH]; cbn [api_calls]; [w_ret|]. w_bind; [apply wp_api|intros _; exact IH]. Qed.
Lemma wp_offered neg hs : wp (offered K neg hs).
Proof.
  induction hs as [|h hs IH]; cbn [offered]; [w_ret|]. w_get. destruct (bm_left _ _); [|exact IH]. cbv zeta.
  w_bind; [apply wp_prefix|intros v]. w_bind.
  - destruct (v =? 0); [w_ret|]. unfold is_future. w_bind; [w_ret|intros u]. w_bind; [apply wp_prefix|intros x; w_ret].
  - intros b. w_bind; [exact IH|intros l; w_ret].
Qed.
Definition wa {A} (s : fp) (m : FM A) : Prop := own_rel s (outs (m s)) (st (m s)).
Lemma wa_get {B} s (f : fp -> FM B) : wa s (f s) -> wa s (mbind mget f).
Proof. unfold wa. rewrite mbind_get. auto. Qed.
Lemma wa_lift {A B} s (r : outcome A) (f : A -> FM B) : (forall a, r = Ok a -> wa s (f a)) -> wa s (mbind (mlift r) f).
Proof. unfold wa. intros H. rewrite mbind_lift. destruct r; try apply or_refl. apply H. reflexivity. Qed.
Lemma wa_seq {A B} s (m : FM A) (f : A -> FM B) : wa s m -> (forall a, wp (f a)) -> wa s (mbind m f).
Proof.
  unfold wa. intros Hm Hf. unfold mbind, st, outs in *. destruct (m s) as [[s1 o1] [a|e|u|]]; auto.
  specialize (Hf a s1). unfold st, outs in Hf. destruct (f a s1) as [[s2 o2] r2]. simpl in *. eapply or_trans; eauto.
Qed.
Lemma wa_wp {A} s (m : FM A) : wp m -> wa s m. Proof. intros H. apply H. Qed.
Ltac v_ret := apply wa_wp; w_ret.
Lemma wp_interest m l timed : wp (on_finterest K m l timed).
Proof.
  intros s. change (wa s (on_finterest K m l timed)). unfold on_finterest. apply wa_get.
  destruct (reply_from_store m (f_pub s)) as [d|]; [apply wa_wp; w_emit|].
  cbv zeta. destruct (Nat.eqb _ 4).
  { apply wa_wp. unfold fp_send_nack. w_get. w_bind; [w_ret|intros dn]. w_bind; [w_mod|intros _; w_emit]. }
  destruct (negb _); [v_ret|]. apply wa_lift; intros c _. apply wa_lift; intros c1 _. apply wa_lift; intros rcvd _.
  destruct (initialize _ _ _ _) as [t [u|e|u|]]; try v_ret. apply wa_lift; intros d Hd. destruct (can_decode d) eqn:Dc.
  - unfold on_decoded. apply wa_get. cbv zeta.
    assert (wp (mlet l0 <- offered K (negative d) (positive d); match l0 with [] => mret tt | _ :: _ => send_sync_data K m l0 (fc_fresh K) ;; mark_waiting m end)) as H.
    { w_bind; [apply wp_offered|intros [|x y]; [w_ret|]]. w_bind; [apply wp_data|intros _; apply wp_mark]. }
    destruct (positive d) as [|h hs] eqn:Pd; [|apply wa_wp; exact H]. destruct (negative d) as [|g gs] eqn:Nd.
    + apply wa_seq; [|intros _; destruct timed; [apply wp_mark|w_ret]]. unfold wa, mmod, outs, st. cbn [fst snd].
      pose proof (no_difference _ _ _ _ Hd Dc Pd Nd) as ->.
      apply or_pending. intros P. split.
      * unfold add_fpending. destruct (nm_find m (f_pending s)); apply nm_set_sorted; auto.
      * intros k x. unfold add_fpending. intros E.
        destruct (nm_find m (f_pending s)) as [e0|] eqn:F; rewrite nm_find_set in E; destruct (name_eqb k m) eqn:Q; eauto;
          apply name_eqb_eq in Q; subst; injection E as <-; eauto.
    + destruct timed, (nm_find m (f_waiting s)); try v_ret; [|apply wa_wp, wp_start]. destruct (1 <? _); [apply wa_wp, wp_mark|v_ret].
  - unfold on_undecodable. apply wa_get. cbv zeta. destruct (_ <? rcvd).
    + destruct timed, (nm_find m (f_waiting s)); try v_ret; [|apply wa_wp, wp_start]. destruct (1 <? _); [|v_ret].
      apply wa_wp. w_bind; [apply wp_mark|intros _; apply wp_send].
    + destruct (_ && _); [v_ret|]. apply wa_wp. w_bind; [|intros _; apply wp_mark]. destruct (entire_state _); [w_ret|].
      w_bind; [apply wp_data|intros _; apply wp_delete].
Qed.
Lemma wp_one k : wp (process_one K k).
Proof.
  unfold process_one. w_get. destruct (nm_find k (f_waiting s)) as [v|]; [|w_ret].
  cbv zeta. destruct (v =? MAX_TRIES); [w_mod|]. w_bind; [w_mod|intros _].
  w_bind; [apply wp_interest|intros _]. w_get. destruct (nm_find k (f_waiting s0)) as [w|]; [|w_ret]. destruct (w =? MAX_TRIES); [w_mod|w_ret].
Qed.
Lemma wp_all keys : wp (process_all K keys).
Proof. induction keys as [|k l IH]; cbn [process_all]; [w_ret|]. w_bind; [apply wp_one|intros _; exact IH]. Qed.
Lemma wp_process : wp (process_waiting K).
Proof. unfold process_waiting. w_get. apply wp_all. Qed.
Lemma wp_take names : wp (take_updates names).
Proof.
  induction names as [|c names IH]; cbn [take_updates]; [w_ret|]. w_bind; [w_ret|intros x].
  w_bind; [w_ret|intros v]. cbv zeta. w_get. destruct (match get_seq _ _ with None => true | Some cur => cur <? v end); [|exact IH].
  w_bind; [apply wp_prefix|intros y]. w_bind; [apply wp_op|intros _]. w_bind; [exact IH|intros l; w_ret].
Qed.
Lemma wp_content m buf script : wp (on_sync_data K m buf script).
Proof.
  unfold on_sync_data. w_bind; [apply wp_delete|intros _]. destruct (obind _ _) as [names|e|u|]; try w_ret.
  w_bind; [apply wp_take|intros [|x l]].
  - w_bind; [w_mod|intros _]. w_bind; [apply wp_draw|intros j; w_mod].
  - w_bind; [w_emit|intros _]. w_bind; [apply wp_apis|intros _]. w_bind; [apply wp_draw|intros j].
    w_bind; [w_mod|intros _; apply wp_process].
Qed.
Lemma wp_step e : wp (fp_step K e).
Proof.
  destruct e as [a|m l|i buf script|i face|i timeout|dt|t| | |key|i]; cbn [fp_step].
  - apply wp_api.
  - destruct (is_prefix _ _); [|w_ret]. apply wp_interest.
  - w_get. destruct (fetch_of i (f_live s)) as [m|]; [|w_ret]. w_bind; [w_mod|intros _; apply wp_content].
  - w_get. destruct (fetch_of _ _); [w_mod|w_ret].
  - w_get. destruct (fetch_of _ _); [|w_ret]. w_bind; [w_mod|intros _]. destruct timeout; [w_ret|].
    w_bind; [apply wp_draw|intros j; w_mod].
  - w_mod.
  - w_mod.
  - w_get. destruct (f_sched s) as [[dl k]|]; [|w_ret]. destruct (dl <=? _); [|w_ret]. w_bind; [w_mod|intros _].
    destruct k; [apply wp_send|]. w_bind; [w_mod|intros _; apply wp_send].
  - w_get. destruct (f_delay s) as [dl|]; [|w_ret]. destruct (dl <=? _); [|w_ret]. w_bind; [w_mod|intros _].
    w_bind; [apply wp_process|intros _; apply wp_schedule].
  - apply rl_mod. intros s1. destruct (nm_find key (f_pending s1)) as [e|]; [|w_same]. destruct (_ <=? _); [|w_same]. apply wp_erased.
  - w_mod.
Qed.
End Stored.

(** every filter kept is one the node itself had *)
Theorem reaches_stored K sys evs : forall s o, reaches K sys evs s o ->
  forall m x, nm_find m (f_pending s) = Some x ->
  exists a b k, ops_of o = a ++ b /\ crun (core_new (fc_n K)) a = Ok k /\ fe_iblt x = k_iblt k.
Proof.
  induction evs as [|e evs IH] using rev_ind; intros s o R m x F.
  { apply reaches_nil in R as (n & _ & -> & _). cbn in F. discriminate. }
  apply reaches_inv in R as (s1 & o1 & R1 & _ & -> & -> & _). destruct (wp_step K e s1) as [C P].
  destruct (P (fo_psorted _ _ (reaches_ok _ _ _ _ _ R1))) as [_ H]. destruct (H _ _ F) as [(x0 & F0 & E)|(a & b & k & Ea & Ck & E)].
  - destruct (IH _ _ R1 _ _ F0) as (a & b & k & Ea & Ck & E'). exists a, (b ++ ops_of (outs (fp_step K e s1))), k.
    rewrite ops_of_app, Ea, app_assoc. split; auto. split; auto. congruence.
  - exists (ops_of o1 ++ a), b, k. rewrite ops_of_app, Ea, app_assoc. split; auto. split; auto.
    rewrite crun_app. destruct (reaches_core _ _ _ _ _ R1) as [_ ->]. exact Ck.
Qed.
