(** How long interests are remembered. *)
From Coq Require Import List NArith ZArith Bool Arith Lia.
From Verif Require Import Base BaseFacts Mon MonFacts Iblt SpecIblt IbltFacts Tlv TlvFacts State NMap NMapFacts
  Codec CodecFacts Store StoreFacts Producer SpecProducer ProducerFacts Partial SpecPartial PartialFacts
  PartialSteps Full FullTrace SpecFull FullFacts FullSafe FullSteps FullData FullRuns FullTimers FullSends FullAnswers
  FullPending FullWaiting FullAsk SpecDeliver DeliverFacts ForgetFacts SpecRecent.
Import ListNotations.
Local Open Scope N_scope.

Section Recent.
Variables (K : fcfg) (Ev : name -> N -> Prop).
Definition tries_ok (s : fp) : Prop :=
  (forall m v, nm_find m (f_waiting s) = Some v -> v <= MAX_TRIES) /\ nm_sorted (f_pending s) /\ nm_sorted (f_waiting s).
Definition came (m : name) : Prop := exists l, Ev m l.
Record mem (s s' : fp) : Prop := mkMem {
  mr_now : f_now s' = f_now s;
  mr_tries : tries_ok s';
  mr_delay : f_delay s' = f_delay s \/ f_delay s = None /\ exists dl, f_delay s' = Some dl /\ f_now s <= dl <= f_now s + MAX_JITTER;
  mr_wait : forall m v', nm_find m (f_waiting s') = Some v' ->
    (exists v, nm_find m (f_waiting s) = Some v /\ v <= v') \/ came m;
  mr_pend : forall m x, nm_find m (f_pending s') = Some x ->
    (exists x0, nm_find m (f_pending s) = Some x0 /\ fe_expiry x0 = fe_expiry x) \/
    (exists l, Ev m l /\ fe_expiry x = f_now s + l) \/
    ((nm_find m (f_waiting s) <> None \/ came m) /\ fe_expiry x = f_now s + DEFAULT_LIFETIME) }.
Definition rr (s : fp) (o : list fout) (s' : fp) : Prop := tries_ok s -> mem s s'.
Lemma rr_same s o s' : f_now s' = f_now s -> f_waiting s' = f_waiting s -> f_pending s' = f_pending s -> f_delay s' = f_delay s -> rr s o s'.
Proof.
  intros A B C D H. split; auto.
  - unfold tries_ok. rewrite B, C. exact H.
  - intros m v. rewrite B. intros E. left. exists v. split; auto. lia.
  - intros m x. rewrite C. eauto.
Qed.
Lemma rr_refl s : rr s [] s. Proof. apply rr_same; reflexivity. Qed.
Lemma rr_trans s o s1 o1 s2 : rr s o s1 -> rr s1 o1 s2 -> rr s (o ++ o1) s2.
Proof.
  intros A B H. destruct (A H) as [N1 T1 D1 W1 P1]. destruct (B T1) as [N2 T2 D2 W2 P2]. rewrite N1 in *. split; auto.
  - destruct D2 as [->|[X D2]]; auto. destruct D1 as [D1|[D1 (dl & Y & _)]]; [rewrite <- D1; auto|congruence].
  - intros m v E. destruct (W2 _ _ E) as [(v1 & E1 & L1)|]; auto. destruct (W1 _ _ E1) as [(v0 & E0 & L0)|]; auto.
    left. exists v0. split; auto. lia.
  - intros m x E. destruct (P2 _ _ E) as [(x1 & E1 & F1)|[C|[C X]]]; auto.
    + rewrite <- F1. destruct (P1 _ _ E1) as [(x0 & E0 & F0)|[C|C]]; eauto.
    + right. right. split; auto. destruct C as [C|C]; auto. destruct (nm_find m (f_waiting s1)) as [v|] eqn:E1; [|congruence].
      destruct (W1 _ _ E1) as [(v0 & E0 & _)|]; auto. left. congruence.
Qed.
Definition rp {A} (m : FM A) : Prop := rl rr m.
Ltac r_same := apply rr_same; reflexivity.
Ltac r_mod := apply rl_mod; intros; r_same.
Ltac r_emit := apply rl_emit; intros; r_same.
Ltac r_bind := apply (rl_bind rr rr_trans).
Ltac r_ret := first [apply (rl_ret rr rr_refl)|apply (rl_lift rr rr_refl)].
Ltac r_get := apply rl_get; intros.
Lemma rp_op o : rp (fp_op o).
Proof. unfold fp_op. r_get. r_bind; [r_ret|intros k]. r_bind; [r_mod|intros _; r_emit]. Qed.
Lemma rp_prefix p : rp (prefix_seq p).
Proof. unfold prefix_seq. r_get. destruct (get_seq _ _); [r_ret|]. r_bind; [apply rp_op|intros _; r_ret]. Qed.
Lemma rp_draw : rp (draw K).
Proof. unfold draw. r_get. r_bind; [r_mod|intros _; r_ret]. Qed.
Lemma send_frame s : let s' := st (send_sync_interest K s) in
  f_now s' = f_now s /\ f_waiting s' = f_waiting s /\ f_pending s' = f_pending s /\ f_delay s' = f_delay s.
Proof.
  cbv zeta. rewrite send_eq. destruct (f_wait s); [auto|].
  assert (f_now (stopped s) = f_now s /\ f_waiting (stopped s) = f_waiting s /\ f_pending (stopped s) = f_pending s /\ f_delay (stopped s) = f_delay s)
    as H by (unfold stopped; destruct (f_fetcher s); auto).
  destruct (sync_name _ _); try exact H. destruct (_ && _); exact H.
Qed.
Lemma rp_send : rp (send_sync_interest K).
Proof. intros s. destruct (send_frame s) as (A & B & C & D). apply rr_same; auto. Qed.
Lemma rp_publish i dn buf f : rp (fp_publish K i dn buf f).
Proof. intros s. unfold fp_publish. destruct (publish _ _ _ _ _ _ _) as [p [x|x|x|]]; r_same. Qed.
Lemma rp_data m l f : rp (send_sync_data K m l f).
Proof.
  unfold send_sync_data. r_get. cbv zeta. r_bind; [|intros _; r_bind; [r_ret|intros buf]; r_bind; [apply rp_publish|intros _]].
  - destruct (_ && _); [|r_ret]. unfold stop_fetcher. r_bind; [|intros _; r_mod]. apply rl_mod. intros s1.
    destruct (f_fetcher s1); r_same.
  - destruct (name_eqb _ _); [apply rp_send|r_ret].
Qed.
Lemma rr_pending s o q : (tries_ok s -> nm_sorted q /\
  forall m x, nm_find m q = Some x -> (exists x0, nm_find m (f_pending s) = Some x0 /\ fe_expiry x0 = fe_expiry x) \/
    (exists l, Ev m l /\ fe_expiry x = f_now s + l) \/
    ((nm_find m (f_waiting s) <> None \/ came m) /\ fe_expiry x = f_now s + DEFAULT_LIFETIME)) -> rr s o (fset_pending q s).
Proof.
  intros H T. destruct (H T) as [Sq Hq]. destruct T as (T1 & T2 & T3). split; cbn; auto.
  - split; auto.
  - intros m v E. left. exists v. split; auto. lia.
Qed.
Lemma rr_waiting s o w : (tries_ok s -> nm_sorted w /\ (forall m v, nm_find m w = Some v -> v <= MAX_TRIES) /\
  forall m v', nm_find m w = Some v' -> (exists v, nm_find m (f_waiting s) = Some v /\ v <= v') \/ came m) -> rr s o (fset_waiting w s).
Proof.
  intros H T. destruct (H T) as (Sw & Bw & Hw). destruct T as (T1 & T2 & T3). split; cbn; auto.
  - split; auto.
  - intros m x E. left. eauto.
Qed.
Lemma rp_delete m : rp (delete_pending m).
Proof.
  apply rl_mod. intros s. apply rr_pending. intros (_ & P & _). split; [apply nm_erase_sorted; auto|]. intros k x E. left.
  rewrite nm_find_erase in E by auto. destruct (name_eqb k m); [discriminate|]. eauto.
Qed.
Lemma rp_erase m : rp (mmod (fun s => fset_waiting (nm_erase m (f_waiting s)) s)).
Proof.
  apply rl_mod. intros s. apply rr_waiting. intros (T & _ & W). split; [apply nm_erase_sorted; auto|].
  split; intros k v E; rewrite nm_find_erase in E by auto; destruct (name_eqb k m); try discriminate; eauto.
  left. exists v. split; auto. lia.
Qed.
Lemma rr_set s o m v w : nm_find m (f_waiting s) = Some v -> v <= w <= MAX_TRIES -> rr s o (fset_waiting (nm_set m w (f_waiting s)) s).
Proof.
  intros F B. apply rr_waiting. intros (T & _ & W). split; [apply nm_set_sorted; auto|].
  split; intros k x E; rewrite nm_find_set in E; destruct (name_eqb k m) eqn:Q.
  - injection E as <-. lia.
  - eauto.
  - apply name_eqb_eq in Q. subst. injection E as <-. left. exists v. split; auto. lia.
  - left. exists x. split; auto. lia.
Qed.
Lemma rp_mark m : rp (mark_waiting m).
Proof.
  apply rl_mod. intros s. destruct (nm_find m (f_waiting s)) as [v|] eqn:F; [|r_same]. intros T.
  apply (rr_set s [] m v MAX_TRIES F); auto. split; [apply (proj1 T) in F; exact F|lia].
Qed.
Lemma rp_schedule : rp (schedule_waiting K).
Proof.
  intros s. rewrite schedule_eq. unfold outs, st. cbn [fst snd]. destruct (f_waiting s) eqn:W; [r_same|].
  destruct (f_delay s) eqn:D; [r_same|]. intros T. pose proof (jitter_bounds (fc_env K) (f_draws s)) as J.
  split; [reflexivity|exact T| | |].
  - right. split; [exact D|]. eexists. split; [reflexivity|]. lia.
  - intros m v E. left. exists v. split; auto. lia.
  - intros m x E. left. eauto.
Qed.
Lemma rp_start m : came m -> rp (start_waiting K m).
Proof.
  intros C. unfold start_waiting. r_bind; [|intros _; apply rp_schedule]. apply rl_mod. intros s. apply rr_waiting.
  intros (T & _ & W). split; [apply nm_set_sorted; auto|].
  split; intros k x E; rewrite nm_find_set in E; destruct (name_eqb k m) eqn:Q.
  - injection E as <-. unfold MAX_TRIES. lia.
  - eauto.
  - apply name_eqb_eq in Q. subst. auto.
  - left. exists x. split; auto. lia.
Qed.
Lemma rp_satisfy u keys : rp (fsatisfy K u keys).
Proof.
  induction keys as [|k keys IH]; cbn [fsatisfy]; [r_ret|]. r_bind; [|intros _; exact IH].
  unfold fsatisfy_one. r_get. destruct (nm_find k (f_pending s)) as [e|]; [|r_ret]. r_bind; [r_ret|intros d].
  r_bind; [apply rp_data|intros _; apply rp_delete].
Qed.
Lemma rp_api a : rp (api_call K a).
Proof.
  destruct a as [p|p|p q]; cbn [api_call]; [apply rp_op|apply rp_op|]. unfold fp_publish_name. r_get.
  destruct (get_seq _ _); [|r_ret]. r_bind; [apply rp_op|intros _]. r_bind; [r_mod|intros _; apply rp_satisfy].
Qed.
Lemma rp_apis l : rp (api_calls K l).
Proof. induction l as [|a l IH]; cbn [api_calls]; [r_ret|]. r_bind; [apply rp_api|intros _; exact IH]. Qed.
Lemma rp_offered neg hs : rp (offered K neg hs).
Proof.
  induction hs as [|h hs IH]; cbn [offered]; [r_ret|]. r_get. destruct (bm_left _ _); [|exact IH]. cbv zeta.
  r_bind; [apply rp_prefix|intros v]. r_bind.
  - destruct (v =? 0); [r_ret|]. unfold is_future. r_bind; [r_ret|intros u]. r_bind; [apply rp_prefix|intros x; r_ret].
  - intros b. r_bind; [exact IH|intros l; r_ret].
Qed.
Definition ra {A} (s : fp) (m : FM A) : Prop := rr s (outs (m s)) (st (m s)).
Lemma ra_get {B} s (f : fp -> FM B) : ra s (f s) -> ra s (mbind mget f).
Proof. unfold ra. rewrite mbind_get. auto. Qed.
Lemma ra_lift {A B} s (r : outcome A) (f : A -> FM B) : (forall a, ra s (f a)) -> ra s (mbind (mlift r) f).
Proof. unfold ra. intros H. rewrite mbind_lift. destruct r; try apply rr_refl. apply H. Qed.
Lemma ra_seq {A B} s (m : FM A) (f : A -> FM B) : ra s m -> (forall a, rp (f a)) -> ra s (mbind m f).
Proof.
  unfold ra. intros Hm Hf. unfold mbind, st, outs in *. destruct (m s) as [[s1 o1] [a|e|u|]]; auto.
  specialize (Hf a s1). unfold st, outs in Hf. destruct (f a s1) as [[s2 o2] r2]. simpl in *. eapply rr_trans; eauto.
Qed.
Lemma ra_rp {A} s (m : FM A) : rp m -> ra s m. Proof. intros H. apply H. Qed.
Ltac a_ret := apply ra_rp; r_ret.
Lemma ra_interest m l timed s : (Ev m l \/ l = DEFAULT_LIFETIME /\ nm_find m (f_waiting s) <> None) -> (timed = false -> came m) ->
  ra s (on_finterest K m l timed).
Proof.
  intros Hm Ht. unfold on_finterest. apply ra_get. destruct (reply_from_store m (f_pub s)) as [d|]; [apply ra_rp; r_emit|].
  cbv zeta. destruct (Nat.eqb _ 4).
  { apply ra_rp. unfold fp_send_nack. r_get. r_bind; [r_ret|intros dn]. r_bind; [r_mod|intros _; r_emit]. }
  destruct (negb _); [a_ret|]. apply ra_lift; intros c. apply ra_lift; intros c1. apply ra_lift; intros rcvd.
  destruct (initialize _ _ _ _) as [t [u|e|u|]]; try a_ret. apply ra_lift; intros d. destruct (can_decode d).
  - unfold on_decoded. apply ra_get. cbv zeta.
    assert (rp (mlet l0 <- offered K (negative d) (positive d); match l0 with [] => mret tt | _ :: _ => send_sync_data K m l0 (fc_fresh K) ;; mark_waiting m end)) as H.
    { r_bind; [apply rp_offered|intros [|x y]; [r_ret|]]. r_bind; [apply rp_data|intros _; apply rp_mark]. }
    destruct (positive d) as [|h hs]; [|apply ra_rp; exact H]. destruct (negative d) as [|g gs].
    + apply ra_seq; [|intros _; destruct timed; [apply rp_mark|r_ret]]. unfold ra, mmod, outs, st. cbn [fst snd].
      apply rr_pending. intros (_ & P & _). split.
      * unfold add_fpending. destruct (nm_find m (f_pending s)); apply nm_set_sorted; auto.
      * intros k x. unfold add_fpending. intros E.
        assert (nm_find k (f_pending s) = Some x \/ k = m /\ fe_expiry x = f_now s + l) as [E'|[-> E']]; [|eauto|].
        { destruct (nm_find m (f_pending s)); rewrite nm_find_set in E; destruct (name_eqb k m) eqn:Q; auto;
            apply name_eqb_eq in Q; injection E as <-; auto. }
        right. destruct Hm as [Hm|[-> Hm]]; eauto.
    + destruct timed, (nm_find m (f_waiting s)); try a_ret; [|apply ra_rp, rp_start; auto]. destruct (1 <? _); [apply ra_rp, rp_mark|a_ret].
  - unfold on_undecodable. apply ra_get. cbv zeta. destruct (_ <? rcvd).
    + destruct timed, (nm_find m (f_waiting s)); try a_ret; [|apply ra_rp, rp_start; auto]. destruct (1 <? _); [|a_ret].
      apply ra_rp. r_bind; [apply rp_mark|intros _; apply rp_send].
    + destruct (_ && _); [a_ret|]. apply ra_rp. r_bind; [|intros _; apply rp_mark]. destruct (entire_state _); [r_ret|].
      r_bind; [apply rp_data|intros _; apply rp_delete].
Qed.
Lemma rp_one k : rp (process_one K k).
Proof.
  intros s. change (ra s (process_one K k)). unfold process_one. apply ra_get. destruct (nm_find k (f_waiting s)) as [v|] eqn:F; [|a_ret].
  cbv zeta. destruct (N.eqb_spec v MAX_TRIES) as [->|Ne]; [apply ra_rp, rp_erase|].
  intros T. unfold ra. rewrite mbind_mod. set (s1 := fset_waiting _ s).
  assert (rr s [] s1) as R1. { intros _. apply (rr_set s [] k v (v + 1) F); auto. pose proof (proj1 T _ _ F). lia. }
  assert (ra s1 (on_finterest K k DEFAULT_LIFETIME true ;; mlet s1 <- mget;
      match nm_find k (f_waiting s1) with
      | Some tries1 => if tries1 =? MAX_TRIES then mmod (fun s => fset_waiting (nm_erase k (f_waiting s)) s) else mret tt
      | None => mret tt
      end)) as R2.
  { apply ra_seq; [apply ra_interest; [right; split; auto|discriminate]|intros _].
    - unfold s1. cbn. rewrite nm_find_set_same. discriminate.
    - r_get. destruct (nm_find k (f_waiting s0)) as [w|]; [|r_ret]. destruct (w =? MAX_TRIES); [apply rp_erase|r_ret]. }
  exact (rr_trans s [] s1 [] _ R1 R2 T).
Qed.
Lemma rp_all keys : rp (process_all K keys).
Proof. induction keys as [|k l IH]; cbn [process_all]; [r_ret|]. r_bind; [apply rp_one|intros _; exact IH]. Qed.
Lemma rp_process : rp (process_waiting K).
Proof. unfold process_waiting. r_get. apply rp_all. Qed.
Lemma rp_take names : rp (take_updates names).
Proof.
  induction names as [|c names IH]; cbn [take_updates]; [r_ret|]. r_bind; [r_ret|intros x].
  r_bind; [r_ret|intros v]. cbv zeta. r_get. destruct (match get_seq _ _ with None => true | Some cur => cur <? v end); [|exact IH].
  r_bind; [apply rp_prefix|intros y]. r_bind; [apply rp_op|intros _]. r_bind; [exact IH|intros l; r_ret].
Qed.
Lemma rp_content m buf script : rp (on_sync_data K m buf script).
Proof.
  unfold on_sync_data. r_bind; [apply rp_delete|intros _]. destruct (obind _ _) as [names|e|u|]; try r_ret.
  r_bind; [apply rp_take|intros [|x l]].
  - r_bind; [r_mod|intros _]. r_bind; [apply rp_draw|intros j; r_mod].
  - r_bind; [r_emit|intros _]. r_bind; [apply rp_apis|intros _]. r_bind; [apply rp_draw|intros j].
    r_bind; [r_mod|intros _; apply rp_process].
Qed.
(** every event but the passage of time and the timer of the waiting list *)
Lemma mem_step e s : (forall n l, e = FeInterest n l -> Ev n l) -> (forall dt, e <> FeTick dt) -> e <> FeDelay -> ra s (fp_step K e).
Proof.
  intros Hi Ht Hd. destruct e as [a|m l|i buf script|i face|i timeout|dt|t| | |key|i]; cbn [fp_step].
  - apply ra_rp, rp_api.
  - destruct (is_prefix _ _); [|a_ret]. apply ra_interest; [left; auto|intros _; exists l; auto].
  - apply ra_get. destruct (fetch_of i (f_live s)) as [m|]; [|a_ret]. apply ra_rp. r_bind; [r_mod|intros _; apply rp_content].
  - apply ra_get. destruct (fetch_of _ _); [apply ra_rp; r_mod|a_ret].
  - apply ra_get. destruct (fetch_of _ _); [|a_ret]. apply ra_rp. r_bind; [r_mod|intros _]. destruct timeout; [r_ret|].
    r_bind; [apply rp_draw|intros j; r_mod].
  - destruct (Ht dt eq_refl).
  - apply ra_rp; r_mod.
  - apply ra_get. destruct (f_sched s) as [[dl k]|]; [|a_ret]. destruct (dl <=? _); [|a_ret]. apply ra_rp. r_bind; [r_mod|intros _].
    destruct k; [apply rp_send|]. r_bind; [r_mod|intros _; apply rp_send].
  - destruct (Hd eq_refl).
  - apply ra_rp. apply rl_mod. intros s1. destruct (nm_find key (f_pending s1)) as [e|]; [|r_same]. destruct (_ <=? _); [|r_same].
    apply rr_pending. intros (_ & P & _). split; [apply nm_erase_sorted; auto|]. intros k x E. left.
    rewrite nm_find_erase in E by auto. destruct (name_eqb k key); [discriminate|]. eauto.
  - apply ra_rp. r_mod.
Qed.
Lemma mem_delay s dl : f_delay s = Some dl -> dl <= f_now s -> rr (fset_delay None s) (outs (fp_step K FeDelay s)) (st (fp_step K FeDelay s)).
Proof.
  intros D L. cbn [fp_step]. rewrite mbind_get, D. replace (dl <=? f_now s) with true by (symmetry; apply N.leb_le; auto). rewrite mbind_mod.
  assert (rp (process_waiting K ;; schedule_waiting K)) as H by (r_bind; [apply rp_process|intros _; apply rp_schedule]). apply H.
Qed.
End Recent.

Lemma time_of_app a b : time_of (a ++ b) = time_of a + time_of b.
Proof. unfold time_of. induction a as [|e a IH]; cbn [app fold_right]; [reflexivity|]. rewrite IH. lia. Qed.
Lemma arrived_app evs n l age e : arrived evs n l age -> arrived (evs ++ [e]) n l (age + dt_of e).
Proof.
  intros (pre & post & -> & ->). exists pre, (post ++ [e]). rewrite <- app_assoc. split; [reflexivity|].
  rewrite time_of_app. cbn. lia.
Qed.
Lemma arrived_now evs n l : arrived (evs ++ [FeInterest n l]) n l 0.
Proof. exists evs, []. auto. Qed.

Record remembers (evs : list fev) (s : fp) : Prop := mkRemembers {
  rm_delay : forall dl, f_delay s = Some dl -> f_now s <= dl <= f_now s + MAX_JITTER;
  rm_wait : forall m v, nm_find m (f_waiting s) = Some v -> exists l age, arrived evs m l age /\
    forall dl, f_delay s = Some dl -> dl + age <= f_now s + MAX_JITTER * (v + 1);
  rm_pend : forall m x, nm_find m (f_pending s) = Some x -> exists l age, arrived evs m l age /\
    (fe_expiry x + age = f_now s + l \/ fe_expiry x + age <= f_now s + longest_wait + DEFAULT_LIFETIME) }.
Lemma waits_short evs s m v : remembers evs s -> tries_ok s -> f_delay s <> None -> nm_find m (f_waiting s) = Some v ->
  exists l age, arrived evs m l age /\ age <= MAX_JITTER * (v + 1) /\ age <= longest_wait.
Proof.
  intros [D W P] T A F. destruct (f_delay s) as [dl|] eqn:E; [|congruence]. destruct (W _ _ F) as (l & age & Ar & H).
  exists l, age. split; auto. specialize (H dl eq_refl). specialize (D dl eq_refl). pose proof (proj1 T _ _ F) as B.
  unfold longest_wait, MAX_JITTER, MAX_TRIES in *. split; lia.
Qed.
Lemma ok_tries K s : fp_ok K s -> tries_ok s.
Proof. intros [h1 h2 h3 h4 h5 h6 h7]. split; [|auto]. intros m v E. apply (h5 _ _ E). Qed.
Theorem reaches_remembers K sys evs : schemes_ok K -> uri_ok K -> forall s o, reaches K sys evs s o -> punctual K sys evs -> remembers evs s.
Proof.
  intros Sk Uk. induction evs as [|e evs IH] using rev_ind; intros s o R Pu.
  { apply reaches_nil in R as (n & _ & -> & _). split; intros; cbn in *; discriminate. }
  pose proof R as R'. apply reaches_inv in R' as (s1 & o1 & R1 & We & -> & Eo & Hr).
  assert (punctual K sys evs) as Pu1.
  { intros pre dt post s2 o2 dl -> H. apply (Pu pre dt (post ++ [e]) s2 o2 dl); auto. rewrite <- app_assoc. reflexivity. }
  specialize (IH _ _ R1 Pu1). pose proof (reaches_ok _ _ _ _ _ R1) as Ok1. pose proof (ok_tries K s1 Ok1) as T1.
  pose proof (reaches_armed K sys evs s1 o1 Sk Uk R1) as Ar1.
  assert (forall m v, nm_find m (f_waiting s1) = Some v -> f_delay s1 <> None) as Ar2.
  { intros m v E. apply Ar1. intros X. rewrite X in E. discriminate. }
  assert (forall m v, nm_find m (f_waiting s1) = Some v -> exists l age, arrived evs m l age /\ age <= MAX_JITTER * (v + 1) /\ age <= longest_wait) as Sh.
  { intros m v E. eapply waits_short; eauto. }
  destruct IH as [D W P].
  assert ((exists dt, e = FeTick dt) \/ e = FeDelay \/ ((forall dt, e <> FeTick dt) /\ e <> FeDelay)) as [[dt ->]|[->|[N1 N2]]].
  { destruct e; eauto; right; right; split; discriminate. }
  - cbn [fp_step st mmod fst]. split; cbn [f_delay fset_time f_now f_waiting f_pending].
    + intros dl E. pose proof (Pu evs dt [] s1 o1 dl eq_refl R1 E). specialize (D dl E). lia.
    + intros m v E. destruct (W m v E) as (l & age & A & H). exists l, (age + dt). split; [apply (arrived_app _ _ _ _ (FeTick dt)); auto|].
      intros dl X. specialize (H dl X). lia.
    + intros m x E. destruct (P m x E) as (l & age & A & H). exists l, (age + dt). split; [apply (arrived_app _ _ _ _ (FeTick dt)); auto|].
      lia.
  - assert (forall m l age, arrived evs m l age -> arrived (evs ++ [FeDelay]) m l age) as Aa.
    { intros m l age A. apply (arrived_app _ _ _ _ FeDelay) in A. cbn in A. rewrite N.add_0_r in A. exact A. }
    destruct (f_delay s1) as [dl|] eqn:E1.
    2:{ cbn [fp_step]. rewrite mbind_get, E1. cbn. split; [rewrite E1; discriminate| |].
        - intros m v E. destruct (W m v E) as (l & age & A & H). exists l, age. split; auto. rewrite E1. discriminate.
        - intros m x E. destruct (P m x E) as (l & age & A & H). eauto. }
    destruct (N.leb_spec dl (f_now s1)) as [L|L].
    2:{ cbn [fp_step]. rewrite mbind_get, E1. replace (dl <=? f_now s1) with false by (symmetry; apply N.leb_gt; auto). cbn.
        split; [intros x X; apply D; congruence| |].
        - intros m v E. destruct (W m v E) as (l & age & A & H). exists l, age. split; auto. intros x X. apply H. congruence.
        - intros m x E. destruct (P m x E) as (l & age & A & H). eauto. }
    assert (res (fp_step K FeDelay s1) = Ok tt) as Ro.
    { destruct Hr as [Hr|[x Hr]]; auto. exfalso. cbn [fp_step] in Hr. rewrite mbind_get, E1 in Hr.
      replace (dl <=? f_now s1) with true in Hr by (symmetry; apply N.leb_le; auto). rewrite mbind_mod in Hr.
      assert (fp_ok K (fset_delay None s1)) as Ok' by (destruct Ok1; constructor; auto).
      pose proof (tm_process K Sk Uk (fset_delay None s1) Ok') as T. unfold tm in T. unfold mbind, res, st in *.
      destruct (process_waiting K (fset_delay None s1)) as [[s2 o2] [[]|y|u|]]; cbn [fst snd] in *; try discriminate; try contradiction.
      rewrite schedule_eq in Hr. discriminate. }
    pose proof (mem_delay K (fun _ _ => False) s1 dl E1 L) as M.
    assert (served (f_waiting s1) (f_waiting (st (fp_step K FeDelay s1)))) as Sv.
    { unfold res, st in *. destruct (fp_step K FeDelay s1) as [[s2 o2] r2] eqn:Es. cbn [snd fst] in *. subst r2.
      destruct (delay_inv K s1 dl s2 o2 E1 L Es) as (s3 & Pr & ->).
      apply (process_find K (fset_delay None s1) s3 o2); auto. destruct Ok1; constructor; auto. }
    destruct (M T1) as [Mn Mt Md Mw Mp]. cbn [f_now fset_delay f_delay f_waiting f_pending] in *.
    assert (dl = f_now s1) as -> by (specialize (D dl eq_refl); lia).
    set (s2 := st (fp_step K FeDelay s1)) in *.
    assert (forall dl', f_delay s2 = Some dl' -> f_now s1 <= dl' <= f_now s1 + MAX_JITTER) as Dl.
    { intros dl' X. destruct Md as [Md|[_ (y & Md & B)]]; rewrite Md in X; [discriminate|]. injection X as <-. exact B. }
    split; rewrite Mn; auto.
    + intros m v E. destruct (Sv m) as [X|(v0 & F0 & F1 & _)]; [congruence|]. rewrite E in F1. injection F1 as ->.
      destruct (Sh _ _ F0) as (l & age & A & B & _). exists l, age. split; auto. intros dl' X. apply Dl in X. unfold MAX_JITTER in *. lia.
    + intros m x E. destruct (Mp _ _ E) as [(x0 & F0 & <-)|[(l & [] & _)|[[C|(l & [])] X]]].
      * destruct (P _ _ F0) as (l & age & A & H). exists l, age. auto.
      * destruct (nm_find m (f_waiting s1)) as [v|] eqn:F0; [|congruence]. destruct (Sh _ _ F0) as (l & age & A & _ & B).
        exists l, age. split; auto. right. rewrite X. lia.
  - pose proof (mem_step K (fun n l => e = FeInterest n l) e s1 (fun n l H => H) N1 N2) as M. unfold ra in M.
    assert (forall m l age, arrived evs m l age -> arrived (evs ++ [e]) m l age) as Aa.
    { intros m l age A. apply (arrived_app _ _ _ _ e) in A. replace (dt_of e) with 0 in A; [rewrite N.add_0_r in A; exact A|].
      destruct e; try reflexivity. destruct (N1 dt eq_refl). }
    destruct (M T1) as [Mn Mt Md Mw Mp]. set (s2 := st (fp_step K e s1)) in *.
    assert (forall dl', f_delay s2 = Some dl' -> f_now s1 <= dl' <= f_now s1 + MAX_JITTER) as Dl.
    { intros dl' X. destruct Md as [Md|[_ (y & Md & B)]]; rewrite Md in X; [auto|]. injection X as <-. exact B. }
    split; rewrite Mn; auto.
    + intros m v' E. destruct (Mw _ _ E) as [(v & F0 & L)|(l & ->)].
      * destruct (W _ _ F0) as (l & age & A & H). exists l, age. split; auto. intros dl X.
        destruct Md as [Md|[Md _]]; [|destruct (Ar2 _ _ F0 Md)]. rewrite Md in X. specialize (H dl X). unfold MAX_JITTER in *. lia.
      * exists l, 0. split; [apply arrived_now|]. intros dl X. apply Dl in X. unfold MAX_JITTER in *. lia.
    + intros m x E. destruct (Mp _ _ E) as [(x0 & F0 & <-)|[(l & -> & X)|[[C|(l & ->)] X]]].
      * destruct (P _ _ F0) as (l & age & A & H). exists l, age. auto.
      * exists l, 0. split; [apply arrived_now|]. left. lia.
      * destruct (nm_find m (f_waiting s1)) as [v|] eqn:F0; [|congruence]. destruct (Sh _ _ F0) as (l & age & A & _ & B).
        exists l, age. split; auto. right. rewrite X. lia.
      * exists l, 0. split; [apply arrived_now|]. right. rewrite X. lia.
Qed.
(** ** Counting *)
Definition ask_names (evs : list fev) : list name :=
  flat_map (fun e => match e with FeInterest n _ => [n] | _ => [] end) evs.
Lemma ask_names_length evs : length (ask_names evs) = interests evs.
Proof.
  unfold interests. induction evs as [|e evs IH]; [reflexivity|].
  destruct e; cbn [ask_names flat_map filter length app]; unfold ask_names in IH; rewrite ?IH; reflexivity.
Qed.
Lemma arrived_recent pre : forall post n l age, arrived (pre ++ post) n l age -> age < time_of post -> In n (ask_names post).
Proof.
  intros post n l age (a & b & E & ->) L. revert a E. induction pre as [|e pre IH]; intros a E.
  - cbn in E. subst post. apply in_flat_map. exists (FeInterest n l). split; [apply in_elt|left; auto].
  - destruct a as [|e' a]; cbn in E; [|injection E as _ E; eapply IH; eauto].
    injection E as _ <-. rewrite time_of_app in L. lia.
Qed.
Lemma count_keys {V} (m : nmap V) names : nm_sorted m -> (forall k v, nm_find k m = Some v -> In k names) ->
  (length m <= length names)%nat.
Proof.
  intros So H. rewrite <- (map_length fst m). apply NoDup_incl_length; [apply nm_sorted_NoDup; auto|].
  intros k Hk. apply in_map_iff in Hk as ([k' v] & <- & Hk). apply (H _ v). apply nm_In_find; auto.
Qed.
(** ** Partial sync *)
Definition pask_names (evs : list pev) : list name :=
  flat_map (fun e => match e with PInterest n _ => [n] | _ => [] end) evs.
Lemma pask_names_length evs : length (pask_names evs) = pinterests evs.
Proof.
  unfold pinterests. induction evs as [|e evs IH]; [reflexivity|].
  destruct e; cbn [pask_names flat_map filter length app]; unfold pask_names in IH; rewrite ?IH; reflexivity.
Qed.
Lemma pp_step_clock K e s : pp_now (st (pp_step K e s)) = pp_now s + pdt_of e.
Proof.
  assert (keeps now_rel (pp_step K e) -> pdt_of e = 0 -> pp_now (st (pp_step K e s)) = pp_now s + pdt_of e) as H.
  { intros H H0. specialize (H s). unfold now_rel in H. lia. }
  destruct e as [p|p|p q|n l|dt|k|i]; cbn [pp_step] in *.
  - apply H; [nk|reflexivity].
  - apply H; [nk|reflexivity].
  - apply H; [|reflexivity]. unfold pp_publish_name. nk. destruct (snd _); nk. apply nk_satisfy.
  - apply H; [apply nk_dispatch|reflexivity].
  - reflexivity.
  - apply H; [|reflexivity]. intros s1. cbn. unfold now_rel, expire. destruct (nm_find _ _) as [x|]; auto.
    destruct (pe_expiry x) as [[dl n]|]; auto. destruct (dl <=? _); reflexivity.
  - apply H; [nk|reflexivity].
Qed.
Lemma pp_run_clock K evs : forall s s' o, pp_run K s evs = Some (s', o) -> pp_now s' = pp_now s + ptime_of evs.
Proof.
  induction evs as [|e evs IH]; intros s s' o; unfold pp_run; cbn [run]; [intros [= <- <-]; cbn; lia|].
  pose proof (pp_step_clock K e s) as T. unfold st in T. unfold ptime_of. cbn [fold_right].
  destruct (pp_step K e s) as [[s1 o1] [u|x|u|]]; try discriminate; cbn [fst] in T;
    destruct (run (pp_step K) s1 evs) as [[s2 o2]|] eqn:R; try discriminate; intros [= <- <-]; apply IH in R; unfold ptime_of in R; lia.
Qed.
