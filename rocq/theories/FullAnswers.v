(** Which interests the data packets of a full-sync node answer, and what becomes of pending ones. *)
From Coq Require Import List NArith ZArith Bool Arith Lia.
From Verif Require Import Base BaseFacts Mon MonFacts Iblt SpecIblt IbltFacts Tlv TlvFacts State NMap NMapFacts
  Codec CodecFacts Store StoreFacts Producer SpecProducer ProducerFacts Partial SpecPartial PartialFacts
  PartialSteps Full FullTrace SpecFull FullFacts FullSafe FullSteps FullData FullRuns FullTimers FullSends.
Import ListNotations.
Local Open Scope N_scope.

Lemma published_names E now n b f p p' l d : publish E now n n b f p = (p', Ok l) -> In d l ->
  d_type d = Blob /\ is_prefix n (d_name d) = true.
Proof.
  unfold publish. intros [= _ P] Hd. unfold put_segment in P.
  destruct (name_get_back n 1) as [c|e|u|]; try discriminate. cbn [obind] in P.
  destruct (if is_segment c then to_segment c else Ok 0) as [k|e|u|]; try discriminate. cbn [obind] in P.
  destruct (k <? _); [|injection P as <-; destruct Hd].
  destruct (nth_error _ _) as [x|] eqn:Ex; injection P as <-; [|destruct Hd]. destruct Hd as [<-|[]].
  apply nth_error_In, segment_In in Ex as (i & _ & ->). split; [reflexivity|]. cbn [d_name seg_data]. unfold append_segment, append_version.
  rewrite <- app_assoc. apply is_prefix_app.
Qed.
Lemma is_prefix_full n d : is_prefix n (d_name d) = true -> is_prefix n (full_name d) = true.
Proof. intros H. apply is_prefix_iff in H as (r & H). apply is_prefix_iff. unfold full_name. rewrite H, <- app_assoc. eexists. reflexivity. Qed.

Lemma nm_find_erase_some {V} k n (m : nmap V) e : nm_find k (nm_erase n m) = Some e -> exists e', nm_find k m = Some e'.
Proof. intros H. apply nm_In_keys. apply nm_find_In, nm_erase_In in H. apply (in_map fst) in H. exact H. Qed.

Section Answers.
Variables (K : fcfg) (Q : name -> Prop).
(** everything remembered came in *)
Definition aI (s : fp) : Prop :=
  (forall k e, nm_find k (f_pending s) = Some e -> Q k) /\ (forall k v, nm_find k (f_waiting s) = Some v -> Q k).
Definition lost_reply (d : data) : Prop := d_type d = AppNack /\ exists c, d_name d = fc_sync K ++ [c; number_comp TYPE_SEGMENT 0].
Definition aP (x : fout) : Prop :=
  forall d, x = FoData d -> lost_reply d \/ exists n, Q n /\ is_prefix n (full_name d) = true.
Definition ah {A} (m : FM A) : Prop := hoare aI aP m.
Lemma aI_eq s s' : f_pending s' = f_pending s -> f_waiting s' = f_waiting s -> aI s -> aI s'.
Proof. unfold aI. intros -> -> H. exact H. Qed.
Lemma ah_mod f : (forall s, f_pending (f s) = f_pending s) -> (forall s, f_waiting (f s) = f_waiting s) -> ah (mmod f).
Proof. intros A B. apply hoare_mod. intros s. apply aI_eq; auto. Qed.
Ltac a_mod := apply ah_mod; reflexivity.
Ltac a_emit := apply hoare_emit; constructor; [intros ? ?; discriminate|constructor].
Lemma ah_get {B} (f : fp -> FM B) : (forall s, ah (f s)) -> ah (mbind mget f).
Proof. intros Hf s H. rewrite mbind_get. apply Hf. exact H. Qed.
Lemma ah_op o : ah (fp_op o).
Proof. unfold fp_op. apply ah_get. intros s. apply hoare_bind; [apply hoare_lift|intros k]. apply hoare_bind; [a_mod|intros _; a_emit]. Qed.
Lemma ah_prefix p : ah (prefix_seq p).
Proof. unfold prefix_seq. apply ah_get. intros s. destruct (get_seq _ _); [apply hoare_ret|]. apply hoare_bind; [apply ah_op|intros _; apply hoare_ret]. Qed.
Lemma ah_draw : ah (draw K).
Proof. unfold draw. apply ah_get. intros s. apply hoare_bind; [a_mod|intros _; apply hoare_ret]. Qed.
Lemma ah_stop : ah stop_fetcher.
Proof. apply ah_mod; intros s; destruct (f_fetcher s); reflexivity. Qed.
Lemma ah_send : ah (send_sync_interest K).
Proof.
  unfold send_sync_interest. apply ah_get. intros s. destruct (f_wait s); [apply hoare_ret|]. apply hoare_bind; [apply ah_stop|intros _].
  apply hoare_bind; [apply hoare_lift|intros n]. destruct (_ && _); [apply hoare_ret|]. apply hoare_bind; [apply ah_draw|intros j].
  apply hoare_bind; [a_mod|intros _; a_emit].
Qed.
Lemma ah_publish n b f : Q n -> ah (fp_publish K n n b f).
Proof.
  intros Hn s Hs. unfold fp_publish. destruct (publish _ _ _ _ _ _ _) as [p [l|e|u|]] eqn:P; (split; [exact Hs|]); try constructor.
  cbn [outs fst snd]. apply Forall_forall. intros x Hx. apply in_map_iff in Hx as (d & <- & Hd). intros d' [= <-]. right. exists n. split; [exact Hn|].
  apply is_prefix_full. eapply published_names; eauto.
Qed.
Lemma ah_data n l f : Q n -> ah (send_sync_data K n l f).
Proof.
  intros Hn. unfold send_sync_data. apply ah_get. intros s. apply hoare_bind.
  - destruct (_ && _); [apply hoare_bind; [apply ah_stop|intros _; a_mod]|apply hoare_ret].
  - intros _. apply hoare_bind; [apply hoare_lift|intros buf]. apply hoare_bind; [apply ah_publish; exact Hn|intros _].
    destruct (name_eqb _ _); [apply ah_send|apply hoare_ret].
Qed.
Lemma ah_delete n : ah (delete_pending n).
Proof.
  apply hoare_mod. intros s [A B]. split; [|exact B]. cbn [f_pending fset_pending]. intros k e H.
  apply nm_find_erase_some in H as (e' & H). eapply A; eauto.
Qed.
Lemma ah_mark n : ah (mark_waiting n).
Proof.
  apply hoare_mod. intros s [A B]. destruct (nm_find n (f_waiting s)) as [v|] eqn:E; [|split; assumption]. split; [exact A|].
  cbn [f_waiting fset_waiting]. intros k w H. rewrite nm_find_set in H. destruct (name_eqb k n) eqn:Ek; [apply name_eqb_eq in Ek; subst|]; eapply B; eauto.
Qed.
Lemma ah_satisfy u keys : ah (fsatisfy K u keys).
Proof.
  induction keys as [|k keys IH]; cbn [fsatisfy]; [apply hoare_ret|]. apply hoare_bind; [|intros _; exact IH].
  unfold fsatisfy_one. apply hoare_get_bind. intros s Hs. destruct (nm_find k (f_pending s)) as [e|] eqn:E; [|apply (hoare_ret aI aP); exact Hs].
  match goal with |- _ (st (?m s)) /\ _ => cut (ah m); [intros X; apply X; exact Hs|] end.
  apply hoare_bind; [apply hoare_lift|intros d]. apply hoare_bind; [apply ah_data; exact (proj1 Hs _ _ E)|intros _; apply ah_delete].
Qed.
Lemma ah_api a : ah (api_call K a).
Proof.
  destruct a as [p|p|p q]; cbn [api_call]; [apply ah_op|apply ah_op|]. unfold fp_publish_name. apply ah_get. intros s.
  destruct (get_seq _ _); [|apply hoare_ret]. apply hoare_bind; [apply ah_op|intros _]. apply hoare_bind; [a_mod|intros _; apply ah_satisfy].
Qed.
Lemma ah_apis l : ah (api_calls K l).
Proof. induction l as [|a l IH]; cbn [api_calls]; [apply hoare_ret|]. apply hoare_bind; [apply ah_api|intros _; exact IH]. Qed.
Lemma ah_schedule : ah (schedule_waiting K).
Proof.
  unfold schedule_waiting. apply ah_get. intros s. destruct (f_waiting s); [apply hoare_ret|]. destruct (f_delay s); [apply hoare_ret|].
  apply hoare_bind; [apply ah_draw|intros j; a_mod].
Qed.
Lemma ah_start n : Q n -> ah (start_waiting K n).
Proof.
  intros Hn. unfold start_waiting. apply hoare_bind; [|intros _; apply ah_schedule]. apply hoare_mod. intros s [A B]. split; [exact A|].
  cbn [f_waiting fset_waiting]. intros k v H. rewrite nm_find_set in H. destruct (name_eqb k n) eqn:E; [apply name_eqb_eq in E; subst; exact Hn|eapply B; eauto].
Qed.
Lemma ah_offered neg hs : ah (offered K neg hs).
Proof.
  induction hs as [|h hs IH]; cbn [offered]; [apply hoare_ret|]. apply ah_get. intros s. destruct (bm_left _ _); [|exact IH]. cbv zeta.
  apply hoare_bind; [apply ah_prefix|intros v]. apply hoare_bind.
  - destruct (v =? 0); [apply hoare_ret|]. unfold is_future. apply hoare_bind; [apply hoare_lift|intros u]. apply hoare_bind; [apply ah_prefix|intros x; apply hoare_ret].
  - intros b. apply hoare_bind; [exact IH|intros l; apply hoare_ret].
Qed.
Lemma ah_interest n l timed : Q n -> ah (on_finterest K n l timed).
Proof.
  intros Hn. unfold on_finterest. apply ah_get. intros s. destruct (reply_from_store n (f_pub s)) as [d|] eqn:Er.
  { apply hoare_emit. constructor; [|constructor]. intros d' [= <-]. right. exists n. split; [exact Hn|]. apply store_find_Some in Er. apply Er. }
  cbv zeta. destruct (Nat.eqb _ 4).
  { intros s1 Hs. unfold fp_send_nack. rewrite mbind_get, mbind_lift. destruct (append_ibf _ _ _ _) as [dn|e|u|] eqn:Ea; [|split; [exact Hs|constructor]..].
    split; [exact Hs|]. constructor; [|constructor]. intros d [= <-]. left. split; [reflexivity|].
    apply append_ibf_carries in Ea as (c & _ & ->). exists c. cbn [d_name nack_data]. unfold append_segment. rewrite <- app_assoc. reflexivity. }
  destruct (negb _); [apply hoare_ret|]. apply hoare_bind; [apply hoare_lift|intros c]. apply hoare_bind; [apply hoare_lift|intros c1].
  apply hoare_bind; [apply hoare_lift|intros rcvd]. destruct (initialize _ _ _ _) as [t [u|e|u|]]; try apply hoare_lift; try apply hoare_ret.
  apply hoare_bind; [apply hoare_lift|intros d]. destruct (can_decode d).
  - unfold on_decoded. apply ah_get. intros s1. cbv zeta.
    assert (ah (mlet l0 <- offered K (negative d) (positive d); match l0 with [] => mret tt | _ :: _ => send_sync_data K n l0 (fc_fresh K) ;; mark_waiting n end)) as H.
    { apply hoare_bind; [apply ah_offered|intros [|x y]; [apply hoare_ret|]]. apply hoare_bind; [apply ah_data; exact Hn|intros _; apply ah_mark]. }
    destruct (positive d) as [|h hs]; [|exact H]. destruct (negative d) as [|g gs].
    + apply hoare_bind; [|intros _; destruct timed; [apply ah_mark|apply hoare_ret]]. apply hoare_mod. intros s2 [A B]. split; [|exact B].
      cbn [f_pending fset_pending]. unfold add_fpending. intros k e.
      destruct (nm_find n (f_pending s2)); rewrite nm_find_set; destruct (name_eqb k n) eqn:E; try (apply name_eqb_eq in E; subst; auto; fail); apply A.
    + destruct timed, (nm_find n (f_waiting s1)); try apply hoare_ret; [|apply ah_start; exact Hn]. destruct (1 <? _); [apply ah_mark|apply hoare_ret].
  - unfold on_undecodable. apply ah_get. intros s1. cbv zeta. destruct (_ <? rcvd).
    + destruct timed, (nm_find n (f_waiting s1)); try apply hoare_ret; [|apply ah_start; exact Hn]. destruct (1 <? _); [|apply hoare_ret].
      apply hoare_bind; [apply ah_mark|intros _; apply ah_send].
    + destruct (_ && _); [apply hoare_ret|]. apply hoare_bind; [|intros _; apply ah_mark]. destruct (entire_state _); [apply hoare_ret|].
      apply hoare_bind; [apply ah_data; exact Hn|intros _; apply ah_delete].
Qed.
Lemma ah_process_one n : ah (process_one K n).
Proof.
  unfold process_one. apply hoare_get_bind. intros s Hs. destruct (nm_find n (f_waiting s)) as [v|] eqn:E; [|apply (hoare_ret aI aP); exact Hs].
  cbv zeta. assert (Q n) as Hn by exact (proj2 Hs _ _ E).
  assert (ah (mmod (fun s => fset_waiting (nm_erase n (f_waiting s)) s))) as D.
  { apply hoare_mod. intros s1 [A B]. split; [exact A|]. cbn [f_waiting fset_waiting]. intros k w H. apply nm_find_erase_some in H as (e' & H). eapply B; eauto. }
  destruct (v =? MAX_TRIES); [apply D; exact Hs|]. rewrite mbind_mod.
  match goal with |- _ (st (?m ?x)) /\ _ => cut (ah m); [intros X; apply X|] end.
  - destruct Hs as [A B]. split; [exact A|]. cbn [f_waiting fset_waiting]. intros k w H. rewrite nm_find_set in H.
    destruct (name_eqb k n) eqn:Ek; [apply name_eqb_eq in Ek; subst; exact Hn|eapply B; eauto].
  - apply hoare_bind; [apply ah_interest; exact Hn|intros _]. apply ah_get. intros s1. destruct (nm_find n (f_waiting s1)) as [w|]; [|apply hoare_ret].
    destruct (w =? MAX_TRIES); [exact D|apply hoare_ret].
Qed.
Lemma ah_process : ah (process_waiting K).
Proof.
  unfold process_waiting. apply ah_get. intros s. induction (nm_keys (f_waiting s)) as [|k l IH]; cbn [process_all]; [apply hoare_ret|].
  apply hoare_bind; [apply ah_process_one|intros _; exact IH].
Qed.
Lemma ah_take names : ah (take_updates names).
Proof.
  induction names as [|c names IH]; cbn [take_updates]; [apply hoare_ret|]. apply hoare_bind; [apply hoare_lift|intros x].
  apply hoare_bind; [apply hoare_lift|intros v]. cbv zeta. apply ah_get. intros s. destruct (match get_seq _ _ with None => true | Some cur => cur <? v end); [|exact IH].
  apply hoare_bind; [apply ah_prefix|intros y]. apply hoare_bind; [apply ah_op|intros _]. apply hoare_bind; [exact IH|intros l; apply hoare_ret].
Qed.
Lemma ah_content n buf script : ah (on_sync_data K n buf script).
Proof.
  unfold on_sync_data. apply hoare_bind; [apply ah_delete|intros _]. destruct (obind _ _) as [names|e|u|]; try apply hoare_lift; try apply hoare_ret.
  apply hoare_bind; [apply ah_take|intros [|m l]].
  - apply hoare_bind; [a_mod|intros _]. apply hoare_bind; [apply ah_draw|intros j; a_mod].
  - apply hoare_bind; [a_emit|intros _]. apply hoare_bind; [apply ah_apis|intros _]. apply hoare_bind; [apply ah_draw|intros j].
    apply hoare_bind; [a_mod|intros _; apply ah_process].
Qed.
Lemma ah_step e : (forall n l, e = FeInterest n l -> Q n) -> ah (fp_step K e).
Proof.
  intros He. destruct e as [a|n l|i buf script|i face|i timeout|dt|t| | |key|i]; cbn [fp_step]; try a_mod.
  - apply ah_api.
  - destruct (is_prefix _ _); [apply ah_interest; eapply He; reflexivity|apply hoare_ret].
  - apply ah_get. intros s. destruct (fetch_of _ _); [|apply hoare_ret]. apply hoare_bind; [a_mod|intros _; apply ah_content].
  - apply ah_get. intros s. destruct (fetch_of _ _); [a_mod|apply hoare_ret].
  - apply ah_get. intros s. destruct (fetch_of _ _); [|apply hoare_ret]. apply hoare_bind; [a_mod|intros _]. destruct timeout; [apply hoare_ret|].
    apply hoare_bind; [apply ah_draw|intros j; a_mod].
  - apply ah_get. intros s. destruct (f_sched s) as [[dl k]|]; [|apply hoare_ret]. destruct (dl <=? _); [|apply hoare_ret].
    apply hoare_bind; [a_mod|intros _]. destruct k; [apply ah_send|]. apply hoare_bind; [a_mod|intros _; apply ah_send].
  - apply ah_get. intros s. destruct (f_delay s) as [dl|]; [|apply hoare_ret]. destruct (dl <=? _); [|apply hoare_ret].
    apply hoare_bind; [a_mod|intros _]. apply hoare_bind; [apply ah_process|intros _; apply ah_schedule].
  - apply hoare_mod. intros s [A B]. destruct (nm_find key (f_pending s)) as [e|]; [|split; assumption].
    destruct (fe_expiry e <=? _); [|split; assumption]. split; [|exact B]. cbn [f_pending fset_pending]. intros k x H.
    apply nm_find_erase_some in H as (e' & H). eapply A; eauto.
Qed.
End Answers.
Lemma reaches_answers K sys evs s o : reaches K sys evs s o ->
  aI (fun n => exists l, In (FeInterest n l) evs) s /\ Forall (aP K (fun n => exists l, In (FeInterest n l) evs)) o.
Proof.
  revert s o. induction evs as [|e evs IH] using rev_ind; intros s o R.
  - apply reaches_nil in R as (n & _ & -> & ->). split; [split; intros k x H; discriminate|]. constructor; [intros d H; discriminate|constructor].
  - apply reaches_inv in R as (s1 & o1 & R1 & _ & -> & -> & _). destruct (IH s1 o1 R1) as [[A B] P].
    set (Q := fun n => exists l, In (FeInterest n l) (evs ++ [e])).
    assert (aI Q s1) as I1.
    { split; intros k x H; [destruct (A k x H) as (l & X)|destruct (B k x H) as (l & X)]; exists l; apply in_or_app; auto. }
    destruct (ah_step K Q e) with (s := s1) as [I2 P2]; [|exact I1|].
    + intros n l ->. exists l. apply in_or_app. right. left. reflexivity.
    + split; [exact I2|]. apply Forall_app. split; [|exact P2]. eapply Forall_impl; [|exact P]. intros x Hx d ->.
      destruct (Hx d eq_refl) as [H|(n & (l & Hn) & Hp)]; [left; exact H|right]. exists n. split; [exists l; apply in_or_app; auto|exact Hp].
Qed.
