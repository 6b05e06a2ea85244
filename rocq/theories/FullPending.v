(** What becomes of the pending interests of a full-sync node. *)
From Coq Require Import List NArith ZArith Bool Arith Lia.
From Verif Require Import Base BaseFacts Mon MonFacts Iblt SpecIblt IbltFacts Tlv TlvFacts State NMap NMapFacts
  Codec CodecFacts Store StoreFacts Producer SpecProducer ProducerFacts Partial SpecPartial PartialFacts
  PartialSteps Full FullTrace SpecFull FullFacts FullSafe FullSteps FullData FullRuns FullTimers FullSends FullAnswers.
Import ListNotations.
Local Open Scope N_scope.

(** ** Relations between the state before, the observations and the state after *)
Section Rel.
Variable R : fp -> list fout -> fp -> Prop.
Hypothesis Rr : forall s, R s [] s.
Hypothesis Rt : forall s o s1 o1 s2, R s o s1 -> R s1 o1 s2 -> R s (o ++ o1) s2.
Definition rl {A} (m : FM A) : Prop := forall s, R s (outs (m s)) (st (m s)).
Lemma rl_ret {A} (a : A) : rl (mret a). Proof. intros s. apply Rr. Qed.
Lemma rl_lift {A} (r : outcome A) : rl (mlift r). Proof. intros s. apply Rr. Qed.
Lemma rl_bind {A B} (m : FM A) (f : A -> FM B) : rl m -> (forall a, rl (f a)) -> rl (mbind m f).
Proof.
  intros Hm Hf s. specialize (Hm s). unfold mbind, st, outs in *. destruct (m s) as [[s1 o1] [a|e|u|]]; auto.
  specialize (Hf a s1). unfold st, outs in Hf. destruct (f a s1) as [[s2 o2] r2]. simpl in *. eapply Rt; eauto.
Qed.
Lemma rl_get {B} (f : fp -> FM B) : (forall s, rl (f s)) -> rl (mbind mget f).
Proof. intros Hf s. rewrite mbind_get. apply Hf. Qed.
Lemma rl_mod f : (forall s, R s [] (f s)) -> rl (mmod f). Proof. intros H s. apply H. Qed.
Lemma rl_emit o : (forall s, R s o s) -> rl (memit o). Proof. intros H s. apply H. Qed.
End Rel.

Lemma publish_nonempty E now n b f p p' l : plain_name n -> publish E now n n b f p = (p', Ok l) ->
  exists d, In d l /\ is_prefix n (d_name d) = true.
Proof.
  intros (q & c & -> & Hc) P. pose proof P as P0. unfold publish in P. injection P as _ P. unfold put_segment in P.
  assert (name_get_back (q ++ [c]) 1 = Ok c) as G.
  { unfold name_get_back. rewrite app_length. cbn [length]. rewrite Nat.add_sub.
    assert (Nat.leb 1 (length q + 1) = true) as -> by (apply Nat.leb_le; lia). unfold name_get. rewrite nth_error_app2, Nat.sub_diag by lia. reflexivity. }
  rewrite G in P. cbn [obind] in P. rewrite Hc in P. cbn [obind] in P. rewrite segment_length in P.
  destruct (nseg_bounds b) as (Hb & _). assert (0 <? N.of_nat (nseg b) = true) as X by (apply N.ltb_lt; lia). rewrite X in P.
  change (N.to_nat 0) with O in P. rewrite segment_nth in P by lia. injection P as <-. eexists. split; [left; reflexivity|].
  eapply published_names; [exact P0|left; reflexivity].
Qed.

Lemma outs_bind_left {A B} (m : FM A) (f : A -> FM B) s o : In o (outs (m s)) -> In o (outs (mbind m f s)).
Proof.
  unfold mbind. destruct (m s) as [[s1 o1] [a|e|u|]]; auto. cbn [outs fst snd]. intros H.
  destruct (f a s1) as [[s2 o2] r2]. cbn [outs fst snd]. apply in_or_app. auto.
Qed.
(** ** A pending interest *)
Section Pending.
Variables (K : fcfg) (n : name) (E : fentry -> fentry -> Prop).
Hypothesis Hn : plain_name n.
Hypothesis Er : forall x, E x x.
Hypothesis Et : forall x y z, E x y -> E y z -> E x z.
Definition pr (s : fp) (o : list fout) (s' : fp) : Prop :=
  forall x, nm_find n (f_pending s) = Some x -> (exists x', nm_find n (f_pending s') = Some x' /\ E x x') \/ answered_in n o.
Lemma answered_app a b : answered_in n a \/ answered_in n b -> answered_in n (a ++ b).
Proof. intros [(d & H & P)|(d & H & P)]; exists d; (split; [apply in_or_app; auto|exact P]). Qed.
Lemma pr_refl s : pr s [] s. Proof. intros x H. left. eauto. Qed.
Lemma pr_trans s o s1 o1 s2 : pr s o s1 -> pr s1 o1 s2 -> pr s (o ++ o1) s2.
Proof.
  intros A B x H. destruct (A x H) as [(y & H1 & E1)|H1]; [|right; apply answered_app; auto].
  destruct (B y H1) as [(z & H2 & E2)|H2]; [left; exists z; split; [exact H2|eapply Et; eauto]|right; apply answered_app; auto].
Qed.
Lemma pr_same s o s' : f_pending s' = f_pending s -> pr s o s'.
Proof. intros X x H. left. rewrite X. eauto. Qed.
Definition pl {A} (m : FM A) : Prop := rl pr m.
Ltac p_mod := apply rl_mod; intros; apply pr_same; reflexivity.
Ltac p_emit := apply rl_emit; intros; apply pr_same; reflexivity.
Ltac p_bind := apply (rl_bind pr pr_trans).
Ltac p_ret := first [apply (rl_ret pr pr_refl)|apply (rl_lift pr pr_refl)].
Ltac p_get := apply rl_get; intros.
Lemma pl_op o : pl (fp_op o).
Proof. unfold fp_op. p_get. p_bind; [p_ret|intros k]. p_bind; [p_mod|intros _; p_emit]. Qed.
Lemma pl_prefix p : pl (prefix_seq p).
Proof. unfold prefix_seq. p_get. destruct (get_seq _ _); [p_ret|]. p_bind; [apply pl_op|intros _; p_ret]. Qed.
Lemma pl_draw : pl (draw K).
Proof. unfold draw. p_get. p_bind; [p_mod|intros _; p_ret]. Qed.
Lemma send_pending s : f_pending (st (send_sync_interest K s)) = f_pending s.
Proof.
  rewrite send_eq. destruct (f_wait s); [reflexivity|]. assert (f_pending (stopped s) = f_pending s) as X by (unfold stopped; destruct (f_fetcher s); reflexivity).
  destruct (sync_name _ _) as [m|e|u|]; try exact X. destruct (_ && _); exact X.
Qed.
Lemma data_pending m l f s : f_pending (st (send_sync_data K m l f s)) = f_pending s.
Proof.
  assert (forall s', keeps (fun a b => f_pending b = f_pending a) (mlet buf <- mlift (compress (fc_codec K) (fc_cscheme K) (encode_names l));
    fp_publish K m m buf f ;; if name_eqb (f_outstanding s') m then send_sync_interest K else mret tt)) as G.
  { intros s'. assert (forall a b c : fp, f_pending b = f_pending a -> f_pending c = f_pending b -> f_pending c = f_pending a) as T by congruence.
    apply keeps_bind; [exact T|apply keeps_lift; reflexivity|intros buf]. apply keeps_bind; [exact T| |intros _].
    - intros s1. unfold fp_publish. destruct (publish _ _ _ _ _ _ _) as [p [x|x|x|]]; reflexivity.
    - destruct (name_eqb _ _); [intros s1; apply send_pending|apply keeps_ret; reflexivity]. }
  unfold send_sync_data. rewrite mbind_get. cbv zeta. destruct (_ && _).
  - rewrite mbind_assoc. unfold stop_fetcher. rewrite mbind_mod, mbind_mod. rewrite G. destruct (f_fetcher s); reflexivity.
  - rewrite mbind_ret. apply G.
Qed.
Lemma pl_send : pl (send_sync_interest K).
Proof. intros s. apply pr_same. apply send_pending. Qed.
Lemma pl_data m l f : pl (send_sync_data K m l f).
Proof. intros s. apply pr_same. apply data_pending. Qed.
(** data for [n] goes out unless the handler stops *)
Lemma data_answers l f s : res (send_sync_data K n l f s) = Ok tt -> answered_in n (outs (send_sync_data K n l f s)).
Proof.
  unfold send_sync_data. rewrite mbind_get. cbv zeta.
  assert (forall s1 (b : bool), res ((mlet buf <- mlift (compress (fc_codec K) (fc_cscheme K) (encode_names l));
    fp_publish K n n buf f ;; if b then send_sync_interest K else mret tt) s1) = Ok tt ->
    answered_in n (outs ((mlet buf <- mlift (compress (fc_codec K) (fc_cscheme K) (encode_names l));
    fp_publish K n n buf f ;; if b then send_sync_interest K else mret tt) s1))) as G.
  { intros s1 b. rewrite mbind_lift. destruct (compress _ _ _) as [buf|e|u|]; try discriminate. intros H.
    destruct (publish (fc_env K) (f_now s1) n n buf f (f_pub s1)) as [p [x|x|x|]] eqn:P; try (unfold mbind, fp_publish in H; rewrite P in H; discriminate).
    destruct (publish_nonempty _ _ _ _ _ _ _ _ Hn P) as (d & Hd & Hp). exists d. split; [|exact Hp].
    apply outs_bind_left. unfold fp_publish. rewrite P. cbn [outs fst snd]. apply in_map. exact Hd. }
  destruct (_ && _).
  - rewrite mbind_assoc. unfold stop_fetcher. rewrite mbind_mod, mbind_mod. apply G.
  - rewrite mbind_ret. apply G.
Qed.
Lemma pl_data_delete m l f : pl (send_sync_data K m l f ;; delete_pending m).
Proof.
  destruct (name_eqb m n) eqn:Q.
  - apply name_eqb_eq in Q. subst m. intros s. pose proof (data_answers l f s) as A. unfold mbind.
    destruct (send_sync_data K n l f s) as [[s1 o1] r] eqn:D. cbn [res outs fst snd] in A.
    destruct r as [[]|e|u|]; try (intros x H; left; exists x; split; [|apply Er]; cbn [st fst snd]; pose proof (data_pending n l f s) as X; rewrite D in X; cbn [st fst snd] in X; rewrite X; exact H).
    intros x H. right. unfold delete_pending, mmod. cbn [outs fst snd]. rewrite app_nil_r. apply A; reflexivity.
  - p_bind; [apply pl_data|intros _]. intros s x H. left. exists x. split; [|apply Er]. cbn. rewrite nm_find_erase_other; auto.
    intros ->. rewrite name_eqb_refl in Q. discriminate.
Qed.
Lemma pl_delete m : m <> n -> pl (delete_pending m).
Proof. intros Q s x H. left. exists x. split; [|apply Er]. cbn. rewrite nm_find_erase_other; auto. Qed.
Lemma pl_mark m : pl (mark_waiting m).
Proof. apply rl_mod. intros s. apply pr_same. destruct (nm_find m (f_waiting s)); reflexivity. Qed.
Lemma pl_satisfy u keys : pl (fsatisfy K u keys).
Proof.
  induction keys as [|k keys IH]; cbn [fsatisfy]; [p_ret|]. p_bind; [|intros _; exact IH].
  unfold fsatisfy_one. p_get. destruct (nm_find k (f_pending s)) as [e|]; [|p_ret]. p_bind; [p_ret|intros d]. apply pl_data_delete.
Qed.
Lemma pl_api a : pl (api_call K a).
Proof.
  destruct a as [p|p|p q]; cbn [api_call]; [apply pl_op|apply pl_op|]. unfold fp_publish_name. p_get.
  destruct (get_seq _ _); [|p_ret]. p_bind; [apply pl_op|intros _]. p_bind; [p_mod|intros _; apply pl_satisfy].
Qed.
Lemma pl_apis l : pl (api_calls K l).
Proof. induction l as [|a l IH]; cbn [api_calls]; [p_ret|]. p_bind; [apply pl_api|intros _; exact IH]. Qed.
Lemma pl_schedule : pl (schedule_waiting K).
Proof. unfold schedule_waiting. p_get. destruct (f_waiting s); [p_ret|]. destruct (f_delay s); [p_ret|]. p_bind; [apply pl_draw|intros j; p_mod]. Qed.
Lemma pl_start m : pl (start_waiting K m).
Proof. unfold start_waiting. p_bind; [p_mod|intros _; apply pl_schedule]. Qed.
Lemma pl_offered neg hs : pl (offered K neg hs).
Proof.
  induction hs as [|h hs IH]; cbn [offered]; [p_ret|]. p_get. destruct (bm_left _ _); [|exact IH]. cbv zeta.
  p_bind; [apply pl_prefix|intros v]. p_bind.
  - destruct (v =? 0); [p_ret|]. unfold is_future. p_bind; [p_ret|intros u]. p_bind; [apply pl_prefix|intros x; p_ret].
  - intros b. p_bind; [exact IH|intros l; p_ret].
Qed.
Lemma pl_interest m l timed : (m = n -> forall x t, E x (mkFentry (fe_iblt x) t)) -> pl (on_finterest K m l timed).
Proof.
  intros Hm. unfold on_finterest. p_get. destruct (reply_from_store m (f_pub s)) as [d|]; [p_emit|].
  cbv zeta. destruct (Nat.eqb _ 4).
  { unfold fp_send_nack. p_get. p_bind; [p_ret|intros dn]. p_bind; [p_mod|intros _; p_emit]. }
  destruct (negb _); [p_ret|]. p_bind; [p_ret|intros c]. p_bind; [p_ret|intros c1]. p_bind; [p_ret|intros rcvd].
  destruct (initialize _ _ _ _) as [t [u|e|u|]]; try p_ret. p_bind; [p_ret|intros d]. destruct (can_decode d).
  - unfold on_decoded. p_get. cbv zeta.
    assert (pl (mlet l0 <- offered K (negative d) (positive d); match l0 with [] => mret tt | _ :: _ => send_sync_data K m l0 (fc_fresh K) ;; mark_waiting m end)) as H.
    { p_bind; [apply pl_offered|intros [|x y]; [p_ret|]]. p_bind; [apply pl_data|intros _; apply pl_mark]. }
    destruct (positive d) as [|h hs]; [|exact H]. destruct (negative d) as [|g gs].
    + p_bind; [|intros _; destruct timed; [apply pl_mark|p_ret]]. apply rl_mod. intros s2 x Hx. left.
      cbn [f_pending fset_pending]. unfold add_fpending. destruct (name_eqb n m) eqn:Q.
      * apply name_eqb_eq in Q. subst m. rewrite Hx, nm_find_set_same. eexists. split; [reflexivity|]. apply Hm. reflexivity.
      * exists x. split; [|apply Er]. destruct (nm_find m (f_pending s2)); rewrite nm_find_set, Q; exact Hx.
    + destruct timed, (nm_find m (f_waiting s0)); try p_ret; [|apply pl_start]. destruct (1 <? _); [apply pl_mark|p_ret].
  - unfold on_undecodable. p_get. cbv zeta. destruct (_ <? rcvd).
    + destruct timed, (nm_find m (f_waiting s0)); try p_ret; [|apply pl_start]. destruct (1 <? _); [|p_ret].
      p_bind; [apply pl_mark|intros _; apply pl_send].
    + destruct (_ && _); [p_ret|]. p_bind; [|intros _; apply pl_mark]. destruct (entire_state _); [p_ret|]. apply pl_data_delete.
Qed.
Lemma pl_process : (forall x t, E x (mkFentry (fe_iblt x) t)) -> pl (process_waiting K).
Proof.
  intros Hm. unfold process_waiting. p_get. induction (nm_keys (f_waiting s)) as [|k l IH]; cbn [process_all]; [p_ret|]. p_bind; [|intros _; exact IH].
  unfold process_one. p_get. destruct (nm_find k (f_waiting s0)) as [v|]; [|p_ret]. cbv zeta. destruct (v =? MAX_TRIES); [p_mod|].
  p_bind; [p_mod|intros _]. p_bind; [apply pl_interest; auto|intros _]. p_get. destruct (nm_find k (f_waiting s1)) as [w|]; [|p_ret].
  destruct (w =? MAX_TRIES); [p_mod|p_ret].
Qed.
Lemma pl_take names : pl (take_updates names).
Proof.
  induction names as [|c names IH]; cbn [take_updates]; [p_ret|]. p_bind; [p_ret|intros x].
  p_bind; [p_ret|intros v]. cbv zeta. p_get. destruct (match get_seq _ _ with None => true | Some cur => cur <? v end); [|exact IH].
  p_bind; [apply pl_prefix|intros y]. p_bind; [apply pl_op|intros _]. p_bind; [exact IH|intros l; p_ret].
Qed.
Lemma pl_content m buf script : m <> n -> (forall x t, E x (mkFentry (fe_iblt x) t)) -> pl (on_sync_data K m buf script).
Proof.
  intros Q Hm. unfold on_sync_data. p_bind; [apply pl_delete; exact Q|intros _]. destruct (obind _ _) as [names|e|u|]; try p_ret.
  p_bind; [apply pl_take|intros [|x l]].
  - p_bind; [p_mod|intros _]. p_bind; [apply pl_draw|intros j; p_mod].
  - p_bind; [p_emit|intros _]. p_bind; [apply pl_apis|intros _]. p_bind; [apply pl_draw|intros j].
    p_bind; [p_mod|intros _; apply pl_process; exact Hm].
Qed.
(** one event, from [s] *)
Definition may_change (e : fev) : Prop :=
  match e with FeInterest m _ => m = n | FeDelay | FeContent _ _ _ => True | _ => False end.
Lemma pr_step e s : (may_change e -> forall x t, E x (mkFentry (fe_iblt x) t)) ->
  (forall i buf script, e = FeContent i buf script -> fetch_of i (f_live s) <> Some n) ->
  (forall x, e = FeExpire n -> nm_find n (f_pending s) = Some x -> f_now s < fe_expiry x) ->
  pr s (outs (fp_step K e s)) (st (fp_step K e s)).
Proof.
  intros Hm Hc Hx. destruct e as [a|m l|i buf script|i face|i timeout|dt|t| | |key|i]; cbn [fp_step may_change] in *; try (apply pr_same; reflexivity).
  - apply pl_api.
  - destruct (is_prefix _ _); [apply pl_interest; exact Hm|apply pr_same; reflexivity].
  - rewrite mbind_get. destruct (fetch_of i (f_live s)) as [m|] eqn:Ef; [|apply pr_same; reflexivity]. rewrite mbind_mod.
    assert (m <> n) as Q by (intros ->; apply (Hc _ _ _ eq_refl); exact Ef).
    intros x H. apply (pl_content m buf script Q (Hm I)). exact H.
  - rewrite mbind_get. destruct (fetch_of _ _); apply pr_same; reflexivity.
  - rewrite mbind_get. destruct (fetch_of _ _); [|apply pr_same; reflexivity]. rewrite mbind_mod. destruct timeout; apply pr_same; reflexivity.
  - rewrite mbind_get. destruct (f_sched s) as [[dl k]|]; [|apply pr_same; reflexivity]. destruct (dl <=? _); [|apply pr_same; reflexivity].
    rewrite mbind_mod. destruct k; [|rewrite mbind_mod]; apply pr_same; rewrite send_pending; reflexivity.
  - rewrite mbind_get. destruct (f_delay s) as [dl|]; [|apply pr_same; reflexivity]. destruct (dl <=? _); [|apply pr_same; reflexivity].
    rewrite mbind_mod. assert (pl (process_waiting K ;; schedule_waiting K)) as G by (p_bind; [apply pl_process; auto|intros _; apply pl_schedule]).
    intros x H. apply (G (fset_delay None s)). exact H.
  - intros x H. left. exists x. split; [|apply Er]. cbn [st mmod fst snd]. destruct (nm_find key (f_pending s)) as [e|] eqn:Ek; [|exact H].
    destruct (N.leb_spec (fe_expiry e) (f_now s)) as [L|L]; [|exact H]. cbn [f_pending fset_pending].
    destruct (name_eqb n key) eqn:Q; [|rewrite nm_find_erase_other; [exact H|intros ->; rewrite name_eqb_refl in Q; discriminate]].
    apply name_eqb_eq in Q. subst key. rewrite H in Ek. injection Ek as <-. specialize (Hx x eq_refl H). lia.
Qed.
End Pending.
