(** No handler but that of the interest itself makes an interest pending. *)
From Coq Require Import List NArith ZArith Bool Arith Lia.
From Verif Require Import Base Mon MonFacts Iblt BaseFacts IbltFacts
  Tlv State NMap TlvFacts NMapFacts Codec CodecFacts
  Store StoreFacts Producer SpecProducer ProducerFacts
  Full FullTrace SpecFull FullFacts FullSafe FullSteps FullData FullTimers FullWaiting FullSends FullReplies FullAnswers FullPending.
Import ListNotations.
Local Open Scope N_scope.

Section Gone.
Variables (K : fcfg) (n : name).
Definition gr (s : fp) (o : list fout) (s' : fp) : Prop :=
  nm_sorted (f_pending s) -> nm_find n (f_pending s) = None -> nm_sorted (f_pending s') /\ nm_find n (f_pending s') = None.
Lemma gr_refl s : gr s [] s. Proof. intros A B. auto. Qed.
Lemma gr_trans s o s1 o1 s2 : gr s o s1 -> gr s1 o1 s2 -> gr s (o ++ o1) s2.
Proof. intros A B C D. destruct (A C D). auto. Qed.
Lemma gr_same s o s' : f_pending s' = f_pending s -> gr s o s'.
Proof. intros X A B. rewrite X. auto. Qed.
Definition gl {A} (m : FM A) : Prop := rl gr m.
Ltac p_mod := apply rl_mod; intros; apply gr_same; reflexivity.
Ltac p_emit := apply rl_emit; intros; apply gr_same; reflexivity.
Ltac p_bind := apply (rl_bind gr gr_trans).
Ltac p_ret := first [apply (rl_ret gr gr_refl)|apply (rl_lift gr gr_refl)].
Ltac p_get := apply rl_get; intros.
Lemma gl_op o : gl (fp_op o).
Proof. unfold fp_op. p_get. p_bind; [p_ret|intros k]. p_bind; [p_mod|intros _; p_emit]. Qed.
Lemma gl_prefix p : gl (prefix_seq p).
Proof. unfold prefix_seq. p_get. destruct (get_seq _ _); [p_ret|]. p_bind; [apply gl_op|intros _; p_ret]. Qed.
Lemma gl_draw : gl (draw K).
Proof. unfold draw. p_get. p_bind; [p_mod|intros _; p_ret]. Qed.
Lemma gl_send : gl (send_sync_interest K).
Proof. intros s. apply gr_same. apply send_pending. Qed.
Lemma gl_data m l f : gl (send_sync_data K m l f).
Proof. intros s. apply gr_same. apply data_pending. Qed.
Lemma gl_delete m : gl (delete_pending m).
Proof.
  intros s A B. cbn. split; [apply nm_erase_sorted; auto|]. destruct (name_eqb n m) eqn:Q.
  - apply name_eqb_eq in Q. subst m. apply nm_find_erase_same. exact A.
  - rewrite nm_find_erase_other; auto. intros ->. rewrite name_eqb_refl in Q. discriminate.
Qed.
Lemma gl_mark m : gl (mark_waiting m).
Proof. apply rl_mod. intros s. apply gr_same. destruct (nm_find m (f_waiting s)); reflexivity. Qed.
Lemma gl_satisfy u keys : gl (fsatisfy K u keys).
Proof.
  induction keys as [|k keys IH]; cbn [fsatisfy]; [p_ret|]. p_bind; [|intros _; exact IH].
  unfold fsatisfy_one. p_get. destruct (nm_find k (f_pending s)) as [e|]; [|p_ret]. p_bind; [p_ret|intros d].
  first [p_bind; [apply gl_data|intros _; apply gl_delete]|
         destruct (can_decode d); p_bind; first [apply gl_data|intros _; apply gl_delete|p_ret]].
Qed.
Lemma gl_api a : gl (api_call K a).
Proof.
  destruct a as [p|p|p q]; cbn [api_call]; [apply gl_op|apply gl_op|]. unfold fp_publish_name. p_get.
  destruct (get_seq _ _); [|p_ret]. p_bind; [apply gl_op|intros _]. p_bind; [p_mod|intros _; apply gl_satisfy].
Qed.
Lemma gl_apis l : gl (api_calls K l).
Proof. induction l as [|a l IH]; cbn [api_calls]; [p_ret|]. p_bind; [apply gl_api|intros _; exact IH]. Qed.
Lemma gl_schedule : gl (schedule_waiting K).
Proof. unfold schedule_waiting. p_get. destruct (f_waiting s); [p_ret|]. destruct (f_delay s); [p_ret|]. p_bind; [apply gl_draw|intros j; p_mod]. Qed.
Lemma gl_start m : gl (start_waiting K m).
Proof. unfold start_waiting. p_bind; [p_mod|intros _; apply gl_schedule]. Qed.
Lemma gl_offered neg hs : gl (offered K neg hs).
Proof.
  induction hs as [|h hs IH]; cbn [offered]; [p_ret|]. p_get. destruct (bm_left _ _); [|exact IH]. cbv zeta.
  p_bind; [apply gl_prefix|intros v]. p_bind.
  - destruct (v =? 0); [p_ret|]. unfold is_future. p_bind; [p_ret|intros u]. p_bind; [apply gl_prefix|intros x; p_ret].
  - intros b. p_bind; [exact IH|intros l; p_ret].
Qed.
Lemma gl_interest m l timed : m <> n -> gl (on_finterest K m l timed).
Proof.
  intros Hm. unfold on_finterest. p_get. destruct (reply_from_store m (f_pub s)) as [d|]; [p_emit|].
  cbv zeta. destruct (Nat.eqb _ 4).
  { unfold fp_send_nack. p_get. p_bind; [p_ret|intros dn]. p_bind; [p_mod|intros _; p_emit]. }
  destruct (negb _); [p_ret|]. p_bind; [p_ret|intros c]. p_bind; [p_ret|intros c1]. p_bind; [p_ret|intros rcvd].
  destruct (initialize _ _ _ _) as [t [u|e|u|]]; try p_ret. p_bind; [p_ret|intros d]. destruct (can_decode d).
  - unfold on_decoded. p_get. cbv zeta.
    assert (gl (mlet l0 <- offered K (negative d) (positive d); match l0 with [] => mret tt | _ :: _ => send_sync_data K m l0 (fc_fresh K) ;; mark_waiting m end)) as H.
    { p_bind; [apply gl_offered|intros [|x y]; [p_ret|]]. p_bind; [apply gl_data|intros _; apply gl_mark]. }
    destruct (positive d) as [|h hs]; [|exact H]. destruct (negative d) as [|g gs].
    + p_bind; [|intros _; destruct timed; [apply gl_mark|p_ret]]. apply rl_mod. intros s2 A B.
      cbn [f_pending fset_pending]. unfold add_fpending.
      assert (name_eqb n m = false) as Q by (destruct (name_eqb n m) eqn:Q; auto; apply name_eqb_eq in Q; subst; contradiction).
      destruct (nm_find m (f_pending s2)); (split; [apply nm_set_sorted; exact A|rewrite nm_find_set, Q; exact B]).
    + destruct timed, (nm_find m (f_waiting s0)); try p_ret; [|apply gl_start]. destruct (1 <? _); [apply gl_mark|p_ret].
  - unfold on_undecodable. p_get. cbv zeta. destruct (_ <? rcvd).
    + destruct timed, (nm_find m (f_waiting s0)); try p_ret; [|apply gl_start]. destruct (1 <? _); [|p_ret].
      p_bind; [apply gl_mark|intros _; apply gl_send].
    + destruct (_ && _); [p_ret|]. p_bind; [|intros _; apply gl_mark]. destruct (entire_state _); [p_ret|].
      p_bind; [apply gl_data|intros _; apply gl_delete].
Qed.
Lemma gl_process_all keys : ~ In n keys -> gl (process_all K keys).
Proof.
  induction keys as [|k l IH]; intros H; cbn [process_all]; [p_ret|]. p_bind; [|intros _; apply IH; intros X; apply H; right; exact X].
  unfold process_one. p_get. destruct (nm_find k (f_waiting s)) as [v|]; [|p_ret]. cbv zeta. destruct (v =? MAX_TRIES); [p_mod|].
  p_bind; [p_mod|intros _]. p_bind; [apply gl_interest; intros ->; apply H; left; reflexivity|intros _]. p_get.
  destruct (nm_find k (f_waiting s0)) as [w|]; [|p_ret]. destruct (w =? MAX_TRIES); [p_mod|p_ret].
Qed.
Lemma gl_take names : gl (take_updates names).
Proof.
  induction names as [|c names IH]; cbn [take_updates]; [p_ret|]. p_bind; [p_ret|intros x].
  p_bind; [p_ret|intros v]. cbv zeta. p_get. destruct (match get_seq _ _ with None => true | Some cur => cur <? v end); [|exact IH].
  p_bind; [apply gl_prefix|intros y]. p_bind; [apply gl_op|intros _]. p_bind; [exact IH|intros l; p_ret].
Qed.

(** content for [n] leaves no pending entry for it unless [n] is waiting too *)
Lemma content_drops buf script s : nm_sorted (f_pending s) -> nm_find n (f_waiting s) = None ->
  nm_find n (f_pending (st (on_sync_data K n buf script s))) = None.
Proof.
  intros Sp Hw. unfold on_sync_data, delete_pending. rewrite mbind_mod. set (s1 := fset_pending _ s).
  assert (nm_sorted (f_pending s1) /\ nm_find n (f_pending s1) = None) as [S1 N1].
  { split; [apply nm_erase_sorted; exact Sp|apply nm_find_erase_same; exact Sp]. }
  assert (nm_find n (f_waiting s1) = None) as W1 by exact Hw. clearbody s1. clear Sp Hw.
  destruct (obind _ _) as [names|e|u|]; try exact N1.
  pose proof (gl_take names s1 S1 N1) as [S2 N2]. pose proof (kw_take names s1) as W2. unfold kw in W2. unfold mbind at 1.
  destruct (take_updates names s1) as [[s2 o2] [[|x l]|e|u|]]; cbn [st fst snd] in *; auto.
  unfold mbind at 1, memit at 1. unfold mbind at 1.
  pose proof (gl_apis script s2 S2 N2) as [S3 N3]. pose proof (kw_apis K script s2) as W3. unfold kw in W3.
  destruct (api_calls K script s2) as [[s3 o3] [[]|e|u|]]; cbn [st fst snd] in *; auto.
  unfold draw. rewrite mbind_assoc, mbind_get, mbind_assoc, mbind_mod, mbind_ret, mbind_mod. set (s4 := fset_wait _ _).
  unfold process_waiting. rewrite mbind_get.
  assert (~ In n (nm_keys (f_waiting s4))) as H.
  { change (f_waiting s4) with (f_waiting s3). rewrite W3, W2. rewrite nm_In_keys. intros [v X]. congruence. }
  pose proof (gl_process_all _ H s4 S3 N3) as [_ G]. unfold st in *.
  destruct (process_all K (nm_keys (f_waiting s4)) s4) as [[s5 o5] r5]. exact G.
Qed.
End Gone.
