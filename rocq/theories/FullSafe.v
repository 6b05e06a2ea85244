(** Full-sync nodes: the invariant of all reachable states, and handlers that neither throw nor read
    out of bounds. *)
From Coq Require Import List NArith ZArith Bool Arith Lia.
From Verif Require Import Base BaseFacts Mon MonFacts Iblt SpecIblt IbltFacts Tlv TlvFacts State NMap NMapFacts
  Codec CodecFacts Store StoreFacts Producer SpecProducer ProducerFacts Partial SpecPartial PartialFacts
  PartialSteps Full FullTrace SpecFull FullFacts.
Import ListNotations.
Local Open Scope N_scope.

(** ** Outcomes that are neither an exception nor an access out of bounds *)
Lemma tame_no_throw {A} (r : outcome A) : tame r -> no_throw r.
Proof. intros H e ->. exact H. Qed.
Lemma tame_bind {A B} (m : outcome A) (f : A -> outcome B) :
  tame m -> (forall a, m = Ok a -> tame (f a)) -> tame (obind m f).
Proof. destruct m; simpl; auto. Qed.
Lemma iblt_update_tame t pm k : tame (iblt_update t pm k).
Proof.
  destruct (Nat.eq_dec (Nat.div (length t) 3) 0) as [E|E].
  - rewrite iblt_update_zero by auto. exact I.
  - destruct (iblt_update_outcomes t pm k E) as [[t' ->] | ->]; exact I.
Qed.
Lemma core_forget_tame nm k : tame (core_forget nm k).
Proof.
  unfold core_forget. destruct (bm_right nm (k_bimap k)); [|exact I].
  apply tame_bind; [apply iblt_update_tame|intros; exact I].
Qed.
Lemma cstep_tame k o : tame (cstep k o).
Proof.
  assert (forall p s, tame (core_update p s k)) as U.
  { intros p s. unfold core_update. destruct (nm_find p (k_prefixes k)) as [old|]; [|exact I].
    destruct (s <=? old); [exact I|]. apply tame_bind.
    - destruct (old =? 0); [exact I|apply core_forget_tame].
    - intros k1 _. apply tame_bind; [apply iblt_update_tame|intros; exact I]. }
  destruct o as [p|p|p s|p s]; cbn [cstep].
  - exact I.
  - unfold core_remove. destruct (nm_find p (k_prefixes k)); [apply core_forget_tame|exact I].
  - apply U.
  - unfold omap, core_publish. apply tame_bind; [|intros; exact I].
    destruct (nm_find p (k_prefixes k)); [|exact I]. apply tame_bind; [apply U|intros; exact I].
Qed.
Lemma iblt_sub_tame f l r : tame (iblt_sub f l r).
Proof.
  unfold iblt_sub. apply tame_bind.
  - revert r. induction l as [|a l IH]; intros [|b r]; simpl; try exact I.
    apply tame_bind; [|intros c _; apply tame_bind; auto; intros; exact I].
    unfold cell_sub. apply tame_bind; [|intros; exact I]. unfold sub_i32. destruct (in_i32 _); exact I.
  - intros t _. apply tame_bind; [|intros; exact I].
    assert (forall n j s, tame (peel_pass n j s)) as P.
    { induction n as [|n IH]; intros j s; simpl; [exact I|]. apply tame_bind; auto.
      unfold peel_entry. destruct (nth_error _ j) as [e|]; [|exact I]. destruct (is_pure e); [|exact I].
      apply tame_bind; [apply iblt_update_tame|intros; exact I]. }
    generalize (mkPeel t [] [] 0). induction f as [|f IH]; intros s; simpl; [exact I|].
    apply tame_bind; [apply P|]. intros s' _. destruct (Nat.eqb _ 0); [exact I|apply IH].
Qed.
Lemma publish_tame E now i dn b f p : i <> [] -> tame (snd (publish E now i dn b f p)).
Proof. intros H. simpl. destruct (put_segment_total i (segment E (pb_signed p)
  (append_version dn (en_version E (pb_published p))) b f) H) as [l ->]. exact I. Qed.
Lemma name_get_back_tame n k : (0 < k)%nat -> (k <= length n)%nat -> tame (name_get_back n k).
Proof.
  intros H0 H. unfold name_get_back. apply Nat.leb_le in H as H'. rewrite H'. unfold name_get.
  destruct (nth_error n (length n - k)) eqn:E; [exact I|]. apply nth_error_None in E. lia.
Qed.

(** ** The invariant *)
Record fp_ok (K : fcfg) (s : fp) : Prop := mkFpOk {
  fo_blobs : blobs (f_pub s);
  fo_psorted : nm_sorted (f_pending s);
  fo_pending : forall n e, nm_find n (f_pending s) = Some e -> exists rcvd, names_ibf K n (fe_iblt e) rcvd;
  fo_wsorted : nm_sorted (f_waiting s);
  fo_waiting : forall n v, nm_find n (f_waiting s) = Some v ->
    v <= MAX_TRIES /\ exists t rcvd, names_ibf K n t rcvd;
  fo_live : f_live s = [] \/ exists i, f_fetcher s = Some i /\ f_live s = [(i, f_outstanding s)];
  fo_started : forall i, f_fetcher s = Some i -> (i < f_started s)%nat }.

Lemma names_ibf_fun K n t rcvd t' rcvd' : names_ibf K n t rcvd -> names_ibf K n t' rcvd' -> t = t' /\ rcvd = rcvd'.
Proof.
  intros (_ & c & c1 & A & B & C & D) (_ & c' & c1' & A' & B' & C' & D'). split; congruence.
Qed.
Lemma names_ibf_nonempty K n t rcvd : names_ibf K n t rcvd -> n <> [].
Proof. intros (_ & c & c1 & A & _) ->. discriminate A. Qed.
Lemma without_cons i n l : without i ((i, n) :: l) = without i l.
Proof. unfold without. simpl. rewrite Nat.eqb_refl. reflexivity. Qed.

Lemma add_fpending_sorted n t x q : nm_sorted q -> nm_sorted (add_fpending n t x q).
Proof. intros H. unfold add_fpending. destruct (nm_find n q); apply nm_set_sorted; auto. Qed.
Lemma add_fpending_find n t x q k : nm_find k (add_fpending n t x q) =
  if name_eqb k n then Some (mkFentry (match nm_find n q with Some e => fe_iblt e | None => t end) x)
  else nm_find k q.
Proof. unfold add_fpending. destruct (nm_find n q); rewrite nm_find_set; reflexivity. Qed.

Definition ok_rel (K : fcfg) (s : fp) (_ : list fout) (s' : fp) : Prop := fp_ok K s -> fp_ok K s'.
Lemma ok_rel_trans K s o s1 o1 s2 : ok_rel K s o s1 -> ok_rel K s1 o1 s2 -> ok_rel K s (o ++ o1) s2.
Proof. unfold ok_rel. auto. Qed.
Lemma stopped_live K s : fp_ok K s -> f_live (stopped s) = [].
Proof.
  intros [_ _ _ _ _ H _]. unfold stopped. destruct H as [H|(i & F & H)].
  - destruct (f_fetcher s); simpl; rewrite H; reflexivity.
  - rewrite F. simpl. rewrite H, without_cons. reflexivity.
Qed.
Lemma stopped_ok K s : fp_ok K s -> fp_ok K (stopped s).
Proof.
  intros H. pose proof (stopped_live K s H) as L. destruct H as [B1 B2 B3 B4 B5 B6 B7].
  unfold stopped in *. remember (f_fetcher s) as fe eqn:F. destruct fe as [j|].
  - constructor; auto. simpl. rewrite <- F. exact B7.
  - constructor; auto. rewrite <- F. exact B7.
Qed.
Lemma sent_ok K n s : fp_ok K s -> f_live s = [] -> fp_ok K (sent K n s).
Proof.
  intros [B1 B2 B3 B4 B5 B6 B7] L. constructor; auto.
  - right. exists (f_started s). simpl. rewrite L. auto.
  - simpl. intros i [= <-]. lia.
Qed.
Lemma ok_rel_send K s : ok_rel K s (outs (send_sync_interest K s)) (st (send_sync_interest K s)).
Proof.
  intros H. rewrite send_eq. destruct (f_wait s); [exact H|].
  pose proof (stopped_ok K s H) as S. pose proof (stopped_live K s H) as L.
  destruct (sync_name _ _) as [n|e|u|]; try exact S. destruct (_ && _); [exact S|].
  apply sent_ok; auto.
Qed.
Lemma without_live K s i : fp_ok K s ->
  without i (f_live s) = [] \/ exists j, f_fetcher s = Some j /\ without i (f_live s) = [(j, f_outstanding s)].
Proof.
  intros [B1 B2 B3 B4 B5 B6 B7]. destruct B6 as [->|(j & F & ->)]; [left; reflexivity|].
  unfold without. simpl. destruct (Nat.eqb j i); simpl; [left; reflexivity|right; eauto].
Qed.
Lemma publish_blobs1 E now i dn b f p : blobs p -> blobs (fst (publish E now i dn b f p)).
Proof.
  intros H. destruct (publish E now i dn b f p) as [q r] eqn:P. exact (proj1 (publish_blobs _ _ _ _ _ _ _ _ _ P H)).
Qed.
Lemma ok_rel_closed K ok : closed K ok (ok_rel K).
Proof.
  assert (forall (P : fp -> Prop) s, P s -> P s) as _ by auto.
  split; intros; try (intros [B1 B2 B3 B4 B5 B6 B7]; constructor; auto; fail); try apply ok_rel_send.
  - eapply ok_rel_trans; eauto.
  - intros [B1 B2 B3 B4 B5 B6 B7]; constructor; auto.
    apply publish_blobs1; auto.
  - clear H. apply data_closed; intros; try (intros [B1 B2 B3 B4 B5 B6 B7]; constructor; auto; fail).
    + eapply ok_rel_trans; eauto.
    + intros [B1 B2 B3 B4 B5 B6 B7]; constructor; auto.
      apply publish_blobs1; auto.
    + apply ok_rel_send.
    + intros Hs. pose proof (stopped_live K _ Hs) as L. unfold stopped in L. rewrite H in L.
      destruct Hs as [B1 B2 B3 B4 B5 B6 B7]. constructor; auto.
  - intros [B1 B2 B3 B4 B5 B6 B7]; constructor; auto; simpl.
    + apply nm_erase_sorted; auto.
    + intros k e. rewrite nm_find_erase by auto. destruct (name_eqb k n); [discriminate|apply B3].
  - intros [B1 B2 B3 B4 B5 B6 B7]; constructor; auto; simpl.
    + apply add_fpending_sorted; auto.
    + intros k e. rewrite add_fpending_find. destruct (name_eqb k n) eqn:E; [|apply B3].
      apply name_eqb_eq in E. subst k. intros [= <-]. simpl.
      destruct (nm_find n (f_pending s)) as [e|] eqn:F; [eapply B3; eauto|eauto].
  - apply start_closed; intros; try (intros [B1 B2 B3 B4 B5 B6 B7]; constructor; auto; fail).
    + eapply ok_rel_trans; eauto.
    + intros [B1 B2 B3 B4 B5 B6 B7]; constructor; auto; simpl.
      * apply nm_set_sorted; auto.
      * intros k v. rewrite nm_find_set. destruct (name_eqb k n) eqn:E; [|apply B5].
        apply name_eqb_eq in E. subst k. intros [= <-]. split; [discriminate|eauto].
  - intros [B1 B2 B3 B4 B5 B6 B7]; constructor; auto; simpl.
    + apply nm_set_sorted; auto.
    + intros k v'. rewrite nm_find_set. destruct (name_eqb k n) eqn:E; [|apply B5].
      apply name_eqb_eq in E. subst k. intros [= <-]. split; [lia|]. eapply B5; eauto.
  - intros [B1 B2 B3 B4 B5 B6 B7]; constructor; auto; simpl.
    + apply nm_set_sorted; auto.
    + intros k v'. rewrite nm_find_set. destruct (name_eqb k n) eqn:E; [|apply B5].
      apply name_eqb_eq in E. subst k. intros [= <-]. destruct (B5 _ _ H) as [Hv X]. split; [lia|]. exact X.
  - intros [B1 B2 B3 B4 B5 B6 B7]; constructor; auto; simpl.
    + apply nm_erase_sorted; auto.
    + intros k v'. rewrite nm_find_erase by auto. destruct (name_eqb k n); [discriminate|apply B5].
  - apply arm_closed; intros; try (intros [B1 B2 B3 B4 B5 B6 B7]; constructor; auto; fail).
    eapply ok_rel_trans; eauto.
  - intros [B1 B2 B3 B4 B5 B6 B7]; constructor; auto. apply pub_fire_blobs; auto.
Qed.
Lemma ok_rel_events K : closed_events (ok_rel K).
Proof.
  split; intros; try (intros [B1 B2 B3 B4 B5 B6 B7]; constructor; auto; fail).
  intros Hs. pose proof (without_live K s i Hs). destruct Hs as [B1 B2 B3 B4 B5 B6 B7]; constructor; auto.
Qed.
Lemma blank_ok K sys : fp_ok K (fp_blank K sys).
Proof.
  constructor; simpl; auto; try discriminate; try apply nm_sorted_nil. constructor.
Qed.
Lemma step_ok K e s : fp_ok K s -> fp_ok K (st (fp_step K e s)).
Proof.
  apply (tr_step K (fun _ => True) (ok_rel K) (ok_rel_closed K _)); auto; try (apply Forall_forall; auto).
  - apply ok_rel_events.
  - intros x [B1 B2 B3 B4 B5 B6 B7]; constructor; auto.
  - intros x a b [B1 B2 B3 B4 B5 B6 B7]; constructor; auto.
Qed.
Lemma start_ok K sys evs s o : fp_start K sys evs = Some (s, o) -> fp_ok K s.
Proof.
  intros H. apply start_inv in H as (s0 & o0 & o1 & E & R & ->).
  eapply (run_inv (fp_step K) (fp_ok K)); [| |exact R]; [intros; apply step_ok; auto|].
  pose proof (ok_rel_send K (fp_blank K sys) (blank_ok K sys)) as H. unfold fp_init in E. rewrite E in H.
  exact H.
Qed.
Lemma reaches_ok K sys evs s o : reaches K sys evs s o -> fp_ok K s.
Proof. intros [_ H]. eapply start_ok; eauto. Qed.

(** ** Handlers that neither throw nor read out of bounds *)
Section Tame.
Variable K : fcfg.
Hypothesis Sk : schemes_ok K.
Hypothesis Uk : uri_ok K.
Definition tm {A} (s : fp) (m : FM A) : Prop := tame (res (m s)).
Lemma tm_ret {A} s (a : A) : tm s (mret a). Proof. exact I. Qed.
Lemma tm_emit s o : tm s (memit o). Proof. exact I. Qed.
Lemma tm_mod1 s f : tm s (mmod f). Proof. exact I. Qed.
Lemma tm_bind {A B} s (m : FM A) (f : A -> FM B) :
  tm s m -> (forall s1 o1 a, m s = (s1, o1, Ok a) -> tm s1 (f a)) -> tm s (mbind m f).
Proof.
  unfold tm, mbind, res. intros Hm Hf. destruct (m s) as [[s1 o1] [a|e|u|]]; auto.
  specialize (Hf s1 o1 a eq_refl). destruct (f a s1) as [[s2 o2] r2]. exact Hf.
Qed.
Lemma tm_get {B} s (f : fp -> FM B) : tm s (f s) -> tm s (mbind mget f).
Proof. unfold tm. rewrite mbind_get. auto. Qed.
Lemma tm_mod {B} s g (f : unit -> FM B) : tm (g s) (f tt) -> tm s (mbind (mmod g) f).
Proof. unfold tm. rewrite mbind_mod. auto. Qed.
Lemma tm_lift {A B} s (r : outcome A) (f : A -> FM B) :
  tame r -> (forall a, r = Ok a -> tm s (f a)) -> tm s (mbind (mlift r) f).
Proof. unfold tm. rewrite mbind_lift. destruct r; simpl; auto. Qed.
Lemma tm_seq {A B} s (m : FM A) (m' : FM B) : tm s m -> (forall s1, tm s1 m') -> tm s (m ;; m').
Proof. intros H1 H2. apply tm_bind; auto. Qed.

Lemma tm_op s o : tm s (fp_op o).
Proof.
  unfold fp_op. apply tm_get. apply tm_lift; [apply cstep_tame|]. intros k _. apply tm_mod. apply tm_emit.
Qed.
Lemma tm_prefix_seq s p : tm s (prefix_seq p).
Proof.
  unfold prefix_seq. apply tm_get. destruct (get_seq p (f_core s)); [apply tm_ret|].
  apply tm_seq; [apply tm_op|intros; apply tm_ret].
Qed.
Lemma tm_draw s : tm s (draw K). Proof. exact I. Qed.
Lemma tm_send s : tm s (send_sync_interest K).
Proof.
  unfold tm. rewrite send_eq. destruct (f_wait s); [exact I|].
  destruct (sync_name_total K (f_core s) Sk) as (n & -> & _). destruct (_ && _); exact I.
Qed.
Lemma tm_publish s n b f : n <> [] -> tm s (fp_publish K n n b f).
Proof.
  intros H. unfold tm. rewrite fp_publish_eq. unfold res. cbn [snd].
  pose proof (publish_tame (fc_env K) (f_now s) n n b f (f_pub s) H) as P.
  destruct (snd (publish _ _ _ _ _ _ _)); exact P.
Qed.
Lemma tm_data s n l f : n <> [] -> tm s (send_sync_data K n l f).
Proof.
  intros H. unfold send_sync_data. apply tm_get. cbv zeta.
  apply tm_seq; [destruct (_ && _); [unfold stop_fetcher; apply tm_mod; apply tm_mod1|apply tm_ret]|]. intros s1.
  destruct (scheme_ok_compress (fc_codec K) (fc_cscheme K) (encode_names l) (proj2 Sk)) as [b ->].
  apply tm_lift; [exact I|]. intros b' _. apply tm_seq; [apply tm_publish; auto|]. intros s2.
  destruct (name_eqb _ _); [apply tm_send|apply tm_ret].
Qed.
Definition pending_named (s : fp) : Prop := forall n e, nm_find n (f_pending s) = Some e -> n <> [].
Lemma ok_Q s : fp_ok K s -> pending_named s.
Proof. intros H n e E. destruct (fo_pending K s H n e E) as [rcvd X]. eapply names_ibf_nonempty; eauto. Qed.
Let CO := ok_rel_closed K (fun _ => True).
Lemma tm_fsatisfy u keys : announced (fun _ => True) u -> forall s, fp_ok K s -> tm s (fsatisfy K u keys).
Proof.
  intros Hu. induction keys as [|k keys IH]; intros s H; simpl; [apply tm_ret|].
  assert (tr (ok_rel K) s (fsatisfy_one K u k)) as T.
  { pose proof (tr_fsatisfy K _ (ok_rel K) CO u [k] Hu s) as T. simpl in T.
    unfold tr, mbind, outs, st in *. destruct (fsatisfy_one K u k s) as [[s1 o1] [[]|e|x|]]; exact T. }
  apply tm_bind.
  - unfold fsatisfy_one. apply tm_get. destruct (nm_find k (f_pending s)) as [e|] eqn:E; [|apply tm_ret].
    apply tm_lift; [apply iblt_sub_tame|]. intros d _. apply tm_seq; [|intros; exact I].
    apply tm_data. eapply ok_Q; eauto.
  - intros s1 o1 [] E1. apply IH. specialize (T H). rewrite E1 in T. exact T.
Qed.
Lemma tm_api s a : fp_ok K s -> tm s (api_call K a).
Proof.
  intros H. destruct a as [p|p|p q]; cbn [api_call]; try apply tm_op.
  unfold fp_publish_name. apply tm_get. destruct (get_seq p (f_core s)) as [cur|]; [|apply tm_ret].
  apply tm_bind; [apply tm_op|]. intros s1 o1 [] E. apply tm_mod. apply tm_fsatisfy; [exists p, q, cur; auto|].
  assert (tr (ok_rel K) s (fp_op (CPublish p q) ;; mmod (fset_wait false))) as T.
  { apply (tr_seq K _ (ok_rel K) CO); [apply (tr_op K _ (ok_rel K) CO); exact I|].
    intros x. unfold tr. apply (c_nowait _ _ _ CO). }
  specialize (T H). unfold mbind in T. rewrite E in T. exact T.
Qed.
Lemma tr_tm_bind {A B} s (m : FM A) (f : A -> FM B) : fp_ok K s -> tr (ok_rel K) s m -> tm s m ->
  (forall s1 o1 a, m s = (s1, o1, Ok a) -> fp_ok K s1 -> tm s1 (f a)) -> tm s (mbind m f).
Proof.
  intros H T M F. apply tm_bind; auto. intros s1 o1 a E. eapply F; eauto.
  specialize (T H). rewrite E in T. exact T.
Qed.
Lemma tm_apis l : forall s, fp_ok K s -> tm s (api_calls K l).
Proof.
  induction l as [|a l IH]; intros s H; simpl; [apply tm_ret|].
  apply tr_tm_bind; auto; [apply (tr_api K (fun _ => True) (ok_rel K) CO); exact I|apply tm_api; auto].
Qed.
Lemma tm_schedule s : tm s (schedule_waiting K).
Proof. unfold tm. rewrite schedule_eq. exact I. Qed.
Lemma tm_future s p neg : tm s (is_future K p neg).
Proof.
  unfold is_future. rewrite Uk. apply tm_lift; [exact I|]. intros u _.
  apply tm_bind; [apply tm_prefix_seq|intros; apply tm_ret].
Qed.
Lemma tm_offered neg hs : forall s, tm s (offered K neg hs).
Proof.
  induction hs as [|h hs IH]; intros s; simpl; [apply tm_ret|]. apply tm_get.
  destruct (bm_left h _); auto. apply tm_bind; [apply tm_prefix_seq|]. intros s1 o1 v _.
  apply tm_bind; [destruct (v =? 0); [apply tm_ret|apply tm_future]|]. intros s2 o2 b _.
  apply tm_bind; auto. intros. apply tm_ret.
Qed.
Lemma tm_start s n : tm s (start_waiting K n).
Proof. apply tm_mod. apply tm_schedule. Qed.
Lemma tm_undecodable s n timed rcvd d : n <> [] -> tm s (on_undecodable K n timed rcvd d).
Proof.
  intros Hn. unfold on_undecodable. apply tm_get. destruct (_ <? rcvd).
  - destruct timed, (nm_find n (f_waiting s)) as [tries|]; try apply tm_ret; [|apply tm_start].
    destruct (1 <? tries); [|apply tm_ret]. apply tm_mod. apply tm_send.
  - destruct (_ && _); [apply tm_ret|]. apply tm_seq; [|intros; exact I].
    destruct (entire_state (f_core s)); [apply tm_ret|].
    apply tm_seq; [apply tm_data; auto|intros; exact I].
Qed.
Lemma tm_decoded s n l timed t d : n <> [] -> tm s (on_decoded K n l timed t d).
Proof.
  intros Hn. unfold on_decoded. apply tm_get.
  assert (forall x, tm x (mlet l0 <- offered K (negative d) (positive d);
    match l0 with [] => mret tt | _ :: _ => send_sync_data K n l0 (fc_fresh K) ;; mark_waiting n end)) as H.
  { intros x. apply tm_bind; [apply tm_offered|]. intros s1 o1 [|a l0] _; [apply tm_ret|].
    apply tm_seq; [apply tm_data; auto|intros; exact I]. }
  destruct (positive d) as [|h hs]; [|destruct (negative d); apply H].
  destruct (negative d) as [|g gs].
  - apply tm_mod. destruct timed; exact I.
  - destruct timed, (nm_find n (f_waiting s)) as [tries|]; try apply tm_ret; [|apply tm_start].
    destruct (1 <? tries); exact I.
Qed.
Lemma tm_finterest s n l timed :
  (length (skipn (length (fc_sync K)) n) = 2%nat -> forall c, name_get_back n 1 = Ok c -> exists v, to_number c = Ok v) ->
  tm s (on_finterest K n l timed).
Proof.
  intros Hn. unfold on_finterest. apply tm_get. destruct (reply_from_store n (f_pub s)) as [d|]; [apply tm_emit|].
  cbv zeta. destruct (Nat.eqb _ 4).
  { unfold fp_send_nack. apply tm_get. 
    destruct (scheme_ok_append (fc_codec K) (fc_scheme K) (fc_sync K) (k_iblt (f_core s)) (proj1 Sk)) as (c & _ & ->).
    apply tm_lift; [exact I|]. intros; apply tm_mod. apply tm_emit. }
  destruct (Nat.eqb_spec (length (skipn (length (fc_sync K)) n)) 2) as [E|E]; cbn [negb]; [|apply tm_ret].
  specialize (Hn E). assert (2 <= length n)%nat as L by (rewrite skipn_length in E; lia).
  apply tm_lift; [apply name_get_back_tame; lia|]. intros c _.
  apply tm_lift; [apply name_get_back_tame; lia|]. intros c1 H1.
  destruct (Hn c1 H1) as [v Hv]. rewrite Hv. apply tm_lift; [exact I|]. intros v' _.
  assert (n <> []) as N0 by (intros ->; simpl in L; lia).
  destruct (initialize _ _ _ _) as [t r] eqn:Ei.
  destruct (initialize_no_UB _ _ _ _ _ _ Ei) as [-> |[e ->]]; [|apply tm_ret].
  apply tm_lift; [apply iblt_sub_tame|]. intros d _.
  destruct (can_decode d); [apply tm_decoded; auto|apply tm_undecodable; auto].
Qed.
Lemma names_ibf_number n t rcvd : names_ibf K n t rcvd ->
  forall c, name_get_back n 1 = Ok c -> exists v, to_number c = Ok v.
Proof. intros (_ & c & c1 & _ & H & E & _) c' H'. rewrite H in H'. injection H' as <-. eauto. Qed.
Lemma tm_process_one s n : fp_ok K s -> tm s (process_one K n).
Proof.
  intros H. unfold process_one. apply tm_get. destruct (nm_find n (f_waiting s)) as [tries|] eqn:E; [|apply tm_ret].
  cbv zeta. destruct (tries =? MAX_TRIES); [exact I|]. apply tm_mod. apply tm_seq.
  - apply tm_finterest. intros _. destruct (fo_waiting K s H n tries E) as (_ & t & rcvd & X).
    eapply names_ibf_number; eauto.
  - intros s1. apply tm_get. destruct (nm_find n (f_waiting s1)) as [v|]; [|apply tm_ret].
    destruct (v =? MAX_TRIES); exact I.
Qed.
Lemma tm_process_all keys : forall s, fp_ok K s -> tm s (process_all K keys).
Proof.
  induction keys as [|k keys IH]; intros s H; simpl; [apply tm_ret|].
  apply tr_tm_bind; auto; [apply (tr_process_one K (fun _ => True) (ok_rel K) CO); intros; exact I
    |apply tm_process_one; auto].
Qed.
Lemma tm_process s : fp_ok K s -> tm s (process_waiting K).
Proof. intros H. unfold process_waiting. apply tm_get. apply tm_process_all; auto. Qed.

Lemma tm_take names : Forall good_name names -> forall s, tm s (take_updates names).
Proof.
  induction 1 as [|c names (p & v & -> & x & Hx) Hf IH]; intros s; simpl; [apply tm_ret|].
  rewrite name_get_minus_last. apply tm_lift; [exact I|]. intros v' [= <-]. rewrite Hx.
  apply tm_lift; [exact I|]. intros x' _. apply tm_get.
  destruct (match get_seq _ _ with None => true | Some cur => cur <? x' end); auto.
  apply tm_bind; [apply tm_prefix_seq|]. intros s1 o1 cur _. apply tm_seq; [apply tm_op|].
  intros s2. apply tm_bind; auto. intros; apply tm_ret.
Qed.
Lemma state_of_buffer_cases b : (exists l, state_of_buffer b = Ok l) \/ exists e, state_of_buffer b = Throw e.
Proof.
  unfold state_of_buffer. destruct (read_block b) as [[t v]|]; [|eauto].
  unfold wire_decode. destruct (t =? TYPE_PSYNC_CONTENT); [|simpl; eauto].
  destruct (parse_elems v) as [l|]; [|simpl; eauto].
  destruct (decode_elems l) as [ns o] eqn:E.
  assert (o = Ok tt \/ exists e, o = Throw e) as [-> |[e ->]]; [|simpl; eauto|simpl; eauto].
  revert ns o E. induction l as [|[t' v'] l IH]; simpl; intros ns o.
  - intros [= <- <-]. auto.
  - destruct (t' =? TYPE_NAME); [|intros [= <- <-]; eauto].
    destruct (name_of_value v'); [|intros [= <- <-]; eauto].
    destruct (decode_elems l) as [ns' o'] eqn:E. intros [= <- <-]. eauto.
Qed.
Lemma content_cases C sch b : (exists l, obind (decompress C sch b) state_of_buffer = Ok l) \/
  exists e, obind (decompress C sch b) state_of_buffer = Throw e.
Proof.
  destruct (decompress_outcomes C sch b) as [[x ->]|[->| ->]]; simpl; eauto using state_of_buffer_cases.
Qed.
Lemma tm_on_data s n buf script : fp_ok K s ->
  (forall l, obind (decompress (fc_codec K) (fc_cscheme K) buf) state_of_buffer = Ok l -> Forall good_name l) ->
  tm s (on_sync_data K n buf script).
Proof.
  intros H Hb. unfold on_sync_data, delete_pending.
  apply tr_tm_bind; auto; [unfold tr; apply (c_erase _ _ _ CO)|exact I|]. intros s1 o1 [] _ H1.
  destruct (content_cases (fc_codec K) (fc_cscheme K) buf) as [[l E]|[e E]]; rewrite E; [|apply tm_ret].
  apply tr_tm_bind; auto; [apply (tr_take K (fun _ => True) (ok_rel K) CO); intros; exact I|apply tm_take; auto|].
  intros s2 o2 [|m ms] _ H2.
  - apply tm_mod. apply tm_bind; intros; exact I.
  - apply tr_tm_bind; auto; [intros Hx; exact Hx|exact I|]. intros s3 o3 [] _ H3.
    apply tr_tm_bind; auto; [apply (tr_apis K (fun _ => True) (ok_rel K) CO); apply Forall_forall; intros; exact I
      |apply tm_apis; auto|]. intros s4 o4 [] _ H4.
    apply tr_tm_bind; auto; [apply (tr_draw K (fun _ => True) (ok_rel K) CO)|exact I|]. intros s5 o5 j _ H5.
    apply tm_mod. apply tm_process.
    destruct H5 as [B1 B2 B3 B4 B5 B6 B7]. constructor; auto.
Qed.

(** what an event must satisfy for its handler to end well *)
Definition ev_tame (e : fev) : Prop :=
  match e with
  | FeInterest n _ => forall c c1, n = fc_sync K ++ [c; c1] -> exists v, to_number c1 = Ok v
  | FeContent _ buf _ =>
    forall l, obind (decompress (fc_codec K) (fc_cscheme K) buf) state_of_buffer = Ok l -> Forall good_name l
  | _ => True
  end.
Lemma split_two (a n : name) : is_prefix a n = true -> length (skipn (length a) n) = 2%nat ->
  exists c c1, n = a ++ [c; c1].
Proof.
  intros H L. apply is_prefix_iff in H as (r & ->). rewrite skipn_app_len in L.
  destruct r as [|x [|y [|]]]; try discriminate. eauto.
Qed.
Theorem step_tame s e : fp_ok K s -> ev_tame e -> tm s (fp_step K e).
Proof.
  intros H He. destruct e as [a|n l|i buf script|i face|i timeout|dt|t| | |key|i]; cbn [fp_step ev_tame] in *.
  - apply tm_api; auto.
  - destruct (is_prefix _ _) eqn:P; [|apply tm_ret]. apply tm_finterest. intros L c Hc.
    destruct (split_two _ _ P L) as (x & y & E). subst n. destruct (He x y eq_refl) as [v Hv].
    rewrite (name_get_back_app (fc_sync K) [x; y] 1) in Hc by (simpl; lia).
    unfold name_get_back, name_get in Hc. simpl in Hc. injection Hc as <-. eauto.
  - apply tm_get. destruct (fetch_of i (f_live s)) as [n|] eqn:E; [|apply tm_ret].
    apply tm_mod. apply tm_on_data; auto. apply (e_finished _ (ok_rel_events K) s i n E). exact H.
  - apply tm_get. destruct (fetch_of i (f_live s)) as [n|] eqn:E; exact I.
  - apply tm_get. destruct (fetch_of i (f_live s)) as [n|] eqn:E; [|exact I].
    apply tm_mod. destruct timeout; [exact I|]. apply tm_bind; intros; exact I.
  - exact I.
  - exact I.
  - apply tm_get. destruct (f_sched s) as [[dl k]|]; [|exact I]. destruct (dl <=? _); [|exact I].
    apply tm_mod. destruct k; [apply tm_send|]. apply tm_mod. apply tm_send.
  - apply tm_get. destruct (f_delay s) as [dl|]; [|exact I]. destruct (dl <=? _); [|exact I].
    apply tm_mod. apply tm_seq; [apply tm_process|intros; apply tm_schedule].
    destruct H as [B1 B2 B3 B4 B5 B6 B7]. constructor; auto.
  - exact I.
  - exact I.
Qed.
End Tame.
