(** Counting the data packets a full-sync node sends. *)
From Coq Require Import List NArith ZArith Bool Arith Lia Sorted.
From Verif Require Import Base Mon MonFacts Iblt BaseFacts Tlv State NMap TlvFacts NMapFacts Codec CodecFacts
  Store StoreFacts Producer SpecProducer ProducerFacts Partial SpecPartial
  Full FullTrace SpecFull FullFacts FullSafe FullSteps FullData FullTimers FullWaiting FullPending FlowFacts.
Import ListNotations.
Local Open Scope nat_scope.

(** ** What does not touch the two lists and the store, and sends no data *)
Definition same3 (s : fp) (o : list fout) (s' : fp) : Prop :=
  f_pending s' = f_pending s /\ f_waiting s' = f_waiting s /\ f_pub s' = f_pub s /\ data_of o = [].
Lemma same3_refl s : same3 s [] s. Proof. repeat split. Qed.
Lemma same3_trans s o s1 o1 s2 : same3 s o s1 -> same3 s1 o1 s2 -> same3 s (o ++ o1) s2.
Proof. intros (A & B & C & D) (A1 & B1 & C1 & D1). split; [congruence|]. split; [congruence|]. split; [congruence|]. rewrite data_of_app, D, D1. reflexivity. Qed.
Definition sl {A} (m : FM A) : Prop := rl same3 m.
Ltac s_mod := apply rl_mod; intros; repeat split; reflexivity.
Ltac s_emit := apply rl_emit; intros; repeat split; reflexivity.
Ltac s_bind := apply (rl_bind same3 same3_trans).
Ltac s_ret := first [apply (rl_ret same3 same3_refl)|apply (rl_lift same3 same3_refl)].
Ltac s_get := apply rl_get; intros.
Lemma sl_op o : sl (fp_op o).
Proof. unfold fp_op. s_get. s_bind; [s_ret|intros k]. s_bind; [s_mod|intros _; s_emit]. Qed.
Lemma sl_prefix p : sl (prefix_seq p).
Proof. unfold prefix_seq. s_get. destruct (get_seq _ _); [s_ret|]. s_bind; [apply sl_op|intros _; s_ret]. Qed.
Lemma sl_draw K : sl (draw K).
Proof. unfold draw. s_get. s_bind; [s_mod|intros _; s_ret]. Qed.
Lemma sl_send K : schemes_ok K -> sl (send_sync_interest K).
Proof. intros Sk s. destruct (send_spec K s Sk) as (s' & o & -> & F & P & O). cbn. repeat split; try apply F; auto. apply only_interests_data. exact O. Qed.
Lemma sl_schedule K : sl (schedule_waiting K).
Proof. unfold schedule_waiting. s_get. destruct (f_waiting s); [s_ret|]. destruct (f_delay s); [s_ret|]. s_bind; [apply sl_draw|intros j; s_mod]. Qed.
Lemma sl_offered K neg hs : sl (offered K neg hs).
Proof.
  induction hs as [|h hs IH]; cbn [offered]; [s_ret|]. s_get. destruct (bm_left _ _); [|exact IH]. cbv zeta.
  s_bind; [apply sl_prefix|intros v]. s_bind.
  - destruct (N.eqb v 0); [s_ret|]. unfold is_future. s_bind; [s_ret|intros u]. s_bind; [apply sl_prefix|intros x; s_ret].
  - intros b. s_bind; [exact IH|intros l; s_ret].
Qed.
Lemma sl_take names : sl (take_updates names).
Proof.
  induction names as [|c names IH]; cbn [take_updates]; [s_ret|]. s_bind; [s_ret|intros x].
  s_bind; [s_ret|intros v]. cbv zeta. s_get. destruct (match get_seq _ _ with None => true | Some cur => N.ltb cur v end); [|exact IH].
  s_bind; [apply sl_prefix|intros y]. s_bind; [apply sl_op|intros _]. s_bind; [exact IH|intros l; s_ret].
Qed.

(** ** The invariant: an interest that waits and is not marked has no reply in the store *)
Section Flow.
Variable K : fcfg.
Hypothesis Sk : schemes_ok K.
Definition full_len : nat := length (fc_sync K) + 2.
Record fJ (s : fp) : Prop := mkFJ {
  j_ps : nm_sorted (f_pending s); j_ws : nm_sorted (f_waiting s);
  j_p : forall (n : name) e, nm_find n (f_pending s) = Some e -> length n = full_len;
  j_w : forall (n : name) v, nm_find n (f_waiting s) = Some v -> length n = full_len;
  j_r : forall n v, nm_find n (f_waiting s) = Some v -> v = MAX_TRIES \/ reply_from_store n (f_pub s) = None }.
Definition size (s : fp) : nat := length (f_pending s) + length (f_waiting s).
Definition cnt (o : list fout) : nat := length (data_of o).
Lemma fJ_same s s' : f_pending s' = f_pending s -> f_waiting s' = f_waiting s -> f_pub s' = f_pub s -> fJ s -> fJ s'.
Proof. intros A B C [X1 X2 X3 X4 X5]. constructor; rewrite ?A, ?B, ?C; auto. Qed.
Lemma full_len_pos (n : name) : length n = full_len -> n <> [].
Proof. unfold full_len. intros H ->. cbn in H. lia. Qed.
Lemma is_prefix_same_len (a b c : name) : length a = length b -> is_prefix a (b ++ c) = true -> a = b.
Proof.
  intros L H. apply is_prefix_iff in H as (r & H). revert b L H. induction a as [|x a IH]; intros [|y b] L H; try discriminate; auto.
  cbn in *. injection H as -> H. f_equal. apply IH; auto.
Qed.
Lemma publish_keeps now n b f p q l m : publish (fc_env K) now n n b f p = (q, Ok l) ->
  length m = length n -> m <> n -> reply_from_store m p = None -> reply_from_store m q = None.
Proof.
  unfold publish, reply_from_store. intros [= <- _] L N H. rewrite insert_segments_eq. cbn [pb_store].
  rewrite store_find_None in *. intros e He. apply fold_insert_In in He as [He|He]; [apply H; exact He|].
  apply segment_In in He. destruct (is_prefix m (full_name e)) eqn:Q; auto. exfalso. apply N.
  destruct He as (i & Hi & ->). unfold seg_data, full_name, append_segment, append_version in Q. cbn [d_name] in Q.
  rewrite <- !app_assoc in Q. eapply is_prefix_same_len; eauto.
Qed.
(** sync data for [n], after which [n] is not waiting any more or marked *)
Definition safe_for (n : name) (s : fp) : Prop := forall v, nm_find n (f_waiting s) = Some v -> v = MAX_TRIES.
Lemma data_flow n l f s : length n = full_len -> exists s' o,
  send_sync_data K n l f s = (s', o, Ok tt) /\ f_pending s' = f_pending s /\ f_waiting s' = f_waiting s /\ cnt o <= 1 /\
  (forall m, length m = full_len -> m <> n -> reply_from_store m (f_pub s) = None -> reply_from_store m (f_pub s') = None).
Proof.
  intros L. destruct (data_spec K n l f s Sk (full_len_pos n L)) as (ds & s' & o & E & (buf & _ & P) & F & O).
  exists s', (map FoData ds ++ o). split; [exact E|]. split; [apply F|]. split; [apply F|]. split.
  - unfold cnt. rewrite data_of_app, data_of_data, (only_interests_data o O), app_nil_r. eapply publish_one; eauto.
  - intros m Lm Nm. eapply publish_keeps; eauto. congruence.
Qed.
Lemma fJ_data n s s' : fJ s -> f_pending s' = f_pending s -> f_waiting s' = f_waiting s -> safe_for n s ->
  (forall m, length m = full_len -> m <> n -> reply_from_store m (f_pub s) = None -> reply_from_store m (f_pub s') = None) -> fJ s'.
Proof.
  intros [A B C D E] P W Sf H. constructor; rewrite ?P, ?W; auto. intros m v Hm. destruct (E m v Hm) as [X|X]; auto.
  destruct (name_eqb m n) eqn:Q; [apply name_eqb_eq in Q; subst; left; apply Sf; exact Hm|].
  right. apply H; eauto. intros ->. rewrite name_eqb_refl in Q. discriminate.
Qed.
(** ... and marked afterwards *)
Lemma fJ_mark n s0 s : (forall m v, nm_find m (f_waiting s) = Some v -> m <> n -> v = MAX_TRIES \/ reply_from_store m (f_pub s) = None) ->
  nm_sorted (f_pending s) -> nm_sorted (f_waiting s) -> (forall n e, nm_find n (f_pending s) = Some e -> length n = full_len) ->
  (forall n v, nm_find n (f_waiting s) = Some v -> length n = full_len) -> s0 = marked n s -> fJ s0.
Proof.
  intros H P W LP LW ->. unfold marked. destruct (nm_find n (f_waiting s)) as [w|] eqn:F.
  - constructor; cbn [f_pending f_waiting f_pub fset_waiting]; auto.
    + apply nm_set_sorted. exact W.
    + intros m v. rewrite nm_find_set. destruct (name_eqb m n) eqn:Q; [apply name_eqb_eq in Q; subst; eauto|]. apply LW.
    + intros m v. rewrite nm_find_set. destruct (name_eqb m n) eqn:Q; [intros [= <-]; auto|]. intros X. apply (H m v X).
      intros ->. rewrite name_eqb_refl in Q. discriminate.
  - constructor; auto. intros m v X. apply (H m v X). intros ->. congruence.
Qed.
Lemma marked_size n s : nm_sorted (f_waiting s) -> length (f_waiting (marked n s)) = length (f_waiting s).
Proof. intros W. unfold marked. destruct (nm_find n (f_waiting s)) as [w|] eqn:F; auto. cbn. apply nm_set_length_found; auto. congruence. Qed.
Lemma marked_pending n s : f_pending (marked n s) = f_pending s.
Proof. unfold marked. destruct (nm_find n (f_waiting s)); reflexivity. Qed.
Lemma marked_pub n s : f_pub (marked n s) = f_pub s.
Proof. unfold marked. destruct (nm_find n (f_waiting s)); reflexivity. Qed.
Lemma fJ_marked n s : fJ s -> fJ (marked n s).
Proof. intros [A B C D E]. eapply fJ_mark; eauto. Qed.
Lemma marked_max n s v : nm_find n (f_waiting s) = Some v -> nm_find n (f_waiting (marked n s)) = Some MAX_TRIES.
Proof. apply marked_find. Qed.

(** ** One interest that the store does not answer *)
Definition looked (n : name) (timed : bool) (s : fp) (o : list fout) (s' : fp) : Prop :=
  fJ s' /\ cnt o + size s' <= size s + 1 /\
  (timed = true -> length (f_waiting s') = length (f_waiting s) /\
     (cnt o + length (f_pending s') <= length (f_pending s) \/
      (cnt o + length (f_pending s') <= length (f_pending s) + 1 /\ (nm_find n (f_waiting s) = None \/ nm_find n (f_waiting s') = Some MAX_TRIES)))).
Lemma looked_same n timed s o s' : fJ s -> same3 s o s' -> looked n timed s o s'.
Proof.
  intros J (A & B & C & D). split; [eapply fJ_same; eauto|]. unfold cnt, size. rewrite A, B, D. cbn. split; [lia|]. intros _. split; [auto|left; lia].
Qed.
Lemma looked_marked n timed s s' : fJ s -> s' = marked n s -> looked n timed s [] s'.
Proof.
  intros J ->. split; [apply fJ_marked; exact J|]. unfold size, cnt. rewrite marked_pending, marked_size by apply J. cbn.
  split; [lia|]. intros _. split; [auto|left; lia].
Qed.
Lemma looked_data n timed l f s s0 o : fJ s -> length n = full_len -> same3 s o s0 ->
  looked n timed s (o ++ outs ((send_sync_data K n l f ;; mark_waiting n) s0)) (st ((send_sync_data K n l f ;; mark_waiting n) s0)).
Proof.
  intros J L (A & B & C & D). destruct (data_flow n l f s0 L) as (s1 & o1 & E & P1 & W1 & C1 & R1).
  unfold mbind. rewrite E, mark_eq. cbn [st outs fst snd]. rewrite app_nil_r.
  assert (nm_sorted (f_waiting s1)) as Ws by (rewrite W1, B; apply J).
  split; [|split].
  - eapply (fJ_mark n _ s1); eauto.
    + intros m v Hm Nm. rewrite W1, B in Hm. destruct (j_r _ J m v Hm) as [X|X]; auto. right. apply R1; auto; [eapply j_w; eauto|]. rewrite C. exact X.
    + rewrite P1, A. apply J.
    + intros m e. rewrite P1, A. apply J.
    + intros m v. rewrite W1, B. apply J.
  - unfold size, cnt in *. rewrite data_of_app, D, marked_pending, marked_size, P1, W1, A, B by auto. cbn. lia.
  - intros _. rewrite marked_size, W1, B by auto. split; [reflexivity|]. right. unfold cnt in *.
    rewrite data_of_app, D, marked_pending, P1, A. cbn. split; [lia|].
    destruct (nm_find n (f_waiting s)) as [v|] eqn:F; [right|left; reflexivity]. apply (marked_max n s1 v). rewrite W1, B. exact F.
Qed.
Lemma fJ_start n s : fJ s -> length n = full_len -> nm_find n (f_waiting s) = None -> reply_from_store n (f_pub s) = None ->
  fJ (fset_waiting (nm_set n 0%N (f_waiting s)) s).
Proof.
  intros [A B C D E] L F R. constructor; cbn; auto.
  - apply nm_set_sorted. exact B.
  - intros m v. rewrite nm_find_set. destruct (name_eqb m n) eqn:Q; [apply name_eqb_eq in Q; subst; auto|]. apply D.
  - intros m v. rewrite nm_find_set. destruct (name_eqb m n) eqn:Q; [apply name_eqb_eq in Q; subst; auto|]. apply E.
Qed.
Lemma looked_start n s : fJ s -> length n = full_len -> nm_find n (f_waiting s) = None -> reply_from_store n (f_pub s) = None ->
  looked n false s (outs (start_waiting K n s)) (st (start_waiting K n s)).
Proof.
  intros J L F R. unfold start_waiting. rewrite mbind_mod. pose proof (fJ_start n s J L F R) as J1.
  set (s1 := fset_waiting _ s) in *. destruct (sl_schedule K s1) as (A & B & C & D).
  split; [eapply fJ_same; eauto|]. split; [|discriminate]. unfold size, cnt. rewrite A, B, D. cbn.
  pose proof (nm_set_length_le n 0%N (f_waiting s)). lia.
Qed.
Lemma looked_decoded n l timed t d s : fJ s -> length n = full_len -> reply_from_store n (f_pub s) = None ->
  looked n timed s (outs (on_decoded K n l timed t d s)) (st (on_decoded K n l timed t d s)).
Proof.
  intros J L R. unfold on_decoded. rewrite mbind_get. cbv zeta.
  assert (looked n timed s (outs ((mlet l0 <- offered K (negative d) (positive d); match l0 with [] => mret tt | _ :: _ => send_sync_data K n l0 (fc_fresh K) ;; mark_waiting n end) s))
    (st ((mlet l0 <- offered K (negative d) (positive d); match l0 with [] => mret tt | _ :: _ => send_sync_data K n l0 (fc_fresh K) ;; mark_waiting n end) s))) as H.
  { pose proof (sl_offered K (negative d) (positive d) s) as O. unfold mbind at 1 3.
    destruct (offered K (negative d) (positive d) s) as [[s0 o0] [[|y ys]|e|u|]]; cbn [st outs fst snd] in O;
      try (apply looked_same; [exact J|exact O]).
    - cbn [mret st outs fst snd]. rewrite app_nil_r. apply looked_same; auto.
    - pose proof (looked_data n timed (y :: ys) (fc_fresh K) s s0 o0 J L O) as X.
      destruct ((send_sync_data K n (y :: ys) (fc_fresh K) ;; mark_waiting n) s0) as [[s2 o2] r2]. exact X. }
  destruct (positive d) as [|h hs]; [|exact H]. destruct (negative d) as [|g gs].
  - rewrite mbind_mod. set (s1 := fset_pending _ s).
    assert (fJ s1) as J1.
    { destruct J as [A B C D E]. constructor; cbn; auto.
      - apply add_fpending_sorted. exact A.
      - intros m e. rewrite add_fpending_find. destruct (name_eqb m n) eqn:Q; [apply name_eqb_eq in Q; subst; auto|]. apply C. }
    assert (length (f_pending s1) <= length (f_pending s) + 1) as Lp.
    { cbn. unfold add_fpending. destruct (nm_find n (f_pending s)); match goal with |- length (nm_set ?k ?v ?m) <= _ => pose proof (nm_set_length_le k v m) end; lia. }
    destruct timed.
    + rewrite mark_eq. cbn [st outs fst snd]. split; [apply fJ_marked; exact J1|].
      unfold size, cnt. rewrite marked_pending, marked_size by apply J1. cbn [data_of length]. change (f_waiting s1) with (f_waiting s). split; [lia|].
      intros _. split; [reflexivity|]. right. split; [lia|].
      destruct (nm_find n (f_waiting s)) as [v|] eqn:F; [right|left; reflexivity]. apply (marked_max n s1 v). exact F.
    + cbn [mret st outs fst snd]. split; [exact J1|]. unfold size, cnt. change (f_waiting s1) with (f_waiting s). cbn [data_of length]. split; [lia|discriminate].
  - destruct timed, (nm_find n (f_waiting s)) as [v|] eqn:F; try (apply looked_same; [exact J|apply same3_refl]).
    + destruct (N.ltb 1 v); [|apply looked_same; [exact J|apply same3_refl]]. rewrite mark_eq. apply looked_marked; auto.
    + apply looked_start; auto.
Qed.
Lemma looked_undecodable n timed rcvd d s : fJ s -> length n = full_len -> reply_from_store n (f_pub s) = None ->
  looked n timed s (outs (on_undecodable K n timed rcvd d s)) (st (on_undecodable K n timed rcvd d s)).
Proof.
  intros J L R. unfold on_undecodable. rewrite mbind_get. cbv zeta. destruct (N.ltb _ rcvd).
  - destruct timed, (nm_find n (f_waiting s)) as [v|] eqn:F; try (apply looked_same; [exact J|apply same3_refl]).
    + destruct (N.ltb 1 v); [|apply looked_same; [exact J|apply same3_refl]].
      unfold mbind. rewrite mark_eq. destruct (send_spec K (marked n s) Sk) as (s2 & o2 & -> & Fr & P & O).
      cbn [app st outs fst snd]. split; [|unfold size, cnt; rewrite (only_interests_data o2 O)].
      * eapply fJ_same; [apply Fr|apply Fr|exact P|]. apply fJ_marked. exact J.
      * rewrite (fr_pending _ _ Fr), (fr_waiting _ _ Fr), marked_pending, marked_size by apply J. cbn. split; [lia|]. intros _. split; [auto|left; lia].
    + apply looked_start; auto.
  - destruct (_ && _ && _); [apply looked_same; [exact J|apply same3_refl]|].
    destruct (entire_state _) as [|y ys].
    + rewrite mbind_ret, mark_eq. apply looked_marked; auto.
    + destruct (data_flow n (y :: ys) FULL_STATE_FRESH s L) as (s1 & o1 & E & P1 & W1 & C1 & R1).
      unfold mbind. rewrite E. unfold delete_pending, mmod. rewrite mark_eq. cbn [st outs fst snd]. rewrite !app_nil_r.
      set (s2 := fset_pending _ s1). assert (nm_sorted (f_waiting s2)) as Ws by (cbn; rewrite W1; apply J).
      assert (length (f_pending s2) <= length (f_pending s)) as Lp by (cbn; rewrite P1; apply nm_erase_length_le).
      split; [|split].
      * eapply (fJ_mark n _ s2); eauto.
        -- intros m v Hm Nm. cbn in Hm. rewrite W1 in Hm. destruct (j_r _ J m v Hm) as [X|X]; auto. right. apply R1; auto. eapply j_w; eauto.
        -- cbn. rewrite P1. apply nm_erase_sorted. apply J.
        -- intros m e. cbn. rewrite P1. intros X. destruct (name_eqb m n) eqn:Q; [apply name_eqb_eq in Q; subst; auto|].
           rewrite nm_find_erase_other in X; [eapply j_p; eauto|]. intros ->. rewrite name_eqb_refl in Q. discriminate.
        -- intros m v. cbn. rewrite W1. apply J.
      * unfold size, cnt in *. rewrite marked_pending, marked_size by auto. change (f_waiting s2) with (f_waiting s1). rewrite W1. lia.
      * intros _. rewrite marked_size by auto. change (f_waiting s2) with (f_waiting s1). rewrite W1. split; [reflexivity|]. right. unfold cnt in *.
        rewrite marked_pending. split; [lia|].
        destruct (nm_find n (f_waiting s)) as [v|] eqn:F; [right|left; reflexivity]. apply (marked_max n s2 v). cbn. rewrite W1. exact F.
Qed.
Lemma rest_len (n : name) : length (skipn (length (fc_sync K)) n) = 2 -> length n = full_len.
Proof. rewrite skipn_length. unfold full_len. lia. Qed.
Lemma looked_interest n l timed s : fJ s -> (timed = true -> length n = full_len) -> (timed = true -> reply_from_store n (f_pub s) = None) ->
  looked n timed s (outs (on_finterest K n l timed s)) (st (on_finterest K n l timed s)).
Proof.
  intros J Lt Rt. unfold on_finterest. rewrite mbind_get. destruct (reply_from_store n (f_pub s)) as [d|] eqn:R.
  { destruct timed; [specialize (Rt eq_refl); discriminate|]. cbn. split; [exact J|]. unfold size, cnt. cbn. split; [lia|discriminate]. }
  cbv zeta. destruct (Nat.eqb_spec (length (skipn (length (fc_sync K)) n)) 4) as [E4|E4].
  { destruct timed; [specialize (Lt eq_refl); rewrite skipn_length in E4; unfold full_len in Lt; lia|].
    unfold fp_send_nack. rewrite mbind_get, mbind_lift. destruct (append_ibf _ _ _ _); try (apply looked_same; [exact J|apply same3_refl]).
    rewrite mbind_mod. cbn. split; [|unfold size, cnt; cbn; split; [lia|discriminate]].
    destruct J as [A B C D E]. constructor; auto. }
  destruct (Nat.eqb_spec (length (skipn (length (fc_sync K)) n)) 2) as [E2|E2]; cbn [negb]; [|apply looked_same; [exact J|apply same3_refl]].
  pose proof (rest_len n E2) as L.
  do 3 (rewrite mbind_lift; match goal with |- context[match ?x with Ok _ => _ | Throw _ => _ | UB _ => _ | Hang => _ end] => destruct x; try (apply looked_same; [exact J|apply same3_refl]) end).
  destruct (initialize _ _ _ _) as [t [u|e|u|]]; try (apply looked_same; [exact J|apply same3_refl]).
  rewrite mbind_lift. destruct (iblt_sub _ _ _) as [d|e|u'|]; try (apply looked_same; [exact J|apply same3_refl]).
  destruct (can_decode d); [apply looked_decoded; auto|apply looked_undecodable; auto].
Qed.

(** ** The waiting list *)
Definition spent (c : nat) (s : fp) (o : list fout) (s' : fp) : Prop := fJ s' /\ cnt o + size s' <= size s + c.
Lemma spent_trans a b s o s1 o1 s2 : spent a s o s1 -> spent b s1 o1 s2 -> spent (a + b) s (o ++ o1) s2.
Proof. intros [A B] [C D]. split; [exact C|]. unfold cnt in *. rewrite data_of_app, app_length. lia. Qed.
Lemma fJ_set n v s : fJ s -> nm_find n (f_waiting s) <> None -> (v = MAX_TRIES \/ reply_from_store n (f_pub s) = None) ->
  fJ (fset_waiting (nm_set n v (f_waiting s)) s).
Proof.
  intros [A B C D E] F R. constructor; cbn; auto.
  - apply nm_set_sorted. exact B.
  - intros m w. rewrite nm_find_set. destruct (name_eqb m n) eqn:Q; [|apply D]. apply name_eqb_eq in Q; subst.
    intros _. destruct (nm_find n (f_waiting s)) as [x|] eqn:X; [eauto|congruence].
  - intros m w. rewrite nm_find_set. destruct (name_eqb m n) eqn:Q; [|apply E]. apply name_eqb_eq in Q; subst. intros [= <-]. exact R.
Qed.
Lemma nm_find_erase_sub {V} (m : nmap V) k n v : nm_sorted m -> nm_find k (nm_erase n m) = Some v -> nm_find k m = Some v.
Proof.
  intros Hs H. destruct (name_eqb k n) eqn:Q.
  - apply name_eqb_eq in Q; subst. rewrite nm_find_erase_same in H by auto. discriminate.
  - rewrite nm_find_erase_other in H; auto. intros ->. rewrite name_eqb_refl in Q. discriminate.
Qed.
Lemma fJ_drop n s : fJ s -> fJ (fset_waiting (nm_erase n (f_waiting s)) s).
Proof.
  intros [A B C D E]. constructor; cbn; auto.
  - apply nm_erase_sorted. exact B.
  - intros m v H. eapply D. eapply nm_find_erase_sub; eauto.
  - intros m v H. eapply E. eapply nm_find_erase_sub; eauto.
Qed.
Lemma fJ_erase n s : fJ s -> fJ (fset_pending (nm_erase n (f_pending s)) s).
Proof.
  intros [A B C D E]. constructor; cbn; auto.
  - apply nm_erase_sorted. exact A.
  - intros m v H. eapply C. eapply nm_find_erase_sub; eauto.
Qed.
Lemma spent_one n s s' o : fJ s -> process_one K n s = (s', o, Ok tt) -> spent 0 s o s'.
Proof.
  intros J. unfold process_one. rewrite mbind_get. destruct (nm_find n (f_waiting s)) as [v|] eqn:F; [|intros [= <- <-]; split; [exact J|cbn; lia]].
  cbv zeta. destruct (N.eqb_spec v MAX_TRIES) as [->|Nv].
  { intros [= <- <-]. split; [apply fJ_drop; exact J|]. unfold size, cnt. cbn. pose proof (nm_erase_length_le n (f_waiting s)). lia. }
  rewrite mbind_mod. set (s1 := fset_waiting _ s). destruct (j_r _ J n v F) as [X|R]; [contradiction|].
  assert (fJ s1) as J1 by (apply fJ_set; auto; congruence).
  assert (length (f_waiting s1) = length (f_waiting s)) as Z1 by (cbn; rewrite nm_set_length_found; [reflexivity|apply J|congruence]).
  assert (nm_find n (f_waiting s1) = Some (v + 1)%N) as F1 by apply nm_find_set_same.
  destruct (looked_interest n DEFAULT_LIFETIME true s1 J1) as (J2 & L2 & T2); [intros _; eapply j_w; eauto|intros _; exact R|].
  destruct (T2 eq_refl) as [W2 Q2]. unfold st, outs in *; unfold mbind at 1.
  destruct (on_finterest K n DEFAULT_LIFETIME true s1) as [[s2 o2] [[]|e|u|]]; try discriminate; cbn [fst snd] in *.
  rewrite mbind_get. change (f_pending s1) with (f_pending s) in Q2. rewrite Z1 in W2. clear L2 T2.
  destruct (nm_find n (f_waiting s2)) as [w|] eqn:F2; [destruct (N.eqb_spec w MAX_TRIES) as [->|Nw]|]; cbn; intros [= <- <-]; rewrite app_nil_r.
  - split; [apply fJ_drop; exact J2|]. unfold size. cbn. pose proof (nm_erase_length_found n (f_waiting s2) ltac:(congruence)) as Z.
    rewrite W2 in Z. destruct Q2 as [Q2|[Q2 _]]; lia.
  - split; [exact J2|]. unfold size. rewrite W2. destruct Q2 as [Q2|[_ [Q2|Q2]]]; [lia|congruence|congruence].
  - split; [exact J2|]. unfold size. rewrite W2. destruct Q2 as [Q2|[_ [Q2|Q2]]]; [lia|congruence|congruence].
Qed.
Lemma spent_all keys : forall s s' o, fJ s -> process_all K keys s = (s', o, Ok tt) -> spent 0 s o s'.
Proof.
  induction keys as [|k keys IH]; intros s s' o J; cbn [process_all].
  - intros [= <- <-]. split; [exact J|cbn; lia].
  - unfold mbind. destruct (process_one K k s) as [[s1 o1] [[]|e|u|]] eqn:E1; try discriminate.
    destruct (process_all K keys s1) as [[s2 o2] r2] eqn:E2. intros [= <- <- ->].
    pose proof (spent_one k s s1 o1 J E1) as A. change 0 with (0 + 0). eapply spent_trans; [exact A|]. apply IH; [apply A|exact E2].
Qed.
Lemma spent_process s s' o : fJ s -> process_waiting K s = (s', o, Ok tt) -> spent 0 s o s'.
Proof. intros J. unfold process_waiting. rewrite mbind_get. apply spent_all. exact J. Qed.

(** ** The pending interests *)
(** no interest is pending and waiting at once *)
Definition disjoint (s : fp) : Prop := forall n e v, nm_find n (f_pending s) = Some e -> nm_find n (f_waiting s) = Some v -> v = MAX_TRIES.
Definition paid (s : fp) (o : list fout) (s' : fp) : Prop :=
  fJ s' /\ disjoint s' /\ cnt o + size s' <= size s /\ f_waiting s' = f_waiting s.
Lemma paid_trans s o s1 o1 s2 : paid s o s1 -> paid s1 o1 s2 -> paid s (o ++ o1) s2.
Proof. intros (A & B & C & D) (A1 & B1 & C1 & D1). split; [exact A1|]. split; [exact B1|]. split; [|congruence]. unfold cnt in *. rewrite data_of_app, app_length. lia. Qed.
Lemma paid_same s o s' : fJ s -> disjoint s -> same3 s o s' -> paid s o s'.
Proof.
  intros J Dj (A & B & C & D). split; [eapply fJ_same; eauto|]. split; [unfold disjoint; rewrite A, B; exact Dj|]. split; [|exact B].
  unfold cnt, size. rewrite A, B, D. cbn. lia.
Qed.
Lemma paid_satisfy_one u k s : fJ s -> disjoint s -> paid s (outs (fsatisfy_one K u k s)) (st (fsatisfy_one K u k s)).
Proof.
  intros J Dj. unfold fsatisfy_one. rewrite mbind_get. destruct (nm_find k (f_pending s)) as [e|] eqn:F; [|apply paid_same; auto; apply same3_refl].
  rewrite mbind_lift. destruct (iblt_sub _ _ _) as [d|x|x|]; try (apply paid_same; auto; apply same3_refl).
  set (l := satisfy_content _ _ _). destruct (data_flow k l (fc_fresh K) s (j_p _ J _ _ F)) as (s1 & o1 & E & P1 & W1 & C1 & R1).
  unfold mbind. rewrite E. unfold delete_pending, mmod. cbn [st outs fst snd]. rewrite app_nil_r.
  assert (fJ s1) as J1 by (eapply fJ_data; eauto; intros v; apply Dj with (e := e); exact F).
  assert (S (length (nm_erase k (f_pending s))) = length (f_pending s)) as Z by (apply nm_erase_length_found; congruence).
  split; [apply fJ_erase; exact J1|]. split; [|split; [|exact W1]].
  - intros n e' v Hn Hv. cbn in Hn, Hv. rewrite W1 in Hv. apply nm_find_erase_sub in Hn; [|apply J1]. rewrite P1 in Hn. eapply Dj; eauto.
  - unfold size. cbn. rewrite P1, W1. lia.
Qed.
Lemma paid_bind {A B} s (m : FM A) (f : A -> FM B) : paid s (outs (m s)) (st (m s)) ->
  (forall x s1, fJ s1 -> disjoint s1 -> paid s1 (outs (f x s1)) (st (f x s1))) -> paid s (outs (mbind m f s)) (st (mbind m f s)).
Proof.
  intros Hm Hf. unfold mbind, st, outs in *. destruct (m s) as [[s1 o1] [a|e|u|]]; auto. cbn [fst snd] in *.
  destruct Hm as (A1 & A2 & A3). specialize (Hf a s1 A1 A2). destruct (f a s1) as [[s2 o2] r2]. cbn [fst snd] in *. eapply paid_trans; [split; eauto|exact Hf].
Qed.
Lemma paid_satisfy u keys : forall s, fJ s -> disjoint s -> paid s (outs (fsatisfy K u keys s)) (st (fsatisfy K u keys s)).
Proof.
  induction keys as [|k keys IH]; intros s J Dj; cbn [fsatisfy]; [apply paid_same; auto; apply same3_refl|].
  apply paid_bind; [apply paid_satisfy_one; auto|auto].
Qed.
Lemma paid_api a s : fJ s -> disjoint s -> paid s (outs (api_call K a s)) (st (api_call K a s)).
Proof.
  intros J Dj. destruct a as [p|p|p q]; cbn [api_call]; try (apply paid_same; auto; apply sl_op).
  unfold fp_publish_name. rewrite mbind_get. destruct (get_seq _ _) as [cur|]; [|apply paid_same; auto; apply same3_refl].
  apply paid_bind; [apply paid_same; auto; apply sl_op|]. intros _ s1 J1 D1.
  apply paid_bind; [apply paid_same; auto; repeat split; reflexivity|]. intros _ s2 J2 D2. apply paid_satisfy; auto.
Qed.
Lemma paid_apis l : forall s, fJ s -> disjoint s -> paid s (outs (api_calls K l s)) (st (api_calls K l s)).
Proof.
  induction l as [|a l IH]; intros s J Dj; cbn [api_calls]; [apply paid_same; auto; apply same3_refl|].
  apply paid_bind; [apply paid_api; auto|auto].
Qed.
Lemma paid_spent s o s' : paid s o s' -> spent 0 s o s'.
Proof. intros (A & _ & B & _). split; [exact A|lia]. Qed.
Lemma spent_same s o s' : fJ s -> same3 s o s' -> spent 0 s o s'.
Proof. intros J (A & B & C & D). split; [eapply fJ_same; eauto|]. unfold cnt, size. rewrite A, B, D. cbn. lia. Qed.
Lemma spent_content n buf script s s' o r : uri_ok K -> fp_ok K s -> fJ s -> disjoint s ->
  on_sync_data K n buf script s = (s', o, r) -> (forall u, r <> UB u) -> r <> Hang -> spent 0 s o s'.
Proof.
  intros Uk Ok0 J Dj. unfold on_sync_data, delete_pending. rewrite mbind_mod. set (s1 := fset_pending _ s).
  assert (fp_ok K s1) as Ok1 by (eapply (c_erase _ _ _ (ok_rel_closed K (fun _ => True))); eauto).
  assert (fJ s1) as J1 by (apply fJ_erase; exact J).
  assert (disjoint s1) as D1 by (intros m e v H; apply nm_find_erase_sub in H; [|apply J]; eapply Dj; eauto).
  assert (size s1 <= size s) as Z1 by (unfold size; cbn; pose proof (nm_erase_length_le n (f_pending s)); lia).
  assert (spent 0 s1 o s' -> spent 0 s o s') as G by (intros [A B]; split; [exact A|lia]).
  clearbody s1. intros E Hu Hh. apply G. clear G Z1 J Dj Ok0.
  destruct (obind _ _) as [names|e|u|]; try (injection E as <- <- _; apply spent_same; [exact J1|apply same3_refl]).
  pose proof (sl_take names s1) as T. unfold mbind at 1 in E.
  pose proof (tr_take K (fun _ => True) (ok_rel K) (ok_rel_closed K _) (fun _ => I) (fun _ _ _ => I) names s1 Ok1) as Ok2. unfold st in Ok2.
  destruct (take_updates names s1) as [[s2 o2] [[|x l]|e|u|]]; cbn [st outs fst snd] in T, Ok2; try (injection E as <- <- _; apply spent_same; [exact J1|exact T]).
  - destruct (paid_same s1 o2 s2 J1 D1 T) as (J2 & D2 & Z2 & _). cbn in E. injection E as <- <- _. split; [eapply fJ_same; [| | |exact J2]; reflexivity|].
    rewrite app_nil_r. unfold size in *. cbn. lia.
  - pose proof (paid_same s1 o2 s2 J1 D1 T) as P2. unfold mbind at 1, memit at 1 in E. unfold mbind at 1 in E.
    destruct P2 as (J2 & D2 & P2).
    pose proof (paid_apis script s2 J2 D2) as P3.
    pose proof (tr_apis K (fun _ => True) (ok_rel K) (ok_rel_closed K _) script s2 (ok_true _ _ (fun _ => I)) Ok2) as Ok3.
    unfold st, outs in P3, Ok3.
    assert (paid s1 o2 s2) as P2' by (split; auto).
    destruct (api_calls K script s2) as [[s3 o3] r3]; cbn [fst snd] in P3, Ok3.
    assert (spent 0 s1 (o2 ++ [FoUpdate (x :: l)] ++ o3) s3) as Q.
    { pose proof (paid_trans _ _ _ _ _ P2' P3) as (A & B & C & D). split; [exact A|]. unfold cnt in *. rewrite !data_of_app in *. cbn. rewrite !app_length in *. lia. }
    destruct r3 as [[]|e|u|]; try (injection E as <- <- _; exact Q).
    unfold draw in E. rewrite mbind_assoc, mbind_get, mbind_assoc, mbind_mod, mbind_ret, mbind_mod in E. set (s4 := fset_wait _ _) in E.
    assert (fp_ok K s4) as Ok4 by (destruct Ok3; constructor; auto).
    assert (fJ s4) as J4 by (eapply fJ_same; [| | |apply Q]; reflexivity).
    pose proof (tm_process K Sk Uk s4 Ok4) as Tm. unfold tm, tame in Tm.
    destruct (process_waiting K s4) as [[s5 o5] r5] eqn:E5. cbn [res snd] in Tm. injection E as <- <- <-.
    destruct r5 as [[]|e|u|]; [|destruct Tm|destruct (Hu u eq_refl)|destruct (Hh eq_refl)].
    pose proof (spent_process s4 s5 o5 J4 E5) as Q5.
    pose proof (spent_trans 0 0 _ _ s3 _ _ Q Q5) as Z. rewrite <- !app_assoc in Z. exact Z.
Qed.
Definition is_finterest (e : fev) : bool := match e with FeInterest _ _ => true | _ => false end.
(** what a handler that fires a timer of the store leaves *)
Lemma fire_none n now i p : reply_from_store n p = None -> reply_from_store n (pub_fire now i p) = None.
Proof.
  unfold reply_from_store, pub_fire. destruct (nth_error (pb_timers p) i) as [[dl m]|]; auto. destruct (N.leb dl now); auto.
  cbn. rewrite !store_find_None. intros H e He. apply filter_In in He as [He _]. auto.
Qed.
Lemma spent_step e s : uri_ok K -> fp_ok K s -> fJ s -> disjoint s ->
  (forall u, res (fp_step K e s) <> UB u) -> res (fp_step K e s) <> Hang ->
  spent (if is_finterest e then 1 else 0) s (outs (fp_step K e s)) (st (fp_step K e s)).
Proof.
  intros Uk Ok0 J Dj. destruct e as [a|m l|i buf script|i face|i timeout|dt|t| | |key|i]; cbn [fp_step is_finterest]; intros Hu Hh.
  - apply paid_spent, paid_api; auto.
  - destruct (is_prefix _ _); [|split; [exact J|cbn; lia]].
    destruct (looked_interest m l false s J) as (A & B & _); try discriminate. split; auto.
  - rewrite mbind_get in *. destruct (fetch_of i (f_live s)) as [m|] eqn:Ef; [|apply spent_same; [exact J|apply same3_refl]]. rewrite mbind_mod in *.
    set (s0 := fset_live _ s) in *.
    assert (fp_ok K s0) as Ok1 by (eapply (e_finished _ (ok_rel_events K)); eauto).
    destruct (on_sync_data K m buf script s0) as [[s' o'] r] eqn:E. cbn [st outs res fst snd] in *.
    assert (spent 0 s0 o' s') as [A B].
    { eapply spent_content; eauto. eapply fJ_same; [| | |exact J]; reflexivity. }
    split; [exact A|]. change (size s) with (size s0). exact B.
  - rewrite mbind_get. destruct (fetch_of _ _); apply spent_same; auto; repeat split; reflexivity.
  - rewrite mbind_get. destruct (fetch_of _ _); [|apply spent_same; auto; apply same3_refl]. rewrite mbind_mod.
    destruct timeout; apply spent_same; auto; repeat split; reflexivity.
  - apply spent_same; auto; repeat split; reflexivity.
  - apply spent_same; auto; repeat split; reflexivity.
  - rewrite mbind_get. destruct (f_sched s) as [[dl k]|]; [|apply spent_same; auto; apply same3_refl]. destruct (N.leb dl _); [|apply spent_same; auto; apply same3_refl].
    rewrite mbind_mod. destruct k; [|rewrite mbind_mod]; (apply spent_same; [exact J|]).
    + destruct (sl_send K Sk (fset_sched None s)) as (A & B & C & D). repeat split; assumption.
    + destruct (sl_send K Sk (fset_wait false (fset_sched None s))) as (A & B & C & D). repeat split; assumption.
  - rewrite mbind_get in *. destruct (f_delay s) as [dl|]; [|apply spent_same; auto; apply same3_refl]. destruct (N.leb dl _); [|apply spent_same; auto; apply same3_refl].
    rewrite mbind_mod in *. set (s1 := fset_delay None s) in *. assert (fJ s1) as J1 by (eapply fJ_same; [| | |exact J]; reflexivity).
    assert (fp_ok K s1) as Ok1 by (destruct Ok0; constructor; auto).
    pose proof (tm_process K Sk Uk s1 Ok1) as Tm. unfold tm, tame in Tm. revert Hu Hh. unfold mbind.
    destruct (process_waiting K s1) as [[s2 o2] r2] eqn:E2. cbn [res snd] in Tm. intros Hu Hh.
    destruct r2 as [[]|e|u|]; [|destruct Tm|destruct (Hu u eq_refl)|destruct (Hh eq_refl)].
    pose proof (spent_process s1 s2 o2 J1 E2) as Q. destruct Q as [J2 Q].
    pose proof (sl_schedule K s2) as (A & B & C & D). destruct (schedule_waiting K s2) as [[s3 o3] r3]. cbn [st outs fst snd] in *.
    split; [eapply fJ_same; eauto|]. unfold cnt, size in *. rewrite data_of_app, app_length, A, B, D. cbn in *. lia.
  - unfold mmod. cbn [st outs fst snd]. destruct (nm_find key (f_pending s)) as [e|] eqn:Ek; [|split; [exact J|cbn; lia]].
    destruct (N.leb (fe_expiry e) (f_now s)); [|split; [exact J|cbn; lia]]. split; [apply fJ_erase; exact J|].
    unfold size. cbn. pose proof (nm_erase_length_le key (f_pending s)). lia.
  - split; [|unfold size; cbn; lia]. destruct J as [A B C D E]. constructor; cbn; auto. intros n v H. destruct (E n v H) as [X|X]; auto. right. apply fire_none. exact X.
Qed.
End Flow.

(** ** How many packets one event causes *)
Section Count.
Variable K : fcfg.
Hypothesis Sk : schemes_ok K.
Definition cl {A} (c : nat) (m : FM A) : Prop := forall s, cnt (outs (m s)) <= c.
Lemma cl_bind {A B} a b (m : FM A) (f : A -> FM B) : cl a m -> (forall x, cl b (f x)) -> cl (a + b) (mbind m f).
Proof.
  intros Hm Hf s. specialize (Hm s). unfold mbind, outs in *. destruct (m s) as [[s1 o1] [x|e|u|]]; cbn [fst snd] in *; try lia.
  specialize (Hf x s1). unfold outs in Hf. destruct (f x s1) as [[s2 o2] r2]. cbn [fst snd] in *. unfold cnt in *. rewrite data_of_app, app_length. lia.
Qed.
Lemma cl_left {A B} a (m : FM A) (f : A -> FM B) : cl a m -> (forall x, cl 0 (f x)) -> cl a (mbind m f).
Proof. intros. replace a with (a + 0) by lia. apply cl_bind; auto. Qed.
Lemma cl_right {A B} b (m : FM A) (f : A -> FM B) : cl 0 m -> (forall x, cl b (f x)) -> cl b (mbind m f).
Proof. intros. change b with (0 + b). apply cl_bind; auto. Qed.
Lemma cl_get {B} c (f : fp -> FM B) : (forall s, cl c (f s)) -> cl c (mbind mget f).
Proof. intros H s. rewrite mbind_get. apply H. Qed.
Lemma cl_lift {A B} c r (f : A -> FM B) : (forall x, cl c (f x)) -> cl c (mbind (mlift r) f).
Proof. intros H s. rewrite mbind_lift. destruct r; try apply H; cbn; lia. Qed.
Lemma cl_mod c f : cl c (mmod f). Proof. intros s. cbn. lia. Qed.
Lemma cl_ret {A} c (a : A) : cl c (mret a). Proof. intros s. cbn. lia. Qed.
Lemma cl_raw {A} c (r : outcome A) : cl c (mlift r). Proof. intros s. cbn. lia. Qed.
Lemma cl_sl {A} c (m : FM A) : sl m -> cl c m.
Proof. intros H s. destruct (H s) as (_ & _ & _ & D). unfold cnt. rewrite D. cbn. lia. Qed.
Lemma cl_mark n c : cl c (mark_waiting n). Proof. apply cl_mod. Qed.
Lemma cl_start n c : cl c (start_waiting K n).
Proof. unfold start_waiting. apply cl_right; [apply cl_mod|intros _; apply cl_sl, sl_schedule]. Qed.
Lemma cl_data n l f : cl 1 (send_sync_data K n l f).
Proof.
  intros s. unfold send_sync_data. rewrite mbind_get. cbv zeta. 
  assert (forall b : bool, cl 1 (mlet buf <- mlift (compress (fc_codec K) (fc_cscheme K) (encode_names l));
    fp_publish K n n buf f ;; if b then send_sync_interest K else mret tt)) as G.
  { intros b. apply cl_lift. intros buf. apply cl_left.
    - intros s1. unfold fp_publish. destruct (publish _ _ _ _ _ _ _) as [p [x|x|x|]] eqn:P; cbn; try lia. unfold cnt. rewrite data_of_data. eapply publish_one; eauto.
    - intros _. destruct b; [apply cl_sl, sl_send, Sk|apply cl_ret]. }
  destruct (_ && _).
  - rewrite mbind_assoc. unfold stop_fetcher. rewrite mbind_mod, mbind_mod. apply G.
  - rewrite mbind_ret. apply G.
Qed.
Lemma cl_interest n l timed : cl 1 (on_finterest K n l timed).
Proof.
  unfold on_finterest. apply cl_get. intros s. destruct (reply_from_store n (f_pub s)); [intros s1; cbn; lia|].
  cbv zeta. destruct (Nat.eqb _ 4).
  { unfold fp_send_nack. apply cl_get. intros s1. apply cl_lift. intros dn. apply cl_right; [apply cl_mod|]. intros _ s2. cbn. lia. }
  destruct (negb _); [apply cl_ret|]. do 3 (apply cl_lift; intros ?). destruct (initialize _ _ _ _) as [t [u|e|u|]]; try apply cl_ret; try apply cl_raw.
  apply cl_lift. intros d. destruct (can_decode d).
  - unfold on_decoded. apply cl_get. intros s0. cbv zeta.
    assert (cl 1 (mlet l0 <- offered K (negative d) (positive d); match l0 with [] => mret tt | _ :: _ => send_sync_data K n l0 (fc_fresh K) ;; mark_waiting n end)) as H.
    { apply cl_right; [apply cl_sl, sl_offered|intros [|hd0 tl0]; [apply cl_ret|]]. apply cl_left; [apply cl_data|intros _; apply cl_mark]. }
    destruct (positive d); [|exact H]. destruct (negative d).
    + apply cl_right; [apply cl_mod|intros _; destruct timed; [apply cl_mark|apply cl_ret]].
    + destruct timed, (nm_find n (f_waiting s0)); try apply cl_ret; [|apply cl_start]. destruct (N.ltb 1 _); [apply cl_mark|apply cl_ret].
  - unfold on_undecodable. apply cl_get. intros s0. cbv zeta. destruct (N.ltb _ _).
    + destruct timed, (nm_find n (f_waiting s0)); try apply cl_ret; [|apply cl_start]. destruct (N.ltb 1 _); [|apply cl_ret].
      apply cl_right; [apply cl_mark|intros _; apply cl_sl, sl_send, Sk].
    + destruct (_ && _ && _); [apply cl_ret|]. apply cl_left; [|intros _; apply cl_mark]. destruct (entire_state _); [apply cl_ret|].
      apply cl_left; [apply cl_data|intros _; apply cl_mod].
Qed.
Lemma cl_satisfy u keys : cl (length keys) (fsatisfy K u keys).
Proof.
  induction keys as [|k keys IH]; cbn [fsatisfy]; [apply cl_ret|]. change (length (k :: keys)) with (1 + length keys). apply cl_bind; [|intros _; exact IH].
  unfold fsatisfy_one. apply cl_get. intros s. destruct (nm_find k (f_pending s)); [|apply cl_ret]. apply cl_lift. intros d.
  apply cl_left; [apply cl_data|intros _; apply cl_mod].
Qed.
Lemma cl_process keys : cl (length keys) (process_all K keys).
Proof.
  induction keys as [|k keys IH]; cbn [process_all]; [apply cl_ret|]. change (length (k :: keys)) with (1 + length keys). apply cl_bind; [|intros _; exact IH].
  unfold process_one. apply cl_get. intros s. destruct (nm_find k (f_waiting s)) as [v|]; [|apply cl_ret]. cbv zeta. destruct (N.eqb v MAX_TRIES); [apply cl_mod|].
  apply cl_right; [apply cl_mod|intros _]. apply cl_left; [apply cl_interest|intros _]. apply cl_get. intros s1.
  destruct (nm_find k (f_waiting s1)) as [w|]; [|apply cl_ret]. destruct (N.eqb w MAX_TRIES); [apply cl_mod|apply cl_ret].
Qed.
Lemma cl_publish p q s : cnt (outs (fp_publish_name K p q s)) <= length (f_pending s).
Proof.
  unfold fp_publish_name. rewrite mbind_get. destruct (get_seq _ _); [|cbn; lia].
  assert (length (f_pending s) = length (nm_keys (f_pending s))) as -> by (unfold nm_keys; rewrite map_length; reflexivity).
  apply cl_right; [apply cl_sl, sl_op|intros _]. apply cl_right; [apply cl_mod|intros _; apply cl_satisfy].
Qed.
Lemma cl_waiting s : cnt (outs (process_waiting K s)) <= length (f_waiting s).
Proof.
  unfold process_waiting. rewrite mbind_get.
  assert (length (f_waiting s) = length (nm_keys (f_waiting s))) as -> by (unfold nm_keys; rewrite map_length; reflexivity). apply cl_process.
Qed.
End Count.
Lemma content_count K n buf s : schemes_ok K -> cnt (outs (on_sync_data K n buf [] s)) <= length (f_waiting s).
Proof.
  intros Sk. unfold on_sync_data, delete_pending. rewrite mbind_mod. set (s1 := fset_pending _ s).
  change (f_waiting s) with (f_waiting s1). clearbody s1.
  destruct (obind _ _) as [names|e|u|]; try (cbn; lia).
  pose proof (sl_take names s1) as T. unfold mbind at 1. destruct (take_updates names s1) as [[s2 o2] [[|x l]|e|u|]]; destruct T as (A & B & C & D);
    cbn [st outs fst snd] in *; unfold cnt in *; rewrite ?data_of_app, ?D; try (cbn; rewrite ?data_of_app, ?D; cbn; lia).
  unfold mbind at 1, memit at 1. cbn [api_calls]. rewrite mbind_ret. unfold draw. rewrite mbind_assoc, mbind_get, mbind_assoc, mbind_mod, mbind_ret, mbind_mod.
  match goal with |- context [process_waiting K ?s3] => pose proof (cl_waiting K Sk s3) as W; change (f_waiting s3) with (f_waiting s2) in W; destruct (process_waiting K s3) as [[s4 o4] r4] end.
  rewrite B in W. unfold cnt in W. cbn [outs fst snd] in *. rewrite !data_of_app, D. exact W.
Qed.
