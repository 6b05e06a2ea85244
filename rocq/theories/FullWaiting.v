(** The waiting list of full-sync nodes. *)
From Coq Require Import List NArith ZArith Bool Arith Lia.
From Verif Require Import Base BaseFacts Mon MonFacts Iblt SpecIblt IbltFacts Tlv TlvFacts State NMap NMapFacts
  Codec CodecFacts Store StoreFacts Producer SpecProducer ProducerFacts Partial SpecPartial PartialFacts
  PartialSteps Full FullTrace SpecFull FullFacts FullSafe FullSteps FullData FullRuns FullTimers.
Import ListNotations.
Local Open Scope N_scope.

(** ** Handlers that leave the waiting list alone *)
Definition kw {A} (s : fp) (m : FM A) : Prop := f_waiting (st (m s)) = f_waiting s.
Lemma kw_ret {A} s (a : A) : kw s (mret a). Proof. reflexivity. Qed.
Lemma kw_lift {A} s (r : outcome A) : kw s (mlift r). Proof. reflexivity. Qed.
Lemma kw_bind {A B} s (m : FM A) (f : A -> FM B) : kw s m -> (forall s1 a, kw s1 (f a)) -> kw s (mbind m f).
Proof.
  unfold kw, mbind, st. intros Hm Hf. destruct (m s) as [[s1 o1] [a|e|u|]]; auto.
  specialize (Hf s1 a). destruct (f a s1) as [[s2 o2] r2]. simpl in *. congruence.
Qed.
Lemma kw_get {B} s (f : fp -> FM B) : kw s (f s) -> kw s (mbind mget f).
Proof. unfold kw. rewrite mbind_get. auto. Qed.
Lemma kw_mlift {A B} s (r : outcome A) (f : A -> FM B) : (forall a, kw s (f a)) -> kw s (mbind (mlift r) f).
Proof. unfold kw. rewrite mbind_lift. destruct r; auto. Qed.
Lemma kw_mod s g : f_waiting (g s) = f_waiting s -> kw s (mmod g). Proof. auto. Qed.
Definition keepw (s : fp) (_ : list fout) (s' : fp) : Prop := f_waiting s' = f_waiting s.
Lemma kw_send K s : kw s (send_sync_interest K).
Proof.
  unfold kw. rewrite send_eq. unfold st. destruct (f_wait s); [reflexivity|].
  pose proof (fr_waiting _ _ (frame_stopped s)) as F.
  destruct (sync_name _ _); try exact F. destruct (_ && _); exact F.
Qed.
Lemma kw_data K s n l f : kw s (send_sync_data K n l f).
Proof.
  apply (data_closed K keepw); try reflexivity.
  - unfold keepw. intros; congruence.
  - intros. apply kw_send.
Qed.
Lemma kw_op s o : kw s (fp_op o).
Proof. unfold fp_op. apply kw_get, kw_mlift. intros k. apply kw_bind; [reflexivity|]. intros; reflexivity. Qed.
Lemma kw_prefix_seq s p : kw s (prefix_seq p).
Proof.
  unfold prefix_seq. apply kw_get. destruct (get_seq _ _); [reflexivity|].
  apply kw_bind; [apply kw_op|reflexivity].
Qed.
Lemma kw_offered K neg hs : forall s, kw s (offered K neg hs).
Proof.
  induction hs as [|h hs IH]; intros s; simpl; [reflexivity|]. apply kw_get.
  destruct (bm_left _ _); auto. apply kw_bind; [apply kw_prefix_seq|]. intros s1 v.
  apply kw_bind; [destruct (v =? 0); [reflexivity|]|].
  - unfold is_future. apply kw_mlift. intros u. apply kw_bind; [apply kw_prefix_seq|reflexivity].
  - intros s2 b. apply kw_bind; auto. reflexivity.
Qed.
Lemma kw_delete s n : kw s (delete_pending n). Proof. reflexivity. Qed.
Lemma kw_fsatisfy K u keys : forall s, kw s (fsatisfy K u keys).
Proof.
  induction keys as [|k keys IH]; intros s; simpl; [reflexivity|]. apply kw_bind; auto.
  unfold fsatisfy_one. apply kw_get. destruct (nm_find _ _); [|reflexivity]. apply kw_mlift. intros d.
  apply kw_bind; [apply kw_data|]. intros; apply kw_delete.
Qed.
Lemma kw_api K a : forall s, kw s (api_call K a).
Proof.
  intros s. destruct a as [p|p|p q]; cbn [api_call]; try apply kw_op.
  unfold fp_publish_name. apply kw_get. destruct (get_seq _ _); [|reflexivity].
  apply kw_bind; [apply kw_op|]. intros s1 _. apply kw_bind; [reflexivity|]. intros; apply kw_fsatisfy.
Qed.
Lemma kw_apis K l : forall s, kw s (api_calls K l).
Proof. induction l as [|a l IH]; intros s; simpl; [reflexivity|]. apply kw_bind; auto using kw_api. Qed.
Lemma kw_take names : forall s, kw s (take_updates names).
Proof.
  induction names as [|c names IH]; intros s; simpl; [reflexivity|].
  apply kw_mlift. intros x. apply kw_mlift. intros v. apply kw_get.
  destruct (match get_seq _ _ with None => true | Some cur => cur <? v end); auto.
  apply kw_bind; [apply kw_prefix_seq|]. intros s1 cur. apply kw_bind; [apply kw_op|]. intros s2 _.
  apply kw_bind; auto. reflexivity.
Qed.

(** ** What an interest does to the waiting list *)
Definition touched (n : name) (timed : bool) (w w' : nmap N) : Prop :=
  w' = w \/ ((exists v, nm_find n w = Some v) /\ w' = nm_set n MAX_TRIES w) \/
  (timed = false /\ nm_find n w = None /\ w' = nm_set n 0 w).
Definition tw {A} (n : name) (timed : bool) (s : fp) (m : FM A) : Prop :=
  touched n timed (f_waiting s) (f_waiting (st (m s))).
Lemma tw_kw {A} n b s (m : FM A) : kw s m -> tw n b s m.
Proof. unfold kw, tw. intros ->. left. reflexivity. Qed.
Lemma tw_get {B} n b s (f : fp -> FM B) : tw n b s (f s) -> tw n b s (mbind mget f).
Proof. unfold tw. rewrite mbind_get. auto. Qed.
Lemma tw_mlift {A B} n b s (r : outcome A) (f : A -> FM B) :
  (forall a, tw n b s (f a)) -> tw n b s (mbind (mlift r) f).
Proof. unfold tw. rewrite mbind_lift. destruct r; auto; intros; left; reflexivity. Qed.
Lemma tw_pre {A B} n b s (m : FM A) (f : A -> FM B) :
  kw s m -> (forall s1 a, tw n b s1 (f a)) -> tw n b s (mbind m f).
Proof.
  unfold kw, tw, mbind, st. intros Hm Hf. destruct (m s) as [[s1 o1] [a|e|u|]]; simpl in *; try (left; auto; fail).
  specialize (Hf s1 a). destruct (f a s1) as [[s2 o2] r2]. simpl in *. rewrite <- Hm. exact Hf.
Qed.
Lemma tw_post {A B} n b s (m : FM A) (f : A -> FM B) :
  tw n b s m -> (forall s1 a, kw s1 (f a)) -> tw n b s (mbind m f).
Proof.
  unfold kw, tw, mbind, st. intros Hm Hf. destruct (m s) as [[s1 o1] [a|e|u|]]; simpl in *; auto.
  specialize (Hf s1 a). destruct (f a s1) as [[s2 o2] r2]. simpl in *. rewrite Hf. exact Hm.
Qed.
Lemma tw_mark n b s : tw n b s (mark_waiting n).
Proof.
  unfold tw. rewrite mark_eq. unfold st, marked. simpl. destruct (nm_find n (f_waiting s)) as [v|] eqn:E; [|left; auto].
  right. left. eauto.
Qed.
Lemma tw_start K n s : nm_find n (f_waiting s) = None -> tw n false s (start_waiting K n).
Proof.
  intros H. unfold tw, start_waiting. rewrite mbind_mod, schedule_eq. unfold st. cbn [fst].
  right. right. repeat split; auto. set (s1 := fset_waiting _ s).
  transitivity (f_waiting s1); [|reflexivity]. destruct (f_waiting s1) eqn:E; auto. destruct (f_delay s1); auto.
Qed.
Lemma tw_finterest K n l b s : tw n b s (on_finterest K n l b).
Proof.
  unfold on_finterest. apply tw_get. destruct (reply_from_store _ _); [apply tw_kw; reflexivity|].
  cbv zeta. destruct (Nat.eqb _ 4).
  { unfold fp_send_nack. apply tw_get, tw_mlift. intros dn. apply tw_pre; [reflexivity|].
    intros. apply tw_kw. reflexivity. }
  destruct (negb _); [apply tw_kw; reflexivity|]. do 3 (apply tw_mlift; intros ?).
  destruct (initialize _ _ _ _) as [t [u|e|u|]]; try (apply tw_kw; reflexivity).
  apply tw_mlift. intros d. destruct (can_decode d).
  - unfold on_decoded. apply tw_get.
    assert (forall x, tw n b x (mlet l0 <- offered K (negative d) (positive d);
      match l0 with [] => mret tt | _ :: _ => send_sync_data K n l0 (fc_fresh K) ;; mark_waiting n end)) as H.
    { intros x. apply tw_pre; [apply kw_offered|]. intros s1 [|y ys]; [apply tw_kw; reflexivity|].
      apply tw_pre; [apply kw_data|]. intros; apply tw_mark. }
    destruct (positive d); [|destruct (negative d); apply H]. destruct (negative d).
    + apply tw_pre; [reflexivity|]. intros. destruct b; [apply tw_mark|apply tw_kw; reflexivity].
    + destruct b, (nm_find n (f_waiting s)) as [v|] eqn:E; try (apply tw_kw; reflexivity);
        [destruct (1 <? v); [apply tw_mark|apply tw_kw; reflexivity]|apply tw_start; auto].
  - unfold on_undecodable. apply tw_get. destruct (_ <? _).
    + destruct b, (nm_find n (f_waiting s)) as [v|] eqn:E; try (apply tw_kw; reflexivity);
        [|apply tw_start; auto].
      destruct (1 <? v); [|apply tw_kw; reflexivity]. apply tw_post; [apply tw_mark|]. intros; apply kw_send.
    + destruct (_ && _); [apply tw_kw; reflexivity|]. apply tw_pre; [|intros; apply tw_mark].
      destruct (entire_state _); [reflexivity|]. apply kw_bind; [apply kw_data|]. intros; apply kw_delete.
Qed.

(** ** One retry, and all of them *)
Definition kept (K : fcfg) (k : core) (n : name) (tries : N) (p : pub) (o : list fout) : Prop :=
  (exists d, reply_from_store n p = Some d /\ In (FoData d) o) \/
  exists t rcvd, names_ibf K n t rcvd /\ (tries <= 1 \/ stuck K k t rcvd).

Lemma marked_find n s v : nm_find n (f_waiting s) = Some v -> nm_find n (f_waiting (marked n s)) = Some MAX_TRIES.
Proof. intros H. unfold marked. rewrite H. simpl. apply nm_find_set_same. Qed.
Lemma after_mark {A} (m : FM A) n s v r s' o : kw s m -> nm_find n (f_waiting s) = Some v ->
  (m ;; mark_waiting n) s = (s', o, Ok r) -> nm_find n (f_waiting s') = Some MAX_TRIES.
Proof.
  unfold kw, mbind, st. intros Hk Hf. destruct (m s) as [[s1 o1] [a|e|u|]]; try discriminate. simpl in Hk.
  rewrite mark_eq. intros [= <- _ _]. apply (marked_find n s1 v). rewrite Hk. exact Hf.
Qed.
(** an interest retried without being marked *)
Lemma retry_kept K m n v s s' o : schemes_ok K -> uri_ok K -> core_ok m (f_core s) ->
  (exists t rcvd, names_ibf K n t rcvd) -> nm_find n (f_waiting s) = Some v ->
  on_finterest K n DEFAULT_LIFETIME true s = (s', o, Ok tt) ->
  nm_find n (f_waiting s') = Some MAX_TRIES \/ kept K (f_core s) n v (f_pub s) o.
Proof.
  intros Sk Uk Ck (t & rcvd & Hn) Hv E. rewrite (finterest_names K n t rcvd) in E by auto.
  destruct (reply_from_store n (f_pub s)) as [d|] eqn:Er.
  { injection E as <- <-. right. left. exists d. simpl. auto. }
  rewrite mbind_lift in E. destruct (iblt_sub _ _ t) as [d|x|u|] eqn:Ed; try discriminate.
  pose proof (names_ibf_nonempty _ _ _ _ Hn) as N0.
  destruct (can_decode d) eqn:Ec.
  - destruct (positive d) as [|h hs] eqn:Ep.
    + unfold on_decoded in E. rewrite Ep, mbind_get in E. destruct (negative d) as [|g gs].
      * left. rewrite mbind_mod, mark_eq in E. injection E as <- _. eapply (marked_find n). exact Hv.
      * rewrite Hv in E. destruct (N.ltb_spec 1 v) as [H|H].
        -- left. rewrite mark_eq in E. injection E as <- _. eapply marked_find; eauto.
        -- right. right. exists t, rcvd. auto.
    + rewrite (decoded_positive K m) in E; auto; [|congruence].
      destruct (offer (f_core s) (negative d) (positive d)) as [|y ys] eqn:Eo.
      * right. right. exists t, rcvd. split; auto. right. exists d. split; auto. left. split; auto.
        split; [congruence|]. intros p w Hp Hw Hi.
        destruct (nset_mem (name_hash (append_number p ((w + 1) mod two64))) (negative d)) eqn:M.
        { apply nset_mem_In in M. exact M. }
        exfalso. assert (In (append_number p w) (offer (f_core s) (negative d) (positive d))) as X.
        { apply (offer_In m); auto. exists p, w. repeat split; auto. intros X. apply nset_mem_In in X. congruence. }
        rewrite Eo in X. exact X.
      * left. eapply after_mark; [apply kw_data| |exact E]; eauto.
  - unfold on_undecodable in E. rewrite mbind_get, Hv in E. destruct (_ <? rcvd).
    + destruct (N.ltb_spec 1 v) as [H|H].
      * left. unfold mbind in E. rewrite mark_eq in E.
        pose proof (kw_send K (marked n s)) as F. unfold kw, st in F.
        destruct (send_sync_interest K (marked n s)) as [[s2 o2] r2]. injection E as <- _ _. simpl in F.
        rewrite F. eapply marked_find; eauto.
      * right. right. exists t, rcvd. auto.
    + destruct (_ && _ && _) eqn:B.
      * right. right. exists t, rcvd. split; auto. right. exists d. split; auto. right.
        apply andb_prop in B as [B B3]. apply andb_prop in B as [B1 B2].
        apply N.eqb_eq in B1. apply Nat.eqb_eq, length_zero_iff_nil in B2. apply Nat.ltb_lt in B3.
        repeat split; auto. intros X. rewrite X in B3. simpl in B3. lia.
      * left. eapply after_mark; [|exact Hv|exact E].
        destruct (entire_state _); [reflexivity|]. apply kw_bind; [apply kw_data|]. intros; apply kw_delete.
Qed.

(** one retry in all *)
Lemma process_one_find K n s s' o : nm_sorted (f_waiting s) ->
  process_one K n s = (s', o, Ok tt) ->
  (forall m, m <> n -> nm_find m (f_waiting s') = nm_find m (f_waiting s)) /\
  match nm_find n (f_waiting s) with
  | None => s' = s /\ o = []
  | Some v => nm_find n (f_waiting s') = None \/
    (nm_find n (f_waiting s') = Some (v + 1) /\ v + 1 <> MAX_TRIES /\ v <> MAX_TRIES)
  end.
Proof.
  intros So. unfold process_one. rewrite mbind_get. destruct (nm_find n (f_waiting s)) as [v|] eqn:E.
  2:{ intros [= <- <-]. auto. }
  cbv zeta. destruct (N.eqb_spec v MAX_TRIES) as [->|Nv].
  - intros [= <- <-]. cbn [f_waiting fset_waiting]. split; [intros m Hm; apply nm_find_erase_other; auto|].
    left. apply nm_find_erase_same; auto.
  - rewrite mbind_mod. set (s0 := fset_waiting _ s).
    pose proof (tw_finterest K n DEFAULT_LIFETIME true s0) as T. unfold tw, st in T.
    unfold mbind at 1. destruct (on_finterest K n DEFAULT_LIFETIME true s0) as [[s1 o1] [[]|e|u|]]; try discriminate.
    cbn [fst] in T. rewrite mbind_get.
    assert (nm_find n (f_waiting s0) = Some (v + 1)) as F0 by apply nm_find_set_same.
    assert (forall m, m <> n -> nm_find m (f_waiting s0) = nm_find m (f_waiting s)) as F1
      by (intros; apply nm_find_set_other; auto).
    assert (nm_sorted (f_waiting s0)) as So0 by (apply nm_set_sorted; auto).
    destruct T as [T|[[_ T]|(T & _)]]; [| |discriminate T].
    + rewrite T, F0. destruct (N.eqb_spec (v + 1) MAX_TRIES) as [H|H]; intros [= <- <-].
      * cbn [f_waiting fset_waiting]. rewrite T. split.
        -- intros m Hm. rewrite nm_find_erase_other; auto.
        -- left. apply nm_find_erase_same; auto.
      * rewrite T. split; auto.
    + rewrite T, nm_find_set_same, N.eqb_refl. intros [= <- <-]. cbn [f_waiting fset_waiting]. rewrite T. split.
      * intros m Hm. rewrite nm_find_erase_other, nm_find_set_other; auto.
      * left. apply nm_find_erase_same. apply nm_set_sorted; auto.
Qed.
Lemma process_one_kept K m n v s s' o : schemes_ok K -> uri_ok K -> core_ok m (f_core s) ->
  nm_sorted (f_waiting s) -> nm_find n (f_waiting s) = Some v -> (exists t rcvd, names_ibf K n t rcvd) ->
  process_one K n s = (s', o, Ok tt) -> nm_find n (f_waiting s') <> None ->
  kept K (f_core s) n (v + 1) (f_pub s) o.
Proof.
  intros Sk Uk Ck So Hv Hn. unfold process_one. rewrite mbind_get, Hv. cbv zeta.
  destruct (N.eqb_spec v MAX_TRIES) as [->|Nv].
  - intros [= <- <-] H. elim H. apply nm_find_erase_same; auto.
  - rewrite mbind_mod. set (s0 := fset_waiting _ s).
    pose proof (tw_finterest K n DEFAULT_LIFETIME true s0) as T. unfold tw, st in T.
    unfold mbind at 1. destruct (on_finterest K n DEFAULT_LIFETIME true s0) as [[s1 o1] [[]|e|u|]] eqn:E; try discriminate.
    cbn [fst] in T. rewrite mbind_get.
    assert (nm_find n (f_waiting s0) = Some (v + 1)) as F0 by apply nm_find_set_same.
    assert (nm_sorted (f_waiting s1)) as So1.
    { assert (nm_sorted (f_waiting s0)) as So0 by (apply nm_set_sorted; auto).
      destruct T as [->|[[_ ->]|(_ & _ & ->)]]; auto using nm_set_sorted. }
    destruct (retry_kept K m n (v + 1) s0 s1 o1 Sk Uk Ck Hn F0 E) as [X|X].
    + rewrite X, N.eqb_refl. intros [= <- <-] H. elim H. apply nm_find_erase_same; auto.
    + destruct X as [(d & Er & Hi)|X]; [|right; exact X].
      destruct (nm_find n (f_waiting s1)) as [w|]; [destruct (w =? MAX_TRIES)|];
        intros [= <- <-] _; left; exists d; rewrite ?app_nil_r; auto.
Qed.

(** ** Processing the waiting list *)
Lemma process_one_ok K n s : fp_ok K s -> fp_ok K (st (process_one K n s)).
Proof. apply (tr_process_one K (fun _ => True) (ok_rel K) (ok_rel_closed K _)). auto. Qed.
Lemma process_all_find K keys : forall s s' o, NoDup keys -> fp_ok K s ->
  process_all K keys s = (s', o, Ok tt) ->
  forall n, (~ In n keys -> nm_find n (f_waiting s') = nm_find n (f_waiting s)) /\
    (In n keys -> forall v, nm_find n (f_waiting s) = Some v -> nm_find n (f_waiting s') = None \/
      (nm_find n (f_waiting s') = Some (v + 1) /\ v + 1 < MAX_TRIES)) /\
    (nm_find n (f_waiting s) = None -> nm_find n (f_waiting s') = None).
Proof.
  induction keys as [|k keys IH]; intros s s' o Nd Ok_ E n; cbn [process_all] in E.
  - injection E as <- <-. simpl. tauto.
  - inversion Nd as [|x l Hk Nd']; subst. unfold mbind in E.
    pose proof (process_one_ok K k s Ok_) as Ok1. unfold st in Ok1.
    destruct (process_one K k s) as [[s1 o1] [[]|e|u|]] eqn:E1; try discriminate. cbn [fst] in Ok1.
    destruct (process_all K keys s1) as [[s2 o2] r2] eqn:E2. injection E as <- _ ->.
    destruct (process_one_find K k s s1 o1 (fo_wsorted _ _ Ok_) E1) as [A B].
    destruct (IH s1 s2 o2 Nd' Ok1 E2 n) as (I1 & I2 & I3). split; [|split].
    + simpl. intros H. rewrite I1 by tauto. apply A. intros ->. tauto.
    + intros [->|H] v Hv.
      * rewrite Hv in B. rewrite I1 by auto. destruct B as [B|(B & B1 & B2)]; auto. right. split; auto.
        destruct (fo_waiting _ _ Ok_ n v Hv) as [Lv _]. unfold MAX_TRIES in *. lia.
      * apply I2; auto. rewrite A; auto. intros ->. contradiction.
    + intros Hv. destruct (name_eqb n k) eqn:Q.
      * apply name_eqb_eq in Q. subst k. rewrite Hv in B. destruct B as [-> _]. auto.
      * apply I3. rewrite A; auto. intros ->. rewrite name_eqb_refl in Q. discriminate.
Qed.
Lemma nm_keys_NoDup {A} (w : nmap A) : nm_sorted w -> NoDup (nm_keys w).
Proof. apply nm_sorted_NoDup. Qed.
Lemma process_find K s s' o : fp_ok K s -> process_waiting K s = (s', o, Ok tt) ->
  served (f_waiting s) (f_waiting s').
Proof.
  intros Ok_. unfold process_waiting. rewrite mbind_get. intros E n.
  destruct (process_all_find K _ s s' o (nm_keys_NoDup _ (fo_wsorted _ _ Ok_)) Ok_ E n) as (I1 & I2 & I3).
  destruct (nm_find n (f_waiting s)) as [v|] eqn:F; [|left; auto].
  assert (In n (nm_keys (f_waiting s))) as Hin by (apply nm_In_keys; eauto).
  destruct (I2 Hin v eq_refl) as [H|[H1 H2]]; auto. right. exists v. auto.
Qed.

(** the node's data stays as it is *)
Lemma kc_finterest K m n t rcvd l timed s s' o r : schemes_ok K -> uri_ok K -> core_ok m (f_core s) ->
  names_ibf K n t rcvd -> on_finterest K n l timed s = (s', o, r) -> f_core s' = f_core s.
Proof.
  intros Sk Uk Ck Hn. pose proof (names_ibf_nonempty _ _ _ _ Hn) as N0.
  rewrite (finterest_names K n t rcvd) by auto.
  assert (forall x, f_core (marked n x) = f_core x) as Mk by (intros x; unfold marked; destruct (nm_find _ _); reflexivity).
  assert (forall x, f_core (st (start_waiting K n x)) = f_core x) as Sw.
  { intros x. unfold start_waiting. rewrite mbind_mod, schedule_eq. unfold st. cbn [fst]. set (y := fset_waiting _ x).
    transitivity (f_core y); [|reflexivity]. destruct (f_waiting y); auto. destruct (f_delay y); auto. }
  destruct (reply_from_store n (f_pub s)) as [d|]; [intros [= <- <- <-]; reflexivity|].
  rewrite mbind_lift. destruct (iblt_sub _ _ t) as [d|x|u|]; try (intros [= <- <- <-]; reflexivity).
  destruct (can_decode d).
  - destruct (positive d) as [|h hs] eqn:Ep.
    + unfold on_decoded. rewrite Ep, mbind_get. destruct (negative d) as [|g gs].
      * rewrite mbind_mod. destruct timed; [rewrite mark_eq|]; intros [= <- _ _]; [|reflexivity].
        rewrite Mk. reflexivity.
      * destruct timed, (nm_find n (f_waiting s)) as [v|]; try (intros [= <- _ _]; reflexivity).
        -- destruct (1 <? v); [rewrite mark_eq|]; intros [= <- _ _]; auto.
        -- intros E. specialize (Sw s). rewrite E in Sw. exact Sw.
    + rewrite (decoded_positive K m); auto; [|congruence].
      destruct (offer _ _ _) as [|y ys]; [intros [= <- _ _]; reflexivity|].
      destruct (data_spec K n (y :: ys) (fc_fresh K) s Sk N0) as (ds & s2 & o2 & E2 & _ & F2 & _).
      unfold mbind. rewrite E2, mark_eq. intros [= <- _ _]. rewrite Mk. apply F2.
  - unfold on_undecodable. rewrite mbind_get. destruct (_ <? rcvd).
    + destruct timed, (nm_find n (f_waiting s)) as [v|]; try (intros [= <- _ _]; reflexivity).
      * destruct (1 <? v); [|intros [= <- _ _]; reflexivity]. unfold mbind. rewrite mark_eq.
        destruct (send_spec K (marked n s) Sk) as (s2 & o2 & -> & F2 & _). intros [= <- _ _].
        rewrite (fr_core _ _ F2). apply Mk.
      * intros E. specialize (Sw s). rewrite E in Sw. exact Sw.
    + destruct (_ && _); [intros [= <- _ _]; reflexivity|].
      destruct (entire_state (f_core s)) as [|y ys].
      * rewrite mbind_ret, mark_eq. intros [= <- _ _]. apply Mk.
      * destruct (data_spec K n (y :: ys) FULL_STATE_FRESH s Sk N0) as (ds & s2 & o2 & E2 & _ & F2 & _).
        unfold mbind, delete_pending, mmod. rewrite E2, mark_eq. intros [= <- _ _]. rewrite Mk. apply F2.
Qed.
Lemma kc_process_one K m n s s' o : schemes_ok K -> uri_ok K -> core_ok m (f_core s) -> fp_ok K s ->
  process_one K n s = (s', o, Ok tt) -> f_core s' = f_core s.
Proof.
  intros Sk Uk Ck Ok_. unfold process_one. rewrite mbind_get.
  destruct (nm_find n (f_waiting s)) as [v|] eqn:Hv; [|intros [= <- _]; reflexivity]. cbv zeta.
  destruct (v =? MAX_TRIES); [intros [= <- _]; reflexivity|]. rewrite mbind_mod. set (s0 := fset_waiting _ s).
  destruct (fo_waiting _ _ Ok_ n v Hv) as (_ & t & rcvd & Hn).
  unfold mbind at 1. destruct (on_finterest K n DEFAULT_LIFETIME true s0) as [[s1 o1] [[]|e|u|]] eqn:E; try discriminate.
  pose proof (kc_finterest K m n t rcvd _ _ s0 s1 o1 _ Sk Uk Ck Hn E) as F. rewrite mbind_get.
  destruct (nm_find n (f_waiting s1)) as [w|]; [destruct (w =? MAX_TRIES)|]; intros [= <- _]; exact F.
Qed.
Lemma kept_incl K k n v p o o' : incl o o' -> kept K k n v p o -> kept K k n v p o'.
Proof. intros H [(d & A & B)|X]; [left; exists d; auto|right; exact X]. Qed.
Lemma process_all_kept K m keys : forall s s' o, schemes_ok K -> uri_ok K -> core_ok m (f_core s) ->
  NoDup keys -> fp_ok K s -> process_all K keys s = (s', o, Ok tt) ->
  f_core s' = f_core s /\
  forall n v, In n keys -> nm_find n (f_waiting s) = Some v -> nm_find n (f_waiting s') <> None ->
    exists p, kept K (f_core s) n (v + 1) p o.
Proof.
  induction keys as [|k keys IH]; intros s s' o Sk Uk Ck Nd Ok_ E; cbn [process_all] in E.
  - injection E as <- <-. split; [reflexivity|]. intros n v [].
  - inversion Nd as [|x l Hk Nd']; subst. unfold mbind in E.
    pose proof (process_one_ok K k s Ok_) as Ok1. unfold st in Ok1.
    destruct (process_one K k s) as [[s1 o1] [[]|e|u|]] eqn:E1; try discriminate. cbn [fst] in Ok1.
    destruct (process_all K keys s1) as [[s2 o2] r2] eqn:E2. injection E as <- <- ->.
    pose proof (kc_process_one K m k s s1 o1 Sk Uk Ck Ok_ E1) as F1.
    rewrite <- F1 in Ck. destruct (IH s1 s2 o2 Sk Uk Ck Nd' Ok1 E2) as [F2 I].
    destruct (process_one_find K k s s1 o1 (fo_wsorted _ _ Ok_) E1) as [A _].
    destruct (process_all_find K keys s1 s2 o2 Nd' Ok1 E2 k) as (B & _).
    split; [congruence|]. intros n v [->|H] Hv Hs.
    + exists (f_pub s). apply (kept_incl K _ _ _ _ o1); [apply incl_appl, incl_refl|].
      destruct (fo_waiting _ _ Ok_ n v Hv) as (_ & Hn).
      apply (process_one_kept K m n v s s1 o1); auto; [congruence|apply Ok_|rewrite <- B; auto].
    + rewrite <- F1. destruct (I n v H) as [p P]; auto.
      * rewrite A; auto. intros ->. contradiction.
      * exists p. apply (kept_incl K _ _ _ _ o2); [apply incl_appr, incl_refl|exact P].
Qed.
Lemma process_kept K m s s' o n v : schemes_ok K -> uri_ok K -> core_ok m (f_core s) -> fp_ok K s ->
  process_waiting K s = (s', o, Ok tt) -> nm_find n (f_waiting s) = Some v ->
  nm_find n (f_waiting s') <> None -> exists p, kept K (f_core s) n (v + 1) p o.
Proof.
  intros Sk Uk Ck Ok_. unfold process_waiting. rewrite mbind_get. intros E Hv Hs.
  destruct (process_all_kept K m _ s s' o Sk Uk Ck (nm_keys_NoDup _ (fo_wsorted _ _ Ok_)) Ok_ E) as [_ I].
  apply (I n v); auto. apply nm_In_keys. eauto.
Qed.

(** ** Events *)
Lemma kw_schedule K s : kw s (schedule_waiting K).
Proof.
  unfold kw. rewrite schedule_eq. unfold st. cbn [fst]. destruct (f_waiting s) eqn:E; auto. destruct (f_delay s); auto.
Qed.
Lemma delay_inv K s dl s' o : f_delay s = Some dl -> dl <= f_now s -> fp_step K FeDelay s = (s', o, Ok tt) ->
  exists s1, process_waiting K (fset_delay None s) = (s1, o, Ok tt) /\ f_waiting s' = f_waiting s1.
Proof.
  intros D Hd. cbn [fp_step]. rewrite mbind_get, D. apply N.leb_le in Hd. rewrite Hd, mbind_mod.
  unfold mbind. destruct (process_waiting K (fset_delay None s)) as [[s1 o1] [[]|e|u|]]; try discriminate.
  pose proof (kw_schedule K s1) as F. unfold kw, st in F. rewrite schedule_eq in *. cbn [fst] in F.
  rewrite app_nil_r. intros [= <- <-]. exists s1. auto.
Qed.
Lemma step_waiting_quiet K s e : (forall n l, e <> FeInterest n l) -> (forall i b sc, e <> FeContent i b sc) ->
  e <> FeDelay -> f_waiting (st (fp_step K e s)) = f_waiting s.
Proof.
  intros H1 H2 H3. destruct e as [a|n l|i buf script|i face|i timeout|dt|t| | |key|i];
    try (exfalso; eapply H1; reflexivity); try (exfalso; eapply H2; reflexivity); try reflexivity;
    try contradiction; cbn [fp_step].
  - apply kw_api.
  - rewrite mbind_get. destruct (fetch_of _ _); reflexivity.
  - rewrite mbind_get. destruct (fetch_of _ _); [|reflexivity]. rewrite mbind_mod. destruct timeout; reflexivity.
  - rewrite mbind_get. destruct (f_sched s) as [[dl k]|]; [|reflexivity]. destruct (dl <=? _); [|reflexivity].
    rewrite mbind_mod. destruct k; [exact (kw_send K (fset_sched None s))|]. rewrite mbind_mod.
    exact (kw_send K (fset_wait false (fset_sched None s))).
  - destruct (nm_find key (f_pending s)) eqn:E; cbn; rewrite E; [destruct (fe_expiry f <=? f_now s)|]; reflexivity.
Qed.
Lemma step_waiting_content K s i b sc s' o : fp_ok K s -> fp_step K (FeContent i b sc) s = (s', o, Ok tt) ->
  f_waiting s' = f_waiting s \/ served (f_waiting s) (f_waiting s').
Proof.
  intros Ok_. cbn [fp_step]. rewrite mbind_get. destruct (fetch_of i (f_live s)) as [n|] eqn:E; [|intros [= <- <-]; auto].
  rewrite mbind_mod. set (s0 := fset_live _ s).
  assert (fp_ok K s0) as Ok0 by (eapply (e_finished _ (ok_rel_events K)); eauto).
  unfold on_sync_data, delete_pending. rewrite mbind_mod. set (s1 := fset_pending _ s0).
  assert (fp_ok K s1) as Ok1 by (eapply (c_erase _ _ _ (ok_rel_closed K (fun _ => True))); eauto).
  destruct (obind _ _) as [names|x|u|]; try (intros [= <- <-]; left; reflexivity); try discriminate.
  pose proof (kw_take names s1) as W2. pose proof (tr_take K (fun _ => True) (ok_rel K) (ok_rel_closed K _) (fun _ => I) (fun _ _ _ => I) names s1 Ok1) as Ok2.
  unfold kw, st in W2. unfold st in Ok2. unfold mbind at 1.
  destruct (take_updates names s1) as [[s2 o2] [[|m l]|x|u|]]; try discriminate; cbn [fst] in W2, Ok2.
  - unfold draw. rewrite mbind_mod, mbind_assoc, mbind_get, mbind_assoc, mbind_mod, mbind_ret.
    intros [= <- <-]. left. exact W2.
  - unfold mbind at 1, memit at 1. unfold mbind at 1.
    pose proof (kw_apis K sc s2) as W3.
    pose proof (tr_apis K (fun _ => True) (ok_rel K) (ok_rel_closed K _) sc s2 (ok_true _ _ (fun _ => I)) Ok2) as Ok3.
    unfold kw, st in W3. unfold st in Ok3.
    destruct (api_calls K sc s2) as [[s3 o3] [[]|x|u|]]; try discriminate; cbn [fst] in W3, Ok3.
    unfold draw. rewrite mbind_assoc, mbind_get, mbind_assoc, mbind_mod, mbind_ret, mbind_mod. set (s4 := fset_wait _ _).
    assert (fp_ok K s4) as Ok4 by (destruct Ok3; constructor; auto).
    destruct (process_waiting K s4) as [[s5 o5] [[]|x|u|]] eqn:E5; try discriminate. intros [= <- <-].
    right. apply process_find in E5; auto. change (f_waiting s4) with (f_waiting s3) in E5. rewrite W3, W2 in E5. exact E5.
Qed.
