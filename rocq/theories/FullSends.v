(** The sync interests a full-sync node sends. *)
From Coq Require Import List NArith ZArith Bool Arith Lia.
From Verif Require Import Base BaseFacts Mon MonFacts Iblt SpecIblt IbltFacts Tlv TlvFacts State NMap NMapFacts
  Codec CodecFacts Store StoreFacts Producer SpecProducer ProducerFacts Partial SpecPartial PartialFacts
  PartialSteps Full FullTrace SpecFull FullFacts FullSafe FullSteps FullData FullRuns FullTimers.
Import ListNotations.
Local Open Scope N_scope.

Lemma no_interest_app a b : no_interest (a ++ b) <-> no_interest a /\ no_interest b.
Proof.
  unfold no_interest. split.
  - intros H. split; intros n t X; apply (H n t); apply in_or_app; auto.
  - intros [A B] n t X. apply in_app_or in X as [X|X]; [eapply A|eapply B]; eauto.
Qed.
Lemma no_interest_nil : no_interest []. Proof. intros n t []. Qed.
Lemma no_interest_data l : no_interest (map FoData l).
Proof. intros n t H. apply in_map_iff in H as (d & H & _). discriminate. Qed.
Lemma no_interest_split o o1 n t o2 : no_interest o -> o = o1 ++ FoInterest n t :: o2 -> False.
Proof. intros H ->. apply (H n t). apply in_or_app. right. left. reflexivity. Qed.
#[global] Hint Resolve no_interest_nil no_interest_data : core.
Ltac no_int := first [apply no_interest_nil | apply no_interest_data | intros ? ? [|[]]; discriminate].

(** ** Interests name the current IBF *)
Definition named_rel (K : fcfg) (s : fp) (o : list fout) (s' : fp) : Prop :=
  core_rel s o s' /\ forall o1 n t o2, o = o1 ++ FoInterest n t :: o2 ->
    exists k, crun (f_core s) (ops_of o1) = Ok k /\ asks K k n.
Lemma named_quiet K s o s' : core_rel s o s' -> no_interest o -> named_rel K s o s'.
Proof. intros H Q. split; auto. intros o1 n t o2 E. destruct (no_interest_split o o1 n t o2 Q E). Qed.
Lemma named_trans K s o s1 o1 s2 : named_rel K s o s1 -> named_rel K s1 o1 s2 -> named_rel K s (o ++ o1) s2.
Proof.
  intros [C A] [C1 A1]. split; [eapply core_rel_trans; eauto|]. intros a n t b E.
  apply app_eq_app in E as (l & [[E1 E2]|[E1 E2]]).
  - destruct l as [|x l].
    + simpl in E2. rewrite app_nil_r in E1. subst. destruct (A1 [] n t b eq_refl) as (k & Hk & Ha).
      exists k. rewrite <- app_nil_r at 1. rewrite app_nil_r. split; auto. unfold core_rel in C. rewrite C.
      injection Hk as <-. reflexivity.
    + injection E2 as <- E2. eapply A; eauto.
  - subst a. destruct (A1 l n t b E2) as (k & Hk & Ha). exists k. split; auto.
    rewrite ops_of_app, crun_app. unfold core_rel in C. rewrite C. exact Hk.
Qed.
Lemma named_send K s : named_rel K s (outs (send_sync_interest K s)) (st (send_sync_interest K s)).
Proof.
  split; [apply core_rel_send|]. rewrite send_eq. unfold outs. destruct (f_wait s); cbn [fst snd];
    [intros o1 n t o2 E; destruct o1; discriminate|].
  destruct (sync_name K (f_core s)) as [n|e|u|] eqn:En; try (intros [|] ? ? ? E; discriminate).
  destruct (_ && _); [intros [|] ? ? ? E; discriminate|].
  intros o1 n' t o2 E. cbn [fst snd] in E. destruct o1 as [|x [|y o1]]; try discriminate.
  injection E as <- _ _. exists (f_core s). split; [reflexivity|]. apply sync_name_asks; auto.
Qed.
Lemma named_closed K ok : closed K ok (named_rel K).
Proof.
  pose proof (core_rel_closed K) as CC.
  split; intros; try (apply named_quiet; [reflexivity|no_int]); try apply named_send; eauto using named_trans.
  - apply named_quiet; [|no_int]. unfold core_rel. simpl. rewrite H0. reflexivity.
  - apply named_quiet; [unfold core_rel; rewrite ops_of_data; reflexivity|no_int].
  - apply (data_closed K (named_rel K)); intros; try (apply named_quiet; [reflexivity|no_int]);
      try apply named_send; eauto using named_trans.
    apply named_quiet; [unfold core_rel; rewrite ops_of_data; reflexivity|no_int].
  - apply (start_closed K (named_rel K)); intros; try (apply named_quiet; [reflexivity|no_int]); eauto using named_trans.
  - apply (arm_closed K (named_rel K)); intros; try (apply named_quiet; [reflexivity|no_int]); eauto using named_trans.
Qed.
Lemma named_events K : closed_events (named_rel K).
Proof. split; intros; apply named_quiet; try reflexivity; no_int. Qed.
Theorem reaches_asks K sys evs s o : reaches K sys evs s o -> asks_current K o.
Proof.
  intros [W H]. apply start_inv in H as (s0 & o0 & o1 & E & R & ->).
  assert (named_rel K (fp_blank K sys) (o0 ++ o1) s) as N.
  { eapply named_trans.
    - pose proof (named_send K (fp_blank K sys)) as X. unfold fp_init in E. rewrite E in X. exact X.
    - eapply (tr_run K (fun _ => True) (named_rel K) (named_closed K _)); eauto; intros; auto using named_events;
        try (apply named_quiet; [reflexivity|no_int]). apply ok_true. auto. }
  intros a n t b Q. destruct (proj2 N a n t b Q) as (k & Hk & Ha). exists k. auto.
Qed.

(** ** Pacing *)
Definition last_sent (o : list fout) (s : fp) : Prop :=
  (no_interest o /\ f_outstanding s = []) \/
  exists o1 n t o2 c x, o = o1 ++ FoInterest n t :: o2 /\ no_interest o2 /\
    n = c ++ [number_comp TYPE_GENERIC x] /\ f_last s = t /\
    (f_outstanding s = n \/ (f_outstanding s = [] /\ f_live s = [] /\ answered_in n o2)).
Lemma paced_snoc o x : paced o ->
  (forall n t, x = FoInterest n t -> forall o1 t1 o2, o = o1 ++ FoInterest n t1 :: o2 -> no_interest o2 ->
     (Z.of_N MIN_JITTER <= t - t1)%Z \/ answered_in n o2) -> paced (o ++ [x]).
Proof.
  intros P H o1 n t1 o2 t2 o3 E N. destruct o3 as [|y o3] using rev_ind.
  - assert (o1 ++ FoInterest n t1 :: o2 ++ [FoInterest n t2] = (o1 ++ FoInterest n t1 :: o2) ++ [FoInterest n t2]) as Q
      by (rewrite <- app_assoc; reflexivity).
    rewrite Q in E. apply app_inj_tail in E as [-> ->]. eapply H; eauto.
  - clear IHo3. assert (o1 ++ FoInterest n t1 :: o2 ++ FoInterest n t2 :: o3 ++ [y] =
      (o1 ++ FoInterest n t1 :: o2 ++ FoInterest n t2 :: o3) ++ [y]) as Q
      by (rewrite <- !app_assoc; simpl; rewrite <- app_assoc; reflexivity).
    rewrite Q in E. apply app_inj_tail in E as [-> _]. eapply P; eauto.
Qed.
Lemma paced_quiet o o' : paced o -> no_interest o' -> paced (o ++ o').
Proof.
  revert o. induction o' as [|x o' IH]; intros o P N; [rewrite app_nil_r; auto|].
  change (x :: o') with ([x] ++ o') in *. apply no_interest_app in N as [N1 N2]. rewrite app_assoc. apply IH; auto.
  apply paced_snoc; auto. intros n t ->. exfalso. eapply (N1 n t). left. reflexivity.
Qed.
Lemma last_sent_quiet o o' s s' : last_sent o s -> no_interest o' -> f_outstanding s' = f_outstanding s ->
  f_last s' = f_last s -> (f_live s = [] -> f_live s' = []) -> last_sent (o ++ o') s'.
Proof.
  intros [[A B]|(o1 & n & t & o2 & c & x & -> & A & B & C & D)] N Eo El Ev.
  - left. split; [apply no_interest_app; auto|congruence].
  - right. exists o1, n, t, (o2 ++ o'), c, x. split; [rewrite <- app_assoc; reflexivity|].
    split; [apply no_interest_app; auto|]. split; auto. split; [congruence|].
    destruct D as [D|(D & D1 & d & D2 & D3)]; [left; congruence|right]. split; [congruence|]. split; auto.
    exists d. split; auto. apply in_or_app. auto.
Qed.
Lemma last_unique a a' n t b n' t' b' : a ++ FoInterest n t :: b = a' ++ FoInterest n' t' :: b' ->
  no_interest b -> no_interest b' -> n = n' /\ t = t' /\ b = b'.
Proof.
  intros E N N'. apply app_eq_app in E as (l & [[_ E]|[_ E]]); destruct l as [|x l]; simpl in E.
  - injection E as -> -> ->. auto.
  - injection E as _ ->. exfalso. apply (N' n t). apply in_or_app. right. left. reflexivity.
  - injection E as -> -> ->. auto.
  - injection E as _ ->. exfalso. apply (N n' t'). apply in_or_app. right. left. reflexivity.
Qed.

Section Pace.
Variable K : fcfg.
Hypothesis Sk : schemes_ok K.
Definition pace_rel (s : fp) (o : list fout) (s' : fp) : Prop :=
  fp_ok K s -> fp_ok K s' /\
  forall o0, last_sent o0 s -> paced o0 -> last_sent (o0 ++ o) s' /\ paced (o0 ++ o).
Lemma pace_trans s o s1 o1 s2 : pace_rel s o s1 -> pace_rel s1 o1 s2 -> pace_rel s (o ++ o1) s2.
Proof.
  intros A B H. destruct (A H) as [H1 A']. destruct (B H1) as [H2 B']. split; auto.
  intros o0 L P. destruct (A' o0 L P) as [L1 P1]. rewrite app_assoc. auto.
Qed.
Lemma pace_quiet s o s' : (fp_ok K s -> fp_ok K s') -> no_interest o -> f_outstanding s' = f_outstanding s ->
  f_last s' = f_last s -> (f_live s = [] -> f_live s' = []) -> pace_rel s o s'.
Proof.
  intros Ho N A B C H. split; auto. intros o0 L P. split; [eapply last_sent_quiet; eauto|apply paced_quiet; auto].
Qed.
Lemma asks_last k n : asks K k n -> exists c x, n = c ++ [number_comp TYPE_GENERIC x].
Proof. intros (c & _ & ->). exists (fc_sync K ++ [c]), (k_count k). rewrite <- app_assoc. reflexivity. Qed.
Lemma pace_send s : pace_rel s (outs (send_sync_interest K s)) (st (send_sync_interest K s)).
Proof.
  intros H. pose proof (ok_rel_send K s H) as Ho. split; auto. intros o0 L P. revert Ho.
  rewrite send_eq. destruct (f_wait s); [unfold outs, st; cbn [fst snd]; rewrite app_nil_r; auto|].
  assert (last_sent (o0 ++ []) (stopped s)) as S.
  { eapply last_sent_quiet; eauto; unfold stopped; destruct (f_fetcher s); auto. simpl. intros ->. reflexivity. }
  destruct (sync_name K (f_core s)) as [n|e|u|] eqn:En; unfold outs, st; cbn [fst snd]; intros _;
    try (split; [exact S|rewrite app_nil_r; exact P]).
  apply sync_name_asks in En. destruct (asks_last _ _ En) as (c & x & Hn).
  destruct (_ && _) eqn:B; cbn [fst snd]; [split; [exact S|rewrite app_nil_r; exact P]|].
  split.
  - right. exists o0, n, (f_sys s), [], c, x. split; auto. split; auto. split; auto. split; auto.
    unfold sent. cbn. unfold stopped. destruct (f_fetcher s); reflexivity.
  - apply paced_snoc; auto. intros n' t [= <- <-] o1 t1 o2 E N.
    destruct L as [[A _]|(p1 & m & t' & p2 & c' & x' & E' & N' & _ & El & D)].
    + destruct (no_interest_split o0 o1 n t1 o2 A E).
    + rewrite E in E'. destruct (last_unique _ _ _ _ _ _ _ _ E' N N') as (<- & <- & <-).
      destruct D as [D|(_ & _ & D)]; [|right; exact D]. left. rewrite D, name_eqb_refl, andb_true_r in B.
      apply Z.ltb_ge in B. rewrite El in B. exact B.
Qed.
Lemma publish_first n c x now p b f q l : n = c ++ [number_comp TYPE_GENERIC x] ->
  publish (fc_env K) now n n b f p = (q, Ok l) -> answered_in n (map FoData l).
Proof.
  intros Hn E. unfold publish in E. injection E as _ E. unfold put_segment in E.
  rewrite Hn in E at 1. rewrite name_get_back_snoc in E. cbn [obind] in E.
  change (is_segment (number_comp TYPE_GENERIC x)) with false in E. cbn [obind] in E.
  rewrite segment_length in E. pose proof (nseg_bounds b) as [Nb _].
  destruct (N.ltb_spec 0 (N.of_nat (nseg b))) as [_|X]; [|lia].
  change (N.to_nat 0) with 0%nat in E. rewrite segment_nth in E by auto. injection E as <-.
  eexists. split; [left; reflexivity|]. unfold seg_data, append_segment, append_version. cbn [d_name].
  rewrite <- app_assoc. apply is_prefix_app.
Qed.
Lemma pace_data ok s n l f : data_why K ok s n l f -> pace_rel s (outs (send_sync_data K n l f s)) (st (send_sync_data K n l f s)).
Proof.
  intros Hw H. pose proof (c_data _ _ _ (ok_rel_closed K ok) s n l f Hw H) as Ho. split; auto. clear Ho.
  intros o0 L P. unfold send_sync_data. rewrite mbind_get. cbv zeta.
  destruct (scheme_ok_compress (fc_codec K) (fc_cscheme K) (encode_names l) (proj2 Sk)) as [b Eb].
  set (own := name_eqb (f_outstanding s) n).
  set (s1 := if own && match f_fetcher s with Some _ => true | None => false end
             then fset_outstanding [] (stopped s) else s).
  assert (fp_ok K s1) as Ok1.
  { unfold s1. destruct (own && _); auto. pose proof (stopped_live K s H) as Lv.
    pose proof (stopped_ok K s H) as [B1 B2 B3 B4 B5 B6 B7]. constructor; auto. }
  assert (forall m : FM unit, ((if own && match f_fetcher s with Some _ => true | None => false end
    then stop_fetcher ;; mmod (fset_outstanding []) else mret tt) ;; m) s = m s1) as Q.
  { intros m. unfold s1. destruct (own && _); [|apply mbind_ret].
    unfold stop_fetcher. rewrite mbind_assoc, !mbind_mod. reflexivity. }
  rewrite Q. clear Q. rewrite mbind_lift, Eb. unfold mbind. rewrite fp_publish_eq.
  destruct (publish (fc_env K) (f_now s1) n n b f (f_pub s1)) as [q r] eqn:Eq. cbn [fst snd].
  assert (own = true -> n = [] -> f_outstanding s1 = f_outstanding s) as Z0.
  { intros O ->. apply name_eqb_eq in O. unfold s1. destruct (own && _); auto. }
  assert (last_sent (o0 ++ map FoData match r with Ok l0 => l0 | _ => [] end) (fset_pub q s1) /\
          paced (o0 ++ map FoData match r with Ok l0 => l0 | _ => [] end)) as [L1 P1].
  { split; [|apply paced_quiet; auto].
    assert (s1 = s \/ (own = true /\ s1 = fset_outstanding [] (stopped s))) as [Es|[B1 Es]].
    { unfold s1. destruct own; simpl; auto. destruct (f_fetcher s); auto. }
    { rewrite Es. eapply last_sent_quiet; eauto. }
    assert (f_live s1 = []) as Lv by (rewrite Es; exact (stopped_live K s H)).
    assert (f_last s1 = f_last s) as Ll by (rewrite Es; simpl; unfold stopped; destruct (f_fetcher s); auto).
    assert (f_outstanding s1 = []) as Lo by (rewrite Es; reflexivity).
    clearbody s1. unfold own in B1, Z0. pose proof B1 as B0. apply name_eqb_eq in B1.
    destruct n as [|n0 nr].
    - eapply last_sent_quiet; eauto.
    - remember (n0 :: nr) as n. assert (n <> []) as N0 by (subst; discriminate).
      destruct L as [[_ A]|(p1 & m & t' & p2 & c' & x' & -> & N' & Em & El & D)]; [congruence|].
      assert (m = n) as -> by (destruct D as [D|(D & _)]; congruence).
      assert (exists ds, r = Ok ds) as [ds ->].
      { unfold publish in Eq. injection Eq as _ <-. apply put_segment_total; auto. }
      right. exists p1, n, t', (p2 ++ map FoData ds), c', x'. split; [rewrite <- app_assoc; reflexivity|].
      split; [apply no_interest_app; auto|]. split; auto. split; [simpl; congruence|].
      right. split; [exact Lo|]. split; [exact Lv|].
      destruct (publish_first n c' x' _ _ _ _ _ _ Em Eq) as (d & D1 & D2). exists d. split; auto.
      apply in_or_app. auto. }
  destruct r as [ds|e|u|]; try (split; [exact L1|exact P1]).
  destruct own eqn:O.
  - assert (fp_ok K (fset_pub q s1)) as Ok2.
    { destruct Ok1. constructor; auto. pose proof (publish_blobs1 (fc_env K) (f_now s1) n n b f (f_pub s1)) as X.
      rewrite Eq in X. auto. }
    destruct (pace_send (fset_pub q s1) Ok2) as [_ X]. destruct (X _ L1 P1) as [X1 X2].
    unfold outs, st in *. destruct (send_sync_interest K (fset_pub q s1)) as [[s3 o3] r3]. cbn [fst snd] in *.
    rewrite app_assoc. auto.
  - unfold mret, outs, st. cbn [fst snd]. rewrite app_nil_r. auto.
Qed.
Lemma pace_closed ok : closed K ok pace_rel.
Proof.
  pose proof (ok_rel_closed K ok) as CC.
  split; intros;
    try (apply pace_quiet; [intros Hs; destruct Hs; constructor; auto; fail|no_int|reflexivity|reflexivity|auto; fail]);
    try apply pace_send; try (eapply pace_data; eassumption); eauto using pace_trans.
  - apply pace_quiet; auto. apply (c_publish _ _ _ CC); assumption.
  - apply pace_quiet; auto. apply (c_erase _ _ _ CC).
  - apply pace_quiet; auto. apply (c_pend _ _ _ CC s n t rcvd); auto.
  - apply (start_closed K pace_rel); eauto using pace_trans.
    + intros; apply pace_quiet; auto.
    + intros; apply pace_quiet; auto. intros []; constructor; auto.
    + intros; apply pace_quiet; auto. intros []; constructor; auto.
    + apply pace_quiet; auto. intros []. constructor; auto; cbn [f_waiting fset_waiting]; [apply nm_set_sorted; auto|].
      intros m v. rewrite nm_find_set. destruct (name_eqb m n) eqn:E; auto. apply name_eqb_eq in E. subst.
      intros [= <-]. split; [unfold MAX_TRIES; lia|eauto].
  - apply pace_quiet; auto. eapply (c_wmark _ _ _ CC); eauto.
  - apply pace_quiet; auto. eapply (c_wtry _ _ _ CC); eauto.
  - apply pace_quiet; auto. eapply (c_werase _ _ _ CC); eauto.
  - apply (arm_closed K pace_rel); eauto using pace_trans.
    + intros; apply pace_quiet; auto.
    + intros; apply pace_quiet; auto. intros []; constructor; auto.
    + intros; apply pace_quiet; auto. intros []; constructor; auto.
  - apply pace_quiet; auto. apply (c_store _ _ _ CC).
Qed.
Lemma pace_events : closed_events pace_rel.
Proof.
  pose proof (ok_rel_events K) as CC.
  split; intros; apply pace_quiet; try reflexivity; try no_int; auto;
    try (intros Hs; destruct Hs; constructor; auto; fail).
  - eapply (e_finished _ CC); eauto.
  - simpl. intros ->. reflexivity.
Qed.
Theorem reaches_paced sys evs s o : reaches K sys evs s o -> last_sent o s /\ paced o.
Proof.
  intros [W H]. apply start_inv in H as (s0 & o0 & o1 & E & R & ->).
  assert (pace_rel (fp_blank K sys) (o0 ++ o1) s) as N.
  { eapply pace_trans.
    - pose proof (pace_send (fp_blank K sys)) as X. unfold fp_init in E. rewrite E in X. exact X.
    - eapply (tr_run K (fun _ => True) pace_rel (pace_closed _)); eauto; intros; auto using pace_events;
        try (apply pace_quiet; auto; intros []; constructor; auto; fail). apply ok_true. auto. }
  destruct (N (blank_ok K sys)) as [_ N2]. apply (N2 []).
  - left. split; auto.
  - intros a n t1 b t2 c Q. destruct a; discriminate.
Qed.
End Pace.
