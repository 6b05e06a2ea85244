(** Property theorems about calls that do not throw and events that do not touch the numbers (C96, C97). *)
From Coq Require Import List NArith ZArith Bool Arith Lia.
From Coq.Strings Require Import Byte.
From Verif Require Import Base BaseFacts Mon MonFacts Iblt SpecIblt Tlv TlvFacts State NMap NMapFacts Codec CodecFacts Bloom
  Store StoreFacts SpecStore Producer SpecProducer ProducerFacts Partial SpecPartial PartialFacts PartialSteps
  Full FullTrace SpecFull FullFacts FullSafe FullSteps FullData FullRuns Consumer SpecConsumer ConsumerFacts
  Properties_Producer Properties_Partial Properties_Full Properties_Consumer.
Import ListNotations.
Local Open Scope N_scope.

(** * C96 *)
Theorem C96_producer_calls_do_not_throw : forall K e s x,
  scheme_ok (pc_codec K) (pc_scheme K) -> (forall n l, e <> PInterest n l) -> res (pp_step K e s) <> Throw x.
Proof.
  intros K e s x Sk He. destruct e as [p|p|p q|n l|dt|key|i]; cbn [pp_step]; try discriminate.
  - rewrite mbind_get, mbind_lift. pose proof (core_remove_no_throw p (pp_core s)) as H.
    destruct (core_remove p (pp_core s)); try discriminate. destruct (H e). reflexivity.
  - unfold pp_publish_name. rewrite mbind_get, mbind_lift. pose proof (core_publish_no_throw p q (pp_core s)) as H.
    destruct (core_publish p q (pp_core s)) as [[k r]|e| |]; try discriminate; [|destruct (H e); reflexivity].
    rewrite mbind_mod. cbn [fst snd]. destruct r; [apply satisfy_no_throw; auto|discriminate].
  - destruct (He n l). reflexivity.
Qed.
Print Assumptions C96_producer_calls_do_not_throw.
Theorem C96_full_calls_do_not_throw : forall K sys evs s o e x,
  schemes_ok K -> uri_ok K -> reaches K sys evs s o ->
  (forall n l, e <> FeInterest n l) -> (forall i buf sc, e <> FeContent i buf sc) ->
  res (fp_step K e s) <> Throw x.
Proof.
  intros K sys evs s o e x Sk Uk R Hi Hc H.
  assert (tame (res (fp_step K e s))) as T.
  { apply (step_tame K Sk Uk s e (reaches_ok _ _ _ _ _ R)). destruct e; try exact I; [destruct (Hi n lifetime)|destruct (Hc i buf script)]; reflexivity. }
  rewrite H in T. exact T.
Qed.
Print Assumptions C96_full_calls_do_not_throw.
Theorem C96_consumer_calls_do_not_throw : forall K e s x,
  (forall i buf s1 s2, e <> CeContent i buf s1 s2) -> res (c_step K e s) <> Throw x.
Proof.
  intros K e s x He. apply step_no_throw. intros buf H.
  destruct e as [a|i d|i b s1 s2|i t|dt|i]; try contradiction. destruct (He i b s1 s2). reflexivity.
Qed.
Print Assumptions C96_consumer_calls_do_not_throw.
(** what application calls return when two interests wait and a name is published *)
Definition evs_96 : list fev := [FeInterest blank_ask 1000; FeApi (AAdd pa)].
Example C96_example : exists s o s' out, schemes_ok Kf /\ uri_ok Kf /\ reaches Kf 0 evs_96 s o /\
  fp_step Kf (FeApi (APublish pa None)) s = (s', out, Ok tt) /\ data_of out <> [].
Proof.
  eexists _, _, _, _. split; [apply Kf_ok|]. split; [apply Kf_ok|]. split; [split; [repeat constructor|vm_compute; reflexivity]|].
  split; [vm_compute; reflexivity|]. discriminate.
Qed.

(** * C97 *)
(** interests and timers leave the names, numbers, IBF and count of a partial producer as they are *)
Theorem C97_producer_only_calls_change_numbers : forall K e s,
  (forall p, e <> PAdd p) -> (forall p, e <> PRemove p) -> (forall p q, e <> PPublishName p q) ->
  pp_core (st (pp_step K e s)) = pp_core s.
Proof.
  intros K e s H1 H2 H3. destruct e as [p|p|p q|n l|dt|key|i]; cbn [pp_step];
    try (destruct (H1 p); reflexivity); try (destruct (H2 p); reflexivity); try (destruct (H3 p q); reflexivity); try reflexivity.
  - apply dispatch_core.
  - unfold mmod, st, expire. cbn [fst]. destruct (nm_find key (pp_pending s)) as [e|]; [|reflexivity].
    destruct (pe_expiry e) as [[dl n]|]; [|reflexivity]. destruct (dl <=? _); reflexivity.
Qed.
Print Assumptions C97_producer_only_calls_change_numbers.

Lemma crun_adds ops : forall k k', Forall (fun o => exists p, o = CAdd p) ops -> crun k ops = Ok k' ->
  k_iblt k' = k_iblt k /\ k_count k' = k_count k /\ k_bimap k' = k_bimap k /\
  forall p, get_seq p k' = get_seq p k \/ get_seq p k = None /\ get_seq p k' = Some 0.
Proof.
  induction ops as [|o ops IH]; intros k k' F R; cbn [crun] in R.
  - injection R as <-. auto 6.
  - inversion F as [|? ? (q & ->) F']; subst. cbn [cstep obind] in R.
    destruct (IH _ _ F' R) as (A & B & C & D). unfold core_add in *.
    destruct (nm_find q (k_prefixes k)) as [w|] eqn:E; cbn [fst k_iblt k_count k_bimap] in *; [auto|].
    split; [exact A|]. split; [exact B|]. split; [exact C|]. intros p. specialize (D p). unfold get_seq in *. cbn [k_prefixes] in D.
    destruct (name_eqb p q) eqn:Q.
    + apply name_eqb_eq in Q. subst q. rewrite nm_find_set_same in D. right. split; [exact E|]. destruct D as [D|[D _]]; [exact D|discriminate].
    + rewrite nm_find_set_other in D; [exact D|]. intros ->. rewrite name_eqb_refl in Q. discriminate.
Qed.
(** without calls of the application and without sync data, a full-sync node keeps its IBF, its count
    and every number; at most a prefix it does not know is entered with number 0 *)
Theorem C97_full_only_calls_and_data_change_numbers : forall K e s s' o r,
  (forall a, e <> FeApi a) -> (forall i buf sc, e <> FeContent i buf sc) -> fp_step K e s = (s', o, r) ->
  k_iblt (f_core s') = k_iblt (f_core s) /\ k_count (f_core s') = k_count (f_core s) /\
  k_bimap (f_core s') = k_bimap (f_core s) /\
  forall p, get_seq p (f_core s') = get_seq p (f_core s) \/ get_seq p (f_core s) = None /\ get_seq p (f_core s') = Some 0.
Proof.
  intros K e s s' o r Ha Hc E. destruct (step_other_inv K e s Hc) as [_ F]. rewrite E in F.
  pose proof (step_core K s e) as C. unfold core_rel in C. rewrite E in C. cbn [outs st fst snd] in F, C.
  apply (crun_adds (ops_of o)); [|exact C]. eapply Forall_impl; [|exact F]. intros c [H|H]; [|exact H].
  exfalso. destruct e as [a|n l|i b sc|i f|i t|dt|t| | |k|i]; try exact H; [apply (Ha a)|apply (Hc i b sc)]; reflexivity.
Qed.
Print Assumptions C97_full_only_calls_and_data_change_numbers.

Definition same_core (s s' : fp) : Prop := f_core s' = f_core s.
Definition kc {A} (m : FM A) : Prop := keeps same_core m.
Lemma kc_bind {A B} (m : FM A) (f : A -> FM B) : kc m -> (forall a, kc (f a)) -> kc (mbind m f).
Proof. apply keeps_bind; unfold same_core; congruence. Qed.
Lemma kc_ret {A} (a : A) : kc (mret a). Proof. intros s. reflexivity. Qed.
Lemma kc_lift {A} (r : outcome A) : kc (mlift r). Proof. intros s. reflexivity. Qed.
Lemma kc_get : kc mget. Proof. intros s. reflexivity. Qed.
Lemma kc_mod g : (forall s, f_core (g s) = f_core s) -> kc (mmod g). Proof. intros H s. apply H. Qed.
Lemma kc_emit o : kc (memit o). Proof. intros s. reflexivity. Qed.
Lemma kc_send K : kc (send_sync_interest K).
Proof.
  intros s. unfold same_core. rewrite send_eq. destruct (f_wait s); [reflexivity|].
  destruct (Full.sync_name _ _); unfold st; cbn [fst]; try apply stopped_core. destruct (_ && _); cbn [fst]; try apply stopped_core.
Qed.
Lemma kc_publish K n dn b f : kc (fp_publish K n dn b f).
Proof. intros s. unfold fp_publish, same_core. destruct (publish _ _ _ _ _ _ _) as [p [l|e|u|]]; reflexivity. Qed.
Ltac kcs := repeat first [apply kc_send | apply kc_bind; [|intros] | apply kc_ret | apply kc_lift | apply kc_get | apply kc_send | apply kc_publish
  | apply kc_emit | match goal with |- kc (mmod _) => apply kc_mod; intros; try reflexivity end | match goal with |- kc (if ?b then _ else _) => destruct b end
  | match goal with |- kc (match ?b with _ => _ end) => destruct b end ].
Lemma kc_stop : kc stop_fetcher.
Proof. intros s. unfold stop_fetcher, mmod, same_core, st. cbn [fst]. destruct (f_fetcher s); reflexivity. Qed.
Lemma kc_data K n l f : kc (send_sync_data K n l f).
Proof. unfold send_sync_data. cbv zeta. kcs; apply kc_stop. Qed.
Lemma kc_schedule K : kc (schedule_waiting K).
Proof. unfold schedule_waiting. kcs. Qed.
Lemma kc_mark n : kc (mark_waiting n).
Proof. unfold mark_waiting. kcs. destruct (nm_find n (f_waiting s)); reflexivity. Qed.
Lemma kc_undec K n t r d : kc (on_undecodable K n t r d).
Proof. unfold on_undecodable, start_waiting, delete_pending. 
  repeat first [apply kc_data | apply kc_mark | apply kc_schedule | apply kc_send | apply kc_ret | apply kc_get
    | match goal with
      | |- kc (mbind _ _) => apply kc_bind; [|intros]
      | |- kc (mmod _) => apply kc_mod; reflexivity
      | |- kc (let _ := _ in _) => cbv zeta
      | |- kc (match ?b with _ => _ end) => destruct b
      end].
Qed.
Lemma same_decoded K m n l t tb d s : uri_ok K -> core_ok m (f_core s) -> same_core s (st (on_decoded K n l t tb d s)).
Proof.
  intros Uk Ck. unfold on_decoded. rewrite mbind_get.
  assert (same_core s (st ((mlet l0 <- offered K (negative d) (positive d);
    match l0 with [] => mret tt | _ :: _ => send_sync_data K n l0 (fc_fresh K) ;; mark_waiting n end) s))) as H.
  { unfold mbind at 1. rewrite (offered_eq K m _ _ s Uk Ck).
    set (z := match offer _ _ _ with [] => _ | _ => _ end).
    assert (same_core s (st (z s))) as Z.
    { subst z. destruct (offer _ _ _); [reflexivity|]. apply kc_bind; [apply kc_data|intros; apply kc_mark]. }
    destruct (z s) as [[a b] c]. exact Z. }
  destruct (positive d) as [|h hs]; [|destruct (negative d); exact H].
  destruct (negative d) as [|g gs].
  - apply kc_bind; [apply kc_mod; reflexivity|]. intros _. destruct t; [apply kc_mark|apply kc_ret].
  - destruct t, (nm_find n (f_waiting s)) as [v|]; try apply kc_ret.
    + destruct (1 <? v); [apply kc_mark|apply kc_ret].
    + unfold start_waiting. apply kc_bind; [apply kc_mod; reflexivity|]. intros _. apply kc_schedule.
Qed.
Lemma same_finterest K m n l t s : uri_ok K -> core_ok m (f_core s) -> same_core s (st (on_finterest K n l t s)).
Proof.
  intros Uk Ck. unfold on_finterest. rewrite mbind_get. destruct (reply_from_store n (f_pub s)); [reflexivity|].
  cbv zeta. destruct (Nat.eqb _ 4).
  { enough (kc (fp_send_nack K (fc_sync K))) as H by apply H. unfold fp_send_nack. kcs. }
  destruct (negb _); [reflexivity|]. rewrite mbind_lift. destruct (name_get_back n 2) as [c| | |]; try reflexivity.
  rewrite mbind_lift. destruct (name_get_back n 1) as [c1| | |]; try reflexivity.
  rewrite mbind_lift. destruct (to_number c1) as [v| | |]; try reflexivity.
  destruct (initialize _ _ _ _) as [tb [[]|e|u|]]; try reflexivity.
  rewrite mbind_lift. destruct (iblt_sub _ _ _) as [d|e|u|]; try reflexivity.
  destruct (can_decode d); [apply (same_decoded K m); auto|apply kc_undec].
Qed.
Lemma same_process K m keys : forall s, uri_ok K -> core_ok m (f_core s) -> same_core s (st (process_all K keys s)).
Proof.
  induction keys as [|k keys IH]; intros s Uk Ck; cbn [process_all]; [reflexivity|].
  assert (same_core s (st (process_one K k s))) as H1.
  { unfold process_one. rewrite mbind_get. destruct (nm_find k (f_waiting s)) as [v|]; [|reflexivity]. cbv zeta.
    destruct (v =? MAX_TRIES); [reflexivity|]. rewrite mbind_mod.
    set (s1 := fset_waiting _ s). pose proof (same_finterest K m k DEFAULT_LIFETIME true s1 Uk Ck) as H. unfold mbind.
    destruct (on_finterest K k DEFAULT_LIFETIME true s1) as [[s2 o2] [[]|e|u|]]; try exact H. cbn [mget].
    destruct (nm_find k (f_waiting s2)) as [w|]; [|exact H]. destruct (w =? MAX_TRIES); exact H. }
  unfold mbind. destruct (process_one K k s) as [[s1 o1] [[]|e|u|]]; try exact H1.
  unfold same_core, st in H1. cbn [fst] in H1. specialize (IH s1 Uk). rewrite H1 in IH. specialize (IH Ck).
  destruct (process_all K keys s1) as [[s2 o2] r]. unfold same_core, st in *. cbn [fst] in *. congruence.
Qed.
(** if names survive the URI round trip and no hashes collide, nothing changes at all *)
Theorem C97_full_interests_and_timers_change_nothing : forall K sys evs s o e,
  uri_ok K -> reaches K sys evs s o -> no_collision K o ->
  (forall a, e <> FeApi a) -> (forall i buf sc, e <> FeContent i buf sc) ->
  f_core (st (fp_step K e s)) = f_core s.
Proof.
  intros K sys evs s o e Uk R Hn Ha Hc. pose proof (reaches_core_ok _ _ _ _ _ R Hn) as Ck.
  destruct e as [a|n l|i b sc|i f|i t|dt|t| | |k|i]; cbn [fp_step].
  - destruct (Ha a). reflexivity.
  - destruct (is_prefix _ _); [apply (same_finterest K (fc_n K)); auto|reflexivity].
  - destruct (Hc i b sc). reflexivity.
  - rewrite mbind_get. destruct (fetch_of i (f_live s)); reflexivity.
  - rewrite mbind_get. destruct (fetch_of i (f_live s)); [|reflexivity]. rewrite mbind_mod. destruct t; reflexivity.
  - reflexivity.
  - reflexivity.
  - rewrite mbind_get. destruct (f_sched s) as [[dl k]|]; [|reflexivity]. destruct (dl <=? _); [|reflexivity].
    rewrite mbind_mod. destruct k; [rewrite (kc_send K); reflexivity|]. rewrite mbind_mod. rewrite (kc_send K). reflexivity.
  - rewrite mbind_get. destruct (f_delay s) as [dl|]; [|reflexivity]. destruct (dl <=? _); [|reflexivity].
    rewrite mbind_mod. unfold process_waiting. set (s1 := fset_delay None s).
    assert (same_core s1 (st ((mlet s <- mget; process_all K (nm_keys (f_waiting s))) s1))) as H.
    { rewrite mbind_get. apply (same_process K (fc_n K)); auto. }
    unfold mbind at 1. destruct ((mlet s <- mget; process_all K (nm_keys (f_waiting s))) s1) as [[s2 o2] [[]|e|u|]]; try exact H.
    pose proof (kc_schedule K s2) as H2. destruct (schedule_waiting K s2) as [[s3 o3] r3]. unfold same_core, st in *. cbn [fst] in *.
    rewrite H2. exact H.
  - unfold mmod, st. cbn [fst]. destruct (nm_find k (f_pending s)) as [e|]; [|reflexivity]. destruct (fe_expiry e <=? _); reflexivity.
  - reflexivity.
Qed.
Print Assumptions C97_full_interests_and_timers_change_nothing.

(** only sync and hello data and subscribing or unsubscribing change what a consumer knows, and only
    the latter two change what it is subscribed to *)
Theorem C97_consumer_only_calls_and_data_change_numbers : forall K e s s' o r,
  c_step K e s = (s', o, r) -> (forall u, r <> UB u) -> r <> Hang ->
  (forall p v cb, ~ In (CSub p v cb) (calls_of e)) -> (forall p, ~ In (CUnsub p) (calls_of e)) ->
  (forall p, is_subscribed p s' = is_subscribed p s) /\
  ((forall i buf s1 s2, e <> CeContent i buf s1 s2) -> forall p, seq_of p s' = seq_of p s).
Proof.
  intros K e s s' o r E Hu Hh H1 H2.
  assert (fine (res (c_step K e s))) as F.
  { rewrite E. destruct r; cbn; try exact I; [destruct (Hu u)|destruct Hh]; reflexivity. }
  pose proof (c_step_view K e s F) as V. rewrite E in V. cbn [outs st res fst snd] in V.
  assert (forall a b o1, did (calls_of e) a o1 b -> same_data a b) as D.
  { intros a b o1 D. induction D as [| | |]; auto; try (exfalso; eapply H1; eauto; fail); try (exfalso; eapply H2; eauto; fail).
    eapply same_trans; eauto. }
  assert (forall names a b l, take_sync names a = (b, [], l) -> c_subs b = c_subs a) as Ts.
  { intros names a b l T. destruct (take_sync_inv names a) as (_ & (m & M & _) & _). rewrite T in M. cbn [st fst] in M. rewrite M. reflexivity. }
  assert (forall names av a b l, take_hello names av a = (b, [], l) -> c_subs b = c_subs a) as Th.
  { intros names av a b l T. destruct (take_hello_inv names av a) as (_ & (m & M & _) & _). rewrite T in M. cbn [st fst] in M. rewrite M. reflexivity. }
  assert (c_subs s' = c_subs s /\ (content_of e = [] -> c_prefixes s' = c_prefixes s)) as [G1 G2].
  { inversion V as [o' s'' r' Di [y Y]|s'' r' buf e' B1 B2 Sm Er|s0 s1 r' names buf e' B1 B2 Sm T Er|s0 s1 r' names buf e' B1 B2 Sm T Er
    |s0 s1 s'' names buf l o' r' B1 B2 Sm T Di Er|s0 s1 s2 s'' names buf l av o1 o2 r' B1 B2 Sm T D1 D2 Er]; subst;
    (split; [|try (intros C; rewrite C in B1; destruct B1)]).
    - apply D in Di. apply Di.
    - intros _. apply D in Di. apply Di.
    - apply Sm.
    - rewrite (Ts _ _ _ _ T). apply Sm.
    - rewrite (Th _ _ _ _ _ T). apply Sm.
    - apply D in Di. destruct Di as (_ & -> & _). rewrite (Ts _ _ _ _ T). apply Sm.
    - apply D in D1. apply D in D2. destruct D2 as (_ & -> & _). destruct D1 as (_ & -> & _). rewrite (Th _ _ _ _ _ T). apply Sm. }
  split; [intros p; unfold is_subscribed; rewrite G1; reflexivity|].
  intros Hc p. unfold seq_of. rewrite G2; [reflexivity|]. destruct e as [a|i d|i b s1 s2|i t|dt|i]; try reflexivity. destruct (Hc i b s1 s2). reflexivity.
Qed.
Print Assumptions C97_consumer_only_calls_and_data_change_numbers.

(** an interest with an IBF the node cannot decode, then its timers: nothing changes *)
Example C97_example : exists s o s' out, uri_ok Kf /\ reaches Kf 0 [FeApi (AAdd pa); FeApi (APublish pa None)] s o /\ no_collision Kf o /\
  fp_step Kf (FeInterest blank_ask 1000) s = (s', out, Ok tt) /\ data_of out <> [] /\ f_core s' = f_core s /\ get_seq pa (f_core s') = Some 1.
Proof.
  eexists _, _, _, _. split; [apply Kf_ok|]. split; [split; [repeat constructor|vm_compute; reflexivity]|].
  split. { intros pre post k E H. eapply check_free_ok; [|exact E|exact H]. vm_compute. reflexivity. }
  split; [vm_compute; reflexivity|]. split; [discriminate|]. split; vm_compute; reflexivity.
Qed.
(** the sync interest of a subscribed consumer fails *)
Example C97_consumer_example : exists s' o, c_step Kc (CeError 1 false) s_c2 = (s', o, Ok tt) /\ is_subscribed pa s' = true /\ seq_of pa s' = seq_of pa s_c2.
Proof. eexists _, _. split; [vm_compute; reflexivity|]. split; reflexivity. Qed.
