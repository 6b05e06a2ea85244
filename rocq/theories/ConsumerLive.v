(** Facts about consumers that keep going. *)
From Coq Require Import List NArith ZArith Bool Arith Lia.
From Verif Require Import Base BaseFacts Mon MonFacts Iblt Tlv TlvFacts State StateFacts NMap NMapFacts Codec
  Bloom SpecBloom BloomFacts Store Producer SpecProducer Partial PartialFacts PartialSteps Full
  SpecFull FullData FullRuns Consumer SpecConsumer ConsumerFacts.
Import ListNotations.
Local Open Scope N_scope.

(** ** What keeps a consumer going *)
(** [U] are the sync fetches that have not told which segment is the last: their content type is
    still to come *)
Definition going (U : nat -> Prop) (s : cs) : Prop :=
  c_timers s <> [] \/ (exists i n, In (i, (KHello, n)) (c_live s)) \/
  (exists i n, In (i, (KSync, n)) (c_live s) /\ (c_type s <> AppNack \/ U i)).
Lemma going_busy U s : going U s -> busy s.
Proof.
  intros [H|[(i & n & H)|(i & n & H & _)]]; [right; exact H|left..]; intros E; rewrite E in H; destruct H.
Qed.

Section Step.
Variable K : ccfg.
Variable n0 : nat.
Definition later (s : cs) : Prop := (n0 <= c_started s)%nat.

Lemma cstop_started p s : c_started (cstop p s) = c_started s.
Proof. destruct p; reflexivity. Qed.
Lemma later_send_hello : pres later (send_hello K).
Proof. intros s H _. rewrite send_hello_eq. unfold later in *. simpl. rewrite cstop_started. lia. Qed.
Lemma later_send_sync : pres later (send_sync K).
Proof.
  intros s H. rewrite send_sync_eq. destruct (c_iblt s); [intros []|]. destruct (append_bloom _ _); simpl; auto. intros _.
  unfold later in *. simpl. rewrite cstop_started. lia.
Qed.
(** the parts of the state that matter here *)
Definition core (s s' : cs) : Prop :=
  c_live s' = c_live s /\ c_timers s' = c_timers s /\ c_type s' = c_type s /\ c_started s' = c_started s.
Lemma core_later s s' : core s s' -> later s -> later s'.
Proof. intros (_ & _ & _ & E). unfold later. rewrite E. auto. Qed.
Lemma core_refl s : core s s.
Proof. repeat split. Qed.
Lemma sub_core p v cb s : fine (res (call K (CSub p v cb) s)) -> core s (st (call K (CSub p v cb) s)).
Proof.
  cbn [call]. pose proof (add_sub_cases K p v cb s) as C. unfold mbind. destruct (nm_find p (c_prefixes s)) as [x|].
  - rewrite C. intros _. apply core_refl.
  - destruct (bloom_insert (c_bloom s) p) as [b|e|u|] eqn:B.
    + rewrite C. intros _. repeat split; reflexivity.
    + destruct (insert_throw _ _ _ B).
    + destruct C as [C|[e C]]; [|discriminate]. destruct (add_sub K p v cb s) as [[s1 o1] [x|e|u'|]]; simpl in *; tauto.
    + destruct C as [C|[e C]]; [|discriminate]. destruct (add_sub K p v cb s) as [[s1 o1] [x|e|u'|]]; simpl in *; tauto.
Qed.
Lemma unsub_core p s : fine (res (call K (CUnsub p) s)) -> core s (st (call K (CUnsub p) s)).
Proof.
  cbn [call]. pose proof (remove_sub_cases p s) as C. unfold mbind. destruct (nm_mem p (c_subs s)) eqn:E.
  - destruct (insert_all _ _) as [b|e|u|] eqn:B.
    + rewrite C. intros _. repeat split; reflexivity.
    + destruct (insert_all_throw _ _ _ B).
    + destruct C as [C|[e C]]; [|discriminate]. destruct (remove_sub p s) as [[s1 o1] [x|e|u'|]]; simpl in *; tauto.
    + destruct C as [C|[e C]]; [|discriminate]. destruct (remove_sub p s) as [[s1 o1] [x|e|u'|]]; simpl in *; tauto.
  - rewrite C. intros _. apply core_refl.
Qed.
Lemma later_call a : pres later (call K a).
Proof.
  destruct a as [p v cb|p| | |]; intros s H F.
  - eapply core_later; [apply sub_core; exact F|exact H].
  - eapply core_later; [apply unsub_core; exact F|exact H].
  - apply later_send_hello; auto.
  - apply later_send_sync; auto.
  - unfold later in *. cbn [call]. unfold stop_all, mmod, st. simpl. destruct s as [? ? ? ? ? ? ? ? [h|] [y|] ? ? ? ?]; exact H.
Qed.
Lemma later_calls l : pres later (calls K l).
Proof. induction l as [|a l IH]; cbn [calls]; [apply pres_ret|]. apply pres_bind; [apply later_call|intros _; exact IH]. Qed.
Variable U : nat -> Prop.
Hypothesis Hfresh : forall i, (n0 <= i)%nat -> U i.
Definition gol (s : cs) : Prop := later s /\ going U s.

Lemma hello_goes s : later s -> gol (st (send_hello K s)).
Proof.
  intros H. split; [apply later_send_hello; [exact H|exact I]|]. rewrite send_hello_eq. right. left. exists (c_started (cstop (c_hello s) s)), (hello_prefix K).
  left. reflexivity.
Qed.
Lemma sync_goes s : later s -> fine (res (send_sync K s)) -> gol (st (send_sync K s)).
Proof.
  intros H F. split; [apply later_send_sync; [exact H|exact F]|]. revert F. rewrite send_sync_eq. destruct (c_iblt s) as [|c r]; [intros []|].
  destruct (append_bloom _ _) as [n1|e|u|] eqn:E; [|destruct (append_bloom_throw _ _ _ E)|intros []..]. intros _. right. right.
  exists (c_started (cstop (c_sync s) s)), (n1 ++ c :: r). split; [left; reflexivity|]. right. apply Hfresh. rewrite cstop_started. exact H.
Qed.
Lemma core_gol s s' : core s s' -> gol s -> gol s'.
Proof. intros C [A B]. split; [eapply core_later; eauto|]. destruct C as (L & T & Y & _). unfold going. rewrite L, T, Y. exact B. Qed.
Lemma gol_call a : a <> CStop -> pres gol (call K a).
Proof.
  intros N. destruct a as [p v cb|p| | |]; intros s H F.
  - eapply core_gol; [apply sub_core; exact F|exact H].
  - eapply core_gol; [apply unsub_core; exact F|exact H].
  - apply hello_goes, H.
  - apply sync_goes; [apply H|exact F].
  - congruence.
Qed.
Lemma gol_calls l : ~ In CStop l -> pres gol (calls K l).
Proof.
  induction l as [|a l IH]; cbn [calls]; intros N; [apply pres_ret|]. apply pres_bind.
  - apply gol_call. intros ->. apply N. left. reflexivity.
  - intros _. apply IH. intros H. apply N. right. exact H.
Qed.
Lemma sends_goes a s : sends a = true -> later s -> fine (res (call K a s)) -> gol (st (call K a s)).
Proof. destruct a; try discriminate; intros _ H F; [apply hello_goes|apply sync_goes]; auto. Qed.
Lemma calls_go l : ~ In CStop l -> (exists a, In a l /\ sends a = true) ->
  forall s, later s -> fine (res (calls K l s)) -> gol (st (calls K l s)).
Proof.
  induction l as [|a l IH]; intros N (b & Hb & Eb) s H; [destruct Hb|]. cbn [calls].
  assert (~ In CStop l) as N' by (intros X; apply N; right; exact X).
  unfold mbind. destruct (call K a s) as [[s1 o1] r] eqn:E. destruct r as [x|e|u|].
  - destruct (calls K l s1) as [[s2 o2] r2] eqn:E2. cbn [res st fst snd]. intros F.
    assert (later s1) as H1. { pose proof (later_call a s H) as L. rewrite E in L. apply L. exact I. }
    destruct (sends a) eqn:Ea.
    + pose proof (sends_goes a s Ea H) as G. rewrite E in G. pose proof (gol_calls l N' s1 (G I)) as L. rewrite E2 in L. apply L. exact F.
    + assert (In b l) as Hb' by (destruct Hb as [->|Hb]; [congruence|exact Hb]).
      pose proof (IH N' (ex_intro _ b (conj Hb' Eb)) s1 H1) as L. rewrite E2 in L. apply L. exact F.
  - intros F. pose proof (call_did K a s) as D. rewrite E in D. destruct (D F) as [[y Y] _]. discriminate.
  - intros [].
  - intros [].
Qed.
Lemma sync_only i n s : linv s -> In (i, (KSync, n)) (c_live s) -> forall j m, In (j, (KSync, m)) (c_live s) -> j = i.
Proof. intros L Hi j m Hj. pose proof (li_sync _ L _ _ Hi). pose proof (li_sync _ L _ _ Hj). congruence. Qed.
Lemma cfetch_is i n k s : linv s -> In (i, (k, n)) (c_live s) -> cfetch i (c_live s) = Some (k, n).
Proof.
  intros L. pose proof (li_once _ L) as N. induction (c_live s) as [|[j x] l IH]; [intros []|]. simpl in N. inversion N as [|y z N1 N2]; subst.
  intros [H|H]; simpl.
  - injection H as -> ->. rewrite Nat.eqb_refl. reflexivity.
  - destruct (Nat.eqb_spec i j) as [->|_]; [|apply IH; auto]. destruct N1. apply in_map_iff. exists (j, (k, n)). auto.
Qed.

(** the events that say nothing about the last segment; a completed sync fetch did say it *)
Lemma gol_step e s : linv s -> gol s -> goes_on e -> (forall buf, In buf (content_of e) -> cgood_content buf) ->
  (forall i d, e <> CeSegment i d) ->
  (forall i buf sc1 sc2 n, e = CeContent i buf sc1 sc2 -> cfetch i (c_live s) = Some (KSync, n) -> ~ U i) ->
  fine (res (c_step K e s)) -> gol (st (c_step K e s)).
Proof.
  intros L [Hl Hg] [Hs Ho] Hc Hseg Hu. destruct e as [a|i d|i buf sc1 sc2|i to|dt|i]; cbn [c_step].
  - intros F. apply gol_call; [|split; auto|exact F]. intros ->. apply Hs. left. reflexivity.
  - destruct (Hseg i d eq_refl).
  - rewrite mbind_get. destruct (cfetch i (c_live s)) as [[[] n]|] eqn:Ei; [..|intros _; split; assumption]; unfold finish; rewrite mbind_mod.
    + set (s1 := cset_live _ s). assert (later s1) as H1 by exact Hl. clearbody s1. clear s L Hl Hg Hu Ei.
      destruct (Hc buf) as (names & B1 & B2); [left; reflexivity|]. unfold on_hello_data. rewrite mbind_mod, mbind_lift, B1.
      set (s2 := cset_iblt _ s1). assert (later s2) as H2 by exact H1. clearbody s2.
      destruct (take_hello_good names B2 [] s2) as [l El]. destruct (take_hello_inv names [] s2) as (T1 & (m & M1 & M2) & _).
      destruct (take_hello names [] s2) as [[s3 o3] r3] eqn:T. cbn [outs st res fst snd] in *. subst o3 r3.
      rewrite (mbind_run _ _ _ _ _ _ T), mbind_emit. assert (later s3) as H3 by (subst s3; exact H2). clear M1 M2 T.
      assert (~ In CStop sc1 /\ ~ In CStop sc2) as [N1 N2].
      { cbn [calls_of] in Hs. split; intros X; apply Hs, in_or_app; auto. }
      pose proof (calls_go sc1 N1 Ho s3 H3) as C1. destruct (calls K sc1 s3) as [[s4 o4] r4] eqn:E4. rewrite (mbind_run _ _ _ _ _ _ E4).
      cbn [res st fst snd] in C1. destruct r4 as [x|e|u|]; [|intros F; apply C1; exact F|intros []..].
      destruct (fst l); [intros _; apply C1; exact I|]. rewrite mbind_emit. pose proof (gol_calls sc2 N2 s4 (C1 I)) as C2.
      destruct (calls K sc2 s4) as [[s5 o5] r5]. exact C2.
    + specialize (Hu _ _ _ _ _ eq_refl Ei). apply cfetch_In in Ei. destruct (is_nack (c_type s)) eqn:En.
      * intros _. split; [exact Hl|]. destruct Hg as [H|[(j & m & H)|(j & m & H & Hj)]].
        -- left. exact H.
        -- right. left. exists j, m. simpl. apply without_In. split; [exact H|]. simpl. intros ->.
           apply (li_ne _ L i (li_hello _ L _ _ H)). apply (li_sync _ L _ _ Ei).
        -- rewrite (sync_only i n s L Ei j m H) in Hj. destruct Hj as [Hj|Hj]; [|destruct (Hu Hj)]. destruct (c_type s); try discriminate. destruct Hj. reflexivity.
      * clear Hg Hu En. set (s1 := cset_live _ s). assert (later s1) as H1 by exact Hl. clearbody s1. clear s L Hl Ei.
        destruct (Hc buf) as (names & B1 & B2); [left; reflexivity|]. unfold on_csync_data. rewrite mbind_mod, mbind_lift, B1.
        set (s2 := cset_iblt _ s1). assert (later s2) as H2 by exact H1. clearbody s2.
        destruct (take_sync_good names B2 s2) as [l El]. destruct (take_sync_inv names s2) as (T1 & (m & M1 & M2) & _).
        destruct (take_sync names s2) as [[s3 o3] r3] eqn:T. cbn [outs st res fst snd] in *. subst o3 r3.
        rewrite (mbind_run _ _ _ _ _ _ T). assert (later s3) as H3 by (subst s3; exact H2). clear M1 M2 T.
        destruct l as [|x l].
        -- rewrite mbind_ret. pose proof (sync_goes s3 H3) as C. destruct (send_sync K s3) as [[s5 o5] r5]. exact C.
        -- rewrite mbind_assoc, mbind_emit. pose proof (later_calls sc2 s3 H3) as C1. pose proof (calls_did K sc2 s3) as C3. destruct (calls K sc2 s3) as [[s4 o4] r4] eqn:E4.
           rewrite (mbind_run _ _ _ _ _ _ E4). cbn [res st fst snd] in C1, C3. destruct r4 as [y|e|u|]; [|intros F; destruct (C3 F); discriminate|intros []..].
           pose proof (sync_goes s4 (C1 I)) as C2. destruct (send_sync K s4) as [[s5 o5] r5]. exact C2.
  - rewrite mbind_get. destruct (cfetch i (c_live s)) as [[[] n]|] eqn:Ei; [..|intros _; split; assumption]; unfold finish; rewrite mbind_mod.
    + intros _. split; [exact Hl|]. left. simpl. destruct (c_timers s); discriminate.
    + destruct to; [|intros _; split; [exact Hl|]; left; simpl; destruct (c_timers s); discriminate].
      intros F. apply sync_goes; [exact Hl|exact F].
  - intros _. split; assumption.
  - rewrite mbind_get. destruct (nth_error _ _) as [[dl k]|]; [|intros _; split; assumption]. destruct (dl <=? _); [|intros _; split; assumption].
    rewrite mbind_mod. destruct k; [intros _; apply hello_goes; exact Hl|intros F; apply sync_goes; [exact Hl|exact F]].
Qed.
End Step.

(** a segment of a running sync fetch *)
Lemma segment_goes K (U : nat -> Prop) i d s : linv s -> going U s -> going (fun j => U j /\ j <> i) (st (c_step K (CeSegment i d) s)) \/
  exists n, cfetch i (c_live s) = Some (KHello, n) /\ going U (st (c_step K (CeSegment i d) s)).
Proof.
  intros L G. cbn [c_step]. rewrite mbind_get. destruct (cfetch i (c_live s)) as [[[] n]|] eqn:Ei.
  - right. exists n. split; [reflexivity|]. destruct (d_final d); exact G.
  - left. apply cfetch_In in Ei.
    assert (forall s1, linv s1 -> going (fun j => U j /\ j <> i) (st (send_hello K s1))) as GH.
    { intros s1 L1. rewrite send_hello_eq. right. left. exists (c_started (cstop (c_hello s1) s1)), (hello_prefix K). left. reflexivity. }
    assert (forall s1, linv s1 -> c_live s1 = c_live s -> is_nack (c_type s1) = false -> going (fun j => U j /\ j <> i) s1) as GN.
    { intros s1 L1 E1 N1. right. right. exists i, n. rewrite E1. split; [exact Ei|]. left. intros X. rewrite X in N1. discriminate. }
    destruct (d_final d).
    + rewrite mbind_mod, mbind_get. set (s1 := cset_type _ _). assert (linv s1) as L1 by (eapply linv_same; [..|exact L]; reflexivity).
      destruct (is_nack (c_type s1)) eqn:N; [apply GH; exact L1|apply GN; auto].
    + rewrite mbind_ret, mbind_get. destruct (is_nack (c_type s)) eqn:N; [apply GH; exact L|apply GN; auto].
  - left. cbn [mret st fst]. destruct G as [H|[(j & m & H)|(j & m & H & Hj)]].
    + left. exact H.
    + right. left. eauto.
    + right. right. exists j, m. split; [exact H|]. destruct Hj as [Hj|Hj]; auto. right. split; auto. intros ->.
      rewrite cfetch_None in Ei. destruct (Ei _ H).
Qed.

(** ** Histories *)
Lemma started_step K e s : linv s -> fine (res (c_step K e s)) -> (c_started s <= c_started (st (c_step K e s)))%nat.
Proof.
  intros _ F. revert F. set (n0 := c_started s). assert (later n0 s) as H by (unfold later, n0; lia).
  change (fine (res (c_step K e s)) -> later n0 (st (c_step K e s))). clearbody n0. revert s H.
  change (pres (later n0) (c_step K e)).
  assert (forall f, (forall s, c_started (f s) = c_started s) -> pres (later n0) (mmod f)) as Ne.
  { intros f E. apply pres_mod. intros s. unfold later. rewrite E. auto. }
  assert (forall names, pres (later n0) (take_sync names)) as TS.
  { intros names s H _. destruct (take_sync_inv names s) as (_ & (m & -> & _) & _). exact H. }
  assert (forall names av, pres (later n0) (take_hello names av)) as TH.
  { intros names av s H _. destruct (take_hello_inv names av s) as (_ & (m & -> & _) & _). exact H. }
  destruct e as [a|i d|i buf sc1 sc2|i to|dt|i]; cbn [c_step].
  - apply later_call.
  - apply pres_get'. intros s. destruct (cfetch i (c_live s)) as [[[] n]|]; [..|apply pres_ret].
    + destruct (d_final d); [apply Ne; reflexivity|apply pres_ret].
    + apply pres_bind; [destruct (d_final d); [apply Ne; reflexivity|apply pres_ret]|intros _]. apply pres_get'. intros s1.
      destruct (is_nack _); [apply later_send_hello|apply pres_ret].
  - apply pres_get'. intros s. destruct (cfetch i (c_live s)) as [[[] n]|]; [..|apply pres_ret].
    + apply pres_bind; [apply Ne; reflexivity|intros _]. unfold on_hello_data. apply pres_bind; [apply Ne; reflexivity|intros _]. apply pres_bind; [apply pres_lift|intros names].
      apply pres_bind; [apply TH|intros x]. apply pres_bind; [apply pres_emit|intros _]. apply pres_bind; [apply later_calls|intros _].
      destruct (fst x); [apply pres_ret|]. apply pres_bind; [apply pres_emit|intros _]. apply later_calls.
    + apply pres_bind; [apply Ne; reflexivity|intros _]. destruct (is_nack _); [apply Ne; reflexivity|].
      unfold on_csync_data. apply pres_bind; [apply Ne; reflexivity|intros _]. apply pres_bind; [apply pres_lift|intros names].
      apply pres_bind; [apply TS|intros l]. apply pres_bind; [|intros _; apply later_send_sync].
      destruct l; [apply pres_ret|]. apply pres_bind; [apply pres_emit|intros _]. apply later_calls.
  - apply pres_get'. intros s. destruct (cfetch i (c_live s)) as [[[] n]|]; [..|apply pres_ret].
    + apply pres_bind; [apply Ne; reflexivity|intros _; apply Ne; reflexivity].
    + apply pres_bind; [apply Ne; reflexivity|intros _]. destruct to; [apply later_send_sync|apply Ne; reflexivity].
  - apply Ne; reflexivity.
  - apply pres_get'. intros s. destruct (nth_error _ _) as [[dl k]|]; [|apply pres_ret]. destruct (dl <=? _); [|apply pres_ret].
    apply pres_bind; [apply Ne; reflexivity|intros _]. destruct k; [apply later_send_hello|apply later_send_sync].
Qed.
Lemma told_started K evs s o i k n : creaches K evs s o -> told_last K evs i k n -> (i < c_started s)%nat.
Proof.
  intros R (evs1 & d & evs2 & s1 & o1 & -> & R1 & Hi & _). apply cfetch_In in Hi.
  destruct (creaches_inv _ _ _ _ R1) as (b0 & _ & _ & L). pose proof (live_lt _ _ _ _ L Hi) as Hlt. clear Hi L.
  revert s o R. change (CeSegment i d :: evs2) with ([CeSegment i d] ++ evs2). rewrite app_assoc.
  assert (forall evs' s o, creaches K (evs1 ++ evs') s o -> (i < c_started s)%nat) as G.
  { induction evs' as [|e evs' IH] using rev_ind; intros s o R.
    - rewrite app_nil_r in R. unfold creaches in *. rewrite R1 in R. injection R as <- _. exact Hlt.
    - rewrite app_assoc in R. destruct (creaches_snoc _ _ _ _ _ R) as (s2 & o2 & o3 & r & R2 & E & _ & F).
      specialize (IH _ _ R2). destruct (creaches_inv _ _ _ _ R2) as (b & _ & _ & L2).
      pose proof (started_step K e s2 L2) as X. rewrite E in X. specialize (X F). cbn [st fst] in X. lia. }
  rewrite <- app_assoc. apply G.
Qed.
Lemma told_snoc K evs e i k n : told_last K (evs ++ [e]) i k n ->
  told_last K evs i k n \/ exists d s o, e = CeSegment i d /\ creaches K evs s o /\ cfetch i (c_live s) = Some (k, n) /\ d_final d <> None.
Proof.
  intros (evs1 & d & evs2 & s & o & E & R & H). destruct (exists_last (l := CeSegment i d :: evs2)) as (l & x & X); [discriminate|].
  rewrite X, app_assoc in E. apply app_inj_tail in E as [E1 E2]. destruct l as [|y l].
  - rewrite app_nil_r in E1. subst. cbn [app] in X. injection X as <- _. right. exists d, s, o. auto.
  - injection X as <- X. left. exists evs1, d, l, s, o. auto.
Qed.
Lemma told_more K evs e i k n : told_last K evs i k n -> told_last K (evs ++ [e]) i k n.
Proof.
  intros (evs1 & d & evs2 & s & o & E & R & H). exists evs1, d, (evs2 ++ [e]), s, o. split; [rewrite E, <- app_assoc; reflexivity|auto].
Qed.
Lemma creaches_fun K evs s o s' o' : creaches K evs s o -> creaches K evs s' o' -> s' = s /\ o' = o.
Proof. unfold creaches. intros -> [= -> ->]. auto. Qed.

Theorem keeps_going K evs1 a : sends a = true ->
  forall evs2 s o, creaches K (evs1 ++ CeCall a :: evs2) s o ->
  Forall goes_on evs2 -> (forall e buf, In e evs2 -> In buf (content_of e) -> cgood_content buf) ->
  fetchers_in_order K (evs1 ++ CeCall a :: evs2) ->
  going (fun i => ~ exists n, told_last K (evs1 ++ CeCall a :: evs2) i KSync n) s.
Proof.
  intros Ha. induction evs2 as [|e evs2 IH] using rev_ind; intros s o R G C O.
  - destruct (creaches_snoc _ _ _ _ _ R) as (s1 & o1 & o2 & r & R1 & E & _ & F). cbn [c_step] in E.
    set (U := fun i => _). pose proof (sends_goes K (c_started s1) U) as X. destruct X with (a := a) (s := s1) as [_ Y].
    + intros i Hi (n & T). apply told_snoc in T as [T|(d & s2 & o3 & T & _)]; [|discriminate]. pose proof (told_started _ _ _ _ _ _ _ R1 T). lia.
    + exact Ha.
    + unfold later. lia.
    + rewrite E. exact F.
    + rewrite E in Y. exact Y.
  - assert (evs1 ++ CeCall a :: evs2 ++ [e] = (evs1 ++ CeCall a :: evs2) ++ [e]) as Q by (rewrite <- app_assoc; reflexivity).
    rewrite Q in *. set (evs := evs1 ++ CeCall a :: evs2) in *.
    destruct (creaches_snoc _ _ _ _ _ R) as (s1 & o1 & o2 & r & R1 & E & _ & F). apply Forall_app in G as [G1 G2].
    assert (going (fun i => ~ exists n, told_last K evs i KSync n) s1) as H1.
    { apply (IH _ _ R1 G1).
      - intros x buf Hx. apply C. apply in_or_app. left. exact Hx.
      - intros ev1 i buf sc1 sc2 ev2 s2 o3 k n Q2. apply (O ev1 i buf sc1 sc2 (ev2 ++ [e]) s2 o3 k n). rewrite Q2, <- app_assoc. reflexivity. }
    destruct (creaches_inv _ _ _ _ R1) as (b0 & _ & _ & L). inversion G2 as [|x y G3 _]; subst.
    set (U := fun i => ~ exists n, told_last K evs i KSync n) in *.
    assert (forall i, (c_started s1 <= i)%nat -> U i) as Fr.
    { intros i Hi (n & T). pose proof (told_started _ _ _ _ _ _ _ R1 T). lia. }
    assert ((forall i d, e <> CeSegment i d) ->
      (forall i buf sc1 sc2 n, e = CeContent i buf sc1 sc2 -> cfetch i (c_live s1) = Some (KSync, n) -> ~ U i) ->
      going (fun i => ~ exists n, told_last K (evs ++ [e]) i KSync n) s) as X1.
    { intros Hs Hu. assert (gol (c_started s1) U (st (c_step K e s1))) as X.
      { apply (gol_step K (c_started s1) U Fr e s1 L); auto.
        - split; [unfold later; lia|exact H1].
        - intros buf' Hb. apply (C e buf'); [apply in_or_app; right; left; reflexivity|exact Hb].
        - rewrite E. exact F. }
      rewrite E in X. destruct X as [_ X]. cbn [st fst] in X.
      destruct X as [X|[X|(j & m & X & Y)]]; [left; exact X|right; left; exact X|]. right. right. exists j, m. split; [exact X|].
      destruct Y as [Y|Y]; [left; exact Y|right]. intros (m' & T). apply told_snoc in T as [T|(d' & s2 & o3 & T & _)]; [|destruct (Hs _ _ T)].
      apply Y. exists m'. exact T. }
    destruct e as [b|i d|i buf sc1 sc2|i to|dt|i]; cycle 1.
    { destruct (segment_goes K U i d s1 L H1) as [X|(n & Hn & X)]; rewrite E in X; cbn [st fst] in X.
      - destruct X as [X|[X|(j & m & X & Y)]]; [left; exact X|right; left; exact X|]. right. right. exists j, m. split; [exact X|].
        destruct Y as [Y|[Y1 Y2]]; [left; exact Y|right]. intros (m' & T). apply told_snoc in T as [T|(d' & s2 & o3 & [= -> ->] & _)]; [|congruence].
        apply Y1. exists m'. exact T.
      - destruct X as [X|[X|(j & m & X & Y)]]; [left; exact X|right; left; exact X|]. right. right. exists j, m. split; [exact X|].
        destruct Y as [Y|Y]; [left; exact Y|right]. intros (m' & T). apply told_snoc in T as [T|(d' & s2 & o3 & [= -> ->] & R2 & Hi & _)].
        + apply Y. exists m'. exact T.
        + destruct (creaches_fun _ _ _ _ _ _ R1 R2) as [-> _]. congruence. }
    all: apply X1; [discriminate|try discriminate].
    intros i0 buf0 sc0 sc3 n [= <- <- <- <-] Hi X. apply X. exists n.
    apply (O evs i buf sc1 sc2 [] s1 o1 KSync n eq_refl R1 Hi).
Qed.

(** ** When a sync interest can be sent *)
Section Keep.
Variable K : ccfg.
Variable P : cs -> Prop.
Hypothesis Pcore : forall s s', c_iblt s' = c_iblt s -> c_hname s' = c_hname s -> c_sname s' = c_sname s -> c_live s' = c_live s -> P s -> P s'.
Hypothesis Pfinish : forall i s, P s -> P (cset_live (cwithout i (c_live s)) s).
Hypothesis Phello : pres P (send_hello K).
Hypothesis Psync : pres P (send_sync K).
Lemma kp_stop p s : P s -> P (cstop p s).
Proof. destruct p; auto. simpl. apply Pfinish. Qed.
Lemma kp_mod f : (forall s, c_iblt (f s) = c_iblt s /\ c_hname (f s) = c_hname s /\ c_sname (f s) = c_sname s /\ c_live (f s) = c_live s) -> pres P (mmod f).
Proof. intros H. apply pres_mod. intros s. destruct (H s) as (A & B & C & D). apply Pcore; auto. Qed.
Ltac kp := apply kp_mod; intros; repeat split; reflexivity.
Lemma kp_call a : pres P (call K a).
Proof.
  destruct a as [p v cb|p| | |]; cbn [call]; auto.
  - apply pres_bind; [|intros; apply pres_emit]. unfold add_sub. apply pres_get'. intros s. destruct (nm_find p (c_prefixes s)); [apply pres_ret|].
    apply pres_bind; [kp|intros _]. apply pres_bind; [apply pres_lift|intros b']. apply pres_bind; [kp|intros _].
    apply pres_bind; [destruct (_ && _); [apply pres_emit|apply pres_ret]|intros _]. apply pres_ret.
  - apply pres_bind; [|intros; apply pres_emit]. unfold remove_sub. apply pres_get'. intros s. destruct (is_subscribed p s); [|apply pres_ret].
    apply pres_bind; [kp|intros _]. apply pres_bind; [apply pres_lift|intros b']. apply pres_bind; [kp|intros _]. apply pres_ret.
  - apply pres_mod. intros s H. set (s1 := cset_timers [] s). assert (P s1) as H1 by (eapply Pcore; [..|exact H]; reflexivity).
    pose proof (kp_stop (c_sync s1) s1 H1) as H2. set (s2 := cstop (c_sync s1) s1) in *.
    assert (P (cset_sync None s2)) as H3 by (eapply Pcore; [..|exact H2]; reflexivity). set (s3 := cset_sync None s2) in *.
    pose proof (kp_stop (c_hello s3) s3 H3) as H4. cbv zeta. eapply Pcore; [..|exact H4]; reflexivity.
Qed.
Lemma kp_calls l : pres P (calls K l).
Proof. induction l as [|a l IH]; cbn [calls]; [apply pres_ret|]. apply pres_bind; [apply kp_call|intros _; exact IH]. Qed.
Lemma kp_take_sync names : pres P (take_sync names).
Proof. intros s H _. destruct (take_sync_inv names s) as (_ & (m & -> & _) & _). eapply Pcore; [..|exact H]; reflexivity. Qed.
Lemma kp_take_hello names av : pres P (take_hello names av).
Proof. intros s H _. destruct (take_hello_inv names av s) as (_ & (m & -> & _) & _). eapply Pcore; [..|exact H]; reflexivity. Qed.
Lemma kp_on_hello buf a b s : P (cset_iblt (last_comp (c_hname s)) s) -> fine (res (on_hello_data K buf a b s)) -> P (st (on_hello_data K buf a b s)).
Proof.
  intros H. unfold on_hello_data. rewrite mbind_mod. revert H. generalize (cset_iblt (last_comp (c_hname s)) s). clear s. 
  change (pres P (mlet names <- mlift (state_of_buffer buf); mlet x <- take_hello names []; memit [CoHello (snd x)] ;;
    calls K a ;; match fst x with [] => mret tt | updates => memit [CoUpdate updates] ;; calls K b end)).
  apply pres_bind; [apply pres_lift|intros names].
  apply pres_bind; [apply kp_take_hello|intros x]. apply pres_bind; [apply pres_emit|intros _]. apply pres_bind; [apply kp_calls|intros _].
  destruct (fst x); [apply pres_ret|]. apply pres_bind; [apply pres_emit|intros _]. apply kp_calls.
Qed.
Lemma kp_on_sync buf a s : P (cset_iblt (last_comp (c_sname s)) s) -> fine (res (on_csync_data K buf a s)) -> P (st (on_csync_data K buf a s)).
Proof.
  intros H. unfold on_csync_data. rewrite mbind_mod. revert H. generalize (cset_iblt (last_comp (c_sname s)) s). clear s.
  change (pres P (mlet names <- mlift (state_of_buffer buf); mlet updates <- take_sync names;
    (match updates with [] => mret tt | _ => memit [CoUpdate updates] ;; calls K a end) ;; send_sync K)).
  apply pres_bind; [apply pres_lift|intros names].
  apply pres_bind; [apply kp_take_sync|intros l]. apply pres_bind; [|intros _; exact Psync].
  destruct l; [apply pres_ret|]. apply pres_bind; [apply pres_emit|intros _]. apply kp_calls.
Qed.
(** all events but segments and content that takes effect *)
Lemma kp_step e s : P s -> (forall i d, e <> CeSegment i d) ->
  (forall i buf sc1 sc2 n, e = CeContent i buf sc1 sc2 -> cfetch i (c_live s) = Some (KHello, n) ->
     P (cset_iblt (last_comp (c_hname s)) (cset_live (cwithout i (c_live s)) s))) ->
  (forall i buf sc1 sc2 n, e = CeContent i buf sc1 sc2 -> cfetch i (c_live s) = Some (KSync, n) ->
     P (cset_iblt (last_comp (c_sname s)) (cset_live (cwithout i (c_live s)) s))) ->
  fine (res (c_step K e s)) -> P (st (c_step K e s)).
Proof.
  intros H Hs Hh Hy. destruct e as [a|i d|i buf sc1 sc2|i to|dt|i]; cbn [c_step].
  - apply kp_call. exact H.
  - destruct (Hs i d eq_refl).
  - rewrite mbind_get. destruct (cfetch i (c_live s)) as [[[] n]|] eqn:Ei; [..|auto]; unfold finish; rewrite mbind_mod.
    + apply kp_on_hello. eapply Hh; eauto.
    + destruct (is_nack _); [|apply kp_on_sync; eapply Hy; eauto]. intros _. eapply Pcore; [..|apply (Pfinish i s H)]; reflexivity.
  - rewrite mbind_get. destruct (cfetch i (c_live s)) as [[[] n]|]; [..|auto]; unfold finish; rewrite mbind_mod; pose proof (Pfinish i s H) as H1; revert H1;
      generalize (cset_live (cwithout i (c_live s)) s); intros s1 H1.
    + intros _. eapply Pcore; [..|exact H1]; reflexivity.
    + destruct to; [apply Psync; exact H1|]. intros _. eapply Pcore; [..|exact H1]; reflexivity.
  - intros _. eapply Pcore; [..|exact H]; reflexivity.
  - rewrite mbind_get. destruct (nth_error _ _) as [[dl k]|]; [|auto]. destruct (dl <=? _); [|auto]. rewrite mbind_mod.
    match goal with |- context [cset_timers ?x s] => assert (P (cset_timers x s)) as H1 by (eapply Pcore; [..|exact H]; reflexivity) end.
    destruct k; [apply Phello|apply Psync]; exact H1.
Qed.
End Keep.

Definition has_hname (s : cs) : Prop := c_hname s <> [].
Definition has_sname (s : cs) : Prop := c_sname s <> [].
Definition has_iblt (s : cs) : Prop := c_iblt s <> [].
Definition no_iblt (s : cs) : Prop := c_iblt s = [] /\ forall i n, ~ In (i, (KSync, n)) (c_live s).
Lemma stop_eqs p s : c_iblt (cstop p s) = c_iblt s /\ c_hname (cstop p s) = c_hname s /\ c_sname (cstop p s) = c_sname s.
Proof. destruct p; auto. Qed.
Lemma send_keep K (P : cs -> Prop) :
  (forall s s', c_iblt s' = c_iblt s -> c_hname s' = c_hname s -> c_sname s' = c_sname s -> P s -> P s') ->
  pres P (send_hello K) /\ pres P (send_sync K).
Proof.
  intros H. split; intros s.
  - rewrite send_hello_eq. intros Q _. eapply H; [..|exact Q]; simpl; apply (stop_eqs (c_hello s) s).
  - rewrite send_sync_eq. intros Q. destruct (c_iblt s) eqn:Ei; [auto|]. destruct (append_bloom _ _); auto. intros _.
    eapply H; [..|exact Q]; simpl; apply (stop_eqs (c_sync s) s).
Qed.
Lemma last_ne (n : name) : n <> [] -> last_comp n <> [].
Proof.
  intros H E. unfold last_comp in E. apply (f_equal (@length _)) in E. rewrite skipn_length in E. cbn [length] in E.
  assert (length n <> 0%nat) by (destruct n; simpl; congruence). lia.
Qed.
Lemma prefix_back_ne (n : name) : (2 < length n)%nat -> name_prefix_back n 2 <> [].
Proof. unfold name_prefix_back. destruct n as [|a n]; simpl; [lia|]. destruct n as [|b n]; simpl; [lia|]. destruct n; simpl; [lia|discriminate]. Qed.
Lemma segment_names K i d s : (2 < length (d_name d))%nat -> forall k n, cfetch i (c_live s) = Some (k, n) -> d_final d <> None ->
  match k with KHello => has_hname | KSync => has_sname end (st (c_step K (CeSegment i d) s)).
Proof.
  intros Hd k n Hi Hf. cbn [c_step]. rewrite mbind_get, Hi. destruct (d_final d); [|congruence]. pose proof (prefix_back_ne _ Hd) as N. destruct k.
  - exact N.
  - rewrite mbind_mod, mbind_get. destruct (is_nack _); [|exact N]. unfold has_sname. rewrite send_hello_eq. simpl.
    match goal with |- context [cstop ?p ?x] => destruct (stop_eqs p x) as (_ & _ & ->) end. exact N.
Qed.
Lemma segment_keeps K i d s (P := fun s => has_hname s) : (2 < length (d_name d))%nat ->
  (has_hname s -> has_hname (st (c_step K (CeSegment i d) s))) /\ (has_sname s -> has_sname (st (c_step K (CeSegment i d) s))) /\
  c_iblt (st (c_step K (CeSegment i d) s)) = c_iblt s.
Proof.
  intros Hd. clear P. pose proof (prefix_back_ne _ Hd) as N. cbn [c_step]. rewrite mbind_get. destruct (cfetch i (c_live s)) as [[[] n]|]; [..|auto].
  - destruct (d_final d); auto.
  - destruct (d_final d); [rewrite mbind_mod|rewrite mbind_ret]; rewrite mbind_get; destruct (is_nack _); auto; unfold has_hname, has_sname; rewrite send_hello_eq; simpl;
      match goal with |- context [cstop ?p ?x] => destruct (stop_eqs p x) as (-> & -> & ->) end; simpl; auto.
Qed.
Lemma told_names K evs : Forall named_data evs -> forall s o k i n, creaches K evs s o -> told_last K evs i k n ->
  match k with KHello => has_hname | KSync => has_sname end s.
Proof.
  induction evs as [|e evs IH] using rev_ind; intros Hn s o k i n R T.
  - destruct T as ([|x l] & d & evs2 & s1 & o1 & E & _); discriminate.
  - apply Forall_app in Hn as [Hn He]. inversion He as [|x y He' _]; subst.
    destruct (creaches_snoc _ _ _ _ _ R) as (s1 & o1 & o2 & r & R1 & E & _ & F).
    apply told_snoc in T as [T|(d & s2 & o3 & -> & R2 & Hi & Hf)].
    + specialize (IH Hn s1 o1 k i n R1 T). assert (fine (res (c_step K e s1))) as F' by (rewrite E; exact F).
      assert (s = st (c_step K e s1)) as -> by (rewrite E; reflexivity).
      destruct e as [a|j d|j buf sc1 sc2|j to|dt|j]; cycle 1.
      { destruct (segment_keeps K j d s1 He') as (A & B & _). destruct k; auto. }
      all: destruct k; [destruct (send_keep K has_hname) as [S1 S2]; [unfold has_hname; intros ? ? _ -> _; auto|];
          apply (kp_step K has_hname); auto; try discriminate; unfold has_hname; intros ? ? _ -> _ _; auto
        |destruct (send_keep K has_sname) as [S1 S2]; [unfold has_sname; intros ? ? _ _ ->; auto|];
          apply (kp_step K has_sname); auto; try discriminate; unfold has_sname; intros ? ? _ _ -> _; auto].
    + destruct (creaches_fun _ _ _ _ _ _ R1 R2) as [-> _]. pose proof (segment_names K i d s1 He' k n Hi Hf) as X. rewrite E in X. exact X.
Qed.
Lemma completed_snoc K evs e k : completed K (evs ++ [e]) k ->
  completed K evs k \/ exists i buf sc1 sc2 s o n, e = CeContent i buf sc1 sc2 /\ creaches K evs s o /\ cfetch i (c_live s) = Some (k, n).
Proof.
  intros (evs1 & i & buf & sc1 & sc2 & evs2 & s & o & n & E & R & H). destruct (exists_last (l := CeContent i buf sc1 sc2 :: evs2)) as (l & x & X); [discriminate|].
  rewrite X, app_assoc in E. apply app_inj_tail in E as [E1 E2]. destruct l as [|y l].
  - rewrite app_nil_r in E1. subst. cbn [app] in X. injection X as <- _. right. exists i, buf, sc1, sc2, s, o, n. auto.
  - injection X as <- X. left. exists evs1, i, buf, sc1, sc2, l, s, o, n. auto.
Qed.
Lemma has_iblt_after K evs : Forall named_data evs -> fetchers_in_order K evs -> forall s o, creaches K evs s o -> completed K evs KHello -> has_iblt s.
Proof.
  induction evs as [|e evs IH] using rev_ind; intros Hn O s o R T.
  - destruct T as ([|x l] & i & buf & sc1 & sc2 & evs2 & s1 & o1 & n & E & _); discriminate.
  - apply Forall_app in Hn as [Hn He]. inversion He as [|x y He' _]; subst.
    destruct (creaches_snoc _ _ _ _ _ R) as (s1 & o1 & o2 & r & R1 & E & _ & F).
    assert (fine (res (c_step K e s1))) as F' by (rewrite E; exact F).
    assert (s = st (c_step K e s1)) as -> by (rewrite E; reflexivity).
    assert (fetchers_in_order K evs) as O'.
    { intros ev1 i buf sc1 sc2 ev2 s2 o3 k n Q2. apply (O ev1 i buf sc1 sc2 (ev2 ++ [e]) s2 o3 k n). rewrite Q2, <- app_assoc. reflexivity. }
    destruct (send_keep K has_iblt) as [S1 S2]; [unfold has_iblt; intros ? ? -> _ _; auto|].
    assert (forall i buf sc1 sc2 n, e = CeContent i buf sc1 sc2 -> cfetch i (c_live s1) = Some (KHello, n) -> last_comp (c_hname s1) <> []) as Ch.
    { intros i buf sc1 sc2 n -> Hi. apply last_ne. apply (told_names K evs Hn s1 o1 KHello i n R1). apply (O evs i buf sc1 sc2 [] s1 o1 KHello n eq_refl R1 Hi). }
    assert (forall i buf sc1 sc2 n, e = CeContent i buf sc1 sc2 -> cfetch i (c_live s1) = Some (KSync, n) -> last_comp (c_sname s1) <> []) as Cy.
    { intros i buf sc1 sc2 n -> Hi. apply last_ne. apply (told_names K evs Hn s1 o1 KSync i n R1). apply (O evs i buf sc1 sc2 [] s1 o1 KSync n eq_refl R1 Hi). }
    apply completed_snoc in T as [T|(i & buf & sc1 & sc2 & s2 & o3 & n & -> & R2 & Hi)].
    + specialize (IH Hn O' s1 o1 R1 T).
      destruct e as [a|j d|j buf sc1 sc2|j to|dt|j]; cycle 1.
      { destruct (segment_keeps K j d s1 He') as (_ & _ & X). unfold has_iblt. rewrite X. exact IH. }
      all: apply (kp_step K has_iblt); auto; try discriminate; unfold has_iblt; try (intros ? ? -> _ _ _; auto; fail).
    + destruct (creaches_fun _ _ _ _ _ _ R1 R2) as [-> _]. revert F'. cbn [c_step]. rewrite mbind_get, Hi. unfold finish. rewrite mbind_mod.
      apply (kp_on_hello K has_iblt); auto; unfold has_iblt.
      * intros ? ? -> _ _ _. auto.
      * apply (Ch _ _ _ _ _ eq_refl Hi).
Qed.
Lemma no_iblt_before K evs : forall s o, creaches K evs s o -> ~ completed K evs KHello -> no_iblt s.
Proof.
  induction evs as [|e evs IH] using rev_ind; intros s o R T.
  - unfold creaches, c_start, c_new in R. destruct (bloom_new _ _ _); try discriminate. injection R as <- <-. split; [reflexivity|]. intros ? ? [].
  - destruct (creaches_snoc _ _ _ _ _ R) as (s1 & o1 & o2 & r & R1 & E & _ & F).
    assert (fine (res (c_step K e s1))) as F' by (rewrite E; exact F).
    assert (s = st (c_step K e s1)) as -> by (rewrite E; reflexivity).
    assert (no_iblt s1) as N1.
    { apply (IH s1 o1 R1). intros (evs1 & i & buf & sc1 & sc2 & evs2 & s2 & o3 & n & Q & X). apply T.
      exists evs1, i, buf, sc1, sc2, (evs2 ++ [e]), s2, o3, n. split; [rewrite Q, <- app_assoc; reflexivity|exact X]. }
    assert (pres no_iblt (send_hello K)) as S1.
    { intros s [A B] _. rewrite send_hello_eq. unfold no_iblt. split; [simpl; destruct (stop_eqs (c_hello s) s) as (-> & _); exact A|].
      intros i n [X|X]; [discriminate|]. destruct (c_hello s); simpl in X; [apply without_In in X as [X _]|]; destruct (B _ _ X). }
    assert (pres no_iblt (send_sync K)) as S2.
    { intros s [A B]. rewrite send_sync_eq, A. intros []. }
    destruct e as [a|j d|j buf sc1 sc2|j to|dt|j]; cycle 1.
    { clear F'. cbn [c_step] in *. rewrite mbind_get. destruct (cfetch j (c_live s1)) as [[[] n]|] eqn:Ei; [..|exact N1].
      - destruct (d_final d); exact N1.
      - apply cfetch_In in Ei. destruct N1 as [_ N1]. destruct (N1 _ _ Ei). }
    all: apply (kp_step K no_iblt); auto; try discriminate.
    all: try (intros x y Q1 _ _ Q2 [A B]; split; [congruence|rewrite Q2; exact B]; fail).
    all: try (intros i x [A B]; split; [exact A|]; intros k n X; simpl in X; apply without_In in X as [X _]; destruct (B _ _ X); fail).
    + intros i buf0 sc0 sc3 n Q Hi. exfalso. apply T. exists evs, j, buf, sc1, sc2, [], s1, o1, n. injection Q as -> _ _ _. auto.
    + intros i buf0 sc0 sc3 n _ Hi. apply cfetch_In in Hi. destruct N1 as [_ N1]. destruct (N1 _ _ Hi).
Qed.
