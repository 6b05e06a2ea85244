(** C55: which waiting interests stay on the list. *)
From Coq Require Import List NArith ZArith Bool Arith Lia.
From Coq.Strings Require Import Byte.
From Verif Require Import Base Mon MonFacts Iblt BaseFacts IbltFacts SpecIblt HonestFacts IbltProps
  Tlv State NMap TlvFacts NMapFacts Codec CodecFacts Properties_Iblt StateFacts Bloom SpecBloom BloomFacts Properties_Bloom
  Store StoreFacts Producer SpecProducer ProducerFacts Properties_Producer Partial SpecPartial PartialFacts PartialSteps
  Properties_Partial Full FullTrace SpecFull FullFacts FullSafe FullSteps FullData FullRuns FullTimers FullWaiting
  FullSends FullReplies Properties_Full Properties_FullTime.
Import ListNotations.
Local Open Scope N_scope.

(** an attempt for an interest that can neither be served nor dismissed leaves it on the list *)
Lemma stuck_retry K m n t rcvd l s s' o r : schemes_ok K -> uri_ok K -> core_ok m (f_core s) ->
  names_ibf K n t rcvd -> stuck K (f_core s) t rcvd -> on_finterest K n l true s = (s', o, r) ->
  s' = s /\ r = Ok tt /\ (reply_from_store n (f_pub s) = None -> o = []).
Proof.
  intros Sk Uk Ck Hn (d & Ed & Hd). rewrite (finterest_names K n t rcvd) by auto.
  destruct (reply_from_store n (f_pub s)) as [x|]; [intros [= <- _ <-]; repeat split; discriminate|]. rewrite mbind_lift, Ed.
  destruct Hd as [(Cd & Po & Hw)|(Cd & Ec & Po & Ne)]; rewrite Cd.
  - pose proof (names_ibf_nonempty _ _ _ _ Hn) as N0. rewrite (decoded_positive K m) by auto.
    destruct (offer (f_core s) (negative d) (positive d)) as [|y ys] eqn:Eo; [intros [= <- <- <-]; auto|]. exfalso.
    assert (In y (offer (f_core s) (negative d) (positive d))) as Hy by (rewrite Eo; left; reflexivity).
    apply (offer_In m) in Hy as (p & v & G & Nz & -> & Hp & Hneg); auto.
  - unfold on_undecodable. rewrite mbind_get, Ec, N.ltb_irrefl, N.eqb_refl, Po. destruct (negative d) as [|g gs]; [congruence|].
    cbn [length Nat.eqb Nat.ltb Nat.leb andb]. intros [= <- <- <-]. auto.
Qed.
Lemma stuck_one K m n t rcvd v s s' o : schemes_ok K -> uri_ok K -> core_ok m (f_core s) ->
  names_ibf K n t rcvd -> stuck K (f_core s) t rcvd -> nm_find n (f_waiting s) = Some v -> v + 1 < MAX_TRIES ->
  process_one K n s = (s', o, Ok tt) -> nm_find n (f_waiting s') = Some (v + 1).
Proof.
  intros Sk Uk Ck Hn Hs Hv Lv. unfold process_one. rewrite mbind_get, Hv. cbv zeta.
  destruct (N.eqb_spec v MAX_TRIES) as [->|_]; [lia|]. rewrite mbind_mod. set (s0 := fset_waiting _ s).
  unfold mbind at 1. destruct (on_finterest K n DEFAULT_LIFETIME true s0) as [[s1 o1] r1] eqn:E.
  destruct (stuck_retry K m n t rcvd _ s0 s1 o1 r1 Sk Uk Ck Hn Hs E) as (-> & -> & _). rewrite mbind_get.
  assert (nm_find n (f_waiting s0) = Some (v + 1)) as F0 by apply nm_find_set_same. rewrite F0.
  destruct (N.eqb_spec (v + 1) MAX_TRIES) as [X|_]; [lia|]. intros [= <- _]. exact F0.
Qed.
Lemma stuck_all K m n t rcvd v keys : schemes_ok K -> uri_ok K -> names_ibf K n t rcvd -> v + 1 < MAX_TRIES -> forall s s' o,
  core_ok m (f_core s) -> stuck K (f_core s) t rcvd -> NoDup keys -> fp_ok K s -> In n keys -> nm_find n (f_waiting s) = Some v ->
  process_all K keys s = (s', o, Ok tt) -> nm_find n (f_waiting s') = Some (v + 1).
Proof.
  intros Sk Uk Hn Lv. induction keys as [|k keys IH]; intros s s' o Ck Hs Nd Ok_ Hin Hv E; [destruct Hin|]. cbn [process_all] in E.
  inversion Nd as [|x l Hk Nd']; subst. unfold mbind in E. pose proof (process_one_ok K k s Ok_) as Ok1. unfold st in Ok1.
  destruct (process_one K k s) as [[s1 o1] [[]|e|u|]] eqn:E1; try discriminate. cbn [fst] in Ok1.
  destruct (process_all K keys s1) as [[s2 o2] r2] eqn:E2. injection E as <- _ ->.
  pose proof (kc_process_one K m k s s1 o1 Sk Uk Ck Ok_ E1) as F1.
  destruct (process_one_find K k s s1 o1 (fo_wsorted _ _ Ok_) E1) as [A _].
  destruct Hin as [->|Hin].
  - pose proof (stuck_one K m n t rcvd v s s1 o1 Sk Uk Ck Hn Hs Hv Lv E1) as X.
    destruct (process_all_find K keys s1 s2 o2 Nd' Ok1 E2 n) as (B & _). rewrite B; auto.
  - apply (IH s1 s2 o2); auto; [rewrite F1; exact Ck|rewrite F1; exact Hs|]. rewrite A; auto. intros ->. contradiction.
Qed.

(** * C55 *)
(** the retry limit of two fails exactly for these interests: after an attempt that is not the first and that sent no data for the
    interest, the interest is still on the list if and only if this node can neither serve nor dismiss it; it then counts one more
    attempt (65535 attempts end it in any case, C56) *)
Theorem C55_kept_exactly_when : forall K sys evs s o dl n v s' o',
  schemes_ok K -> uri_ok K -> reaches K sys evs s o -> no_collision K o ->
  f_delay s = Some dl -> dl <= f_now s -> nm_find n (f_waiting s) = Some v -> 1 <= v -> v + 1 < 65535 ->
  fp_step K FeDelay s = (s', o', Ok tt) ->
  (forall d, In (FoData d) o' -> is_prefix n (full_name d) = false) ->
  (nm_find n (f_waiting s') <> None <-> exists t rcvd, names_ibf K n t rcvd /\ stuck K (f_core s) t rcvd) /\
  (nm_find n (f_waiting s') <> None -> nm_find n (f_waiting s') = Some (v + 1)).
Proof.
  intros K sys evs s o dl n v s' o' Sk Uk R Hc D Hd Hv H1 Lv E Nd.
  pose proof (reaches_ok _ _ _ _ _ R) as Ok_. assert (fp_ok K (fset_delay None s)) as Ok0 by (destruct Ok_; constructor; auto).
  destruct (delay_inv K s dl s' o' D Hd E) as (s1 & P & W). split; [split|].
  - intros Hk. destruct (process_kept K (fc_n K) (fset_delay None s) s1 o' n v Sk Uk (reaches_core_ok _ _ _ _ _ R Hc) Ok0 P Hv)
      as (p & Kp); [rewrite <- W; exact Hk|].
    destruct Kp as [(d & A & B)|(t & rcvd & A & [B|B])]; [|lia|exists t, rcvd; auto]. exfalso.
    specialize (Nd d B). unfold reply_from_store, store_find in A.
    destruct (lower_bound n (pb_store p)) as [d'|]; [|discriminate].
    destruct (is_prefix n (full_name d')) eqn:Q; [|discriminate]. congruence.
  - intros (t & rcvd & Hn & Hs). rewrite W. unfold process_waiting in P. rewrite mbind_get in P.
    rewrite (stuck_all K (fc_n K) n t rcvd v (nm_keys (f_waiting (fset_delay None s))) Sk Uk Hn Lv (fset_delay None s) s1 o'); auto; [discriminate| | |].
    + exact (reaches_core_ok _ _ _ _ _ R Hc).
    + apply nm_keys_NoDup, Ok0.
    + apply nm_In_keys. exists v. exact Hv.
  - intros Hk. rewrite W in *. destruct (process_find K _ s1 o' Ok0 P n) as [X|(v0 & X1 & X2 & X3)]; [congruence|].
    change (f_waiting (fset_delay None s)) with (f_waiting s) in X1. congruence.
Qed.
Print Assumptions C55_kept_exactly_when.

(** the peer shows "/a/2", this node has "/a/1": the second attempt leaves the interest on the list *)
Definition evs_st : list fev := [FeApi (AAdd pa); FeInterest a2_ask 1000; FeApi (APublish pa None); FeTick 600; FeDelay; FeTick 600].
Definition s_st : fp := Eval vm_compute in fst (full_after Kf evs_st).
Definition o_st : list fout := Eval vm_compute in snd (full_after Kf evs_st).
Lemma reach_st : reaches Kf 0 evs_st s_st o_st.
Proof. split; [repeat constructor|vm_compute; reflexivity]. Qed.
Lemma free_st : no_collision Kf o_st.
Proof. intros pre post k E H. eapply check_free_ok; [|exact E|exact H]. vm_compute. reflexivity. Qed.
Lemma stuck_st : stuck Kf (f_core s_st) a2_table 2.
Proof.
  exists (mkDiff true [name_hash (append_number pa 1)] [name_hash (append_number pa 2)]).
  split; [vm_compute; reflexivity|]. left. split; [reflexivity|]. split; [discriminate|].
  intros p v G _ _. unfold get_seq in G. apply nm_find_In in G.
  change (k_prefixes (f_core s_st)) with [(pa, 1)] in G. destruct G as [G|[]]. injection G as <- <-. left. vm_compute. reflexivity.
Qed.
Example C55_kept_example : exists dl s' o',
  schemes_ok Kf /\ uri_ok Kf /\ reaches Kf 0 evs_st s_st o_st /\ no_collision Kf o_st /\
  f_delay s_st = Some dl /\ dl <= f_now s_st /\ nm_find a2_ask (f_waiting s_st) = Some 1 /\
  fp_step Kf FeDelay s_st = (s', o', Ok tt) /\ (forall d, In (FoData d) o' -> is_prefix a2_ask (full_name d) = false) /\
  names_ibf Kf a2_ask a2_table 2 /\ stuck Kf (f_core s_st) a2_table 2 /\ nm_find a2_ask (f_waiting s') = Some 2.
Proof.
  eexists _, _, _. split; [apply Kf_ok|]. split; [apply Kf_ok|]. split; [apply reach_st|].
  split; [intros pre post k E H; eapply check_free_ok; [|exact E|exact H]; vm_compute; reflexivity|].
  split; [vm_compute; reflexivity|]. split; [vm_compute; discriminate|]. split; [vm_compute; reflexivity|].
  split; [vm_compute; reflexivity|]. split; [intros d []|]. split; [exact a2_names|]. split; [exact stuck_st|]. vm_compute. reflexivity.
Qed.

(** the limit of C56 is the only one: an interest can have had any number of attempts below it *)
Lemma alone_again K n t rcvd v s dl : schemes_ok K -> uri_ok K -> core_ok (fc_n K) (f_core s) ->
  names_ibf K n t rcvd -> stuck K (f_core s) t rcvd -> f_waiting s = [(n, v)] -> v + 1 < MAX_TRIES ->
  reply_from_store n (f_pub s) = None -> f_delay s = Some dl -> dl <= f_now s ->
  exists s' dl', fp_step K FeDelay s = (s', [], Ok tt) /\ f_core s' = f_core s /\ f_pub s' = f_pub s /\
    f_waiting s' = [(n, v + 1)] /\ f_delay s' = Some dl'.
Proof.
  intros Sk Uk Ck Hn Hs Hw Lv Hr D Hd. cbn [fp_step]. rewrite mbind_get, D. apply N.leb_le in Hd. rewrite Hd, mbind_mod.
  set (s0 := fset_delay None s). set (s1 := fset_waiting [(n, v + 1)] s0).
  assert (process_one K n s0 = (s1, [], Ok tt)) as P.
  { unfold process_one. rewrite mbind_get. change (f_waiting s0) with (f_waiting s). rewrite Hw.
    assert (nm_find n [(n, v)] = Some v) as -> by (apply nm_In_find; [repeat constructor|left; reflexivity]). cbv zeta.
    destruct (N.eqb_spec v MAX_TRIES) as [->|_]; [lia|]. rewrite mbind_mod.
    assert (nm_set n (v + 1) [(n, v)] = [(n, v + 1)]) as -> by (cbn [nm_set]; rewrite name_cmp_refl; reflexivity).
    fold s1. destruct (on_finterest K n DEFAULT_LIFETIME true s1) as [[s2 o2] r2] eqn:E.
    destruct (stuck_retry K (fc_n K) n t rcvd _ s1 s2 o2 r2 Sk Uk Ck Hn Hs E) as (-> & -> & Ho). specialize (Ho Hr). subst o2.
    unfold mbind at 1. rewrite E, mbind_get. change (f_waiting s1) with [(n, v + 1)].
    assert (nm_find n [(n, v + 1)] = Some (v + 1)) as -> by (apply nm_In_find; [repeat constructor|left; reflexivity]).
    destruct (N.eqb_spec (v + 1) MAX_TRIES) as [X|_]; [lia|]. reflexivity. }
  assert (process_waiting K s0 = (s1, [], Ok tt)) as Q.
  { unfold process_waiting. rewrite mbind_get. change (f_waiting s0) with (f_waiting s). rewrite Hw.
    change (nm_keys [(n, v)]) with [n]. cbn [process_all]. unfold mbind. rewrite P. reflexivity. }
  unfold mbind. rewrite Q, schedule_eq. eexists _, _. split; [reflexivity|]. repeat split.
Qed.
Definition evs_z : list fev := [FeApi (AAdd pa); FeInterest a2_ask 1000; FeApi (APublish pa None)].
Definition s_z : fp := Eval vm_compute in fst (full_after Kf evs_z).
Definition dl_z : N := Eval vm_compute in match f_delay s_z with Some dl => dl | None => 0 end.
Lemma reach_z : reaches Kf 0 evs_z s_z o_st.
Proof. split; [repeat constructor|vm_compute; reflexivity]. Qed.
Lemma z_core : f_core s_z = f_core s_st.
Proof. reflexivity. Qed.
Lemma z_pub : f_pub s_z = f_pub s_st.
Proof. reflexivity. Qed.
Lemma z_waiting : f_waiting s_z = [(a2_ask, 0)].
Proof. reflexivity. Qed.
Lemma z_delay : f_delay s_z = Some dl_z.
Proof. reflexivity. Qed.
Lemma z_store : reply_from_store a2_ask (f_pub s_st) = None.
Proof. vm_compute. reflexivity. Qed.
Theorem C55_any_number_of_attempts_refuted : forall v, v < 65535 -> exists K sys evs s o n,
  schemes_ok K /\ uri_ok K /\ reaches K sys evs s o /\ no_collision K o /\ nm_find n (f_waiting s) = Some v.
Proof.
  intros v Lv. exists Kf, 0%Z.
  assert (exists evs s dl, reaches Kf 0 evs s o_st /\ f_core s = f_core s_st /\ f_pub s = f_pub s_st /\ f_waiting s = [(a2_ask, v)] /\
    f_delay s = Some dl) as (evs & s & dl & R & _ & _ & Hw & _).
  { induction v as [|v IH] using N.peano_ind.
    - exists evs_z, s_z, dl_z. split; [exact reach_z|]. split; [exact z_core|]. split; [exact z_pub|]. split; [exact z_waiting|exact z_delay].
    - destruct IH as (evs & s & dl & R & Ec & Ep & Hw & D); [lia|]. exists (evs ++ [FeTick dl] ++ [FeDelay]).
      set (s1 := st (fp_step Kf (FeTick dl) s)).
      assert (reaches Kf 0 (evs ++ [FeTick dl]) s1 o_st) as R1.
      { rewrite <- (app_nil_r o_st). apply (reaches_snoc Kf 0 evs (FeTick dl) s o_st R); [constructor|discriminate|discriminate]. }
      destruct (alone_again Kf a2_ask a2_table 2 v s1 dl) as (s2 & dl' & E & A & B & C & F).
      + apply Kf_ok.
      + apply Kf_ok.
      + apply (reaches_core_ok _ _ _ _ _ R1). exact free_st.
      + exact a2_names.
      + change (f_core s1) with (f_core s). rewrite Ec. exact stuck_st.
      + exact Hw.
      + unfold MAX_TRIES. lia.
      + change (f_pub s1) with (f_pub s). rewrite Ep. exact z_store.
      + exact D.
      + change (f_now s1) with (f_now s + dl). lia.
      + exists s2, dl'. split; [|rewrite A, B, C, F, <- N.add_1_r; repeat split; assumption].
        rewrite app_assoc. pose proof (reaches_snoc Kf 0 _ FeDelay s1 o_st R1) as X. rewrite E in X. unfold st, outs, res in X. cbn [fst snd] in X.
        rewrite app_nil_r in X. apply X; [constructor|discriminate|discriminate]. }
  exists evs, s, o_st, a2_ask. split; [apply Kf_ok|]. split; [apply Kf_ok|]. split; [exact R|]. split; [exact free_st|].
  rewrite Hw. apply nm_In_find; [repeat constructor|left; reflexivity].
Qed.
Print Assumptions C55_any_number_of_attempts_refuted.
