(** Property theorems about the example applications (C91, C92, C93). *)
From Coq Require Import List NArith ZArith Bool Arith Lia Sorted Permutation.
From Coq.Strings Require Import Byte.
From Verif Require Import Base BaseFacts Mon MonFacts Iblt Tlv TlvFacts NMap NMapFacts State StateFacts Codec Bloom Store Producer SpecProducer
  ProducerFacts Properties_Producer Partial SpecPartial PartialFacts Properties_Partial Full FullTrace SpecFull FullFacts FullData Properties_Full
  Consumer SpecConsumer ConsumerFacts ConsumerReplies Properties_Consumer Apps AppFacts.
Import ListNotations.
Local Open Scope N_scope.

(** * C91 *)
(** what a stream's record says when only the application numbers the stream *)
Lemma stream_exact p max k l n (q : Prop) : stream p max k l n q -> q ->
  l = one_to k /\ k <= N.max 1 max /\ n = (if (k <? N.max 1 max)%N then 1 else 0)%nat.
Proof.
  intros [S1 S2 S3 S4] Q. destruct (S4 Q) as [E Le]. split; [exact E|]. split; [exact Le|].
  destruct S3 as [[-> F]|[-> (v & Hv & Lv)]].
  - replace (k <? N.max 1 max) with true; [reflexivity|]. symmetry. apply N.ltb_lt. destruct (N.eq_dec k 0) as [->|]; [lia|].
    rewrite Forall_forall in F. assert (k < max) by (apply F; rewrite E; apply one_to_last; lia). lia.
  - replace (k <? N.max 1 max) with false; [reflexivity|]. symmetry. apply N.ltb_ge. rewrite Forall_forall in S2. specialize (S2 v Hv). cbv beta in S2.
    destruct (N.eq_dec k 0) as [->|]; [rewrite E in Hv; destruct Hv|]. lia.
Qed.
(** the partial-sync producer application numbers each stream 1, 2, 3, ... and stops at the
    configured maximum, but not before 1; until then one next update is scheduled *)
Theorem C91_partial_streams_partial : forall K max streams evs a o p,
  NoDup (map fst streams) -> Forall (aenv partial_env) evs ->
  app_start (partial_lib K) (pp_new K) max streams evs = Some (a, o) -> In p (map fst streams) ->
  exists k, logged p o = one_to k /\ get_seq p (pp_core (ap_lib a)) = Some k /\ k <= N.max 1 (max_of_int max) /\
    length (due p a) = (if (k <? N.max 1 (max_of_int max))%N then 1 else 0)%nat.
Proof.
  intros K max streams evs a o p Nd F H Hp.
  destruct (start_stream (partial_lib K) _ _ _ (partial_ok K) (pp_new K) max streams evs a o p) as [(Mx & I & k & Hk & Kb & St) Em]; auto.
  - apply (core_new_pfx (pc_n K)).
  - rewrite Em in St. destruct (stream_exact _ _ _ _ _ _ St Logic.I) as (E1 & E2 & E3). exists k. auto.
Qed.
Print Assumptions C91_partial_streams_partial.
(** so does the full-sync application, for a stream that no other node announces *)
Theorem C91_full_streams_partial : forall K sys s0 o0 max streams evs a o p,
  fp_init K sys = (s0, o0, Ok tt) ->
  NoDup (map fst streams) -> Forall (aenv full_env) evs ->
  app_start (full_lib K) s0 max streams evs = Some (a, o) -> In p (map fst streams) -> untouched p (lib_outs o) ->
  exists k, logged p o = one_to k /\ get_seq p (f_core (ap_lib a)) = Some k /\ k <= N.max 1 (max_of_int max) /\
    length (due p a) = (if (k <? N.max 1 (max_of_int max))%N then 1 else 0)%nat.
Proof.
  intros K sys s0 o0 max streams evs a o p Ei Nd F H Hp Un.
  assert (f_core s0 = core_new (fc_n K)) as Ec.
  { rewrite init_eq in Ei. destruct (Full.sync_name K _) as [n|?|?|]; try discriminate. injection Ei as <- _. reflexivity. }
  destruct (start_stream (full_lib K) _ _ _ (full_ok K) s0 max streams evs a o p) as [(Mx & I & k & Hk & Kb & St) Em]; auto.
  - rewrite Ec. apply (core_new_pfx (fc_n K)).
  - intros q. cbn [lb_seq full_lib]. rewrite Ec. reflexivity.
  - rewrite Em in St. destruct (stream_exact _ _ _ _ _ _ St Un) as (E1 & E2 & E3). exists k. auto.
Qed.
Print Assumptions C91_full_streams_partial.
(** whatever other nodes announce, it never logs a number twice, and it goes on exactly until it has
    logged one that reaches the maximum *)
Theorem C91_full_streams_increase : forall K sys s0 o0 max streams evs a o p,
  fp_init K sys = (s0, o0, Ok tt) ->
  NoDup (map fst streams) -> Forall (aenv full_env) evs ->
  app_start (full_lib K) s0 max streams evs = Some (a, o) -> In p (map fst streams) ->
  StronglySorted N.lt (logged p o) /\
  ((length (due p a) = 1%nat /\ Forall (fun v => v < max_of_int max) (logged p o)) \/
   (due p a = [] /\ exists v, In v (logged p o) /\ max_of_int max <= v)).
Proof.
  intros K sys s0 o0 max streams evs a o p Ei Nd F H Hp.
  assert (f_core s0 = core_new (fc_n K)) as Ec.
  { rewrite init_eq in Ei. destruct (Full.sync_name K _) as [n|?|?|]; try discriminate. injection Ei as <- _. reflexivity. }
  destruct (start_stream (full_lib K) _ _ _ (full_ok K) s0 max streams evs a o p) as [(Mx & I & k & Hk & Kb & St) Em]; auto.
  - rewrite Ec. apply (core_new_pfx (fc_n K)).
  - intros q. cbn [lb_seq full_lib]. rewrite Ec. reflexivity.
  - rewrite Em in St. destruct St as [S1 S2 S3 S4]. split; [exact S1|]. destruct S3 as [S3|[S3 S5]]; [left; exact S3|right].
    split; [|exact S5]. destruct (due p a); [reflexivity|discriminate].
Qed.
Print Assumptions C91_full_streams_increase.

(** with maximum 0 one update is published all the same; with a negative maximum, -1 here, a second
    one is still scheduled, and with it 2^64-2 more *)
Definition evs_91 : list (aev pev) := [AeLib (PTick 100); AeUpdate 0 20].
Theorem C91_streams_refuted : exists K streams evs p a o a' o',
  NoDup (map fst streams) /\ Forall (aenv partial_env) evs /\ In p (map fst streams) /\
  app_start (partial_lib K) (pp_new K) 0 streams evs = Some (a, o) /\ logged p o = [1] /\
  app_start (partial_lib K) (pp_new K) (-1) streams evs = Some (a', o') /\ logged p o' = [1] /\ length (due p a') = 1%nat.
Proof.
  eexists Kx, [(pa, 70)], evs_91, pa, _, _, _, _. split; [repeat constructor; intros []|]. split; [repeat constructor|]. split; [left; reflexivity|].
  split; [vm_compute; reflexivity|]. split; [vm_compute; reflexivity|]. split; [vm_compute; reflexivity|]. split; vm_compute; reflexivity.
Qed.
Print Assumptions C91_streams_refuted.
(** another node of the group announces the stream's prefix with number 7: the application, asked for
    three updates, logs number 8 and stops *)
Definition evs_91f : list (aev fev) := [AeLib (FeContent 0 (encode_names [append_number pa 7]) []); AeLib (FeTick 100); AeUpdate 0 20].
Definition s0_91 : fp := Eval vm_compute in fst (fst (fp_init Kf 0)).
Definition o0_91 : list fout := Eval vm_compute in snd (fst (fp_init Kf 0)).
Theorem C91_full_streams_refuted : exists K sys s0 o0 streams evs p a o,
  fp_init K sys = (s0, o0, Ok tt) /\ NoDup (map fst streams) /\ Forall (aenv full_env) evs /\ In p (map fst streams) /\
  app_start (full_lib K) s0 3 streams evs = Some (a, o) /\ logged p o = [8] /\ due p a = [].
Proof.
  eexists Kf, 0%Z, s0_91, o0_91, [(pa, 70)], evs_91f, pa, _, _. split; [vm_compute; reflexivity|]. split; [repeat constructor; intros []|].
  split; [repeat constructor|]. split; [left; reflexivity|]. split; [vm_compute; reflexivity|]. split; vm_compute; reflexivity.
Qed.
Print Assumptions C91_full_streams_refuted.
(** two streams with maximum 2 *)
Definition evs2_91 : list (aev pev) := [AeLib (PTick 100); AeUpdate 0 20; AeUpdate 0 30; AeLib (PTick 100); AeUpdate 0 40].
Definition evs3_91 : list (aev fev) := [AeLib (FeTick 100); AeUpdate 0 20; AeUpdate 0 30; AeLib (FeTick 100); AeUpdate 0 40].
Example C91_example :
  (exists a o, NoDup (map fst [(pa, 70); (pb, 80)]) /\ Forall (aenv partial_env) evs2_91 /\
    app_start (partial_lib Kx) (pp_new Kx) 2 [(pa, 70); (pb, 80)] evs2_91 = Some (a, o) /\
    logged pa o = one_to 2 /\ due pa a = [] /\ logged pb o = one_to 1 /\ length (due pb a) = 1%nat) /\
  (exists a o, fp_init Kf 0 = (s0_91, o0_91, Ok tt) /\ Forall (aenv full_env) evs3_91 /\
    app_start (full_lib Kf) s0_91 2 [(pa, 70); (pb, 80)] evs3_91 = Some (a, o) /\ untouched pa (lib_outs o) /\
    logged pa o = one_to 2 /\ due pa a = [] /\ logged pb o = one_to 1 /\ length (due pb a) = 1%nat).
Proof.
  split.
  - eexists _, _. split; [repeat constructor; [intros [E|[]]; discriminate|intros []]|]. split; [repeat constructor|]. split; [vm_compute; reflexivity|].
    split; [vm_compute; reflexivity|]. split; [vm_compute; reflexivity|]. split; vm_compute; reflexivity.
  - eexists _, _. split; [vm_compute; reflexivity|]. split; [repeat constructor|]. split; [vm_compute; reflexivity|]. split.
    { intros v H. match type of H with In _ ?l => replace l with [CAdd pa; CAdd pb; CPublish pa None; CPublish pb None; CPublish pa None] in H by (vm_compute; reflexivity) end.
      repeat (destruct H as [H|H]; [discriminate|]). exact H. }
    split; [vm_compute; reflexivity|]. split; [vm_compute; reflexivity|]. split; vm_compute; reflexivity.
Qed.

(** every scheduled update that is due ends as its publication does: getSeqNo has a value *)
Theorem C91_producer_update_ends : forall K max streams evs a o i r dl p s' o' x,
  NoDup (map fst streams) -> Forall (aenv partial_env) evs ->
  app_start (partial_lib K) (pp_new K) max streams evs = Some (a, o) ->
  nth_error (ap_timers a) i = Some (dl, p) -> dl <= pp_now (ap_lib a) ->
  pp_step K (PPublishName p None) (ap_lib a) = (s', o', x) ->
  snd (app_step (partial_lib K) (AeUpdate i r) a) = x.
Proof.
  intros K max streams evs a o i r dl p s' o' x Nd F H. apply (update_ends (partial_lib K) _ _ _ (partial_ok K) (pp_new K) max streams evs a o); auto.
  apply (core_new_pfx (pc_n K)).
Qed.
Print Assumptions C91_producer_update_ends.
Theorem C91_full_update_ends : forall K sys s0 o0 max streams evs a o i r dl p s' o' x,
  fp_init K sys = (s0, o0, Ok tt) ->
  NoDup (map fst streams) -> Forall (aenv full_env) evs ->
  app_start (full_lib K) s0 max streams evs = Some (a, o) ->
  nth_error (ap_timers a) i = Some (dl, p) -> dl <= f_now (ap_lib a) ->
  fp_step K (FeApi (APublish p None)) (ap_lib a) = (s', o', x) ->
  snd (app_step (full_lib K) (AeUpdate i r) a) = x.
Proof.
  intros K sys s0 o0 max streams evs a o i r dl p s' o' x Ei Nd F H.
  assert (f_core s0 = core_new (fc_n K)) as Ec.
  { rewrite init_eq in Ei. destruct (Full.sync_name K _) as [n|?|?|]; try discriminate. injection Ei as <- _. reflexivity. }
  apply (update_ends (full_lib K) _ _ _ (full_ok K) s0 max streams evs a o); auto.
  - rewrite Ec. apply (core_new_pfx (fc_n K)).
  - intros q. cbn [lb_seq full_lib]. rewrite Ec. reflexivity.
Qed.
Print Assumptions C91_full_update_ends.
Example C91_update_example : exists a o s' o',
  app_start (partial_lib Kx) (pp_new Kx) 3 [(pa, 5); (pb, 7)] [AeLib (PTick 6); AeUpdate 0 2; AeLib (PTick 2)] = Some (a, o) /\
  nth_error (ap_timers a) 1 = Some (8, pa) /\ pp_now (ap_lib a) = 8 /\ pp_step Kx (PPublishName pa None) (ap_lib a) = (s', o', Ok tt).
Proof. eexists _, _, _, _. split; [vm_compute; reflexivity|]. split; [vm_compute; reflexivity|]. split; vm_compute; reflexivity. Qed.

(** * C92 *)
Lemma log_range_stops n : forall i high f, i + N.of_nat n = high + 1 -> high + 1 < two64 -> (n < f)%nat -> log_range f i high = Ok (upfrom i n).
Proof.
  induction n as [|n IH]; intros i high f E L Hf; (destruct f as [|f]; [lia|]); cbn [log_range upfrom].
  - replace (i <=? high) with false by (symmetry; apply N.leb_gt; lia). reflexivity.
  - replace (i <=? high) with true by (symmetry; apply N.leb_le; lia). unfold w64. rewrite N.mod_small by lia.
    rewrite (IH (i + 1) high f) by lia. reflexivity.
Qed.
Lemma log_range_hangs f : forall i, i < two64 -> log_range f i (two64 - 1) = Hang.
Proof.
  induction f as [|f IH]; intros i Hi; [reflexivity|]. cbn [log_range]. replace (i <=? two64 - 1) with true by (symmetry; apply N.leb_le; lia).
  rewrite IH; [reflexivity|]. unfold w64. apply N.mod_lt. discriminate.
Qed.
(** what the callback is to log: every number of every range, in order *)
Definition told (l : list missing) : list (name * N) :=
  flat_map (fun m => map (fun v => (mi_prefix m, v)) (upfrom (mi_low m) (N.to_nat (mi_high m + 1 - mi_low m)))) l.
(** [turns] steps of each loop suffice when no range ends at the largest number *)
Theorem C92_callback_returns_partial : forall l,
  Forall (fun m => mi_low m <= mi_high m + 1 /\ mi_high m < two64 - 1) l ->
  exists turns, forall f, (turns <= f)%nat -> log_updates f l = Ok (told l).
Proof.
  induction l as [|m l IH]; intros F; [exists O; reflexivity|]. inversion F as [|? ? [Lo Hi] F']; subst. destruct (IH F') as (t & Ht).
  exists (Nat.max t (S (N.to_nat (mi_high m + 1 - mi_low m)))). intros f Hf. cbn [log_updates told flat_map].
  rewrite (log_range_stops (N.to_nat (mi_high m + 1 - mi_low m)) (mi_low m) (mi_high m) f) by lia. cbn [obind]. rewrite Ht by lia. reflexivity.
Qed.
Print Assumptions C92_callback_returns_partial.
(** a range that ends there is never finished; the example consumer's own subscription, made with the
    number it found in the hello data, leads to such a call *)
Definition evs_92 : list cev := [CeCall CSendHello; CeSegment 0 (seg hello_name Blob)].
Definition s_92 : cs := Eval vm_compute in fst (after evs_92).
Definition o_92 : list cout := Eval vm_compute in snd (after evs_92).
Lemma reach_92 : creaches Kc evs_92 s_92 o_92.
Proof. apply reach_c. vm_compute. reflexivity. Qed.
Theorem C92_callback_returns_refuted : exists K evs s o i buf avail script s' o' l,
  creaches K evs s o /\ after_hello 1 avail [pa] = Ok script /\
  c_step K (CeContent i buf script []) s = (s', o', Ok tt) /\ In (CoHello avail) o' /\ In (CoUpdate l) o' /\
  forall f, log_updates f l = Hang.
Proof.
  eexists Kc, evs_92, s_92, o_92, 0%nat, (encode_names [append_number pa (two64 - 1)]), [(pa, two64 - 1)], _, _, _,
    [mkMissing pa (two64 - 1) (two64 - 1) 0].
  split; [exact reach_92|]. split; [vm_compute; reflexivity|]. split; [vm_compute; reflexivity|]. split; [left; reflexivity|].
  split; [right; left; reflexivity|]. intros f. cbn [log_updates mi_low mi_high]. rewrite log_range_hangs; [reflexivity|]. unfold two64. lia.
Qed.
Print Assumptions C92_callback_returns_refuted.
Example C92_example : Forall (fun m => mi_low m <= mi_high m + 1 /\ mi_high m < two64 - 1) [mkMissing pa 3 5 0; mkMissing pb 1 1 0] /\
  told [mkMissing pa 3 5 0; mkMissing pb 1 1 0] = [(pa, 3); (pa, 4); (pa, 5); (pb, 1)].
Proof. split; [|reflexivity]. repeat constructor; cbn [mi_low mi_high]; unfold two64; lia. Qed.

(** * C93 *)
Lemma skipn_nth {A} (l : list A) : forall i x, nth_error l i = Some x -> skipn i l = x :: skipn (S i) l.
Proof. induction l as [|y l IH]; intros [|i] x H; try discriminate; [injection H as ->; reflexivity|]. apply IH. exact H. Qed.
Lemma pick_spec avail sensors n : forall i, (i + n <= length sensors)%nat -> (forall p, In p sensors -> nm_find p avail <> None) ->
  exists f, (forall p, In p sensors -> nm_find p avail = Some (f p)) /\
    pick avail sensors n i = Ok (map (fun p => CSub p (f p) true) (firstn n (skipn i sensors))).
Proof.
  intros i Hl Ha. set (f := fun p => match nm_find p avail with Some v => v | None => 0 end).
  assert (forall p, In p sensors -> nm_find p avail = Some (f p)) as Hf.
  { intros p Hp. specialize (Ha p Hp). unfold f. destruct (nm_find p avail); congruence. }
  exists f. split; [exact Hf|]. clear Ha. revert i Hl. induction n as [|n IH]; intros i Hl; cbn [pick firstn]; [reflexivity|].
  destruct (nth_error sensors i) as [p|] eqn:E; [|apply nth_error_None in E; lia]. rewrite (Hf p) by (eapply nth_error_In; eauto).
  rewrite IH by lia. cbn [obind]. rewrite (skipn_nth _ _ _ E). reflexivity.
Qed.
(** the callback's calls, when enough prefixes are available: the first [nsub] of the shuffled ones,
    with the numbers the hello data has for them, and a sync interest *)
Theorem C93_calls_partial : forall nsub avail sensors, nm_sorted avail -> Permutation sensors (nm_keys avail) ->
  (Z.to_nat nsub <= length avail)%nat ->
  exists f, (forall p, In p sensors -> nm_find p avail = Some (f p)) /\
    after_hello nsub avail sensors = Ok (map (fun p => CSub p (f p) true) (firstn (Z.to_nat nsub) sensors) ++ [CSendSync]).
Proof.
  intros nsub avail sensors So P Hl. destruct (pick_spec avail sensors (Z.to_nat nsub) 0) as (f & Hf & E).
  - rewrite (Permutation_length P). unfold nm_keys. rewrite map_length. exact Hl.
  - intros p Hp. apply (Permutation_in _ P) in Hp. apply nm_In_keys in Hp as (v & ->). discriminate.
  - exists f. split; [exact Hf|]. unfold after_hello. rewrite E. reflexivity.
Qed.
Print Assumptions C93_calls_partial.
(** when fewer are available, the loop reads beyond the end of the vector *)
Theorem C93_calls_refuted : forall nsub avail sensors, Permutation sensors (nm_keys avail) ->
  (length avail < Z.to_nat nsub)%nat -> after_hello nsub avail sensors = UB UbOutOfBounds.
Proof.
  intros nsub avail sensors P Hl. assert (forall n i, (length sensors < i + n)%nat -> (i <= length sensors)%nat -> pick avail sensors n i = UB UbOutOfBounds) as H.
  { induction n as [|n IH]; intros i Hn Hi; [lia|]. cbn [pick]. destruct (nth_error sensors i) as [p|] eqn:E; [|reflexivity].
    assert (i < length sensors)%nat by (apply nth_error_Some; congruence). destruct (nm_find p avail); [|reflexivity].
    rewrite IH by lia. reflexivity. }
  unfold after_hello. rewrite H; [reflexivity| |lia]. rewrite (Permutation_length P). unfold nm_keys. rewrite map_length. exact Hl.
Qed.
Print Assumptions C93_calls_refuted.
Lemma NoDup_firstn {A} (l : list A) : forall n, NoDup l -> NoDup (firstn n l).
Proof.
  induction l as [|x l IH]; intros [|n] H; try constructor; inversion H; subst; [|auto].
  intros Hx. assert (In x l); [|contradiction]. rewrite <- (firstn_skipn n l). apply in_or_app. left. exact Hx.
Qed.
Lemma take_hello_fresh names : forall av s s' o l av', (forall p, is_subscribed p s = false) -> nm_sorted av ->
  take_hello names av s = (s', o, Ok (l, av')) -> s' = s /\ o = [] /\ l = [] /\ nm_sorted av'.
Proof.
  induction names as [|c names IH]; intros av s s' o l av' Hs So; cbn [take_hello]; [intros [= <- <- <- <-]; auto|].
  rewrite mbind_lift. destruct (name_get_minus c 1) as [last|e|u|]; try discriminate.
  rewrite mbind_lift. destruct (to_number last) as [w|e|u|]; try discriminate.
  cbv zeta. rewrite mbind_get, Hs. cbn [andb]. apply IH; [exact Hs|]. apply nm_emplace_sorted. exact So.
Qed.
Lemma subs_run K f l : forall s s' o, NoDup l -> (forall p, In p l -> seq_of p s = None) ->
  calls K (map (fun p => CSub p (f p) true) l ++ [CSendSync]) s = (s', o, Ok tt) ->
  (forall p, is_subscribed p s' = true <-> is_subscribed p s = true \/ In p l) /\
  (forall p, In p l -> seq_of p s' = Some (f p)) /\
  (forall p, ~ In p l -> seq_of p s' = seq_of p s) /\
  (forall p, In p l -> f p <> 0 -> In (CoUpdate [mkMissing p (f p) (f p) 0]) o) /\
  (exists m, In (CoInterest KSync m) o).
Proof.
  induction l as [|q l IH]; intros s s' o Nd Hn; cbn [map app calls].
  - cbn [call]. intros E. assert (c_subs s' = c_subs s /\ c_prefixes s' = c_prefixes s /\ exists m, In (CoInterest KSync m) o) as (E1 & E2 & E3).
    { unfold send_sync in E. rewrite mbind_assoc, mbind_get in E. destruct (c_iblt s); [discriminate|]. rewrite mbind_assoc, mbind_lift in E.
      destruct (append_bloom _ _) as [n1|e|u|]; try discriminate. cbv zeta in E. rewrite mbind_assoc, mbind_mod, mbind_emit in E. injection E as <- <-.
      split; [unfold cstop; destruct (c_sync s); reflexivity|]. split; [unfold cstop; destruct (c_sync s); reflexivity|]. eexists. left. reflexivity. }
    unfold is_subscribed, seq_of. rewrite E1, E2. split; [intros p; cbn [In]; tauto|]. split; [intros p []|]. split; [auto|]. split; [intros p []|]. exact E3.
  - inversion Nd; subst. intros E. cbn [call] in E. pose proof (add_sub_cases K q (f q) true s) as A.
    pose proof (Hn q (or_introl eq_refl)) as Hq. unfold seq_of in Hq. rewrite Hq in A.
    destruct (bloom_insert (c_bloom s) q) as [b|e|u|] eqn:Eb.
    2-4: exfalso; unfold add_sub in E; rewrite !mbind_assoc, mbind_get, Hq, !mbind_assoc, mbind_mod, !mbind_assoc, mbind_lift, Eb in E; discriminate.
    rewrite mbind_assoc in E. rewrite (mbind_run _ _ _ _ _ _ A) in E.
    rewrite mbind_emit in E. set (s1 := cset_bloom _ _) in E.
    destruct (calls K (map _ l ++ [CSendSync]) s1) as [[s2 o2] r2] eqn:C. cbn [fst snd] in E. injection E as <- <- ->.
    destruct (IH s1 s2 o2) as (J1 & J2 & J3 & J4 & m & J5); auto.
    { intros p Hp. unfold seq_of, s1. cbn [c_prefixes cset_bloom cset_subs cset_prefixes]. rewrite nm_find_set_other; [apply (Hn p); right; exact Hp|].
      intros ->. contradiction. }
    split; [|split; [|split; [|split]]].
    + intros p. rewrite J1. cbn [In]. assert (is_subscribed p s1 = true <-> is_subscribed p s = true \/ q = p) as Q.
      { unfold is_subscribed, s1. cbn [c_subs cset_bloom cset_subs]. rewrite !nm_mem_find. unfold nm_emplace.
        destruct (nm_find q (c_subs s)) as [v|] eqn:Fq.
        * split; [auto|]. intros [X|<-]; [exact X|eauto].
        * destruct (name_eqb p q) eqn:Epq; [apply name_eqb_eq in Epq; subst; rewrite nm_find_set_same; split; eauto|].
          apply name_eqb_neq in Epq. rewrite nm_find_set_other by exact Epq. split; [auto|]. intros [X|<-]; [exact X|contradiction]. }
      rewrite Q. tauto.
    + intros p [<-|Hp]; [|auto]. rewrite J3 by assumption. unfold seq_of, s1. cbn [c_prefixes cset_bloom cset_subs cset_prefixes]. apply nm_find_set_same.
    + intros p Hp. cbn [In] in Hp. rewrite J3 by tauto. unfold seq_of, s1. cbn [c_prefixes cset_bloom cset_subs cset_prefixes]. apply nm_find_set_other. intros ->. tauto.
    + intros p [<-|Hp] Nz; [|apply in_or_app; right; right; auto].
      apply in_or_app. left. apply N.eqb_neq in Nz. rewrite Nz. left. reflexivity.
    + exists m. apply in_or_app. right. right. exact J5.
Qed.
(** the first hello data: the application ends up subscribed to exactly [nsub] different prefixes of
    those listed, at the numbers listed; numbers other than 0 are reported, and a sync interest is sent *)
Theorem C93_first_hello_partial : forall K i n buf nsub s av sensors script s' o,
  cfetch i (c_live s) = Some (KHello, n) -> (forall p, is_subscribed p s = false) -> (forall p, seq_of p s = None) ->
  c_step K (CeContent i buf script []) s = (s', o, Ok tt) -> In (CoHello av) o ->
  Permutation sensors (nm_keys av) -> after_hello nsub av sensors = Ok script ->
  exists chosen, NoDup chosen /\ length chosen = Z.to_nat nsub /\ incl chosen (nm_keys av) /\
    (forall p, is_subscribed p s' = true <-> In p chosen) /\
    (forall p, In p chosen -> seq_of p s' = nm_find p av) /\
    (forall p v, In p chosen -> nm_find p av = Some v -> v <> 0 -> In (CoUpdate [mkMissing p v v 0]) o) /\
    (exists m, In (CoInterest KSync m) o).
Proof.
  intros K i n buf nsub s av sensors script s' o Hi Hs Hq E Ho P Ha.
  cbn [c_step] in E. rewrite mbind_get, Hi in E. unfold finish in E. rewrite mbind_mod in E. unfold on_hello_data in E. rewrite mbind_mod, mbind_lift in E.
  destruct (state_of_buffer buf) as [names|e|u|]; try discriminate. set (s2 := cset_iblt _ _) in E.
  destruct (take_hello names [] s2) as [[s3 o3] r3] eqn:T. destruct r3 as [[l av1]|e|u|]; [|unfold mbind in E; rewrite T in E; discriminate..].
  destruct (take_hello_fresh names [] s2 s3 o3 l av1 Hs nm_sorted_nil T) as (-> & -> & -> & So).
  rewrite (mbind_run _ _ _ _ _ _ T), mbind_emit in E. cbn [fst snd] in E.
  destruct (nh_calls K script s2 Logic.I) as [_ Nh]. destruct (calls K script s2) as [[s4 o4] r4] eqn:C. cbn [outs fst snd] in Nh.
  unfold mbind in E. rewrite C in E. destruct r4 as [[]|?|?|]; try discriminate. cbn [fst snd mret] in E. rewrite app_nil_r in E. injection E as <- <-.
  assert (av1 = av) as ->. { destruct Ho as [[= ->]|Ho]; [reflexivity|]. rewrite Forall_forall in Nh. destruct (Nh _ Ho av eq_refl). }
  destruct (Nat.le_gt_cases (Z.to_nat nsub) (length av)) as [Le|Gt]; [|rewrite (C93_calls_refuted nsub av sensors P Gt) in Ha; discriminate].
  destruct (C93_calls_partial nsub av sensors So P Le) as (f & Hf & Ef). rewrite Ef in Ha. injection Ha as <-.
  set (ch := firstn (Z.to_nat nsub) sensors) in *.
  assert (incl ch sensors) as Inc. { intros p Hp. unfold ch in Hp. rewrite <- (firstn_skipn (Z.to_nat nsub) sensors). apply in_or_app. left. exact Hp. }
  assert (NoDup ch) as Nd.
  { assert (NoDup sensors) as Ns by (exact (Permutation_NoDup (Permutation_sym P) (nm_sorted_NoDup _ So))).
    apply NoDup_firstn. exact Ns. }
  destruct (subs_run K f ch s2 s4 o4 Nd (fun p _ => Hq p) C) as (J1 & J2 & J3 & J4 & m & J5).
  exists ch. split; [exact Nd|]. split; [|split; [|split; [|split; [|split]]]].
  - unfold ch. rewrite firstn_length, (Permutation_length P). unfold nm_keys. rewrite map_length. lia.
  - intros p Hp. apply (Permutation_in _ P), Inc, Hp.
  - intros p. rewrite J1. split; [|auto]. intros [X|X]; [|exact X]. change (is_subscribed p s = true) in X. rewrite Hs in X. discriminate.
  - intros p Hp. rewrite (Hf p) by (apply Inc, Hp). auto.
  - intros p v Hp Hv Nz. rewrite (Hf p) in Hv by (apply Inc, Hp). injection Hv as <-. right. apply J4; assumption.
  - exists m. right. exact J5.
Qed.
Print Assumptions C93_first_hello_partial.
(** hello data received again, after a sync reply of type Nack, is answered by another choice: the
    application asked for one prefix is subscribed to two *)
Definition evs_93 : list cev := [CeCall CSendHello; CeSegment 0 (seg hello_name Blob)].
Definition buf_93 : bytes := encode_names [append_number pa 3; append_number pb 4].
Definition av_93 : nmap N := [(pa, 3); (pb, 4)].
Definition script_93 (p : name) (v : N) : list capi := [CSub p v true; CSendSync].
Definition evs2_93 : list cev := evs_93 ++ [CeContent 0 buf_93 (script_93 pa 3) []; CeSegment 1 (seg sync_name AppNack);
  CeContent 1 [] [] []; CeSegment 2 (seg hello_name Blob); CeContent 2 buf_93 (script_93 pb 4) []].
Definition s_93 : cs := Eval vm_compute in fst (after evs2_93).
Definition o_93 : list cout := Eval vm_compute in snd (after evs2_93).
Theorem C93_first_hello_refuted : exists K evs s o i i' buf av sensors sensors' script script',
  creaches K evs s o /\ In (CeContent i buf script []) evs /\ In (CeContent i' buf script' []) evs /\
  (forall av', In (CoHello av') o -> av' = av) /\ In (CoHello av) o /\
  Permutation sensors (nm_keys av) /\ Permutation sensors' (nm_keys av) /\
  after_hello 1 av sensors = Ok script /\ after_hello 1 av sensors' = Ok script' /\
  exists p p', p <> p' /\ is_subscribed p s = true /\ is_subscribed p' s = true.
Proof.
  eexists Kc, evs2_93, s_93, o_93, 0%nat, 2%nat, buf_93, av_93, [pa; pb], [pb; pa], _, _.
  split; [apply reach_c; vm_compute; reflexivity|]. split; [right; right; left; reflexivity|]. split; [do 6 right; left; reflexivity|].
  split. { intros av' H. cbv [o_93 In] in H. repeat (destruct H as [H|H]; [try discriminate; injection H as <-; reflexivity|]). destruct H. }
  split; [vm_compute; auto|]. split; [apply Permutation_refl|]. split; [apply perm_swap|]. split; [vm_compute; reflexivity|]. split; [vm_compute; reflexivity|].
  exists pa, pb. split; [discriminate|]. split; vm_compute; reflexivity.
Qed.
Print Assumptions C93_first_hello_refuted.
Definition s1_93 : cs := Eval vm_compute in fst (after evs_93).
Definition s2_93 : cs := Eval vm_compute in st (c_step Kc (CeContent 0 buf_93 (script_93 pb 4) []) s1_93).
Definition o2_93 : list cout := Eval vm_compute in outs (c_step Kc (CeContent 0 buf_93 (script_93 pb 4) []) s1_93).
Example C93_example : (exists n, cfetch 0 (c_live s1_93) = Some (KHello, n)) /\ (forall p, is_subscribed p s1_93 = false) /\ (forall p, seq_of p s1_93 = None) /\
  c_step Kc (CeContent 0 buf_93 (script_93 pb 4) []) s1_93 = (s2_93, o2_93, Ok tt) /\ In (CoHello av_93) o2_93 /\
  after_hello 1 av_93 [pb; pa] = Ok (script_93 pb 4) /\ is_subscribed pb s2_93 = true /\ is_subscribed pa s2_93 = false /\
  after_hello 3 av_93 [pb; pa] = UB UbOutOfBounds.
Proof.
  split; [eexists; vm_compute; reflexivity|]. split; [reflexivity|]. split; [reflexivity|]. split; [vm_compute; reflexivity|]. split; [left; reflexivity|].
  split; [vm_compute; reflexivity|]. split; [vm_compute; reflexivity|]. split; vm_compute; reflexivity.
Qed.
