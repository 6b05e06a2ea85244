(** How many sync interests a full-sync node sends. *)
From Coq Require Import List NArith ZArith Bool Arith Lia Sorted.
From Verif Require Import Base BaseFacts Mon MonFacts Iblt SpecIblt IbltFacts Tlv TlvFacts State NMap NMapFacts
  Codec CodecFacts Store StoreFacts SpecStore Producer SpecProducer ProducerFacts Partial SpecPartial PartialFacts
  Full FullTrace SpecFull FullFacts FullSafe FullSteps FullRuns FullTimers SpecFlood.
Import ListNotations.
Local Open Scope N_scope.
Local Open Scope list_scope.

Lemma count_nil {A} (f : A -> bool) : count f [] = 0. Proof. reflexivity. Qed.
Lemma count_cons {A} (f : A -> bool) x l : count f (x :: l) = (if f x then 1 else 0) + count f l.
Proof. unfold count. cbn [filter]. destruct (f x); cbn [length]; lia. Qed.
Lemma count_app {A} (f : A -> bool) a b : count f (a ++ b) = count f a + count f b.
Proof. induction a as [|x a IH]; [reflexivity|]. cbn [app]. rewrite !count_cons, IH. lia. Qed.
Lemma sent_app a b : interests_sent (a ++ b) = interests_sent a + interests_sent b. Proof. apply count_app. Qed.
Lemma dsent_app a b : data_sent (a ++ b) = data_sent a + data_sent b. Proof. apply count_app. Qed.
Lemma sent_data l : interests_sent (map FoData l) = 0. Proof. induction l; [reflexivity|exact IHl]. Qed.
Lemma dsent_data l : data_sent (map FoData l) = N.of_nat (length l).
Proof. induction l as [|x l IH]; [reflexivity|]. cbn [map]. unfold data_sent in *. rewrite count_cons, IH. cbn [length]. lia. Qed.

(** ** Following a handler from a state *)
Section Follow.
Context {S O : Type} (R : S -> list O -> S -> Prop).
Hypothesis Rrefl : forall s, R s [] s.
Hypothesis Rtrans : forall s o s1 o1 s2, R s o s1 -> R s1 o1 s2 -> R s (o ++ o1) s2.
Definition fol {A} (s : S) (m : M S O A) : Prop := R s (outs (m s)) (st (m s)).
Lemma fol_ret {A} s (a : A) : fol s (mret a). Proof. apply Rrefl. Qed.
Lemma fol_lift1 {A} s (r : outcome A) : fol s (mlift r). Proof. apply Rrefl. Qed.
Lemma fol_bind {A B} s (m : M S O A) (f : A -> M S O B) :
  fol s m -> (forall s1 o1 a, m s = (s1, o1, Ok a) -> fol s1 (f a)) -> fol s (mbind m f).
Proof.
  unfold fol, mbind, st, outs. intros Hm Hf. destruct (m s) as [[s1 o1] [a|e|u|]]; auto.
  specialize (Hf s1 o1 a eq_refl). destruct (f a s1) as [[s2 o2] r2]. simpl in *. eapply Rtrans; eauto.
Qed.
Lemma fol_get {B} s (f : S -> M S O B) : fol s (f s) -> fol s (mbind mget f).
Proof. unfold fol. rewrite mbind_get. auto. Qed.
Lemma fol_lift {A B} s (r : outcome A) (f : A -> M S O B) : (forall a, r = Ok a -> fol s (f a)) -> fol s (mbind (mlift r) f).
Proof. unfold fol. rewrite mbind_lift. destruct r; intros H; try apply Rrefl. apply H. reflexivity. Qed.
Lemma fol_mod {B} s g (f : unit -> M S O B) : R s [] (g s) -> fol (g s) (f tt) -> fol s (mbind (mmod g) f).
Proof. unfold fol. rewrite mbind_mod. intros H1 H2. change (outs (f tt (g s))) with ([] ++ outs (f tt (g s))). eapply Rtrans; eauto. Qed.
Lemma fol_mod1 s g : R s [] (g s) -> fol s (mmod g). Proof. auto. Qed.
Lemma fol_seq {A B} s (m : M S O A) (m' : M S O B) : fol s m -> (forall s1, fol s1 m') -> fol s (m ;; m').
Proof. intros H1 H2. apply fol_bind; auto. Qed.
End Follow.

Section Flood.
Variable K : fcfg.
(** the least time between two interests sent by the timer *)
Definition gap : N := fc_life K / 2 + 100.
(** the time the armed timer has to its credit, at most [gap] *)
Definition credit (s : fp) : N := match f_sched s with Some (dl, _) => gap - (dl - f_now s) | None => 0 end.
Definition waiters (s : fp) : N := N.of_nat (length (f_waiting s)).
(** the name of the outstanding interest ends in a number *)
Definition og (s : fp) : Prop :=
  (f_outstanding s = [] \/ exists n c, f_outstanding s = n ++ [c] /\ is_segment c = false) /\ nm_sorted (f_waiting s).
Definition pays (x : N) (s : fp) (o : list fout) (s' : fp) : Prop :=
  og s -> og s' /\ gap * interests_sent o + credit s' + gap * waiters s' <= credit s + gap * waiters s + gap * data_sent o + gap * x.
Notation R := (pays 0).
Notation co := (fol R).
Lemma pays_trans x y s o s1 o1 s2 : pays x s o s1 -> pays y s1 o1 s2 -> pays (x + y) s (o ++ o1) s2.
Proof.
  intros A B G. destruct (A G) as [G1 L1]. destruct (B G1) as [G2 L2]. split; [exact G2|]. rewrite sent_app, dsent_app. lia.
Qed.
Lemma Rrefl s : R s [] s. Proof. intros G. split; [exact G|]. cbn. lia. Qed.
Lemma Rtrans s o s1 o1 s2 : R s o s1 -> R s1 o1 s2 -> R s (o ++ o1) s2. Proof. apply (pays_trans 0 0). Qed.
(** nothing that counts changes *)
Lemma same s o s' : f_outstanding s' = f_outstanding s -> f_sched s' = f_sched s -> f_now s' = f_now s -> f_waiting s' = f_waiting s ->
  interests_sent o = 0 -> R s o s'.
Proof. intros A B C D E G. unfold og, credit, waiters in *. rewrite A, B, C, D, E. split; [exact G|]. lia. Qed.
Lemma co_op s o : co s (fp_op o).
Proof.
  unfold fp_op. apply fol_get. apply fol_lift; [apply Rrefl|]. intros k _. apply fol_bind; [apply Rtrans|apply same; reflexivity|].
  intros. apply same; reflexivity.
Qed.
Lemma co_prefix_seq s p : co s (prefix_seq p).
Proof.
  unfold prefix_seq. apply fol_get. destruct (get_seq _ _); [apply Rrefl|]. apply fol_seq; [apply Rtrans|apply co_op|intros; apply Rrefl].
Qed.
Lemma co_draw s : co s (draw K).
Proof. unfold draw. apply fol_get. apply fol_mod; [apply Rtrans|apply same; reflexivity|apply Rrefl]. Qed.
Lemma co_nack s n : co s (fp_send_nack K n).
Proof.
  unfold fp_send_nack. apply fol_get. apply fol_lift; [apply Rrefl|]. intros dn _. apply fol_mod; [apply Rtrans|apply same; reflexivity|apply same; reflexivity].
Qed.
Lemma co_delete s n : co s (delete_pending n). Proof. apply same; reflexivity. Qed.
(** sending an interest costs one gap, at most; afterwards the timer has no credit *)
Lemma send_cases s : og s ->
  let o := outs (send_sync_interest K s) in let s' := st (send_sync_interest K s) in
  og s' /\ waiters s' = waiters s /\ data_sent o = 0 /\
  (interests_sent o = 0 /\ credit s' = credit s \/ interests_sent o = 1 /\ credit s' = 0).
Proof.
  intros G. cbv zeta.
  assert (f_outstanding (stopped s) = f_outstanding s /\ f_sched (stopped s) = f_sched s /\ f_now (stopped s) = f_now s /\ f_waiting (stopped s) = f_waiting s)
    as (Eo & Es & En & Ew) by (unfold stopped; destruct (f_fetcher s); auto).
  assert (og (stopped s) /\ waiters (stopped s) = waiters s /\ credit (stopped s) = credit s) as (Go & Wo & Co)
    by (unfold og, waiters, credit; rewrite Eo, Es, En, Ew; auto).
  rewrite send_eq. destruct (f_wait s); [cbn [st outs fst snd]; auto 10|].
  destruct (Full.sync_name K (f_core s)) as [n|e|u|] eqn:Sn; [|cbn [st outs fst snd]; auto 10..].
  match goal with |- context [if ?b then _ else _] => destruct b end; cbn [st outs fst snd]; [auto 10|].
  split; [|split; [exact Wo|split; [reflexivity|right; split; [reflexivity|]]]].
  - split; [right|cbn; rewrite Ew; apply G]. unfold Full.sync_name in Sn. apply obind_ok in Sn as (m & _ & Sn). injection Sn as <-. eexists m, _. split; [reflexivity|reflexivity].
  - unfold credit, sent. cbn [f_sched f_now fset_started fset_sched fset_draws]. pose proof (jitter_bounds (fc_env K) (f_draws (stopped s))) as J. unfold gap, MIN_JITTER in *. lia.
Qed.
Lemma send_one s : pays 1 s (outs (send_sync_interest K s)) (st (send_sync_interest K s)).
Proof. intros G. destruct (send_cases s G) as (A & B & C & D). split; [exact A|]. rewrite B, C. destruct D as [[-> ->]|[-> ->]]; lia. Qed.
Lemma send_due s0 s : f_outstanding s = f_outstanding s0 -> f_waiting s = f_waiting s0 -> credit s = 0 -> credit s0 = gap ->
  R s0 (outs (send_sync_interest K s)) (st (send_sync_interest K s)).
Proof.
  intros Eo Ew Ec Eg G. assert (og s) as G1 by (unfold og; rewrite Eo, Ew; exact G).
  destruct (send_cases s G1) as (A & B & C & D). split; [exact A|]. unfold waiters in *. rewrite B, C, Ew, Eg. destruct D as [[-> ->]|[-> ->]]; lia.
Qed.

(** ** Answers *)
Lemma publish_one E now n b f p l c m : n = m ++ [c] -> is_segment c = false -> snd (publish E now n n b f p) = Ok l -> length l = 1%nat.
Proof.
  intros -> Hc. unfold publish. cbn [snd]. unfold put_segment. rewrite name_get_back_snoc. cbn [obind]. rewrite Hc. cbn [obind].
  rewrite segment_length. destruct (nseg_bounds b) as [Hp _]. replace (0 <? N.of_nat (nseg b)) with true by (symmetry; apply N.ltb_lt; lia).
  rewrite segment_nth by lia. intros [= <-]. reflexivity.
Qed.
Lemma co_data s n l f : co s (send_sync_data K n l f).
Proof.
  unfold send_sync_data. apply fol_get. cbv zeta.
  set (m := mlet buf <- mlift (compress (fc_codec K) (fc_cscheme K) (encode_names l));
    fp_publish K n n buf f ;; (if name_eqb (f_outstanding s) n then send_sync_interest K else mret tt)).
  assert (forall s', og s -> R s' (outs (m s')) (st (m s'))) as H.
  { intros s' G0. unfold m. rewrite mbind_lift. destruct (compress _ _ _) as [buf|e|u|] eqn:Co; try apply Rrefl.
    unfold mbind. rewrite fp_publish_eq.
    pose proof (fun c m E1 E2 => publish_one (fc_env K) (f_now s') n buf f (f_pub s') (match snd (publish (fc_env K) (f_now s') n n buf f (f_pub s')) with Ok l => l | _ => [] end) c m E1 E2) as P1.
    destruct (publish _ _ _ _ _ _ _) as [q [x|e|u|]] eqn:Pu; cbn [fst snd] in P1 |- *; try (apply same; auto; fail).
    destruct (name_eqb _ n) eqn:En.
    - pose proof (send_one (fset_pub q s')) as S1. unfold outs, st in *. destruct (send_sync_interest K (fset_pub q s')) as [[a b] c]. simpl in *.
      intros G. destruct (S1 G) as [G2 L2]. split; [exact G2|]. rewrite sent_app, dsent_app, sent_data, dsent_data.
      apply name_eqb_eq in En. destruct G0 as [[E0|(m0 & c0 & E0 & Hc)] _].
      + exfalso. rewrite E0 in En. subst n. apply (f_equal snd) in Pu. cbn in Pu. discriminate Pu.
      + rewrite E0 in En. subst n. rewrite (P1 c0 m0 eq_refl Hc eq_refl).
        change (credit (fset_pub q s')) with (credit s') in L2. change (waiters (fset_pub q s')) with (waiters s') in L2. lia.
    - unfold outs, st, mret. simpl. rewrite app_nil_r. apply same; auto. apply sent_data. }
  assert (forall s', og s -> og s' -> co s' m) as H' by (intros s' G0 G; apply H; exact G0).
  intros G. revert G. destruct (_ && _) eqn:Eo.
  - intros G. apply andb_prop in Eo as [_ Eo]. destruct (f_fetcher s) as [i|] eqn:F; [|discriminate].
    unfold stop_fetcher. rewrite mbind_assoc, !mbind_mod, F. set (s1 := fset_outstanding [] _).
    assert (og s1) as G1 by (split; [left; reflexivity|apply G]). destruct (H s1 G G1) as [G2 L2]. split; [exact G2|exact L2].
  - intros G. rewrite mbind_ret. apply H; exact G.
Qed.
Lemma co_fsatisfy u keys : forall s, co s (fsatisfy K u keys).
Proof.
  induction keys as [|k keys IH]; intros s; cbn [fsatisfy]; [apply Rrefl|]. apply fol_seq; [apply Rtrans| |exact IH].
  unfold fsatisfy_one. apply fol_get. destruct (nm_find _ _); [|apply Rrefl]. apply fol_lift; [apply Rrefl|]. intros d _.
  apply fol_seq; [apply Rtrans|apply co_data|intros; apply co_delete].
Qed.
Lemma co_api s a : co s (api_call K a).
Proof.
  destruct a as [p|p|p q]; cbn [api_call]; [apply co_op..|]. unfold fp_publish_name. apply fol_get. destruct (get_seq _ _); [|apply Rrefl].
  apply fol_seq; [apply Rtrans|apply co_op|intros s1]. apply fol_mod; [apply Rtrans|apply same; reflexivity|apply co_fsatisfy].
Qed.
Lemma co_apis l : forall s, co s (api_calls K l).
Proof. induction l as [|a l IH]; intros s; cbn [api_calls]; [apply Rrefl|]. apply fol_seq; [apply Rtrans|apply co_api|exact IH]. Qed.
Lemma co_arm s : co s (schedule_waiting K).
Proof.
  unfold schedule_waiting. apply fol_get. destruct (f_waiting s), (f_delay s); try apply Rrefl.
  apply fol_bind; [apply Rtrans|apply co_draw|intros; apply same; reflexivity].
Qed.
Lemma co_future s p l : co s (is_future K p l).
Proof.
  unfold is_future. apply fol_lift; [apply Rrefl|]. intros u _. apply fol_bind; [apply Rtrans|apply co_prefix_seq|intros; apply Rrefl].
Qed.
Lemma co_offered neg hs : forall s, co s (offered K neg hs).
Proof.
  induction hs as [|h hs IH]; intros s; cbn [offered]; [apply Rrefl|]. apply fol_get. destruct (bm_left _ _); [|apply IH].
  apply fol_bind; [apply Rtrans|apply co_prefix_seq|intros s1 o1 v _]. apply fol_bind; [apply Rtrans| |intros s2 o2 b _].
  - destruct (v =? 0); [apply Rrefl|apply co_future].
  - apply fol_bind; [apply Rtrans|apply IH|intros; apply Rrefl].
Qed.
Lemma set_length {V} k (v v' : V) m : nm_sorted m -> nm_find k m = Some v' -> length (nm_set k v m) = length m.
Proof.
  intros S H. apply nm_find_In in H. revert S H. induction m as [|[k' x] m IH]; intros S H; [destruct H|].
  unfold nm_sorted in S. cbn [map fst] in S. apply StronglySorted_inv in S as [S1 S2]. cbn [nm_set].
  destruct (name_cmp k k') eqn:C; cbn [length]; [reflexivity| |].
  - exfalso. destruct H as [[= -> _]|H]; [rewrite (proj2 (name_cmp_eq _ _) eq_refl) in C; discriminate C|].
    rewrite Forall_forall in S2. apply (in_map fst) in H. specialize (S2 _ H). cbn [fst] in S2. unfold name_lt in S2.
    rewrite name_cmp_antisym, C in S2. discriminate S2.
  - f_equal. apply IH; [exact S1|]. destruct H as [[= -> _]|H]; [rewrite (proj2 (name_cmp_eq _ _) eq_refl) in C; discriminate C|exact H].
Qed.
Lemma set_length_le {V} k (v : V) m : (length (nm_set k v m) <= S (length m))%nat.
Proof. induction m as [|[k' x] m IH]; cbn [nm_set length]; [lia|]. destruct (name_cmp k k'); cbn [length]; lia. Qed.
Lemma erase_length {V} k (v : V) m : nm_find k m = Some v -> S (length (nm_erase k m)) = length m.
Proof.
  induction m as [|[k' x] m IH]; cbn [nm_find nm_erase length]; [discriminate|]. destruct (name_eqb k k'); cbn [length]; auto.
Qed.
Lemma pays_more x y s o s' : x <= y -> pays x s o s' -> pays y s o s'.
Proof. intros H A G. destruct (A G) as [X Y]. split; [exact X|]. pose proof (N.mul_le_mono_l x y gap H). lia. Qed.
Lemma rewait s w v n : nm_find n (f_waiting s) = Some v -> R s [] (fset_waiting (nm_set n w (f_waiting s)) s).
Proof.
  intros F G. split; [split; [apply G|apply nm_set_sorted, G]|]. unfold waiters. cbn [f_waiting fset_waiting].
  rewrite (set_length _ _ _ _ (proj2 G) F). change (credit (fset_waiting _ s)) with (credit s). cbn. lia.
Qed.
Lemma co_mark s n : co s (mark_waiting n).
Proof. unfold mark_waiting. apply fol_mod1. destruct (nm_find n (f_waiting s)) as [v|] eqn:F; [eapply rewait; eauto|apply Rrefl]. Qed.
Lemma start_one s n : pays 1 s (outs (start_waiting K n s)) (st (start_waiting K n s)).
Proof.
  unfold start_waiting. rewrite mbind_mod. change (outs (schedule_waiting K ?x)) with ([] ++ outs (schedule_waiting K x)).
  eapply (pays_trans 1 0); [|apply co_arm]. intros G. split; [split; [apply G|apply nm_set_sorted, G]|].
  unfold waiters. cbn [f_waiting fset_waiting]. change (credit (fset_waiting _ s)) with (credit s). pose proof (set_length_le n 0 (f_waiting s)).
  assert (gap * N.of_nat (length (nm_set n 0 (f_waiting s))) <= gap * (1 + N.of_nat (length (f_waiting s)))) by (apply N.mul_le_mono_l; lia).
  cbn. lia.
Qed.
(** what an interest costs: one more gap, and, when it comes from the waiting list, only if its entry is marked *)
Definition extra (timed : bool) (n : name) (s : fp) (m : FM unit) : Prop :=
  co s m \/ pays 1 s (outs (m s)) (st (m s)) /\ (timed = true -> res (m s) = Ok tt /\ nm_find n (f_waiting (st (m s))) = Some MAX_TRIES).
Lemma extra_undecodable timed n rcvd d s : extra timed n s (on_undecodable K n timed rcvd d).
Proof.
  unfold extra, fol, on_undecodable. rewrite mbind_get. cbv zeta. destruct (k_count (f_core s) <? rcvd).
  - destruct timed, (nm_find n (f_waiting s)) as [tries|] eqn:F; try (left; apply Rrefl).
    + destruct (1 <? tries); [|left; apply Rrefl].
      assert (mark_waiting n s = (fset_waiting (nm_set n MAX_TRIES (f_waiting s)) s, [], Ok tt)) as M by (unfold mark_waiting, mmod; rewrite F; reflexivity).
      set (s1 := fset_waiting (nm_set n MAX_TRIES (f_waiting s)) s) in M.
      assert (R s [] s1) as R1 by (eapply rewait; eauto).
      assert (nm_find n (f_waiting s1) = Some MAX_TRIES) as X by (cbn; apply nm_find_set_same).
      assert (f_waiting (stopped s1) = f_waiting s1) as Y by (unfold stopped; destruct (f_fetcher s1); auto).
      assert (R s [] (stopped s1)) as Q.
      { change ([] : list fout) with ([] ++ [] : list fout). eapply Rtrans; [exact R1|]. apply same; try (unfold stopped; destruct (f_fetcher s1); reflexivity). }
      pose proof (send_one s1) as So. pose proof (send_eq K s1) as Se. unfold extra, mbind. rewrite M.
      destruct (f_wait s1).
      * right. rewrite Se. cbn [st outs fst snd res app]. split; [apply (pays_more 0 1); [discriminate|exact R1]|]. auto.
      * destruct (Full.sync_name K (f_core s1)) as [m|e|u|]; [|left; rewrite Se; exact Q..].
        destruct (_ && _); [left; rewrite Se; exact Q|]. right. rewrite Se in So |- *. cbn [st outs fst snd res app] in So |- *.
        split; [change [FoInterest m (f_sys s1)] with ([] ++ [FoInterest m (f_sys s1)]); exact (pays_trans 0 1 _ _ _ _ _ R1 So)|].
        intros _. split; [reflexivity|]. unfold sent. cbn. rewrite Y. exact X.
    + right. split; [apply start_one|discriminate].
  - left. destruct (_ && _); [apply Rrefl|]. apply (fol_seq R Rtrans).
    + destruct (entire_state _); [apply Rrefl|]. apply fol_seq; [apply Rtrans|apply co_data|intros; apply co_delete].
    + intros. apply co_mark.
Qed.
Lemma extra_decoded n lifetime timed t d s : extra timed n s (on_decoded K n lifetime timed t d).
Proof.
  unfold extra, fol, on_decoded. rewrite mbind_get. cbv zeta. destruct (positive d) as [|h hs].
  - destruct (negative d) as [|g gs].
    + left. apply (fol_mod R Rtrans); [apply same; reflexivity|]. destruct timed; [apply co_mark|apply Rrefl].
    + destruct timed, (nm_find n (f_waiting s)) as [tries|]; try (left; apply Rrefl).
      * destruct (1 <? tries); [left; apply co_mark|left; apply Rrefl].
      * right. split; [apply start_one|discriminate].
  - left. apply (fol_bind R Rtrans); [apply co_offered|]. intros s1 o1 l _. destruct l; [apply Rrefl|].
    apply fol_seq; [apply Rtrans|apply co_data|intros; apply co_mark].
Qed.
Lemma extra_interest n lifetime timed s : extra timed n s (on_finterest K n lifetime timed).
Proof.
  unfold extra, fol, on_finterest. rewrite mbind_get. destruct (reply_from_store _ _); [left; apply same; reflexivity|]. cbv zeta.
  destruct (Nat.eqb _ 4); [left; apply co_nack|]. destruct (negb _); [left; apply Rrefl|].
  rewrite mbind_lift. destruct (name_get_back n 2); try (left; apply Rrefl). rewrite mbind_lift. destruct (name_get_back n 1); try (left; apply Rrefl).
  rewrite mbind_lift. destruct (to_number _) as [rcvd|e|u|]; try (left; apply Rrefl).
  destruct (initialize _ _ _ _) as [t [x|e|u|]]; try (left; apply Rrefl). rewrite mbind_lift. destruct (iblt_sub _ _ _); try (left; apply Rrefl).
  destruct (can_decode _); [apply extra_decoded|apply extra_undecodable].
Qed.
Lemma co_process_one n s : co s (process_one K n).
Proof.
  unfold process_one. apply fol_get. destruct (nm_find n (f_waiting s)) as [tries|] eqn:F; [|apply Rrefl]. cbv zeta.
  assert (forall s0 v, nm_find n (f_waiting s0) = Some v -> og s0 -> og (fset_waiting (nm_erase n (f_waiting s0)) s0) /\
    waiters (fset_waiting (nm_erase n (f_waiting s0)) s0) + 1 = waiters s0) as Dr.
  { intros s0 v F0 G. split; [split; [apply G|apply nm_erase_sorted, G]|]. unfold waiters. cbn [f_waiting fset_waiting].
    pose proof (erase_length _ _ _ F0). lia. }
  destruct (tries =? MAX_TRIES).
  - apply fol_mod1. intros G. destruct (Dr s tries F G) as [X Y]. split; [exact X|]. change (credit (fset_waiting _ s)) with (credit s).
    cbn [interests_sent data_sent]. rewrite <- Y. cbn. lia.
  - apply fol_mod; [apply Rtrans|eapply rewait; eauto|]. set (s1 := fset_waiting _ s). clearbody s1.
    pose proof (extra_interest n DEFAULT_LIFETIME true s1) as [E|[E1 E2]].
    + apply (fol_seq R Rtrans); [exact E|]. intros s2. apply fol_get. destruct (nm_find n (f_waiting s2)) as [v|] eqn:F2; [|apply Rrefl].
      destruct (v =? MAX_TRIES); [|apply Rrefl]. apply fol_mod1. intros G. destruct (Dr s2 v F2 G) as [X Y]. split; [exact X|].
      change (credit (fset_waiting _ s2)) with (credit s2). rewrite <- Y. cbn. lia.
    + destruct (E2 eq_refl) as [Er F2]. unfold fol, mbind. destruct (on_finterest K n DEFAULT_LIFETIME true s1) as [[s2 o2] r]. cbn [st outs res fst snd] in *. subst r.
      cbn [mget]. rewrite F2. rewrite N.eqb_refl. cbn [mmod st outs fst snd]. rewrite !app_nil_r. intros G. destruct (E1 G) as [G2 L2].
      destruct (Dr s2 _ F2 G2) as [X Y]. split; [exact X|]. change (credit (fset_waiting _ s2)) with (credit s2). rewrite <- Y in L2. lia.
Qed.
Lemma co_process keys : forall s, co s (process_all K keys).
Proof.
  induction keys as [|k keys IH]; intros s; cbn [process_all]; [apply Rrefl|]. apply fol_seq; [apply Rtrans|apply co_process_one|exact IH].
Qed.
Lemma co_process_waiting s : co s (process_waiting K).
Proof. unfold process_waiting. apply fol_get. apply co_process. Qed.

(** ** Events *)
Lemma co_updates l : forall s, co s (take_updates l).
Proof.
  induction l as [|c l IH]; intros s; cbn [take_updates]; [apply Rrefl|]. apply fol_lift; [apply Rrefl|]. intros x _. apply fol_lift; [apply Rrefl|]. intros v _.
  cbv zeta. apply fol_get. match goal with |- context [if ?b then _ else _] => destruct b end; [|apply IH].
  apply fol_bind; [apply Rtrans|apply co_prefix_seq|intros s1 o1 cur _]. apply fol_seq; [apply Rtrans|apply co_op|intros s2].
  apply fol_bind; [apply Rtrans|apply IH|intros; apply Rrefl].
Qed.
(** arming the timer gives it the credit of one gap at most *)
Lemma arm_one s s' : f_outstanding s' = f_outstanding s -> f_waiting s' = f_waiting s -> pays 1 s [] s'.
Proof.
  intros A B G. split; [unfold og in *; rewrite A, B; exact G|]. unfold waiters. rewrite B.
  assert (credit s' <= gap) by (unfold credit; destruct (f_sched s') as [[dl k]|]; lia). cbn. lia.
Qed.
Lemma one_first {A B} s (m : FM A) (f : A -> FM B) : pays 1 s (outs (m s)) (st (m s)) -> (forall s1 a, co s1 (f a)) -> pays 1 s (outs (mbind m f s)) (st (mbind m f s)).
Proof.
  intros H Hf. unfold mbind. destruct (m s) as [[s1 o1] [a|e|u|]]; auto. specialize (Hf s1 a). unfold fol in Hf. destruct (f a s1) as [[s2 o2] r].
  cbn [st outs fst snd] in *. exact (pays_trans 1 0 _ _ _ _ _ H Hf).
Qed.
Lemma one_later {A B} s (m : FM A) (f : A -> FM B) : co s m -> (forall s1 a, pays 1 s1 (outs (f a s1)) (st (f a s1))) -> pays 1 s (outs (mbind m f s)) (st (mbind m f s)).
Proof.
  intros H Hf. unfold fol in H. unfold mbind. destruct (m s) as [[s1 o1] [a|e|u|]]; try (eapply (pays_more 0 1); [discriminate|exact H]). specialize (Hf s1 a). destruct (f a s1) as [[s2 o2] r].
  cbn [st outs fst snd] in *. exact (pays_trans 0 1 _ _ _ _ _ H Hf).
Qed.
Lemma one_of {A} s (m : FM A) : co s m -> pays 1 s (outs (m s)) (st (m s)).
Proof. apply pays_more. discriminate. Qed.
Lemma data_one n buf script s : pays 1 s (outs (on_sync_data K n buf script s)) (st (on_sync_data K n buf script s)).
Proof.
  unfold on_sync_data. apply one_later; [apply co_delete|]. intros s1 _. destruct (obind _ _) as [names|e|u|]; try (apply one_of, Rrefl).
  apply one_later; [apply co_updates|]. intros s2 [|m l].
  - apply one_later; [apply same; reflexivity|]. intros s3 _. apply one_later; [apply co_draw|]. intros s4 j. apply arm_one; reflexivity.
  - apply one_later; [apply same; reflexivity|]. intros s3 _. apply one_later; [apply co_apis|]. intros s4 _. apply one_later; [apply co_draw|]. intros s5 j.
    apply one_first; [apply arm_one; reflexivity|]. intros. apply co_process_waiting.
Qed.
Definition price (e : fev) : N := match e with FeInterest _ _ | FeContent _ _ _ | FeError _ _ => 1 | _ => 0 end.
Lemma step_pays e s : og s -> og (st (fp_step K e s)) /\
  gap * interests_sent (outs (fp_step K e s)) + credit (st (fp_step K e s)) + gap * waiters (st (fp_step K e s)) <=
  credit s + gap * waiters s + gap * data_sent (outs (fp_step K e s)) + gap * price e + dt_of e.
Proof.
  assert (forall x (m : FM unit), pays x s (outs (m s)) (st (m s)) -> x <= price e -> dt_of e = 0 -> og s -> og (st (m s)) /\
    gap * interests_sent (outs (m s)) + credit (st (m s)) + gap * waiters (st (m s)) <=
    credit s + gap * waiters s + gap * data_sent (outs (m s)) + gap * price e + dt_of e) as Pr.
  { intros x m H L D G. destruct (pays_more _ _ _ _ _ L H G) as [X Y]. split; [exact X|]. lia. }
  destruct e as [a|n l|i buf script|i face|i timeout|dt|t| | |key|i]; cbn [fp_step].
  - apply (Pr 0); [apply co_api|discriminate|reflexivity].
  - apply (Pr 1); [|discriminate|reflexivity]. destruct (is_prefix _ n); [|apply one_of, Rrefl].
    destruct (extra_interest n l false s) as [H|[H _]]; [apply one_of, H|exact H].
  - apply (Pr 1); [|discriminate|reflexivity]. rewrite mbind_get. destruct (fetch_of _ _); [|apply one_of, Rrefl].
    apply one_later; [apply same; reflexivity|]. intros. apply data_one.
  - apply (Pr 0); [|discriminate|reflexivity]. apply fol_get. destruct (fetch_of _ _); [apply same; reflexivity|apply Rrefl].
  - apply (Pr 1); [|discriminate|reflexivity]. rewrite mbind_get. destruct (fetch_of _ _); [|apply one_of, Rrefl].
    apply one_later; [apply same; reflexivity|]. intros s1 _. destruct timeout; [apply one_of, Rrefl|]. apply one_later; [apply co_draw|].
    intros. apply arm_one; reflexivity.
  - intros G. cbn [mmod st outs fst snd price dt_of]. split; [exact G|]. change (waiters (fset_time _ _ s)) with (waiters s).
    assert (credit (fset_time (f_now s + dt) (f_sys s + Z.of_N dt) s) <= credit s + dt).
    { unfold credit. cbn [f_sched f_now fset_time]. destruct (f_sched s) as [[dl k]|]; lia. }
    cbn. lia.
  - apply (Pr 0); [apply same; reflexivity|discriminate|reflexivity].
  - apply (Pr 0); [|discriminate|reflexivity]. rewrite mbind_get. destruct (f_sched s) as [[dl k]|] eqn:F; [|apply Rrefl].
    destruct (N.leb_spec dl (f_now s)) as [L|L]; [|apply Rrefl].
    assert (credit s = gap) as Cg by (unfold credit; rewrite F; lia).
    destruct k.
    + rewrite mbind_mod. apply send_due; try reflexivity. exact Cg.
    + rewrite !mbind_mod. apply send_due; try reflexivity. exact Cg.
  - apply (Pr 0); [|discriminate|reflexivity]. apply fol_get. destruct (f_delay s) as [dl|]; [|apply Rrefl]. destruct (dl <=? _); [|apply Rrefl].
    apply fol_mod; [apply Rtrans|apply same; reflexivity|]. apply fol_seq; [apply Rtrans|apply co_process_waiting|intros; apply co_arm].
  - apply (Pr 0); [|discriminate|reflexivity]. apply fol_mod1. destruct (nm_find _ _) as [x|]; [|apply Rrefl]. destruct (_ <=? _); [apply same; reflexivity|apply Rrefl].
  - apply (Pr 0); [apply same; reflexivity|discriminate|reflexivity].
Qed.
Definition prices (evs : list fev) : N := fold_right (fun e x => price e + x) 0 evs.
Lemma run_pays evs : forall s s' o, og s -> fp_run K s evs = Some (s', o) -> og s' /\
  gap * interests_sent o + credit s' + gap * waiters s' <= credit s + gap * waiters s + gap * data_sent o + gap * prices evs + time_of evs.
Proof.
  induction evs as [|e evs IH]; intros s s' o G R0.
  - injection R0 as <- <-. split; [exact G|]. cbn. lia.
  - unfold fp_run in R0. cbn [run] in R0. destruct (step_pays e s G) as [G1 L1].
    destruct (fp_step K e s) as [[s1 o1] x]. cbn [st outs fst snd] in G1, L1.
    assert (exists o2, run (fp_step K) s1 evs = Some (s', o2) /\ o = o1 ++ o2) as (o2 & R1 & ->).
    { destruct x; try discriminate R0; destruct (run (fp_step K) s1 evs) as [[s2 o2]|]; try discriminate R0; injection R0 as <- <-; exists o2; auto. }
    destruct (IH s1 s' o2 G1 R1) as [G2 L2]. split; [exact G2|]. rewrite sent_app, dsent_app. cbn [prices time_of fold_right].
    fold (prices evs). fold (time_of evs). lia.
Qed.
Lemma prices_eq evs : prices evs = interests_received evs + fetches_ended evs.
Proof.
  induction evs as [|e evs IH]; [reflexivity|]. cbn [prices fold_right]. fold (prices evs). rewrite IH.
  unfold interests_received, fetches_ended. rewrite !count_cons. destruct e; cbn [price]; lia.
Qed.
Lemma reaches_og sys evs s o : reaches K sys evs s o -> og s /\
  gap * interests_sent o + credit s + gap * waiters s <= gap * (1 + data_sent o + interests_received evs + fetches_ended evs) + time_of evs.
Proof.
  intros [_ H]. apply start_inv in H as (s0 & o0 & o1 & E & R0 & ->).
  assert (og (fp_blank K sys)) as G by (split; [left; reflexivity|apply nm_sorted_nil]).
  pose proof (send_one (fp_blank K sys) G) as [G0 L0]. unfold fp_init in E. rewrite E in G0, L0. cbn [st outs fst snd] in G0, L0.
  destruct (run_pays evs s0 s o1 G0 R0) as [G1 L1]. split; [exact G1|]. rewrite sent_app, dsent_app. rewrite prices_eq in L1.
  change (credit (fp_blank K sys)) with 0 in L0. change (waiters (fp_blank K sys)) with 0 in L0. lia.
Qed.
End Flood.
