(** Property theorems about how long interests are remembered (C112). *)
From Coq Require Import List NArith ZArith Bool Arith Lia Permutation.
From Verif Require Import Base BaseFacts Mon MonFacts Iblt SpecIblt Tlv TlvFacts State NMap NMapFacts Codec CodecFacts Bloom SpecBloom
  IbltFacts IbltProps HonestFacts Properties_Iblt
  Store Producer Partial SpecPartial PartialFacts PartialSteps
  Full FullTrace SpecFull FullFacts FullSafe FullRuns FullTimers SpecDeliver ForgetFacts
  Properties_Producer Properties_Partial Properties_Full Properties_FullTime SpecRecent RecentFacts.
Import ListNotations.
Local Open Scope N_scope.

(** * C112 *)
(** a full-sync node whose timer is prompt does not keep an interest waiting for ever: one that waits
    arrived, under this name, at most 65536 turns of 500 milliseconds ago *)
Theorem C112_waiting_is_recent : forall K sys evs s o n v,
  schemes_ok K -> uri_ok K -> reaches K sys evs s o -> punctual K sys evs ->
  nm_find n (f_waiting s) = Some v ->
  exists l age, arrived evs n l age /\ age <= longest_wait.
Proof.
  intros K sys evs s o n v Sk Uk R Pu F. pose proof (reaches_remembers K sys evs Sk Uk s o R Pu) as M.
  destruct (waits_short evs s n v M (ok_tries K s (reaches_ok _ _ _ _ _ R))) as (l & age & A & _ & B); eauto.
  apply (reaches_armed K sys evs s o Sk Uk R). intros X. rewrite X in F. discriminate.
Qed.
Print Assumptions C112_waiting_is_recent.

(** and one that is pending arrived less than its own lifetime ago, or waited first and then is kept for
    4 more seconds *)
Theorem C112_pending_is_recent : forall K sys evs s o n x,
  schemes_ok K -> uri_ok K -> reaches K sys evs s o -> punctual K sys evs -> none_overdue s ->
  nm_find n (f_pending s) = Some x ->
  exists l age, arrived evs n l age /\ (age < l \/ age < longest_wait + 4000).
Proof.
  intros K sys evs s o n x Sk Uk R Pu Q F. pose proof (reaches_remembers K sys evs Sk Uk s o R Pu) as M.
  destruct (rm_pend _ _ M _ _ F) as (l & age & A & B). specialize (Q _ _ F). exists l, age. split; auto.
  change DEFAULT_LIFETIME with 4000 in B. lia.
Qed.
Print Assumptions C112_pending_is_recent.

(** so what a full-sync node holds is bounded by what it received in the last nine hours or so, however
    long it has run: no more interests wait than arrived in [post], and no more are pending *)
Theorem C112_waiting_bounded : forall K sys pre post s o,
  schemes_ok K -> uri_ok K -> reaches K sys (pre ++ post) s o -> punctual K sys (pre ++ post) ->
  longest_wait < time_of post ->
  (length (f_waiting s) <= interests post)%nat.
Proof.
  intros K sys pre post s o Sk Uk R Pu L. rewrite <- ask_names_length. apply count_keys.
  - apply (ok_tries K s (reaches_ok _ _ _ _ _ R)).
  - intros n v F. destruct (C112_waiting_is_recent _ _ _ _ _ _ _ Sk Uk R Pu F) as (l & age & A & B).
    apply (arrived_recent pre post n l age A). lia.
Qed.
Print Assumptions C112_waiting_bounded.
Theorem C112_pending_bounded : forall K sys pre post s o,
  schemes_ok K -> uri_ok K -> reaches K sys (pre ++ post) s o -> punctual K sys (pre ++ post) -> none_overdue s ->
  longest_wait + 4000 <= time_of post ->
  (forall n l, In (FeInterest n l) (pre ++ post) -> l <= time_of post) ->
  (length (f_pending s) <= interests post)%nat.
Proof.
  intros K sys pre post s o Sk Uk R Pu Q L Hl. rewrite <- ask_names_length. apply count_keys.
  - apply (ok_tries K s (reaches_ok _ _ _ _ _ R)).
  - intros n x F. destruct (C112_pending_is_recent _ _ _ _ _ _ _ Sk Uk R Pu Q F) as (l & age & A & B).
    apply (arrived_recent pre post n l age A).
    assert (l <= time_of post); [|lia]. apply (Hl n l). destruct A as (a & b & -> & _). apply in_elt.
Qed.
Print Assumptions C112_pending_bounded.

(** a partial-sync producer: when no interest carries more components than needed, no more interests are
    pending than arrived within the longest lifetime *)
Theorem C112_producer_bounded_partial : forall K pre post s o,
  pp_run K (pp_new K) (pre ++ post) = Some (s, o) -> no_overdue s ->
  (forall n l, In (PInterest n l) (pre ++ post) -> l <= ptime_of post /\ ~ versioned K n) ->
  (length (pp_pending s) <= pinterests post)%nat.
Proof.
  intros K pre post s o R Q Hl. rewrite <- pask_names_length. apply count_keys.
  - apply (po_sorted _ _ (pp_run_ok _ _ _ _ R)).
  - intros key e F.
    destruct (C39_pending_expire_partial K (pre ++ post) s o key e R) as (a & l & b & s1 & o1 & E & R1 & T); auto.
    { intros n l bf t Hin Hq. destruct (name_eqb n key) eqn:X; [apply name_eqb_eq; auto|]. exfalso.
      apply (proj2 (Hl n l Hin)). exists key, bf, t. split; auto. intros ->. rewrite name_eqb_refl in X. discriminate. }
    rewrite E in R. apply pp_run_cut in R as (sa & oa & ob & Ra & Rb & _). unfold pp_run in *. rewrite R1 in Ra. injection Ra as <- <-.
    apply (pp_run_clock K (PInterest key l :: b)) in Rb. unfold ptime_of in Rb. cbn [fold_right pdt_of] in Rb. fold (ptime_of b) in Rb.
    assert (l <= ptime_of post) as Ll by (apply (Hl key l); rewrite E; apply in_elt).
    assert (ptime_of b < ptime_of post) as Lb by lia. clear - E Lb.
    revert a E. induction pre as [|x pre IH]; intros a E.
    + cbn in E. subst post. apply in_flat_map. exists (PInterest key l). split; [apply in_elt|left; auto].
    + destruct a as [|x' a]; cbn in E; [|injection E as _ E; eapply IH; eauto]. injection E as _ <-. exfalso.
      assert (forall u v, ptime_of (u ++ v) = ptime_of u + ptime_of v) as H.
      { unfold ptime_of. induction u as [|y u IHu]; intros v; cbn [app fold_right]; [reflexivity|]. rewrite IHu. lia. }
      rewrite H in Lb. lia.
Qed.
Print Assumptions C112_producer_bounded_partial.

Lemma tick_run K s evs t s1 o : pp_run K s evs = Some (s1, o) ->
  pp_run K s (evs ++ [PTick t]) = Some (mkPP (pp_now s1 + t) (pp_core s1) (pp_pub s1) (pp_pending s1), o).
Proof. unfold pp_run. intros R. rewrite run_app, R. cbn. rewrite app_nil_r. reflexivity. Qed.
(** in general a partial-sync producer keeps more than it received within any window: an interest with
    one component too many, of a lifetime of one second, is still held after any time *)
Theorem C112_producer_bounded_refuted : exists K pre, forall t, exists s o,
  pp_run K (pp_new K) (pre ++ [PTick t]) = Some (s, o) /\ no_overdue s /\
  (forall n l, In (PInterest n l) (pre ++ [PTick t]) -> l = 1000) /\
  (pinterests [PTick t] < length (pp_pending s))%nat.
Proof.
  exists Kx, evs_39. intros t. exists (mkPP (pp_now s_39 + t) (pp_core s_39) (pp_pub s_39) (pp_pending s_39)), [].
  assert (pp_pending s_39 = [(request Kx all_ones (iblt_new 10), mkPentry bf_all (iblt_new 10) None)]) as Hp
    by (vm_compute; reflexivity).
  split; [|split; [|split]].
  - exact (tick_run Kx (pp_new Kx) evs_39 t s_39 [] run_39).
  - intros key e dl n F X. cbn [pp_pending] in F. rewrite Hp in F. apply nm_find_In in F as [[= <- <-]|[]].
    discriminate X.
  - intros n l Hin. apply in_app_or in Hin as [[H|[H|[H|[H|[]]]]]|[H|[]]]; try discriminate H. injection H as _ <-. reflexivity.
  - cbn [pp_pending]. rewrite Hp. cbn. lia.
Qed.
Print Assumptions C112_producer_bounded_refuted.

(** what a producer holds that got [m] interests with different IBFs, each with a component too many *)
Record grown (K : pcfg) (c1 c2 c3 : comp) (m : N) (evs : list pev) (s : pp) (keys : list name) : Prop := mkGrown {
  gr_run : pp_run K (pp_new K) evs = Some (s, []);
  gr_hist : history evs = [];
  gr_wf : Forall pev_wf evs;
  gr_life : forall n l, In (PInterest n l) evs -> l = 1000;
  gr_core : pp_core s = core_new (pc_n K);
  gr_pub : pp_pub s = pub_new;
  gr_done : forall k y, nm_find k (pp_pending s) = Some y -> pe_expiry y = None;
  gr_len : N.of_nat (length keys) = m;
  gr_nodup : NoDup keys;
  gr_held : forall k, In k keys -> nm_find k (pp_pending s) <> None;
  gr_keys : forall k, In k keys -> exists h c t, h < m /\ k = pc_sync K ++ [SYNC; c1; c2; c3; c] /\
    IbfOf (pc_n K) [h] t /\ initialize (pc_codec K) (pc_scheme K) (iblt_new (pc_n K)) c = (t, Ok tt) }.
Lemma one_key_ibf n h : n <> 0%nat -> exists t, IbfOf n [h] t /\
  forall fuel, (3 <= fuel)%nat -> iblt_sub fuel (iblt_new n) t = Ok (mkDiff true [] [h]).
Proof.
  intros Hn. destruct (C06_one_key n h [] [h] [] Hn) as (ta & tb & A & B & H); try apply Permutation_refl.
  { constructor; [intros []|constructor]. } { cbn. unfold i32_max. lia. }
  exists ta. split; [exact A|]. intros fuel Hf. unfold IbfOf in B. cbn in B. injection B as <-. apply H, Hf.
Qed.
Lemma grow K c1 c2 c3 bf m evs s keys : scheme_ok (pc_codec K) (pc_scheme K) -> lossless (pc_codec K) -> (4 <= pc_n K)%nat -> (3 <= pc_fuel K)%nat ->
  bloom_of_comps (pc_libm K) c1 c2 c3 = Ok bf -> bloom_sound bf -> m < two32 ->
  grown K c1 c2 c3 m evs s keys -> exists evs' s' keys', grown K c1 c2 c3 (m + 1) evs' s' keys'.
Proof.
  intros Sk Ls Hn Hf Hb Bs Hm [R Hh Hw Hl Hc Hp Hd Hk Nd Hi Hks].
  destruct (one_key_ibf (pc_n K) m) as (t & It & Sub); [lia|]. specialize (Sub _ Hf).
  destruct (append_cases K [] t Sk) as (c & Ea & _). cbn [app] in Ea.
  assert (length t = length (iblt_new (pc_n K))) as Lt by (rewrite iblt_new_length; apply (IbfOf_cells _ _ _ It)).
  destruct (initialize_append (pc_codec K) (pc_scheme K) [] t [c] (iblt_new (pc_n K)) Ls) as (c' & Ec & Ei); auto.
  { apply (IbfOf_wf_cells (pc_n K) [m]); auto. constructor; [exact Hm|constructor]. }
  injection Ec as <-.
  set (key := pc_sync K ++ [SYNC; c1; c2; c3; c]).
  set (n := key ++ [number_comp TYPE_VERSION 7; number_comp TYPE_SEGMENT 0]).
  assert (sync_request_for K n key bf t) as Rq by (exists c1, c2, c3, c, [number_comp TYPE_VERSION 7; number_comp TYPE_SEGMENT 0]; auto 10).
  destruct (append_cases K [] (k_iblt (pp_core s)) Sk) as (c0 & _ & Hcar).
  destruct (C35_current_consumers_wait_partial K evs s [] n key bf t 1000 (mkDiff true [] [m]) c0) as (s1 & E1 & A1 & A2 & A3 & A4); auto.
  { rewrite Hh. intros [|x pre] post k E X; [|discriminate E]. injection X as <-. constructor. }
  { rewrite Hp. reflexivity. }
  { rewrite Hc. exact Sub. }
  { rewrite Hc. intros nm []. }
  { assert (2 <= pc_n K / 2)%nat by (apply Nat.div_le_lower_bound; lia). cbn [positive negative length]. lia. }
  set (s2 := mkPP (pp_now s1 + 1000) (pp_core s1) (pp_pub s1) (pp_pending s1)).
  assert (Nn : forall k, In k (key :: keys) -> k <> n).
  { intros k Ik ->. assert (length n = length (pc_sync K) + 5)%nat as L.
    { destruct Ik as [E|Ik]; [rewrite <- E; unfold key; rewrite app_length; reflexivity|].
      destruct (Hks _ Ik) as (h & cc & tt0 & _ & -> & _). rewrite app_length. reflexivity. }
    unfold n, key in L. rewrite !app_length in L. cbn [length] in L. lia. }
  assert (~ In key keys) as Nk.
  { intros Ik. destruct (Hks _ Ik) as (h & cc & th & Lh & Ek & Ih & Eh). unfold key in Ek. apply app_inv_head in Ek. injection Ek as <-.
    rewrite Ei in Eh. injection Eh as <-. destruct (one_key_ibf (pc_n K) h) as (t' & It' & Sub'); [lia|]. specialize (Sub' _ Hf).
    unfold IbfOf in Ih, It'. rewrite Ih in It'. injection It' as <-. rewrite Sub in Sub'. injection Sub' as E. lia. }
  assert (pp_now s1 = pp_now s) as En.
  { apply (pp_step_ok _ _ _ _ _ _ (pp_run_ok _ _ _ _ R) E1). }
  assert (nm_sorted (pp_pending s1)) as So1 by (apply (po_sorted K); apply (pp_step_ok _ _ _ _ _ _ (pp_run_ok _ _ _ _ R) E1)).
  exists (evs ++ [PInterest n 1000; PTick 1000; PExpire key]), (expire key s2), (key :: keys).
  assert (pp_step K (PTick 1000) s1 = (s2, [], Ok tt)) as E2 by reflexivity.
  assert (pp_step K (PExpire key) s2 = (expire key s2, [], Ok tt)) as E3 by reflexivity.
  assert (expire key s2 = set_pending (nm_erase n (nm_set key (mkPentry bf t None) (pp_pending s2))) s2) as Ex.
  { unfold expire. cbn [s2 pp_pending]. rewrite A3. cbn [pe_expiry pe_bf pe_iblt pp_now].
    rewrite (proj2 (N.leb_le _ _)) by (cbn [s2 pp_now]; lia). reflexivity. }
  assert (forall k y, nm_find k (pp_pending (expire key s2)) = Some y ->
    nm_find k (nm_set key (mkPentry bf t None) (pp_pending s1)) = Some y) as Fe.
  { intros k y. rewrite Ex. cbn [set_pending pp_pending s2]. rewrite nm_find_erase by (apply nm_set_sorted; exact So1).
    destruct (name_eqb k n); [discriminate|auto]. }
  constructor.
  - unfold pp_run in *. rewrite run_app, R. cbn [run]. rewrite E1, E2, E3. reflexivity.
  - unfold history in *. rewrite flat_map_app, Hh. reflexivity.
  - apply Forall_app. split; [exact Hw|]. repeat constructor.
  - intros n' l' X. apply in_app_or in X as [X|[X|[X|[X|[]]]]]; [eauto| |discriminate X|discriminate X]. injection X as _ <-. reflexivity.
  - rewrite Ex. cbn. congruence.
  - rewrite Ex. cbn. congruence.
  - intros k y F. apply Fe in F. rewrite nm_find_set in F. destruct (name_eqb k key) eqn:Q; [injection F as <-; reflexivity|].
    rewrite A4 in F; [apply (Hd _ _ F)|]. intros ->. rewrite name_eqb_refl in Q. discriminate.
  - cbn [length]. lia.
  - constructor; assumption.
  - intros k Ik. rewrite Ex. cbn [set_pending pp_pending s2]. rewrite nm_find_erase_other by (apply Nn; exact Ik).
    rewrite nm_find_set. destruct (name_eqb k key) eqn:Q; [discriminate|].
    rewrite A4; [|intros ->; rewrite name_eqb_refl in Q; discriminate]. destruct Ik as [<-|Ik]; [rewrite name_eqb_refl in Q; discriminate|auto].
  - intros k [<-|Ik].
    + exists m, c, t. split; [lia|]. split; [reflexivity|]. split; [exact It|exact Ei].
    + destruct (Hks _ Ik) as (h & cc & th & Lh & H). exists h, cc, th. split; [lia|exact H].
Qed.
(** ... so a producer that is sent nothing but interests with lifetimes of one second, with a usable filter and
    decodable IBFs, ends up with any number, up to 2^32, of interests whose expiration events have all run
    and which it keeps whatever time passes *)
Theorem C112_producer_grows_refuted : forall K c1 c2 c3 bf m,
  scheme_ok (pc_codec K) (pc_scheme K) -> lossless (pc_codec K) -> (4 <= pc_n K)%nat -> (3 <= pc_fuel K)%nat ->
  bloom_of_comps (pc_libm K) c1 c2 c3 = Ok bf -> bloom_sound bf -> m <= 2 ^ 32 ->
  exists evs s, pp_run K (pp_new K) evs = Some (s, []) /\ history evs = [] /\
    (forall n l, In (PInterest n l) evs -> l = 1000) /\ no_overdue s /\
    m <= N.of_nat (length (pp_pending s)) /\
    (forall later s' o, Forall is_timer later -> pp_run K s later = Some (s', o) -> pp_pending s' = pp_pending s).
Proof.
  intros K c1 c2 c3 bf m Sk Ls Hn Hf Hb Bs Hm.
  assert (exists evs s keys, grown K c1 c2 c3 m evs s keys) as (evs & s & keys & [R Hh Hw Hl Hc Hp Hd Hk Nd Hi Hks]).
  { induction m as [|m IH] using N.peano_ind.
    - exists [], (pp_new K), []. constructor; try reflexivity; try constructor; try (intros; contradiction). intros k y X. discriminate X.
    - destruct IH as (evs & s & keys & G); [lia|]. rewrite <- N.add_1_r. eapply grow; eauto. change two32 with (2 ^ 32). lia. }
  exists evs, s. split; [exact R|]. split; [exact Hh|]. split; [exact Hl|]. split; [|split].
  - intros k e dl n F X. rewrite (Hd _ _ F) in X. discriminate.
  - rewrite <- Hk, <- (map_length fst (pp_pending s)). enough (length keys <= length (map fst (pp_pending s)))%nat by lia. apply NoDup_incl_length; [exact Nd|].
    intros k Ik. specialize (Hi k Ik). destruct (nm_find k (pp_pending s)) as [y|] eqn:F; [|congruence].
    apply nm_find_In in F. apply in_map_iff. exists (k, y). auto.
  - intros later s' o Ht Rl. exact (timers_keep K later s s' o Hd Ht Rl).
Qed.
Print Assumptions C112_producer_grows_refuted.
Example C112_grows_example : scheme_ok (pc_codec Kx) (pc_scheme Kx) /\ lossless (pc_codec Kx) /\ (4 <= pc_n Kx)%nat /\
  (3 <= pc_fuel Kx)%nat /\ bloom_of_comps (pc_libm Kx) c_one c_one all_ones = Ok bf_all /\ bloom_sound bf_all.
Proof.
  split; [left; reflexivity|]. split; [intros s b X; discriminate X|]. split; [cbn; lia|]. split; [cbn; lia|].
  split; [exact bf_all_ok|exact bf_all_sound].
Qed.

Definition pre_112 : list fev := [FeApi (AAdd pa)].
Definition post_112 : list fev :=
  [FeTick 40000000; FeInterest a2_ask 1000; FeInterest blank_ask 2000; FeTick 100; FeDelay; FeTick 50].
Lemma punctual_112 : punctual Kf 0 (pre_112 ++ post_112).
Proof.
  intros pre dt post s o dl E [_ R] D.
  destruct pre as [|e0 pre]; [discriminate E|]. injection E as <- E.
  destruct pre as [|e1 pre].
  { injection E as <- <-. vm_compute in R. injection R as <- <-. discriminate D. }
  injection E as <- E. destruct pre as [|e2 pre]; [discriminate E|]. injection E as <- E.
  destruct pre as [|e3 pre]; [discriminate E|]. injection E as <- E.
  destruct pre as [|e4 pre].
  { injection E as <- <-. vm_compute in R. injection R as <- <-. vm_compute in D. injection D as <-. vm_compute. discriminate. }
  injection E as <- E. destruct pre as [|e5 pre]; [discriminate E|]. injection E as <- E.
  destruct pre as [|e6 pre].
  { injection E as <- <-. vm_compute in R. injection R as <- <-. vm_compute in D. injection D as <-. vm_compute. discriminate. }
  injection E as _ E. destruct pre; discriminate E.
Qed.
Example C112_example : exists s o, schemes_ok Kf /\ uri_ok Kf /\ reaches Kf 0 (pre_112 ++ post_112) s o /\
  punctual Kf 0 (pre_112 ++ post_112) /\ none_overdue s /\ longest_wait + 4000 <= time_of post_112 /\
  (forall n l, In (FeInterest n l) (pre_112 ++ post_112) -> l <= time_of post_112) /\
  length (f_waiting s) = 1%nat /\ length (f_pending s) = 1%nat /\ interests post_112 = 2%nat.
Proof.
  eexists _, _. split; [apply Kf_ok|]. split; [apply Kf_ok|]. split; [split; [repeat constructor|vm_compute; reflexivity]|].
  split; [apply punctual_112|]. split.
  { intros n x F. apply nm_find_In in F as [[= _ <-]|[]]. vm_compute. reflexivity. }
  split; [vm_compute; discriminate|]. split; [|repeat split].
  intros n l Hin. cbn [pre_112 post_112 app In] in Hin.
  repeat (destruct Hin as [Hin|Hin]; [try discriminate Hin; injection Hin as _ <-; vm_compute; discriminate|]). destruct Hin.
Qed.
Definition post_112p : list pev := [PTick 1000; PExpire q_all; PExpire q_bit; PInterest q_bit 1000; PTick 10].
Lemma plain_112 n : length n = length (pc_sync Kx ++ [SYNC; SYNC; SYNC; SYNC; SYNC]) -> ~ versioned Kx n.
Proof.
  intros L (key & bf & t & (c1 & c2 & c3 & c4 & tail & -> & -> & [T|T] & _) & X).
  - destruct tail; [|discriminate]. apply X. apply app_nil_r.
  - rewrite !app_length, T in L. discriminate L.
Qed.
Definition s_112a : pp := st (pp_step Kx (PTick 1000) s_pend).
Definition s_112b : pp := expire q_all s_112a.
Definition s_112c : pp := expire q_bit s_112b.
Definition s_112d : pp := pend q_bit q_bit bf_bit (iblt_new 10) 1000 s_112c.
Definition s_112e : pp := mkPP (pp_now s_112d + 10) (pp_core s_112d) (pp_pub s_112d) (pp_pending s_112d).
Lemma pending_112c : pp_pending s_112c = []. Proof. vm_compute. reflexivity. Qed.
Lemma core_112c : pp_core s_112c = pp_core s_fresh. Proof. vm_compute. reflexivity. Qed.
Lemma step_112 : pp_step Kx (PInterest q_bit 1000) s_112c = (s_112d, [], Ok tt).
Proof.
  unfold s_112d. apply pend_step; [reflexivity|apply request_bit|vm_compute; reflexivity|rewrite core_112c; apply fresh_sub|reflexivity].
Qed.
Lemma pending_112e : pp_pending s_112e = [(q_bit, mkPentry bf_bit (iblt_new 10) (Some (2000, q_bit)))].
Proof. vm_compute. reflexivity. Qed.
Lemma run_112 : pp_run Kx (pp_new Kx) (evs_pend ++ post_112p) = Some (s_112e, []).
Proof.
  rewrite run_pend.
  assert (pp_step Kx (PTick 1000) s_pend = (s_112a, [], Ok tt)) as A by reflexivity.
  assert (pp_step Kx (PExpire q_all) s_112a = (s_112b, [], Ok tt)) as B by reflexivity.
  assert (pp_step Kx (PExpire q_bit) s_112b = (s_112c, [], Ok tt)) as C by reflexivity.
  assert (pp_step Kx (PTick 10) s_112d = (s_112e, [], Ok tt)) as D by reflexivity.
  pose proof step_112 as E. unfold post_112p. unfold pp_run.
  Opaque s_112a s_112b s_112c s_112d s_112e s_pend pp_step.
  cbn [run]. rewrite A, B, C, E, D. reflexivity.
Qed.
Transparent s_112a s_112b s_112c s_112d s_112e s_pend pp_step.
Example C112_producer_example : exists s o,
  pp_run Kx (pp_new Kx) (evs_pend ++ post_112p) = Some (s, o) /\ no_overdue s /\
  (forall n l, In (PInterest n l) (evs_pend ++ post_112p) -> l <= ptime_of post_112p /\ ~ versioned Kx n) /\
  length (pp_pending s) = 1%nat /\ pinterests post_112p = 1%nat.
Proof.
  exists s_112e, []. split; [apply run_112|]. split; [|split].
  - intros key e dl n F X. rewrite pending_112e in F.
    apply nm_find_In in F as [[= <- <-]|[]]. injection X as <- <-. vm_compute. reflexivity.
  - intros n l Hin. apply in_app_or in Hin.
    assert ((n = q_all \/ n = q_bit) /\ l = 1000) as [Hn ->].
    { destruct Hin as [[H|[H|[H|[]]]]|[H|[H|[H|[H|[H|[]]]]]]]; try discriminate H; injection H as <- <-; auto. }
    split; [vm_compute; discriminate|]. apply plain_112. destruct Hn as [->| ->]; vm_compute; reflexivity.
  - rewrite pending_112e. split; reflexivity.
Qed.
