(** Property theorems about what stored interests do to later calls (C116). *)
From Coq Require Import List NArith ZArith Bool Arith Lia.
From Coq.Strings Require Import Byte.
From Verif Require Import Base BaseFacts Mon MonFacts Iblt SpecIblt IbltFacts PeelFacts HonestFacts Tlv TlvFacts State NMap NMapFacts Codec CodecFacts
  Properties_Iblt Bloom SpecBloom BloomFacts Properties_Bloom Store StoreFacts Producer SpecProducer ProducerFacts Properties_Producer
  Partial SpecPartial PartialFacts PartialSteps Properties_Partial Full FullTrace SpecFull FullFacts FullSafe FullSteps FullRuns Properties_Full
  Properties_Ends StoredFacts IbltProps SpecPair PairProducer SpecStored.
Import ListNotations.
Local Open Scope N_scope.

(** ** Operations on the producer's data succeed while the counters fit *)
Lemma update_fits t pm k lo hi : (length t / 3 <> 0)%nat -> (pm = 1 \/ pm = -1)%Z ->
  (forall j, lo <= c_count (cell_at t j) <= hi)%Z -> (i32_min < lo)%Z -> (hi < i32_max)%Z ->
  exists t', iblt_update t pm k = Ok t' /\ length t' = length t /\
    forall j, (lo + Z.min pm 0 <= c_count (cell_at t' j) <= hi + Z.max pm 0)%Z.
Proof.
  intros L P B Lo Hi. destruct (iblt_update_total t pm k L) as [t' E].
  { intros j _. apply in_i32_iff. specialize (B j). lia. }
  exists t'. split; auto. apply iblt_update_ok in E as (_ & El & Ec). split; auto. intros j. rewrite Ec. specialize (B j).
  rewrite c_count_cadd. unfold kcell. destruct (hit _ k j); cbn [c_count cell0]; lia.
Qed.
Lemma csum_le m l j : (c_count (csum m (pos1 l) j) <= Z.of_nat (length l))%Z.
Proof.
  induction l as [|k l IH]; [simpl; lia|]. unfold pos1 in *. cbn [map csum length]. rewrite c_count_cadd.
  assert (c_count (kcell m 1 k j) <= 1)%Z by (unfold kcell; destruct (hit m k j); simpl; lia). lia.
Qed.
Lemma cstep_fits n k o : n <> 0%nat -> core_ok n k -> (Z.of_nat (length (live k)) + 1 < i32_max)%Z -> exists k', cstep k o = Ok k'.
Proof.
  intros Hn Ck Hb. pose proof (core_ok_ibf n k Ck) as H. apply IbfOf_cells in H as (L & _ & _ & C).
  assert (length (k_iblt k) / 3 <> 0)%nat as L3 by (rewrite L; apply n_entries_div; auto).
  assert (forall j, 0 <= c_count (cell_at (k_iblt k) j) <= Z.of_nat (length (live k)))%Z as B.
  { intros j. rewrite C. split; [apply csum_pos1_nonneg|]. pose proof (csum_le (n_entries n) (map name_hash (live k)) j) as X.
    rewrite map_length in X. exact X. }
  set (hi := Z.of_nat (length (live k))) in *.
  assert (forall nm x, k_iblt x = k_iblt k -> exists k1, core_forget nm x = Ok k1 /\ (length (k_iblt k1) / 3 <> 0)%nat /\
    forall j, (-1 <= c_count (cell_at (k_iblt k1) j) <= hi)%Z) as F.
  { intros nm x Ex. unfold core_forget. destruct (bm_right nm (k_bimap x)) as [h|].
    - unfold iblt_erase. rewrite Ex. destruct (update_fits (k_iblt k) (-1) h 0 hi L3) as (t & -> & El & Bt); auto; [unfold i32_min; lia|lia|].
      cbn [obind]. eexists. split; [reflexivity|]. cbn [k_iblt]. rewrite El. split; auto. intros j. specialize (Bt j). lia.
    - exists x. rewrite Ex. split; auto. split; auto. intros j. specialize (B j). lia. }
  assert (forall p s, exists k', core_update p s k = Ok k') as U.
  { intros p s. unfold core_update. destruct (nm_find p (k_prefixes k)) as [old|]; [|eauto]. destruct (s <=? old); [eauto|].
    assert (exists k1, (if old =? 0 then Ok k else core_forget (append_number p old) k) = Ok k1 /\ (length (k_iblt k1) / 3 <> 0)%nat /\
      forall j, (-1 <= c_count (cell_at (k_iblt k1) j) <= hi)%Z) as (k1 & -> & L1 & B1).
    { destruct (old =? 0); [|apply F; reflexivity]. exists k. split; auto. split; auto. intros j. specialize (B j). lia. }
    cbn [obind]. cbv zeta. unfold iblt_insert.
    destruct (update_fits (k_iblt k1) 1 (name_hash (append_number p s)) (-1) hi L1) as (t & -> & _); auto; [unfold i32_min; lia|lia|].
    cbn [obind]. eauto. }
  destruct o as [p|p|p s|p s]; cbn [cstep].
  - eauto.
  - unfold core_remove. destruct (nm_find p (k_prefixes k)) as [s|]; [|eauto].
    destruct (F (append_number p s) (mkCore (k_iblt k) (nm_erase p (k_prefixes k)) (k_bimap k) (k_count k)) eq_refl) as (k1 & -> & _). eauto.
  - apply U.
  - unfold core_publish. destruct (nm_find p (k_prefixes k)) as [cur|]; [|cbn; eauto]. cbv zeta.
    destruct (U p (publish_seq cur s)) as [k' ->]. cbn. eauto.
Qed.

(** ** Full sync *)
(** every interest a full-sync node keeps to answer later carries an IBF that the node itself had *)
Theorem C116_kept_filters_are_own : forall K sys evs s o n e,
  reaches K sys evs s o -> nm_find n (f_pending s) = Some e ->
  exists k rcvd, point (fc_n K) (ops_of o) k /\ names_ibf K n (k_iblt k) rcvd.
Proof.
  intros K sys evs s o n e R F. destruct (reaches_stored K sys evs s o R n e F) as (a & b & k & Eo & C & E).
  destruct (fo_pending _ _ (reaches_ok _ _ _ _ _ R) n e F) as (rcvd & H). exists k, rcvd. split; [exists a, b; auto|]. rewrite <- E. exact H.
Qed.
Print Assumptions C116_kept_filters_are_own.

Lemma free_nodup n ops k : collision_free n ops -> point n ops k -> NoDup (map name_hash (live k)).
Proof. intros H (a & b & E & C). exact (H a b k E C). Qed.
Lemma point_honest n ops k : Forall cop_wf ops -> collision_free n ops -> point n ops k -> IbfOf n (map name_hash (live k)) (k_iblt k).
Proof.
  intros W H (a & b & -> & C). apply Forall_app in W as [W _].
  apply (C30_ibf_is_current_names n a k W C). exact (collision_free_app _ _ _ H).
Qed.
(** so, whatever interests came before, every call of the application finishes, as long as the node's
    own names can be told apart and counted *)
Theorem C116_calls_finish : forall K sys evs s o a,
  schemes_ok K -> fc_n K <> 0%nat -> reaches K sys evs s o -> fev_wf (FeApi a) ->
  collision_free (fc_n K) (ops_of o ++ [call_of a]) -> states_told_apart K (ops_of o ++ [call_of a]) ->
  (Z.of_nat (length (live (f_core s))) + 1 < i32_max)%Z ->
  res (fp_step K (FeApi a) s) = Ok tt.
Proof.
  intros K sys evs s o a Sk Hn R Wa Hc Hx Hb.
  pose proof (reaches_core _ _ _ _ _ R) as [W C]. pose proof (collision_free_app _ _ _ Hc) as Hc0.
  pose proof (reaches_core_ok _ _ _ _ _ R Hc0) as Ck.
  destruct (cstep_fits (fc_n K) (f_core s) (call_of a) Hn Ck Hb) as [k' E'].
  destruct a as [p|p|p q]; cbn [call_of] in *.
  - cbn [fp_step api_call]. unfold fp_op. rewrite mbind_get, mbind_lift, E', mbind_mod. reflexivity.
  - cbn [fp_step api_call]. unfold fp_op. rewrite mbind_get, mbind_lift, E', mbind_mod. reflexivity.
  - destruct (get_seq p (f_core s)) as [cur|] eqn:G.
    2:{ rewrite (C54_publish_unknown_does_nothing K s p q G). reflexivity. }
    assert (point (fc_n K) (ops_of o ++ [CPublish p q]) k') as Pk'.
    { apply point_all. rewrite crun_app, C. cbn [obind crun]. rewrite E'. reflexivity. }
    assert (Forall cop_wf (ops_of o ++ [CPublish p q])) as W'.
    { apply Forall_app. split; [exact W|]. repeat constructor. apply Forall_inv in Wa. exact Wa. }
    destruct (C54_publish_answers_pending K sys evs s o p q cur k' Sk R Hc0 G Wa E' (free_nodup _ _ _ Hc Pk')) as (s' & o' & X & _).
    { intros key e F. destruct (reaches_stored K sys evs s o R key e F) as (x & y & k & Eo & Cx & ->).
      assert (point (fc_n K) (ops_of o ++ [CPublish p q]) k) as Pk by (apply point_app; exists x, y; auto).
      destruct (Hx k' k Pk' Pk) as [X1 X2].
      destruct (iblt_sub_honest (fc_n K) _ _ _ _ (fc_fuel K) (free_nodup _ _ _ Hc Pk') (free_nodup _ _ _ Hc Pk)
        (point_honest _ _ _ W' Hc Pk') (point_honest _ _ _ W' Hc Pk) X1 X2) as (d & D & _). eauto. }
    rewrite X. reflexivity.
Qed.
Print Assumptions C116_calls_finish.

(** ** Partial sync *)
Lemma satisfy_one_pending K p key s : nm_sorted (pp_pending s) -> let s' := st (satisfy_one K p key s) in
  pp_core s' = pp_core s /\ nm_sorted (pp_pending s') /\
  forall m e, nm_find m (pp_pending s') = Some e -> nm_find m (pp_pending s) = Some e.
Proof.
  intros Hs. cbv zeta. unfold satisfy_one. rewrite mbind_get.
  assert (forall x, pp_core x = pp_core s -> pp_pending x = pp_pending s -> 
    pp_core (set_pending (nm_erase key (pp_pending x)) x) = pp_core s /\ nm_sorted (nm_erase key (pp_pending x)) /\
    forall m e, nm_find m (nm_erase key (pp_pending x)) = Some e -> nm_find m (pp_pending s) = Some e) as H.
  { intros x Ex Ep. split; [exact Ex|]. rewrite Ep. split; [apply nm_erase_sorted; auto|]. intros m e. rewrite nm_find_erase by auto.
    destruct (name_eqb m key); [discriminate|auto]. }
  assert (pp_core s = pp_core s /\ nm_sorted (pp_pending s) /\
    forall m e, nm_find m (pp_pending s) = Some e -> nm_find m (pp_pending s) = Some e) as H0 by auto.
  destruct (nm_find key (pp_pending s)) as [e|]; [|exact H0]. rewrite mbind_lift.
  destruct (iblt_sub _ _ _) as [d|x|u|]; try exact H0. cbv zeta. destruct (negb (can_decode d)); [apply (H s); auto|].
  rewrite mbind_lift. destruct (bloom_contains _ _) as [b|x|u|]; try exact H0. destruct (_ || _); [|exact H0].
  rewrite mbind_lift. destruct (append_ibf _ _ _ _) as [dn|x|u|]; try exact H0.
  unfold mbind. rewrite pp_publish_eq. destruct (publish _ _ _ _ _ _ _) as [p1 [o1|x|u|]]; try exact H0.
  apply (H (set_pub p1 s)); reflexivity.
Qed.
(** what makes the loop over the pending interests fail *)
Definition fails_at (K : pcfg) (k : core) (e : pentry) (r : outcome unit) : Prop :=
  fails_as (iblt_sub (pc_fuel K) (k_iblt k) (pe_iblt e)) r \/
  b_size (pe_bf e) = 1 /\ r = UB UbOutOfBounds /\
    exists d, iblt_sub (pc_fuel K) (k_iblt k) (pe_iblt e) = Ok d /\ can_decode d = true.
Lemma satisfy_one_ends K p key s : scheme_ok (pc_codec K) (pc_scheme K) ->
  (forall m e, nm_find m (pp_pending s) = Some e -> sync_request_for K m m (pe_bf e) (pe_iblt e)) ->
  let r := res (satisfy_one K p key s) in
  r = Ok tt \/ exists e, nm_find key (pp_pending s) = Some e /\ fails_at K (pp_core s) e r.
Proof.
  intros Sk Hp r. unfold r. clear r. unfold satisfy_one. rewrite mbind_get.
  destruct (nm_find key (pp_pending s)) as [e|] eqn:F; [|left; reflexivity]. rewrite mbind_lift. unfold fails_at.
  destruct (iblt_sub (pc_fuel K) (k_iblt (pp_core s)) (pe_iblt e)) as [d|x|u|] eqn:D.
  2:{ exfalso. apply (iblt_sub_no_throw _ _ _ _ D). }
  2:{ right. exists e. split; auto. left. rewrite D. left. exists u. auto. }
  2:{ right. exists e. split; auto. left. rewrite D. right. auto. }
  cbv zeta. destruct (can_decode d) eqn:Cd; cbn [negb]; [|left; reflexivity].
  pose proof (Hp key e F) as Hq. destruct (request_nonempty _ _ _ _ _ Hq) as [Hne _].
  pose proof Hq as (c1 & c2 & c3 & c4 & tl & _ & _ & _ & Hb & _).
  destruct (filter_of_request _ _ _ _ _ Hb) as [X|[X Y]].
  - left. rewrite (bloom_contains_ok _ p X), mbind_lift. destruct (_ || _); [|reflexivity].
    destruct (append_cases K key (k_iblt (pp_core s)) Sk) as (c & -> & _). rewrite mbind_lift.
    match goal with |- context [pp_publish K key ?dn ?b ?f] =>
      destruct (pp_publish_total K key dn b f s Hne) as (p1 & o1 & _ & E) end.
    unfold mbind. rewrite E. reflexivity.
  - right. exists e. split; auto. right. rewrite Y, mbind_lift. rewrite D. split; auto. split; [reflexivity|eauto].
Qed.
Lemma satisfy_ends K p : scheme_ok (pc_codec K) (pc_scheme K) -> forall keys s, nm_sorted (pp_pending s) ->
  (forall m e, nm_find m (pp_pending s) = Some e -> sync_request_for K m m (pe_bf e) (pe_iblt e)) ->
  let r := res (satisfy K p keys s) in
  r = Ok tt \/ exists key e, nm_find key (pp_pending s) = Some e /\ fails_at K (pp_core s) e r.
Proof.
  intros Sk. induction keys as [|k keys IH]; intros s Hs Hp; [left; reflexivity|]. cbv zeta. cbn [satisfy].
  destruct (satisfy_one_pending K p k s Hs) as (C & S1 & P). pose proof (satisfy_one_ends K p k s Sk Hp) as H. cbv zeta in H.
  unfold mbind, res, st in *. destruct (satisfy_one K p k s) as [[s1 o1] r1]. cbn [fst snd] in *. destruct r1 as [[]|x|u|].
  - destruct (IH s1 S1 (fun m e X => Hp m e (P m e X))) as [X|(key & e & F & X)]; destruct (satisfy K p keys s1) as [[s2 o2] r2]; cbn [snd] in *; auto.
    right. exists key, e. rewrite C in X. auto.
  - right. destruct H as [H|(e & F & H)]; [discriminate|eauto].
  - right. destruct H as [H|(e & F & H)]; [discriminate|eauto].
  - right. destruct H as [H|(e & F & H)]; [discriminate|eauto].
Qed.
(** publishName on a partial-sync producer finishes, unless the number of names overflows a counter, or
    a waiting interest is one (1) whose IBF makes the comparison with the new state overflow or never
    end, or (2) whose filter has no table; and then it fails as the comparison or the lookup does *)
Theorem C116_publish_fails_exactly_when : forall K evs s o p q,
  scheme_ok (pc_codec K) (pc_scheme K) -> pp_run K (pp_new K) evs = Some (s, o) ->
  let r := res (pp_step K (PPublishName p q) s) in
  r = Ok tt \/ fails_as (core_publish p q (pp_core s)) r \/
  exists k v n e, core_publish p q (pp_core s) = Ok (k, Some v) /\ nm_find n (pp_pending s) = Some e /\
    (fails_as (iblt_sub (pc_fuel K) (k_iblt k) (pe_iblt e)) r \/ b_size (pe_bf e) = 1 /\ r = UB UbOutOfBounds).
Proof.
  intros K evs s o p q Sk R r. unfold r. clear r. cbn [pp_step]. unfold pp_publish_name. rewrite mbind_get, mbind_lift.
  destruct (core_publish p q (pp_core s)) as [[k v]|x|u|] eqn:E.
  2:{ destruct (core_publish_no_throw _ _ _ _ E). }
  2:{ right. left. left. exists u. auto. }
  2:{ right. left. right. auto. }
  rewrite mbind_mod. cbn [fst snd]. destruct v as [v|]; [|left; reflexivity].
  pose proof (pp_run_ok K evs s o R) as [Os Oe _].
  destruct (satisfy_ends K p Sk (nm_keys (pp_pending s)) (set_core k s) Os Oe) as [X|(n & e & F & X)]; [left; exact X|].
  right. right. exists k, v, n, e. split; auto. split; auto. destruct X as [X|(X & Y & _)]; auto.
Qed.
Print Assumptions C116_publish_fails_exactly_when.

(** it finishes when every waiting interest has a filter with a table and an honest IBF *)
Theorem C116_publish_finishes_partial : forall K evs s o p q,
  scheme_ok (pc_codec K) (pc_scheme K) -> pc_n K <> 0%nat -> Forall pev_wf (evs ++ [PPublishName p q]) ->
  collision_free (pc_n K) (history (evs ++ [PPublishName p q])) -> pp_run K (pp_new K) evs = Some (s, o) ->
  (Z.of_nat (length (live (pp_core s))) + 1 < i32_max)%Z ->
  (forall n e, nm_find n (pp_pending s) = Some e -> b_size (pe_bf e) <> 1 /\
     exists ks, NoDup ks /\ IbfOf (pc_n K) ks (pe_iblt e) /\
       forall k, cstep (pp_core s) (CPublish p q) = Ok k -> exact_difference K k ks) ->
  res (pp_step K (PPublishName p q) s) = Ok tt.
Proof.
  intros K evs s o p q Sk Hn W Hc R Hb Hp. apply Forall_app in W as [W Wq]. rewrite history_app in Hc.
  destruct (reach_core K evs s o W R) as [W' C]. pose proof (collision_free_app _ _ _ Hc) as Hc0.
  pose proof (crun_ok _ _ _ W' C Hc0) as Ck. destruct (cstep_fits (pc_n K) (pp_core s) (CPublish p q) Hn Ck Hb) as [k1 E1].
  pose proof E1 as E2. cbn [cstep] in E1. unfold omap in E1. apply obind_ok in E1 as ((k & v) & E1 & X). injection X as <-. cbn [fst] in E2.
  destruct (C116_publish_fails_exactly_when K evs s o p q Sk R) as [X|[[(u & X & _)|[X _]]|(k' & v' & n & e & Ep & F & X)]]; [exact X|congruence|congruence|].
  exfalso. destruct (Hp n e F) as (Hz & ks & Nk & Ik & Xk). destruct X as [X|[X _]]; [|exact (Hz X)].
  assert (k' = k) as -> by congruence. destruct (Xk k E2) as [X1 X2].
  assert (point (pc_n K) (history evs ++ history [PPublishName p q]) k) as Pk.
  { apply point_all. rewrite crun_app, C. cbn [obind]. change (history [PPublishName p q]) with [CPublish p q]. cbn [crun]. rewrite E2. reflexivity. }
  assert (Forall cop_wf (history evs ++ history [PPublishName p q])) as W2.
  { apply Forall_app. split; auto. repeat constructor. apply Forall_inv in Wq. exact Wq. }
  destruct (iblt_sub_honest (pc_n K) _ ks _ _ (pc_fuel K) (free_nodup _ _ _ Hc Pk) Nk (point_honest _ _ _ W2 Hc Pk) Ik X1 X2) as (d & D & _).
  rewrite D in X. destruct X as [(u & [=] & _)|[[=] _]].
Qed.
Print Assumptions C116_publish_finishes_partial.
(** an interest with the producer's own IBF and a filter of rate 1.000 is stored without complaint, in
    any state with empty store and no waiting interest; the next publication then reads out of bounds *)
Theorem C116_stored_filter_refuted : forall K evs s o,
  scheme_ok (pc_codec K) (pc_scheme K) -> lossless (pc_codec K) -> libm_specials (pc_libm K) ->
  (1 < pc_n K)%nat -> pc_fuel K <> 0%nat ->
  Forall pev_wf evs -> collision_free (pc_n K) (history evs) ->
  pp_run K (pp_new K) evs = Some (s, o) -> pb_store (pp_pub s) = [] -> pp_pending s = [] ->
  exists n, forall l, exists s1, pp_step K (PInterest n l) s = (s1, [], Ok tt) /\
    forall p q k v d, core_publish p q (pp_core s1) = Ok (k, Some v) ->
      iblt_sub (pc_fuel K) (k_iblt k) (k_iblt (pp_core s1)) = Ok d -> can_decode d = true ->
      res (pp_step K (PPublishName p q) s1) = UB UbOutOfBounds.
Proof.
  intros K evs s o Sk Ls Hl Hn Hf W Hc R He Hp.
  destruct (reach_core K evs s o W R) as [W' C]. pose proof (C30_ibf_is_current_names _ _ _ W' C Hc) as [Hi _].
  destruct (C20_memory_safety_refuted (pc_libm K) Hl) as (c1 & c2 & c3 & bf & Hb & Hu).
  destruct (append_cases K [] (k_iblt (pp_core s)) Sk) as (c & Ha & Hca).
  assert (Forall wf_cell (k_iblt (pp_core s))) as Wc.
  { eapply IbfOf_wf_cells; [|exact Hi]. apply Forall_forall. intros h Hh. apply in_map_iff in Hh as (nm & <- & _). apply name_hash_lt. }
  assert (length (iblt_new (pc_n K)) = length (k_iblt (pp_core s))) as Lc.
  { rewrite iblt_new_length. apply IbfOf_cells in Hi as (L & _). auto. }
  destruct (initialize_append _ _ _ _ _ _ Ls Wc Lc Ha) as (c' & E & Ei). injection E as <-.
  set (n := pc_sync K ++ [SYNC; c1; c2; c3; c]).
  assert (sync_request_for K n n bf (k_iblt (pp_core s))) as Hq.
  { exists c1, c2, c3, c, []. rewrite app_nil_r. repeat split; auto. }
  exists n. intros l.
  assert (reply_from_store n (pp_pub s) = None) as Hr by (unfold reply_from_store; rewrite He; reflexivity).
  destruct (pc_fuel K) as [|f] eqn:Ef; [congruence|].
  assert (iblt_sub (pc_fuel K) (k_iblt (pp_core s)) (k_iblt (pp_core s)) = Ok (mkDiff true [] [])) as D by (rewrite Ef; apply C05_equal_ibfs).
  rewrite (step_decoded K s n n l bf _ _ [] c Sk Hq Hr D eq_refl eq_refl Hca).
  assert (Nat.leb (threshold (pc_n K)) (diff_size (mkDiff true [] [])) = false) as ->.
  { apply Nat.leb_gt. change (diff_size (mkDiff true [] [])) with 0%nat. unfold threshold.
    pose proof (Nat.div_str_pos (pc_n K) 2). lia. }
  cbn [orb negb]. eexists. split; [reflexivity|]. cbn [pp_core set_pending]. intros p q k v d Ep Ed Cd.
  cbn [pp_step]. unfold pp_publish_name. rewrite mbind_get, mbind_lift. cbn [pp_core set_pending]. rewrite Ep, mbind_mod. cbn [fst snd].
  rewrite Hp. unfold add_pending. cbn [nm_find pp_pending set_core set_pending nm_set nm_keys map fst satisfy].
  unfold satisfy_one, mbind at 1. rewrite mbind_get. cbn [pp_pending set_core set_pending pp_core nm_find]. rewrite name_eqb_refl.
  rewrite Ef, mbind_lift. cbn [pe_iblt]. rewrite Ed. cbv zeta. rewrite Cd. cbn [negb pe_bf]. rewrite mbind_lift.
  rewrite (proj1 (Hu p)). reflexivity.
Qed.
Print Assumptions C116_stored_filter_refuted.

(** a full-sync node puts an interest with a forged IBF on its waiting list without complaint; after
    the next publication the timer that serves the list overflows a signed integer *)
Definition t_116 : table := repeat (mkCell (-2147483647) 0 0) (n_entries 10).
Definition n_116 : name := Eval vm_compute in ask_with Kf t_116 7.
Definition evs_116 : list fev := [FeApi (AAdd pa); FeInterest n_116 1000; FeApi (APublish pa None); FeTick 1000].
Definition s_116 : fp := Eval vm_compute in fst (full_after Kf evs_116).
Definition o_116 : list fout := Eval vm_compute in snd (full_after Kf evs_116).
Theorem C116_waiting_list_refuted : exists K evs s o,
  schemes_ok K /\ uri_ok K /\ reaches K 0 evs s o /\ no_collision K o /\ res (fp_step K FeDelay s) = UB UbIntOverflow.
Proof.
  exists Kf, evs_116, s_116, o_116. split; [apply Kf_ok|]. split; [apply Kf_ok|].
  split; [split; [repeat constructor|vm_compute; reflexivity]|].
  split; [intros pre post k E H; eapply check_free_ok; [|exact E|exact H]; vm_compute; reflexivity|].
  vm_compute. reflexivity.
Qed.
Print Assumptions C116_waiting_list_refuted.

(** the hypotheses are met *)
Lemma signed_diff_length a b : (length (signed_diff a b) <= length a + length b)%nat.
Proof.
  assert (forall x y, length (only_in x y) <= length x)%nat as H.
  { intros x y. unfold only_in. induction x as [|k x IH]; cbn; [lia|]. destruct (negb _); cbn; lia. }
  unfold signed_diff. rewrite app_length, !map_length. pose proof (H a b). pose proof (H b a). lia.
Qed.
Lemma points_116 k : point 10 [CAdd pa; CPublish pa None] k -> (length (live k) <= 1)%nat /\ NoDup (map name_hash (live k)).
Proof.
  intros (pre & post & E & C).
  assert (pre = [] \/ pre = [CAdd pa] \/ pre = [CAdd pa; CPublish pa None]) as [->|[->| ->]].
  { destruct pre as [|a [|b [|c pre]]]; auto; injection E; intros; subst; auto; discriminate. }
  - injection C as <-. vm_compute. split; [lia|constructor].
  - vm_compute in C. injection C as <-. vm_compute. split; [lia|constructor].
  - vm_compute in C. injection C as <-. split; [vm_compute; lia|apply check_nodup; vm_compute; reflexivity].
Qed.
Example C116_calls_example :
  schemes_ok Kf /\ fc_n Kf <> 0%nat /\ reaches Kf 0 evs_54 s_54 o_54 /\ fev_wf (FeApi (APublish pa None)) /\
  nm_keys (f_pending s_54) = [blank_ask] /\
  collision_free (fc_n Kf) (ops_of o_54 ++ [call_of (APublish pa None)]) /\
  states_told_apart Kf (ops_of o_54 ++ [call_of (APublish pa None)]) /\
  (Z.of_nat (length (live (f_core s_54))) + 1 < i32_max)%Z.
Proof.
  change (ops_of o_54 ++ [call_of (APublish pa None)]) with [CAdd pa; CPublish pa None].
  split; [apply Kf_ok|]. split; [discriminate|]. split; [apply C54_example|]. split; [apply C54_example|]. split; [apply C54_example|].
  split; [intros pre post k E H; apply (points_116 k); exists pre, post; auto|].
  split; [|vm_compute; reflexivity].
  intros k1 k2 P1 P2. destruct (points_116 k1 P1) as [L1 N1]. destruct (points_116 k2 P2) as [L2 N2].
  pose proof (signed_diff_keys _ _ N1 N2) as Nd.
  assert (length (signed_diff (map name_hash (live k1)) (map name_hash (live k2))) <= 2)%nat as L.
  { pose proof (signed_diff_length (map name_hash (live k1)) (map name_hash (live k2))) as X. rewrite !map_length in X. lia. }
  split; [apply no_coincidence_small; auto; apply signed_diff_signs|]. change (fc_fuel Kf) with 100%nat. lia.
Qed.
Definition s1_116 : pp := state_after Kx [PAdd pa].
Example C116_filter_example :
  scheme_ok (pc_codec Kx) (pc_scheme Kx) /\ lossless (pc_codec Kx) /\ libm_specials (pc_libm Kx) /\ (1 < pc_n Kx)%nat /\ pc_fuel Kx <> 0%nat /\
  pp_run Kx (pp_new Kx) [PAdd pa] = Some (s1_116, []) /\ pb_store (pp_pub s1_116) = [] /\ pp_pending s1_116 = [] /\
  exists k v d, core_publish pa None (pp_core s1_116) = Ok (k, Some v) /\
    iblt_sub (pc_fuel Kx) (k_iblt k) (k_iblt (pp_core s1_116)) = Ok d /\ can_decode d = true.
Proof.
  split; [left; reflexivity|]. split; [apply lossless_none|]. split; [apply libm_example_specials|]. split; [cbn; lia|]. split; [discriminate|].
  split; [vm_compute; reflexivity|]. split; [vm_compute; reflexivity|]. split; [vm_compute; reflexivity|].
  eexists. eexists. eexists. split; [vm_compute; reflexivity|]. split; vm_compute; reflexivity.
Qed.
Definition ask_116 : name := Eval vm_compute in request Kx all_ones (iblt_new 10).
Definition s2_116 : pp := Eval vm_compute in state_after Kx [PAdd pa; PInterest ask_116 1000].
Example C116_publish_example :
  pc_n Kx <> 0%nat /\ Forall pev_wf ([PAdd pa; PInterest ask_116 1000] ++ [PPublishName pa None]) /\
  collision_free (pc_n Kx) (history ([PAdd pa; PInterest ask_116 1000] ++ [PPublishName pa None])) /\
  pp_run Kx (pp_new Kx) [PAdd pa; PInterest ask_116 1000] = Some (s2_116, []) /\
  (Z.of_nat (length (live (pp_core s2_116))) + 1 < i32_max)%Z /\ nm_keys (pp_pending s2_116) = [ask_116] /\
  (forall n e, nm_find n (pp_pending s2_116) = Some e -> b_size (pe_bf e) <> 1 /\
     exists ks, NoDup ks /\ IbfOf (pc_n Kx) ks (pe_iblt e) /\
       forall k, cstep (pp_core s2_116) (CPublish pa None) = Ok k -> exact_difference Kx k ks).
Proof.
  split; [discriminate|]. split; [repeat constructor|].
  split; [change (history _) with [CAdd pa; CPublish pa None]; intros pre post k E H; apply (points_116 k); exists pre, post; auto|].
  split; [vm_compute; reflexivity|]. split; [vm_compute; reflexivity|]. split; [vm_compute; reflexivity|].
  assert (pp_pending s2_116 = [(ask_116, mkPentry bf_all (iblt_new 10) (Some (1000, ask_116)))]) as -> by (vm_compute; reflexivity).
  intros n e. cbn [nm_find]. destruct (name_eqb n ask_116); [|discriminate]. intros [= <-]. cbn [pe_bf pe_iblt]. split; [discriminate|].
  exists []. split; [constructor|]. split; [reflexivity|]. intros k E.
  assert (point 10 [CAdd pa; CPublish pa None] k) as P.
  { exists [CAdd pa; CPublish pa None], []. split; [reflexivity|].
    change (crun (core_new 10) [CAdd pa; CPublish pa None]) with (olet k1 <- cstep (pp_core s2_116) (CPublish pa None); Ok k1). rewrite E. reflexivity. }
  destruct (points_116 k P) as [L N].
  pose proof (signed_diff_keys _ [] N (NoDup_nil _)) as Nd. pose proof (signed_diff_length (map name_hash (live k)) []) as X.
  rewrite map_length in X. cbn [length] in X.
  split; [apply no_coincidence_small; auto; [apply signed_diff_signs|lia]|]. change (pc_fuel Kx) with 100%nat. lia.
Qed.
