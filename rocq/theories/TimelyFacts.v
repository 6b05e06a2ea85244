(** Proofs about how long it takes until a consumer knows of an update (C124). *)
From Coq Require Import List NArith ZArith Bool Arith Lia.
From Verif Require Import Base BaseFacts Mon MonFacts Iblt SpecIblt HonestFacts Tlv TlvFacts State NMap NMapFacts Codec CodecFacts
  Properties_Iblt Bloom SpecBloom BloomFacts Properties_Bloom Store StoreFacts Producer SpecProducer ProducerFacts Properties_Producer
  Partial SpecPartial PartialFacts PartialSteps Properties_Partial Full SpecFull FullRuns Consumer SpecConsumer ConsumerFacts Properties_Consumer
  SpecExchange ExchangeFacts Properties_Exchange SpecGroup GroupFacts Properties_Group SpecPair PairProducer PairConsumer PairFacts
  PairProgress Properties_Pair Properties_PairProgress SpecSettle Properties_Settle Properties_Push SpecFresh FreshFacts SpecRecent RecentFacts
  SpecQuiet QuietFacts Properties_Quiet SpecTimely.
Import ListNotations.
Local Open Scope N_scope.

(** ** The producer *)
(** what a producer sends, from memory or not, stems from a state not older than the freshness period *)
Lemma sent_origin K evs1 evs2 ev s1 o1 s o s' o' d : scheme_ok (pc_codec K) (pc_scheme K) ->
  pp_run K (pp_new K) evs1 = Some (s1, o1) -> pp_run K (pp_new K) (evs1 ++ evs2) = Some (s, o) ->
  pp_run K (pp_new K) ((evs1 ++ evs2) ++ [ev]) = Some (s', o ++ o') ->
  pp_now s1 + longest_freshness K < pp_now s' -> erased_in_time (pp_now s) (pp_pub s) -> In d o' -> d_type d = Blob ->
  exists x y sx ox, evs2 ++ [ev] = x ++ y /\ pp_run K (pp_new K) (evs1 ++ x) = Some (sx, ox) /\
    data_with_ibf K (k_iblt (pp_core sx)) d.
Proof.
  intros Sk R1 R R' Hq Ti Hd Ty.
  destruct (step_sprung K Sk _ _ _ _ _ _ R R' (run_sprung K Sk _ _ _ R)) as [_ H].
  destruct (H Ti d Hd) as [Hn|(dl & (pre & e & post & sx & ox & E & Rx & -> & (Di & Fd & _)) & Hdl)]; [congruence|].
  pose proof (pp_run_clock _ _ _ _ _ R1) as T1. pose proof (pp_run_clock _ _ _ _ _ Rx) as Tx. cbn [pp_new pp_now] in T1, Tx.
  change (pre ++ e :: post) with (pre ++ [e] ++ post) in E. rewrite app_assoc, <- app_assoc in E.
  destruct (prefix_split _ _ _ _ E) as [(x & Ex)|(x & Ex)].
  - rewrite Ex in E, Rx. rewrite <- app_assoc in E. apply app_inv_head in E. exists x, post, sx, ox. auto.
  - rewrite Ex, ptime_app in T1. lia.
Qed.

(** ** The consumer *)
Lemma did_old_sub b0 A s o s' p : did A s o s' -> dinv b0 s -> no_subscription A -> sub s' p -> sub s p.
Proof.
  induction 1 as [s o s' (_ & X & _) Y|s q w cb b s' X Y Z P Q R|s q b s' X Y Z P Q R|s o1 s1 o2 s2 D1 I1 D2 I2]; intros D N; unfold sub in *.
  - rewrite X. auto.
  - destruct (N _ _ _ X).
  - rewrite Q. unfold nm_mem. rewrite nm_find_erase by apply D. destruct (name_eqb p q); [discriminate|auto].
  - intros H. apply I1; auto. apply I2; auto. eapply dinv_did; eauto.
Qed.
(** without new subscriptions the numbers of the subscriptions stay *)
Lemma did_same_numbers b0 A s o s' p : did A s o s' -> dinv b0 s -> no_subscription A -> sub s' p -> sub s p /\ known s' p = known s p.
Proof.
  intros D I N H. split; [eapply did_old_sub; eauto|]. pose proof (di_known _ _ (dinv_did _ _ _ _ _ D I) p H) as Hk.
  destruct (known s' p) as [v|] eqn:E; [|congruence].
  destruct (did_values _ _ _ _ _ _ _ D I E) as [G|(cb & G)]; [symmetry; exact G|destruct (N _ _ _ G)].
Qed.
Definition cons_kept (c c' : cs) : Prop := forall p, sub c' p -> sub c p /\ known c' p = known c p.
Lemma kept_same c c' : same_data c c' -> cons_kept c c'.
Proof. intros (A & B & _) p. unfold sub, known. rewrite A, B. auto. Qed.
Lemma kept_trans a b c : cons_kept a b -> cons_kept b c -> cons_kept a c.
Proof. intros A B p H. destruct (B p H) as [H1 H2]. destruct (A p H1) as [H3 H4]. split; [exact H3|congruence]. Qed.
Lemma background_kept b0 Kc e c c' o r : dinv b0 c -> background e -> c_step Kc e c = (c', o, r) -> ends r -> cons_kept c c'.
Proof.
  intros D B E R. pose proof (c_step_view Kc e c) as V. rewrite E in V. cbn [st outs res fst snd] in V. specialize (V (ends_fine _ R)).
  assert (content_of e = []) as Ce by (destruct e; try destruct B; reflexivity).
  assert (no_subscription (calls_of e)) as Nc by (destruct e; try destruct B; intros p v cb []).
  inversion V; subst; repeat match goal with H : In _ (content_of e) |- _ => rewrite Ce in H; destruct H end.
  intros p Hp. eapply did_same_numbers; eauto.
Qed.
Lemma calls_kept b0 Kc l c c' o r : dinv b0 c -> no_subscription l -> calls Kc l c = (c', o, r) -> ends r -> cons_kept c c'.
Proof.
  intros D N E R. pose proof (calls_did Kc l c) as V. rewrite E in V. cbn [st outs res fst snd] in V. destruct (V (ends_fine _ R)) as [_ V'].
  intros p Hp. eapply did_same_numbers; eauto.
Qed.
Lemma nack_kept Kc i n d w w' : linv (du_cons w) -> completed Kc i KSync n d w w' -> d_type d = AppNack -> cons_kept (du_cons w) (du_cons w').
Proof.
  intros L (buf & sc1 & sc2 & c1 & o1 & c2 & o2 & Fi & Cm & _ & E1 & E2 & ->) Ty. cbn [du_cons].
  destruct Cm as (base & segs & fc & last & _ & _ & Fd & _).
  destruct (segment_result _ _ _ _ _ _ _ L E1) as [_ G]. destruct (sg_sname _ _ _ _ _ _ G _ _ Fi Fd) as (_ & Ht & Fi').
  apply (kept_trans _ c1); [apply kept_same; apply G|]. apply kept_same.
  cbn [c_step] in E2. rewrite mbind_get, Fi' in E2. unfold finish in E2. rewrite mbind_mod, Ht, Ty in E2. cbn [is_nack] in E2.
  injection E2 as <- _. repeat split.
Qed.

(** ** Both *)
Section Duo.
Variables (K : pcfg) (Kc : ccfg).
Hypothesis Ok2 : duo_ok K Kc.
Variable wf : duo.
Hypothesis Fr : fresh_duo K Kc wf.
Let run := duo_run K Kc subscribes_in_hello.

Lemma kept_knows w0 w w' : cons_kept (du_cons w) (du_cons w') -> knows_all_of w0 w -> knows_all_of w0 w'.
Proof. intros C H p Hp. destruct (C p Hp) as [H1 H2]. specialize (H p H1). unfold seq_of, known in *. rewrite H2. exact H. Qed.
Lemma reached w : run wf w -> no_removal (history (du_evs w)) -> plain K w -> exists b0, DI K Kc b0 (fun _ => True) (fun _ => 0) w.
Proof. intros R N P. exact (reached_DI K Kc wf w Ok2 Fr R N P). Qed.
Lemma run_now w w' : run wf w -> run w w' -> no_removal (history (du_evs w')) -> plain K w' -> pp_now (du_prod w) <= pp_now (du_prod w').
Proof.
  intros R R' N P. destruct (earlier_run K Kc _ _ _ R' P N) as [P1 N1].
  destruct (reached w R N1 P1) as (b1 & D1). destruct (reached w' (run_trans K Kc _ _ _ _ R R') N P) as (b2 & D2).
  pose proof (pp_run_clock _ _ _ _ _ (di_run _ _ _ _ _ _ D1)) as T1. pose proof (pp_run_clock _ _ _ _ _ (di_run _ _ _ _ _ _ D2)) as T2.
  destruct (run_evs K Kc _ _ _ R') as (evs & E). rewrite E, ptime_app in T2. lia.
Qed.

(** who fetches data that is sent now learns all that was known a freshness period ago *)
Lemma fetched_run e d0 w w' : pev_wf e -> fetched_at_once K Kc e d0 w w' -> run w w'.
Proof.
  intros We (o & d & w1 & w2 & Cl & Pd & Ind & Ty & R12 & Nw & Fe & Sc).
  eapply duo_next; [|exact (fetches_step K Kc _ _ _ _ Fe)]. eapply run_trans; [|exact R12].
  eapply duo_next; [constructor|]. exact (producer_step K Kc _ _ _ _ _ We Pd).
Qed.
Lemma fetched_knows w0 w e d0 w' : run wf w0 -> run w0 w -> pev_wf e -> fetched_at_once K Kc e d0 w w' ->
  no_removal (history (du_evs w')) -> plain K w' -> pp_now (du_prod w0) + longest_freshness K < pp_now (du_prod w') -> knows_all_of w0 w'.
Proof.
  intros R0 R We Fo Nr Pl Hq. pose proof (fetched_run _ _ _ _ We Fo) as Rw.
  destruct Fo as (o & d & w1 & w2 & Cl & Pd & Ind & Ty & R12 & Nw & Fe & Sc).
  pose proof (producer_step K Kc subscribes_in_hello _ _ _ _ We Pd) as S1. pose proof (fetches_step K Kc _ _ _ _ Fe) as S2.
  destruct (earlier K Kc _ _ _ S2 Pl Nr) as [Pl2 Nr2]. destruct (earlier_run K Kc _ _ _ R12 Pl2 Nr2) as [Pl1 Nr1].
  destruct (earlier K Kc _ _ _ S1 Pl1 Nr1) as [Plw Nrw]. destruct (earlier_run K Kc _ _ _ R Plw Nrw) as [Pl0 Nr0].
  assert (run wf w) as Rf by exact (run_trans K Kc _ _ _ _ R0 R).
  assert (run wf w1) as Rf1 by (eapply duo_next; eauto).
  assert (run wf w2) as Rf2 by exact (run_trans K Kc _ _ _ _ Rf1 R12).
  assert (run wf w') as Rf' by (eapply duo_next; eauto).
  destruct (reached w0 R0 Nr0 Pl0) as (b1 & D0). destruct (reached w Rf Nrw Plw) as (b2 & Dw).
  destruct (reached w1 Rf1 Nr1 Pl1) as (b3 & D1). destruct (reached w2 Rf2 Nr2 Pl2) as (b4 & D2). destruct (reached w' Rf' Nr Pl) as (b5 & D').
  destruct (run_evs K Kc _ _ _ R) as (evs & Ev).
  pose proof Fe as (i & k & m & buf & sc1 & sc2 & c1 & o1 & r1 & c2 & o2 & r2 & Fi & Cm & _ & _ & _ & _ & _ & E4).
  assert (du_prod w' = du_prod w2 /\ du_evs w' = du_evs w2) as [Ep Ee] by (rewrite E4; split; reflexivity).
  rewrite Ep, Nw in Hq.
  destruct Pd as (s & Es & E1). pose proof (di_run _ _ _ _ _ _ D1) as Rn1. rewrite E1 in Rn1, Hq. cbn [du_evs du_prod du_sent] in Rn1, Hq.
  pose proof (di_run _ _ _ _ _ _ Dw) as Rnw. rewrite Ev in Rnw, Rn1.
  destruct (sent_origin K (du_evs w0) evs e _ _ _ _ _ _ d0 (dk_scheme _ _ Ok2) (di_run _ _ _ _ _ _ D0) Rnw Rn1 Hq Cl Ind Ty)
    as (x & y & sx & ox & Ex & Rx & (_ & pre & c & v & g & En & Tv & Hc)).
  (* what the consumer holds *)
  pose proof Cm as (base & segs & fc & last & _ & Ins & _ & _ & _ & Sg & _). destruct (In_nth_error _ _ Ins) as (j & Hj). destruct (Sg j d Hj) as [Hs Hn].
  pose proof (content_blob K Kc Ok2 _ _ _ w2 d d0 pre c v g D2 Pl2 Hs Sc En Tv) as Tb.
  destruct (same_content_name d d0 pre c v g Sc (ex_intro _ base (ex_intro _ _ Hn)) En) as (g' & Ed).
  pose proof (fetch_holds Kc _ _ _ _ _ _ _ _ Fe Tb Ed) as Hi.
  (* the history *)
  destruct (run_evs K Kc _ _ _ R12) as (evs2 & Ev2).
  assert (du_evs w' = (du_evs w0 ++ x) ++ y ++ evs2) as Eall.
  { rewrite Ee, Ev2, E1. cbn [du_evs]. rewrite Ev, <- !app_assoc. f_equal. rewrite (app_assoc evs), Ex, <- app_assoc. reflexivity. }
  pose proof (history_wf _ (di_wf _ _ _ _ _ _ D')) as Wh. pose proof Pl as [P1 P2 P3 P4].
  pose proof (pp_run_core _ _ _ _ _ Rx) as Crx. cbn [pp_new pp_core] in Crx.
  assert (point (pc_n K) (history (du_evs w')) (pp_core sx)) as Ptx.
  { exists (history (du_evs w0 ++ x)), (history (y ++ evs2)). split; [rewrite Eall; apply history_app|exact Crx]. }
  intros p Hp. destruct (current w0 p) as [u0|] eqn:E0; [|cbn [seq0]; lia]. cbn [seq0].
  rewrite Eall, !history_app in Nr. apply no_removal_app in Nr as [Nrx _].
  destruct (below_app (history (du_evs w0)) (history x) p u0 Nrx) as (u1 & Eu1 & L1); [exists u0; split; [exact E0|lia]|].
  assert (get_seq p (pp_core sx) = Some u1) as G.
  { rewrite (C29_sequence_numbers (pc_n K) (history (du_evs w0 ++ x)) _ p); [rewrite history_app; exact Eu1| |exact Crx].
    rewrite Eall, history_app in Wh. apply Forall_app in Wh. tauto. }
  destruct (N.eq_dec u1 0) as [->|Hu]; [lia|].
  destruct (ci_iblt _ _ _ _ _ _ _ _ _ _ (di_ci _ _ _ _ _ _ D')) as [H|(cc & k0 & _ & Pk & Ek & Ck & Z)]; [congruence|].
  assert (cc = c) as -> by congruence. specialize (Z p I Hp).
  pose proof (carries_table K _ _ _ _ (dk_lossless _ _ Ok2) Wh P1 Pk Ptx Ck Hc) as Et.
  pose proof (iblt_same K _ _ _ p u1 Wh P1 P2 Ptx Pk (eq_sym Et) G Hu) as G2. unfold covered in Z. rewrite G2 in Z. cbn [seq0] in Z.
  unfold known in Z. unfold seq_of. lia.
Qed.
(** an interest that is left unanswered *)
Lemma unanswered_knows w0 w w' i n l : run wf w0 -> run w0 w -> cfetch i (c_live (du_cons w)) = Some (KSync, n) ->
  producer_does K (PInterest n l) [] w w' -> no_removal (history (du_evs w')) -> plain K w' -> knows_all_of w0 w'.
Proof.
  intros R0 R Fi Pd Nr Pl. pose proof (producer_step K Kc subscribes_in_hello (PInterest n l) _ _ _ I Pd) as S1.
  destruct (earlier K Kc _ _ _ S1 Pl Nr) as [Plw Nrw].
  assert (reply_from_store n (pp_pub (du_prod w)) = None) as Hr.
  { destruct Pd as (s & Es & _). destruct (interest_cases K (du_prod w) n l) as [(x & Hx & E)|[(H & _)|[(H & _)|(_ & _ & H)]]]; auto.
    - rewrite E in Es. discriminate.
    - destruct (reached w (run_trans K Kc _ _ _ _ R0 R) Nrw Plw) as (b & D).
      destruct (own_request K Kc Ok2 _ _ _ w i n D Plw (cfetch_In _ _ _ Fi)) as (k & b1 & pre & cc & _ & Rq & _). destruct H as (_ & H). destruct (H _ _ _ Rq). }
  destruct (C86_interest_is_decided K Kc wf w i n l Ok2 Fr (run_trans K Kc _ _ _ _ R0 R) Nrw Plw Fi Hr) as (o & w1 & (s1 & E1 & Ew1) & H).
  destruct Pd as (s & Es & Ew). rewrite Es in E1. injection E1 as <- <-. rewrite <- Ew in Ew1. subst w1.
  destruct H as [(_ & _ & U)|[(d & H & _)|(d & H & _)]]; [|discriminate..].
  intros p Hp. destruct (U p Hp) as [_ ->]. destruct (current w0 p) as [u0|] eqn:E0; [|cbn [seq0]; lia]. cbn [seq0].
  destruct (run_below K Kc subscribes_in_hello w0 w' p u0) as (u1 & -> & L); [eapply duo_next; eauto|exact Nr|exists u0; split; [exact E0|lia]|exact L].
Qed.
Lemma nack_run w w' : gets_nack K Kc w w' -> run w w'.
Proof.
  intros (i & n & l & d & w1 & Fi & Pd & Ty & Co). eapply duo_next; [|exact (fetches_step K Kc _ _ _ _ (completed_fetches _ _ _ _ _ _ _ Co))].
  eapply duo_next; [constructor|]. exact (producer_step K Kc _ (PInterest n l) _ _ _ I Pd).
Qed.
Lemma exchange_run w w' : complete_exchange K Kc w w' -> run w w'.
Proof.
  intros [i n l Fi Pd|i n l d Fi Fo|w1 j n l d Ng Fj Fo].
  - eapply duo_next; [constructor|]. exact (producer_step K Kc _ (PInterest n l) _ _ _ I Pd).
  - exact (fetched_run (PInterest n l) _ _ _ I Fo).
  - exact (run_trans K Kc _ _ _ _ (nack_run _ _ Ng) (fetched_run (PInterest n l) _ _ _ I Fo)).
Qed.
Lemma exchange_knows w0 w w' : run wf w0 -> run w0 w -> complete_exchange K Kc w w' ->
  no_removal (history (du_evs w')) -> plain K w' -> pp_now (du_prod w0) + longest_freshness K < pp_now (du_prod w') -> knows_all_of w0 w'.
Proof.
  intros R0 R [i n l Fi Pd|i n l d Fi Fo|w1 j n l d Ng Fj Fo] Nr Pl Hq.
  - eapply unanswered_knows; eauto.
  - exact (fetched_knows w0 w (PInterest n l) d w' R0 R I Fo Nr Pl Hq).
  - exact (fetched_knows w0 w1 (PInterest n l) d w' R0 (run_trans K Kc _ _ _ _ R (nack_run _ _ Ng)) I Fo Nr Pl Hq).
Qed.
Lemma nack_knows w0 w w' : run wf w -> gets_nack K Kc w w' -> no_removal (history (du_evs w')) -> plain K w' ->
  knows_all_of w0 w -> knows_all_of w0 w'.
Proof.
  intros R Ng Nr Pl. pose proof Ng as (i & n & l & d & w1 & Fi & Pd & Ty & Co).
  destruct (earlier K Kc _ _ _ (fetches_step K Kc _ _ _ _ (completed_fetches _ _ _ _ _ _ _ Co)) Pl Nr) as [Pl1 Nr1].
  destruct (reached w1) as (b & D); auto. { eapply duo_next; [exact R|]. exact (producer_step K Kc _ (PInterest n l) _ _ _ I Pd). }
  intros H. assert (du_cons w1 = du_cons w) as Ec by (destruct Pd as (s & _ & ->); reflexivity).
  apply (kept_knows w0 w1); [|intros p Hp; rewrite Ec in *; exact (H p Hp)]. eapply nack_kept; eauto.
  apply (ci_l _ _ _ _ _ _ _ _ _ _ (di_ci _ _ _ _ _ _ D)).
Qed.
End Duo.
