(** Property theorems about the end of an exchange between a partial producer and a consumer (C114). *)
From Coq Require Import List NArith ZArith Bool Arith Lia.
From Coq.Strings Require Import Byte.
From Verif Require Import Base BaseFacts Mon MonFacts Iblt SpecIblt HonestFacts Tlv TlvFacts State NMap NMapFacts Codec CodecFacts
  Properties_Iblt Bloom SpecBloom BloomFacts Properties_Bloom Store StoreFacts Producer SpecProducer ProducerFacts Properties_Producer
  Partial SpecPartial PartialFacts PartialSteps Properties_Partial Full SpecFull FullRuns Consumer SpecConsumer ConsumerFacts Properties_Consumer
  SpecExchange ExchangeFacts Properties_Exchange SpecGroup GroupFacts Properties_Group SpecPair PairProducer PairConsumer PairFacts
  PairProgress Properties_Pair Properties_PairProgress SpecSettle.
Import ListNotations.
Local Open Scope N_scope.

Lemma completed_fetches Kc i k n d w w' : completed Kc i k n d w w' -> fetches Kc subscribes_in_hello d w w'.
Proof.
  intros (buf & sc1 & sc2 & c1 & o1 & c2 & o2 & Fi & Cm & Ru & E1 & E2 & ->).
  exists i, k, n, buf, sc1, sc2, c1, o1, (Ok tt), c2, o2, (Ok tt). repeat (split; [eassumption || (left; reflexivity)|]). reflexivity.
Qed.
Lemma round_trip_holds K Kc w0 w w' k : duo_ok K Kc -> fresh_duo K Kc w0 -> duo_run K Kc subscribes_in_hello w0 w ->
  round_trip K Kc k w w' -> no_removal (history (du_evs w')) -> plain K w' ->
  duo_run K Kc subscribes_in_hello w0 w' /\ holds_current_ibf K w'.
Proof.
  intros Ok2 Fr R (i & n & l & d0 & d & w1 & w2 & Fi & Hr & Pd & Ty & R2 & Eh & Co & Sc) Nr Pl.
  exact (reply_holds K Kc w0 w w1 w2 w' n l d0 d Ok2 Fr R Hr Pd Ty R2 Eh (completed_fetches _ _ _ _ _ _ _ Co) Sc Nr Pl).
Qed.
(** an interest with the producer's current IBF *)
Lemma current_settles K Kc w0 w n : duo_ok K Kc -> fresh_duo K Kc w0 -> duo_run K Kc subscribes_in_hello w0 w ->
  no_removal (history (du_evs w)) -> plain K w -> (2 <= pc_n K)%nat -> holds_current_ibf K w -> asks_with_last_ibf w n ->
  reply_from_store n (pp_pub (du_prod w)) = None -> settles K w n.
Proof.
  intros Ok2 Fr R Nr Pl H2 (c & Ec & Ca) (i & pre & Fi & En) Hr l. rewrite Ec in En.
  destruct (C86_interest_is_decided K Kc w0 w i n l Ok2 Fr R Nr Pl Fi Hr) as (o & w' & Pd & H). exists w'.
  assert (o = []) as ->; [|destruct H as [(_ & H)|[(d & H & _)|(d & H & _)]]; try discriminate; split; [exact Pd|exact H]].
  destruct (reached_DI K Kc w0 w Ok2 Fr R Nr Pl) as (b0 & D).
  destruct (own_request K Kc Ok2 _ _ _ w i n D Pl (cfetch_In _ _ _ Fi)) as (k & b & pre' & cc & Pk & Rq & Bs & Ik & Nk & Em & Tc).
  destruct (now_point K Kc _ _ _ w D) as [Cr Pt]. pose proof D as [Dn Dr Dw Dc Dt]. pose proof (history_wf _ Dw) as Wh. destruct Pl as [P1 P2 P3 P4].
  assert (cc = c) as -> by (rewrite Em in En; apply app_inj_tail in En; tauto).
  assert (k_iblt k = k_iblt (pp_core (du_prod w))) as Ek.
  { destruct Rq as (c1 & c2 & c3 & c4 & tl & E1 & E2 & _ & _ & In4). rewrite Em in E1. replace (pc_sync K ++ [SYNC; c1; c2; c3; c4]) with ((pc_sync K ++ [SYNC; c1; c2; c3]) ++ [c4]) in E1 by (rewrite <- app_assoc; reflexivity).
    apply app_inj_tail in E1 as [_ <-]. eapply (carries_read K (history (du_evs w))); eauto. apply (dk_lossless _ _ Ok2). }
  rewrite Ek in Rq. pose proof (differ_free K _ Wh P1) as Cf.
  assert (0 < pc_fuel K)%nat as Hf.
  { destruct (exact_at K (du_evs w) (du_prod w) (du_sent w) _ _ Dw Cf Dr Nk Ik (P2 _ _ Pt Pk)) as (x & Ed & _).
    destruct (pc_fuel K); [|lia]. unfold iblt_sub in Ed. destruct (table_sub _ _); discriminate. }
  destruct (C35_current_ibf_waits_partial K (du_evs w) (du_prod w) (du_sent w) n n b l c (dk_scheme _ _ Ok2) Dw Cf Dr Rq Bs Hr Ca H2 Hf) as (s' & E & _).
  destruct Pd as (s & E' & _). rewrite E in E'. injection E' as _ E'. symmetry. exact E'.
Qed.

(** ** The consumer *)
Lemma send_sync_live K s s' o : send_sync K s = (s', o, Ok tt) ->
  exists n, cfetch (c_started s) (c_live s') = Some (KSync, n) /\ (exists pre, n = pre ++ c_iblt s') /\ o = [CoInterest KSync n].
Proof.
  unfold send_sync. rewrite mbind_get. destruct (c_iblt s) as [|x r] eqn:E; [discriminate|]. rewrite mbind_lift.
  destruct (append_bloom _ _) as [n1|y|u|]; try discriminate. rewrite mbind_mod. intros H. injection H as <- <-.
  exists (n1 ++ x :: r). assert (c_started (cstop (c_sync s) s) = c_started s) as Es by (unfold cstop; destruct (c_sync s); reflexivity).
  assert (c_iblt (cstop (c_sync s) s) = c_iblt s) as Ei by (unfold cstop; destruct (c_sync s); reflexivity).
  split; [|split; [|reflexivity]].
  - unfold cstart. cbn. rewrite Es, Nat.eqb_refl. reflexivity.
  - exists n1. unfold cstart. cbn. rewrite Ei, E. reflexivity.
Qed.
Lemma sync_data_asks K buf script s s' o : on_csync_data K buf script s = (s', o, Ok tt) ->
  exists i n pre, cfetch i (c_live s') = Some (KSync, n) /\ n = pre ++ c_iblt s'.
Proof.
  unfold on_csync_data. rewrite mbind_mod, mbind_lift. destruct (state_of_buffer buf) as [names|x|u|]; try discriminate.
  unfold mbind at 1. destruct (take_sync _ _) as [[s1 o1] [ups|x|u|]]; try discriminate. unfold mbind at 1.
  destruct (match ups with [] => mret tt | _ => _ end s1) as [[s2 o2] [[]|x|u|]]; try discriminate.
  destruct (send_sync K s2) as [[s3 o3] r3] eqn:E. intros H. injection H as <- _ ->.
  destruct (send_sync_live _ _ _ _ E) as (n & F & (pre & En) & _). exists (c_started s2), n, pre. auto.
Qed.
Lemma sync_completed_asks Kc i n d w w' : completed Kc i KSync n d w w' -> d_type d = Blob -> exists n', asks_with_last_ibf w' n'.
Proof.
  intros (buf & sc1 & sc2 & c1 & o1 & c2 & o2 & Fi & (base & segs & fc & last & _ & _ & Fd & _) & _ & E1 & E2 & ->) Ty.
  cbn [c_step] in E1. rewrite mbind_get, Fi, Fd in E1. rewrite mbind_mod, mbind_get in E1. cbn [c_type cset_type] in E1. rewrite Ty in E1.
  injection E1 as <- _. cbn [c_step] in E2. rewrite mbind_get in E2. cbn [c_live cset_sname cset_type c_type] in E2. rewrite Fi in E2.
  unfold finish in E2. rewrite mbind_mod in E2. cbn [is_nack] in E2. destruct (sync_data_asks _ _ _ _ _ _ E2) as (i' & n' & pre & F & En).
  exists n', i', pre. auto.
Qed.

(** a Nack is a last segment *)
Lemma nack_final K s nm l s' d : reply_from_store nm (pp_pub s) = None ->
  pp_step K (PInterest nm l) s = (s', [d], Ok tt) -> d_type d = AppNack -> d_final d <> None.
Proof.
  intros Hr E Ty.
  assert (forall i dn b f s1, pp_publish K i dn b f s = (s1, [d], Ok tt) -> False) as G.
  { intros i dn b f s1 H. rewrite pp_publish_eq in H. destruct (publish _ _ _ _ _ _ _) as [p r] eqn:P.
    destruct r as [o|e|u|]; try discriminate. cbn [fst snd ok_or] in H. injection H as _ ->.
    unfold publish in P. injection P as _ P. apply put_segment_In in P. specialize (P d (or_introl eq_refl)).
    apply segment_In in P as (j & _ & ->). discriminate. }
  destruct (interest_cases K s nm l) as [(x & Hx & _)|[(_ & H)|[(_ & rname & bf & t & Hq)|(_ & H & _)]]].
  - congruence.
  - destruct (is_hello_total _ _ H) as (b & B). rewrite (step_hello K s nm l b H Hr B) in E. destruct b; [|discriminate].
    destruct (append_ibf _ _ _ _); try discriminate. apply G in E. contradiction.
  - rewrite (step_request _ _ _ _ _ _ _ Hq Hr), mbind_lift in E. destruct (iblt_sub _ _ _) as [x|e|u|]; try discriminate.
    unfold on_request in E. rewrite mbind_get in E. destruct (negb (can_decode x)).
    + unfold pp_send_nack in E. rewrite mbind_get, mbind_lift in E. destruct (append_ibf _ _ _ _); try discriminate.
      rewrite mbind_mod in E. injection E as _ <-. discriminate.
    + rewrite mbind_lift in E. destruct (matching _ _ _) as [names|e|u|]; try discriminate. destruct (_ || _); [|discriminate].
      rewrite mbind_lift in E. destruct (append_ibf _ _ _ _); try discriminate. apply G in E. contradiction.
  - rewrite E in H. discriminate.
Qed.

(** * C114 *)
(** after sync data was fetched, the next sync interest waits at the producer *)
Theorem C114_settles_after_sync_data_partial : forall K Kc w0 w w',
  duo_ok K Kc -> (2 <= pc_n K)%nat -> fresh_duo K Kc w0 -> duo_run K Kc subscribes_in_hello w0 w ->
  round_trip K Kc KSync w w' -> no_removal (history (du_evs w')) -> plain K w' ->
  exists n, asks_with_last_ibf w' n /\ (reply_from_store n (pp_pub (du_prod w')) = None -> settles K w' n).
Proof.
  intros K Kc w0 w w' Ok2 H2 Fr R Ex Nr Pl. destruct (round_trip_holds K Kc w0 w w' KSync Ok2 Fr R Ex Nr Pl) as [R' Ho].
  destruct Ex as (i & n & l & d0 & d & w1 & w2 & Fi & Hr & Pd & Ty & R2 & Eh & Co & Sc).
  assert (d_type d = Blob) as Tb.
  { pose proof (fetches_step K Kc _ _ _ _ (completed_fetches _ _ _ _ _ _ _ Co)) as St. destruct (earlier K Kc _ _ _ St Pl Nr) as [Pl2 Nr2].
    assert (duo_run K Kc subscribes_in_hello w0 w2) as R02.
    { eapply run_trans; [|exact R2]. eapply duo_next; [exact R|]. apply (producer_step K Kc _ (PInterest n l) [d0]); [exact I|exact Pd]. }
    destruct (reached_DI K Kc w0 w2 Ok2 Fr R02 Nr2 Pl2) as (b0 & D2). destruct Pd as (s & Es & _).
    destruct (fresh_name K _ n l s d0 (dk_scheme _ _ Ok2) Hr Es Ty) as (pre & c & v & g & En & Tv & _).
    destruct Co as (buf & sc1 & sc2 & c1 & o1 & c2 & o2 & _ & (base & segs & fc & last & _ & Ind & _ & _ & _ & Sg & _) & _).
    destruct (In_nth_error _ _ Ind) as (j & Hj). destruct (Sg j d Hj) as [Hs _].
    exact (content_blob K Kc Ok2 _ _ _ w2 d d0 pre c v g D2 Pl2 Hs Sc En Tv). }
  destruct (sync_completed_asks Kc i n d w2 w' Co Tb) as (n' & As). exists n'. split; [exact As|]. intros Hr'.
  exact (current_settles K Kc w0 w' n' Ok2 Fr R' Nr Pl H2 Ho As Hr').
Qed.
Print Assumptions C114_settles_after_sync_data_partial.
(** ... and so does the sync interest that was sent from the hello callback *)
Theorem C114_settles_after_hello_data_partial : forall K Kc w0 w w' n,
  duo_ok K Kc -> (2 <= pc_n K)%nat -> fresh_duo K Kc w0 -> duo_run K Kc subscribes_in_hello w0 w ->
  round_trip K Kc KHello w w' -> no_removal (history (du_evs w')) -> plain K w' ->
  asks_with_last_ibf w' n -> reply_from_store n (pp_pub (du_prod w')) = None -> settles K w' n.
Proof.
  intros K Kc w0 w w' n Ok2 H2 Fr R Ex Nr Pl As Hr. destruct (round_trip_holds K Kc w0 w w' KHello Ok2 Fr R Ex Nr Pl) as [R' Ho].
  exact (current_settles K Kc w0 w' n Ok2 Fr R' Nr Pl H2 Ho As Hr).
Qed.
Print Assumptions C114_settles_after_hello_data_partial.
(** a Nack leads to a hello interest, which is answered with data *)
Theorem C114_nack_leads_to_hello_data : forall K Kc w0 w w1 i n l d,
  duo_ok K Kc -> fresh_duo K Kc w0 -> duo_run K Kc subscribes_in_hello w0 w ->
  cfetch i (c_live (du_cons w)) = Some (KSync, n) -> reply_from_store n (pp_pub (du_prod w)) = None ->
  producer_does K (PInterest n l) [d] w w1 -> d_type d = AppNack ->
  exists c1 i1, c_step Kc (CeSegment i d) (du_cons w1) = (c1, [CoInterest KHello (hello_prefix Kc)], Ok tt) /\
    cfetch i1 (c_live c1) = Some (KHello, hello_prefix Kc) /\
    (reply_from_store (hello_prefix Kc) (pp_pub (du_prod w1)) = None ->
     forall l1, exists d0 w2, producer_does K (PInterest (hello_prefix Kc) l1) [d0]
       (mkDuo (du_evs w1) (du_prod w1) (du_sent w1) c1 (du_seen w1 ++ [CoInterest KHello (hello_prefix Kc)])) w2 /\ d_type d0 = Blob).
Proof.
  intros K Kc w0 w w1 i n l d Ok2 Fr R Fi Hr (s & Es & ->) Ty. cbn [du_cons du_prod du_evs du_sent du_seen].
  pose proof (nack_final K _ n l s d Hr Es Ty) as Fd. destruct (d_final d) as [fb|] eqn:Ef; [clear Fd|congruence].
  cbn [c_step]. rewrite mbind_get, Fi, Ef, mbind_mod, mbind_get. cbn [c_type cset_type]. rewrite Ty. cbn [is_nack]. unfold send_hello. rewrite mbind_mod.
  set (x := cset_type AppNack (cset_sname (name_prefix_back (d_name d) 2) (du_cons w))).
  exists (cstart KHello (hello_prefix Kc) (cstop (c_hello x) x)), (c_started (cstop (c_hello x) x)). split; [reflexivity|]. split.
  - unfold cstart. cbn. rewrite Nat.eqb_refl. reflexivity.
  - intros Hh l1. assert (hello_prefix Kc = pc_sync K ++ [HELLO]) as Eh by (unfold hello_prefix; rewrite (dk_sync _ _ Ok2); reflexivity).
    assert (is_prefix (pc_sync K ++ [HELLO]) (hello_prefix Kc) = true) as Hp by (rewrite Eh; apply is_prefix_iff; exists []; rewrite app_nil_r; reflexivity).
    assert (is_hello_name (hello_prefix Kc) = Ok true) as Hn.
    { rewrite Eh. unfold is_hello_name. rewrite name_get_minus_last. cbn [obind].
      replace (comp_eqb HELLO HELLO) with true by (symmetry; apply comp_eqb_eq; reflexivity). reflexivity. }
    pose proof (step_hello K s (hello_prefix Kc) l1 true Hp Hh Hn) as E.
    destruct (append_cases K (pc_sync K ++ [HELLO]) (k_iblt (pp_core s)) (dk_scheme _ _ Ok2)) as (c & Ea & _). rewrite Ea in E.
    rewrite pp_publish_eq in E. destruct (publish _ _ _ _ _ _ _) as [p r] eqn:P. rewrite Eh in P at 1.
    destruct (publish_first _ _ _ _ _ _ _ _ _ _ P (generic_not_segment HELLO eq_refl)) as (d0 & v & g & -> & T0 & _).
    eexists d0, _. split; [|exact T0]. eexists. split; [exact E|reflexivity].
Qed.
Print Assumptions C114_nack_leads_to_hello_data.

(** nothing published in between, there is no second round trip of sync data *)
Theorem C114_one_round_trip_partial : forall K Kc w0 w w' w'',
  duo_ok K Kc -> (2 <= pc_n K)%nat -> fresh_duo K Kc w0 -> duo_run K Kc subscribes_in_hello w0 w ->
  round_trip K Kc KSync w w' -> no_removal (history (du_evs w')) -> plain K w' -> ~ round_trip K Kc KSync w' w''.
Proof.
  intros K Kc w0 w w' w'' Ok2 H2 Fr R Ex Nr Pl (i & n & l & d0 & d & w1 & w2 & Fi & Hr & Pd & _).
  destruct (round_trip_holds K Kc w0 w w' KSync Ok2 Fr R Ex Nr Pl) as [R' _].
  destruct (C114_settles_after_sync_data_partial K Kc w0 w w' Ok2 H2 Fr R Ex Nr Pl) as (n' & (i' & pre & Fi' & En) & St).
  destruct (reached_DI K Kc w0 w' Ok2 Fr R' Nr Pl) as (b0 & [_ _ _ Dc _]). pose proof (ci_l _ _ _ _ _ _ _ _ _ _ Dc) as L.
  assert (i = i') as <-.
  { pose proof (li_sync _ L i n (cfetch_In _ _ _ Fi)) as A. pose proof (li_sync _ L i' n' (cfetch_In _ _ _ Fi')) as B. congruence. }
  rewrite Fi in Fi'. injection Fi' as <-. destruct (St Hr l) as (x & (s1 & E1 & _) & _). destruct Pd as (s2 & E2 & _).
  rewrite E1 in E2. discriminate.
Qed.
Print Assumptions C114_one_round_trip_partial.

(** ** An endless exchange *)
(** with a table for a single entry, the difference that counts as large is the empty one, and a consumer
    that is up to date is answered at once, over and over *)
Definition wp1 (e : pev) (w : duo) : duo := on_prod e (pp_step K1 e (du_prod w)) w.
Lemma do_prod1 rule e w : pev_wf e -> snd (pp_step K1 e (du_prod w)) = Ok tt -> duo_step K1 Kc rule w (wp1 e w).
Proof.
  intros W E. unfold wp1, on_prod. destruct (pp_step K1 e (du_prod w)) as [[s o] r] eqn:Es. cbn [fst snd] in *. subst r.
  eapply duo_producer; eauto. left. reflexivity.
Qed.
Lemma do_calls1 (rule : duo -> activity -> Prop) l w : rule w (AppCalls l) -> snd (calls Kc l (du_cons w)) = Ok tt -> duo_step K1 Kc rule w (wc l w).
Proof.
  intros W E. unfold wc. destruct (calls Kc l (du_cons w)) as [[s o] r] eqn:Es. cbn [fst snd] in *. subst r.
  eapply duo_calls; eauto. left. reflexivity.
Qed.
Definition z0 : duo := mkDuo [] (pp_new K1) [] s_c0 [].
Definition z1 : duo := Eval vm_compute in wc [CSendHello] (wp1 (PAdd pb) z0).
Definition z2 : duo := Eval vm_compute in wp1 (PInterest hello_n 1000) z1.
Definition z2_d : data := Eval vm_compute in last_data z2.
Definition z3 : duo := Eval vm_compute in wf 0 z2_d subs_b [] z2.
Definition z_n : name := Eval vm_compute in sync_n z3.
Definition z_ibf : comp := Eval vm_compute in gen (table_bytes (k_iblt (pp_core (du_prod z3)))).
Definition z4 : duo := Eval vm_compute in
  on_prod (PInterest z_n 1000) (pp_publish K1 z_n (z_n ++ [z_ibf]) (encode_names []) (pc_sync_fresh K1) (du_prod z3)) z3.
Definition z_d : data := Eval vm_compute in last_data z4.
Definition z5 : duo := Eval vm_compute in wf 1 z_d [] [] z4.
Lemma sub_rules w n d : d = d_content n -> told_by (d_content n) pb 0 -> subscribes_in_hello w (AppHello d subs_b []).
Proof.
  intros -> T. split; [|split].
  - intros p v cb [H|[H|[]]]; [|discriminate]. injection H as <- <- _. exact T.
  - intros [|a l1] p v cb l2 E; [injection E as _ _ _ <-; left; left; reflexivity|].
    injection E as <- E. destruct l1 as [|b l1]; [discriminate|]. injection E as <- E. destruct l1; discriminate.
  - intros p v cb [].
Qed.
Lemma told_z2 : told_by (d_content z2_d) pb 0.
Proof. exists [append_number pb 0], (number_comp 8 0). split; [run|]. split; [left; run|run]. Qed.
Lemma request_z : sync_request_for K1 z_n z_n (bf_with b_ex (filter_n z_n)) (k_iblt (pp_core (du_prod z3))).
Proof.
  assert (z_n = request K1 (filter_n z_n) (k_iblt (pp_core (du_prod z3)))) as E by run. rewrite E at 1 2.
  apply request_ex; [reflexivity|reflexivity|apply bf_of; run|apply Nat.eqb_eq; run|].
  assert (forallb (fun c => in_i32 (c_count c) && (c_sum c <? two32) && (c_check c <? two32)) (k_iblt (pp_core (du_prod z3))) = true) as Wf by run.
  apply Forall_forall. intros c Hc. rewrite forallb_forall in Wf. specialize (Wf c Hc).
  apply andb_prop in Wf as [Wf W3]. apply andb_prop in Wf as [W1 W2]. split; [exact W1|]. split; apply N.ltb_lt; assumption.
Qed.
Lemma does_z4 : producer_does K1 (PInterest z_n 1000) [z_d] z3 z4.
Proof.
  exists (du_prod z4). split; [|run].
  rewrite (step_decoded K1 (du_prod z3) z_n z_n 1000 (bf_with b_ex (filter_n z_n)) (k_iblt (pp_core (du_prod z3)))
    (mkDiff true [] []) [] z_ibf (or_introl eq_refl) request_z); [run|run|run|run|run|]. split; run.
Qed.
Lemma do_completed i k n d sc1 sc2 w : cfetch i (c_live (du_cons w)) = Some (k, n) ->
  In d (du_sent w) -> is_prefix n (name_prefix_back (d_name d) 1) = true ->
  d_name d = append_segment (name_prefix_back (d_name d) 1) 0 -> d_final d = Some (number_comp TYPE_SEGMENT 0) ->
  subscribes_in_hello w (match k with KHello => AppHello (d_content d) sc1 sc2 | KSync => AppSync sc2 end) ->
  snd (c_step Kc (CeSegment i d) (du_cons w)) = Ok tt ->
  snd (c_step Kc (CeContent i (d_content d) sc1 sc2) (fst (fst (c_step Kc (CeSegment i d) (du_cons w))))) = Ok tt ->
  completed Kc i k n d w (wf i d sc1 sc2 w).
Proof.
  intros F D P N Fi R E1 E2. unfold wf. destruct (c_step Kc (CeSegment i d) (du_cons w)) as [[c1 o1] r1] eqn:X. cbn [fst snd] in *. subst r1.
  destruct (c_step Kc (CeContent i (d_content d) sc1 sc2) c1) as [[c2 o2] r2] eqn:Y. cbn [fst snd] in *. subst r2.
  exists (d_content d), sc1, sc2, c1, o1, c2, o2.
  split; [exact F|]. split; [|split; [exact R|]; split; [exact X|]; split; [exact Y|reflexivity]].
  exists (name_prefix_back (d_name d) 1), [d], (number_comp TYPE_SEGMENT 0), 0.
  split; [exact P|]. split; [left; reflexivity|]. split; [exact Fi|]. split; [reflexivity|]. split; [reflexivity|].
  split; [|symmetry; apply app_nil_r]. intros [|[|j]] x H; [|discriminate|discriminate]. injection H as <-. auto.
Qed.
Lemma sync_rule w : subscribes_in_hello w (AppSync []).
Proof. intros p v cb []. Qed.
Lemma completed_z5 : completed Kc 1 KSync z_n z_d z4 z5.
Proof.
  replace z5 with (wf 1 z_d [] [] z4) by run.
  apply (do_completed 1 KSync z_n z_d [] [] z4); [run|right; left; run|run|run|run|apply sync_rule|apply step3; run|apply step3; run].
Qed.
Lemma run_z3 : duo_run K1 Kc subscribes_in_hello z0 z3.
Proof.
  apply (duo_next _ _ _ _ z2); [apply (duo_next _ _ _ _ z1)|].
  - replace z1 with (wc [CSendHello] (wp1 (PAdd pb) z0)) by run. apply (duo_next _ _ _ _ (wp1 (PAdd pb) z0)).
    + apply (duo_next _ _ _ _ z0); [constructor|]. apply do_prod1; [exact I|apply step3; run].
    + apply do_calls1; [intros p v cb [H|[]]; discriminate|apply step3; run].
  - replace z2 with (wp1 (PInterest hello_n 1000) z1) by run. apply do_prod1; [exact I|apply step3; run].
  - replace z3 with (wf 0 z2_d subs_b [] z2) by run.
    apply (fetches_step K1 Kc subscribes_in_hello z2_d). apply (completed_fetches Kc 0 KHello hello_n).
    apply (do_completed 0 KHello hello_n z2_d subs_b [] z2);
      [run|left; run|run|run|run|apply (sub_rules z2 z2_d); [reflexivity|exact told_z2]|apply step3; run|apply step3; run].
Qed.
Lemma plain_z w : history (du_evs w) = [CAdd pb] -> plain K1 w.
Proof.
  intros Eh. apply (plain_check K1 w [append_number pb 0]); rewrite ?Eh.
  - repeat constructor.
  - run.
  - apply wf_check_ok. run.
  - intros p nm H Hn. destruct H as [H|[]]. injection H as <-.
    assert (forallb (fun x => existsb (name_eqb x) [append_number pb 0]) (numbers [CAdd pb] pb) = true) as Z by run.
    rewrite forallb_forall in Z. specialize (Z nm Hn). apply existsb_exists in Z as (x & Q1 & Q2). apply name_eqb_eq in Q2. subst. exact Q1.
Qed.
(** the state of the consumer when fetch [i] is outstanding *)
Definition at_fetch (c : cs) (n : name) (i : nat) : cs :=
  mkCS (c_now c) (c_prefixes c) (c_subs c) (c_bloom c) (c_iblt c) (c_hname c) (c_sname c) (c_type c)
    (c_hello c) (Some i) [(i, (KSync, n))] (S i) (c_timers c) (c_draws c).
Lemma at_fetch_live c n i : cfetch i (c_live (at_fetch c n i)) = Some (KSync, n).
Proof. unfold at_fetch, cfetch. cbn [c_live find fst]. rewrite Nat.eqb_refl. reflexivity. Qed.
Lemma at_fetch_segment K c n i d : d_final d <> None -> d_type d = c_type c -> is_nack (c_type c) = false ->
  name_prefix_back (d_name d) 2 = c_sname c -> c_step K (CeSegment i d) (at_fetch c n i) = (at_fetch c n i, [], Ok tt).
Proof.
  intros F T Na E. unfold c_step. rewrite mbind_get, at_fetch_live. destruct (d_final d) as [x|]; [|congruence].
  rewrite mbind_mod, mbind_get, T, E. change (c_type (cset_type (c_type c) (cset_sname (c_sname c) (at_fetch c n i)))) with (c_type c).
  rewrite Na. reflexivity.
Qed.
Lemma at_fetch_content K c n i buf n1 : is_nack (c_type c) = false -> c_iblt c <> [] -> last_comp (c_sname c) = c_iblt c ->
  state_of_buffer buf = Ok [] -> append_bloom (sync_prefix K) (c_bloom c) = Ok n1 -> n1 ++ c_iblt c = n ->
  exists o, c_step K (CeContent i buf [] []) (at_fetch c n i) = (at_fetch c n (S i), o, Ok tt).
Proof.
  intros Na Ne El Eb Ea En. eexists. unfold c_step. rewrite mbind_get, at_fetch_live.
  change (c_type (at_fetch c n i)) with (c_type c). rewrite Na. unfold finish. rewrite mbind_mod. unfold on_csync_data.
  rewrite mbind_mod, mbind_lift, Eb. unfold take_sync. rewrite mbind_ret, mbind_ret. unfold send_sync. rewrite mbind_get.
  unfold at_fetch, cwithout. cbn [c_live filter fst c_sname cset_live cset_iblt c_iblt c_bloom]. rewrite Nat.eqb_refl. cbn [negb].
  rewrite El. destruct (c_iblt c) as [|x r] eqn:Ei; [congruence|]. rewrite Ea, mbind_lift, mbind_mod, En. reflexivity.
Qed.
Definition z_cons (i : nat) : cs := at_fetch (du_cons z5) z_n i.
Lemma z_fetch i : cfetch i (c_live (z_cons i)) = Some (KSync, z_n).
Proof. apply at_fetch_live. Qed.
Lemma z_segment i : c_step Kc (CeSegment i z_d) (z_cons i) = (z_cons i, [], Ok tt).
Proof. apply at_fetch_segment; [discriminate|run|run|run]. Qed.
Lemma z_content i : exists o, c_step Kc (CeContent i (d_content z_d) [] []) (z_cons i) = (z_cons (S i), o, Ok tt).
Proof. apply (at_fetch_content Kc (du_cons z5) z_n i (d_content z_d) (removelast z_n)); [run|discriminate|run|run|run|run]. Qed.
Lemma z_answer l : pp_step K1 (PInterest z_n l) (du_prod z5) = (du_prod z5, [z_d], Ok tt).
Proof. run. Qed.
Lemma z_rounds m : exists evs sent seen, rounds K1 Kc m z5 (mkDuo evs (du_prod z5) sent (z_cons (m + 2)) seen) /\ In z_d sent /\
  history evs = history (du_evs z5).
Proof.
  induction m as [|m (evs & sent & seen & R & Hi & Eh)].
  - exists (du_evs z5), (du_sent z5), (du_seen z5). split; [|split; [right; left; run|reflexivity]].
    replace (mkDuo _ _ _ _ _) with z5 by run. constructor.
  - destruct (z_content (m + 2)) as (o & Eo).
    exists (evs ++ [PInterest z_n 1000]), (sent ++ [z_d]), (seen ++ [] ++ o). split; [|split].
    + apply (rounds_more K1 Kc m z5 (mkDuo evs (du_prod z5) sent (z_cons (m + 2)) seen)
        (mkDuo (evs ++ [PInterest z_n 1000]) (du_prod z5) (sent ++ [z_d]) (z_cons (m + 2)) seen) _ (m + 2) z_n 1000 z_d R).
      * apply z_fetch.
      * exists (du_prod z5). split; [apply z_answer|reflexivity].
      * exists (d_content z_d), [], [], (z_cons (m + 2)), [], (z_cons (S (m + 2))), o.
        split; [apply z_fetch|]. split; [|split; [apply sync_rule|split; [apply z_segment|split; [exact Eo|reflexivity]]]].
        exists (name_prefix_back (d_name z_d) 1), [z_d], (number_comp TYPE_SEGMENT 0), 0.
        split; [run|]. split; [left; reflexivity|]. split; [reflexivity|]. split; [reflexivity|]. split; [reflexivity|].
        split; [|symmetry; apply app_nil_r]. intros [|[|j]] x H; [|discriminate|discriminate]. injection H as <-.
        split; [apply in_or_app; right; left; reflexivity|run].
    + apply in_or_app. left. exact Hi.
    + rewrite <- Eh. unfold history. rewrite flat_map_app. cbn. apply app_nil_r.
Qed.
Lemma duo_z : duo_ok K1 Kc.
Proof. destruct duo_v as [A B C D E F]. constructor; auto. Qed.
Lemma fresh_z : fresh_duo K1 Kc z0.
Proof. destruct fresh_v as (c & E & Ew). exists c. split; [exact E|]. unfold w0 in Ew. injection Ew as <-. reflexivity. Qed.
Theorem C114_endless_rounds_refuted : exists K Kc w0 w w1, duo_ok K Kc /\ fresh_duo K Kc w0 /\
  duo_run K Kc subscribes_in_hello w0 w /\ no_removal (history (du_evs w)) /\
  round_trip K Kc KSync w w1 /\ (forall w2, history (du_evs w2) = history (du_evs w1) -> plain K w2) /\ up_to_date w1 /\
  forall m, exists w2, rounds K Kc m w1 w2 /\ history (du_evs w2) = history (du_evs w1).
Proof.
  exists K1, Kc, z0, z3, z5. split; [exact duo_z|]. split; [exact fresh_z|]. split; [exact run_z3|].
  split; [apply no_removal_check; run|]. split; [|split; [|split]].
  - exists 1%nat, z_n, 1000, z_d, z_d, z4, z4. split; [run|]. split; [run|]. split; [exact does_z4|]. split; [reflexivity|].
    split; [constructor|]. split; [reflexivity|]. split; [exact completed_z5|reflexivity].
  - intros w2 E. apply plain_z. rewrite E. run.
  - intros p H. assert (p = pb) as ->.
    { unfold is_subscribed, nm_mem in H. change (c_subs (du_cons z5)) with [(pb, tt)] in H. cbn [nm_find] in H.
      destruct (name_eqb p pb) eqn:E; [apply name_eqb_eq; exact E|discriminate]. }
    split; [vm_compute; discriminate|run].
  - intros m. destruct (z_rounds m) as (evs & sent & seen & R & _ & Eh). eexists. split; [exact R|exact Eh].
Qed.
Print Assumptions C114_endless_rounds_refuted.

(** ** Examples *)
(** sync data, then hello data; after both the next interest waits *)
Lemma completed_y8 : completed Kc 1 KSync (sync_n v5) y_d y7 y8.
Proof.
  replace y8 with (wf 1 y_d [] [] y7) by run.
  apply (do_completed 1 KSync (sync_n v5) y_d [] [] y7); [run|right; left; run|run|run|run|apply sync_rule|apply step3; run|apply step3; run].
Qed.
Definition v3 : duo := Eval vm_compute in wc [CSendHello] (wp (PAdd pb) (wp (PAdd pa) w0)).
Lemma run_v3 : duo_run Kx Kc subscribes_in_hello w0 v3.
Proof.
  replace v3 with (wc [CSendHello] (wp (PAdd pb) (wp (PAdd pa) w0))) by run.
  apply (duo_next _ _ _ _ (wp (PAdd pb) (wp (PAdd pa) w0))).
  - apply (duo_next _ _ _ _ (wp (PAdd pa) w0)); [apply (duo_next _ _ _ _ w0); [constructor|]|]; apply do_prod; (exact I || apply step3; run).
  - apply do_calls; [intros p v cb [H|[]]; discriminate|apply step3; run].
Qed.
Lemma does_v4 : producer_does Kx (PInterest hello_n 1000) [d4] v3 v4.
Proof. exists (du_prod v4). split; run. Qed.
Lemma completed_v5 : completed Kc 0 KHello hello_n d4 v4 v5.
Proof.
  replace v5 with (wf 0 d4 subs_b [] v4) by run.
  apply (do_completed 0 KHello hello_n d4 subs_b [] v4); [run|left; run|run|run|run|apply hello_rules|apply step3; run|apply step3; run].
Qed.
(** the single-entry table again, with two changes at once *)
Definition z7 : duo := Eval vm_compute in wp1 (PPublishName pb (Some 1)) (wp1 (PPublishName pa (Some 1)) (wp1 (PAdd pa) z3)).
Lemma run_z7 : duo_run K1 Kc subscribes_in_hello z0 z7.
Proof.
  replace z7 with (wp1 (PPublishName pb (Some 1)) (wp1 (PPublishName pa (Some 1)) (wp1 (PAdd pa) z3))) by run.
  apply (duo_next _ _ _ _ (wp1 (PPublishName pa (Some 1)) (wp1 (PAdd pa) z3))); [apply (duo_next _ _ _ _ (wp1 (PAdd pa) z3));
    [apply (duo_next _ _ _ _ z3); [exact run_z3|]|]|]; (apply do_prod1; [exact I || reflexivity|apply step3; run]).
Qed.
Lemma nack_z7 : exists d w1, producer_does K1 (PInterest z_n 1000) [d] z7 w1 /\ d_type d = AppNack.
Proof.
  eexists _, _. split; [|shelve]. eexists. split; [|reflexivity].
  assert (exists d, iblt_sub (pc_fuel K1) (k_iblt (pp_core (du_prod z7))) (k_iblt (pp_core (du_prod z3))) = Ok d /\ can_decode d = false) as (d & D & Cd).
  { eexists. split; run. }
  rewrite (step_nack K1 (du_prod z7) z_n z_n 1000 (bf_with b_ex (filter_n z_n)) (k_iblt (pp_core (du_prod z3))) d
    (gen (table_bytes (k_iblt (pp_core (du_prod z7))))) (or_introl eq_refl) request_z); [reflexivity|run|exact D|exact Cd|split; run].
  Unshelve. reflexivity.
Qed.
Example C114_example :
  duo_ok Kx Kc /\ fresh_duo Kx Kc w0 /\ (2 <= pc_n Kx)%nat /\
  (duo_run Kx Kc subscribes_in_hello w0 y6 /\ round_trip Kx Kc KSync y6 y8 /\ no_removal (history (du_evs y8)) /\ plain Kx y8 /\
   reply_from_store (sync_n y8) (pp_pub (du_prod y8)) = None) /\
  (duo_run Kx Kc subscribes_in_hello w0 v3 /\ round_trip Kx Kc KHello v3 v5 /\ no_removal (history (du_evs v5)) /\ plain Kx v5 /\
   asks_with_last_ibf v5 (sync_n v5) /\ reply_from_store (sync_n v5) (pp_pub (du_prod v5)) = None) /\
  (duo_ok K1 Kc /\ fresh_duo K1 Kc z0 /\ duo_run K1 Kc subscribes_in_hello z0 z7 /\ cfetch 1 (c_live (du_cons z7)) = Some (KSync, z_n) /\
   reply_from_store z_n (pp_pub (du_prod z7)) = None /\
   exists d w1, producer_does K1 (PInterest z_n 1000) [d] z7 w1 /\ d_type d = AppNack).
Proof.
  split; [exact duo_v|]. split; [exact fresh_v|]. split; [apply Nat.leb_le; run|]. split; [|split].
  - split; [exact run_y6|]. split; [|split; [apply no_removal_check; run|split; [exact plain_y8|run]]].
    exists 1%nat, (sync_n v5), 1000, y_d, y_d, y7, y7. split; [run|]. split; [run|]. split; [exact does_y7|]. split; [reflexivity|].
    split; [constructor|]. split; [reflexivity|]. split; [exact completed_y8|reflexivity].
  - split; [exact run_v3|]. split; [|split; [apply no_removal_check; run|split; [|split; [|run]]]].
    + exists 0%nat, hello_n, 1000, d4, d4, v4, v4. split; [run|]. split; [run|]. split; [exact does_v4|]. split; [reflexivity|].
      split; [constructor|]. split; [reflexivity|]. split; [exact completed_v5|reflexivity].
    + apply (plain_earlier Kx v5 v13 (skipn 3 (du_evs v13))); [run|apply Nat.leb_le; run|apply plain_v13].
    + exists 1%nat, (removelast (sync_n v5)). split; run.
  - split; [exact duo_z|]. split; [exact fresh_z|]. split; [exact run_z7|]. split; [run|]. split; [run|exact nack_z7].
Qed.
