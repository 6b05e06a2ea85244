(** Property theorems about updates published while a consumer's interest waits (C115). *)
From Coq Require Import List NArith ZArith Bool Arith Lia.
From Coq.Strings Require Import Byte.
From Verif Require Import Base BaseFacts Mon MonFacts Iblt SpecIblt HonestFacts Tlv TlvFacts State NMap NMapFacts Codec CodecFacts
  Properties_Iblt Bloom SpecBloom BloomFacts Properties_Bloom Store StoreFacts Producer SpecProducer ProducerFacts Properties_Producer
  Partial SpecPartial PartialFacts PartialSteps Properties_Partial Full SpecFull FullRuns Consumer SpecConsumer ConsumerFacts Properties_Consumer
  SpecExchange ExchangeFacts Properties_Exchange SpecGroup GroupFacts Properties_Group SpecPair PairProducer PairConsumer PairFacts
  PairProgress Properties_Pair Properties_PairProgress SpecSettle Properties_Settle.
Import ListNotations.
Local Open Scope N_scope.

(** ** One entry of the loop *)
Lemma satisfy_one_other K p k k' s s' o r : k <> k' -> satisfy_one K p k s = (s', o, r) ->
  nm_find k' (pp_pending s') = nm_find k' (pp_pending s).
Proof.
  intros Hk E. unfold satisfy_one in E. rewrite mbind_get in E.
  destruct (nm_find k (pp_pending s)) as [e|]; [|injection E as <- _ _; reflexivity].
  rewrite mbind_lift in E. destruct (iblt_sub _ _ _) as [d| | |]; try (injection E as <- _ _; reflexivity).
  destruct (negb _).
  { injection E as <- _ _. cbn [pp_pending set_pending]. apply nm_find_erase_other; auto. }
  rewrite mbind_lift in E. destruct (bloom_contains _ _) as [x| | |]; try (injection E as <- _ _; reflexivity).
  destruct (_ || _); [|injection E as <- _ _; reflexivity].
  rewrite mbind_lift in E. destruct (append_ibf _ _ _ _) as [dn| | |]; try (injection E as <- _ _; reflexivity).
  unfold mbind in E. rewrite pp_publish_eq in E. destruct (publish _ _ _ _ _ _ _) as [q l].
  destruct l as [l|e1|u|]; injection E as <- _ _; cbn [pp_pending set_pending set_pub]; try reflexivity.
  apply nm_find_erase_other; auto.
Qed.
Lemma satisfy_at K p k : forall keys s s' o, pp_ok K s -> NoDup keys -> In k keys -> satisfy K p keys s = (s', o, Ok tt) ->
  exists s1 s2 o1, satisfy_one K p k s1 = (s2, o1, Ok tt) /\ pp_ok K s1 /\ pp_core s1 = pp_core s /\
    nm_find k (pp_pending s1) = nm_find k (pp_pending s) /\ incl o1 o /\
    nm_find k (pp_pending s') = nm_find k (pp_pending s2).
Proof.
  assert (forall k0 s, pp_core (st (satisfy_one K p k0 s)) = pp_core s) as Hc.
  { intros k0 s. pose proof (satisfy_core K p [k0] s) as H. cbn [satisfy] in H. unfold mbind, mret in H.
    destruct (satisfy_one K p k0 s) as [[s1 o1] [[]| | |]]; exact H. }
  assert (forall keys s s' o, ~ In k keys -> satisfy K p keys s = (s', o, Ok tt) -> nm_find k (pp_pending s') = nm_find k (pp_pending s)) as Hn.
  { induction keys as [|k0 ks IH]; intros s s' o Hk E; cbn [satisfy] in E; [injection E as <- _; reflexivity|].
    unfold mbind in E. destruct (satisfy_one K p k0 s) as [[s1 o1] r1] eqn:E1. destruct r1 as [[]| | |]; try discriminate E.
    destruct (satisfy K p ks s1) as [[s2 o2] r2] eqn:E2. injection E as <- _ ->.
    rewrite (IH _ _ _ (fun H => Hk (or_intror H)) E2). apply (satisfy_one_other _ _ _ _ _ _ _ _ (fun H => Hk (or_introl H)) E1). }
  induction keys as [|k0 ks IH]; intros s s' o Hs Nd Hk E; [destruct Hk|]. inversion Nd as [|a b N1 N2]; subst.
  cbn [satisfy] in E. unfold mbind in E. destruct (satisfy_one K p k0 s) as [[s1 o1] r1] eqn:E1. destruct r1 as [[]| | |]; try discriminate E.
  destruct (satisfy K p ks s1) as [[s2 o2] r2] eqn:E2. injection E as <- <- ->. destruct Hk as [->|Hk].
  - exists s, s1, o1. split; [exact E1|]. split; [exact Hs|]. split; [reflexivity|]. split; [reflexivity|]. split; [intros d Hd; apply in_or_app; auto|].
    apply (Hn _ _ _ _ N1 E2).
  - pose proof (satisfy_one_ok _ _ _ _ _ _ _ Hs E1) as (Hs1 & _).
    destruct (IH _ _ _ Hs1 N2 Hk E2) as (a & b & oa & Ea & Oa & Ec & Ef & Ei & El). exists a, b, oa. split; [exact Ea|]. split; [exact Oa|].
    pose proof (Hc k0 s) as Hc0. rewrite E1 in Hc0. split; [rewrite Ec; exact Hc0|].
    split; [rewrite Ef; apply (satisfy_one_other _ _ _ _ _ _ _ _ (fun H => N1 (eq_ind_r (fun x => In x ks) Hk H)) E1)|].
    split; [intros d Hd; apply in_or_app; right; apply Ei; exact Hd|exact El].
Qed.
Lemma publish_version E now i dname buf fresh p p' l : publish E now i dname buf fresh p = (p', Ok l) ->
  forall d, In d l -> exists v g, d_name d = dname ++ [v; g] /\ ctype v = TYPE_VERSION.
Proof.
  intros P d Hd. unfold publish in P. injection P as _ P. apply put_segment_In in P. specialize (P d Hd).
  apply segment_In in P as (j & _ & ->). cbn [d_name seg_data]. eexists _, _. split.
  - unfold append_segment, append_version. rewrite <- app_assoc. reflexivity.
  - reflexivity.
Qed.

(** * C115 *)
(** an update of a subscribed prefix is sent at once to the consumer that waits, unless the difference
    between the two IBFs cannot be decoded *)
Theorem C115_update_is_sent_partial : forall K Kc w0 w w1 i n p q o,
  duo_ok K Kc -> fresh_duo K Kc w0 -> duo_run K Kc subscribes_in_hello w0 w -> pev_wf (PPublishName p q) ->
  waiting_for w i n -> is_subscribed p (du_cons w) = true -> producer_does K (PPublishName p q) o w w1 ->
  no_removal (history (du_evs w1)) -> plain K w1 ->
  nm_find n (pp_pending (du_prod w1)) = None /\ ((exists d, In d o /\ answers_with_ibf K w1 n d) \/ undecodable K w1 n).
Proof.
  intros K Kc w0 w w1 i n p q o Ok2 Fr R We [Fi Hw] Hp Pd Nr Pl.
  pose proof (producer_step K Kc subscribes_in_hello _ _ _ _ We Pd) as St. destruct (earlier K Kc _ _ _ St Pl Nr) as [Pl0 Nr0].
  destruct (reached_DI K Kc w0 w Ok2 Fr R Nr0 Pl0) as (b0 & D).
  destruct (nm_find n (pp_pending (du_prod w))) as [e|] eqn:He; [clear Hw|congruence].
  destruct (waiting_entry K Kc Ok2 _ _ _ w i n e D Pl0 (cfetch_In _ _ _ Fi) He) as (k & _ & _ & _ & _ & Z). destruct (Z p Hp) as [Zb _].
  destruct (own_request K Kc Ok2 _ _ _ w i n D Pl0 (cfetch_In _ _ _ Fi)) as (_ & _ & pre & cc & _ & _ & _ & _ & _ & Em & Tc).
  pose proof (C85_waiting_means_up_to_date K Kc w0 w Ok2 Fr R Nr0 Pl0 (ex_intro _ i (ex_intro _ n (ex_intro _ e (conj Fi He)))) p Hp) as [Hc _].
  pose proof (pp_run_ok _ _ _ _ (di_run _ _ _ _ _ _ D)) as [Ps Pe _].
  destruct (now_point K Kc _ _ _ w D) as [Cr _].
  unfold current in Hc. rewrite <- (C29_sequence_numbers (pc_n K) _ _ p (history_wf _ (di_wf _ _ _ _ _ _ D)) Cr) in Hc.
  destruct Pd as (s & Es & ->). cbn [du_prod]. cbn [pp_step] in Es. unfold pp_publish_name in Es. rewrite mbind_get, mbind_lift in Es.
  destruct (core_publish p q (pp_core (du_prod w))) as [[k' x]|y|u|] eqn:Pb; try discriminate Es. rewrite mbind_mod in Es. cbn [fst snd] in Es.
  destruct x as [v|].
  2:{ unfold core_publish in Pb. unfold get_seq in Hc. destruct (nm_find p _); [|congruence]. destruct (core_update _ _ _); discriminate Pb. }
  pose proof (pp_run_ok _ _ _ _ (di_run _ _ _ _ _ _ D)) as Pok.
  assert (pp_ok K (set_core k' (du_prod w))) as Pok' by (destruct Pok as [A B C]; constructor; assumption).
  destruct (satisfy_at K p n _ _ _ _ Pok' (nm_sorted_NoDup _ Ps) (proj2 (nm_In_keys n _) (ex_intro _ e He)) Es) as (s1 & s2 & o1 & E1 & [Os _ _] & Ec & Ef & Ei & El).
  pose proof (satisfy_core K p (nm_keys (pp_pending (du_prod w))) (set_core k' (du_prod w))) as Hk. unfold st in Hk. rewrite Es in Hk. cbn [fst] in Hk.
  cbn [pp_pending set_core] in Ef. rewrite He in Ef. rewrite El. unfold answers_with_ibf, undecodable. cbn [du_prod]. rewrite Hk, <- Ec.
  unfold satisfy_one in E1. rewrite mbind_get, Ef, mbind_lift in E1.
  destruct (iblt_sub (pc_fuel K) (k_iblt (pp_core s1)) (pe_iblt e)) as [x|y|u|] eqn:Ed; try discriminate E1.
  destruct (can_decode x) eqn:Cd; cbn [negb] in E1.
  - rewrite mbind_lift, Zb in E1. cbn [orb] in E1. rewrite mbind_lift in E1.
    destruct (append_cases K n (k_iblt (pp_core s1)) (dk_scheme _ _ Ok2)) as (c & Ea & Ca). rewrite Ea in E1.
    unfold mbind in E1. rewrite pp_publish_eq in E1. destruct (publish _ _ _ _ _ _ _) as [p' r] eqn:P. rewrite Em in P at 1.
    destruct (publish_first _ _ _ _ _ _ _ _ _ _ P (generic_not_segment _ Tc)) as (d & v0 & g & -> & Ty & En).
    cbn [fst snd] in E1. injection E1 as <- <-. split.
    + cbn [pp_pending set_pending set_pub]. apply nm_find_erase_same. exact Os.
    + left. exists d. split; [apply Ei; left; reflexivity|]. split; [exact Ty|]. destruct (publish_version _ _ _ _ _ _ _ _ _ P d (or_introl eq_refl)) as (v1 & g1 & E2 & Tv).
      exists c, v1, g1. rewrite E2, <- app_assoc. split; [reflexivity|]. split; [exact Tv|exact Ca].
  - injection E1 as <- _. split; [cbn [pp_pending set_pending]; apply nm_find_erase_same; exact Os|]. right. exists (pe_bf e), (pe_iblt e), x. auto.
Qed.
Print Assumptions C115_update_is_sent_partial.

(** fetched before the producer's application does anything else, that data brings the consumer up to
    date, and its next sync interest waits at the producer again *)
Theorem C115_update_arrives : forall K Kc w0 w1 w2 w3 i n d0 d,
  duo_ok K Kc -> fresh_duo K Kc w0 -> duo_run K Kc subscribes_in_hello w0 w1 -> answers_with_ibf K w1 n d0 ->
  duo_run K Kc subscribes_in_hello w1 w2 -> history (du_evs w2) = history (du_evs w1) ->
  completed Kc i KSync n d w2 w3 -> same_content d d0 -> no_removal (history (du_evs w3)) -> plain K w3 ->
  up_to_date w3 /\
  exists n', asks_with_last_ibf w3 n' /\ ((2 <= pc_n K)%nat -> reply_from_store n' (pp_pub (du_prod w3)) = None -> settles K w3 n').
Proof.
  intros K Kc w0 w1 w2 w3 i n d0 d Ok2 Fr R1 [Ty (c & v & g & En & Tv & Ca)] R2 Eh Co Sc Nr Pl.
  pose proof (completed_fetches _ _ _ _ _ _ _ Co) as Fe. pose proof (fetches_step K Kc _ _ _ _ Fe) as St.
  pose proof (run_trans K Kc _ _ _ _ R1 R2) as R02. assert (duo_run K Kc subscribes_in_hello w0 w3) as R03 by (eapply duo_next; eauto).
  destruct (earlier K Kc _ _ _ St Pl Nr) as [Pl2 Nr2]. destruct (earlier_run K Kc _ _ _ R2 Pl2 Nr2) as [Pl1 Nr1].
  destruct (reached_DI K Kc w0 w2 Ok2 Fr R02 Nr2 Pl2) as (b2 & D2). destruct (reached_DI K Kc w0 w1 Ok2 Fr R1 Nr1 Pl1) as (b1 & D1).
  pose proof Co as (buf & sc1 & sc2 & c1 & o1 & c2 & o2 & Fi & (base & segs & fc & last & _ & Ind & _ & _ & _ & Sg & _) & _ & _ & _ & E3).
  destruct (In_nth_error _ _ Ind) as (j & Hj). destruct (Sg j d Hj) as [Hs Hn].
  pose proof (content_blob K Kc Ok2 _ _ _ w2 d d0 n c v g D2 Pl2 Hs Sc En Tv) as Tb.
  destruct (same_content_name d d0 n c v g Sc (ex_intro _ base (ex_intro _ _ Hn)) En) as (g' & Ed).
  assert (holds_current_ibf K w3) as Ho.
  { exists c. split; [eapply (fetch_holds Kc); eauto|]. rewrite E3. cbn [du_prod].
    destruct (now_point K Kc _ _ _ w2 D2) as [Cr2 _]. destruct (now_point K Kc _ _ _ w1 D1) as [Cr1 _].
    rewrite Eh, Cr1 in Cr2. injection Cr2 as <-. exact Ca. }
  split.
  - intros p Hp. exact (C64_current_ibf_means_current_numbers_partial K Kc w0 w3 p Ok2 Fr R03 Nr Pl Ho Hp).
  - destruct (sync_completed_asks Kc i n d w2 w3 Co Tb) as (n' & As). exists n'. split; [exact As|]. intros H2 Hr.
    exact (current_settles K Kc w0 w3 n' Ok2 Fr R03 Nr Pl H2 Ho As Hr).
Qed.
Print Assumptions C115_update_arrives.

(** sent again, an interest that was forgotten so gets a Nack (which leads to a hello interest, C114) *)
Theorem C115_forgotten_gets_nack : forall K w n, scheme_ok (pc_codec K) (pc_scheme K) ->
  undecodable K w n -> reply_from_store n (pp_pub (du_prod w)) = None ->
  forall l, exists d w', producer_does K (PInterest n l) [d] w w' /\ d_type d = AppNack /\ is_prefix n (d_name d) = true.
Proof.
  intros K w n Sk (bf & t & x & Rq & Ed & Cd) Hr l. destruct (append_cases K n (k_iblt (pp_core (du_prod w))) Sk) as (c & _ & Hc).
  pose proof (step_nack K (du_prod w) n n l bf t x c Sk Rq Hr Ed Cd Hc) as E. eexists _, _. split; [eexists; split; [exact E|reflexivity]|].
  split; [reflexivity|]. apply is_prefix_iff. cbn [d_name nack_data]. unfold append_segment. rewrite <- ?app_assoc. eexists. reflexivity.
Qed.
Print Assumptions C115_forgotten_gets_nack.

(** ** An update that is not sent *)
(** a table for two entries has three cells: every key is in all of them, and two keys cannot be told
    apart.  The consumer knows number 1; the update to 2 takes one key out and puts one in. *)
Definition K2 : pcfg := mkPcfg syncp 2 SNone 1000 1000 codec_none libm_example env_example 100.
Definition wp2 (e : pev) (w : duo) : duo := on_prod e (pp_step K2 e (du_prod w)) w.
Lemma do_prod2 rule e w : pev_wf e -> snd (pp_step K2 e (du_prod w)) = Ok tt -> duo_step K2 Kc rule w (wp2 e w).
Proof.
  intros W E. unfold wp2, on_prod. destruct (pp_step K2 e (du_prod w)) as [[s o] r] eqn:Es. cbn [fst snd] in *. subst r.
  eapply duo_producer; eauto. left. reflexivity.
Qed.
Lemma do_calls2 (rule : duo -> activity -> Prop) l w : rule w (AppCalls l) -> snd (calls Kc l (du_cons w)) = Ok tt -> duo_step K2 Kc rule w (wc l w).
Proof.
  intros W E. unfold wc. destruct (calls Kc l (du_cons w)) as [[s o] r] eqn:Es. cbn [fst snd] in *. subst r.
  eapply duo_calls; eauto. left. reflexivity.
Qed.
Definition subs_1 : list capi := [CSub pb 1 false; CSendSync].
Definition u0 : duo := mkDuo [] (pp_new K2) [] s_c0 [].
Definition u1 : duo := Eval vm_compute in wp2 (PPublishName pb (Some 1)) (wp2 (PAdd pb) u0).
Definition u2 : duo := Eval vm_compute in wp2 (PInterest hello_n 1000) (wc [CSendHello] u1).
Definition u2_d : data := Eval vm_compute in last_data u2.
Definition u3 : duo := Eval vm_compute in wf 0 u2_d subs_1 [] u2.
Definition u4 : duo := Eval vm_compute in wi u3.
Definition u5 : duo := Eval vm_compute in wp2 (PPublishName pb (Some 2)) u4.
Lemma told_u2 : told_by (d_content u2_d) pb 1.
Proof. exists [append_number pb 1], (number_comp 8 1). split; [run|]. split; [left; run|run]. Qed.
Lemma run_u3 : duo_run K2 Kc subscribes_in_hello u0 u3.
Proof.
  apply (duo_next _ _ _ _ u2); [apply (duo_next _ _ _ _ (wc [CSendHello] u1)); [apply (duo_next _ _ _ _ u1)|]|].
  - replace u1 with (wp2 (PPublishName pb (Some 1)) (wp2 (PAdd pb) u0)) by run. apply (duo_next _ _ _ _ (wp2 (PAdd pb) u0)).
    + apply (duo_next _ _ _ _ u0); [constructor|]. apply do_prod2; [exact I|apply step3; run].
    + apply do_prod2; [reflexivity|apply step3; run].
  - apply do_calls2; [intros p v cb [H|[]]; discriminate|apply step3; run].
  - replace u2 with (wp2 (PInterest hello_n 1000) (wc [CSendHello] u1)) by run. apply do_prod2; [exact I|apply step3; run].
  - replace u3 with (wf 0 u2_d subs_1 [] u2) by run.
    apply (fetches_step K2 Kc subscribes_in_hello u2_d). apply (completed_fetches Kc 0 KHello hello_n).
    apply (do_completed 0 KHello hello_n u2_d subs_1 [] u2); [run|left; run|run|run|run| |apply step3; run|apply step3; run].
    split; [|split].
    + intros p v cb [H|[H|[]]]; [|discriminate]. injection H as <- <- _. exact told_u2.
    + intros [|a l1] p v cb l2 E; [injection E as _ _ _ <-; left; left; reflexivity|].
      injection E as <- E. destruct l1 as [|b l1]; [discriminate|]. injection E as <- E. destruct l1; discriminate.
    + intros p v cb [].
Qed.
Lemma request_u : sync_request_for K2 (sync_n u3) (sync_n u3) (bf_with b_ex (filter_n (sync_n u3))) (k_iblt (pp_core (du_prod u3))).
Proof.
  assert (sync_n u3 = request K2 (filter_n (sync_n u3)) (k_iblt (pp_core (du_prod u3)))) as E by run. rewrite E at 1 2.
  apply request_ex; [reflexivity|reflexivity|apply bf_of; run|apply Nat.eqb_eq; run|].
  assert (forallb (fun c => in_i32 (c_count c) && (c_sum c <? two32) && (c_check c <? two32)) (k_iblt (pp_core (du_prod u3))) = true) as Wf by run.
  apply Forall_forall. intros c Hc. rewrite forallb_forall in Wf. specialize (Wf c Hc).
  apply andb_prop in Wf as [Wf W3]. apply andb_prop in Wf as [W1 W2]. split; [exact W1|]. split; apply N.ltb_lt; assumption.
Qed.
Lemma run_u4 : duo_run K2 Kc subscribes_in_hello u0 u4.
Proof.
  apply (duo_next _ _ _ _ u3); [exact run_u3|]. replace u4 with (wi u3) by run.
  unfold wi, on_prod. cbn [fst snd]. eapply duo_producer; [exact I| |left; reflexivity].
  apply pend_step; [reflexivity|exact request_u|run|run|reflexivity].
Qed.
Lemma plain_u5 : plain K2 u5.
Proof.
  assert (history (du_evs u5) = [CAdd pb; CPublish pb (Some 1); CPublish pb (Some 2)]) as Eh by run.
  apply (plain_check K2 u5 [append_number pb 0; append_number pb 1; append_number pb 2]); rewrite ?Eh.
  - repeat constructor.
  - run.
  - apply wf_check_ok. run.
  - intros p nm H Hn. assert (p = pb) as -> by (destruct H as [H|[H|[H|[]]]]; try discriminate; injection H as <-; reflexivity).
    assert (forallb (fun x => existsb (name_eqb x) [append_number pb 0; append_number pb 1; append_number pb 2])
      (numbers [CAdd pb; CPublish pb (Some 1); CPublish pb (Some 2)] pb) = true) as Z by run.
    rewrite forallb_forall in Z. specialize (Z nm Hn). apply existsb_exists in Z as (x & Q1 & Q2). apply name_eqb_eq in Q2. subst. exact Q1.
Qed.
Lemma duo_u : duo_ok K2 Kc.
Proof. destruct duo_v as [A B C D E F]. constructor; auto. Qed.
Lemma fresh_u : fresh_duo K2 Kc u0.
Proof. destruct fresh_v as (c & E & Ew). exists c. split; [exact E|]. unfold w0 in Ew. injection Ew as <-. reflexivity. Qed.
Lemma does_u5 : producer_does K2 (PPublishName pb (Some 2)) [] u4 u5.
Proof. exists (du_prod u5). split; run. Qed.
(** the update is published, the waiting interest is forgotten and nothing is sent *)
Theorem C115_update_is_sent_refuted : exists K Kc w0 w w1 i n p q,
  duo_ok K Kc /\ (2 <= pc_n K)%nat /\ fresh_duo K Kc w0 /\ duo_run K Kc subscribes_in_hello w0 w /\ pev_wf (PPublishName p q) /\
  waiting_for w i n /\ is_subscribed p (du_cons w) = true /\ producer_does K (PPublishName p q) [] w w1 /\
  no_removal (history (du_evs w1)) /\ plain K w1 /\ current w1 p <> current w p /\
  nm_find n (pp_pending (du_prod w1)) = None /\ ~ up_to_date w1.
Proof.
  exists K2, Kc, u0, u4, u5, 1%nat, (sync_n u3), pb, (Some 2). split; [exact duo_u|]. split; [apply Nat.leb_le; reflexivity|]. split; [exact fresh_u|].
  split; [exact run_u4|]. split; [reflexivity|]. split; [split; [run|vm_compute; discriminate]|]. split; [run|]. split; [exact does_u5|].
  split; [apply no_removal_check; run|]. split; [exact plain_u5|]. split; [vm_compute; discriminate|]. split; [run|].
  intros H. destruct (H pb ltac:(run)) as [_ E]. vm_compute in E. discriminate E.
Qed.
Print Assumptions C115_update_is_sent_refuted.

(** ** Examples *)
Lemma does_v8 : producer_does Kx (PPublishName pb (Some 1)) [d8] v7 v8.
Proof. exists (du_prod v8). split; run. Qed.
Lemma plain_v8 : plain Kx v8.
Proof. apply (plain_earlier Kx v8 v13 (skipn 6 (du_evs v13))); [run|apply Nat.leb_le; run|apply plain_v13]. Qed.
Lemma completed_v9 : completed Kc 1 KSync (sync_n v5) d8 v8 v9.
Proof.
  replace v9 with (wf 1 d8 [] [] v8) by run.
  apply (do_completed 1 KSync (sync_n v5) d8 [] [] v8); [run|right; left; run|run|run|run|apply sync_rule|apply step3; run|apply step3; run].
Qed.
Example C115_example :
  duo_ok Kx Kc /\ fresh_duo Kx Kc w0 /\ duo_run Kx Kc subscribes_in_hello w0 v7 /\ waiting_for v7 1 (sync_n v5) /\
  is_subscribed pb (du_cons v7) = true /\ producer_does Kx (PPublishName pb (Some 1)) [d8] v7 v8 /\
  no_removal (history (du_evs v8)) /\ plain Kx v8 /\
  answers_with_ibf Kx v8 (sync_n v5) d8 /\ completed Kc 1 KSync (sync_n v5) d8 v8 v9 /\
  no_removal (history (du_evs v9)) /\ plain Kx v9 /\ (2 <= pc_n Kx)%nat /\
  reply_from_store (sync_n v9) (pp_pub (du_prod v9)) = None /\ sync_n v9 <> sync_n v5 /\
  undecodable K2 u5 (sync_n u3) /\ reply_from_store (sync_n u3) (pp_pub (du_prod u5)) = None.
Proof.
  split; [exact duo_v|]. split; [exact fresh_v|]. split; [exact run_v7|]. split; [split; [run|vm_compute; discriminate]|].
  split; [run|]. split; [exact does_v8|]. split; [apply no_removal_check; run|]. split; [exact plain_v8|].
  split; [|split; [exact completed_v9|]; split; [apply no_removal_check; run|]; split; [exact plain_v9|]; split; [apply Nat.leb_le; run|]; split; [run|]; split; [vm_compute; discriminate|];
    split; [|run]; exists (bf_with b_ex (filter_n (sync_n u3))), (k_iblt (pp_core (du_prod u3))); eexists; split; [exact request_u|split; run]].
  split; [reflexivity|]. exists (gen (table_bytes (k_iblt (pp_core (du_prod v8))))), (nth 1 (rev (d_name d8)) c_one), (nth 0 (rev (d_name d8)) c_one).
  split; [run|]. split; [run|]. split; run.
Qed.
