(** Property theorems about full-sync interests that have to wait and about answered ones (C98, and the
    end of C79). *)
From Coq Require Import List NArith ZArith Bool Arith Lia Sorted.
From Coq.Strings Require Import Byte.
From Verif Require Import Base Mon MonFacts Iblt BaseFacts IbltFacts SpecIblt
  Tlv State NMap TlvFacts NMapFacts Codec CodecFacts Bloom
  Store StoreFacts Producer SpecProducer ProducerFacts Properties_Producer Partial SpecPartial PartialFacts PartialSteps PartialAnswers
  Properties_Partial Full FullTrace SpecFull FullFacts FullSafe FullSteps FullData FullRuns FullTimers FullWaiting
  FullSends FullReplies FullAnswers FullPending FullGone FullRenew Properties_Full Properties_FullTime Properties_FullAnswers.
Import ListNotations.
Local Open Scope N_scope.

(** * C98 *)
(** the peer that sent the interest is ahead: its IBF has more, or cannot be compared and its count is higher *)
Definition ahead (k : core) (rcvd : N) (d : iblt_diff) : Prop :=
  (can_decode d = true /\ positive d = [] /\ negative d <> []) \/ (can_decode d = false /\ k_count k < rcvd).
Theorem C98_interest_of_peer_ahead_waits : forall K sys evs s o n t rcvd l d,
  reaches K sys evs s o -> full_request K n t rcvd -> reply_from_store n (f_pub s) = None ->
  iblt_sub (fc_fuel K) (k_iblt (f_core s)) t = Ok d -> ahead (f_core s) rcvd d ->
  exists s', fp_step K (FeInterest n l) s = (s', [], Ok tt) /\
    f_core s' = f_core s /\ f_pub s' = f_pub s /\ f_pending s' = f_pending s /\
    (forall m, m <> n -> nm_find m (f_waiting s') = nm_find m (f_waiting s)) /\
    match nm_find n (f_waiting s) with
    | Some v => s' = s
    | None => nm_find n (f_waiting s') = Some 0 /\ f_delay s' <> None
    end.
Proof.
  intros K sys evs s o n t rcvd l d R Hq Hr Hd Ha.
  rewrite (step_request K n t rcvd) by auto. rewrite (finterest_request K n t rcvd) by auto. rewrite Hr, mbind_lift, Hd.
  assert (exists s', match nm_find n (f_waiting s) with None => start_waiting K n | Some _ => mret tt end s = (s', [], Ok tt) /\
    f_core s' = f_core s /\ f_pub s' = f_pub s /\ f_pending s' = f_pending s /\
    (forall m, m <> n -> nm_find m (f_waiting s') = nm_find m (f_waiting s)) /\
    match nm_find n (f_waiting s) with
    | Some v => s' = s
    | None => nm_find n (f_waiting s') = Some 0 /\ f_delay s' <> None
    end) as G.
  { destruct (nm_find n (f_waiting s)) as [v|] eqn:E; [exists s; auto 7|].
    unfold start_waiting. rewrite mbind_mod, schedule_eq. set (x := fset_waiting _ s). eexists. split; [reflexivity|].
    assert (nm_find n (f_waiting x) = Some 0) as F by apply nm_find_set_same.
    assert (forall m, m <> n -> nm_find m (f_waiting x) = nm_find m (f_waiting s)) as O by (intros; apply nm_find_set_other; auto).
    destruct (f_waiting x) as [|y ys] eqn:W; [discriminate|]. destruct (f_delay x) eqn:D;
      (split; [reflexivity|]; split; [reflexivity|]; split; [reflexivity|]).
    - rewrite W. split; [exact O|]. split; [exact F|congruence].
    - cbn [f_waiting fset_delay fset_draws f_delay]. split; [intros q Nq; rewrite <- O by auto; f_equal; exact W|]. split; [rewrite <- F; f_equal; exact W|discriminate]. }
  destruct Ha as [(Hc & Hp & Hn)|(Hc & Hl)]; rewrite Hc.
  - unfold on_decoded. rewrite mbind_get, Hp. destruct (negative d) as [|g gs]; [contradiction|].
    destruct (nm_find n (f_waiting s)); exact G.
  - unfold on_undecodable. rewrite mbind_get. apply N.ltb_lt in Hl. rewrite Hl. destruct (nm_find n (f_waiting s)); exact G.
Qed.
Print Assumptions C98_interest_of_peer_ahead_waits.

Lemma retried K m n v keys : forall s s' o, schemes_ok K -> uri_ok K -> core_ok m (f_core s) ->
  NoDup keys -> fp_ok K s -> process_all K keys s = (s', o, Ok tt) -> In n keys ->
  nm_find n (f_waiting s) = Some v -> v <> MAX_TRIES ->
  exists s1 s2 o2, f_core s1 = f_core s /\ on_finterest K n DEFAULT_LIFETIME true s1 = (s2, o2, Ok tt) /\ incl o2 o.
Proof.
  induction keys as [|k keys IH]; intros s s' o Sk Uk Ck Nd Hok E Hi Hv Hm; [destruct Hi|]. cbn [process_all] in E.
  inversion Nd as [|x y Hk Nd']; subst. unfold mbind in E.
  pose proof (process_one_ok K k s Hok) as Ok1. unfold st in Ok1.
  destruct (process_one K k s) as [[s1 o1] [[]|e|u|]] eqn:E1; try discriminate. cbn [fst] in Ok1.
  destruct (process_all K keys s1) as [[s2 o2] r2] eqn:E2. injection E as <- <- ->.
  pose proof (kc_process_one K m k s s1 o1 Sk Uk Ck Hok E1) as F1.
  destruct (name_eqb k n) eqn:Q.
  - apply name_eqb_eq in Q. subst k. unfold process_one in E1. rewrite mbind_get, Hv in E1. cbv zeta in E1.
    apply N.eqb_neq in Hm. rewrite Hm, mbind_mod in E1. set (s0 := fset_waiting _ s) in E1. unfold mbind at 1 in E1.
    destruct (on_finterest K n DEFAULT_LIFETIME true s0) as [[s3 o3] [[]|e|u|]] eqn:E3; try discriminate.
    exists s0, s3, o3. split; [reflexivity|]. split; [exact E3|]. rewrite mbind_get in E1.
    intros z Hz. apply in_or_app. left.
    destruct (nm_find n (f_waiting s3)) as [w|]; [destruct (w =? MAX_TRIES)|]; injection E1 as _ <-; apply in_or_app; auto.
  - destruct Hi as [->|Hi]; [rewrite name_eqb_refl in Q; discriminate|].
    destruct (process_one_find K k s s1 o1 (fo_wsorted _ _ Hok) E1) as [A _].
    assert (n <> k) as Nk by (intros ->; rewrite name_eqb_refl in Q; discriminate).
    rewrite <- (A n Nk) in Hv. rewrite <- F1 in Ck.
    destruct (IH s1 s2 o2 Sk Uk Ck Nd' Ok1 E2 Hi Hv Hm) as (a & b & c & B & C & D).
    exists a, b, c. split; [congruence|]. split; [exact C|]. intros z Hz. apply in_or_app. auto.
Qed.

(** the node has something for the sender of the interest *)
Definition can_help (k : core) (rcvd : N) (d : iblt_diff) : Prop :=
  (can_decode d = true /\ exists p v, get_seq p k = Some v /\ v <> 0 /\ In (name_hash (append_number p v)) (positive d) /\
     ~ In (name_hash (append_number p ((v + 1) mod two64))) (negative d)) \/
  (can_decode d = false /\ rcvd <= k_count k /\ ~ (k_count k = rcvd /\ positive d = [] /\ negative d <> []) /\
   exists p v, get_seq p k = Some v /\ v <> 0).
(** when its timer fires, every waiting interest the node can now help with is answered *)
Theorem C98_waiting_interest_is_answered : forall K sys evs s o dl n v t rcvd d s' o',
  schemes_ok K -> uri_ok K -> reaches K sys evs s o -> no_collision K o ->
  f_delay s = Some dl -> dl <= f_now s -> fp_step K FeDelay s = (s', o', Ok tt) ->
  nm_find n (f_waiting s) = Some v -> v <> MAX_TRIES -> plain_name n -> full_request K n t rcvd ->
  iblt_sub (fc_fuel K) (k_iblt (f_core s)) t = Ok d -> can_help (f_core s) rcvd d ->
  exists x, In (FoData x) o' /\ is_prefix n (full_name x) = true.
Proof.
  intros K sys evs s o dl n v t rcvd d s' o' Sk Uk R Hc D Hd E Hv Hm Pn Hq Hs Hh.
  destruct (delay_inv K s dl s' o' D Hd E) as (s1 & P & _). unfold process_waiting in P. rewrite mbind_get in P.
  pose proof (reaches_core_ok _ _ _ _ _ R Hc) as Ck. pose proof (reaches_ok _ _ _ _ _ R) as Hok.
  assert (fp_ok K (fset_delay None s)) as Hok1 by (destruct Hok; constructor; auto).
  destruct (retried K (fc_n K) n v _ (fset_delay None s) s1 o' Sk Uk Ck (nm_keys_NoDup _ (fo_wsorted _ _ Hok1)) Hok1 P) as (a & b & c & A & B & C);
    [apply nm_In_keys; eauto|exact Hv|exact Hm|].
  enough (exists x, In (FoData x) c /\ is_prefix n (full_name x) = true) as (x & X & Y) by (exists x; split; auto).
  assert (answered_in n c -> exists x, In (FoData x) c /\ is_prefix n (full_name x) = true) as W.
  { intros (x & X & Y). exists x. split; [exact X|]. apply is_prefix_full. exact Y. }
  change (f_core (fset_delay None s)) with (f_core s) in A. destruct (request_names _ _ _ _ Hq) as [_ N0].
  rewrite (finterest_request K n t rcvd) in B by auto.
  destruct (reply_from_store n (f_pub a)) as [x|] eqn:Er.
  { injection B as _ <-. exists x. split; [left; reflexivity|]. apply (reply_matches n (f_pub a)). exact Er. }
  rewrite mbind_lift, A, Hs in B. destruct Hh as [(Hcd & p & w & G1 & G2 & G3 & G4)|(Hcd & Hle & Hn & p & w & G1 & G2)]; rewrite Hcd in B.
  - assert (positive d <> []) as Np by (destruct (positive d); [destruct G3|discriminate]).
    rewrite (decoded_positive K (fc_n K)) in B by (auto; rewrite A; auto).
    assert (In (append_number p w) (offer (f_core a) (negative d) (positive d))) as X.
    { apply (offer_In (fc_n K)); [rewrite A; exact Ck|]. rewrite A. exists p, w. auto. }
    destruct (offer _ _ _) as [|y ys]; [destruct X|].
    pose proof (data_answers K n Pn (y :: ys) (fc_fresh K) a) as Da. unfold mbind in B.
    destruct (send_sync_data K n (y :: ys) (fc_fresh K) a) as [[a1 o1] [[]|e|u|]]; try discriminate.
    rewrite mark_eq, app_nil_r in B. injection B as _ <-. apply W, Da. reflexivity.
  - unfold on_undecodable in B. rewrite mbind_get, A in B.
    apply N.ltb_ge in Hle. rewrite Hle in B.
    destruct (_ && _ && _) eqn:Q.
    { exfalso. apply Hn. apply andb_prop in Q as [Q B3]. apply andb_prop in Q as [B1 B2].
      apply N.eqb_eq in B1. apply Nat.eqb_eq, length_zero_iff_nil in B2. apply Nat.ltb_lt in B3.
      repeat split; auto. intros X. rewrite X in B3. simpl in B3. lia. }
    assert (In (append_number p w) (live (f_core s))) as X by (unfold live; apply live_names_In; [exact (ok_sorted _ _ Ck)|exists p, w; auto]).
    rewrite entire_live in B. destruct (live (f_core s)) as [|y ys]; [destruct X|].
    pose proof (data_answers K n Pn (y :: ys) FULL_STATE_FRESH a) as Da. unfold mbind in B.
    destruct (send_sync_data K n (y :: ys) FULL_STATE_FRESH a) as [[a1 o1] [[]|e|u|]]; try discriminate.
    unfold delete_pending, mmod in B. rewrite mark_eq, !app_nil_r in B. injection B as _ <-. apply W, Da. reflexivity.
Qed.
Print Assumptions C98_waiting_interest_is_answered.

(** a node with "/b" is asked by one that has "/a/2" and publishes before its timer fires *)
Definition evs_98 : list fev := [FeApi (AAdd pb); FeInterest a2_ask 1000; FeApi (APublish pb None); FeTick 600].
Definition s_98 : fp := Eval vm_compute in fst (full_after Kf evs_98).
Definition o_98 : list fout := Eval vm_compute in snd (full_after Kf evs_98).
Lemma reach_98 : reaches Kf 0 evs_98 s_98 o_98.
Proof. split; [repeat constructor|vm_compute; reflexivity]. Qed.
Lemma a2_request : full_request Kf a2_ask a2_table 2.
Proof. apply (ask_request Kf a2_table 2); try reflexivity; repeat constructor. Qed.
Example C98_waits_example : exists s o d, reaches Kf 0 [FeApi (AAdd pb)] s o /\ full_request Kf a2_ask a2_table 2 /\
  reply_from_store a2_ask (f_pub s) = None /\ iblt_sub (fc_fuel Kf) (k_iblt (f_core s)) a2_table = Ok d /\
  ahead (f_core s) 2 d /\ nm_find a2_ask (f_waiting s) = None.
Proof.
  eexists _, _, _. split; [apply (reaches_example Kf); [repeat constructor|vm_compute; reflexivity]|].
  split; [apply a2_request|]. split; [vm_compute; reflexivity|]. split; [vm_compute; reflexivity|].
  split; [|vm_compute; reflexivity]. left. split; [reflexivity|]. split; [reflexivity|discriminate].
Qed.
Example C98_example : exists dl v d s' o', schemes_ok Kf /\ uri_ok Kf /\ reaches Kf 0 evs_98 s_98 o_98 /\ no_collision Kf o_98 /\
  f_delay s_98 = Some dl /\ dl <= f_now s_98 /\ fp_step Kf FeDelay s_98 = (s', o', Ok tt) /\
  nm_find a2_ask (f_waiting s_98) = Some v /\ v <> MAX_TRIES /\ plain_name a2_ask /\ full_request Kf a2_ask a2_table 2 /\
  iblt_sub (fc_fuel Kf) (k_iblt (f_core s_98)) a2_table = Ok d /\ can_help (f_core s_98) 2 d.
Proof.
  eexists _, _, _, _, _. split; [apply Kf_ok|]. split; [apply Kf_ok|]. split; [apply reach_98|].
  split; [intros pre post k E H; eapply check_free_ok; [|exact E|exact H]; vm_compute; reflexivity|].
  split; [vm_compute; reflexivity|]. split; [vm_compute; discriminate|]. split; [vm_compute; reflexivity|].
  split; [vm_compute; reflexivity|]. split; [vm_compute; discriminate|].
  split; [exists (removelast a2_ask), (number_comp TYPE_GENERIC 2); split; vm_compute; reflexivity|].
  split; [apply a2_request|]. split; [vm_compute; reflexivity|]. left. split; [reflexivity|]. exists pb, 1.
  split; [vm_compute; reflexivity|]. split; [discriminate|]. split; [left; vm_compute; reflexivity|].
  intros [H|[]]. vm_compute in H. discriminate.
Qed.

(** * C79, how it ends *)
(** a publication answers (C80) and drops every pending interest *)
Theorem C79_dropped_when_published : forall K sys evs s o p q s' o',
  reaches K sys evs s o -> get_seq p (f_core s) <> None ->
  fp_step K (FeApi (APublish p q)) s = (s', o', Ok tt) -> f_pending s' = [].
Proof. intros K sys evs s o p q s' o' R Hp E. eapply publish_clears; eauto. eapply reaches_ok; eauto. Qed.
Print Assumptions C79_dropped_when_published.
(** an interest that comes again and is answered with the entire state is pending no more *)
Theorem C79_dropped_when_entire_state_sent : forall K sys evs s o n t rcvd l d s' o' x,
  schemes_ok K -> reaches K sys evs s o -> full_request K n t rcvd -> reply_from_store n (f_pub s) = None ->
  iblt_sub (fc_fuel K) (k_iblt (f_core s)) t = Ok d -> can_decode d = false ->
  fp_step K (FeInterest n l) s = (s', o', Ok tt) -> In (FoData x) o' -> nm_find n (f_pending s') = None.
Proof.
  intros K sys evs s o n t rcvd l d s' o' x Sk R Hq Hr Hd Hc E Hx.
  destruct (undecodable_reply K n t rcvd l d s Sk Hq Hr Hd Hc) as (s1 & o1 & E1 & _ & A & B).
  rewrite E in E1. injection E1 as <- <-.
  assert (o' <> []) as N by (intros ->; destruct Hx).
  destruct (N.lt_ge_cases (k_count (f_core s)) rcvd) as [L|L]; [destruct (A (or_introl L)) as (X & _); contradiction|].
  destruct (live (f_core s)) as [|y ys] eqn:El; [destruct A as (X & _); [auto|contradiction]|].
  destruct B as (ds & _ & _ & P); [exact L| |discriminate|].
  - intros X. destruct A as (Y & _); [auto|contradiction].
  - rewrite P. apply nm_find_erase_same. apply (reaches_ok _ _ _ _ _ R).
Qed.
Print Assumptions C79_dropped_when_entire_state_sent.
(** when content for it arrives, whether it decodes or not and whatever the application does with it,
    the interest is pending no more, unless it is one of those that wait *)
Theorem C79_dropped_when_content_arrives : forall K sys evs s o i n buf script,
  reaches K sys evs s o -> fetch_of i (f_live s) = Some n -> nm_find n (f_waiting s) = None ->
  nm_find n (f_pending (st (fp_step K (FeContent i buf script) s))) = None.
Proof.
  intros K sys evs s o i n buf script R Hf Hw. cbn [fp_step]. rewrite mbind_get, Hf, mbind_mod.
  apply content_drops; [|exact Hw]. apply (reaches_ok _ _ _ _ _ R).
Qed.
Print Assumptions C79_dropped_when_content_arrives.

(** a peer that has the count 5 and nothing else asks a fresh node; the node learns two names from
    another peer; the first asks again and is answered, but its interest stays pending *)
Definition ask5 : name := Eval vm_compute in ask_with Kf (iblt_new 10) 5.
Definition evs_79' : list fev := [FeInterest ask5 1000; FeContent 0 two_content []; FeTick 100].
Theorem C79_dropped_when_answered_refuted : exists K sys evs s o n l s' o' d,
  schemes_ok K /\ uri_ok K /\ reaches K sys evs s o /\ plain_name n /\
  fp_step K (FeInterest n l) s = (s', o', Ok tt) /\ In (FoData d) o' /\ is_prefix n (full_name d) = true /\
  nm_find n (f_pending s') <> None.
Proof.
  eexists Kf, 0%Z, evs_79', _, _, ask5, 1000, _, _, _. split; [apply Kf_ok|]. split; [apply Kf_ok|].
  split; [apply (reaches_example Kf evs_79'); [repeat constructor; apply wf_nil; reflexivity|vm_compute; reflexivity]|].
  split; [exists (removelast ask5), (number_comp TYPE_GENERIC 5); split; vm_compute; reflexivity|].
  split; [vm_compute; reflexivity|]. split; [left; reflexivity|]. split; [vm_compute; reflexivity|]. vm_compute. discriminate.
Qed.
Print Assumptions C79_dropped_when_answered_refuted.

(** the interest of a fresh peer, pending at a fresh node that sent the same: its content arrives *)
Example C79_content_example : exists s o, reaches Kf 0 [FeInterest blank_ask 1000] s o /\
  fetch_of 0 (f_live s) = Some blank_ask /\ nm_find blank_ask (f_waiting s) = None /\ nm_find blank_ask (f_pending s) <> None.
Proof.
  eexists _, _. split; [apply (reaches_example Kf); [repeat constructor|vm_compute; reflexivity]|].
  split; [vm_compute; reflexivity|]. split; [vm_compute; reflexivity|vm_compute; discriminate].
Qed.
(** an interest that could be compared when it came, and not when it comes again *)
Definition ask1 : name := Eval vm_compute in ask_with Kf1 (iblt_new 1) 1.
Definition evs_79e : list fev := [FeInterest ask1 1000; FeContent 0 two_content []; FeTick 100].
Example C79_entire_state_example : exists s o d s' o' x, schemes_ok Kf1 /\ reaches Kf1 0 evs_79e s o /\
  full_request Kf1 ask1 (iblt_new 1) 1 /\ reply_from_store ask1 (f_pub s) = None /\
  iblt_sub (fc_fuel Kf1) (k_iblt (f_core s)) (iblt_new 1) = Ok d /\ can_decode d = false /\ nm_find ask1 (f_pending s) <> None /\
  fp_step Kf1 (FeInterest ask1 1000) s = (s', o', Ok tt) /\ In (FoData x) o'.
Proof.
  eexists _, _, _, _, _, _. split; [split; left; reflexivity|].
  split; [apply (reaches_example Kf1 evs_79e); [repeat constructor; apply wf_nil; reflexivity|vm_compute; reflexivity]|].
  split; [apply (ask_request Kf1 (iblt_new 1) 1); [reflexivity|reflexivity|apply iblt_new_length|apply iblt_new_wf|reflexivity]|].
  split; [vm_compute; reflexivity|]. split; [vm_compute; reflexivity|]. split; [reflexivity|]. split; [vm_compute; discriminate|].
  split; [vm_compute; reflexivity|]. left. reflexivity.
Qed.
