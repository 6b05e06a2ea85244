(** Partial producers: where the packets in memory come from. *)
From Coq Require Import List NArith ZArith Bool Arith Lia.
From Verif Require Import Base BaseFacts Mon MonFacts Iblt SpecIblt IbltFacts Tlv TlvFacts State NMap NMapFacts Codec CodecFacts
  Bloom Store StoreFacts SpecStore Producer SpecProducer ProducerFacts Partial SpecPartial PartialFacts
  PartialSteps PartialAnswers Properties_Producer Properties_Partial PairProducer SpecFresh FreshFacts PartialFresh
  Full Consumer SpecConsumer SpecGroup SpecPair SpecSettle SpecQuiet SpecRecent RecentFacts.
Import ListNotations.
Local Open Scope N_scope.

Section Quiet.
Variable K : pcfg.
Hypothesis Sk : scheme_ok (pc_codec K) (pc_scheme K).

(** what a packet in memory says about the event that put it there, after which the state is [s] *)
Definition origin (ev : pev) (s : pp) (d : data) : Prop :=
  data_with_ibf K (k_iblt (pp_core s)) d /\ d_fresh d <= longest_freshness K /\
  ((exists p q, ev = PPublishName p q) \/ is_prefix (pc_sync K ++ [HELLO]) (d_name d) = true \/
   exists iname rname bf t x names tail, d_name d = rname ++ tail /\ sync_request_for K iname rname bf t /\
     iblt_sub (pc_fuel K) (k_iblt (pp_core s)) t = Ok x /\ matching (k_bimap (pp_core s)) bf (positive x) = Ok names /\
     (threshold (pc_n K) <= diff_size x \/ names <> [])%nat).
Definition sprung (evs : list pev) (dl : N) (d : data) : Prop :=
  exists pre ev post s1 o1, evs = pre ++ ev :: post /\ pp_run K (pp_new K) (pre ++ [ev]) = Some (s1, o1) /\
    dl = pp_now s1 + d_fresh d /\ origin ev s1 d.
Lemma sprung_app evs evs' dl d : sprung evs dl d -> sprung (evs ++ evs') dl d.
Proof.
  intros (pre & ev & post & s1 & o1 & -> & H). exists pre, ev, (post ++ evs'), s1, o1.
  rewrite <- app_assoc. auto.
Qed.

Lemma fine_publish2 P s i rn c buf f s' o r : kept P (pp_pub s) ->
  pp_publish K i (rn ++ [c]) buf f s = (s', o, r) -> carries_ibf (pc_codec K) (pc_scheme K) c (k_iblt (pp_core s)) ->
  (forall d tail, d_name d = rn ++ tail -> d_fresh d = f -> data_with_ibf K (k_iblt (pp_core s)) d -> P (pp_now s + f) d) ->
  fine P (pp_now s) s' o.
Proof.
  intros Hk E Hc H. rewrite pp_publish_eq in E.
  destruct (publish (pc_env K) (pp_now s) i (rn ++ [c]) buf f (pp_pub s)) as [b x] eqn:Pb.
  destruct (publish_kept P _ _ _ _ _ _ _ _ _ Pb Hk) as [A B].
  { intros d Hd. apply segment_In in Hd as (j & _ & ->). eapply H.
    - cbn [d_name seg_data]. unfold append_segment, append_version. rewrite <- !app_assoc. reflexivity.
    - reflexivity.
    - split; [reflexivity|]. cbn [d_name seg_data]. unfold append_segment, append_version. rewrite <- !app_assoc.
      eexists rn, c, _, _. split; [reflexivity|]. split; [reflexivity|exact Hc]. }
  injection E as <- <- _. split; [exact A|]. intros d Hd. right. cbn [snd] in Hd. destruct x as [l| | |]; try contradiction.
  exists (pp_now s + f). split; [eapply B; eauto|lia].
Qed.
Lemma fine_satisfy2 P p keys : forall s s' o r, kept P (pp_pub s) -> pp_ok K s ->
  (forall d, d_fresh d = pc_sync_fresh K -> data_with_ibf K (k_iblt (pp_core s)) d -> P (pp_now s + pc_sync_fresh K) d) ->
  satisfy K p keys s = (s', o, r) -> fine P (pp_now s) s' o.
Proof.
  induction keys as [|key keys IH]; intros s s' o r Hk Hok HP E; cbn [satisfy] in E.
  - injection E as <- <- _. apply fine_quiet. auto.
  - unfold mbind in E at 1. destruct (satisfy_one K p key s) as [[s1 o1] r1] eqn:E1.
    assert (fine P (pp_now s) s1 o1) as F1.
    { unfold satisfy_one in E1. rewrite mbind_get in E1.
      assert (fine P (pp_now s) s []) as T by (apply fine_quiet; auto).
      destruct (nm_find key (pp_pending s)) as [e|] eqn:Fe; [|injection E1 as <- <- _; auto].
      rewrite mbind_lift in E1. destruct (iblt_sub _ _ _) as [d| | |]; try (injection E1 as <- <- _; exact T).
      destruct (negb _); [injection E1 as <- <- _; exact T|].
      rewrite mbind_lift in E1. destruct (bloom_contains _ _) as [x| | |] eqn:Ex; try (injection E1 as <- <- _; exact T).
      destruct (_ || _); [|injection E1 as <- <- _; exact T].
      rewrite mbind_lift in E1. destruct (append_ibf _ _ _ _) as [dn| | |] eqn:Ea; try (injection E1 as <- <- _; exact T).
      apply append_ibf_carries in Ea as (c & Hcc & ->).
      unfold mbind in E1.
      match type of E1 with context [pp_publish ?a ?b ?c ?d ?e ?f] =>
        destruct (pp_publish a b c d e f) as [[s2 o2] r2] eqn:Pb end.
      assert (fine P (pp_now s) s2 o2) as I2.
      { eapply fine_publish2; [exact Hk|exact Pb|exact Hcc|]. intros d' tail _ Ef Di. apply HP; auto. }
      destruct r2; try (injection E1 as <- <- _; exact I2).
      unfold mmod in E1. rewrite app_nil_r in E1. injection E1 as <- <- _. exact I2. }
    destruct r1; try (injection E as <- <- _; exact F1).
    destruct (satisfy K p keys s1) as [[s2 o2] r2] eqn:E2. injection E as <- <- _.
    destruct (satisfy_one_ok _ _ _ _ _ _ _ Hok E1) as (Hok1 & _ & Sb & En).
    assert (pp_core s1 = pp_core s) as Ec.
    { pose proof (satisfy_core K p [key] s) as X. cbn [satisfy] in X. unfold st, mbind in X. rewrite E1 in X.
      exact X. }
    destruct F1 as [A B].
    destruct (IH s1 s2 o2 r2 A Hok1) as [C D]; try rewrite Ec; auto.
    { rewrite En. auto. }
    split; auto. rewrite En in D. intros d Hd. apply in_app_or in Hd as [Hd|Hd]; auto.
Qed.

Lemma step_sprung evs ev s1 o1 s o :
  pp_run K (pp_new K) evs = Some (s1, o1) -> pp_run K (pp_new K) (evs ++ [ev]) = Some (s, o1 ++ o) ->
  kept (sprung evs) (pp_pub s1) ->
  kept (sprung (evs ++ [ev])) (pp_pub s) /\
  (erased_in_time (pp_now s1) (pp_pub s1) ->
   forall d, In d o -> d_type d = AppNack \/ exists dl, sprung (evs ++ [ev]) dl d /\ pp_now s <= dl).
Proof.
  intros R1 R I.
  pose proof (run_snoc _ _ _ _ _ _ R) as (s1' & o1' & o2 & R1' & Es & Eo & Eq & Hres).
  unfold pp_run in R1. rewrite R1 in R1'. injection R1' as <- <-. apply app_inv_head in Eq. fold (pp_run K) in R1.
  apply (kept_mono _ (sprung (evs ++ [ev]))) in I; [|intros; apply sprung_app; auto].
  destruct (pp_step K ev s1) as [[s0 o0] r0] eqn:E. cbn in Es, Eo, Hres. rewrite <- Eq in Eo. subst s0 o0. clear Eq.
  pose proof (pp_run_ok _ _ _ _ R1) as Hok.
  assert (forall s', pp_pub s' = pp_pub s1 -> kept (sprung (evs ++ [ev])) (pp_pub s') /\
    (erased_in_time (pp_now s1) (pp_pub s1) -> forall d, In d [] -> d_type d = AppNack \/ exists dl, sprung (evs ++ [ev]) dl d /\ pp_now s' <= dl)) as T
    by (intros s' ->; split; [exact I|intros _ d []]).
  assert (forall d, pp_now s = pp_now s1 -> origin ev s d -> sprung (evs ++ [ev]) (pp_now s1 + d_fresh d) d) as New.
  { intros d En Or. exists evs, ev, [], s, (o1 ++ o). rewrite En. auto. }
  assert (forall now, now = pp_now s -> fine (sprung (evs ++ [ev])) now s o -> kept (sprung (evs ++ [ev])) (pp_pub s) /\
    (erased_in_time (pp_now s1) (pp_pub s1) -> forall d, In d o -> d_type d = AppNack \/ exists dl, sprung (evs ++ [ev]) dl d /\ pp_now s <= dl)) as Fn
    by (intros now -> [A B]; split; auto).
  assert (pc_hello_fresh K <= longest_freshness K /\ pc_sync_fresh K <= longest_freshness K) as [Fh Fs] by (unfold longest_freshness; lia).
  destruct ev as [p|p|p q|nm l|dt|key|j].
  - injection E as <- <- _. apply T. reflexivity.
  - cbn [pp_step] in E. rewrite mbind_get, mbind_lift in E.
    destruct (core_remove p (pp_core s1)); injection E as <- <- _; apply T; reflexivity.
  - cbn [pp_step] in E. unfold pp_publish_name in E. rewrite mbind_get, mbind_lift in E.
    destruct (core_publish p q (pp_core s1)) as [[k x]| | |] eqn:Pb; try (injection E as <- <- _; apply T; reflexivity).
    rewrite mbind_mod in E. cbn [fst snd] in E. destruct x as [v|]; [|injection E as <- <- _; apply T; reflexivity].
    assert (pp_core s = k) as Ek.
    { pose proof (satisfy_core K p (nm_keys (pp_pending s1)) (set_core k s1)) as X. unfold st in X.
      rewrite E in X. exact X. }
    assert (pp_now s = pp_now s1) as En.
    { destruct (satisfy_ok _ _ _ _ _ _ _ (pp_ok_core K s1 k Hok) E) as (_ & _ & _ & X). exact X. }
    eapply Fn; [symmetry; exact En|].
    apply (fine_satisfy2 _ p (nm_keys (pp_pending s1)) (set_core k s1) s o r0 I); auto using pp_ok_core.
    intros d Ef Di. cbn [pp_now set_core pp_core] in *. rewrite <- Ef. apply (New d En). rewrite <- Ek in Di.
    split; [exact Di|]. split; [lia|]. left. eauto.
  - assert (pp_core s = pp_core s1) as Ec.
    { pose proof (dispatch_core K nm l s1) as X. cbn [pp_step] in E. unfold st in X. rewrite E in X. exact X. }
    assert (pp_now s = pp_now s1) as En by (destruct (pp_step_ok _ _ _ _ _ _ Hok E) as (_ & _ & X & _); exact X).
    unfold origin in New. rewrite Ec in New.
    destruct (interest_cases K s1 nm l) as [(d & Rp & E')|[(Rp & Hh)|[(Rp & rname & bf & t & Hq)|(E1 & E2 & _)]]].
    + rewrite E' in E. injection E as <- <- _. split; auto. intros Ti x [<-|[]]. right.
      destruct (reply_kept _ _ _ _ _ I Ti Rp) as (dl & A & B). exists dl. split; auto. lia.
    + destruct (is_hello_total _ _ Hh) as (b & B). rewrite (step_hello K s1 nm l b Hh Rp B) in E.
      destruct b; [|injection E as <- <- _; apply T; reflexivity].
      destruct (append_ibf _ _ _ _) as [dn| | |] eqn:Ea; try (injection E as <- <- _; apply T; reflexivity).
      apply append_ibf_carries in Ea as (c & Hcc & ->).
      eapply Fn; [symmetry; exact En|]. eapply fine_publish2; [exact I|exact E|exact Hcc|].
      intros d tail Hn Ef Di. rewrite <- Ef. apply (New d En). split; [exact Di|]. split; [lia|]. right. left. rewrite Hn. apply is_prefix_app.
    + destruct (append_cases K rname (k_iblt (pp_core s1)) Sk) as (c & _ & Hcc).
      destruct (iblt_sub (pc_fuel K) (k_iblt (pp_core s1)) t) as [d|e|u|] eqn:D.
      * destruct (can_decode d) eqn:Cd.
        -- destruct (matching (k_bimap (pp_core s1)) bf (positive d)) as [names|e|u|] eqn:M.
           ++ rewrite (step_decoded _ _ _ _ _ _ _ _ _ _ Sk Hq Rp D Cd M Hcc) in E.
              destruct (_ || _) eqn:Th; [|injection E as <- <- _; apply T; reflexivity].
              eapply Fn; [symmetry; exact En|]. eapply fine_publish2; [exact I|exact E|exact Hcc|].
              intros x tail Hn Ef Di. rewrite <- Ef. apply (New x En). split; [exact Di|]. split; [lia|]. right. right.
              exists nm, rname, bf, t, d, names, tail. split; [exact Hn|]. split; [exact Hq|]. split; [exact D|]. split; [exact M|].
              apply orb_true_iff in Th as [Th|Th]; [left; apply Nat.leb_le; exact Th|right; destruct names; discriminate].
           ++ destruct (matching_no_throw _ _ _ _ M).
           ++ rewrite (step_request _ _ _ _ _ _ _ Hq Rp), mbind_lift, D in E. unfold on_request in E.
              rewrite mbind_get, Cd in E. cbn [negb] in E. rewrite mbind_lift, M in E. injection E as <- <- _. apply T; reflexivity.
           ++ rewrite (step_request _ _ _ _ _ _ _ Hq Rp), mbind_lift, D in E. unfold on_request in E.
              rewrite mbind_get, Cd in E. cbn [negb] in E. rewrite mbind_lift, M in E. injection E as <- <- _. apply T; reflexivity.
        -- rewrite (step_nack _ _ _ _ _ _ _ _ _ Sk Hq Rp D Cd Hcc) in E. injection E as <- <- _.
           split; [exact I|]. intros _ x [<-|[]]. left. reflexivity.
      * destruct (iblt_sub_no_throw _ _ _ _ D).
      * rewrite (step_request _ _ _ _ _ _ _ Hq Rp), mbind_lift, D in E. injection E as <- <- _. apply T; reflexivity.
      * rewrite (step_request _ _ _ _ _ _ _ Hq Rp), mbind_lift, D in E. injection E as <- <- _. apply T; reflexivity.
    + rewrite E in E1, E2. cbn in E1, E2. subst. apply T; reflexivity.
  - injection E as <- <- _. apply T; reflexivity.
  - injection E as <- <- _. apply T. unfold expire. destruct (nm_find _ _) as [e|]; auto.
    destruct (pe_expiry e) as [[dl x]|]; auto. destruct (_ <=? _); auto.
  - injection E as <- <- _. split; [|intros _ d []]. cbn [pp_pub set_pub]. apply fire_kept. auto.
Qed.

Theorem run_sprung evs : forall s o, pp_run K (pp_new K) evs = Some (s, o) -> kept (sprung evs) (pp_pub s).
Proof.
  induction evs as [|ev evs IH] using rev_ind; intros s o R.
  - injection R as <- <-. apply kept_new.
  - pose proof (run_snoc _ _ _ _ _ _ R) as (s1 & o1 & o2 & R1 & _ & _ & -> & _).
    eapply (step_sprung evs ev s1 o1 s o2); eauto.
Qed.
End Quiet.

(** ** A producer whose application has been quiet *)
Lemma prefix_split {A} (a b c d : list A) : a ++ b = c ++ d -> (exists x, c = a ++ x) \/ (exists x, a = c ++ x).
Proof.
  revert c. induction a as [|x a IH]; intros c H; [left; exists c; reflexivity|].
  destruct c as [|y c]; [right; exists (x :: a); reflexivity|]. injection H as -> H.
  destruct (IH c H) as [(z & ->)|(z & ->)]; [left|right]; exists z; reflexivity.
Qed.
Lemma ptime_app a b : ptime_of (a ++ b) = ptime_of a + ptime_of b.
Proof. unfold ptime_of. induction a as [|x a IH]; cbn [app fold_right]; [reflexivity|rewrite IH; lia]. Qed.
Lemma stored_origin K evs1 evs2 s1 o1 s o n d : scheme_ok (pc_codec K) (pc_scheme K) ->
  pp_run K (pp_new K) evs1 = Some (s1, o1) -> pp_run K (pp_new K) (evs1 ++ evs2) = Some (s, o) -> history evs2 = [] ->
  pp_now s1 + longest_freshness K <= pp_now s -> erased_in_time (pp_now s) (pp_pub s) -> reply_from_store n (pp_pub s) = Some d ->
  exists ev s', In ev evs2 /\ origin K ev s' d /\ pp_core s' = pp_core s.
Proof.
  intros Sk R1 R Hh Hq Ti Hr. destruct (reply_kept _ _ _ _ _ (run_sprung K Sk _ _ _ R) Ti Hr) as (dl & (pre & ev & post & s' & o' & E & R' & -> & Or) & Hdl).
  pose proof (pp_run_clock _ _ _ _ _ R1) as T1. pose proof (pp_run_clock _ _ _ _ _ R') as T'. cbn [pp_new pp_now] in T1, T'.
  pose proof Or as (_ & Fd & _). exists ev, s'.
  change (pre ++ ev :: post) with (pre ++ [ev] ++ post) in E. rewrite app_assoc in E.
  destruct (prefix_split _ _ _ _ E) as [(e2 & E2)|(e2 & E2)].
  - rewrite E2, <- app_assoc in E. apply app_inv_head in E. 
    assert (history e2 = []) as H2.
    { rewrite E, history_app in Hh. apply app_eq_nil in Hh. tauto. }
    split.
    + destruct e2 as [|x e2] using rev_ind; [|clear IHe2].
      * rewrite app_nil_r in E2. rewrite E2 in T'. lia.
      * rewrite app_assoc in E2. apply app_inj_tail in E2 as [_ <-]. rewrite E. apply in_or_app. left. apply in_or_app. right. left. reflexivity.
    + split; [exact Or|]. pose proof (pp_run_core _ _ _ _ _ R) as C. pose proof (pp_run_core _ _ _ _ _ R') as C'.
      rewrite E2, history_app, H2 in C'. rewrite history_app, Hh in C. rewrite C in C'. injection C' as ->. reflexivity.
  - rewrite E2, ptime_app in T1. lia.
Qed.
Lemma quiet_not_publish evs ev p q : In ev evs -> history evs = [] -> ev <> PPublishName p q.
Proof.
  intros H Hh ->. apply in_split in H as (a & b & ->). rewrite history_app in Hh. apply app_eq_nil in Hh as [_ Hh]. discriminate Hh.
Qed.
Lemma stored_blob K evs s o n d : scheme_ok (pc_codec K) (pc_scheme K) -> pp_run K (pp_new K) evs = Some (s, o) ->
  reply_from_store n (pp_pub s) = Some d -> d_type d = Blob.
Proof.
  intros Sk R H. unfold reply_from_store in H. apply store_find_Some in H as (H & _).
  destruct (run_sprung K Sk evs s o R d H) as (dl & _ & (pre & ev & post & s1 & o1 & _ & _ & _ & (Di & _))). apply Di.
Qed.
Lemma stored_hello K s n l d : is_prefix (pc_sync K ++ [HELLO]) n = true -> reply_from_store n (pp_pub s) = Some d ->
  pp_step K (PInterest n l) s = (s, [d], Ok tt).
Proof. intros H1 R. cbn [pp_step]. unfold dispatch. rewrite H1. unfold on_hello_interest, mbind, mget. rewrite R. reflexivity. Qed.
