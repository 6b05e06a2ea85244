(** Partial producers: the age of their answers. *)
From Coq Require Import List NArith ZArith Bool Arith Lia.
From Verif Require Import Base BaseFacts Mon MonFacts Iblt SpecIblt IbltFacts Tlv TlvFacts State NMap NMapFacts Codec CodecFacts
  Bloom Store StoreFacts SpecStore Producer SpecProducer ProducerFacts Partial SpecPartial PartialFacts
  PartialSteps PartialAnswers Properties_Producer Properties_Partial PairProducer SpecFresh FreshFacts.
Import ListNotations.
Local Open Scope N_scope.

Section Fresh.
Variable K : pcfg.
Hypothesis Sk : scheme_ok (pc_codec K) (pc_scheme K).

Definition current_at (k : core) (d : data) (names : list name) : Prop :=
  segment_of (encode_names names) d /\
  (forall nm, In nm names -> exists p v, nm = append_number p v /\ get_seq p k = Some v) /\
  ((is_prefix (pc_sync K ++ [HELLO]) (d_name d) = true /\ d_fresh d = pc_hello_fresh K /\
    forall p v, get_seq p k = Some v -> In (append_number p v) names) \/
   (is_prefix (pc_sync K ++ [SYNC]) (d_name d) = true /\ d_fresh d = pc_sync_fresh K)).
Definition born (evs : list pev) (dl : N) (d : data) : Prop :=
  exists pre post s1 o1 names, evs = pre ++ post /\ pp_run K (pp_new K) pre = Some (s1, o1) /\
    dl = pp_now s1 + d_fresh d /\ current_at (pp_core s1) d names.
Lemma born_app evs evs' dl d : born evs dl d -> born (evs ++ evs') dl d.
Proof.
  intros (pre & post & s1 & o1 & names & -> & H). exists pre, (post ++ evs'), s1, o1, names.
  rewrite app_assoc. auto.
Qed.

(** a handler that runs within an event which ends with the numbers [k] at time [now] *)
Definition fine (P : N -> data -> Prop) (now : N) (s' : pp) (o : list data) : Prop :=
  kept P (pp_pub s') /\ forall d, In d o -> d_type d = AppNack \/ exists dl, P dl d /\ now <= dl.

Lemma fine_quiet P now s : kept P (pp_pub s) -> fine P now s [].
Proof. intros H. split; auto. intros d []. Qed.
Lemma fine_publish P s i dn names f s' o r : kept P (pp_pub s) ->
  pp_publish K i dn (encode_names names) f s = (s', o, r) ->
  (forall d, segment_of (encode_names names) d -> d_fresh d = f -> is_prefix dn (d_name d) = true -> P (pp_now s + f) d) ->
  fine P (pp_now s) s' o.
Proof.
  intros Hk E H. rewrite pp_publish_eq in E.
  destruct (publish (pc_env K) (pp_now s) i dn (encode_names names) f (pp_pub s)) as [b x] eqn:Pb.
  destruct (publish_kept P _ _ _ _ _ _ _ _ _ Pb Hk) as [A B].
  { intros d Hd. apply segment_in in Hd as (A & B & C). apply H; auto.
    unfold append_version in C. eapply prefix_longer; eauto. }
  injection E as <- <- _. split; [exact A|]. intros d Hd. right. cbn [snd] in Hd. destruct x as [l| | |]; try contradiction.
  exists (pp_now s + f). split; [eapply B; eauto|lia].
Qed.

Lemma fine_satisfy P p v keys : forall s s' o r, kept P (pp_pub s) -> pp_ok K s -> get_seq p (pp_core s) = Some v ->
  (forall d names, d_fresh d = pc_sync_fresh K -> current_at (pp_core s) d names -> P (pp_now s + pc_sync_fresh K) d) ->
  satisfy K p keys s = (s', o, r) -> fine P (pp_now s) s' o.
Proof.
  induction keys as [|key keys IH]; intros s s' o r Hk Hok Hv HP E; cbn [satisfy] in E.
  - injection E as <- <- _. apply fine_quiet. auto.
  - unfold mbind in E at 1. destruct (satisfy_one K p key s) as [[s1 o1] r1] eqn:E1.
    assert (fine P (pp_now s) s1 o1) as F1.
    { unfold satisfy_one in E1. rewrite mbind_get in E1.
      assert (fine P (pp_now s) s []) as T by (apply fine_quiet; auto).
      destruct (nm_find key (pp_pending s)) as [e|] eqn:Fe; [|injection E1 as <- <- _; auto].
      rewrite mbind_lift in E1. destruct (iblt_sub _ _ _) as [d| | |]; try (injection E1 as <- <- _; exact T).
      destruct (negb _); [injection E1 as <- <- _; exact T|].
      rewrite mbind_lift in E1. destruct (bloom_contains _ _) as [x| | |] eqn:Ex; try (injection E1 as <- <- _; exact T).
      destruct (_ || _); [|injection E1 as <- <- _; exact T].
      rewrite mbind_lift in E1. destruct (append_ibf _ _ _ _) as [dn| | |] eqn:Ea; try (injection E1 as <- <- _; exact T).
      apply append_ibf_carries in Ea as (c & Hcc & ->).
      unfold mbind in E1.
      match type of E1 with context [pp_publish ?a ?b ?c ?d ?e ?f] =>
        destruct (pp_publish a b c d e f) as [[s2 o2] r2] eqn:Pb end.
      rewrite Hv in Pb.
      assert (fine P (pp_now s) s2 o2) as I2.
      { eapply fine_publish; [exact Hk|exact Pb|]. intros d' Sg Ef Pf.
        apply (HP _ (if x then [append_number p v] else [])); auto. split; auto. split.
        - destruct x; intros nm; [intros [<-|[]]; eauto|intros []].
        - right. split; auto. destruct (po_entry _ _ Hok _ _ Fe) as (c1 & c2 & c3 & c4 & tl & -> & _).
          rewrite <- app_assoc in Pf. eapply prefix_longer.
          change (pc_sync K ++ [SYNC; c1; c2; c3; c4] ++ [c]) with (pc_sync K ++ [SYNC] ++ [c1; c2; c3; c4; c]) in Pf.
          rewrite app_assoc in Pf. exact Pf. }
      destruct r2; try (injection E1 as <- <- _; exact I2).
      unfold mmod in E1. rewrite app_nil_r in E1. injection E1 as <- <- _. exact I2. }
    destruct r1; try (injection E as <- <- _; exact F1).
    destruct (satisfy K p keys s1) as [[s2 o2] r2] eqn:E2. injection E as <- <- _.
    destruct (satisfy_one_ok _ _ _ _ _ _ _ Hok E1) as (Hok1 & _ & Sb & En).
    assert (pp_core s1 = pp_core s) as Ec.
    { pose proof (satisfy_core K p [key] s) as X. cbn [satisfy] in X. unfold st, mbind in X. rewrite E1 in X.
      exact X. }
    destruct F1 as [A B].
    destruct (IH s1 s2 o2 r2 A Hok1) as [C D]; try rewrite Ec; auto.
    { rewrite En. auto. }
    split; auto. rewrite En in D. intros d Hd. apply in_app_or in Hd as [Hd|Hd]; auto.
Qed.

Lemma step_fresh evs ev s1 o1 s o : Forall pev_wf (evs ++ [ev]) -> collision_free (pc_n K) (history (evs ++ [ev])) ->
  pp_run K (pp_new K) evs = Some (s1, o1) -> pp_run K (pp_new K) (evs ++ [ev]) = Some (s, o1 ++ o) ->
  kept (born evs) (pp_pub s1) ->
  kept (born (evs ++ [ev])) (pp_pub s) /\
  (erased_in_time (pp_now s1) (pp_pub s1) ->
   forall d, In d o -> d_type d = AppNack \/ exists dl, born (evs ++ [ev]) dl d /\ pp_now s <= dl).
Proof.
  intros W Hc R1 R I.
  pose proof (run_snoc _ _ _ _ _ _ R) as (s1' & o1' & o2 & R1' & Es & Eo & Eq & Hres).
  unfold pp_run in R1. rewrite R1 in R1'. injection R1' as <- <-. apply app_inv_head in Eq. fold (pp_run K) in R1.
  assert (Forall pev_wf evs) as W1 by (apply Forall_app in W; tauto).
  assert (collision_free (pc_n K) (history evs)) as Hc1
    by (rewrite history_app in Hc; apply collision_free_app in Hc; exact Hc).
  apply (kept_mono _ (born (evs ++ [ev]))) in I; [|intros; apply born_app; auto].
  destruct (pp_step K ev s1) as [[s0 o0] r0] eqn:E. cbn in Es, Eo, Hres. rewrite <- Eq in Eo. subst s0 o0. clear Eq.
  pose proof (pp_run_ok _ _ _ _ R1) as Hok.
  assert (forall s', pp_pub s' = pp_pub s1 -> kept (born (evs ++ [ev])) (pp_pub s') /\
    (erased_in_time (pp_now s1) (pp_pub s1) -> forall d, In d [] -> d_type d = AppNack \/ exists dl, born (evs ++ [ev]) dl d /\ pp_now s' <= dl)) as T
    by (intros s' ->; split; [exact I|intros _ d []]).
  assert (forall d names, pp_now s = pp_now s1 -> current_at (pp_core s) d names -> born (evs ++ [ev]) (pp_now s1 + d_fresh d) d) as New.
  { intros d names En Cu. exists (evs ++ [ev]), [], s, (o1 ++ o), names. rewrite app_nil_r, En. auto. }
  assert (forall now, now = pp_now s -> fine (born (evs ++ [ev])) now s o -> kept (born (evs ++ [ev])) (pp_pub s) /\
    (erased_in_time (pp_now s1) (pp_pub s1) -> forall d, In d o -> d_type d = AppNack \/ exists dl, born (evs ++ [ev]) dl d /\ pp_now s <= dl)) as Fn
    by (intros now -> [A B]; split; auto).
  destruct ev as [p|p|p q|nm l|dt|key|j].
  - injection E as <- <- _. apply T. reflexivity.
  - cbn [pp_step] in E. rewrite mbind_get, mbind_lift in E.
    destruct (core_remove p (pp_core s1)); injection E as <- <- _; apply T; reflexivity.
  - cbn [pp_step] in E. unfold pp_publish_name in E. rewrite mbind_get, mbind_lift in E.
    destruct (core_publish p q (pp_core s1)) as [[k x]| | |] eqn:Pb; try (injection E as <- <- _; apply T; reflexivity).
    rewrite mbind_mod in E. cbn [fst snd] in E. destruct x as [v|]; [|injection E as <- <- _; apply T; reflexivity].
    destruct (core_publish_some _ _ _ _ _ Pb) as (v' & Hv).
    assert (pp_core s = k) as Ek.
    { pose proof (satisfy_core K p (nm_keys (pp_pending s1)) (set_core k s1)) as X. unfold st in X.
      rewrite E in X. exact X. }
    assert (pp_now s = pp_now s1) as En.
    { destruct (satisfy_ok _ _ _ _ _ _ _ (pp_ok_core K s1 k Hok) E) as (_ & _ & _ & X). exact X. }
    eapply Fn; [symmetry; exact En|].
    apply (fine_satisfy _ p v' (nm_keys (pp_pending s1)) (set_core k s1) s o r0 I); auto using pp_ok_core.
    intros d names Ef Cu. cbn [pp_now set_core pp_core] in *. rewrite <- Ef. apply (New d names En). rewrite Ek. exact Cu.
  - assert (pp_core s = pp_core s1) as Ec.
    { pose proof (dispatch_core K nm l s1) as X. cbn [pp_step] in E. unfold st in X. rewrite E in X. exact X. }
    assert (pp_now s = pp_now s1) as En by (destruct (pp_step_ok _ _ _ _ _ _ Hok E) as (_ & _ & X & _); exact X).
    rewrite Ec in New.
    destruct (interest_cases K s1 nm l) as [(d & Rp & E')|[(Rp & Hh)|[(Rp & rname & bf & t & Hq)|(E1 & E2 & _)]]].
    + rewrite E' in E. injection E as <- <- _. split; auto. intros Ti x [<-|[]]. right.
      destruct (reply_kept _ _ _ _ _ I Ti Rp) as (dl & A & B). exists dl. split; auto. lia.
    + destruct (is_hello_total _ _ Hh) as (b & B). rewrite (step_hello K s1 nm l b Hh Rp B) in E.
      destruct b; [|injection E as <- <- _; apply T; reflexivity].
      destruct (append_ibf _ _ _ _) as [dn| | |] eqn:Ea; try (injection E as <- <- _; apply T; reflexivity).
      apply append_ibf_carries in Ea as (c & Hcc & ->).
      eapply Fn; [symmetry; exact En|]. eapply fine_publish; [exact I|exact E|].
      intros d Sg Ef Pf. rewrite <- Ef. apply (New d (hello_content (pp_core s1)) En). split; auto.
      pose proof (reach_core _ _ _ _ W1 R1) as [W' C].
      pose proof (crun_pfx _ _ _ (core_new_pfx _) W' C) as [So Bo]. split.
      * intros x Hx. unfold hello_content in Hx. apply in_map_iff in Hx as ((p & v) & <- & Hi).
        exists p, v. split; auto. unfold get_seq. apply nm_In_find; auto.
      * left. split; [eapply prefix_longer; exact Pf|]. split; auto.
        intros p v G. unfold hello_content. apply in_map_iff. exists (p, v). split; auto. apply nm_find_In; auto.
    + destruct (append_cases K rname (k_iblt (pp_core s1)) Sk) as (c & _ & Hcc).
      destruct (iblt_sub (pc_fuel K) (k_iblt (pp_core s1)) t) as [d|e|u|] eqn:D.
      * destruct (can_decode d) eqn:Cd.
        -- destruct (matching (k_bimap (pp_core s1)) bf (positive d)) as [names|e|u|] eqn:M.
           ++ rewrite (step_decoded _ _ _ _ _ _ _ _ _ _ Sk Hq Rp D Cd M Hcc) in E.
              destruct (_ || _); [|injection E as <- <- _; apply T; reflexivity].
              eapply Fn; [symmetry; exact En|]. eapply fine_publish; [exact I|exact E|].
              intros x Sg Ef Pf. rewrite <- Ef. apply (New x names En). split; auto. split.
              ** intros y Hx. apply (matching_In _ _ _ _ M) in Hx as (h & _ & Hx & _).
                 apply (bimap_live K evs s1 o1) in Hx as [Hx _]; auto.
                 destruct (reach_core _ _ _ _ W1 R1) as [W' C].
                 apply (C30_live_names _ _ _ y W' C) in Hx as (p1 & v1 & Hv1 & _ & ->).
                 exists p1, v1. split; auto. rewrite <- Hv1. apply (C29_sequence_numbers _ _ _ p1 W' C).
              ** right. split; auto. destruct (sync_request_for_key _ _ _ _ _ Hq) as (c1 & c2 & c3 & c4 & tl & -> & _).
                 rewrite <- app_assoc in Pf. eapply prefix_longer.
                 change (pc_sync K ++ [SYNC; c1; c2; c3; c4] ++ [c]) with (pc_sync K ++ [SYNC] ++ [c1; c2; c3; c4; c]) in Pf.
                 rewrite app_assoc in Pf. exact Pf.
           ++ destruct (matching_no_throw _ _ _ _ M).
           ++ rewrite (step_request _ _ _ _ _ _ _ Hq Rp), mbind_lift, D in E. unfold on_request in E.
              rewrite mbind_get, Cd in E. cbn [negb] in E. rewrite mbind_lift, M in E. injection E as <- <- _. apply T; reflexivity.
           ++ rewrite (step_request _ _ _ _ _ _ _ Hq Rp), mbind_lift, D in E. unfold on_request in E.
              rewrite mbind_get, Cd in E. cbn [negb] in E. rewrite mbind_lift, M in E. injection E as <- <- _. apply T; reflexivity.
        -- rewrite (step_nack _ _ _ _ _ _ _ _ _ Sk Hq Rp D Cd Hcc) in E. injection E as <- <- _.
           split; [exact I|]. intros _ x [<-|[]]. left. reflexivity.
      * destruct (iblt_sub_no_throw _ _ _ _ D).
      * rewrite (step_request _ _ _ _ _ _ _ Hq Rp), mbind_lift, D in E. injection E as <- <- _. apply T; reflexivity.
      * rewrite (step_request _ _ _ _ _ _ _ Hq Rp), mbind_lift, D in E. injection E as <- <- _. apply T; reflexivity.
    + rewrite E in E1, E2. cbn in E1, E2. subst. apply T; reflexivity.
  - injection E as <- <- _. apply T; reflexivity.
  - injection E as <- <- _. apply T. unfold expire. destruct (nm_find _ _) as [e|]; auto.
    destruct (pe_expiry e) as [[dl x]|]; auto. destruct (_ <=? _); auto.
  - injection E as <- <- _. split; [|intros _ d []]. cbn [pp_pub set_pub]. apply fire_kept. auto.
Qed.

Theorem run_fresh evs : forall s o, Forall pev_wf evs -> collision_free (pc_n K) (history evs) ->
  pp_run K (pp_new K) evs = Some (s, o) -> kept (born evs) (pp_pub s).
Proof.
  induction evs as [|ev evs IH] using rev_ind; intros s o W Hc R.
  - injection R as <- <-. apply kept_new.
  - pose proof (run_snoc _ _ _ _ _ _ R) as (s1 & o1 & o2 & R1 & _ & _ & -> & _).
    eapply (step_fresh evs ev s1 o1 s o2); eauto.
    apply IH with o1; auto.
    + apply Forall_app in W; tauto.
    + rewrite history_app in Hc; apply collision_free_app in Hc; exact Hc.
Qed.
End Fresh.
