(** Property theorems about removed user nodes (C111), and about the content of the answers of a
    full-sync node (C94). *)
From Coq Require Import List NArith ZArith Bool Arith Lia.
From Coq.Strings Require Import Byte.
From Verif Require Import Base BaseFacts Mon MonFacts Iblt SpecIblt Tlv TlvFacts State NMap NMapFacts Codec CodecFacts Bloom
  Store StoreFacts SpecStore Producer SpecProducer ProducerFacts Partial SpecPartial PartialFacts PartialSteps
  Full FullTrace SpecFull FullFacts FullSafe FullSteps FullData FullRuns SpecDeliver
  Properties_Producer Properties_Partial Properties_Full SpecFresh FreshFacts Properties_Fresh SpecForget ForgetFacts.
Import ListNotations.
Local Open Scope N_scope.

(** * C94 *)
(** every data packet a full-sync node sends, from memory or not, was made during an event that is at
    most its freshness period ago; the content lists names, each of which was the current number of
    its prefix at that moment or was announced by a publishName call of that event *)
Theorem C94_full_lists_current : forall K sys evs e s o s' out d,
  uri_ok K -> reaches K sys evs s o -> reaches K sys (evs ++ [e]) s' (o ++ out) -> no_collision K (o ++ out) ->
  erased_in_time (f_now s) (f_pub s) -> In (FoData d) out -> d_type d = Blob ->
  exists pre e1 post s1 o1 k names buf,
    evs ++ [e] = pre ++ e1 :: post /\ reaches K sys pre s1 o1 /\ f_now s <= f_now s1 + d_fresh d /\
    held_during (f_core s1) (outs (fp_step K e1 s1)) k /\
    compress (fc_codec K) (fc_cscheme K) (encode_names names) = Ok buf /\ segment_of buf d /\
    forall nm, In nm names -> named_then e1 k nm.
Proof. exact answers_list. Qed.
Print Assumptions C94_full_lists_current.

(** * C111 *)
(** a partial producer whose application removed [p] and did not add it again has no number for it *)
Theorem C111_producer_number : forall K evs p mid s o,
  Forall pev_wf (evs ++ PRemove p :: mid) -> pp_run K (pp_new K) (evs ++ PRemove p :: mid) = Some (s, o) ->
  ~ In (PAdd p) mid -> get_seq p (pp_core s) = None.
Proof. intros. eapply removed_stays; eauto. Qed.
Print Assumptions C111_producer_number.
(** ... and, as soon as a packet published before the removal would have expired, sends no packet
    that names [p] *)
Theorem C111_producer_forgets : forall K evs p mid e s0 o0 s o s' out d,
  scheme_ok (pc_codec K) (pc_scheme K) ->
  Forall pev_wf (evs ++ PRemove p :: mid ++ [e]) -> collision_free (pc_n K) (history (evs ++ PRemove p :: mid ++ [e])) ->
  pp_run K (pp_new K) (evs ++ [PRemove p]) = Some (s0, o0) ->
  pp_run K (pp_new K) (evs ++ PRemove p :: mid) = Some (s, o) ->
  pp_run K (pp_new K) (evs ++ PRemove p :: mid ++ [e]) = Some (s', o ++ out) ->
  ~ In (PAdd p) (mid ++ [e]) -> erased_in_time (pp_now s) (pp_pub s) ->
  In d out -> d_type d = Blob -> pp_now s0 + d_fresh d < pp_now s' ->
  exists names, segment_of (encode_names names) d /\ without_prefix p names.
Proof.
  intros K evs p mid e s0 o0 s o s' out d Sk W Hc R0 R R' Ha T Hd Hb Ht.
  assert (evs ++ PRemove p :: mid ++ [e] = (evs ++ PRemove p :: mid) ++ [e]) as Ee by (rewrite <- app_assoc; reflexivity).
  rewrite Ee in W, Hc, R'.
  destruct (C94_producer_answers_are_recent K _ e s o s' out d Sk W Hc R R' T Hd Hb)
    as (pre & post & s1 & o1 & names & Ev & R1 & Le & Sg & Cu & _).
  exists names. split; auto.
  rewrite <- Ee in Ev. replace (evs ++ PRemove p :: mid ++ [e]) with ((evs ++ [PRemove p]) ++ (mid ++ [e])) in Ev
    by (rewrite <- app_assoc; reflexivity).
  apply app_eq_app in Ev as (l & [[A B]|[A B]]).
  { exfalso. rewrite A in R0. apply pp_run_cut in R0 as (sa & oa & ob & Ra & Rb & _). rewrite R1 in Ra. injection Ra as <- <-.
    apply pp_run_time in Rb. lia. }
  assert (get_seq p (pp_core s1) = None) as G.
  { assert (pre = evs ++ PRemove p :: l) as Ep by (rewrite A, <- app_assoc; reflexivity).
    apply (removed_stays K p evs l s1 o1); [| |rewrite <- Ep; exact R1].
    - rewrite <- Ee in W. apply Forall_app in W as [W1 W2]. apply Forall_app. split; auto. inversion W2; subst.
      constructor; auto. rewrite B in *. match goal with H : Forall _ (l ++ post) |- _ => apply Forall_app in H; tauto end.
    - intros X. apply Ha. rewrite B. apply in_or_app. auto. }
  intros x Hx. apply Cu in Hx as (q & v & A' & B'). destruct (append_number_snoc q v) as [y Ey]. rewrite Ey in A'.
  apply app_inj_tail in A' as [-> _]. congruence.
Qed.
Print Assumptions C111_producer_forgets.

(** two prefixes are announced in a hello reply, one of them is removed; after the freshness period
    the hello reply names the other one only *)
Definition evs_111 : list pev := [PAdd pa; PAdd pb; PPublishName pa None; PInterest (syncp ++ [HELLO]) 1000].
Definition mid_111 : list pev := [PTick 1000; PStoreFire 0; PTick 1].
Example C111_producer_example : exists s0 o0 s o s' d,
  pp_run Kx (pp_new Kx) (evs_111 ++ [PRemove pa]) = Some (s0, o0) /\
  pp_run Kx (pp_new Kx) (evs_111 ++ PRemove pa :: mid_111) = Some (s, o) /\
  pp_run Kx (pp_new Kx) (evs_111 ++ PRemove pa :: mid_111 ++ [PInterest (syncp ++ [HELLO]) 1000]) = Some (s', o ++ [d]) /\
  Forall pev_wf (evs_111 ++ PRemove pa :: mid_111 ++ [PInterest (syncp ++ [HELLO]) 1000]) /\
  ~ In (PAdd pa) (mid_111 ++ [PInterest (syncp ++ [HELLO]) 1000]) /\
  erased_in_time (pp_now s) (pp_pub s) /\ pp_now s0 + d_fresh d < pp_now s' /\ d_type d = Blob /\
  d_content d = encode_names [append_number pb 0].
Proof.
  eexists _, _, _, _, _, _. split; [vm_compute; reflexivity|]. split; [vm_compute; reflexivity|]. split; [vm_compute; reflexivity|].
  split; [repeat constructor|]. split; [intros [H|[H|[H|[H|[]]]]]; discriminate|].
  split; [intros dl n []|]. split; [vm_compute; reflexivity|]. split; vm_compute; reflexivity.
Qed.

(** a full-sync node whose application removed [p] keeps no number for it, and sends no packet that
    names it as soon as a packet published before the removal would have expired, provided that
    neither the application publishes [p] nor received sync data names it.
    Missing: sync data that names [p] ([C111_node_forgets_refuted]) *)
Theorem C111_node_forgets_partial : forall K sys evs p mid e s0 o0 s o s' out d,
  uri_ok K -> reaches K sys (evs ++ [FeApi (ARemove p)]) s0 o0 ->
  reaches K sys (evs ++ FeApi (ARemove p) :: mid) s o ->
  reaches K sys (evs ++ FeApi (ARemove p) :: mid ++ [e]) s' (o ++ out) -> no_collision K (o ++ out) ->
  Forall (silent_about K p) (mid ++ [e]) -> erased_in_time (f_now s) (f_pub s) ->
  In (FoData d) out -> d_type d = Blob -> f_now s0 + d_fresh d < f_now s ->
  exists names buf, compress (fc_codec K) (fc_cscheme K) (encode_names names) = Ok buf /\ segment_of buf d /\ without_prefix p names.
Proof.
  intros K sys evs p mid e s0 o0 s o s' out d Uk R0 R R' Nc Sl T Hd Hb Ht.
  assert (evs ++ FeApi (ARemove p) :: mid ++ [e] = (evs ++ FeApi (ARemove p) :: mid) ++ [e]) as Ee by (rewrite <- app_assoc; reflexivity).
  rewrite Ee in R'.
  destruct (answers_list K sys _ e s o s' out d Uk R R' Nc T Hd Hb) as (pre & e1 & post & s1 & o1 & k & names & buf & Ev & R1 & Le & Hk & Co & Sg & Nm).
  exists names, buf. split; auto. split; auto.
  destruct (in_full_run _ _ _ _ _ _ _ _ _ _ R' Ev R1) as (We1 & _).
  rewrite <- Ee in Ev. replace (evs ++ FeApi (ARemove p) :: mid ++ [e]) with ((evs ++ [FeApi (ARemove p)]) ++ (mid ++ [e])) in Ev
    by (rewrite <- app_assoc; reflexivity).
  apply app_eq_app in Ev as (l & [[A B]|[A B]]).
  { exfalso. pose proof R0 as Rc. rewrite A in Rc. apply reaches_cut in Rc as (sa & oa & ob & Ra & Rb & _).
    destruct R1 as [_ R1], Ra as [_ Ra]. rewrite R1 in Ra. injection Ra as <- <-. apply run_time_mono in Rb. lia. }
  rewrite B in Sl. apply Forall_app in Sl as [S1 S2]. inversion S2; subst.
  assert (seq0 (get_seq p (f_core s1)) = 0) as Z.
  { apply (silent_run K sys p _ l s0 o0 s1 o1 R0); auto. rewrite (removed_full _ _ _ _ _ _ R0). reflexivity. }
  eapply silent_names; eauto.
Qed.
Print Assumptions C111_node_forgets_partial.
Theorem C111_node_number_partial : forall K sys evs p mid s o,
  reaches K sys (evs ++ FeApi (ARemove p) :: mid) s o -> Forall (silent_about K p) mid ->
  get_seq p (f_core s) = None \/ get_seq p (f_core s) = Some 0.
Proof.
  intros K sys evs p mid s o R Sl. assert (evs ++ FeApi (ARemove p) :: mid = (evs ++ [FeApi (ARemove p)]) ++ mid) as Ee by (rewrite <- app_assoc; reflexivity).
  rewrite Ee in R. destruct (reaches_cut _ _ _ _ _ _ R) as (s0 & o0 & ob & R0 & _ & _).
  assert (seq0 (get_seq p (f_core s)) = 0) as Z.
  { apply (silent_run K sys p _ mid s0 o0 s o R0); auto. rewrite (removed_full _ _ _ _ _ _ R0). reflexivity. }
  destruct (get_seq p (f_core s)) as [v|]; auto. cbn in Z. subst. auto.
Qed.
Print Assumptions C111_node_number_partial.

(** a peer that still knows the prefix brings it back: the application removed [pa] and never
    mentioned it again, yet over a freshness period later the node announces it *)
Definition evs_111r : list fev := [FeApi (AAdd pa); FeApi (APublish pa (Some 4))].
Definition mid_111r : list fev := [FeContent 0 (a_content 4) []; FeTick 1001].
Theorem C111_node_forgets_refuted : exists K sys evs p mid e s0 o0 s o s' out d,
  uri_ok K /\ reaches K sys (evs ++ [FeApi (ARemove p)]) s0 o0 /\
  reaches K sys (evs ++ FeApi (ARemove p) :: mid) s o /\
  reaches K sys (evs ++ FeApi (ARemove p) :: mid ++ [e]) s' (o ++ out) /\
  flat_map ev_ops (mid ++ [e]) = [] /\ erased_in_time (f_now s) (f_pub s) /\
  In (FoData d) out /\ d_type d = Blob /\ f_now s0 + d_fresh d < f_now s /\
  d_content d = encode_names [append_number p 4].
Proof.
  exists Kf, 0%Z, evs_111r, pa, mid_111r, (FeInterest blank_ask 1000). eexists _, _, _, _, _, _, _.
  split; [intros n; reflexivity|]. split; [split; [repeat constructor; vm_compute; reflexivity|vm_compute; reflexivity]|].
  split; [split; [repeat constructor; vm_compute; reflexivity|vm_compute; reflexivity]|].
  split; [split; [repeat constructor; vm_compute; reflexivity|vm_compute; reflexivity]|]. split; [reflexivity|].
  split; [vm_compute; intros dl n []|]. split; [left; reflexivity|]. split; [reflexivity|]. split; vm_compute; reflexivity.
Qed.
Print Assumptions C111_node_forgets_refuted.

(** two prefixes are announced, one of them is removed, and the same request is answered with the
    other one only when the first answer has expired; the content received in between names the other one *)
Definition evs_111f : list fev := [FeApi (AAdd pa); FeApi (AAdd pb); FeApi (APublish pa None); FeApi (APublish pb None); FeInterest blank_ask 1000].
Definition mid_111f : list fev := [FeContent 1 (encode_names [append_number pb 5]) []; FeTick 1000; FeStore 0; FeTick 1].
Example C111_node_example : exists s0 o0 s o s' d,
  reaches Kf 0 (evs_111f ++ [FeApi (ARemove pa)]) s0 o0 /\
  reaches Kf 0 (evs_111f ++ FeApi (ARemove pa) :: mid_111f) s o /\
  reaches Kf 0 (evs_111f ++ FeApi (ARemove pa) :: mid_111f ++ [FeInterest blank_ask 1000]) s' (o ++ [FoData d]) /\
  Forall (silent_about Kf pa) (mid_111f ++ [FeInterest blank_ask 1000]) /\
  erased_in_time (f_now s) (f_pub s) /\ d_type d = Blob /\ f_now s0 + d_fresh d < f_now s /\
  d_content d = encode_names [append_number pb 5].
Proof.
  eexists _, _, _, _, _, _. split; [split; [repeat constructor|vm_compute; reflexivity]|].
  split; [split; [repeat constructor|vm_compute; reflexivity]|]. split; [split; [repeat constructor|vm_compute; reflexivity]|].
  split.
  { assert (forall e, ev_ops e = [] -> (forall i buf script, e <> FeContent i buf script) -> silent_about Kf pa e) as H.
    { intros e H1 H2. split; [rewrite H1; intros q []|]. intros i buf script names x -> _ _. apply (H2 i buf script eq_refl). }
    repeat apply Forall_cons; try (apply H; [reflexivity|discriminate]); [|apply Forall_nil].
    split; [intros q []|]. intros i buf script names x [= <- <- <-] Hn Hx. vm_compute in Hn. injection Hn as <-.
    destruct Hx as [Hx|[]]. vm_compute in Hx. discriminate. }
  split; [vm_compute; intros dl n []|]. split; [reflexivity|]. split; vm_compute; reflexivity.
Qed.
