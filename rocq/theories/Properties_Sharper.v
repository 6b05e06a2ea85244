(** C51, C92: exactly when these properties fail. *)
From Coq Require Import List NArith ZArith Bool Arith Lia Sorted.
From Coq.Strings Require Import Byte.
From Verif Require Import Base BaseFacts Mon MonFacts Iblt Tlv TlvFacts State StateFacts NMap NMapFacts Codec
  Bloom SpecBloom BloomFacts Properties_Bloom Store Producer SpecProducer ProducerFacts Properties_Producer Partial PartialFacts PartialSteps
  Properties_Partial Full SpecFull FullData FullRuns Properties_Full Consumer SpecConsumer ConsumerFacts Properties_Consumer Apps AppFacts Properties_Apps.
Import ListNotations.
Local Open Scope N_scope.

Lemma pres_ok (P : cs -> Prop) {A} (m : CM A) s s' o a : pres P m -> P s -> m s = (s', o, Ok a) -> P s'.
Proof. intros H Hs E. specialize (H s Hs). rewrite E in H. apply H. exact I. Qed.
Lemma calls_stop K l : forall s s' o, linv s -> calls K (l ++ [CStop]) s = (s', o, Ok tt) -> quiet s'.
Proof.
  induction l as [|a l IH]; intros s s' o L E; cbn [app calls] in E.
  - change (calls K [CStop]) with (call K CStop ;; mret tt) in E.
    apply mbind_ok in E as (s1 & o1 & [] & o2 & E1 & E2 & _). injection E2 as <- _.
    cbn [call] in E1. pose proof (stop_quiet s L) as Q. rewrite E1 in Q. exact Q.
  - apply mbind_ok in E as (s1 & o1 & [] & o2 & E1 & E2 & _).
    eapply IH; [|exact E2]. eapply (pres_ok linv); [apply linv_call|exact L|exact E1].
Qed.

(** * C51 *)
(** stop() is the last thing the application calls from the update callback for a reply: afterwards no fetch and no
    timer is left exactly if the reply was a hello reply; after a sync reply the last thing is another sync interest *)
Theorem C51_stop_in_callback_exactly_when : forall K evs s o i k n buf sc s' o' l,
  creaches K evs s o -> cfetch i (c_live s) = Some (k, n) ->
  c_step K (CeContent i buf [] (sc ++ [CStop])) s = (s', o', Ok tt) -> In (CoUpdate l) o' ->
  (c_live s' = [] /\ c_timers s' = [] <-> k = KHello) /\
  (k = KSync -> exists o1 m, o' = o1 ++ [CoInterest KSync m]).
Proof.
  intros K evs s o i k n buf sc s' o' l R Hf E Hl. apply creaches_inv in R as (_ & _ & _ & L).
  cbn [c_step] in E. rewrite mbind_get, Hf in E. destruct k.
  - split; [|discriminate]. split; [reflexivity|]. intros _.
    apply mbind_ok in E as (s1 & o1 & [] & o2 & E1 & E & ->). pose proof (pres_ok _ _ _ _ _ _ (linv_finish' i) L E1) as L1.
    injection E1 as _ <-. cbn [app] in Hl. unfold on_hello_data in E. rewrite mbind_mod in E.
    set (s2 := cset_iblt _ s1) in E. assert (linv s2) as L2 by (eapply linv_same; [..|exact L1]; reflexivity). clearbody s2.
    apply mbind_ok in E as (s3 & p & names & o3 & E1 & E & ->). injection E1 as <- <- _. cbn [app] in Hl.
    apply mbind_ok in E as (s3 & p & x & o4 & E1 & E & ->). pose proof (pres_ok _ _ _ _ _ _ (linv_take_hello _ _) L2 E1) as L3.
    pose proof (take_hello_inv names [] s2) as (P1 & _). rewrite E1 in P1. cbn in P1. subst p. cbn [app] in Hl.
    apply mbind_ok in E as (s4 & p & [] & o5 & E2 & E & ->). injection E2 as <- <-.
    destruct Hl as [Hl|Hl]; [discriminate|].
    apply mbind_ok in E as (s4 & p & [] & o6 & E2 & E & ->). injection E2 as <- <-. cbn [app] in Hl.
    destruct (fst x) as [|y ys]; [injection E as _ <-; destruct Hl|].
    apply mbind_ok in E as (s4 & p & [] & o7 & E2 & E & ->). injection E2 as <- <-.
    exact (calls_stop K sc s3 s' o7 L3 E).
  - assert (exists o1 m, o' = o1 ++ [CoInterest KSync m] /\ c_live s' <> []) as (o1 & m & A & B).
    { apply mbind_ok in E as (s1 & o1 & [] & o2 & E1 & E & ->). injection E1 as _ <-. cbn [app] in Hl |- *.
      destruct (is_nack (c_type s)); [injection E as _ <-; destruct Hl|].
      unfold on_csync_data in E. rewrite mbind_mod in E.
      apply mbind_ok in E as (s3 & p3 & names & o3 & _ & E & ->).
      apply mbind_ok in E as (s4 & p4 & ups & o4 & _ & E & ->).
      apply mbind_ok in E as (s5 & p5 & [] & o5 & _ & E & ->).
      rewrite send_sync_eq in E. destruct (c_iblt s5) as [|c r]; [discriminate|].
      destruct (append_bloom _ _) as [n1| | |]; try discriminate. injection E as <- <-.
      exists (p3 ++ p4 ++ p5). eexists. split; [rewrite <- !app_assoc; reflexivity|discriminate]. }
    split; [|eauto]. split; [intros [X _]; contradiction|discriminate].
Qed.
Print Assumptions C51_stop_in_callback_exactly_when.

Example C51_stop_in_callback_example : exists n s' o' l,
  creaches Kc evs_c2 s_c2 o_c2 /\ cfetch 1 (c_live s_c2) = Some (KSync, n) /\
  c_step Kc (CeContent 1 (encode_names [append_number pb 8]) [] ([CUnsub pb] ++ [CStop])) s_c2 = (s', o', Ok tt) /\
  In (CoUpdate l) o'.
Proof.
  eexists _, _, _, _. split; [exact reach_c2|]. split; [vm_compute; reflexivity|]. split; [vm_compute; reflexivity|].
  left. reflexivity.
Qed.

(** * C92 *)
(** for ranges as the library reports them, the callback returns exactly if no range ends at the largest number *)
Theorem C92_returns_exactly_when : forall l,
  Forall (fun m => mi_low m <= mi_high m + 1 /\ mi_low m < two64 /\ mi_high m < two64) l ->
  ((exists f, log_updates f l <> Hang) <-> Forall (fun m => mi_high m <> two64 - 1) l).
Proof.
  intros l F. split.
  - intros [f H]. induction l as [|m l IH]; [constructor|]. inversion F as [|? ? (A & B & C) F']; subst.
    cbn [log_updates] in H. constructor.
    + intros E. rewrite E, log_range_hangs in H by exact B. apply H. reflexivity.
    + apply IH; auto. intros E. rewrite E in H.
      destruct (log_range f (mi_low m) (mi_high m)) as [a|e|u|] eqn:X; try (apply H; reflexivity); clear - X.
      * exfalso. revert X. generalize (mi_low m). induction f as [|f IH]; intros i X; cbn in X; [discriminate|].
        destruct (i <=? _); [|discriminate]. destruct (log_range f _ _) eqn:Y; try discriminate. injection X as ->. apply (IH _ Y).
      * exfalso. revert X. generalize (mi_low m). induction f as [|f IH]; intros i X; cbn in X; [discriminate|].
        destruct (i <=? _); [|discriminate]. destruct (log_range f _ _) eqn:Y; try discriminate. injection X as ->. apply (IH _ Y).
  - intros G. destruct (C92_callback_returns_partial l) as [f Hf].
    + apply Forall_forall. intros m Hm. rewrite Forall_forall in F, G. specialize (F m Hm). specialize (G m Hm). destruct F as (F1 & F2 & F3). lia.
    + exists f. rewrite Hf by lia. discriminate.
Qed.
Print Assumptions C92_returns_exactly_when.
Example C92_returns_example : exists l,
  Forall (fun m => mi_low m <= mi_high m + 1 /\ mi_low m < two64 /\ mi_high m < two64) l /\
  ~ Forall (fun m => mi_high m <> two64 - 1) l /\ l <> [].
Proof.
  exists [mkMissing pa 1 3 0; mkMissing pb 7 (two64 - 1) 0].
  split; [repeat constructor; discriminate|]. split; [|discriminate].
  intros F. inversion F as [|? ? _ F1]; subst. inversion F1 as [|? ? X _]; subst. apply X. reflexivity.
Qed.
