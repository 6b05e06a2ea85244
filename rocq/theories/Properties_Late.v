(** C65: which subscriptions, made at any time, are up to date. *)
From Coq Require Import List NArith ZArith Bool Arith Lia.
From Coq.Strings Require Import Byte.
From Verif Require Import Base BaseFacts Mon MonFacts Iblt SpecIblt HonestFacts Tlv TlvFacts State NMap NMapFacts Codec CodecFacts
  Properties_Iblt Bloom SpecBloom BloomFacts Properties_Bloom Store StoreFacts Producer SpecProducer ProducerFacts Properties_Producer
  Partial SpecPartial PartialFacts PartialSteps Properties_Partial Full SpecFull FullRuns Consumer SpecConsumer ConsumerFacts Properties_Consumer
  SpecExchange ExchangeFacts Properties_Exchange SpecGroup GroupFacts Properties_Group SpecPair PairProducer PairConsumer PairFacts Properties_Pair
  SpecOrder OrderConsumer.
Import ListNotations.
Local Open Scope N_scope.

(** who knows the current number of a prefix knows what any earlier IBF of the producer covers of it *)
Lemma DI_knows K Kc b0 S W w p0 : DI K Kc b0 S W w -> no_removal (history (du_evs w)) -> seq_of p0 (du_cons w) = current w p0 ->
  DI K Kc b0 (eq p0) (fun _ => 0) w.
Proof.
  intros [Dn Dr Dw Dc Dt] Nr Hk. constructor; auto. destruct Dc as [C1 C2 C3 C4 C5 C6]. pose proof (history_wf _ Dw) as Wh.
  assert (forall k p, p0 = p -> point (pc_n K) (history (du_evs w)) k -> covered (fun _ => 0) (du_cons w) k p) as Cv.
  { intros k p <- Pt. unfold covered. destruct (get_seq p0 k) as [v|] eqn:G; [|simpl; lia].
    destruct (point_below (pc_n K) _ k p0 v Wh Nr Pt G) as (u & Eu & L). unfold current in Hk. rewrite Eu in Hk. assert (ConsumerFacts.known (du_cons w) p0 = Some u) as -> by exact Hk. simpl. lia. }
  constructor; auto.
  - destruct C3 as [H|(cc & k & A & B & C & D & _)]; [left; exact H|]. right. exists cc, k. auto 6.
  - intros i m H. destruct (C5 i m H) as (c1 & c2 & c3 & cc & k & b & A & B & C & D & Z). exists c1, c2, c3, cc, k, b.
    repeat (split; [assumption|]). intros p Hp. destruct (Z p Hp) as [[Z1 _]|Z1]; auto.
Qed.

(** * C65 *)
(** a subscriber who knew the current number once, knows it whenever it holds the current IBF, as long as it stays subscribed *)
Theorem C65_current_once_current_later : forall K Kc w0 w1 w2 p,
  duo_ok K Kc -> fresh_duo K Kc w0 -> duo_run K Kc subscribes_any_time w0 w1 ->
  is_subscribed p (du_cons w1) = true -> duo_run K Kc (SpecPair.keeps p subscribes_any_time) w1 w2 ->
  no_removal (history (du_evs w2)) -> plain K w2 -> holds_current_ibf K w2 ->
  seq_of p (du_cons w1) = current w1 p -> seq_of p (du_cons w2) = current w2 p.
Proof.
  intros K Kc w0 w1 w2 p Ok2 Fr R1 Hp R2 Nr Pl Ho Hk. destruct (DI_fresh K Kc w0 Fr) as (b0 & D0).
  destruct (earlier_run K Kc _ _ _ R2 Pl Nr) as [Pl1 Nr1].
  destruct (DI_run K Kc Ok2 b0 (fun _ => False) (fun _ => 0) (fun _ => True) subscribes_any_time w0 w1) as [D1 _]; auto.
  { intros w a D _. eapply any_allowed; [exact D|]. intros q []. }
  apply (DI_knows K Kc _ _ _ _ p) in D1; auto.
  destruct (DI_run K Kc Ok2 b0 (eq p) (fun _ => 0) (fun w => sub (du_cons w) p) (SpecPair.keeps p subscribes_any_time) w1 w2)
    as [D2 S2]; auto.
  { intros w a D Hs [A B]. eapply any_allowed; [exact D| |exact A]. intros q <-. auto. }
  { intros w w' Hs St D. eapply duo_step_sub; [|exact St|exact Hs]. apply (di_ci _ _ _ _ _ _ D). }
  destruct (DI_current K Kc Ok2 _ _ _ _ p D2 Pl Nr Ho eq_refl S2) as (v & u & -> & Eu & L1 & L2). rewrite Eu. f_equal. lia.
Qed.
Print Assumptions C65_current_once_current_later.
(** so this is all that can be lost: if a subscriber holds the current IBF and not the current number, then at every moment since
    it subscribed the producer had this same number and the consumer did not; it subscribed too late and nothing was published since *)
Theorem C65_lost_only_if_late : forall K Kc w0 w1 w2 p,
  duo_ok K Kc -> fresh_duo K Kc w0 -> duo_run K Kc subscribes_any_time w0 w1 ->
  is_subscribed p (du_cons w1) = true -> duo_run K Kc (SpecPair.keeps p subscribes_any_time) w1 w2 ->
  no_removal (history (du_evs w2)) -> plain K w2 -> holds_current_ibf K w2 ->
  seq_of p (du_cons w2) <> current w2 p ->
  current w1 p = current w2 p /\ exists v u, seq_of p (du_cons w1) = Some v /\ current w1 p = Some u /\ v < u.
Proof.
  intros K Kc w0 w1 w2 p Ok2 Fr R1 Hp R2 Nr Pl Ho Hl.
  assert (seq_of p (du_cons w1) <> current w1 p) as Hk.
  { intros X. apply Hl. exact (C65_current_once_current_later K Kc w0 w1 w2 p Ok2 Fr R1 Hp R2 Nr Pl Ho X). }
  assert (current w1 p = current w2 p) as Hc.
  { assert ({current w1 p = current w2 p} + {current w1 p <> current w2 p}) as [X|X] by (decide equality; apply N.eq_dec); [exact X|].
    destruct Hl. exact (C65_later_updates_arrive_partial K Kc w0 w1 w2 p Ok2 Fr R1 Hp R2 Nr Pl Ho X). }
  split; [exact Hc|]. destruct (earlier_run K Kc _ _ _ R2 Pl Nr) as [Pl1 Nr1]. destruct (DI_fresh K Kc w0 Fr) as (b0 & D0).
  destruct (DI_run K Kc Ok2 b0 (fun _ => False) (fun _ => 0) (fun _ => True) subscribes_any_time w0 w1) as [D1 _]; auto.
  { intros w a D _. eapply any_allowed; [exact D|]. intros q []. }
  pose proof (di_known _ _ (ci_d _ _ _ _ _ _ _ _ _ _ (di_ci _ _ _ _ _ _ D1)) p Hp) as Hn. change (seq_of p (du_cons w1) <> None) in Hn.
  destruct (seq_of p (du_cons w1)) as [v|] eqn:Ev; [|congruence].
  destruct (C65_never_ahead_partial K Kc w0 w1 p v Ok2 Fr R1 Nr1 Pl1 Ev) as (u & Eu & L). exists v, u. split; [reflexivity|]. split; [exact Eu|].
  assert (v <> u) by congruence. lia.
Qed.
Print Assumptions C65_lost_only_if_late.

(** and asking again repairs it: hello data that names the current number of a prefix the consumer is subscribed to brings the
    consumer up to date, and it is up to date from then on whenever it holds the current IBF *)
Theorem C65_hello_repairs : forall K Kc w0 w1 w2 w3 p u i n d buf names sc1 sc2 c1 o1 r1 c2 o2 r2,
  duo_ok K Kc -> fresh_duo K Kc w0 -> duo_run K Kc subscribes_any_time w0 w1 ->
  is_subscribed p (du_cons w1) = true -> current w1 p = Some u ->
  cfetch i (c_live (du_cons w1)) = Some (KHello, n) -> completes (fun x => In x (du_sent w1)) n d buf ->
  SpecPair.keeps p subscribes_any_time w1 (AppHello buf sc1 sc2) ->
  c_step Kc (CeSegment i d) (du_cons w1) = (c1, o1, r1) -> ends r1 ->
  c_step Kc (CeContent i buf sc1 sc2) c1 = (c2, o2, r2) -> ends r2 ->
  state_of_buffer buf = Ok names -> says names p u ->
  w2 = mkDuo (du_evs w1) (du_prod w1) (du_sent w1) c2 (du_seen w1 ++ o1 ++ o2) ->
  duo_run K Kc (SpecPair.keeps p subscribes_any_time) w2 w3 -> no_removal (history (du_evs w3)) -> plain K w3 ->
  seq_of p (du_cons w2) = current w2 p /\ (holds_current_ibf K w3 -> seq_of p (du_cons w3) = current w3 p).
Proof.
  intros K Kc w0 w1 w2 w3 p u i n d buf names sc1 sc2 c1 o1 r1 c2 o2 r2 Ok2 Fr R1 Hp Hu Fi Cm [Ru Nu] E1 F1 E2 F2 En Hs -> R3 Nr Pl.
  destruct (earlier_run K Kc _ _ _ R3 Pl Nr) as [Pl2 Nr2].
  assert (duo_run K Kc subscribes_any_time w0 (mkDuo (du_evs w1) (du_prod w1) (du_sent w1) c2 (du_seen w1 ++ o1 ++ o2))) as R2.
  { eapply duo_next; [exact R1|]. eapply duo_fetch; eauto. }
  destruct (DI_fresh K Kc w0 Fr) as (b0 & D0).
  assert (duo_run K Kc subscribes_any_time w1 (mkDuo (du_evs w1) (du_prod w1) (du_sent w1) c2 (du_seen w1 ++ o1 ++ o2))) as R12.
  { eapply duo_next; [constructor|]. eapply duo_fetch; eauto. }
  destruct (earlier_run K Kc _ _ _ R12 Pl2 Nr2) as [Pl1 Nr1].
  destruct (DI_run K Kc Ok2 b0 (fun _ => False) (fun _ => 0) (fun _ => True) subscribes_any_time w0 w1) as [D1 _]; auto.
  { intros w a D _. eapply any_allowed; [exact D|]. intros q []. }
  pose proof (di_ci _ _ _ _ _ _ D1) as Ci.
  destruct (segment_result Kc i d (du_cons w1) c1 o1 r1 (ci_l _ _ _ _ _ _ _ _ _ _ Ci) E1) as [_ G].
  destruct Cm as (base & segs & c & lst & _ & _ & Fd & _).
  destruct (sg_hname _ _ _ _ _ _ G n c Fi Fd) as [_ Lv]. pose proof (sg_data _ _ _ _ _ _ G) as Sd.
  assert (dinv b0 c1) as Dc by (eapply dinv_same; [exact Sd|apply (ci_d _ _ _ _ _ _ _ _ _ _ Ci)]).
  assert (is_subscribed p c1 = true) as Sp by (unfold is_subscribed in *; destruct Sd as (_ & Z & _); congruence).
  pose proof (cstep_order b0 Kc (CeContent i buf sc1 sc2) c1 p Dc) as X. rewrite E2 in X. cbn [st res fst snd] in X.
  destruct (X (ends_fine _ F2) Nu Sp) as [Sp2 (_ & B & _)].
  assert (u <= seq0 (ConsumerFacts.known c2 p)) as Lo.
  { apply B. exists i, buf, sc1, sc2, KHello, n, names. rewrite Lv. repeat (split; [first [reflexivity|assumption|discriminate]|]). exact Hs. }
  assert (seq_of p c2 = Some u) as Eu.
  { assert (seq_of p c2 <> None) as Hn.
    { destruct (DI_run K Kc Ok2 b0 (fun _ => False) (fun _ => 0) (fun _ => True) subscribes_any_time w0
        (mkDuo (du_evs w1) (du_prod w1) (du_sent w1) c2 (du_seen w1 ++ o1 ++ o2))) as [D2 _]; auto.
      { intros w a D _. eapply any_allowed; [exact D|]. intros q []. }
      exact (di_known _ _ (ci_d _ _ _ _ _ _ _ _ _ _ (di_ci _ _ _ _ _ _ D2)) p Sp2). }
    destruct (seq_of p c2) as [v|] eqn:Ev; [|congruence].
    destruct (C65_never_ahead_partial K Kc w0 _ p v Ok2 Fr R2 Nr2 Pl2 Ev) as (u' & Eu' & L). unfold current in *. cbn [du_evs] in *.
    change (ConsumerFacts.known c2 p) with (seq_of p c2) in Lo. rewrite Ev in Lo. cbn [seq0] in Lo.
    assert (u' = u) as -> by congruence. f_equal. lia. }
  assert (seq_of p c2 = current w1 p) as Ec by congruence. split; [exact Ec|].
  intros Ho. eapply (C65_current_once_current_later K Kc w0 _ w3 p); eauto.
Qed.
Print Assumptions C65_hello_repairs.

(** hypotheses: the run of the refutation; the prefix subscribed in the hello callback is current and stays so, the other is lost *)
Lemma run_v9_v13 : duo_run Kx Kc (SpecPair.keeps pb subscribes_any_time) v9 v13.
Proof.
  apply (duo_next _ _ _ _ v12); [apply (duo_next _ _ _ _ v11); [apply (duo_next _ _ _ _ v10); [apply (duo_next _ _ _ _ v9); [constructor|]|]|]|].
  - replace v10 with (wc subs_a v9) by run. apply do_calls; [|apply step3; run]. split.
    + split.
      * intros p v cb [H|[H|[]]]; [|discriminate]. injection H as <- <- _. exact told_v9.
      * intros [|a [|b [|c l1]]] p v cb l2 E; try discriminate E. injection E as _ _ _ <-. left. left. reflexivity.
    + intros [H|[H|[]]]; discriminate.
  - replace v11 with (wi v10) by run. apply do_wait; run.
  - replace v12 with (wp (PPublishName pa (Some 2)) v11) by run. apply do_prod; [reflexivity|apply step3; run].
  - replace v13 with (wf 3 d12 [] [] v12) by run.
    apply (do_fetch _ 3 KSync (sync_n v10)); [run|right; right; left; run|run|run|run|split; [apply any_rules|intros []]|apply step3; run|apply step3; run].
Qed.
Example C65_late_example :
  duo_ok Kx Kc /\ fresh_duo Kx Kc w0 /\
  duo_run Kx Kc subscribes_any_time w0 v9 /\ is_subscribed pb (du_cons v9) = true /\ duo_run Kx Kc (SpecPair.keeps pb subscribes_any_time) v9 v13 /\
  no_removal (history (du_evs v13)) /\ plain Kx v13 /\ holds_current_ibf Kx v13 /\ seq_of pb (du_cons v9) = current v9 pb /\
  duo_run Kx Kc subscribes_any_time w0 v10 /\ is_subscribed pa (du_cons v10) = true /\ duo_run Kx Kc (SpecPair.keeps pa subscribes_any_time) v10 v10 /\
  plain Kx v10 /\ holds_current_ibf Kx v10 /\ seq_of pa (du_cons v10) <> current v10 pa.
Proof.
  split; [exact duo_v|]. split; [exact fresh_v|]. split; [apply run_v9; intros w; apply any_rules|]. split; [run|]. split; [exact run_v9_v13|].
  split. { rewrite hist_v13. intros p [H|[H|[H|[H|[H|[]]]]]]; discriminate. }
  split; [exact plain_v13|]. split; [apply current_check; run|]. split; [run|]. split; [exact run_v10|]. split; [run|]. split; [constructor|].
  split; [exact plain_v10|]. split; [apply current_check; run|]. vm_compute. discriminate.
Qed.
(** the lost update of the refutation is repaired by asking for hello data again *)
Definition h1 : duo := Eval vm_compute in wp (PInterest hello_n 1000) (wp (PStoreFire 0) (wp (PTick 5000) (wc [CSendHello] v10))).
Definition g1 : data := Eval vm_compute in last_data h1.
Definition h2 : duo := Eval vm_compute in wf 4 g1 [] [] h1.
Lemma run_h1 : duo_run Kx Kc subscribes_any_time w0 h1.
Proof.
  apply (duo_next _ _ _ _ (wp (PStoreFire 0) (wp (PTick 5000) (wc [CSendHello] v10)))); [apply (duo_next _ _ _ _ (wp (PTick 5000) (wc [CSendHello] v10)));
    [apply (duo_next _ _ _ _ (wc [CSendHello] v10)); [apply (duo_next _ _ _ _ v10); [exact run_v10|]|]|]|].
  - apply do_calls; [apply any_rules|apply step3; run].
  - apply do_prod; [exact I|apply step3; run].
  - apply do_prod; [exact I|apply step3; run].
  - replace h1 with (wp (PInterest hello_n 1000) (wp (PStoreFire 0) (wp (PTick 5000) (wc [CSendHello] v10)))) by run.
    apply do_prod; [exact I|apply step3; run].
Qed.
Lemma plain_h2 : plain Kx h2.
Proof.
  destruct plain_v10 as [A B C D]. replace (history (du_evs v10)) with (history (du_evs h2)) in * by run. constructor; auto.
  left. replace (pb_published (pp_pub (du_prod h2))) with 3%nat by run. split; [intros a H|intros a b H H'].
  - destruct a as [|[|[|a]]]; [run..|lia].
  - destruct a as [|[|[|a]]], b as [|[|[|b]]]; try lia; try reflexivity; vm_compute; discriminate.
Qed.
Example C65_hello_repairs_example : exists c1 o1 c2 o2 names,
  duo_run Kx Kc subscribes_any_time w0 h1 /\ is_subscribed pa (du_cons h1) = true /\
  seq_of pa (du_cons h1) = Some 0 /\ current h1 pa = Some 1 /\
  cfetch 4 (c_live (du_cons h1)) = Some (KHello, hello_n) /\ completes (fun x => In x (du_sent h1)) hello_n g1 (d_content g1) /\
  SpecPair.keeps pa subscribes_any_time h1 (AppHello (d_content g1) [] []) /\
  c_step Kc (CeSegment 4 g1) (du_cons h1) = (c1, o1, Ok tt) /\ c_step Kc (CeContent 4 (d_content g1) [] []) c1 = (c2, o2, Ok tt) /\
  state_of_buffer (d_content g1) = Ok names /\ says names pa 1 /\
  h2 = mkDuo (du_evs h1) (du_prod h1) (du_sent h1) c2 (du_seen h1 ++ o1 ++ o2) /\
  no_removal (history (du_evs h2)) /\ plain Kx h2 /\ holds_current_ibf Kx h2 /\ seq_of pa (du_cons h2) = Some 1.
Proof.
  exists (fst (fst (c_step Kc (CeSegment 4 g1) (du_cons h1)))), (snd (fst (c_step Kc (CeSegment 4 g1) (du_cons h1)))).
  exists (du_cons h2), (skipn (length (du_seen h1) + length (snd (fst (c_step Kc (CeSegment 4 g1) (du_cons h1))))) (du_seen h2)).
  exists (match state_of_buffer (d_content g1) with Ok l => l | _ => [] end).
  split; [exact run_h1|]. split; [run|]. split; [run|]. split; [run|]. split; [run|]. split.
  { exists (name_prefix_back (d_name g1) 1), [g1], (number_comp TYPE_SEGMENT 0), 0.
    split; [run|]. split; [left; reflexivity|]. split; [run|]. split; [reflexivity|]. split; [reflexivity|].
    split; [|run]. intros [|[|j]] x H; [|discriminate|discriminate]. injection H as <-. split; [right; right; left; run|run]. }
  split. { split; [apply any_hello|intros []]. split; [intros p v cb []|]. split; [|intros p v cb []]. intros [|a l1] p v cb l2 E; discriminate E. }
  split; [run|]. split; [run|]. split; [run|]. split.
  { exists [], (number_comp TYPE_GENERIC 1). eexists. split; [run|]. split; [run|constructor]. }
  split; [run|]. split.
  { replace (history (du_evs h2)) with [CAdd pa; CAdd pb; CPublish pa (Some 1); CPublish pb (Some 1)] by run.
    intros p [H|[H|[H|[H|[]]]]]; discriminate. }
  split; [exact plain_h2|]. split; [apply current_check; run|]. run.
Qed.
