(** Property theorems about complete exchanges between a partial producer and a consumer (C85, C86). *)
From Coq Require Import List NArith ZArith Bool Arith Lia.
From Coq.Strings Require Import Byte.
From Verif Require Import Base BaseFacts Mon MonFacts Iblt SpecIblt HonestFacts Tlv TlvFacts State NMap NMapFacts Codec CodecFacts
  Properties_Iblt Bloom SpecBloom BloomFacts Properties_Bloom Store StoreFacts Producer SpecProducer ProducerFacts Properties_Producer
  Partial SpecPartial PartialFacts PartialSteps Properties_Partial Full SpecFull FullRuns Consumer SpecConsumer ConsumerFacts Properties_Consumer
  SpecExchange ExchangeFacts Properties_Exchange SpecGroup GroupFacts Properties_Group SpecPair PairProducer PairConsumer PairFacts
  PairProgress Properties_Pair.
Import ListNotations.
Local Open Scope N_scope.

Lemma reached_DI K Kc w0 w : duo_ok K Kc -> fresh_duo K Kc w0 -> duo_run K Kc subscribes_in_hello w0 w ->
  no_removal (history (du_evs w)) -> plain K w -> exists b0, DI K Kc b0 (fun _ => True) (fun _ => 0) w.
Proof.
  intros Ok2 Fr R Nr Pl. destruct (DI_fresh K Kc w0 Fr) as (b0 & D0). exists b0.
  destruct (DI_run K Kc Ok2 b0 (fun _ => True) (fun _ => 0) (fun _ => True) subscribes_in_hello w0 w) as [D _]; auto.
  intros w1 a _ _. apply hello_allowed.
Qed.

(** * C85 *)
Theorem C85_waiting_means_up_to_date : forall K Kc w0 w,
  duo_ok K Kc -> fresh_duo K Kc w0 -> duo_run K Kc subscribes_in_hello w0 w ->
  no_removal (history (du_evs w)) -> plain K w -> waits_at_producer w -> up_to_date w.
Proof.
  intros K Kc w0 w Ok2 Fr R Nr Pl (i & m & e & Fi & He) p Hp.
  destruct (reached_DI K Kc w0 w Ok2 Fr R Nr Pl) as (b0 & D).
  destruct (waiting_current K Kc Ok2 b0 w i m e p D Pl Nr (cfetch_In _ _ _ Fi) He Hp) as (u & -> & ->). split; [discriminate|reflexivity].
Qed.
Print Assumptions C85_waiting_means_up_to_date.

(** * C86 *)
(** what becomes of the consumer's sync interest when it arrives *)
Theorem C86_interest_is_decided : forall K Kc w0 w i n l,
  duo_ok K Kc -> fresh_duo K Kc w0 -> duo_run K Kc subscribes_in_hello w0 w ->
  no_removal (history (du_evs w)) -> plain K w ->
  cfetch i (c_live (du_cons w)) = Some (KSync, n) -> reply_from_store n (pp_pub (du_prod w)) = None ->
  exists o w', producer_does K (PInterest n l) o w w' /\
    ((o = [] /\ waits_at_producer w' /\ up_to_date w') \/
     (exists d, o = [d] /\ d_type d = AppNack) \/
     (exists d, o = [d] /\ d_type d = Blob)).
Proof.
  intros K Kc w0 w i n l Ok2 Fr R Nr Pl Fi Hr. destruct (reached_DI K Kc w0 w Ok2 Fr R Nr Pl) as (b0 & D).
  destruct (arrival K Kc Ok2 _ _ _ w i n l D Pl (cfetch_In _ _ _ Fi) Hr) as (s & o & E & H).
  set (w' := mkDuo (du_evs w ++ [PInterest n l]) s (du_sent w ++ o) (du_cons w) (du_seen w)). exists o, w'.
  split; [exists s; split; [exact E|reflexivity]|]. destruct H as [[-> (e & He)]|[H|H]]; auto. left. split; [reflexivity|].
  assert (waits_at_producer w') as Wt by (exists i, n, e; split; [exact Fi|exact He]). split; [exact Wt|].
  assert (history (du_evs w') = history (du_evs w)) as Eh by (cbn [du_evs w']; rewrite history_app; apply app_nil_r).
  assert (pb_published (pp_pub s) = pb_published (pp_pub (du_prod w))) as Ep.
  { destruct (own_request K Kc Ok2 _ _ _ w i n D Pl (cfetch_In _ _ _ Fi)) as (k & b & pre & cc & Pk & Rq & Bs & Ik & Nk & Em & Tc).
    rewrite (step_request _ _ _ _ _ _ _ Rq Hr), mbind_lift in E. destruct (iblt_sub _ _ _) as [x|y|u|]; try discriminate.
    unfold on_request in E. rewrite mbind_get in E. destruct (negb (can_decode x)).
    - unfold pp_send_nack in E. rewrite mbind_get, mbind_lift in E. destruct (append_ibf _ _ _ _); discriminate.
    - rewrite mbind_lift in E. destruct (matching _ _ _) as [names|y|u|]; try discriminate. destruct (_ || _).
      + rewrite mbind_lift in E. destruct (append_ibf _ _ _ _) as [dn|y|u|]; try discriminate. rewrite pp_publish_eq in E.
        destruct (publish _ _ _ _ _ _ _) as [p' r] eqn:P. rewrite Em in P at 1.
        assert (exists d, r = Ok [d]) as (d & ->); [|discriminate]. edestruct publish_first as (d & v & g & Q & _); [exact P|apply generic_not_segment; exact Tc|exists d; exact Q].
      + injection E as <-. reflexivity. }
  apply (C85_waiting_means_up_to_date K Kc w0 w'); auto.
  - eapply duo_next; [exact R|]. apply (producer_step K Kc _ (PInterest n l) []); [exact I|]. exists s. split; [exact E|reflexivity].
  - rewrite Eh. exact Nr.
  - destruct Pl as [P1 P2 P3 P4]. constructor; rewrite ?Eh; auto. unfold told_apart in *. rewrite Eh. cbn [du_prod w']. rewrite Ep. exact P4.
Qed.
Print Assumptions C86_interest_is_decided.
Lemma reply_holds : forall K Kc w0 w1 w2 w3 w4 n l d0 d,
  duo_ok K Kc -> fresh_duo K Kc w0 -> duo_run K Kc subscribes_in_hello w0 w1 ->
  reply_from_store n (pp_pub (du_prod w1)) = None -> producer_does K (PInterest n l) [d0] w1 w2 -> d_type d0 = Blob ->
  duo_run K Kc subscribes_in_hello w2 w3 -> history (du_evs w3) = history (du_evs w2) ->
  fetches Kc subscribes_in_hello d w3 w4 -> same_content d d0 ->
  no_removal (history (du_evs w4)) -> plain K w4 -> duo_run K Kc subscribes_in_hello w0 w4 /\ holds_current_ibf K w4.
Proof.
  intros K Kc w0 w1 w2 w3 w4 n l d0 d Ok2 Fr R1 Hr Pd Ty R2 Eh Fe Sc Nr Pl.
  assert (duo_run K Kc subscribes_in_hello w0 w2) as R02
    by (eapply duo_next; [exact R1|]; apply (producer_step K Kc _ (PInterest n l) [d0]); [exact I|exact Pd]).
  pose proof (run_trans K Kc _ _ _ _ R02 R2) as R03. pose proof (fetches_step K Kc _ _ _ _ Fe) as St.
  assert (duo_run K Kc subscribes_in_hello w0 w4) as R04 by (eapply duo_next; eauto).
  destruct (earlier K Kc _ _ _ St Pl Nr) as [Pl3 Nr3].
  destruct (reached_DI K Kc w0 w3 Ok2 Fr R03 Nr3 Pl3) as (b0 & D3).
  destruct Pd as (s & Es & E2). destruct (fresh_name K _ n l s d0 (dk_scheme _ _ Ok2) Hr Es Ty) as (pre & c & v & g & En & Tv & Hc).
  pose proof Fe as (i & k & m & buf & sc1 & sc2 & c1 & o1 & r1 & c2 & o2 & r2 & Fi & Cm & _ & _ & _ & _ & _ & E4).
  pose proof Cm as (base & segs & fc & last & _ & Ind & _ & _ & _ & Sg & _). destruct (In_nth_error _ _ Ind) as (j & Hj). destruct (Sg j d Hj) as [Hs Hn].
  pose proof (content_blob K Kc Ok2 _ _ _ w3 d d0 pre c v g D3 Pl3 Hs Sc En Tv) as Tb.
  destruct (same_content_name d d0 pre c v g Sc (ex_intro _ base (ex_intro _ _ Hn)) En) as (g' & Ed).
  split; [exact R04|]. exists c. split; [eapply (fetch_holds Kc); eauto|]. rewrite E4. cbn [du_prod].
    destruct (now_point K Kc _ _ _ w3 D3) as [Cr3 _].
    assert (history (du_evs w2) = history (du_evs w1)) as E21 by (rewrite E2; cbn [du_evs]; rewrite history_app; apply app_nil_r).
    assert (plain K w1 /\ no_removal (history (du_evs w1))) as [Pl1 Nr1].
    { destruct (earlier_run K Kc _ _ _ R2 Pl3 Nr3) as [Pl2 Nr2].
      apply (earlier K Kc subscribes_in_hello w1 w2); auto. apply (producer_step K Kc _ (PInterest n l) [d0]); [exact I|]. exists s. auto. }
    destruct (reached_DI K Kc w0 w1 Ok2 Fr R1 Nr1 Pl1) as (b1 & D1). destruct (now_point K Kc _ _ _ w1 D1) as [Cr1 _].
    rewrite Eh, E21, Cr1 in Cr3. injection Cr3 as <-. exact Hc.
Qed.
(** the data computed on arrival of any interest (hello or sync), fetched before the producer's
    application does anything, brings the consumer up to date *)
Theorem C86_reply_brings_up_to_date : forall K Kc w0 w1 w2 w3 w4 n l d0 d,
  duo_ok K Kc -> fresh_duo K Kc w0 -> duo_run K Kc subscribes_in_hello w0 w1 ->
  reply_from_store n (pp_pub (du_prod w1)) = None -> producer_does K (PInterest n l) [d0] w1 w2 -> d_type d0 = Blob ->
  duo_run K Kc subscribes_in_hello w2 w3 -> history (du_evs w3) = history (du_evs w2) ->
  fetches Kc subscribes_in_hello d w3 w4 -> same_content d d0 ->
  no_removal (history (du_evs w4)) -> plain K w4 -> up_to_date w4.
Proof.
  intros K Kc w0 w1 w2 w3 w4 n l d0 d Ok2 Fr R1 Hr Pd Ty R2 Eh Fe Sc Nr Pl.
  destruct (reply_holds K Kc w0 w1 w2 w3 w4 n l d0 d Ok2 Fr R1 Hr Pd Ty R2 Eh Fe Sc Nr Pl) as [R04 Ho].
  intros p Hp. exact (C64_current_ibf_means_current_numbers_partial K Kc w0 w4 p Ok2 Fr R04 Nr Pl Ho Hp).
Qed.
Print Assumptions C86_reply_brings_up_to_date.

(** ** Examples *)
(** the consumer waits for updates of one prefix while the other one is published *)
Definition v7 : duo := Eval vm_compute in wp (PPublishName pa (Some 1)) v6.
Lemma plain_v7 : plain Kx v7.
Proof. apply (plain_earlier Kx v7 v13 (skipn 5 (du_evs v13))); [run|apply Nat.leb_le; run|apply plain_v13]. Qed.
Lemma run_hello_v6 : duo_run Kx Kc subscribes_in_hello w0 v6.
Proof. apply run_v6; intros w; apply hello_rules. Qed.
Lemma run_v7 : duo_run Kx Kc subscribes_in_hello w0 v7.
Proof.
  apply (duo_next _ _ _ _ v6); [exact run_hello_v6|]. replace v7 with (wp (PPublishName pa (Some 1)) v6) by run.
  apply do_prod; [reflexivity|apply step3; run].
Qed.
Lemma no_removal_check ops : forallb (fun o => match o with CRemove _ => false | _ => true end) ops = true -> no_removal ops.
Proof. intros H p Hp. rewrite forallb_forall in H. specialize (H _ Hp). discriminate. Qed.
Example C85_example :
  duo_ok Kx Kc /\ fresh_duo Kx Kc w0 /\ duo_run Kx Kc subscribes_in_hello w0 v7 /\ no_removal (history (du_evs v7)) /\ plain Kx v7 /\
  waits_at_producer v7 /\ is_subscribed pb (du_cons v7) = true /\ current v7 pa = Some 1.
Proof.
  split; [exact duo_v|]. split; [exact fresh_v|]. split; [exact run_v7|]. split; [apply no_removal_check; run|]. split; [exact plain_v7|].
  split; [|split; run]. assert (exists e, nm_find (sync_n v5) (pp_pending (du_prod v7)) = Some e) as (e & He) by (eexists; run).
  exists 1%nat, (sync_n v5), e. split; [run|exact He].
Qed.
(** an interest that will wait, and one that is answered: the subscribed prefix was published before it
    arrived *)
Definition y6 : duo := Eval vm_compute in wp (PPublishName pb (Some 1)) v5.
Definition y_ibf : comp := Eval vm_compute in gen (table_bytes (k_iblt (pp_core (du_prod y6)))).
Definition y7 : duo := Eval vm_compute in
  on_prod (PInterest (sync_n v5) 1000)
    (pp_publish Kx (sync_n v5) (sync_n v5 ++ [y_ibf]) (encode_names [append_number pb 1]) (pc_sync_fresh Kx) (du_prod y6)) y6.
Definition y_d : data := Eval vm_compute in last_data y7.
Definition y8 : duo := Eval vm_compute in wf 1 y_d [] [] y7.
Definition y_dec : iblt_diff :=
  Eval vm_compute in (ok_or (mkDiff true [] []) (iblt_sub (pc_fuel Kx) (k_iblt (pp_core (du_prod y6))) (k_iblt (pp_core (du_prod v5))))).
Lemma request_y : sync_request_for Kx (sync_n v5) (sync_n v5) (bf_with b_ex (filter_n (sync_n v5))) (k_iblt (pp_core (du_prod v5))).
Proof.
  assert (sync_n v5 = request Kx (filter_n (sync_n v5)) (k_iblt (pp_core (du_prod v5)))) as E by run. rewrite E at 1 2.
  apply request_ex; [reflexivity|reflexivity|apply bf_of; run|apply Nat.eqb_eq; run|].
  assert (forallb (fun c => in_i32 (c_count c) && (c_sum c <? two32) && (c_check c <? two32)) (k_iblt (pp_core (du_prod v5))) = true) as Wf by run.
  apply Forall_forall. intros c Hc. rewrite forallb_forall in Wf. specialize (Wf c Hc).
  apply andb_prop in Wf as [Wf W3]. apply andb_prop in Wf as [W1 W2]. split; [exact W1|]. split; apply N.ltb_lt; assumption.
Qed.
Lemma does_y7 : producer_does Kx (PInterest (sync_n v5) 1000) [y_d] y6 y7.
Proof.
  exists (du_prod y7). split; [|run].
  rewrite (step_decoded Kx (du_prod y6) (sync_n v5) (sync_n v5) 1000 (bf_with b_ex (filter_n (sync_n v5))) (k_iblt (pp_core (du_prod v5))) y_dec
    [append_number pb 1] y_ibf (or_introl eq_refl) request_y); [run|run|run|run|run|]. split; run.
Qed.
Lemma run_v5 : duo_run Kx Kc subscribes_in_hello w0 v5.
Proof.
  destruct (hello_rules v5) as (A & B & C).
  apply (duo_next _ _ _ _ v4); [apply (duo_next _ _ _ _ (wc [CSendHello] (wp (PAdd pb) (wp (PAdd pa) w0))))|].
  - apply (duo_next _ _ _ _ (wp (PAdd pb) (wp (PAdd pa) w0))).
    + apply (duo_next _ _ _ _ (wp (PAdd pa) w0)); [apply (duo_next _ _ _ _ w0); [constructor|]|]; apply do_prod; (exact I || apply step3; run).
    + apply do_calls; [exact A|apply step3; run].
  - replace v4 with (wp (PInterest hello_n 1000) (wc [CSendHello] (wp (PAdd pb) (wp (PAdd pa) w0)))) by run.
    apply do_prod; [exact I|apply step3; run].
  - replace v5 with (wf 0 d4 subs_b [] v4) by run.
    apply (do_fetch _ 0 KHello hello_n); [run|left; run|run|run|run|apply hello_rules|apply step3; run|apply step3; run].
Qed.
Lemma run_y6 : duo_run Kx Kc subscribes_in_hello w0 y6.
Proof.
  apply (duo_next _ _ _ _ v5); [exact run_v5|]. replace y6 with (wp (PPublishName pb (Some 1)) v5) by run.
  apply do_prod; [reflexivity|apply step3; run].
Qed.
Lemma do_fetches (rule : duo -> activity -> Prop) i k n d sc1 sc2 w : cfetch i (c_live (du_cons w)) = Some (k, n) ->
  In d (du_sent w) -> is_prefix n (name_prefix_back (d_name d) 1) = true ->
  d_name d = append_segment (name_prefix_back (d_name d) 1) 0 -> d_final d = Some (number_comp TYPE_SEGMENT 0) ->
  rule w (match k with KHello => AppHello (d_content d) sc1 sc2 | KSync => AppSync sc2 end) ->
  snd (c_step Kc (CeSegment i d) (du_cons w)) = Ok tt ->
  snd (c_step Kc (CeContent i (d_content d) sc1 sc2) (fst (fst (c_step Kc (CeSegment i d) (du_cons w))))) = Ok tt ->
  fetches Kc rule d w (wf i d sc1 sc2 w).
Proof.
  intros F D P N Fi R E1 E2. unfold wf. destruct (c_step Kc (CeSegment i d) (du_cons w)) as [[c1 o1] r1] eqn:X. cbn [fst snd] in *. subst r1.
  destruct (c_step Kc (CeContent i (d_content d) sc1 sc2) c1) as [[c2 o2] r2] eqn:Y. cbn [fst snd] in *. subst r2.
  exists i, k, n, (d_content d), sc1, sc2, c1, o1, (Ok tt), c2, o2, (Ok tt).
  split; [exact F|]. split; [|split; [exact R|]; split; [exact X|]; split; [left; reflexivity|]; split; [exact Y|]; split; [left; reflexivity|reflexivity]].
  exists (name_prefix_back (d_name d) 1), [d], (number_comp TYPE_SEGMENT 0), 0.
  split; [exact P|]. split; [left; reflexivity|]. split; [exact Fi|]. split; [reflexivity|]. split; [reflexivity|].
  split; [|symmetry; apply app_nil_r]. intros [|[|j]] x H; [|discriminate|discriminate]. injection H as <-. auto.
Qed.
Lemma fetch_y8 : fetches Kc subscribes_in_hello y_d y7 y8.
Proof.
  replace y8 with (wf 1 y_d [] [] y7) by run.
  apply (do_fetches _ 1 KSync (sync_n v5)); [run|right; left; run|run|run|run|apply hello_rules|apply step3; run|apply step3; run].
Qed.
Lemma plain_y8 : plain Kx y8.
Proof.
  assert (history (du_evs y8) = [CAdd pa; CAdd pb; CPublish pb (Some 1)]) as Eh by run.
  apply (plain_check Kx y8 all_v); rewrite ?Eh.
  - repeat constructor.
  - run.
  - apply wf_check_ok. run.
  - intros p nm H Hn. assert (In p [pa; pb]) as Hp.
    { destruct H as [H|[H|[H|[]]]]; try discriminate; injection H as <-; [left|right; left]; reflexivity. }
    assert (existsb (name_eqb nm) all_v = true) as Q.
    { assert (forallb (fun x => existsb (name_eqb x) all_v) (numbers [CAdd pa; CAdd pb; CPublish pb (Some 1)] p) = true) as Z
        by (destruct Hp as [<-|[<-|[]]]; run).
      rewrite forallb_forall in Z. apply Z. exact Hn. }
    apply existsb_exists in Q as (x & Q1 & Q2). apply name_eqb_eq in Q2. subst. exact Q1.
Qed.
Example C86_example :
  duo_ok Kx Kc /\ fresh_duo Kx Kc w0 /\ duo_run Kx Kc subscribes_in_hello w0 y6 /\
  cfetch 1 (c_live (du_cons y6)) = Some (KSync, sync_n v5) /\ reply_from_store (sync_n v5) (pp_pub (du_prod y6)) = None /\
  plain Kx y6 /\
  seq_of pb (du_cons y6) = Some 0 /\ current y6 pb = Some 1 /\
  producer_does Kx (PInterest (sync_n v5) 1000) [y_d] y6 y7 /\ d_type y_d = Blob /\ duo_run Kx Kc subscribes_in_hello y7 y7 /\
  fetches Kc subscribes_in_hello y_d y7 y8 /\ same_content y_d y_d /\ no_removal (history (du_evs y8)) /\ plain Kx y8 /\
  seq_of pb (du_cons y8) = Some 1 /\
  (** without the update the same interest waits *)
  duo_run Kx Kc subscribes_in_hello w0 v5 /\ reply_from_store (sync_n v5) (pp_pub (du_prod v5)) = None /\
  producer_does Kx (PInterest (sync_n v5) 1000) [] v5 v6.
Proof.
  split; [exact duo_v|]. split; [exact fresh_v|]. split; [exact run_y6|]. split; [run|]. split; [run|].
  split; [apply (plain_earlier Kx y6 y8 (skipn 4 (du_evs y8))); [run|apply Nat.leb_le; run|apply plain_y8]|].
  split; [run|]. split; [run|]. split; [exact does_y7|]. split; [run|]. split; [constructor|]. split; [exact fetch_y8|].
  split; [reflexivity|]. split; [apply no_removal_check; run|]. split; [exact plain_y8|]. split; [run|]. split; [exact run_v5|]. split; [run|].
  exists (du_prod v6). split; [|run].
  rewrite (step_decoded Kx (du_prod v5) (sync_n v5) (sync_n v5) 1000 (bf_with b_ex (filter_n (sync_n v5))) (k_iblt (pp_core (du_prod v5)))
    (mkDiff true [] []) [] (gen (table_bytes (k_iblt (pp_core (du_prod v5))))) (or_introl eq_refl) request_y); [run|run|run|run|run|]. split; run.
Qed.
