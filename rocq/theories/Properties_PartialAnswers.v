(** Property theorems about the data packets and the waiting interests of partial producers (C81, C82). *)
From Coq Require Import List NArith ZArith Bool Arith Lia.
From Coq.Strings Require Import Byte.
From Verif Require Import Base Mon MonFacts Iblt BaseFacts IbltFacts SpecIblt
  Tlv State NMap TlvFacts NMapFacts Codec CodecFacts Bloom SpecBloom BloomFacts Store StoreFacts Producer
  SpecProducer ProducerFacts Properties_Producer Partial SpecPartial PartialFacts PartialSteps Properties_Partial PartialAnswers.
Import ListNotations.
Local Open Scope N_scope.

(** * C81: refuted by interests in loose form *)
(** an interest brings at most one packet.  It satisfies the interest, unless that was in loose form and
    not answered from memory: then it lies under the base of the interest.  Missing: that such a packet
    satisfies the interest, which is false. *)
Theorem C81_reply_matches_partial : forall K s n l d,
  (length (outs (pp_step K (PInterest n l) s)) <= 1)%nat /\
  (In d (outs (pp_step K (PInterest n l) s)) -> satisfies d n \/
   (reply_from_store n (pp_pub s) = None /\ exists base, loosely K n base /\ satisfies d base)).
Proof.
  intros K s n l d. split; [apply interest_at_most_one|]. intros H. pose proof (interest_came K n l s) as X.
  rewrite Forall_forall in X. destruct (X d H) as (m & [->|[R L]] & Hm); [left; exact Hm|]. right. split; [exact R|]. exists m. auto.
Qed.
Print Assumptions C81_reply_matches_partial.
(** a publication brings packets only for interests that were waiting, and these came in before.
    Missing: that what came in was the waiting name itself and not the same with two components more. *)
Theorem C81_publication_matches_partial : forall K evs s o p q d,
  pp_run K (pp_new K) evs = Some (s, o) -> In d (outs (pp_step K (PPublishName p q) s)) ->
  exists key e n l, nm_find key (pp_pending s) = Some e /\ satisfies d key /\
    In (PInterest n l) evs /\ (n = key \/ loosely K n key).
Proof.
  intros K evs s o p q d R H. pose proof (publication_pending K p q s) as X. rewrite Forall_forall in X.
  destruct (X d H) as (key & (e & F) & Hd). destruct (run_came K evs s o R) as [C _].
  destruct (C _ _ F) as [(l & Hl)|(m & l & pre & post & s1 & o1 & -> & _ & _ & L)].
  - exists key, e, key, l. auto.
  - exists key, e, m, l. split; [exact F|]. split; [exact Hd|]. split; [apply in_or_app; right; left; reflexivity|auto].
Qed.
Print Assumptions C81_publication_matches_partial.
(** nothing else sends data *)
Theorem C81_other_events_silent : forall K s e,
  (forall p q, e <> PPublishName p q) -> (forall n l, e <> PInterest n l) -> outs (pp_step K e s) = [].
Proof. intros K s e. apply others_silent. Qed.
Print Assumptions C81_other_events_silent.
(** over whole histories: if no interest in loose form missed the memory, every packet the producer
    ever sent satisfies an interest it received *)
Theorem C81_data_answers_interests_partial : forall K evs s o d,
  pp_run K (pp_new K) evs = Some (s, o) ->
  (forall pre m l post s1 o1 base, evs = pre ++ PInterest m l :: post -> pp_run K (pp_new K) pre = Some (s1, o1) ->
     loosely K m base -> reply_from_store m (pp_pub s1) <> None) ->
  In d o -> exists n l, In (PInterest n l) evs /\ satisfies d n.
Proof.
  intros K evs s o d R Hl Hd. destruct (run_came K evs s o R) as [_ X]. rewrite Forall_forall in X.
  destruct (X d Hd) as (n & [(l & H)|(m & l & pre & post & s1 & o1 & E & R1 & Hr & L)] & Hn); [exists n, l; auto|].
  destruct (Hl _ _ _ _ _ _ _ E R1 L Hr).
Qed.
Print Assumptions C81_data_answers_interests_partial.

(** a consumer asks again for a segment of the hello reply after it left the memory: the packet it is
    sent carries a newer version and does not satisfy the interest *)
Definition hello_ask : name := syncp ++ [HELLO].
Definition hello_reply : data := Eval vm_compute in
  match outs (pp_step Kx (PInterest hello_ask 1000) (st (pp_step Kx (PAdd pa) (pp_new Kx)))) with
  | d :: _ => d | [] => mkData [] Blob [] None 0 [] end.
Definition evs_81 : list pev := [PAdd pa; PInterest hello_ask 1000; PTick 1000; PStoreFire 0].
Theorem C81_reply_matches_refuted : exists K evs s o first n l d,
  pp_run K (pp_new K) evs = Some (s, o) /\ o = [first] /\ n = d_name first /\
  outs (pp_step K (PInterest n l) s) = [d] /\ ~ satisfies d n.
Proof.
  eexists Kx, evs_81, _, _, hello_reply, (d_name hello_reply), 1000, _.
  split; [vm_compute; reflexivity|]. split; [reflexivity|]. split; [reflexivity|]. split; [vm_compute; reflexivity|].
  vm_compute. discriminate.
Qed.
Print Assumptions C81_reply_matches_refuted.

(** the same interest answered from memory, and two waiting interests of which a publication answers one *)
Example C81_example : exists s o, pp_run Kx (pp_new Kx) [PAdd pa; PInterest hello_ask 1000] = Some (s, o) /\ o = [hello_reply] /\
  outs (pp_step Kx (PInterest (d_name hello_reply) 1000) s) = [hello_reply] /\ loosely Kx (d_name hello_reply) (syncp ++ [HELLO]) /\
  reply_from_store (d_name hello_reply) (pp_pub s) = Some hello_reply.
Proof.
  eexists _, _. split; [vm_compute; reflexivity|]. split; [reflexivity|]. split; [vm_compute; reflexivity|].
  split; [left; exists (tl (tl (d_name hello_reply))); split; [discriminate|split; reflexivity]|vm_compute; reflexivity].
Qed.
Example C81_publication_example : exists d, (exists o, pp_run Kx (pp_new Kx) evs_pend = Some (s_pend, o)) /\
  In d (outs (pp_step Kx (PPublishName pa None) s_pend)).
Proof.
  assert (exists d r, outs (pp_step Kx (PPublishName pa None) s_pend) = d :: r) as (d & r & E) by (eexists _, _; vm_compute; reflexivity).
  exists d. split; [exists []; rewrite <- (app_nil_r evs_pend), run_pend; reflexivity|]. rewrite E. left. reflexivity.
Qed.

(** * C82 *)
(** whatever happens except a publication, a waiting interest stays as it is; a copy of it moves its
    deadline; after its deadline it goes (or, C39, it stays for good) *)
Theorem C82_waiting_kept : forall K evs s o key x e,
  pp_run K (pp_new K) evs = Some (s, o) -> nm_find key (pp_pending s) = Some x -> (forall p q, e <> PPublishName p q) ->
  nm_find key (pp_pending (st (pp_step K e s))) = Some x \/
  (exists n l, e = PInterest n l /\ sync_request_for K n key (pe_bf x) (pe_iblt x) /\
     nm_find key (pp_pending (st (pp_step K e s))) = Some (mkPentry (pe_bf x) (pe_iblt x) (Some (pp_now s + l, n)))) \/
  (e = PExpire key /\ exists dl n, pe_expiry x = Some (dl, n) /\ dl <= pp_now s /\
    nm_find key (pp_pending (st (pp_step K e s))) = if name_eqb n key then None else Some (mkPentry (pe_bf x) (pe_iblt x) None)).
Proof.
  intros K evs s o key x e R F Hp. apply step_pending; auto; [eapply pp_run_ok; eauto|eapply run_own; eauto].
Qed.
Print Assumptions C82_waiting_kept.
(** so an interest that came to wait still waits as long as its lifetime lasts, nothing is published and
    no copy of it arrives *)
Theorem C82_waits_for_its_lifetime : forall K pre n l post s1 o1 s2 s o key bf t,
  pp_run K (pp_new K) pre = Some (s1, o1) ->
  pp_step K (PInterest n l) s1 = (s2, [], Ok tt) -> nm_find key (pp_pending s2) = Some (mkPentry bf t (Some (pp_now s1 + l, n))) ->
  leaves_alone K key post -> pp_run K s2 post = Some (s, o) -> pp_now s < pp_now s1 + l ->
  nm_find key (pp_pending s) = Some (mkPentry bf t (Some (pp_now s1 + l, n))).
Proof.
  intros K pre n l post s1 o1 s2 s o key bf t R E F Hl R2 Ht.
  pose proof (pp_run_ok _ _ _ _ R) as Hok. pose proof (run_own _ _ _ _ R) as Hex.
  pose proof (own_step K (PInterest n l) s1 Hok Hex) as Hex2. rewrite E in Hex2. cbn [st fst] in Hex2.
  destruct (pp_step_ok _ _ _ _ _ _ Hok E) as (Hok2 & _).
  eapply waits_run; eauto. reflexivity.
Qed.
Print Assumptions C82_waits_for_its_lifetime.
(** a copy with a shorter lifetime cuts the wait short: the interest that had 10 s left is forgotten
    after 100 ms *)
Definition evs_82 : list pev := [PAdd pa; PInterest q_all 10000; PInterest q_all 100; PTick 100; PExpire q_all].
Definition s_82a : pp := pend q_all q_all bf_all (iblt_new 10) 10000 s_fresh.
Definition s_82b : pp := pend q_all q_all bf_all (iblt_new 10) 100 s_82a.
Lemma run_82 : pp_run Kx (pp_new Kx) evs_82 = Some (expire q_all (st (pp_step Kx (PTick 100) s_82b)), []).
Proof.
  apply (run_quiet Kx (PAdd pa) (tl evs_82) _ _ _ _ step_fresh).
  assert (pp_step Kx (PInterest q_all 10000) s_fresh = (s_82a, [], Ok tt)) as E1.
  { apply pend_step; [reflexivity|apply request_all|vm_compute; reflexivity|apply fresh_sub|reflexivity]. }
  assert (pp_step Kx (PInterest q_all 100) s_82a = (s_82b, [], Ok tt)) as E2.
  { apply pend_step; [reflexivity|apply request_all|vm_compute; reflexivity|apply fresh_sub|reflexivity]. }
  apply (run_quiet Kx (PInterest q_all 10000) (tl (tl evs_82)) _ _ _ _ E1).
  apply (run_quiet Kx (PInterest q_all 100) (tl (tl (tl evs_82))) _ _ _ _ E2).
  reflexivity.
Qed.
Theorem C82_copy_shortens_wait : exists K evs s o key l,
  pp_run K (pp_new K) evs = Some (s, o) /\ In (PInterest key l) evs /\ pp_now s < l /\ o = [] /\
  (forall p q, ~ In (PPublishName p q) evs) /\ nm_find key (pp_pending s) = None.
Proof.
  eexists Kx, evs_82, _, _, q_all, 10000. split; [apply run_82|]. split; [right; left; reflexivity|].
  split; [vm_compute; reflexivity|]. split; [reflexivity|]. split; [|vm_compute; reflexivity].
  intros p q [H|[H|[H|[H|[H|[]]]]]]; discriminate H.
Qed.
Print Assumptions C82_copy_shortens_wait.

Example C82_example :
  (exists o, pp_run Kx (pp_new Kx) [PAdd pa] = Some (s_fresh, o)) /\
  pp_step Kx (PInterest q_all 1000) s_fresh = (s_pend1, [], Ok tt) /\
  nm_find q_all (pp_pending s_pend1) = Some (mkPentry bf_all (iblt_new 10) (Some (pp_now s_fresh + 1000, q_all))) /\
  leaves_alone Kx q_all [PTick 999; PExpire q_all] /\
  exists s o, pp_run Kx s_pend1 [PTick 999; PExpire q_all] = Some (s, o) /\ pp_now s < pp_now s_fresh + 1000.
Proof.
  split; [eexists; vm_compute; reflexivity|]. split; [apply pend_all|]. split; [vm_compute; reflexivity|].
  split; [intros e [<-|[<-|[]]]; exact I|]. eexists _, _. split; [reflexivity|vm_compute; reflexivity].
Qed.
