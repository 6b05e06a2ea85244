(** Vocabulary for the statements about a partial producer and a consumer on an arbitrary network. *)
From Coq Require Import List NArith ZArith Bool Arith.
From Verif Require Import Base Mon Iblt SpecIblt Tlv TlvFacts State NMap Codec Bloom Store Producer SpecProducer
  Partial SpecPartial Full Consumer SpecConsumer SpecGroup.
Import ListNotations.
Local Open Scope N_scope.

(** ** Both parties and the network *)
(** the producer with its history and every packet it ever sent (packets stay deliverable for ever,
    to be delivered late, repeatedly, in any order, or never), and the consumer with everything it
    showed *)
Record duo := mkDuo { du_evs : list pev; du_prod : pp; du_sent : list data; du_cons : cs; du_seen : list cout }.
(** the application of the consumer runs: on its own, in the callbacks for hello data (which brought
    [buf]), or in the update callback for sync data *)
Inductive activity :=
| AppCalls (l : list capi)
| AppHello (buf : bytes) (script1 script2 : list capi)
| AppSync (script : list capi).
(** what a fetcher for [n] can hand over, [d] being the segment that completed it: all segments have
    the names of one sequence of segments, as many as [d] says, and come from the network *)
Definition completes (D : data -> Prop) (n : name) (d : data) (buf : bytes) : Prop :=
  exists base segs c last,
    is_prefix n base = true /\ In d segs /\ d_final d = Some c /\ to_segment c = Ok last /\
    N.of_nat (length segs) = last + 1 /\
    (forall i x, nth_error segs i = Some x -> D x /\ d_name x = append_segment base (N.of_nat i)) /\
    buf = concat (map d_content segs).
(** segments that do not complete a fetch, errors, and the passage of time *)
Definition background (e : cev) : Prop :=
  match e with CeSegment _ _ | CeError _ _ | CeTick _ | CeTimer _ => True | _ => False end.
(** a handler returns or lets an exception escape *)
Definition ends (r : outcome unit) : Prop := r = Ok tt \/ exists e, r = Throw e.
(** one step: the producer handles an event (any interest may arrive, from this or other consumers),
    something happens to the consumer, its application makes calls, or a fetch completes, for which
    ndn::SegmentFetcher first announces the last segment.  [rule] is what the application is known
    to do. *)
Inductive duo_step (Kp : pcfg) (Kc : ccfg) (rule : duo -> activity -> Prop) (w : duo) : duo -> Prop :=
| duo_producer e s o r : pev_wf e -> pp_step Kp e (du_prod w) = (s, o, r) -> ends r ->
    duo_step Kp Kc rule w (mkDuo (du_evs w ++ [e]) s (du_sent w ++ o) (du_cons w) (du_seen w))
| duo_background e c o r : background e -> c_step Kc e (du_cons w) = (c, o, r) -> ends r ->
    duo_step Kp Kc rule w (mkDuo (du_evs w) (du_prod w) (du_sent w) c (du_seen w ++ o))
| duo_calls l c o r : rule w (AppCalls l) -> calls Kc l (du_cons w) = (c, o, r) -> ends r ->
    duo_step Kp Kc rule w (mkDuo (du_evs w) (du_prod w) (du_sent w) c (du_seen w ++ o))
| duo_fetch i k n d buf sc1 sc2 c1 o1 r1 c2 o2 r2 : cfetch i (c_live (du_cons w)) = Some (k, n) ->
    completes (fun x => In x (du_sent w)) n d buf ->
    rule w (match k with KHello => AppHello buf sc1 sc2 | KSync => AppSync sc2 end) ->
    c_step Kc (CeSegment i d) (du_cons w) = (c1, o1, r1) -> ends r1 ->
    c_step Kc (CeContent i buf sc1 sc2) c1 = (c2, o2, r2) -> ends r2 ->
    duo_step Kp Kc rule w (mkDuo (du_evs w) (du_prod w) (du_sent w) c2 (du_seen w ++ o1 ++ o2)).
Inductive duo_run (Kp : pcfg) (Kc : ccfg) (rule : duo -> activity -> Prop) : duo -> duo -> Prop :=
| duo_here w : duo_run Kp Kc rule w w
| duo_next w w1 w2 : duo_run Kp Kc rule w w1 -> duo_step Kp Kc rule w1 w2 -> duo_run Kp Kc rule w w2.
(** both have just been constructed *)
Definition fresh_duo (Kp : pcfg) (Kc : ccfg) (w : duo) : Prop :=
  exists c, c_new Kc = Ok c /\ w = mkDuo [] (pp_new Kp) [] c [].
(** they agree on the sync prefix, run on equal floating point arithmetic, and the consumer's options
    are those C18 and C20 ask for *)
Record duo_ok (Kp : pcfg) (Kc : ccfg) : Prop := mkDuoOk {
  dk_sync : pc_sync Kp = cc_sync Kc;
  dk_libm : pc_libm Kp = cc_libm Kc;
  dk_filter : filter_ok Kc;
  dk_rate : rate_ok Kc;
  dk_lossless : lossless (pc_codec Kp);
  dk_scheme : scheme_ok (pc_codec Kp) (pc_scheme Kp) }.

(** ** Assumptions about hashes, sizes and clocks *)
(** at some point of the history the producer's data was [k] *)
Definition point (n : nat) (ops : list cop) (k : core) : Prop :=
  exists pre post, ops = pre ++ post /\ crun (core_new n) pre = Ok k.
(** names that were ever to be synchronised differ in their hashes *)
Definition hashes_differ (n : nat) (ops : list cop) : Prop :=
  forall k1 k2 a b, point n ops k1 -> point n ops k2 -> In a (live k1) -> In b (live k2) ->
    name_hash a = name_hash b -> a = b.
(** the differences between any two states of the producer are exact (see SpecPartial) *)
Definition always_exact (K : pcfg) (ops : list cop) : Prop :=
  forall k1 k2, point (pc_n K) ops k1 -> point (pc_n K) ops k2 ->
    exact_difference K k1 (map name_hash (live k2)).
(** contents fit 64 bits *)
Definition sendable (n : nat) (ops : list cop) : Prop :=
  forall l, NoDup l -> (forall nm, In nm l -> exists p v, nm = append_number p v /\ had n ops p v) ->
    wf_names l /\ N.of_nat (length (encode_names l)) < two64.
(** either the versions of the publications so far fit 64 bits and differ, or no content ever needs a
    second packet *)
Definition told_apart (K : pcfg) (w : duo) : Prop :=
  ((forall a, (a < pb_published (pp_pub (du_prod w)))%nat -> en_version (pc_env K) a < two64) /\
   (forall a b, (a < pb_published (pp_pub (du_prod w)))%nat -> (b < pb_published (pp_pub (du_prod w)))%nat ->
      en_version (pc_env K) a = en_version (pc_env K) b -> a = b)) \/
  (forall l, NoDup l ->
     (forall nm, In nm l -> exists p v, nm = append_number p v /\ had (pc_n K) (history (du_evs w)) p v) ->
     (length (encode_names l) <= SEG_SIZE)%nat).
Record plain (K : pcfg) (w : duo) : Prop := mkPlain {
  pl_hashes : hashes_differ (pc_n K) (history (du_evs w));
  pl_exact : always_exact K (history (du_evs w));
  pl_sizes : sendable (pc_n K) (history (du_evs w));
  pl_versions : told_apart K w }.

(** ** The application *)
Definition no_subscription (l : list capi) : Prop := forall p v cb, ~ In (CSub p v cb) l.
(** hello data [buf] tells number [v] for prefix [p] *)
Definition told_by (buf : bytes) (p : name) (v : N) : Prop :=
  exists names x, state_of_buffer buf = Ok names /\ In (p ++ [x]) names /\ to_number x = Ok v.
(** a sync interest is outstanding *)
Definition busy (c : cs) : Prop := exists i n, In (i, (KSync, n)) (c_live c).
(** after a subscription no sync interest with the old filter is left: a new one replaces it, the
    consumer is stopped, or there was none *)
Definition resends (was_busy : Prop) (l : list capi) : Prop :=
  forall l1 p v cb l2, l = l1 ++ CSub p v cb :: l2 ->
    In CSendSync l2 \/ In CStop l2 \/ (~ was_busy /\ ~ In CSendSync l1).
(** the application subscribes in the hello callback only, with the numbers just received, and sends
    a new sync interest if one was outstanding *)
Definition subscribes_in_hello (w : duo) (a : activity) : Prop :=
  match a with
  | AppCalls l | AppSync l => no_subscription l
  | AppHello buf sc1 sc2 =>
    (forall p v cb, In (CSub p v cb) sc1 -> told_by buf p v) /\
    resends (busy (du_cons w)) sc1 /\ no_subscription sc2
  end.
(** ... or does not bother to *)
Definition subscribes_only_in_hello (w : duo) (a : activity) : Prop :=
  match a with
  | AppCalls l | AppSync l => no_subscription l
  | AppHello buf sc1 sc2 => (forall p v cb, In (CSub p v cb) sc1 -> told_by buf p v) /\ no_subscription sc2
  end.
(** the application subscribes whenever it likes, with a number from some hello data *)
Definition told_before (w : duo) (p : name) (v : N) : Prop :=
  exists av, In (CoHello av) (du_seen w) /\ nm_find p av = Some v.
Definition subscribes_any_time (w : duo) (a : activity) : Prop :=
  match a with
  | AppCalls l => (forall p v cb, In (CSub p v cb) l -> told_before w p v) /\ resends (busy (du_cons w)) l
  | AppSync l => forall p v cb, In (CSub p v cb) l -> told_before w p v
  | AppHello buf sc1 sc2 =>
    (forall p v cb, In (CSub p v cb) (sc1 ++ sc2) -> told_by buf p v \/ told_before w p v) /\
    resends (busy (du_cons w)) sc1 /\ resends True sc2
  end.
(** the calls of an activity *)
Definition calls_in (a : activity) : list capi :=
  match a with AppCalls l | AppSync l => l | AppHello _ sc1 sc2 => sc1 ++ sc2 end.
(** ... and never cancels the subscription to [p] *)
Definition keeps (p : name) (rule : duo -> activity -> Prop) (w : duo) (a : activity) : Prop :=
  rule w a /\ ~ In (CUnsub p) (calls_in a).

(** the IBF that the consumer's next sync interest will carry is the producer's current one *)
Definition holds_current_ibf (K : pcfg) (w : duo) : Prop :=
  exists c, c_iblt (du_cons w) = [c] /\ carries_ibf (pc_codec K) (pc_scheme K) c (k_iblt (pp_core (du_prod w))).
(** the producer's sequence number for [p] *)
Definition current (w : duo) (p : name) : option N := seq_after p (history (du_evs w)).

(** ** Complete exchanges *)
(** the consumer's current sync interest waits at the producer *)
Definition waits_at_producer (w : duo) : Prop :=
  exists i n e, cfetch i (c_live (du_cons w)) = Some (KSync, n) /\ nm_find n (pp_pending (du_prod w)) = Some e.
(** the consumer knows the producer's number of each prefix it is subscribed to *)
Definition up_to_date (w : duo) : Prop :=
  forall p, is_subscribed p (du_cons w) = true -> current w p <> None /\ seq_of p (du_cons w) = current w p.
(** the producer handles event [e], which puts [o] on the network *)
Definition producer_does (K : pcfg) (e : pev) (o : list data) (w w' : duo) : Prop :=
  exists s, pp_step K e (du_prod w) = (s, o, Ok tt) /\
    w' = mkDuo (du_evs w ++ [e]) s (du_sent w ++ o) (du_cons w) (du_seen w).
(** a fetch of the consumer completes, the last segment to arrive being [d] *)
Definition fetches (Kc : ccfg) (rule : duo -> activity -> Prop) (d : data) (w w' : duo) : Prop :=
  exists i k n buf sc1 sc2 c1 o1 r1 c2 o2 r2, cfetch i (c_live (du_cons w)) = Some (k, n) /\
    completes (fun x => In x (du_sent w)) n d buf /\
    rule w (match k with KHello => AppHello buf sc1 sc2 | KSync => AppSync sc2 end) /\
    c_step Kc (CeSegment i d) (du_cons w) = (c1, o1, r1) /\ ends r1 /\
    c_step Kc (CeContent i buf sc1 sc2) c1 = (c2, o2, r2) /\ ends r2 /\
    w' = mkDuo (du_evs w) (du_prod w) (du_sent w) c2 (du_seen w ++ o1 ++ o2).
(** two packets are segments of one content *)
Definition same_content (a b : data) : Prop := name_prefix_back (d_name a) 1 = name_prefix_back (d_name b) 1.
