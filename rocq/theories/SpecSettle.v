(** Vocabulary for the statements about the end of an exchange between a partial producer and a
    consumer. *)
From Coq Require Import List NArith ZArith Bool Arith.
From Verif Require Import Base Mon Iblt SpecIblt Tlv State NMap Codec Bloom Store Producer SpecProducer
  Partial SpecPartial Full Consumer SpecConsumer SpecGroup SpecPair.
Import ListNotations.
Local Open Scope N_scope.

(** the fetch number [i], of kind [k] and for [n], completes, the last segment to arrive being [d];
    the callbacks of the application return *)
Definition completed (Kc : ccfg) (i : nat) (k : kind) (n : name) (d : data) (w w' : duo) : Prop :=
  exists buf sc1 sc2 c1 o1 c2 o2, cfetch i (c_live (du_cons w)) = Some (k, n) /\
    completes (fun x => In x (du_sent w)) n d buf /\
    subscribes_in_hello w (match k with KHello => AppHello buf sc1 sc2 | KSync => AppSync sc2 end) /\
    c_step Kc (CeSegment i d) (du_cons w) = (c1, o1, Ok tt) /\
    c_step Kc (CeContent i buf sc1 sc2) c1 = (c2, o2, Ok tt) /\
    w' = mkDuo (du_evs w) (du_prod w) (du_sent w) c2 (du_seen w ++ o1 ++ o2).
(** an interest of the consumer reaches the producer, which computes data for it, and the consumer
    fetches that data before the producer's application does anything *)
Definition round_trip (K : pcfg) (Kc : ccfg) (k : kind) (w w' : duo) : Prop :=
  exists i n l d0 d w1 w2, cfetch i (c_live (du_cons w)) = Some (k, n) /\
    reply_from_store n (pp_pub (du_prod w)) = None /\
    producer_does K (PInterest n l) [d0] w w1 /\ d_type d0 = Blob /\
    duo_run K Kc subscribes_in_hello w1 w2 /\ history (du_evs w2) = history (du_evs w1) /\
    completed Kc i k n d w2 w' /\ same_content d d0.
(** the sync interest [n] is outstanding and carries the IBF of the last reply *)
Definition asks_with_last_ibf (w : duo) (n : name) : Prop :=
  exists i pre, cfetch i (c_live (du_cons w)) = Some (KSync, n) /\ n = pre ++ c_iblt (du_cons w).
(** when [n] arrives at the producer, it is not answered but waits there, and the consumer is up to
    date *)
Definition settles (K : pcfg) (w : duo) (n : name) : Prop :=
  forall l, exists w', producer_does K (PInterest n l) [] w w' /\ waits_at_producer w' /\ up_to_date w'.
(** [m] times in a row the consumer's sync interest reaches the producer, is answered at once with [d],
    and the consumer, whose application does nothing, fetches the answer *)
Inductive rounds (K : pcfg) (Kc : ccfg) : nat -> duo -> duo -> Prop :=
| rounds_none w : rounds K Kc 0 w w
| rounds_more m w w1 w2 w3 i n l d : rounds K Kc m w w1 -> cfetch i (c_live (du_cons w1)) = Some (KSync, n) ->
    producer_does K (PInterest n l) [d] w1 w2 -> completed Kc i KSync n d w2 w3 -> rounds K Kc (S m) w w3.

(** ** An update while an interest waits *)
(** the sync interest [n] of fetch [i] waits at the producer *)
Definition waiting_for (w : duo) (i : nat) (n : name) : Prop :=
  cfetch i (c_live (du_cons w)) = Some (KSync, n) /\ nm_find n (pp_pending (du_prod w)) <> None.
(** [d] is sync data for the interest [n], with the present IBF of the producer *)
Definition answers_with_ibf (K : pcfg) (w : duo) (n : name) (d : data) : Prop :=
  d_type d = Blob /\ exists c v g, d_name d = n ++ [c; v; g] /\ ctype v = TYPE_VERSION /\
    carries_ibf (pc_codec K) (pc_scheme K) c (k_iblt (pp_core (du_prod w))).
(** the difference between the present IBF of the producer and the one in the interest [n] cannot be
    decoded *)
Definition undecodable (K : pcfg) (w : duo) (n : name) : Prop :=
  exists bf t x, sync_request_for K n n bf t /\
    iblt_sub (pc_fuel K) (k_iblt (pp_core (du_prod w))) t = Ok x /\ can_decode x = false.
