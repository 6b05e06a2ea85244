(** Vocabulary for the statements about how long it takes until a consumer knows of an update. *)
From Coq Require Import List NArith ZArith Bool Arith.
From Verif Require Import Base Mon Iblt SpecIblt Tlv State NMap Codec Bloom Store Producer SpecProducer
  Partial SpecPartial SpecFresh Full SpecFull Consumer SpecConsumer SpecGroup SpecPair SpecSettle SpecQuiet.
Import ListNotations.
Local Open Scope N_scope.

(** of every prefix it is subscribed to in [w], the consumer knows at least the number that the producer
    had in [w0] *)
Definition knows_all_of (w0 w : duo) : Prop :=
  forall p, is_subscribed p (du_cons w) = true -> seq0 (current w0 p) <= seq0 (seq_of p (du_cons w)).

(** ** Exchanges without delay *)
(** the erase events of the producer's memory that are due have run *)
Definition memory_clean (w : duo) : Prop := erased_in_time (pp_now (du_prod w)) (pp_pub (du_prod w)).
(** the producer handles [e] and sends, among others, the data [d0]; the consumer fetches the content
    that [d0] belongs to before time passes *)
Definition fetched_at_once (K : pcfg) (Kc : ccfg) (e : pev) (d0 : data) (w w' : duo) : Prop :=
  exists o d w1 w2, memory_clean w /\ producer_does K e o w w1 /\ In d0 o /\ d_type d0 = Blob /\
    duo_run K Kc subscribes_in_hello w1 w2 /\ pp_now (du_prod w2) = pp_now (du_prod w1) /\
    fetches Kc subscribes_in_hello d w2 w' /\ same_content d d0.
(** the consumer's sync interest reaches the producer and is answered with a Nack, which the consumer
    gets *)
Definition gets_nack (K : pcfg) (Kc : ccfg) (w w' : duo) : Prop :=
  exists i n l d w1, cfetch i (c_live (du_cons w)) = Some (KSync, n) /\
    producer_does K (PInterest n l) [d] w w1 /\ d_type d = AppNack /\ completed Kc i KSync n d w1 w'.
(** a sync interest of the consumer reaches the producer and is not lost, nor is anything that follows
    from it: it is left unanswered, or answered with data, which the consumer fetches, or with a Nack,
    whereupon the hello interest of the consumer is answered with data, which the consumer fetches *)
Inductive complete_exchange (K : pcfg) (Kc : ccfg) (w w' : duo) : Prop :=
| ex_unanswered i n l : cfetch i (c_live (du_cons w)) = Some (KSync, n) -> producer_does K (PInterest n l) [] w w' ->
    complete_exchange K Kc w w'
| ex_data i n l d : cfetch i (c_live (du_cons w)) = Some (KSync, n) -> fetched_at_once K Kc (PInterest n l) d w w' ->
    complete_exchange K Kc w w'
| ex_nack w1 j n l d : gets_nack K Kc w w1 -> cfetch j (c_live (du_cons w1)) = Some (KHello, n) ->
    fetched_at_once K Kc (PInterest n l) d w1 w' -> complete_exchange K Kc w w'.

(** ** A link without delays *)
Definition no_tick (e : pev) : Prop := forall dt, e <> PTick dt.
(** Both run side by side.  Packets may get lost, but they are not delayed: what the consumer fetches is
    content that the producer sent at the same moment, be it from memory.  At least every [T]
    milliseconds, by the producer's clock, a sync interest of the consumer leads to a complete exchange;
    [t] is when the last one took place.  Everything else, at the producer (publications, interests of
    others, timers) and at the consumer (errors, its clock and timers, calls of the application), is
    arbitrary. *)
Inductive undelayed (K : pcfg) (Kc : ccfg) (T : N) (w0 : duo) (t0 : N) : duo -> N -> Prop :=
| ud_start : undelayed K Kc T w0 t0 w0 t0
| ud_tick dt w t s : undelayed K Kc T w0 t0 w t -> pp_now (du_prod w) + dt <= t + T ->
    pp_step K (PTick dt) (du_prod w) = (s, [], Ok tt) ->
    undelayed K Kc T w0 t0 (mkDuo (du_evs w ++ [PTick dt]) s (du_sent w) (du_cons w) (du_seen w)) t
| ud_producer e w t s o r : undelayed K Kc T w0 t0 w t -> no_tick e -> pev_wf e ->
    pp_step K e (du_prod w) = (s, o, r) -> ends r ->
    undelayed K Kc T w0 t0 (mkDuo (du_evs w ++ [e]) s (du_sent w ++ o) (du_cons w) (du_seen w)) t
| ud_consumer e w t c o r : undelayed K Kc T w0 t0 w t -> background e ->
    c_step Kc e (du_cons w) = (c, o, r) -> ends r ->
    undelayed K Kc T w0 t0 (mkDuo (du_evs w) (du_prod w) (du_sent w) c (du_seen w ++ o)) t
| ud_calls l w t c o r : undelayed K Kc T w0 t0 w t -> no_subscription l ->
    calls Kc l (du_cons w) = (c, o, r) -> ends r ->
    undelayed K Kc T w0 t0 (mkDuo (du_evs w) (du_prod w) (du_sent w) c (du_seen w ++ o)) t
| ud_fetch e d w t w' : undelayed K Kc T w0 t0 w t -> no_tick e -> pev_wf e -> fetched_at_once K Kc e d w w' ->
    undelayed K Kc T w0 t0 w' t
| ud_nack w t w' : undelayed K Kc T w0 t0 w t -> gets_nack K Kc w w' -> undelayed K Kc T w0 t0 w' t
| ud_exchange w t w' : undelayed K Kc T w0 t0 w t -> complete_exchange K Kc w w' ->
    undelayed K Kc T w0 t0 w' (pp_now (du_prod w')).
