(** Vocabulary for the statements about producers whose application has been quiet. *)
From Coq Require Import List NArith ZArith Bool Arith.
From Verif Require Import Base Mon Iblt SpecIblt Tlv State NMap Codec Bloom Store Producer SpecProducer
  Partial SpecPartial SpecFresh Full Consumer SpecConsumer SpecGroup SpecPair SpecSettle.
Import ListNotations.
Local Open Scope N_scope.

(** [d] is hello or sync data that carries the IBF [t]: its name ends in the IBF, a version and a
    segment number *)
Definition data_with_ibf (K : pcfg) (t : table) (d : data) : Prop :=
  d_type d = Blob /\ exists pre c v g, d_name d = pre ++ [c; v; g] /\ ctype v = TYPE_VERSION /\
    carries_ibf (pc_codec K) (pc_scheme K) c t.
(** the longer of the two freshness periods of a producer *)
Definition longest_freshness (K : pcfg) : N := N.max (pc_hello_fresh K) (pc_sync_fresh K).
(** since [w1] the producer's application has done nothing, which is longer ago in [w] than any
    freshness period, and the packets whose time is up are gone from the producer's memory *)
Definition quiet_since (K : pcfg) (w1 w : duo) : Prop :=
  history (du_evs w) = history (du_evs w1) /\
  pp_now (du_prod w1) + longest_freshness K <= pp_now (du_prod w) /\
  erased_in_time (pp_now (du_prod w)) (pp_pub (du_prod w)).
(** the interest [n] of fetch [i] reaches the producer, which answers it, from memory or not, with
    [d0]; the consumer fetches that data before the producer's application does anything *)
Definition exchanged (K : pcfg) (Kc : ccfg) (k : kind) (d0 : data) (w w' : duo) : Prop :=
  exists i n l d w1 w2, cfetch i (c_live (du_cons w)) = Some (k, n) /\
    producer_does K (PInterest n l) [d0] w w1 /\
    duo_run K Kc subscribes_in_hello w1 w2 /\ history (du_evs w2) = history (du_evs w1) /\
    completed Kc i k n d w2 w' /\ same_content d d0.
(** [m] times in a row the consumer's sync interest gets a Nack, and the hello interest that follows is
    answered, from which the consumer's application sends the next sync interest *)
Inductive nack_rounds (K : pcfg) (Kc : ccfg) : nat -> duo -> duo -> Prop :=
| nack_none w : nack_rounds K Kc 0 w w
| nack_more m w w1 w2 w3 w4 w5 i n l d j n' l' d' : nack_rounds K Kc m w w1 ->
    cfetch i (c_live (du_cons w1)) = Some (KSync, n) -> producer_does K (PInterest n l) [d] w1 w2 -> d_type d = AppNack ->
    completed Kc i KSync n d w2 w3 ->
    cfetch j (c_live (du_cons w3)) = Some (KHello, n') -> producer_does K (PInterest n' l') [d'] w3 w4 -> d_type d' = Blob ->
    completed Kc j KHello n' d' w4 w5 -> nack_rounds K Kc (S m) w w5.
