(** Vocabulary for the statement that a publication reaches a waiting peer at once. *)
From Coq Require Import List NArith ZArith Bool.
From Verif Require Import Base Mon Iblt Tlv TlvFacts State NMap Codec Store Producer SpecProducer Full FullTrace SpecFull SpecExchange.
Import ListNotations.
Local Open Scope N_scope.

(** the application of node [a] publishes an update of [p]; among what the node sends is a packet [d]
    that answers the interest [n], and whoever fetches the content that starts with [d] gets [buf] *)
Definition publishes_to (K : fcfg) (p : name) (q : option N) (n : name) (buf : bytes) (a a' : fp) : Prop :=
  exists o d, fp_step K (FeApi (APublish p q)) a = (a', o, Ok tt) /\ In d (data_of o) /\
    is_prefix n (d_name d) = true /\ fetched (f_pub a') d buf.
(** the name [u] together with any selection of the names in [k] can be encoded and sent *)
Definition can_send (K : fcfg) (k : core) (u : name) : Prop :=
  forall l, NoDup l -> incl l (u :: live k) ->
    wf_names l /\
    forall b, compress (fc_codec K) (fc_cscheme K) (encode_names l) = Ok b -> N.of_nat (length b) < two64.
