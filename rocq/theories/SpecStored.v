(** Vocabulary for C116. *)
From Coq Require Import List NArith ZArith.
From Verif Require Import Base Iblt SpecIblt State Producer SpecProducer Full SpecFull SpecPair.
Import ListNotations.

(** what a call of the application asks of the node's data *)
Definition call_of (a : api) : cop :=
  match a with AAdd p => CAdd p | ARemove p => CRemove p | APublish p q => CPublish p q end.
(** the differences between any two states of the node are exact (see SpecFull) *)
Definition states_told_apart (K : fcfg) (ops : list cop) : Prop :=
  forall k1 k2, point (fc_n K) ops k1 -> point (fc_n K) ops k2 -> exact_diff K k1 (map name_hash (live k2)).
