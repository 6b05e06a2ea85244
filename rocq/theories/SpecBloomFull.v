(** Vocabulary for C118. *)
From Coq Require Import List NArith.
From Verif Require Import Base Tlv Bloom SpecBloom.
Import ListNotations.

(** the positions of the bits that are set in a filter's table *)
Definition bits_set (b : bloom) : list N :=
  filter (tbit (b_tab b)) (map N.of_nat (seq 0 (N.to_nat (b_size b)))).

(** the filter does not match everything below [p]: a name with one more component, of at most eight
    bytes, is rejected *)
Definition rejects_below (b : bloom) (p : name) : Prop :=
  exists v, (length v <= 8)%nat /\ bloom_contains b (p ++ [mkComp TYPE_GENERIC v]) = Ok false.
