(** Vocabulary for the statements about the sizes of names and packets. *)
From Coq Require Import List NArith Bool.
From Verif Require Import Base Iblt Tlv Codec.
Import ListNotations.
Local Open Scope N_scope.
Local Open Scope list_scope.

(** the number of bytes the components of a name take on the wire *)
Definition size (n : name) : N := N.of_nat (length (flat_map comp_wire n)).
(** the bytes of a component with a one-byte type and [l] bytes of value: type, length, value *)
Definition field (l : N) : N :=
  1 + (if l <? 253 then 1 else if l <=? 65535 then 3 else if l <=? 4294967295 then 5 else 9) + l.
(** the cells of an IBF for [n] expected entries: one and a half times as many, rounded up to a multiple of 3 *)
Definition cells (n : nat) : N := 3 * ((N.of_nat n + N.of_nat n / 2 + 2) / 3).
(** the compressor never needs more than [B] bytes for an input of [l] bytes *)
Definition compresses_to (C : codec) (s : scheme) (l B : N) : Prop :=
  forall x y, N.of_nat (length x) = l -> compress C s x = Ok y -> N.of_nat (length y) <= B.
(** the largest packet of NDN, ndn::MAX_NDN_PACKET_SIZE *)
Definition MAX_PACKET : N := 8800.
