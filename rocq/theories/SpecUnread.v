(** Requests that cannot be read, in terms of the bytes of the name. *)
From Coq Require Import List NArith.
From Verif Require Import Base Tlv Iblt Store Codec Bloom Partial Full.
Import ListNotations.
Local Open Scope nat_scope.

(** no number in the sense of NDN: not 1, 2, 4 or 8 bytes *)
Definition no_number (c : comp) : Prop := ~ In (length (cval c)) [1; 2; 4; 8].
(** not the compressed form of as many 12-byte cells as a table for [n] entries has *)
Definition no_ibf (C : codec) (sch : scheme) (n : nat) (c : comp) : Prop :=
  forall b, decompress C sch (cval c) = Ok b -> length b <> 12 * length (iblt_new n).

(** names under /sync-prefix/sync that are no request for updates *)
Inductive no_request (K : pcfg) : name -> Prop :=
| no_four : forall rest, length rest <> 4 -> length rest <> 6 ->
    no_request K (pc_sync K ++ SYNC :: rest)
| no_parameters : forall c1 c2 c3 c4 tail, no_number c1 \/ no_number c2 ->
    no_request K (pc_sync K ++ [SYNC; c1; c2; c3; c4] ++ tail)
| no_filter : forall c1 c2 c3 c4 tail k r b, to_number c1 = Ok k -> to_number c2 = Ok r ->
    (* the filter for these parameters has another size *)
    bloom_new (pc_libm K) (k mod two32)%N (d_div (d_of_N r) (d_of_N 1000)) = Ok b ->
    N.of_nat (length (cval c3)) <> (b_size b / 8)%N ->
    no_request K (pc_sync K ++ [SYNC; c1; c2; c3; c4] ++ tail)
| no_table : forall c1 c2 c3 c4 tail bf, bloom_of_comps (pc_libm K) c1 c2 c3 = Ok bf ->
    no_ibf (pc_codec K) (pc_scheme K) (pc_n K) c4 ->
    no_request K (pc_sync K ++ [SYNC; c1; c2; c3; c4] ++ tail).

(** names under the sync prefix of full sync that are no sync interest *)
Inductive no_sync_interest (K : fcfg) : name -> Prop :=
| not_two : forall rest, length rest <> 2 -> length rest <> 4 ->
    no_sync_interest K (fc_sync K ++ rest)
| not_a_table : forall c k, no_ibf (fc_codec K) (fc_scheme K) (fc_n K) c ->
    no_sync_interest K (fc_sync K ++ [c; k]).
