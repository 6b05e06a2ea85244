(** Vocabulary for the statements about producers that know the same. *)
From Coq Require Import List NArith ZArith Bool Arith.
From Verif Require Import Base Mon Iblt SpecIblt Tlv State NMap Codec Bloom Store Producer SpecProducer
  Partial SpecPartial Full FullTrace SpecFull.
Import ListNotations.
Local Open Scope N_scope.

(** two packets are the same up to the version in the name and the signature *)
Definition alike (d1 d2 : data) : Prop :=
  d_type d1 = d_type d2 /\ d_content d1 = d_content d2 /\ d_final d1 = d_final d2 /\ d_fresh d1 = d_fresh d2 /\
  (d_name d1 = d_name d2 \/
   exists base v1 v2 g, d_name d1 = append_version base v1 ++ [g] /\ d_name d2 = append_version base v2 ++ [g]).
(** the same packets in the same order *)
Definition all_alike : list data -> list data -> Prop := Forall2 alike.

(** equal options; versions, signatures and random numbers are those of each producer *)
Record same_options (K1 K2 : pcfg) : Prop := mkSameOptions {
  so_sync : pc_sync K1 = pc_sync K2; so_n : pc_n K1 = pc_n K2; so_scheme : pc_scheme K1 = pc_scheme K2;
  so_hfresh : pc_hello_fresh K1 = pc_hello_fresh K2; so_sfresh : pc_sync_fresh K1 = pc_sync_fresh K2;
  so_codec : pc_codec K1 = pc_codec K2; so_libm : pc_libm K1 = pc_libm K2; so_fuel : pc_fuel K1 = pc_fuel K2 }.
(** ... except for the interest lifetime, which others do not see *)
Record same_node_options (K1 K2 : fcfg) : Prop := mkSameNode {
  sn_sync : fc_sync K1 = fc_sync K2; sn_n : fc_n K1 = fc_n K2; sn_scheme : fc_scheme K1 = fc_scheme K2;
  sn_cscheme : fc_cscheme K1 = fc_cscheme K2; sn_fresh : fc_fresh K1 = fc_fresh K2;
  sn_codec : fc_codec K1 = fc_codec K2; sn_fuel : fc_fuel K1 = fc_fuel K2 }.

(** the request under the name [r] waits in both with the same filter and IBF, or in neither *)
Definition same_request (r : name) (s1 s2 : pp) : Prop :=
  option_map (fun e => (pe_bf e, pe_iblt e)) (nm_find r (pp_pending s1)) =
  option_map (fun e => (pe_bf e, pe_iblt e)) (nm_find r (pp_pending s2)).
Definition same_node_request (r : name) (s1 s2 : fp) : Prop :=
  option_map fe_iblt (nm_find r (f_pending s1)) = option_map fe_iblt (nm_find r (f_pending s2)).
