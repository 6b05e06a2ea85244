(** Vocabulary for the statement that names stay bound to their content. *)
From Coq Require Import List NArith.
From Verif Require Import Base Tlv Store.
Import ListNotations.

(** a reader cannot tell the two packets apart, except that notices of a failed comparison may have been
    signed anew *)
Definition same_packet (d1 d2 : data) : Prop :=
  d_type d1 = d_type d2 /\ d_content d1 = d_content d2 /\ d_final d1 = d_final d2 /\ d_fresh d1 = d_fresh d2 /\
  (d_type d1 = Blob -> d1 = d2).
(** no name stands for two contents *)
Definition names_bound (l : list data) : Prop :=
  forall d1 d2, In d1 l -> In d2 l -> d_name d1 = d_name d2 -> same_packet d1 d2.
