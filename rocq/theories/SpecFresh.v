(** Vocabulary for the statements about the age of answers. *)
From Coq Require Import List NArith Bool.
From Verif Require Import Base Mon Tlv State Store SpecStore.
Import ListNotations.
Local Open Scope N_scope.

(** [d] is a segment of a publication with the content [buf] *)
Definition segment_of (buf : bytes) (d : data) : Prop :=
  exists vname segs, SegmentsOf vname buf segs /\ In d segs.
(** the scheduler has run every erase event of the publisher that is due at time [now] *)
Definition erased_in_time (now : N) (b : pub) : Prop :=
  forall dl n, In (dl, n) (pb_timers b) -> now < dl.

(** [d] is a segment of publication number [k] (counted from 0) of a publisher *)
Definition of_publication (E : env) (k : nat) (d : data) : Prop :=
  exists sg dname buf i,
    d = seg_data E sg (append_version dname (en_version E k)) buf (d_fresh d) i /\ (i < nseg buf)%nat.
