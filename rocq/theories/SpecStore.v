(** Vocabulary for the statements about published segments. *)
From Coq Require Import List NArith Bool Arith.
From Verif Require Import Base Tlv Store.
Import ListNotations.

(** [segs] is a correct segmentation of [buf] under the versioned name [vname]: numbered from 0,
    at most 4400 bytes each, all announcing the last one as final, and giving [buf] back when
    concatenated *)
Definition SegmentsOf (vname : name) (buf : bytes) (segs : list data) : Prop :=
  segs <> [] /\
  concat (map d_content segs) = buf /\
  forall i d, nth_error segs i = Some d ->
    d_name d = vname ++ [number_comp TYPE_SEGMENT (N.of_nat i)] /\
    d_type d = Blob /\
    d_final d = Some (number_comp TYPE_SEGMENT (N.of_nat (length segs - 1))) /\
    (N.of_nat (length (d_content d)) <= 4400)%N.

(** the name under which the next publication of [dname] appears *)
Definition next_version (E : env) (p : pub) (dname : name) : name :=
  dname ++ [number_comp TYPE_VERSION (en_version E (pb_published p))].

(** no packet already in the store matches an interest for [n] *)
Definition unshadowed (n : name) (p : pub) : Prop :=
  forall e, In e (pb_store p) -> is_prefix n (full_name e) = false.

(** the scheduler has run every event that is due *)
Definition scheduler_ran (w : pworld) : Prop :=
  forall dl n, In (dl, n) (pb_timers (pw_pub w)) -> (pw_now w < dl)%N.

(** the publications of a history started at time [now]: when, and with which freshness period *)
Fixpoint publications (now : N) (ops : list pop) : list (N * N) :=
  match ops with
  | [] => []
  | PPublish _ _ _ f :: r => (now, f) :: publications now r
  | PAdvance dt :: r => publications (now + dt) r
  | _ :: r => publications now r
  end.
