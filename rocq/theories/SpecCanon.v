(** The canonical order of names of the NDN packet format, and the packet that a prefix selects by it. *)
From Coq Require Import List NArith Bool.
From Verif Require Import Base Tlv Store.
Import ListNotations.
Local Open Scope N_scope.

(** two values of the same length: the first byte in which they differ decides *)
Definition value_before (u v : bytes) : Prop :=
  exists p x y u' v', u = p ++ x :: u' /\ v = p ++ y :: v' /\ b2n x < b2n y.
(** the type decides, then the length of the value, then its bytes *)
Definition comp_before (a b : comp) : Prop :=
  ctype a < ctype b \/
  (ctype a = ctype b /\ (length (cval a) < length (cval b))%nat) \/
  (ctype a = ctype b /\ length (cval a) = length (cval b) /\ value_before (cval a) (cval b)).
(** a proper prefix comes first, otherwise the first component in which the names differ decides *)
Definition name_before (m n : name) : Prop :=
  (exists c r, n = m ++ c :: r) \/
  (exists p a b m' n', m = p ++ a :: m' /\ n = p ++ b :: n' /\ comp_before a b).

(** [d] has the name [n] or a longer one; the digest of a packet counts as the last component of its name *)
Definition matches (n : name) (d : data) : Prop := exists r, full_name d = n ++ r.
(** of the packets of the list that match [n], [d] has the first name in the order above *)
Definition first_match (n : name) (l : list data) (d : data) : Prop :=
  In d l /\ matches n d /\
  forall e, In e l -> matches n e -> full_name e = full_name d \/ name_before (full_name d) (full_name e).
(** the packets answer the interests of the list one by one *)
Definition answers_in_turn (ks : list name) (ds : list data) : Prop :=
  Forall2 (fun k d => exists r, d_name d = k ++ r) ks ds.
