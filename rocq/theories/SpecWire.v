(** Vocabulary for the statements about the names on the wire. *)
From Coq Require Import List NArith Bool.
From Coq.Strings Require Import Byte String.
From Verif Require Import Base Tlv Store.
Import ListNotations.
Local Open Scope list_scope.
Local Open Scope N_scope.

(** a generic component (type 8) with the characters of a text *)
Definition text (s : string) : comp := mkComp 8 (list_byte_of_string s).
(** a component of type [t] that holds a NonNegativeInteger: 1, 2, 4 or 8 bytes, big endian *)
Definition numbered (t v : N) (c : comp) : Prop :=
  ctype c = t /\ be_dec (cval c) = v /\ In (List.length (cval c)) [1; 2; 4; 8]%nat.
Definition generic (c : comp) : Prop := ctype c = 8.

(** what a consumer asks for: /P/hello or /P/sync/(count)/(rate)/(filter)/(IBF) *)
Definition hello_request (P n : name) : Prop := n = P ++ [text "hello"].
Definition sync_request_name (P n : name) : Prop :=
  exists c1 c2 c3 c4, n = P ++ [text "sync"; c1; c2; c3; c4].
(** a segment: (name)/(version, type 54)/(segment, type 50), with the number of the last segment
    and at most 4400 bytes of content *)
Definition segment_under (n : name) (d : data) : Prop :=
  d_type d = Blob /\ exists v i z, d_name d = n ++ [v; i] /\ ctype v = 54 /\ ctype i = 50 /\
    In (List.length (cval v)) [1; 2; 4; 8]%nat /\ In (List.length (cval i)) [1; 2; 4; 8]%nat /\
    d_final d = Some z /\ ctype z = 50 /\ In (List.length (cval z)) [1; 2; 4; 8]%nat /\
    (List.length (d_content d) <= 44 * 100)%nat.
(** an application Nack: (name)/(segment 0), the only segment, without content *)
Definition nack_under (n : name) (d : data) : Prop :=
  d_type d = AppNack /\ d_content d = [] /\
  exists z, d_name d = n ++ [z] /\ numbered 50 0 z /\ d_final d = Some z.
(** the data of a partial-sync producer: the name asked for and its own IBF, then as above *)
Definition producer_packet (P : name) (d : data) : Prop :=
  exists req c, generic c /\
    ((hello_request P req \/ sync_request_name P req) /\ segment_under (req ++ [c]) d \/
     sync_request_name P req /\ nack_under (req ++ [c]) d).
(** the data of a full-sync node: segments under an interest name, the prefix and two components, or a Nack under the prefix and its own IBF *)
Definition node_packet (P : name) (d : data) : Prop :=
  (exists c1 c2, segment_under (P ++ [c1; c2]) d) \/
  (exists c, generic c /\ nack_under (P ++ [c]) d).
(** what a full-sync node asks: the prefix, its IBF and the number of updates it counted *)
Definition node_interest (P n : name) (count : N) : Prop :=
  exists c d, n = P ++ [c; d] /\ generic c /\ numbered 8 count d.
(** what a consumer sends *)
Definition consumer_interest (P : name) (n : name) (sync : bool) : Prop :=
  if sync then exists c1 c2 c3 c4 v1 v2, n = P ++ [text "sync"; c1; c2; c3; c4] /\
    numbered 8 v1 c1 /\ numbered 8 v2 c2 /\ generic c3
  else n = P ++ [text "hello"].
