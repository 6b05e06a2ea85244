(** Vocabulary for the statements about removed user nodes. *)
From Coq Require Import List NArith ZArith Bool.
From Verif Require Import Base Mon Tlv State Store Producer Partial Full FullTrace SpecFull.
Import ListNotations.
Local Open Scope N_scope.

(** the event does not mention [p]: the application does not publish it (neither directly nor from its
    update callback), and received content does not name it *)
Definition silent_about (K : fcfg) (p : name) (e : fev) : Prop :=
  (forall q, ~ In (CPublish p q) (ev_ops e)) /\
  forall i buf script names x, e = FeContent i buf script -> content_names K buf names -> ~ In (p ++ [x]) names.
(** the list of names has none for [p] *)
Definition without_prefix (p : name) (names : list name) : Prop := forall x, ~ In (p ++ [x]) names.

(** how a name gets into what a full-sync node with the data [k] sends during event [e]: it is the
    current number of a prefix, or it is the number that a publishName call of this event announces *)
Definition named_then (e : fev) (k : core) (nm : name) : Prop :=
  (exists p v, nm = append_number p v /\ v <> 0 /\ get_seq p k = Some v) \/
  (exists p q c, In (CPublish p q) (ev_ops e) /\ nm = append_number p (publish_seq c q)).
