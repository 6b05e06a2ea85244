(** Vocabulary for the statements about destruction from a callback. *)
From Coq Require Import List.
From Verif Require Import Base Mon Tlv NMap Store Full Consumer Life.
Import ListNotations.

(** what fetcher [i] brings makes the consumer call its update callback, were the callbacks to do nothing *)
Definition consumer_news (K : ccfg) (i : nat) (buf : bytes) (s : cs) : Prop :=
  exists u, In (CoUpdate u) (outs (c_step K (CeContent i buf [] []) s)).
(** what fetcher [i] brings makes the full-sync node call its update callback *)
Definition node_news (K : fcfg) (i : nat) (buf : bytes) (s : fp) : Prop :=
  exists u, In (FoUpdate u) (outs (fp_step K (FeContent i buf []) s)).
(** the object exists no more; it was in state [x] *)
Definition destroyed {T O} (x : T) (o : list O) (r : lres T O) : Prop :=
  exists a f, r = Runs (mkLife x false a f) o (Ok tt).
