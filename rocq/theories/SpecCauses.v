(** Vocabulary for counting the interests of a consumer. *)
From Coq Require Import List NArith Bool.
From Verif Require Import Base Store Consumer SpecConsumer SpecFlood.
Import ListNotations.
Local Open Scope N_scope.

(** hello and sync interests put on the face *)
Definition asks_sent : list cout -> N := count (fun x => match x with CoInterest _ _ => true | _ => false end).
(** calls of sendHelloInterest and sendSyncInterest, from callbacks included *)
Definition send_calls (evs : list cev) : N := count sends (flat_map calls_of evs).
(** contents and errors that fetchers reported *)
Definition ended : list cev -> N := count (fun e => match e with CeContent _ _ _ _ | CeError _ _ => true | _ => false end).
(** segments that fetchers reported *)
Definition segments : list cev -> N := count (fun e => match e with CeSegment _ _ => true | _ => false end).
(** none of them is an application Nack *)
Definition no_nack (evs : list cev) : Prop := forall i d, In (CeSegment i d) evs -> d_type d <> AppNack.
(** retries that are scheduled *)
Definition retries (s : cs) : N := N.of_nat (length (c_timers s)).
