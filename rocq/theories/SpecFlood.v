(** Vocabulary for counting the packets of a full-sync node. *)
From Coq Require Import List NArith Bool.
From Verif Require Import Base Full.
Import ListNotations.
Local Open Scope N_scope.

Definition count {A} (f : A -> bool) (l : list A) : N := N.of_nat (length (filter f l)).
(** sync interests and data packets put on the face *)
Definition interests_sent : list fout -> N := count (fun x => match x with FoInterest _ _ => true | _ => false end).
Definition data_sent : list fout -> N := count (fun x => match x with FoData _ => true | _ => false end).
(** interests received; contents and errors that fetchers reported *)
Definition interests_received : list fev -> N := count (fun e => match e with FeInterest _ _ => true | _ => false end).
Definition fetches_ended : list fev -> N := count (fun e => match e with FeContent _ _ _ | FeError _ _ => true | _ => false end).
