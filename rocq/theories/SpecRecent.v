(** Vocabulary for the statements about how long interests are remembered. *)
From Coq Require Import List NArith ZArith Bool.
From Verif Require Import Base Mon Tlv NMap State Store Producer Partial SpecPartial Full FullTrace SpecFull.
Import ListNotations.
Local Open Scope N_scope.

(** ** Full sync *)
(** the interest [n] arrived with lifetime [l], and [age] milliseconds have passed since then *)
Definition arrived (evs : list fev) (n : name) (l age : N) : Prop :=
  exists pre post, evs = pre ++ FeInterest n l :: post /\ age = time_of post.
(** the timer of the waiting list is prompt throughout [evs]: no time passes beyond the moment for
    which it is set *)
Definition punctual (K : fcfg) (sys : Z) (evs : list fev) : Prop :=
  forall pre dt post s o dl, evs = pre ++ FeTick dt :: post -> reaches K sys pre s o -> f_delay s = Some dl ->
    f_now s + dt <= dl.
(** every expiration event of a pending interest that is due has run *)
Definition none_overdue (s : fp) : Prop := forall n x, nm_find n (f_pending s) = Some x -> f_now s < fe_expiry x.
(** the number of interests in a history *)
Definition interests (evs : list fev) : nat :=
  length (filter (fun e => match e with FeInterest _ _ => true | _ => false end) evs).
(** the longest time an interest waits: 65536 turns of at most 500 milliseconds *)
Definition longest_wait : N := 65536 * 500.

(** ** Partial sync *)
Definition pdt_of (e : pev) : N := match e with PTick dt => dt | _ => 0 end.
Definition ptime_of (evs : list pev) : N := fold_right (fun e t => pdt_of e + t) 0 evs.
Definition pinterests (evs : list pev) : nat :=
  length (filter (fun e => match e with PInterest _ _ => true | _ => false end) evs).
(** the interest [n] is stored under another name than its own *)
Definition versioned (K : pcfg) (n : name) : Prop := exists key bf t, sync_request_for K n key bf t /\ n <> key.
