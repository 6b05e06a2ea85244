(** Vocabulary for the statements about callbacks that throw. *)
From Coq Require Import List NArith ZArith Bool Arith.
From Verif Require Import Base Mon Iblt Tlv State NMap Codec Bloom Store Producer SpecProducer Partial Full FullTrace
  SpecFull Consumer Throwing.
Import ListNotations.
Local Open Scope N_scope.

(** sequence numbers passed by the application are uint64_t *)
Definition tev_wf (e : tev) : Prop :=
  match e with
  | TEvent e => fev_wf e
  | TThrows _ _ script _ => Forall cop_wf (map api_op script)
  end.
(** [s] is a state of a node constructed at system time [sys] that went through [evs], where any
    number of update callbacks threw, and [o] is everything it showed *)
Definition treaches (K : fcfg) (sys : Z) (evs : list tev) (s : fp) (o : list fout) : Prop :=
  Forall tev_wf evs /\ t_start K sys evs = Some (s, o).
(** the system clock is never set back (as [steady] of SpecFull) *)
Fixpoint tsteady (sys : Z) (evs : list tev) : Prop :=
  match evs with
  | [] => True
  | TEvent (FeTick dt) :: r => tsteady (sys + Z.of_N dt) r
  | TEvent (FeClock t) :: r => (sys <= t)%Z /\ tsteady t r
  | _ :: r => tsteady sys r
  end.
