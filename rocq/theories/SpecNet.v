(** Vocabulary for the statement about news that crosses several ideal links. *)
From Coq Require Import List NArith ZArith Bool Arith.
From Verif Require Import Base Mon Iblt SpecIblt Tlv State NMap Codec Store Producer SpecProducer
  Partial SpecPartial Full FullTrace SpecFull SpecExchange SpecFresh SpecDeliver.
Import ListNotations.
Local Open Scope N_scope.

(** what happens at one node: its configuration, its system clock at the start, the events and
    observations before the moment of interest, its state at that moment, the events and observations
    from then on, and its state in the end *)
Record line := mkLine {
  ln_cfg : fcfg; ln_sys : Z; ln_past : list fev; ln_seen : list fout; ln_from : fp;
  ln_events : list fev; ln_out : list fout; ln_to : fp }.
(** the node was set up properly, its clock never goes back, its timers are prompt, no name is removed,
    no two of its names collide, and its publications get different versions *)
Record regular (x : line) : Prop := mkRegular {
  rg_schemes : schemes_ok (ln_cfg x);
  rg_lossless : lossless (fc_codec (ln_cfg x));
  rg_uri : uri_ok (ln_cfg x);
  rg_clock : (0 <= ln_sys x)%Z /\ steady (ln_sys x) (ln_past x ++ ln_events x);
  rg_reaches : reaches (ln_cfg x) (ln_sys x) (ln_past x) (ln_from x) (ln_seen x);
  rg_wf : Forall fev_wf (ln_events x);
  rg_run : fp_run (ln_cfg x) (ln_from x) (ln_events x) = Some (ln_to x, ln_out x);
  rg_prompt : prompt (ln_cfg x) (ln_from x) (ln_events x);
  rg_collision : no_collision (ln_cfg x) (ln_seen x ++ ln_out x);
  rg_removal : no_removal (flat_map ev_ops (ln_events x));
  rg_versions : versions_differ (fc_env (ln_cfg x)) (pb_published (f_pub (ln_to x))) }.
(** an ideal link brings the answers of [x] to [y] (SpecDeliver), and their data can be compared at any
    two moments *)
Record linked (x y : line) : Prop := mkLinked {
  lk_group : same_group (ln_cfg x) (ln_cfg y);
  lk_joint : joint (ln_cfg x) (ln_cfg y) (ln_from x) (ln_from y) (ln_events x) (ln_out x) (ln_events y) (ln_out y) (ln_to x) (ln_to y);
  lk_comparable : forall k kb, held_during (f_core (ln_from x)) (ln_out x) k -> held_during (f_core (ln_from y)) (ln_out y) kb ->
    comparable (ln_cfg x) (ln_past x ++ ln_events x) k kb }.
(** [ys] are the nodes along a path of ideal links that begins at [x] *)
Fixpoint path (x : line) (ys : list line) : Prop :=
  match ys with [] => True | y :: r => linked x y /\ regular y /\ path y r end.
(** how long news need along the path *)
Definition hop (x y : line) : N :=
  N.max (fc_fresh (ln_cfg x)) 10 + fc_life (ln_cfg y) / 2 + fc_fresh (ln_cfg y) + 2 * 500 + 1.
Fixpoint hops (x : line) (ys : list line) : N :=
  match ys with [] => 0 | y :: r => hop x y + hops y r end.
