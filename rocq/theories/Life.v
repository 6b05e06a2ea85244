(** The life cycle of the three classes: registration with the forwarder, and destruction.

    The objects hand callbacks bound to [this] to the Face (interest filters, registration callbacks)
    and to SegmentFetchers, which keep themselves alive until they end or are stopped.  A call of such
    a callback after the object was destroyed is undefined behaviour, here [Dangling].  What ndn-cxx
    does is stated with each definition; whether the face still calls the callback of a registration
    whose handle was cancelled before the forwarder answered is left open ([fa_late]). *)
From Coq Require Import List NArith ZArith Bool Arith.
From Verif Require Import Base Mon Tlv NMap Store Producer Partial Full Consumer.
Import ListNotations.
Local Open Scope N_scope.

Record face_env := mkFaceEnv { fa_late : bool }.
(** the answer of the forwarder to the registration of the sync prefix *)
Inductive answer := Unanswered | Accepted | Refused.
(** an object; whether it exists; the answer; whether its interest handlers are in the face's table *)
Record life (T : Type) := mkLife { lf_obj : T; lf_alive : bool; lf_answer : answer; lf_filter : bool }.
Arguments mkLife {T}. Arguments lf_obj {T}. Arguments lf_alive {T}. Arguments lf_answer {T}. Arguments lf_filter {T}.
(** the forwarder answers; an event of the object; the object is destroyed (not from one of its own callbacks) *)
Inductive lev (E : Type) := LAnswer (accepted : bool) | LEvent (e : E) | LDestroy.
Arguments LAnswer {E}. Arguments LEvent {E}. Arguments LDestroy {E}.
(** the new state with what was sent and what the handler ended with; or a destroyed object was called *)
Inductive lres (T O : Type) := Runs (s : life T) (o : list O) (r : outcome unit) | Dangling.
Arguments Runs {T O}. Arguments Dangling {T O}.

(** the event happens to an object that exists *)
Definition lives {T O E} (step : E -> M T O unit) (e : E) (s : life T) : lres T O :=
  let '(x, o, r) := step e (lf_obj s) in Runs (mkLife x (lf_alive s) (lf_answer s) (lf_filter s)) o r.
(** nothing happens *)
Definition idle {T O} (s : life T) : lres T O := Runs s [] (Ok tt).
(** producer-base.cpp 139-144: onRegisterFailed, a static function *)
Definition refused {T O} (s : life T) : lres T O :=
  Runs (mkLife (lf_obj s) (lf_alive s) Refused (lf_filter s)) [] (Throw ExProducer).
(** a registration is answered once, and after the destruction of its handle only if the face does so *)
Definition due {T} (F : face_env) (s : life T) : bool :=
  match lf_answer s with Unanswered => lf_alive s || fa_late F | _ => false end.

(** ** PartialProducer *)
(** partial-producer.cpp 41-50: the callback of the registration sets the two filters; their handles
    are thrown away, so nothing removes them: partial-producer.hpp 133 holds the handle of the
    registration only, and there is no destructor *)
Definition pl_new (K : pcfg) : life pp := mkLife (pp_new K) true Unanswered false.
Definition under_filters (K : pcfg) (n : name) : bool :=
  is_prefix (pc_sync K ++ [HELLO]) n || is_prefix (pc_sync K ++ [SYNC]) n.
Definition pl_step (K : pcfg) (F : face_env) (e : lev pev) (s : life pp) : lres pp data :=
  match e with
  | LAnswer true =>
    if due F s then
      if lf_alive s then Runs (mkLife (lf_obj s) true Accepted true) [] (Ok tt) else Dangling
    else idle s
  | LAnswer false => if due F s then refused s else idle s
  | LEvent (PInterest n l) =>
    if lf_filter s then
      if lf_alive s then lives (pp_step K) (PInterest n l) s
      else if under_filters K n then Dangling else idle s
    else idle s
  | LEvent e => if lf_alive s then lives (pp_step K) e s else idle s
  | LDestroy => Runs (mkLife (lf_obj s) false (lf_answer s) (lf_filter s)) [] (Ok tt)
  end.

(** ** FullProducer *)
(** full-producer.cpp 43-45: the face sets the filter when the forwarder has accepted the prefix;
    the handle (full-producer.hpp 228) removes both *)
Definition fl_new (K : fcfg) (sys : Z) : life fp := mkLife (st (fp_init K sys)) true Unanswered false.
(** full-producer.cpp 69-74: the destructor; the members cancel their timers *)
Definition fp_destroy (s : fp) : fp := st (stop_fetcher s).
Definition fl_step (K : fcfg) (F : face_env) (e : lev fev) (s : life fp) : lres fp fout :=
  match e with
  | LAnswer true =>
    if due F s then Runs (mkLife (lf_obj s) (lf_alive s) Accepted true) [] (Ok tt) else idle s
  | LAnswer false => if due F s then refused s else idle s
  | LEvent (FeInterest n l) =>
    if lf_filter s then
      if lf_alive s then lives (fp_step K) (FeInterest n l) s
      else if is_prefix (fc_sync K) n then Dangling else idle s
    else idle s
  | LEvent (FeContent i _ _ as e) | LEvent (FeSegment i _ as e) | LEvent (FeError i _ as e) =>
    if lf_alive s then lives (fp_step K) e s
    else match fetch_of i (f_live (lf_obj s)) with Some _ => Dangling | None => idle s end
  | LEvent e => if lf_alive s then lives (fp_step K) e s else idle s
  | LDestroy =>
    if lf_alive s then Runs (mkLife (fp_destroy (lf_obj s)) false (lf_answer s) false) [] (Ok tt) else idle s
  end.

(** ** Consumer *)
(** consumer.hpp 55-225: there is no destructor, so fetchers are not stopped; the scheduler cancels
    its timers.  A consumer registers nothing. *)
Definition cl_new (s : cs) : life cs := mkLife s true Accepted false.
Definition cl_step (K : ccfg) (e : lev cev) (s : life cs) : lres cs cout :=
  match e with
  | LAnswer _ => idle s
  | LEvent (CeContent i _ _ _ as e) | LEvent (CeSegment i _ as e) | LEvent (CeError i _ as e) =>
    if lf_alive s then lives (c_step K) e s
    else match cfetch i (c_live (lf_obj s)) with Some _ => Dangling | None => idle s end
  | LEvent e => if lf_alive s then lives (c_step K) e s else idle s
  | LDestroy => Runs (mkLife (lf_obj s) false (lf_answer s) (lf_filter s)) [] (Ok tt)
  end.

(** ** Runs *)
(** a run ends early when a handler hangs or its behaviour is undefined *)
Inductive lrun_end (T O : Type) := Ended (s : life T) (o : list O) | Broken | Called_dead.
Arguments Ended {T O}. Arguments Broken {T O}. Arguments Called_dead {T O}.
Fixpoint lrun {T O E} (step : lev E -> life T -> lres T O) (s : life T) (evs : list (lev E)) : lrun_end T O :=
  match evs with
  | [] => Ended s []
  | e :: r =>
    match step e s with
    | Dangling => Called_dead
    | Runs s1 o1 (Ok _) | Runs s1 o1 (Throw _) =>
      match lrun step s1 r with Ended s2 o2 => Ended s2 (o1 ++ o2) | x => x end
    | Runs _ _ _ => Broken
    end
  end.
