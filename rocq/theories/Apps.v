(** Model of the example applications, /repo/examples/producer.cpp, full-sync.cpp and consumer.cpp.
    Logging is kept where it is the only effect (AoLog, the update loops).  The parsing of the
    command line and of names is not modelled: an application starts with the list of its streams. *)
From Coq Require Import List NArith ZArith Bool Arith.
From Verif Require Import Base Mon Tlv NMap State Store Producer Partial Full Consumer.
Import ListNotations.
Local Open Scope N_scope.

(** ** The two producer applications *)
(** what producer.cpp and full-sync.cpp use of the library: its handlers, addUserNode, publishName
    without a number, getSeqNo, and the clock of the scheduler *)
Record lib (S O E : Type) := mkLib {
  lb_step : E -> M S O unit;
  lb_add : name -> E;
  lb_publish : name -> E;
  lb_seq : name -> S -> option N;
  lb_now : S -> N }.
Arguments lb_step {S O E}. Arguments lb_add {S O E}. Arguments lb_publish {S O E}. Arguments lb_seq {S O E}. Arguments lb_now {S O E}.
Definition partial_lib (K : pcfg) : lib pp data pev :=
  mkLib _ _ _ (pp_step K) PAdd (fun p => PPublishName p None) (fun p s => get_seq p (pp_core s)) pp_now.
Definition full_lib (K : fcfg) : lib fp fout fev :=
  mkLib _ _ _ (fp_step K) (fun p => FeApi (AAdd p)) (fun p => FeApi (APublish p None)) (fun p s => get_seq p (f_core s)) f_now.

(** producer.cpp 81-90, full-sync.cpp 95-104: the library object, the scheduled updates with their
    deadlines, m_maxNumPublish *)
Record exapp (S : Type) := mkApp { ap_lib : S; ap_timers : list (N * name); ap_max : N }.
Arguments mkApp {S}. Arguments ap_lib {S}. Arguments ap_timers {S}. Arguments ap_max {S}.
(** what the library emits, and the line "Publish: prefix/number" *)
Inductive aout (O : Type) := AoLib (o : O) | AoLog (p : name) (seq : N).
Arguments AoLib {O}. Arguments AoLog {O}.
Definition AM (S O A : Type) := M (exapp S) (aout O) A.
(** producer.cpp 43, full-sync.cpp 53: m_maxNumPublish(maxNumPublish), from int to uint64_t *)
Definition max_of_int (z : Z) : N := Z.to_N (z mod Z.of_N two64).

Definition in_lib {S O : Type} (m : M S O unit) : AM S O unit := fun a =>
  let '(s, o, r) := m (ap_lib a) in (mkApp s (ap_timers a) (ap_max a), map AoLib o, r).
(** producer.cpp 53-54 and 76-77, full-sync.cpp 59-60 and 80-81: m_scheduler.schedule(milliseconds(m_uniformRand(m_rng)), doUpdate); [r] is the number drawn *)
Definition ap_schedule {S O E} (L : lib S O E) (p : name) (r : N) : AM S O unit :=
  mmod (fun a => mkApp (ap_lib a) (ap_timers a ++ [(lb_now L (ap_lib a) + r, p)]) (ap_max a)).
(** producer.cpp 65-79, full-sync.cpp 71-83: doUpdate; value() of an empty optional throws *)
Definition do_update {S O E} (L : lib S O E) (p : name) (r : N) : AM S O unit :=
  in_lib (lb_step L (lb_publish L p)) ;;
  mlet a <- mget;
  match lb_seq L p (ap_lib a) with
  | None => mlift (Throw ExBadOptional)
  | Some seq =>
    memit [AoLog p seq] ;;
    if seq <? ap_max a then ap_schedule L p r else mret tt
  end.
(** producer.cpp 46-55, full-sync.cpp 56-61: the loop of the constructor over the streams; a stream
    comes with the first number drawn for it *)
Fixpoint add_streams {S O E} (L : lib S O E) (streams : list (name * N)) : AM S O unit :=
  match streams with
  | [] => mret tt
  | (p, r) :: l => in_lib (lb_step L (lb_add L p)) ;; ap_schedule L p r ;; add_streams L l
  end.
(** an event of the library (network, time, timers), or a scheduled update, by its position, that is
    due; [r] is the number drawn for the next one *)
Inductive aev (E : Type) := AeLib (e : E) | AeUpdate (i : nat) (r : N).
Arguments AeLib {E}. Arguments AeUpdate {E}.
Definition app_step {S O E} (L : lib S O E) (e : aev E) : AM S O unit :=
  match e with
  | AeLib e => in_lib (lb_step L e)
  | AeUpdate i r =>
    mlet a <- mget;
    match nth_error (ap_timers a) i with
    | Some (dl, p) =>
      if dl <=? lb_now L (ap_lib a) then
        mmod (fun a => mkApp (ap_lib a) (firstn i (ap_timers a) ++ skipn (Datatypes.S i) (ap_timers a)) (ap_max a)) ;;
        do_update L p r
      else mret tt
    | None => mret tt
    end
  end.
(** producer.cpp 102-108, full-sync.cpp 116-122: an exception leaves processEvents, is caught in main
    and ends the program *)
Fixpoint app_run {S O E} (L : lib S O E) (a : exapp S) (evs : list (aev E)) : option (exapp S * list (aout O)) :=
  match evs with
  | [] => Some (a, [])
  | e :: l =>
    match app_step L e a with
    | (a1, o1, Ok _) => match app_run L a1 l with Some (a2, o2) => Some (a2, o1 ++ o2) | None => None end
    | _ => None
    end
  end.
(** construction, then events; [s] is the library object as its constructor leaves it *)
Definition app_start {S O E} (L : lib S O E) (s : S) (max : Z) (streams : list (name * N)) (evs : list (aev E)) :
  option (exapp S * list (aout O)) :=
  match add_streams L streams (mkApp s [] (max_of_int max)) with
  | (a1, o1, Ok _) => match app_run L a1 evs with Some (a2, o2) => Some (a2, o1 ++ o2) | None => None end
  | _ => None
  end.

(** ** The update callbacks *)
(** full-sync.cpp 89-91, consumer.cpp 89-92: for (uint64_t i = low; i <= high; i++), logging i;
    [fuel] bounds the number of turns *)
Fixpoint log_range (fuel : nat) (i high : N) : outcome (list N) :=
  match fuel with
  | O => Hang
  | Datatypes.S f =>
    if i <=? high then olet l <- log_range f (w64 (i + 1)) high; Ok (i :: l) else Ok []
  end.
(** full-sync.cpp 85-93, consumer.cpp 85-94: processSyncUpdate *)
Fixpoint log_updates (fuel : nat) (l : list missing) : outcome (list (name * N)) :=
  match l with
  | [] => Ok []
  | m :: r =>
    olet a <- log_range fuel (mi_low m) (mi_high m);
    olet b <- log_updates fuel r;
    Ok (map (fun v => (mi_prefix m, v)) a ++ b)
  end.

(** ** The consumer application *)
(** consumer.cpp 72-77: the loop that subscribes; sensors[i] beyond the end of the vector and the
    dereference of end() are undefined *)
Fixpoint pick (avail : nmap N) (sensors : list name) (n i : nat) : outcome (list capi) :=
  match n with
  | O => Ok []
  | Datatypes.S n =>
    match nth_error sensors i with
    | None => UB UbOutOfBounds
    | Some p =>
      match nm_find p avail with
      | None => UB UbOutOfBounds
      | Some v => olet l <- pick avail sensors n (Datatypes.S i); Ok (CSub p v true :: l)
      end
    end
  end.
(** consumer.cpp 60-83: afterReceiveHelloData as the sequence of calls it makes; [sensors] is the
    shuffled vector, nSub an int *)
Definition after_hello (nsub : Z) (avail : nmap N) (sensors : list name) : outcome (list capi) :=
  olet l <- pick avail sensors (Z.to_nat nsub) 0;
  Ok (l ++ [CSendSync]).
