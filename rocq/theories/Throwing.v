(** Model of application callbacks that throw: the handlers of Full.v and Consumer.v with the
    callback's body as a parameter. *)
From Coq Require Import List NArith ZArith Bool Arith.
From Verif Require Import Base Mon Iblt Tlv State NMap Codec Bloom Store Producer Partial Full Consumer.
Import ListNotations.
Local Open Scope N_scope.

(** ** Full sync *)
(** full-producer.cpp 428-488: onSyncData, where [cb] is the body of the update callback *)
Definition on_sync_data_cb (K : fcfg) (n : name) (buf : bytes) (cb : FM unit) : FM unit :=
  delete_pending n ;;
  match obind (decompress (fc_codec K) (fc_cscheme K) buf) state_of_buffer with
  | Throw _ => mret tt
  | UB u => mlift (UB u)
  | Hang => mlift Hang
  | Ok names =>
    mlet updates <- take_updates names;
    match updates with
    | _ :: _ =>
      memit [FoUpdate updates] ;;
      cb ;;
      mlet j <- draw K;
      mmod (fun s => fset_wait false (fset_sched (Some (f_now s + j, KSend)) s)) ;;
      process_waiting K
    | [] =>
      mmod (fset_wait true) ;;
      mlet j <- draw K;
      mmod (fun s => fset_sched (Some (f_now s + (fc_fresh K + j), KAfterWait)) s)
    end
  end.
(** full-producer.cpp 148-150: the fetcher's onComplete.  An exception leaves SegmentFetcher before
    it stops itself; it has no segment left to ask for, so it reports nothing more either way. *)
Definition fp_content (K : fcfg) (i : nat) (buf : bytes) (cb : FM unit) : FM unit :=
  mlet s <- mget;
  match fetch_of i (f_live s) with
  | Some n => mmod (fset_live (without i (f_live s))) ;; on_sync_data_cb K n buf cb
  | None => mret tt
  end.
(** the events of Full.v, and content whose update callback makes the calls [script] and then throws
    [x].  The kind of exception is immaterial: nothing on its way out catches it. *)
Inductive tev :=
| TEvent (e : fev)
| TThrows (i : nat) (buf : bytes) (script : list api) (x : exn).
(** full-producer.cpp 428-488, and Full.v for the rest *)
Definition t_step (K : fcfg) (e : tev) : FM unit :=
  match e with
  | TEvent e => fp_step K e
  | TThrows i buf script x => fp_content K i buf (api_calls K script ;; mlift (Throw x))
  end.
(** construction (full-producer.cpp 34-50) followed by events *)
Definition t_start (K : fcfg) (sys : Z) (evs : list tev) : option (fp * list fout) :=
  match fp_init K sys with
  | (s, o, Ok _) => match run (t_step K) s evs with Some (s', o') => Some (s', o ++ o') | None => None end
  | _ => None
  end.

(** ** Consumers *)
(** consumer.cpp 155-190: onHelloData, where [cb1] and [cb2] are the bodies of the hello and the
    update callback *)
Definition on_hello_data_cb (K : ccfg) (buf : bytes) (cb1 cb2 : CM unit) : CM unit :=
  mmod (fun s => cset_iblt (last_comp (c_hname s)) s) ;;
  mlet names <- mlift (state_of_buffer buf);
  mlet x <- take_hello names [];
  memit [CoHello (snd x)] ;;
  cb1 ;;
  match fst x with
  | [] => mret tt
  | updates => memit [CoUpdate updates] ;; cb2
  end.
(** consumer.cpp 257-286: onSyncData, where [cb] is the body of the update callback *)
Definition on_csync_data_cb (K : ccfg) (buf : bytes) (cb : CM unit) : CM unit :=
  mmod (fun s => cset_iblt (last_comp (c_sname s)) s) ;;
  mlet names <- mlift (state_of_buffer buf);
  mlet updates <- take_sync names;
  (match updates with
   | [] => mret tt
   | _ => memit [CoUpdate updates] ;; cb
   end) ;;
  send_sync K.
(** consumer.cpp 143-145, 235-242: the fetchers' onComplete (see [fp_content]) *)
Definition c_content (K : ccfg) (i : nat) (buf : bytes) (cb1 cb2 : CM unit) : CM unit :=
  mlet s <- mget;
  match cfetch i (c_live s) with
  | None => mret tt
  | Some (KHello, _) => finish i ;; on_hello_data_cb K buf cb1 cb2
  | Some (KSync, _) =>
    finish i ;;
    if is_nack (c_type s) then mmod (cset_type Blob) else on_csync_data_cb K buf cb2
  end.
(** a callback that makes the calls [script] and then throws [x], if it is to throw.  The update
    callback of addSubscription (consumer.cpp 61-79) is the last thing that call does, so an
    exception thrown from there only takes the place of its result. *)
Definition c_callback (K : ccfg) (script : list capi) (x : option exn) : CM unit :=
  match x with
  | Some e => calls K script ;; mlift (Throw e)
  | None => calls K script
  end.
