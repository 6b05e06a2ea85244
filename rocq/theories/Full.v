(** Model of FullProducer (PSync/full-producer.hpp, full-producer.cpp). *)
From Coq Require Import List NArith ZArith Bool Arith.
From Coq.Strings Require Import Byte.
From Verif Require Import Base Mon Iblt Tlv State NMap Codec Store Producer Partial.
Import ListNotations.
Local Open Scope N_scope.

(** ** Configuration *)
(** the constructor arguments (full-producer.hpp 47-61, full-producer.cpp 34-50), and what the model
    takes from outside: the compression library, the environment, and the fuel of the loops.
    [fc_n] is ibfCount; times are in milliseconds. *)
Record fcfg := mkFcfg {
  fc_sync : name; fc_n : nat; fc_scheme : scheme; fc_cscheme : scheme;
  fc_life : N; fc_fresh : N; fc_codec : codec; fc_env : env; fc_fuel : nat }.
(** full-producer.hpp 224-226: MIN_JITTER, MAX_JITTER and the distribution between them; the i-th
    draw comes from the environment *)
Definition MIN_JITTER : N := 100.
Definition MAX_JITTER : N := 500.
Definition jitter_of (E : env) (i : nat) : N :=
  MIN_JITTER + en_jitter E i mod (MAX_JITTER - MIN_JITTER + 1).
(** ndn::DEFAULT_INTEREST_LIFETIME, the lifetime of the interest rebuilt in full-producer.cpp 194 *)
Definition DEFAULT_LIFETIME : N := 4000.
(** std::numeric_limits<uint16_t>::max() *)
Definition MAX_TRIES : N := 65535.
(** full-producer.cpp 323: 10_ms *)
Definition FULL_STATE_FRESH : N := 10.

(** ** What is observed *)
(** common.hpp 58-67: MissingDataInfo *)
Record missing := mkMissing { mi_prefix : name; mi_low : N; mi_high : N; mi_face : N }.
(** packets put on the face; sync interests sent, with the reading of the system clock; calls of the
    update callback; and, so that "at that moment" can be said in statements, each operation on the
    producer's own data (in the code these are log lines) *)
Inductive fout :=
| FoData (d : data)
| FoInterest (n : name) (t : Z)
| FoUpdate (l : list missing)
| FoOp (o : cop).

(** ** State *)
(** full-producer.hpp 207-211: PendingEntryInfo; the expiration event erases its own entry, so its
    deadline describes it *)
Record fentry := mkFentry { fe_iblt : table; fe_expiry : N }.
(** the two callbacks installed in m_scheduledSyncInterestId: sendSyncInterest alone
    (full-producer.cpp 127-129, 171, 463-466) and after the wait for stale data (479-483) *)
Inductive sched_kind := KSend | KAfterWait.
(** full-producer.hpp 219-237 and the members of ProducerBase.  [f_now] is the clock of the
    scheduler, [f_sys] the system clock.  Segment fetchers are numbered: [f_fetcher] is m_fetcher,
    [f_live] the fetchers that were started and have neither been stopped nor completed nor failed,
    with the interest they were started for.  The waiting entry's nonce is only logged and not
    modelled.  [f_sched] and [f_delay] are the armed events of m_scheduledSyncInterestId and
    m_interestDelayTimerId. *)
Record fp := mkFP {
  f_now : N; f_sys : Z;
  f_core : core; f_pub : pub;
  f_pending : nmap fentry; f_waiting : nmap N;
  f_sched : option (N * sched_kind); f_delay : option N;
  f_outstanding : name; f_last : Z;
  f_fetcher : option nat; f_live : list (nat * name); f_started : nat;
  f_incoming : N; f_wait : bool; f_draws : nat }.

Definition fset_time (now : N) (sys : Z) (s : fp) : fp :=
  mkFP now sys (f_core s) (f_pub s) (f_pending s) (f_waiting s) (f_sched s) (f_delay s)
       (f_outstanding s) (f_last s) (f_fetcher s) (f_live s) (f_started s) (f_incoming s) (f_wait s) (f_draws s).
Definition fset_core (k : core) (s : fp) : fp :=
  mkFP (f_now s) (f_sys s) k (f_pub s) (f_pending s) (f_waiting s) (f_sched s) (f_delay s)
       (f_outstanding s) (f_last s) (f_fetcher s) (f_live s) (f_started s) (f_incoming s) (f_wait s) (f_draws s).
Definition fset_pub (p : pub) (s : fp) : fp :=
  mkFP (f_now s) (f_sys s) (f_core s) p (f_pending s) (f_waiting s) (f_sched s) (f_delay s)
       (f_outstanding s) (f_last s) (f_fetcher s) (f_live s) (f_started s) (f_incoming s) (f_wait s) (f_draws s).
Definition fset_pending (q : nmap fentry) (s : fp) : fp :=
  mkFP (f_now s) (f_sys s) (f_core s) (f_pub s) q (f_waiting s) (f_sched s) (f_delay s)
       (f_outstanding s) (f_last s) (f_fetcher s) (f_live s) (f_started s) (f_incoming s) (f_wait s) (f_draws s).
Definition fset_waiting (w : nmap N) (s : fp) : fp :=
  mkFP (f_now s) (f_sys s) (f_core s) (f_pub s) (f_pending s) w (f_sched s) (f_delay s)
       (f_outstanding s) (f_last s) (f_fetcher s) (f_live s) (f_started s) (f_incoming s) (f_wait s) (f_draws s).
Definition fset_sched (x : option (N * sched_kind)) (s : fp) : fp :=
  mkFP (f_now s) (f_sys s) (f_core s) (f_pub s) (f_pending s) (f_waiting s) x (f_delay s)
       (f_outstanding s) (f_last s) (f_fetcher s) (f_live s) (f_started s) (f_incoming s) (f_wait s) (f_draws s).
Definition fset_delay (x : option N) (s : fp) : fp :=
  mkFP (f_now s) (f_sys s) (f_core s) (f_pub s) (f_pending s) (f_waiting s) (f_sched s) x
       (f_outstanding s) (f_last s) (f_fetcher s) (f_live s) (f_started s) (f_incoming s) (f_wait s) (f_draws s).
Definition fset_outstanding (n : name) (s : fp) : fp :=
  mkFP (f_now s) (f_sys s) (f_core s) (f_pub s) (f_pending s) (f_waiting s) (f_sched s) (f_delay s)
       n (f_last s) (f_fetcher s) (f_live s) (f_started s) (f_incoming s) (f_wait s) (f_draws s).
Definition fset_live (l : list (nat * name)) (s : fp) : fp :=
  mkFP (f_now s) (f_sys s) (f_core s) (f_pub s) (f_pending s) (f_waiting s) (f_sched s) (f_delay s)
       (f_outstanding s) (f_last s) (f_fetcher s) l (f_started s) (f_incoming s) (f_wait s) (f_draws s).
Definition fset_incoming (x : N) (s : fp) : fp :=
  mkFP (f_now s) (f_sys s) (f_core s) (f_pub s) (f_pending s) (f_waiting s) (f_sched s) (f_delay s)
       (f_outstanding s) (f_last s) (f_fetcher s) (f_live s) (f_started s) x (f_wait s) (f_draws s).
Definition fset_wait (b : bool) (s : fp) : fp :=
  mkFP (f_now s) (f_sys s) (f_core s) (f_pub s) (f_pending s) (f_waiting s) (f_sched s) (f_delay s)
       (f_outstanding s) (f_last s) (f_fetcher s) (f_live s) (f_started s) (f_incoming s) b (f_draws s).
Definition fset_draws (d : nat) (s : fp) : fp :=
  mkFP (f_now s) (f_sys s) (f_core s) (f_pub s) (f_pending s) (f_waiting s) (f_sched s) (f_delay s)
       (f_outstanding s) (f_last s) (f_fetcher s) (f_live s) (f_started s) (f_incoming s) (f_wait s) d.
(** a fetcher is started for [n]: full-producer.cpp 125, 147-149 *)
Definition fset_started (n : name) (s : fp) : fp :=
  mkFP (f_now s) (f_sys s) (f_core s) (f_pub s) (f_pending s) (f_waiting s) (f_sched s) (f_delay s)
       n (f_sys s) (Some (f_started s)) ((f_started s, n) :: f_live s) (S (f_started s))
       (f_incoming s) (f_wait s) (f_draws s).

Definition FM (A : Type) := M fp fout A.

(** ** Calls on the parts *)
(** an operation on the data of ProducerBase *)
Definition fp_op (o : cop) : FM unit :=
  mlet s <- mget;
  mlet k <- mlift (cstep (f_core s) o);
  mmod (fset_core k) ;;
  memit [FoOp o].
(** m_prefixes\[p\]: std::map::operator\[\] inserts 0 for an unknown key *)
Definition prefix_seq (p : name) : FM N :=
  mlet s <- mget;
  match get_seq p (f_core s) with
  | Some v => mret v
  | None => fp_op (CAdd p) ;; mret 0
  end.
(** m_jitter(m_rng) *)
Definition draw (K : fcfg) : FM N :=
  mlet s <- mget;
  mmod (fset_draws (S (f_draws s))) ;;
  mret (jitter_of (fc_env K) (f_draws s)).
(** SegmentPublisher::publish, segment-publisher.cpp 33-53 *)
Definition fp_publish (K : fcfg) (iname dname : name) (buf : bytes) (fresh : N) : FM unit :=
  fun s =>
    let '(p, r) := publish (fc_env K) (f_now s) iname dname buf fresh (f_pub s) in
    match r with
    | Ok l => (fset_pub p s, map FoData l, Ok tt)
    | Throw e => (fset_pub p s, [], Throw e)
    | UB u => (fset_pub p s, [], UB u)
    | Hang => (fset_pub p s, [], Hang)
    end.
(** producer-base.cpp 122-137: sendApplicationNack *)
Definition fp_send_nack (K : fcfg) (n : name) : FM unit :=
  mlet s <- mget;
  mlet dn <- mlift (append_ibf (fc_codec K) (fc_scheme K) n (k_iblt (f_core s)));
  mmod (fset_pub (count_signed (f_pub s))) ;;
  memit [FoData (nack_data (fc_env K) (pb_signed (f_pub s)) (fc_fresh K) dn)].
(** m_fetcher->stop(), when there is one; stopping twice does nothing *)
Definition without (i : nat) (l : list (nat * name)) : list (nat * name) :=
  filter (fun x => negb (Nat.eqb (fst x) i)) l.
Definition stop_fetcher : FM unit :=
  mmod (fun s => match f_fetcher s with Some i => fset_live (without i (f_live s)) s | None => s end).

(** ** Sync interests of this node *)
(** full-producer.cpp 107-113: the name of the sync interest *)
Definition sync_name (K : fcfg) (k : core) : outcome name :=
  olet n <- append_ibf (fc_codec K) (fc_scheme K) (fc_sync K) (k_iblt k);
  Ok (append_number n (k_count k)).

(** full-producer.cpp 93-174: sendSyncInterest.  The options of the fetcher are not modelled, nor is
    its segment-by-segment work: a started fetcher delivers content ([FeContent]), reports an error
    ([FeError]), or never answers. *)
Definition send_sync_interest (K : fcfg) : FM unit :=
  mlet s <- mget;
  if f_wait s then mret tt
  else
    stop_fetcher ;;
    mlet n <- mlift (sync_name K (f_core s));
    if (f_sys s - f_last s <? Z.of_N MIN_JITTER)%Z && name_eqb (f_outstanding s) n then mret tt
    else
      mlet j <- draw K;
      mmod (fun s => fset_started n (fset_sched (Some (f_now s + (fc_life K / 2 + j), KSend)) s)) ;;
      memit [FoInterest n (f_sys s)].

(** full-producer.cpp 408-426: sendSyncData *)
Definition send_sync_data (K : fcfg) (n : name) (content : list name) (fresh : N) : FM unit :=
  mlet s <- mget;
  let own := name_eqb (f_outstanding s) n in
  (if own && match f_fetcher s with Some _ => true | None => false end
   then stop_fetcher ;; mmod (fset_outstanding []) else mret tt) ;;
  mlet buf <- mlift (compress (fc_codec K) (fc_cscheme K) (encode_names content));
  fp_publish K n n buf fresh ;;
  if own then send_sync_interest K else mret tt.

(** full-producer.cpp 532-540: deletePendingInterests *)
Definition delete_pending (n : name) : FM unit :=
  mmod (fun s => fset_pending (nm_erase n (f_pending s)) s).

(** ** Publishing *)
(** full-producer.cpp 504-513: the names found for the positive hashes *)
Fixpoint lookup_names (b : bimap) (hs : list N) : list name :=
  match hs with
  | [] => []
  | h :: r =>
    match bm_left h b with Some nm => nm :: lookup_names b r | None => lookup_names b r end
  end.
(** full-producer.cpp 502-518: the content for one pending interest; the published name is added
    unless it is among the names found *)
Definition satisfy_content (b : bimap) (updated : name) (hs : list N) : list name :=
  let l := lookup_names b hs in
  if existsb (name_eqb updated) l then l else l ++ [updated].
(** full-producer.cpp 495-521: one turn of the loop, at the entry with key [key] *)
Definition fsatisfy_one (K : fcfg) (updated key : name) : FM unit :=
  mlet s <- mget;
  match nm_find key (f_pending s) with
  | None => mret tt
  | Some e =>
    mlet d <- mlift (iblt_sub (fc_fuel K) (k_iblt (f_core s)) (fe_iblt e));
    send_sync_data K key (satisfy_content (k_bimap (f_core s)) updated (positive d)) (fc_fresh K) ;;
    delete_pending key
  end.
(** full-producer.cpp 490-522: satisfyPendingInterests; the loop visits the entries in key order,
    erases the one it is at, and nothing it calls changes the map *)
Fixpoint fsatisfy (K : fcfg) (updated : name) (keys : list name) : FM unit :=
  match keys with
  | [] => mret tt
  | k :: r => fsatisfy_one K updated k ;; fsatisfy K updated r
  end.
(** full-producer.cpp 76-91: publishName *)
Definition fp_publish_name (K : fcfg) (p : name) (seq : option N) : FM unit :=
  mlet s <- mget;
  match get_seq p (f_core s) with
  | None => mret tt
  | Some cur =>
    fp_op (CPublish p seq) ;;
    mmod (fset_wait false) ;;
    fsatisfy K (append_number p (publish_seq cur seq)) (nm_keys (f_pending s))
  end.

(** what the application can call *)
Inductive api :=
| AAdd (p : name)
| ARemove (p : name)
| APublish (p : name) (seq : option N).
Definition api_call (K : fcfg) (a : api) : FM unit :=
  match a with
  | AAdd p => fp_op (CAdd p)
  | ARemove p => fp_op (CRemove p)
  | APublish p seq => fp_publish_name K p seq
  end.
Fixpoint api_calls (K : fcfg) (l : list api) : FM unit :=
  match l with
  | [] => mret tt
  | a :: r => api_call K a ;; api_calls K r
  end.

(** ** Sync interests of other nodes *)
(** full-producer.cpp 207-225: scheduleProcessWaitingInterests *)
Definition schedule_waiting (K : fcfg) : FM unit :=
  mlet s <- mget;
  match f_waiting s, f_delay s with
  | _ :: _, None => mlet j <- draw K; mmod (fun s => fset_delay (Some (f_now s + j)) s)
  | _, _ => mret tt
  end.
(** full-producer.cpp 524-530: isFutureHash; the argument makes a round trip through its URI
    (full-producer.cpp 386) *)
Definition is_future (K : fcfg) (p : name) (negative : list N) : FM bool :=
  mlet u <- mlift (en_uri (fc_env K) p);
  mlet v <- prefix_seq u;
  mret (nset_mem (name_hash (append_number u (w64 (v + 1)))) negative).
(** full-producer.cpp 378-391: the names to send for the positive hashes *)
Fixpoint offered (K : fcfg) (negative : list N) (hs : list N) : FM (list name) :=
  match hs with
  | [] => mret []
  | h :: r =>
    mlet s <- mget;
    match bm_left h (k_bimap (f_core s)) with
    | None => offered K negative r
    | Some nm =>
      let p := name_prefix_back nm 1 in
      mlet v <- prefix_seq p;
      mlet skip <- (if v =? 0 then mret true else is_future K p negative);
      mlet l <- offered K negative r;
      mret (if (skip : bool) then l else nm :: l)
    end
  end.
(** full-producer.cpp 309-313: every prefix with its sequence number, except those at zero *)
Definition entire_state (k : core) : list name :=
  map (fun x => append_number (fst x) (snd x)) (filter (fun x => negb (snd x =? 0)) (k_prefixes k)).
(** waitingIt->second.numTries = std::numeric_limits<uint16_t>::max() for an entry that exists *)
Definition mark_waiting (n : name) : FM unit :=
  mmod (fun s => match nm_find n (f_waiting s) with
                 | Some _ => fset_waiting (nm_set n MAX_TRIES (f_waiting s)) s
                 | None => s
                 end).
(** full-producer.cpp 287-289 and 353-355: put a new interest on the waiting list *)
Definition start_waiting (K : fcfg) (n : name) : FM unit :=
  mmod (fun s => fset_waiting (nm_set n 0 (f_waiting s)) s) ;; schedule_waiting K.
(** full-producer.cpp 330-335: emplace keeps an existing entry, then the expiration event is
    replaced *)
Definition add_fpending (n : name) (t : table) (expiry : N) (q : nmap fentry) : nmap fentry :=
  match nm_find n q with
  | Some e => nm_set n (mkFentry (fe_iblt e) expiry) q
  | None => nm_set n (mkFentry t expiry) q
  end.

(** full-producer.cpp 280-325: the difference cannot be decoded; [rcvd] is the peer's count *)
Definition on_undecodable (K : fcfg) (n : name) (timed : bool) (rcvd : N) (d : iblt_diff) : FM unit :=
  mlet s <- mget;
  let waiting := nm_find n (f_waiting s) in
  if k_count (f_core s) <? rcvd then
    match timed, waiting with
    | false, None => start_waiting K n
    | true, Some tries =>
      if 1 <? tries then mark_waiting n ;; send_sync_interest K else mret tt
    | _, _ => mret tt
    end
  else
    if (k_count (f_core s) =? rcvd) && Nat.eqb (length (positive d)) 0 &&
       Nat.ltb 0 (length (negative d)) then mret tt
    else
      (match entire_state (f_core s) with
       | [] => mret tt
       | l => send_sync_data K n l FULL_STATE_FRESH ;; delete_pending n
       end) ;;
      mark_waiting n.

(** full-producer.cpp 327-405: the difference was decoded *)
Definition on_decoded (K : fcfg) (n : name) (lifetime : N) (timed : bool) (t : table) (d : iblt_diff)
  : FM unit :=
  mlet s <- mget;
  let waiting := nm_find n (f_waiting s) in
  match positive d, negative d with
  | [], [] =>
    mmod (fun s => fset_pending (add_fpending n t (f_now s + lifetime) (f_pending s)) s) ;;
    if timed then mark_waiting n else mret tt
  | [], _ =>
    match timed, waiting with
    | false, None => start_waiting K n
    | true, Some tries => if 1 <? tries then mark_waiting n else mret tt
    | _, _ => mret tt
    end
  | _, _ =>
    mlet l <- offered K (negative d) (positive d);
    match l with
    | [] => mret tt
    | _ => send_sync_data K n l (fc_fresh K) ;; mark_waiting n
    end
  end.

(** full-producer.cpp 227-406: onSyncInterest; [prefixName] is the sync prefix in both calls.  The
    exception of toNumber is not caught; the one of initialize is. *)
Definition on_finterest (K : fcfg) (n : name) (lifetime : N) (timed : bool) : FM unit :=
  mlet s <- mget;
  match reply_from_store n (f_pub s) with
  | Some d => memit [FoData d]
  | None =>
    let rest := skipn (length (fc_sync K)) n in
    if Nat.eqb (length rest) 4 then fp_send_nack K (fc_sync K)
    else if negb (Nat.eqb (length rest) 2) then mret tt
    else
      mlet c <- mlift (name_get_back n 2);
      mlet c1 <- mlift (name_get_back n 1);
      mlet rcvd <- mlift (to_number c1);
      match initialize (fc_codec K) (fc_scheme K) (iblt_new (fc_n K)) c with
      | (_, Throw _) => mret tt
      | (_, UB u) => mlift (UB u)
      | (_, Hang) => mlift Hang
      | (t, Ok _) =>
        mlet d <- mlift (iblt_sub (fc_fuel K) (k_iblt (f_core s)) t);
        if can_decode d then on_decoded K n lifetime timed t d
        else on_undecodable K n timed rcvd d
      end
  end.

(** full-producer.cpp 184-203: one turn of the loop, at the entry with key [n] *)
Definition process_one (K : fcfg) (n : name) : FM unit :=
  mlet s <- mget;
  match nm_find n (f_waiting s) with
  | None => mret tt
  | Some tries =>
    let drop := mmod (fun s => fset_waiting (nm_erase n (f_waiting s)) s) in
    if tries =? MAX_TRIES then drop
    else
      mmod (fset_waiting (nm_set n (tries + 1) (f_waiting s))) ;;
      on_finterest K n DEFAULT_LIFETIME true ;;
      mlet s1 <- mget;
      match nm_find n (f_waiting s1) with
      | Some tries1 => if tries1 =? MAX_TRIES then drop else mret tt
      | None => mret tt
      end
  end.
(** full-producer.cpp 176-205: processWaitingInterests; nothing called in the loop adds or removes
    entries *)
Fixpoint process_all (K : fcfg) (keys : list name) : FM unit :=
  match keys with
  | [] => mret tt
  | k :: r => process_one K k ;; process_all K r
  end.
Definition process_waiting (K : fcfg) : FM unit :=
  mlet s <- mget; process_all K (nm_keys (f_waiting s)).

(** ** Sync data *)
(** full-producer.cpp 453-466: the loop over the received names *)
Fixpoint take_updates (names : list name) : FM (list missing) :=
  match names with
  | [] => mret []
  | c :: r =>
    mlet last <- mlift (name_get_minus c 1);
    mlet v <- mlift (to_number last);
    let p := name_prefix_back c 1 in
    mlet s <- mget;
    if match get_seq p (f_core s) with None => true | Some cur => cur <? v end then
      mlet cur <- prefix_seq p;
      fp_op (CUpdate p v) ;;
      mlet l <- take_updates r;
      mret (mkMissing p (w64 (cur + 1)) v (f_incoming s) :: l)
    else take_updates r
  end.
(** full-producer.cpp 428-488: onSyncData, for the interest [n]; [script] is what the application
    calls from its update callback.  An exception of decompress or wireDecode is caught. *)
Definition on_sync_data (K : fcfg) (n : name) (buf : bytes) (script : list api) : FM unit :=
  delete_pending n ;;
  match obind (decompress (fc_codec K) (fc_cscheme K) buf) state_of_buffer with
  | Throw _ => mret tt
  | UB u => mlift (UB u)
  | Hang => mlift Hang
  | Ok names =>
    mlet updates <- take_updates names;
    match updates with
    | _ :: _ =>
      memit [FoUpdate updates] ;;
      api_calls K script ;;
      mlet j <- draw K;
      mmod (fun s => fset_wait false (fset_sched (Some (f_now s + j, KSend)) s)) ;;
      process_waiting K
    | [] =>
      mmod (fset_wait true) ;;
      mlet j <- draw K;
      mmod (fun s => fset_sched (Some (f_now s + (fc_fresh K + j), KAfterWait)) s)
    end
  end.

(** ** Events *)
(** calls of the application; interests under the sync prefix; content, a validated segment
    (with its incoming face tag, if any) or an error reported by a fetcher; the passage of time; a
    change of the system clock alone; the timers *)
Inductive fev :=
| FeApi (a : api)
| FeInterest (n : name) (lifetime : N)
| FeContent (i : nat) (buf : bytes) (script : list api)
| FeSegment (i : nat) (face : option N)
| FeError (i : nat) (timeout : bool)
| FeTick (dt : N)
| FeClock (t : Z)
| FeSend
| FeDelay
| FeExpire (key : name)
| FeStore (i : nat).

Fixpoint fetch_of (i : nat) (l : list (nat * name)) : option name :=
  match l with
  | [] => None
  | (j, n) :: r => if Nat.eqb i j then Some n else fetch_of i r
  end.

(** a fetcher that has been stopped, has completed or has failed reports nothing more; it counts
    as finished as soon as its final callback runs *)
Definition fp_step (K : fcfg) (e : fev) : FM unit :=
  match e with
  | FeApi a => api_call K a
  | FeInterest n l => if is_prefix (fc_sync K) n then on_finterest K n l false else mret tt
  | FeContent i buf script =>
    mlet s <- mget;
    match fetch_of i (f_live s) with
    | Some n => mmod (fset_live (without i (f_live s))) ;; on_sync_data K n buf script
    | None => mret tt
    end
  | FeSegment i face =>                                             (* full-producer.cpp 155-163 *)
    mlet s <- mget;
    match fetch_of i (f_live s) with
    | Some _ => mmod (fset_incoming (match face with Some x => x | None => 0 end))
    | None => mret tt
    end
  | FeError i timeout =>                                            (* full-producer.cpp 165-173 *)
    mlet s <- mget;
    match fetch_of i (f_live s) with
    | Some _ =>
      mmod (fset_live (without i (f_live s))) ;;
      if timeout then mret tt
      else mlet j <- draw K; mmod (fun s => fset_sched (Some (f_now s + j, KSend)) s)
    | None => mret tt
    end
  | FeTick dt => mmod (fun s => fset_time (f_now s + dt) (f_sys s + Z.of_N dt) s)
  | FeClock t => mmod (fun s => fset_time (f_now s) t s)
  | FeSend =>
    mlet s <- mget;
    match f_sched s with
    | Some (dl, k) =>
      if dl <=? f_now s then
        mmod (fset_sched None) ;;
        match k with
        | KSend => send_sync_interest K
        | KAfterWait => mmod (fset_wait false) ;; send_sync_interest K
        end
      else mret tt
    | None => mret tt
    end
  | FeDelay =>                                                      (* full-producer.cpp 219-223 *)
    mlet s <- mget;
    match f_delay s with
    | Some dl =>
      if dl <=? f_now s then
        mmod (fset_delay None) ;; process_waiting K ;; schedule_waiting K
      else mret tt
    | None => mret tt
    end
  | FeExpire key =>                                                 (* full-producer.cpp 331-335 *)
    mmod (fun s => match nm_find key (f_pending s) with
                   | Some e => if fe_expiry e <=? f_now s
                               then fset_pending (nm_erase key (f_pending s)) s else s
                   | None => s
                   end)
  | FeStore i => mmod (fun s => fset_pub (pub_fire (f_now s) i (f_pub s)) s)
  end.

(** the members before the body of the constructor runs; [sys] is the reading of the system clock;
    m_lastInterestSentTime starts at the epoch *)
Definition fp_blank (K : fcfg) (sys : Z) : fp :=
  mkFP 0 sys (core_new (fc_n K)) pub_new [] [] None None [] 0%Z None [] 0 0 false 0.
(** full-producer.cpp 34-50: the constructor sends the first sync interest *)
Definition fp_init (K : fcfg) (sys : Z) : fp * list fout * outcome unit :=
  send_sync_interest K (fp_blank K sys).
(** construction followed by events *)
Definition fp_run (K : fcfg) (s : fp) (evs : list fev) : option (fp * list fout) := run (fp_step K) s evs.
Definition fp_start (K : fcfg) (sys : Z) (evs : list fev) : option (fp * list fout) :=
  match fp_init K sys with
  | (s, o, Ok _) => match fp_run K s evs with Some (s', o') => Some (s', o ++ o') | None => None end
  | _ => None
  end.
