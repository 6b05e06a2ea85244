(** Model of the rest of ProducerBase (PSync/producer-base.cpp) and of PartialProducer
    (PSync/partial-producer.hpp, partial-producer.cpp). *)
From Coq Require Import List NArith ZArith Bool Arith.
From Coq.Strings Require Import Byte.
From Verif Require Import Base Mon Iblt Tlv State NMap Codec Bloom Store Producer.
Import ListNotations.
Local Open Scope N_scope.

(** ** Configuration *)
(** the constructor arguments (producer-base.cpp 30-50, partial-producer.cpp 34-51), and what the
    model takes from outside: the compression library, libm, the environment, and the fuel of the
    loops.  [pc_n] is ibfCount. *)
Record pcfg := mkPcfg {
  pc_sync : name; pc_n : nat; pc_scheme : scheme;
  pc_hello_fresh : N; pc_sync_fresh : N;
  pc_codec : codec; pc_libm : libm; pc_env : env; pc_fuel : nat }.
(** producer-base.cpp 45: m_threshold *)
Definition threshold (n : nat) : nat := Nat.div n 2.

(** partial-producer.cpp 31-32 *)
Definition HELLO : comp := mkComp TYPE_GENERIC [x68; x65; x6c; x6c; x6f].
Definition SYNC : comp := mkComp TYPE_GENERIC [x73; x79; x6e; x63].

(** ** State *)
(** partial-producer.hpp 123-128: PendingEntryInfo; the expiration event is its deadline and the
    name its callback erases (partial-producer.cpp 203-208), absent once it has run *)
Record pentry := mkPentry { pe_bf : bloom; pe_iblt : table; pe_expiry : option (N * name) }.
(** the clock of the scheduler (milliseconds), the data of ProducerBase, the segment publisher, and
    m_pendingEntries *)
Record pp := mkPP {
  pp_now : N; pp_core : core; pp_pub : pub; pp_pending : nmap pentry }.
Definition set_core (k : core) (s : pp) : pp := mkPP (pp_now s) k (pp_pub s) (pp_pending s).
Definition set_pub (p : pub) (s : pp) : pp := mkPP (pp_now s) (pp_core s) p (pp_pending s).
Definition set_pending (q : nmap pentry) (s : pp) : pp := mkPP (pp_now s) (pp_core s) (pp_pub s) q.
Definition pp_new (K : pcfg) : pp := mkPP 0 (core_new (pc_n K)) pub_new [].

Definition PM (A : Type) := M pp data A.

(** ** Calls on the parts *)
(** SegmentPublisher::publish, segment-publisher.cpp 33-53 *)
Definition pp_publish (K : pcfg) (iname dname : name) (buf : bytes) (fresh : N) : PM unit :=
  fun s =>
    let '(p, r) := publish (pc_env K) (pp_now s) iname dname buf fresh (pp_pub s) in
    match r with
    | Ok l => (set_pub p s, l, Ok tt)
    | Throw e => (set_pub p s, [], Throw e)
    | UB u => (set_pub p s, [], UB u)
    | Hang => (set_pub p s, [], Hang)
    end.

(** producer-base.cpp 122-137: the packet sendApplicationNack signs *)
Definition nack_data (E : env) (signed : nat) (fresh : N) (dname : name) : data :=
  mkData (append_segment dname 0) AppNack [] (Some (number_comp TYPE_SEGMENT 0)) fresh
         (en_digest E signed).
Definition count_signed (p : pub) : pub :=
  mkPub (pb_store p) (pb_limit p) (pb_timers p) (pb_published p) (S (pb_signed p)).
(** producer-base.cpp 122-137: sendApplicationNack *)
Definition pp_send_nack (K : pcfg) (n : name) : PM unit :=
  mlet s <- mget;
  mlet dn <- mlift (append_ibf (pc_codec K) (pc_scheme K) n (k_iblt (pp_core s)));
  mmod (set_pub (count_signed (pp_pub s))) ;;
  memit [nack_data (pc_env K) (pb_signed (pp_pub s)) (pc_sync_fresh K) dn].

(** ** Hello interests *)
(** name.get(name.size() - k): the subtraction is in size_t, the argument of get is ssize_t, and a
    negative index counts from the end *)
Definition name_get_minus (n : name) (k : nat) : outcome comp :=
  if Nat.leb k (length n) then name_get n (length n - k)
  else if Nat.leb k (2 * length n) then name_get n (2 * length n - k)
  else UB UbOutOfBounds.
(** partial-producer.cpp 90: the condition under which the interest is processed *)
Definition is_hello_name (n : name) : outcome bool :=
  olet a <- name_get_minus n 1;
  if comp_eqb a HELLO then Ok true
  else olet b <- name_get_minus n 4; Ok (comp_eqb b HELLO).
(** partial-producer.cpp 97-99: the content, in the order of m_prefixes *)
Definition hello_content (k : core) : list name :=
  map (fun x => append_number (fst x) (snd x)) (k_prefixes k).

(** partial-producer.cpp 80-107: onHelloInterest *)
Definition on_hello_interest (K : pcfg) (prefix iname : name) : PM unit :=
  mlet s <- mget;
  match reply_from_store iname (pp_pub s) with
  | Some d => memit [d]
  | None =>
    mlet ok <- mlift (is_hello_name iname);
    if (ok : bool) then
      mlet dn <- mlift (append_ibf (pc_codec K) (pc_scheme K) prefix (k_iblt (pp_core s)));
      pp_publish K iname dn (encode_names (hello_content (pp_core s))) (pc_hello_fresh K)
    else mret tt
  end.

(** ** Sync interests *)
(** partial-producer.cpp 119-133: the name with Bloom filter and IBF, if the request has the right
    number of components *)
Definition sync_request (prefix iname : name) : option name :=
  let rest := skipn (length prefix) iname in
  if Nat.eqb (length rest) 4 then Some iname
  else if Nat.eqb (length rest) 6 then Some (name_prefix_back iname 2)
  else None.
(** partial-producer.cpp 135-163: extraction of the filter and of the IBF; [None] when an exception
    was caught and the interest ignored.  The local IBF is built fresh, so what [initialize] leaves
    behind after an exception is discarded. *)
Definition extract (K : pcfg) (rname : name) : outcome (option (bloom * table)) :=
  olet c1 <- name_get_back rname 4;
  olet c2 <- name_get_back rname 3;
  olet c3 <- name_get_back rname 2;
  olet c4 <- name_get_back rname 1;
  match bloom_of_comps (pc_libm K) c1 c2 c3 with
  | Throw _ => Ok None
  | UB u => UB u
  | Hang => Hang
  | Ok bf =>
    match initialize (pc_codec K) (pc_scheme K) (iblt_new (pc_n K)) c4 with
    | (t, Ok _) => Ok (Some (bf, t))
    | (_, Throw _) => Ok None
    | (_, UB u) => UB u
    | (_, Hang) => Hang
    end
  end.
(** partial-producer.cpp 184-193: the names to send for the hashes of [diff.positive] *)
Fixpoint matching (b : bimap) (bf : bloom) (hs : list N) : outcome (list name) :=
  match hs with
  | [] => Ok []
  | h :: r =>
    match bm_left h b with
    | None => matching b bf r
    | Some nm =>
      olet x <- bloom_contains bf (name_prefix_back nm 1);
      olet l <- matching b bf r;
      Ok (if (x : bool) then nm :: l else l)
    end
  end.
Definition diff_size (d : iblt_diff) : nat := length (positive d) + length (negative d).

(** partial-producer.cpp 203-208: emplace keeps an existing entry, then the expiration event is
    replaced *)
Definition add_pending (key : name) (bf : bloom) (t : table) (expiry : N * name) (q : nmap pentry)
  : nmap pentry :=
  match nm_find key q with
  | Some e => nm_set key (mkPentry (pe_bf e) (pe_iblt e) (Some expiry)) q
  | None => nm_set key (mkPentry bf t (Some expiry)) q
  end.

(** partial-producer.cpp 109-209: onSyncInterest *)
Definition on_sync_interest (K : pcfg) (prefix iname : name) (lifetime : N) : PM unit :=
  mlet s <- mget;
  match reply_from_store iname (pp_pub s) with
  | Some d => memit [d]
  | None =>
    match sync_request prefix iname with
    | None => mret tt
    | Some rname =>
      mlet ex <- mlift (extract K rname);
      match ex with
      | None => mret tt
      | Some (bf, t) =>
        mlet d <- mlift (iblt_sub (pc_fuel K) (k_iblt (pp_core s)) t);
        if negb (can_decode d) then pp_send_nack K rname
        else
          mlet content <- mlift (matching (k_bimap (pp_core s)) bf (positive d));
          if Nat.leb (threshold (pc_n K)) (diff_size d) ||
             negb (match content with [] => true | _ => false end)
          then
            mlet dn <- mlift (append_ibf (pc_codec K) (pc_scheme K) rname (k_iblt (pp_core s)));
            pp_publish K iname dn (encode_names content) (pc_sync_fresh K)
          else
            mmod (fun s => set_pending
              (add_pending rname bf t (pp_now s + lifetime, iname) (pp_pending s)) s)
      end
    end
  end.

(** ** Publishing *)
(** partial-producer.cpp 216-253: one turn of the loop, at the entry with key [key] *)
Definition satisfy_one (K : pcfg) (prefix key : name) : PM unit :=
  mlet s <- mget;
  match nm_find key (pp_pending s) with
  | None => mret tt
  | Some e =>
    mlet d <- mlift (iblt_sub (pc_fuel K) (k_iblt (pp_core s)) (pe_iblt e));
    let drop := mmod (fun s => set_pending (nm_erase key (pp_pending s)) s) in
    if negb (can_decode d) then drop
    else
      mlet x <- mlift (bloom_contains (pe_bf e) prefix);
      if (x : bool) || Nat.leb (threshold (pc_n K)) (diff_size d) then
        let seq := match get_seq prefix (pp_core s) with Some v => v | None => 0 end in
        let content := if x then [append_number prefix seq] else [] in
        mlet dn <- mlift (append_ibf (pc_codec K) (pc_scheme K) key (k_iblt (pp_core s)));
        pp_publish K key dn (encode_names content) (pc_sync_fresh K) ;;
        drop
      else mret tt
  end.
(** partial-producer.cpp 211-254: the loop visits the entries in key order and erases at most the
    one it is at *)
Fixpoint satisfy (K : pcfg) (prefix : name) (keys : list name) : PM unit :=
  match keys with
  | [] => mret tt
  | k :: r => satisfy_one K prefix k ;; satisfy K prefix r
  end.

(** partial-producer.cpp 67-78: publishName *)
Definition pp_publish_name (K : pcfg) (p : name) (seq : option N) : PM unit :=
  mlet s <- mget;
  mlet r <- mlift (core_publish p seq (pp_core s));
  mmod (set_core (fst r)) ;;
  match snd r with
  | None => mret tt
  | Some _ => satisfy K p (nm_keys (pp_pending s))
  end.

(** ** Events *)
(** API calls; interests; the passage of time; the expiration event of a pending entry; an erase
    event of the segment publisher *)
Inductive pev :=
| PAdd (p : name)
| PRemove (p : name)
| PPublishName (p : name) (seq : option N)
| PInterest (n : name) (lifetime : N)
| PTick (dt : N)
| PExpire (key : name)
| PStoreFire (i : nat).

(** partial-producer.cpp 203-208: the expiration event of the entry [key] runs, if it is due *)
Definition expire (key : name) (s : pp) : pp :=
  match nm_find key (pp_pending s) with
  | Some e =>
    match pe_expiry e with
    | Some (dl, n) =>
      if dl <=? pp_now s
      then set_pending (nm_erase n (nm_set key (mkPentry (pe_bf e) (pe_iblt e) None) (pp_pending s))) s
      else s
    | None => s
    end
  | None => s
  end.

(** partial-producer.cpp 41-50: interests are dispatched by the filters /sync-prefix/hello and
    /sync-prefix/sync (registration with the forwarder: Life.v) *)
Definition dispatch (K : pcfg) (n : name) (lifetime : N) : PM unit :=
  if is_prefix (pc_sync K ++ [HELLO]) n then on_hello_interest K (pc_sync K ++ [HELLO]) n
  else if is_prefix (pc_sync K ++ [SYNC]) n then on_sync_interest K (pc_sync K ++ [SYNC]) n lifetime
  else mret tt.

Definition pp_step (K : pcfg) (e : pev) : PM unit :=
  match e with
  | PAdd p => mmod (fun s => set_core (fst (core_add p (pp_core s))) s)
  | PRemove p => mlet s <- mget; mlet k <- mlift (core_remove p (pp_core s)); mmod (set_core k)
  | PPublishName p seq => pp_publish_name K p seq
  | PInterest n lifetime => dispatch K n lifetime
  | PTick dt => mmod (fun s => mkPP (pp_now s + dt) (pp_core s) (pp_pub s) (pp_pending s))
  | PExpire key => mmod (expire key)
  | PStoreFire i => mmod (fun s => set_pub (pub_fire (pp_now s) i (pp_pub s)) s)
  end.
Definition pp_run (K : pcfg) := run (pp_step K).
