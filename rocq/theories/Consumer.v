(** Model of Consumer (PSync/consumer.hpp, consumer.cpp). *)
From Coq Require Import List NArith ZArith Bool Arith.
From Coq.Strings Require Import Byte.
From Verif Require Import Base Mon Iblt Tlv State NMap Codec Bloom Store Producer Partial Full.
Import ListNotations.
Local Open Scope N_scope.

(** ** Configuration *)
(** consumer.hpp 61-75: the options the consumer's behaviour depends on (the interest lifetimes are
    only handed to the SegmentFetcher), libm for the Bloom filter, and the random jitter *)
Record ccfg := mkCcfg {
  cc_sync : name; cc_count : N; cc_rate : dbl; cc_libm : libm; cc_env : env }.
(** consumer.cpp 34-35 *)
Definition hello_prefix (K : ccfg) : name := cc_sync K ++ [HELLO].
Definition sync_prefix (K : ccfg) : name := cc_sync K ++ [SYNC].

(** ** State *)
Inductive kind := KHello | KSync.
(** what others see: interests; calls of the hello callback and of the update callback; results of
    API calls *)
Inductive cout :=
| CoInterest (k : kind) (n : name)
| CoHello (avail : nmap N)
| CoUpdate (l : list missing)
| CoResult (b : bool).
(** consumer.hpp 194-223.  Fetchers are numbered in the order they are started; [c_live] holds those
    that may still report something.  [c_timers] are the scheduled events with their deadlines. *)
Record cs := mkCS {
  c_now : N; c_prefixes : nmap N; c_subs : nset; c_bloom : bloom;
  c_iblt : name; c_hname : name; c_sname : name; c_type : content_type;
  c_hello : option nat; c_sync : option nat;
  c_live : list (nat * (kind * name)); c_started : nat;
  c_timers : list (N * kind); c_draws : nat }.
Definition CM (A : Type) := M cs cout A.

Definition cset_now x s := mkCS x (c_prefixes s) (c_subs s) (c_bloom s) (c_iblt s) (c_hname s) (c_sname s)
  (c_type s) (c_hello s) (c_sync s) (c_live s) (c_started s) (c_timers s) (c_draws s).
Definition cset_prefixes x s := mkCS (c_now s) x (c_subs s) (c_bloom s) (c_iblt s) (c_hname s) (c_sname s)
  (c_type s) (c_hello s) (c_sync s) (c_live s) (c_started s) (c_timers s) (c_draws s).
Definition cset_subs x s := mkCS (c_now s) (c_prefixes s) x (c_bloom s) (c_iblt s) (c_hname s) (c_sname s)
  (c_type s) (c_hello s) (c_sync s) (c_live s) (c_started s) (c_timers s) (c_draws s).
Definition cset_bloom x s := mkCS (c_now s) (c_prefixes s) (c_subs s) x (c_iblt s) (c_hname s) (c_sname s)
  (c_type s) (c_hello s) (c_sync s) (c_live s) (c_started s) (c_timers s) (c_draws s).
Definition cset_iblt x s := mkCS (c_now s) (c_prefixes s) (c_subs s) (c_bloom s) x (c_hname s) (c_sname s)
  (c_type s) (c_hello s) (c_sync s) (c_live s) (c_started s) (c_timers s) (c_draws s).
Definition cset_hname x s := mkCS (c_now s) (c_prefixes s) (c_subs s) (c_bloom s) (c_iblt s) x (c_sname s)
  (c_type s) (c_hello s) (c_sync s) (c_live s) (c_started s) (c_timers s) (c_draws s).
Definition cset_sname x s := mkCS (c_now s) (c_prefixes s) (c_subs s) (c_bloom s) (c_iblt s) (c_hname s) x
  (c_type s) (c_hello s) (c_sync s) (c_live s) (c_started s) (c_timers s) (c_draws s).
Definition cset_type x s := mkCS (c_now s) (c_prefixes s) (c_subs s) (c_bloom s) (c_iblt s) (c_hname s) (c_sname s)
  x (c_hello s) (c_sync s) (c_live s) (c_started s) (c_timers s) (c_draws s).
Definition cset_hello x s := mkCS (c_now s) (c_prefixes s) (c_subs s) (c_bloom s) (c_iblt s) (c_hname s) (c_sname s)
  (c_type s) x (c_sync s) (c_live s) (c_started s) (c_timers s) (c_draws s).
Definition cset_sync x s := mkCS (c_now s) (c_prefixes s) (c_subs s) (c_bloom s) (c_iblt s) (c_hname s) (c_sname s)
  (c_type s) (c_hello s) x (c_live s) (c_started s) (c_timers s) (c_draws s).
Definition cset_live x s := mkCS (c_now s) (c_prefixes s) (c_subs s) (c_bloom s) (c_iblt s) (c_hname s) (c_sname s)
  (c_type s) (c_hello s) (c_sync s) x (c_started s) (c_timers s) (c_draws s).
Definition cset_started x s := mkCS (c_now s) (c_prefixes s) (c_subs s) (c_bloom s) (c_iblt s) (c_hname s) (c_sname s)
  (c_type s) (c_hello s) (c_sync s) (c_live s) x (c_timers s) (c_draws s).
Definition cset_timers x s := mkCS (c_now s) (c_prefixes s) (c_subs s) (c_bloom s) (c_iblt s) (c_hname s) (c_sname s)
  (c_type s) (c_hello s) (c_sync s) (c_live s) (c_started s) x (c_draws s).
Definition cset_draws x s := mkCS (c_now s) (c_prefixes s) (c_subs s) (c_bloom s) (c_iblt s) (c_hname s) (c_sname s)
  (c_type s) (c_hello s) (c_sync s) (c_live s) (c_started s) (c_timers s) x.

(** ** Fetchers and timers *)
Fixpoint cfetch (i : nat) (l : list (nat * (kind * name))) : option (kind * name) :=
  match l with
  | [] => None
  | (j, x) :: r => if Nat.eqb i j then Some x else cfetch i r
  end.
Definition cwithout (i : nat) (l : list (nat * (kind * name))) : list (nat * (kind * name)) :=
  filter (fun x => negb (Nat.eqb i (fst x))) l.
(** SegmentFetcher::stop on the fetcher that a member points to *)
Definition cstop (p : option nat) (s : cs) : cs :=
  match p with Some i => cset_live (cwithout i (c_live s)) s | None => s end.
(** SegmentFetcher::start *)
Definition cstart (k : kind) (n : name) (s : cs) : cs :=
  let i := c_started s in
  let s := cset_started (S i) (cset_live ((i, (k, n)) :: c_live s) s) in
  match k with KHello => cset_hello (Some i) s | KSync => cset_sync (Some i) s end.
(** consumer.cpp 43, 149, 250: a jitter of 100 to 500 ms; consumer.cpp 151, 252 *)
Definition cschedule (K : ccfg) (k : kind) : CM unit :=
  mmod (fun s => cset_draws (S (c_draws s))
    (cset_timers (c_timers s ++ [(c_now s + jitter_of (cc_env K) (c_draws s), k)]) s)).

(** consumer.cpp 118-153: sendHelloInterest *)
Definition send_hello (K : ccfg) : CM unit :=
  mmod (fun s => cstart KHello (hello_prefix K) (cstop (c_hello s) s)) ;;
  memit [CoInterest KHello (hello_prefix K)].
(** consumer.cpp 192-255: sendSyncInterest *)
Definition send_sync (K : ccfg) : CM unit :=
  mlet s <- mget;
  match c_iblt s with
  | [] => mlift (UB UbAssert)
  | _ =>
    mlet n1 <- mlift (append_bloom (sync_prefix K) (c_bloom s));
    let n := n1 ++ c_iblt s in
    mmod (fun s => cstart KSync n (cstop (c_sync s) s)) ;;
    memit [CoInterest KSync n]
  end.

(** ** The application's calls *)
Inductive capi :=
| CSub (p : name) (seq : N) (cb : bool)
| CUnsub (p : name)
| CSendHello
| CSendSync
| CStop.
(** consumer.hpp 142-146 *)
Definition is_subscribed (p : name) (s : cs) : bool := nm_mem p (c_subs s).
(** consumer.cpp 61-79: addSubscription.  The update callback is the last thing it does, so calls the
    application makes from there are calls made after it. *)
Definition add_sub (K : ccfg) (p : name) (seq : N) (cb : bool) : CM bool :=
  mlet s <- mget;
  match nm_find p (c_prefixes s) with
  | Some _ => mret false
  | None =>
    mmod (fun s => cset_subs (nm_emplace p tt (c_subs s)) (cset_prefixes (nm_set p seq (c_prefixes s)) s)) ;;
    mlet b <- mlift (bloom_insert (c_bloom s) p);
    mmod (cset_bloom b) ;;
    (if cb && negb (seq =? 0) then memit [CoUpdate [mkMissing p seq seq 0]] else mret tt) ;;
    mret true
  end.
Fixpoint insert_all (l : list name) (b : bloom) : outcome bloom :=
  match l with
  | [] => Ok b
  | p :: r => olet b' <- bloom_insert b p; insert_all r b'
  end.
(** consumer.cpp 81-99: removeSubscription *)
Definition remove_sub (p : name) : CM bool :=
  mlet s <- mget;
  if is_subscribed p s then
    mmod (fun s => cset_subs (nm_erase p (c_subs s)) (cset_prefixes (nm_erase p (c_prefixes s)) s)) ;;
    mlet b <- mlift (insert_all (nm_keys (nm_erase p (c_subs s))) (bloom_clear (c_bloom s)));
    mmod (cset_bloom b) ;;
    mret true
  else mret false.
(** consumer.cpp 101-116: stop *)
Definition stop_all : CM unit :=
  mmod (fun s =>
    let s := cset_timers [] s in
    let s := cset_sync None (cstop (c_sync s) s) in
    cset_hello None (cstop (c_hello s) s)).

Definition call (K : ccfg) (a : capi) : CM unit :=
  match a with
  | CSub p seq cb => mlet b <- add_sub K p seq cb; memit [CoResult b]
  | CUnsub p => mlet b <- remove_sub p; memit [CoResult b]
  | CSendHello => send_hello K
  | CSendSync => send_sync K
  | CStop => stop_all
  end.
(** what the application does in a callback *)
Fixpoint calls (K : ccfg) (l : list capi) : CM unit :=
  match l with
  | [] => mret tt
  | a :: r => call K a ;; calls K r
  end.

(** ** Received data *)
(** Name::getSubName(size() - 1, 1): the last component as a name; empty for the empty name *)
Definition last_comp (n : name) : name := skipn (length n - 1) n.
(** consumer.cpp 171-182: the loop of onHelloData *)
Fixpoint take_hello (names : list name) (avail : nmap N) : CM (list missing * nmap N) :=
  match names with
  | [] => mret ([], avail)
  | c :: r =>
    mlet last <- mlift (name_get_minus c 1);
    mlet v <- mlift (to_number last);
    let p := name_prefix_back c 1 in
    mlet s <- mget;
    let cur := match nm_find p (c_prefixes s) with Some x => x | None => 0 end in
    if is_subscribed p s && (cur <? v) then
      mmod (fun s => cset_prefixes (nm_set p v (c_prefixes s)) s) ;;
      mlet x <- take_hello r (nm_emplace p v avail);
      mret (mkMissing p (w64 (cur + 1)) v 0 :: fst x, snd x)
    else take_hello r (nm_emplace p v avail)
  end.
(** consumer.cpp 155-190: onHelloData; [script1] and [script2] are what the application calls from
    the two callbacks.  No exception is caught. *)
Definition on_hello_data (K : ccfg) (buf : bytes) (script1 script2 : list capi) : CM unit :=
  mmod (fun s => cset_iblt (last_comp (c_hname s)) s) ;;
  mlet names <- mlift (state_of_buffer buf);
  mlet x <- take_hello names [];
  memit [CoHello (snd x)] ;;
  calls K script1 ;;
  match fst x with
  | [] => mret tt
  | updates => memit [CoUpdate updates] ;; calls K script2
  end.
(** consumer.cpp 266-277: the loop of onSyncData *)
Fixpoint take_sync (names : list name) : CM (list missing) :=
  match names with
  | [] => mret []
  | c :: r =>
    mlet last <- mlift (name_get_minus c 1);
    mlet v <- mlift (to_number last);
    let p := name_prefix_back c 1 in
    mlet s <- mget;
    if match nm_find p (c_prefixes s) with None => true | Some cur => cur <? v end then
      let cur := match nm_find p (c_prefixes s) with Some x => x | None => 0 end in
      mmod (fun s => cset_prefixes (nm_set p v (c_prefixes s)) s) ;;
      mlet l <- take_sync r;
      mret (mkMissing p (w64 (cur + 1)) v 0 :: l)
    else take_sync r
  end.
(** consumer.cpp 257-286: onSyncData *)
Definition on_csync_data (K : ccfg) (buf : bytes) (script : list capi) : CM unit :=
  mmod (fun s => cset_iblt (last_comp (c_sname s)) s) ;;
  mlet names <- mlift (state_of_buffer buf);
  mlet updates <- take_sync names;
  (match updates with
   | [] => mret tt
   | _ => memit [CoUpdate updates] ;; calls K script
   end) ;;
  send_sync K.

(** ** Events *)
(** calls of the application; a validated segment (consumer.cpp 137-141, 223-233), the complete
    content and an error reported by a fetcher; the passage of time; a timer, by its position *)
Inductive cev :=
| CeCall (a : capi)
| CeSegment (i : nat) (d : data)
| CeContent (i : nat) (buf : bytes) (script1 script2 : list capi)
| CeError (i : nat) (timeout : bool)
| CeTick (dt : N)
| CeTimer (i : nat).
(** a fetcher that has been stopped, has completed or has failed reports nothing more; it counts as
    finished as soon as its final callback runs *)
Definition finish (i : nat) : CM unit := mmod (fun s => cset_live (cwithout i (c_live s)) s).
Definition is_nack (t : content_type) : bool := match t with AppNack => true | _ => false end.
Definition c_step (K : ccfg) (e : cev) : CM unit :=
  match e with
  | CeCall a => call K a
  | CeSegment i d =>
    mlet s <- mget;
    match cfetch i (c_live s) with
    | None => mret tt
    | Some (KHello, _) =>                                           (* consumer.cpp 137-141 *)
      match d_final d with
      | Some _ => mmod (cset_hname (name_prefix_back (d_name d) 2))
      | None => mret tt
      end
    | Some (KSync, _) =>                                            (* consumer.cpp 223-233 *)
      (match d_final d with
       | Some _ => mmod (fun s => cset_type (d_type d) (cset_sname (name_prefix_back (d_name d) 2) s))
       | None => mret tt
       end) ;;
      mlet s1 <- mget;
      if is_nack (c_type s1) then send_hello K else mret tt
    end
  | CeContent i buf script1 script2 =>
    mlet s <- mget;
    match cfetch i (c_live s) with
    | None => mret tt
    | Some (KHello, _) => finish i ;; on_hello_data K buf script1 script2
    | Some (KSync, _) =>                                            (* consumer.cpp 235-242 *)
      finish i ;;
      if is_nack (c_type s) then mmod (cset_type Blob) else on_csync_data K buf script2
    end
  | CeError i timeout =>
    mlet s <- mget;
    match cfetch i (c_live s) with
    | None => mret tt
    | Some (KHello, _) => finish i ;; cschedule K KHello            (* consumer.cpp 147-152 *)
    | Some (KSync, _) =>                                            (* consumer.cpp 244-254 *)
      finish i ;; (if timeout then send_sync K else cschedule K KSync)
    end
  | CeTick dt => mmod (fun s => cset_now (c_now s + dt) s)
  | CeTimer i =>
    mlet s <- mget;
    match nth_error (c_timers s) i with
    | Some (dl, k) =>
      if dl <=? c_now s then
        mmod (cset_timers (firstn i (c_timers s) ++ skipn (S i) (c_timers s))) ;;
        match k with KHello => send_hello K | KSync => send_sync K end
      else mret tt
    | None => mret tt
    end
  end.

(** consumer.cpp 30-45: the constructor *)
Definition c_new (K : ccfg) : outcome cs :=
  olet b <- bloom_new (cc_libm K) (cc_count K) (cc_rate K);
  Ok (mkCS 0 [] [] b [] [] [] Blob None None [] 0 [] 0).
Definition c_run (K : ccfg) (s : cs) (evs : list cev) : option (cs * list cout) := run (c_step K) s evs.
Definition c_start (K : ccfg) (evs : list cev) : option (cs * list cout) :=
  match c_new K with Ok s => c_run K s evs | _ => None end.
