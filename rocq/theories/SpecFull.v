(** Vocabulary for the statements about full-sync nodes. *)
From Coq Require Import List NArith ZArith Bool Arith.
From Verif Require Import Base Mon Iblt SpecIblt Tlv State NMap Codec Store Producer SpecProducer
  Partial SpecPartial Full FullTrace.
Import ListNotations.
Local Open Scope N_scope.

(** the schemes of the configuration were compiled in, and the interest lifetime is usable *)
Definition schemes_ok (K : fcfg) : Prop :=
  scheme_ok (fc_codec K) (fc_scheme K) /\ scheme_ok (fc_codec K) (fc_cscheme K).
(** names survive the round trip through their URI *)
Definition uri_ok (K : fcfg) : Prop := forall n, en_uri (fc_env K) n = Ok n.
(** sequence numbers passed by the application are uint64_t *)
Definition fev_wf (e : fev) : Prop := Forall cop_wf (ev_ops e).

(** [s] is a state of a node constructed at system time [sys] that went through [evs], and [o] is
    everything it showed *)
Definition reaches (K : fcfg) (sys : Z) (evs : list fev) (s : fp) (o : list fout) : Prop :=
  Forall fev_wf evs /\ fp_start K sys evs = Some (s, o).

(** no two names this node held at the same time share a hash *)
Definition no_collision (K : fcfg) (o : list fout) : Prop := collision_free (fc_n K) (ops_of o).

(** interest [n] asks for what is missing in IBF [t] of a peer that counts [rcvd] updates *)
Definition full_request (K : fcfg) (n : name) (t : table) (rcvd : N) : Prop :=
  exists c c1, n = fc_sync K ++ [c; c1] /\ to_number c1 = Ok rcvd /\
    initialize (fc_codec K) (fc_scheme K) (iblt_new (fc_n K)) c = (t, Ok tt).
(** the interest by which node [k] asks *)
Definition asks (K : fcfg) (k : core) (n : name) : Prop :=
  exists c, carries_ibf (fc_codec K) (fc_scheme K) c (k_iblt k) /\
    n = fc_sync K ++ [c; number_comp TYPE_GENERIC (k_count k)].

(** exactly one publication happened between the publishers [p] and [p']: content [names] for
    interest [n], which put [l] on the face (C25 to C28 say what that means) *)
Definition answered (K : fcfg) (now : N) (p p' : pub) (n : name) (names : list name) (fresh : N)
  (l : list data) : Prop :=
  exists buf, compress (fc_codec K) (fc_cscheme K) (encode_names names) = Ok buf /\
    publish (fc_env K) now n n buf fresh p = (p', Ok l).

(** the data packets among the observations *)
Fixpoint data_of (o : list fout) : list data :=
  match o with
  | [] => []
  | FoData d :: r => d :: data_of r
  | _ :: r => data_of r
  end.

(** a handler ended without an exception and without an access out of bounds *)
Definition tame {A} (r : outcome A) : Prop :=
  match r with Throw _ | UB UbOutOfBounds => False | _ => True end.

(** nothing but sync interests of this node *)
Definition only_interests (o : list fout) : Prop := Forall (fun x => exists n t, x = FoInterest n t) o.

(** ** Reports to the application *)
Definition seq0 (x : option N) : N := match x with Some v => v | None => 0 end.
(** the report [l] tells step by step how the known sequence numbers went from [f] to [g]: each
    range starts right after the number known at that point and ends at a higher one, which is the
    one known from then on; a prefix that was unknown may also be reported at 0 *)
Fixpoint report_chain (f : name -> option N) (l : list missing) (g : name -> option N) : Prop :=
  match l with
  | [] => forall p, g p = f p
  | m :: r =>
    mi_low m = seq0 (f (mi_prefix m)) + 1 /\
    match f (mi_prefix m) with Some v => v < mi_high m | None => True end /\
    report_chain (fun p => if name_eqb p (mi_prefix m) then Some (mi_high m) else f p) r g
  end.
(** the ranges reported for [p], in order *)
Definition ranges_in (p : name) (l : list missing) : list (N * N) :=
  map (fun m => (mi_low m, mi_high m)) (filter (fun m => name_eqb p (mi_prefix m)) l).
Fixpoint reported (p : name) (o : list fout) : list (N * N) :=
  match o with
  | [] => []
  | FoUpdate l :: r => ranges_in p l ++ reported p r
  | _ :: r => reported p r
  end.
(** every name in the content ends in a number (as all names written by a node do) *)
Definition good_name (c : name) : Prop := exists p v, c = p ++ [v] /\ exists x, to_number v = Ok x.
Definition content_names (K : fcfg) (buf : bytes) (l : list name) : Prop :=
  obind (decompress (fc_codec K) (fc_cscheme K) buf) state_of_buffer = Ok l.
Definition good_content (K : fcfg) (buf : bytes) : Prop :=
  forall l, content_names K buf l -> Forall good_name l.

(** ** Clocks and timers *)
(** the system clock never goes back: every reading it is set to is at least the one before *)
Fixpoint steady (sys : Z) (evs : list fev) : Prop :=
  match evs with
  | [] => True
  | FeTick dt :: r => steady (sys + Z.of_N dt) r
  | FeClock t :: r => (sys <= t)%Z /\ steady t r
  | _ :: r => steady sys r
  end.
(** the longest time between arming the timer and its deadline *)
Definition silence (K : fcfg) : N := fc_life K / 2 + fc_fresh K + MAX_JITTER.

(** ** The waiting list *)
(** every waiting interest was tried once more, or dropped; none came in *)
Definition served (w w' : nmap N) : Prop :=
  forall n, nm_find n w' = None \/
    exists v, nm_find n w = Some v /\ nm_find n w' = Some (v + 1) /\ v + 1 < MAX_TRIES.
(** the node can neither serve nor dismiss the peer with IBF [t] and count [rcvd]: it has something
    the peer lacks, but for all of it the peer shows the next sequence number; or nothing can be
    decoded except that the peer is ahead, at equal counts *)
Definition stuck (K : fcfg) (k : core) (t : table) (rcvd : N) : Prop :=
  exists d, iblt_sub (fc_fuel K) (k_iblt k) t = Ok d /\
    ((can_decode d = true /\ positive d <> [] /\
      forall p v, get_seq p k = Some v -> v <> 0 -> In (name_hash (append_number p v)) (positive d) ->
        In (name_hash (append_number p ((v + 1) mod two64))) (negative d)) \/
     (can_decode d = false /\ k_count k = rcvd /\ positive d = [] /\ negative d <> [])).

(** ** Sync interests of this node *)
Definition no_interest (o : list fout) : Prop := forall n t, ~ In (FoInterest n t) o.
(** two consecutive sync interests with the same name are at least the minimum jitter apart, unless
    the node put data for that name on the face in between *)
Definition paced (o : list fout) : Prop :=
  forall o1 n t1 o2 t2 o3, o = o1 ++ FoInterest n t1 :: o2 ++ FoInterest n t2 :: o3 -> no_interest o2 ->
    (Z.of_N MIN_JITTER <= t2 - t1)%Z \/ exists d, In (FoData d) o2 /\ is_prefix n (d_name d) = true.
(** every sync interest in [o] asks with the data the node had at that moment *)
Definition asks_current (K : fcfg) (o : list fout) : Prop :=
  forall o1 n t o2, o = o1 ++ FoInterest n t :: o2 ->
    exists k, crun (core_new (fc_n K)) (ops_of o1) = Ok k /\ asks K k n.

(** ** Replies *)
(** one publication for each of the interests [keys], in order: the content for [key] satisfies
    [content key], and all data packets put on the face are [l] *)
Fixpoint answers (K : fcfg) (now : N) (content : name -> list name -> Prop) (p0 : pub) (keys : list name)
  (p1 : pub) (l : list data) : Prop :=
  match keys with
  | [] => p1 = p0 /\ l = []
  | key :: r =>
    exists names pm lm l', content key names /\ answered K now p0 pm key names (fc_fresh K) lm /\
      answers K now content pm r p1 l' /\ l = lm ++ l'
  end.
(** a difference is exact: see SpecPartial *)
Definition exact_diff (K : fcfg) (k : core) (ks : list N) : Prop :=
  no_coincidence (signed_diff (map name_hash (live k)) ks) /\
  (length (signed_diff (map name_hash (live k)) ks) < fc_fuel K)%nat.
(** the timer that serves the waiting list fires in [s] *)
Definition serving (e : fev) (s : fp) : bool :=
  match e, f_delay s with FeDelay, Some dl => dl <=? f_now s | _, _ => false end.
(** from [s] to [s'], through events whose handlers end normally, interest [n] stays on the waiting
    list all the time, while the list is served [c] times *)
Inductive stays (K : fcfg) (n : name) : fp -> N -> fp -> Prop :=
| stays_end s : nm_find n (f_waiting s) <> None -> stays K n s 0 s
| stays_step s e s1 o c s' : nm_find n (f_waiting s) <> None -> fp_step K e s = (s1, o, Ok tt) ->
    stays K n s1 c s' -> stays K n s (c + if serving e s then 1 else 0) s'.

(** ** Answers and questions *)
(** the node put a data packet for interest [n] on the face *)
Definition answered_in (n : name) (o : list fout) : Prop :=
  exists d, In (FoData d) o /\ is_prefix n (d_name d) = true.
(** the last component of [n] is not a segment number (it is the count of updates in the sync
    interests that nodes send) *)
Definition plain_name (n : name) : Prop := exists p c, n = p ++ [c] /\ is_segment c = false.
(** the node sent a sync interest that asks with the data [k] *)
Definition asked (K : fcfg) (k : core) (o : list fout) : Prop := exists m t, In (FoInterest m t) o /\ asks K k m.
(** the received names tell a node with data [k] nothing new *)
Definition no_news (k : core) (names : list name) : Prop :=
  forall c, In c names -> exists p x v cur, c = p ++ [x] /\ to_number x = Ok v /\ get_seq p k = Some cur /\ v <= cur.
(** the application publishes; and the time that passes *)
Definition publishes (e : fev) : Prop := exists p q, e = FeApi (APublish p q).
Definition dt_of (e : fev) : N := match e with FeTick dt => dt | _ => 0 end.
Definition time_of (evs : list fev) : N := fold_right (fun e t => dt_of e + t) 0 evs.
(** timers are prompt in the history [evs] from [s]: no time passes beyond the moment for which the
    timer of the sync interest is set *)
Fixpoint prompt (K : fcfg) (s : fp) (evs : list fev) : Prop :=
  match evs with
  | [] => True
  | e :: r => (forall dt dl k, e = FeTick dt -> f_sched s = Some (dl, k) -> f_now s + dt <= dl) /\ prompt K (st (fp_step K e s)) r
  end.
