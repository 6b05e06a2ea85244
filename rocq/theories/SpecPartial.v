(** Vocabulary for the statements about partial producers. *)
From Coq Require Import List NArith ZArith Bool Arith.
From Verif Require Import Base Mon Iblt SpecIblt Tlv State NMap Codec Bloom Store Producer SpecProducer
  Partial.
Import ListNotations.
Local Open Scope N_scope.

(** the calls of an event history that concern the producer's own data *)
Definition core_op (e : pev) : list cop :=
  match e with
  | PAdd p => [CAdd p]
  | PRemove p => [CRemove p]
  | PPublishName p seq => [CPublish p seq]
  | _ => []
  end.
Definition history (evs : list pev) : list cop := flat_map core_op evs.
(** sequence numbers are uint64_t *)
Definition pev_wf (e : pev) : Prop :=
  match e with PPublishName _ (Some v) => v < two64 | _ => True end.

(** the compression scheme of the configuration was compiled in *)
Definition scheme_ok (C : codec) (s : scheme) : Prop := s = SNone \/ supported C s = true.

(** component [c] is how IBF [t] travels *)
Definition carries_ibf (C : codec) (s : scheme) (c : comp) (t : table) : Prop :=
  ctype c = TYPE_GENERIC /\ compress C s (table_bytes t) = Ok (cval c).

(** [iname] is a well-formed sync request for filter [bf] and IBF [t]:
    /sync-prefix/sync/count/rate/filter/IBF, possibly followed by version and segment; [rname] is
    the part without version and segment *)
Definition sync_request_for (K : pcfg) (iname rname : name) (bf : bloom) (t : table) : Prop :=
  exists c1 c2 c3 c4 tail,
    rname = pc_sync K ++ [SYNC; c1; c2; c3; c4] /\ iname = rname ++ tail /\
    (length tail = 0%nat \/ length tail = 2%nat) /\
    bloom_of_comps (pc_libm K) c1 c2 c3 = Ok bf /\
    initialize (pc_codec K) (pc_scheme K) (iblt_new (pc_n K)) c4 = (t, Ok tt).

(** between [s] and [s'] exactly one publication happened: sync content [names] under [dname] in
    answer to [iname], which put [o] on the face (C25 to C28 say what that means) *)
Definition published (K : pcfg) (s s' : pp) (iname dname : name) (names : list name) (fresh : N)
  (o : list data) : Prop :=
  publish (pc_env K) (pp_now s) iname dname (encode_names names) fresh (pp_pub s) =
    (pp_pub s', Ok o).

(** what becomes of a pending interest when [p] is published *)
Inductive fate := Dropped | Answered (names : list name) | Kept.
(** ... given the IBF [ibf] and the sequence number [seq] of [p] after the publication *)
Definition fate_of (K : pcfg) (ibf : table) (p : name) (seq : N) (e : pentry) (f : fate) : Prop :=
  exists d, iblt_sub (pc_fuel K) ibf (pe_iblt e) = Ok d /\
    if can_decode d then
      exists x, bloom_contains (pe_bf e) p = Ok x /\
        f = if (x : bool) then Answered [append_number p seq]
            else if Nat.leb (pc_n K / 2) (length (positive d) + length (negative d))
            then Answered [] else Kept
    else f = Dropped.
(** the replies for a list of pending interests with their fates: one publication for each
    answered interest, in order, under the interest's name extended by the IBF component [c] *)
Fixpoint replies (K : pcfg) (now : N) (c : comp) (p0 : pub) (l : list (name * fate)) (p1 : pub)
  (o : list data) : Prop :=
  match l with
  | [] => p1 = p0 /\ o = []
  | (key, Answered names) :: r =>
    exists pm om o', publish (pc_env K) now key (key ++ [c]) (encode_names names) (pc_sync_fresh K) p0
                       = (pm, Ok om) /\
      replies K now c pm r p1 o' /\ o = om ++ o'
  | _ :: r => replies K now c p0 r p1 o
  end.

(** [ks] is what a peer had inserted when it built its IBF; the subtraction of that IBF from the
    producer's is exact at every point of the history [evs] (no group of differing keys is mistaken
    for a single one, see SpecIblt, and the decoding loop is given enough rounds) *)
Definition exact_difference (K : pcfg) (k : core) (ks : list N) : Prop :=
  no_coincidence (signed_diff (map name_hash (live k)) ks) /\
  (length (signed_diff (map name_hash (live k)) ks) < pc_fuel K)%nat.
Definition exact_throughout (K : pcfg) (evs : list pev) (ks : list N) : Prop :=
  forall pre post s o, evs = pre ++ post -> pp_run K (pp_new K) pre = Some (s, o) ->
    exact_difference K (pp_core s) ks.
(** the scheduler has no overdue expiration of a pending interest *)
Definition no_overdue (s : pp) : Prop :=
  forall key e dl n, nm_find key (pp_pending s) = Some e -> pe_expiry e = Some (dl, n) -> pp_now s < dl.
(** the passage of time and timers only *)
Definition is_timer (e : pev) : Prop :=
  match e with PTick _ | PExpire _ | PStoreFire _ => True | _ => False end.

(** [n] asks for what lies under [base] in one of the two loose forms the producer accepts: anything
    below /sync-prefix/hello, or a sync interest with two components too many *)
Definition loosely (K : pcfg) (n base : name) : Prop :=
  (exists r, r <> [] /\ n = pc_sync K ++ HELLO :: r /\ base = pc_sync K ++ [HELLO]) \/
  (exists c1 c2 c3 c4 v g, base = pc_sync K ++ [SYNC; c1; c2; c3; c4] /\ n = base ++ [v; g]).
(** data [d] satisfies an interest for [n]: NDN matches by prefix of the full name *)
Definition satisfies (d : data) (n : name) : Prop := is_prefix n (full_name d) = true.
(** the events [evs] neither publish nor bring a copy of the sync interest [key] *)
Definition leaves_alone (K : pcfg) (key : name) (evs : list pev) : Prop :=
  forall e, In e evs -> match e with
    | PPublishName _ _ => False
    | PInterest n _ => forall bf t, ~ sync_request_for K n key bf t
    | _ => True
    end.
