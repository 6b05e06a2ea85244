(** Vocabulary for the statements about how long it takes until news arrives. *)
From Coq Require Import List NArith ZArith Bool Arith.
From Verif Require Import Base Mon Iblt SpecIblt Tlv TlvFacts State NMap Codec Store Producer SpecProducer
  Partial SpecPartial Full FullTrace SpecFull SpecExchange SpecFresh.
Import ListNotations.
Local Open Scope N_scope.

(** the data of some node: the result of operations among which no two live names ever share a hash *)
Definition node_data (K : fcfg) (k : core) : Prop :=
  exists ops, Forall cop_wf ops /\ collision_free (fc_n K) ops /\ crun (core_new (fc_n K)) ops = Ok k.
(** the number of [k] for prefix [p]; 0 when there is none *)
Definition known (k : core) (p : name) : N := seq0 (get_seq p k).
(** a name that the application published, according to the events [evs] *)
Definition published_name (evs : list fev) (u : name) : Prop :=
  exists p q cur, u = append_number p (publish_seq cur q) /\ In (CPublish p q) (flat_map ev_ops evs).
(** the first [m] publications get different versions, which fit 64 bits *)
Definition versions_differ (E : env) (m : nat) : Prop :=
  forall i j, (i < m)%nat -> (j < m)%nat -> en_version E i < two64 /\ (en_version E i = en_version E j -> i = j).
(** what is assumed of the data [k] of a node with the history [evs] and the data [kb] of its peer: no
    hash collisions, the difference is decoded completely, and any selection of the names of the node,
    and a published one, can be sent *)
Record comparable (K : fcfg) (evs : list fev) (k kb : core) : Prop := mkComparable {
  cm_distinct : distinct_hashes k kb;
  cm_exact : exact_diff K k (map name_hash (live kb));
  cm_decodes : exists d, iblt_sub (fc_fuel K) (k_iblt k) (k_iblt kb) = Ok d /\ can_decode d = true;
  cm_sendable : forall l, NoDup l -> (incl l (live k) \/ exists u, published_name evs u /\ incl l (u :: live k)) ->
    wf_names l /\
    forall b, compress (fc_codec K) (fc_cscheme K) (encode_names l) = Ok b -> N.of_nat (length b) < two64 }.
(** the data [k] that a node had at some moment while it produced the observations [o], starting with
    the data [k0] *)
Definition held_during (k0 : core) (o : list fout) (k : core) : Prop :=
  exists o1 o2, o = o1 ++ o2 /\ crun k0 (ops_of o1) = Ok k.
(** the names [l] tell a node with the data [kb] at least what [k] knows *)
Definition tells (k kb : core) (l : list name) : Prop :=
  forall p, known kb p < known k p -> exists v, In (append_number p v) l /\ known k p <= v < two64.
(** how long anything stays in the store of a node *)
Definition longest (K : fcfg) : N := N.max (fc_fresh K) 10.

(** ** Two nodes on an ideal link *)
(** The nodes [a] and [b] run side by side, on the same clock, and no handler ends with an exception.
    Whenever a handler of [b] sends sync interests, the last of them reaches [a] at once; there the
    scheduler has run every erase event that is due.  When [a] answers with data, all segments are
    fetched at once, and the next event at [b] is the complete content.  Everything else at [a] and
    [b], including interests of others and application calls from callbacks, is arbitrary.
    [ea], [oa] and [eb], [ob] are the events and observations at [a] and [b]. *)
Inductive joint (Ka Kb : fcfg) : fp -> fp -> list fev -> list fout -> list fev -> list fout -> fp -> fp -> Prop :=
| j_end a b : joint Ka Kb a b [] [] [] [] a b
| j_tick dt a b a1 b1 ea oa eb ob a' b' :
    fp_step Ka (FeTick dt) a = (a1, [], Ok tt) -> fp_step Kb (FeTick dt) b = (b1, [], Ok tt) ->
    joint Ka Kb a1 b1 ea oa eb ob a' b' ->
    joint Ka Kb a b (FeTick dt :: ea) oa (FeTick dt :: eb) ob a' b'
| j_a e a b a1 o1 ea oa eb ob a' b' :
    (forall dt, e <> FeTick dt) -> fp_step Ka e a = (a1, o1, Ok tt) ->
    joint Ka Kb a1 b ea oa eb ob a' b' ->
    joint Ka Kb a b (e :: ea) (o1 ++ oa) eb ob a' b'
| j_b e a b b1 o1 ea oa eb ob a' b' :
    (forall dt, e <> FeTick dt) -> fp_step Kb e b = (b1, o1, Ok tt) -> no_interest o1 ->
    joint Ka Kb a b1 ea oa eb ob a' b' ->
    joint Ka Kb a b ea oa (e :: eb) (o1 ++ ob) a' b'
| j_send e a b x n t y b1 l a1 o1 ea oa eb ob a' b' :
    (forall dt, e <> FeTick dt) -> fp_step Kb e b = (b1, x ++ FoInterest n t :: y, Ok tt) -> no_interest y ->
    erased_in_time (f_now a) (f_pub a) -> fp_step Ka (FeInterest n l) a = (a1, o1, Ok tt) ->
    match data_of o1 with
    | [] => True
    | d :: _ => exists i buf script eb', fetch_of i (f_live b1) = Some n /\ fetched (f_pub a1) d buf /\
                  eb = FeContent i buf script :: eb'
    end ->
    joint Ka Kb a1 b1 ea oa eb ob a' b' ->
    joint Ka Kb a b (FeInterest n l :: ea) (o1 ++ oa) (e :: eb) (x ++ FoInterest n t :: y ++ ob) a' b'.
