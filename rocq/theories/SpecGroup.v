(** Vocabulary for the statements about groups of full-sync nodes on an arbitrary network. *)
From Coq Require Import List NArith ZArith Bool Arith.
From Verif Require Import Base Mon Iblt SpecIblt Tlv TlvFacts State NMap Codec Store Producer SpecProducer
  Partial SpecPartial Full FullTrace SpecFull SpecExchange.
Import ListNotations.
Local Open Scope N_scope.

(** ** What an application published *)
(** in the history [ops] of a node, its application called publishName for the known prefix [p] and
    thereby announced [v]: the number it passed, or the one after the current number *)
Definition announced (n : nat) (ops : list cop) (p : name) (v : N) : Prop :=
  exists pre post seq k cur, ops = pre ++ CPublish p seq :: post /\ crun (core_new n) pre = Ok k /\
    get_seq p k = Some cur /\ v = match seq with Some x => x | None => (cur + 1) mod two64 end.
(** at some point of its history the node had prefix [p] at [v] *)
Definition had (n : nat) (ops : list cop) (p : name) (v : N) : Prop :=
  exists pre post k, ops = pre ++ post /\ crun (core_new n) pre = Ok k /\ get_seq p k = Some v.
(** a name a node may ever have sent *)
Definition carried (n : nat) (ops : list cop) (nm : name) : Prop :=
  exists p v, nm = append_number p v /\ (had n ops p v \/ announced n ops p v).
(** names that fit into packets: any selection of them can be encoded, and what comes out of the
    compression has a length that fits 64 bits *)
Definition all_sendable (K : fcfg) (ops : list cop) : Prop :=
  forall l, NoDup l -> (forall nm, In nm l -> carried (fc_n K) ops nm) ->
    wf_names l /\
    forall b, compress (fc_codec K) (fc_cscheme K) (encode_names l) = Ok b -> N.of_nat (length b) < two64.

(** ** The network *)
(** a node with everything it showed so far *)
Record seen_node := mkSeen { sn_state : fp; sn_out : list fout }.
(** every packet that was ever on the network: nothing is ever taken out, so that packets may be
    delivered late, repeatedly, in any order, to anyone, or never *)
Definition soup (m : nat) (g : nat -> seen_node) (d : data) : Prop :=
  exists j, (j < m)%nat /\ In (FoData d) (sn_out (g j)).
(** what a fetcher for [n] can hand over: a data packet under [n] determined the name of the other
    segments, one of the segments tells how many there are, and each is some packet of that name *)
Definition assembled (D : data -> Prop) (n : name) (buf : bytes) : Prop :=
  exists base segs d c last,
    is_prefix n base = true /\ In d segs /\ d_final d = Some c /\ to_segment c = Ok last /\
    N.of_nat (length segs) = last + 1 /\
    (forall i x, nth_error segs i = Some x -> D x /\ d_name x = append_segment base (N.of_nat i)) /\
    buf = concat (map d_content segs).
(** content comes from the network; interests may be anything *)
Definition delivers (D : data -> Prop) (s : fp) (e : fev) : Prop :=
  match e with
  | FeContent j buf script => forall n, fetch_of j (f_live s) = Some n -> assembled D n buf
  | _ => True
  end.
(** one node of [m] handles one event, possibly ending in an exception *)
Inductive group_step (K : nat -> fcfg) (m : nat) (g : nat -> seen_node) : (nat -> seen_node) -> Prop :=
| group_event i e s o r g' : (i < m)%nat -> fev_wf e -> delivers (soup m g) (sn_state (g i)) e ->
    fp_step (K i) e (sn_state (g i)) = (s, o, r) -> (r = Ok tt \/ exists x, r = Throw x) ->
    g' i = mkSeen s (sn_out (g i) ++ o) -> (forall j, j <> i -> g' j = g j) ->
    group_step K m g g'.
Inductive group_run (K : nat -> fcfg) (m : nat) : (nat -> seen_node) -> (nat -> seen_node) -> Prop :=
| group_here g : group_run K m g g
| group_next g g1 g2 : group_run K m g g1 -> group_step K m g1 g2 -> group_run K m g g2.
(** all nodes have just been constructed *)
Definition started (K : nat -> fcfg) (m : nat) (g : nat -> seen_node) : Prop :=
  forall i, (i < m)%nat -> exists sys, reaches (K i) sys [] (sn_state (g i)) (sn_out (g i)).
(** what the nodes of a group have in common *)
Record group_ok (K : nat -> fcfg) (m : nat) : Prop := mkGroupOk {
  go_same : forall i j, (i < m)%nat -> (j < m)%nat -> same_group (K i) (K j);
  go_lossless : forall i, (i < m)%nat -> lossless (fc_codec (K i)) }.
(** how many publications a node made so far; the [a]-th of them has version number [en_version a] *)
Definition publications (x : seen_node) : nat := pb_published (f_pub (sn_state x)).
(** the version numbers that nodes put into the names of their packets fit 64 bits and do not repeat,
    within a node or between nodes.  They are timestamps, so this is an assumption about the
    environment: two publications under one name with one timestamp have segments of equal names *)
Definition versions_unique (K : nat -> fcfg) (m : nat) (g : nat -> seen_node) : Prop :=
  (forall i a, (i < m)%nat -> (a < publications (g i))%nat -> en_version (fc_env (K i)) a < two64) /\
  (forall i j a b, (i < m)%nat -> (j < m)%nat -> (a < publications (g i))%nat -> (b < publications (g j))%nat ->
    en_version (fc_env (K i)) a = en_version (fc_env (K j)) b -> i = j /\ a = b).
(** no content needs a second packet; then version numbers do not matter *)
Definition one_packet (K : fcfg) (ops : list cop) : Prop :=
  forall l, NoDup l -> (forall nm, In nm l -> carried (fc_n K) ops nm) ->
    forall b, compress (fc_codec K) (fc_cscheme K) (encode_names l) = Ok b -> (length b <= SEG_SIZE)%nat.
Definition unmixed (K : nat -> fcfg) (m : nat) (g : nat -> seen_node) : Prop :=
  versions_unique K m g \/ forall i, (i < m)%nat -> one_packet (K i) (ops_of (sn_out (g i))).
