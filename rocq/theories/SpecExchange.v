(** Vocabulary for the statements about two or more full-sync nodes. *)
From Coq Require Import List NArith ZArith Bool Arith.
From Verif Require Import Base Mon Iblt SpecIblt Tlv TlvFacts State NMap Codec Store Producer SpecProducer
  Partial SpecPartial Full FullTrace SpecFull.
Import ListNotations.
Local Open Scope N_scope.

(** two configurations that can talk to each other *)
Definition same_group (Ka Kb : fcfg) : Prop :=
  fc_sync Ka = fc_sync Kb /\ fc_n Ka = fc_n Kb /\ fc_scheme Ka = fc_scheme Kb /\
  fc_cscheme Ka = fc_cscheme Kb /\ fc_codec Ka = fc_codec Kb.

(** what a node knows about a prefix; 0 when it knows nothing *)
Definition knows (s : fp) (p : name) : N := seq0 (get_seq p (f_core s)).
Definition both_know (a b : fp) (p : name) (v : N) : Prop := knows a p = v /\ knows b p = v.

(** how a fetcher completes that got [d0] as its first packet from a node with publisher [p]: the
    final block id of [d0] tells how many segments there are, and the others, asked for by name, come
    from the node's store *)
Definition fetched (p : pub) (d0 : data) (buf : bytes) : Prop :=
  exists base segs c last,
    nth_error segs 0 = Some d0 /\ d_final d0 = Some c /\ to_segment c = Ok last /\
    N.of_nat (length segs) = last + 1 /\ d_name d0 = append_segment base 0 /\
    (forall i d, (0 < i)%nat -> nth_error segs i = Some d ->
       reply_from_store (append_segment base (N.of_nat i)) p = Some d) /\
    buf = concat (map d_content segs).

(** events that leave the node's data alone *)
Inductive idle (K : fcfg) : fp -> fp -> Prop :=
| idle_refl s : idle K s s
| idle_step s e s1 o s2 : fp_step K e s = (s1, o, Ok tt) -> f_core s1 = f_core s -> idle K s1 s2 ->
    idle K s s2.

(** one exchange: the interest by which node [b] currently asks reaches node [a], which has no stored
    reply for it; when [a] answers with data, [b] fetches all segments, and processes the content while
    still fetching, possibly after other events that leave its data alone (here the application calls
    nothing from its callback) *)
Inductive exchange (Ka Kb : fcfg) (a b : fp) : fp -> fp -> Prop :=
| ex_silent i n l a' o :
    fetch_of i (f_live b) = Some n -> asks Kb (f_core b) n -> reply_from_store n (f_pub a) = None ->
    fp_step Ka (FeInterest n l) a = (a', o, Ok tt) -> data_of o = [] ->
    exchange Ka Kb a b a' b
| ex_data i n l a' o d ds buf b1 b' o' :
    fetch_of i (f_live b) = Some n -> asks Kb (f_core b) n -> reply_from_store n (f_pub a) = None ->
    fp_step Ka (FeInterest n l) a = (a', o, Ok tt) -> data_of o = d :: ds ->
    fetched (f_pub a') d buf -> idle Kb b b1 -> fetch_of i (f_live b1) = Some n ->
    fp_step Kb (FeContent i buf []) b1 = (b', o', Ok tt) ->
    exchange Ka Kb a b a' b'.

(** a name a node has, or the one that follows it *)
Definition has_or_next (k : core) (nm : name) : Prop :=
  exists p v, get_seq p k = Some v /\ v <> 0 /\
    (nm = append_number p v \/ nm = append_number p ((v + 1) mod two64)).
(** no two of these names of two nodes share a hash *)
Definition distinct_hashes (k k' : core) : Prop :=
  forall x y, (has_or_next k x \/ has_or_next k' x) -> (has_or_next k y \/ has_or_next k' y) ->
    name_hash x = name_hash y -> x = y.
(** any selection of the names of two nodes can be encoded, and what comes out of the compression has
    a length that fits 64 bits *)
Definition sendable (K : fcfg) (k k' : core) : Prop :=
  forall l, NoDup l -> incl l (live k ++ live k') ->
    wf_names l /\
    forall b, compress (fc_codec K) (fc_cscheme K) (encode_names l) = Ok b -> N.of_nat (length b) < two64.
(** what the statements about two nodes assume of their data *)
Record peers (Ka Kb : fcfg) (a b : fp) : Prop := mkPeers {
  pe_group : same_group Ka Kb;
  pe_schemes : schemes_ok Ka;
  pe_lossless : lossless (fc_codec Ka);
  pe_uri : uri_ok Ka /\ uri_ok Kb;
  pe_distinct : distinct_hashes (f_core a) (f_core b);
  pe_sendable : sendable Ka (f_core a) (f_core b);
  pe_exact : exact_diff Ka (f_core a) (map name_hash (live (f_core b))) /\
             exact_diff Kb (f_core b) (map name_hash (live (f_core a))) }.

(** ** Two nodes *)
(** in any order: one node does something that leaves its data alone, or they exchange *)
Inductive move := IdleA | IdleB | BasksA | AasksB.
Definition move_step (Ka Kb : fcfg) (m : move) (x y : fp * fp) : Prop :=
  match m with
  | IdleA => idle Ka (fst x) (fst y) /\ snd y = snd x
  | IdleB => idle Kb (snd x) (snd y) /\ fst y = fst x
  | BasksA => exchange Ka Kb (fst x) (snd x) (fst y) (snd y)
  | AasksB => exchange Kb Ka (snd x) (fst x) (snd y) (fst y)
  end.
Fixpoint moves (Ka Kb : fcfg) (l : list move) (x y : fp * fp) : Prop :=
  match l with
  | [] => y = x
  | m :: r => exists z, move_step Ka Kb m x z /\ moves Ka Kb r z y
  end.
(** [b] asks [a], later [a] asks [b], later [b] asks [a] again, with anything in between *)
Definition meeting (Ka Kb : fcfg) (x y : fp * fp) : Prop :=
  exists l1 l2 l3 x1 x2, moves Ka Kb l1 x x1 /\ moves Ka Kb l2 x1 x2 /\ moves Ka Kb l3 x2 y /\
    In BasksA l1 /\ In AasksB l2 /\ In BasksA l3.
(** all updates a node counts, with sequence numbers that only ever grew *)
Definition total (k : core) : N := sumN (map snd (k_prefixes k)).

(** ** A group of nodes 0, ..., m-1 *)
Definition held_or_next (m : nat) (g : nat -> fp) (nm : name) : Prop :=
  exists i, (i < m)%nat /\ has_or_next (f_core (g i)) nm.
Definition held (m : nat) (g : nat -> fp) (nm : name) : Prop :=
  exists i, (i < m)%nat /\ In nm (live (f_core (g i))).
(** what the statement about a group assumes of its data *)
Record group (K : nat -> fcfg) (m : nat) (g : nat -> fp) : Prop := mkGroup {
  gr_group : forall i j, (i < m)%nat -> (j < m)%nat -> same_group (K i) (K j);
  gr_schemes : forall i, (i < m)%nat -> schemes_ok (K i);
  gr_lossless : forall i, (i < m)%nat -> lossless (fc_codec (K i));
  gr_uri : forall i, (i < m)%nat -> uri_ok (K i);
  gr_distinct : forall x y, held_or_next m g x -> held_or_next m g y -> name_hash x = name_hash y -> x = y;
  gr_sendable : forall i l, (i < m)%nat -> NoDup l -> (forall nm, In nm l -> held m g nm) ->
    wf_names l /\
    forall b, compress (fc_codec (K i)) (fc_cscheme (K i)) (encode_names l) = Ok b -> N.of_nat (length b) < two64;
  gr_exact : forall i delta, (i < m)%nat -> NoDup (map snd delta) ->
    (forall s h, In (s, h) delta -> (s = 1%Z \/ s = (-1)%Z) /\ exists nm, held m g nm /\ h = name_hash nm) ->
    no_coincidence delta /\ (length delta < fc_fuel (K i))%nat;
  gr_total : sumN (map (fun i => total (f_core (g i))) (seq 0 m)) < two64 }.
(** pairs of nodes meet, one pair after the other *)
Inductive gossip (K : nat -> fcfg) (m : nat) : list (nat * nat) -> (nat -> fp) -> (nat -> fp) -> Prop :=
| gossip_end g : gossip K m [] g g
| gossip_meet i j a' b' l g g' : (i < m)%nat -> (j < m)%nat -> i <> j ->
    meeting (K i) (K j) (g i, g j) (a', b') ->
    gossip K m l (fun x => if Nat.eqb x i then a' else if Nat.eqb x j then b' else g x) g' ->
    gossip K m ((i, j) :: l) g g'.
