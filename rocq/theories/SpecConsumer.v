(** Vocabulary for the statements about consumers. *)
From Coq Require Import List NArith ZArith Bool Arith.
From Verif Require Import Base Mon Iblt Tlv State NMap Codec Bloom SpecBloom Store Producer Partial Full SpecFull Consumer.
Import ListNotations.
Local Open Scope N_scope.

(** [s] is a state of a consumer that went through [evs], and [o] is everything it showed *)
Definition creaches (K : ccfg) (evs : list cev) (s : cs) (o : list cout) : Prop := c_start K evs = Some (s, o).
(** the filter of the configuration is one on which operations are defined (C20) *)
Definition filter_ok (K : ccfg) : Prop :=
  exists b, bloom_new (cc_libm K) (cc_count K) (cc_rate K) = Ok b /\ b_size b <> 1.
(** getSeqNo, consumer.hpp 148-156 *)
Definition seq_of (p : name) (s : cs) : option N := nm_find p (c_prefixes s).

(** the calls an event makes on the consumer *)
Definition calls_of (e : cev) : list capi :=
  match e with
  | CeCall a => [a]
  | CeContent _ _ s1 s2 => s1 ++ s2
  | _ => []
  end.
(** content received with an event *)
Definition content_of (e : cev) : list bytes := match e with CeContent _ buf _ _ => [buf] | _ => [] end.
(** the event brings sequence number [v] for prefix [p]: in received content, or in a subscription *)
Definition offers (e : cev) (p : name) (v : N) : Prop :=
  (exists cb, In (CSub p v cb) (calls_of e)) \/
  (exists buf names x, In buf (content_of e) /\ state_of_buffer buf = Ok names /\ In (p ++ [x]) names /\
     to_number x = Ok v).

(** the reports for [p], in order *)
Fixpoint creported (p : name) (o : list cout) : list (N * N) :=
  match o with
  | [] => []
  | CoUpdate l :: r => ranges_in p l ++ creported p r
  | _ :: r => creported p r
  end.
(** nothing is scheduled and nothing is being fetched *)
Definition quiet (s : cs) : Prop := c_live s = [] /\ c_timers s = [].
(** everything but calls of the application *)
Definition external (e : cev) : Prop := forall a, e <> CeCall a.
(** every name in the content ends in a number *)
Definition cgood_content (buf : bytes) : Prop :=
  exists names, state_of_buffer buf = Ok names /\ Forall good_name names.

(** [b] is the configuration's filter with exactly the names of [l] inserted *)
Definition filter_of (K : ccfg) (l : list name) (b : bloom) : Prop :=
  exists b0, bloom_new (cc_libm K) (cc_count K) (cc_rate K) = Ok b0 /\ bloom_run b0 (map BIns l) = Ok b.
(** [l] lists the subscribed names *)
Definition lists_subs (s : cs) (l : list name) : Prop := forall p, In p l <-> is_subscribed p s = true.
(** the sync interest [n] carries filter [b], in the form a producer reads it, and an IBF *)
Definition carries_filter (K : ccfg) (n : name) (b : bloom) : Prop :=
  exists c1 c2 c3 rest, n = sync_prefix K ++ [c1; c2; c3] ++ rest /\ rest <> [] /\
    bloom_of_comps (cc_libm K) c1 c2 c3 = Ok b.
(** rates that survive the wire (C19), and a count that fits 32 bits *)
Definition rate_ok (K : ccfg) : Prop := cc_count K < two32 /\ exists t, cc_rate K = rate t /\ 1 <= t <= 1000.
(** the call does not change the subscriptions *)
Definition keeps_list (a : capi) : Prop := match a with CSub _ _ _ | CUnsub _ => False | _ => True end.
(** the sync replies in [evs] named only prefixes that were subscribed when they arrived *)
Definition only_subscribed (K : ccfg) (evs : list cev) : Prop :=
  forall evs1 i n buf sc1 sc2 evs2 s o names p x, evs = evs1 ++ CeContent i buf sc1 sc2 :: evs2 -> creaches K evs1 s o ->
    cfetch i (c_live s) = Some (KSync, n) -> state_of_buffer buf = Ok names -> In (p ++ [x]) names -> is_subscribed p s = true.

(** ** Keeping going *)
(** fetch [i] for [n] reported, while it ran, a segment that told how many there are (a segment
    with a FinalBlock) *)
Definition told_last (K : ccfg) (evs : list cev) (i : nat) (k : kind) (n : name) : Prop :=
  exists evs1 d evs2 s o, evs = evs1 ++ CeSegment i d :: evs2 /\ creaches K evs1 s o /\
    cfetch i (c_live s) = Some (k, n) /\ d_final d <> None.
(** the SegmentFetcher completes a fetch only when it knows which segment is the last *)
Definition fetchers_in_order (K : ccfg) (evs : list cev) : Prop :=
  forall evs1 i buf sc1 sc2 evs2 s o k n, evs = evs1 ++ CeContent i buf sc1 sc2 :: evs2 ->
    creaches K evs1 s o -> cfetch i (c_live s) = Some (k, n) -> told_last K evs1 i k n.
(** calls that send an interest *)
Definition sends (a : capi) : bool := match a with CSendHello | CSendSync => true | _ => false end.
(** the application never calls stop, and its hello callback asks for more.  (The first script of a
    completed sync fetch is not used, so asking it of all contents costs nothing.) *)
Definition goes_on (e : cev) : Prop :=
  ~ In CStop (calls_of e) /\
  match e with CeContent _ _ sc1 _ => exists a, In a sc1 /\ sends a = true | _ => True end.
(** something is being fetched, or is scheduled to be *)
Definition busy (s : cs) : Prop := c_live s <> [] \/ c_timers s <> [].
(** all data names have room for what is stripped from them: a version and a segment number *)
Definition named_data (e : cev) : Prop := match e with CeSegment _ d => (2 < length (d_name d))%nat | _ => True end.
(** a fetch of kind [k] has completed, so that its callback ran *)
Definition completed (K : ccfg) (evs : list cev) (k : kind) : Prop :=
  exists evs1 i buf sc1 sc2 evs2 s o n, evs = evs1 ++ CeContent i buf sc1 sc2 :: evs2 /\ creaches K evs1 s o /\
    cfetch i (c_live s) = Some (k, n).

(** ** Replies *)
(** [v] is the first number that the list [names] has for prefix [p] *)
Definition first_for (names : list name) (p : name) (v : N) : Prop :=
  exists l1 x l2, names = l1 ++ (p ++ [x]) :: l2 /\ to_number x = Ok v /\ forall y, ~ In (p ++ [y]) l1.
(** how far the clock goes in [evs] *)
Fixpoint elapsed (evs : list cev) : N :=
  match evs with
  | [] => 0
  | CeTick dt :: r => dt + elapsed r
  | _ :: r => elapsed r
  end.
