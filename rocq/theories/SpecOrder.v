(** Vocabulary for the statements about the order in which updates arrive (C117). *)
From Coq Require Import List NArith ZArith Bool Arith.
From Verif Require Import Base Mon Iblt SpecIblt Tlv State NMap Codec Store Producer SpecProducer
  Partial SpecPartial Full FullTrace SpecFull SpecExchange SpecGroup Consumer SpecConsumer.
Import ListNotations.
Local Open Scope N_scope.

(** the list [names] says that prefix [p] is at [v], in front of the first name that does not end in a
    number *)
Definition says (names : list name) (p : name) (v : N) : Prop :=
  exists before x after, names = before ++ (p ++ [x]) :: after /\ to_number x = Ok v /\ Forall good_name before.
(** during the events [evs], content that said that [p] is at [v] arrived for a request of the node *)
Definition told (K : fcfg) (sys : Z) (evs : list fev) (p : name) (v : N) : Prop :=
  exists pre i buf script post s o n names,
    evs = pre ++ FeContent i buf script :: post /\ reaches K sys pre s o /\ fetch_of i (f_live s) = Some n /\
    content_names K buf names /\ says names p v.
(** what the node could learn about [p], from others or from its own application *)
Definition source (K : fcfg) (sys : Z) (evs : list fev) (o : list fout) (p : name) (v : N) : Prop :=
  told K sys evs p v \/ announced (fc_n K) (ops_of o) p v.

(** ** Consumers *)
(** the event [e] in state [s] brings content for a request of the consumer (the content of an
    application nack does not count), and it says that [p] is at [v] *)
Definition heard (e : cev) (s : cs) (p : name) (v : N) : Prop :=
  exists i buf sc1 sc2 k n names, e = CeContent i buf sc1 sc2 /\ cfetch i (c_live s) = Some (k, n) /\
    (k = KSync -> is_nack (c_type s) = false) /\ state_of_buffer buf = Ok names /\ says names p v.
(** that happened during [evs2], which followed [evs1] *)
Definition ctold (K : ccfg) (evs1 evs2 : list cev) (p : name) (v : N) : Prop :=
  exists pre e post s o, evs2 = pre ++ e :: post /\ creaches K (evs1 ++ pre) s o /\ heard e s p v.
