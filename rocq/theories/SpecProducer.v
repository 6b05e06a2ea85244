(** What a producer's sequence numbers should be, independently of how they are stored. *)
From Coq Require Import List NArith ZArith Bool Arith.
From Verif Require Import Base Tlv NMap Producer.
Import ListNotations.
Local Open Scope N_scope.

(** the sequence number of one prefix after a history: absent until added, 0 when added, then the
    maximum of the numbers supplied, absent again after removal; publishing without a number
    supplies the successor (modulo 2^64) *)
Definition seq_step (p : name) (cur : option N) (o : cop) : option N :=
  match o with
  | CAdd q => if name_eqb p q then match cur with None => Some 0 | c => c end else cur
  | CRemove q => if name_eqb p q then None else cur
  | CUpdate q s => if name_eqb p q then option_map (N.max s) cur else cur
  | CPublish q (Some s) => if name_eqb p q then option_map (N.max s) cur else cur
  | CPublish q None =>
    if name_eqb p q then option_map (fun v => N.max ((v + 1) mod two64) v) cur else cur
  end.
Definition seq_after (p : name) (ops : list cop) : option N := fold_left (seq_step p) ops None.

(** how far one operation advances a prefix that stays known *)
Definition advance (before after : option N) : N :=
  match before, after with Some v, Some v' => v' - v | _, _ => 0 end.
(** the prefix an operation concerns *)
Definition op_prefix (o : cop) : name :=
  match o with CAdd p | CRemove p | CUpdate p _ | CPublish p _ => p end.
(** sum over the history [ops], following [pre], of the advance each operation made *)
Fixpoint total_advance (pre ops : list cop) : N :=
  match ops with
  | [] => 0
  | o :: r =>
    advance (seq_after (op_prefix o) pre) (seq_after (op_prefix o) (pre ++ [o])) +
    total_advance (pre ++ [o]) r
  end.
Definition no_removal (ops : list cop) : Prop := forall p, ~ In (CRemove p) ops.

(** the names prefix/sequence-number currently to be synchronised *)
Definition live_names (m : nmap N) : list name :=
  map (fun x => append_number (fst x) (snd x)) (filter (fun x => negb (snd x =? 0)) m).
Definition live (k : core) : list name := live_names (k_prefixes k).

(** at no point of the history do two live names share a hash *)
Definition collision_free (n : nat) (ops : list cop) : Prop :=
  forall pre post k, ops = pre ++ post -> crun (core_new n) pre = Ok k ->
    NoDup (map name_hash (live k)).
Definition sumN (l : list N) : N := fold_right N.add 0 l.
