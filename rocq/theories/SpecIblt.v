(** Vocabulary used in the statements about IBFs.  It refers to the code only through the
    public operations (constructor, insert, erase) and the position of a key. *)
From Coq Require Import List NArith ZArith Permutation.
From Verif Require Import Base Murmur Iblt.
Import ListNotations.

(** building an IBF by inserting a list of keys, one after the other *)
Fixpoint insert_all (t : table) (ks : list N) : outcome table :=
  match ks with
  | [] => Ok t
  | k :: r => olet t' <- iblt_insert t k; insert_all t' r
  end.

(** [IbfOf n ks t]: [t] is the IBF for [n] expected entries holding exactly the keys [ks] *)
Definition IbfOf (n : nat) (ks : list N) (t : table) : Prop :=
  insert_all (iblt_new n) ks = Ok t.

(** operations on an IBF *)
Inductive iop := Ins (k : N) | Era (k : N).
Fixpoint run_ops (t : table) (ops : list iop) : outcome table :=
  match ops with
  | [] => Ok t
  | Ins k :: r => olet t' <- iblt_insert t k; run_ops t' r
  | Era k :: r => olet t' <- iblt_erase t k; run_ops t' r
  end.
(** number of insertions minus number of erasures of a key *)
Fixpoint net (k : N) (ops : list iop) : Z :=
  match ops with
  | [] => 0
  | Ins k' :: r => (if N.eqb k k' then 1 else 0) + net k r
  | Era k' :: r => (if N.eqb k k' then -1 else 0) + net k r
  end%Z.

(** keys only on one side *)
Definition only_in (a b : list N) : list N := filter (fun k => negb (nset_mem k b)) a.

(** the keys that differ, tagged +1 (left only) or -1 (right only) *)
Definition signed_diff (a b : list N) : list (Z * N) :=
  map (fun k => (1%Z, k)) (only_in a b) ++ map (fun k => ((-1)%Z, k)) (only_in b a).

Definition sum_sign (l : list (Z * N)) : Z := fold_right (fun x a => (fst x + a)%Z) 0%Z l.
Definition xor_keys (l : list (Z * N)) : N := fold_right (fun x a => N.lxor (snd x) a) 0%N l.
Definition xor_checks (l : list (Z * N)) : N :=
  fold_right (fun x a => N.lxor (hash32 N_HASHCHECK (snd x)) a) 0%N l.

(** no group of two or more differing keys looks, through the 32-bit check hash, like a single
    key or like nothing *)
Definition no_coincidence (delta : list (Z * N)) : Prop :=
  forall l, NoDup l -> incl l delta -> 2 <= length l ->
    ~ ((sum_sign l = 1 \/ sum_sign l = -1)%Z /\
       xor_checks l = hash32 N_HASHCHECK (xor_keys l)) /\
    ~ (sum_sign l = 0%Z /\ xor_keys l = 0%N /\ xor_checks l = 0%N).

(** the cells of a key in a table of [m] cells *)
Definition cells_of (m : nat) (k : N) : list nat := [bucket m 0 k; bucket m 1 k; bucket m 2 k].

(** each key of the list occupies a cell that no later key of the list occupies *)
Fixpoint peel_order (m : nat) (l : list N) : Prop :=
  match l with
  | [] => True
  | k :: r => (exists j, In j (cells_of m k) /\ forall k', In k' r -> ~ In j (cells_of m k')) /\
              peel_order m r
  end.
Definition peelable (m : nat) (ks : list N) : Prop :=
  exists l, Permutation ks l /\ peel_order m l.

Definition keys32 (l : list N) : Prop := Forall (fun k => (k < two32)%N) l.
