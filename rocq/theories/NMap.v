(** std::map<ndn::Name, V> and std::set<ndn::Name>: association lists sorted by the canonical
    order of names. *)
From Coq Require Import List NArith Bool.
From Verif Require Import Base Tlv.
Import ListNotations.

Definition nmap (V : Type) := list (name * V).

Fixpoint nm_find {V} (k : name) (m : nmap V) : option V :=
  match m with
  | [] => None
  | (k', v) :: r => if name_eqb k k' then Some v else nm_find k r
  end.

(** m[k] = v *)
Fixpoint nm_set {V} (k : name) (v : V) (m : nmap V) : nmap V :=
  match m with
  | [] => [(k, v)]
  | (k', v') :: r =>
    match name_cmp k k' with
    | Lt => (k, v) :: m
    | Eq => (k, v) :: r
    | Gt => (k', v') :: nm_set k v r
    end
  end.

(** m.emplace(k, v): keeps an existing entry *)
Definition nm_emplace {V} (k : name) (v : V) (m : nmap V) : nmap V :=
  match nm_find k m with Some _ => m | None => nm_set k v m end.

(** m.erase(k) *)
Fixpoint nm_erase {V} (k : name) (m : nmap V) : nmap V :=
  match m with
  | [] => []
  | (k', v) :: r => if name_eqb k k' then r else (k', v) :: nm_erase k r
  end.

Definition nm_mem {V} (k : name) (m : nmap V) : bool :=
  match nm_find k m with Some _ => true | None => false end.
Definition nm_keys {V} (m : nmap V) : list name := map fst m.

(** std::set<Name> *)
Definition nset := nmap unit.
