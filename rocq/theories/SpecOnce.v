(** Vocabulary for the statement that updates are reported exactly once. *)
From Coq Require Import List NArith.
Import ListNotations.
Local Open Scope N_scope.

(** the ranges in [l] are non-empty and follow each other without gap or overlap, from the number after
    [lo] up to [hi] *)
Fixpoint contiguous (lo : N) (l : list (N * N)) (hi : N) : Prop :=
  match l with
  | [] => lo = hi
  | (a, b) :: r => a = lo + 1 /\ a <= b /\ contiguous b r hi
  end.
