(** Vocabulary for the statement that applications are told everything once and in time. *)
From Coq Require Import List NArith.
Import ListNotations.
Local Open Scope N_scope.

(** number [n] lies in exactly one of the ranges [l] *)
Definition once (n : N) (l : list (N * N)) : Prop :=
  exists l1 a b l2, l = l1 ++ (a, b) :: l2 /\ a <= n <= b /\ forall a' b', In (a', b') (l1 ++ l2) -> ~ a' <= n <= b'.
