(** Vocabulary for the statement that a full-sync application learns every number exactly once. *)
From Coq Require Import List NArith ZArith Bool.
From Verif Require Import Base Mon Tlv NMap Producer SpecProducer Full FullTrace SpecFull.
Import ListNotations.
Local Open Scope N_scope.

(** the numbers of [p] that an application got to know, in the order of what its node showed: those it
    published itself, from the number after the current one to the new one, and those it was told *)
Fixpoint story (p : name) (ops : list cop) (o : list fout) : list (N * N) :=
  match o with
  | [] => []
  | FoOp c :: r =>
    (match c with
     | CPublish q _ =>
       if name_eqb p q && (seq0 (seq_after p ops) <? seq0 (seq_after p (ops ++ [c])))
       then [(seq0 (seq_after p ops) + 1, seq0 (seq_after p (ops ++ [c])))]
       else []
     | _ => []
     end) ++ story p (ops ++ [c]) r
  | FoUpdate l :: r => ranges_in p l ++ story p ops r
  | _ :: r => story p ops r
  end.
(** the ranges in [l] follow each other without gap or overlap, from the number after [lo] to [hi];
    a range may be empty (see C46) *)
Fixpoint gapless (lo : N) (l : list (N * N)) (hi : N) : Prop :=
  match l with
  | [] => lo = hi
  | (a, b) :: r => a = lo + 1 /\ lo <= b /\ gapless b r hi
  end.
