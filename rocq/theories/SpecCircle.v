(** Vocabulary for the statements about comparisons that do not end (C13). *)
From Coq Require Import List NArith ZArith Arith.
From Verif Require Import Base Murmur Iblt.
Import ListNotations.

(** one pass of the do-while loop of operator- over a table: the table it leaves and the number of
    keys it extracted *)
Definition one_pass (t : table) : outcome (table * nat) :=
  olet st <- peel_pass (length t) 0 (mkPeel t [] [] 0); Ok (p_tab st, p_erased st).
(** the table after [n] passes, each of which extracted at least one key *)
Fixpoint passes (n : nat) (t : table) : option table :=
  match n with
  | O => Some t
  | S n' => match one_pass t with Ok (t', S _) => passes n' t' | _ => None end
  end.
