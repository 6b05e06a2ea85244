(** Vocabulary for the statements about Bloom filters. *)
From Coq Require Import List NArith ZArith Bool Floats.SpecFloat.
From Verif Require Import Base Murmur Tlv Bloom.
Import ListNotations.
Local Open Scope N_scope.

(** calls on a filter *)
Inductive bop := BIns (n : name) | BClear.
Fixpoint bloom_run (b : bloom) (ops : list bop) : outcome bloom :=
  match ops with
  | [] => Ok b
  | BIns n :: r => olet b' <- bloom_insert b n; bloom_run b' r
  | BClear :: r => bloom_run (bloom_clear b) r
  end.
(** the names inserted since the last clear *)
Fixpoint inserted_after (acc : list name) (ops : list bop) : list name :=
  match ops with
  | [] => acc
  | BIns n :: r => inserted_after (n :: acc) r
  | BClear :: r => inserted_after [] r
  end.
Definition inserted (ops : list bop) : list name := inserted_after [] ops.

(** a filter whose bit table has exactly [b_size] bits, at least one byte *)
Definition bloom_sound (b : bloom) : Prop :=
  b_size b <> 0 /\ N.of_nat (length (b_tab b)) * 8 = b_size b.

(** bit [i] of a table *)
Definition tbit (t : bytes) (i : N) : bool :=
  N.testbit (b2n (nth (N.to_nat (i / 8)) t (n2b 0))) (i mod 8).

(** the double nearest to t/1000 *)
Definition rate (t : N) : dbl := d_div (d_of_N t) (d_of_N 1000).

(** special values the C standard (Annex F) prescribes for pow and log *)
Definition libm_specials (L : libm) : Prop :=
  (forall y, l_pow L (d_of_N 1) y = d_of_N 1) /\
  (forall s m e, l_pow L (S754_zero false) (S754_finite s m e) =
                 if s then S754_infinity false else S754_zero false) /\
  l_log L (S754_zero false) = S754_infinity true /\
  l_log L (d_of_N 1) = S754_zero false.

(** the number of bits a filter for [count] names and rate [p] needs with [k] hash functions:
    -k * count / log(1 - p^(1/k)), in double arithmetic and with the library's log and pow *)
Definition bits_needed (L : libm) (count : N) (p : dbl) (k : N) : dbl :=
  d_div (d_mul (SFopp (d_of_N k)) (d_of_N count))
        (l_log L (d_sub (d_of_N 1) (l_pow L p (d_div (d_of_N 1) (d_of_N k))))).
