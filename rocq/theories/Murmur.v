(** Model of murmurHash3 (PSync/detail/util.cpp, PSync/detail/util.hpp). *)
From Coq Require Import List NArith.
From Verif Require Import Base.
Import ListNotations.
Local Open Scope N_scope.

(** util.cpp 51-55, ROTL32 *)
Definition rotl32 (x : N) (r : N) : N :=
  N.lor (w32 (N.shiftl x r)) (N.shiftr x (32 - r)).

(** util.cpp 65-66, constants *)
Definition c1 : N := 0xcc9e2d51.
Definition c2 : N := 0x1b873593.

(** util.cpp 77-79 and 104: k1 *= c1; k1 = ROTL32(k1,15); k1 *= c2 *)
Definition mix_k1 (k : N) : N := w32 (rotl32 (w32 (k * c1)) 15 * c2).

(** util.cpp 81-83: one iteration of the body loop *)
Definition body_step (h k : N) : N :=
  w32 (rotl32 (N.lxor h (mix_k1 k)) 13 * 5 + 0xe6546b64).

(** util.cpp 73-84: body loop over 4-byte blocks (little-endian loads); returns the
    hash so far and the remaining tail bytes.
    Simplification: [int nblocks = len / 4] overflows only for inputs of 8 GiB. *)
Fixpoint murmur_body (h : N) (bs : bytes) : N * bytes :=
  match bs with
  | b0 :: b1 :: b2 :: b3 :: r => murmur_body (body_step h (le_dec [b0; b1; b2; b3])) r
  | _ => (h, bs)
  end.

(** util.cpp 89-105: the tail switch *)
Definition murmur_tail (h : N) (tail : bytes) : N :=
  match tail with
  | [t0; t1; t2] =>
      N.lxor h (mix_k1 (N.lxor (N.lxor (N.shiftl (b2n t2) 16) (N.shiftl (b2n t1) 8)) (b2n t0)))
  | [t0; t1] => N.lxor h (mix_k1 (N.lxor (N.shiftl (b2n t1) 8) (b2n t0)))
  | [t0] => N.lxor h (mix_k1 (b2n t0))
  | _ => h
  end.

(** util.cpp 110-115 (after [h1 ^= len]): finalization *)
Definition fmix (h : N) : N :=
  let h := N.lxor h (N.shiftr h 16) in
  let h := w32 (h * 0x85ebca6b) in
  let h := N.lxor h (N.shiftr h 13) in
  let h := w32 (h * 0xc2b2ae35) in
  N.lxor h (N.shiftr h 16).

(** util.cpp 57-114: murmurHash3(const void*, size_t, uint32_t) *)
Definition murmur (seed : N) (bs : bytes) : N :=
  let '(h, tail) := murmur_body seed bs in
  fmix (N.lxor (murmur_tail h tail) (w32 (N.of_nat (length bs)))).

(** util.hpp 39-43: murmurHash3(uint32_t seed, uint32_t value) hashes the four bytes of
    [value] in memory *)
Definition hash32 (seed value : N) : N := murmur seed (le_enc 4 value).
