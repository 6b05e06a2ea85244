(** MurmurHash3_x86_32 as published, written with plain arithmetic: multiplication, division and
    remainder of natural numbers instead of shifts, indexed words instead of a recursion over the
    buffer.  Independent of the model of util.cpp. *)
From Coq Require Import List NArith.
From Coq.Strings Require Import Byte.
Import ListNotations.
Local Open Scope N_scope.

(** byte [i] of a buffer; bytes beyond the end count as zero *)
Definition byte_at (bs : list byte) (i : nat) : N := Byte.to_N (nth i bs x00).

(** the [i]-th aligned group of four bytes, read as a little-endian number *)
Definition word_at (bs : list byte) (i : nat) : N :=
  byte_at bs (4 * i) + 256 * byte_at bs (4 * i + 1)
  + 65536 * byte_at bs (4 * i + 2) + 16777216 * byte_at bs (4 * i + 3).

(** rotation of a 32-bit word to the left: the [r] high bits move to the low end *)
Definition rotate (x r : N) : N := (x * 2 ^ r) mod 2 ^ 32 + x / 2 ^ (32 - r).

Definition scramble (k : N) : N :=
  (rotate ((k * 3432918353) mod 2 ^ 32) 15 * 461845907) mod 2 ^ 32.

Definition absorb (h k : N) : N :=
  (rotate (N.lxor h (scramble k)) 13 * 5 + 3864292196) mod 2 ^ 32.

Definition avalanche (h : N) : N :=
  let h := N.lxor h (h / 2 ^ 16) in
  let h := (h * 2246822507) mod 2 ^ 32 in
  let h := N.lxor h (h / 2 ^ 13) in
  let h := (h * 3266489909) mod 2 ^ 32 in
  N.lxor h (h / 2 ^ 16).

(** all complete words are absorbed, the incomplete last word is scrambled and xored in (a
    missing one is zero and scrambles to zero), then the length *)
Definition murmur3_x86_32 (seed : N) (bs : list byte) : N :=
  let n := Nat.div (length bs) 4 in
  let h := fold_left absorb (map (word_at bs) (seq 0 n)) seed in
  let h := N.lxor h (scramble (word_at bs n)) in
  avalanche (N.lxor h (N.of_nat (length bs) mod 2 ^ 32)).
