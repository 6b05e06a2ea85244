(** Basic vocabulary of the model: bytes, machine words, outcomes.
    Nothing in this file is specific to PSync. *)
From Coq Require Import List NArith ZArith Bool.
From Coq.Strings Require Import Byte.
Import ListNotations.

(** ** Bytes and buffers (uint8_t, ndn::Buffer) *)
Definition bytes := list byte.
Definition b2n (b : byte) : N := Byte.to_N b.
(** conversion uint -> uint8_t: reduction modulo 256 *)
Definition n2b (n : N) : byte :=
  match Byte.of_N (N.modulo n 256) with Some b => b | None => x00 end.

Definition byte_eqb (a b : byte) : bool := N.eqb (b2n a) (b2n b).
Fixpoint bytes_eqb (a b : bytes) : bool :=
  match a, b with
  | [], [] => true
  | x :: a', y :: b' => byte_eqb x y && bytes_eqb a' b'
  | _, _ => false
  end.

(** ** Fixed-width integers *)
Definition two32 : N := 4294967296%N.
Definition two64 : N := 18446744073709551616%N.
Definition w32 (n : N) : N := N.modulo n two32.
Definition w64 (n : N) : N := N.modulo n two64.

Definition i32_min : Z := (-2147483648)%Z.
Definition i32_max : Z := 2147483647%Z.
Definition in_i32 (z : Z) : bool := (Z.leb i32_min z && Z.leb z i32_max)%bool.

(** big-endian store/load of [k] bytes (boost::endian order::big, NDN TLV numbers) *)
Fixpoint be_enc (k : nat) (n : N) : bytes :=
  match k with
  | O => []
  | S k' => be_enc k' (N.div n 256) ++ [n2b n]
  end.
Definition be_dec (bs : bytes) : N :=
  fold_left (fun acc b => N.add (N.mul acc 256) (b2n b)) bs 0%N.

(** little-endian store/load: memory image of an unsigned integer on the supported
    (little-endian) platforms *)
Fixpoint le_enc (k : nat) (n : N) : bytes :=
  match k with
  | O => []
  | S k' => n2b n :: le_enc k' (N.div n 256)
  end.
Fixpoint le_dec (bs : bytes) : N :=
  match bs with
  | [] => 0%N
  | b :: r => N.add (b2n b) (N.mul 256 (le_dec r))
  end.

(** two's complement view of int32_t *)
Definition i32_to_u32 (z : Z) : N := Z.to_N (Z.modulo z 4294967296).
Definition u32_to_i32 (n : N) : Z :=
  if N.ltb n 2147483648 then Z.of_N n else (Z.of_N n - 4294967296)%Z.

(** ** Outcomes of executing a piece of C++ *)
Inductive exn :=
| ExIblt            (* psync::detail::IBLT::Error *)
| ExCompression     (* psync::CompressionError *)
| ExState           (* ndn::tlv::Error thrown by State::wireDecode *)
| ExTlv             (* ndn::tlv::Error thrown by the TLV parser *)
| ExNotNumber       (* ndn::tlv::Error / std::out_of_range thrown by Component::toNumber *)
| ExNotSegment      (* ndn::tlv::Error thrown by Component::toSegment *)
| ExStream          (* boost::iostreams error while decompressing *)
| ExBloom           (* psync::detail::BloomFilter::Error *)
| ExOutOfRange      (* std::out_of_range *)
| ExBadOptional     (* std::bad_optional_access thrown by optional::value *)
| ExProducer.       (* psync::ProducerBase::Error *)

Inductive ubk :=
| UbModZero         (* integer division or remainder by zero *)
| UbIntOverflow     (* signed integer overflow *)
| UbOutOfBounds     (* unchecked container access out of bounds *)
| UbFloatCast       (* floating value converted to an integer type it does not fit *)
| UbAssert.         (* BOOST_ASSERT that does not hold (NDEBUG build continues) *)

Inductive outcome (A : Type) :=
| Ok (a : A)
| Throw (e : exn)
| UB (u : ubk)
| Hang.             (* a loop used up all the fuel it was given *)
Arguments Ok {A} a.
Arguments Throw {A} e.
Arguments UB {A} u.
Arguments Hang {A}.

Definition obind {A B} (m : outcome A) (f : A -> outcome B) : outcome B :=
  match m with
  | Ok a => f a
  | Throw e => Throw e
  | UB u => UB u
  | Hang => Hang
  end.
Definition omap {A B} (f : A -> B) (m : outcome A) : outcome B := obind m (fun a => Ok (f a)).
Notation "'olet' x <- m ; k" := (obind m (fun x => k))
  (at level 60, x name, m at level 60, k at level 60, right associativity).
Notation "'olet' ' p <- m ; k" := (obind m (fun p => k))
  (at level 60, p pattern, m at level 60, k at level 60, right associativity).

(** signed 32-bit addition, undefined on overflow *)
Definition add_i32 (a b : Z) : outcome Z :=
  let s := (a + b)%Z in if in_i32 s then Ok s else UB UbIntOverflow.
Definition sub_i32 (a b : Z) : outcome Z :=
  let s := (a - b)%Z in if in_i32 s then Ok s else UB UbIntOverflow.

(** ** std::set<uint32_t>: strictly increasing list *)
Fixpoint nset_insert (x : N) (s : list N) : list N :=
  match s with
  | [] => [x]
  | y :: r =>
    match N.compare x y with
    | Lt => x :: s
    | Eq => s
    | Gt => y :: nset_insert x r
    end
  end.
Fixpoint nset_mem (x : N) (s : list N) : bool :=
  match s with
  | [] => false
  | y :: r => N.eqb x y || nset_mem x r
  end.
