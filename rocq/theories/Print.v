(** Model of the stream output operators (PSync/detail/iblt.cpp, bloom-filter.hpp, state.cpp). *)
From Coq Require Import List NArith ZArith Bool Ascii String.
From Coq.Numbers Require Import DecimalString.
From Verif Require Import Base Murmur Iblt Tlv Bloom.
Import ListNotations.

Definition chars := list ascii.
Definition lit (s : string) : chars := list_ascii_of_string s.
(** std::ostream << of an int32_t and of a uint32_t with the default flags: decimal *)
Definition dec_Z (z : Z) : chars := lit (NilEmpty.string_of_int (Z.to_int z)).
Definition dec_N (n : N) : chars := lit (NilEmpty.string_of_uint (N.to_uint n)).
Definition newline : ascii := Ascii.ascii_of_nat 10.

(** iblt.cpp 163-164: the third column *)
Definition check_matches (c : cell) : bool :=
  is_empty c || N.eqb (hash32 N_HASHCHECK (c_sum c)) (c_check c).
(** iblt.cpp 162-165: one line *)
Definition print_cell (c : cell) : chars :=
  dec_Z (c_count c) ++ " "%char :: dec_N (c_sum c) ++ " "%char ::
  (if check_matches c then lit "true" else lit "false") ++ [newline].
(** iblt.cpp 157-168 *)
Definition print_iblt (t : table) : chars :=
  (lit "count keySum keyCheckMatch" ++ [newline]) ++ flat_map print_cell t.

(** ndn::printHex with wantUpperCase = false: two digits per byte *)
Definition hex_digit (n : N) : ascii := Ascii.ascii_of_N (if N.ltb n 10 then 48 + n else 87 + n)%N.
Definition print_byte (b : Byte.byte) : chars := [hex_digit (b2n b / 16); hex_digit (b2n b mod 16)].
(** bloom-filter.hpp 126-131 *)
Definition print_bloom (b : bloom) : chars := flat_map print_byte (b_tab b).
(** bloom-filter.hpp 114-118: operator== *)
Definition bloom_eq (a b : bloom) : bool :=
  if list_eq_dec Byte.byte_eq_dec (b_tab a) (b_tab b) then true else false.

(** ndn::make_ostream_joiner *)
Fixpoint join (sep : chars) (l : list chars) : chars :=
  match l with
  | [] => []
  | [x] => x
  | x :: r => x ++ sep ++ join sep r
  end.
(** state.cpp 96-107; [uri] is ndn::Name's output operator *)
Definition print_state (uri : name -> chars) (content : list name) : chars :=
  "["%char :: join (lit ", ") (map uri content) ++ ["]"%char].
