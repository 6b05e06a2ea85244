(** Model of the invertible Bloom lookup table (PSync/detail/iblt.hpp, iblt.cpp). *)
From Coq Require Import List NArith ZArith Bool.
From Verif Require Import Base Murmur.
Import ListNotations.

(** iblt.hpp 60-84: HashTableEntry, with the defaulted members; operator== is Leibniz
    equality of the three fields *)
Record cell := mkCell { c_count : Z; c_sum : N; c_check : N }.
Definition cell0 : cell := mkCell 0 0 0.

(** iblt.hpp 86-87 *)
Definition N_HASH : nat := 3.
Definition N_HASHCHECK : N := 11%N.
(** iblt.cpp 55-56 *)
Definition ENTRY_SIZE : nat := 12.

(** iblt.hpp 94-159: an IBLT is its hash table; the compression scheme is passed separately *)
Definition table := list cell.

(** iblt.cpp 58-67 *)
Definition is_pure (c : cell) : bool :=
  (Z.eqb (c_count c) 1 || Z.eqb (c_count c) (-1)) &&
  N.eqb (c_check c) (hash32 N_HASHCHECK (c_sum c)).

(** iblt.cpp 69-73 *)
Definition is_empty (c : cell) : bool :=
  Z.eqb (c_count c) 0 && N.eqb (c_sum c) 0 && N.eqb (c_check c) 0.

(** iblt.cpp 75-87: number of cells for an expected number of entries.
    Simplification: size_t does not wrap (n < 2^63). *)
Definition n_entries (n : nat) : nat :=
  let e := n + Nat.div n 2 in
  let r := Nat.modulo e N_HASH in
  if Nat.eqb r 0 then e else e + (N_HASH - r).
Definition iblt_new (n : nat) : table := repeat cell0 (n_entries n).

(** iblt.cpp 110-123, body of the loop: the entry update *)
Definition cell_update (c : cell) (pm : Z) (key : N) : outcome cell :=
  olet cnt <- add_i32 (c_count c) pm;
  Ok (mkCell cnt (N.lxor (c_sum c) key) (N.lxor (c_check c) (hash32 N_HASHCHECK key))).

(** std::vector::at followed by a write through the reference *)
Fixpoint update_at (ht : table) (j : nat) (f : cell -> outcome cell) : outcome table :=
  match ht, j with
  | [], _ => Throw ExOutOfRange
  | c :: r, O => olet c' <- f c; Ok (c' :: r)
  | c :: r, S j' => olet r' <- update_at r j' f; Ok (c :: r')
  end.

(** iblt.cpp 113-118: index of the entry for hash function [i]; [h % bucketsPerHash] is
    undefined when bucketsPerHash is 0 *)
Definition bucket (size i : nat) (key : N) : nat :=
  let bph := Nat.div size N_HASH in
  i * bph + N.to_nat (N.modulo (hash32 (N.of_nat i) key) (N.of_nat bph)).

Definition update_one (pm : Z) (key : N) (i : nat) (ht : table) : outcome table :=
  if Nat.eqb (Nat.div (length ht) N_HASH) 0 then UB UbModZero
  else update_at ht (bucket (length ht) i key) (fun c => cell_update c pm key).

(** iblt.cpp 110-123: ibltUpdate, for i = 0, 1, 2 *)
Definition iblt_update (ht : table) (pm : Z) (key : N) : outcome table :=
  olet ht <- update_one pm key 0 ht;
  olet ht <- update_one pm key 1 ht;
  update_one pm key 2 ht.

(** iblt.cpp 125-129 and 131-135 *)
Definition iblt_insert (ht : table) (key : N) : outcome table := iblt_update ht 1 key.
Definition iblt_erase (ht : table) (key : N) : outcome table := iblt_update ht (-1) key.

(** ** Wire format *)

(** iblt.cpp 142-151: one entry, big-endian *)
Definition cell_bytes (c : cell) : bytes :=
  be_enc 4 (i32_to_u32 (c_count c)) ++ be_enc 4 (c_sum c) ++ be_enc 4 (c_check c).
(** iblt.cpp 140-151: the uncompressed buffer of appendToName *)
Definition table_bytes (ht : table) : bytes := flat_map cell_bytes ht.

(** iblt.cpp 98-107: loads one entry *)
Definition cell_load (bs : bytes) : cell :=
  mkCell (u32_to_i32 (be_dec (firstn 4 bs)))
         (be_dec (firstn 4 (skipn 4 bs)))
         (be_dec (firstn 4 (skipn 8 bs))).
(** iblt.cpp 97-107: the loop over the entries of the table being initialised *)
Fixpoint table_load (size : nat) (bs : bytes) : table :=
  match size with
  | O => []
  | S n => cell_load bs :: table_load n (skipn ENTRY_SIZE bs)
  end.

(** ** Subtraction *)

(** iblt.hpp 165-175 *)
Record iblt_diff := mkDiff { can_decode : bool; positive : list N; negative : list N }.

(** iblt.cpp 176-184: the lambda of std::transform *)
Definition cell_sub (l r : cell) : outcome cell :=
  olet cnt <- sub_i32 (c_count l) (c_count r);
  Ok (mkCell cnt (N.lxor (c_sum l) (c_sum r)) (N.lxor (c_check l) (c_check r))).
(** iblt.cpp 173-184: BOOST_ASSERT on the sizes and std::transform *)
Fixpoint table_sub (l r : table) : outcome table :=
  match l, r with
  | [], [] => Ok []
  | a :: l', b :: r' => olet c <- cell_sub a b; olet t <- table_sub l' r'; Ok (c :: t)
  | _, _ => UB UbAssert
  end.

(** local variables of operator- *)
Record peel := mkPeel { p_tab : table; p_pos : list N; p_neg : list N; p_erased : nat }.

(** iblt.cpp 193-202: body of the range-for, at entry [j] *)
Definition peel_entry (j : nat) (st : peel) : outcome peel :=
  match nth_error (p_tab st) j with
  | None => Ok st
  | Some e =>
    if is_pure e then
      olet t <- iblt_update (p_tab st) (- c_count e) (c_sum e);
      Ok (if Z.eqb (c_count e) 1
          then mkPeel t (nset_insert (c_sum e) (p_pos st)) (p_neg st) (S (p_erased st))
          else mkPeel t (p_pos st) (nset_insert (c_sum e) (p_neg st)) (S (p_erased st)))
    else Ok st
  end.

(** iblt.cpp 192-203: the range-for over entries j, j+1, ..., j+n-1 *)
Fixpoint peel_pass (n j : nat) (st : peel) : outcome peel :=
  match n with
  | O => Ok st
  | S n' => olet st' <- peel_entry j st; peel_pass n' (S j) st'
  end.

(** iblt.cpp 189-204: the do-while loop; [fuel] bounds the number of passes *)
Fixpoint peel_loop (fuel : nat) (st : peel) : outcome peel :=
  match fuel with
  | O => Hang
  | S f =>
    olet st' <- peel_pass (length (p_tab st)) 0 (mkPeel (p_tab st) (p_pos st) (p_neg st) 0);
    if Nat.eqb (p_erased st') 0 then Ok st' else peel_loop f st'
  end.

(** iblt.cpp 169-212: operator- *)
Definition iblt_sub (fuel : nat) (lhs rhs : table) : outcome iblt_diff :=
  olet t <- table_sub lhs rhs;
  olet st <- peel_loop fuel (mkPeel t [] [] 0);
  Ok (mkDiff (forallb is_empty (p_tab st)) (p_pos st) (p_neg st)).
