(** Model of psync::detail::BloomFilter (PSync/detail/bloom-filter.hpp, bloom-filter.cpp).
    double is IEEE binary64, modelled by Coq.Floats.SpecFloat (precision 53, emax 1024). *)
From Coq Require Import List NArith ZArith Bool Floats.SpecFloat.
From Verif Require Import Base Murmur Tlv.
Import ListNotations.
Local Open Scope N_scope.

(** ** double *)
Definition dbl := spec_float.
Definition d_mul : dbl -> dbl -> dbl := SFmul 53 1024.
Definition d_div : dbl -> dbl -> dbl := SFdiv 53 1024.
Definition d_sub : dbl -> dbl -> dbl := SFsub 53 1024.
Definition d_add : dbl -> dbl -> dbl := SFadd 53 1024.
(** integer to double conversion (round to nearest) *)
Definition d_of_N (n : N) : dbl := binary_normalize 53 1024 (Z.of_N n) 0 false.
Definition d_inf : dbl := S754_infinity false.
(** truncation toward zero *)
Definition d_trunc (x : dbl) : option Z :=
  match x with
  | S754_zero _ => Some 0%Z
  | S754_finite s m e =>
    let a := match e with
             | Z0 => Zpos m
             | Zpos p => Z.shiftl (Zpos m) (Zpos p)
             | Zneg p => Z.shiftr (Zpos m) (Zpos p)
             end in
    Some (if s then (- a)%Z else a)
  | _ => None
  end.
(** static_cast to an unsigned type of [bound] values: undefined when the truncated value does
    not fit *)
Definition d_cast (bound : N) (x : dbl) : outcome N :=
  match d_trunc x with
  | Some z => if (Z.leb 0 z && Z.ltb z (Z.of_N bound))%bool then Ok (Z.to_N z) else UB UbFloatCast
  | None => UB UbFloatCast
  end.

(** ** What the C library computes: std::log, std::pow, and the rand() stream after srand; the
    fuel bounds the rejection loop of generate_unique_salt *)
Record libm := mkLibm {
  l_log : dbl -> dbl;
  l_pow : dbl -> dbl -> dbl;
  l_rand : N -> nat -> N;
  l_rand_fuel : nat }.

(** ** Parameters *)
(** bloom-filter.cpp 60 *)
Definition BITS_PER_CHAR : N := 8.
(** bloom-filter.cpp 77-85: bloom_parameters(), only the constants that matter; minimum_size 1,
    maximum_size and maximum_number_of_hashes 2^32-1, minimum_number_of_hashes 1, random_seed *)
Definition RANDOM_SEED : N := 0xA5A5A5A55A5A5A5A.
(** bloom-filter.cpp 192-194: random_seed_ *)
Definition random_seed_ : N := w64 (RANDOM_SEED * 0xA5A5A5A5 + 1).

(** bloom-filter.cpp 87-98: operator!, the conditions that are not constantly false *)
Definition params_bad (count : N) (p : dbl) : bool :=
  (count =? 0) || SFltb p (S754_zero false) ||
  match p with S754_infinity _ => true | _ => false end.

(** bloom-filter.cpp 152-158: curr_m for a value of k *)
Definition curr_m (L : libm) (count : N) (p k : dbl) : dbl :=
  d_div (d_mul (SFopp k) (d_of_N count))
        (l_log L (d_sub (d_of_N 1) (l_pow L p (d_div (d_of_N 1) k)))).

(** bloom-filter.cpp 148-168: k = 1.0, 2.0, ..., 999.0 (the additions are exact) *)
Definition k_values : list dbl := map (fun i => d_of_N (N.of_nat i)) (seq 1 999).
Definition min_step (L : libm) (count : N) (p : dbl) (acc : dbl * dbl) (k : dbl) : dbl * dbl :=
  let m := curr_m L count p k in
  if SFltb m (fst acc) then (m, k) else acc.
Definition min_m_k (L : libm) (count : N) (p : dbl) : dbl * dbl :=
  fold_left (min_step L count p) k_values (d_inf, S754_zero false).

(** bloom-filter.cpp 172-182: rounding up to whole bytes (in unsigned int) and clamping *)
Definition round_size (ts : N) : N :=
  let ts := w32 (ts + (if ts mod BITS_PER_CHAR =? 0 then 0
                       else BITS_PER_CHAR - ts mod BITS_PER_CHAR)) in
  if ts <? 1 then 1 else ts.
Definition clamp_hashes (k : N) : N := if k <? 1 then 1 else k.

(** bloom-filter.cpp 133-185 and 204-216: number of hashes and table size in bits *)
Definition optimal_params (L : libm) (count : N) (p : dbl) : outcome (N * N) :=
  if params_bad count p then Throw ExBloom
  else
    let '(m, k) := min_m_k L count p in
    olet nh <- d_cast two32 k;
    olet ts <- d_cast two32 m;
    Ok (clamp_hashes nh, round_size ts).

(** ** Salts *)
(** bloom-filter.cpp 304-338 *)
Definition predef_salt : list N :=
  [0xAAAAAAAA; 0x55555555; 0x33333333; 0xCCCCCCCC;
   0x66666666; 0x99999999; 0xB5B5B5B5; 0x4B4B4B4B;
   0xAA55AA55; 0x55335533; 0x33CC33CC; 0xCC66CC66;
   0x66996699; 0x99B599B5; 0xB54BB54B; 0x4BAA4BAA;
   0xAA33AA33; 0x55CC55CC; 0x33663366; 0xCC99CC99;
   0x66B566B5; 0x994B994B; 0xB5AAB5AA; 0xAAAAAA33;
   0x555555CC; 0x33333366; 0xCCCCCC99; 0x666666B5;
   0x9999994B; 0xB5B5B5AA; 0xFFFFFFFF; 0xFFFF0000;
   0xB823D5EB; 0xC1191CDF; 0xF623AEB3; 0xDB58499F;
   0xC8D42E70; 0xB173F616; 0xA91A5967; 0xDA427D63;
   0xB1E8A2EA; 0xF6C0D155; 0x4909FEA3; 0xA68CC6A7;
   0xC395E782; 0xA26057EB; 0x0CD5DA28; 0x467C5492;
   0xF15E6982; 0x61C6FAD3; 0x9615E352; 0x6E9E355A;
   0x689B563E; 0x0C9831A8; 0x6753C18B; 0xA622689B;
   0x8CA63C47; 0x42CC2884; 0x8E89919B; 0x6EDBD7D3;
   0x15B6796C; 0x1D6FDFE4; 0x63FF9092; 0xE7401432;
   0xEFFE9412; 0xAEAEDF79; 0x9F245A31; 0x83C136FC;
   0xC3DA4A8C; 0xA5112C8C; 0x5271F491; 0x9A948DAB;
   0xCEE59A8D; 0xB5F525AB; 0x59D13217; 0x24E7C331;
   0x697C2103; 0x84B0A460; 0x86156DA9; 0xAEF2AC68;
   0x23243DA5; 0x3F649643; 0x5FA495A8; 0x67710DF8;
   0x9A6C499E; 0xDCFB0227; 0x46A43433; 0x1832B07A;
   0xC46AFF3C; 0xB9C8FFF0; 0xC9500467; 0x34431BDF;
   0xB652432B; 0xE367F12B; 0x427F4C1B; 0x224C006E;
   0x2E7E5A89; 0x96F99AA5; 0x0BEB452A; 0x2FD87C39;
   0x74B2E1FB; 0x222EFD24; 0xF357F60C; 0x440FCB1E;
   0x8BBE030F; 0x6704DC29; 0x1144D12F; 0x948B1355;
   0x6D8FD7E9; 0x1C11A014; 0xADD1592F; 0xFB3C712E;
   0xFC77642F; 0xF9C4CE8C; 0x31312FB9; 0x08B0DD79;
   0x318FA6E7; 0xC040D23D; 0xC0589AA7; 0x0CA5C075;
   0xF874B172; 0x0CF914D5; 0x784D3280; 0x4E8CFEBC;
   0xC569F575; 0xCDB2A091; 0x2CC016B4; 0x5C5F4421]%N.

(** bloom-filter.cpp 346-355: salts are updated in place, in increasing order *)
Definition nth_salt (l : list N) (i : nat) : N := nth i l 0.
Fixpoint set_nth (l : list N) (i : nat) (v : N) : list N :=
  match l, i with
  | [], _ => []
  | _ :: r, O => v :: r
  | x :: r, S i' => x :: set_nth r i' v
  end.
Definition mix_salt (l : list N) (i : nat) : list N :=
  set_nth l i (w32 (nth_salt l i * nth_salt l (Nat.modulo (i + 3) (length l)) + w32 random_seed_)).
Definition mix_salts (l : list N) : list N := fold_left mix_salt (seq 0 (length l)) l.

(** bloom-filter.cpp 363-374: the rejection loop; [i] counts calls of rand() *)
Fixpoint rand_salts (L : libm) (fuel : nat) (i : nat) (count : nat) (l : list N) : outcome (list N) :=
  if Nat.leb count (length l) then Ok l
  else match fuel with
  | O => Hang
  | S f =>
    let s := w32 (l_rand L (w32 random_seed_) i * l_rand L (w32 random_seed_) (S i)) in
    if (s =? 0) || existsb (N.eqb s) l then rand_salts L f (S (S i)) count l
    else rand_salts L f (S (S i)) count (l ++ [s])
  end.

(** bloom-filter.cpp 293-376: generate_unique_salt *)
Definition generate_salts (L : libm) (count : N) : outcome (list N) :=
  if count <=? 128 then Ok (mix_salts (firstn (N.to_nat count) predef_salt))
  else rand_salts L (l_rand_fuel L) 0 (N.to_nat count) predef_salt.

(** ** The filter *)
(** bloom-filter.hpp 136-143; inserted_element_count_ is never read and left out *)
Record bloom := mkBloom {
  b_salt : list N; b_tab : bytes; b_size : N; b_count : N; b_fpp : dbl }.

(** bloom-filter.cpp 190-202, 218-222 *)
Definition bloom_new (L : libm) (count : N) (p : dbl) : outcome bloom :=
  olet ' (nh, ts) <- optimal_params L count p;
  olet salts <- generate_salts L nh;
  Ok (mkBloom salts (repeat (n2b 0) (N.to_nat (ts / BITS_PER_CHAR))) ts count p).

(** bloom-filter.cpp 224-234 *)
Definition bloom_of_comp (L : libm) (count : N) (p : dbl) (c : comp) : outcome bloom :=
  olet b <- bloom_new L count p;
  if N.of_nat (length (cval c)) =? b_size b / BITS_PER_CHAR
  then Ok (mkBloom (b_salt b) (cval c) (b_size b) count p)
  else Throw ExBloom.

(** bloom-filter.cpp 236-242 *)
Definition append_bloom (n : name) (b : bloom) : outcome name :=
  olet k <- d_cast two64 (d_mul (b_fpp b) (d_of_N 1000));
  Ok (append_bytes (append_number (append_number n (b_count b)) k) (b_tab b)).

(** bloom-filter.cpp 244-249 *)
Definition bloom_clear (b : bloom) : bloom :=
  mkBloom (b_salt b) (repeat (n2b 0) (length (b_tab b))) (b_size b) (b_count b) (b_fpp b).

(** bloom-filter.cpp 286-291: compute_indices; the bit is the index modulo 8 *)
Definition bit_index (size hash : N) : outcome N :=
  if size =? 0 then UB UbModZero else Ok (hash mod size).

(** bit_table_[i] |= mask and the read of bit_table_[i]; unchecked accesses *)
Fixpoint or_at (t : bytes) (i : nat) (mask : N) : outcome bytes :=
  match t, i with
  | [], _ => UB UbOutOfBounds
  | b :: r, O => Ok (n2b (N.lor (b2n b) mask) :: r)
  | b :: r, S i' => olet r' <- or_at r i' mask; Ok (b :: r')
  end.
(** bloom-filter.cpp 62-71 *)
Definition bit_mask (bit : N) : N := N.shiftl 1 bit.

(** bloom-filter.cpp 251-265 *)
Definition insert_one (size : N) (v : bytes) (t : bytes) (salt : N) : outcome bytes :=
  olet i <- bit_index size (murmur salt v);
  or_at t (N.to_nat (i / BITS_PER_CHAR)) (bit_mask (i mod BITS_PER_CHAR)).
Fixpoint insert_salts (size : N) (v : bytes) (t : bytes) (salts : list N) : outcome bytes :=
  match salts with
  | [] => Ok t
  | s :: r => olet t' <- insert_one size v t s; insert_salts size v t' r
  end.
Definition bloom_insert (b : bloom) (n : name) : outcome bloom :=
  olet t <- insert_salts (b_size b) (name_value n) (b_tab b) (b_salt b);
  Ok (mkBloom (b_salt b) t (b_size b) (b_count b) (b_fpp b)).

(** bloom-filter.cpp 267-284 *)
Definition test_one (size : N) (v : bytes) (t : bytes) (salt : N) : outcome bool :=
  olet i <- bit_index size (murmur salt v);
  match nth_error t (N.to_nat (i / BITS_PER_CHAR)) with
  | None => UB UbOutOfBounds
  | Some b => let m := bit_mask (i mod BITS_PER_CHAR) in Ok (N.land (b2n b) m =? m)
  end.
Fixpoint test_salts (size : N) (v : bytes) (t : bytes) (salts : list N) : outcome bool :=
  match salts with
  | [] => Ok true
  | s :: r => olet x <- test_one size v t s; if x then test_salts size v t r else Ok false
  end.
Definition bloom_contains (b : bloom) (n : name) : outcome bool :=
  test_salts (b_size b) (name_value n) (b_tab b) (b_salt b).

(** partial-producer.cpp 139-159: how a producer rebuilds the filter from three components *)
Definition bloom_of_comps (L : libm) (c1 c2 c3 : comp) : outcome bloom :=
  olet count <- to_number c1;
  olet rate <- to_number c2;
  bloom_of_comp L (w32 count) (d_div (d_of_N rate) (d_of_N 1000)) c3.
