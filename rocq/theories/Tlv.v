(** NDN TLV encoding, names and name components, as far as PSync uses them.
    ndn-cxx is a dependency and not part of /repo; this file models its documented behaviour
    (see DESIGN.md, trusted base).  PSync's uses are cited at each definition. *)
From Coq Require Import List NArith Bool.
From Coq.Strings Require Import Byte.
From Verif Require Import Base.
Import ListNotations.
Local Open Scope N_scope.

(** ** Variable-size numbers (TLV-TYPE and TLV-LENGTH) *)
(** ndn::encoding prependVarNumber, used by state.cpp 66-67 *)
Definition write_var (n : N) : bytes :=
  if n <? 253 then [n2b n]
  else if n <=? 0xffff then n2b 253 :: be_enc 2 n
  else if n <=? 0xffffffff then n2b 254 :: be_enc 4 n
  else n2b 255 :: be_enc 8 n.

(** ndn::tlv::readVarNumber: returns the number and the remaining bytes *)
Definition take_be (k : nat) (bs : bytes) : option (N * bytes) :=
  if Nat.leb k (length bs) then Some (be_dec (firstn k bs), skipn k bs) else None.
Definition read_var (bs : bytes) : option (N * bytes) :=
  match bs with
  | [] => None
  | b :: r =>
    if b2n b <? 253 then Some (b2n b, r)
    else if b2n b =? 253 then take_be 2 r
    else if b2n b =? 254 then take_be 4 r
    else take_be 8 r
  end.

(** ** Elements *)
Definition tlv (t : N) (v : bytes) : bytes :=
  write_var t ++ write_var (N.of_nat (length v)) ++ v.

(** one element at the front of a buffer: type, value, rest; ndn::tlv::readType rejects 0 and
    types above 2^32-1 *)
Definition read_elem (bs : bytes) : option (N * bytes * bytes) :=
  match read_var bs with
  | None => None
  | Some (t, r) =>
    if (t =? 0) || (0xffffffff <? t) then None
    else match read_var r with
         | None => None
         | Some (len, r') =>
           if N.of_nat (length r') <? len then None
           else Some (t, firstn (N.to_nat len) r', skipn (N.to_nat len) r')
         end
  end.

(** Block::parse: the sequence of elements filling a buffer (each element consumes at least two
    bytes, so the length of the buffer is enough fuel) *)
Fixpoint read_elems (fuel : nat) (bs : bytes) : option (list (N * bytes)) :=
  match bs with
  | [] => Some []
  | _ =>
    match fuel with
    | O => None
    | S f =>
      match read_elem bs with
      | None => None
      | Some (t, v, r) =>
        match read_elems f r with
        | None => None
        | Some l => Some ((t, v) :: l)
        end
      end
    end
  end.
Definition parse_elems (bs : bytes) : option (list (N * bytes)) := read_elems (length bs) bs.

(** Block(buffer): a buffer holding exactly one element *)
Definition read_block (bs : bytes) : option (N * bytes) :=
  match read_elem bs with
  | Some (t, v, []) => Some (t, v)
  | _ => None
  end.

(** ** Names *)
(** ndn::name::Component: TLV-TYPE and TLV-VALUE *)
Record comp := mkComp { ctype : N; cval : bytes }.
Definition name := list comp.

Definition TYPE_NAME : N := 7.
Definition TYPE_GENERIC : N := 8.
Definition TYPE_DIGEST : N := 1.
Definition TYPE_SEGMENT : N := 50.
Definition TYPE_VERSION : N := 54.

Definition comp_eqb (a b : comp) : bool := (ctype a =? ctype b) && bytes_eqb (cval a) (cval b).
Fixpoint name_eqb (a b : name) : bool :=
  match a, b with
  | [], [] => true
  | x :: a', y :: b' => comp_eqb x y && name_eqb a' b'
  | _, _ => false
  end.

(** canonical order: component type, then length, then bytes *)
Fixpoint bytes_cmp (a b : bytes) : comparison :=
  match a, b with
  | [], [] => Eq
  | [], _ => Lt
  | _, [] => Gt
  | x :: a', y :: b' =>
    match b2n x ?= b2n y with Eq => bytes_cmp a' b' | c => c end
  end.
Definition comp_cmp (a b : comp) : comparison :=
  match ctype a ?= ctype b with
  | Eq => match N.of_nat (length (cval a)) ?= N.of_nat (length (cval b)) with
          | Eq => bytes_cmp (cval a) (cval b)
          | c => c
          end
  | c => c
  end.
Fixpoint name_cmp (a b : name) : comparison :=
  match a, b with
  | [], [] => Eq
  | [], _ => Lt
  | _, [] => Gt
  | x :: a', y :: b' => match comp_cmp x y with Eq => name_cmp a' b' | c => c end
  end.

(** Name::isPrefixOf *)
Fixpoint is_prefix (p n : name) : bool :=
  match p, n with
  | [], _ => true
  | x :: p', y :: n' => comp_eqb x y && is_prefix p' n'
  | _, _ => false
  end.

(** TLV-VALUE of a name, hashed by murmurHash3(seed, Name), util.cpp 116-121 *)
Definition comp_wire (c : comp) : bytes := tlv (ctype c) (cval c).
Definition name_value (n : name) : bytes := flat_map comp_wire n.
(** Name::wireEncode *)
Definition name_wire (n : name) : bytes := tlv TYPE_NAME (name_value n).
(** Name(Block): the components are the elements of the value *)
Definition name_of_value (v : bytes) : option name :=
  match parse_elems v with
  | None => None
  | Some l => Some (map (fun e => mkComp (fst e) (snd e)) l)
  end.

(** ** NonNegativeInteger components *)
(** Component::fromNumber / Name::appendNumber (producer-base.cpp 71, 104, 113 and others):
    shortest of 1, 2, 4, 8 bytes *)
Definition nni (n : N) : bytes :=
  if n <=? 0xff then be_enc 1 n
  else if n <=? 0xffff then be_enc 2 n
  else if n <=? 0xffffffff then be_enc 4 n
  else be_enc 8 n.
Definition number_comp (t : N) (n : N) : comp := mkComp t (nni n).
(** Component::isNumber, Component::toNumber: any type, value of 1, 2, 4 or 8 bytes *)
Definition is_number (c : comp) : bool :=
  match length (cval c) with 1%nat | 2%nat | 4%nat | 8%nat => true | _ => false end.
Definition to_number (c : comp) : outcome N :=
  if is_number c then Ok (be_dec (cval c)) else Throw ExNotNumber.
(** Component::isSegment, Component::toSegment (segment-publisher.cpp 47-49) *)
Definition is_segment (c : comp) : bool := (ctype c =? TYPE_SEGMENT) && is_number c.
Definition to_segment (c : comp) : outcome N :=
  if is_segment c then Ok (be_dec (cval c)) else Throw ExNotSegment.

(** Name::append, appendNumber, appendSegment, appendVersion *)
Definition append_bytes (n : name) (v : bytes) : name := n ++ [mkComp TYPE_GENERIC v].
Definition append_number (n : name) (k : N) : name := n ++ [number_comp TYPE_GENERIC k].
Definition append_segment (n : name) (k : N) : name := n ++ [number_comp TYPE_SEGMENT k].
Definition append_version (n : name) (k : N) : name := n ++ [number_comp TYPE_VERSION k].

(** Name::get(i) with a non-negative index: unchecked access *)
Definition name_get (n : name) (i : nat) : outcome comp :=
  match nth_error n i with Some c => Ok c | None => UB UbOutOfBounds end.
(** Name::get(-k): element size-k *)
Definition name_get_back (n : name) (k : nat) : outcome comp :=
  if Nat.leb k (length n) then name_get n (length n - k) else UB UbOutOfBounds.
(** Name::getPrefix(-k): all but the last k components (empty when there are fewer) *)
Definition name_prefix_back (n : name) (k : nat) : name := firstn (length n - k) n.
