(** A declarative grammar of NDN TLV, used to state what decoding accepts. *)
From Coq Require Import List NArith.
From Coq.Strings Require Import Byte.
From Verif Require Import Base Tlv.
Import ListNotations.
Local Open Scope N_scope.

(** a variable-size number: one byte below 253, or a marker byte and 2, 4 or 8 bytes *)
Inductive VarNum : N -> bytes -> Prop :=
| Var1 : forall b, b2n b < 253 -> VarNum (b2n b) [b]
| Var2 : forall bs, length bs = 2%nat -> VarNum (be_dec bs) (xfd :: bs)
| Var4 : forall bs, length bs = 4%nat -> VarNum (be_dec bs) (xfe :: bs)
| Var8 : forall bs, length bs = 8%nat -> VarNum (be_dec bs) (xff :: bs).

(** an element: type (1 to 2^32-1), length, value *)
Inductive Elem : N -> bytes -> bytes -> Prop :=
| ElemIntro : forall t v bt bl,
    0 < t -> t < two32 -> VarNum t bt -> VarNum (N.of_nat (length v)) bl ->
    Elem t v (bt ++ bl ++ v).

(** a sequence of elements *)
Inductive Elems : list (N * bytes) -> bytes -> Prop :=
| ElemsNil : Elems [] []
| ElemsCons : forall t v e l bs, Elem t v e -> Elems l bs -> Elems ((t, v) :: l) (e ++ bs).

(** a name: an element of type 7 whose value is the sequence of the components *)
Definition NameElem (n : name) (bs : bytes) : Prop :=
  exists v, Elem 7 v bs /\ Elems (map (fun c => (ctype c, cval c)) n) v.

(** sync content: an element of type 128 whose value is a sequence of names *)
Inductive NameElems : list name -> bytes -> Prop :=
| NameElemsNil : NameElems [] []
| NameElemsCons : forall n e l bs, NameElem n e -> NameElems l bs -> NameElems (n :: l) (e ++ bs).
Definition SyncContent (ns : list name) (bs : bytes) : Prop :=
  exists v, Elem 128 v bs /\ NameElems ns v.
