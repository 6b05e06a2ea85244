(** Vocabulary for the statement that replies stay available. *)
From Coq Require Import List NArith Bool.
From Verif Require Import Base Tlv Store.
Import ListNotations.

(** the data names of the publications of a history *)
Fixpoint data_names (ops : list pop) : list name :=
  match ops with
  | [] => []
  | PPublish _ n _ _ :: r => n :: data_names r
  | _ :: r => data_names r
  end.
(** names of different length are not below each other *)
Definition not_nested (l : list name) : Prop :=
  forall a b, In a l -> In b l -> length a = length b \/ is_prefix a b = false.
