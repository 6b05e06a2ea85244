(** Model of psync::detail::State (PSync/detail/state.hpp, state.cpp). *)
From Coq Require Import List NArith Bool.
From Verif Require Import Base Tlv.
Import ListNotations.
Local Open Scope N_scope.

(** state.hpp 28: tlv::PSyncContent *)
Definition TYPE_PSYNC_CONTENT : N := 128.

(** state.hpp 71-72: members m_content and the cached m_wire *)
Record sstate := mkState { s_content : list name; s_wire : option bytes }.

(** state.hpp 36: State() = default *)
Definition state_new : sstate := mkState [] None.

(** state.cpp 32-37: addContent *)
Definition add_content (s : sstate) (n : name) : sstate := mkState (s_content s ++ [n]) None.

(** state.cpp 56-70: the template encoder; elements are prepended in reverse order, so the
    result is the concatenation in list order, wrapped in a PSyncContent element *)
Definition encode_names (l : list name) : bytes :=
  tlv TYPE_PSYNC_CONTENT (flat_map name_wire l).

(** state.cpp 39-54: wireEncode with the cache *)
Definition wire_encode (s : sstate) : bytes * sstate :=
  match s_wire s with
  | Some w => (w, s)
  | None => let w := encode_names (s_content s) in (w, mkState (s_content s) (Some w))
  end.

(** state.cpp 86-93: the loop over the elements; returns the names decoded so far and whether
    the loop completed *)
Fixpoint decode_elems (l : list (N * bytes)) : list name * outcome unit :=
  match l with
  | [] => ([], Ok tt)
  | (t, v) :: r =>
    if t =? TYPE_NAME then
      match name_of_value v with
      | None => ([], Throw ExTlv)
      | Some n => let '(ns, o) := decode_elems r in (n :: ns, o)
      end
    else ([], Throw ExState)
  end.

(** state.cpp 74-94: wireDecode of a block given by its bytes, its type and its value.
    The state after an exception is part of the result. *)
Definition wire_decode (s : sstate) (bs : bytes) (t : N) (v : bytes) : sstate * outcome unit :=
  if t =? TYPE_PSYNC_CONTENT then
    match parse_elems v with
    | None => (mkState [] (s_wire s), Throw ExTlv)
    | Some l => let '(ns, o) := decode_elems l in (mkState ns (Some bs), o)
    end
  else (s, Throw ExState).

(** state.cpp 27-30: State(const Block&), with the block built from a buffer as in
    full-producer.cpp 446 and consumer.cpp 178, 268 *)
Definition state_of_buffer (bs : bytes) : outcome (list name) :=
  match read_block bs with
  | None => Throw ExTlv
  | Some (t, v) =>
    let '(s, o) := wire_decode state_new bs t v in
    olet _u <- o; Ok (s_content s)
  end.
