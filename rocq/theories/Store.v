(** Data packets, the in-memory store and SegmentPublisher
    (PSync/segment-publisher.hpp, segment-publisher.cpp).
    ndn::InMemoryStorageFifo and ndn::Segmenter are dependencies; what is used of them is modelled
    here from their documented behaviour (DESIGN.md, trusted base). *)
From Coq Require Import List NArith Bool Arith.
From Verif Require Import Base Tlv.
Import ListNotations.

(** ** Data packets *)
(** ndn::tlv::ContentType_Blob and ContentType_Nack *)
Inductive content_type := Blob | AppNack.
(** ndn::Data: name, content type, content, FinalBlockId, FreshnessPeriod (milliseconds), and the
    implicit digest, which depends on the signature *)
Record data := mkData {
  d_name : name; d_type : content_type; d_content : bytes;
  d_final : option comp; d_fresh : N; d_digest : bytes }.
(** Data::getFullName *)
Definition full_name (d : data) : name := d_name d ++ [mkComp TYPE_DIGEST (d_digest d)].

(** ** What the process cannot determine itself *)
(** version timestamps of Name::appendVersion (k-th publication), digests (k-th signed packet),
    random jitter in milliseconds (k-th draw), and the round trip of a name through its URI
    (full-producer.cpp 386: a string is passed where a Name is expected) *)
Record env := mkEnv {
  en_version : nat -> N;
  en_digest : nat -> bytes;
  en_jitter : nat -> N;
  en_uri : name -> outcome name }.

(** ** ndn::InMemoryStorageFifo, oldest entry first *)
(** insert: a packet with the same full name is kept; when full the oldest entry is evicted *)
Definition store_insert (limit : nat) (d : data) (s : list data) : list data :=
  if existsb (fun e => name_eqb (full_name e) (full_name d)) s then s
  else if Nat.leb limit (length s) then skipn 1 s ++ [d]
  else s ++ [d].

(** std::set::lower_bound over the index of full names *)
Fixpoint lower_bound (n : name) (s : list data) : option data :=
  match s with
  | [] => None
  | d :: r =>
    match name_cmp n (full_name d), lower_bound n r with
    | Gt, o => o
    | _, None => Some d
    | _, Some e =>
      match name_cmp (full_name d) (full_name e) with Gt => Some e | _ => Some d end
    end
  end.
(** find(const Name&) *)
Definition store_find (n : name) (s : list data) : option data :=
  match lower_bound n s with
  | Some d => if is_prefix n (full_name d) then Some d else None
  | None => None
  end.
(** erase(const Name&, isPrefix = true).  The original walks the full-name index from lower_bound
    while the prefix matches; the packets with a given prefix are contiguous there. *)
Definition store_erase (n : name) (s : list data) : list data :=
  filter (fun d => negb (is_prefix n (d_name d))) s.

(** ** ndn::Segmenter *)
(** ndn::MAX_NDN_PACKET_SIZE >> 1 (segment-publisher.cpp 38) *)
Definition SEG_SIZE : nat := 44 * 100.
Arguments SEG_SIZE : simpl never.
(** at least one segment *)
Definition nseg (buf : bytes) : nat :=
  match buf with
  | [] => 1
  | _ => Nat.div (length buf + (SEG_SIZE - 1)) SEG_SIZE
  end.
Definition seg_data (E : env) (signed : nat) (dname : name) (buf : bytes) (fresh : N) (i : nat)
  : data :=
  mkData (append_segment dname (N.of_nat i)) Blob
         (firstn SEG_SIZE (skipn (i * SEG_SIZE) buf))
         (Some (number_comp TYPE_SEGMENT (N.of_nat (nseg buf - 1))))
         fresh (en_digest E (signed + i)).
Definition segment (E : env) (signed : nat) (dname : name) (buf : bytes) (fresh : N)
  : list data :=
  map (seg_data E signed dname buf fresh) (seq 0 (nseg buf)).

(** ** SegmentPublisher *)
(** segment-publisher.hpp 62-68, with the pending erase events of m_scheduler (deadline, name),
    and counters for the publications and the signed packets *)
Record pub := mkPub {
  pb_store : list data; pb_limit : nat; pb_timers : list (N * name);
  pb_published : nat; pb_signed : nat }.
(** segment-publisher.cpp 24-31, default imsLimit of segment-publisher.hpp 40 *)
Definition IMS_LIMIT : nat := 100.
Definition pub_new : pub := mkPub [] IMS_LIMIT [] 0 0.

(** segment-publisher.cpp 39-42: the loop inserting the segments and scheduling their removal *)
Definition insert_segments (now fresh : N) (ds : list data) (p : pub) : pub :=
  fold_left (fun p d =>
    mkPub (store_insert (pb_limit p) d (pb_store p)) (pb_limit p)
          (pb_timers p ++ [((now + fresh)%N, d_name d)]) (pb_published p) (S (pb_signed p))) ds p.

(** segment-publisher.cpp 44-52: which segment is put on the face; [interestName\[-1\]] is an
    unchecked access *)
Definition put_segment (iname : name) (ds : list data) : outcome (list data) :=
  olet last <- name_get_back iname 1;
  olet k <- (if is_segment last then to_segment last else Ok 0%N);
  if N.ltb k (N.of_nat (length ds))
  then Ok (match nth_error ds (N.to_nat k) with Some d => [d] | None => [] end)
  else Ok [].

(** segment-publisher.cpp 33-53: publish; returns the publisher, the packets put on the face and
    how the call ended *)
Definition publish (E : env) (now : N) (iname dname : name) (buf : bytes) (fresh : N) (p : pub)
  : pub * outcome (list data) :=
  let vname := append_version dname (en_version E (pb_published p)) in
  let ds := segment E (pb_signed p) vname buf fresh in
  let p1 := mkPub (pb_store p) (pb_limit p) (pb_timers p) (S (pb_published p)) (pb_signed p) in
  (insert_segments now fresh ds p1, put_segment iname ds).

(** segment-publisher.cpp 55-64: replyFromStore; the packet is put on the face when found *)
Definition reply_from_store (iname : name) (p : pub) : option data := store_find iname (pb_store p).

(** segment-publisher.cpp 41: the i-th scheduled event, if its time has come *)
Definition pub_fire (now : N) (i : nat) (p : pub) : pub :=
  match nth_error (pb_timers p) i with
  | Some (dl, n) =>
    if N.leb dl now
    then mkPub (store_erase n (pb_store p)) (pb_limit p)
               (firstn i (pb_timers p) ++ skipn (S i) (pb_timers p))
               (pb_published p) (pb_signed p)
    else p
  | None => p
  end.

(** ** Histories of a publisher *)
(** publish, replyFromStore, the passage of time and the execution of a scheduled event *)
Inductive pop :=
| PPublish (iname dname : name) (buf : bytes) (fresh : N)
| PLookup (iname : name)
| PAdvance (dt : N)
| PFire (i : nat).
Record pworld := mkPworld { pw_now : N; pw_pub : pub }.
(** one operation: the new state and the packets put on the face *)
Definition pstep (E : env) (w : pworld) (o : pop) : pworld * outcome (list data) :=
  match o with
  | PPublish i d b f =>
    let '(p, r) := publish E (pw_now w) i d b f (pw_pub w) in (mkPworld (pw_now w) p, r)
  | PLookup i =>
    (w, Ok (match reply_from_store i (pw_pub w) with Some d => [d] | None => [] end))
  | PAdvance dt => (mkPworld (pw_now w + dt) (pw_pub w), Ok [])
  | PFire i => (mkPworld (pw_now w) (pub_fire (pw_now w) i (pw_pub w)), Ok [])
  end.
Definition prun (E : env) (w : pworld) (ops : list pop) : pworld :=
  fold_left (fun w o => fst (pstep E w o)) ops w.
Definition pworld0 (limit : nat) : pworld := mkPworld 0 (mkPub [] limit [] 0 0).
