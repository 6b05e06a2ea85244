(** Model of ProducerBase (PSync/producer-base.hpp, producer-base.cpp): the map of sequence
    numbers, the IBF, the bimap of hashes and names, and the cumulative count. *)
From Coq Require Import List NArith ZArith Bool Arith.
From Verif Require Import Base Murmur Iblt Tlv NMap.
Import ListNotations.
Local Open Scope N_scope.

(** util.cpp 116-121 with the seed used by producers (producer-base.cpp 115) *)
Definition name_hash (n : name) : N := murmur N_HASHCHECK (name_value n).

(** ** HashNameBiMap (producer-base.hpp 165-167): both sides unique, only lookups are used *)
Definition bimap := list (N * name).
Fixpoint bm_left (h : N) (b : bimap) : option name :=
  match b with
  | [] => None
  | (h', n) :: r => if h =? h' then Some n else bm_left h r
  end.
Fixpoint bm_right (n : name) (b : bimap) : option N :=
  match b with
  | [] => None
  | (h, n') :: r => if name_eqb n n' then Some h else bm_right n r
  end.
(** insert: nothing happens when the hash or the name is already present *)
Definition bm_insert (h : N) (n : name) (b : bimap) : bimap :=
  match bm_left h b, bm_right n b with
  | None, None => (h, n) :: b
  | _, _ => b
  end.
(** right.erase(iterator) *)
Fixpoint bm_erase_right (n : name) (b : bimap) : bimap :=
  match b with
  | [] => []
  | (h, n') :: r => if name_eqb n n' then r else (h, n') :: bm_erase_right n r
  end.

(** ** State (producer-base.hpp 160-179) *)
Record core := mkCore {
  k_iblt : table;            (* m_iblt *)
  k_prefixes : nmap N;       (* m_prefixes *)
  k_bimap : bimap;           (* m_biMap *)
  k_count : N }.             (* m_numOwnElements *)

(** producer-base.cpp 30-50, for [n] expected entries *)
Definition core_new (n : nat) : core := mkCore (iblt_new n) [] [] 0.

(** producer-base.hpp 82-90: getSeqNo *)
Definition get_seq (p : name) (k : core) : option N := nm_find p (k_prefixes k).

(** producer-base.cpp 52-62: addUserNode *)
Definition core_add (p : name) (k : core) : core * bool :=
  match nm_find p (k_prefixes k) with
  | None => (mkCore (k_iblt k) (nm_set p 0 (k_prefixes k)) (k_bimap k) (k_count k), true)
  | Some _ => (k, false)
  end.

(** producer-base.cpp 72-77 and 104-109: remove a name from the bimap and its hash from the IBF,
    if the bimap knows it *)
Definition core_forget (nm : name) (k : core) : outcome core :=
  match bm_right nm (k_bimap k) with
  | Some h =>
    olet t <- iblt_erase (k_iblt k) h;
    Ok (mkCore t (k_prefixes k) (bm_erase_right nm (k_bimap k)) (k_count k))
  | None => Ok k
  end.

(** producer-base.cpp 64-79: removeUserNode *)
Definition core_remove (p : name) (k : core) : outcome core :=
  match nm_find p (k_prefixes k) with
  | Some s =>
    core_forget (append_number p s)
      (mkCore (k_iblt k) (nm_erase p (k_prefixes k)) (k_bimap k) (k_count k))
  | None => Ok k
  end.

(** producer-base.cpp 81-120: updateSeqNo *)
Definition core_update (p : name) (s : N) (k : core) : outcome core :=
  match nm_find p (k_prefixes k) with
  | None => Ok k
  | Some old =>
    if s <=? old then Ok k
    else
      olet k1 <- (if old =? 0 then Ok k else core_forget (append_number p old) k);
      let h := name_hash (append_number p s) in
      olet t <- iblt_insert (k_iblt k1) h;
      Ok (mkCore t (nm_set p s (k_prefixes k1)) (bm_insert h (append_number p s) (k_bimap k1))
                 (w64 (k_count k1 + (s - old))))
  end.

(** partial-producer.cpp 69-75 and full-producer.cpp 78-85: the sequence number publishName uses
    for a known prefix (uint64_t arithmetic) *)
Definition publish_seq (cur : N) (s : option N) : N :=
  match s with Some v => v | None => w64 (cur + 1) end.
(** the part of publishName that touches the producer's own data; the result is the sequence
    number, or nothing for an unknown prefix *)
Definition core_publish (p : name) (s : option N) (k : core) : outcome (core * option N) :=
  match nm_find p (k_prefixes k) with
  | None => Ok (k, None)
  | Some cur =>
    let v := publish_seq cur s in
    olet k' <- core_update p v k; Ok (k', Some v)
  end.

(** ** Histories *)
Inductive cop :=
| CAdd (p : name)
| CRemove (p : name)
| CUpdate (p : name) (s : N)
| CPublish (p : name) (s : option N).
Definition cstep (k : core) (o : cop) : outcome core :=
  match o with
  | CAdd p => Ok (fst (core_add p k))
  | CRemove p => core_remove p k
  | CUpdate p s => core_update p s k
  | CPublish p s => omap fst (core_publish p s k)
  end.
Fixpoint crun (k : core) (ops : list cop) : outcome core :=
  match ops with
  | [] => Ok k
  | o :: r => olet k' <- cstep k o; crun k' r
  end.
(** arguments are uint64_t *)
Definition cop_wf (o : cop) : Prop :=
  match o with
  | CUpdate _ s | CPublish _ (Some s) => s < two64
  | _ => True
  end.
