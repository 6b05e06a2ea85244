(** Compression (PSync/detail/util.cpp 123-239) and the IBF operations that use it
    (PSync/detail/iblt.cpp 89-108 and 137-155). *)
From Coq Require Import List NArith Bool.
From Verif Require Import Base Iblt Tlv.
Import ListNotations.

(** common.hpp 43-55: CompressionScheme (DEFAULT is ZLIB or NONE, a build-time choice) *)
Inductive scheme := SNone | SZlib | SGzip | SBzip2 | SLzma | SZstd.
Definition scheme_default (have_zlib : bool) : scheme := if have_zlib then SZlib else SNone.

(** The boost::iostreams filters are a dependency: [supported] is which PSYNC_HAVE_* macros are
    defined, [lib_compress] and [lib_decompress] are what the filters compute ([None]: the filter
    throws because the input is malformed). *)
Record codec := mkCodec {
  supported : scheme -> bool;
  lib_compress : scheme -> bytes -> bytes;
  lib_decompress : scheme -> bytes -> option bytes }.

(** util.cpp 123-180 *)
Definition compress (C : codec) (s : scheme) (b : bytes) : outcome bytes :=
  match s with
  | SNone => Ok b
  | _ => if supported C s then Ok (lib_compress C s b) else Throw ExCompression
  end.
(** util.cpp 182-239 *)
Definition decompress (C : codec) (s : scheme) (b : bytes) : outcome bytes :=
  match s with
  | SNone => Ok b
  | _ => if supported C s
         then match lib_decompress C s b with Some r => Ok r | None => Throw ExStream end
         else Throw ExCompression
  end.

(** iblt.cpp 137-155: appendToName *)
Definition append_ibf (C : codec) (s : scheme) (n : name) (t : table) : outcome name :=
  olet c <- compress C s (table_bytes t); Ok (append_bytes n c).

(** iblt.cpp 89-108: initialize; returns the table after the call and how the call ended *)
Definition initialize (C : codec) (s : scheme) (t : table) (c : comp) : table * outcome unit :=
  match decompress C s (cval c) with
  | Ok b =>
    if Nat.eqb (length b) (ENTRY_SIZE * length t)
    then (table_load (length t) b, Ok tt)
    else (t, Throw ExIblt)
  | Throw e => (t, Throw e)
  | UB u => (t, UB u)
  | Hang => (t, Hang)
  end.

(** What is assumed of the dependency where a theorem says so: the filters are lossless. *)
Definition lossless (C : codec) : Prop :=
  forall s b, supported C s = true -> lib_decompress C s (lib_compress C s b) = Some b.

(** a build without any compression library *)
Definition codec_none : codec := mkCodec (fun _ => false) (fun _ b => b) (fun _ b => Some b).
(** a build with every scheme, the filters being the identity *)
Definition codec_id : codec := mkCodec (fun _ => true) (fun _ b => b) (fun _ b => Some b).
