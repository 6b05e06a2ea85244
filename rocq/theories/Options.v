(** Model of the constructors and their options: the Options structures and the deprecated
    constructors that take the settings one by one. *)
From Coq Require Import List NArith ZArith Bool.
From Verif Require Import Base Mon Tlv NMap Codec Bloom Store Producer Partial Full Consumer.
Import ListNotations.
Local Open Scope N_scope.

(** what a constructor takes from its surroundings: the compression library and the math library the
    program is linked with, the clock and random numbers (Store.v, [env]), the fuel of the model's
    loops, and whether PSYNC_HAVE_ZLIB is defined *)
Record world := mkWorld { wo_codec : codec; wo_libm : libm; wo_env : env; wo_fuel : nat; wo_zlib : bool }.
(** common.hpp 38-41: HELLO_INTEREST_LIFETIME, HELLO_REPLY_FRESHNESS, SYNC_INTEREST_LIFETIME,
    SYNC_REPLY_FRESHNESS, in milliseconds *)
Definition ONE_SECOND : N := 1000.

(** ** PartialProducer *)
(** partial-producer.hpp 43-53: Options, with its defaults.  Simplified: durations are not negative. *)
Record popts := mkPopts { po_ibf_count : N; po_ibf_compression : scheme; po_hello_fresh : N; po_sync_fresh : N }.
Definition popts_default : popts := mkPopts 40 SNone ONE_SECOND ONE_SECOND.
(** partial-producer.cpp 34-50 and producer-base.cpp 30-50 *)
Definition producer_with (w : world) (sync : name) (o : popts) : pcfg * pp :=
  let K := mkPcfg sync (N.to_nat (po_ibf_count o)) (po_ibf_compression o) (po_hello_fresh o) (po_sync_fresh o)
                  (wo_codec w) (wo_libm w) (wo_env w) (wo_fuel w) in
  (K, pp_new K).
(** partial-producer.cpp 52-64: the deprecated constructor; the count is a size_t *)
Definition producer_old (w : world) (count : N) (sync user : name) (hello_fresh sync_fresh : N) (sch : scheme) : pcfg * pp :=
  let '(K, s) := producer_with w sync (mkPopts (w32 count) sch hello_fresh sync_fresh) in
  (K, fst (fst (pp_step K (PAdd user) s))).
(** partial-producer.hpp 68-76: its default arguments *)
Definition producer_old_short (w : world) (count : N) (sync user : name) : pcfg * pp :=
  producer_old w count sync user ONE_SECOND ONE_SECOND SNone.

(** ** FullProducer *)
(** full-producer.hpp 47-61: Options, with its defaults; the callback is an event of the model (Full.v) *)
Record fopts := mkFopts { fo_ibf_count : N; fo_ibf_compression : scheme; fo_interest_life : N; fo_data_fresh : N;
                          fo_content_compression : scheme }.
Definition fopts_default (w : world) : fopts :=
  mkFopts 80 (scheme_default (wo_zlib w)) ONE_SECOND ONE_SECOND (scheme_default (wo_zlib w)).
(** full-producer.cpp 34-50 and producer-base.cpp 30-50 *)
Definition node_with (w : world) (sync : name) (o : fopts) (sys : Z) : fcfg * (fp * list fout * outcome unit) :=
  let K := mkFcfg sync (N.to_nat (fo_ibf_count o)) (fo_ibf_compression o) (fo_content_compression o)
                  (fo_interest_life o) (fo_data_fresh o) (wo_codec w) (wo_env w) (wo_fuel w) in
  (K, fp_init K sys).
(** full-producer.cpp 52-68: the deprecated constructor; an exception leaves it before addUserNode *)
Definition node_old (w : world) (count : N) (sync user : name) (life fresh : N) (sch csch : scheme) (sys : Z) :
  fcfg * (fp * list fout * outcome unit) :=
  let '(K, r) := node_with w sync (mkFopts (w32 count) sch life fresh csch) sys in
  (K, match r with
      | (s, o, Ok _) => let '(s', o', r') := api_call K (AAdd user) s in (s', o ++ o', r')
      | x => x
      end).
(** full-producer.hpp 76-86: its default arguments *)
Definition node_old_short (w : world) (count : N) (sync user : name) (sys : Z) :=
  node_old w count sync user ONE_SECOND ONE_SECOND (scheme_default (wo_zlib w)) (scheme_default (wo_zlib w)) sys.
(** the object is used: events after its construction *)
Definition node_run (x : fcfg * (fp * list fout * outcome unit)) (evs : list fev) : option (fp * list fout) :=
  match x with
  | (K, (s, o, Ok _)) => match fp_run K s evs with Some (s', o') => Some (s', o ++ o') | None => None end
  | _ => None
  end.

(** ** Consumer *)
(** consumer.hpp 62-76: Options, with its defaults; lifetimes of interests are not part of the model
    of consumers *)
Record copts := mkCopts { co_bf_count : N; co_bf_rate : dbl }.
Definition copts_default : copts := mkCopts 6 (d_div (d_of_N 1) (d_of_N 1000)).
(** consumer.cpp 30-45 *)
Definition consumer_with (w : world) (sync : name) (o : copts) : ccfg * outcome cs :=
  let K := mkCcfg sync (co_bf_count o) (co_bf_rate o) (wo_libm w) (wo_env w) in (K, c_new K).
(** consumer.cpp 47-58: the deprecated constructor; the count is an unsigned int *)
Definition consumer_old (w : world) (count : N) (rate : dbl) (sync : name) : ccfg * outcome cs :=
  consumer_with w sync (mkCopts (w32 count) rate).
