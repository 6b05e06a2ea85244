(** Destruction of an object from one of its own callbacks.

    When the application destroys the object inside a callback, the handler that made the callback
    goes on afterwards, with a [this] that is gone.  Reading or writing a member then, or calling a
    member function that does, is undefined behaviour: [Dangling] (Life.v).  The handlers are those
    of Consumer.v and Full.v, cut at the callbacks.
    The callback itself is a member too (a std::function).  It is assumed that running its
    destructor while its target runs does no harm, as is so if the target does not use its captured
    variables any more.  Fetchers keep themselves alive until they are stopped or end. *)
From Coq Require Import List NArith ZArith Bool Arith.
From Verif Require Import Base Mon Tlv NMap State Codec Store Producer Full Consumer Life.
Import ListNotations.
Local Open Scope N_scope.

(** the callback at whose end the object is destroyed *)
Inductive place := InHello | InUpdate.

(** the object as it was when it was destroyed *)
Definition gone {T O} (s : life T) (x : T) (o : list O) : lres T O :=
  Runs (mkLife x false (lf_answer s) (lf_filter s)) o (Ok tt).
(** the handler ended, one way or another, and the object is still there *)
Definition stays_on {T O} (s : life T) (x : T) (o : list O) (r : outcome unit) : lres T O :=
  Runs (mkLife x (lf_alive s) (lf_answer s) (lf_filter s)) o r.
(** run [m]; carry on with its result if it has one *)
Definition then_on {T O A} (s : life T) (m : M T O A) (x : T) (o : list O)
    (k : A -> T -> list O -> lres T O) : lres T O :=
  let '(x1, o1, r) := m x in
  match r with
  | Ok a => k a x1 (o ++ o1)
  | Throw e => stays_on s x1 (o ++ o1) (Throw e)
  | UB u => stays_on s x1 (o ++ o1) (UB u)
  | Hang => stays_on s x1 (o ++ o1) Hang
  end.

(** ** Consumer *)
(** consumer.cpp 158-182: onHelloData up to its callbacks *)
Definition hello_news (buf : bytes) : CM (list missing * nmap N) :=
  mmod (fun s => cset_iblt (last_comp (c_hname s)) s) ;;
  mlet names <- mlift (state_of_buffer buf);
  take_hello names [].
(** consumer.cpp 184-189: after the hello callback the member m_onUpdate is called if there are
    updates; after the update callback no member is used *)
Definition hello_end (K : ccfg) (w : place) (buf : bytes) (script1 script2 : list capi) (s : life cs) (x : cs) : lres cs cout :=
  then_on s (hello_news buf) x [] (fun a x1 o1 =>
  then_on s (memit [CoHello (snd a)] ;; calls K script1) x1 o1 (fun _ x2 o2 =>
    match w, fst a with
    | InHello, [] => gone s x2 o2
    | InHello, _ => Dangling
    | InUpdate, [] => stays_on s x2 o2 (Ok tt)
    | InUpdate, updates => then_on s (memit [CoUpdate updates] ;; calls K script2) x2 o2 (fun _ x3 o3 => gone s x3 o3)
    end)).
(** consumer.cpp 260-277: onSyncData up to its callback *)
Definition sync_news (buf : bytes) : CM (list missing) :=
  mmod (fun s => cset_iblt (last_comp (c_sname s)) s) ;;
  mlet names <- mlift (state_of_buffer buf);
  take_sync names.
(** consumer.cpp 281-285: after the update callback sendSyncInterest is called, which reads members *)
Definition sync_end (K : ccfg) (w : place) (buf : bytes) (script : list capi) (s : life cs) (x : cs) : lres cs cout :=
  then_on s (sync_news buf) x [] (fun updates x1 o1 =>
    match updates with
    | [] => then_on s (send_sync K) x1 o1 (fun _ x2 o2 => stays_on s x2 o2 (Ok tt))
    | _ =>
      then_on s (memit [CoUpdate updates] ;; calls K script) x1 o1 (fun _ x2 o2 =>
        match w with
        | InUpdate => Dangling
        | InHello => then_on s (send_sync K) x2 o2 (fun _ x3 o3 => stays_on s x3 o3 (Ok tt))
        end)
    end).
(** consumer.cpp 143-145, 235-242: fetcher [i] completes, and the application destroys the consumer
    at the end of the callback at [w], if that is made *)
Definition c_destroyed_in (K : ccfg) (w : place) (i : nat) (buf : bytes) (script1 script2 : list capi) (s : life cs) : lres cs cout :=
  match cfetch i (c_live (lf_obj s)) with
  | None => idle s
  | Some (KHello, _) => hello_end K w buf script1 script2 s (st (finish i (lf_obj s)))
  | Some (KSync, _) =>
    let x := st (finish i (lf_obj s)) in
    if is_nack (c_type (lf_obj s)) then stays_on s (cset_type Blob x) [] (Ok tt) else sync_end K w buf script2 s x
  end.

(** ** FullProducer *)
(** full-producer.cpp 430-461: onSyncData up to its callback; [None] when the content cannot be parsed *)
Definition full_news (K : fcfg) (n : name) (buf : bytes) : FM (option (list missing)) :=
  delete_pending n ;;
  match obind (decompress (fc_codec K) (fc_cscheme K) buf) state_of_buffer with
  | Throw _ => mret None
  | UB u => mlift (UB u)
  | Hang => mlift Hang
  | Ok names => mlet l <- take_updates names; mret (Some l)
  end.
(** full-producer.cpp 463-487: after the callback the node draws a delay with members m_jitter and m_rng *)
Definition f_destroyed_in (K : fcfg) (i : nat) (buf : bytes) (script : list api) (s : life fp) : lres fp fout :=
  match fetch_of i (f_live (lf_obj s)) with
  | None => idle s
  | Some n =>
    then_on s (full_news K n buf) (fset_live (without i (f_live (lf_obj s))) (lf_obj s)) [] (fun a x1 o1 =>
      match a with
      | None => stays_on s x1 o1 (Ok tt)
      | Some [] =>
        then_on s (mmod (fset_wait true) ;;
                   mlet j <- draw K;
                   mmod (fun s => fset_sched (Some (f_now s + (fc_fresh K + j), KAfterWait)) s)) x1 o1
          (fun _ x2 o2 => stays_on s x2 o2 (Ok tt))
      | Some updates =>
        then_on s (memit [FoUpdate updates] ;; api_calls K script) x1 o1 (fun _ _ _ => Dangling)
      end)
  end.
