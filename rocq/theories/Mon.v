(** How the bodies of event handlers are written: a handler reads and changes the state of its
    object, emits packets and callbacks, and ends normally, with an exception, or worse.  The state
    and the emissions up to that point are kept.
    Nothing in this file is specific to PSync. *)
From Coq Require Import List Bool.
From Verif Require Import Base.
Import ListNotations.

Definition M (S O A : Type) : Type := S -> S * list O * outcome A.

Definition mret {S O A} (a : A) : M S O A := fun s => (s, [], Ok a).
Definition mbind {S O A B} (m : M S O A) (f : A -> M S O B) : M S O B := fun s =>
  let '(s1, o1, r) := m s in
  match r with
  | Ok a => let '(s2, o2, r2) := f a s1 in (s2, o1 ++ o2, r2)
  | Throw e => (s1, o1, Throw e)
  | UB u => (s1, o1, UB u)
  | Hang => (s1, o1, Hang)
  end.
Definition mget {S O} : M S O S := fun s => (s, [], Ok s).
Definition mmod {S O} (f : S -> S) : M S O unit := fun s => (f s, [], Ok tt).
Definition memit {S O} (o : list O) : M S O unit := fun s => (s, o, Ok tt).
(** a computation that only reads its arguments *)
Definition mlift {S O A} (r : outcome A) : M S O A := fun s => (s, [], r).

Notation "'mlet' x <- m ; k" := (mbind m (fun x => k))
  (at level 60, x name, m at level 60, k at level 60, right associativity).
Notation "m ;; k" := (mbind m (fun _ => k)) (at level 60, right associativity).

Definition st {S O A} (r : S * list O * outcome A) : S := fst (fst r).
Definition outs {S O A} (r : S * list O * outcome A) : list O := snd (fst r).
Definition res {S O A} (r : S * list O * outcome A) : outcome A := snd r.

(** run the handlers in turn; an exception is caught by the event loop of the application, which
    carries on with the state as it is; undefined behaviour and endless loops end the run *)
Fixpoint run {S O E} (step : E -> M S O unit) (s : S) (ops : list E) : option (S * list O) :=
  match ops with
  | [] => Some (s, [])
  | o :: r =>
    let '(s1, o1, x) := step o s in
    match x with
    | Ok _ | Throw _ =>
      match run step s1 r with Some (s2, o2) => Some (s2, o1 ++ o2) | None => None end
    | _ => None
    end
  end.
