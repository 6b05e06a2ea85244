(** Vocabulary for the statements about replies that are fetched segment by segment. *)
From Coq Require Import List NArith Bool.
From Verif Require Import Base Mon Tlv Store Partial Full FullTrace.
Import ListNotations.

(** the name of segment [i] of the reply [vname] *)
Definition nth_segment (vname : name) (i : nat) : name := vname ++ [number_comp TYPE_SEGMENT (N.of_nat i)].
(** the events of a fetch: for every segment from [i] on, first the events in between, then the interest for it *)
Fixpoint pp_fetch_events (vname : name) (l : N) (i : nat) (gaps : list (list pev)) : list pev :=
  match gaps with
  | [] => []
  | g :: r => g ++ PInterest (nth_segment vname i) l :: pp_fetch_events vname l (S i) r
  end.
Fixpoint fp_fetch_events (vname : name) (l : N) (i : nat) (gaps : list (list fev)) : list fev :=
  match gaps with
  | [] => []
  | g :: r => g ++ FeInterest (nth_segment vname i) l :: fp_fetch_events vname l (S i) r
  end.
(** the end of the fetch and the content received: every interest is answered at once, by a single packet with the
    name asked for, which carries the number of the last segment; otherwise [None] *)
Definition is_answer (vname : name) (i last : nat) (d : data) : bool :=
  name_eqb (d_name d) (nth_segment vname i) &&
  match d_final d with Some c => name_eqb [c] [number_comp TYPE_SEGMENT (N.of_nat last)] | None => false end.
Fixpoint pp_fetch (K : pcfg) (vname : name) (l : N) (last i : nat) (gaps : list (list pev)) (s : pp) : option (pp * bytes) :=
  match gaps with
  | [] => Some (s, [])
  | g :: r =>
    match pp_run K s g with
    | Some (s1, _) =>
      match pp_step K (PInterest (nth_segment vname i) l) s1 with
      | (s2, [d], Ok tt) =>
        if is_answer vname i last d then
          match pp_fetch K vname l last (S i) r s2 with Some (s3, b) => Some (s3, d_content d ++ b) | None => None end
        else None
      | _ => None
      end
    | None => None
    end
  end.
Fixpoint fp_fetch (K : fcfg) (vname : name) (l : N) (last i : nat) (gaps : list (list fev)) (s : fp) : option (fp * bytes) :=
  match gaps with
  | [] => Some (s, [])
  | g :: r =>
    match fp_run K s g with
    | Some (s1, _) =>
      match fp_step K (FeInterest (nth_segment vname i) l) s1 with
      | (s2, [FoData d], Ok tt) =>
        if is_answer vname i last d then
          match fp_fetch K vname l last (S i) r s2 with Some (s3, b) => Some (s3, d_content d ++ b) | None => None end
        else None
      | _ => None
      end
    | None => None
    end
  end.
