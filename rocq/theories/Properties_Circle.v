(** Further property theorems about comparing with a received IBF (C13, C14): exactly when the
    comparison does not end, and how an overflow can come about. *)
From Coq Require Import List NArith ZArith Bool Lia Arith.
From Verif Require Import Base BaseFacts Murmur MurmurFacts Iblt IbltFacts PeelFacts SpecIblt SpecCircle CircleFacts
  IbltProps.
Import ListNotations.

(** * C13 *)
(** the comparison of two tables with 32-bit fields never ends exactly if some table comes back: after
    [i] passes and again after [j] passes, each of which extracted a key, the same table is left *)
Theorem C13_endless_means_circling : forall l r t,
  Forall wf_cell l -> Forall wf_cell r -> table_sub l r = Ok t ->
  ((forall fuel, iblt_sub fuel l r = Hang) <->
   exists i j u, i < j /\ passes i t = Some u /\ passes j t = Some u).
Proof.
  intros l r t Hl Hr Ht.
  assert (forall fuel, iblt_sub fuel l r = Hang <-> passes fuel t <> None) as E.
  { intros fuel. unfold iblt_sub. rewrite Ht. cbn [obind].
    pose proof (loop_hangs fuel (mkPeel t [] [] 0)) as H. cbn [p_tab] in H. rewrite <- H.
    destruct (peel_loop fuel (mkPeel t [] [] 0)); cbn [obind]; split; congruence. }
  assert (Forall wf_cell t) as Hw.
  { apply table_sub_ok in Ht as (_ & _ & W & C). apply wf_cells_iff. split; [exact W|].
    apply wf_cells_iff in Hl as [_ Hl]. apply wf_cells_iff in Hr as [_ Hr]. intros j. rewrite C.
    destruct (Hl j), (Hr j). unfold cadd, cneg. cbn [c_sum c_check]. split; apply xor32_lt; assumption. }
  split.
  - intros H. apply for_ever_circles; [exact Hw|]. intros f. apply E, H.
  - intros (i & j & u & Hij & Ei & Ej) fuel. apply E. exact (circle_for_ever i j t u Hij Ei Ej fuel).
Qed.
Print Assumptions C13_endless_means_circling.

(** * C14 *)
(** the comparison overflows at once, whatever follows, exactly if two counts differ by more than an
    int32_t holds *)
Theorem C14_overflow_at_once : forall l r, length l = length r ->
  ((exists j, ~ (i32_min <= c_count (nth j l cell0) - c_count (nth j r cell0) <= i32_max)%Z) <->
   forall fuel, iblt_sub fuel l r = UB UbIntOverflow).
Proof.
  intros l r Hl. split.
  - intros (j & Hj) fuel. unfold iblt_sub.
    assert (j < length l) as Hlt.
    { destruct (Nat.lt_ge_cases j (length l)) as [H|H]; [exact H|]. exfalso. apply Hj.
      rewrite !nth_overflow by congruence. unfold i32_min, i32_max. cbn. lia. }
    rewrite (table_sub_overflow l r j Hl Hlt); [reflexivity|].
    apply not_true_iff_false. rewrite in_i32_iff. exact Hj.
  - intros H. specialize (H 0). unfold iblt_sub in H.
    destruct (table_sub_outcomes l r Hl) as [(t & E)|E]; rewrite E in H; cbn [obind peel_loop] in H; [discriminate|].
    assert (forall l r, length l = length r -> table_sub l r = UB UbIntOverflow ->
      exists j, ~ (i32_min <= c_count (nth j l cell0) - c_count (nth j r cell0) <= i32_max)%Z) as G.
    { clear. induction l as [|a l IH]; intros [|b r] Hl; try discriminate. cbn [table_sub]. unfold cell_sub, sub_i32. cbv zeta.
      destruct (in_i32 (c_count a - c_count b)) eqn:Er; cbn [obind].
      - intros H. destruct (IH r) as (j & Hj); [injection Hl; auto| |exists (S j); exact Hj].
        destruct (table_sub l r); cbn [obind] in H; try discriminate; congruence.
      - intros _. exists 0. cbn [nth]. rewrite <- in_i32_iff, Er. discriminate. }
    apply G; assumption.
Qed.
Print Assumptions C14_overflow_at_once.

(** otherwise an overflow takes long: it cannot happen within [fuel] passes if no two counts differ by
    more than [B], and [B] and the number of entries times [fuel] add up to at most 2^31 - 1 *)
Theorem C14_overflow_takes_long : forall l r B fuel, 3 <= length l -> length l = length r ->
  (forall j, (Z.abs (c_count (nth j l cell0) - c_count (nth j r cell0)) <= B)%Z) ->
  (B + Z.of_nat (fuel * length l) <= 2 ^ 31 - 1)%Z ->
  iblt_sub fuel l r = Hang \/ exists d, iblt_sub fuel l r = Ok d.
Proof.
  intros l r B fuel L3 Hl Hb Hf. unfold iblt_sub.
  assert (0 <= B)%Z as HB by (specialize (Hb 0); lia).
  change (2 ^ 31 - 1)%Z with i32_max in Hf.
  destruct (table_sub_total l r Hl) as (t & E).
  { intros j. apply in_i32_iff. specialize (Hb j). unfold cell_at, i32_min, i32_max in *. lia. }
  rewrite E. cbn [obind]. apply table_sub_ok in E as (_ & Lt & _ & C).
  destruct (peel_loop_within fuel B (mkPeel t [] [] 0)) as [H|(st & H)]; cbn [p_tab].
  - lia.
  - intros j. rewrite C. specialize (Hb j). unfold cadd, cneg, cell_at. cbn [c_count]. lia.
  - rewrite Lt. exact Hf.
  - left. rewrite H. reflexivity.
  - right. rewrite H. eexists. reflexivity.
Qed.
Print Assumptions C14_overflow_takes_long.

(** against an empty IBF: a forged table with which the comparison circles from the first pass on, and
    which does not overflow in the first passes *)
Definition own_circle : table := iblt_new 1.
Definition forged_circle : table := Eval vm_compute in attack own_circle 7.
Example C13_circle_example :
  (exists t u, table_sub own_circle forged_circle = Ok t /\ passes 1 t = Some u /\ passes 3 t = Some u) /\
  (forall fuel, iblt_sub fuel own_circle forged_circle = Hang).
Proof.
  assert (exists t u, table_sub own_circle forged_circle = Ok t /\ passes 1 t = Some u /\ passes 3 t = Some u) as X.
  { eexists _, _. split; [vm_compute; reflexivity|]. split; vm_compute; reflexivity. }
  split; [exact X|]. destruct X as (t & u & Ht & E1 & E3).
  apply (C13_endless_means_circling own_circle forged_circle t).
  - repeat constructor.
  - repeat (constructor; [split; [reflexivity|split; reflexivity]|]). constructor.
  - exact Ht.
  - exists 1, 3, u. split; [lia|]. split; assumption.
Qed.
Example C14_overflow_example :
  (forall fuel, iblt_sub fuel [mkCell 1 0 0; cell0; cell0] [mkCell (-2147483648) 0 0; cell0; cell0] = UB UbIntOverflow) /\
  (iblt_sub 5 own_circle forged_circle = Hang \/ exists d, iblt_sub 5 own_circle forged_circle = Ok d).
Proof.
  split.
  - apply C14_overflow_at_once; [reflexivity|]. exists 0. cbn. unfold i32_max. lia.
  - apply (C14_overflow_takes_long own_circle forged_circle 1 5); [vm_compute; lia|reflexivity| |vm_compute; discriminate].
    intros [|[|[|[|j]]]]; vm_compute; discriminate.
Qed.
