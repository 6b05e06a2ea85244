(** Proofs about operator- on IBLTs. *)
From Coq Require Import List NArith ZArith Bool Lia Arith Permutation Sorted.
From Verif Require Import Base BaseFacts Murmur MurmurFacts Iblt IbltFacts.
Import ListNotations.
Ltac Zify.zify_post_hook ::= Z.to_euclidean_division_equations.

(** ** table_sub *)
Lemma table_sub_ok l r t :
  table_sub l r = Ok t ->
  length l = length r /\ length t = length l /\ wf_table t /\
  forall j, cell_at t j = cadd (cell_at l j) (cneg (cell_at r j)).
Proof.
  revert r t; induction l as [|a l IH]; intros [|b r] t H; simpl in H; try discriminate.
  - injection H as <-. repeat split; auto.
    + intros j. unfold cell_at. destruct j; reflexivity.
    + intros j. unfold cell_at. destruct j; reflexivity.
  - apply obind_ok in H as (c & Hc & H). apply obind_ok in H as (t' & Ht & H).
    injection H as <-. apply IH in Ht as (L1 & L2 & W & C).
    unfold cell_sub, sub_i32 in Hc. cbv zeta in Hc.
    destruct (in_i32 _) eqn:Er; [|discriminate]. simpl in Hc. injection Hc as <-.
    simpl. repeat split; try lia.
    + intros [|j]; [exact Er|apply W].
    + intros [|j]; [|apply C]. apply cell_ext; simpl; auto.
Qed.

Lemma table_sub_total l r :
  length l = length r ->
  (forall j, in_i32 (c_count (cell_at l j) - c_count (cell_at r j)) = true) ->
  exists t, table_sub l r = Ok t.
Proof.
  revert r; induction l as [|a l IH]; intros [|b r] Hl Hr; try discriminate; simpl; eauto.
  unfold cell_sub, sub_i32. cbv zeta. pose proof (Hr 0) as H0. unfold cell_at in H0; simpl in H0. rewrite H0. simpl.
  destruct (IH r) as [t E]; [simpl in Hl; lia|intros j; apply (Hr (S j))|].
  rewrite E. simpl. eauto.
Qed.

Lemma table_sub_overflow l r j :
  length l = length r -> j < length l ->
  in_i32 (c_count (cell_at l j) - c_count (cell_at r j)) = false ->
  table_sub l r = UB UbIntOverflow.
Proof.
  revert r j; induction l as [|a l IH]; intros [|b r] j Hl Hj Hr; try discriminate; simpl in *; [lia|].
  unfold cell_sub, sub_i32. cbv zeta.
  destruct j as [|j].
  - unfold cell_at in Hr. simpl in Hr. rewrite Hr. reflexivity.
  - destruct (in_i32 (c_count a - c_count b)) eqn:E; simpl; [|reflexivity].
    rewrite (IH r j); auto. lia.
Qed.

(** ** One pass and the loop, general facts *)
Lemma peel_entry_cases j st st' :
  peel_entry j st = Ok st' ->
  (length (p_tab st') = length (p_tab st)) /\
  ((st' = st /\ is_pure (cell_at (p_tab st) j) = false) \/
   (exists s k, s = c_count (cell_at (p_tab st) j) /\ k = c_sum (cell_at (p_tab st) j) /\
     j < length (p_tab st) /\
     is_pure (cell_at (p_tab st) j) = true /\
     iblt_update (p_tab st) (- s) k = Ok (p_tab st') /\
     p_erased st' = S (p_erased st) /\
     ((s = 1%Z /\ p_pos st' = nset_insert k (p_pos st) /\ p_neg st' = p_neg st) \/
      (s = (-1)%Z /\ p_pos st' = p_pos st /\ p_neg st' = nset_insert k (p_neg st))))).
Proof.
  unfold peel_entry. intros H.
  destruct (Nat.lt_ge_cases j (length (p_tab st))) as [Hj|Hj].
  2:{ rewrite (proj2 (nth_error_None _ _) Hj) in H. injection H as <-.
      split; auto. left. split; auto. rewrite cell_at_out by assumption. reflexivity. }
  rewrite nth_error_cell_at in H by assumption.
  destruct (is_pure (cell_at (p_tab st) j)) eqn:Ep.
  2:{ injection H as <-. auto. }
  apply obind_ok in H as (t & Hu & H).
  pose proof (iblt_update_ok _ _ _ _ Hu) as (_ & L & _).
  apply is_pure_iff in Ep as ([E|E] & Hc); rewrite E in H; simpl in H; injection H as <-; simpl;
  (split; [assumption|]); right; eexists _, _; repeat split; eauto; try (rewrite <- E in *; assumption).
Qed.

Lemma peel_entry_erased j st st' :
  peel_entry j st = Ok st' ->
  p_erased st <= p_erased st' /\
  (p_erased st' = p_erased st -> st' = st /\ is_pure (cell_at (p_tab st) j) = false).
Proof.
  intros H. apply peel_entry_cases in H as (_ & [[-> Hp]|(s & k & _ & _ & _ & _ & _ & He & _)]).
  - auto.
  - split; lia.
Qed.

Lemma peel_pass_erased n j st st' :
  peel_pass n j st = Ok st' ->
  p_erased st <= p_erased st' /\
  (p_erased st' = p_erased st ->
   st' = st /\ forall i, j <= i < j + n -> is_pure (cell_at (p_tab st) i) = false).
Proof.
  revert j st; induction n as [|n IH]; intros j st H; simpl in H.
  - injection H as <-. split; auto. intros _. split; auto. intros; lia.
  - apply obind_ok in H as (st1 & H1 & H).
    apply peel_entry_erased in H1 as (M1 & Z1). apply IH in H as (M2 & Z2).
    split; [lia|]. intros E. destruct Z2 as (-> & P2); [lia|]. destruct Z1 as (-> & P1); [lia|].
    split; auto. intros i Hi. destruct (Nat.eq_dec i j) as [->|]; auto. apply P2. lia.
Qed.

Lemma peel_entry_length j st st' :
  peel_entry j st = Ok st' -> length (p_tab st') = length (p_tab st).
Proof. intros H. apply peel_entry_cases in H; tauto. Qed.

Lemma peel_pass_length n j st st' :
  peel_pass n j st = Ok st' -> length (p_tab st') = length (p_tab st).
Proof.
  revert j st; induction n as [|n IH]; intros j st H; simpl in H.
  - congruence.
  - apply obind_ok in H as (st1 & H1 & H). apply IH in H. apply peel_entry_length in H1. congruence.
Qed.

(** invariant rule for the loop *)
Lemma peel_pass_ind (I : peel -> Prop) :
  (forall j st st', I st -> peel_entry j st = Ok st' -> I st') ->
  forall n j st st', I st -> peel_pass n j st = Ok st' -> I st'.
Proof.
  intros Hs n; induction n as [|n IH]; intros j st st' Hi H; simpl in H.
  - congruence.
  - apply obind_ok in H as (st1 & H1 & H). eauto.
Qed.

Lemma peel_loop_ind (I : peel -> Prop) :
  (forall st, I st -> I (mkPeel (p_tab st) (p_pos st) (p_neg st) 0)) ->
  (forall j st st', I st -> peel_entry j st = Ok st' -> I st') ->
  forall fuel st st', I st -> peel_loop fuel st = Ok st' ->
  I st' /\ (forall i, is_pure (cell_at (p_tab st') i) = false).
Proof.
  intros Hr Hs fuel; induction fuel as [|f IH]; intros st st' Hi H; simpl in H; [discriminate|].
  apply obind_ok in H as (st1 & H1 & H).
  assert (I st1) as Hi1 by (eapply peel_pass_ind; [exact Hs| |exact H1]; auto).
  destruct (Nat.eqb_spec (p_erased st1) 0) as [E|E].
  - injection H as <-. split; auto.
    apply peel_pass_erased in H1 as (_ & Z1). simpl in Z1.
    destruct (Z1 E) as (-> & P). simpl in *. intros i.
    destruct (Nat.lt_ge_cases i (length (p_tab st))); [apply P; lia|].
    rewrite cell_at_out by assumption. reflexivity.
  - eapply IH; eauto.
Qed.

(** more fuel never changes a result *)
Lemma peel_loop_mono f f' st st' :
  f <= f' -> peel_loop f st = Ok st' -> peel_loop f' st = Ok st'.
Proof.
  revert f' st; induction f as [|f IH]; intros f' st Hle H; simpl in H; [discriminate|].
  destruct f' as [|f']; [lia|]. simpl.
  destruct (peel_pass _ _ _) as [st1| | |] eqn:E; simpl in *; try discriminate.
  destruct (Nat.eqb (p_erased st1) 0); auto. apply IH; auto. lia.
Qed.

Lemma iblt_sub_mono f f' l r d :
  f <= f' -> iblt_sub f l r = Ok d -> iblt_sub f' l r = Ok d.
Proof.
  unfold iblt_sub. intros Hle H. apply obind_ok in H as (t & E & H). rewrite E. simpl.
  apply obind_ok in H as (st & E' & H). erewrite peel_loop_mono by eauto. exact H.
Qed.

Lemma iblt_sub_fuel_irrelevant f f' l r d d' :
  iblt_sub f l r = Ok d -> iblt_sub f' l r = Ok d' -> d = d'.
Proof.
  intros H H'. apply (iblt_sub_mono _ (f + f')) in H; [|lia].
  apply (iblt_sub_mono _ (f + f')) in H'; [|lia]. congruence.
Qed.

Lemma peel_loop_ok_or_hang f f' st r :
  peel_loop f st = Ok r -> peel_loop f' st = Ok r \/ peel_loop f' st = Hang.
Proof.
  revert f' st; induction f as [|f IH]; intros f' st H; [discriminate|].
  destruct f' as [|f']; [right; reflexivity|]. cbn [peel_loop] in *.
  destruct (peel_pass _ _ _) as [st'| | |]; try discriminate. cbn [obind] in *.
  destruct (Nat.eqb (p_erased st') 0); auto.
Qed.

Lemma iblt_sub_ok_or_hang f f' l r d :
  iblt_sub f l r = Ok d -> iblt_sub f' l r = Ok d \/ iblt_sub f' l r = Hang.
Proof.
  unfold iblt_sub. intros H. apply obind_ok in H as (t & E & H). rewrite E. cbn [obind].
  apply obind_ok in H as (st & E' & H).
  destruct (peel_loop_ok_or_hang _ f' _ _ E') as [-> | ->]; auto.
Qed.

(** ** The sets are sorted *)
Lemma peel_sorted fuel st st' :
  Sorted N.lt (p_pos st) -> Sorted N.lt (p_neg st) -> peel_loop fuel st = Ok st' ->
  Sorted N.lt (p_pos st') /\ Sorted N.lt (p_neg st').
Proof.
  intros Hp Hn H.
  apply (peel_loop_ind (fun st => Sorted N.lt (p_pos st) /\ Sorted N.lt (p_neg st))) in H; auto.
  - tauto.
  - intros j s s' (Sp & Sn) E.
    apply peel_entry_cases in E as (_ & [[-> _]|(sg & k & _ & _ & _ & _ & _ & _ & [(_ & -> & ->)|(_ & -> & ->)])]);
      auto using nset_insert_sorted.
Qed.

Lemma iblt_sub_sorted fuel l r d :
  iblt_sub fuel l r = Ok d -> Sorted N.lt (positive d) /\ Sorted N.lt (negative d).
Proof.
  unfold iblt_sub. intros H. apply obind_ok in H as (t & _ & H).
  apply obind_ok in H as (st & H & E). injection E as <-. simpl.
  eapply peel_sorted; [| |exact H]; constructor.
Qed.

(** ** Traces for arbitrary tables (C10) *)
Definition trace_inv (m : nat) (t0 : table) (st : peel) : Prop :=
  exists tr, Forall (fun x => fst x = 1%Z \/ fst x = (-1)%Z) tr /\
    length (p_tab st) = m /\
    (forall j, cell_at t0 j = cadd (cell_at (p_tab st) j) (csum m tr j)) /\
    (forall k, In k (p_pos st) <-> In (1%Z, k) tr) /\
    (forall k, In k (p_neg st) <-> In ((-1)%Z, k) tr).

Lemma trace_inv_step m t0 j st st' :
  trace_inv m t0 st -> peel_entry j st = Ok st' -> trace_inv m t0 st'.
Proof.
  intros (tr & F & L & C & P & N) H.
  apply peel_entry_cases in H as (L' & [[-> _]|(s & k & Es & Ek & Hj & Hp & Hu & He & Hset)]).
  - exists tr; auto.
  - pose proof (iblt_update_ok _ _ _ _ Hu) as (_ & _ & C').
    exists ((s, k) :: tr). split; [|split; [|split; [|split]]].
    + constructor; auto. simpl. destruct Hset as [(-> & _)|(-> & _)]; auto.
    + congruence.
    + intros i. simpl. rewrite C', C, L, kcell_neg.
      rewrite <- !cadd_assoc. f_equal. rewrite cadd_assoc, cadd_neg_l, cadd_0_l. reflexivity.
    + intros x. destruct Hset as [(-> & -> & _)|(-> & -> & _)].
      * rewrite nset_insert_In, P. simpl. split; [intros [->|]; auto|intros [[= ->]|]; auto].
      * rewrite P. simpl. split; auto. intros [[=]|]; auto.
    + intros x. destruct Hset as [(-> & _ & ->)|(-> & _ & ->)].
      * rewrite N. simpl. split; auto. intros [[=]|]; auto.
      * rewrite nset_insert_In, N. simpl. split; [intros [->|]; auto|intros [[= ->]|]; auto].
Qed.

Lemma forallb_empty t : forallb is_empty t = true <-> forall j, cell_at t j = cell0.
Proof.
  rewrite forallb_forall. split.
  - intros H j. destruct (Nat.lt_ge_cases j (length t)).
    + apply is_empty_iff, H. apply nth_In. auto.
    + apply cell_at_out; auto.
  - intros H c Hin. apply is_empty_iff. destruct (In_nth _ _ cell0 Hin) as (j & Hj & <-). apply H.
Qed.

Lemma iblt_sub_faithful fuel l r d :
  iblt_sub fuel l r = Ok d -> can_decode d = true ->
  length l = length r /\
  exists tr, Forall (fun x => fst x = 1%Z \/ fst x = (-1)%Z) tr /\
    (forall k, In k (positive d) <-> In (1%Z, k) tr) /\
    (forall k, In k (negative d) <-> In ((-1)%Z, k) tr) /\
    (forall j, cell_at l j = cadd (cell_at r j) (csum (length r) tr j)).
Proof.
  unfold iblt_sub. intros H Hd. apply obind_ok in H as (t & Ht & H).
  apply obind_ok in H as (st & H & E). injection E as <-. simpl in *.
  apply table_sub_ok in Ht as (L1 & L2 & W & C). split; auto.
  apply (peel_loop_ind (trace_inv (length r) t)) in H.
  - destruct H as ((tr & F & L & Ct & P & N) & _). exists tr. repeat split; auto; try apply P; try apply N.
    intros j. rewrite forallb_empty in Hd. specialize (Ct j). rewrite Hd, cadd_0_l, C in Ct.
    rewrite <- Ct. rewrite cadd_assoc, (cadd_comm (cell_at r j)), <- cadd_assoc, cadd_neg_r, cadd_0_r.
    reflexivity.
  - intros st0 (tr & HH). exists tr. exact HH.
  - intros j s s'. apply trace_inv_step.
  - exists []. simpl. repeat split; auto; try congruence; try tauto.
    intros j. now rewrite cadd_0_r.
Qed.

(** ** Equal tables (C05) *)
Lemma peel_pass_zero n j st :
  (forall i, cell_at (p_tab st) i = cell0) -> peel_pass n j st = Ok st.
Proof.
  intros H. revert j; induction n as [|n IH]; intros j; simpl; auto.
  assert (peel_entry j st = Ok st) as ->.
  { unfold peel_entry. destruct (nth_error (p_tab st) j) eqn:E; auto.
    apply nth_error_nth with (d := cell0) in E. unfold cell_at in H. rewrite H in E. subst c. reflexivity. }
  simpl. apply IH.
Qed.

Lemma iblt_sub_same fuel t : iblt_sub (S fuel) t t = Ok (mkDiff true [] []).
Proof.
  unfold iblt_sub.
  destruct (table_sub_total t t) as [z E]; auto.
  { intros j. rewrite Z.sub_diag. reflexivity. }
  rewrite E. simpl. apply table_sub_ok in E as (_ & _ & _ & C).
  assert (forall i, cell_at z i = cell0) as Z0 by (intros; rewrite C; apply cadd_neg_r).
  rewrite peel_pass_zero by assumption. simpl.
  rewrite (proj2 (forallb_empty z)) by assumption. reflexivity.
Qed.

(** ** Antisymmetry (C11) *)
Definition psym (a b : peel) : Prop :=
  length (p_tab a) = length (p_tab b) /\
  (forall j, cell_at (p_tab b) j = cneg (cell_at (p_tab a) j)) /\
  p_pos b = p_neg a /\ p_neg b = p_pos a /\ p_erased b = p_erased a.

Lemma peel_entry_sym j a b a' :
  psym a b -> peel_entry j a = Ok a' ->
  peel_entry j b = UB UbIntOverflow \/ exists b', peel_entry j b = Ok b' /\ psym a' b'.
Proof.
  intros (L & C & P & N & E) H. unfold peel_entry in *.
  destruct (nth_error (p_tab a) j) as [e|] eqn:Ea.
  2:{ injection H as <-. right. exists b. split.
      - apply nth_error_None in Ea. rewrite (proj2 (nth_error_None (p_tab b) j)); auto. congruence.
      - repeat split; auto. }
  assert (j < length (p_tab a)) as Hj by (apply nth_error_Some; congruence).
  rewrite nth_error_cell_at in Ea by assumption. injection Ea as <-.
  rewrite nth_error_cell_at by congruence. rewrite C, is_pure_neg.
  destruct (is_pure (cell_at (p_tab a) j)) eqn:Ep.
  2:{ injection H as <-. right. exists b. split; auto. repeat split; auto. }
  apply obind_ok in H as (t & Hu & H).
  simpl c_count. simpl c_sum.
  destruct (iblt_update_outcomes (p_tab b) (- - c_count (cell_at (p_tab a) j)) (c_sum (cell_at (p_tab a) j)))
    as [[t' Hu']|Hu'].
  { apply iblt_update_ok in Hu as (Hm & _). rewrite <- L. exact Hm. }
  2:{ left. rewrite Hu'. reflexivity. }
  right. rewrite Hu'. simpl.
  pose proof (iblt_update_ok _ _ _ _ Hu) as (_ & L1 & C1).
  pose proof (iblt_update_ok _ _ _ _ Hu') as (_ & L2 & C2).
  assert (forall i, cell_at t' i = cneg (cell_at t i)) as Ct.
  { intros i. rewrite C1, C2, C, cneg_add, L, kcell_neg. reflexivity. }
  eexists. split; [reflexivity|].
  apply is_pure_iff in Ep as ([Ec|Ec] & _); rewrite Ec in *; simpl in H |- *; injection H as <-;
  repeat split; simpl; auto; congruence.
Qed.

Lemma peel_pass_sym n j a b a' :
  psym a b -> peel_pass n j a = Ok a' ->
  peel_pass n j b = UB UbIntOverflow \/ exists b', peel_pass n j b = Ok b' /\ psym a' b'.
Proof.
  revert j a b; induction n as [|n IH]; intros j a b Hs H; simpl in *.
  - injection H as <-. eauto.
  - apply obind_ok in H as (a1 & H1 & H).
    destruct (peel_entry_sym _ _ _ _ Hs H1) as [E|(b1 & E & Hs1)]; rewrite E; simpl; auto.
    eapply IH; eauto.
Qed.

Lemma peel_loop_sym fuel a b a' :
  psym a b -> peel_loop fuel a = Ok a' ->
  peel_loop fuel b = UB UbIntOverflow \/ exists b', peel_loop fuel b = Ok b' /\ psym a' b'.
Proof.
  revert a b; induction fuel as [|f IH]; intros a b Hs H; simpl in *; [discriminate|].
  apply obind_ok in H as (a1 & H1 & H).
  assert (psym (mkPeel (p_tab a) (p_pos a) (p_neg a) 0) (mkPeel (p_tab b) (p_pos b) (p_neg b) 0)) as Hs0
    by (destruct Hs as (? & ? & ? & ? & ?); repeat split; auto).
  destruct (peel_pass_sym _ _ _ _ _ Hs0 H1) as [E|(b1 & E & Hs1)].
  - destruct Hs as (L & _). rewrite <- L, E. auto.
  - destruct Hs as (L & _). rewrite <- L, E. simpl.
    destruct Hs1 as (X1 & X2 & X3 & X4 & X5). rewrite X5.
    destruct (Nat.eqb_spec (p_erased a1) 0).
    + injection H as <-. right. exists b1. split; auto. repeat split; auto.
    + eapply IH; eauto. repeat split; auto.
Qed.

Lemma is_empty_neg c : is_empty (cneg c) = is_empty c.
Proof.
  unfold is_empty. simpl. f_equal. f_equal.
  destruct (Z.eqb_spec (c_count c) 0), (Z.eqb_spec (- c_count c) 0); auto; lia.
Qed.

Lemma forallb_empty_sym t t' :
  length t = length t' -> (forall j, cell_at t' j = cneg (cell_at t j)) ->
  forallb is_empty t' = forallb is_empty t.
Proof.
  intros L C.
  destruct (forallb is_empty t) eqn:E.
  - apply forallb_empty. intros j. rewrite C. rewrite (proj1 (forallb_empty t)); auto.
  - apply not_true_iff_false in E. apply not_true_iff_false. intros E'. apply E.
    apply forallb_empty. intros j. rewrite <- (cneg_involutive (cell_at t j)), <- C.
    rewrite (proj1 (forallb_empty t')); auto.
Qed.

Lemma table_sub_outcomes l r :
  length l = length r -> (exists t, table_sub l r = Ok t) \/ table_sub l r = UB UbIntOverflow.
Proof.
  revert r; induction l as [|a l IH]; intros [|b r] H; try discriminate; simpl; eauto.
  unfold cell_sub, sub_i32. cbv zeta. destruct (in_i32 _); simpl; auto.
  destruct (IH r) as [[t E]|E]; [simpl in H; lia| |]; rewrite E; simpl; eauto.
Qed.

Lemma iblt_sub_antisym fuel l r d :
  iblt_sub fuel l r = Ok d ->
  iblt_sub fuel r l = Ok (mkDiff (can_decode d) (negative d) (positive d)) \/
  iblt_sub fuel r l = UB UbIntOverflow.
Proof.
  unfold iblt_sub. intros H. apply obind_ok in H as (t & Ht & H).
  apply obind_ok in H as (st & H & E). injection E as <-. simpl.
  apply table_sub_ok in Ht as (L1 & L2 & W & C).
  destruct (table_sub_outcomes r l) as [[t' Ht']|Ht']; [congruence| |rewrite Ht'; auto].
  rewrite Ht'. simpl. apply table_sub_ok in Ht' as (_ & L2' & _ & C').
  assert (psym (mkPeel t [] [] 0) (mkPeel t' [] [] 0)) as Hs0.
  { repeat split; simpl; auto; [congruence|].
    intros j; rewrite C, C', cneg_add, cneg_involutive, cadd_comm; auto. }
  destruct (peel_loop_sym fuel _ _ _ Hs0 H) as [E|(st' & E & (X1 & X2 & X3 & X4 & X5))]; rewrite E; simpl; auto.
  left. rewrite X3, X4. rewrite (forallb_empty_sym (p_tab st) (p_tab st')); auto.
Qed.

(** ** Depends only on the difference (C12) *)
Lemma iblt_sub_ext fuel l r l' r' :
  length l = length r -> length l' = length r' -> length l = length l' ->
  (forall j, cadd (cell_at l j) (cneg (cell_at r j)) = cadd (cell_at l' j) (cneg (cell_at r' j))) ->
  iblt_sub fuel l r = iblt_sub fuel l' r'.
Proof.
  intros H1 H2 H3 Hc. unfold iblt_sub.
  assert (table_sub l r = table_sub l' r') as ->; auto.
  destruct (table_sub_outcomes l r) as [[t E]|E]; auto.
  - pose proof (table_sub_ok _ _ _ E) as (_ & Lt & W & C).
    destruct (table_sub_total l' r') as [t' E']; auto.
    { intros j. specialize (W j). rewrite C, Hc in W. exact W. }
    pose proof (table_sub_ok _ _ _ E') as (_ & Lt' & W' & C').
    rewrite E, E'. f_equal. apply table_ext; [congruence|]. intros j _. rewrite C, C'. apply Hc.
  - destruct (table_sub_outcomes l' r') as [[t' E']|E']; auto; [|congruence].
    pose proof (table_sub_ok _ _ _ E') as (_ & Lt' & W' & C').
    destruct (table_sub_total l r) as [t'' E'']; auto; [|congruence].
    intros j. specialize (W' j). rewrite C', <- Hc in W'. exact W'.
Qed.
