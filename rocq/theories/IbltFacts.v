(** Proofs about the IBLT model: cell algebra, insert/erase, wire format. *)
From Coq Require Import List NArith ZArith Bool Lia Arith Permutation.
From Verif Require Import Base BaseFacts Murmur MurmurFacts Iblt.
Import ListNotations.
Ltac Zify.zify_post_hook ::= Z.to_euclidean_division_equations.

Global Opaque hash32.
Global Arguments bucket : simpl never.

Notation Hk := (hash32 N_HASHCHECK).

(** ** Cells form a commutative group *)
Definition cadd (a b : cell) : cell :=
  mkCell (c_count a + c_count b) (N.lxor (c_sum a) (c_sum b)) (N.lxor (c_check a) (c_check b)).
Definition cneg (a : cell) : cell := mkCell (- c_count a) (c_sum a) (c_check a).

Lemma cell_ext a b :
  c_count a = c_count b -> c_sum a = c_sum b -> c_check a = c_check b -> a = b.
Proof. destruct a, b; simpl; congruence. Qed.

Lemma cadd_comm a b : cadd a b = cadd b a.
Proof. apply cell_ext; simpl; [lia|apply N.lxor_comm|apply N.lxor_comm]. Qed.
Lemma cadd_assoc a b c : cadd a (cadd b c) = cadd (cadd a b) c.
Proof. apply cell_ext; simpl; [lia|symmetry; apply N.lxor_assoc|symmetry; apply N.lxor_assoc]. Qed.
Lemma cadd_0_l a : cadd cell0 a = a.
Proof. apply cell_ext; reflexivity. Qed.
Lemma cadd_0_r a : cadd a cell0 = a.
Proof. rewrite cadd_comm. apply cadd_0_l. Qed.
Lemma cadd_neg_r a : cadd a (cneg a) = cell0.
Proof. apply cell_ext; simpl; [lia|apply N.lxor_nilpotent|apply N.lxor_nilpotent]. Qed.
Lemma cadd_neg_l a : cadd (cneg a) a = cell0.
Proof. rewrite cadd_comm. apply cadd_neg_r. Qed.
Lemma cneg_add a b : cneg (cadd a b) = cadd (cneg a) (cneg b).
Proof. apply cell_ext; simpl; [lia|reflexivity|reflexivity]. Qed.
Lemma cneg_involutive a : cneg (cneg a) = a.
Proof. apply cell_ext; simpl; [lia|reflexivity|reflexivity]. Qed.
Lemma cneg_0 : cneg cell0 = cell0.
Proof. reflexivity. Qed.
Lemma cadd_cancel_l a b c : cadd a b = cadd a c -> b = c.
Proof.
  intros H. rewrite <- (cadd_0_l b), <- (cadd_0_l c), <- (cadd_neg_l a), <- !cadd_assoc, H.
  reflexivity.
Qed.
Lemma cadd_cancel_r a b c : cadd b a = cadd c a -> b = c.
Proof. rewrite !(cadd_comm _ a). apply cadd_cancel_l. Qed.

Lemma is_empty_iff c : is_empty c = true <-> c = cell0.
Proof.
  unfold is_empty. rewrite !andb_true_iff, Z.eqb_eq, !N.eqb_eq.
  destruct c; simpl. split; [intros [[-> ->] ->]; reflexivity|intros [= -> -> ->]; auto].
Qed.

Lemma is_pure_iff c :
  is_pure c = true <->
  (c_count c = 1 \/ c_count c = -1)%Z /\ c_check c = hash32 N_HASHCHECK (c_sum c).
Proof. unfold is_pure. rewrite andb_true_iff, orb_true_iff, !Z.eqb_eq, N.eqb_eq. reflexivity. Qed.

Lemma is_pure_neg c : is_pure (cneg c) = is_pure c.
Proof.
  unfold is_pure; simpl. f_equal.
  destruct (Z.eqb_spec (c_count c) 1), (Z.eqb_spec (c_count c) (-1)),
    (Z.eqb_spec (- c_count c) 1), (Z.eqb_spec (- c_count c) (-1)); simpl; auto; lia.
Qed.

(** ** Tables seen pointwise *)
Definition cell_at (t : table) (j : nat) : cell := nth j t cell0.

Lemma table_ext (a b : table) :
  length a = length b -> (forall j, j < length a -> cell_at a j = cell_at b j) -> a = b.
Proof. intros. eapply nth_ext; eauto. Qed.

Lemma cell_at_out t j : length t <= j -> cell_at t j = cell0.
Proof. apply nth_overflow. Qed.

Lemma nth_error_cell_at t j : j < length t -> nth_error t j = Some (cell_at t j).
Proof. intros. apply nth_error_nth'. assumption. Qed.

(** the three cells of a key *)
Definition hit (m : nat) (k : N) (j : nat) : bool :=
  Nat.eqb j (bucket m 0 k) || Nat.eqb j (bucket m 1 k) || Nat.eqb j (bucket m 2 k).

(** what key [k] with sign [s] contributes to cell [j] *)
Definition kcell (m : nat) (s : Z) (k : N) (j : nat) : cell :=
  if hit m k j then mkCell s k (hash32 N_HASHCHECK k) else cell0.

Lemma bucket_lt m i k : i < 3 -> Nat.div m 3 <> 0 -> bucket m i k < m.
Proof.
  intros Hi Hm. unfold bucket, N_HASH. cbv zeta.
  set (h := hash32 (N.of_nat i) k). set (b := Nat.div m 3) in *.
  assert (3 * b <= m) by (subst b; apply Nat.mul_div_le; lia).
  assert (N.to_nat (h mod N.of_nat b) < b).
  { pose proof (N.mod_upper_bound h (N.of_nat b)). lia. }
  nia.
Qed.

Lemma bucket_range m i k :
  Nat.div m 3 <> 0 -> i * Nat.div m 3 <= bucket m i k < S i * Nat.div m 3.
Proof.
  intros Hm. unfold bucket, N_HASH. cbv zeta.
  set (h := hash32 (N.of_nat i) k). set (b := Nat.div m 3) in *.
  pose proof (N.mod_upper_bound h (N.of_nat b)). nia.
Qed.

Lemma bucket_distinct m i i' k :
  Nat.div m 3 <> 0 -> i < i' -> bucket m i k < bucket m i' k.
Proof.
  intros Hm Hi. pose proof (bucket_range m i k Hm). pose proof (bucket_range m i' k Hm). nia.
Qed.

Lemma hit_bucket m k i : i < 3 -> hit m k (bucket m i k) = true.
Proof.
  intros. unfold hit. destruct i as [|[|[|]]]; [| | |lia]; rewrite Nat.eqb_refl;
  rewrite ?orb_true_r; reflexivity.
Qed.

Lemma hit_lt m k j : Nat.div m 3 <> 0 -> hit m k j = true -> j < m.
Proof.
  intros Hm. unfold hit. rewrite !orb_true_iff, !Nat.eqb_eq.
  intros [[->| ->]| ->]; apply bucket_lt; auto.
Qed.

Lemma kcell_neg m s k j : kcell m (- s) k j = cneg (kcell m s k j).
Proof. unfold kcell. destruct (hit m k j); reflexivity. Qed.

(** ** update_at and ibltUpdate *)
Definition wf_table (t : table) : Prop := forall j, in_i32 (c_count (cell_at t j)) = true.

Lemma update_at_spec t j f :
  j < length t ->
  update_at t j f = olet c' <- f (cell_at t j); Ok (firstn j t ++ c' :: skipn (S j) t).
Proof.
  revert j; induction t as [|c t IH]; intros j Hj; simpl in Hj; [lia|].
  destruct j as [|j]; simpl.
  - unfold cell_at; simpl. destruct (f c); reflexivity.
  - rewrite IH by lia. unfold cell_at; simpl. destruct (f (nth j t cell0)); reflexivity.
Qed.

Lemma cell_at_set t j c i :
  j < length t ->
  cell_at (firstn j t ++ c :: skipn (S j) t) i = if Nat.eqb i j then c else cell_at t i.
Proof.
  intros Hj. unfold cell_at.
  destruct (Nat.eqb_spec i j) as [->|Hne].
  - rewrite app_nth2; rewrite firstn_length_le by lia; [|lia].
    rewrite Nat.sub_diag. reflexivity.
  - destruct (Nat.lt_ge_cases i j).
    + rewrite app_nth1 by (rewrite firstn_length_le; lia).
      rewrite <- (firstn_skipn j t) at 2. rewrite app_nth1; auto.
      rewrite firstn_length_le; lia.
    + rewrite app_nth2; rewrite firstn_length_le by lia; [|lia].
      destruct (i - j) as [|d] eqn:E; [lia|]. simpl.
      rewrite <- (firstn_skipn (S j) t) at 2.
      rewrite app_nth2; rewrite firstn_length_le by lia; [|lia].
      f_equal. lia.
Qed.

Lemma length_set t j (c : cell) :
  j < length t -> length (firstn j t ++ c :: skipn (S j) t) = length t.
Proof. intros. rewrite app_length, firstn_length_le by lia. cbn [length]. rewrite skipn_length. lia. Qed.

(** successful update of one cell *)
Lemma update_one_ok pm k i t t' :
  i < 3 ->
  update_one pm k i t = Ok t' ->
  Nat.div (length t) 3 <> 0 /\ length t' = length t /\
  forall j, cell_at t' j =
    if Nat.eqb j (bucket (length t) i k)
    then cadd (cell_at t j) (mkCell pm k (hash32 N_HASHCHECK k)) else cell_at t j.
Proof.
  intros Hi. unfold update_one, N_HASH.
  destruct (Nat.eqb_spec (Nat.div (length t) 3) 0) as [|Hm]; [discriminate|].
  pose proof (bucket_lt (length t) i k Hi Hm) as Hb.
  rewrite update_at_spec by assumption.
  unfold cell_update, add_i32. cbv zeta.
  destruct (in_i32 _) eqn:Er; simpl; [|discriminate].
  intros [= <-]. repeat split; auto.
  - rewrite length_set; auto.
  - intros j. rewrite cell_at_set by assumption.
    destruct (Nat.eqb_spec j (bucket (length t) i k)) as [->|]; reflexivity.
Qed.

Lemma update_one_cases pm k i t :
  i < 3 -> Nat.div (length t) 3 <> 0 ->
  in_i32 (c_count (cell_at t (bucket (length t) i k)) + pm) = true ->
  exists t', update_one pm k i t = Ok t'.
Proof.
  intros Hi Hm Hr. unfold update_one, N_HASH.
  destruct (Nat.eqb_spec (Nat.div (length t) 3) 0) as [|_]; [contradiction|].
  rewrite update_at_spec by (apply bucket_lt; assumption).
  unfold cell_update, add_i32. cbv zeta. rewrite Hr. simpl. eauto.
Qed.

Lemma update_one_overflow pm k i t :
  i < 3 -> Nat.div (length t) 3 <> 0 ->
  in_i32 (c_count (cell_at t (bucket (length t) i k)) + pm) = false ->
  update_one pm k i t = UB UbIntOverflow.
Proof.
  intros Hi Hm Hr. unfold update_one, N_HASH.
  destruct (Nat.eqb_spec (Nat.div (length t) 3) 0) as [|_]; [contradiction|].
  rewrite update_at_spec by (apply bucket_lt; assumption).
  unfold cell_update, add_i32. cbv zeta. rewrite Hr. reflexivity.
Qed.

(** successful ibltUpdate: pointwise addition of the key's contribution *)
Lemma iblt_update_ok t pm k t' :
  iblt_update t pm k = Ok t' ->
  Nat.div (length t) 3 <> 0 /\ length t' = length t /\
  forall j, cell_at t' j = cadd (cell_at t j) (kcell (length t) pm k j).
Proof.
  unfold iblt_update. intros H.
  apply obind_ok in H as (t1 & H1 & H). apply obind_ok in H as (t2 & H2 & H3).
  apply update_one_ok in H1 as (Hm & L1 & C1); [|lia].
  apply update_one_ok in H2 as (_ & L2 & C2); [|lia].
  apply update_one_ok in H3 as (_ & L3 & C3); [|lia].
  rewrite L2, L1 in C3. rewrite L1 in C2.
  split; [assumption|]. split; [congruence|]. intros j.
  rewrite C3, C2, C1. unfold kcell, hit.
  pose proof (bucket_distinct (length t) 0 1 k Hm ltac:(lia)).
  pose proof (bucket_distinct (length t) 1 2 k Hm ltac:(lia)).
  destruct (Nat.eqb_spec j (bucket (length t) 0 k));
  destruct (Nat.eqb_spec j (bucket (length t) 1 k));
  destruct (Nat.eqb_spec j (bucket (length t) 2 k)); try lia; simpl; auto;
  rewrite ?cadd_0_r; auto.
Qed.

(** ibltUpdate succeeds exactly when the three counters do not overflow *)
Lemma iblt_update_total t pm k :
  Nat.div (length t) 3 <> 0 ->
  (forall j, hit (length t) k j = true -> in_i32 (c_count (cell_at t j) + pm) = true) ->
  exists t', iblt_update t pm k = Ok t'.
Proof.
  intros Hm Hr. unfold iblt_update.
  destruct (update_one_cases pm k 0 t) as [t1 E1]; auto.
  { apply Hr, hit_bucket; lia. }
  rewrite E1. simpl. apply update_one_ok in E1 as (_ & L1 & C1); [|lia].
  pose proof (bucket_distinct (length t) 0 1 k Hm ltac:(lia)).
  pose proof (bucket_distinct (length t) 1 2 k Hm ltac:(lia)).
  destruct (update_one_cases pm k 1 t1) as [t2 E2]; auto; rewrite ?L1; auto.
  { rewrite C1. destruct (Nat.eqb_spec (bucket (length t) 1 k) (bucket (length t) 0 k)); [lia|].
    apply Hr, hit_bucket; lia. }
  rewrite E2. simpl. apply update_one_ok in E2 as (_ & L2 & C2); [|lia].
  rewrite L1 in *.
  destruct (update_one_cases pm k 2 t2) as [t3 E3]; auto; rewrite ?L2; auto.
  { rewrite C2, C1.
    destruct (Nat.eqb_spec (bucket (length t) 2 k) (bucket (length t) 1 k)); [lia|].
    destruct (Nat.eqb_spec (bucket (length t) 2 k) (bucket (length t) 0 k)); [lia|].
    apply Hr, hit_bucket; lia. }
  eauto.
Qed.

Lemma iblt_update_wf t pm k t' : wf_table t -> iblt_update t pm k = Ok t' -> wf_table t'.
Proof.
  intros Hwf H. unfold iblt_update in H.
  assert (forall i u u', i < 3 -> wf_table u -> update_one pm k i u = Ok u' -> wf_table u') as Step.
  { intros i u u' Hi Hu E.
    destruct (Nat.eq_dec (Nat.div (length u) 3) 0) as [Z0|Hm].
    - unfold update_one, N_HASH in E. rewrite Z0 in E. discriminate.
    - destruct (in_i32 (c_count (cell_at u (bucket (length u) i k)) + pm)) eqn:Er.
      + apply update_one_ok in E as (_ & _ & C); auto.
        intros j. rewrite C. destruct (Nat.eqb_spec j (bucket (length u) i k)) as [->|]; auto.
      + rewrite update_one_overflow in E; auto. discriminate. }
  apply obind_ok in H as (t1 & H1 & H). apply obind_ok in H as (t2 & H2 & H3).
  eapply (Step 2); [lia| |exact H3]. eapply (Step 1); [lia| |exact H2].
  eapply (Step 0); eauto; lia.
Qed.

Lemma iblt_update_zero t pm k :
  Nat.div (length t) 3 = 0 -> iblt_update t pm k = UB UbModZero.
Proof. intros H. unfold iblt_update, update_one, N_HASH. rewrite H. reflexivity. Qed.

(** the only undefined outcome besides the zero size is counter overflow *)
Lemma iblt_update_outcomes t pm k :
  Nat.div (length t) 3 <> 0 ->
  (exists t', iblt_update t pm k = Ok t') \/ iblt_update t pm k = UB UbIntOverflow.
Proof.
  intros Hm.
  assert (forall i u, i < 3 -> Nat.div (length u) 3 <> 0 ->
     (exists u', update_one pm k i u = Ok u' /\ length u' = length u) \/
     update_one pm k i u = UB UbIntOverflow) as Step.
  { intros i u Hi Hu.
    destruct (in_i32 (c_count (cell_at u (bucket (length u) i k)) + pm)) eqn:Er.
    - left. destruct (update_one_cases pm k i u) as [u' E]; auto.
      exists u'. split; auto. apply update_one_ok in E; tauto.
    - right. apply update_one_overflow; auto. }
  unfold iblt_update.
  destruct (Step 0 t) as [(t1 & E1 & L1)|E1]; auto; [|right; rewrite E1; reflexivity].
  rewrite E1; simpl. rewrite <- L1 in Hm.
  destruct (Step 1 t1) as [(t2 & E2 & L2)|E2]; auto; [|right; rewrite E2; reflexivity].
  rewrite E2; simpl. rewrite <- L2 in Hm.
  destruct (Step 2 t2) as [(t3 & E3 & L3)|E3]; eauto.
Qed.

(** ** Sums of signed keys *)
Notation skey := (Z * N)%type.

Fixpoint csum (m : nat) (l : list skey) (j : nat) : cell :=
  match l with
  | [] => cell0
  | (s, k) :: r => cadd (kcell m s k j) (csum m r j)
  end.

Lemma csum_app m a b j : csum m (a ++ b) j = cadd (csum m a j) (csum m b j).
Proof.
  induction a as [|[s k] a IH]; simpl; [now rewrite cadd_0_l|].
  rewrite IH. apply cadd_assoc.
Qed.

Lemma csum_perm m a b j : Permutation a b -> csum m a j = csum m b j.
Proof.
  induction 1; simpl; auto.
  - destruct x; congruence.
  - destruct x, y. rewrite !cadd_assoc, (cadd_comm (kcell _ _ _ _)). reflexivity.
  - congruence.
Qed.

Definition sneg (l : list skey) : list skey := map (fun x => (- fst x, snd x)%Z) l.

Lemma csum_neg m l j : csum m (sneg l) j = cneg (csum m l j).
Proof.
  induction l as [|[s k] l IH]; simpl; auto.
  rewrite kcell_neg, IH, cneg_add. reflexivity.
Qed.

Lemma csum_filter m l j : csum m l j = csum m (filter (fun x => hit m (snd x) j) l) j.
Proof.
  induction l as [|[s k] l IH]; simpl; auto.
  destruct (hit m k j) eqn:E; simpl.
  - rewrite IH at 1. reflexivity.
  - unfold kcell at 1. rewrite E, cadd_0_l. exact IH.
Qed.

Lemma csum_out m l j : Nat.div m 3 <> 0 -> m <= j -> csum m l j = cell0.
Proof.
  intros Hm Hj. induction l as [|[s k] l IH]; simpl; auto.
  rewrite IH. unfold kcell. destruct (hit m k j) eqn:E.
  - apply hit_lt in E; auto. lia.
  - reflexivity.
Qed.

(** ** Running insert/erase operations: apply signed updates in order *)
Fixpoint iblt_run (t : table) (l : list skey) : outcome table :=
  match l with
  | [] => Ok t
  | (s, k) :: r => olet t' <- iblt_update t s k; iblt_run t' r
  end.

Lemma iblt_run_ok t l t' :
  iblt_run t l = Ok t' ->
  length t' = length t /\ (l <> [] -> Nat.div (length t) 3 <> 0) /\
  forall j, cell_at t' j = cadd (cell_at t j) (csum (length t) l j).
Proof.
  revert t; induction l as [|[s k] l IH]; intros t H; simpl in H.
  - injection H as <-. split; [reflexivity|]. split; [congruence|]. intros. simpl. now rewrite cadd_0_r.
  - apply obind_ok in H as (t1 & H1 & H).
    apply iblt_update_ok in H1 as (Hm & L1 & C1).
    apply IH in H as (L2 & _ & C2). rewrite L1 in *.
    repeat split; auto. intros j. rewrite C2, C1. simpl. now rewrite cadd_assoc.
Qed.

Lemma iblt_run_wf t l t' : wf_table t -> iblt_run t l = Ok t' -> wf_table t'.
Proof.
  revert t; induction l as [|[s k] l IH]; intros t Hwf H; simpl in H.
  - injection H as <-. auto.
  - apply obind_ok in H as (t1 & H1 & H). eapply IH; [|exact H].
    eapply iblt_update_wf; eauto.
Qed.

(** counts move by at most the number of operations *)
Lemma csum_count_bound m l j :
  Forall (fun x => Z.abs (fst x) <= 1)%Z l ->
  (Z.abs (c_count (csum m l j)) <= Z.of_nat (length l))%Z.
Proof.
  induction 1 as [|[s k] l Hs _ IH]; [simpl; lia|]. cbn [csum length fst] in *.
  assert (Z.abs (c_count (kcell m s k j)) <= 1)%Z.
  { unfold kcell. destruct (hit m k j); simpl; lia. }
  change (c_count (cadd (kcell m s k j) (csum m l j)))
    with (c_count (kcell m s k j) + c_count (csum m l j))%Z. lia.
Qed.

Lemma iblt_run_total t l :
  Nat.div (length t) 3 <> 0 ->
  Forall (fun x => Z.abs (fst x) <= 1)%Z l ->
  (forall j, Z.abs (c_count (cell_at t j)) + Z.of_nat (length l) <= i32_max)%Z ->
  exists t', iblt_run t l = Ok t'.
Proof.
  intros Hm Hs. revert t Hm. induction Hs as [|[s k] l Hs _ IH]; intros t Hm Hb; simpl; eauto.
  cbn [fst length] in *.
  destruct (iblt_update_total t s k) as [t1 E]; auto.
  { intros j _. apply in_i32_iff. specialize (Hb j). unfold i32_min, i32_max in *. lia. }
  rewrite E. simpl. apply iblt_update_ok in E as (_ & L & C). apply IH.
  - rewrite L; auto.
  - intros j. rewrite C. simpl. specialize (Hb j).
    assert (Z.abs (c_count (kcell (length t) s k j)) <= 1)%Z.
    { unfold kcell. destruct (hit _ k j); simpl; lia. }
    lia.
Qed.

(** ** Table size *)
Lemma n_entries_mod n : Nat.modulo (n_entries n) 3 = 0.
Proof.
  unfold n_entries, N_HASH. cbv zeta.
  destruct (Nat.eqb_spec ((n + n / 2) mod 3) 0); auto.
  pose proof (Nat.mod_upper_bound (n + n / 2) 3).
  rewrite (Nat.div_mod (n + n / 2) 3) at 1 by lia.
  set (r := (n + n / 2) mod 3) in *. set (q := (n + n / 2) / 3).
  replace (3 * q + r + (3 - r)) with ((q + 1) * 3) by lia.
  apply Nat.mod_mul. lia.
Qed.

Lemma n_entries_bounds n : n + n / 2 <= n_entries n < n + n / 2 + 3.
Proof.
  unfold n_entries, N_HASH. cbv zeta.
  destruct (Nat.eqb_spec ((n + n / 2) mod 3) 0); lia.
Qed.

Lemma n_entries_zero n : n_entries n = 0 <-> n = 0.
Proof.
  split; [|intros ->; reflexivity]. intros H. pose proof (n_entries_bounds n). lia.
Qed.

Lemma n_entries_div n : n <> 0 -> Nat.div (n_entries n) 3 <> 0.
Proof.
  intros Hn H. pose proof (n_entries_mod n) as Hm.
  pose proof (Nat.div_mod (n_entries n) 3 ltac:(lia)) as E. rewrite H, Hm in E.
  apply Hn, n_entries_zero. lia.
Qed.

Lemma iblt_new_length n : length (iblt_new n) = n_entries n.
Proof. apply repeat_length. Qed.

Lemma iblt_new_cell n j : cell_at (iblt_new n) j = cell0.
Proof.
  unfold cell_at, iblt_new. destruct (Nat.lt_ge_cases j (n_entries n)).
  - apply nth_repeat.
  - apply nth_overflow. rewrite repeat_length. auto.
Qed.

Lemma iblt_new_wf n : wf_table (iblt_new n).
Proof. intros j. rewrite iblt_new_cell. reflexivity. Qed.

(** ** Wire format *)
Definition wf_cell (c : cell) : Prop :=
  in_i32 (c_count c) = true /\ (c_sum c < two32)%N /\ (c_check c < two32)%N.

Lemma cell_bytes_length c : length (cell_bytes c) = 12.
Proof. unfold cell_bytes. rewrite !app_length, !be_enc_length. reflexivity. Qed.

Lemma table_bytes_length t : length (table_bytes t) = 12 * length t.
Proof.
  induction t as [|c t IH]; auto.
  change (table_bytes (c :: t)) with (cell_bytes c ++ table_bytes t).
  rewrite app_length, cell_bytes_length, IH. cbn [length]. lia.
Qed.

Lemma list4 {A} (l : list A) : length l = 4 -> exists a b c d, l = [a; b; c; d].
Proof.
  intros H. do 4 (destruct l as [|? l]; [discriminate|]). destruct l; [|discriminate]. eauto.
Qed.

Lemma cell_load_bytes c r : wf_cell c -> cell_load (cell_bytes c ++ r) = c.
Proof.
  intros (H1 & H2 & H3). unfold cell_load, cell_bytes.
  assert (forall n, (n < two32)%N -> be_dec (be_enc 4 n) = n) as D
    by (intros; apply be_dec_enc_small; assumption).
  pose proof (D _ (i32_to_u32_lt (c_count c))) as D1.
  pose proof (D _ H2) as D2. pose proof (D _ H3) as D3. clear D.
  destruct (list4 (be_enc 4 (i32_to_u32 (c_count c)))) as (a1 & a2 & a3 & a4 & E1);
    [apply be_enc_length|].
  destruct (list4 (be_enc 4 (c_sum c))) as (b1 & b2 & b3 & b4 & E2); [apply be_enc_length|].
  destruct (list4 (be_enc 4 (c_check c))) as (d1 & d2 & d3 & d4 & E3); [apply be_enc_length|].
  rewrite E1, E2, E3 in *. cbn [app firstn skipn]. rewrite D1, D2, D3.
  rewrite i32_u32_roundtrip by assumption. destruct c; reflexivity.
Qed.

Lemma cell_load_wf bs : wf_cell (cell_load bs).
Proof.
  assert (forall l, (be_dec (firstn 4 l) < two32)%N) as B.
  { intros l. eapply N.lt_le_trans; [apply be_dec_bound|].
    pose proof (firstn_le_length 4 l).
    change two32 with (256 ^ N.of_nat 4)%N. apply N.pow_le_mono_r; lia. }
  unfold cell_load, wf_cell. cbn [c_count c_sum c_check].
  split; [apply u32_i32_range, B|]. split; apply B.
Qed.

Lemma cell_bytes_load bs : length bs = 12 -> cell_bytes (cell_load bs) = bs.
Proof.
  intros H. do 12 (destruct bs as [|? bs]; [discriminate|]). destruct bs; [|discriminate].
  unfold cell_bytes, cell_load. cbn [c_count c_sum c_check firstn skipn].
  rewrite u32_i32_roundtrip.
  - change 4 with (length [b; b0; b1; b2]) at 1. rewrite be_enc_dec.
    change 4 with (length [b3; b4; b5; b6]) at 1. rewrite be_enc_dec.
    change 4 with (length [b7; b8; b9; b10]) at 1. rewrite be_enc_dec. reflexivity.
  - change two32 with (256 ^ N.of_nat (length [b; b0; b1; b2]))%N. apply be_dec_bound.
Qed.

Lemma table_load_length n bs : length (table_load n bs) = n.
Proof. revert bs; induction n; intros; simpl; auto. Qed.

Lemma table_load_bytes t r :
  Forall wf_cell t -> table_load (length t) (table_bytes t ++ r) = t.
Proof.
  induction 1 as [|c t Hc _ IH]; [reflexivity|].
  cbn [length table_load table_bytes flat_map]. rewrite <- app_assoc.
  rewrite cell_load_bytes by assumption. f_equal.
  change ENTRY_SIZE with 12.
  rewrite skipn_app, cell_bytes_length.
  rewrite skipn_all2 by (rewrite cell_bytes_length; lia). simpl. exact IH.
Qed.

Lemma table_bytes_load n bs : length bs = 12 * n -> table_bytes (table_load n bs) = bs.
Proof.
  revert bs; induction n as [|n IH]; intros bs H.
  - destruct bs; [reflexivity|discriminate].
  - cbn [table_load]. unfold table_bytes. cbn [flat_map]. fold (table_bytes (table_load n (skipn ENTRY_SIZE bs))).
    rewrite IH by (change ENTRY_SIZE with 12; rewrite skipn_length; lia).
    rewrite <- (firstn_skipn 12 bs) at 3. change ENTRY_SIZE with 12. f_equal.
    rewrite <- (cell_bytes_load (firstn 12 bs)) by (rewrite firstn_length_le; lia).
    f_equal. unfold cell_load.
    rewrite !skipn_firstn_comm, !firstn_firstn. reflexivity.
Qed.

Lemma table_load_wf n bs : Forall wf_cell (table_load n bs).
Proof.
  revert bs; induction n; intros; simpl; constructor; auto. apply cell_load_wf.
Qed.

Lemma table_bytes_inj a b :
  Forall wf_cell a -> Forall wf_cell b -> length a = length b ->
  table_bytes a = table_bytes b -> a = b.
Proof.
  intros Ha Hb Hl H.
  rewrite <- (table_load_bytes a []), <- (table_load_bytes b []) by assumption.
  rewrite Hl, H. reflexivity.
Qed.
