(** Derived results about IBFs, in the form used by the property theorems. *)
From Coq Require Import List NArith ZArith Bool Lia Arith Permutation Sorted.
From Verif Require Import Base BaseFacts Murmur MurmurFacts Iblt IbltFacts PeelFacts SpecIblt HonestFacts.
Import ListNotations.
Ltac Zify.zify_post_hook ::= Z.to_euclidean_division_equations.

(** ** C02 *)
Definition op_skey (o : iop) : skey :=
  match o with Ins k => (1%Z, k) | Era k => ((-1)%Z, k) end.

Lemma run_ops_run t ops : run_ops t ops = iblt_run t (map op_skey ops).
Proof.
  revert t; induction ops as [|[k|k] ops IH]; intros t; simpl; auto;
  unfold iblt_insert, iblt_erase; destruct (iblt_update _ _ k); simpl; auto.
Qed.

Fixpoint snet (k : N) (l : list skey) : Z :=
  match l with
  | [] => 0
  | (s, k') :: r => (if N.eqb k k' then s else 0) + snet k r
  end%Z.

Lemma net_snet k ops : net k ops = snet k (map op_skey ops).
Proof. induction ops as [|[k'|k'] ops IH]; simpl; rewrite ?IH; reflexivity. Qed.

Lemma op_skey_signs ops : signs_ok (map op_skey ops).
Proof. apply Forall_forall. intros x H. apply in_map_iff in H as ([k|k] & <- & _); simpl; auto. Qed.

Lemma snet_app k a b : snet k (a ++ b) = (snet k a + snet k b)%Z.
Proof. induction a as [|[s k'] a IH]; simpl; lia. Qed.

Lemma snet_perm k a b : Permutation a b -> snet k a = snet k b.
Proof. induction 1; simpl; try destruct x; try destruct y; lia. Qed.

Lemma snet_neg k l : snet k (sneg l) = (- snet k l)%Z.
Proof. induction l as [|[s k'] l IH]; simpl; [lia|]. rewrite IH. destruct (N.eqb k k'); lia. Qed.

Lemma snet_opposite k s l :
  signs_ok l -> (s = 1 \/ s = -1)%Z -> (snet k l * s < 0)%Z -> In ((- s)%Z, k) l.
Proof.
  intros Hs Hsg H. induction Hs as [|[s' k'] l Hx _ IH]; simpl in *; [lia|].
  destruct (N.eqb_spec k k') as [<-|].
  - destruct (Z.eq_dec s' (- s)) as [->|]; auto. right. apply IH. lia.
  - right. apply IH. lia.
Qed.

Lemma csum_net_zero m l j :
  signs_ok l -> (forall k, snet k l = 0%Z) -> csum m l j = cell0.
Proof.
  remember (length l) as n eqn:E. revert l E.
  induction n as [n IH] using (well_founded_induction Nat.lt_wf_0).
  intros l E Hs Hn. destruct l as [|[s k] r]; [reflexivity|].
  inversion Hs as [|x r' Hx Hr]; subst x r'. simpl in Hx.
  assert (In ((- s)%Z, k) r) as Hin.
  { apply snet_opposite; auto. specialize (Hn k). simpl in Hn. rewrite N.eqb_refl in Hn. nia. }
  destruct (in_split _ _ Hin) as (r1 & r2 & Er).
  assert (Permutation r (((- s)%Z, k) :: r1 ++ r2)) as P.
  { rewrite Er. symmetry. apply Permutation_middle. }
  simpl. rewrite (csum_perm m r _ j P). simpl.
  rewrite kcell_neg, cadd_assoc, cadd_neg_r, cadd_0_l.
  apply (IH (length (r1 ++ r2))); auto.
  - subst n r. simpl. rewrite !app_length. simpl. lia.
  - unfold signs_ok in *. rewrite Er in Hr. apply Forall_app in Hr as [A B]. inversion B; subst.
    apply Forall_app; auto.
  - intros k'. specialize (Hn k'). simpl in Hn. rewrite (snet_perm k' _ _ P) in Hn. simpl in Hn.
    destruct (N.eqb k' k); lia.
Qed.

Lemma csum_net_eq m a b j :
  signs_ok a -> signs_ok b -> (forall k, snet k a = snet k b) -> csum m a j = csum m b j.
Proof.
  intros Ha Hb H.
  assert (csum m (a ++ sneg b) j = cell0) as Z0.
  { apply csum_net_zero.
    - apply Forall_app. split; auto. apply Forall_forall. intros x Hx.
      apply in_map_iff in Hx as (y & <- & Hy). unfold signs_ok in Hb. rewrite Forall_forall in Hb.
      apply Hb in Hy. simpl. lia.
    - intros k. rewrite snet_app, snet_neg, H. lia. }
  rewrite csum_app, csum_neg in Z0.
  apply (cadd_cancel_r (cneg (csum m b j))). rewrite Z0, cadd_neg_r. reflexivity.
Qed.

Lemma run_ops_net t ops1 ops2 t1 t2 :
  run_ops t ops1 = Ok t1 -> run_ops t ops2 = Ok t2 ->
  (forall k, net k ops1 = net k ops2) -> t1 = t2.
Proof.
  rewrite !run_ops_run. intros H1 H2 Hn.
  apply iblt_run_ok in H1 as (L1 & _ & C1). apply iblt_run_ok in H2 as (L2 & _ & C2).
  apply table_ext; [congruence|]. intros j _. rewrite C1, C2. f_equal.
  apply csum_net_eq; auto using op_skey_signs. intros k. rewrite <- !net_snet. apply Hn.
Qed.

Lemma run_ops_total t ops :
  3 <= length t -> (forall c, In c t -> (Z.abs (c_count c) + Z.of_nat (length ops) <= i32_max)%Z) ->
  exists t', run_ops t ops = Ok t' /\ length t' = length t.
Proof.
  intros Hl Hb. rewrite run_ops_run.
  destruct (iblt_run_total t (map op_skey ops)) as [t' E].
  - intros E. apply Nat.div_small_iff in E; lia.
  - apply Forall_forall. intros x Hx. apply in_map_iff in Hx as ([k|k] & <- & _); simpl; lia.
  - intros j. rewrite map_length.
    destruct (Nat.lt_ge_cases j (length t)) as [Hj|Hj].
    + apply Hb. apply nth_In. auto.
    + rewrite cell_at_out by auto. simpl.
      assert (exists c, In c t) as [c Hc] by (destruct t; [simpl in Hl; lia|]; eexists; left; eauto).
      specialize (Hb c Hc). lia.
  - exists t'. split; auto. apply iblt_run_ok in E. tauto.
Qed.

(** ** C06, C07 *)
Lemma Sorted_single (l : list N) k :
  Sorted N.lt l -> (forall x, In x l <-> x = k) -> l = [k].
Proof.
  intros S H. apply sorted_ext; [assumption|repeat constructor|]. intros x. simpl. rewrite H. intuition.
Qed.
Lemma Sorted_nil (l : list N) : (forall x, ~ In x l) -> l = [].
Proof. destruct l as [|x l]; auto. intros H. exfalso. apply (H x). left; auto. Qed.

Lemma peelable_one m k : peelable m [k].
Proof.
  exists [k]. split; auto. simpl. split; auto. exists (bucket m 0 k). split; [left; auto|].
  intros k' [].
Qed.

Lemma peelable_two m k1 k2 :
  Nat.div m 3 <> 0 ->
  peelable m [k1; k2] <-> cells_of m k1 <> cells_of m k2.
Proof.
  intros Hm. split.
  - intros (l & P & O) E.
    assert (exists a b, l = [a; b] /\ cells_of m a = cells_of m b) as (a & b & -> & E').
    { pose proof (Permutation_length P) as Hl. destruct l as [|a [|b [|]]]; try discriminate.
      exists a, b. split; auto.
      apply Permutation_length_2 in P as [[-> ->]|[-> ->]]; auto. }
    cbn [peel_order] in O. destruct O as [(j & Hj & Hn) _]. apply (Hn b); [left; auto|].
    rewrite <- E'. exact Hj.
  - intros Hne.
    assert (exists i, i < 3 /\ bucket m i k1 <> bucket m i k2) as (i & Hi & Hd).
    { unfold cells_of in Hne.
      destruct (Nat.eq_dec (bucket m 0 k1) (bucket m 0 k2)) as [E0|]; [|exists 0; split; auto].
      destruct (Nat.eq_dec (bucket m 1 k1) (bucket m 1 k2)) as [E1|]; [|exists 1; split; auto].
      destruct (Nat.eq_dec (bucket m 2 k1) (bucket m 2 k2)) as [E2|]; [|exists 2; split; auto].
      exfalso. apply Hne. congruence. }
    exists [k1; k2]. split; auto. simpl. split; [|split; auto].
    + exists (bucket m i k1). split.
      * apply hit_cells, hit_bucket; auto.
      * intros k' [<-|[]] Hin. apply hit_cells in Hin.
        unfold hit in Hin. rewrite !orb_true_iff, !Nat.eqb_eq in Hin.
        pose proof (bucket_range m i k1 Hm). pose proof (bucket_range m i k2 Hm).
        pose proof (bucket_range m 0 k2 Hm). pose proof (bucket_range m 1 k2 Hm).
        pose proof (bucket_range m 2 k2 Hm).
        destruct i as [|[|[|]]]; lia.
    + exists (bucket m 0 k2). split; [left; auto|]. intros k' [].
Qed.

Lemma only_in_perm_l a a' b : Permutation a a' -> Permutation (only_in a b) (only_in a' b).
Proof.
  intros P. unfold only_in. induction P; simpl; auto.
  - destruct (negb _); auto.
  - destruct (negb (nset_mem x b)), (negb (nset_mem y b)); auto. apply perm_swap.
  - etransitivity; eauto.
Qed.

Lemma only_in_same_members a b c :
  (forall x, In x b <-> In x c) -> only_in a b = only_in a c.
Proof.
  intros H. unfold only_in. apply filter_ext. intros x. f_equal.
  destruct (nset_mem x b) eqn:E1, (nset_mem x c) eqn:E2; auto.
  - apply nset_mem_In, H, nset_mem_In in E1. congruence.
  - apply nset_mem_In, H, nset_mem_In in E2. congruence.
Qed.

Lemma only_in_self_part c r :
  (forall x, In x c -> In x r) -> only_in c r = [].
Proof.
  intros H. destruct (only_in c r) as [|x l] eqn:E; auto. exfalso.
  assert (In x (only_in c r)) as Hin by (rewrite E; left; auto).
  apply only_in_In in Hin as [A B]. auto.
Qed.

Lemma only_in_app a b c : only_in (a ++ b) c = only_in a c ++ only_in b c.
Proof. unfold only_in. induction a as [|x a IH]; simpl; auto. destruct (negb _); simpl; congruence. Qed.

Lemma only_in_disjoint a b : (forall x, In x a -> ~ In x b) -> only_in a b = a.
Proof.
  intros H. unfold only_in. induction a as [|x a IH]; simpl; auto.
  destruct (nset_mem x b) eqn:E; simpl.
  - apply nset_mem_In in E. exfalso. eapply H; eauto. left; auto.
  - f_equal. apply IH. intros. apply H. right; auto.
Qed.

Lemma NoDup_app_inv {A} (a b : list A) :
  NoDup (a ++ b) -> NoDup a /\ NoDup b /\ forall x, In x a -> ~ In x b.
Proof.
  induction a as [|x a IH]; simpl; intros H.
  - repeat split; auto. constructor.
  - inversion H; subst. destruct (IH H3) as (Na & Nb & D). repeat split; auto.
    + constructor; auto. intros Hin. apply H2, in_or_app; auto.
    + intros y [<-|Hy]; auto. intros Hb. apply H2, in_or_app; auto.
Qed.

(** the signed difference of [x ++ common] and [y ++ common] *)
Lemma only_in_extra x y common a b :
  NoDup (x ++ y ++ common) -> Permutation a (x ++ common) -> Permutation b (y ++ common) ->
  NoDup a /\ NoDup b /\ Permutation (only_in a b) x /\ Permutation (only_in b a) y.
Proof.
  intros Nd Pa Pb.
  destruct (NoDup_app_inv _ _ Nd) as (Nx & Nyc & Dx).
  destruct (NoDup_app_inv _ _ Nyc) as (Ny & Nc & Dy).
  assert (Hx : forall z, In z x -> ~ In z y /\ ~ In z common).
  { intros z Hz. specialize (Dx z Hz). rewrite in_app_iff in Dx. tauto. }
  assert (NoDup (x ++ common)) as Nxc.
  { clear - Nx Nc Hx. induction x as [|z x IH]; simpl; auto. inversion Nx; subst.
    constructor; [|apply IH; auto; intros; apply Hx; right; auto].
    rewrite in_app_iff. intros [|]; [contradiction|]. destruct (Hx z) as [_ D]; [left; auto|auto]. }
  split; [eapply Permutation_NoDup; [symmetry; exact Pa|auto]|].
  split; [eapply Permutation_NoDup; [symmetry; exact Pb|auto]|].
  assert (Ma : forall z, In z a <-> In z (x ++ common)) by
    (intros z; split; apply Permutation_in; auto using Permutation_sym).
  assert (Mb : forall z, In z b <-> In z (y ++ common)) by
    (intros z; split; apply Permutation_in; auto using Permutation_sym).
  split.
  - rewrite (only_in_perm_l _ _ b Pa), (only_in_same_members _ _ _ Mb), only_in_app.
    rewrite (only_in_self_part common), app_nil_r by (intros; apply in_or_app; auto).
    rewrite only_in_disjoint; auto.
  - rewrite (only_in_perm_l _ _ a Pb), (only_in_same_members _ _ _ Ma), only_in_app.
    rewrite (only_in_self_part common), app_nil_r by (intros; apply in_or_app; auto).
    rewrite only_in_disjoint; auto. intros z Hz. rewrite in_app_iff. intros [Hzx|Hzc].
    + apply Hx in Hzx. tauto.
    + eapply Dy; eauto.
Qed.

Lemma small_diff x y common a b n ta tb fuel :
  length x + length y <= 2 -> 3 <= fuel ->
  NoDup (x ++ y ++ common) -> Permutation a (x ++ common) -> Permutation b (y ++ common) ->
  IbfOf n a ta -> IbfOf n b tb ->
  exists d, iblt_sub fuel ta tb = Ok d /\
    (can_decode d = true <-> peelable (n_entries n) (x ++ y)) /\
    (can_decode d = true ->
       (forall k, In k (positive d) <-> In k x) /\ (forall k, In k (negative d) <-> In k y)).
Proof.
  intros Hl Hf Nd Pa Pb Ha Hb.
  destruct (only_in_extra x y common a b Nd Pa Pb) as (Na & Nb & Px & Py).
  assert (length (signed_diff a b) = length x + length y) as Ll.
  { unfold signed_diff. rewrite app_length, !map_length, (Permutation_length Px), (Permutation_length Py).
    reflexivity. }
  destruct (iblt_sub_honest n a b ta tb fuel) as (d & E & _ & _ & D & X); auto.
  - apply no_coincidence_small; auto using signed_diff_keys, signed_diff_signs. lia.
  - lia.
  - exists d. split; auto.
    assert (Permutation (only_in a b ++ only_in b a) (x ++ y)) as Pxy by (apply Permutation_app; auto).
    split.
    + rewrite D. unfold peelable. split; intros (l & P & O); exists l; split; auto.
      * rewrite <- Pxy. auto.
      * rewrite Pxy. auto.
    + intros He. destruct (X He) as [X1 X2]. split; intros k.
      * rewrite X1, <- only_in_In. split; apply Permutation_in; auto using Permutation_sym.
      * rewrite X2, <- only_in_In. split; apply Permutation_in; auto using Permutation_sym.
Qed.

(** ** C13: a received table on which the loop never ends *)
Definition lonely (m : nat) (k : N) : table :=
  map (fun j => if Nat.eqb j (bucket m 0 k) then mkCell 1 k (hash32 N_HASHCHECK k) else cell0) (seq 0 m).

Lemma lonely_length m k : length (lonely m k) = m.
Proof. unfold lonely. rewrite map_length, seq_length. reflexivity. Qed.

Lemma lonely_cell m k j :
  Nat.div m 3 <> 0 ->
  cell_at (lonely m k) j =
  if Nat.eqb j (bucket m 0 k) then mkCell 1 k (hash32 N_HASHCHECK k) else cell0.
Proof.
  intros Hm. destruct (Nat.lt_ge_cases j m) as [Hj|Hj].
  - unfold cell_at, lonely.
    set (f := fun j => if Nat.eqb j (bucket m 0 k) then mkCell 1 k (Hk k) else cell0).
    rewrite nth_indep with (d' := f 0) by (rewrite map_length, seq_length; auto).
    rewrite map_nth, seq_nth by auto. reflexivity.
  - rewrite cell_at_out by (rewrite lonely_length; auto).
    destruct (Nat.eqb_spec j (bucket m 0 k)); auto.
    pose proof (bucket_lt m 0 k ltac:(lia) Hm). lia.
Qed.

Lemma peel_pass_split a b j st :
  peel_pass (a + b) j st = olet st' <- peel_pass a j st; peel_pass b (j + a) st'.
Proof.
  revert j st; induction a as [|a IH]; intros j st; simpl.
  - rewrite Nat.add_0_r. reflexivity.
  - destruct (peel_entry j st); simpl; auto. rewrite IH. replace (S j + a) with (j + S a) by lia. reflexivity.
Qed.

Lemma peel_pass_skip n j st :
  (forall i, j <= i < j + n -> is_pure (cell_at (p_tab st) i) = false) ->
  peel_pass n j st = Ok st.
Proof.
  revert j; induction n as [|n IH]; intros j H; simpl; auto.
  assert (peel_entry j st = Ok st) as ->.
  { unfold peel_entry. destruct (nth_error (p_tab st) j) eqn:E; auto.
    apply nth_error_nth with (d := cell0) in E. unfold cell_at in H.
    rewrite <- E, H by lia. reflexivity. }
  simpl. apply IH. intros i Hi. apply H. lia.
Qed.

Lemma cell0_not_pure : is_pure cell0 = false.
Proof. reflexivity. Qed.

Lemma lonely_pass m k pos neg :
  Nat.div m 3 <> 0 ->
  exists pos' neg',
  peel_pass m 0 (mkPeel (lonely m k) pos neg 0) = Ok (mkPeel (lonely m k) pos' neg' 2).
Proof.
  intros Hm. set (t := lonely m k).
  pose proof (bucket_lt m 1 k ltac:(lia) Hm) as Hb1.
  pose proof (bucket_distinct m 0 1 k Hm ltac:(lia)) as H01.
  pose proof (bucket_distinct m 1 2 k Hm ltac:(lia)) as H12.
  set (b0 := bucket m 0 k) in *. set (b1 := bucket m 1 k) in *. set (b2 := bucket m 2 k) in *.
  assert (Lt : length t = m) by apply lonely_length.
  assert (Ct : forall j, cell_at t j = if Nat.eqb j b0 then mkCell 1 k (Hk k) else cell0)
    by (intros; apply lonely_cell; auto).
  assert (Kc : forall s j, kcell m s k j =
     if Nat.eqb j b0 || Nat.eqb j b1 || Nat.eqb j b2 then mkCell s k (Hk k) else cell0) by reflexivity.
  destruct (iblt_update_total t (-1) k) as [t1 U1].
  { rewrite Lt; auto. }
  { intros j _. rewrite Ct. destruct (Nat.eqb j b0); reflexivity. }
  pose proof (iblt_update_ok _ _ _ _ U1) as (_ & L1 & C1). rewrite Lt in *.
  assert (C1' : forall j, cell_at t1 j =
     if Nat.eqb j b1 || Nat.eqb j b2 then mkCell (-1) k (Hk k) else cell0).
  { intros j. rewrite C1, Ct, Kc.
    destruct (Nat.eqb_spec j b0), (Nat.eqb_spec j b1), (Nat.eqb_spec j b2); try lia;
    apply cell_ext; simpl; auto using N.lxor_nilpotent. }
  destruct (iblt_update_total t1 1 k) as [t2 U2].
  { rewrite L1; auto. }
  { intros j _. rewrite C1'. destruct (_ || _); reflexivity. }
  pose proof (iblt_update_ok _ _ _ _ U2) as (_ & L2 & C2). rewrite L1 in *.
  assert (t2 = t) as ->.
  { apply table_ext; [congruence|]. intros j _. rewrite C2, C1', Ct, Kc.
    destruct (Nat.eqb_spec j b0), (Nat.eqb_spec j b1), (Nat.eqb_spec j b2); try lia;
    apply cell_ext; simpl; auto using N.lxor_nilpotent. }
  assert (Pure1 : is_pure (mkCell 1 k (Hk k)) = true) by (apply is_pure_iff; simpl; auto).
  assert (Pure2 : is_pure (mkCell (-1) k (Hk k)) = true) by (apply is_pure_iff; simpl; auto).
  exists (nset_insert k pos), (nset_insert k neg).
  replace m with (b0 + (1 + ((b1 - S b0) + (1 + (m - S b1))))) at 1 by lia.
  rewrite peel_pass_split, peel_pass_skip; cbn [obind].
  2:{ intros i Hi. cbn [p_tab]. rewrite Ct. destruct (Nat.eqb_spec i b0); [lia|reflexivity]. }
  rewrite peel_pass_split. cbn [peel_pass]. unfold peel_entry at 1. cbn [p_tab].
  rewrite nth_error_cell_at by (rewrite Lt; lia). cbn [Nat.add]. rewrite Ct, Nat.eqb_refl, Pure1.
  cbn [c_count c_sum]. cbn [Z.opp]. rewrite U1. cbn.
  rewrite peel_pass_split, peel_pass_skip; cbn [obind].
  2:{ intros i Hi. cbn [p_tab]. rewrite C1'.
      destruct (Nat.eqb_spec i b1), (Nat.eqb_spec i b2); try lia; reflexivity. }
  change (S (m - S b1)) with (1 + (m - S b1)).
  rewrite peel_pass_split. cbn [peel_pass]. unfold peel_entry at 1. cbn [p_tab].
  replace (b0 + 1 + (b1 - S b0)) with b1 by lia.
  rewrite nth_error_cell_at by (rewrite L1; lia). rewrite C1', Nat.eqb_refl. cbn [orb]. rewrite Pure2.
  cbn [c_count c_sum]. cbn [Z.opp]. rewrite U2. cbn.
  rewrite peel_pass_skip; [reflexivity|].
  intros i Hi. cbn [p_tab]. rewrite Ct. destruct (Nat.eqb_spec i b0); [lia|reflexivity].
Qed.

Lemma lonely_hangs m k fuel st :
  Nat.div m 3 <> 0 -> p_tab st = lonely m k -> peel_loop fuel st = Hang.
Proof.
  intros Hm. revert st. induction fuel as [|f IH]; intros st Hst; [reflexivity|].
  simpl. rewrite Hst, lonely_length.
  destruct (lonely_pass m k (p_pos st) (p_neg st) Hm) as (pos' & neg' & E). rewrite E. simpl.
  apply IH. reflexivity.
Qed.

(** the received table that makes subtraction from [own] loop *)
Definition attack (own : table) (k : N) : table :=
  map (fun j => cadd (cell_at own j) (cneg (cell_at (lonely (length own) k) j))) (seq 0 (length own)).

Lemma attack_length own k : length (attack own k) = length own.
Proof. unfold attack. rewrite map_length, seq_length. reflexivity. Qed.

Lemma attack_cell own k j :
  Nat.div (length own) 3 <> 0 ->
  cell_at (attack own k) j = cadd (cell_at own j) (cneg (cell_at (lonely (length own) k) j)).
Proof.
  intros Hm. destruct (Nat.lt_ge_cases j (length own)) as [Hj|Hj].
  - unfold attack.
    set (f := fun j => cadd (cell_at own j) (cneg (cell_at (lonely (length own) k) j))).
    unfold cell_at at 1. rewrite nth_indep with (d' := f 0) by (rewrite map_length, seq_length; auto).
    rewrite map_nth, seq_nth by auto. reflexivity.
  - rewrite !cell_at_out; auto; rewrite ?attack_length, ?lonely_length; auto.
Qed.

Lemma attack_hangs own k fuel :
  3 <= length own -> iblt_sub fuel own (attack own k) = Hang.
Proof.
  intros Hl. assert (Hm : Nat.div (length own) 3 <> 0) by (intros E; apply Nat.div_small_iff in E; lia).
  unfold iblt_sub.
  assert (forall j, cadd (cell_at own j) (cneg (cell_at (attack own k) j)) =
    cell_at (lonely (length own) k) j) as D.
  { intros j. rewrite attack_cell, cneg_add, cneg_involutive by auto.
    rewrite cadd_assoc, cadd_neg_r, cadd_0_l. reflexivity. }
  destruct (table_sub_total own (attack own k)) as [t E].
  { rewrite attack_length; auto. }
  { intros j. specialize (D j). apply (f_equal c_count) in D. simpl in D.
    rewrite lonely_cell in D by auto.
    replace (c_count (cell_at own j) - c_count (cell_at (attack own k) j))%Z with
      (c_count (cell_at own j) + - c_count (cell_at (attack own k) j))%Z by lia.
    rewrite D. destruct (Nat.eqb j _); reflexivity. }
  rewrite E. simpl. apply table_sub_ok in E as (_ & L & _ & C).
  rewrite (lonely_hangs (length own) k); auto. simpl.
  apply table_ext; [rewrite lonely_length; auto|]. intros j _. rewrite C. apply D.
Qed.

Lemma attack_wf own k :
  (k < two32)%N -> Forall wf_cell own -> (forall c, In c own -> (i32_min < c_count c)%Z) ->
  Forall wf_cell (attack own k).
Proof.
  intros Hk Hwf Hpos. apply Forall_forall. intros c Hc. unfold attack in Hc.
  apply in_map_iff in Hc as (j & <- & Hj). apply in_seq in Hj.
  assert (In (cell_at own j) own) as Hin by (apply nth_In; lia).
  rewrite Forall_forall in Hwf. destruct (Hwf _ Hin) as (W1 & W2 & W3).
  specialize (Hpos _ Hin).
  assert (wf_cell (cell_at (lonely (length own) k) j) /\
          (0 <= c_count (cell_at (lonely (length own) k) j) <= 1)%Z) as ((V1 & V2 & V3) & V4).
  { destruct (Nat.lt_ge_cases j (length (lonely (length own) k))) as [Hl|Hl].
    - assert (In (cell_at (lonely (length own) k) j) (lonely (length own) k)) as Hi by (apply nth_In; auto).
      unfold lonely in Hi at 2. apply in_map_iff in Hi as (i & <- & _).
      destruct (Nat.eqb i _); (split; [|simpl; lia]).
      + repeat split; simpl; auto. apply hash32_lt. reflexivity.
      + repeat split; simpl; reflexivity.
    - rewrite cell_at_out by auto. split; [repeat split; reflexivity|simpl; lia]. }
  apply in_i32_iff in W1.
  split; [|split]; simpl.
  - apply in_i32_iff. unfold i32_min, i32_max in *. lia.
  - apply xor32_lt; auto.
  - apply xor32_lt; auto.
Qed.

(** ** C14 *)
Definition extreme (own : table) : table := mkCell i32_min 0 0 :: tl own.

Lemma extreme_overflows own c r fuel :
  own = c :: r -> (0 <= c_count c)%Z -> iblt_sub fuel own (extreme own) = UB UbIntOverflow.
Proof.
  intros -> Hc. unfold iblt_sub. rewrite (table_sub_overflow _ _ 0); auto.
  - simpl. lia.
  - unfold cell_at. simpl. apply not_true_iff_false. rewrite in_i32_iff.
    unfold i32_min, i32_max. lia.
Qed.

Lemma IbfOf_nonneg n ks t : IbfOf n ks t -> forall c, In c t -> (0 <= c_count c)%Z.
Proof.
  intros H c Hc. apply IbfOf_cells in H as (_ & _ & _ & C).
  destruct (In_nth _ _ cell0 Hc) as (j & Hj & <-).
  change (nth j t cell0) with (cell_at t j). rewrite C, csum_count, filter_pos1, sum_sign_pos. lia.
Qed.

Lemma IbfOf_wf_cells n ks t : keys32 ks -> IbfOf n ks t -> Forall wf_cell t.
Proof.
  intros Hk H. apply IbfOf_cells in H as (_ & _ & W & C).
  apply Forall_forall. intros c Hc. destruct (In_nth _ _ cell0 Hc) as (j & Hj & <-).
  change (nth j t cell0) with (cell_at t j). split; [apply W|]. rewrite C.
  clear - Hk. induction Hk as [|k ks H _ IH]; simpl; [split; reflexivity|].
  destruct IH as [I1 I2].
  assert (((c_sum (kcell (n_entries n) 1 k j)) < two32)%N /\ ((c_check (kcell (n_entries n) 1 k j)) < two32)%N) as [A B].
  { unfold kcell. destruct (hit _ k j); simpl; split; auto; try reflexivity. apply hash32_lt. reflexivity. }
  split; apply xor32_lt; auto.
Qed.
