(** Property theorems about the data every producer keeps (C29-C33). *)
From Coq Require Import List NArith ZArith Bool Lia Arith Permutation.
From Coq.Strings Require Import Byte.
From Verif Require Import Base BaseFacts Murmur Iblt SpecIblt Tlv TlvFacts NMap NMapFacts
  Producer SpecProducer ProducerFacts.
Import ListNotations.
Local Open Scope N_scope.

Definition gen (l : list byte) : comp := mkComp TYPE_GENERIC l.
Definition pa : name := [gen [x61]].
Definition pb : name := [gen [x62]; gen [x63]].

(** * C29 *)
Theorem C29_sequence_numbers : forall n ops k p,
  Forall cop_wf ops -> crun (core_new n) ops = Ok k -> get_seq p k = seq_after p ops.
Proof.
  intros n ops k p Hw H. rewrite (get_seq_run p ops _ _ (core_new_pfx n) Hw H). reflexivity.
Qed.
Print Assumptions C29_sequence_numbers.

Theorem C29_add_returns_new : forall n ops k p,
  Forall cop_wf ops -> crun (core_new n) ops = Ok k ->
  snd (core_add p k) = match seq_after p ops with None => true | Some _ => false end.
Proof.
  intros n ops k p Hw H. rewrite <- (C29_sequence_numbers n ops k p Hw H).
  unfold core_add, get_seq. destruct (nm_find p (k_prefixes k)); reflexivity.
Qed.
Print Assumptions C29_add_returns_new.

(** updates and publications for unknown prefixes change nothing at all *)
Theorem C29_unknown_ignored : forall n ops k p s,
  Forall cop_wf ops -> crun (core_new n) ops = Ok k -> seq_after p ops = None ->
  core_update p s k = Ok k /\ core_remove p k = Ok k /\
  forall os, core_publish p os k = Ok (k, None).
Proof.
  intros n ops k p s Hw H Hn. rewrite <- (C29_sequence_numbers n ops k p Hw H) in Hn.
  unfold get_seq in Hn. unfold core_update, core_remove, core_publish. rewrite Hn. auto.
Qed.
Print Assumptions C29_unknown_ignored.

Definition ops_example : list cop :=
  [CAdd pa; CUpdate pa 5; CAdd pb; CPublish pb None; CUpdate pa 3; CPublish pa None; CAdd pa;
   CUpdate [] 7; CRemove pb; CAdd pb; CPublish pb (Some 256)].
Example C29_example : Forall cop_wf ops_example /\
  (exists k, crun (core_new 4) ops_example = Ok k) /\
  seq_after pa ops_example = Some 6 /\ seq_after pb ops_example = Some 256 /\
  seq_after [] ops_example = None.
Proof.
  split; [repeat constructor|]. split; [eexists; vm_compute; reflexivity|].
  split; [reflexivity|split; reflexivity].
Qed.

(** * C30 *)
Theorem C30_ibf_is_current_names : forall n ops k,
  Forall cop_wf ops -> crun (core_new n) ops = Ok k -> collision_free n ops ->
  IbfOf n (map name_hash (live k)) (k_iblt k) /\
  forall h nm, bm_left h (k_bimap k) = Some nm <-> In nm (live k) /\ h = name_hash nm.
Proof.
  intros n ops k Hw H Hc. pose proof (crun_ok n ops k Hw H Hc) as Hk.
  split; [apply core_ok_ibf; exact Hk|]. intros h nm. destruct Hk as [S B R].
  rewrite (rep_lookup _ _ _ _ h nm R). unfold live. rewrite live_names_In by auto. reflexivity.
Qed.
Print Assumptions C30_ibf_is_current_names.

(** the live names are the prefixes with a non-zero sequence number, each with its number *)
Theorem C30_live_names : forall n ops k nm,
  Forall cop_wf ops -> crun (core_new n) ops = Ok k ->
  (In nm (live k) <-> exists p s, seq_after p ops = Some s /\ s <> 0 /\ nm = append_number p s).
Proof.
  intros n ops k nm Hw H. pose proof (crun_pfx _ _ _ (core_new_pfx n) Hw H) as [S B].
  unfold live. rewrite live_names_In by auto. unfold livep.
  split; intros (p & s & F & R); exists p, s.
  - rewrite <- (C29_sequence_numbers n ops k p Hw H). auto.
  - rewrite <- (C29_sequence_numbers n ops k p Hw H) in F. auto.
Qed.
Print Assumptions C30_live_names.

Lemma crun_prefix_ok k a b r : crun k (a ++ b) = Ok r -> exists k', crun k a = Ok k'.
Proof. rewrite crun_app. intros H. apply obind_ok in H as (k' & H & _). eauto. Qed.

Fixpoint check_free (k : core) (ops : list cop) : bool :=
  let l := map name_hash (live k) in
  forallb (fun i => negb (nset_mem (nth i l 0) (skipn (S i) l))) (seq 0 (length l)) &&
  match ops with
  | [] => true
  | o :: r => match cstep k o with Ok k' => check_free k' r | _ => true end
  end.
Lemma check_nodup (l : list N) :
  forallb (fun i => negb (nset_mem (nth i l 0) (skipn (S i) l))) (seq 0 (length l)) = true -> NoDup l.
Proof.
  induction l as [|x l IH]; intros H; constructor.
  - simpl in H. apply andb_prop in H as [H _]. apply negb_true_iff in H. intros Hx.
    apply nset_mem_In in Hx. congruence.
  - apply IH. cbn [length seq forallb] in H. apply andb_prop in H as [_ H].
    rewrite <- seq_shift in H. rewrite forallb_forall in H |- *. intros i Hi.
    apply (H (S i)). apply in_map. exact Hi.
Qed.
Lemma check_free_ok k ops pre post k' :
  check_free k ops = true -> ops = pre ++ post -> crun k pre = Ok k' ->
  NoDup (map name_hash (live k')).
Proof.
  revert k ops; induction pre as [|o pre IH]; intros k ops Hc -> H.
  - injection H as <-. apply check_nodup. destruct (([] ++ post)%list); cbn [check_free] in Hc;
      apply andb_prop in Hc; tauto.
  - cbn [app check_free] in Hc. apply andb_prop in Hc as [_ Hc]. cbn [crun] in H.
    apply obind_ok in H as (k1 & H1 & H). rewrite H1 in Hc. eapply IH; eauto.
Qed.

Example C30_example : collision_free 4 ops_example /\
  exists k, crun (core_new 4) ops_example = Ok k /\
    live k = [append_number pa 6; append_number pb 256].
Proof.
  split.
  - intros pre post k E H. eapply check_free_ok; [|exact E|exact H]. vm_compute. reflexivity.
  - eexists. split; [vm_compute; reflexivity|]. vm_compute; reflexivity.
Qed.

(** * C31 *)
(** two names with the same hash; both live at the same time, then both superseded *)
Definition ca : name := [gen [x0a; xba; x0b]].
Definition cb : name := [gen [x0c; x42; x02]].
Definition ops_collision : list cop :=
  [CAdd ca; CAdd cb; CPublish ca None; CPublish cb None; CPublish ca None; CPublish cb None].

Definition k_collision : core :=
  match crun (core_new 4) ops_collision with Ok k => k | _ => core_new 4 end.
Definition t_collision : table :=
  match insert_all (iblt_new 4) (map name_hash (live k_collision)) with Ok t => t | _ => iblt_new 4 end.

Theorem C31_under_collisions_refuted : exists n ops k t,
  Forall cop_wf ops /\ crun (core_new n) ops = Ok k /\
  NoDup (map name_hash (live k)) /\
  IbfOf n (map name_hash (live k)) t /\ k_iblt k <> t.
Proof.
  exists 4%nat, ops_collision, k_collision, t_collision. split; [repeat constructor|].
  split; [vm_compute; reflexivity|].
  split; [apply check_nodup; vm_compute; reflexivity|].
  split; [unfold IbfOf; vm_compute; reflexivity|].
  vm_compute. discriminate.
Qed.
Print Assumptions C31_under_collisions_refuted.

(** exactness holds as long as no two live names collide at the same time *)
Theorem C31_under_collisions_partial : forall n ops k,
  Forall cop_wf ops -> crun (core_new n) ops = Ok k -> collision_free n ops ->
  IbfOf n (map name_hash (live k)) (k_iblt k).
Proof. intros. apply (C30_ibf_is_current_names n ops); auto. Qed.
Print Assumptions C31_under_collisions_partial.

Example C31_example : name_hash (append_number ca 1) = name_hash (append_number cb 1) /\ ca <> cb.
Proof. split; [vm_compute; reflexivity|discriminate]. Qed.

(** * C32 *)
Theorem C32_replicas_agree : forall n ops1 ops2 k1 k2,
  Forall cop_wf ops1 -> Forall cop_wf ops2 ->
  crun (core_new n) ops1 = Ok k1 -> crun (core_new n) ops2 = Ok k2 ->
  collision_free n ops1 -> collision_free n ops2 ->
  (forall p, get_seq p k1 = get_seq p k2) ->
  k_iblt k1 = k_iblt k2 /\ forall h, bm_left h (k_bimap k1) = bm_left h (k_bimap k2).
Proof.
  intros n ops1 ops2 k1 k2 W1 W2 H1 H2 C1 C2 Hs.
  pose proof (crun_ok _ _ _ W1 H1 C1) as K1. pose proof (crun_ok _ _ _ W2 H2 C2) as K2.
  assert (k_prefixes k1 = k_prefixes k2) as Hp.
  { apply nm_ext; [apply K1|apply K2|]. exact Hs. }
  split.
  - pose proof (core_ok_ibf _ _ K1) as I1. pose proof (core_ok_ibf _ _ K2) as I2.
    unfold live, IbfOf in *. rewrite Hp in I1. congruence.
  - intros h. destruct K1 as [_ _ R1], K2 as [_ _ R2]. rewrite Hp in R1.
    destruct (bm_left h (k_bimap k1)) as [m|] eqn:E1.
    + symmetry. apply (rep_lookup _ _ _ _ h m R2). apply (rep_lookup _ _ _ _ h m R1). exact E1.
    + destruct (bm_left h (k_bimap k2)) as [m|] eqn:E2; auto.
      apply (rep_lookup _ _ _ _ h m R2) in E2. apply (rep_lookup _ _ _ _ h m R1) in E2. congruence.
Qed.
Print Assumptions C32_replicas_agree.

Definition ops_example2 : list cop :=
  [CAdd pb; CAdd pa; CUpdate pb 256; CUpdate pa 6; CAdd [gen [x64]]; CUpdate [gen [x64]] 3;
   CRemove [gen [x64]]].
Example C32_example : Forall cop_wf ops_example2 /\ collision_free 4 ops_example2 /\
  exists k1 k2, crun (core_new 4) ops_example = Ok k1 /\ crun (core_new 4) ops_example2 = Ok k2 /\
    forall p, get_seq p k1 = get_seq p k2.
Proof.
  split; [repeat constructor|]. split.
  - intros pre post k E H. eapply check_free_ok; [|exact E|exact H]. vm_compute. reflexivity.
  - eexists. eexists. split; [vm_compute; reflexivity|]. split; [vm_compute; reflexivity|].
    intros p. reflexivity.
Qed.

(** * C33 *)
Lemma core_update_count p s k k' : core_update p s k = Ok k' ->
  k_count k < two64 ->
  k_count k' = w64 (k_count k + match nm_find p (k_prefixes k) with Some old => s - old | None => 0 end).
Proof.
  unfold core_update. intros H Hc.
  destruct (nm_find p (k_prefixes k)) as [old|].
  2:{ injection H as <-. rewrite N.add_0_r. symmetry. apply N.mod_small. exact Hc. }
  destruct (N.leb_spec s old) as [Hle|Hlt].
  { injection H as <-. replace (s - old) with 0 by lia. rewrite N.add_0_r. symmetry.
    apply N.mod_small. exact Hc. }
  apply obind_ok in H as (k1 & H1 & H). apply obind_ok in H as (t & _ & H). injection H as <-.
  cbn [k_count]. destruct (old =? 0); [injection H1 as <-; auto|].
  apply core_forget_prefixes in H1 as [_ ->]. reflexivity.
Qed.
Lemma cstep_count k o k' : cstep k o = Ok k' -> pfx_ok (k_prefixes k) -> k_count k < two64 ->
  k_count k' = w64 (k_count k + advance (get_seq (op_prefix o) k) (get_seq (op_prefix o) k')) /\
  k_count k' < two64.
Proof.
  intros H Hp Hc. pose proof (get_seq_step (op_prefix o) k o k' Hp H) as Hg.
  assert (Hz : k_count k = w64 (k_count k + 0)).
  { rewrite N.add_0_r. symmetry. apply N.mod_small. exact Hc. }
  assert (Hlt : forall x, w64 x < two64) by (intros x; apply N.mod_lt; discriminate).
  assert (Hu : forall p s k', core_update p s k = Ok k' -> op_prefix o = p ->
     k_count k' = w64 (k_count k + advance (get_seq p k) (option_map (N.max s) (get_seq p k)))).
  { intros p s k1 H1 Ho. rewrite (core_update_count _ _ _ _ H1 Hc). unfold get_seq.
    destruct (nm_find p (k_prefixes k)) as [old|]; cbn [option_map advance]; [|reflexivity].
    replace (N.max s old - old) with (s - old) by lia. reflexivity. }
  rewrite Hg. destruct o as [p|p|p s|p s]; cbn [op_prefix cstep seq_step] in *;
    rewrite ?name_eqb_refl in *.
  - injection H as <-. unfold core_add, get_seq. destruct (nm_find p (k_prefixes k)); cbn.
    + rewrite N.sub_diag. auto.
    + auto.
  - assert (k_count k' = k_count k) as ->.
    { unfold core_remove in H. destruct (nm_find p (k_prefixes k)); [|injection H as <-; auto].
      apply core_forget_prefixes in H as [_ ->]. reflexivity. }
    unfold get_seq. destruct (nm_find p (k_prefixes k)); cbn [advance]; auto.
  - rewrite (Hu _ _ _ H eq_refl). auto.
  - rewrite core_publish_update in H. unfold get_seq in *.
    destruct (nm_find p (k_prefixes k)) as [cur|] eqn:F.
    + unfold omap in H. apply obind_ok in H as (r & H1 & H). apply obind_ok in H1 as (k1 & H1 & H2).
      injection H2 as <-. injection H as <-. cbn [fst].
      rewrite (Hu _ _ _ H1 eq_refl), F. destruct s as [v|]; cbn [publish_seq option_map]; auto.
    + injection H as <-. destruct s; cbn; auto.
Qed.
Lemma seq_after_snoc p ops o : seq_after p (ops ++ [o]) = seq_step p (seq_after p ops) o.
Proof. unfold seq_after. rewrite fold_left_app. reflexivity. Qed.

Lemma crun_count ops : forall n pre k k',
  Forall cop_wf (pre ++ ops) -> crun (core_new n) pre = Ok k -> crun k ops = Ok k' ->
  k_count k < two64 ->
  k_count k' = w64 (k_count k + total_advance pre ops) /\ k_count k' < two64.
Proof.
  induction ops as [|o ops IH]; intros n pre k k' Hw H1 H2 Hc.
  - injection H2 as <-. cbn. rewrite N.add_0_r. split; auto. symmetry. apply N.mod_small. auto.
  - cbn [crun] in H2. apply obind_ok in H2 as (k1 & Hs & H2).
    assert (Forall cop_wf pre) as Hwp by (apply Forall_app in Hw; tauto).
    assert (Forall cop_wf (pre ++ [o])) as Hwo.
    { change (o :: ops) with ([o] ++ ops) in Hw. rewrite app_assoc in Hw. apply Forall_app in Hw. tauto. }
    assert (crun (core_new n) (pre ++ [o]) = Ok k1) as H1'.
    { rewrite crun_app, H1. cbn [obind crun]. rewrite Hs. reflexivity. }
    destruct (cstep_count _ _ _ Hs (crun_pfx _ _ _ (core_new_pfx n) Hwp H1) Hc) as [E1 L1].
    destruct (IH n (pre ++ [o]) k1 k') as [E2 L2]; auto.
    { rewrite <- app_assoc. exact Hw. }
    split; auto. cbn [total_advance].
    rewrite E2, E1, (C29_sequence_numbers n pre k _ Hwp H1).
    rewrite (C29_sequence_numbers n (pre ++ [o]) k1 _ Hwo H1').
    unfold w64. rewrite N.add_mod_idemp_l by discriminate. f_equal. lia.
Qed.

Theorem C33_cumulative_count : forall n ops k,
  Forall cop_wf ops -> crun (core_new n) ops = Ok k ->
  k_count k = total_advance [] ops mod two64.
Proof.
  intros n ops k Hw H. destruct (crun_count ops n [] (core_new n) k) as [E _]; auto. reflexivity.
Qed.
Print Assumptions C33_cumulative_count.

Lemma sumN_cons x l : sumN (x :: l) = x + sumN l.
Proof. reflexivity. Qed.
Lemma sumN_set m p s : nm_sorted m ->
  sumN (map snd (nm_set p s m)) + match nm_find p m with Some v => v | None => 0 end =
  sumN (map snd m) + s.
Proof.
  induction m as [|[q v] m IH]; intros Hs; [simpl; lia|]. cbn [nm_set nm_find].
  destruct (name_cmp p q) eqn:E.
  - apply name_cmp_eq in E. subst. rewrite name_eqb_refl. simpl. lia.
  - assert (name_eqb p q = false) as ->.
    { apply name_eqb_neq. intros ->. rewrite name_cmp_refl in E. discriminate. }
    assert (nm_find p m = None) as ->.
    { apply nm_find_None. intros X. inversion Hs; subst. rewrite Forall_forall in *.
      apply name_lt_irrefl with p. eapply name_lt_trans; [exact E|]. auto. }
    simpl. lia.
  - assert (name_eqb p q = false) as ->.
    { apply name_eqb_neq. intros ->. rewrite name_cmp_refl in E. discriminate. }
    inversion Hs; subst. cbn [map snd]. rewrite !sumN_cons. specialize (IH H1). lia.
Qed.
Lemma sumN_erase m p : nm_sorted m ->
  sumN (map snd m) = sumN (map snd (nm_erase p m)) + match nm_find p m with Some v => v | None => 0 end.
Proof.
  induction m as [|[q v] m IH]; intros Hs; [reflexivity|]. cbn [nm_erase nm_find].
  inversion Hs; subst. destruct (name_eqb p q) eqn:E; cbn [map snd]; rewrite !sumN_cons.
  - lia.
  - rewrite IH by auto. lia.
Qed.

(** without removals: the sum of the current sequence numbers *)
Lemma total_advance_app a : forall pre b,
  total_advance pre (a ++ b) = total_advance pre a + total_advance (pre ++ a) b.
Proof.
  induction a as [|o a IH]; intros pre b; cbn [app total_advance].
  - rewrite app_nil_r. reflexivity.
  - rewrite IH, <- app_assoc. cbn [app]. lia.
Qed.
Lemma total_advance_sum n ops : forall k,
  Forall cop_wf ops -> no_removal ops -> crun (core_new n) ops = Ok k ->
  total_advance [] ops = sumN (map snd (k_prefixes k)).
Proof.
  induction ops as [|o ops IH] using rev_ind; intros k Hw Hr H.
  - injection H as <-. reflexivity.
  - pose proof H as H'. rewrite crun_app in H. apply obind_ok in H as (k1 & H1 & H). cbn [crun] in H.
    apply obind_ok in H as (k2 & H2 & H). injection H as <-.
    apply Forall_app in Hw as [Hw Hwo].
    rewrite total_advance_app. cbn [app total_advance].
    rewrite (IH k1); auto; [|intros p X; apply (Hr p), in_or_app; auto].
    pose proof (crun_pfx _ _ _ (core_new_pfx n) Hw H1) as [S B].
    pose proof (C29_sequence_numbers n ops k1 (op_prefix o) Hw H1) as G1.
    pose proof (C29_sequence_numbers n (ops ++ [o]) k2 (op_prefix o)) as G2.
    rewrite <- G1, <- G2 by (auto; apply Forall_app; auto). clear G1 G2.
    assert (U : forall p s k2, core_update p s k1 = Ok k2 ->
      sumN (map snd (k_prefixes k1)) + (advance (get_seq p k1) (get_seq p k2) + 0) =
      sumN (map snd (k_prefixes k2))).
    { intros p s k3 H3. rewrite (core_update_prefixes _ _ _ _ H3). unfold get_seq.
      rewrite (core_update_prefixes _ _ _ _ H3).
      pose proof (sumN_set (k_prefixes k1) p s S) as Q.
      destruct (nm_find p (k_prefixes k1)) as [old|] eqn:F; cbn [advance]; [|lia].
      destruct (N.leb_spec s old); [rewrite F; lia|]. rewrite nm_find_set_same. lia. }
    destruct o as [p|p|p s|p s]; cbn [op_prefix cstep] in *.
    + injection H2 as <-. rewrite core_add_prefixes. unfold get_seq. rewrite core_add_prefixes.
      unfold nm_emplace. destruct (nm_find p (k_prefixes k1)) eqn:F; cbn [advance].
      * rewrite F. lia.
      * pose proof (sumN_set (k_prefixes k1) p 0 S) as Q. rewrite F in Q. lia.
    + exfalso. apply (Hr p), in_or_app. right. left. reflexivity.
    + eapply U; eauto.
    + rewrite core_publish_update in H2. destruct (nm_find p (k_prefixes k1)) as [cur|] eqn:F.
      * unfold omap in H2. apply obind_ok in H2 as (r & H3 & H2). apply obind_ok in H3 as (k3 & H3 & H4).
        injection H4 as <-. injection H2 as <-. cbn [fst]. eapply U; eauto.
      * injection H2 as <-. unfold get_seq. rewrite F. cbn [advance]. lia.
Qed.
Theorem C33_count_without_removals : forall n ops k,
  Forall cop_wf ops -> no_removal ops -> crun (core_new n) ops = Ok k ->
  k_count k = sumN (map snd (k_prefixes k)) mod two64.
Proof.
  intros n ops k Hw Hr H. rewrite (C33_cumulative_count n ops k Hw H).
  rewrite (total_advance_sum n ops k Hw Hr H). reflexivity.
Qed.
Print Assumptions C33_count_without_removals.

Definition seq_or_zero (p : name) (k : core) : N :=
  match get_seq p k with Some v => v | None => 0 end.
Lemma sumN_mono m : forall m', nm_sorted m -> nm_sorted m' ->
  (forall p, match nm_find p m with Some v => v | None => 0 end <=
             match nm_find p m' with Some v => v | None => 0 end) ->
  sumN (map snd m) <= sumN (map snd m').
Proof.
  induction m as [|[p v] m IH]; intros m' S S' H; [apply N.le_0_l|].
  rewrite (sumN_erase m' p S'). cbn [map snd]. rewrite !sumN_cons.
  inversion S; subst.
  assert (sumN (map snd m) <= sumN (map snd (nm_erase p m'))).
  { apply IH; auto; [apply nm_erase_sorted; auto|]. intros q.
    rewrite nm_find_erase by auto. specialize (H q). cbn [nm_find] in H.
    destruct (name_eqb q p) eqn:E; [|exact H]. apply name_eqb_eq in E. subst q.
    assert (nm_find p m = None) as ->; [|lia]. apply nm_find_None. intros X.
    match goal with H2 : Forall _ _ |- _ => rewrite Forall_forall in H2; apply (name_lt_irrefl p); auto end. }
  specialize (H p). cbn [nm_find] in H. rewrite name_eqb_refl in H. lia.
Qed.
(** a node that knows at least as much never advertises less *)
Theorem C33_more_knowledge_more_count : forall n n' ops ops' k k',
  Forall cop_wf ops -> Forall cop_wf ops' -> no_removal ops -> no_removal ops' ->
  crun (core_new n) ops = Ok k -> crun (core_new n') ops' = Ok k' ->
  (forall p, seq_or_zero p k <= seq_or_zero p k') ->
  sumN (map snd (k_prefixes k')) < two64 ->
  k_count k <= k_count k'.
Proof.
  intros n n' ops ops' k k' W W' R R' H H' Hle Hs.
  rewrite (C33_count_without_removals n ops k W R H).
  rewrite (C33_count_without_removals n' ops' k' W' R' H').
  assert (sumN (map snd (k_prefixes k)) <= sumN (map snd (k_prefixes k'))).
  { apply sumN_mono; [apply (crun_pfx _ _ _ (core_new_pfx n) W H)
                     |apply (crun_pfx _ _ _ (core_new_pfx n') W' H')|exact Hle]. }
  rewrite !N.mod_small by lia. exact H0.
Qed.
Print Assumptions C33_more_knowledge_more_count.

Example C33_example :
  no_removal (firstn 8 ops_example) /\
  exists k, crun (core_new 4) (firstn 8 ops_example) = Ok k /\ k_count k = 7 /\
    sumN (map snd (k_prefixes k)) = 7.
Proof.
  split; [intros p H; simpl in H; intuition discriminate|]. eexists. split; [vm_compute; reflexivity|]. vm_compute; auto.
Qed.
