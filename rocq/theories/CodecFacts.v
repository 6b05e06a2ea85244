From Coq Require Import List NArith ZArith Bool Lia Arith.
From Verif Require Import Base BaseFacts Murmur MurmurFacts Iblt IbltFacts PeelFacts SpecIblt HonestFacts IbltProps Tlv Codec.
Import ListNotations.

Lemma lossless_none : lossless codec_none.
Proof. intros s b H. discriminate. Qed.
Lemma lossless_id : lossless codec_id.
Proof. intros s b H. reflexivity. Qed.

Lemma decompress_compress C s b c :
  lossless C -> compress C s b = Ok c -> decompress C s c = Ok b.
Proof.
  intros HC. unfold compress, decompress. destruct s; try congruence;
  destruct (supported C _) eqn:E; try discriminate; intros [= <-]; rewrite HC; auto.
Qed.

Lemma compress_outcomes C s b :
  (exists c, compress C s b = Ok c) \/ compress C s b = Throw ExCompression.
Proof. unfold compress. destruct s; eauto; destruct (supported C _); eauto. Qed.

Lemma decompress_outcomes C s b :
  (exists c, decompress C s b = Ok c) \/ decompress C s b = Throw ExStream \/
  decompress C s b = Throw ExCompression.
Proof.
  unfold decompress. destruct s; eauto; destruct (supported C _); eauto;
  destruct (lib_decompress C _ b); eauto.
Qed.

Lemma append_ibf_snoc C s n t n' :
  append_ibf C s n t = Ok n' ->
  exists b, compress C s (table_bytes t) = Ok b /\ n' = n ++ [mkComp TYPE_GENERIC b].
Proof.
  unfold append_ibf. intros H. apply obind_ok in H as (b & E & H). injection H as <-. eauto.
Qed.

Lemma initialize_append C s n t n' t' :
  lossless C -> Forall wf_cell t -> length t' = length t -> append_ibf C s n t = Ok n' ->
  exists c, n' = n ++ [c] /\ initialize C s t' c = (t, Ok tt).
Proof.
  intros HC Hw Hl H. apply append_ibf_snoc in H as (b & E & ->). eexists. split; [reflexivity|].
  unfold initialize. simpl cval. rewrite (decompress_compress _ _ _ _ HC E).
  rewrite table_bytes_length, Hl. change ENTRY_SIZE with 12. rewrite Nat.eqb_refl.
  rewrite <- (app_nil_r (table_bytes t)), table_load_bytes by assumption. reflexivity.
Qed.

Lemma append_ibf_inj C s n a b n' :
  lossless C -> Forall wf_cell a -> Forall wf_cell b -> length a = length b ->
  append_ibf C s n a = Ok n' -> append_ibf C s n b = Ok n' -> a = b.
Proof.
  intros HC Ha Hb Hl H1 H2.
  destruct (initialize_append C s n a n' a HC Ha eq_refl H1) as (c & -> & E1).
  destruct (initialize_append C s n b (n ++ [c]) a HC Hb Hl H2) as (c' & E & E2).
  apply app_inj_tail in E as [_ <-]. congruence.
Qed.

Lemma initialize_ok C s t c t' :
  initialize C s t c = (t', Ok tt) ->
  length t' = length t /\ Forall wf_cell t' /\ decompress C s (cval c) = Ok (table_bytes t').
Proof.
  unfold initialize. destruct (decompress C s (cval c)) as [b| | |] eqn:E; try discriminate.
  destruct (Nat.eqb_spec (length b) (ENTRY_SIZE * length t)) as [El|]; [|discriminate].
  intros [= <-]. rewrite table_load_length. repeat split; auto using table_load_wf.
  rewrite table_bytes_load; auto.
Qed.

Lemma initialize_length C s t c : length (fst (initialize C s t c)) = length t.
Proof.
  unfold initialize. destruct (decompress C s (cval c)); auto.
  destruct (Nat.eqb _ _); simpl; auto using table_load_length.
Qed.

(** every reachable IBF has cells that fit their 32-bit fields *)
Definition op_key (o : iop) : N := match o with Ins k | Era k => k end.

Lemma kcell_bound m s k j :
  (k < two32)%N -> (c_sum (kcell m s k j) < two32)%N /\ (c_check (kcell m s k j) < two32)%N.
Proof.
  intros H. unfold kcell. destruct (hit m k j); simpl; [|split; reflexivity].
  split; [auto|apply hash32_lt; reflexivity].
Qed.

Lemma run_ops_cells_wf t ops t' :
  Forall wf_cell t -> keys32 (map op_key ops) -> run_ops t ops = Ok t' -> Forall wf_cell t'.
Proof.
  intros Hw Hk. rewrite run_ops_run. intros H.
  assert (wf_table t) as Wt.
  { intros j. destruct (Nat.lt_ge_cases j (length t)).
    - rewrite Forall_forall in Hw. apply Hw. apply nth_In. auto.
    - rewrite cell_at_out by auto. reflexivity. }
  pose proof (iblt_run_wf _ _ _ Wt H) as W. apply iblt_run_ok in H as (L & _ & C).
  apply Forall_forall. intros c Hc. destruct (In_nth _ _ cell0 Hc) as (j & Hj & <-).
  change (nth j t' cell0) with (cell_at t' j). split; [apply W|]. rewrite C.
  assert (wf_cell (cell_at t j)) as (_ & A & B).
  { destruct (Nat.lt_ge_cases j (length t)).
    - rewrite Forall_forall in Hw. apply Hw. apply nth_In. auto.
    - rewrite cell_at_out by auto. repeat split. }
  assert (forall l, keys32 (map snd l) ->
    (c_sum (csum (length t) l j) < two32)%N /\ (c_check (csum (length t) l j) < two32)%N) as Hs.
  { induction l as [|[s k] l IH]; intros Hl; simpl; [split; reflexivity|].
    inversion Hl; subst. destruct (IH H2). destruct (kcell_bound (length t) s k j H1).
    split; apply xor32_lt; auto. }
  destruct (Hs (map op_skey ops)) as [A' B'].
  { rewrite map_map. unfold keys32 in *. erewrite map_ext; [exact Hk|]. intros []; reflexivity. }
  split; apply xor32_lt; auto.
Qed.

Lemma iblt_new_cells_wf n : Forall wf_cell (iblt_new n).
Proof.
  apply Forall_forall. intros c H. apply repeat_spec in H. subst. repeat split.
Qed.

Lemma insert_all_ops t ks : insert_all t ks = run_ops t (map Ins ks).
Proof.
  revert t; induction ks as [|k ks IH]; intros t; simpl; auto.
  destruct (iblt_insert t k); simpl; auto.
Qed.

Lemma IbfOf_exists n ks :
  n <> 0 -> (Z.of_nat (length ks) <= i32_max)%Z -> exists t, IbfOf n ks t.
Proof.
  intros Hn Hl. unfold IbfOf. rewrite insert_all_ops.
  pose proof (n_entries_div n Hn) as Hd.
  destruct (run_ops_total (iblt_new n) (map Ins ks)) as (t & E & _); eauto.
  - rewrite iblt_new_length. destruct (Nat.lt_ge_cases (n_entries n) 3); auto.
    exfalso. apply Hd. apply Nat.div_small. auto.
  - intros c Hc. apply repeat_spec in Hc. subst. rewrite map_length. simpl. auto.
Qed.
