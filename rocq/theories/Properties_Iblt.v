(** Property theorems about IBFs (C01-C15) and the compression switch (C66).
    The statements use the model of the code (Iblt, Murmur, Codec) and the vocabulary of
    SpecIblt; the proofs are in IbltProps, PeelFacts, HonestFacts and CodecFacts. *)
From Coq Require Import List NArith ZArith Bool Lia Arith Permutation Sorted.
From Verif Require Import Base BaseFacts Murmur MurmurFacts Iblt IbltFacts PeelFacts SpecIblt
  HonestFacts IbltProps Tlv Codec CodecFacts.
Import ListNotations.

(** * C01 *)
Theorem C01_table_size_law : forall n,
  Nat.modulo (length (iblt_new n)) 3 = 0 /\
  n + n / 2 <= length (iblt_new n) < n + n / 2 + 3 /\
  (iblt_new n = [] <-> n = 0) /\
  (forall c, In c (iblt_new n) -> c = mkCell 0 0 0) /\
  (n = 0 -> forall k, iblt_insert (iblt_new n) k = UB UbModZero) /\
  (n <> 0 -> forall k, exists t, iblt_insert (iblt_new n) k = Ok t /\
                                 length t = length (iblt_new n)).
Proof.
  intros n. rewrite iblt_new_length. repeat split.
  - apply n_entries_mod.
  - apply n_entries_bounds.
  - apply n_entries_bounds.
  - intros H. apply n_entries_zero. rewrite <- iblt_new_length, H. reflexivity.
  - intros ->. reflexivity.
  - intros c H. apply repeat_spec in H. exact H.
  - intros -> k. reflexivity.
  - intros Hn k. destruct (IbfOf_exists n [k] Hn) as [t E]; [simpl; unfold i32_max; lia|].
    exists t. unfold IbfOf in E. simpl in E. apply obind_ok in E as (t' & E & E').
    injection E' as <-. split; auto. apply iblt_update_ok in E as (_ & L & _).
    rewrite L. apply iblt_new_length.
Qed.
Print Assumptions C01_table_size_law.

(** the size the examples of the repository use: 80 expected entries give 120 cells *)
Example C01_example : length (iblt_new 80) = 120 /\ length (iblt_new 10) = 15 /\ length (iblt_new 1) = 3.
Proof. repeat split; vm_compute; reflexivity. Qed.

(** * C02 *)
Theorem C02_insert_erase_group : forall t ops1 ops2 t1 t2,
  run_ops t ops1 = Ok t1 -> run_ops t ops2 = Ok t2 ->
  (forall k, net k ops1 = net k ops2) -> t1 = t2.
Proof. exact run_ops_net. Qed.
Print Assumptions C02_insert_erase_group.

Theorem C02_insert_erase_total : forall t ops,
  3 <= length t ->
  (forall c, In c t -> (Z.abs (c_count c) + Z.of_nat (length ops) <= i32_max)%Z) ->
  exists t', run_ops t ops = Ok t' /\ length t' = length t.
Proof. exact run_ops_total. Qed.
Print Assumptions C02_insert_erase_total.

Theorem C02_insert_then_erase : forall t k pre mid post u v,
  run_ops t (pre ++ Ins k :: mid ++ Era k :: post) = Ok u ->
  run_ops t (pre ++ mid ++ post) = Ok v -> u = v.
Proof.
  intros t k pre mid post u v H1 H2. eapply run_ops_net; eauto. intros k'.
  assert (forall a b, net k' (a ++ b) = (net k' a + net k' b)%Z) as Happ.
  { induction a as [|[x|x] a IH]; intros b; cbn [app net]; rewrite ?IH; lia. }
  rewrite !Happ. cbn [net]. rewrite !Happ. cbn [net]. destruct (N.eqb k' k); lia.
Qed.
Print Assumptions C02_insert_then_erase.

Example C02_example :
  exists t, run_ops (iblt_new 4) [Ins 7; Ins 9; Era 7; Ins 7; Era 9] = Ok t /\
            run_ops (iblt_new 4) [Era 9; Ins 9; Ins 7] = Ok t /\ t <> iblt_new 4.
Proof. eexists. split; [vm_compute; reflexivity|]. split; [vm_compute; reflexivity|discriminate]. Qed.

(** * C03 *)
Theorem C03_wire_roundtrip : forall C s n t n' t',
  lossless C ->
  Forall wf_cell t ->                       (* counts fit int32_t, sums and checks uint32_t *)
  length t' = length t ->                   (* receiver configured with the same size *)
  append_ibf C s n t = Ok n' ->
  exists c, n' = n ++ [c] /\ initialize C s t' c = (t, Ok tt).
Proof. exact initialize_append. Qed.
Print Assumptions C03_wire_roundtrip.

Theorem C03_wire_injective : forall C s n a b n',
  lossless C -> Forall wf_cell a -> Forall wf_cell b -> length a = length b ->
  append_ibf C s n a = Ok n' -> append_ibf C s n b = Ok n' -> a = b.
Proof. exact append_ibf_inj. Qed.
Print Assumptions C03_wire_injective.

(** every IBF reachable through the interface has such cells *)
Theorem C03_reachable_cells : forall n ops t,
  keys32 (map op_key ops) -> run_ops (iblt_new n) ops = Ok t -> Forall wf_cell t.
Proof. intros n ops t Hk H. exact (run_ops_cells_wf _ _ _ (iblt_new_cells_wf n) Hk H). Qed.
Print Assumptions C03_reachable_cells.

Example C03_example :
  exists t n', run_ops (iblt_new 2) [Ins 7; Era 4294967295] = Ok t /\
    append_ibf codec_id SZlib [] t = Ok n' /\ lossless codec_id /\
    length n' = 1 /\ Forall wf_cell t.
Proof.
  eexists. eexists. split; [vm_compute; reflexivity|]. split; [vm_compute; reflexivity|].
  split; [apply lossless_id|]. split; [reflexivity|]. repeat constructor.
Qed.

(** * C04 *)
Theorem C04_initialize : forall C s t c,
  (* it succeeds exactly on a decompressed buffer of 12 bytes per cell *)
  (snd (initialize C s t c) = Ok tt <->
     exists b, decompress C s (cval c) = Ok b /\ length b = 12 * length t) /\
  (* otherwise it throws and the table is unchanged *)
  (snd (initialize C s t c) <> Ok tt ->
     fst (initialize C s t c) = t /\
     (snd (initialize C s t c) = Throw ExIblt \/
      snd (initialize C s t c) = Throw ExStream \/ snd (initialize C s t c) = Throw ExCompression)) /\
  (* after success the table is exactly what the buffer says *)
  (forall t', initialize C s t c = (t', Ok tt) ->
     length t' = length t /\ Forall wf_cell t' /\ decompress C s (cval c) = Ok (table_bytes t')) /\
  (* and nothing of the old table survives *)
  (forall t2, length t2 = length t -> snd (initialize C s t c) = Ok tt ->
     initialize C s t2 c = initialize C s t c).
Proof.
  intros C s t c. split; [|split; [|split]].
  - unfold initialize. split.
    + destruct (decompress C s (cval c)) as [b| | |]; try discriminate.
      destruct (Nat.eqb_spec (length b) (ENTRY_SIZE * length t)); [|discriminate]. eauto.
    + intros (b & -> & ->). change ENTRY_SIZE with 12. rewrite Nat.eqb_refl. reflexivity.
  - unfold initialize. destruct (decompress_outcomes C s (cval c)) as [[b E]|[E|E]]; rewrite E; auto.
    destruct (Nat.eqb (length b) _); simpl; auto. congruence.
  - apply initialize_ok.
  - intros t2 Hl. unfold initialize. destruct (decompress C s (cval c)); auto; try discriminate.
    rewrite Hl. destruct (Nat.eqb (length a) _); auto; discriminate.
Qed.
Print Assumptions C04_initialize.

Example C04_example :
  initialize codec_none SNone (iblt_new 1) (mkComp 8 (repeat (n2b 1) 36)) =
    (repeat (mkCell 16843009 16843009 16843009) 3, Ok tt) /\
  initialize codec_none SNone (iblt_new 1) (mkComp 8 (repeat (n2b 1) 35)) =
    (iblt_new 1, Throw ExIblt).
Proof. split; reflexivity. Qed.

(** * C05 *)
Theorem C05_equal_ibfs : forall fuel t, iblt_sub (S fuel) t t = Ok (mkDiff true [] []).
Proof. exact iblt_sub_same. Qed.
Print Assumptions C05_equal_ibfs.

(** an overfull table, and one whose first pure cell belongs to no key *)
Example C05_example :
  (exists t, run_ops (iblt_new 1) (map Ins [1; 2; 3; 4; 5; 6; 7; 8]%N) = Ok t /\ iblt_sub 1 t t = Ok (mkDiff true [] [])) /\
  iblt_sub 1 [mkCell 1 5 6; cell0; cell0] [mkCell 1 5 6; cell0; cell0] = Ok (mkDiff true [] []).
Proof.
  split; [|apply (C05_equal_ibfs 0)]. eexists. split; [vm_compute; reflexivity|apply (C05_equal_ibfs 0)].
Qed.

(** * C06 *)
Theorem C06_one_key : forall n k common a b,
  n <> 0 -> NoDup (k :: common) ->
  Permutation a (k :: common) -> Permutation b common ->    (* inserted in any order *)
  (Z.of_nat (length a) <= i32_max)%Z ->
  exists ta tb, IbfOf n a ta /\ IbfOf n b tb /\
    forall fuel, 3 <= fuel ->
      iblt_sub fuel ta tb = Ok (mkDiff true [k] []) /\
      iblt_sub fuel tb ta = Ok (mkDiff true [] [k]).
Proof.
  intros n k common a b Hn Hnd Pa Pb Hl.
  assert (length a = S (length b)) as Hlen.
  { rewrite (Permutation_length Pa), (Permutation_length Pb). reflexivity. }
  destruct (IbfOf_exists n a Hn Hl) as [ta Ea].
  destruct (IbfOf_exists n b Hn) as [tb Eb]; [lia|].
  exists ta, tb. split; [exact Ea|]. split; [exact Eb|]. intros fuel Hf.
  split.
  - destruct (small_diff [k] [] common a b n ta tb fuel) as (d & E & Hp & Hd); auto.
    assert (can_decode d = true) as Hc by (apply Hp, peelable_one).
    destruct (Hd Hc) as [H1 H2]. destruct (iblt_sub_sorted _ _ _ _ E) as [S1 S2].
    rewrite E. destruct d as [cd p ng]; simpl in *. subst cd. f_equal. f_equal.
    + apply Sorted_single; auto. intros x. rewrite H1. intuition.
    + apply Sorted_nil. intros x Hx. apply H2 in Hx. auto.
  - destruct (small_diff [] [k] common b a n tb ta fuel) as (d & E & Hp & Hd); auto.
    assert (can_decode d = true) as Hc by (apply Hp, peelable_one).
    destruct (Hd Hc) as [H1 H2]. destruct (iblt_sub_sorted _ _ _ _ E) as [S1 S2].
    rewrite E. destruct d as [cd p ng]; simpl in *. subst cd. f_equal. f_equal.
    + apply Sorted_nil. intros x Hx. apply H1 in Hx. auto.
    + apply Sorted_single; auto. intros x. rewrite H2. intuition.
Qed.
Print Assumptions C06_one_key.

Example C06_example : exists ta tb, IbfOf 1 [3; 9; 7; 1]%N ta /\ IbfOf 1 [1; 3; 7]%N tb /\
  iblt_sub 3 ta tb = Ok (mkDiff true [9%N] []) /\ iblt_sub 3 tb ta = Ok (mkDiff true [] [9%N]).
Proof.
  destruct (C06_one_key 1 9%N [1; 3; 7]%N [3; 9; 7; 1]%N [1; 3; 7]%N) as (ta & tb & A & B & H).
  - discriminate.
  - repeat constructor; simpl; intuition discriminate.
  - apply NoDup_Permutation; [repeat constructor; simpl; intuition discriminate..|]. intros x. simpl. intuition.
  - apply Permutation_refl.
  - simpl. unfold i32_max. lia.
  - exists ta, tb. split; [exact A|]. split; [exact B|]. apply H. lia.
Qed.

(** * C07 *)
Theorem C07_two_keys : forall n x y k1 k2 common a b,
  n <> 0 -> x ++ y = [k1; k2] ->             (* [x] only on the left, [y] only on the right *)
  NoDup ([k1; k2] ++ common) ->
  Permutation a (x ++ common) -> Permutation b (y ++ common) ->
  (Z.of_nat (length a) <= i32_max)%Z -> (Z.of_nat (length b) <= i32_max)%Z ->
  exists ta tb d, IbfOf n a ta /\ IbfOf n b tb /\
    (forall fuel, 3 <= fuel -> iblt_sub fuel ta tb = Ok d) /\
    (can_decode d = true <-> cells_of (length ta) k1 <> cells_of (length ta) k2) /\
    (can_decode d = true ->
       (forall k, In k (positive d) <-> In k x) /\ (forall k, In k (negative d) <-> In k y)).
Proof.
  intros n x y k1 k2 common a b Hn Hxy Hnd Pa Pb Ha Hb.
  destruct (IbfOf_exists n a Hn Ha) as [ta Ea]. destruct (IbfOf_exists n b Hn Hb) as [tb Eb].
  assert (length x + length y <= 2) as Hl by (rewrite <- app_length, Hxy; auto).
  rewrite <- Hxy, <- app_assoc in Hnd.
  destruct (small_diff x y common a b n ta tb 3) as (d & E & Hp & Hd); auto.
  exists ta, tb, d. split; [exact Ea|]. split; [exact Eb|]. split.
  - intros fuel Hf. eapply iblt_sub_mono; eauto.
  - split; [|exact Hd]. rewrite Hp, Hxy. destruct (IbfOf_cells _ _ _ Ea) as (-> & _).
    apply peelable_two. apply n_entries_div; auto.
Qed.
Print Assumptions C07_two_keys.

(** both outcomes occur: in 3 cells every two keys coincide, in 15 cells keys 1 and 2 do not *)
Example C07_example :
  cells_of 3 1 = cells_of 3 2 /\ cells_of 15 1 <> cells_of 15 2.
Proof. split; [vm_compute; reflexivity|]. vm_compute. discriminate. Qed.

(** * C08 *)
Theorem C08_honest_soundness : forall n a b ta tb fuel,
  NoDup a -> NoDup b -> IbfOf n a ta -> IbfOf n b tb ->
  no_coincidence (signed_diff a b) -> length (signed_diff a b) < fuel ->
  exists d, iblt_sub fuel ta tb = Ok d /\
    (forall k, In k (positive d) -> In k a /\ ~ In k b) /\
    (forall k, In k (negative d) -> In k b /\ ~ In k a).
Proof.
  intros. destruct (iblt_sub_honest n a b ta tb fuel) as (d & E & H5 & H6 & _); auto. eauto.
Qed.
Print Assumptions C08_honest_soundness.

(** * C09 *)
Theorem C09_completeness : forall n a b ta tb fuel,
  NoDup a -> NoDup b -> IbfOf n a ta -> IbfOf n b tb ->
  no_coincidence (signed_diff a b) -> length (signed_diff a b) < fuel ->
  exists d, iblt_sub fuel ta tb = Ok d /\
    (can_decode d = true <-> peelable (length ta) (only_in a b ++ only_in b a)) /\
    (can_decode d = true ->
       (forall k, In k (positive d) <-> In k a /\ ~ In k b) /\
       (forall k, In k (negative d) <-> In k b /\ ~ In k a)).
Proof.
  intros n a b ta tb fuel Ha Hb Ea Eb Hc Hf.
  destruct (IbfOf_cells _ _ _ Ea) as (-> & _).
  destruct (iblt_sub_honest n a b ta tb fuel) as (d & E & _ & _ & H1 & H2); auto. eauto.
Qed.
Print Assumptions C09_completeness.

(** the hypothesis [no_coincidence] is decidable for a concrete difference and holds for three
    and four keys below *)
Fixpoint sublists {A} (l : list A) : list (list A) :=
  match l with [] => [[]] | x :: r => sublists r ++ map (cons x) (sublists r) end.
Definition no_coincidence_b (delta : list (Z * N)) : bool :=
  forallb (fun l =>
    (length l <? 2) ||
    (negb ((Z.eqb (sum_sign l) 1 || Z.eqb (sum_sign l) (-1)) &&
           N.eqb (xor_checks l) (hash32 N_HASHCHECK (xor_keys l))) &&
     negb (Z.eqb (sum_sign l) 0 && N.eqb (xor_keys l) 0 && N.eqb (xor_checks l) 0)))
    (sublists delta).

Lemma sublists_complete {A} (dec : forall x y : A, {x = y} + {x <> y}) (delta : list A) l :
  NoDup delta -> NoDup l -> incl l delta -> exists l', In l' (sublists delta) /\ Permutation l l'.
Proof.
  revert l; induction delta as [|x r IH]; intros l Hd Hl Hi.
  - destruct l as [|y l]; [exists []; simpl; auto|]. exfalso. apply (Hi y). left; auto.
  - inversion Hd; subst. simpl. destruct (in_dec dec x l) as [Hx|Hx].
    + apply in_split in Hx as (l1 & l2 & ->).
      pose proof (NoDup_remove_1 _ _ _ Hl) as Hn1. pose proof (NoDup_remove_2 _ _ _ Hl) as Hn2.
      destruct (IH (l1 ++ l2)) as (l' & I' & P'); auto.
      { intros y Hy. assert (In y (x :: r)) as [->|] by
          (apply Hi, in_app_iff; apply in_app_iff in Hy; simpl; tauto); auto. contradiction. }
      exists (x :: l'). split; [apply in_app_iff; right; apply in_map; auto|].
      rewrite <- P'. symmetry. apply Permutation_middle.
    + destruct (IH l) as (l' & I' & P'); auto.
      { intros y Hy. destruct (Hi y Hy) as [->|]; auto. contradiction. }
      exists l'. split; [apply in_app_iff; auto|auto].
Qed.

Lemma no_coincidence_b_ok delta : NoDup delta -> no_coincidence_b delta = true -> no_coincidence delta.
Proof.
  intros Hd Hb l Hl Hi H2.
  assert (forall x y : Z * N, {x = y} + {x <> y}) as dec
    by (decide equality; [apply N.eq_dec|apply Z.eq_dec]).
  destruct (sublists_complete dec delta l Hd Hl Hi) as (l' & I' & P').
  unfold no_coincidence_b in Hb. rewrite forallb_forall in Hb. specialize (Hb l' I').
  rewrite <- (Permutation_length P') in Hb.
  replace (sum_sign l) with (sum_sign l').
  2:{ unfold sum_sign. clear -P'. induction P'; simpl; lia. }
  replace (xor_keys l) with (xor_keys l').
  2:{ unfold xor_keys. clear -P'. induction P'; simpl; try congruence.
      rewrite <- !N.lxor_assoc. f_equal. apply N.lxor_comm. }
  replace (xor_checks l) with (xor_checks l').
  2:{ unfold xor_checks. clear -P'. induction P'; simpl; try congruence.
      rewrite <- !N.lxor_assoc. f_equal. apply N.lxor_comm. }
  apply orb_true_iff in Hb as [Hb|Hb]; [apply Nat.ltb_lt in Hb; lia|].
  apply andb_true_iff in Hb as [B1 B2]. apply negb_true_iff in B1, B2. split.
  - intros [S X]. rewrite X, N.eqb_refl, andb_true_r in B1.
    destruct S as [S|S]; rewrite S in B1; discriminate.
  - intros (S & X & Y). rewrite S, X, Y in B2. discriminate.
Qed.

Example C08_C09_example :
  let a := [1; 2; 3; 4]%N in let b := [3; 4; 5; 6]%N in
  NoDup a /\ NoDup b /\ no_coincidence (signed_diff a b) /\
  (exists ta, IbfOf 10 a ta) /\ (exists tb, IbfOf 10 b tb) /\ length (signed_diff a b) = 4.
Proof.
  intros a b. split; [|split; [|split; [|split; [|split]]]].
  - repeat constructor; simpl; intuition discriminate.
  - repeat constructor; simpl; intuition discriminate.
  - apply no_coincidence_b_ok.
    + repeat constructor; simpl; intuition discriminate.
    + vm_compute. reflexivity.
  - apply IbfOf_exists; [discriminate|simpl; unfold i32_max; lia].
  - apply IbfOf_exists; [discriminate|simpl; unfold i32_max; lia].
  - reflexivity.
Qed.

(** * C10 *)
Theorem C10_faithful : forall fuel l r d,
  iblt_sub fuel l r = Ok d -> can_decode d = true -> 3 <= length l ->
  length l = length r /\
  exists ops,                               (* the peeled keys, in order *)
    (forall k, In k (positive d) <-> In (Ins k) ops) /\
    (forall k, In k (negative d) <-> In (Era k) ops) /\
    (forall t, run_ops r ops = Ok t -> t = l) /\
    ((forall c, In c r -> (Z.abs (c_count c) + Z.of_nat (length ops) <= i32_max)%Z) ->
     run_ops r ops = Ok l).
Proof.
  intros fuel l r d H Hc Hl3. destruct (iblt_sub_faithful _ _ _ _ H Hc) as (Hl & tr & Hs & Hp & Hn & Hcells).
  split; auto.
  exists (map (fun x => if Z.eqb (fst x) 1 then Ins (snd x) else Era (snd x)) tr).
  assert (map op_skey (map (fun x => if Z.eqb (fst x) 1 then Ins (snd x) else Era (snd x)) tr) = tr) as Hm.
  { rewrite map_map. rewrite <- (map_id tr) at 2. apply map_ext_in. intros [s k] Hin.
    rewrite Forall_forall in Hs. specialize (Hs _ Hin). simpl in *.
    destruct Hs as [Hs|Hs]; rewrite Hs; reflexivity. }
  assert (forall t, run_ops r (map (fun x => if Z.eqb (fst x) 1 then Ins (snd x) else Era (snd x)) tr) = Ok t -> t = l) as Hu.
  { intros t Ht. rewrite run_ops_run, Hm in Ht. apply iblt_run_ok in Ht as (L & _ & C).
    apply table_ext; [congruence|]. intros j _. rewrite C, Hcells. reflexivity. }
  repeat split; auto.
  - intros Hk. apply Hp in Hk. apply in_map_iff. exists (1%Z, k). auto.
  - intros Hk. apply Hp. apply in_map_iff in Hk as ([s k'] & E & Hin). simpl in E.
    rewrite Forall_forall in Hs. specialize (Hs _ Hin). simpl in Hs.
    destruct Hs as [Hs|Hs]; subst s; simpl in E; [injection E as ->; auto|discriminate].
  - intros Hk. apply Hn in Hk. apply in_map_iff. exists ((-1)%Z, k). auto.
  - intros Hk. apply Hn. apply in_map_iff in Hk as ([s k'] & E & Hin). simpl in E.
    rewrite Forall_forall in Hs. specialize (Hs _ Hin). simpl in Hs.
    destruct Hs as [Hs|Hs]; subst s; simpl in E; [discriminate|injection E as ->; auto].
  - intros Hb. destruct (run_ops_total r _ ltac:(lia) Hb) as (t & E & _). rewrite E. f_equal. auto.
Qed.
Print Assumptions C10_faithful.

(** it applies to tables no honest peer sends: here the check field of cell 0 is forged so that
    keys are peeled that were never inserted *)
Example C10_example :
  exists d, iblt_sub 5 (repeat (mkCell 1 9 (hash32 11 9)) 3) (iblt_new 2) = Ok d /\
            can_decode d = true /\ positive d = [9%N].
Proof. eexists. split; [vm_compute; reflexivity|]. split; reflexivity. Qed.

(** * C11 *)
Theorem C11_antisymmetric : forall fuel l r d,
  iblt_sub fuel l r = Ok d ->
  iblt_sub fuel r l = Ok (mkDiff (can_decode d) (negative d) (positive d)) \/
  iblt_sub fuel r l = UB UbIntOverflow.
Proof. exact iblt_sub_antisym. Qed.
Print Assumptions C11_antisymmetric.

(** a forged count of -2^31 can be compared with -1 both ways; with 0 only one way: this is the exception *)
Example C11_example :
  let l := [mkCell (-1) 0 0; cell0; cell0] in let r := [mkCell (-2147483648) 0 0; cell0; cell0] in
  (exists d, iblt_sub 1 l r = Ok d) /\ iblt_sub 1 r l = Ok (mkDiff false [] []) /\
  iblt_sub 1 [mkCell 0 0 0; cell0; cell0] r = UB UbIntOverflow /\
  exists d, iblt_sub 1 r [mkCell 0 0 0; cell0; cell0] = Ok d.
Proof. repeat split; eexists; vm_compute; reflexivity. Qed.

(** * C12 *)
Theorem C12_common_keys_cancel : forall fuel ta tb ops ta' tb',
  length ta = length tb ->
  run_ops ta ops = Ok ta' -> run_ops tb ops = Ok tb' ->
  iblt_sub fuel ta' tb' = iblt_sub fuel ta tb.
Proof.
  intros fuel ta tb ops ta' tb' Hl H1 H2. rewrite run_ops_run in H1, H2.
  apply iblt_run_ok in H1 as (L1 & _ & C1). apply iblt_run_ok in H2 as (L2 & _ & C2).
  apply iblt_sub_ext; try congruence. intros j. rewrite C1, C2, Hl.
  rewrite cneg_add. rewrite (cadd_comm (cneg (cell_at tb j))).
  rewrite cadd_assoc, <- (cadd_assoc (cell_at ta j)), cadd_neg_r, cadd_0_r. reflexivity.
Qed.
Print Assumptions C12_common_keys_cancel.

Example C12_example :
  exists t t', run_ops (iblt_new 2) (map Ins [1; 2; 3; 4; 5; 6; 7; 8; 9; 10; 11; 12]%N) = Ok t /\
    iblt_insert t 99 = Ok t' /\ iblt_sub 3 t' t = Ok (mkDiff true [99%N] []).
Proof.
  eexists. eexists. split; [vm_compute; reflexivity|].
  split; [vm_compute; reflexivity|]. vm_compute; reflexivity.
Qed.

(** * C13: refuted by a forged IBF; it holds between honest peers *)
Theorem C13_termination_refuted : forall n ks own,
  n <> 0 -> keys32 ks -> IbfOf n ks own ->
  exists c received,
    initialize codec_none SNone (iblt_new n) c = (received, Ok tt) /\
    forall fuel, iblt_sub fuel own received = Hang.
Proof.
  intros n ks own Hn Hk H.
  assert (3 <= length own) as H3.
  { destruct (IbfOf_cells _ _ _ H) as (-> & _). pose proof (n_entries_div n Hn) as Hd.
    destruct (Nat.lt_ge_cases (n_entries n) 3); auto. exfalso. apply Hd, Nat.div_small. auto. }
  assert (Forall wf_cell (attack own 7)) as Hw.
  { apply attack_wf; [reflexivity|eapply IbfOf_wf_cells; eauto|].
    intros c Hc. pose proof (IbfOf_nonneg _ _ _ H c Hc). unfold i32_min. lia. }
  destruct (initialize_append codec_none SNone [] (attack own 7) [mkComp TYPE_GENERIC (table_bytes (attack own 7))] (iblt_new n))
    as (c & E & Hi); auto using lossless_none.
  - rewrite attack_length, iblt_new_length. destruct (IbfOf_cells _ _ _ H) as (-> & _). reflexivity.
  - exists c, (attack own 7). split; auto. intros fuel. apply attack_hangs. exact H3.
Qed.
Print Assumptions C13_termination_refuted.

Theorem C13_termination_partial : forall n a b ta tb,
  NoDup a -> NoDup b -> IbfOf n a ta -> IbfOf n b tb -> no_coincidence (signed_diff a b) ->
  exists d, forall fuel, length (signed_diff a b) < fuel -> iblt_sub fuel ta tb = Ok d.
Proof.
  intros n a b ta tb Ha Hb Ea Eb Hc.
  destruct (iblt_sub_honest n a b ta tb (S (length (signed_diff a b)))) as (d & E & _); auto.
  exists d. intros fuel Hf. eapply iblt_sub_mono; eauto.
Qed.
Print Assumptions C13_termination_partial.

Example C13_example : forall ta tb, IbfOf 10 [1; 2; 3; 4]%N ta -> IbfOf 10 [3; 4; 5; 6]%N tb ->
  exists d, forall fuel, 4 < fuel -> iblt_sub fuel ta tb = Ok d.
Proof.
  intros ta tb A B. destruct C08_C09_example as (Na & Nb & H & _ & _ & _).
  exact (C13_termination_partial 10 _ _ ta tb Na Nb A B H).
Qed.

(** * C14: refuted by a forged IBF; it holds between honest peers *)
Theorem C14_overflow_refuted : forall n ks own,
  n <> 0 -> keys32 ks -> IbfOf n ks own ->
  exists c received,
    initialize codec_none SNone (iblt_new n) c = (received, Ok tt) /\
    forall fuel, iblt_sub fuel own received = UB UbIntOverflow.
Proof.
  intros n ks own Hn Hk H.
  assert (3 <= length own) as H3.
  { destruct (IbfOf_cells _ _ _ H) as (-> & _). pose proof (n_entries_div n Hn) as Hd.
    destruct (Nat.lt_ge_cases (n_entries n) 3); auto. exfalso. apply Hd, Nat.div_small. auto. }
  destruct own as [|c0 own']; [simpl in H3; lia|].
  destruct (initialize_append codec_none SNone [] (extreme (c0 :: own'))
     [mkComp TYPE_GENERIC (table_bytes (extreme (c0 :: own')))] (iblt_new n))
    as (c & E & Hi); auto using lossless_none.
  - unfold extreme. constructor; [repeat split|]. simpl.
    pose proof (IbfOf_wf_cells _ _ _ Hk H) as Hw. inversion Hw; auto.
  - unfold extreme. cbn [length tl]. rewrite iblt_new_length.
    destruct (IbfOf_cells _ _ _ H) as (<- & _). reflexivity.
  - exists c, (extreme (c0 :: own')). split; auto. intros fuel. eapply extreme_overflows; eauto.
    eapply IbfOf_nonneg; eauto. left; auto.
Qed.
Print Assumptions C14_overflow_refuted.

Theorem C14_overflow_partial : forall n a b ta tb fuel,
  NoDup a -> NoDup b -> IbfOf n a ta -> IbfOf n b tb -> no_coincidence (signed_diff a b) ->
  iblt_sub fuel ta tb <> UB UbIntOverflow.
Proof.
  intros n a b ta tb fuel Ha Hb Ea Eb Hc E.
  destruct (iblt_sub_honest n a b ta tb (S (length (signed_diff a b)))) as (d & E' & _); auto.
  destruct (iblt_sub_ok_or_hang _ fuel _ _ _ E'); congruence.
Qed.
Print Assumptions C14_overflow_partial.

Example C14_example : forall ta tb fuel, IbfOf 10 [1; 2; 3; 4]%N ta -> IbfOf 10 [3; 4; 5; 6]%N tb ->
  iblt_sub fuel ta tb <> UB UbIntOverflow.
Proof.
  intros ta tb fuel A B. destruct C08_C09_example as (Na & Nb & H & _ & _ & _).
  exact (C14_overflow_partial 10 _ _ ta tb fuel Na Nb A B H).
Qed.

(** the difference the other way round *)
Definition flip (x : Z * N) : Z * N := (- fst x, snd x)%Z.
Lemma flip_flip x : flip (flip x) = x.
Proof. destruct x as [z k]. unfold flip. cbn [fst snd]. rewrite Z.opp_involutive. reflexivity. Qed.
Lemma flip_in a b x : In x (signed_diff b a) -> In (flip x) (signed_diff a b).
Proof.
  unfold signed_diff. rewrite !in_app_iff, !in_map_iff.
  intros [(k & <- & H)|(k & <- & H)]; [right|left]; exists k; auto.
Qed.
Lemma flip_sums l :
  sum_sign (map flip l) = (- sum_sign l)%Z /\ xor_keys (map flip l) = xor_keys l /\ xor_checks (map flip l) = xor_checks l.
Proof.
  induction l as [|x l (A & B & C)]; [split; [reflexivity|split; reflexivity]|].
  unfold sum_sign, xor_keys, xor_checks in *. cbn [map fold_right]. unfold flip at 1 3 5. cbn [fst snd].
  rewrite A, B, C. split; [lia|split; reflexivity].
Qed.
Lemma no_coincidence_swap a b : no_coincidence (signed_diff a b) -> no_coincidence (signed_diff b a).
Proof.
  intros H l N I L.
  destruct (H (map flip l)) as [A B].
  - apply FinFun.Injective_map_NoDup; [|exact N]. intros x y E. rewrite <- (flip_flip x), E. apply flip_flip.
  - intros x Hx. apply in_map_iff in Hx as (y & <- & Hy). apply flip_in, I, Hy.
  - rewrite map_length. exact L.
  - destruct (flip_sums l) as (E1 & E2 & E3). rewrite E1, E2, E3 in A, B. split.
    + intros [D X]. apply A. split; [lia|exact X].
    + intros [D X]. apply B. split; [lia|exact X].
Qed.
(** C11, between honest peers: without the exception *)
Theorem C11_honest_antisymmetric : forall n a b ta tb fuel d,
  NoDup a -> NoDup b -> IbfOf n a ta -> IbfOf n b tb -> no_coincidence (signed_diff a b) ->
  iblt_sub fuel ta tb = Ok d ->
  iblt_sub fuel tb ta = Ok (mkDiff (can_decode d) (negative d) (positive d)).
Proof.
  intros n a b ta tb fuel d Na Nb Ha Hb Hc H. destruct (C11_antisymmetric _ _ _ _ H) as [E|E]; [exact E|].
  exfalso. exact (C14_overflow_partial n b a tb ta fuel Nb Na Hb Ha (no_coincidence_swap _ _ Hc) E).
Qed.
Print Assumptions C11_honest_antisymmetric.

Example C11_honest_example : forall ta tb fuel d, IbfOf 10 [1; 2; 3; 4]%N ta -> IbfOf 10 [3; 4; 5; 6]%N tb ->
  iblt_sub fuel ta tb = Ok d -> iblt_sub fuel tb ta = Ok (mkDiff (can_decode d) (negative d) (positive d)).
Proof.
  intros ta tb fuel d A B. destruct C08_C09_example as (Na & Nb & H & _ & _ & _).
  exact (C11_honest_antisymmetric 10 _ _ ta tb fuel d Na Nb A B H).
Qed.

(** * C15 *)
Theorem C15_check_hash_injective : forall seed x y,
  (seed < two32)%N -> (x < two32)%N -> (y < two32)%N ->
  hash32 seed x = hash32 seed y -> x = y.
Proof. exact hash32_inj. Qed.
Print Assumptions C15_check_hash_injective.

Theorem C15_hash_range : forall seed bs, (seed < two32)%N -> (murmur seed bs < two32)%N.
Proof. exact murmur_lt. Qed.
Print Assumptions C15_hash_range.

(** published test vectors of MurmurHash3 and the vector of the repository's own test *)
Example C15_example :
  murmur 1 [] = 0x514E28B7%N /\ hash32 11 0x5C5BF267 = 0x4224EE6C%N.
Proof. split; vm_compute; reflexivity. Qed.

(** * C66 *)
Theorem C66_compression_support : forall C s b,
  (* no compression is always available and is the identity *)
  compress C SNone b = Ok b /\ decompress C SNone b = Ok b /\
  (* the other schemes work exactly when compiled in, and otherwise throw CompressionError *)
  (s <> SNone ->
     (supported C s = false -> compress C s b = Throw ExCompression /\
                               decompress C s b = Throw ExCompression) /\
     (supported C s = true -> exists c, compress C s b = Ok c)) /\
  (* whatever compress produced decompresses to the original *)
  (lossless C -> forall c, compress C s b = Ok c -> decompress C s c = Ok b) /\
  (* the default scheme is always compiled in *)
  exists c, compress C (scheme_default (supported C SZlib)) b = Ok c.
Proof.
  intros C s b. split; [reflexivity|]. split; [reflexivity|]. split; [|split].
  - intros Hs. split.
    + intros E. unfold compress, decompress. destruct s; try congruence; rewrite E; auto.
    + intros E. unfold compress. destruct s; try congruence; rewrite E; eauto.
  - intros HC c. apply decompress_compress. exact HC.
  - unfold scheme_default, compress. destruct (supported C SZlib) eqn:E; eauto. rewrite E. eauto.
Qed.
Print Assumptions C66_compression_support.

(** a build without any compression library: the default is no compression, the others are refused *)
Example C66_example : lossless codec_none /\ compress codec_none SZlib [n2b 1] = Throw ExCompression /\
  decompress codec_none SZlib [n2b 1] = Throw ExCompression /\
  compress codec_none (scheme_default (supported codec_none SZlib)) [n2b 1] = Ok [n2b 1].
Proof. split; [apply lossless_none|]. repeat split. Qed.
