From Coq Require Import List NArith ZArith Bool Lia Arith Floats.SpecFloat.
From Coq.Strings Require Import Byte.
From Verif Require Import Base BaseFacts Murmur MurmurFacts Tlv TlvFacts Bloom SpecBloom.
Import ListNotations.
Local Open Scope N_scope.
Global Opaque murmur.

(** ** Bits of tables *)
Lemma or_at_ok t i m :
  (i < length t)%nat ->
  exists t', or_at t i m = Ok t' /\ length t' = length t /\
    forall j, nth j t' (n2b 0) =
      if Nat.eqb j i then n2b (N.lor (b2n (nth i t (n2b 0))) m) else nth j t (n2b 0).
Proof.
  revert i; induction t as [|b t IH]; intros i Hi; [simpl in Hi; lia|].
  destruct i as [|i].
  - eexists. split; [reflexivity|]. split; [reflexivity|]. intros [|j]; reflexivity.
  - destruct (IH i) as (t' & E & L & H); [simpl in Hi; lia|].
    exists (b :: t'). cbn [or_at]. rewrite E. split; [reflexivity|]. split; [simpl; congruence|].
    intros [|j]; [reflexivity|]. cbn [nth Nat.eqb]. apply H.
Qed.

Lemma or_at_oob t i m : (length t <= i)%nat -> or_at t i m = UB UbOutOfBounds.
Proof.
  revert i; induction t as [|b t IH]; intros i Hi; [reflexivity|].
  destruct i as [|i]; [simpl in Hi; lia|]. cbn [or_at]. rewrite IH; [reflexivity|]. simpl in Hi. lia.
Qed.

Lemma testbit_high a i : a < 256 -> 8 <= i -> N.testbit a i = false.
Proof.
  intros Ha Hi. destruct (N.eq_dec a 0) as [->|Hz]; [apply N.bits_0|].
  apply N.bits_above_log2. apply N.log2_lt_pow2; [lia|].
  change 256 with (2 ^ 8) in Ha. eapply N.lt_le_trans; [exact Ha|]. apply N.pow_le_mono_r; lia.
Qed.

Lemma lor_byte_lt a b : a < 256 -> b < 256 -> N.lor a b < 256.
Proof.
  intros Ha Hb.
  destruct (N.eq_dec (N.lor a b) 0) as [->|Hz]; [lia|].
  change 256 with (2 ^ 8) in *. apply N.log2_lt_pow2; [lia|].
  rewrite N.log2_lor. destruct (N.eq_dec a 0) as [->|]; destruct (N.eq_dec b 0) as [->|];
  apply N.max_lub_lt; try (apply N.log2_lt_pow2; lia); reflexivity.
Qed.

Lemma bit_mask_lt k : k < 8 -> bit_mask k < 256.
Proof.
  intros H. unfold bit_mask. rewrite N.shiftl_1_l. change 256 with (2 ^ 8). apply N.pow_lt_mono_r; lia.
Qed.

Lemma bit_mask_bit k i : N.testbit (bit_mask k) i = (i =? k).
Proof.
  unfold bit_mask. rewrite N.shiftl_1_l, N.pow2_bits_eqb. apply N.eqb_sym.
Qed.

Lemma bit_split i : i = 8 * (i / 8) + i mod 8.
Proof. apply N.div_mod. discriminate. Qed.

Lemma bit_addr_eq i j : (N.to_nat (j / 8) =? N.to_nat (i / 8))%nat && (j mod 8 =? i mod 8) = (j =? i).
Proof.
  destruct (N.eqb_spec j i) as [->|Hn].
  - rewrite Nat.eqb_refl, N.eqb_refl. reflexivity.
  - destruct (Nat.eqb_spec (N.to_nat (j / 8)) (N.to_nat (i / 8))) as [E|]; [|reflexivity].
    destruct (N.eqb_spec (j mod 8) (i mod 8)) as [E'|]; [|reflexivity]. exfalso. apply Hn.
    rewrite (bit_split i), (bit_split j). apply N2Nat.inj in E. congruence.
Qed.

Lemma or_bit_ok t i :
  i < N.of_nat (length t) * 8 ->
  exists t', or_at t (N.to_nat (i / 8)) (bit_mask (i mod 8)) = Ok t' /\ length t' = length t /\
    forall j, tbit t' j = tbit t j || (j =? i).
Proof.
  intros Hi.
  assert (N.to_nat (i / 8) < length t)%nat as Hl.
  { assert (i / 8 < N.of_nat (length t)) by (apply N.div_lt_upper_bound; lia). lia. }
  destruct (or_at_ok t (N.to_nat (i / 8)) (bit_mask (i mod 8)) Hl) as (t' & E & L & H).
  exists t'. split; [exact E|]. split; [exact L|]. intros j. unfold tbit. rewrite H.
  rewrite <- (bit_addr_eq i j).
  destruct (Nat.eqb_spec (N.to_nat (j / 8)) (N.to_nat (i / 8))) as [Ea|]; [|rewrite orb_false_r; reflexivity].
  rewrite b2n_n2b, N.mod_small.
  - rewrite N.lor_spec, bit_mask_bit, Ea. reflexivity.
  - apply lor_byte_lt; [apply b2n_lt|apply bit_mask_lt, N.mod_lt; discriminate].
Qed.

Lemma land_mask a k : k < 8 -> (N.land a (bit_mask k) =? bit_mask k) = N.testbit a k.
Proof.
  intros Hk. destruct (N.testbit a k) eqn:E.
  - apply N.eqb_eq. apply N.bits_inj. intros i. rewrite N.land_spec, bit_mask_bit.
    destruct (N.eqb_spec i k) as [->|]; [rewrite E; reflexivity|apply andb_false_r].
  - apply N.eqb_neq. intros H. assert (N.testbit (bit_mask k) k = false).
    { rewrite <- H, N.land_spec, E. reflexivity. }
    rewrite bit_mask_bit, N.eqb_refl in H0. discriminate.
Qed.

Lemma table_bits_ext (a b : bytes) :
  length a = length b -> (forall i, i < N.of_nat (length a) * 8 -> tbit a i = tbit b i) -> a = b.
Proof.
  intros Hl H. apply (nth_ext a b (n2b 0) (n2b 0)); auto. intros n Hn.
  apply b2n_inj. apply N.bits_inj. intros i.
  destruct (N.lt_ge_cases i 8) as [Hi|Hi].
  - specialize (H (8 * N.of_nat n + i)). unfold tbit in H.
    replace ((8 * N.of_nat n + i) / 8) with (N.of_nat n) in H
      by (apply (N.div_unique _ 8 _ i); lia).
    replace ((8 * N.of_nat n + i) mod 8) with i in H
      by (apply (N.mod_unique _ 8 (N.of_nat n)); lia).
    rewrite Nat2N.id in H. apply H. lia.
  - rewrite !testbit_high; auto using b2n_lt.
Qed.

Lemma tbit_zero n i : tbit (repeat (n2b 0) n) i = false.
Proof.
  unfold tbit.
  assert (nth (N.to_nat (i / 8)) (repeat (n2b 0) n) (n2b 0) = n2b 0) as ->.
  { destruct (Nat.lt_ge_cases (N.to_nat (i / 8)) n).
    - apply nth_repeat.
    - apply nth_overflow. rewrite repeat_length. lia. }
  reflexivity.
Qed.

(** ** Filters *)
Definition idx (size : N) (salts : list N) (n : name) : list N :=
  map (fun s => murmur s (name_value n) mod size) salts.
Definition memN (i : N) (l : list N) : bool := existsb (N.eqb i) l.

Lemma insert_salts_ok size n salts t :
  size <> 0 -> N.of_nat (length t) * 8 = size ->
  exists t', insert_salts size (name_value n) t salts = Ok t' /\ length t' = length t /\
    forall j, tbit t' j = tbit t j || memN j (idx size salts n).
Proof.
  intros Hs. revert t; induction salts as [|s salts IH]; intros t Ht.
  - exists t. split; [reflexivity|]. split; [reflexivity|]. intros j. rewrite orb_false_r. reflexivity.
  - cbn [insert_salts]. unfold insert_one, bit_index.
    destruct (N.eqb_spec size 0); [contradiction|]. cbn [obind].
    set (i := murmur s (name_value n) mod size).
    destruct (or_bit_ok t i) as (t1 & E & L & H).
    { rewrite Ht. apply N.mod_lt. assumption. }
    change BITS_PER_CHAR with 8. rewrite E. cbn [obind].
    destruct (IH t1) as (t2 & E2 & L2 & H2); [rewrite L; exact Ht|].
    exists t2. split; [exact E2|]. split; [congruence|]. intros j. rewrite H2, H.
    cbn [idx map memN existsb]. fold i. rewrite <- orb_assoc. reflexivity.
Qed.

Lemma test_salts_ok size n salts t :
  size <> 0 -> N.of_nat (length t) * 8 = size ->
  test_salts size (name_value n) t salts = Ok (forallb (tbit t) (idx size salts n)).
Proof.
  intros Hs Ht. induction salts as [|s salts IH]; [reflexivity|].
  cbn [test_salts idx map forallb]. unfold test_one, bit_index.
  destruct (N.eqb_spec size 0); [contradiction|]. cbn [obind].
  set (i := murmur s (name_value n) mod size).
  assert (i < N.of_nat (length t) * 8) as Hi by (rewrite Ht; apply N.mod_lt; assumption).
  assert (N.to_nat (i / 8) < length t)%nat as Hl.
  { assert (i / 8 < N.of_nat (length t)) by (apply N.div_lt_upper_bound; lia). lia. }
  change BITS_PER_CHAR with 8.
  rewrite (nth_error_nth' t (n2b 0) Hl). cbn [obind]. rewrite land_mask by (apply N.mod_lt; discriminate).
  fold (tbit t i). destruct (tbit t i); cbn [andb]; auto.
Qed.

Lemma bloom_insert_ok b n :
  bloom_sound b ->
  exists t, bloom_insert b n = Ok (mkBloom (b_salt b) t (b_size b) (b_count b) (b_fpp b)) /\
    length t = length (b_tab b) /\
    forall j, tbit t j = tbit (b_tab b) j || memN j (idx (b_size b) (b_salt b) n).
Proof.
  intros [H1 H2]. unfold bloom_insert.
  destruct (insert_salts_ok (b_size b) n (b_salt b) (b_tab b) H1 H2) as (t & E & L & H).
  rewrite E. cbn [obind]. eauto.
Qed.

Lemma bloom_contains_ok b n :
  bloom_sound b -> bloom_contains b n = Ok (forallb (tbit (b_tab b)) (idx (b_size b) (b_salt b) n)).
Proof. intros [H1 H2]. apply test_salts_ok; auto. Qed.

Definition memsN (i : N) (size : N) (salts : list N) (ns : list name) : bool :=
  existsb (fun n => memN i (idx size salts n)) ns.

Lemma bloom_run_ok ops : forall b acc,
  bloom_sound b ->
  (forall j, tbit (b_tab b) j = memsN j (b_size b) (b_salt b) acc) ->
  exists b', bloom_run b ops = Ok b' /\ bloom_sound b' /\
    b_salt b' = b_salt b /\ b_size b' = b_size b /\ b_count b' = b_count b /\ b_fpp b' = b_fpp b /\
    length (b_tab b') = length (b_tab b) /\
    forall j, tbit (b_tab b') j = memsN j (b_size b) (b_salt b) (inserted_after acc ops).
Proof.
  induction ops as [|[n|] ops IH]; intros b acc Hs Hb.
  - exists b. cbn. repeat split; auto; apply Hs.
  - cbn [bloom_run inserted_after].
    destruct (bloom_insert_ok b n Hs) as (t & E & L & Ht). rewrite E. cbn [obind].
    destruct (IH (mkBloom (b_salt b) t (b_size b) (b_count b) (b_fpp b)) (n :: acc)) as (b' & H).
    + destruct Hs. split; cbn; [auto|rewrite L; auto].
    + intros j. cbn [b_tab b_size b_salt]. rewrite Ht, Hb. cbn [memsN existsb]. apply orb_comm.
    + exists b'. cbn in H. rewrite L in H. exact H.
  - cbn [bloom_run inserted_after].
    destruct (IH (bloom_clear b) []) as (b' & H).
    + destruct Hs. split; cbn; [auto|rewrite repeat_length; auto].
    + intros j. cbn [bloom_clear b_tab]. apply tbit_zero.
    + exists b'. cbn in H. rewrite repeat_length in H. exact H.
Qed.

(** ** Parameters *)
Lemma round_size_cases ts :
  round_size ts = 1 \/ (8 <= round_size ts /\ round_size ts mod 8 = 0).
Proof.
  unfold round_size. change BITS_PER_CHAR with 8.
  set (x := ts + (if ts mod 8 =? 0 then 0 else 8 - ts mod 8)).
  assert (x mod 8 = 0) as Hx.
  { unfold x. pose proof (N.mod_lt ts 8 ltac:(discriminate)).
    destruct (N.eqb_spec (ts mod 8) 0) as [E|]; [rewrite N.add_0_r; exact E|].
    rewrite <- (N.add_mod_idemp_l ts _ 8) by discriminate.
    replace (ts mod 8 + (8 - ts mod 8)) with 8 by lia. reflexivity. }
  assert (w32 x mod 8 = 0) as Hw.
  { unfold w32. change two32 with (8 * 536870912). rewrite N.mod_mul_r by discriminate.
    rewrite Hx, ?N.add_0_l, ?N.add_0_r, N.mul_comm. apply N.mod_mul. discriminate. }
  destruct (N.ltb_spec (w32 x) 1); auto. right. split; auto.
  pose proof (N.div_mod (w32 x) 8 ltac:(discriminate)) as Hd. rewrite Hw in Hd. lia.
Qed.

Lemma mix_salt_length l i : length (mix_salt l i) = length l.
Proof.
  unfold mix_salt. generalize (w32 (nth_salt l i * nth_salt l ((i + 3) mod length l) + w32 random_seed_)).
  intros v. revert i; induction l as [|x l IH]; intros i; [reflexivity|]. destruct i; cbn; auto.
Qed.
Lemma mix_salts_length l : length (mix_salts l) = length l.
Proof.
  unfold mix_salts. generalize (seq 0 (length l)). intros s. revert l.
  induction s as [|i s IH]; intros l; [reflexivity|]. cbn [fold_left]. rewrite IH. apply mix_salt_length.
Qed.
Lemma rand_salts_length L f i c l r :
  rand_salts L f i c l = Ok r -> (c <= length r)%nat.
Proof.
  revert i l; induction f as [|f IH]; intros i l; cbn [rand_salts];
  destruct (Nat.leb_spec c (length l)); intros H'; try discriminate; try (injection H' as <-; auto).
  destruct (_ || _); eauto.
Qed.

Lemma generate_salts_nonempty L c s : 1 <= c -> generate_salts L c = Ok s -> s <> [].
Proof.
  unfold generate_salts. intros Hc. destruct (N.leb_spec c 128).
  - intros E. injection E as <-. intros E. apply (f_equal (@length N)) in E.
    rewrite mix_salts_length, firstn_length_le in E by (cbn [length predef_salt]; lia).
    cbn in E. lia.
  - intros E. apply rand_salts_length in E. destruct s; [cbn in E; lia|discriminate].
Qed.

Lemma bloom_new_inv L count p b :
  bloom_new L count p = Ok b ->
  exists nh ts, b = mkBloom (b_salt b) (repeat (n2b 0) (N.to_nat (round_size ts / 8))) (round_size ts) count p /\
    b_salt b <> [] /\ optimal_params L count p = Ok (nh, round_size ts).
Proof.
  unfold bloom_new. intros H. apply obind_ok in H as ([nh ts] & E & H).
  apply obind_ok in H as (s & Es & H). injection H as <-.
  pose proof E as E0. unfold optimal_params in E. destruct (params_bad count p); [discriminate|].
  destruct (min_m_k L count p) as [m k]. apply obind_ok in E as (nh' & E1 & E).
  apply obind_ok in E as (ts' & E2 & E). injection E as <- <-.
  exists (clamp_hashes nh'), ts'. cbn. split; [reflexivity|]. split; [|exact E0].
  eapply generate_salts_nonempty; eauto. unfold clamp_hashes. destruct (N.ltb_spec nh' 1); lia.
Qed.

Lemma bloom_new_facts L count p b :
  bloom_new L count p = Ok b ->
  b_count b = count /\ b_fpp b = p /\ b_salt b <> [] /\
  (forall j, tbit (b_tab b) j = false) /\
  N.of_nat (length (b_tab b)) = b_size b / 8 /\
  ((b_size b = 1 /\ b_tab b = []) \/ bloom_sound b).
Proof.
  intros H. apply bloom_new_inv in H as (nh & ts & E & Hs & _).
  rewrite E. cbn [b_count b_fpp b_salt b_tab b_size].
  split; [reflexivity|]. split; [reflexivity|]. split; [exact Hs|]. split; [apply tbit_zero|].
  rewrite repeat_length, N2Nat.id. split; [reflexivity|].
  destruct (round_size_cases ts) as [R|[R1 R2]].
  - left. rewrite R. split; reflexivity.
  - right. split; cbn [b_size b_tab]; [lia|]. rewrite repeat_length, N2Nat.id.
    rewrite (N.div_mod (round_size ts) 8) at 2 by discriminate. rewrite R2. lia.
Qed.

Lemma bloom_of_comp_inv L count p c b :
  bloom_of_comp L count p c = Ok b ->
  exists b0, bloom_new L count p = Ok b0 /\ length (cval c) = length (b_tab b0) /\
    b = mkBloom (b_salt b0) (cval c) (b_size b0) count p.
Proof.
  unfold bloom_of_comp. intros H. apply obind_ok in H as (b0 & E & H).
  destruct (N.eqb_spec (N.of_nat (length (cval c))) (b_size b0 / BITS_PER_CHAR)) as [El|]; [|discriminate].
  injection H as <-. exists b0. split; auto. split; auto.
  apply bloom_new_facts in E as (_ & _ & _ & _ & L1 & _). apply Nat2N.inj. change BITS_PER_CHAR with 8 in El. congruence.
Qed.

Lemma bloom_of_comp_cases L count p c b :
  bloom_of_comp L count p c = Ok b ->
  b_salt b <> [] /\ N.of_nat (length (b_tab b)) = b_size b / 8 /\
  ((b_size b = 1 /\ b_tab b = []) \/ bloom_sound b).
Proof.
  intros H. apply bloom_of_comp_inv in H as (b0 & E & L1 & ->).
  apply bloom_new_facts in E as (_ & _ & Hs & _ & L2 & Hc). cbn [b_salt b_tab b_size].
  split; auto. split; [congruence|].
  destruct Hc as [[H1 H2]|[H1 H2]].
  - left. split; auto. rewrite H2 in L1. destruct (cval c); [auto|discriminate].
  - right. split; cbn; [auto|congruence].
Qed.

Lemma bloom_degenerate b n :
  b_salt b <> [] -> b_size b = 1 -> b_tab b = [] ->
  bloom_contains b n = UB UbOutOfBounds /\ bloom_insert b n = UB UbOutOfBounds.
Proof.
  intros Hs H1 H2. unfold bloom_contains, bloom_insert. rewrite H1, H2.
  destruct (b_salt b) as [|s r]; [contradiction|].
  cbn [test_salts insert_salts]. unfold test_one, insert_one, bit_index. cbn [N.eqb obind].
  rewrite N.mod_1_r. split; reflexivity.
Qed.

(** ** Rates *)
Lemma rate_sweep :
  forallb (fun t => match d_cast two64 (d_mul (rate (N.of_nat t)) (d_of_N 1000)) with
                    | Ok k => N.eqb k (N.of_nat t) | _ => false end) (seq 0 1001) = true.
Proof. vm_compute. reflexivity. Qed.

Lemma rate_roundtrip t :
  t <= 1000 -> d_cast two64 (d_mul (rate t) (d_of_N 1000)) = Ok t.
Proof.
  intros Ht. pose proof rate_sweep as H. rewrite forallb_forall in H.
  specialize (H (N.to_nat t)). rewrite N2Nat.id in H.
  assert (In (N.to_nat t) (seq 0 1001)) as Hi by (apply in_seq; lia). specialize (H Hi).
  destruct (d_cast two64 (d_mul (rate t) (d_of_N 1000))); try discriminate.
  apply N.eqb_eq in H. congruence.
Qed.

Lemma bloom_run_same ops : forall b b',
  bloom_run b ops = Ok b' ->
  b_salt b' = b_salt b /\ b_size b' = b_size b /\ b_count b' = b_count b /\ b_fpp b' = b_fpp b /\
  length (b_tab b') = length (b_tab b).
Proof.
  assert (forall t i m t', or_at t i m = Ok t' -> length t' = length t) as Hor.
  { induction t as [|x t IH]; intros i m t' H; [discriminate|]. destruct i; cbn in H.
    - injection H as <-. reflexivity.
    - apply obind_ok in H as (r & E & H). injection H as <-. cbn. f_equal. eauto. }
  assert (forall size v salts t t', insert_salts size v t salts = Ok t' -> length t' = length t) as His.
  { induction salts as [|s salts IH]; intros t t' H; cbn in H; [injection H as <-; reflexivity|].
    apply obind_ok in H as (t1 & E & H). apply IH in H. unfold insert_one in E.
    apply obind_ok in E as (i & _ & E). apply Hor in E. congruence. }
  induction ops as [|[n|] ops IH]; intros b b' H; cbn in H.
  - injection H as <-. auto.
  - apply obind_ok in H as (b1 & E & H). apply IH in H as (A & B & C & D & F).
    unfold bloom_insert in E. apply obind_ok in E as (t & E & E'). injection E' as <-. cbn in *.
    apply His in E. repeat split; congruence.
  - apply IH in H as (A & B & C & D & F). cbn in *. rewrite repeat_length in F. auto.
Qed.

Lemma bloom_wire L count t ops b0 b n n' :
  count < two32 -> t <= 1000 ->
  bloom_new L count (rate t) = Ok b0 -> bloom_run b0 ops = Ok b -> append_bloom n b = Ok n' ->
  exists c1 c2 c3, n' = n ++ [c1; c2; c3] /\ to_number c1 = Ok count /\ to_number c2 = Ok t /\
    cval c3 = b_tab b /\ bloom_of_comps L c1 c2 c3 = Ok b.
Proof.
  intros Hc Ht H0 Hr Ha. apply bloom_run_same in Hr as (R1 & R2 & R3 & R4 & R5).
  destruct (bloom_new_facts _ _ _ _ H0) as (F1 & F2 & _ & _ & F5 & _).
  unfold append_bloom in Ha. rewrite R4, F2, rate_roundtrip in Ha by assumption. cbn [obind] in Ha.
  injection Ha as <-. rewrite R3, F1.
  exists (number_comp TYPE_GENERIC count), (number_comp TYPE_GENERIC t), (mkComp TYPE_GENERIC (b_tab b)).
  assert (count < two64) by (unfold two32, two64 in *; lia).
  assert (t < two64) by (unfold two64; lia).
  split; [unfold append_bytes, append_number; rewrite <- !app_assoc; reflexivity|].
  rewrite !to_number_number by assumption. repeat split; auto.
  unfold bloom_of_comps. rewrite !to_number_number by assumption. cbn [obind].
  rewrite w32_small by assumption. unfold bloom_of_comp.
  fold (rate t). rewrite H0. cbn [obind cval].
  rewrite R5, F5. change BITS_PER_CHAR with 8. rewrite N.eqb_refl.
  destruct b as [s tb sz ct fp]; cbn in *. congruence.
Qed.

(** ** Special values *)
Lemma fold_min_ext L count p (f : dbl -> dbl) l acc :
  (forall k, In k l -> curr_m L count p k = f k) ->
  fold_left (min_step L count p) l acc =
  fold_left (fun acc k => if SFltb (f k) (fst acc) then (f k, k) else acc) l acc.
Proof.
  revert acc; induction l as [|k l IH]; intros acc H; [reflexivity|].
  cbn [fold_left]. rewrite IH by (intros; apply H; right; auto).
  unfold min_step. rewrite (H k) by (left; auto). reflexivity.
Qed.

(** rate 1.000: every k gives curr_m = 0, so the table size is 1 bit and the table is empty *)
Lemma params_rate_one L :
  libm_specials L -> optimal_params L 80 (rate 1000) = Ok (1, 1).
Proof.
  intros (P1 & _ & Lz & _). unfold optimal_params.
  assert (params_bad 80 (rate 1000) = false) as -> by (vm_compute; reflexivity).
  unfold min_m_k.
  rewrite (fold_min_ext L 80 (rate 1000)
             (fun k => d_div (d_mul (SFopp k) (d_of_N 80)) (S754_infinity true))).
  - match goal with |- context [fold_left ?f k_values ?a] =>
      replace (fold_left f k_values a) with (S754_zero false, d_of_N 1) by (vm_compute; reflexivity) end.
    vm_compute. reflexivity.
  - intros k _. unfold curr_m. f_equal.
    assert (rate 1000 = d_of_N 1) as -> by (vm_compute; reflexivity).
    rewrite P1. assert (d_sub (d_of_N 1) (d_of_N 1) = S754_zero false) as -> by (vm_compute; reflexivity).
    exact Lz.
Qed.

Lemma inv_k_finite :
  forallb (fun k => match d_div (d_of_N 1) k with S754_finite false _ _ => true | _ => false end) k_values = true.
Proof. vm_compute. reflexivity. Qed.

(** rate 0.000: curr_m is minus infinity, which no unsigned value represents *)
Lemma params_rate_zero L :
  libm_specials L -> optimal_params L 80 (rate 0) = UB UbFloatCast.
Proof.
  intros (_ & P0 & _ & L1). unfold optimal_params.
  assert (params_bad 80 (rate 0) = false) as -> by (vm_compute; reflexivity).
  unfold min_m_k.
  rewrite (fold_min_ext L 80 (rate 0)
             (fun k => d_div (d_mul (SFopp k) (d_of_N 80)) (S754_zero false))).
  - match goal with |- context [fold_left ?f k_values ?a] =>
      replace (fold_left f k_values a) with (S754_infinity true, d_of_N 1) by (vm_compute; reflexivity) end.
    vm_compute. reflexivity.
  - intros k Hk. unfold curr_m. f_equal.
    assert (rate 0 = S754_zero false) as -> by (vm_compute; reflexivity).
    pose proof inv_k_finite as Hf. rewrite forallb_forall in Hf. specialize (Hf k Hk).
    destruct (d_div (d_of_N 1) k) as [| | |s m e]; try discriminate. destruct s; [discriminate|].
    rewrite P0. assert (d_sub (d_of_N 1) (S754_zero false) = d_of_N 1) as -> by (vm_compute; reflexivity).
    exact L1.
Qed.
