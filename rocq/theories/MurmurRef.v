(** The modelled murmurHash3 computes MurmurHash3_x86_32, and changes when one aligned word of its
    input changes. *)
From Coq Require Import List NArith ZArith Lia.
From Coq.Strings Require Import Byte.
From Verif Require Import Base BaseFacts Murmur MurmurFacts SpecMurmur.
Import ListNotations.
Local Open Scope N_scope.

Lemma lor_disjoint a b n : a < 2 ^ n -> N.lor (b * 2 ^ n) a = b * 2 ^ n + a.
Proof.
  intros H. assert (N.land (b * 2 ^ n) a = 0) as E.
  { apply N.bits_inj. intros i. rewrite N.land_spec, N.bits_0.
    destruct (N.ltb_spec i n).
    - rewrite N.mul_pow2_bits_low by assumption. reflexivity.
    - replace (N.testbit a i) with false; [apply Bool.andb_false_r|].
      destruct (N.eq_dec a 0) as [->|]; [symmetry; apply N.bits_0|].
      symmetry. apply N.bits_above_log2. apply N.log2_lt_pow2; [lia|].
      eapply N.lt_le_trans; [exact H|]. apply N.pow_le_mono_r; lia. }
  rewrite N.add_nocarry_lxor by exact E. symmetry. apply N.lxor_lor. exact E.
Qed.

Lemma lxor_disjoint a b n : a < 2 ^ n -> N.lxor (b * 2 ^ n) a = b * 2 ^ n + a.
Proof.
  intros H. rewrite <- lor_disjoint by exact H. apply N.lxor_lor.
  apply N.bits_inj. intros i. rewrite N.land_spec, N.bits_0.
  destruct (N.ltb_spec i n).
  - rewrite N.mul_pow2_bits_low by assumption. reflexivity.
  - replace (N.testbit a i) with false; [apply Bool.andb_false_r|].
    destruct (N.eq_dec a 0) as [->|]; [symmetry; apply N.bits_0|].
    symmetry. apply N.bits_above_log2. apply N.log2_lt_pow2; [lia|].
    eapply N.lt_le_trans; [exact H|]. apply N.pow_le_mono_r; lia.
Qed.

Lemma rotate_eq x r : x < two32 -> r <= 32 -> rotl32 x r = rotate x r.
Proof.
  intros Hx Hr. unfold rotl32, rotate, w32. rewrite N.shiftl_mul_pow2, N.shiftr_div_pow2.
  assert (two32 = 2 ^ r * 2 ^ (32 - r)) as E.
  { rewrite <- N.pow_add_r. replace (r + (32 - r)) with 32 by lia. reflexivity. }
  assert (2 ^ r <> 0) by (apply N.pow_nonzero; discriminate).
  assert (2 ^ (32 - r) <> 0) by (apply N.pow_nonzero; discriminate).
  change (2 ^ 32) with two32.
  assert ((x * 2 ^ r) mod two32 = (x mod 2 ^ (32 - r)) * 2 ^ r) as ->.
  { rewrite E, (N.mul_comm (2 ^ r) (2 ^ (32 - r))). apply N.mul_mod_distr_r; auto. }
  apply lor_disjoint. apply N.div_lt_upper_bound; auto. rewrite N.mul_comm, <- E. exact Hx.
Qed.

Lemma scramble_eq k : mix_k1 k = scramble k.
Proof.
  unfold mix_k1, scramble. rewrite rotate_eq by (try apply w32_lt; lia). reflexivity.
Qed.

Lemma absorb_eq h k : h < two32 -> body_step h k = absorb h k.
Proof.
  intros Hh. unfold body_step, absorb. rewrite rotate_eq, scramble_eq.
  - reflexivity.
  - apply xor32_lt; auto using mix_k1_lt.
  - lia.
Qed.

Lemma avalanche_eq h : fmix h = avalanche h.
Proof. unfold fmix, avalanche. cbv zeta. rewrite !N.shiftr_div_pow2. reflexivity. Qed.

Lemma word_at_S b0 b1 b2 b3 r i : word_at (b0 :: b1 :: b2 :: b3 :: r) (S i) = word_at r i.
Proof.
  unfold word_at, byte_at.
  replace (4 * S i)%nat with (S (S (S (S (4 * i))))) by lia. reflexivity.
Qed.

Lemma word_at_0 b0 b1 b2 b3 r : word_at (b0 :: b1 :: b2 :: b3 :: r) 0 = le_dec [b0; b1; b2; b3].
Proof.
  change (b2n b0 + 256 * b2n b1 + 65536 * b2n b2 + 16777216 * b2n b3 =
          b2n b0 + 256 * (b2n b1 + 256 * (b2n b2 + 256 * (b2n b3 + 256 * 0)))). lia.
Qed.

Lemma words_S b0 b1 b2 b3 r n :
  map (word_at (b0 :: b1 :: b2 :: b3 :: r)) (seq 1 n) = map (word_at r) (seq 0 n).
Proof. rewrite <- seq_shift, map_map. apply map_ext. intros. apply word_at_S. Qed.

Definition body_result (h : N) (bs : bytes) : N :=
  N.lxor (fold_left absorb (map (word_at bs) (seq 0 (Nat.div (length bs) 4))) h)
         (scramble (word_at bs (Nat.div (length bs) 4))).

Lemma xor_tail2 a b : N.lxor (N.shiftl (b2n b) 8) (b2n a) = b2n a + 256 * b2n b.
Proof.
  rewrite N.shiftl_mul_pow2, lxor_disjoint by apply b2n_lt.
  change (2 ^ 8) with 256. lia.
Qed.
Lemma xor_tail3 a b c :
  N.lxor (N.lxor (N.shiftl (b2n c) 16) (N.shiftl (b2n b) 8)) (b2n a)
  = b2n a + 256 * b2n b + 65536 * b2n c.
Proof.
  rewrite N.lxor_assoc, xor_tail2, N.shiftl_mul_pow2.
  pose proof (b2n_lt a). pose proof (b2n_lt b).
  rewrite lxor_disjoint; change (2 ^ 16) with 65536; lia.
Qed.

Lemma murmur_body_eq bs : forall h, h < two32 ->
  (let '(h', t) := murmur_body h bs in murmur_tail h' t) = body_result h bs.
Proof.
  remember (length bs) as n eqn:E. revert bs E.
  induction n as [n IH] using (well_founded_induction Nat.lt_wf_0).
  intros bs E h Hh. destruct bs as [|b0 [|b1 [|b2 [|b3 r]]]].
  - unfold body_result. simpl. rewrite N.lxor_0_r. reflexivity.
  - unfold body_result. simpl murmur_body. cbv beta iota. unfold murmur_tail.
    rewrite scramble_eq. simpl length. change (Nat.div 1 4) with 0%nat. simpl fold_left.
    f_equal. f_equal. unfold word_at, byte_at. simpl. fold (b2n b0). lia.
  - unfold body_result. simpl murmur_body. cbv beta iota. unfold murmur_tail.
    rewrite scramble_eq, xor_tail2. simpl length. change (Nat.div 2 4) with 0%nat.
    simpl fold_left.
    f_equal. f_equal. unfold word_at, byte_at. simpl nth. fold (b2n b0) (b2n b1). simpl (Byte.to_N x00). lia.
  - unfold body_result. simpl murmur_body. cbv beta iota. unfold murmur_tail.
    rewrite scramble_eq, xor_tail3. simpl length. change (Nat.div 3 4) with 0%nat.
    simpl fold_left.
    f_equal. f_equal. unfold word_at, byte_at. simpl nth. fold (b2n b0) (b2n b1) (b2n b2).
    simpl (Byte.to_N x00). lia.
  - change (murmur_body h (b0 :: b1 :: b2 :: b3 :: r))
      with (murmur_body (body_step h (le_dec [b0; b1; b2; b3])) r).
    rewrite (IH (length r)) ; [|subst n; simpl; lia|reflexivity|apply body_step_lt].
    unfold body_result.
    assert (Nat.div (length (b0 :: b1 :: b2 :: b3 :: r)) 4 = S (Nat.div (length r) 4)) as ->.
    { simpl length. replace (S (S (S (S (length r))))) with (length r + 1 * 4)%nat by lia.
      rewrite Nat.div_add by discriminate. apply Nat.add_1_r. }
    rewrite word_at_S. simpl seq. simpl map. rewrite words_S. simpl fold_left.
    rewrite absorb_eq by exact Hh. f_equal. f_equal. f_equal.
    symmetry. apply word_at_0.
Qed.

Lemma murmur_reference seed bs : seed < two32 -> murmur seed bs = murmur3_x86_32 seed bs.
Proof.
  intros Hs. unfold murmur, murmur3_x86_32. cbv zeta.
  pose proof (murmur_body_eq bs seed Hs) as E. unfold body_result in E.
  destruct (murmur_body seed bs) as [h t]. rewrite E, avalanche_eq. reflexivity.
Qed.

(** ** Changing one aligned word changes the hash *)
Lemma absorb_lt h k : absorb h k < two32.
Proof. apply N.mod_lt. discriminate. Qed.
Lemma scramble_lt k : scramble k < two32.
Proof. apply N.mod_lt. discriminate. Qed.

Lemma absorb_inj_k h x y :
  h < two32 -> x < two32 -> y < two32 -> absorb h x = absorb h y -> x = y.
Proof. intros Hh Hx Hy H. rewrite <- !absorb_eq in H by exact Hh. exact (body_step_inj h x y Hh Hx Hy H). Qed.

Lemma absorb_inj_h k x y : x < two32 -> y < two32 -> absorb x k = absorb y k -> x = y.
Proof.
  intros Hx Hy H. rewrite <- !absorb_eq in H by assumption. unfold body_step in H.
  set (a := rotl32 (N.lxor x (mix_k1 k)) 13) in *.
  set (b := rotl32 (N.lxor y (mix_k1 k)) 13) in *.
  assert (Ha : a < two32) by (apply rotl32_lt; [apply xor32_lt; auto using mix_k1_lt|lia]).
  assert (Hb : b < two32) by (apply rotl32_lt; [apply xor32_lt; auto using mix_k1_lt|lia]).
  assert (w32 (a * 5) = w32 (b * 5)) as E.
  { clearbody a b. unfold w32, two32 in *. Z.to_euclidean_division_equations. lia. }
  apply (mul_odd_inj 5 3435973837) in E; [|reflexivity|assumption|assumption].
  subst a b. apply rotl32_inj in E; try (apply xor32_lt; auto using mix_k1_lt); [|lia].
  apply lxor_cancel_r in E. exact E.
Qed.

Lemma byte_at_lt bs i : byte_at bs i < 256.
Proof. apply b2n_lt. Qed.
Lemma word_at_lt bs i : word_at bs i < two32.
Proof.
  unfold word_at, two32. pose proof (byte_at_lt bs (4 * i)).
  pose proof (byte_at_lt bs (4 * i + 1)). pose proof (byte_at_lt bs (4 * i + 2)).
  pose proof (byte_at_lt bs (4 * i + 3)). lia.
Qed.

Lemma fold_absorb_lt ks h : h < two32 -> fold_left absorb ks h < two32.
Proof. revert h. induction ks as [|k ks IH]; simpl; auto using absorb_lt. Qed.

Lemma fold_absorb_inj ks : forall h h', h < two32 -> h' < two32 ->
  fold_left absorb ks h = fold_left absorb ks h' -> h = h'.
Proof.
  induction ks as [|k ks IH]; simpl; intros h h' H H' E; auto.
  apply IH in E; auto using absorb_lt. apply absorb_inj_h in E; auto.
Qed.

Lemma fold_one_differs (f g : nat -> N) k n : (k < n)%nat ->
  (forall i, f i < two32) -> (forall i, g i < two32) ->
  (forall i, i <> k -> f i = g i) -> f k <> g k -> forall s h, h < two32 -> (s <= k < s + n)%nat ->
  fold_left absorb (map f (seq s n)) h <> fold_left absorb (map g (seq s n)) h.
Proof.
  intros _ Hf Hg Heq Hne. induction n as [|n IH]; simpl; intros s h Hh Hk; [lia|].
  destruct (Nat.eq_dec s k) as [->|Hs].
  - intros E. assert (map f (seq (S k) n) = map g (seq (S k) n)) as M.
    { apply map_ext_in. intros i Hi. apply in_seq in Hi. apply Heq. lia. }
    rewrite M in E. apply fold_absorb_inj in E; auto using absorb_lt.
    apply absorb_inj_k in E; auto.
  - rewrite (Heq s Hs). apply IH; [apply absorb_lt|lia].
Qed.

Lemma word_at_beyond bs i : (length bs <= 4 * i)%nat -> word_at bs i = 0.
Proof.
  intros H. unfold word_at, byte_at. rewrite !nth_overflow by lia. reflexivity.
Qed.

Lemma one_word_differs seed bs bs' k :
  seed < two32 -> length bs = length bs' ->
  (forall i, i <> k -> word_at bs i = word_at bs' i) -> word_at bs k <> word_at bs' k ->
  murmur3_x86_32 seed bs <> murmur3_x86_32 seed bs'.
Proof.
  intros Hs Hl Heq Hne E. unfold murmur3_x86_32 in E. cbv zeta in E.
  rewrite <- !avalanche_eq in E. rewrite <- Hl in E.
  set (n := Nat.div (length bs) 4) in *.
  apply fmix_inj in E;
    try (apply xor32_lt; [apply xor32_lt; [apply fold_absorb_lt; auto|apply scramble_lt]
                         |apply N.mod_lt; discriminate]).
  apply lxor_cancel_r in E.
  destruct (Nat.lt_trichotomy k n) as [Hk|[Hk|Hk]].
  - rewrite (Heq n) in E by lia. apply lxor_cancel_r in E. revert E.
    apply (fold_one_differs _ _ k n); auto using word_at_lt; lia.
  - subst k. assert (map (word_at bs) (seq 0 n) = map (word_at bs') (seq 0 n)) as M.
    { apply map_ext_in. intros i Hi. apply in_seq in Hi. apply Heq. lia. }
    rewrite M in E. apply lxor_cancel_l in E. rewrite <- !scramble_eq in E.
    apply mix_k1_inj in E; auto using word_at_lt.
  - apply Hne. assert (length bs <= 4 * k)%nat as L.
    { pose proof (Nat.div_mod (length bs) 4). pose proof (Nat.mod_upper_bound (length bs) 4). lia. }
    rewrite !word_at_beyond by lia. reflexivity.
Qed.

(** two buffers that differ in their last byte only *)
Lemma last_byte_differs seed a b b' :
  seed < two32 -> b <> b' -> murmur3_x86_32 seed (a ++ [b]) <> murmur3_x86_32 seed (a ++ [b']).
Proof.
  intros Hs Hb.
  pose proof (Nat.div_mod (length a) 4 ltac:(discriminate)) as Dm.
  pose proof (Nat.mod_upper_bound (length a) 4 ltac:(discriminate)) as Dl.
  set (k := Nat.div (length a) 4) in *. set (r := Nat.modulo (length a) 4) in *.
  assert (byte_at (a ++ [b]) (4 * k + r) <> byte_at (a ++ [b']) (4 * k + r)) as Hd.
  { unfold byte_at. rewrite !app_nth2 by lia. rewrite <- Dm, Nat.sub_diag. simpl.
    intros E. apply Hb, b2n_inj, E. }
  assert (forall i, i <> (4 * k + r)%nat -> byte_at (a ++ [b]) i = byte_at (a ++ [b']) i) as Hs'.
  { intros i Hi. unfold byte_at. destruct (Nat.lt_ge_cases i (length a)).
    - rewrite !app_nth1 by assumption. reflexivity.
    - rewrite !nth_overflow by (rewrite app_length; simpl; lia). reflexivity. }
  apply (one_word_differs seed _ _ k); auto.
  - rewrite !app_length. reflexivity.
  - intros i Hi. unfold word_at. rewrite !Hs' by lia. reflexivity.
  - unfold word_at. clearbody k r.
    destruct r as [|[|[|[|r]]]]; try lia; rewrite ?Nat.add_0_r in Hd.
    + rewrite (Hs' (4 * k + 1)%nat), (Hs' (4 * k + 2)%nat), (Hs' (4 * k + 3)%nat) by lia. lia.
    + rewrite (Hs' (4 * k)%nat), (Hs' (4 * k + 2)%nat), (Hs' (4 * k + 3)%nat) by lia. lia.
    + rewrite (Hs' (4 * k)%nat), (Hs' (4 * k + 1)%nat), (Hs' (4 * k + 3)%nat) by lia. lia.
    + rewrite (Hs' (4 * k)%nat), (Hs' (4 * k + 1)%nat), (Hs' (4 * k + 2)%nat) by lia. lia.
Qed.
